(** * minty-wasm: the JavaScript package (src/lib.rs and src-ts/index.ts).

    Assumed of wasm-bindgen and js-sys: a string argument is re-encoded as UTF-8, where
    surrogates without partner are replaced; a number passed as [i32] is converted as
    by the operator [| 0]; [Option] arguments are [None] for [undefined].  A property
    that is not set is [None] ([undefined]).  The promise that [async] functions
    return is not modelled; [throw] is [inr]. *)

From Coq Require Import ZArith.
From Verif Require Import Base Doc Config Ast Errors Transform Convert Display.

(** ** JavaScript values *)

(** A string is a sequence of UTF-16 code units. *)
Notation js_str := (list N) (only parsing).
(* the ECMAScript language; used at the boundary of minty-wasm/src/lib.rs *)
Definition surrogate_high (c : N) : bool := (55296 <=? c) && (c <=? 56319).
(* the ECMAScript language; used at the boundary of minty-wasm/src/lib.rs *)
Definition surrogate_low (c : N) : bool := (56320 <=? c) && (c <=? 57343).
(** A Rust string as JavaScript string, and back (wasm-bindgen) *)
Definition to_units (c : chr) : js_str :=
  if c <? 65536 then [c] else [55296 + (c - 65536) / 1024; 56320 + (c - 65536) mod 1024].
(* the ECMAScript language; used at the boundary of minty-wasm/src/lib.rs *)
Definition to_js (s : str) : js_str := flat_map to_units s.
(* the ECMAScript language; used at the boundary of minty-wasm/src/lib.rs *)
Fixpoint from_js (s : js_str) : str :=
  match s with
  | [] => []
  | h :: rest =>
      if surrogate_high h then
        match rest with
        | l :: rest' => if surrogate_low l then (65536 + (h - 55296) * 1024 + (l - 56320)) :: from_js rest' else 65533 :: from_js rest
        | [] => [65533]
        end
      else if surrogate_low h then 65533 :: from_js rest
      else h :: from_js rest
  end.

(** A number: a fraction, or no finite number. *)
(* the ECMAScript language; used at the boundary of minty-wasm/src/lib.rs *)
Inductive js_number := Finite (num : Z) (den : positive) | NotFinite.
(** [n | 0] *)
(* the ECMAScript language; used at the boundary of minty-wasm/src/lib.rs *)
Definition to_i32 (n : js_number) : Z :=
  match n with
  | Finite num den =>
      let m := (Z.quot num (Zpos den) mod 4294967296)%Z in
      if (m <? 2147483648)%Z then m else (m - 4294967296)%Z
  | NotFinite => 0%Z
  end.

(** Values as far as lib.rs looks at them: [JObject get], where [get key] is the value
    of a property or what its getter throws; [JPrimitive truthy] is any other value that
    is neither string nor object. *)
(* the ECMAScript language; used at the boundary of minty-wasm/src/lib.rs *)
Inductive js_value :=
| JPrimitive (truthy : bool)
| JString (s : js_str)
| JObject (get : str -> js_value + js_value).
(** [JsValue::is_truthy], [is_object], [as_string] *)
(* the ECMAScript language; used at the boundary of minty-wasm/src/lib.rs *)
Definition is_truthy (v : js_value) : bool :=
  match v with JPrimitive b => b | JString s => negb (is_nil s) | JObject _ => true end.
(* the ECMAScript language; used at the boundary of minty-wasm/src/lib.rs *)
Definition as_string (v : js_value) : option str :=
  match v with JString s => Some (from_js s) | _ => None end.

(** ** minty-wasm/src/lib.rs *)

(** lib.rs:30-39 [process_error], 45-80: an entry of [syntaxErrors] *)
Record js_syntax_error := mkJSE {
  je_start : N;
  je_end : N;
  je_message : js_str;
  je_actual : option js_str;
  je_expected : option (list js_str);
}.
(** An error object: the one made by [to_js_error] (whose message is not set by
    lib.rs), an [Error], or what a getter of the options threw. *)
(* lib.rs:40-110 *)
Inductive js_error :=
| JErrors (message : option js_str) (l : list js_syntax_error)
| JError (message : js_str)
| JThrown (v : js_value).
(** index.ts:97-114 [ConversionResult] *)
Record js_result := mkJR { jr_success : bool; jr_output : option js_str; jr_error : option js_error }.

Section Wasm.
Variable parse : str -> a_content + parse_error.
Variable slice : str -> lrange -> str.
Variable debug : str -> str.
(** [Display] of gramma's [ExpectedParse] *)
Variable show_expected : str -> str.

(* [PartialEq] of gramma's [LocationRange], lib.rs:57 *)
Definition range_eqb (a b : lrange) : bool := (r_start a =? r_start b) && (r_end a =? r_end b).

(** lib.rs:45-80 *)
Definition to_js_syntax_error (src : str) (e : syntax_error) : js_syntax_error :=
  let r := sy_range e in
  let message := to_js (display_with_src debug src false e) in
  match sy_kind e with
  | KParseFailed expected =>
      mkJSE (r_start r) (r_end r) message
        (if range_eqb r invalid_range then None
         else Some (if blen src <=? r_start r then L "<end-of-file>" else to_js (slice src r)))
        (Some (map (fun x => to_js (show_expected x)) expected))
  | _ => mkJSE (r_start r) (r_end r) message None None
  end.
(** lib.rs:11-109 [to_js_error]; semantic errors are listed as [syntaxErrors] too. *)
Definition to_js_error (src : str) (e : convert_error) : js_error :=
  match e with
  | CESyntax l => JErrors None (map (to_js_syntax_error src) l)
  | CESemantic l => JErrors None (map (fun e => mkJSE (r_start (se_range e)) (r_end (se_range e)) (L "Unknown") None None) l)
  | CEUnknown => JError (to_js (display_convert_error debug src CEUnknown))
  end.

(** lib.rs:111-126 [get_special_tags] *)
Definition get_special_tags (cfg : config) (v : js_value) : config + js_value :=
  match v with
  | JObject get =>
      let field (key : str) (k : option str -> config + js_value) :=
        match get key with inl x => k (as_string x) | inr e => inr e end in
      field (L "emphasis") (fun emphasis =>
      field (L "strong") (fun strong =>
      field (L "underline") (fun underline =>
      field (L "strike") (fun strike =>
      field (L "quote") (fun quote =>
      field (L "code") (fun code =>
      field (L "codeBlockContainer") (fun container =>
      inl (mkConfig (c_indent cfg) (c_xml cfg) (mkSpecial emphasis strong underline strike quote code container)
             (c_complete_page cfg) (c_lang cfg) (c_metadata cfg) (c_fail_fast cfg)))))))))
  | _ => inl cfg
  end.

(** lib.rs:128-162 [convert_inner]: the configuration *)
Definition wasm_config (xml : option bool) (indent : Z) (complete_page : option bool) (special metadata : js_value)
    (fail_fast : option bool) : config + js_value :=
  match get_special_tags (mkConfig None xml special_default complete_page None None fail_fast) special with
  | inr e => inr e
  | inl cfg =>
      match (if is_truthy metadata
             then match metadata with
                  | JObject get => match get (L "elements") with inl v => inl (Some (is_truthy v)) | inr e => inr e end
                  | _ => inl (Some false)
                  end
             else inl None) with
      | inr e => inr e
      | inl m =>
          let ind := if (0 <=? indent)%Z then Some (repeat 32 (Z.to_nat indent)) else None in
          inl (mkConfig ind (c_xml cfg) (c_special cfg) (c_complete_page cfg) (c_lang cfg) m (c_fail_fast cfg))
      end
  end.

(** lib.rs:128-194 [convert_inner], [convert]; the outer [None]: out of fuel *)
Definition wasm_convert (source : js_str) (xml : option bool) (indent : js_number) (complete_page : option bool)
    (special metadata : js_value) (fail_fast : option bool) : option js_result :=
  let src := from_js source in
  match wasm_config xml (to_i32 indent) complete_page special metadata fail_fast with
  | inr e => Some (mkJR false None (Some (JThrown e)))
  | inl cfg =>
      match convert_forgiving parse slice src cfg with
      | Some (inl out) => Some (mkJR true (Some (to_js out)) None)
      | Some (inr (out, e)) => Some (mkJR false (opt_map to_js out) (Some (to_js_error src e)))
      | None => None
      end
  end.

(** ** minty-wasm/src-ts/index.ts *)

(** index.ts:51-95 [MintymlConverterOptions] as kept by the constructor (123-130); [None] is
    [null]. *)
Record js_options := mkJO {
  jo_xml : option bool;
  jo_indent : option js_number;
  jo_complete_page : option bool;
  jo_special_tags : js_value;
  jo_metadata : js_value;
  jo_fail_fast : option bool;
}.

(** index.ts:157-169: the message of an entry, where a property that is not set reads
    [undefined] *)
Definition or_undefined (o : option js_str) : js_str := match o with Some s => s | None => L "undefined" end.
(* index.ts:157-169 (as above) *)
Definition unexpected (e : js_syntax_error) : js_str :=
  L "Unexpected '" ++ or_undefined (je_actual e) ++ L "'" ++
  match je_expected e with Some l => L "; expected " ++ join (L " | ") l | None => [] end.

(** index.ts:142-172 [convertForgiving].  An error that a getter threw is passed on (its
    [syntaxErrors] are not looked at here). *)
Definition js_convert_forgiving (o : js_options) (source : js_str) : option js_result :=
  match wasm_convert source (jo_xml o) (match jo_indent o with Some n => n | None => Finite (-1) 1 end)
          (jo_complete_page o) (jo_special_tags o) (jo_metadata o) (jo_fail_fast o) with
  | Some (mkJR s out (Some (JErrors _ l))) => Some (mkJR s out (Some (JErrors (Some (join [10] (map unexpected l))) l)))
  | r => r
  end.

(** index.ts:132-140 [convert]; [inr]: thrown *)
Definition js_convert (o : js_options) (source : js_str) : option (option js_str + option js_error) :=
  match js_convert_forgiving o source with
  | Some r => Some (if jr_success r then inl (jr_output r) else inr (jr_error r))
  | None => None
  end.
End Wasm.

(** * What users of the JavaScript package ask for and may expect (C48, C49). *)

From Coq Require Import ZArith.
From Verif Require Import Base Doc Config Errors SpecErrors Wasm.

(** ** Options, as index.ts documents them (51-95) *)

(** "the given number of spaces in each indentation level. If null, the converted HTML will
    not be pretty-printed" *)
Inductive wants_indent : option js_number -> option str -> Prop :=
| WIndentNone : wants_indent None None
| WIndent : forall n : nat, (Z.of_nat n < 2147483648)%Z -> wants_indent (Some (Finite (Z.of_nat n) 1)) (Some (repeat 32 n)).

(** A property that is a string, or null or undefined *)
Inductive wants_name : js_value + js_value -> option str -> Prop :=
| WNameNone : wants_name (inl (JPrimitive false)) None
| WName : forall s, wants_name (inl (JString s)) (Some (from_js s)).
Inductive wants_tags : js_value -> special_tags -> Prop :=
| WTagsNone : wants_tags (JPrimitive false) (mkSpecial None None None None None None None)
| WTags : forall get t,
    wants_name (get (L "emphasis")) (st_emphasis t) -> wants_name (get (L "strong")) (st_strong t) ->
    wants_name (get (L "underline")) (st_underline t) -> wants_name (get (L "strike")) (st_strike t) ->
    wants_name (get (L "quote")) (st_quote t) -> wants_name (get (L "code")) (st_code t) ->
    wants_name (get (L "codeBlockContainer")) (st_code_block_container t) -> wants_tags (JObject get) t.

(** true, false, null, or an object that may ask for elements *)
Inductive wants_metadata : js_value -> option bool -> Prop :=
| WMetaNone : wants_metadata (JPrimitive false) None
| WMetaTrue : wants_metadata (JPrimitive true) (Some false)
| WMeta : forall get b, get (L "elements") = inl (JPrimitive b) -> wants_metadata (JObject get) (Some b).

(** The configuration of the library that the options ask for *)
Definition requests (o : js_options) (cfg : config) : Prop :=
  wants_indent (jo_indent o) (c_indent cfg) /\ wants_tags (jo_special_tags o) (c_special cfg) /\
  wants_metadata (jo_metadata o) (c_metadata cfg) /\
  c_xml cfg = jo_xml o /\ c_complete_page cfg = jo_complete_page o /\ c_fail_fast cfg = jo_fail_fast o /\ c_lang cfg = None.

(** ** Strings *)

(** Strings of JavaScript are sequences of 16 bit units: a character below 65536 is a unit, and
    any other is two; a unit that is half of such a pair, but without the other half, is read
    as the replacement character. *)
Definition first_half (u : N) : Prop := 55296 <= u <= 56319.
Definition second_half (u : N) : Prop := 56320 <= u <= 57343.
Inductive Utf16 : list N -> str -> Prop :=
| UNil : Utf16 [] []
| UUnit : forall c s t, c < 65536 -> ~ first_half c -> ~ second_half c -> Utf16 s t -> Utf16 (c :: s) (c :: t)
| UPair : forall c a b s t, 65536 <= c <= 1114111 -> first_half a -> second_half b -> c - 65536 = (a - 55296) * 1024 + (b - 56320) ->
    Utf16 s t -> Utf16 (a :: b :: s) (c :: t)
| UFirst : forall a s t, first_half a -> (forall b s', s = b :: s' -> ~ second_half b) -> Utf16 s t -> Utf16 (a :: s) (65533 :: t)
| USecond : forall b s t, second_half b -> Utf16 s t -> Utf16 (b :: s) (65533 :: t).

(** [s.slice(a, b)] for [a <= b] *)
Definition js_slice (s : list N) (a b : N) : list N := firstn (N.to_nat (b - a)) (skipn (N.to_nat a) s).

(** The entries that an error lists *)
Definition entries (r : js_result) : list js_syntax_error :=
  match jr_error r with Some (JErrors _ l) => l | _ => [] end.
Definition error_message (r : js_result) : option (list N) :=
  match jr_error r with Some (JErrors m _) => m | Some (JError m) => Some m | _ => None end.

(** An entry says where in the source (in bytes) the library found the error [e], and
    carries its message (C29). *)
Definition entry_for (debug : str -> str) (src : str) (e : syntax_error) (j : js_syntax_error) : Prop :=
  exists before m after, src = before ++ m ++ after /\
    je_start j = blen before /\ je_end j = blen before + blen m /\ je_message j = to_js (message debug src e m).

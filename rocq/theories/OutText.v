(** * Text-level parts of mintyml/src/output: escaping, comments, multi-line trimming. *)

From Verif Require Import Base Escape.

(** output/mod.rs:51-54 [EscapeKind] together with 73-78 / 96-101 [write_escape]:
    the text written for the character. *)
Inductive escape_kind := Number (n : N) | Special (s : str).
(* output/mod.rs:51-54 (as above) *)
Definition write_escape_kind (k : escape_kind) : str :=
  match k with
  | Number n => L "&#" ++ dec n ++ L ";"
  | Special s => s
  end.

(* the ranges of output/mod.rs:67, 90 *)
Definition is_control (c : chr) : bool := (c <=? 0x1f) || ((0x7f <=? c) && (c <=? 0x9f)).

(** output/mod.rs:59-71 [HtmlEscape<QUOTE>::get_escape] *)
Definition html_get_escape (quote : bool) (c : chr) : option escape_kind :=
  if c =? 38 then Some (Special (L "&amp;"))
  else if c =? 60 then Some (Special (L "&lt;"))
  else if c =? 62 then Some (Special (L "&gt;"))
  else if c =? 9 then Some (Special (L "&Tab;"))
  else if c =? 10 then Some (Special (L "&NewLine;"))
  else if quote && (c =? 34) then Some (Special (L "&quot;"))
  else if is_control c then Some (Number c)
  else None.

(** output/mod.rs:84-94 [XmlEscape<QUOTE>::get_escape] *)
Definition xml_get_escape (quote : bool) (c : chr) : option escape_kind :=
  if c =? 38 then Some (Special (L "&amp;"))
  else if c =? 60 then Some (Special (L "&lt;"))
  else if c =? 62 then Some (Special (L "&gt;"))
  else if quote && (c =? 34) then Some (Special (L "&quot;"))
  else if is_control c then Some (Number c)
  else None.

(* the choice of output/mod.rs:179-203 *)
Definition get_escape (xml quote : bool) (c : chr) : option escape_kind :=
  if xml then xml_get_escape quote c else html_get_escape quote c.

(** output/mod.rs:144-149 [EscapeWriter::write_char] *)
Definition esc_char (xml quote : bool) (c : chr) : str :=
  match get_escape xml quote c with
  | Some k => write_escape_kind k
  | None => [c]
  end.

(** output/mod.rs:122-142 [EscapeWriter::write_str]: the slices between escaped
    characters are written unchanged ([pending] is the slice [last..idx] so far,
    reversed). *)
Fixpoint esc_str_loop (xml quote : bool) (pending : str) (s : str) : str :=
  match s with
  | [] => rev pending
  | c :: s' =>
      match get_escape xml quote c with
      | Some k => rev pending ++ write_escape_kind k ++ esc_str_loop xml quote [] s'
      | None => esc_str_loop xml quote (c :: pending) s'
      end
  end.
(* output/mod.rs:122-142 (as above) *)
Definition esc_str (xml quote : bool) (s : str) : str := esc_str_loop xml quote [] s.

(** output/mod.rs:152-157 [write_unescaped] into an [EscapeWriter]
    (179-203 [write_escape_unescape]): text written before the first error, and
    whether there was none. *)
Fixpoint write_parts_esc (xml quote : bool) (items : list (part + lrange)) : str * bool :=
  match items with
  | [] => ([], true)
  | inl (PSlice s) :: rest =>
      let '(t, ok) := write_parts_esc xml quote rest in (esc_str xml quote s ++ t, ok)
  | inl (PChar c) :: rest =>
      let '(t, ok) := write_parts_esc xml quote rest in (esc_char xml quote c ++ t, ok)
  | inr _ :: _ => ([], false)
  end.
(* output/mod.rs:152-157 (as above) *)
Definition escape_unescape (xml quote : bool) (s : str) : str * bool :=
  write_parts_esc xml quote (unescape_parts 0 s).

(** [slice.find("--")] with [split_at(i + 1)] (output/mod.rs:232-236): [chunk]
    ends with the first hyphen of the first pair, [rest] begins with the second. *)
Fixpoint split_dashes (s : str) : option (str * str) :=
  match s with
  | [] => None
  | c :: s' =>
      if starts_with (L "--") s then Some ([c], s')
      else match split_dashes s' with
           | Some (chunk, rest) => Some (c :: chunk, rest)
           | None => None
           end
  end.

(** output/mod.rs:232-245: the loop and the final piece.  Every iteration shortens
    the text, so its length is enough fuel (lemma [comment_loop_fuel]). *)
Fixpoint comment_loop (fuel : nat) (s : str) : str :=
  match fuel with
  | O => []
  | S f =>
      match split_dashes s with
      | Some (chunk, rest) => chunk ++ 32 :: comment_loop f rest
      | None => s ++ (if ends_with_char 45 s then [32] else [])
      end
  end.

(** output/mod.rs:222-247 [write_comment_body] *)
Definition comment_body (s : str) : str :=
  (if starts_with (L ">") s || starts_with (L "->") s then [32] else [])
  ++ comment_loop (S (length s)) s.

(** [last.find(|c| !c.is_whitespace()).and_then(|len| last.get(..len)).unwrap_or(last)]
    (output/utils.rs:5-8): the leading white space of [last]. *)
Fixpoint leading_ws (s : str) : str :=
  match s with
  | [] => []
  | c :: s' => if is_whitespace c then c :: leading_ws s' else []
  end.

(** output/utils.rs:1-18 [trim_multiline]: the pieces yielded. *)
Definition trim_multiline (s : str) : list str :=
  match split_once 10 s with
  | None => []
  | Some (_, s1) =>
      match rsplit_once 10 s1 with
      | None => []
      | Some (s2, last) =>
          let prefix := leading_ws last in
          map (fun l => opt_or (strip_prefix prefix l) l)
              (split_inclusive 10 (strip_suffix_char 13 s2))
      end
  end.

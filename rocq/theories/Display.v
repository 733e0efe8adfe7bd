(** * mintyml/src/error.rs: how errors are written.

    [debug s] is Rust's [{:?}] of a string (which depends on Unicode tables); it is a
    parameter. *)

From Verif Require Import Base Doc Errors SpecSource.

(** mintyml/src/utils.rs:144-149 [join_display] *)
Fixpoint join (sep : str) (l : list str) : str :=
  match l with
  | [] => []
  | [x] => x
  | x :: l' => x ++ sep ++ join sep l'
  end.

(** error.rs:211-241 [display_conjunction_list]: the loop, where [prev] is the number
    of items before. *)
Fixpoint conjunction_items (conj : str) (prev : nat) (l : list str) : str :=
  match l with
  | [] => []
  | item :: l' =>
      (match prev, is_nil l' with
       | O, _ => item
       | 1%nat, true => conj ++ L " " ++ item
       | _, true => L ", " ++ conj ++ L " " ++ item
       | _, false => L ", " ++ item
       end) ++ conjunction_items conj (S prev) l'
  end.
(* error.rs:211-241 (as above) *)
Definition display_conjunction_list (conj : str) (l : list str) : str :=
  if is_nil l then L "<none>" else conjunction_items conj 0 l.

(** error.rs:163-193 [ItemType], Display *)
Definition show_item (i : item_type) : str :=
  match i with
  | ITSelector => L "selector"
  | ITElement => L "element"
  | ITParagraph => L "paragraph"
  | ITText => L "text"
  | ITInlineElement => L "inline element"
  | ITMultiline => L "multiline text"
  | ITComment => L "comment"
  | ITSpace => L "space"
  | ITUnknown => L "<unknown>"
  end.

(** error.rs:243-286 [MisplacedKind], Display *)
Definition show_misplaced (k : misplaced_kind) : str :=
  let list_ l := display_conjunction_list (L "or") (map show_item l) in
  match k with
  | MustPrecede t post => show_item t ++ L " must be followed by " ++ list_ post
  | MustNotPrecede t post => show_item t ++ L " must not be followed by " ++ list_ post
  | MustFollow pre t => show_item t ++ L " must follow " ++ list_ pre
  | MustNotFollow pre t => show_item t ++ L " must not follow " ++ list_ pre
  end.

(** [str::get(start..end)] *)
(* std; used in error.rs:323-388 *)
Definition str_get (src : str) (r : lrange) : option str :=
  let m := source_slice src r in
  if (blen (take_bytes (r_start r) src) =? r_start r) && (r_start r + blen m =? r_end r) then Some m else None.

Section Display.
Variable debug : str -> str.

(** error.rs:76-85: the text quoted in a message *)
Definition sample (src : str) (r : lrange) : str :=
  if blen src <=? r_start r then L "end-of-file"
  else debug (match str_get src r with Some m => m | None => [] end).

(** error.rs:49-66 (the kinds without a case of their own: the derived Display of
    [SyntaxErrorKind], 89-116) *)
Definition describe (src : str) (e : syntax_error) : str :=
  match sy_kind e with
  | KInvalidEscape => L "Invalid escape sequence " ++ sample src (sy_range e) ++ L "."
  | KParseFailed expected => L "Unexpected " ++ sample src (sy_range e) ++ L ". Expected " ++ join (L " | ") expected
  | KUnclosed _ => L "Unclosed delimiter " ++ sample src (sy_range e)
  | KUnknown => L "Unknown"
  | KInvalidItem i => L "Invalid " ++ show_item i
  | KMisplaced k => show_misplaced k
  end.

(** error.rs:41-87 [SyntaxError::display_with_src] *)
Definition display_with_src (src : str) (show_location : bool) (e : syntax_error) : str :=
  describe src e ++
  if show_location then
    L " at character " ++ dec (r_start (sy_range e)) ++
    (if r_start (sy_range e) <? r_end (sy_range e) then L "..<" ++ dec (r_end (sy_range e)) else [])
  else [].

(** error.rs:287-312 [ConvertError], Display, with 375-386 [SemanticError::display_with_src] *)
Definition display_convert_error (src : str) (e : convert_error) : str :=
  match e with
  | CESyntax l => join (L "; ") (map (display_with_src src false) l)
  | CESemantic l => join (L "; ") (map (fun _ => L "Unknown") l)
  | CEUnknown => L "Unknown"
  end.
End Display.

(** * The namespace of metadata (C68).

    docs/general/metadata.md: all root elements declare the prefix [mty:], so that a reader
    of XML knows it wherever it is used. *)

From Verif Require Import Base SpecMarkup SpecHtml.

Definition mty_name (n : str) : bool := is_some (strip_prefix (L "mty:") n).
Definition uses_mty (name : str) (attrs : list (str * option str)) : bool :=
  mty_name name || existsb (fun a => mty_name (fst a)) attrs.
Definition declares_mty (attrs : list (str * option str)) : bool :=
  existsb (fun a => str_eqb (fst a) (L "xmlns:mty") &&
                    match snd a with Some v => str_eqb v (L "tag:youngspe.github.io,2024:mintyml/metadata") | None => false end) attrs.

(** Reading XML with the open elements; of each, is the prefix known in it? *)
Fixpoint mty_known (open : list bool) (l : list item) : bool :=
  match l with
  | [] => true
  | IOpen name attrs self_close :: l' =>
      let known := match open with k :: _ => k | [] => false end || declares_mty attrs in
      (known || negb (uses_mty name attrs)) && mty_known (if self_close then open else known :: open) l'
  | IClose _ :: l' => mty_known (match open with _ :: o => o | [] => [] end) l'
  | _ :: l' => mty_known open l'
  end.

(** The attributes of the elements that are in no other. *)
Fixpoint roots (depth : nat) (l : list item) : list (list (str * option str)) :=
  match l with
  | [] => []
  | IOpen name attrs self_close :: l' =>
      match depth with O => [attrs] | S _ => [] end ++ roots (if self_close then depth else S depth) l'
  | IClose _ :: l' => roots (pred depth) l'
  | _ :: l' => roots depth l'
  end.

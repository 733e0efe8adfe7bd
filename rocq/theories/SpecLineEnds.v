(** * Documents that mean the same with any line ends (for C56): nothing that is kept as it
      is, or as the value of an attribute, contains a line feed. *)

From Verif Require Import Base SpecInfer SpecTree SpecMarkup SpecWrite.

Definition steady_text (t : str) : Prop := ~ In 10 t.
Definition steady_attr (a : str * option str) : Prop := steady_text match snd a with Some v => v | None => [] end.
Definition steady_label (l : label) : Prop := Forall steady_attr (snd l).
Fixpoint steady (u : written) : Prop :=
  match u with
  | WElt _ l kids => steady_label l /\ (fix all l := match l with [] => True | x :: l' => steady x /\ all l' end) kids
  | WVerbatim t | WMarkup t | WCode t | WComment t => steady_text t
  | WLines _ _ => False   (* texts of several lines *)
  | WText _ | WGap _ | WBreak => True
  end.

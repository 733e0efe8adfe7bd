(** * A text with metadata attributes, and the same text without (for C24). *)

From Verif Require Import Base SpecTransform.

(** An attribute as it stands in a tag *)
Definition attr_text (s : str) : Prop :=
  exists n, s = L " " ++ n \/ exists v, ~ In 34 v /\ s = L " " ++ n ++ L "=""" ++ v ++ L """".
Definition meta_text (s : str) : Prop := exists n v, meta_value n v /\ s = L " " ++ n ++ L "=""" ++ v ++ L """".

(** The second text is the first, with metadata attributes in some of its tags: after
    attributes [x] and before attributes [y]. *)
Inductive Inserted : str -> str -> Prop :=
| InNil : Inserted [] []
| InChar : forall c a b, Inserted a b -> Inserted (c :: a) (c :: b)
| InTag : forall t x m y e a b,
    Forall attr_text x -> Forall meta_text m -> Forall attr_text y -> In e [L ">"; L "/>"] -> Inserted a b ->
    Inserted (L "<" ++ t ++ concat x ++ concat y ++ e ++ a) (L "<" ++ t ++ concat x ++ concat m ++ concat y ++ e ++ b).

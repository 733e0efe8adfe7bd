(** * Closing brackets that close nothing (for C62). *)

From Verif Require Import Base SpecWrite.

(** What closes a block, an inline element, and the elements without a selector *)
Definition closer (c : str) : Prop := c = L "}" \/ c = L ")>" \/ exists o m, In (o, c, m) special.

(** * Sources that differ in the indentation of their lines only (for C63). *)

From Verif Require Import Base SpecWrite SpecPlain.

(** Line by line the same, but for the white space before *)
Definition same_but_indented (s s' : str) : Prop := map drop_white (lines_of s) = map drop_white (lines_of s').

(** * Source positions: byte offsets into a string, character boundaries, slices. *)

From Verif Require Import Base Doc.

(** [p] is the byte offset of the start of a character, or of the end. *)
Definition boundary (src : str) (p : N) : Prop := exists a b, src = a ++ b /\ blen a = p.

(** A range that can be sliced: both ends on boundaries, in order. *)
Definition sliceable (src : str) (r : lrange) : Prop :=
  boundary src (r_start r) /\ boundary src (r_end r) /\ r_start r <= r_end r.

(** [m] is the text of [src] at [r]. *)
Definition SliceOf (src : str) (r : lrange) (m : str) : Prop :=
  exists a b, src = a ++ m ++ b /\ blen a = r_start r /\ blen a + blen m = r_end r.

(** The text at a range, computed. *)
Fixpoint skip_bytes (n : N) (s : str) : str :=
  match s with
  | [] => []
  | c :: s' => if n =? 0 then s else skip_bytes (n - utf8_len c) s'
  end.
Fixpoint take_bytes (n : N) (s : str) : str :=
  match s with
  | [] => []
  | c :: s' => if n =? 0 then [] else c :: take_bytes (n - utf8_len c) s'
  end.
Definition source_slice (src : str) (r : lrange) : str :=
  take_bytes (r_end r - r_start r) (skip_bytes (r_start r) src).

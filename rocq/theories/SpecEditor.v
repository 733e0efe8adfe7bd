(** * Rows and columns (C75). *)

From Verif Require Import Base.

(** The line ends that an editor knows, and lines without line ends *)
Definition line_ends : list (list N) := [[10]; [13]; [13; 10]].
Definition one_line (l : list N) : Prop := ~ In 10 l /\ ~ In 13 l.
(** A text of the lines [l], [rest], with the line end [nl] between them *)
Definition text_of (nl : list N) (l : list N) (rest : list (list N)) : list N := l ++ flat_map (fun x => nl ++ x) rest.
(** Line ends are the same everywhere, as in every text that the editor holds. *)
Definition same_line_ends (text : list N) : Prop :=
  exists nl l rest, In nl line_ends /\ Forall one_line (l :: rest) /\ text = text_of nl l rest.

(** Before position [k] of the text there are [row] line ends, and [column] units behind the last of them. *)
Definition row_column (text : list N) (k : nat) (rc : N * N) : Prop :=
  exists nl before line after, In nl line_ends /\ Forall one_line (before ++ line :: after) /\
    text = flat_map (fun x => x ++ nl) before ++ text_of nl line after /\
    fst rc = N.of_nat (length before) /\
    k = (length (flat_map (fun x => x ++ nl) before) + N.to_nat (snd rc))%nat /\
    (after <> [] -> snd rc < N.of_nat (length line + length nl)) /\ (after = [] -> snd rc <= N.of_nat (length line)).

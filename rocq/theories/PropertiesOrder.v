(** * In which order, and how often, the faults of a source are reported: C72. *)

From Verif Require Import Base Doc Config Ast Errors Escape Convert Parser Grammar SpecBuild SpecSource SpecErrors SpecFaults SpecPlaces
  P_Marks P_Faults P_Accept P_Order PropertiesParser.
From Coq Require Import Lia.

(** ** C72: errors are listed in the order of the source, each fault once.

    For the errors of single items ([of_item], SpecFaults.v: delimiters that are not closed, parts of
    selectors that are none, malformed escapes) this holds for every source and configuration: they
    are some of the [faults] of the source, one after the other, none of them twice. *)
Theorem C72_items : forall alnum parse src cfg c l, reads alnum parse src -> parse src = inl c ->
  convert parse source_slice src cfg = Some (inr (CESyntax l)) ->
  Subseq (filter of_item l) (faults escape_errors (source_slice src) c) /\
  one_after_another 0 (blen src) (map sy_range (filter of_item l)) /\ NoDup (filter of_item l).
Proof.
  intros alnum parse src cfg c l HR Hc HE. destruct (items_ordered alnum parse src cfg c l HR Hc HE) as [H1 H2].
  split; [exact H1|]. split; [apply H2|]. eapply ord_nodup. exact H2.
Qed.
Print Assumptions C72_items.

(** If the items of each line may follow each other as they do, and nothing is dropped (as for C47),
    these are all errors. *)
Theorem C72_order_partial : forall alnum parse src cfg c l, reads alnum parse src -> parse src = inl c ->
  all_lines proper_line c -> all_lines tidy_line c -> convert parse source_slice src cfg = Some (inr (CESyntax l)) ->
  one_after_another 0 (blen src) (map sy_range l) /\ NoDup l.
Proof.
  intros alnum parse src cfg c l HR Hc HP HT HE. pose proof (errors_ordered alnum parse src cfg c l HR Hc HP HT HE) as H.
  split; [apply H|]. eapply ord_nodup. exact H.
Qed.
Print Assumptions C72_order_partial.

Definition ex_order_parse := parser is_ascii_alnum (fun _ => mkPE 0 [] []).
Definition ex_order_src : str := L "p.a..b> \q </ \w" ++ [10] ++ L "a { <( x".
Definition ex_order_tree : a_content := Eval vm_compute in match ex_order_parse ex_order_src with inl c => c | inr _ => mkACont 0 [] 0 end.

Example C72_example :
  reads is_ascii_alnum ex_order_parse ex_order_src /\ ex_order_parse ex_order_src = inl ex_order_tree /\
  all_lines proper_line ex_order_tree /\ all_lines tidy_line ex_order_tree /\
  convert ex_order_parse source_slice ex_order_src config_default = Some (inr (CESyntax
    [mkSyn (mkR 3 6) (KInvalidItem ITSelector); mkSyn (mkR 8 10) KInvalidEscape; mkSyn (mkR 11 13) (KUnclosed (USpecial Emphasis));
     mkSyn (mkR 14 16) KInvalidEscape; mkSyn (mkR 19 20) (KUnclosed UBlock); mkSyn (mkR 21 23) (KUnclosed UInline)])).
Proof.
  split; [apply C50_readings; exists [], ex_order_src; repeat split|]. split; [vm_compute; reflexivity|].
  split; [apply all_lines_check; repeat (constructor; [apply proper_check; reflexivity|]); constructor|].
  split; [apply all_lines_check; repeat (constructor; [apply tidy_check; reflexivity|]); constructor|].
  vm_compute. reflexivity.
Qed.

(** [<(a { y } b)>]: the block is followed by text.  [a { \q } b]: also an escape in the block. *)
Definition ex_twice_src : str := L "<(a { y } b)>".
Definition ex_late_src : str := L "a { \q } b".
(** The full claim is REFUTED for errors about what may follow what: in an inline element they are
    reported twice (the line is looked at by [build_line] and again by [build_inline]), and they come
    after the errors of the items that they are about. *)
Theorem C72_order_refuted :
  (reads is_ascii_alnum ex_order_parse ex_twice_src /\
   exists e, convert ex_order_parse source_slice ex_twice_src config_default = Some (inr (CESyntax [e; e]))) /\
  (reads is_ascii_alnum ex_order_parse ex_late_src /\
   exists e e', convert ex_order_parse source_slice ex_late_src config_default = Some (inr (CESyntax [e; e'])) /\
     r_start (sy_range e') < r_start (sy_range e)).
Proof.
  split; (split; [apply C50_readings; eexists [], _; repeat split|]).
  - eexists. vm_compute. reflexivity.
  - eexists _, _. split; [vm_compute; reflexivity|]. vm_compute. reflexivity.
Qed.
Print Assumptions C72_order_refuted.

(** And they are reported again in each element around it: an element inside inline elements that
    each begin with an element of their own is part of the lines of all of them.  In
    [<(x{}<(x{}<(x{}<(x{}<(x{}<(y{}y{}y{}y{}y{})>)>)>)>)>)>], there are more errors than characters;
    that the third [y{}] is followed by another is reported thirteen times. *)
Definition ex_many_src : str := L "<(x{}<(x{}<(x{}<(x{}<(x{}<(y{}y{}y{}y{}y{})>)>)>)>)>)>".
Theorem C72_many_refuted :
  reads is_ascii_alnum ex_order_parse ex_many_src /\
  exists l, convert ex_order_parse source_slice ex_many_src config_default = Some (inr (CESyntax l)) /\
    (length ex_many_src < length l)%nat /\ filter (fun x => r_start (sy_range x) =? 33) l = repeat (mkSyn (mkR 33 36) (KMisplaced (MustNotPrecede ITElement [ITElement]))) 13.
Proof.
  split; [apply C50_readings; eexists [], _; repeat split|].
  eexists. split; [vm_compute; reflexivity|]. split; [apply PeanoNat.Nat.ltb_lt; vm_compute; reflexivity|]. vm_compute. reflexivity.
Qed.
Print Assumptions C72_many_refuted.

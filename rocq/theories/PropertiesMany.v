(** * How many errors a conversion reports: C76. *)

From Verif Require Import Base Doc Config Ast Errors Escape Convert Parser Grammar SpecBuild SpecSource SpecErrors SpecFaults SpecPlaces
  P_Marks P_Faults P_Build P_Accept P_Convert P_Order P_Many P_Repeat PropertiesParser PropertiesOrder.
From Coq Require Import Lia.

(** ** C76: the number of errors is at most quadratic in the length of the source.

    Errors about what may follow what are repeated for each inline element around them
    ([C72_many_refuted]); nesting inline elements cannot make the list longer than the square of the
    number of bytes, up to a constant.  The errors of single items are never more than the bytes. *)
Theorem C76_bound : forall alnum parse src cfg l, reads alnum parse src ->
  convert parse source_slice src cfg = Some (inr (CESyntax l)) ->
  let n := blen src in
  N.of_nat (length l) <= 2 * (n * n) + 3 * n + 1 /\ N.of_nat (length (filter of_item l)) <= n + 1.
Proof.
  intros alnum parse src cfg l HR HE n. destruct (parse src) as [c|p] eqn:Hc.
  - destruct (errors_few _ _ _ _ _ _ HR Hc HE) as [H1 H2]. fold n in H1, H2. lia.
  - destruct (prepare_cases parse source_slice src cfg (mkErrs false [] [] false) eq_refl) as [(c & d & ns0 & ns & Hp & _)|(p' & Hp & E1 & E2)]; [congruence|].
    assert (l = [parse_failed p']) as ->.
    { unfold convert, convert_to_internal in HE.
      assert (errors_new cfg = mkErrs false [] [] false \/ errors_new cfg = set_ff (mkErrs false [] [] false)) as [HN|HN]
        by (unfold errors_new; destruct (c_fail_fast cfg) as [[|]|]; auto);
      rewrite HN, ?E1, ?E2 in HE; cbn in HE; congruence. }
    cbn. lia.
Qed.
Print Assumptions C76_bound.

(** When every line is one of those that lines should be ([C47]), there are at most as many errors as
    bytes. *)
Theorem C76_proper : forall alnum parse src cfg c l, reads alnum parse src -> parse src = inl c ->
  all_lines proper_line c -> all_lines tidy_line c -> convert parse source_slice src cfg = Some (inr (CESyntax l)) ->
  N.of_nat (length l) <= blen src.
Proof.
  intros alnum parse src cfg c l HR Hc HP HT HE. pose proof (errors_ordered _ _ _ _ _ _ HR Hc HP HT HE) as H.
  apply ord_length in H. lia.
Qed.
Print Assumptions C76_proper.

(** [ex_many_src] has 54 bytes; 62 errors are reported. *)
Example C76_example :
  reads is_ascii_alnum ex_order_parse ex_many_src /\ blen ex_many_src = 54 /\
  exists l, convert ex_order_parse source_slice ex_many_src config_default = Some (inr (CESyntax l)) /\ length l = 62%nat.
Proof.
  split; [apply C50_readings; eexists [], _; repeat split|]. split; [vm_compute; reflexivity|].
  eexists. split; [vm_compute; reflexivity|]. reflexivity.
Qed.

(** It is not linear: in any number of inline elements around blocks, each of them beginning with a
    block, every one of the blocks is reported at every level. *)
Theorem C76_linear_refuted : forall k, exists src parse l, reads is_ascii_alnum parse src /\
  convert parse source_slice src config_default = Some (inr (CESyntax l)) /\ k * blen src < N.of_nat (length l).
Proof.
  intros k. destruct (many_errors is_ascii_alnum k) as (src & c & l & H1 & H2 & H3). exists src, (fun _ => inl c), l. auto.
Qed.
Print Assumptions C76_linear_refuted.
(** These readings are those of the parser. *)
Example C76_linear_example :
  nest_text 2 3 = L "<({}<({}<({}{}{})>)>)>" /\ ex_order_parse (nest_text 2 3) = inl (nest_tree 2 3).
Proof. split; vm_compute; reflexivity. Qed.

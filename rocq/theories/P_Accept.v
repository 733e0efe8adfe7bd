(** * Which sources are converted, and which errors are reported for the others: C47. *)

From Verif Require Import Base Escape Doc Ast Config Errors Build Output Convert SpecEscape SpecTree SpecBuild SpecFaults
  P_Base P_Escape P_Build P_BuildAll P_Selector P_Marks P_Convert P_Unknown P_Faults.

Section P.
Variable parse : str -> a_content + parse_error.
Variable slice : str -> lrange -> str.

(** The errors of the builder when nothing stops it, and the outcome. *)
Lemma convert_outcome : forall src cfg c, parse src = inl c ->
  exists d ns, from_ast (slice src) c (mkErrs false [] [] false) = (mkErrs false d [] false, Ok ns) /\
  match d with
  | [] => (exists t, convert parse slice src cfg = Some (inl t)) \/ convert parse slice src cfg = Some (inr CEUnknown)
  | _ => (c_fail_fast cfg <> Some true -> convert parse slice src cfg = Some (inr (CESyntax d))) /\
         exists d1 d2, d1 <> [] /\ d = d1 ++ d2 /\ convert parse slice src cfg = Some (inr (CESyntax d1))
  end.
Proof.
  intros src cfg c Hc. set (e0 := mkErrs false [] [] false).
  destruct (prepare_cases parse slice src cfg e0 eq_refl) as [(c' & d & ns0 & ns & Hp & HA & HT & E1 & E2)|(p & Hp & E1 & E2)]; [|congruence].
  rewrite Hc in Hp. injection Hp as <-. exists d, ns0. split; [exact HA|].
  assert (errors_new cfg = e0 /\ c_fail_fast cfg <> Some true \/ errors_new cfg = set_ff e0 /\ c_fail_fast cfg = Some true) as HE.
  { unfold errors_new. destruct (c_fail_fast cfg) as [[|]|]; [right|left|left]; (split; [reflexivity|congruence]). }
  unfold convert, convert_to_internal. destruct d as [|x d].
  - assert (prepare parse slice src cfg (errors_new cfg) = (errors_new cfg, Ok ns)) as ->.
    { destruct HE as [[-> _]|[-> _]]; [now rewrite E1, add_errs_nil|]. destruct E2 as [[_ E2]|(d1 & d2 & E & Hn & _)]; [exact E2|].
      destruct d1; [contradiction|discriminate]. }
    assert (errors_empty (errors_new cfg) = true) as -> by (destruct HE as [[-> _]|[-> _]]; reflexivity). cbn [orb].
    destruct (output_html (slice src) cfg ns) as [o [|]].
    + left. exists o. destruct HE as [[-> _]|[-> _]]; reflexivity.
    + right. destruct HE as [[-> _]|[-> _]]; reflexivity.
  - destruct HE as [[-> HF]|[-> HF]].
    + rewrite E1. cbn. split; [reflexivity|]. exists (x :: d), []. rewrite app_nil_r. repeat split. discriminate.
    + destruct E2 as [[E _]|(d1 & d2 & E & Hn & E2)]; [discriminate|]. rewrite E2. split; [congruence|].
      exists d1, d2. split; [exact Hn|]. split; [exact E|]. destruct d1; [contradiction|reflexivity].
Qed.

Lemma from_ast_errs : forall slc c (Q : list syntax_error -> list node -> Prop) d ns, Post false (from_ast slc c) Q ->
  from_ast slc c (mkErrs false [] [] false) = (mkErrs false d [] false, Ok ns) -> Q d ns.
Proof.
  intros slc c Q d ns H E. specialize (H (mkErrs false [] [] false) eq_refl). rewrite E in H. destruct H as (d' & Ed & H).
  apply (f_equal er_syntax) in Ed. cbn in Ed. now subst d'.
Qed.

Variable bad : str -> N -> list lrange.
Hypothesis finds : forall s o, bad s o = [] <-> exists t, Decodes true s t.
Lemma bad_same : forall s o, bad s o = [] <-> escape_errors s o = [].
Proof. intros s o. rewrite finds. symmetry. apply escape_errors_nil. Qed.

Theorem accepts : forall src cfg c, parse src = inl c ->
  faults bad (slice src) c = [] -> all_lines proper_line c ->
  (forall b s e r, Occurs (content_items c) (ANode b (ANSelector s) e) -> In r (selector_strings s) -> exists t, Decodes true (slice src r) t) ->
  (forall l, c_lang cfg = Some l -> exists t, Decodes true l t) ->
  exists t, convert parse slice src cfg = Some (inl t).
Proof.
  intros src cfg c Hc HF HP HS HL. destruct (convert_outcome src cfg c Hc) as (d & ns & HA & HO).
  apply (faults_nil bad escape_errors _ bad_same) in HF.
  assert (d = []) as ->.
  { assert (all_lines (LPr false) c) as HL'.
    { destruct HP as [P1 P2]. split.
      - eapply Forall_impl; [|exact P1]. intros l H. split; [exact H|discriminate].
      - intros s t e Ho. eapply Forall_impl; [|exact (P2 s t e Ho)]. intros l H. split; [exact H|discriminate]. }
    pose proof (from_ast_errs _ _ _ _ _ (from_ast_faults (slice src) false c HL') HA) as H.
    cbv beta in H. rewrite HF in H. now inversion H. }
  destruct HO as [HO|HO]; [exact HO|]. exfalso. destruct (unknown_cause _ _ _ _ HO) as [(c' & Hp & b & s & e & r & H1 & H2 & H3)|(l & H1 & H2)].
  - rewrite Hc in Hp. injection Hp as <-. apply H3. eapply HS; eassumption.
  - apply H2. now apply HL.
Qed.

Theorem refuses : forall src cfg c t, parse src = inl c -> convert parse slice src cfg = Some (inl t) ->
  all_lines tidy_line c -> all_lines selectors_used c ->
  faults bad (slice src) c = [] /\ all_lines proper_line c.
Proof.
  intros src cfg c t Hc HE [T1 T2] [U1 U2]. destruct (convert_outcome src cfg c Hc) as (d & ns & HA & HO).
  assert (d = []) as ->. { destruct d as [|x d]; [reflexivity|]. destruct HO as [_ (d1 & d2 & _ & _ & HO)]. congruence. }
  assert (all_lines TU c) as HT.
  { split.
    - rewrite Forall_forall in *. intros l Hl. split; auto.
    - intros s t' e Ho. specialize (T2 s t' e Ho). specialize (U2 s t' e Ho). rewrite Forall_forall in *. intros l Hl. split; auto. }
  destruct (from_ast_errs _ _ _ _ _ (from_ast_converse (slice src) c HT) HA eq_refl) as [H1 H2].
  split; [|exact H1]. now apply (faults_nil bad escape_errors _ bad_same).
Qed.
End P.

Theorem reported : forall parse slice src cfg c, parse src = inl c ->
  all_lines proper_line c -> all_lines tidy_line c -> faults escape_errors (slice src) c <> [] ->
  (c_fail_fast cfg <> Some true -> convert parse slice src cfg = Some (inr (CESyntax (faults escape_errors (slice src) c)))) /\
  exists l more, l <> [] /\ faults escape_errors (slice src) c = l ++ more /\ convert parse slice src cfg = Some (inr (CESyntax l)).
Proof.
  intros parse slice src cfg c Hc [P1 P2] [T1 T2] HF. destruct (convert_outcome parse slice src cfg c Hc) as (d & ns & HA & HO).
  assert (all_lines (LPr true) c) as HL.
  { split.
    - rewrite Forall_forall in *. intros l Hl. split; auto.
    - intros s t' e Ho. specialize (T2 s t' e Ho). specialize (P2 s t' e Ho). rewrite Forall_forall in *. intros l Hl. split; auto. }
  pose proof (from_ast_errs _ _ _ _ _ (from_ast_faults (slice src) true c HL) HA) as H. cbn in H. rewrite <- H in *.
  destruct d as [|x d]; [contradiction|]. exact HO.
Qed.

(** * Options do not decide what is an error: C77. *)

From Verif Require Import Base Doc Config Ast Errors Escape Convert Parser Grammar SpecEscape SpecTree SpecBuild SpecSource SpecErrors SpecFaults
  P_Build P_Marks P_Convert P_Unknown P_Faults P_Accept PropertiesConvert PropertiesParser PropertiesOrder.

(** ** C77: whether a source is accepted, and which errors are reported, does not depend on the options.

    If all errors are to be reported (fail_fast: C13), options make no difference to syntax errors. *)
Theorem C77_errors : forall parse slice src cfg cfg' l,
  c_fail_fast cfg <> Some true -> c_fail_fast cfg' <> Some true ->
  convert parse slice src cfg = Some (inr (CESyntax l)) -> convert parse slice src cfg' = Some (inr (CESyntax l)).
Proof.
  intros parse slice src cfg cfg' l Hf Hf' HE. destruct (parse src) as [c|p] eqn:Hc.
  - destruct (convert_outcome parse slice src cfg c Hc) as (d & ns & HA & HO). destruct (convert_outcome parse slice src cfg' c Hc) as (d' & ns' & HA' & HO').
    rewrite HA in HA'. injection HA' as <- <-. destruct d as [|x d]; [destruct HO as [[t HO]|HO]; congruence|].
    destruct HO as [HO _]. rewrite (HO Hf) in HE. injection HE as <-. now apply HO'.
  - assert (forall cfg, c_fail_fast cfg <> Some true -> convert parse slice src cfg = Some (inr (CESyntax [parse_failed p]))) as H.
    { clear - Hc. intros cfg Hf. destruct (prepare_cases parse slice src cfg (mkErrs false [] [] false) eq_refl) as [(c & d & ns0 & ns & Hp & _)|(p' & Hp & E1 & _)]; [congruence|].
      rewrite Hc in Hp. injection Hp as <-. unfold convert, convert_to_internal.
      assert (errors_new cfg = mkErrs false [] [] false) as -> by (unfold errors_new; destruct (c_fail_fast cfg) as [[|]|]; [now destruct Hf|reflexivity|reflexivity]).
      rewrite E1. reflexivity. }
    rewrite (H cfg Hf) in HE. rewrite (H cfg' Hf'). congruence.
Qed.
Print Assumptions C77_errors.

(** Nor to whether there is output, if the names, classes, ids and attributes of the source, and the
    language, have no malformed escapes (C14). *)
Theorem C77_accepts_partial : forall parse slice src cfg cfg' t,
  (forall c b s e r, parse src = inl c -> Occurs (content_items c) (ANode b (ANSelector s) e) -> In r (selector_strings s) ->
     exists t, Decodes true (slice src r) t) ->
  (forall l, c_lang cfg' = Some l -> exists t, Decodes true l t) ->
  convert parse slice src cfg = Some (inl t) -> exists t', convert parse slice src cfg' = Some (inl t').
Proof.
  intros parse slice src cfg cfg' t HS HL HE. destruct (parse src) as [c|p] eqn:Hc.
  - destruct (convert_outcome parse slice src cfg c Hc) as (d & ns & HA & HO). destruct (convert_outcome parse slice src cfg' c Hc) as (d' & ns' & HA' & HO').
    rewrite HA in HA'. injection HA' as <- <-. destruct d as [|x d]; [|destruct HO as (_ & d1 & d2 & _ & _ & HO); congruence].
    destruct HO' as [HO'|HO']; [exact HO'|]. exfalso. destruct (C14_unknown_error _ _ _ _ HO') as [(c' & b & s & e & r & Hp & H1 & H2 & H3)|(l & H1 & H2)].
    + rewrite Hc in Hp. injection Hp as <-. apply H3. eapply HS; eauto.
    + apply H2. now apply HL.
  - exfalso. destruct (prepare_cases parse slice src cfg (mkErrs false [] [] false) eq_refl) as [(c & d & ns0 & ns & Hp & _)|(p' & Hp & E1 & E2)]; [congruence|].
    unfold convert, convert_to_internal in HE.
    assert (errors_new cfg = mkErrs false [] [] false \/ errors_new cfg = set_ff (mkErrs false [] [] false)) as [HN|HN]
        by (unfold errors_new; destruct (c_fail_fast cfg) as [[|]|]; auto);
      rewrite HN, ?E1, ?E2 in HE; cbn in HE; discriminate.
Qed.
Print Assumptions C77_accepts_partial.

(** REFUTED otherwise: [head[a=\q] { title> t }] is refused, but converted if the page is to be
    completed, where the attributes of head are lost (C22). *)
Definition ex_head_src : str := L "head[a=\q] { title> t }".
Definition ex_complete (b : bool) : config := mkConfig None None special_default (Some b) None None None.
Theorem C77_accepts_refuted :
  reads is_ascii_alnum ex_order_parse ex_head_src /\
  convert ex_order_parse source_slice ex_head_src (ex_complete true) =
    Some (inl (L "<!DOCTYPE html>" ++ [10] ++ L "<html><head><title>t</title></head> <body></body></html>")) /\
  convert ex_order_parse source_slice ex_head_src (ex_complete false) = Some (inr CEUnknown).
Proof. split; [apply C50_readings; eexists [], _; repeat split|]. split; vm_compute; reflexivity. Qed.
Print Assumptions C77_accepts_refuted.

(** [ex_order_src] has six errors (C72); [p.a> x] is converted. *)
Definition ex_options_src : str := L "p.a> x".
Example C77_example :
  (exists l, convert ex_order_parse source_slice ex_order_src (ex_complete true) = Some (inr (CESyntax l)) /\ length l = 6%nat) /\
  (forall c b s e r, ex_order_parse ex_options_src = inl c -> Occurs (content_items c) (ANode b (ANSelector s) e) -> In r (selector_strings s) ->
     exists t, Decodes true (source_slice ex_options_src r) t) /\
  (exists t, convert ex_order_parse source_slice ex_options_src (ex_complete true) = Some (inl t)) /\
  (exists t, convert ex_order_parse source_slice ex_options_src (ex_complete false) = Some (inl t)).
Proof.
  split; [eexists; split; vm_compute; reflexivity|]. split; [|split; eexists; vm_compute; reflexivity].
  assert (forall c, ex_order_parse ex_options_src = inl c -> forall n, Occurs (content_items c) n ->
    match an_type n with ANSelector s => selector_strings s = [mkR 2 3] | ANElement e => element_items e = [] | _ => True end) as H.
  { intros c Hc n Ho. vm_compute in Hc. injection Hc as <-. induction Ho as [sp n Hi|s t e sp n _ IH Hi].
    - cbn in Hi. repeat (destruct Hi as [Hi|Hi]; [injection Hi as _ <-; cbn; auto|]). contradiction.
    - cbn [an_type] in IH. destruct t; cbn [type_items] in Hi; try contradiction. rewrite IH in Hi. contradiction. }
  intros c b s e r Hc Ho Hr. specialize (H c Hc _ Ho). cbn [an_type] in H. rewrite H in Hr.
  destruct Hr as [<-|[]]. exists (L "a"). vm_compute. apply DecPlain; [discriminate|constructor].
Qed.

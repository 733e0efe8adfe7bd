(** * Lemmas about the command line tool: conversions, the reporter, options. *)

From Coq Require Import Permutation.
From Verif Require Import Base P_Base Doc Config Ast Errors Convert Display Path Reporter Cli SpecCli.
From Verif Require P_Convert P_Plan.
From Coq Require Import Lia.

(** ** The reporter *)

Section Reporter.
Variable debug : str -> str.
Variable json : entry -> str.

Lemma reporter_set : forall evs mode,
  reporter debug json None mode evs = flat_map (fun md => report debug json (fst md) (snd md)) (with_mode (Some mode) evs).
Proof.
  induction evs as [| ev evs IH]; intros mode; [reflexivity |]. destruct ev; cbn [reporter with_mode flat_map].
  - now rewrite IH.
  - apply IH.
  - reflexivity.
Qed.

Lemma reporter_pending : forall evs batch, In EvClose evs ->
  reporter debug json (Some batch) MDefault evs =
  flat_map (report debug json (match next_mode evs with Some m => m | None => MDefault end)) batch ++
  flat_map (fun md => report debug json (fst md) (snd md)) (with_mode None evs).
Proof.
  induction evs as [| ev evs IH]; intros batch Hin; [contradiction |]. destruct ev; cbn [reporter with_mode next_mode].
  - destruct Hin as [H | Hin]; [discriminate |]. rewrite IH by assumption.
    rewrite flat_map_app. cbn [flat_map fst snd]. rewrite app_nil_r. now rewrite <- app_assoc.
  - rewrite reporter_set. reflexivity.
  - cbn [flat_map]. now rewrite app_nil_r.
Qed.

Lemma run_reporter_ok : forall evs, In EvClose evs ->
  run_reporter debug json evs = flat_map (fun md => report debug json (fst md) (snd md)) (with_mode None evs).
Proof. intros evs H. unfold run_reporter. now rewrite reporter_pending. Qed.

Lemma with_mode_errors : forall evs last rest, ~ In EvClose evs ->
  map snd (with_mode last (evs ++ EvClose :: rest)) = errors_of evs.
Proof.
  induction evs as [| ev evs IH]; intros last rest H; [reflexivity |].
  assert (H' : ~ In EvClose evs) by (intros Hin; apply H; now right).
  destruct ev; cbn [app with_mode map snd errors_of flat_map].
  - f_equal. now apply IH.
  - now apply IH.
  - exfalso. apply H. now left.
Qed.

Lemma with_mode_only : forall evs mode rest,
  (forall ev, In ev evs -> exists d, ev = EvError d) ->
  with_mode (Some mode) (evs ++ EvClose :: rest) = map (fun d => (mode, d)) (errors_of evs).
Proof.
  induction evs as [| ev evs IH]; intros mode rest H; [reflexivity |].
  destruct (H ev (or_introl eq_refl)) as (d & ->). cbn [app with_mode errors_of flat_map map]. f_equal.
  apply IH. intros e He. apply H. now right.
Qed.
End Reporter.

(** ** Conversions *)

Section Run.
Variable fs : io.
Variable cv : str -> config -> str + convert_error.
Variable cvf : str -> config -> str + option str * convert_error.

Lemma job_success : forall a s d,
  jr_result (run_job fs cv cvf a (s, d)) = inl true <->
  Converts fs cv cvf (as_config (g_options a)) (forgives a) s d.
Proof.
  intros a s d. unfold run_job, convert_job, Converts. fold (forgives a).
  destruct (io_read fs s) as [src | e].
  2: { split; [discriminate |]. intros (src & out & H & _). discriminate. }
  destruct (forgives a).
  - destruct (cvf src (as_config (g_options a))) as [out | [[out |] err]] eqn:E; cbn [is_none is_some andb].
    + destruct (io_write fs d out) eqn:Ew; cbn [jr_result].
      * split; [discriminate |]. intros (src' & out' & H1 & H2 & H3). injection H1 as <-. congruence.
      * split; [| reflexivity]. intros _. exists src, out. auto.
    + split.
      * destruct (io_write fs d out); cbn [jr_result]; [discriminate |].
        destruct (o_fail_fast (g_options a)) as [[] |]; discriminate.
      * intros (src' & out' & H1 & H2 & H3). injection H1 as <-. congruence.
    + split.
      * cbn [jr_result]. destruct (o_fail_fast (g_options a)) as [[] |]; discriminate.
      * intros (src' & out' & H1 & H2 & H3). injection H1 as <-. congruence.
  - destruct (cv src (as_config (g_options a))) as [out | err] eqn:E; cbn [is_none is_some andb].
    + destruct (io_write fs d out) eqn:Ew; cbn [jr_result].
      * split; [discriminate |]. intros (src' & out' & H1 & H2 & H3). injection H1 as <-. congruence.
      * split; [| reflexivity]. intros _. exists src, out. auto.
    + split.
      * cbn [jr_result]. destruct (o_fail_fast (g_options a)) as [[] |]; discriminate.
      * intros (src' & out' & H1 & H2 & H3). injection H1 as <-. congruence.
Qed.

Lemma reduces_ok : forall l r, reduces l r ->
  (r = inl true <-> Forall (fun x => x = inl true) l) /\
  (forall e, r = inr e -> In (inr e) l) /\
  ((exists e, In (inr e) l) -> exists e, r = inr e).
Proof.
  intros l r H. induction H as [| r | l1 l2 r1 r2 H1 (A1 & B1 & C1) H2 (A2 & B2 & C2)].
  - repeat split; try constructor; try discriminate. intros (e & []).
  - split; [| split].
    + split; [intros ->; repeat constructor | intros HF; now inversion HF].
    + intros e ->. now left.
    + intros (e & [-> | []]). eauto.
  - split; [| split].
    + rewrite Forall_app, <- A1, <- A2. destruct r1 as [[] | e1], r2 as [[] | e2]; cbn [try_and andb]; intuition congruence.
    + intros e E. apply in_or_app. destruct r1 as [b1 | e1], r2 as [b2 | e2]; cbn [try_and] in E; try discriminate.
      * right. now apply B2.
      * left. apply B1. congruence.
      * left. apply B1. congruence.
    + intros (e & Hin). apply in_app_or in Hin.
      assert (HE : (exists e, r1 = inr e) \/ exists e, r2 = inr e) by (destruct Hin; eauto).
      destruct r1 as [b1 | e1], r2 as [b2 | e2]; cbn [try_and]; eauto.
      destruct HE as [(x & Hx) | (x & Hx)]; discriminate.
Qed.

Lemma sublist_in : forall (A : Type) (l m : list A), sublist l m -> forall x, In x l -> In x m.
Proof.
  intros A l m H. induction H; intros y Hy; [contradiction | |].
  - destruct Hy as [-> | Hy]; [now left | right; auto].
  - right. auto.
Qed.

Lemma parallel_ok : forall a jobs run r, parallel fs cv cvf a jobs run r ->
  (r = inl true <-> forall j, In j jobs -> jr_result (run_job fs cv cvf a j) = inl true) /\
  (r = inl true -> run = jobs) /\
  (forall e, r = inr e -> exists j, In j run /\ jr_result (run_job fs cv cvf a j) = inr e) /\
  (forall j, In j run -> In j jobs) /\
  (r = inl false -> run = jobs /\ exists j, In j jobs /\ jr_result (run_job fs cv cvf a j) = inl false).
Proof.
  intros a jobs run r (Hs & Hrun & Hr). destruct (reduces_ok _ _ Hr) as (A & B & C).
  assert (Hall : run <> jobs -> exists e, r = inr e).
  { intros Hn. destruct Hrun as [-> | (j & e & Hj & He)]; [contradiction |]. apply C. exists e.
    apply in_map_iff. exists j. auto. }
  assert (Heq : (forall e, r <> inr e) -> run = jobs).
  { intros Hn. destruct Hrun as [E | (j & e & Hj & He)]; [exact E |]. exfalso.
    destruct C as (e' & E'); [exists e; apply in_map_iff; exists j; auto |]. now apply (Hn e'). }
  split; [| split; [| split; [| split]]].
  - split.
    + intros E. assert (Er : run = jobs) by (apply Heq; intros e; congruence). subst run.
      apply A in E. rewrite Forall_forall in E. intros j Hj. apply E. apply in_map_iff. exists j. auto.
    + intros Hj. apply A. rewrite Forall_forall. intros x Hx. apply in_map_iff in Hx. destruct Hx as (j & <- & Hin).
      apply Hj. eapply sublist_in; eassumption.
  - intros E. apply Heq. intros e. congruence.
  - intros e E. apply B in E. apply in_map_iff in E. destruct E as (j & E & Hj). eauto.
  - intros j Hj. eapply sublist_in; eassumption.
  - intros E. assert (Er : run = jobs) by (apply Heq; intros e; congruence). split; [exact Er |]. subst run.
    assert (Hne : ~ exists e, In (inr e) (map (fun j => jr_result (run_job fs cv cvf a j)) jobs)).
    { intros He. apply C in He. destruct He. congruence. }
    assert (Hnt : ~ Forall (fun x => x = inl true) (map (fun j => jr_result (run_job fs cv cvf a j)) jobs)).
    { intros HF. apply A in HF. congruence. }
    clear - Hne Hnt. induction jobs as [| j jobs IH]; [exfalso; apply Hnt; constructor |].
    destruct (jr_result (run_job fs cv cvf a j)) as [[] | e] eqn:E.
    + destruct IH as (k & Hk & Ek).
      * intros (e & He). apply Hne. exists e. now right.
      * intros HF. apply Hnt. cbn [map]. constructor; assumption.
      * exists k. split; [now right | assumption].
    + exists j. split; [now left | assumption].
    + exfalso. apply Hne. exists e. cbn [map]. rewrite E. now left.
Qed.

(** All jobs of the plan, and which of them ran. *)
Lemma executes_jobs : forall a evs ws r, executes fs cv cvf a evs ws r ->
  (exists e, make_plan fs a = inr e /\ evs = [] /\ ws = [] /\ r = inr e) \/
  (exists p run, make_plan fs a = inl p /\ (forall j, In j run -> In j (jobs_of p)) /\
     (forall ev, In ev evs <-> exists j, In j run /\ In ev (jr_events (run_job fs cv cvf a j))) /\
     (forall w, In w ws <-> exists j, In j run /\ In w (jr_writes (run_job fs cv cvf a j))) /\
     (r = inl true <-> forall j, In j (jobs_of p) -> jr_result (run_job fs cv cvf a j) = inl true) /\
     (forall b, r = inl b -> forall j, In j (jobs_of p) -> In j run) /\
     (forall e, r = inr e -> exists j, In j run /\ jr_result (run_job fs cv cvf a j) = inr e) /\
     (r = inl false -> exists j, In j run /\ jr_result (run_job fs cv cvf a j) = inl false)).
Proof.
  intros a evs ws r H. inversion H as [e Hp | s d Hp | jobs run order r' Hp Hpar Hperm]; subst.
  - left. exists e. auto.
  - right. exists (PSingle s d), [(s, d)]. cbn [jobs_of]. split; [exact Hp |]. split; [auto |].
    split; [| split; [| split; [| split; [| split]]]].
    + intros ev. split; [intros Hin; exists (s, d); split; [now left | assumption] |].
      intros (j & [<- | []] & Hin). exact Hin.
    + intros w. split; [intros Hin; exists (s, d); split; [now left | assumption] |].
      intros (j & [<- | []] & Hin). exact Hin.
    + split; [intros E j [<- | []]; exact E | intros E; apply E; now left].
    + auto.
    + intros e E. exists (s, d). split; [now left | exact E].
    + intros E. exists (s, d). split; [now left | exact E].
  - right. exists (PMany jobs), run. cbn [jobs_of].
    destruct (parallel_ok a jobs run r Hpar) as (A & B & C & D & E).
    split; [exact Hp |]. split; [exact D |]. split; [| split; [| split; [| split; [| split]]]].
    + intros ev. rewrite in_flat_map. split; intros (j & Hj & Hin); exists j; (split; [| exact Hin]).
      * eapply Permutation_in; [apply Permutation_sym, Hperm | exact Hj].
      * eapply Permutation_in; eassumption.
    + intros w. rewrite in_flat_map. split; intros (j & Hj & Hin); exists j; (split; [| exact Hin]).
      * eapply Permutation_in; [apply Permutation_sym, Hperm | exact Hj].
      * eapply Permutation_in; eassumption.
    + exact A.
    + intros [|] Eb j Hj.
      * now rewrite (B Eb).
      * destruct (E Eb) as (-> & _). exact Hj.
    + exact C.
    + intros Eb. destruct (E Eb) as (-> & He). exact He.
Qed.

Lemma job_writes : forall a s d w, In w (jr_writes (run_job fs cv cvf a (s, d))) ->
  exists src t, w = (d, t) /\ io_read fs s = inl src /\
    (if forgives a
     then cvf src (as_config (g_options a)) = inl t \/ exists e, cvf src (as_config (g_options a)) = inr (Some t, e)
     else cv src (as_config (g_options a)) = inl t).
Proof.
  intros a s d w. unfold run_job, convert_job. fold (forgives a).
  destruct (io_read fs s) as [src | e]; [| intros []].
  destruct (forgives a).
  - destruct (cvf src (as_config (g_options a))) as [out | [[out |] err]] eqn:E; cbn [jr_writes].
    + intros [<- | []]. exists src, out. auto.
    + intros [<- | []]. exists src, out. repeat split. right. eauto.
    + intros [].
  - destruct (cv src (as_config (g_options a))) as [out | err] eqn:E; cbn [jr_writes].
    + intros [<- | []]. exists src, out. auto.
    + intros [].
Qed.

Lemma job_written : forall a s d, jr_result (run_job fs cv cvf a (s, d)) = inl true ->
  exists t, jr_writes (run_job fs cv cvf a (s, d)) = [(d, t)].
Proof.
  intros a s d H. pose proof H as H'. apply job_success in H'. destruct H' as (src & out & H1 & H2 & H3).
  unfold run_job, convert_job. fold (forgives a). rewrite H1. exists out.
  destruct (forgives a); rewrite H2; reflexivity.
Qed.

(** What a failing job reports. *)
Lemma job_failed : forall a s d, jr_result (run_job fs cv cvf a (s, d)) <> inl true ->
  (exists src e, io_read fs s = inl src /\ In (conversion_error s src e) (jr_events (run_job fs cv cvf a (s, d))) /\
     if forgives a then exists o, cvf src (as_config (g_options a)) = inr (o, e)
     else cv src (as_config (g_options a)) = inr e) \/
  (exists e, jr_result (run_job fs cv cvf a (s, d)) = inr e /\
     ((exists e', io_read fs s = inr e' /\ e = mkErr (ce_category e') (Some s) (ce_message e')) \/
      exists t e', io_write fs d t = Some e' /\ e = mkErr (ce_category e') (Some s) (ce_message e'))).
Proof.
  intros a s d. unfold run_job, convert_job. fold (forgives a).
  destruct (io_read fs s) as [src | e] eqn:Er.
  2: { intros _. right. eexists. split; [reflexivity |]. left. eauto. }
  destruct (forgives a).
  - destruct (cvf src (as_config (g_options a))) as [out | [[out |] err]] eqn:E; cbn [is_none is_some andb].
    + destruct (io_write fs d out) as [e |] eqn:Ew; cbn [jr_result]; [| intros H; now contradiction H].
      intros _. right. eexists. split; [reflexivity |]. right. eauto.
    + intros _. left. exists src, err. split; [reflexivity |]. split; [now left | eauto].
    + intros _. left. exists src, err. split; [reflexivity |]. split; [now left | eauto].
  - destruct (cv src (as_config (g_options a))) as [out | err] eqn:E; cbn [is_none is_some andb].
    + destruct (io_write fs d out) as [e |] eqn:Ew; cbn [jr_result]; [| intros H; now contradiction H].
      intros _. right. eexists. split; [reflexivity |]. right. eauto.
    + intros _. left. exists src, err. split; [reflexivity |]. split; [now left | exact E].
Qed.

Lemma job_events_errors : forall a j ev, In ev (jr_events (run_job fs cv cvf a j)) -> exists d, ev = EvError d.
Proof.
  intros a [s d] ev. unfold run_job, convert_job. fold (forgives a).
  destruct (io_read fs s) as [src | e]; [| intros []].
  destruct (if forgives a then match cvf src (as_config (g_options a)) with
            | inl out => (Some out, None) | inr (out, e) => (out, Some e) end
            else match cv src (as_config (g_options a)) with
            | inl out => (Some out, None) | inr e => (None, Some e) end) as [[out |] [err |]];
    cbn [jr_events]; intros H; try contradiction; destruct H as [<- | []]; unfold conversion_error; eauto.
Qed.
Lemma write_syntax : forall debug json mode name src e,
  write_error json mode (mkEntry CatSyntax (Some name) (Some (sy_range e))
    (match sy_kind e with KParseFailed x => Some x | _ => None end) (Some (display_with_src debug src false e)))
  = printed debug json mode (CoSyntax name src e).
Proof.
  intros. destruct mode; [|reflexivity|reflexivity].
  unfold write_error, printed, plain_line. cbn [en_category en_source en_location en_message show_category].
  rewrite N.add_1_r. assert (E : (N.succ (r_start (sy_range e)) <=? r_end (sy_range e)) = (r_start (sy_range e) <? r_end (sy_range e))).
  { destruct (N.leb_spec (N.succ (r_start (sy_range e))) (r_end (sy_range e))), (N.ltb_spec (r_start (sy_range e)) (r_end (sy_range e))); lia. }
  rewrite E. unfold shown_place. destruct name; cbn [shown_stream]; rewrite <- ?app_assoc; reflexivity.
Qed.
Lemma write_semantic : forall debug json mode name src e,
  write_error json mode (mkEntry CatSemantic (Some name) (Some (se_range e)) None (Some (L "Unknown")))
  = printed debug json mode (CoSemantic name src e).
Proof.
  intros. destruct mode; [|reflexivity|reflexivity].
  unfold write_error, printed, plain_line. cbn [en_category en_source en_location en_message show_category].
  rewrite N.add_1_r. assert (E : (N.succ (r_start (se_range e)) <=? r_end (se_range e)) = (r_start (se_range e) <? r_end (se_range e))).
  { destruct (N.leb_spec (N.succ (r_start (se_range e))) (r_end (se_range e))), (N.ltb_spec (r_start (se_range e)) (r_end (se_range e))); lia. }
  rewrite E. unfold shown_place. destruct name; cbn [shown_stream]; rewrite <- ?app_assoc; reflexivity.
Qed.
Lemma write_other : forall debug json mode e,
  write_error json mode (mkEntry (match ce_category e with Some c => c | None => CatInternal end) (ce_source e) None None (Some (ce_message e)))
  = printed debug json mode (CoOther e).
Proof.
  intros debug json mode [[[]|] [[]|] m]; destruct mode; cbn [write_error printed plain_line json_line en_category en_source en_location
    en_message ce_category ce_source ce_message show_category shown_stream]; rewrite <- ?app_assoc; reflexivity.
Qed.

Lemma job_printed : forall debug json mode a s d,
  flat_map (report debug json mode) (errors_of (jr_events (run_job fs cv cvf a (s, d)))) =
  flat_map (printed debug json mode) (complaints fs cv cvf a s).
Proof.
  intros debug json mode a s d. unfold run_job, convert_job, complaints. fold (forgives a).
  destruct (io_read fs s) as [src | e]; [| reflexivity].
  assert (Hone : forall err, report debug json mode match conversion_error s src err with EvError x => x | _ => mkData None None [] [] [] end
     = flat_map (printed debug json mode) match err with CESyntax l => map (CoSyntax s src) l | CESemantic l => map (CoSemantic s src) l
                                         | CEUnknown => [] end).
  { intros [l | l |]; unfold conversion_error, report, entries; cbn [ed_src ed_source ed_syntax ed_semantic ed_other map app opt_map].
    - rewrite app_nil_r. induction l as [| e l IH]; [reflexivity |]. cbn [map flat_map]. now rewrite IH, write_syntax.
    - rewrite app_nil_r. induction l as [| e l IH]; [reflexivity |]. cbn [map flat_map]. now rewrite IH, (write_semantic debug json mode s src).
    - reflexivity. }
  destruct (forgives a).
  - destruct (cvf src (as_config (g_options a))) as [out | [[out |] err]]; cbn [jr_events errors_of flat_map app]; [reflexivity| |];
      specialize (Hone err); unfold conversion_error in *; cbn [flat_map app] in *; rewrite app_nil_r; destruct err; exact Hone.
  - destruct (cv src (as_config (g_options a))) as [out | err]; cbn [jr_events errors_of flat_map app]; [reflexivity|];
      specialize (Hone err); unfold conversion_error in *; cbn [flat_map app] in *; rewrite app_nil_r; destruct err; exact Hone.
Qed.

Lemma sublist_perm : forall (A : Type) (l m : list A), sublist l m ->
  exists rest, Permutation m (l ++ rest) /\ (l = m -> rest = []).
Proof.
  intros A l m H. assert (E : exists rest, Permutation m (l ++ rest)).
  { induction H as [| x l m _ (rest & IH) | x l m _ (rest & IH)].
    - exists []. constructor.
    - exists rest. cbn [app]. now constructor.
    - exists (x :: rest). apply Permutation_cons_app. exact IH. }
  destruct E as (rest & E). exists rest. split; [exact E |]. intros ->.
  apply Permutation_length in E. rewrite app_length in E. destruct rest; [reflexivity | cbn in E; lia].
Qed.

Lemma executes_done : forall a evs ws r, executes fs cv cvf a evs ws r ->
  exists done, evs = flat_map (fun j => jr_events (run_job fs cv cvf a j)) done /\
    match make_plan fs a with
    | inr e => done = [] /\ r = inr e
    | inl p => exists rest, Permutation (jobs_of p) (done ++ rest) /\
        ((exists b, r = inl b) -> rest = []) /\
        (forall e, r = inr e -> exists j, In j done /\ jr_result (run_job fs cv cvf a j) = inr e)
    end.
Proof.
  intros a evs ws r H. inversion H as [e Hp | s d Hp | jobs run order r' Hp Hpar Hperm]; subst; rewrite Hp.
  - exists []. auto.
  - exists [(s, d)]. split; [cbn [flat_map]; now rewrite app_nil_r |]. exists []. split; [apply Permutation_refl |].
    split; [auto |]. intros e E. exists (s, d). split; [now left | exact E].
  - exists order. split; [reflexivity |]. cbn [jobs_of].
    destruct (parallel_ok a jobs run r Hpar) as (_ & B & C & _ & E). destruct Hpar as (Hs & _ & _).
    destruct (sublist_perm _ _ _ Hs) as (rest & P & Q). exists rest. split; [| split].
    + eapply Permutation_trans; [exact P |]. now apply Permutation_app_tail.
    + intros ([|] & Eb); apply Q; [now apply B | now apply E].
    + intros e Ee. destruct (C e Ee) as (j & Hj & Hr). exists j. split; [| exact Hr]. eapply Permutation_in; eassumption.
Qed.

Lemma job_ended : forall a j e, jr_result (run_job fs cv cvf a j) = inr e -> ended_by fs a j e.
Proof.
  intros a [s d] e. unfold run_job, convert_job, ended_by. cbn [fst snd].
  destruct (io_read fs s) as [src | er].
  2: { cbn [jr_result]. intros E. injection E as <-. left. eauto. }
  match goal with |- context [let '(_, _) := ?x in _] => destruct x as [out error] end.
  set (result := match is_none error && is_some out with true => _ | false => _ end).
  assert (Hr : result = inr e -> o_fail_fast (g_options a) = Some FFTrue /\ ce_category e = Some CatHidden).
  { unfold result. destruct (is_none error && is_some out); [discriminate|].
    destruct (o_fail_fast (g_options a)) as [[]|]; try discriminate. intros E. injection E as <-. auto. }
  destruct out as [text |]; cbn [jr_result].
  - destruct (io_write fs d text) as [ew |] eqn:Ew.
    + intros E. injection E as <-. right. left. eauto.
    + intros E. right. right. auto.
  - intros E. right. right. auto.
Qed.
End Run.

(** ** Options *)

Lemma set_special_field : forall t k k' v,
  special_field (set_special t (k', v)) k = if match k, k' with
    | Strong, Strong | Emphasis, Emphasis | Underline, Underline | Strike, Strike
    | Quote, Quote | Code, Code | CodeBlockContainer, CodeBlockContainer => true | _, _ => false end
  then Some v else special_field t k.
Proof. intros t [] [] v; reflexivity. Qed.

Lemma special_last : forall l t k v,
  special_field (fold_left set_special l t) k = Some v <->
  LastOverride l k v \/ special_field t k = Some v /\ forall v', ~ In (k, v') l.
Proof.
  intros l. induction l as [| [k' v'] l IH] using rev_ind; intros t k v.
  - cbn [fold_left]. split.
    + intros H. right. split; [exact H |]. intros v' [].
    + intros [(b & a & E & _) | (H & _)]; [destruct b; discriminate | exact H].
  - rewrite fold_left_app. cbn [fold_left]. rewrite set_special_field.
    assert (HK : (k = k' /\ match k, k' with
    | Strong, Strong | Emphasis, Emphasis | Underline, Underline | Strike, Strike
    | Quote, Quote | Code, Code | CodeBlockContainer, CodeBlockContainer => true | _, _ => false end = true) \/
     (k <> k' /\ match k, k' with
    | Strong, Strong | Emphasis, Emphasis | Underline, Underline | Strike, Strike
    | Quote, Quote | Code, Code | CodeBlockContainer, CodeBlockContainer => true | _, _ => false end = false)).
    { destruct k, k'; (left; split; reflexivity) || (right; split; [discriminate | reflexivity]). }
    destruct HK as [(<- & ->) | (Hk & ->)].
    + split.
      * intros E. injection E as <-. left. exists l, []. split; [reflexivity |]. intros v'' [].
      * intros [(b & a & E & Ha) | (_ & H)].
        -- destruct (exists_last (l := (k, v) :: a)) as (c & z & Ez); [discriminate |].
           rewrite Ez, app_assoc in E. apply app_inj_tail in E. destruct E as [_ <-].
           destruct c as [| c0 c]; [cbn in Ez; congruence |].
           injection Ez as _ Ez. exfalso. apply (Ha v'). rewrite Ez. apply in_or_app. right. now left.
        -- exfalso. apply (H v'). apply in_or_app. right. now left.
    + rewrite IH. split.
      * intros [(b & a & -> & Ha) | (H & Hn)].
        -- left. exists b, (a ++ [(k', v')]). split; [now rewrite <- app_assoc |].
           intros v'' Hin. apply in_app_or in Hin. destruct Hin as [Hin | [Hin | []]]; [eapply Ha, Hin | congruence].
        -- right. split; [exact H |]. intros v'' Hin. apply in_app_or in Hin.
           destruct Hin as [Hin | [Hin | []]]; [eapply Hn, Hin | congruence].
      * intros [(b & a & E & Ha) | (H & Hn)].
        -- left. destruct (exists_last (l := (k, v) :: a)) as (c & z & Ez); [discriminate |].
           pose proof E as E2. rewrite Ez, app_assoc in E2. apply app_inj_tail in E2. destruct E2 as [-> <-].
           destruct c as [| c0 c]; [cbn in Ez; congruence |]. injection Ez as <- ->.
           exists b, c. split; [reflexivity |]. intros v'' Hin. apply (Ha v''). apply in_or_app. now left.
        -- right. split; [exact H |]. intros v'' Hin. apply (Hn v''). apply in_or_app. now left.
Qed.

(** ** Failures are reported *)

Lemma convert_error_kind : forall parse slice src cfg err,
  Convert.convert parse slice src cfg = Some (inr err) ->
  err = CEUnknown \/ (exists l, err = CESyntax l /\ l <> []) \/ (exists l, err = CESemantic l /\ l <> []).
Proof.
  intros parse slice src cfg err H. unfold Convert.convert in H.
  destruct (convert_to_internal parse slice src cfg false) as [[out [err' |]] |] eqn:E; try discriminate.
  injection H as ->.
  assert (HT : forall e, to_convert_error e = Some err ->
    err = CEUnknown \/ (exists l, err = CESyntax l /\ l <> []) \/ (exists l, err = CESemantic l /\ l <> [])).
  { intros e He. unfold to_convert_error in He. destruct (er_syntax e).
    - destruct (er_semantic e).
      + destruct (er_unknown e); [| discriminate]. injection He as <-. now left.
      + injection He as <-. right. right. eexists. split; [reflexivity | discriminate].
    - injection He as <-. right. left. eexists. split; [reflexivity | discriminate]. }
  unfold convert_to_internal in E.
  destruct (prepare parse slice src cfg (errors_new cfg)) as [e [ns | |]].
  - destruct (errors_empty e || false).
    + destruct (Output.output_html (slice src) cfg ns) as [o ok]. injection E as _ E. eapply HT, E.
    + injection E as _ E. eapply HT, E.
  - injection E as _ E. eapply HT, E.
  - discriminate.
Qed.

Lemma forgiving_error_kind : forall parse slice src cfg o err,
  Convert.convert_forgiving parse slice src cfg = Some (inr (o, err)) ->
  Convert.convert parse slice src cfg = Some (inr err).
Proof.
  intros parse slice src cfg o err H. destruct (P_Convert.strict_forgiving_all parse slice src cfg) as (_ & Hs & _).
  apply Hs. eauto.
Qed.

Lemma flat_map_nonempty : forall (A : Type) (f : A -> str) l x, In x l -> f x <> [] -> flat_map f l <> [].
Proof.
  intros A f l x Hin Hf E. induction l as [| y l IH]; [contradiction |]. cbn [flat_map] in E.
  apply app_eq_nil in E. destruct E as [E1 E2]. destruct Hin as [-> | Hin]; [contradiction | now apply IH].
Qed.

Lemma nonempty_app : forall (a b : str), b <> [] -> a ++ b <> [].
Proof. intros a b H E. apply app_eq_nil in E. now destruct E. Qed.

Section Failures.
Variable debug : str -> str.
Variable json : entry -> str.

Lemma entry_written : forall mode e, mode <> MSilent -> en_category e <> CatHidden -> write_error json mode e <> [].
Proof.
  intros mode e Hm Hc. unfold write_error. destruct (en_category e) eqn:E; try congruence;
    destruct mode; try congruence; repeat (apply nonempty_app); discriminate.
Qed.

Lemma error_written : forall mode d e, mode <> MSilent -> In e (entries debug d) -> en_category e <> CatHidden ->
  report debug json mode d <> [].
Proof.
  intros mode d e Hm Hin Hc. unfold report. eapply flat_map_nonempty; [exact Hin |]. now apply entry_written.
Qed.

Variable parse : str -> a_content + parse_error.
Variable slice : str -> lrange -> str.
Variable fs : io.
Variable cv : str -> config -> str + convert_error.
Variable cvf : str -> config -> str + option str * convert_error.

Lemma failure_reported : forall a stderr ws,
  library parse slice cv cvf -> visible_errors fs -> g_error_mode a <> MSilent ->
  runs fs cv cvf debug json a stderr ws false -> stderr = [] ->
  exists p j src, make_plan fs a = inl p /\ In j (jobs_of p) /\ io_read fs (fst j) = inl src /\
    Convert.convert parse slice src (as_config (g_options a)) = Some (inr CEUnknown).
Proof.
  intros a stderr ws Hlib (V1 & V2 & V3 & V4) Hmode H Hempty.
  inversion H as [evs ws' r He E1 E2 E3]. subst ws'.
  assert (Hev : forall ev, In ev evs -> exists d, ev = EvError d).
  { intros ev Hin. destruct (executes_jobs _ _ _ _ _ _ _ He) as [(e & _ & -> & _) | (p & run & _ & _ & Hevs & _)]; [contradiction |].
    apply Hevs in Hin. destruct Hin as (j & _ & Hin). eapply job_events_errors, Hin. }
  set (other := match r with inl _ => [] | inr e => [other_error e] end) in *.
  assert (Hother : forall ev, In ev (evs ++ other) -> exists d, ev = EvError d).
  { intros ev Hin. apply in_app_or in Hin. destruct Hin as [Hin | Hin]; [now apply Hev |].
    unfold other in Hin. destruct r; [contradiction |]. destruct Hin as [<- | []]. unfold other_error. eauto. }
  assert (Hall : forall d, In (EvError d) (evs ++ other) -> report debug json (g_error_mode a) d = []).
  { intros d Hd. rewrite app_assoc in E1. rewrite run_reporter_ok in E1.
    2: { right. apply in_or_app. right. now left. }
    cbn [with_mode] in E1. rewrite with_mode_only in E1 by exact Hother.
    rewrite Hempty in E1.
    destruct (report debug json (g_error_mode a) d) eqn:Er; [reflexivity |]. exfalso.
    assert (Hin : In (g_error_mode a, d) (map (fun x => (g_error_mode a, x)) (errors_of (evs ++ other)))).
    { apply in_map. unfold errors_of. apply in_flat_map. exists (EvError d). split; [exact Hd | now left]. }
    eapply (flat_map_nonempty _ (fun md => report debug json (fst md) (snd md))); [exact Hin | | exact E1].
    cbn [fst snd]. rewrite Er. discriminate. }
  assert (Hno : forall e, r = inr e -> ce_category e = Some CatHidden).
  { intros e ->. specialize (Hall (mkData None None [] [] [e])).
    assert (Hin : In (EvError (mkData None None [] [] [e])) (evs ++ other)) by (apply in_or_app; right; now left).
    specialize (Hall Hin). destruct (ce_category e) as [c |] eqn:Ec.
    - destruct c; try reflexivity; exfalso; revert Hall; eapply error_written; try exact Hmode;
        try (now left); cbn; rewrite Ec; discriminate.
    - exfalso; revert Hall; eapply error_written; try exact Hmode; try (now left). cbn. rewrite Ec. discriminate. }
  (* a failed job that was run *)
  assert (Hjob : forall p run j, make_plan fs a = inl p -> (forall j, In j run -> In j (jobs_of p)) ->
      (forall ev, In ev evs <-> exists j, In j run /\ In ev (jr_events (run_job fs cv cvf a j))) ->
      In j run -> jr_result (run_job fs cv cvf a j) <> inl true ->
      (forall e, jr_result (run_job fs cv cvf a j) = inr e -> ce_category e = Some CatHidden) ->
      exists p j src, make_plan fs a = inl p /\ In j (jobs_of p) /\ io_read fs (fst j) = inl src /\
        Convert.convert parse slice src (as_config (g_options a)) = Some (inr CEUnknown)).
  { intros p run [s d] Hp Hrun Hevs Hj Hne Hh. destruct (job_failed _ _ _ _ _ _ Hne) as [(src & e & Hr & Hin & Hcv) | (e & Hres & Hio)].
    - exists p, (s, d), src. split; [exact Hp |]. split; [now apply Hrun |]. split; [exact Hr |].
      destruct (Hlib src (as_config (g_options a))) as (L1 & L2).
      assert (Hc : Convert.convert parse slice src (as_config (g_options a)) = Some (inr e)).
      { destruct (forgives a).
        - destruct Hcv as (o & Ho). rewrite Ho in L2. eapply forgiving_error_kind, L2.
        - rewrite Hcv in L1. exact L1. }
      assert (Hin' : In (conversion_error s src e) (evs ++ other)).
      { apply in_or_app. left. apply Hevs. eauto. }
      destruct (convert_error_kind _ _ _ _ _ Hc) as [-> | [(l & -> & Hl) | (l & -> & Hl)]]; [exact Hc | |].
      + specialize (Hall _ Hin'). destruct l as [| x l]; [contradiction |]. exfalso. revert Hall.
        eapply error_written; [exact Hmode | |].
        * cbn. left. reflexivity.
        * discriminate.
      + specialize (Hall _ Hin'). destruct l as [| x l]; [contradiction |]. exfalso. revert Hall.
        eapply error_written; [exact Hmode | |].
        * cbn. left. reflexivity.
        * discriminate.
    - exfalso. specialize (Hh _ Hres). destruct Hio as [(e' & Hio & ->) | (t & e' & Hio & ->)]; cbn in Hh.
      + now apply (V3 _ _ Hio).
      + now apply (V4 _ _ _ Hio). }
  destruct (executes_jobs _ _ _ _ _ _ _ He) as [(e & Hp & _ & _ & Hr) | (p & run & Hp & Hrun & Hevs & _ & _ & _ & Herr & Hfalse)].
  - exfalso. specialize (Hno e Hr). destruct (P_Plan.plan_error fs a e Hp) as [(q & [Hq | Hq]) | [Ha | (_ & _ & _ & Ha)]].
    + now apply (V1 _ _ Hq).
    + now apply (V2 _ _ Hq).
    + unfold P_Plan.argument in Ha. congruence.
    + congruence.
  - destruct r as [[|] | e].
    + discriminate.
    + destruct (Hfalse eq_refl) as (j & Hj & Hres). eapply Hjob; try eassumption; rewrite Hres; discriminate.
    + destruct (Herr e eq_refl) as (j & Hj & Hres). eapply Hjob; try eassumption; rewrite Hres; [discriminate |].
      intros e' E'. injection E' as <-. now apply Hno.
Qed.
End Failures.

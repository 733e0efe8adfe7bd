(** * Runs come to an end. *)

From Coq Require Import List Lia.
From Verif Require Import Base Doc Config Errors Path Reporter Cli SpecCli Disk SpecDisk P_Path P_Disk P_Turns.
Import ListNotations.
Local Open Scope nat_scope.

Lemma ways_at : forall cs pre x todo, ways cs = pre ++ x :: todo -> exists y c, x = y ++ [c] /\ (y = [] \/ In y pre).
Proof.
  induction cs as [|c cs IH]; intros pre x todo E; cbn [ways] in E; [destruct pre; discriminate|].
  destruct pre as [|p pre]; injection E as E1 E2.
  - exists [], c. auto.
  - subst p. assert (exists pre' x' todo', pre = map (cons c) pre' /\ x = c :: x' /\ ways cs = pre' ++ x' :: todo') as (pre' & x' & todo' & -> & -> & E).
    { clear IH. revert pre E2. generalize (ways cs) as l. induction l as [|z l IHl]; intros pre E2; [destruct pre; discriminate|].
      cbn [map] in E2. destruct pre as [|p pre]; injection E2 as E1 E2.
      - exists [], z, l. auto.
      - destruct (IHl pre E2) as (a & b & d & -> & -> & ->). subst p. exists (z :: a), b, d. auto. }
    destruct (IH _ _ _ E) as (y & d & -> & Hy). exists (c :: y), d. split; [reflexivity|]. right.
    destruct Hy as [->|Hy]; [now left|]. right. now apply in_map.
Qed.
Lemma ways_self : forall cs, cs <> [] -> In cs (ways cs).
Proof.
  induction cs as [|c cs IH]; intros H; [contradiction|]. cbn [ways]. destruct cs as [|d cs]; [now left|]. right. apply in_map. apply IH. discriminate.
Qed.
Lemma removelast_shorter : forall (q : Disk.place), q <> [] -> removelast q <> q.
Proof. intros q H E. destruct q as [|x q _] using rev_ind; [contradiction|]. rewrite removelast_last in E. apply (f_equal (@length _)) in E. rewrite app_length in E. cbn in E. lia. Qed.

Section Ends.
Variable cwd : Disk.place.
Variable decode : bytes -> option str.
Variable encode : str -> bytes.
Variable cv : str -> config -> str + convert_error.
Variable cvf : str -> config -> str + option str * convert_error.
Variable stdin : bytes.
Variable a : args.
Variable jobs : list (stream * stream).
Variable w0 : world.
Hypothesis apart : separate cwd jobs.
Notation job := (stream * stream)%type.
Notation step := (Disk.step cwd decode encode cv cvf stdin a).
Notation steps := (Disk.steps cwd decode encode cv cvf stdin a).
Notation moves := (SpecDisk.moves cwd decode encode cv cvf stdin a).
Notation makes := (P_Disk.makes cwd decode cv cvf stdin a w0).
Notation first := (P_Disk.first_contents cwd stdin w0).
Notation done_so_far := (P_Disk.done_so_far cwd decode encode cv cvf stdin a w0).
Notation at_work := (P_Disk.at_work cwd jobs).
Notation job_dirs := (P_Turns.job_dirs cwd).
Notation dirs_so_far := (P_Turns.dirs_so_far cwd decode cv cvf stdin a w0).

(** ** How much is left to do *)
Definition write_left (j : job) (n : nat) : nat := match snd j with SFile p => length (dirs_to cwd p) + 3 + n + 1 | Stdio => n + 1 end.
Definition size (j : job) : nat := match first (fst j) with Some data => length data | None => 0 end.
Definition after_reading (j : job) : nat :=
  match first (fst j) with
  | Some data => match decode data with
                 | Some src => match fst (conversion cv cvf a src) with Some t => write_left j (length (encode t)) | None => 0 end
                 | None => 0
                 end
  | None => 0
  end.
Definition left_to_do (x : job * phase) : nat :=
  match snd x with
  | Start => 2 + size (fst x) + after_reading (fst x)
  | Reading _ got => 1 + (size (fst x) - length got) + after_reading (fst x)
  | Making todo text _ => length todo + 3 + length text + 1
  | Opening text _ => 2 + length text + 1
  | Emptying _ text _ => 1 + length text + 1
  | Writing _ _ rest _ => length rest + 1
  | Finished _ => 0
  end.
Definition left_all (l : running) : nat := list_sum (map left_to_do l).

Lemma left_step : forall j w ph w' ph', step (fst j) (snd j) w ph w' ph' -> kept cwd jobs w0 w -> at_work w (j, ph) -> done_so_far w (j, ph) ->
  left_to_do (j, ph') <= left_to_do (j, ph) /\ (ph' <> ph -> left_to_do (j, ph') < left_to_do (j, ph)).
Proof.
  intros j w ph w' ph' Hs K Hw HD. assert (In j jobs) as Hj by apply Hw.
  assert (forall x y, x < y -> x <= y /\ (ph' <> ph -> x < y)) as HL by (intros; split; [lia|auto]).
  destruct Hs; unfold left_to_do; cbn [fst snd length] in *; try (apply HL; lia).
  - destruct Hw as [_ Hw]. cbn [fst snd] in Hw. subst from. pose proof (source_first cwd stdin jobs w0 apart w j data Hj K H) as E.
    unfold P_Disk.done_so_far in HD. cbn [fst snd] in HD. destruct HD as [_ (d & m & Hd & Em)]. rewrite E in Hd. injection Hd as <-.
    assert (data = got ++ chunk ++ more) as Ed by (rewrite <- H0; subst data; now rewrite skipn_app, skipn_all, Nat.sub_diag).
    unfold size. rewrite E, Ed, !app_length. split; [lia|]. intros Hn. destruct chunk as [|c chunk]; [rewrite app_nil_r in Hn; contradiction|]. cbn [length]. lia.
  - pose proof (read_all cwd decode encode cv cvf stdin a jobs w0 apart w j from got data Hw HD K H H0) as E.
    apply HL. unfold after_reading, size. rewrite E, H1, H2. cbn [fst]. destruct out as [t|]; [|lia].
    unfold begin_write, write_left. destruct (snd j) as [p|]; cbn [length]; lia.
  - rewrite !app_length. split; [lia|]. intros Hn. destruct chunk as [|c chunk]; [cbn [length app] in Hn; rewrite Nat.add_0_r in Hn; contradiction|]. cbn [length]. lia.
  - rewrite !app_length. split; [lia|]. intros Hn. destruct chunk as [|c chunk]; [cbn [length app] in Hn; rewrite Nat.add_0_r in Hn; contradiction|]. cbn [length]. lia.
  - destruct ph as [| | | | | |r]; try (apply HL; lia). exfalso. exact (H r eq_refl).
Qed.

Lemma left_app : forall before x after, left_all (before ++ x :: after) = left_all before + left_to_do x + left_all after.
Proof. intros. unfold left_all. rewrite map_app, list_sum_app. cbn [map list_sum fold_right]. unfold list_sum. lia. Qed.
Lemma moves_steps : forall n s s', moves n s s' -> steps s s'.
Proof. induction 1; [apply StepsHere|eapply StepsOne; eauto|eapply StepsOne; eauto]. Qed.
Lemma at_state : forall w before j ph after, steps (w0, begin jobs) (w, before ++ (j, ph) :: after) ->
  kept cwd jobs w0 w /\ at_work w (j, ph) /\ done_so_far w (j, ph).
Proof.
  intros w before j ph after H. destruct (steps_kept cwd decode encode cv cvf stdin a jobs _ _ _ _ H (begin_works cwd jobs w0)) as (K & HW & _).
  pose proof (steps_done cwd decode encode cv cvf stdin a jobs w0 apart _ _ H) as HD. split; [exact K|].
  rewrite Forall_forall in HW, HD. split; [apply HW|apply HD]; apply in_or_app; right; now left.
Qed.
Theorem moves_bound : forall n w l, moves n (w0, begin jobs) (w, l) -> n + left_all l <= left_all (begin jobs).
Proof.
  intros n w l H. remember (w0, begin jobs) as s eqn:Es. remember (w, l) as s' eqn:Es'. revert w l Es'.
  induction H as [s|n s w1 before j ph after w2 ph' H IH Hs|n s w1 before j ph after w2 ph' H IH Hs Hn]; intros w l Es'; subst; injection Es' as <- <-.
  - lia.
  - specialize (IH eq_refl _ _ eq_refl). destruct (at_state w1 before j ph after (moves_steps _ _ _ H)) as (K & HW & HD).
    destruct (left_step j w1 ph w2 ph' Hs K HW HD) as [L _]. rewrite left_app in *. lia.
  - specialize (IH eq_refl _ _ eq_refl). destruct (at_state w1 before j ph after (moves_steps _ _ _ H)) as (K & HW & HD).
    destruct (left_step j w1 ph w2 ph' Hs K HW HD) as [_ L]. specialize (L Hn). rewrite left_app in *. lia.
Qed.

(** ** The next step *)
Hypothesis can : doable cwd decode stdin jobs w0.
Hypothesis goes_on : o_fail_fast (g_options a) <> Some FFTrue.

Lemma put_tree : forall w q e, is_tree w -> in_dir w q -> w_disk w q <> Some DDir -> is_tree (put_w w q e).
Proof.
  intros w q e [T1 T2] HI HQ. assert (q <> []) as Hq by (intros ->; contradiction). destruct HI as [HI|HI]; [contradiction|].
  split; cbn [put_w w_disk].
  - rewrite put_other by congruence. exact T1.
  - intros p Hp Hd. destruct (place_dec p q) as [->|E].
    + rewrite put_other; [exact HI|]. now apply removelast_shorter.
    + rewrite put_other in Hd by exact E. specialize (T2 p Hp Hd). rewrite put_other; [exact T2|]. intros E2. rewrite E2 in T2. contradiction.
Qed.
Lemma tree_in_dir : forall w q data, is_tree w -> w_disk w q = Some (DFile data) -> in_dir w q.
Proof. intros w q data [T1 T2] H. destruct q as [|x q]; [now left|]. right. apply T2; [discriminate|congruence]. Qed.
Lemma tree_step : forall w j ph w' ph', step (fst j) (snd j) w ph w' ph' -> at_work w (j, ph) -> is_tree w -> is_tree w'.
Proof.
  intros w j ph w' ph' Hs [_ Hw] T. destruct Hs; cbn [fst snd] in *; auto.
  - apply put_tree; auto. congruence.
  - apply put_tree; auto. congruence.
  - destruct Hw as [_ [d Hd]]. apply put_tree; auto; [eapply tree_in_dir; eauto|congruence].
  - apply put_tree; auto; [eapply tree_in_dir; eauto|congruence].
Qed.
Lemma invs : forall w l, steps (w0, begin jobs) (w, l) -> is_tree w /\ new_dirs cwd decode cv cvf stdin a jobs w0 w /\ Forall (dirs_so_far w) l.
Proof.
  intros w l H. destruct (steps_inv cwd decode encode cv cvf stdin a jobs w0 apart
    (fun w => is_tree w /\ new_dirs cwd decode cv cvf stdin a jobs w0 w) dirs_so_far) with (w := w) (l := l) as [[H1 H2] H3]; auto.
  - split; [apply can|]. intros q E1 E2. congruence.
  - intros; exact I.
  - intros w1 j ph w2 ph' Hs K Hw HD [T N] F.
    destruct (dirs_step cwd decode encode cv cvf stdin a jobs w0 apart w1 j ph w2 ph' Hs K Hw HD N F) as [N' F'].
    split; [|exact F']. split; [eapply tree_step; eauto|exact N'].
  - apply dirs_other.
Qed.

Lemma conversion_goes_on : forall src out r, conversion cv cvf a src = (out, r) -> exists ok, r = inl ok.
Proof.
  intros src out r. unfold conversion. destruct (if match o_forgiving (g_options a) with Some b => b | None => false end then _ else _) as [o e].
  intros [= _ <-]. destruct (is_none e && is_some o); [eauto|]. destruct (o_fail_fast (g_options a)) as [[]|]; eauto. contradiction.
Qed.
Lemma makes_goes_on : forall j t r, makes j t r -> exists ok, r = inl ok.
Proof. intros j t r (d & s & _ & _ & H). eapply conversion_goes_on; eauto. Qed.

Lemma way_in : forall j q, In j jobs -> In q (job_dirs j) -> on_the_way cwd jobs q.
Proof.
  intros j q Hj Hq. unfold P_Turns.job_dirs in Hq. destruct (snd j) as [p|] eqn:Ep; [|contradiction]. unfold dirs_to in Hq.
  destruct (parent p) as [dir|] eqn:Ed; [|contradiction]. apply in_map_iff in Hq. destruct Hq as (cs & <- & Hq).
  destruct (ways_prefix _ _ Hq) as [more E]. exists j, p, dir, cs, more. auto.
Qed.
Lemma first_source : forall w j, In j jobs -> kept cwd jobs w0 w -> exists data src, contents stdin w (file_of cwd (fst j)) = Some data /\ first (fst j) = Some data /\ decode data = Some src.
Proof.
  intros w j Hj (K1 & _). destruct (do_sources _ _ _ _ _ can j Hj) as (src & data & Hd & HS). exists data, src.
  assert (first (fst j) = Some data) as E.
  { unfold P_Disk.first_contents, contents. destruct (fst j) as [p|]; cbn [file_of]; [now rewrite HS|now rewrite HS]. }
  split; [|auto]. unfold P_Disk.first_contents, contents in *. destruct (file_of cwd (fst j)) as [q|] eqn:Eq; [|exact E].
  assert (~ is_output cwd jobs q) as Hn by (intros (j' & Hj' & Ej'); exact (proj2 apart j' j q Hj' Hj Ej' Eq)).
  destruct (w_disk w0 q) as [[d|]|] eqn:E0; try discriminate. injection E as ->. now rewrite (K1 q data E0 Hn).
Qed.

(** The directory of the next place is there. *)
Lemma dir_before : forall w pre q todo j p, is_tree w -> w_disk w cwd = Some DDir -> snd j = SFile p -> job_dirs j = pre ++ q :: todo -> Forall (is_dir w) pre ->
  w_disk w q = None -> in_dir w q.
Proof.
  intros w pre q todo j p [T1 T2] HC Ep E HF HQ. unfold P_Turns.job_dirs in E. rewrite Ep in E. unfold dirs_to in E.
  destruct (parent p) as [dir|]; [|destruct pre; discriminate].
  assert (exists pre' x todo', ways (components dir) = pre' ++ x :: todo' /\ pre = map (follow cwd) pre' /\ q = follow cwd x) as (pre' & x & todo' & E' & -> & ->).
  { clear - E. revert pre E. generalize (ways (components dir)) as l. induction l as [|z l IH]; intros pre E; [destruct pre; discriminate|].
    cbn [map] in E. destruct pre as [|y pre]; injection E as E1 E2.
    - exists [], z, l. auto.
    - destruct (IH pre E2) as (u & v & t & -> & -> & ->). subst y. exists (z :: u), v, t. auto. }
  destruct (ways_at _ _ _ _ E') as (y & c & -> & Hy). rewrite follow_snoc in *.
  assert (w_disk w (follow cwd y) = Some DDir) as HY.
  { destruct Hy as [->|Hy]; [exact HC|]. rewrite Forall_forall in HF. apply HF. now apply in_map. }
  destruct c as [| | |n]; cbn [follow] in *.
  - now left.
  - congruence.
  - destruct (follow cwd y) as [|z u] eqn:Ey; [now left|]. exfalso. rewrite T2 in HQ; [discriminate|discriminate|congruence].
  - right. now rewrite removelast_last.
Qed.

Theorem next_step : forall w before j ph after, steps (w0, begin jobs) (w, before ++ (j, ph) :: after) -> (forall r, ph <> Finished r) ->
  exists w' ph', step (fst j) (snd j) w ph w' ph' /\ ph' <> ph /\ forall e, ph' <> Finished (inr e).
Proof.
  intros w before j ph after H HN. destruct (at_state _ _ _ _ _ H) as (K & HW & HD). destruct (invs _ _ H) as (T & ND & DS).
  assert (dirs_so_far w (j, ph)) as HF by (rewrite Forall_forall in DS; apply DS; apply in_or_app; right; now left). clear DS.
  assert (In j jobs) as Hj by apply HW. destruct (first_source w j Hj K) as (data & src & Ed & Ef & Es).
  assert (w_disk w cwd = Some DDir) as HC by (apply K; apply can).
  unfold P_Disk.done_so_far in HD. unfold P_Turns.dirs_so_far in HF. pose proof HW as [_ HW']. cbn [fst snd] in HD, HF, HW'.
  destruct ph as [|from got|todo text r|text r|q text r|[q|] n rest r|r].
  - destruct (fst j) as [p|] eqn:Ej.
    + cbn [file_of contents] in Ed. destruct (w_disk w (resolve cwd p)) as [[d|]|] eqn:Ew; try discriminate.
      exists w, (Reading (Some (resolve cwd p)) []). split; [eapply StOpen; eauto|]. split; [discriminate|intros e; discriminate].
    + exists w, (Reading None []). split; [now apply StStdin|]. split; [discriminate|intros e; discriminate].
  - destruct HD as [_ (d & m & Hd & Em)]. rewrite Ef in Hd. injection Hd as <-. subst from. destruct m as [|c m].
    + rewrite app_nil_r in Em. subst got. destruct (conversion cv cvf a src) as [out r] eqn:Ec.
      destruct (conversion_goes_on _ _ _ Ec) as [ok ->].
      eexists w, _. split; [eapply StConvert; eauto; apply skipn_all|].
      destruct out as [t|]; [unfold begin_write; destruct (snd j)|]; (split; [discriminate|intros e; discriminate]).
    + exists w, (Reading (file_of cwd (fst j)) (got ++ c :: m)). split.
      * eapply StRead with (more := []); [exact Ed|]. rewrite Em. now rewrite skipn_app, skipn_all, Nat.sub_diag, app_nil_r.
      * split; [|intros e; discriminate]. intros [= E]. apply (f_equal (@length _)) in E. rewrite app_length in E. cbn in E. lia.
  - destruct HF as (pre & p & Ep & E & H1). destruct todo as [|q todo].
    + eexists _, _. split; [apply StReady|]. split; [discriminate|intros e; discriminate].
    + assert (Hne : Making todo text r <> Making (q :: todo) text r) by (intros [= X]; apply (f_equal (@length _)) in X; cbn in X; lia).
      assert (on_the_way cwd jobs q) as HY by (apply (way_in j); [exact Hj|]; rewrite E; apply in_or_app; right; now left).
      destruct (w_disk w q) as [[d|]|] eqn:Ew.
      * exfalso. destruct K as (K1 & K2 & K3 & K4). destruct (w_disk w0 q) as [[d0|]|] eqn:E0.
        -- exact (do_ways _ _ _ _ _ can q d0 HY E0).
        -- rewrite (K2 q E0) in Ew. discriminate.
        -- destruct (K3 q E0) as [(i & Hi & Ei)|[_ G]]; [congruence| |congruence].
           destruct (snd i) as [pi|] eqn:Epi; [|discriminate]. cbn in Ei. injection Ei as <-.
           destruct (do_outputs _ _ _ _ _ can i pi Hi Epi) as (_ & _ & G). exact (G HY).
      * eexists _, _. split; [now apply StMade|]. split; [exact Hne|intros e; discriminate].
      * eexists _, _. split; [apply StMake; [exact Ew|eapply dir_before; eauto]|]. split; [exact Hne|intros e; discriminate].
  - destruct HF as (p & Ep & H1). destruct (do_outputs _ _ _ _ _ can j p Hj Ep) as (G1 & G2 & G3).
    assert (w_disk w (resolve cwd p) <> Some DDir) as HQ.
    { intros X. destruct K as (K1 & K2 & K3 & K4). destruct (w_disk w0 (resolve cwd p)) as [[d0|]|] eqn:E0; [|contradiction|].
      - destruct (K4 _ _ E0) as [d' Hd']. congruence.
      - destruct (ND _ E0 X) as (i & t & r' & Hi & Hq & _). apply G3. eapply way_in; eauto. }
    destruct (w_disk w (resolve cwd p)) as [[d|]|] eqn:Ew; [|contradiction|].
    + eexists _, _. split; [eapply StExists; eauto|]. split; [discriminate|intros e; discriminate].
    + eexists _, _. split; [eapply StCreate; eauto|split; [discriminate|intros e; discriminate]].
      unfold file_name in G1. destruct (last_opt (components p)) as [[| | |m]|] eqn:El; try contradiction.
      destruct (last_opt_inv _ _ _ El) as [cs Ecs]. pose proof (components_pop p cs m Ecs) as Hpop.
      right. unfold resolve. rewrite Ecs, follow_snoc. cbn [follow]. rewrite removelast_last.
      destruct cs as [|c0 cs0]; [exact HC|]. set (cs := c0 :: cs0) in *.
      unfold pop in Hpop. destruct (parent p) as [dir|] eqn:Edir.
      * unfold P_Turns.job_dirs in H1. rewrite Ep in H1. unfold dirs_to in H1. rewrite Edir, Hpop in H1. rewrite Forall_forall in H1.
        apply H1. apply in_map. apply ways_self. discriminate.
      * exfalso. rewrite Ecs in Hpop. apply (f_equal (@length _)) in Hpop. rewrite app_length in Hpop. cbn in Hpop. lia.
  - eexists _, _. split; [apply StEmpty|]. split; [discriminate|intros e; discriminate].
  - destruct HD as (t & pre & M & Et & -> & Hq). destruct rest as [|c rest].
    + destruct (makes_goes_on _ _ _ M) as [ok ->]. eexists _, _. split; [apply StWritten|]. split; [discriminate|intros e; discriminate].
    + pose proof (StWrite cwd decode encode cv cvf stdin a (fst j) (snd j) w q pre (length pre) (c :: rest) [] r Hq) as X. rewrite app_nil_r in X.
      eexists _, _. split; [exact X|]. split; [intros [= G]; cbn in G; lia|intros e; discriminate].
  - destruct HD as (t & pre & M & Et & Ho). destruct rest as [|c rest].
    + destruct (makes_goes_on _ _ _ M) as [ok ->]. eexists _, _. split; [apply StWritten|]. split; [discriminate|intros e; discriminate].
    + pose proof (StPrint cwd decode encode cv cvf stdin a (fst j) (snd j) w n (c :: rest) [] r) as X. rewrite app_nil_r in X.
      eexists _, _. split; [exact X|]. split; [intros [= G]; cbn in G; lia|intros e; discriminate].
  - exfalso. exact (HN r eq_refl).
Qed.

Lemma finish : forall n w l s, left_all l <= n -> steps (w0, begin jobs) (w, l) -> steps s (w, l) -> no_failure l ->
  exists w' l', steps (w0, begin jobs) (w', l') /\ steps s (w', l') /\ ended l'.
Proof.
  induction n as [n IH] using (well_founded_induction Wf_nat.lt_wf). intros w l s HL H HS HF.
  assert (ended l \/ exists before j ph after, l = before ++ (j, ph) :: after /\ forall r, ph <> Finished r) as [HE|(before & j & ph & after & -> & HN)].
  { clear - HF. induction l as [|[j ph] l IH]; [left; constructor|]. inversion HF as [|? ? H1 H2]; subst.
    destruct (IH H2) as [HE|(b & i & pi & e & -> & HN)]; [|right; exists ((j, ph) :: b), i, pi, e; auto].
    destruct ph as [|? ?|? ? ?|? ?|? ? ?|? ? ? ?|[ok|e]]; try (right; eexists [], j, _, l; split; [reflexivity|intro; discriminate]).
    - left. constructor; [exists ok; reflexivity|exact HE].
    - exfalso. exact (H1 e eq_refl). }
  { exists w, l. auto. }
  destruct (next_step _ _ _ _ _ H HN) as (w' & ph' & Hs & Hne & Hnf). destruct (at_state _ _ _ _ _ H) as (K & HW & HD).
  destruct (left_step j w ph w' ph' Hs K HW HD) as [_ L]. specialize (L Hne). rewrite left_app in HL.
  apply (IH (left_all (before ++ (j, ph') :: after))) with (w := w') (l := before ++ (j, ph') :: after).
  - rewrite left_app. lia.
  - lia.
  - eapply StepsOne; eauto.
  - eapply StepsOne; eauto.
  - unfold no_failure in *. apply Forall_app in HF as [F1 F2]. inversion F2; subst. apply Forall_app. split; [exact F1|]. constructor; auto.
Qed.
End Ends.

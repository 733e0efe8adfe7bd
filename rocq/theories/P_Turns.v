(** * Runs: the order of turns, and their end. *)

From Coq Require Import List Lia.
From Verif Require Import Base Doc Config Errors Path Reporter Cli SpecCli Disk SpecDisk P_Path P_Disk.
Import ListNotations.

Section Turns.
Variable cwd : Disk.place.
Variable decode : bytes -> option str.
Variable encode : str -> bytes.
Variable cv : str -> config -> str + convert_error.
Variable cvf : str -> config -> str + option str * convert_error.
Variable stdin : bytes.
Variable a : args.
Variable jobs : list (stream * stream).
Variable w0 : world.
Hypothesis apart : separate cwd jobs.
Notation job := (stream * stream)%type.
Notation step := (Disk.step cwd decode encode cv cvf stdin a).
Notation steps := (Disk.steps cwd decode encode cv cvf stdin a).
Notation makes := (P_Disk.makes cwd decode cv cvf stdin a w0).
Notation first := (P_Disk.first_contents cwd stdin w0).
Notation done_so_far := (P_Disk.done_so_far cwd decode encode cv cvf stdin a w0).
Notation at_work := (P_Disk.at_work cwd jobs).
Notation change := (P_Disk.change cwd).

(** ** Invariants along an execution *)
Lemma steps_inv : forall (P : world -> Prop) (I : world -> job * phase -> Prop),
  P w0 -> (forall j, In j jobs -> I w0 (j, Start)) ->
  (forall w j ph w' ph', step (fst j) (snd j) w ph w' ph' -> kept cwd jobs w0 w -> at_work w (j, ph) -> done_so_far w (j, ph) ->
     P w -> I w (j, ph) -> P w' /\ I w' (j, ph')) ->
  (forall w j ph w' x, change j ph w w' -> at_work w (j, ph) -> I w x -> I w' x) ->
  forall w l, steps (w0, begin jobs) (w, l) -> P w /\ Forall (I w) l.
Proof.
  intros P I P0 I0 HS HO w l H. remember (w0, begin jobs) as s eqn:Es. remember (w, l) as s' eqn:Es'. revert w l Es'.
  induction H as [s|s w1 before j ph after w2 ph' H IH Hs]; intros w l Es'.
  - subst. injection Es' as <- <-. split; [exact P0|]. apply Forall_forall. intros x Hx. apply in_map_iff in Hx. destruct Hx as (j & <- & Hj). auto.
  - subst. injection Es' as <- <-. destruct (IH eq_refl _ _ eq_refl) as [HP HI].
    destruct (steps_kept cwd decode encode cv cvf stdin a jobs _ _ _ _ H (begin_works cwd jobs w0)) as (K & HW & _).
    pose proof (steps_done cwd decode encode cv cvf stdin a jobs w0 apart _ _ H) as HD.
    pose proof (step_change cwd decode encode cv cvf stdin a _ _ _ _ _ Hs) as Hc.
    apply Forall_app in HW as [WB WA]. apply Forall_app in HD as [DB DA]. apply Forall_app in HI as [IB IA].
    inversion WA; subst. inversion DA; subst. inversion IA; subst.
    destruct (HS w1 j ph w2 ph') as [P2 I2]; auto. split; [exact P2|].
    inversion IA as [|? ? _ IA']; subst. apply Forall_app. split; [|constructor; [exact I2|]]; [eapply Forall_impl; [|exact IB]|eapply Forall_impl; [|exact IA']]; intros x; apply (HO w1 j ph w2 x Hc); assumption.
Qed.

(** ** Directories *)
Definition job_dirs (j : job) : list Disk.place := match snd j with SFile p => dirs_to cwd p | Stdio => [] end.
Definition is_dir (w : world) (q : Disk.place) : Prop := w_disk w q = Some DDir.
(** The conversion writes nothing. *)
Definition silent (j : job) (r : cres bool) : Prop :=
  exists data src, first (fst j) = Some data /\ decode data = Some src /\ conversion cv cvf a src = (None, r).
Definition dirs_so_far (w : world) (x : job * phase) : Prop :=
  match snd x with
  | Making todo _ _ => exists pre p, snd (fst x) = SFile p /\ job_dirs (fst x) = pre ++ todo /\ Forall (is_dir w) pre
  | Opening _ _ => exists p, snd (fst x) = SFile p /\ Forall (is_dir w) (job_dirs (fst x))
  | Emptying _ _ _ | Writing _ _ _ _ => Forall (is_dir w) (job_dirs (fst x))
  | Finished (inl ok) => Forall (is_dir w) (job_dirs (fst x)) \/ silent (fst x) (inl ok)
  | _ => True
  end.
Definition new_dirs (w : world) : Prop :=
  forall q, w_disk w0 q = None -> w_disk w q = Some DDir -> exists j t r, In j jobs /\ In q (job_dirs j) /\ makes j t r.

Lemma dirs_other : forall w j ph w' x, change j ph w w' -> at_work w (j, ph) -> dirs_so_far w x -> dirs_so_far w' x.
Proof.
  intros w j ph w' [i pi] Hc Hw. assert (forall l, Forall (is_dir w) l -> Forall (is_dir w') l) as HF.
  { intros l. apply Forall_impl. intros q. apply (change_dir cwd jobs j ph w w' q Hc Hw). }
  unfold dirs_so_far. cbn [fst snd]. destruct pi as [|from got|todo text r|text r|q text r|q n rest r|[ok|e]]; auto.
  - intros (pre & p & Ep & E & H). exists pre, p. auto.
  - intros (p & Ep & H). exists p. auto.
  - intros [H|H]; auto.
Qed.
Lemma read_all : forall w j from got data, at_work w (j, Reading from got) -> done_so_far w (j, Reading from got) -> kept cwd jobs w0 w ->
  contents stdin w from = Some data -> skipn (length got) data = [] -> first (fst j) = Some got.
Proof.
  intros w j from got data Hw HD K H H0. assert (In j jobs) as Hj by apply Hw. destruct Hw as [_ Hw]. cbn [fst snd] in Hw. subst from.
  pose proof (source_first cwd stdin jobs w0 apart w j data Hj K H) as E. unfold P_Disk.done_so_far in HD. cbn [fst snd] in HD.
  destruct HD as [_ (d & m & Hd & Em)]. rewrite E in Hd. injection Hd as <-. subst data.
  rewrite skipn_app, skipn_all, Nat.sub_diag in H0. cbn in H0. subst m. now rewrite app_nil_r in E.
Qed.
Lemma dirs_step : forall w j ph w' ph', step (fst j) (snd j) w ph w' ph' -> kept cwd jobs w0 w -> at_work w (j, ph) -> done_so_far w (j, ph) ->
  new_dirs w -> dirs_so_far w (j, ph) -> new_dirs w' /\ dirs_so_far w' (j, ph').
Proof.
  intros w j ph w' ph' Hs K Hw HD HN HF. assert (In j jobs) as Hj by apply Hw.
  pose proof (step_change cwd decode encode cv cvf stdin a _ _ _ _ _ Hs) as Hc.
  pose proof (dirs_other w j ph w' (j, ph) Hc Hw HF) as HF'. unfold dirs_so_far in HF, HF'. cbn [fst snd] in HF, HF'. split.
  - intros q H0 Hq. destruct Hc as [->|p todo text r -> Hn ->|p d Hd ->|chunk n rest r -> ->]; cbn [put_w w_disk] in Hq; auto.
    + destruct (place_dec q p) as [->|E]; [|rewrite put_other in Hq by exact E; auto].
      cbn in HF. destruct HF as (pre & p' & _ & E & _). unfold P_Disk.done_so_far in HD. cbn [fst snd] in HD. destruct HD as [_ (t & HM & _)].
      exists j, t, r. split; [exact Hj|]. split; [|exact HM]. rewrite E. apply in_or_app. right. now left.
    + destruct (place_dec q p) as [->|E]; [rewrite put_same in Hq; discriminate|rewrite put_other in Hq by exact E; auto].
  - destruct Hs; cbn [fst snd] in *; unfold dirs_so_far; cbn [fst snd]; auto.
    + pose proof (read_all w j from got data Hw HD K H H0) as Hg. destruct out as [t|].
      * unfold begin_write. destruct (snd j) as [p|] eqn:Ej; unfold job_dirs; rewrite Ej; [exists [], p; repeat split; constructor|constructor].
      * destruct r as [ok|e]; [|exact I]. right. exists got, src. auto.
    + destruct HF' as (pre & p & Ep & E & H1). exists (pre ++ [q]), p. split; [exact Ep|]. rewrite <- app_assoc. split; [exact E|]. apply Forall_app. split; [exact H1|].
      repeat constructor. unfold is_dir. cbn. apply put_same.
    + destruct HF as (pre & p & Ep & E & H1). exists (pre ++ [q]), p. split; [exact Ep|]. rewrite <- app_assoc. split; [exact E|]. apply Forall_app. split; [exact H1|]. now repeat constructor.
    + destruct HF as (pre & p & Ep & E & H1). rewrite app_nil_r in E. exists p. split; [exact Ep|]. now rewrite E.
    + destruct HF' as (p' & _ & HF'). exact HF'.
    + destruct HF' as (p' & _ & HF'). exact HF'.
    + destruct r; auto.
Qed.

(** ** The order of turns *)
Lemma makes_one : forall j t r t' r', makes j t r -> makes j t' r' -> t = t' /\ r = r'.
Proof. intros j t r t' r' (d & s & H1 & H2 & H3) (d' & s' & G1 & G2 & G3). rewrite H1 in G1. injection G1 as <-. rewrite H2 in G2. injection G2 as <-. rewrite H3 in G3. now injection G3. Qed.
Lemma makes_silent : forall j t r r', makes j t r -> silent j r' -> False.
Proof. intros j t r r' (d & s & H1 & H2 & H3) (d' & s' & G1 & G2 & G3). rewrite H1 in G1. injection G1 as <-. rewrite H2 in G2. injection G2 as <-. rewrite H3 in G3. discriminate. Qed.
Lemma silent_one : forall j r r', silent j r -> silent j r' -> r = r'.
Proof. intros j r r' (d & s & H1 & H2 & H3) (d' & s' & G1 & G2 & G3). rewrite H1 in G1. injection G1 as <-. rewrite H2 in G2. injection G2 as <-. rewrite H3 in G3. now injection G3. Qed.

Lemma all_ended : forall w l, steps (w0, begin jobs) (w, l) -> ended l -> forall j, In j jobs -> exists ok, In (j, Finished (inl ok)) l.
Proof.
  intros w l H HE j Hj. destruct (steps_kept cwd decode encode cv cvf stdin a jobs _ _ _ _ H (begin_works cwd jobs w0)) as (_ & _ & HM).
  rewrite begin_jobs in HM. rewrite <- HM in Hj. apply in_map_iff in Hj. destruct Hj as ([i ph] & <- & Hx).
  unfold ended in HE. rewrite Forall_forall in HE. destruct (HE _ Hx) as [ok E]. cbn in E. subst. exists ok. exact Hx.
Qed.
Lemma ended_at : forall w l j ok, steps (w0, begin jobs) (w, l) -> In (j, Finished (inl ok)) l ->
  (exists t, makes j t (inl ok) /\ has_text cwd encode w0 w (snd j) t /\ Forall (is_dir w) (job_dirs j)) \/
  silent j (inl ok) /\ as_before cwd w0 w (snd j).
Proof.
  intros w l j ok H Hx. pose proof (steps_done cwd decode encode cv cvf stdin a jobs w0 apart _ _ H) as HD.
  destruct (steps_inv new_dirs dirs_so_far) with (w := w) (l := l) as [_ HI]; auto.
  - intros q H0 H1. congruence.
  - intros; exact I.
  - exact dirs_step.
  - exact dirs_other.
  - rewrite Forall_forall in HD, HI. specialize (HD _ Hx). specialize (HI _ Hx). cbn in HD, HI.
    destruct HD as [(t & HM & HT)|[HN HB]]; [|right; split; [exact HN|exact HB]]. left. exists t. split; [exact HM|]. split; [exact HT|].
    destruct HI as [HI|HI]; [exact HI|]. exfalso. eapply makes_silent; eauto.
Qed.
Lemma new_dir : forall w l, steps (w0, begin jobs) (w, l) -> new_dirs w.
Proof.
  intros w l H. destruct (steps_inv new_dirs dirs_so_far) with (w := w) (l := l) as [HI _]; auto.
  - intros q H0 H1. congruence.
  - intros; exact I.
  - exact dirs_step.
  - exact dirs_other.
Qed.
Lemma dirs_same : forall w l w' l' q, steps (w0, begin jobs) (w, l) -> steps (w0, begin jobs) (w', l') -> ended l' ->
  w_disk w0 q = None -> w_disk w q = Some DDir -> w_disk w' q = Some DDir.
Proof.
  intros w l w' l' q H H' HE' H0 Hq. destruct (new_dir _ _ H q H0 Hq) as (j & t & r & Hj & Hi & HM).
  destruct (all_ended _ _ H' HE' j Hj) as [ok Hx]. destruct (ended_at _ _ _ _ H' Hx) as [(t' & _ & _ & HF)|[HN _]].
  - rewrite Forall_forall in HF. exact (HF q Hi).
  - exfalso. eapply makes_silent; eauto.
Qed.
Lemma out_kept : forall w l, steps (w0, begin jobs) (w, l) -> (forall j, In j jobs -> snd j <> Stdio) -> w_out w = w_out w0.
Proof.
  intros w l H HN. destruct (steps_inv (fun w => w_out w = w_out w0) (fun _ _ => True)) with (w := w) (l := l) as [HI _]; auto.
  intros w1 j ph w2 ph' Hs _ Hw _ E _. split; [|exact I]. pose proof (step_change cwd decode encode cv cvf stdin a _ _ _ _ _ Hs) as Hc.
  destruct Hc as [->|p todo text r -> Hn ->|p d Hd ->|chunk n rest r -> ->]; cbn; auto.
  destruct Hw as [Hj Hw]. cbn in Hw. exfalso. exact (HN j Hj Hw).
Qed.

Theorem same_end : forall w l w' l', steps (w0, begin jobs) (w, l) -> steps (w0, begin jobs) (w', l') -> ended l -> ended l' ->
  l = l' /\ w_out w = w_out w' /\ forall q, w_disk w q = w_disk w' q.
Proof.
  intros w l w' l' H H' HE HE'.
  destruct (steps_kept cwd decode encode cv cvf stdin a jobs _ _ _ _ H (begin_works cwd jobs w0)) as ((K1 & K2 & K3 & _) & _ & HM).
  destruct (steps_kept cwd decode encode cv cvf stdin a jobs _ _ _ _ H' (begin_works cwd jobs w0)) as ((K1' & K2' & K3' & _) & _ & HM').
  assert (HJ : forall j ok ok', In (j, Finished (inl ok)) l -> In (j, Finished (inl ok')) l' ->
    ok = ok' /\ ((exists t, has_text cwd encode w0 w (snd j) t /\ has_text cwd encode w0 w' (snd j) t) \/ as_before cwd w0 w (snd j) /\ as_before cwd w0 w' (snd j))).
  { intros j ok ok' Hx Hx'. destruct (ended_at _ _ _ _ H Hx) as [(t & M & T & _)|[N B]]; destruct (ended_at _ _ _ _ H' Hx') as [(t' & M' & T' & _)|[N' B']].
    - destruct (makes_one _ _ _ _ _ M M') as [<- [= <-]]. split; [reflexivity|]. left. exists t. auto.
    - exfalso. eapply makes_silent; eauto.
    - exfalso. eapply makes_silent; eauto.
    - pose proof (silent_one _ _ _ N N') as [= <-]. auto. }
  split; [|split].
  - clear - HM HM' HE HE' HJ. assert (forall l1 l2, map fst l1 = map fst l2 -> incl l1 l -> incl l2 l' -> l1 = l2) as HG.
    2: { apply HG; [congruence|apply incl_refl|apply incl_refl]. }
    unfold ended in *. rewrite Forall_forall in HE, HE'. induction l1 as [|[j ph] l1 IH]; intros [|[j' ph'] l2] E I1 I2; try discriminate; [reflexivity|].
    cbn in E. injection E as <- E. rewrite (IH l2 E); [|eapply incl_tran; [|exact I1]; apply incl_tl, incl_refl|eapply incl_tran; [|exact I2]; apply incl_tl, incl_refl].
    destruct (HE (j, ph)) as [ok Eo]; [apply I1; now left|]. destruct (HE' (j, ph')) as [ok' Eo']; [apply I2; now left|]. cbn in Eo, Eo'. subst.
    destruct (HJ j ok ok') as [<- _]; [apply I1; now left|apply I2; now left|]. reflexivity.
  - assert ((exists j, In j jobs /\ snd j = Stdio) \/ forall j, In j jobs -> snd j <> Stdio) as [(j & Hj & Ej)|HN].
    { clear. induction jobs as [|j js IH]; [right; intros j []|]. destruct (snd j) as [p|] eqn:E.
      - destruct IH as [(i & Hi & Ei)|IH]; [left; exists i; split; [now right|exact Ei]|]. right. intros i [<-|Hi]; [congruence|auto].
      - left. exists j. split; [now left|exact E]. }
    + destruct (all_ended _ _ H HE j Hj) as [ok Hx]. destruct (all_ended _ _ H' HE' j Hj) as [ok' Hx'].
      destruct (HJ j ok ok' Hx Hx') as [_ [(t & T & T')|[T T']]]; rewrite Ej in T, T'; cbn in T, T'; congruence.
    + rewrite (out_kept _ _ H HN), (out_kept _ _ H' HN). reflexivity.
  - intros q. assert (HD : w_disk w0 q = None -> (w_disk w q = None \/ w_disk w q = Some DDir) -> (w_disk w' q = None \/ w_disk w' q = Some DDir) -> w_disk w q = w_disk w' q).
    { intros H0 [E|E] [E'|E']; try congruence.
      - rewrite (dirs_same _ _ _ _ q H' H HE H0 E') in E. discriminate.
      - rewrite (dirs_same _ _ _ _ q H H' HE' H0 E) in E'. discriminate. }
    destruct (is_output_dec cwd jobs q) as [(j & Hj & Ej)|Hn].
    + destruct (all_ended _ _ H HE j Hj) as [ok Hx]. destruct (all_ended _ _ H' HE' j Hj) as [ok' Hx'].
      destruct (snd j) as [p|] eqn:Es; [|discriminate]. cbn in Ej. injection Ej as <-.
      destruct (HJ j ok ok' Hx Hx') as [_ [(t & T & T')|[T T']]]; rewrite Es in T, T'; cbn in T, T'; [congruence|].
      destruct T as [T|[T1 T2]], T' as [T'|[T1' T2']]; try congruence; apply HD; try assumption; auto; left; congruence.
    + destruct (w_disk w0 q) as [[data|]|] eqn:E0.
      * now rewrite (K1 q data E0 Hn), (K1' q data E0 Hn).
      * now rewrite (K2 q E0), (K2' q E0).
      * apply HD; [reflexivity| |].
        -- destruct (w_disk w q) eqn:E; [|auto]. destruct (K3 q E0) as [G|[_ G]]; [congruence|contradiction|rewrite <- E; auto].
        -- destruct (w_disk w' q) eqn:E; [|auto]. destruct (K3' q E0) as [G|[_ G]]; [congruence|contradiction|rewrite <- E; auto].
Qed.
End Turns.

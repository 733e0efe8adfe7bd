(** * Runs and files. *)

From Coq Require Import List Lia.
From Verif Require Import Base Doc Config Errors Path Reporter Cli SpecCli Disk SpecDisk.
Import ListNotations.

Lemma put_same : forall d q e, put d q e q = Some e.
Proof. intros d q e. unfold put. destruct (place_dec q q); [reflexivity|contradiction]. Qed.
Lemma put_other : forall d q e p, p <> q -> put d q e p = d p.
Proof. intros d q e p H. unfold put. destruct (place_dec p q); [contradiction|reflexivity]. Qed.

Lemma overwrite_end : forall data chunk, overwrite data (length data) chunk = data ++ chunk.
Proof.
  intros data chunk. unfold overwrite. rewrite Nat.sub_diag. cbn [repeat]. rewrite app_nil_r, firstn_all, skipn_all2 by lia. now rewrite app_nil_r.
Qed.

Lemma ways_prefix : forall cs x, In x (ways cs) -> exists more, cs = x ++ more.
Proof.
  induction cs as [|c cs IH]; intros x H; [contradiction|]. cbn [ways] in H. destruct H as [<-|H]; [now exists cs|].
  apply in_map_iff in H. destruct H as (y & <- & H). destruct (IH y H) as [more ->]. now exists more.
Qed.

Section Run.
Variable cwd : Disk.place.
Variable decode : bytes -> option str.
Variable encode : str -> bytes.
Variable cv : str -> config -> str + convert_error.
Variable cvf : str -> config -> str + option str * convert_error.
Variable stdin : bytes.
Variable a : args.
Variable jobs : list (stream * stream).
Let step := step cwd decode encode cv cvf stdin a.
Let steps := steps cwd decode encode cv cvf stdin a.

(** ** What a step may change *)
Inductive change (j : stream * stream) (ph : phase) (w w' : world) : Prop :=
| ChNone : w' = w -> change j ph w w'
| ChDir : forall q todo text r, ph = Making (q :: todo) text r -> w_disk w q = None -> w' = put_w w q DDir -> change j ph w w'
| ChFile : forall q data,
    (file_of cwd (snd j) = Some q /\ w_disk w q = None \/ (exists text r, ph = Emptying q text r) \/
     (exists n rest r, ph = Writing (Some q) n rest r)) ->
    w' = put_w w q (DFile data) -> change j ph w w'
| ChOut : forall chunk n rest r, ph = Writing None n (chunk ++ rest) r -> w' = mkWorld (w_disk w) (w_out w ++ chunk) -> change j ph w w'.
Lemma step_change : forall j w ph w' ph', step (fst j) (snd j) w ph w' ph' -> change j ph w w'.
Proof.
  intros j w ph w' ph' H. destruct H; try (now apply ChNone).
  - eapply ChDir; eauto.
  - eapply ChFile; [|reflexivity]. left. unfold file_of. rewrite H. auto.
  - eapply ChFile; [|reflexivity]. right; left. eauto.
  - eapply ChFile; [|reflexivity]. right; right. eauto.
  - eapply ChOut; eauto.
Qed.

(** ** Places that are not outputs *)
Definition at_work (w : world) (x : (stream * stream) * phase) : Prop :=
  In (fst x) jobs /\
  match snd x with
  | Making todo _ _ => forall q, In q todo -> on_the_way cwd jobs q
  | Emptying q _ _ => file_of cwd (snd (fst x)) = Some q /\ exists data, w_disk w q = Some (DFile data)
  | Writing (Some q) _ _ _ => file_of cwd (snd (fst x)) = Some q /\ exists data, w_disk w q = Some (DFile data)
  | Writing None _ _ _ => snd (fst x) = Stdio
  | Reading from _ => from = file_of cwd (fst (fst x))
  | _ => True
  end.
Definition kept (w0 w : world) : Prop :=
  (forall q data, w_disk w0 q = Some (DFile data) -> ~ is_output cwd jobs q -> w_disk w q = Some (DFile data)) /\
  (forall q, w_disk w0 q = Some DDir -> w_disk w q = Some DDir) /\
  (forall q, w_disk w0 q = None -> w_disk w q <> None -> is_output cwd jobs q \/ on_the_way cwd jobs q /\ w_disk w q = Some DDir) /\
  (forall q data, w_disk w0 q = Some (DFile data) -> exists data', w_disk w q = Some (DFile data')).

Lemma change_file : forall j ph w w' q data, change j ph w w' -> at_work w (j, ph) ->
  w_disk w q = Some (DFile data) -> exists data', w_disk w' q = Some (DFile data').
Proof.
  intros j ph w w' q data H Hw Hq. destruct H as [->|p todo text r -> Hn ->|p d Hd ->|chunk n rest r -> ->]; cbn [put_w w_disk]; eauto.
  - rewrite put_other; eauto. intros ->. congruence.
  - destruct (place_dec q p) as [->|E]; [rewrite put_same; eauto|rewrite put_other by exact E; eauto].
Qed.
Lemma change_dir : forall j ph w w' q, change j ph w w' -> at_work w (j, ph) ->
  w_disk w q = Some DDir -> w_disk w' q = Some DDir.
Proof.
  intros j ph w w' q H [_ Hw] Hq. destruct H as [->|p todo text r -> Hn ->|p d Hd ->|chunk n rest r -> ->]; cbn [put_w w_disk]; auto.
  - rewrite put_other; auto. intros ->. congruence.
  - rewrite put_other; auto. intros ->. cbn [snd] in Hw.
    destruct Hd as [[_ Hd]|[(text & r & ->)|(n & rest & r & ->)]]; [congruence|destruct Hw as [_ [x Hx]]; congruence..].
Qed.
Lemma change_output : forall j ph w w' q, change j ph w w' -> at_work w (j, ph) ->
  ~ file_of cwd (snd j) = Some q -> w_disk w q <> None -> w_disk w' q = w_disk w q.
Proof.
  intros j ph w w' q H [_ Hw] Hq Hs. destruct H as [->|p todo text r -> Hn ->|p d Hd ->|chunk n rest r -> ->]; cbn [put_w w_disk]; auto.
  - rewrite put_other; auto. congruence.
  - rewrite put_other; auto. intros ->. cbn [fst snd] in Hw.
    destruct Hd as [[Hd _]|[(text & r & ->)|(n & rest & r & ->)]]; [congruence|destruct Hw as [Hx _]; congruence..].
Qed.

Lemma at_work_other : forall w w' j ph x, change j ph w w' -> at_work w (j, ph) -> at_work w x -> at_work w' x.
Proof.
  intros w w' j ph [i pi] H Hj [Hi Hx]. split; [exact Hi|]. cbn [fst snd] in *.
  destruct pi as [|from got|todo text r|text r|q text r|[q|] n rest r|r]; auto; destruct Hx as [E [data Hd]]; (split; [exact E|]); eapply change_file; eauto.
Qed.

Lemma begin_work : forall w j text r, In j jobs -> at_work w (j, begin_write cwd (snd j) text r).
Proof.
  intros w j text r Hj. split; [exact Hj|]. cbn [fst snd]. unfold begin_write. destruct (snd j) as [p|] eqn:Ep; [|reflexivity].
  intros q Hq. unfold dirs_to in Hq. destruct (parent p) as [dir|] eqn:Ed; [|contradiction].
  apply in_map_iff in Hq. destruct Hq as (cs & <- & Hq). destruct (ways_prefix _ _ Hq) as [more E].
  exists j, p, dir, cs, more. auto.
Qed.
Lemma step_work : forall j w ph w' ph', step (fst j) (snd j) w ph w' ph' -> at_work w (j, ph) -> at_work w' (j, ph').
Proof.
  intros j w ph w' ph' H Hw. assert (In j jobs) as Hj by apply Hw. destruct H; try (split; [exact Hj|exact I]).
  - split; [exact Hj|]. cbn [fst snd]. now rewrite H.
  - split; [exact Hj|]. cbn [fst snd]. now rewrite H.
  - split; [exact Hj|]. exact (proj2 Hw).
  - destruct out; [now apply begin_work|split; [exact Hj|exact I]].
  - split; [exact Hj|]. cbn [fst snd]. intros p Hp. apply (proj2 Hw). now right.
  - split; [exact Hj|]. cbn [fst snd]. intros p Hp. apply (proj2 Hw). now right.
  - split; [exact Hj|]. cbn [fst snd]. rewrite H. split; [reflexivity|]. cbn [put_w w_disk]. rewrite put_same. eauto.
  - split; [exact Hj|]. cbn [fst snd]. rewrite H. split; [reflexivity|]. eauto.
  - split; [exact Hj|]. cbn [fst snd]. split; [apply Hw|]. cbn [put_w w_disk]. rewrite put_same. eauto.
  - split; [exact Hj|]. cbn [fst snd]. split; [apply Hw|]. cbn [put_w w_disk]. rewrite put_same. eauto.
  - split; [exact Hj|]. cbn [fst snd]. apply (proj2 Hw).
Qed.

Lemma change_kept : forall w0 w w' j ph, change j ph w w' -> at_work w (j, ph) -> kept w0 w -> kept w0 w'.
Proof.
  intros w0 w w' j ph H Hw (K1 & K2 & K3 & K4). assert (In j jobs) as Hj by apply Hw.
  assert (forall q, ~ is_output cwd jobs q -> file_of cwd (snd j) <> Some q) as Ho by (intros q Hq E; apply Hq; exists j; auto).
  split; [|split; [|split]].
  - intros q data Hq Hn. rewrite (change_output _ _ _ _ q H Hw (Ho q Hn)); [now apply K1|]. rewrite (K1 q data Hq Hn). discriminate.
  - intros q Hq. eapply change_dir; eauto.
  - intros q Hq Hn. destruct (w_disk w q) as [e|] eqn:Ew.
    + destruct (K3 q Hq) as [Hi|[Hi Hd]]; [congruence|auto|]. right. split; [exact Hi|]. eapply change_dir; eauto.
    + destruct H as [->|p todo text r -> Hx ->|p d Hd ->|chunk n rest r -> ->]; cbn [put_w w_disk] in *; try congruence.
      * destruct (place_dec q p) as [->|E]; [|rewrite put_other in Hn by exact E; congruence]. right. rewrite put_same. split; [|reflexivity].
        apply (proj2 Hw). now left.
      * destruct (place_dec q p) as [->|E]; [|rewrite put_other in Hn by exact E; congruence]. left. exists j. split; [exact Hj|].
        destruct Hw as [_ Hw]. cbn [fst snd] in Hw.
        destruct Hd as [[Hd _]|[(text & r & ->)|(n & rest & r & ->)]]; [exact Hd|apply Hw..].
  - intros q data Hq. destruct (K4 q data Hq) as [d Hd]. eapply change_file; eauto.
Qed.

Lemma steps_kept : forall w0 l0 w l, steps (w0, l0) (w, l) -> Forall (at_work w0) l0 ->
  kept w0 w /\ Forall (at_work w) l /\ map fst l = map fst l0.
Proof.
  intros w0 l0 w l H H0. remember (w0, l0) as s eqn:Es. remember (w, l) as s' eqn:Es'. revert w l Es'.
  induction H as [s|s w1 before j ph after w2 ph' H IH Hs]; intros w l Es'.
  - subst. injection Es' as <- <-. split; [|split; [exact H0|reflexivity]]. split; [|split; [|split]]; intros; eauto; contradiction.
  - subst. injection Es' as <- <-. destruct (IH eq_refl _ _ eq_refl) as (K & HF & HM). apply Forall_app in HF. destruct HF as [HB HA]. inversion HA as [|? ? Hj HA']; subst.
    pose proof (step_change _ _ _ _ _ Hs) as Hc. split; [|split].
    + eapply change_kept; eauto.
    + apply Forall_app. split; [|constructor]; [eapply Forall_impl; [|exact HB]|eapply step_work; eauto|eapply Forall_impl; [|exact HA']]; intros x; now apply (at_work_other w1 w2 j ph).
    + rewrite <- HM, !map_app. reflexivity.
Qed.
Lemma begin_works : forall w, Forall (at_work w) (begin jobs).
Proof. intros w. apply Forall_forall. intros x Hx. apply in_map_iff in Hx. destruct Hx as (j & <- & Hj). split; [exact Hj|exact I]. Qed.
Lemma begin_jobs : map fst (begin jobs) = jobs.
Proof. unfold begin. rewrite map_map. cbn [fst]. apply map_id. Qed.

(** ** Results *)
Section Results.
Variable w0 : world.
Hypothesis apart : separate cwd jobs.
Let gives := library_gives cv cvf a.

Definition first_contents (s : stream) : option bytes := contents stdin w0 (file_of cwd s).
(** The conversion makes the text [t], to be followed by the result [r]. *)
Definition makes (j : stream * stream) (t : str) (r : cres bool) : Prop :=
  exists data src, first_contents (fst j) = Some data /\ decode data = Some src /\ conversion cv cvf a src = (Some t, r).
Definition done_so_far (w : world) (x : (stream * stream) * phase) : Prop :=
  let j := fst x in
  match snd x with
  | Start => as_before cwd w0 w (snd j)
  | Reading _ got => as_before cwd w0 w (snd j) /\ exists data more, first_contents (fst j) = Some data /\ data = got ++ more
  | Making _ b r | Opening b r => as_before cwd w0 w (snd j) /\ exists t, makes j t r /\ b = encode t
  | Emptying _ b r => exists t, makes j t r /\ b = encode t
  | Writing (Some q) n rest r => exists t pre, makes j t r /\ encode t = pre ++ rest /\ n = length pre /\ w_disk w q = Some (DFile pre)
  | Writing None n rest r => exists t pre, makes j t r /\ encode t = pre ++ rest /\ w_out w = w_out w0 ++ pre
  | Finished (inl ok) =>
      (exists t, makes j t (inl ok) /\ has_text cwd encode w0 w (snd j) t) \/
      (exists data src, first_contents (fst j) = Some data /\ decode data = Some src /\ conversion cv cvf a src = (None, inl ok)) /\
      as_before cwd w0 w (snd j)
  | Finished (inr _) => True
  end.

(** A step of another conversion *)
Lemma before_other : forall w w' j ph (i : stream * stream), change j ph w w' -> at_work w (j, ph) -> file_of cwd (snd j) <> file_of cwd (snd i) ->
  as_before cwd w0 w (snd i) -> as_before cwd w0 w' (snd i).
Proof.
  intros w w' j ph i H [_ Hw] Hn. unfold as_before. destruct (snd i) as [p|] eqn:Ei; cbn [file_of] in Hn.
  - intros Hb. destruct H as [->|q todo text r -> Hq ->|q d Hd ->|chunk n rest r -> ->]; cbn [put_w w_disk]; auto.
    + destruct (place_dec (resolve cwd p) q) as [<-|E]; [|now rewrite put_other by exact E]. rewrite put_same. right.
      split; [|reflexivity]. destruct Hb as [Hb|[Hb _]]; congruence.
    + rewrite put_other; [exact Hb|]. intros <-. cbn [fst snd] in Hw.
      destruct Hd as [[Hd _]|[(text & r & ->)|(n & rest & r & ->)]]; [congruence|destruct Hw as [Hx _]; congruence..].
  - intros Hb. destruct H as [->|q todo text r -> Hq ->|q d Hd ->|chunk n rest r -> ->]; cbn [put_w w_out]; auto.
    cbn [fst snd] in Hw. rewrite Hw in Hn. now contradiction Hn.
Qed.
Lemma done_other : forall w w' j ph x, change j ph w w' -> at_work w (j, ph) -> at_work w x -> file_of cwd (snd j) <> file_of cwd (snd (fst x)) ->
  done_so_far w x -> done_so_far w' x.
Proof.
  intros w w' j ph [i pi] H Hw Hx Hn HD. cbn [fst] in Hn.
  assert (as_before cwd w0 w (snd i) -> as_before cwd w0 w' (snd i)) as HB by now apply (before_other w w' j ph).
  unfold done_so_far in *. cbn [fst snd] in *.
  destruct pi as [|from got|todo text r|text r|q text r|[q|] n rest r|[ok|e]]; auto.
  - destruct HD; split; auto.
  - destruct HD; split; auto.
  - destruct HD; split; auto.
  - destruct HD as (t & pre & H1 & H2 & H3 & H4). exists t, pre. repeat split; auto.
    destruct Hx as [_ [Hx _]]. cbn [fst snd] in Hx. rewrite (change_output _ _ _ _ q H Hw); [exact H4| |congruence]. congruence.
  - destruct HD as (t & pre & H1 & H2 & H3). exists t, pre. repeat split; auto.
    destruct Hx as [_ Hx]. cbn [fst snd] in Hx. rewrite Hx in Hn. cbn [file_of] in Hn.
    destruct H as [->|p todo text r' -> Hq ->|p d Hd ->|chunk m rest' r' -> ->]; cbn [put_w w_out]; auto.
    destruct Hw as [_ Hw]. cbn [fst snd] in Hw. rewrite Hw in Hn. now contradiction Hn.
  - destruct HD as [(t & H1 & H2)|[H1 H2]]; [left|right; auto]. exists t. split; [exact H1|]. unfold has_text in *. destruct (snd i) as [p|] eqn:Ei; cbn [file_of] in Hn.
    + rewrite (change_output _ _ _ _ _ H Hw Hn); [exact H2|congruence].
    + destruct H as [->|p todo text r' -> Hq ->|p d Hd ->|chunk m rest' r' -> ->]; cbn [put_w w_out]; auto.
      destruct Hw as [_ Hw]. cbn [fst snd] in Hw. rewrite Hw in Hn. now contradiction Hn.
Qed.

Lemma source_first : forall w (j : stream * stream) data, In j jobs -> kept w0 w -> contents stdin w (file_of cwd (fst j)) = Some data -> first_contents (fst j) = Some data.
Proof.
  intros w j data Hj K. unfold first_contents, contents. destruct (file_of cwd (fst j)) as [q|] eqn:Eq; [|auto].
  destruct (w_disk w q) as [[d|]|] eqn:Ew; try discriminate. intros [= <-].
  assert (~ is_output cwd jobs q) as Hn by (intros (j' & Hj' & Ej'); exact (proj2 apart j' j q Hj' Hj Ej' Eq)).
  destruct K as (K1 & K2 & K3 & K4). destruct (w_disk w0 q) as [[d0|]|] eqn:E0.
  - rewrite (K1 q d0 E0 Hn) in Ew. congruence.
  - rewrite (K2 q E0) in Ew. discriminate.
  - destruct (K3 q E0) as [H|[_ H]]; [congruence|contradiction|congruence].
Qed.

Lemma done_begin : forall w j out r data src, at_work w (j, Start) -> first_contents (fst j) = Some data -> decode data = Some src ->
  conversion cv cvf a src = (out, r) -> as_before cwd w0 w (snd j) ->
  done_so_far w (j, match out with Some t => begin_write cwd (snd j) (encode t) r | None => Finished r end).
Proof.
  intros w j out r data src Hw H1 H2 H3 Hb. unfold done_so_far. cbn [fst snd]. destruct out as [t|].
  - assert (makes j t r) as HM by (exists data, src; auto). unfold begin_write. destruct (snd j) as [p|] eqn:Ej; [split; eauto|].
    exists t, []. cbn [as_before] in Hb. rewrite app_nil_r. auto.
  - destruct r as [ok|e]; [|exact I]. right. split; [|exact Hb]. exists data, src. auto.
Qed.
Lemma done_step : forall j w ph w' ph', step (fst j) (snd j) w ph w' ph' -> kept w0 w -> at_work w (j, ph) -> done_so_far w (j, ph) -> done_so_far w' (j, ph').
Proof.
  intros j w ph w' ph' H K Hw HD. assert (In j jobs) as Hj by apply Hw. destruct H; cbn [fst snd] in *.
  - unfold done_so_far in *. cbn [fst snd] in *. split; [exact HD|].
    assert (contents stdin w (file_of cwd (fst j)) = Some data) as E by (rewrite H; cbn [file_of contents]; now rewrite H0).
    exists data, data. split; [eapply source_first; eauto|reflexivity].
  - unfold done_so_far in *. cbn [fst snd] in *. split; [exact HD|]. exists stdin, stdin. unfold first_contents. now rewrite H.
  - unfold done_so_far in *. cbn [fst snd] in *. destruct HD as [Hb (d & m & Hd & Em)]. split; [exact Hb|].
    destruct Hw as [_ Hw]. cbn [fst snd] in Hw. subst from. rewrite (source_first _ _ _ Hj K H) in Hd. injection Hd as <-.
    exists data, more. split; [eapply source_first; eauto|]. rewrite <- app_assoc, <- H0. subst data.
    now rewrite skipn_app, skipn_all, Nat.sub_diag.
  - pose proof HD as HD'. unfold done_so_far in HD'. cbn [fst snd] in HD'. destruct HD' as [Hb (d & m & Hd & Em)].
    pose proof Hw as [_ Hw']. cbn [fst snd] in Hw'. subst from. rewrite (source_first _ _ _ Hj K H) in Hd. injection Hd as <-.
    assert (data = got) as Eg.
    { subst data. rewrite skipn_app, skipn_all, Nat.sub_diag in H0. cbn in H0. subst m. apply app_nil_r. }
    subst got. eapply done_begin; eauto. + split; [exact Hj|exact I]. + eapply source_first; eauto.
  - unfold done_so_far in *. cbn [fst snd] in *. destruct HD as [Hb HM]. split; [|exact HM]. revert Hb.
    unfold as_before. destruct (snd j) as [p|]; [|auto]. intros Hb. cbn [put_w w_disk].
    destruct (place_dec (resolve cwd p) q) as [<-|E]; [|now rewrite put_other by exact E]. rewrite put_same. right. split; [|reflexivity].
    destruct Hb as [Hb|[Hb _]]; congruence.
  - exact HD.
  - exact HD.
  - unfold done_so_far in *. cbn [fst snd] in *. apply HD.
  - unfold done_so_far in *. cbn [fst snd] in *. apply HD.
  - unfold done_so_far in *. cbn [fst snd] in *. destruct HD as (t & HM & ->). exists t, []. repeat split; auto. cbn [put_w w_disk]. now rewrite put_same.
  - unfold done_so_far in *. cbn [fst snd] in *. destruct HD as (t & pre & HM & Et & -> & Hq). exists t, (pre ++ chunk).
    rewrite <- app_assoc, app_length. repeat split; auto. cbn [put_w w_disk]. rewrite put_same. rewrite Hq in H. injection H as <-. now rewrite overwrite_end.
  - unfold done_so_far in *. cbn [fst snd] in *. destruct HD as (t & pre & HM & Et & Ho). exists t, (pre ++ chunk).
    rewrite <- app_assoc. repeat split; auto. cbn [w_out]. now rewrite Ho, app_assoc.
  - unfold done_so_far in *. cbn [fst snd] in *. destruct Hw as [_ Hw]. cbn [fst snd] in Hw. destruct r as [ok|e]; [|now destruct q].
    left. destruct q as [q|].
    + destruct HD as (t & pre & HM & Et & _ & Hq). rewrite app_nil_r in Et. exists t. split; [exact HM|]. unfold has_text.
      destruct Hw as [Hw _]. destruct (snd j); [|discriminate]. injection Hw as <-. now rewrite Et.
    + destruct HD as (t & pre & HM & Et & Ho). rewrite app_nil_r in Et. exists t. split; [exact HM|]. unfold has_text. rewrite Hw, Et. exact Ho.
  - exact I.
Qed.

Lemma steps_done : forall w l, steps (w0, begin jobs) (w, l) -> Forall (done_so_far w) l.
Proof.
  intros w l H. remember (w0, begin jobs) as s eqn:Es. remember (w, l) as s' eqn:Es'. revert w l Es'.
  induction H as [s|s w1 before j ph after w2 ph' H IH Hs]; intros w l Es'.
  - subst. injection Es' as <- <-. apply Forall_forall. intros x Hx. apply in_map_iff in Hx. destruct Hx as (j & <- & Hj).
    unfold done_so_far. cbn [fst snd]. unfold as_before. destruct (snd j); auto.
  - subst. injection Es' as <- <-. specialize (IH eq_refl _ _ eq_refl).
    destruct (steps_kept _ _ _ _ H (begin_works w0)) as (K & HW & HM). rewrite begin_jobs in HM.
    pose proof (step_change _ _ _ _ _ Hs) as Hc. pose proof HW as HW0. apply Forall_app in HW. destruct HW as [WB WA]. inversion WA as [|? ? Wj WA']; subst.
    apply Forall_app in IH. destruct IH as [DB DA]. inversion DA as [|? ? Dj DA']; subst.
    destruct apart as [HN _]. rewrite <- HM, map_map, map_app in HN. cbn [map] in HN. apply NoDup_remove_2 in HN.
    assert (forall x, In x before \/ In x after -> file_of cwd (snd j) <> file_of cwd (snd (fst x))) as HX.
    { intros x Hx E. apply HN. apply in_or_app. cbn [fst]. rewrite E. destruct Hx as [Hx|Hx]; [left|right]; apply in_map_iff; exists x; auto. }
    apply Forall_app. split; [|constructor].
    + rewrite Forall_forall in *. intros x Hx. eapply done_other; eauto.
    + eapply done_step; eauto.
    + rewrite Forall_forall in *. intros x Hx. eapply done_other; eauto.
Qed.
End Results.
End Run.

(** ** The library's part *)
Lemma conversion_gives : forall cv cvf a src out ok, conversion cv cvf a src = (out, inl ok) -> library_gives cv cvf a src out ok.
Proof.
  intros cv cvf a src out ok. unfold conversion. change (match o_forgiving (g_options a) with Some b => b | None => false end) with (forgives a).
  destruct (forgives a) eqn:Ef.
  - destruct (cvf src (as_config (g_options a))) as [t|[o e]] eqn:E; cbn [is_none is_some negb andb].
    + intros [= <- <-]. now apply LgForgiving.
    + intros [= <- H]. destruct (o_fail_fast (g_options a)) as [[]|]; try discriminate; injection H as <-; now apply LgForgiven with e.
  - destruct (cv src (as_config (g_options a))) as [t|e] eqn:E; cbn [is_none is_some negb andb].
    + intros [= <- <-]. now apply LgStrict.
    + intros [= <- H]. destruct (o_fail_fast (g_options a)) as [[]|]; try discriminate; injection H as <-; now apply LgError with e.
Qed.
Lemma first_holds : forall cwd decode stdin w0 s data src, first_contents cwd stdin w0 s = Some data -> decode data = Some src ->
  holds cwd decode stdin w0 s src.
Proof.
  intros cwd decode stdin w0 s data src H Hd. exists data. split; [exact Hd|]. unfold first_contents, contents in H. destruct s as [p|]; cbn [file_of] in H; [|congruence].
  destruct (w_disk w0 (resolve cwd p)) as [[d|]|]; congruence.
Qed.

(** ** Places *)
Lemma follow_app : forall cs cs' q, follow q (cs ++ cs') = follow (follow q cs) cs'.
Proof. induction cs as [|[| | |n] cs IH]; intros cs' q; cbn [app follow]; auto. Qed.
Lemma follow_names : forall names q, follow q (map Normal names) = q ++ names.
Proof. induction names as [|n names IH]; intros q; cbn [map follow]; [now rewrite app_nil_r|]. now rewrite IH, <- app_assoc. Qed.

Lemma nodup_finer : forall A B C (f : A -> B) (g : A -> C) l, NoDup (map f l) ->
  (forall x y, In x l -> In y l -> g x = g y -> f x = f y) -> NoDup (map g l).
Proof.
  intros A B C f g l. induction l as [|x l IH]; intros H Hf; cbn [map] in *; [constructor|]. inversion H as [|? ? Hx Hl]; subst. constructor.
  - intros Hi. apply Hx. apply in_map_iff in Hi. destruct Hi as (y & E & Hy). apply in_map_iff. exists y. split; [|exact Hy]. apply Hf; auto; [now right|now left].
  - apply IH; [exact Hl|]. intros y z Hy Hz. apply Hf; now right.
Qed.

Lemma html_not_minty : forall xml n stem stem', MintyName n stem -> n <> stem' ++ Suffix xml.
Proof.
  intros xml n stem stem' (e & -> & _ & He) E.
  assert (exists s, stem' ++ Suffix xml = s ++ [108]) as [s Es].
  { destruct xml; [exists (stem' ++ L ".xhtm")|exists (stem' ++ L ".htm")]; now rewrite <- app_assoc. }
  rewrite Es in E. destruct e as [|c e] using rev_ind; [destruct He; discriminate|].
  rewrite !app_assoc in E. apply app_inj_tail in E. destruct E as [_ ->].
  unfold lower in He. rewrite map_app in He. cbn [map] in He.
  destruct He as [He|He].
  - change (L "mty") with (L "mt" ++ [121]) in He. apply app_inj_tail in He. destruct He as [_ He]. vm_compute in He. discriminate.
  - change (L "minty") with (L "mint" ++ [121]) in He. apply app_inj_tail in He. destruct He as [_ He]. vm_compute in He. discriminate.
Qed.

Lemma is_output_dec : forall cwd jobs q, is_output cwd jobs q \/ ~ is_output cwd jobs q.
Proof.
  intros cwd jobs q. induction jobs as [|j jobs IH]; [right; intros (j & [] & _)|].
  destruct (file_of cwd (snd j)) as [p|] eqn:E.
  - destruct (place_dec p q) as [->|Hn]; [left; exists j; split; [now left|exact E]|].
    destruct IH as [(i & Hi & Ei)|IH]; [left; exists i; split; [now right|exact Ei]|].
    right. intros (i & [->|Hi] & Ei); [congruence|]. apply IH. exists i. auto.
  - destruct IH as [(i & Hi & Ei)|IH]; [left; exists i; split; [now right|exact Ei]|].
    right. intros (i & [->|Hi] & Ei); [congruence|]. apply IH. exists i. auto.
Qed.

(** ** Executions *)
Section Executions.
Variable cwd : Disk.place.
Variable decode : bytes -> option str.
Variable encode : str -> bytes.
Variable cv : str -> config -> str + convert_error.
Variable cvf : str -> config -> str + option str * convert_error.
Variable stdin : bytes.
Variable a : args.
Notation steps := (steps cwd decode encode cv cvf stdin a).

Lemma get_reading : forall s w before p d data after,
  steps s (w, before ++ ((SFile p, d), Start) :: after) -> w_disk w (resolve cwd p) = Some (DFile data) ->
  steps s (w, before ++ ((SFile p, d), Reading (Some (resolve cwd p)) []) :: after).
Proof. intros. eapply StepsOne; [eassumption|]. eapply StOpen; [reflexivity|eassumption]. Qed.

Lemma get_read : forall s w before p d data src t r after,
  steps s (w, before ++ ((SFile p, d), Reading (Some (resolve cwd p)) []) :: after) -> w_disk w (resolve cwd p) = Some (DFile data) ->
  decode data = Some src -> conversion cv cvf a src = (Some t, r) ->
  steps s (w, before ++ ((SFile p, d), begin_write cwd d (encode t) r) :: after).
Proof.
  intros s w before p d data src t r after H Hd Hs Hc.
  assert (steps s (w, before ++ ((SFile p, d), Reading (Some (resolve cwd p)) ([] ++ data)) :: after)) as H2.
  { eapply StepsOne; [exact H|]. eapply StRead with (data := data) (more := []); cbn; [now rewrite Hd|symmetry; apply app_nil_r]. }
  eapply StepsOne; [exact H2|]. cbn [app].
  apply (StConvert cwd decode encode cv cvf stdin a _ _ w _ data data src (Some t) r); cbn; [now rewrite Hd|apply skipn_all|exact Hs|exact Hc].
Qed.

Lemma get_created : forall s w before sj p text r after,
  steps s (w, before ++ ((sj, SFile p), Making [] text r) :: after) -> w_disk w (resolve cwd p) = None -> in_dir w (resolve cwd p) ->
  steps s (put_w w (resolve cwd p) (DFile []), before ++ ((sj, SFile p), Emptying (resolve cwd p) text r) :: after).
Proof.
  intros. eapply StepsOne; [eapply StepsOne; [eassumption|apply StReady]|]. now apply StCreate.
Qed.

Lemma get_opened : forall s w before sj p data text r after,
  steps s (w, before ++ ((sj, SFile p), Making [] text r) :: after) -> w_disk w (resolve cwd p) = Some (DFile data) ->
  steps s (w, before ++ ((sj, SFile p), Emptying (resolve cwd p) text r) :: after).
Proof.
  intros. eapply StepsOne; [eapply StepsOne; [eassumption|apply StReady]|]. eapply StExists; eauto.
Qed.

Lemma get_emptied : forall s w before j q text r after,
  steps s (w, before ++ (j, Emptying q text r) :: after) ->
  steps s (put_w w q (DFile []), before ++ (j, Writing (Some q) 0 text r) :: after).
Proof. intros. eapply StepsOne; [eassumption|apply StEmpty]. Qed.

Lemma get_written : forall s w before j q data text r after,
  steps s (w, before ++ (j, Writing (Some q) 0 text r) :: after) -> w_disk w q = Some (DFile data) ->
  steps s (put_w w q (DFile (overwrite data 0 text)), before ++ (j, Finished r) :: after).
Proof.
  intros s w before j q data text r after H Hd.
  eapply StepsOne; [eapply StepsOne; [exact H|]|apply StWritten].
  rewrite <- (app_nil_r text) at 1. now apply StWrite.
Qed.
End Executions.

(** ** Paths *)
Lemma follow_snoc : forall cwd cs c, follow cwd (cs ++ [c]) = follow (follow cwd cs) [c].
Proof. intros cwd cs c. apply follow_app. Qed.
Lemma follow_leads : forall cwd cs, Leads cwd cs (follow cwd cs).
Proof.
  intros cwd. induction cs as [|c cs IH] using rev_ind; [constructor|]. rewrite follow_snoc. destruct c as [| | |n]; cbn [follow].
  - constructor.
  - now constructor.
  - destruct (follow cwd cs) as [|x l _] using rev_ind; [now constructor|]. rewrite removelast_last. now apply LdOut with x.
  - now constructor.
Qed.
Lemma leads_unique : forall cwd cs q, Leads cwd cs q -> q = follow cwd cs.
Proof.
  induction 1; rewrite ?follow_snoc; cbn [follow]; try reflexivity; try assumption.
  - now rewrite <- IHLeads, removelast_last.
  - now rewrite <- IHLeads.
  - now rewrite <- IHLeads.
Qed.

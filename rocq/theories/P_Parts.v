(** * Two sources with an empty line between them (for C55). *)

From Verif Require Import Base SpecInfer SpecTree SpecMarkup SpecWrite SpecPlain P_Base P_WriteItems P_Plain.
From Coq Require Import Lia.

Section Tag.
Variable tag : mark -> str.
Definition breaks (k : nat) : list written := repeat WBreak k.

(** ** The source *)
(** White space before what follows *)
Lemma blank_lead : forall w s us seen open, ws w -> Lines tag true seen false s us ->
  exists k, Lines tag true seen open ([10] ++ w ++ s) (breaks (S k) ++ us).
Proof.
  intros w s us seen open Hw HL.
  assert (forall b w, blanks b -> ws w -> forall open, exists k, Lines tag true seen open ([10] ++ b ++ w ++ s) (breaks (S k) ++ us)) as H.
  { intros b w' Hb Hw'. revert b Hb. induction Hw' as [|c w' Hc Hw' IH]; intros b Hb open'.
    - exists 0%nat. now apply LsBlank.
    - destruct (N.eq_dec c 10) as [->|Hn].
      + destruct (IH [] (Forall_nil _) false) as [k Hk]. exists (S k). apply LsBlank; [exact Hb|exact Hk].
      + destruct (IH (b ++ [c])) with (open := open') as [k Hk]; [apply Forall_app; split; [exact Hb|apply Forall_one; now split]|].
        exists k. now rewrite <- !app_assoc in Hk. }
  apply (H [] w (Forall_nil _) Hw).
Qed.
(** Lines of comments only begin with a comment. *)
Lemma nested_elt : forall k path kids, exists l ks, nested k path kids = WElt k l ks.
Proof. intros k [|l [|l' path]] kids; cbn [nested]; eauto. Qed.
Lemma nested_shown : forall k path kids, SpecWrite.shown (nested k path kids) = true.
Proof. intros k path kids. destruct (nested_elt k path kids) as (l & ks & ->). reflexivity. Qed.
Lemma multi_shown : forall code s u, Multi tag code s u -> SpecWrite.shown u = true.
Proof. intros code s u [| |]; [reflexivity|reflexivity|apply nested_shown]. Qed.
Lemma gap_not_solid : forall c g r, gap (c :: g) -> solid ((c :: g) ++ r) -> False.
Proof. intros c g r H (d & x & E & Hd). injection E as <- _. inversion H as [|? ? Hc _]; subst. cbn in Hc. destruct Hc as [<-|[<-|[]]]; discriminate. Qed.
Lemma row_comment : forall code s us, Row tag code s us -> solid s -> some_shown us = false -> starts (L "<!") s.
Proof.
  intros code s us H Hs Hn. destruct H as [code s us H|code g s u Hg H].
  - inversion H as [|free txt g s1 u s' us' Hg Hi Ht]; subst; [destruct Hs as (c & r & E & _); discriminate|].
    destruct g as [|c g]; [|exfalso; eapply gap_not_solid; eauto]. cbn [space app] in *. unfold some_shown in Hn. cbn [existsb] in Hn. apply orb_false_iff in Hn as [Hn _].
    inversion Hi; subst; try discriminate; try (rewrite nested_shown in Hn; discriminate). eexists. rewrite <- app_assoc. reflexivity.
  - unfold some_shown in Hn. rewrite existsb_app in Hn. apply orb_false_iff in Hn as [_ Hn]. cbn [existsb] in Hn. rewrite (multi_shown _ _ _ H) in Hn. discriminate.
Qed.
(** What is before it *)
Lemma starts_app : forall t s r, starts t s -> starts t (s ++ r).
Proof. intros t s r [x ->]. exists (x ++ r). now rewrite app_assoc. Qed.
Lemma lines_seen : forall s us seen, Lines tag true false false s us -> s = [] \/ solid s -> ~ starts (L "<!") s ->
  exists k, Lines tag true seen false s (breaks k ++ us).
Proof.
  intros s us seen H Hs Hc. set (k := if seen then 1%nat else 0%nat). assert (forall x, break seen ++ x = breaks k ++ break false ++ x) as HB by (now destruct seen).
  inversion H as [para seen0 open|para seen0 open b s0 us0 Hb H0|para seen0 open go s0 u H0|para seen0 open go s0 u nl s1 us1 H0 Hnl H1|seen0 s0 u H0|seen0 s0 u nl s1 us1 H0 Hnl H1
    |para seen0 s0 us0 Hs0 H0 Hn|para seen0 s0 us0 nl s1 us1 Hs0 H0 Hn Hnl H1]; subst.
  - exists 0%nat. constructor.
  - exfalso. destruct Hs as [Hs|(c & r & E & Hs)]; [discriminate|]. injection E as <- _. discriminate.
  - exists k. rewrite <- HB. eapply LsElement; eauto.
  - exists k. rewrite <- HB. eapply LsElements; eauto.
  - exists k. rewrite <- HB. now apply LsText.
  - exists k. rewrite <- HB. now apply LsTexts.
  - exfalso. apply Hc. eapply row_comment; eauto.
  - exfalso. apply Hc. apply starts_app. eapply row_comment; eauto.
Qed.

(** After a source *)
Definition end_gap (s g : str) : str := match s with [] => [] | _ => g end.
Lemma newline_more : forall nl g, Newline nl -> blanks g -> Newline (nl ++ g).
Proof.
  intros nl g (a & b & -> & Ha & Hb) Hg. exists a, (b ++ g). split; [now rewrite <- !app_assoc|]. split; [exact Ha|]. apply Forall_app. now split.
Qed.
Lemma newline_gap : forall g, blanks g -> Newline (g ++ [10]).
Proof. intros g Hg. exists g, []. split; [reflexivity|]. split; [exact Hg|constructor]. Qed.
Lemma solid_not_nil : forall s, solid s -> s <> [].
Proof. now intros s (c & r & -> & _). Qed.
Lemma lines_then : forall w s' us', ws w -> (forall seen, exists k, Lines tag true seen false s' (breaks k ++ us')) -> forall g, blanks g ->
  forall para seen open s us, Lines tag para seen open s us -> para = true ->
  exists k, Lines tag true seen open (s ++ end_gap s g ++ [10; 10] ++ w ++ s') (us ++ breaks (S k) ++ us').
Proof.
  intros w s' us' Hw Hs g Hg.
  assert (forall w seen open, ws w -> exists k, Lines tag true seen open ([10] ++ w ++ s') (breaks (S k) ++ us')) as HS.
  { intros w1 seen open Hw1. destruct (Hs seen) as [k Hk]. destruct (blank_lead w1 s' _ seen open Hw1 Hk) as [k' Hk']. exists (k' + k)%nat.
    unfold breaks in *. change (S (k' + k)) with (S k' + k)%nat. rewrite repeat_app, <- app_assoc. exact Hk'. }
  assert (forall s1 nl, Newline nl -> exists nl', Newline nl' /\ nl ++ s1 ++ g = nl' ++ s1 ++ end_gap s1 g) as HN.
  { intros [|c s1] nl Hnl; [exists (nl ++ g)|exists nl]; (split; [auto using newline_more|]); cbn [app end_gap]; now rewrite ?app_nil_r. }
  assert (forall s x, s <> [] -> end_gap s x = x) as HE by (now intros [|]).
  intros para seen open s us H. induction H as [para seen open|para seen open b s us Hb H IH|para seen open go s u H|para seen open go s u nl s1 us1 H Hnl H1 IH|seen s u H|seen s u nl s1 us1 H Hnl H1 IH
    |para seen s us Hs0 H Hn|para seen s us nl s1 us1 Hs0 H Hn Hnl H1 IH]; intros Ep; subst.
  - cbn [app end_gap]. destruct (HS w seen false Hw) as [k Hk]. exists k. apply (LsBlank tag true seen open [] ([10] ++ w ++ s')); [constructor|exact Hk].
  - destruct (IH eq_refl) as [k Hk]. exists k. rewrite HE by discriminate.
    assert (exists b', blanks b' /\ b ++ s ++ g = b' ++ s ++ end_gap s g) as (b' & Hb' & Eb).
    { destruct s; [exists (b ++ g)|exists b]; cbn [app end_gap]; rewrite ?app_nil_r; split; auto. now apply Forall_app. }
    replace (([10] ++ b ++ s) ++ g ++ [10; 10] ++ w ++ s') with ([10] ++ b' ++ (s ++ end_gap s g ++ [10; 10] ++ w ++ s')).
    + now apply LsBlank.
    + rewrite <- !app_assoc. f_equal. rewrite (app_assoc s g), (app_assoc b), Eb, <- !app_assoc. reflexivity.
  - rewrite HE by (apply solid_not_nil; eapply element_solid; exact H). destruct (HS w true go Hw) as [k Hk]. exists k.
    replace (s ++ g ++ [10; 10] ++ w ++ s') with (s ++ (g ++ [10]) ++ [10] ++ w ++ s') by (now rewrite <- !app_assoc).
    rewrite <- (app_assoc (break seen)). apply (LsElements tag true seen open go); [exact H|now apply newline_gap|exact Hk].
  - destruct (IH eq_refl) as [k Hk]. exists k. destruct (HN s1 nl Hnl) as (nl' & Hnl' & En).
    rewrite HE by (intros E; apply app_eq_nil in E as [E _]; revert E; apply solid_not_nil; eapply element_solid; exact H).
    replace ((s ++ nl ++ s1) ++ g ++ [10; 10] ++ w ++ s') with (s ++ nl' ++ (s1 ++ end_gap s1 g ++ [10; 10] ++ w ++ s')).
    + rewrite <- (app_assoc (break seen)), <- (app_assoc u). apply (LsElements tag true seen open go); assumption.
    + rewrite <- !app_assoc. f_equal. rewrite (app_assoc s1 g), (app_assoc nl), En, <- !app_assoc. reflexivity.
  - rewrite HE by (apply solid_not_nil; eapply paragraph_solid; exact H). destruct (HS w true true Hw) as [k Hk]. exists k.
    replace (s ++ g ++ [10; 10] ++ w ++ s') with (s ++ (g ++ [10]) ++ [10] ++ w ++ s') by (now rewrite <- !app_assoc).
    rewrite <- (app_assoc (break seen)). apply LsTexts; [exact H|now apply newline_gap|exact Hk].
  - destruct (IH eq_refl) as [k Hk]. exists k. destruct (HN s1 nl Hnl) as (nl' & Hnl' & En).
    rewrite HE by (intros E; apply app_eq_nil in E as [E _]; revert E; apply solid_not_nil; eapply paragraph_solid; exact H).
    replace ((s ++ nl ++ s1) ++ g ++ [10; 10] ++ w ++ s') with (s ++ nl' ++ (s1 ++ end_gap s1 g ++ [10; 10] ++ w ++ s')).
    + rewrite <- (app_assoc (break seen)). apply LsTexts; assumption.
    + rewrite <- !app_assoc. f_equal. rewrite (app_assoc s1 g), (app_assoc nl), En, <- !app_assoc. reflexivity.
  - rewrite HE by (now apply solid_not_nil). destruct (HS w (seen || some_shown us) false Hw) as [k Hk]. exists k.
    replace (s ++ g ++ [10; 10] ++ w ++ s') with (s ++ (g ++ [10]) ++ [10] ++ w ++ s') by (now rewrite <- !app_assoc).
    rewrite <- (app_assoc (break seen)). apply LsRows; [exact Hs0|exact H|exact Hn|now apply newline_gap|exact Hk].
  - destruct (IH eq_refl) as [k Hk]. exists k. destruct (HN s1 nl Hnl) as (nl' & Hnl' & En).
    rewrite HE by (intros E; apply app_eq_nil in E as [E _]; revert E; now apply solid_not_nil).
    replace ((s ++ nl ++ s1) ++ g ++ [10; 10] ++ w ++ s') with (s ++ nl' ++ (s1 ++ end_gap s1 g ++ [10; 10] ++ w ++ s')).
    + rewrite <- (app_assoc (break seen)), <- (app_assoc us). apply LsRows; assumption.
    + rewrite <- !app_assoc. f_equal. rewrite (app_assoc s1 g), (app_assoc nl), En, <- !app_assoc. reflexivity.
Qed.

(** No white space but line breaks at the end *)
Definition spacy (u : written) : bool := match u with WGap _ | WBreak => true | _ => false end.
Inductive Ended : list written -> Prop :=
| EnBreaks : forall k, Ended (breaks k)
| EnUnit : forall us u k, spacy u = false -> Ended (us ++ u :: breaks k).
Lemma ended_app : forall a b, Ended a -> Ended b -> Ended (a ++ b).
Proof.
  intros a b Ha Hb. destruct Hb as [k|us u k Hu].
  - destruct Ha as [k'|us u k' Hu].
    + unfold breaks. rewrite <- repeat_app. apply (EnBreaks (k' + k)).
    + rewrite <- app_assoc. cbn [app]. unfold breaks. rewrite <- repeat_app. now apply (EnUnit us u (k' + k)).
  - rewrite app_assoc. now apply EnUnit.
Qed.
Lemma nested_spacy : forall k path kids, spacy (nested k path kids) = false.
Proof. intros k path kids. destruct (nested_elt k path kids) as (l & ks & ->). reflexivity. Qed.
Lemma unit_ended : forall us u, spacy u = false -> Ended (us ++ [u]).
Proof. intros us u H. apply (EnUnit us u 0 H). Qed.
Lemma ended_cons : forall u us, spacy u = false \/ u = WBreak -> Ended us -> Ended (u :: us).
Proof.
  intros u us H He. destruct He as [k|us v k Hv].
  - destruct H as [H| ->]; [now apply (EnUnit [])|apply (EnBreaks (S k))].
  - now apply (EnUnit (u :: us)).
Qed.
Lemma item_spacy : forall txt s u, Item tag txt s u -> spacy u = false.
Proof. intros txt s u H. destruct H; try reflexivity; apply nested_spacy. Qed.
Lemma items_ended : forall free s us, Items tag free s us -> Ended us.
Proof.
  intros free s us H. induction H as [|free txt g s u s' us Hg Hi Ht H IH]; [apply (EnBreaks 0)|].
  apply item_spacy in Hi. assert (Ended (u :: us)) as HE by (apply ended_cons; auto).
  destruct g as [|c g]; [exact HE|]. cbn [space app]. destruct IH as [k|us v k Hv]; [now apply (EnUnit [_])|now apply (EnUnit (_ :: u :: us))].
Qed.
Lemma row_ended : forall code s us, Row tag code s us -> Ended us.
Proof.
  intros code s us [code' s' us' H|code' g s' u Hg H]; [now apply items_ended in H|]. apply unit_ended. destruct H; try reflexivity. apply nested_spacy.
Qed.
Lemma ended_after : forall a u us, spacy u = false -> Ended us -> Ended (a ++ u :: us).
Proof.
  intros a u us H [k|us' v k Hv]; [now apply EnUnit|]. replace (a ++ u :: us' ++ v :: breaks k) with ((a ++ u :: us') ++ v :: breaks k) by now rewrite <- app_assoc. now apply EnUnit.
Qed.
Lemma comments_ended : forall s us, Comments s us -> Ended us.
Proof. intros s us H. induction H as [|g t s us Hg Ht H IH]; [apply (EnBreaks 0)|]. now apply ended_after. Qed.
Lemma element_ended : forall go s us, Element tag go s us -> Ended us.
Proof.
  intros go s us [c cs pa path s1 us1 s' us0 Hc H _ _|c cs line s1 path us1 c' cs' Hc H H' _|c cs s1 ls c' cs' Hc H H'].
  - apply unit_ended, nested_spacy.
  - apply ended_after; [apply nested_spacy|]. now apply comments_ended in H'.
  - apply ended_after; [apply nested_spacy|]. now apply comments_ended in H'.
Qed.
Lemma lines_ended : forall para seen open s us, Lines tag para seen open s us -> Ended us.
Proof.
  assert (forall go s us, Element tag go s us -> Ended us) as HE by (intros go s us H; now apply element_ended in H).
  assert (forall s u, Paragraph_ tag s u -> spacy u = false) as HP by (now intros s u []).
  assert (forall seen us, Ended us -> Ended (break seen ++ us)) as HB by (intros [] us H; [now apply ended_cons; [right|]|exact H]).
  intros para seen open s us H. induction H; try apply HB.
  - apply (EnBreaks 1).
  - apply ended_cons; auto.
  - eauto.
  - apply ended_app; eauto.
  - apply (unit_ended []). eauto.
  - apply ended_cons; eauto.
  - eapply row_ended; eassumption.
  - apply ended_app; [eapply row_ended; eassumption|assumption].
Qed.

Lemma lines_nil : forall para seen open us, Lines tag para seen open [] us -> us = [WBreak].
Proof.
  intros para seen open us H. remember [] as s eqn:E. destruct H as [para seen open|para seen open b s us Hb H|para seen open go s u H|para seen open go s u nl s1 us1 H Hnl H1|seen s u H|seen s u nl s1 us1 H Hnl H1
    |para seen s us Hs H Hn|para seen s us nl s1 us1 Hs H Hn Hnl H1]; try apply app_eq_nil in E as [E _]; subst; [reflexivity|discriminate|exfalso..].
  - now apply element_solid, solid_not_nil in H.
  - now apply element_solid, solid_not_nil in H.
  - now apply paragraph_solid, solid_not_nil in H.
  - now apply paragraph_solid, solid_not_nil in H.
  - now apply solid_not_nil in Hs.
  - now apply solid_not_nil in Hs.
Qed.
Theorem source_then : forall a b us us', Source tag a us -> Source tag b us' -> (forall w r, b = w ++ L "<!" ++ r -> ~ ws w) ->
  Ended us /\ exists us'', Source tag (a ++ [10; 10] ++ b) us'' /\
    ((us = [WBreak] /\ us'' = us') \/ exists k, us'' = us ++ breaks (S k) ++ us').
Proof.
  intros a b us us' Ha Hb Hc. destruct Ha as [w s us g Hw Hs HL Hg]. destruct Hb as [w' s' us' g' Hw' Hs' HL' Hg'].
  split; [now apply lines_ended in HL|].
  assert (~ starts (L "<!") s') as Hc'. { intros [r ->]. apply (Hc w' (r ++ g')); [now rewrite <- !app_assoc|exact Hw']. }
  assert (ws g) as Hgw by (eapply Forall_impl; [|exact Hg]; now intros c []).
  destruct Hs as [->|Hs].
  - exists us'. split; [|left; split; [now apply lines_nil in HL|reflexivity]].
    replace ((w ++ [] ++ g) ++ [10; 10] ++ w' ++ s' ++ g') with ((w ++ g ++ [10; 10] ++ w') ++ s' ++ g') by (cbn [app]; now rewrite <- !app_assoc).
    apply SrcOf; auto. apply Forall_app. split; [exact Hw|]. apply Forall_app. split; [exact Hgw|]. apply Forall_app. split; [now repeat constructor|exact Hw'].
  - destruct (lines_then w' s' us' Hw' (fun seen => lines_seen s' us' seen HL' Hs' Hc') g Hg _ _ _ _ _ HL eq_refl) as [k Hk].
    assert (end_gap s g = g) as Eg by (destruct Hs as (c & r & -> & _); reflexivity). rewrite Eg in Hk.
    exists (us ++ breaks (S k) ++ us'). split; [|right; now exists k].
    replace ((w ++ s ++ g) ++ [10; 10] ++ w' ++ s' ++ g') with (w ++ (s ++ g ++ [10; 10] ++ w' ++ s') ++ g') by (now rewrite <- !app_assoc).
    apply SrcOf; auto. right. now apply solid_app.
Qed.
End Tag.

(** ** The page *)
Section Page.
Variable xml : bool.
Let f (u : written) : bool * list piece := pieces xml CSection None None false true true u.
Lemma section_pos : forall fi la u, pieces xml CSection None None false fi la u = f u.
Proof. intros fi la [k [[n|] attrs] kids| | | | | | | |]; reflexivity. Qed.
Lemma map_pos_section : forall us first, map_pos (pieces xml CSection None None false) first us = map f us.
Proof. induction us as [|u us IH]; intros first; [reflexivity|]. cbn [map_pos map]. now rewrite section_pos, IH. Qed.
Definition gappy (x : bool * list piece) : Prop := fst x = true -> exists g, snd x = [Gap g].
Lemma f_gappy : forall u, gappy (f u).
Proof. intros [k [[n|] attrs] kids| | | | | | | |]; intros E; try discriminate; cbn; eauto. Qed.
Lemma f_solid : forall u, spacy u = false -> fst (f u) = false.
Proof. intros [k [[n|] attrs] kids| | | | | | | |] H; try discriminate; reflexivity. Qed.

Lemma drop_end_app : forall a b, drop_end (a ++ b) = match drop_end b with [] => drop_end a | r => a ++ r end.
Proof.
  induction a as [|x a IH]; intros b; cbn [app drop_end]; [now destruct (drop_end b)|]. rewrite IH. destruct (drop_end b) as [|y r]; [reflexivity|].
  now destruct a.
Qed.
Definition gaps (z : list (bool * list piece)) : Prop := Forall (fun x => exists g, snd x = [Gap g]) z.
Lemma drop_end_lead : forall l, Forall gappy l -> exists z, drop_end l = z ++ drop_end (drop_true l) /\ gaps z.
Proof.
  intros l H. induction H as [|x l Hx H (z & E & Hz)]; [exists []; split; [reflexivity|constructor]|]. destruct x as [[|] ps].
  - cbn [drop_true drop_end fst]. destruct (drop_end l) as [|y r].
    + exists []. split; [|constructor]. symmetry in E. now apply app_eq_nil in E as [_ ->].
    + exists ((true, ps) :: z). split; [cbn [app]; now rewrite <- E|]. constructor; [now apply Hx|exact Hz].
  - exists []. split; [reflexivity|constructor].
Qed.
Lemma spaced_gaps : forall z q, gaps z -> spaced true (flat_map snd z ++ q) = spaced true q.
Proof. intros z q H. induction H as [|x z [g Hx] Hz IH]; [reflexivity|]. cbn [flat_map]. rewrite Hx. exact IH. Qed.
Fixpoint end_state (b : bool) (ps : list piece) : bool :=
  match ps with [] => b | Solid _ blank :: ps' => end_state blank ps' | Gap _ :: ps' => end_state true ps' end.
Lemma spaced_app : forall p b q, spaced b (p ++ q) = spaced b p ++ spaced (end_state b p) q.
Proof.
  induction p as [|[s bl|g] p IH]; intros b q; cbn [app spaced end_state]; [reflexivity|rewrite IH; apply app_assoc|].
  destruct b; rewrite IH; [reflexivity|apply app_assoc].
Qed.
Lemma breaks_gaps : forall k, gaps (map f (breaks k)).
Proof. induction k as [|k IH]; [constructor|]. cbn. constructor; [now exists [32]|exact IH]. Qed.
Lemma breaks_end : forall k, drop_end (map f (breaks k)) = [].
Proof. induction k as [|k IH]; [reflexivity|]. cbn [breaks repeat map drop_end]. fold (breaks k). now rewrite IH. Qed.
Lemma breaks_true : forall k l, drop_true (map f (breaks k) ++ l) = drop_true l.
Proof. induction k as [|k IH]; intros l; [reflexivity|]. apply IH. Qed.
Definition joined (us : list written) : str := spaced true (flat_map snd (drop_end (drop_true (map f us)))).
Lemma page_joined : forall us, page xml us = joined us.
Proof. intros us. unfold page, inner. now rewrite map_pos_section, drop_end_is. Qed.
Theorem parts_page : forall us us' k, Ended us ->
  exists sep, (sep = [] \/ sep = [32]) /\ page xml (us ++ breaks (S k) ++ us') = page xml us ++ sep ++ page xml us'.
Proof.
  intros us us' k He. rewrite !page_joined. unfold joined. rewrite !map_app. destruct He as [k0|x u k0 Hu].
  - exists []. split; [now left|]. rewrite !breaks_true. rewrite <- (app_nil_r (map f (breaks k0))) at 1. rewrite breaks_true. reflexivity.
  - set (B := map f (breaks (S k))). set (M := map f us'). rewrite map_app. cbn [map]. set (B0 := map f (breaks k0)).
    assert (exists Y, drop_true (map f x ++ f u :: B0) = Y ++ f u :: B0 /\ drop_true ((map f x ++ f u :: B0) ++ B ++ M) = Y ++ f u :: B0 ++ B ++ M) as (Y & E1 & E2).
    { pose proof (f_solid u Hu) as Ef. destruct (f u) as [c ps]. cbn [fst] in Ef. subst c. exists (drop_true (map f x)). rewrite <- app_assoc, !drop_true_app.
      destruct (drop_true (map f x)); split; reflexivity. }
    rewrite E1, E2.
    assert (drop_end (Y ++ f u :: B0) = Y ++ [f u]) as ED.
    { rewrite drop_end_app. cbn [drop_end]. unfold B0. rewrite breaks_end, (f_solid u Hu). reflexivity. }
    rewrite ED. destruct (drop_end_lead M) as (z & Ez & Hz); [apply Forall_map, Forall_forall; intros; apply f_gappy|].
    destruct (drop_end M) as [|m r] eqn:EM.
    + exists []. split; [now left|]. symmetry in Ez. apply app_eq_nil in Ez as [_ ->]. cbn [flat_map spaced app]. rewrite app_nil_r.
      replace (Y ++ f u :: B0 ++ B ++ M) with ((Y ++ f u :: B0) ++ B ++ M) by (now rewrite <- app_assoc).
      rewrite drop_end_app. replace (drop_end (B ++ M)) with (@nil (bool * list piece)) by (rewrite drop_end_app, EM; unfold B; now rewrite breaks_end).
      now rewrite ED.
    + replace (Y ++ f u :: B0 ++ B ++ M) with (((Y ++ [f u]) ++ B0 ++ B) ++ M) by (rewrite <- !app_assoc; reflexivity).
      rewrite drop_end_app, EM, Ez, !flat_map_app, <- !app_assoc, (app_assoc (flat_map snd Y)), <- flat_map_app.
      set (P := flat_map snd (Y ++ [f u])). rewrite spaced_app. set (st := end_state true P).
      exists (if st then [] else [32]). split; [destruct st; auto|]. f_equal.
      assert (forall k q, spaced st (flat_map snd (map f (breaks (S k))) ++ q) = (if st then [] else [32]) ++ spaced true q) as HK.
      { intros k1 q. cbn [breaks repeat map flat_map snd app]. fold (breaks k1).
        assert (forall b, spaced b (Gap [32] :: flat_map snd (map f (breaks k1)) ++ q) = (if b then [] else [32]) ++ spaced true q) as HB.
        { intros b. cbn [spaced]. rewrite (spaced_gaps _ q (breaks_gaps k1)). now destruct b. }
        exact (HB st). }
      rewrite app_assoc, <- flat_map_app. unfold B0, B. rewrite <- map_app. unfold breaks at 1 2. rewrite <- repeat_app, Nat.add_succ_r. fold (breaks (S (k0 + k))).
      rewrite HK. f_equal. now apply spaced_gaps.
Qed.
End Page.

(** The language of a document is set in each part. *)
Lemma ended_language : forall lang us, Ended us -> Ended (map (in_language lang) us).
Proof.
  intros lang us H. assert (forall k, map (in_language lang) (breaks k) = breaks k) as HB.
  { induction k as [|k IH]; [reflexivity|]. cbn [breaks repeat map]. fold (breaks k). rewrite IH. now destruct lang. }
  destruct H as [k|us u k Hu]; [rewrite HB; constructor|]. rewrite map_app. cbn [map]. rewrite HB. apply EnUnit. destruct lang, u as [? [? ?] ?| | | | | | | |]; try discriminate; reflexivity.
Qed.
Lemma language_breaks : forall lang k, map (in_language lang) (breaks k) = breaks k.
Proof. intros lang k. induction k as [|k IH]; [reflexivity|]. cbn [breaks repeat map]. fold (breaks k). rewrite IH. now destruct lang. Qed.
Theorem parts_document : forall xml lang us us' k, Ended us ->
  exists sep, (sep = [] \/ sep = [32]) /\
    page xml (document false lang (us ++ breaks (S k) ++ us')) = page xml (document false lang us) ++ sep ++ page xml (document false lang us').
Proof.
  intros xml lang us us' k H. unfold document. rewrite !map_app, language_breaks. apply parts_page. now apply ended_language.
Qed.

(** ** Line ends of other systems *)
Lemma trimmed_cr : forall l, trimmed (l ++ [13]) = trimmed l.
Proof.
  intros l. unfold trimmed. assert (drop_white (l ++ [13]) = match drop_white l with [] => [] | r => r ++ [13] end) as ->.
  { induction l as [|c l IH]; [reflexivity|]. cbn [app drop_white]. destruct (is_whitespace c); [exact IH|reflexivity]. }
  destruct (drop_white l) as [|c r]; [reflexivity|]. rewrite rev_app_distr. reflexivity.
Qed.
Lemma crlf_lines : forall s, Forall2 (fun l l' => l' = l \/ l' = l ++ [13]) (lines_of s) (lines_of (crlf s)).
Proof.
  induction s as [|c s IH]; [repeat constructor|]. unfold crlf. cbn [flat_map lines_of]. fold (crlf s). destruct (c =? 10) eqn:Ec.
  - cbn [app lines_of]. change (13 =? 10) with false. change (10 =? 10) with true. cbn [app]. constructor; [now right|exact IH].
  - cbn [app lines_of]. rewrite Ec. inversion IH as [|l l' ls ls' Hl Hls E E']; [exfalso; eapply lines_ne; eauto|]. constructor; [|exact Hls].
    destruct Hl as [->| ->]; [now left|now right].
Qed.
Lemma crlf_trimmed : forall s, map trimmed (lines_of (crlf s)) = map trimmed (lines_of s).
Proof.
  intros s. induction (crlf_lines s) as [|l l' ls ls' Hl H IH]; [reflexivity|]. cbn [map]. rewrite IH. f_equal. destruct Hl as [->| ->]; [reflexivity|apply trimmed_cr].
Qed.
Lemma crlf_plain : forall s, plain_text s -> plain_text (crlf s).
Proof.
  intros s [H1 H2]. split.
  - apply Forall_forall. intros c Hc. unfold crlf in Hc. apply in_flat_map in Hc as (d & Hd & Hc). rewrite Forall_forall in H1.
    destruct (d =? 10); [destruct Hc as [<-|[<-|[]]]; cbn; intuition discriminate|destruct Hc as [<-|[]]; auto].
  - pose proof (crlf_trimmed s) as E. revert E. generalize (lines_of (crlf s)). induction H2 as [|l ls Hl H2 IH]; intros [|l' ls'] E; try discriminate; [constructor|].
    cbn [map] in E. injection E as E1 E2. constructor; [now rewrite E1|now apply IH].
Qed.
Lemma crlf_html : forall xml open s, plain_html xml open (crlf s) = plain_html xml open s.
Proof. intros xml open s. unfold plain_html, paragraphs. now rewrite crlf_trimmed. Qed.

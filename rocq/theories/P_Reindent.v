(** * Sources with other indentation (for C63). *)

From Verif Require Import Base SpecEscape SpecInfer SpecTree SpecMarkup SpecWrite SpecPlain SpecLineEnds SpecReindent
  P_Base P_EscapeDoc P_Unknown P_WriteItems P_Plain P_Parts P_LineEnds.
From Coq Require Import Lia.

(** Each line gets the next indentation instead of its own; [at_]: at the begin of a line *)
Fixpoint re (f : nat -> str) (at_ : bool) (s : str) : str :=
  match s with
  | [] => []
  | c :: r => if c =? 10 then 10 :: f O ++ re (fun n => f (S n)) true r
              else if at_ && is_whitespace c then re f true r
              else c :: re f false r
  end.
Fixpoint fin (at_ : bool) (s : str) : bool :=
  match s with
  | [] => at_
  | c :: r => if c =? 10 then fin true r else if at_ && is_whitespace c then fin true r else fin false r
  end.
Fixpoint later (f : nat -> str) (s : str) : nat -> str :=
  match s with
  | [] => f
  | c :: r => if c =? 10 then later (fun n => f (S n)) r else later f r
  end.
Definition fine (f : nat -> str) : Prop := forall n, blanks (f n).
Lemma fine_next : forall f, fine f -> fine (fun n => f (S n)).
Proof. intros f H n. apply H. Qed.
Lemma fine_later : forall s f, fine f -> fine (later f s).
Proof. induction s as [|c s IH]; intros f H; [exact H|]. cbn. destruct (c =? 10); apply IH; [now apply fine_next|exact H]. Qed.
Local Hint Resolve fine_next fine_later : core.

Lemma re_app : forall a b f at_, re f at_ (a ++ b) = re f at_ a ++ re (later f a) (fin at_ a) b.
Proof.
  induction a as [|c a IH]; intros b f at_; [reflexivity|]. cbn [re fin later app]. destruct (c =? 10).
  - rewrite IH. cbn [app]. now rewrite <- app_assoc.
  - destruct (at_ && is_whitespace c); rewrite IH; reflexivity.
Qed.
Lemma fin_app : forall a b at_, fin at_ (a ++ b) = fin (fin at_ a) b.
Proof.
  induction a as [|c a IH]; intros b at_; [reflexivity|]. cbn [fin app]. destruct (c =? 10); [apply IH|]. destruct (at_ && is_whitespace c); apply IH.
Qed.
Lemma re_solid : forall s f at_, solid s -> re f at_ s = re f false s.
Proof.
  intros s f at_ (c & r & -> & Hc). cbn [re]. rewrite Hc, !andb_false_r. reflexivity.
Qed.
Lemma fin_solid : forall s at_, solid s -> fin at_ s = fin false s.
Proof. intros s at_ (c & r & -> & Hc). cbn [fin]. rewrite Hc, !andb_false_r. reflexivity. Qed.
Lemma re_solids : forall s f at_, s = [] \/ solid s -> re f at_ s = re f false s.
Proof. intros s f at_ [->|H]; [reflexivity|now apply re_solid]. Qed.
Lemma re_id : forall s f, ~ In 10 s -> re f false s = s.
Proof.
  induction s as [|c s IH]; intros f H; [reflexivity|]. cbn [re andb]. destruct (N.eqb_spec c 10) as [->|Hc]; [exfalso; apply H; now left|].
  rewrite IH; [reflexivity|]. intros Hi. apply H. now right.
Qed.
Lemma fin_id : forall s, ~ In 10 s -> fin false s = false.
Proof.
  induction s as [|c s IH]; intros H; [reflexivity|]. cbn [fin andb]. destruct (N.eqb_spec c 10) as [->|Hc]; [exfalso; apply H; now left|].
  apply IH. intros Hi. apply H. now right.
Qed.
Lemma re_ws : forall s f at_, fine f -> ws s -> ws (re f at_ s).
Proof.
  induction s as [|c s IH]; intros f at_ Hf H; [constructor|]. apply Forall_cons_iff in H as [Hc H]. cbn [re]. destruct (c =? 10).
  - constructor; [reflexivity|]. apply Forall_app. split; [|apply IH; auto]. apply (Forall_impl _ (fun c => @proj1 _ _) (Hf O)).
  - destruct (at_ && is_whitespace c); [apply IH; auto|]. constructor; [exact Hc|apply IH; auto].
Qed.
Lemma re_blanks : forall s f at_, blanks s -> blanks (re f at_ s).
Proof.
  induction s as [|c s IH]; intros f at_ H; [constructor|]. apply Forall_cons_iff in H as [Hc H]. cbn [re].
  destruct (N.eqb_spec c 10) as [->|_]; [now destruct Hc|]. destruct (at_ && is_whitespace c); [apply IH; auto|]. constructor; [exact Hc|apply IH; auto].
Qed.
Lemma re_gone : forall s f r, blanks s -> re f true (s ++ r) = re f true r /\ fin true (s ++ r) = fin true r.
Proof.
  induction s as [|c s IH]; intros f r H; [now split|]. apply Forall_cons_iff in H as [[Hc Hn] H]. cbn [re fin app]. rewrite Hc.
  destruct (N.eqb_spec c 10); [contradiction|]. now apply IH.
Qed.
Lemma re_keeps : forall s f, s <> [] -> re f false s <> [].
Proof. intros [|c s] f H; [now destruct H|]. cbn. destruct (c =? 10); discriminate. Qed.
Lemma re_nil : forall s f at_, re f at_ s <> [] -> s <> [].
Proof. intros [|c s] f at_ H; [exact H|discriminate]. Qed.
Lemma re_is_solid : forall s f at_, solid s -> solid (re f at_ s).
Proof.
  intros s f at_ (c & r & -> & Hc). exists c, (re f false r). split; [|exact Hc]. cbn [re]. rewrite Hc, andb_false_r.
  destruct (N.eqb_spec c 10) as [->|_]; [discriminate|reflexivity].
Qed.
Lemma re_are_solids : forall s f at_, s = [] \/ solid s -> re f at_ s = [] \/ solid (re f at_ s).
Proof. intros s f at_ [->|H]; [now left|right; now apply re_is_solid]. Qed.
Lemma starts_re : forall s f, starts (L ">") (re f false s) -> starts (L ">") s.
Proof.
  intros [|c s] f [r E]; [discriminate|]. cbn [re andb] in E. destruct (c =? 10); [discriminate|]. injection E as -> _. now exists s.
Qed.
(** No line feed in it *)
Definition one_line (s : str) : Prop := ~ In 10 s.
Lemma one_app : forall a b f, one_line a -> re f false (a ++ b) = a ++ re f false b /\ fin false (a ++ b) = fin false b.
Proof.
  intros a b f H. rewrite re_app, fin_app, re_id, fin_id by exact H. split; [|reflexivity]. f_equal. f_equal. clear b.
  revert f. induction a as [|c a IH]; intros f; [reflexivity|]. cbn [later]. destruct (N.eqb_spec c 10) as [->|_]; [exfalso; apply H; now left|].
  apply IH. intros Hi. apply H. now right.
Qed.

(** ** Selectors *)
(** [good P s]: so it is with other indentation, and it does not end at the begin of a line. *)
Definition good (P : str -> Prop) (s : str) : Prop := (forall f, fine f -> P (re f false s)) /\ fin false s = false.
Lemma good_one : forall (P : str -> Prop) s, one_line s -> P s -> good P s.
Proof. intros P s H HP. split; [intros f _; rewrite re_id by exact H; exact HP|now apply fin_id]. Qed.
Lemma attr_solid : forall s a, Attr s a -> solid s.
Proof.
  assert (forall s t, s <> [] -> Spelled attr_plain s t -> solid s) as HS.
  { intros s t Hn H. revert Hn. destruct H as [|c s' t' [_ Hc] _|e c s' t' He _]; intros Hn; [now destruct Hn|exists c, s'; auto|]. destruct He; eexists _, _; (split; [reflexivity|reflexivity]). }
  intros s a [s' t Hn H|s' t v w Hn H _]; [now apply (HS s' t)|]. apply solid_app. now apply (HS s' t).
Qed.
Lemma attrs_re : forall s l, Attrs s l -> Forall steady_attr l -> forall f at_, fine f -> Attrs (re f at_ s) l.
Proof.
  induction 1 as [|s a H|s a w s' l H Hw Hw' H' IH]; intros Hl f at_ Hf; [constructor| |].
  - apply Forall_inv in Hl. rewrite re_solid by now apply (attr_solid s a). rewrite re_id by now apply (attr_crlf s a). now constructor.
  - apply Forall_cons_iff in Hl as [Hl Hl']. pose proof (attr_crlf s a H Hl) as Hn. pose proof (attr_solid s a H) as Hs.
    rewrite re_app, re_solid, fin_solid, (re_id s), (fin_id s) by assumption. rewrite re_app.
    apply AsMore; [exact H|now apply re_keeps|apply re_ws; auto|apply IH; auto].
Qed.
Lemma one : forall s, forallb (fun c => negb (c =? 10)) s = true -> one_line s.
Proof. intros s H Hi. rewrite forallb_forall in H. now specialize (H _ Hi). Qed.
Ltac lit := first [assumption | now apply one].
Lemma attr_list_re : forall s l, AttrList s l -> Forall steady_attr l -> good (fun s => AttrList s l) s.
Proof.
  intros s l [|w s' l' w' Hw H Hw'] Hl; [split; [intros; constructor|reflexivity]|]. split.
  - intros f Hf. rewrite (proj1 (one_app (L "[") _ f ltac:(lit))). rewrite !re_app.
    rewrite (re_solid (L "]")) by (eexists _, _; split; reflexivity). rewrite (re_id (L "]")) by lit.
    apply AlSome; [apply re_ws; auto|apply attrs_re; auto|apply re_ws; auto].
  - rewrite !fin_app. rewrite fin_solid by (eexists _, _; split; reflexivity). reflexivity.
Qed.
Lemma selector_re : forall s l, Selector s l -> steady_label l -> good (fun s => Selector s l) s.
Proof.
  intros s l [tg name mk ids classes al l' Ht Hm Hl Hn] H.
  assert (good (fun s => AttrList s l') al) as [Ha Hf].
  { apply attr_list_re; [exact Hl|]. unfold steady_label, attributes_of in H. cbn [snd] in H. apply Forall_app in H as [_ H]. now apply Forall_app in H as [_ H]. }
  pose proof (tag_no _ _ Ht) as H1. pose proof (marks_no _ _ _ Hm) as H2. split.
  - intros f Hff. rewrite (proj1 (one_app tg _ f H1)), (proj1 (one_app mk _ f H2)). apply SelOf; auto.
    intros E. apply app_eq_nil in E as [-> E]. apply app_eq_nil in E as [-> E]. apply Hn. cbn. destruct al; [reflexivity|]. now apply re_keeps in E.
  - rewrite (proj2 (one_app tg _ (fun _ => []) H1)), (proj2 (one_app mk _ (fun _ => []) H2)). exact Hf.
Qed.
Lemma good_app : forall (P Q R : str -> Prop) a b, good P a -> good Q b -> (forall a b, P a -> Q b -> R (a ++ b)) -> good R (a ++ b).
Proof.
  intros P Q R a b [Ha Fa] [Hb Fb] H. split; [|now rewrite fin_app, Fa]. intros f Hf. rewrite re_app, Fa. auto.
Qed.
Lemma good_gap : forall g, gap g -> good gap g.
Proof. intros g H. apply good_one; [now apply gap_no|exact H]. Qed.
Lemma good_is : forall t, forallb (fun c => negb (c =? 10)) t = true -> good (eq t) t.
Proof. intros t H. apply good_one; [now apply one|reflexivity]. Qed.
Lemma step_re : forall s l, Step s l -> steady_label l -> good (fun s => Step s l) s.
Proof.
  intros s l [s' l' g Hs Hg|] H; [|apply good_one; [lit|constructor]].
  apply (good_app _ _ _ _ _ (selector_re _ _ Hs H) (good_app _ _ (fun r => exists g, gap g /\ r = g ++ L ">") _ _ (good_gap g Hg) (good_is (L ">") eq_refl)
    ltac:(intros a b Ha <-; eauto))).
  intros a b Ha (g' & Hg' & ->). now constructor.
Qed.
Lemma path_re : forall s path, Path s path -> Forall steady_label path -> good (fun s => Path s path) s.
Proof.
  induction 1 as [s l Hs|s l g s' path Hs Hg H IH]; intros Hl; apply Forall_cons_iff in Hl as [Hl Hl'].
  - destruct (step_re s l Hs Hl) as [H1 H2]. split; [intros f Hf; apply PaOne; auto|exact H2].
  - apply (good_app _ _ _ _ _ (step_re s l Hs Hl) (good_app _ _ (fun r => exists g s', gap g /\ Path s' path /\ r = g ++ s') _ _ (good_gap g Hg) (IH Hl')
      ltac:(intros a b Ha Hb; exists a, b; auto))).
    intros a b Ha (g' & s2 & Hg' & Hp & ->). now apply PaMore.
Qed.
Lemma head_re : forall s path, Head s path -> Forall steady_label path -> good (fun s => Head s path) s.
Proof.
  induction 1 as [|s l g Hs Hg|s l g s' l' path Hs Hg H IH]; intros Hl; [apply good_one; [lit|constructor]| |]; apply Forall_cons_iff in Hl as [Hl Hl'].
  - apply (good_app _ _ _ _ _ (selector_re s l Hs Hl) (good_gap g Hg)). intros a b. apply HdOne.
  - apply (good_app _ _ _ _ _ (step_re s l Hs Hl) (good_app _ _ (fun r => exists g s', gap g /\ Head s' (l' :: path) /\ r = g ++ s') _ _ (good_gap g Hg) (IH Hl')
      ltac:(intros a b Ha Hb; exists a, b; auto))).
    intros a b Ha (g' & s2 & Hg' & Hp & ->). now apply HdMore.
Qed.

(** ** Ends *)
Lemma fin_true : forall s f at_, fine f -> fin at_ s = true -> re f at_ s = [] \/ exists x d, re f at_ s = x ++ [d] /\ is_whitespace d = true.
Proof.
  intros s f at_ Hf. induction s as [|c s IH] using rev_ind; intros H; [now left|]. rewrite fin_app in H. rewrite re_app. cbn [fin re] in *.
  destruct (c =? 10).
  - right. rewrite app_nil_r. pose proof (fine_later s f Hf O) as Hb. destruct (later f s O) as [|d y _] using rev_ind.
    + exists (re f at_ s), 10. now split.
    + exists (re f at_ s ++ 10 :: y), d. split; [rewrite <- app_assoc; reflexivity|]. apply Forall_app in Hb as [_ Hb]. now apply Forall_inv in Hb as [Hb _].
  - destruct (fin at_ s) eqn:E; [|discriminate]. cbn [andb] in *. destruct (is_whitespace c); [|discriminate]. rewrite app_nil_r. now apply IH.
Qed.
Lemma re_suffix : forall q s f at_ a, fine f -> Forall (fun c => is_whitespace c = false) q -> re f at_ s = a ++ q -> exists s', s = s' ++ q /\ a = re f at_ s'.
Proof.
  intros q s f at_. revert q. induction s as [|c s IH] using rev_ind; intros q a Hf Hq E.
  - symmetry in E. apply app_eq_nil in E as [-> ->]. now exists [].
  - destruct q as [|d q _] using rev_ind; [exists (s ++ [c]); rewrite app_nil_r in *; auto|].
    apply Forall_app in Hq as [Hq Hd]. apply Forall_inv in Hd.
    destruct (fin at_ (s ++ [c])) eqn:Ef.
    + exfalso. destruct (fin_true _ f _ Hf Ef) as [H|(x & e & H & He)]; rewrite H in E.
      * symmetry in E. apply app_eq_nil in E as [_ E]. now apply app_eq_nil in E.
      * rewrite app_assoc in E. apply app_inj_tail in E as [_ ->]. congruence.
    + rewrite fin_app in Ef. rewrite re_app in E. cbn [fin re] in *. destruct (c =? 10); [discriminate|]. destruct (fin at_ s && is_whitespace c); [discriminate|].
      rewrite app_assoc in E. apply app_inj_tail in E as [E ->]. destruct (IH q a Hf Hq E) as (s' & -> & ->). exists s'. now rewrite app_assoc.
Qed.
Lemma begins_re : forall s f at_, begins (re f at_ s) -> begins s.
Proof.
  intros s f at_ H. destruct s as [|d s _] using rev_ind; [now left|]. right. exists s, d. split; [reflexivity|].
  destruct (is_whitespace d) eqn:Ed; [now left|]. rewrite re_app in H. cbn [re] in H. rewrite Ed, andb_false_r in H.
  destruct (N.eqb_spec d 10) as [->|_]; [discriminate|]. destruct H as [H|(a & c & E & H)]; [now apply app_eq_nil in H|]. apply app_inj_tail in E as [_ <-].
  destruct H as [H|H]; [congruence|now right].
Qed.
Lemma apart_re : forall s g c f f' at_, fine f -> blanks g -> apart s (g ++ c) -> apart (re f at_ s) (re f' (fin at_ s) g ++ c).
Proof.
  intros s g c f f' at_ Hf Hg H a b E. destruct (fin at_ s) eqn:Ef.
  - destruct (fin_true s f at_ Hf Ef) as [F|(x & d & F & Hd)]; rewrite F; (split; [|intros _]); intros X.
    + symmetry in X. now apply app_eq_nil in X.
    + symmetry in X. now apply app_eq_nil in X.
    + change [34; 34; 34] with ([34; 34] ++ [34]) in X. rewrite app_assoc in X. apply app_inj_tail in X as [_ ->]. discriminate.
    + change [34; 34] with ([34] ++ [34]) in X. rewrite app_assoc in X. apply app_inj_tail in X as [_ ->]. discriminate.
  - rewrite re_id in E by now apply blanks_no. split.
    + intros F. destruct (re_suffix [34; 34; 34] s f at_ a Hf ltac:(repeat constructor) F) as (s' & Hs & _). exact (proj1 (H s' b E) Hs).
    + intros Hb F. destruct (re_suffix [34; 34] s f at_ a Hf ltac:(repeat constructor) F) as (s' & Hs & ->). refine (proj2 (H s' b E) _ Hs). now apply begins_re in Hb.
Qed.

(** ** Documents *)
Lemma comments_one : forall s us, Comments s us -> Forall steady us -> one_line s.
Proof.
  intros s us H. induction H as [|g t s us Hg Ht H IH]; intros Hs; [lit|]. apply steady_app in Hs as [_ Hs]. apply Forall_cons_iff in Hs as [Hs Hs'].
  cbn [steady] in Hs. unfold one_line. rewrite !in_app_iff. specialize (IH Hs'). pose proof (gap_no g Hg). unfold steady_text, one_line in *. cbn. intuition discriminate.
Qed.
Lemma margin_one : forall s us, Margin s us -> Forall steady us -> one_line s.
Proof.
  intros s us [|s1 us1 g Hs Hc Hg] H; [lit|]. apply steady_app in H as [H _]. pose proof (comments_one _ _ Hc H). pose proof (gap_no g Hg).
  unfold one_line in *. rewrite in_app_iff. tauto.
Qed.
Lemma special_one : forall o c m, In (o, c, m) special -> one_line o /\ one_line c /\ solid c.
Proof.
  intros o c m H. cbn in H. decompose [or] H; try contradiction; injection H0 as <- <- <- || injection H1 as <- <- <-; (split; [lit|split; [lit|]]);
    eexists _, _; (split; [reflexivity|reflexivity]).
Qed.
Lemma re_close : forall f at_ c, one_line c -> solid c -> re f at_ c = c /\ fin at_ c = false.
Proof. intros f at_ c H Hs. rewrite re_solid, fin_solid, re_id, fin_id by assumption. now split. Qed.
Lemma re_newline : forall nl f, fine f -> Newline nl -> Newline (re f false nl) /\ fin false nl = true.
Proof.
  intros nl f Hf (a & b & -> & Ha & Hb). pose proof (blanks_no a Ha) as Hn. rewrite (proj1 (one_app a _ f Hn)), (proj2 (one_app a _ f Hn)). cbn [app re fin N.eqb Pos.eqb].
  pose proof (re_gone b (fun n => f (S n)) [] Hb) as [E1 E2]. rewrite app_nil_r in *. split; [|exact E2]. exists a, (f O).
  split; [|split; [exact Ha|apply Hf]]. cbn. rewrite E1. cbn. now rewrite app_nil_r.
Qed.

Section Tag.
Variable tag : mark -> str.
Lemma good_solid : forall (P : str -> Prop) s f at_, good P s -> fine f -> s = [] \/ solid s -> P (re f at_ s).
Proof. intros P s f at_ [H _] Hf Hs. rewrite re_solids by exact Hs. auto. Qed.
(** [o w m w' c], where [w] and [w'] are white space *)
Lemma good_in : forall (P Q R : str -> Prop) o w m e c, one_line o -> ws w -> (forall f at_, fine f -> P (re f at_ m)) -> (forall f at_, fine f -> Q (re f at_ e)) ->
  one_line c -> solid c -> (forall w m e, ws w -> P m -> Q e -> R (o ++ w ++ m ++ e ++ c)) -> good R (o ++ w ++ m ++ e ++ c).
Proof.
  intros P Q R o w m e c Ho Hw Hm He Hc Hs H. split.
  - intros f Hf. rewrite (proj1 (one_app o _ f Ho)), !re_app. rewrite (proj1 (re_close _ _ c Hc Hs)). apply H; [apply re_ws; auto|auto|auto].
  - rewrite !fin_app. apply (re_close (fun _ => []) _ c Hc Hs).
Qed.
Lemma item_re :
  (forall txt s u, Item tag txt s u -> steady u -> good (fun s => Item tag txt s u) s) /\
  (forall free s us, Items tag free s us -> Forall steady us -> good (fun s => Items tag free s us) s) /\
  (forall code s us, Row tag code s us -> Forall steady us -> good (fun s => Row tag code s us) s) /\
  (forall s us, More tag s us -> Forall steady us -> good (fun s => More tag s us) s) /\
  (forall line s path us, Block tag line s path us -> Forall steady_label path -> Forall steady us -> good (fun s => Block tag line s path us) s) /\
  (forall para seen open s us, Lines tag para seen open s us -> Forall steady us -> forall f at_, fine f -> Lines tag para seen open (re f at_ s) us) /\
  (forall s u, Paragraph_ tag s u -> steady u -> good (fun s => Paragraph_ tag s u) s) /\
  (forall go s us, Element tag go s us -> Forall steady us -> good (fun s => Element tag go s us) s).
Proof.
  apply (written_ind tag
    (fun txt s u => steady u -> good (fun s => Item tag txt s u) s)
    (fun free s us => Forall steady us -> good (fun s => Items tag free s us) s)
    (fun code s us => Forall steady us -> good (fun s => Row tag code s us) s)
    (fun s us => Forall steady us -> good (fun s => More tag s us) s)
    (fun line s path us => Forall steady_label path -> Forall steady us -> good (fun s => Block tag line s path us) s)
    (fun para seen open s us => Forall steady us -> forall f at_, fine f -> Lines tag para seen open (re f at_ s) us)
    (fun s u => steady u -> good (fun s => Paragraph_ tag s u) s)
    (fun go s us => Forall steady us -> good (fun s => Element tag go s us) s)).
  - intros s t [H H'] _. apply good_one; [now apply (words_no s t)|now apply ItText].
  - intros h t Hh Ht Hs. apply good_one; [|now apply ItVerbatim]. cbn in Hh. intros Hi. rewrite !in_app_iff in Hi. cbn [steady] in Hs. unfold steady_text in Hs.
    destruct Hh as [<-|[<-|[<-|[]]]]; cbn in Hi; intuition discriminate.
  - intros h t Hh Ht Hs. apply good_one; [|now apply ItRaw]. cbn in Hh. intros Hi. rewrite !in_app_iff in Hi. cbn [steady] in Hs. unfold steady_text in Hs.
    destruct Hh as [<-|[<-|[<-|[]]]]; cbn in Hi; intuition discriminate.
  - intros o c t Hi Ht Hs. cbn [steady] in Hs. apply good_one; [exact Hs|now apply ItInterpolation].
  - intros t Ht Hs. cbn [steady] in Hs. apply good_one; [|now apply ItComment]. unfold one_line. rewrite !in_app_iff. cbn. unfold steady_text in Hs. intuition discriminate.
  - intros t Ht Hs. apply steady_nested in Hs as [_ Hs]. apply Forall_inv in Hs. cbn [steady] in Hs. apply good_one; [|now apply ItCode].
    unfold one_line. rewrite !in_app_iff. cbn. unfold steady_text in Hs. intuition discriminate.
  - intros o c m w s us g Hm Hw Hs HL IH Hg Hap H. apply steady_nested in H as [_ H]. destruct (special_one o c m Hm) as (Ho & Hc & Hc'). split.
    + intros f Hf. rewrite (proj1 (one_app o _ f Ho)), !re_app. rewrite (proj1 (re_close _ _ c Hc Hc')).
      apply ItSpecial; [exact Hm|apply re_ws; auto|now apply re_are_solids|auto|now apply re_blanks|apply apart_re; auto].
    + rewrite !fin_app. apply (re_close (fun _ => []) _ c Hc Hc').
  - intros w s us w' Hw Hs HR IH Hw' H. apply steady_elt in H as [_ H]. specialize (IH H).
    apply (good_in (fun s => (s = [] \/ solid s) /\ Row tag true s us) ws); [lit|exact Hw| |intros; now apply re_ws|lit|eexists _, _; split; reflexivity|].
    + intros f at_ Hf. split; [now apply re_are_solids|]. now apply (good_solid (fun s => Row tag true s us)).
    + intros w1 m1 e1 H1 [H2 H3] H4. now apply ItInline.
  - intros w p path s us w' Hw Hp HR IH Hw' H. apply steady_nested in H as [H H']. specialize (IH H').
    assert (L "<(" ++ w ++ p ++ s ++ w' ++ L ")>" = L "<(" ++ w ++ (p ++ s) ++ w' ++ L ")>") as -> by now rewrite <- !app_assoc.
    apply (good_in (fun m => exists p s, Path p path /\ Row tag true s us /\ m = p ++ s) ws); [lit|exact Hw| |intros; now apply re_ws|lit|eexists _, _; split; reflexivity|].
    + intros f at_ Hf. apply (good_solid (fun m => exists p s, Path p path /\ Row tag true s us /\ m = p ++ s)); [|exact Hf|right; apply solid_app; now apply path_solid in Hp].
      apply (good_app _ _ _ _ _ (path_re p path Hp H) IH). intros a b Ha Hb. exists a, b. auto.
    + intros w1 m1 e1 H1 (p1 & s1 & H2 & H3 & ->) H4. rewrite <- !app_assoc. now apply ItElement.
  - intros w line s path us w' Hw HB IH Hw' H. apply steady_nested in H as [H H']. specialize (IH H H').
    apply (good_in (fun s => Block tag line s path us) ws); [lit|exact Hw| |intros; now apply re_ws|lit|eexists _, _; split; reflexivity|].
    + intros f at_ Hf. apply (good_solid (fun s => Block tag line s path us)); [exact IH|exact Hf|right; now apply block_solid in HB].
    + intros w1 m1 e1 H1 H2 H3. now apply ItBlock.
  - intros free _. apply good_one; [lit|constructor].
  - intros free txt g s u s' us Hg HI IH Hf HIs IHs H. apply steady_app in H as [_ H]. apply Forall_cons_iff in H as [H H'].
    apply (good_app _ _ _ _ _ (good_one (eq g) g (gap_no g Hg) eq_refl) (good_app _ _ (fun r => exists s s', Item tag txt s u /\ Items tag (negb txt) s' us /\ r = s ++ s') _ _ (IH H) (IHs H')
      ltac:(intros a b Ha Hb; exists a, b; auto))).
    intros a b <- (s1 & s2 & H1 & H2 & ->). now apply (IsCons tag free txt).
  - intros code s us HI IH H. destruct (IH H) as [H1 H2]. split; [intros f Hf; apply RwItems; auto|exact H2].
  - intros code g s u Hg HM H. exfalso. apply steady_app in H as [_ H]. apply Forall_inv in H. now apply (steady_multi tag code s u).
  - intros _. apply good_one; [lit|constructor].
  - intros nl s us s' us' Hn Hs HR IH HM IHm H. apply Forall_inv_tail in H. apply steady_app in H as [H H'].
    destruct (IH H) as [H1 H2], (IHm H') as [H3 H4]. split.
    + intros f Hf. destruct (re_newline nl f Hf Hn) as [N1 N2]. rewrite !re_app, N2, (re_solid s) by exact Hs. rewrite fin_solid, H2 by exact Hs.
      apply MoCons; [exact N1|now apply re_is_solid|auto|auto].
    + destruct (re_newline nl (fun _ => []) ltac:(intros n; constructor) Hn) as [_ N2]. now rewrite !fin_app, N2, (fin_solid s), H2 by exact Hs.
  - intros h path w s us g Hh Hw Hs HL IH Hg Hn Hp H. destruct (head_re h path Hh Hp) as [Hh1 Hh2]. split.
    + intros f Hf. rewrite re_app, Hh2. rewrite (proj1 (one_app (L "{") _ _ ltac:(lit))), !re_app. rewrite (proj1 (re_close _ _ (L "}") ltac:(lit) ltac:(eexists _, _; split; reflexivity))).
      apply BkBlock; [auto|apply re_ws; auto|now apply re_are_solids|auto|now apply re_blanks|].
      intros Hx. apply re_keeps. apply Hn. now apply re_nil in Hx.
    + rewrite !fin_app. apply (re_close (fun _ => []) _ (L "}") ltac:(lit) ltac:(eexists _, _; split; reflexivity)).
  - intros p path g' w s us g Hh Hg' Hw Hs HL IH Hg Hn Hp H. destruct (path_re p path Hh Hp) as [Hh1 Hh2]. split.
    + intros f Hf. rewrite re_app, Hh2. rewrite (proj1 (one_app g' _ _ (gap_no g' Hg'))), (proj1 (one_app (L "{") _ _ ltac:(lit))), !re_app.
      rewrite (proj1 (re_close _ _ (L "}") ltac:(lit) ltac:(eexists _, _; split; reflexivity))).
      apply BkLine; [auto|exact Hg'|apply re_ws; auto|now apply re_are_solids|auto|now apply re_blanks|].
      intros Hx. apply re_keeps. apply Hn. now apply re_nil in Hx.
    + rewrite !fin_app. apply (re_close (fun _ => []) _ (L "}") ltac:(lit) ltac:(eexists _, _; split; reflexivity)).
  - intros para seen open _ f at_ Hf. constructor.
  - intros para seen open b s us Hb HL IH H f at_ Hf. apply Forall_inv_tail in H. cbn [app re N.eqb Pos.eqb]. rewrite (proj1 (re_gone b _ s Hb)).
    apply (LsBlank tag para seen open (f O) (re (fun n => f (S n)) true s) us); [apply Hf|apply IH; auto].
  - intros para seen open go s us HE IH H f at_ Hf. apply steady_app in H as [_ H]. apply (LsElement tag para seen open go).
    apply (good_solid (fun s => Element tag go s us)); [auto|exact Hf|right; now apply element_solid in HE].
  - intros para seen open go s us nl s' us' HE IH Hn HL IHl H f at_ Hf. apply steady_app in H as [_ H]. apply steady_app in H as [H H'].
    pose proof (element_solid _ _ _ _ HE) as Hs. destruct (IH H) as [H1 H2]. destruct (re_newline nl (later f s) ltac:(auto) Hn) as [N1 N2].
    rewrite !re_app, (re_solid s), fin_solid, H2, N2 by exact Hs. apply (LsElements tag para seen open go); [auto|exact N1|apply IHl; auto].
  - intros seen s u HP IH H f at_ Hf. apply steady_app in H as [_ H]. apply Forall_inv in H. apply LsText.
    apply (good_solid (fun s => Paragraph_ tag s u)); [auto|exact Hf|right; now apply paragraph_solid in HP].
  - intros seen s u nl s' us HP IH Hn HL IHl H f at_ Hf. apply steady_app in H as [_ H]. apply Forall_cons_iff in H as [H H'].
    pose proof (paragraph_solid _ _ _ HP) as Hs. destruct (IH H) as [H1 H2]. destruct (re_newline nl (later f s) ltac:(auto) Hn) as [N1 N2].
    rewrite !re_app, (re_solid s), fin_solid, H2, N2 by exact Hs. apply LsTexts; [auto|exact N1|apply IHl; auto].
  - intros para seen s us Hs HR IH Hsh H f at_ Hf. apply steady_app in H as [_ H]. apply LsRow; [now apply re_is_solid|apply (good_solid (fun s => Row tag false s us)); auto|exact Hsh].
  - intros para seen s us nl s' us' Hs HR IH Hsh Hn HL IHl H f at_ Hf. apply steady_app in H as [_ H]. apply steady_app in H as [H H'].
    destruct (IH H) as [H1 H2]. destruct (re_newline nl (later f s) ltac:(auto) Hn) as [N1 N2].
    rewrite !re_app, (re_solid s), fin_solid, H2, N2 by exact Hs. apply LsRows; [now apply re_is_solid|auto|exact Hsh|exact N1|apply IHl; auto].
  - intros s us s' us' Hs HR IH Hsh HM IHm H. apply steady_elt in H as [_ H]. apply steady_app in H as [H H'].
    apply (good_app (fun s => solid s /\ Row tag false s us) (fun s => More tag s us')); [|auto|intros a b [Ha Ha'] Hb; now apply PgText].
    destruct (IH H) as [H1 H2]. split; [intros f Hf; split; [now apply re_is_solid|auto]|exact H2].
  - intros c cs p path s us s' us' Hc Hp HR IH HM IHm H. apply steady_app in H as [Hcs H]. apply Forall_inv in H.
    apply steady_nested in H as [Hl H]. apply steady_app in H as [H H']. pose proof (margin_one c cs Hc Hcs) as Hc1.
    destruct (path_re p path Hp Hl) as [P1 P2], (IH H) as [I1 I2], (IHm H') as [J1 J2]. split.
    + intros f Hf. rewrite (proj1 (one_app c _ f Hc1)), !re_app, P2, I2. apply ElLine; auto.
    + rewrite (proj2 (one_app c _ (fun _ => []) Hc1)), !fin_app, P2, I2. exact J2.
  - intros c cs line s path us c' cs' Hc HB IH Hc' Hx H. apply steady_app in H as [Hcs H]. apply Forall_cons_iff in H as [H Hcs'].
    apply steady_nested in H as [H H']. pose proof (margin_one c cs Hc Hcs) as Hc1. pose proof (comments_one c' cs' Hc' Hcs') as Hc2. destruct (IH H H') as [B1 B2]. split.
    + intros f Hf. rewrite (proj1 (one_app c _ f Hc1)), !re_app, B2, (re_id c') by exact Hc2. apply ElBlock; [exact Hc|auto|exact Hc'|].
      intros Hg. apply Hx. now apply starts_re in Hg.
    + rewrite (proj2 (one_app c _ (fun _ => []) Hc1)), !fin_app, B2. now apply fin_id.
  - intros c cs s ls c' cs' Hc HB Hc' H. exfalso. apply steady_app in H as [_ H]. apply Forall_inv in H. apply steady_nested in H as [_ H]. now apply Forall_inv in H.
Qed.
Lemma source_re : forall s us f at_, fine f -> Source tag s us -> Forall steady us -> Source tag (re f at_ s) us.
Proof.
  intros s us f at_ Hf [w s' us' g Hw Hs HL Hg] H. rewrite !re_app. apply SrcOf; [apply re_ws; auto|now apply re_are_solids| |now apply re_blanks].
  apply item_re; auto.
Qed.
Lemma source_before : forall s us b, blanks b -> Source tag s us -> Source tag (b ++ s) us.
Proof.
  intros s us b Hb [w s' us' g Hw Hs HL Hg]. rewrite app_assoc. apply SrcOf; auto. apply Forall_app. split; [|exact Hw]. apply (Forall_impl _ (fun c => @proj1 _ _) Hb).
Qed.
End Tag.

(** ** Lines *)
Lemma lines_cons : forall s, exists l ls, lines_of s = l :: ls.
Proof. intros [|c s]; [now exists [], []|]. cbn. destruct (c =? 10); [eauto|]. destruct (lines_of s); eauto. Qed.
Lemma lines_no : forall s, Forall one_line (lines_of s).
Proof.
  induction s as [|c s IH]; [repeat constructor; lit|]. cbn. destruct (N.eqb_spec c 10) as [->|Hc]; [constructor; [lit|exact IH]|].
  destruct (lines_of s) as [|l ls]; [repeat constructor; intros [E|[]]; now apply Hc|]. apply Forall_cons_iff in IH as [H H'].
  constructor; [|exact H']. intros [E|Hi]; [now apply Hc|now apply H].
Qed.
Lemma lines_join : forall s, join_lines (lines_of s) = s.
Proof.
  induction s as [|c s IH]; [reflexivity|]. cbn [lines_of]. destruct (lines_cons s) as (l & ls & E). rewrite E in *. destruct (N.eqb_spec c 10) as [->|Hc].
  - change (join_lines ([] :: l :: ls)) with (10 :: join_lines (l :: ls)). now rewrite IH.
  - destruct ls; cbn in *; now rewrite IH.
Qed.
Lemma white_split : forall l, one_line l -> exists b, l = b ++ drop_white l /\ blanks b /\ (drop_white l = [] \/ solid (drop_white l)).
Proof.
  intros l H. destruct (drop_white_split l) as (b & E & Hb & Hd). exists b. split; [exact E|]. split; [|exact Hd]. apply Forall_forall. intros c Hc.
  unfold ws in Hb. rewrite Forall_forall in Hb. split; [now apply Hb|]. intros ->. apply H. rewrite E. apply in_app_iff. now left.
Qed.
Lemma re_line : forall l f, one_line l -> re f true l = drop_white l.
Proof.
  intros l f H. destruct (white_split l H) as (b & E & Hb & Hd). rewrite E at 1. rewrite (proj1 (re_gone b f _ Hb)). rewrite re_solids by exact Hd.
  apply re_id. intros Hi. apply H. rewrite E. apply in_app_iff. now right.
Qed.
Lemma re_lines : forall ls ls', Forall one_line ls -> Forall one_line ls' -> ls <> [] -> map drop_white ls = map drop_white ls' ->
  exists f, fine f /\ join_lines ls' = f O ++ re (fun n => f (S n)) true (join_lines ls).
Proof.
  induction ls as [|l ls IH]; intros ls' H H' Hn E; [now destruct Hn|]. destruct ls' as [|l' ls']; [discriminate|]. injection E as E0 E.
  apply Forall_cons_iff in H as [Hl H]. apply Forall_cons_iff in H' as [Hl' H']. destruct (white_split l' Hl') as (b & Eb & Hb & _).
  destruct ls as [|m ls].
  - destruct ls' as [|]; [|discriminate]. exists (fun n => match n with O => b | _ => [] end). split; [intros [|n]; [exact Hb|constructor]|].
    cbn [join_lines]. unfold join_lines. cbn. rewrite re_line, E0 by exact Hl. exact Eb.
  - destruct (IH ls' H H' ltac:(discriminate) E) as (f & Hf & Ef). destruct ls' as [|m' ls']; [discriminate|].
    exists (fun n => match n with O => b | S n => f n end). split; [intros [|n]; [exact Hb|apply Hf]|].
    change (join_lines (l' :: m' :: ls')) with (l' ++ 10 :: join_lines (m' :: ls')). change (join_lines (l :: m :: ls)) with (l ++ 10 :: join_lines (m :: ls)).
    rewrite Ef, re_app, (re_line l) by exact Hl. cbn [re N.eqb Pos.eqb]. rewrite E0, app_assoc, <- Eb. f_equal. f_equal.
    clear - Hl. assert (forall g, later g l = g) as ->; [|reflexivity]. induction l as [|c l IHl]; intros g; [reflexivity|]. cbn [later].
    destruct (N.eqb_spec c 10) as [->|_]; [exfalso; apply Hl; now left|]. apply IHl. intros Hi. apply Hl. now right.
Qed.
Lemma source_indented : forall tag s s' us, same_but_indented s s' -> Source tag s us -> Forall steady us -> Source tag s' us.
Proof.
  intros tag s s' us E H Hs. destruct (re_lines (lines_of s) (lines_of s') (lines_no s) (lines_no s')) as (f & Hf & Ef); [now destruct (lines_cons s) as (l & ls & ->)|exact E|].
  rewrite !lines_join in Ef. rewrite Ef. apply source_before; [apply Hf|]. apply source_re; [now apply fine_next|exact H|exact Hs].
Qed.

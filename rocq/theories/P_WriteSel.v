(** * Sources written as in SpecWrite.v: what the parser and the builder make of selectors. *)

From Verif Require Import Base Escape Doc Ast Errors Build Convert Grammar Parser SpecSource SpecEscape SpecTree SpecInfer SpecBuild SpecWrite
  P_Base P_Escape P_Grammar P_Lexer P_Parser P_Unknown P_Forward.
From Coq Require Import Lia.

(** ** Outcomes, up to lack of fuel *)
Definition gets {A} (o : outcome A) (a : A) (s : pstate) : Prop := o = Got a s \/ o = Starved.
Definition misses {A} (o : outcome A) : Prop := o = Absent \/ o = Starved.

Lemma gets_then : forall A B (o : outcome A) (f : A -> pstate -> outcome B) a s b s',
  gets o a s -> gets (f a s) b s' -> gets (then_ o f) b s'.
Proof. intros A B o f a s b s' [-> | ->] H; [exact H|right; reflexivity]. Qed.
Lemma misses_then : forall A B (o : outcome A) (f : A -> pstate -> outcome B), misses o -> misses (then_ o f).
Proof. intros A B o f [-> | ->]; [left|right]; reflexivity. Qed.
Lemma misses_then_r : forall A B (o : outcome A) (f : A -> pstate -> outcome B) a s, gets o a s -> misses (f a s) -> misses (then_ o f).
Proof. intros A B o f a s [-> | ->] H; [exact H|right; reflexivity]. Qed.
Lemma gets_or_l : forall A (o o' : outcome A) a s, gets o a s -> gets (or_else o o') a s.
Proof. intros A o o' a s [-> | ->]; [left|right]; reflexivity. Qed.
Lemma gets_or_r : forall A (o o' : outcome A) a s, misses o -> gets o' a s -> gets (or_else o o') a s.
Proof. intros A o o' a s [-> | ->] H; [exact H|right; reflexivity]. Qed.
Lemma misses_or : forall A (o o' : outcome A), misses o -> misses o' -> misses (or_else o o').
Proof. intros A o o' [-> | ->] H; [exact H|right; reflexivity]. Qed.
Lemma gets_maybe : forall A s (o : outcome A) a s', gets o a s' -> gets (maybe s o) (Some a) s'.
Proof. intros A s o a s' [-> | ->]; [left|right]; reflexivity. Qed.
Lemma misses_maybe : forall A s (o : outcome A), misses o -> gets (maybe s o) None s.
Proof. intros A s o [-> | ->]; [left|right]; reflexivity. Qed.
Lemma gets_ret : forall A (a : A) s, gets (Got a s) a s.
Proof. now left. Qed.

Section Src.
Variable src : str.

(** The state where [r] is left *)
Definition on (s : pstate) (r : str) : Prop := At src s /\ p_rest s = r.
Lemma on_eq : forall s s' r, on s r -> on s' r -> s = s'.
Proof.
  intros [p b r1] [p' b' r2] r [[H1 H2] E] [[H3 H4] E']. cbn [p_at p_back p_rest] in *. subst r1 r2 p p'.
  rewrite H1 in H3. apply app_inv_tail in H3. apply (f_equal (@rev N)) in H3. rewrite !rev_involutive in H3. now subst b'.
Qed.
Lemma on_advance : forall s m r, on s (m ++ r) -> on (advance s m r) r.
Proof. intros s m r [H E]. split; [now apply at_advance|reflexivity]. Qed.
Lemma slice_between : forall s s' m r, on s (m ++ r) -> on s' r -> SliceOf src (mkR (p_at s) (p_at s')) m.
Proof.
  intros s s' m r H H'. pose proof (on_eq _ _ _ (on_advance _ _ _ H) H') as <-. destruct H as [[H1 H2] E].
  exists (rev (p_back s)), r. cbn [r_start r_end advance p_at]. rewrite H1, E, <- H2. auto.
Qed.

Definition Fwd {A} (f : pstate -> outcome A) (m post : str) (P : A -> Prop) : Prop :=
  forall s, on s (m ++ post) -> exists a s', gets (f s) a s' /\ on s' post /\ P a.
Definition Mis {A} (f : pstate -> outcome A) (r : str) : Prop := forall s, on s r -> misses (f s).

Lemma fwd_tok : forall a m post, takes a m post -> Fwd (tok a) m post (fun r => SliceOf src r m).
Proof.
  intros a m post H s Hs. pose proof (on_advance _ _ _ Hs) as Hs'.
  exists (mkR (p_at s) (p_at s + blen m)), (advance s m post). split; [left|split; [exact Hs'|]].
  - unfold tok. destruct Hs as [_ ->]. now rewrite H.
  - exact (slice_between _ _ _ _ Hs Hs').
Qed.
Lemma mis_tok : forall a r, refuses a r -> Mis (tok a) r.
Proof. intros a r H s [_ E]. left. unfold tok. now rewrite E, H. Qed.
Lemma fwd_text : forall t post, Fwd (text_tok t) t post (fun r => SliceOf src r t).
Proof. intros t post. apply fwd_tok, takes_exactly. Qed.
Lemma mis_text : forall c t r, (forall d r', r = d :: r' -> d <> c) -> Mis (text_tok (c :: t)) r.
Proof. intros c t r H. now apply mis_tok, refuses_exactly. Qed.
Lemma on_skip : forall f m post s, Forall (fun c => f c = true) m -> stops f post -> on s (m ++ post) -> on (skip f s) post.
Proof.
  intros f m post s H Hp Hs. rewrite (skip_runs f m post s H Hp (proj2 Hs)). now apply on_advance.
Qed.
Lemma on_skip_ws : forall w post s, ws w -> stops is_whitespace post -> on s (w ++ post) -> on (skip_ws s) post.
Proof. intros w post s H. now apply on_skip. Qed.
Lemma on_skip_space : forall b post s, blanks b -> stops not_newline_space post -> on s (b ++ post) -> on (skip_space s) post.
Proof. intros b post s H. apply on_skip. eapply Forall_impl; [|exact H]. apply blank_space. Qed.

(** [Vec] *)
Inductive Vec {A} (f : pstate -> outcome A) (post : str) : str -> list (A -> Prop) -> Prop :=
| VNil : Mis f post -> Vec f post [] []
| VCons : forall m m' P Ps, Fwd f m (m' ++ post) P -> Vec f post m' Ps -> Vec f post (m ++ m') (P :: Ps).
Lemma fwd_vec_ : forall A (f : pstate -> outcome A) post m Ps, Vec f post m Ps -> forall fuel,
  Fwd (vec_ f fuel) m post (fun l => Forall2 (fun P a => P a) Ps l).
Proof.
  intros A f post m Ps H. induction H as [H|m m' P Ps H1 H2 IH]; intros fuel s Hs.
  - exists [], s. destruct fuel as [|fuel]; [split; [now right|]; split; [exact Hs|constructor]|]. cbn [vec_].
    split; [|split; [exact Hs|constructor]]. destruct (H s Hs) as [-> | ->]; [left|right]; reflexivity.
  - rewrite <- app_assoc in Hs. destruct (H1 s Hs) as (a & s1 & G1 & O1 & P1).
    assert (exists l s2, gets (match fuel with O => Starved | S fuel => vec_ f fuel s1 end) l s2 /\ on s2 post /\ Forall2 (fun P a => P a) Ps l)
      as (l & s2 & G2 & O2 & P2).
    { destruct fuel as [|fuel]; [|now apply IH]. destruct (IH 0%nat s1 O1) as (l & s2 & _ & O2 & P2). exists l, s2. split; [now right|auto]. }
    exists (a :: l), s2. split; [|split; [exact O2|now constructor]].
    destruct fuel as [|fuel]; [now right|]. cbn [vec_]. destruct G1 as [-> | ->]; [|now right].
    eapply gets_then; [exact G2|apply gets_ret].
Qed.
Lemma fwd_vec : forall A (f : pstate -> outcome A) post m Ps, Vec f post m Ps ->
  Fwd (vec f) m post (fun l => Forall2 (fun P a => P a) Ps l).
Proof. intros A f post m Ps H s. unfold vec. now apply (fwd_vec_ _ _ _ _ _ H). Qed.

(** ** Slices *)
Notation slc := (source_slice src).
Lemma slice_app : forall a r m, (exists b, src = a ++ b) -> SliceOf a r m -> SliceOf src r m.
Proof. intros a r m [b ->] (x & y & -> & H1 & H2). exists x, (y ++ b). split; [now rewrite !app_assoc|auto]. Qed.
Lemma slice_inset : forall r a m b, SliceOf src r (a ++ m ++ b) -> SliceOf src (inset r (blen a) (blen b)) m.
Proof.
  intros r a m b (x & y & -> & H1 & H2). exists (x ++ a), (b ++ y). split; [now rewrite <- !app_assoc|].
  unfold inset. cbn [r_start r_end]. rewrite blen_app, <- H1, <- H2, !blen_app. lia.
Qed.

(** ** Ids, classes and attributes *)
Definition sel0 (items : list sel_item) : selector := mkSel (mkR 0 0) Implicit items.
Definition attr_pair (a : attribute) : str * option str :=
  (decoded slc (a_name a), match Doc.a_value a with Some v => Some (decoded slc v) | None => None end).
Definition Parts (items : list sel_item) (ids classes : list str) (l : list (str * option str)) : Prop :=
  map (decoded slc) (ids_in (sel0 items)) = ids /\ map (decoded slc) (classes_in (sel0 items)) = classes /\
  map attr_pair (attrs_in (sel0 items)) = l /\ oksel slc (sel0 items).
Lemma parts_nil : Parts [] [] [] [].
Proof. repeat split; constructor. Qed.
Lemma parts_app : forall x y i1 c1 l1 i2 c2 l2, Parts x i1 c1 l1 -> Parts y i2 c2 l2 ->
  Parts (x ++ y) (i1 ++ i2) (c1 ++ c2) (l1 ++ l2).
Proof.
  intros x y i1 c1 l1 i2 c2 l2 (A1 & A2 & A3 & A4) (B1 & B2 & B3 & B4). unfold Parts, ids_in, classes_in, attrs_in, oksel, sel_strings in *.
  cbn [s_items sel0] in *. rewrite !flat_map_app, !map_app. subst. repeat split. now apply Forall_app.
Qed.
Lemma decoded_slice : forall r s t, SliceOf src r s -> Decodes true s t -> decoded slc (FromSource r) = t /\ D (as_str slc (FromSource r)).
Proof.
  intros r s t Hr Hd. unfold decoded. cbn [as_str]. rewrite (slice_of _ _ _ Hr). split; [|now exists t].
  apply unescape_spec in Hd. now rewrite Hd.
Qed.
Lemma class_decodes : forall c, Forall class_char c -> Decodes true c c.
Proof.
  intros c H. induction H as [|x c [Hx _] H IH]; constructor; [|exact IH]. intros ->. apply Hx. cbn. tauto.
Qed.

(** Running the builder *)
Definition yields {A} (m : M A) (v : A) : Prop := forall st, m st = (st, Ok v).
Lemma yields_ret : forall A (v : A), yields (ret v) v. Proof. intros A v st. reflexivity. Qed.
Lemma yields_bind : forall A B (m : M A) (f : A -> M B) v w, yields m v -> yields (f v) w -> yields (bind m f) w.
Proof. intros A B m f v w H1 H2 st. unfold bind. now rewrite H1, H2. Qed.
Lemma yields_syntax : yields (syntax []) tt.
Proof. intros st. unfold syntax. rewrite app_nil_r, Nat.ltb_irrefl, Bool.andb_false_r. now destruct st. Qed.

Definition ClassLikes (cl : list a_classlike) (ids classes : list str) : Prop :=
  exists items, yields (build_class_likes cl) items /\ Parts items ids classes [].
Lemma class_likes_nil : ClassLikes [] [] [].
Proof. exists []. split; [intros st; reflexivity|apply parts_nil]. Qed.
Lemma class_likes_cons : forall c cl i ids classes ids' classes', yields (build_class_like c) (Some i) -> Parts [i] ids classes [] ->
  ClassLikes cl ids' classes' -> ClassLikes (c :: cl) (ids ++ ids') (classes ++ classes').
Proof.
  intros c cl i ids classes ids' classes' H1 H2 (items & H3 & H4). exists (i :: items). split; [|now apply (parts_app [i] items _ _ [] _ _ [])].
  intros st. specialize (H1 st). specialize (H3 st). unfold build_class_likes in *. cbn [mapM]. unfold bind in *. rewrite H1.
  destruct (mapM build_class_like cl st) as [st' [v| |]]; try discriminate. unfold ret in *. cbn. congruence.
Qed.

Definition AttrListIs (a : a_attrs) (l : list (str * option str)) : Prop :=
  exists i, yields (build_attribute_list a) i /\ Parts [i] [] [] l.

(** ** Attributes *)
Definition astr (t : tslice) : Prop := D (as_str slc t).
Definition AttrIs (x : attribute) (a : str * option str) : Prop :=
  attr_pair x = a /\ astr (a_name x) /\ match Doc.a_value x with Some v => astr v | None => True end.
Definition aend (post : str) : Prop := exists w c r, post = w ++ c :: r /\ ws w /\ is_whitespace c = false /\ c <> 61 /\ (w = [] -> c = 93).
Lemma aend_head : forall post, aend post -> forall c r, post = c :: r -> c = 93 \/ is_whitespace c = true.
Proof.
  intros post (w & c & r & -> & Hw & Hc & Hn & H) d r' E. destruct w as [|x w]; injection E as <- _.
  - left. now apply H.
  - inversion Hw; subst. now right.
Qed.
Lemma spelled_head : forall plain s t, s <> [] -> Spelled plain s t -> exists c r, s = c :: r /\ (plain c \/ c = 92).
Proof.
  intros plain s t Hs H. destruct H as [|c s t Hc H|e c s t He H]; [now destruct Hs|exists c, s; auto|].
  assert (exists e', e = 92 :: e') as [e' ->] by (destruct He; eexists; reflexivity). exists 92, (e' ++ s). auto.
Qed.
Lemma stops_cons : forall f c r, f c = false -> stops f (c :: r).
Proof. now intros f c r H d r' [= <- _]. Qed.
Lemma refuses_item : forall f c r, f c = false -> c <> 92 -> refuses (x_alt (x_one f) x_escape) (c :: r).
Proof.
  intros f c r H Hc. apply refuses_alt; [apply refuses_one; now intros d r' [= <- _]|].
  assert (forall d r', c :: r = d :: r' -> d <> 92) by (now intros d r' [= <- _]).
  apply refuses_alt; apply refuses_seq_l; now apply refuses_exactly.
Qed.
Lemma value_fwd : forall s t post, Value s t -> (forall c r, post = c :: r -> c = 93 \/ is_whitespace c = true) ->
  Fwd p_value s post (fun v => let r := FromSource (match v with AUnquoted r => r | AQuoted r => inset r 1 1 end) in decoded slc r = t /\ astr r).
Proof.
  intros s t post H Hp st Hs.
  assert (forall q s t, q = 34 \/ q = 39 -> Spelled (fun c => c <> q /\ c <> 92) s t -> on st ((q :: s ++ [q]) ++ post) ->
    exists a s', gets (p_value st) a s' /\ on s' post /\
      (let r := FromSource (match a with AUnquoted r => r | AQuoted r => inset r 1 1 end) in decoded slc r = t /\ astr r)) as HQ.
  { clear s t H Hs. intros q s t Hq H Hs.
    destruct (fwd_tok _ _ _ (takes_quoted q s t post Hq H) st Hs) as (r & s1 & G & O & P).
    exists (AQuoted r), s1. split; [|split; [exact O|]].
    - apply gets_or_r; [|eapply gets_then; [exact G|apply gets_ret]]. apply misses_then. revert Hs. cbn [app]. apply mis_tok.
      apply refuses_many1, refuses_item; [|destruct Hq; subst q; discriminate].
      unfold not_, or_. apply Bool.negb_false_iff. destruct Hq; subst q; reflexivity.
    - change (q :: s ++ [q]) with ([q] ++ s ++ [q]) in P. apply slice_inset in P.
      assert (blen [q] = 1) as E by (destruct Hq; subst q; reflexivity). rewrite E in P.
      apply (decoded_slice _ _ _ P). apply spelled_decodes with (2 := H). now intros [_ Hn]. }
  destruct H as [s t H|s t H|s t Hn H]; [apply (HQ 34 s); auto|apply (HQ 39 s); auto|]. clear HQ.
  destruct (fwd_tok _ _ _ (takes_unquoted s t post Hn H Hp) st Hs) as (r & s1 & G & O & P).
  exists (AUnquoted r), s1. split; [|split; [exact O|]].
  - apply gets_or_l. eapply gets_then; [exact G|apply gets_ret].
  - apply (decoded_slice _ _ _ P). apply spelled_decodes with (2 := H). intros [Hv _]. apply Hv. cbn. tauto.
Qed.
Lemma value_head : forall s t, Value s t -> exists c r, s = c :: r /\ is_whitespace c = false.
Proof.
  intros s t [s' t' H|s' t' H|s' t' Hn H]; [exists 34, (s' ++ [34]); auto|exists 39, (s' ++ [39]); auto|].
  destruct (spelled_head _ _ _ Hn H) as (c & r & -> & [[_ Hc]|Hc]); exists c, r; [auto|]. now subst.
Qed.
Lemma attr_head : forall s a, Attr s a -> exists c r, s = c :: r /\ is_whitespace c = false /\ c <> 61 /\ c <> 93.
Proof.
  assert (forall s t r, s <> [] -> Spelled attr_plain s t -> exists c r', s ++ r = c :: r' /\ is_whitespace c = false /\ c <> 61 /\ c <> 93) as HA.
  { intros s t r Hn H. destruct (spelled_head _ _ _ Hn H) as (c & r' & -> & [[Hc Hw]|Hc]); exists c, (r' ++ r).
    - split; [reflexivity|]. split; [exact Hw|]. unfold one_of in Hc. cbn in Hc. split; intros ->; tauto.
    - subst c. repeat split; discriminate. }
  intros s a [s' t Hn H|s' t v w Hn H Hv]; [|eapply HA; eauto]. destruct (HA s' t [] Hn H) as (c & r & E & H').
  rewrite app_nil_r in E. eauto.
Qed.
Lemma attr_fwd : forall w s a post, ws w -> Attr s a -> aend post ->
  Fwd p_attr (w ++ s) post (fun x => AttrIs (build_attribute x) a).
Proof.
  intros w s a post Hw H Hp st Hs. rewrite <- app_assoc in Hs.
  assert (on (skip_ws st) (s ++ post)) as Hs0.
  { apply (on_skip_ws w); [exact Hw| |exact Hs]. destruct (attr_head _ _ H) as (c & r & -> & Hc & _). now apply stops_cons. }
  unfold p_attr. set (s0 := skip_ws st) in *. clearbody s0. clear st Hs w Hw.
  assert (forall r s t, Spelled attr_plain s t -> SliceOf src r s -> decoded slc (FromSource r) = t /\ astr (FromSource r)) as HD.
  { intros r s' t' H' P. apply (decoded_slice _ _ _ P). apply spelled_decodes with (2 := H'). intros [Hv _]. apply Hv. cbn. tauto. }
  destruct H as [s t Hn H|s t v w Hn H Hv].
  - assert (forall c r, post = c :: r -> c = 61 \/ c = 93 \/ is_whitespace c = true) as Hp' by (intros; right; eapply aend_head; eauto).
    destruct (fwd_tok _ _ _ (takes_attr_name s t post Hn H Hp') s0 Hs0) as (r & s1 & G & O & P).
    exists (mkAAttr (p_at s0) r None (p_at s1)), s1. split; [|split; [exact O|]].
    + eapply gets_then; [exact G|]. eapply gets_then; [apply misses_maybe|apply gets_ret].
      unfold p_assign. apply misses_then. destruct Hp as (w & c & r' & -> & Hw & Hc & Hne & _).
      apply (mis_text 61 [] (c :: r')); [now intros d x [= <- _]|]. apply (on_skip_ws w); [exact Hw|now apply stops_cons|exact O].
    + destruct (HD _ _ _ H P) as [E1 E2]. repeat split; [|exact E2]. unfold attr_pair. cbn. now rewrite E1.
  - rewrite <- !app_assoc in Hs0.
    assert (forall c r, L "=" ++ v ++ post = c :: r -> c = 61 \/ c = 93 \/ is_whitespace c = true) as Hp' by (intros c r [= <- _]; now left).
    destruct (fwd_tok _ _ _ (takes_attr_name s t _ Hn H Hp') s0 Hs0) as (r & s1 & G & O & P).
    assert (on (skip_ws s1) (L "=" ++ v ++ post)) as O1.
    { apply (on_skip_ws []); [constructor|now apply stops_cons|exact O]. }
    destruct (fwd_text (L "=") _ _ O1) as (eq & s2 & G2 & O2 & _).
    assert (on (skip_ws s2) (v ++ post)) as O3.
    { apply (on_skip_ws []); [constructor| |exact O2]. destruct (value_head _ _ Hv) as (c & r' & -> & Hc). now apply stops_cons. }
    destruct (value_fwd _ _ _ Hv (aend_head _ Hp) _ O3) as (va & s3 & G3 & O4 & E3 & D3).
    exists (mkAAttr (p_at s0) r (Some (eq, va)) (p_at s3)), s3. split; [|split; [exact O4|]].
    + eapply gets_then; [exact G|]. eapply gets_then; [apply gets_maybe|apply gets_ret].
      unfold p_assign. eapply gets_then; [exact G2|]. eapply gets_then; [exact G3|apply gets_ret].
    + destruct (HD _ _ _ H P) as [E1 E2]. unfold AttrIs, attr_pair, build_attribute. cbn [a_name Doc.a_value aa_name aa_assign opt_map snd].
      rewrite E1, E3. auto.
Qed.
Lemma attrs_head : forall s l, Attrs s l -> s = [] \/ exists c r, s = c :: r /\ is_whitespace c = false /\ c <> 61 /\ c <> 93.
Proof.
  intros s l H. destruct H as [|s a H|s a w1 s' l H Hn Hw1 H']; [now left|right|right].
  - now apply attr_head in H.
  - apply attr_head in H as (c & r & -> & H). exists c, (r ++ w1 ++ s'). auto.
Qed.
Lemma attrs_fwd : forall s l w w' post, Attrs s l -> ws w -> ws w' ->
  exists m t, w ++ s ++ w' = m ++ t /\ ws t /\
    Vec p_attr (t ++ L "]" ++ post) m (map (fun a x => AttrIs (build_attribute x) a) l).
Proof.
  intros s l w w' post H Hw Hw'. revert w Hw.
  assert (forall t, ws t -> Mis p_attr (t ++ L "]" ++ post)) as HM.
  { intros t Ht st Hs. unfold p_attr. apply misses_then.
    apply (mis_tok x_attribute_name (93 :: post)); [apply refuses_many1, refuses_item; [reflexivity|discriminate]|].
    apply (on_skip_ws t); [exact Ht|now apply stops_cons|exact Hs]. }
  induction H as [|s a H|s a w1 s' l H Hn Hw1 H' IH]; intros w Hw.
  - assert (ws (w ++ w')) by now apply Forall_app. exists [], (w ++ w'). repeat split; auto. constructor. auto.
  - exists (w ++ s), w'. split; [apply app_assoc|]. split; [exact Hw'|]. rewrite <- (app_nil_r (w ++ s)). cbn [map].
    constructor; [apply attr_fwd; auto|constructor; auto]. exists w', 93, post. repeat split; auto. discriminate.
  - destruct (IH w1 Hw1) as (m & t & E & Ht & HV). exists ((w ++ s) ++ m), t. split; [|split; [exact Ht|]].
    + rewrite <- !app_assoc. do 2 f_equal. exact E.
    + cbn [map]. constructor; [|exact HV]. apply attr_fwd; [exact Hw|exact H|]. rewrite app_assoc, <- E, <- !app_assoc.
      destruct (attrs_head _ _ H') as [->|(c & r & -> & Hc & Hc1 & Hc2)].
      * exists (w1 ++ w'), 93, post. rewrite <- app_assoc. split; [reflexivity|]. split; [now apply Forall_app|]. repeat split. discriminate.
      * exists w1, c, (r ++ w' ++ L "]" ++ post). repeat split; auto. contradiction.
Qed.
Lemma attr_list_parts : forall l xs r, Forall2 (fun (P : a_attr -> Prop) a => P a) (map (fun a x => AttrIs (build_attribute x) a) l) xs ->
  Parts [SAttrs r (map build_attribute xs)] [] [] l.
Proof.
  intros l xs r H.
  assert (map attr_pair (map build_attribute xs) = l /\ Forall astr (item_strings (SAttrs r (map build_attribute xs)))) as [H1 H2].
  { revert xs H. induction l as [|a l IH]; intros xs H; inversion H as [|? x ? xs' HA H']; subst; [split; constructor|].
    cbn beta in HA. destruct HA as (E1 & E2 & E3), (IH _ H') as [E4 E5]. split; [cbn [map]; now rewrite E1, E4|].
    cbn [item_strings map flat_map] in *. change (Forall astr (([a_name (build_attribute x)] ++ match Doc.a_value (build_attribute x) with Some v => [v] | None => [] end) ++
      flat_map (fun a0 => a_name a0 :: match Doc.a_value a0 with Some v => [v] | None => [] end) (map build_attribute xs'))).
    apply Forall_app. split; [|exact E5]. apply Forall_app. split; [constructor; [exact E2|constructor]|].
    destruct (Doc.a_value (build_attribute x)); [constructor; [exact E3|constructor]|constructor]. }
  repeat split.
  - unfold attrs_in. cbn [s_items sel0 flat_map]. now rewrite app_nil_r.
  - unfold oksel, sel_strings. cbn [s_items sel0 flat_map]. now rewrite app_nil_r.
Qed.
Lemma attr_list_fwd : forall s l post, AttrList s l -> s <> [] -> Fwd p_attrs s post (fun a => AttrListIs a l).
Proof.
  intros s l post H Hn st Hs. destruct H as [|w s l w' Hw H Hw']; [now destruct Hn|]. rewrite <- !app_assoc in Hs.
  destruct (fwd_text (L "[") _ _ Hs) as (lb & s1 & G1 & O1 & _).
  destruct (attrs_fwd s l w w' post H Hw Hw') as (m & t & E & Ht & HV).
  assert (on s1 (m ++ t ++ L "]" ++ post)) as O1' by (rewrite app_assoc, <- E, <- !app_assoc; exact O1).
  destruct (fwd_vec _ _ _ _ _ HV s1 O1') as (xs & s2 & G2 & O2 & P2).
  assert (on (skip_ws s2) (L "]" ++ post)) as O3 by (apply (on_skip_ws t); [exact Ht|now apply stops_cons|exact O2]).
  destruct (fwd_text (L "]") _ _ O3) as (rb & s4 & G4 & O4 & _).
  exists (mkAAttrs (p_at st) lb xs (Some rb) (p_at s4)), s4. split; [|split; [exact O4|]].
  - unfold p_attrs. eapply gets_then; [exact G1|]. eapply gets_then; [exact G2|]. cbn zeta.
    eapply gets_then; [apply gets_maybe; exact G4|apply gets_ret].
  - eexists. split; [intros st'; reflexivity|]. cbn [al_parts]. now apply attr_list_parts.
Qed.

(** ** Selectors *)
Definition sel_label (s : selector) : label :=
  (sel_name slc s, attributes_of (map (decoded slc) (ids_in s)) (map (decoded slc) (classes_in s)) (map attr_pair (attrs_in s))).
Definition Sel (s : selector) (l : label) : Prop := sel_label s = l /\ oksel slc s.
Definition SelectorIs (a : a_selector) (l : label) : Prop := exists sel, yields (build_selector a) sel /\ Sel sel l.

Variable alnum : chr -> bool.
Hypothesis Hal : ascii_ok alnum.

(** What may come after a selector *)
Definition sel_post (p : str) : Prop := exists g q, p = g ++ q /\ gap g /\ sel_end q.
Lemma gap_head : forall g, gap g -> forall c r, g = c :: r -> c = 32 \/ c = 9.
Proof. intros g H c r ->. inversion H as [|? ? Hc]; subst. cbn in Hc. intuition. Qed.
Lemma sel_post_head : forall p, sel_post p -> exists c r, p = c :: r /\ In c [32; 9; 62; 123].
Proof.
  intros p ([|c g] & q & -> & Hg & Hq).
  - destruct Hq as [[r ->]|(r & -> & _)]; eexists _, r; (split; [reflexivity|cbn; tauto]).
  - exists c, (g ++ q). split; [reflexivity|]. destruct (gap_head _ Hg c g eq_refl); subst; cbn; tauto.
Qed.
Lemma mis_attrs : forall r, (forall c r', r = c :: r' -> c <> 91) -> Mis p_attrs r.
Proof. intros r H s Hs. apply misses_then. revert Hs. now apply mis_text. Qed.
Lemma mis_chain : forall A (f : pstate -> outcome A) c r, In c [32; 9; 62; 123; 91] -> Mis (in_chain alnum f) (c :: r).
Proof.
  intros A f c r H s [_ E]. left. unfold in_chain. rewrite E.
  assert (refuses (x_selector_chain alnum) (c :: r)) as Hr; [|now rewrite Hr].
  apply refuses_seq_l, refuses_many1, refuses_word.
  - cbn in H. intuition (subst; reflexivity).
  - apply no_word_star; [exact Hal|]. cbn in *. tauto.
  - cbn in H. intuition (subst; discriminate).
Qed.
Lemma mis_segment : forall p, sel_post p -> Mis (p_segment alnum) p.
Proof.
  intros p Hp s Hs. destruct (sel_post_head p Hp) as (c & r & -> & Hc). apply misses_or.
  - apply misses_then. revert Hs. apply mis_attrs. intros d r' [= <- _]. cbn in Hc. intuition (subst; discriminate).
  - revert Hs. apply mis_chain. cbn in *. tauto.
Qed.
End Src.

Lemma last_ne : forall m : str, ends_alnum m -> m <> [].
Proof. intros m (r & c & -> & _). now destruct r. Qed.
Lemma marks_head : forall s ids classes post, Marks s ids classes -> (forall c r, post = c :: r -> c = 46 \/ c = 35) ->
  forall c r, s ++ post = c :: r -> c = 46 \/ c = 35.
Proof.
  intros s ids classes post H Hp c r E. destruct H; [now apply (Hp c r)| |]; injection E as <- _; auto.
Qed.
(** [src']: what is read when a selector is read; [src]: the source *)
Lemma marks_fwd : forall src src' s ids classes, (exists b, src = src' ++ b) -> Marks s ids classes ->
  Fwd src' (vec p_class_like) s [] (fun cl => ClassLikes src cl ids classes).
Proof.
  intros src src' s ids classes Hb H.
  assert (exists Ps, Vec src' p_class_like [] s Ps /\ forall l, Forall2 (fun P a => P a) Ps l -> ClassLikes src l ids classes) as (Ps & HV & HP).
  { induction H as [|c s ids classes Hc He H IH|c s ids classes Hc He H IH].
    - exists []. split.
      + constructor. intros s Hs. apply misses_or; [|apply misses_or].
        * apply misses_then. now apply (mis_text src' 46 [] []).
        * apply misses_then. now apply (mis_text src' 35 [] []).
        * apply misses_then. revert s Hs. apply mis_tok. intros back. reflexivity.
      + intros l Hl. inversion Hl; subst. apply (class_likes_nil src).
    - destruct IH as (Ps & HV & HP).
      exists ((fun a => exists d i, a = AClass d i /\ SliceOf src' i c) :: Ps). split.
      + rewrite app_assoc. constructor; [|exact HV]. intros st Hs. rewrite <- app_assoc in Hs.
        destruct (fwd_text src' (L ".") _ _ Hs) as (d & s1 & G1 & O1 & P1).
        destruct (fwd_tok src' x_class_name c _ (takes_class_name _ _ Hc (last_ne _ He) (marks_head _ _ _ [] H (ltac:(discriminate)))) s1 O1) as (i & s2 & G2 & O2 & P2).
        exists (AClass d i), s2. split; [|split; [exact O2|eauto]].
        apply gets_or_l. eapply gets_then; [exact G1|]. eapply gets_then; [exact G2|apply gets_ret].
      + intros l Hl. inversion Hl as [|? a ? l' HA Hl']; subst. cbn beta in HA. destruct HA as (d & i & -> & Hi).
        destruct (decoded_slice src _ _ _ (slice_app src _ _ _ Hb Hi) (class_decodes _ Hc)) as [E1 E2].
        apply (class_likes_cons src _ _ (SClass d (FromSource i)) [] [c]); [intros st; reflexivity| |now apply HP].
        split; [reflexivity|]. split; [cbn; now rewrite E1|]. split; [reflexivity|]. constructor; [exact E2|constructor].
    - destruct IH as (Ps & HV & HP).
      exists ((fun a => exists d i, a = AId d i /\ SliceOf src' i c) :: Ps). split.
      + rewrite app_assoc. constructor; [|exact HV]. intros st Hs. rewrite <- app_assoc in Hs.
        destruct (fwd_text src' (L "#") _ _ Hs) as (d & s1 & G1 & O1 & P1).
        destruct (fwd_tok src' x_class_name c _ (takes_class_name _ _ Hc (last_ne _ He) (marks_head _ _ _ [] H (ltac:(discriminate)))) s1 O1) as (i & s2 & G2 & O2 & P2).
        exists (AId d i), s2. split; [|split; [exact O2|eauto]].
        apply gets_or_r; [apply misses_then; revert Hs; apply mis_text; now intros x r [= <- _]|].
        apply gets_or_l. eapply gets_then; [exact G1|]. eapply gets_then; [exact G2|apply gets_ret].
      + intros l Hl. inversion Hl as [|? a ? l' HA Hl']; subst. cbn beta in HA. destruct HA as (d & i & -> & Hi).
        destruct (decoded_slice src _ _ _ (slice_app src _ _ _ Hb Hi) (class_decodes _ Hc)) as [E1 E2].
        apply (class_likes_cons src _ _ (SId d (FromSource i)) [c] []); [intros st; reflexivity| |now apply HP].
        split; [cbn; now rewrite E1|]. split; [reflexivity|]. split; [reflexivity|]. constructor; [exact E2|constructor]. }
  intros s0 Hs. destruct (fwd_vec src' _ _ _ _ _ HV s0 Hs) as (l & s' & G & O & P). exists l, s'. auto.
Qed.

Lemma marks_plain : forall s ids classes, Marks s ids classes -> Forall word_plain s.
Proof.
  assert (forall c, Forall class_char c -> Forall word_plain c) as HC.
  { intros c H. eapply Forall_impl; [|exact H]. apply class_char_plain. }
  intros s ids classes H. induction H as [|c s ids classes Hc He H IH|c s ids classes Hc He H IH]; [constructor| |].
  - constructor; [split; [cbn; lia|reflexivity]|]. apply Forall_app. auto.
  - constructor; [split; [cbn; lia|reflexivity]|]. apply Forall_app. auto.
Qed.
Lemma last_app : forall a b, sel_last b -> sel_last (a ++ b).
Proof. intros a b (r & c & -> & H). exists (a ++ r), c. now rewrite <- app_assoc. Qed.
Lemma marks_last : forall s ids classes, Marks s ids classes -> s <> [] -> sel_last s.
Proof.
  assert (forall c, ends_alnum c -> sel_last c) as HC by (intros c (r & x & -> & H); exists r, x; auto).
  intros s ids classes H. induction H as [|c s ids classes Hc He H IH|c s ids classes Hc He H IH]; intros Hn; [now destruct Hn| |];
  apply last_app; (destruct s as [|x s]; [rewrite app_nil_r; now apply HC|apply last_app; now apply IH]).
Qed.
Lemma tag_plain : forall s n, Tag s n -> Forall word_plain s.
Proof.
  intros s n [n' H He Hd| |]; [|constructor; [split; [cbn; lia|reflexivity]|constructor]|constructor].
  eapply Forall_impl; [|exact H]. apply name_char_plain.
Qed.
Lemma tag_last : forall s n, Tag s n -> s <> [] -> sel_last s.
Proof.
  intros s n [n' H (r & x & -> & Hx) Hd| |] Hn; [exists r, x; auto|exists [], 42; auto|now destruct Hn].
Qed.
Lemma refuses_name : forall c r, is_ascii_alnum c = false -> c <> 45 -> c <> 58 -> c <> 92 -> refuses x_element_name (c :: r).
Proof.
  intros c r H1 H2 H3 H4. intros back. unfold x_element_name, x_seq, x_not_precedes.
  destruct (x_one is_digit back (c :: r)); [reflexivity|].
  assert (refuses (x_many1 x_identifier_char) (c :: r)) as HR; [|cbn; now rewrite HR].
  apply refuses_many1, refuses_item; [|exact H4]. unfold or_. rewrite H1. apply mem_false. cbn. intuition congruence.
Qed.
Lemma tag_fwd : forall src' tg name mk ids classes, Tag tg name -> Marks mk ids classes ->
  Fwd src' (fun s0 => maybe s0 (p_elt_sel s0)) tg mk
    (fun e => match build_tag e with Explicit (FromSource r) => name = Some tg /\ SliceOf src' r tg | Explicit _ => False | _ => name = None end).
Proof.
  intros src' tg name mk ids classes H Hm s Hs.
  pose proof (marks_head mk ids classes [] Hm (ltac:(discriminate))) as Hh. rewrite app_nil_r in Hh.
  destruct H as [n Hn He Hd| |].
  - destruct (fwd_tok src' _ _ _ (takes_element_name n mk Hn (last_ne _ He) Hd Hh) s Hs) as (r & s1 & G & O & P).
    exists (Some (AName r)), s1. split; [|split; [exact O|]].
    + apply gets_maybe, gets_or_l. eapply gets_then; [exact G|apply gets_ret].
    + split; [reflexivity|exact P].
  - destruct (fwd_text src' (L "*") _ _ Hs) as (r & s1 & G & O & P).
    exists (Some (AStar r)), s1. split; [|split; [exact O|reflexivity]]. apply gets_maybe, gets_or_r.
    + apply misses_then. revert Hs. apply mis_tok. now apply refuses_name.
    + eapply gets_then; [exact G|apply gets_ret].
  - exists None, s. split; [|split; [exact Hs|reflexivity]]. apply misses_maybe, misses_or; apply misses_then; revert Hs; cbn [app].
    + apply mis_tok. destruct mk as [|c mk]; [intros back; reflexivity|].
      destruct (Hh c mk eq_refl) as [-> | ->]; now apply refuses_name.
    + apply mis_text. intros c r E. destruct (Hh c r E) as [-> | ->]; discriminate.
Qed.

Section Selector.
Variable src : str.
Variable alnum : chr -> bool.
Hypothesis Hal : ascii_ok alnum.
Notation slc := (source_slice src).

Lemma chain_fwd : forall A (f : pstate -> outcome A) m post (P : A -> Prop), Forall word_plain m -> sel_last m -> chain_end post ->
  (forall src', (exists b, src = src' ++ b) -> Fwd src' f m [] P) -> Fwd src (in_chain alnum f) m post P.
Proof.
  intros A f m post P Hm Hl Hp H s Hs. pose proof (on_advance _ _ _ _ Hs) as Hs'. destruct Hs as [[E1 E2] E3].
  destruct (H (rev (p_back s) ++ m)) with (s := mkP (p_at s) (p_back s) m) as (a & s1 & G & [_ O] & HP).
  - exists post. now rewrite <- app_assoc, <- E3.
  - split; [split; [reflexivity|exact E2]|]. cbn [p_rest]. now rewrite app_nil_r.
  - exists a, (advance s m post). split; [|split; [exact Hs'|exact HP]].
    unfold in_chain. rewrite E3, (takes_chain alnum Hal m post Hm Hl Hp).
    destruct G as [-> | ->]; [|now right]. destruct s1 as [x y z]. cbn [p_rest] in O. subst z. now left.
Qed.
Lemma parts_sel : forall r tg items ids classes l name, Parts src items ids classes l -> sel_name slc (mkSel r tg items) = name ->
  Sel src (mkSel r tg items) (name, attributes_of ids classes l).
Proof.
  intros r tg items ids classes l name (H1 & H2 & H3 & H4) Hn. split; [|exact H4]. unfold sel_label. rewrite Hn. f_equal.
  change (attributes_of (map (decoded slc) (ids_in (sel0 items))) (map (decoded slc) (classes_in (sel0 items))) (map (attr_pair src) (attrs_in (sel0 items))) = attributes_of ids classes l).
  now rewrite H1, H2, H3.
Qed.
Lemma segments_fwd : forall al l post, AttrList al l -> sel_post post ->
  Fwd src (vec (p_segment alnum)) al post (fun segs => exists more, yields (mapM build_segment segs) more /\ Parts src (concat more) [] [] l).
Proof.
  intros al l post H Hp. pose proof (mis_segment src alnum Hal post Hp) as HM.
  assert (al = [] \/ al <> []) as [E|E] by (destruct al; [now left|now right]).
  - destruct H; [|discriminate]. intros s Hs. destruct (fwd_vec src _ _ _ _ _ (VNil _ _ _ HM) s Hs) as (segs & s' & G & O & P).
    exists segs, s'. split; [exact G|]. split; [exact O|]. inversion P; subst. exists []. split; [intros st; reflexivity|apply parts_nil].
  - assert (Vec src (p_segment alnum) post (al ++ []) [fun x => exists a, x = ASegAttrs a /\ AttrListIs src a l]) as HV.
    { constructor; [|now constructor]. intros s Hs. destruct (attr_list_fwd src al l _ H E s Hs) as (a & s' & G & O & P).
      exists (ASegAttrs a), s'. split; [|split; [exact O|eauto]]. apply gets_or_l. eapply gets_then; [exact G|apply gets_ret]. }
    rewrite app_nil_r in HV. intros s Hs. destruct (fwd_vec src _ _ _ _ _ HV s Hs) as (segs & s' & G & O & P).
    exists segs, s'. split; [exact G|]. split; [exact O|]. inversion P as [|? x ? xs HA HB]; subst. inversion HB; subst. cbn beta in HA.
    destruct HA as (a & -> & i & Hi & Hp2). exists [[i]]. split; [|exact Hp2].
    intros st. cbn [mapM build_segment]. unfold bind. rewrite (Hi st). reflexivity.
Qed.
Lemma start_fwd : forall tg name mk ids classes post, Tag tg name -> Marks mk ids classes -> tg ++ mk <> [] -> chain_end post ->
  Fwd src (p_sel_start alnum) (tg ++ mk) post (fun x => exists e cl, x = AStartTag e cl /\ ClassLikes src cl ids classes /\
    forall r items, sel_name slc (mkSel r (build_tag e) items) = name).
Proof.
  intros tg name mk ids classes post Ht Hm Hn Hp s Hs.
  assert (Forall word_plain (tg ++ mk)) as Hw by (apply Forall_app; eauto using tag_plain, marks_plain).
  assert (sel_last (tg ++ mk)) as Hl.
  { destruct mk as [|c mk]; [rewrite app_nil_r in *; eauto using tag_last|]. eapply last_app, marks_last; [exact Hm|discriminate]. }
  destruct (chain_fwd _ (fun s0 =>
             then_ (maybe s0 (p_elt_sel s0)) (fun e s1 =>
             then_ (vec p_class_like s1) (fun cl s2 => Got (AStartTag e cl) s2))) (tg ++ mk) post
    (fun x => exists e cl, x = AStartTag e cl /\ ClassLikes src cl ids classes /\
       forall r items, sel_name slc (mkSel r (build_tag e) items) = name) Hw Hl Hp) with (s := s) as (a & s' & G & O & P); [|exact Hs|].
  - clear s Hs. intros src' Hb s Hs. rewrite app_nil_r in Hs.
    destruct (tag_fwd src' _ _ _ _ _ Ht Hm s Hs) as (e & s1 & G1 & O1 & P1).
    rewrite <- (app_nil_r mk) in O1.
    destruct (marks_fwd src src' _ _ _ Hb Hm s1 O1) as (cl & s2 & G2 & O2 & P2).
    exists (AStartTag e cl), s2. split; [|split; [exact O2|]].
    + eapply gets_then; [exact G1|]. eapply gets_then; [exact G2|apply gets_ret].
    + exists e, cl. split; [reflexivity|]. split; [exact P2|]. intros r items. unfold sel_name. cbn [s_tag].
      destruct (build_tag e) as [[r'|v]| |]; try now symmetry. destruct P1 as [-> P1].
      cbn [as_str]. now rewrite (slice_of _ _ _ (slice_app src _ _ _ Hb P1)).
  - exists a, s'. split; [|auto]. apply gets_or_r; [|exact G]. apply misses_then. revert Hs. apply mis_attrs.
    intros c r E Hc. subst c. destruct (tg ++ mk) as [|c m] eqn:E'; [now destruct Hn|]. injection E as -> _.
    inversion Hw as [|? ? [Hc _]]; subst. apply Hc. cbn. tauto.
Qed.
Theorem selector_fwd : forall s l post, Selector s l -> sel_post post -> Fwd src (p_selector alnum) s post (fun a => SelectorIs src a l).
Proof.
  intros s l post [tg name mk ids classes al l' Ht Hm Ha Hn] Hp st Hs.
  assert (tg ++ mk <> [] \/ tg ++ mk = []) as [E|E] by (destruct (tg ++ mk); [now right|now left]).
  - assert (chain_end (al ++ post)) as Hc.
    { destruct Ha; [now left|]. right. rewrite <- app_assoc. eexists. reflexivity. }
    rewrite (app_assoc tg), <- app_assoc in Hs.
    destruct (start_fwd _ _ _ _ _ _ Ht Hm E Hc st Hs) as (x & s1 & G1 & O1 & e & cl & -> & (items & Hcl & P1) & Hname).
    destruct (segments_fwd _ _ _ Ha Hp s1 O1) as (segs & s2 & G2 & O2 & more & Hmore & P2).
    eexists _, s2. split; [|split; [exact O2|]].
    + eapply gets_then; [exact G1|]. eapply gets_then; [exact G2|apply gets_ret].
    + eexists. split.
      * intros st'. unfold build_selector. cbn [as_first as_segments]. unfold bind. rewrite (Hcl st'). cbn. rewrite (Hmore st'). reflexivity.
      * apply parts_sel; [|apply Hname]. pose proof (parts_app src _ _ _ _ _ _ _ _ P1 P2) as HP. now rewrite !app_nil_r in HP.
  - apply app_eq_nil in E as [-> ->]. cbn [app] in *.
    inversion Hm; subst. assert (name = None) as ->.
    { inversion Ht as [? _ (r & x & E & _) _| |]; subst; [now destruct r|reflexivity]. }
    destruct (attr_list_fwd src al l' post Ha Hn st Hs) as (a & s1 & G1 & O1 & i & Hi & P1).
    destruct (segments_fwd [] [] post AlNone Hp s1 O1) as (segs & s2 & G2 & O2 & more & Hmore & P2).
    eexists _, s2. split; [|split; [exact O2|]].
    + eapply gets_then; [apply gets_or_l; eapply gets_then; [exact G1|apply gets_ret]|]. eapply gets_then; [exact G2|apply gets_ret].
    + eexists. split.
      * intros st'. unfold build_selector. cbn [as_first as_segments]. unfold bind. rewrite (Hi st'). cbn. rewrite (Hmore st'). reflexivity.
      * apply parts_sel; [|reflexivity]. pose proof (parts_app src _ _ _ _ _ _ _ _ P1 P2) as HP. now rewrite !app_nil_r in HP.
Qed.
End Selector.

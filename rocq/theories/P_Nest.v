(** * The places of elements (for C71, C25). *)

From Verif Require Import Base Doc Config Ast Errors Build Transform Grammar SpecTree SpecBuild SpecSource SpecErrors SpecWhole SpecTransform SpecPlaces
  P_Base P_Build P_BuildAll P_Grammar P_Marks P_Meta P_Places.
From Coq Require Import Lia.

(** ** Ends one after the other *)
Fixpoint Runs (p q : N) (l : list node) : Prop :=
  match l with
  | [] => p <= q
  | n :: l' => p <= r_end (n_range n) /\ Runs (r_end (n_range n)) q l'
  end.
Lemma runs_le : forall l p q, Runs p q l -> p <= q.
Proof. induction l as [|n l IH]; cbn; intros p q H; [exact H|]. destruct H as [H1 H2]. apply IH in H2. lia. Qed.
Lemma runs_weak : forall l p q p' q', Runs p q l -> p' <= p -> q <= q' -> Runs p' q' l.
Proof.
  induction l as [|n l IH]; cbn; intros p q p' q' H H1 H2; [lia|]. destruct H as [H3 H4]. split; [lia|].
  eapply IH; [exact H4|lia|lia].
Qed.
Lemma runs_app : forall a b p m q, Runs p m a -> Runs m q b -> Runs p q (a ++ b).
Proof.
  induction a as [|n a IH]; cbn [app]; intros b p m q H1 H2; [eapply runs_weak; [exact H2|exact H1|lia]|].
  cbn in *. destruct H1 as [H3 H4]. split; [exact H3|]. eapply IH; eauto.
Qed.
Lemma runs_last : forall a n p q, Runs p q (a ++ [n]) -> p <= r_end (n_range n) /\ r_end (n_range n) <= q /\
  Forall (fun m => r_end (n_range m) <= r_end (n_range n)) (a ++ [n]).
Proof.
  induction a as [|x a IH]; intros n p q H; cbn [app] in *.
  - cbn in H. destruct H as [H1 H2]. repeat split; auto. constructor; [lia|constructor].
  - cbn in H. destruct H as [H1 H2]. apply IH in H2 as (H3 & H4 & H5). split; [lia|]. split; [exact H4|]. constructor; [lia|exact H5].
Qed.

Definition standard (n : node) : Prop := match n with NElt _ e => match e_type e with Standard _ => True | _ => False end | _ => False end.
Definition StdLast (l : list node) : Prop := forall a n b, l = a ++ n :: b -> standard n -> b = [].
Lemma std_none : forall l, Forall (fun n => ~ standard n) l -> StdLast l.
Proof. intros l H a n b -> Hn. apply Forall_app in H as [_ H]. inversion H; subst. contradiction. Qed.
Lemma std_single : forall n, StdLast [n].
Proof. intros n [|x [|]] m b E; try discriminate. injection E as _ <-. auto. Qed.
Lemma std_before : forall a b, Forall (fun n => ~ standard n) a -> StdLast b -> StdLast (a ++ b).
Proof.
  induction a as [|x a IH]; intros b H1 H2; [exact H2|]. inversion H1; subst. intros [|y u] n v E Hn; injection E as -> E; [contradiction|].
  eapply IH; eauto.
Qed.

Section Nest.
Variable src : str.
Variable alnum : chr -> bool.
Notation slc := (source_slice src).
Notation node_ok := (node_ok src alnum).
Notation item_ok := (item_ok src node_ok).
Notation content_ok := (content_ok src node_ok).
Notation lines_ok := (lines_ok src node_ok).
Notation B := (boundary src).
Notation In2 p q := (PlacedIn src (mkR p q)).

Lemma placed_weak : forall n o o', PlacedIn src o n -> within o o' -> PlacedIn src o' n.
Proof. intros n o o' H W. inversion H; subst; constructor; auto; eapply within_trans; eauto. Qed.
Lemma placeds_weak : forall l o o', Forall (PlacedIn src o) l -> within o o' -> Forall (PlacedIn src o') l.
Proof. intros l o o' H W. eapply Forall_impl; [|exact H]. intros n Hn. eapply placed_weak; eauto. Qed.
Lemma placed_range : forall n o, PlacedIn src o n -> valid_range (n_range n) /\ within (n_range n) o.
Proof. intros n o H. inversion H; subst; auto. Qed.
Lemma placed_end : forall n p q z, In2 p q n -> r_end (n_range n) <= z -> In2 p z n.
Proof.
  intros n p q z H Hz. inversion H as [r t V W|r e V W]; subst; cbn in Hz; destruct W as [W1 W2]; cbn in W1, W2;
    constructor; auto; split; cbn; auto.
Qed.

Lemma token_pos : forall a p q r, Token src a p q r -> B p /\ B q /\ p <= q /\ r = mkR p q.
Proof. exact (P_Grammar.token_pos src alnum). Qed.
Lemma maybe_token : forall a (o : option lrange) p q, B p -> Maybe (Token src a) p q o -> B q /\ p <= q.
Proof. intros a. apply (fwd_maybe src alnum). apply fwd_token. exact alnum. Qed.

(** ** Slices *)
Lemma slice_app : forall p q r x y, SliceOf src (mkR p q) x -> SliceOf src (mkR q r) y -> SliceOf src (mkR p r) (x ++ y).
Proof. exact (P_Places.slice_app src alnum). Qed.
Lemma tok_slice : forall a p q, Grammar.Tok src a p q -> exists m, SliceOf src (mkR p q) m.
Proof. intros a p q (pre & m & post & E & -> & -> & _). exists m, pre, post. auto. Qed.
Lemma gap_white : forall p q, Grammar.Gap src p q -> exists m, SliceOf src (mkR p q) m /\ white m.
Proof.
  intros p q (pre & m & post & E & -> & -> & H). exists m. split; [exists pre, post; auto|]. clear E.
  induction H as [|pre m1 m2 post (c & -> & Hc) H IH]; [constructor|]. cbn. constructor; auto.
Qed.
Lemma slice_any : forall p q, B p -> B q -> p <= q -> exists m, SliceOf src (mkR p q) m.
Proof.
  intros p q Hp Hq H. destruct Hp as (a & b & E & <-). destruct Hq as (c & d & E2 & <-).
  assert (exists m, c = a ++ m) as (m & ->).
  { rewrite E in E2. clear - E2 H. revert c E2 H. induction a as [|x a IH]; intros c E2 H; [now exists c|].
    destruct c as [|y c].
    - exfalso. cbn [blen] in H. pose proof (utf8_len_pos x). lia.
    - cbn [app] in E2. injection E2 as -> E2. destruct (IH c E2) as [m ->]; [cbn [blen] in H; lia|]. now exists m. }
  exists m, a, d. cbn [r_start r_end]. rewrite blen_app. repeat split. now rewrite E2, <- app_assoc.
Qed.

(** ** Lines *)
Definition KP (l : list a_item) : Prop := forall s t e, Occurs l (ANode s t e) -> Forall plain_blocks (lines_of t).
Lemma KP_app : forall a b, KP (a ++ b) -> KP a /\ KP b.
Proof.
  intros a b H. split; intros s t e Ho; apply (H s t e); (eapply occurs_incl; [|exact Ho]); intros y Hy; apply in_or_app; auto.
Qed.
Lemma KP_cons : forall x l, KP (x :: l) -> KP l.
Proof. intros x l H. now apply (KP_app [x] l) in H. Qed.
Lemma KP_in : forall sp s t e l, KP ((sp, ANode s t e) :: l) -> Forall plain_blocks (lines_of t) /\ KP (type_items t).
Proof.
  intros sp s t e l H. split; [apply (H s t e); eapply OcHere; now left|].
  intros s' t' e' Ho. apply (H s' t' e'). eapply occurs_in; [now left|exact Ho].
Qed.
Lemma PB_cons : forall x l, plain_blocks (x :: l) -> plain_blocks l.
Proof.
  intros x l H a i b -> Hi. destruct (H (x :: a) i b eq_refl Hi) as [H1 H2]. split; [exact H1|].
  intros a' c -> Hc. now apply (H2 (x :: a') c).
Qed.
Lemma PB_block : forall x l, plain_blocks (x :: l) -> is_block x -> l = [].
Proof. intros x l H Hx. now apply (H [] x l). Qed.
Definition starts_block (l : list a_item) : Prop := match l with x :: _ => is_block x | [] => False end.
Lemma PB_comb : forall x l, plain_blocks (x :: l) -> is_combinator x -> ~ starts_block l.
Proof. intros x [|y l] H Hx Hy; [exact Hy|]. destruct (H [x] y l eq_refl Hy) as [_ H2]. now apply (H2 [] x). Qed.
Lemma PB_shape : forall ns rest, plain_blocks ns -> Shape ns rest -> rest = [].
Proof. intros ns rest H (mid & i & -> & _ & Hi). now apply (H mid i rest). Qed.
Lemma post_rest : forall (v : list a_item * list node) ns, plain_blocks ns -> StopR ns v -> fst v = [].
Proof. intros v ns H [[E|E] _]; [exact E|]. eapply PB_shape; eauto. Qed.
Lemma line_rest : forall ns rest, plain_blocks ns -> rest = [] \/ LineShape ns rest -> rest = [].
Proof. intros ns rest H [E|E]; [exact E|]. eapply PB_shape; [exact H|]. now apply line_shape. Qed.

(** What a line gives: nodes from [lo] on whose ends come one after the other from [p] to [q]. *)
Definition LR (lo p q : N) (l : list node) : Prop := Forall (In2 lo q) l /\ Runs p q l /\ StdLast l.
Lemma LR_nil : forall lo p q, p <= q -> LR lo p q [].
Proof. intros. split; [constructor|]. split; [exact H|]. intros [|x y] m b E; discriminate. Qed.
Lemma LR_weak : forall lo p q l lo' p', LR lo p q l -> lo' <= lo -> p' <= p -> LR lo' p' q l.
Proof.
  intros lo p q l lo' p' (H1 & H2 & H3) Hl Hp. split; [|split; [|exact H3]].
  - eapply placeds_weak; [exact H1|]. unfold within. cbn. lia.
  - eapply runs_weak; eauto. lia.
Qed.
Lemma LR_app : forall lo p m q a b, LR lo p m a -> Forall (fun n => ~ standard n) a -> LR lo m q b -> LR lo p q (a ++ b).
Proof.
  intros lo p m q a b (A1 & A2 & A3) A4 (B1 & B2 & B3). split; [|split].
  - apply Forall_app. split; [|exact B1]. eapply placeds_weak; [exact A1|]. apply runs_le in B2. unfold within. cbn. lia.
  - eapply runs_app; eauto.
  - now apply std_before.
Qed.
Lemma LR_one : forall lo p q n, In2 lo q n -> p <= r_end (n_range n) -> LR lo p q [n].
Proof.
  intros lo p q n H Hp. split; [repeat constructor; exact H|]. split; [|apply std_single].
  cbn. apply placed_range in H as [_ [_ H]]. cbn in H. auto.
Qed.

(** ** Texts *)
Definition txt_at (r : lrange) (n : node) : Prop := exists t, n = NTxt r t.
Lemma txt_LR : forall p q n, p <= q -> txt_at (mkR p q) n -> LR p p q [n] /\ Forall (fun n => ~ standard n) [n].
Proof.
  intros p q n H [t ->]. split; [|constructor; [intros []|constructor]]. apply LR_one; [|cbn; lia].
  constructor; unfold valid_range, within; cbn; lia.
Qed.
Lemma clean_text : forall r u eo raw ml, Clean (build_text_node slc r u eo raw ml) (fun n => n = NTxt r (TText (mkText (FromSource r) ml u eo raw))).
Proof. intros. apply clean_sub. apply sub_text. Qed.
Lemma clean_comment : forall p q c, comment_ok src p q c -> Clean (build_comment c) (txt_at (mkR p q)).
Proof.
  intros p q c (x & y & E1 & H1 & H2 & H3 & E2). unfold build_comment, unclosed. eapply clean_bind; [apply clean_true; ff|intros; ff|].
  intros _ _. apply clean_ret. rewrite E1, E2. eexists. reflexivity.
Qed.
Lemma clean_inline_text : forall p q t, text_ok src alnum p q t -> Clean (build_inline_text slc t) (txt_at (mkR p q)).
Proof.
  intros p q [r|v|c|r] H; cbn [text_ok build_inline_text] in *.
  - apply token_pos in H as (_ & _ & _ & ->). eapply clean_impl; [apply clean_text|]. intros v ->. eexists; reflexivity.
  - apply clean_ret. destruct H as (x & y & H1 & H2 & H3). 
    apply token_pos in H1 as (? & Bx & ? & E1). destruct (maybe_token _ _ _ _ Bx H2) as [By Hy]. unfold build_verbatim. rewrite E1.
    destruct (av_tail v) as [r|r|r]; cbn [tail_ok] in H3; apply token_pos in H3 as (_ & _ & ? & ->); unfold combine; cbn [r_start r_end];
      (replace (N.min p y) with p by lia; replace (N.max x q) with q by lia; eexists; reflexivity).
  - now apply clean_comment.
  - apply token_pos in H as (_ & _ & _ & ->). eapply clean_impl; [apply clean_text|]. intros v ->. eexists; reflexivity.
Qed.
Lemma clean_multiline : forall p q m, multiline_ok src p q m -> Clean (build_multiline slc (mkR p q) m)
  (fun n => LR p p q [n] /\ Forall (fun n => ~ standard n) [n]).
Proof.
  intros p q m H. pose proof (fwd_multiline src alnum _ _ _ H) as (_ & _ & Hpq). destruct H as (x & y & H1 & E1 & H2 & E2 & H3). unfold build_multiline.
  eapply clean_bind; [apply clean_text|intros; ff|]. intros t ->. apply clean_ret.
  rewrite E1, E2. pose proof H1 as H1'. pose proof H3 as H3'.
  apply token_pos in H1' as (_ & _ & ? & _). apply token_pos in H2 as (_ & _ & ? & _). apply token_pos in H3' as (_ & _ & ? & _).
  split; [|constructor; [intros []|constructor]]. apply LR_one; [|cbn; lia].
  assert (multiline_quote (am_kind m) = multiline_quotes (am_kind m)) as EQ by (destruct (am_kind m); reflexivity). rewrite EQ in *.
  apply token_parts in H1 as (pre & mo & post & Ho & _ & E & Hp & Hx). destruct Ho as (m1 & m2 & -> & Hm1 & _). unfold exactly in Hm1. subst m1.
  apply token_parts in H3 as (pre3 & mc & post3 & Hc & _ & E3 & Hy3 & Hq3). destruct Hc as (c1 & c2 & -> & Hc1 & [-> _]). unfold exactly in Hc1. subst c1. rewrite app_nil_r in *.
  unfold elt_node. cbn [with_content new_elt e_range]. constructor; cbn [e_range e_crange e_selectors e_nodes e_type r_start r_end sels_from]; auto;
    try (unfold valid_range, within; cbn; lia).
  - apply (DeMultiline _ _ _ _ _ m2); [|eapply slice_split; eauto|reflexivity]. cbn [r_start r_end]. eapply slice_split; eauto.
  - constructor; [|constructor]. constructor; unfold valid_range, within; cbn; lia.
Qed.

Lemma clean_sel_range : forall p q s, selector_ok src alnum p q s -> Clean (build_selector s) (fun v => s_range v = mkR p q).
Proof.
  intros p q s (H1 & _ & H2). unfold build_selector. eapply clean_bind with (Q := fun _ => True).
  - apply clean_true. unfold build_class_likes, build_segment, build_class_likes, build_attribute_list, build_class_like, unclosed, invalid. ff.
  - intros [t items]. unfold build_class_likes, build_segment, build_class_likes, build_attribute_list, build_class_like, unclosed, invalid. ff.
  - intros [t items] _. eapply clean_bind with (Q := fun _ => True).
    + apply clean_true. unfold build_class_likes, build_segment, build_class_likes, build_attribute_list, build_class_like, unclosed, invalid. ff.
    + intros. ff.
    + intros v _. apply clean_ret. cbn. now rewrite H1, H2.
Qed.
Lemma clean_close : forall A (o : option A) r d, Clean (match o with None => unclosed r d | Some _ => ret tt end) (fun _ => o <> None).
Proof. intros A [a|] r d; [now apply clean_ret|]. apply clean_syntax. discriminate. Qed.

(** ** Lines joined, and inline elements *)
Lemma In2_txt : forall p q a b t, a <= b -> p <= a -> b <= q -> In2 p q (NTxt (mkR a b) t).
Proof. intros. constructor; unfold valid_range, within; cbn; lia. Qed.
Lemma In2_weak : forall l p q p' q', Forall (In2 p q) l -> p' <= p -> q <= q' -> Forall (In2 p' q') l.
Proof. intros l p q p' q' H Hp Hq. eapply placeds_weak; [exact H|]. unfold within. cbn. lia. Qed.

Lemma append_placed : forall lo s t le out line out' line', Forall (In2 lo le) out -> Forall (In2 s t) line -> lo <= le -> le <= s -> s <= t ->
  append_to_previous out line (mkR s t) le = (out', line') ->
  Forall (In2 lo t) out' /\ Forall (In2 s t) line'.
Proof.
  intros lo s t le out line out' line' Ho Hl H0 H1 H2 E0. unfold append_to_previous in E0. cbn [r_start r_end] in E0.
  assert (Hsame : (out, line) = (out', line') -> Forall (In2 lo t) out' /\ Forall (In2 s t) line').
  { intros H. injection H as <- <-. split; [|exact Hl]. eapply In2_weak; eauto; lia. }
  destruct out as [|[r e|] before]; try (now apply Hsame).
  inversion Ho as [|? ? Hn Hb]; subst. inversion Hn as [|r' e' V W Er Vc Wc D F K]; subst.
  assert (Delimited src (e_selectors e) (mkR (r_start (e_range e)) t) (e_crange e) (e_type e) ->
    Forall (In2 lo t) (NElt (mkR (r_start (e_range e)) t) (with_range (with_nodes e (e_nodes e ++ line_end le s :: line)) (mkR (r_start (e_range e)) t)) :: before)) as HA.
  { intros D'. unfold valid_range, within in *. cbn [r_start r_end] in *. constructor; [|eapply In2_weak; eauto; lia].
    constructor; cbn [with_range with_nodes with_content e_range e_crange e_selectors e_nodes e_type]; unfold valid_range, within; cbn [r_start r_end]; auto; try lia.
    apply Forall_app. split; [eapply In2_weak; eauto; lia|]. constructor; [apply In2_txt; lia|]. eapply In2_weak; eauto; lia. }
  destruct (e_type e) as [|[]| | | |] eqn:Et; try (now apply Hsame); injection E0 as <- <-; (split; [|constructor]); apply HA;
    inversion D; subst; econstructor; eauto.
Qed.
Lemma add_line_placed : forall lo s t le out line p, Forall (In2 lo le) out -> Forall (In2 s t) line -> lo <= le -> le <= s -> s <= t ->
  Forall (In2 lo t) (add_line out line (mkR s t) le p).
Proof.
  intros lo s t le out line p Ho Hl H0 H1 H2. unfold add_line. cbn [r_start].
  destruct (if starts_with_element line then (out, line) else append_to_previous out line (mkR s t) le) as [out' line'] eqn:E0.
  assert (Forall (In2 lo t) out' /\ Forall (In2 s t) line') as (Ho' & Hl').
  { destruct (starts_with_element line); [injection E0 as <- <-|eapply append_placed; eauto; lia].
    split; auto. eapply In2_weak; eauto; lia. }
  destruct line' as [|n0 line']; [assumption|].
  set (o2 := if existsb is_visible out' then _ else _).
  assert (Forall (In2 lo t) o2) as Ho2.
  { subst o2. destruct (existsb is_visible out'); [|assumption]. constructor; [|assumption]. apply In2_txt; lia. }
  destruct (p && _ && _).
  - constructor; [|assumption]. constructor; cbn [with_content new_elt e_range e_crange e_selectors e_nodes e_type sels_from]; unfold valid_range, within; cbn [r_start r_end]; auto; try lia.
    now constructor.
  - apply Forall_app. split; [apply Forall_rev|assumption]. eapply In2_weak; eauto; lia.
Qed.
Lemma inline_first_placed : forall p q x y m line line', SliceOf src (mkR p q) (L "<(" ++ m ++ L ")>") -> p + 2 <= x -> y + 2 <= q ->
  LR x x y line -> inline_first (mkR p q) line = Some line' -> LR p p q line' /\ Forall (fun n => ~ standard n) line'.
Proof.
  intros p q x y m line line' HS Hx Hy. revert line'.
  assert (forall a, x <= a -> LR x a y line -> forall line', inline_first (mkR p q) line = Some line' -> LR p a q line' /\ Forall (fun n => ~ standard n) line') as HG.
  2: { intros line' H E. destruct (HG x (N.le_refl _) H _ E) as [G1 G2]. split; [|exact G2]. eapply LR_weak; eauto; lia. }
  induction line as [|n line IH]; cbn [inline_first]; intros a Ha (H1 & H2 & H3) line' H; [discriminate|].
  inversion H1 as [|? ? Hn Hr]; subst. cbn [Runs] in H2. destruct H2 as [R1 R2]. destruct (is_visible n) eqn:Vi.
  - destruct n as [r0 e|]; [|discriminate]. destruct (e_type e) as [|d| | | |] eqn:Et; try discriminate. injection H as <-.
    assert (line = []) as -> by (apply (H3 [] (NElt r0 e) line eq_refl); cbn; now rewrite Et).
    inversion Hn as [|r' e' V W Er Vc Wc D F K]; subst. cbn [n_range] in *. split; [|constructor; [intros []|constructor]].
    unfold valid_range, within in *. cbn [r_start r_end Runs] in *. apply LR_one; [|cbn; lia].
    constructor; cbn [with_range with_type e_range e_crange e_selectors e_nodes e_type]; unfold valid_range, within; cbn [r_start r_end]; auto; try lia.
    + rewrite Et in D. eapply DeInlineOf; [exact HS| |exact D]. unfold within. cbn. lia.
    + eapply sels_from_mono; [|exact F]. lia.
    + eapply In2_weak; eauto; lia.
  - destruct (inline_first (mkR p q) line) as [l'|] eqn:E0; [|discriminate]. injection H as <-.
    apply placed_range in Hn as [Vn [Wn Wn']]. cbn [r_start r_end] in *.
    assert (~ standard n) as Hns by (destruct n as [r0 e|]; [discriminate|intros []]).
    destruct (IH (r_end (n_range n))) with (line' := l') as [G1 G2]; auto.
    + unfold valid_range in Vn. lia.
    + split; [exact Hr|]. split; [exact R2|]. intros u w b -> Hs. exact (H3 (n :: u) w b eq_refl Hs).
    + split; [|constructor; auto]. destruct G1 as (G3 & G4 & G5). split; [|split; [split; [exact R1|exact G4]|apply (std_before [n]); [constructor; auto|exact G5]]].
      constructor; [|exact G3]. inversion H1; subst. eapply placed_weak; [eassumption|]. unfold within. cbn. lia.
Qed.

Definition SelAt (st : N) (sels : list selector) : Prop := exists s more, sels = s :: more /\ r_start (s_range s) = st.
Lemma SelAt_app : forall st a b, SelAt st a -> SelAt st (a ++ b).
Proof. intros st a b (s & more & -> & H). exists s, (more ++ b). auto. Qed.
Lemma sels_from_snoc : forall sels p lim s lim', sels_from p lim sels -> lim <= r_start (s_range s) -> valid_range (s_range s) ->
  r_end (s_range s) <= lim' -> sels_from p lim' (sels ++ [s]).
Proof.
  induction sels as [|x sels IH]; intros p lim s lim' H H1 H2 H3; cbn [app sels_from] in *.
  - repeat split; auto. lia.
  - destruct H as (G1 & G2 & G3). repeat split; auto. eapply IH; eauto.
Qed.
Lemma sels_from_lim : forall sels p lim lim', sels_from p lim sels -> lim <= lim' -> sels_from p lim' sels.
Proof.
  induction sels as [|x sels IH]; intros p lim lim' H H1; cbn [sels_from] in *; [lia|].
  destruct H as (G1 & G2 & G3). repeat split; auto. eapply IH; eauto.
Qed.
Definition BlockAt (r : lrange) (p q : N) (e : element) : Prop :=
  e_selectors e = [] /\ e_range e = r /\ e_type e = Standard (DBlock r) /\
  forall sels, sels_from (r_start r) p sels ->
    match sels with [] => r_start r = p | s :: _ => r_start (s_range s) = r_start r end ->
    In2 (r_start r) q (elt_node (with_selectors e sels)).
Lemma content_pos : forall p q c, content_ok p q c -> p <= ct_start c /\ ct_start c <= ct_end c /\ ct_end c <= q /\
  (exists a, SliceOf src (mkR p (ct_start c)) a /\ white a) /\ (exists b, SliceOf src (mkR (ct_end c) q) b /\ white b).
Proof.
  intros p q c (x & y & H1 & H2 & H3 & H4 & H5). pose proof (gap_white _ _ H1) as W1. pose proof (gap_white _ _ H5) as W5.
  apply gap_pos in H1 as (? & ? & ?). apply gap_pos in H2 as (? & ? & ?). apply fwd_lines in H3 as []; auto.
  apply gap_pos in H4 as (? & ? & ?). apply gap_pos in H5 as (? & ? & ?). repeat split; auto; lia.
Qed.
Lemma item_inv : forall sp s t e p q rest, B p -> Tiles item_ok p q ((sp, ANode s t e) :: rest) ->
  exists x, p <= x /\ x <= s /\ s < e /\ e <= q /\ Maybe (Token src space_pat) x s sp /\ B s /\ B e /\ B q /\
    ntype_ok src alnum node_ok s e t /\ Tiles item_ok e q rest.
Proof.
  intros sp s t e p q rest Hp H. cbn [Tiles] in H. destruct H as (m & (x & y & H1 & H2 & H3) & H4). cbn [fst snd] in H2, H3.
  pose proof (node_nonempty _ _ _ _ _ H3) as Hym. pose proof (fwd_node _ _ _ _ _ H3) as (By & Bm & _).
  apply spacegap_pos in H1 as (_ & Bx & Hpx). destruct (maybe_token _ _ _ _ Bx H2) as [_ Hxy].
  destruct (fwd_items _ _ _ _ _ Bm H4) as [Bq Hmq]. destruct H3 as (-> & H3 & ->). exists x. repeat split; auto.
Qed.

Theorem build_placed : forall f,
  (forall c par p q, content_ok p q c -> Forall plain_blocks (map ln_nodes (ct_lines c)) -> KP (content_items c) ->
     Clean (build_content slc f c par) (Forall (In2 (ct_start c) (ct_end c)))) /\
  (forall ls le out par p q lo, lines_ok p q ls -> B p -> le <= p -> lo <= le -> Forall plain_blocks (map ln_nodes ls) -> KP (flat_map ln_nodes ls) ->
     Forall (In2 lo le) out -> Clean (build_lines slc f ls le out par) (Forall (In2 lo q))) /\
  (forall ns p q, B p -> Tiles item_ok p q ns -> plain_blocks ns -> KP ns -> Clean (build_line slc f ns) (fun v => LR p p q (snd v))) /\
  (forall ns p q, B p -> Tiles item_ok p q ns -> plain_blocks ns -> KP ns -> Clean (extend_line slc f ns) (fun v => LR p p q (snd v))) /\
  (forall pr ns sels la p q, r_start pr <= r_end pr -> r_end pr <= p -> B (r_start pr) -> B p -> Tiles item_ok p q ns -> plain_blocks ns -> KP ns -> ~ starts_block ns ->
     sels_from (r_start pr) (r_end pr) sels -> SelAt (r_start pr) sels -> SliceOf src la (L ">") -> r_end la = r_end pr ->
     Clean (post_child slc f pr ns sels la) (fun v => LR (r_start pr) (r_end pr) q (snd v))) /\
  (forall pr ns sels la p q, r_start pr <= r_end pr -> r_end pr <= p -> B (r_start pr) -> B p -> Tiles item_ok p q ns -> plain_blocks ns -> KP ns ->
     sels_from (r_start pr) (r_end pr) sels -> SelAt (r_start pr) sels ->
     Clean (post_selector slc f pr ns sels la) (fun v => LR (r_start pr) (r_end pr) q (snd v))) /\
  (forall r b par p q, block_ok src node_ok p q b -> B (r_start r) -> r_start r <= p -> r_end r = q ->
     Forall plain_blocks (map ln_nodes (ct_lines (bk_content b))) -> KP (content_items (bk_content b)) ->
     Clean (build_block slc f r b par) (BlockAt r p q)) /\
  (forall i p q, inline_ok src node_ok p q i -> plain_blocks (in_inner i) -> KP (in_inner i) ->
     Clean (build_inline slc f (mkR p q) i) (fun out => LR p p q out /\ Forall (fun n => ~ standard n) out)) /\
  (forall s p q, special_ok src node_ok p q s -> Forall plain_blocks (lines_of (ANElement (ASpecialElt s))) -> KP (type_items (ANElement (ASpecialElt s))) ->
     Clean (build_special slc f (mkR p q) s) (fun e => LR p p q [elt_node e] /\ ~ standard (elt_node e))) /\
  (forall e p q, element_ok src node_ok p q e -> p <= q -> match e with ALineElt _ => False | _ => True end ->
     B p -> Forall plain_blocks (lines_of (ANElement e)) -> KP (type_items (ANElement e)) ->
     Clean (build_element slc f (mkR p q) e) (fun out => LR p p q out /\ (match e with ABlockElt _ => True | _ => Forall (fun n => ~ standard n) out end))).
Proof.
  pose proof ff_comment as Fc. pose proof ff_selector as Fs. pose proof ff_validate as Fv. pose proof (ff_text slc) as Ft.
  pose proof (ff_inline_text slc) as Fi. pose proof (ff_multiline slc) as Fm.
  induction f as [|f IH].
  { repeat split; intros; apply clean_fuel. }
  destruct (build_ff slc f) as (Fbc & Fbl & Fln & Fel & Fpc & Fps & Fbb & Fbi & Fbs & Fbe).
  destruct (build_stop slc f) as (Sbl & Sel & Spc & Sps).
  destruct IH as (Ic & Il & Ibl & Iel & Ipc & Ips & Ibb & Ibi & Ibs & Ibe).
  split; [|split; [|split; [|split; [|split; [|split; [|split; [|split; [|split]]]]]]]].
  - intros c par p q (x & y & H1 & H2 & H3 & H4 & H5) HP HK. cbn [build_content].
    assert (Hxy : B y /\ x <= y) by (apply gap_pos in H2 as (? & ? & ?); eapply fwd_lines; eauto).
    apply gap_pos in H2 as (? & ? & ?). apply gap_pos in H4 as (? & ? & ?).
    eapply clean_bind; [eapply Il with (p := x) (lo := ct_start c); eauto; lia|intros; ff|].
    intros v Hv. apply clean_ret. apply Forall_rev. eapply In2_weak; eauto; lia.
  - intros ls le out par p q lo H Hp Hl1 Hl2 HP HK Ho. cbn [build_lines]. destruct ls as [|l ls].
    { cbn in H. subst. apply clean_ret. eapply In2_weak; eauto; lia. }
    assert (exists x y, line_ok src node_ok p x l /\ x <= y /\ B y /\ lines_ok y q ls) as (x & y & HL & Hxy & By & Hrest).
    { destruct ls as [|l' ls'].
      - cbn in H. exists q, q. apply fwd_line in H as HF. split; [exact H|]. split; [lia|]. split; [tauto|reflexivity].
      - destruct H as (x & y & H1 & H2 & H3). exists x, y. apply tok_pos in H2 as (? & ? & ?). auto. }
    destruct HL as (a & b & H1 & H2 & H3 & H4 & H5).
    apply spacegap_pos in H1 as (? & ? & ?). apply spacegap_pos in H2 as (? & ? & ?). apply spacegap_pos in H4 as (? & ? & ?). apply spacegap_pos in H5 as (? & ? & ?).
    cbn [map flat_map] in *. inversion HP as [|? ? P1 P2]; subst. apply KP_app in HK as [K1 K2].
    assert (B b /\ a <= b) as [] by (eapply fwd_items; eauto).
    eapply clean_bind with (Q := Forall (In2 lo (ln_end l))).
    + destruct (ln_nodes l) as [|n ns] eqn:En.
      * apply clean_ret. constructor; [apply In2_txt; lia|]. eapply In2_weak; eauto; lia.
      * eapply clean_bind; [eapply Ibl with (p := a); eauto|intros [? ?]; ff|].
        intros [rest line] (Hline & _). apply clean_ret. cbn [snd] in Hline.
        apply add_line_placed with (le := le); auto; try lia. eapply In2_weak; eauto; lia.
    + intros; ff.
    + intros out' Ho'. eapply Il; [exact Hrest| | | | | |exact Ho']; auto; lia.
  - intros ns p q Hp H HP HK. cbn [build_line]. eapply clean_bind; [eapply Iel; eauto|intros [? ?]; unfold validate_line; ff|]. intros [rest out] HR.
    eapply clean_bind; [apply clean_true, Fv|intros; ff|]. intros _ _. now apply clean_ret.
  - intros ns p q Hp H HP HK. cbn [extend_line]. destruct ns as [|[sp [s t n]] rest].
    { cbn in H. subst. apply clean_ret. apply LR_nil. lia. }
    pose proof (PB_cons _ _ HP) as HP'. pose proof (KP_cons _ _ HK) as HK'. destruct (KP_in _ _ _ _ _ HK) as [L1 K1].
    apply item_inv in H as (x & X1 & X2 & X3 & X4 & X5 & Bs & Bn & Bq & H3 & H4); auto.
    set (spn := match sp with Some r => [exact_space r] | None => [] end).
    assert (Hsp : forall o q', LR s s q' o -> LR p p q' (spn ++ o)).
    { intros o q' Ho. assert (LR p p s spn /\ Forall (fun n => ~ standard n) spn) as [A1 A2].
      { subst spn. destruct sp as [r|]; [|split; [apply LR_nil; lia|constructor]]. cbn in X5. apply token_pos in X5 as (_ & _ & _ & ->).
        destruct (txt_LR x s (exact_space (mkR x s)) X2) as [A1 A2]; [eexists; reflexivity|]. split; [|exact A2]. eapply LR_weak; eauto. }
      eapply LR_app; [exact A1|exact A2|]. eapply LR_weak; eauto; lia. }
    assert (Hgen : forall c, Clean c (fun v => (fst v = rest /\ LR s s n (snd v) /\ Forall (fun n => ~ standard n) (snd v)) \/ (fst v = [] /\ LR s s q (snd v))) ->
      Clean (let* (rest', out) := c in let* (rest'', out') := extend_line slc f rest' in
            ret (rest'', spn ++ out ++ out')) (fun v => LR p p q (snd v))).
    { intros c Hc. eapply clean_bind; [exact Hc|intros [? ?]; ff|]. intros [r out] HQ. cbn [fst snd] in HQ.
      destruct HQ as [(-> & G1 & G2)|(-> & G1)].
      - eapply clean_bind; [eapply Iel with (p := n); eauto|intros [? ?]; ff|]. intros [r2 out2] K2. cbn [fst snd] in *.
        apply clean_ret. cbn [snd]. apply Hsp. eapply LR_app; [exact G1|exact G2|]. eapply LR_weak; eauto; lia.
      - destruct f as [|f']; [apply clean_fuel|]. cbn [extend_line]. apply clean_ret. cbn [snd]. rewrite app_nil_r. now apply Hsp. }
    destruct t as [ml|t|sl|e]; cbn [ntype_ok] in H3.
    + apply Hgen. eapply clean_bind; [eapply clean_multiline; eauto|intros; ff|]. intros v Hv. apply clean_ret. left. auto.
    + apply Hgen. eapply clean_bind; [eapply clean_inline_text; eauto|intros; ff|]. intros v Hv. apply clean_ret. left. cbn [fst snd].
      split; [reflexivity|]. apply txt_LR; [lia|exact Hv].
    + apply Hgen. eapply clean_bind; [eapply clean_sel_range; eauto|intros; ff|]. intros v Hv.
      eapply clean_impl; [apply clean_and; [apply Sps|eapply Ips with (p := n) (q := q); cbn [r_start r_end]; eauto; try lia]|].
      * cbn [sels_from]. rewrite Hv. cbn [r_start r_end]. unfold valid_range. cbn. lia.
      * exists v, []. rewrite Hv. auto.
      * cbn [r_start r_end]. intros w [G1 G2]. right. split; [eapply post_rest; eauto|]. eapply LR_weak; eauto; lia.
    + assert (He : match e with ALineElt _ => False | _ => True end -> Clean (let* out := build_element slc f (mkR s n) e in ret (rest, out))
        (fun v => (fst v = rest /\ LR s s n (snd v) /\ Forall (fun n => ~ standard n) (snd v)) \/ (fst v = [] /\ LR s s q (snd v)))).
      { intros Hne. eapply clean_bind; [eapply Ibe with (p := s) (q := n); eauto; lia|intros; ff|]. intros v [V1 V2]. apply clean_ret. cbn [fst snd].
        destruct e as [c|b|i|sp']; [contradiction| |left; auto|left; auto].
        right. assert (rest = []) as -> by (eapply PB_block; [exact HP|exact I]). split; [reflexivity|]. cbn in H4. now subst. }
      destruct e as [c|b|i|sp']; try (apply Hgen; exact (He I)).
      cbn [element_ok] in H3. pose proof (token_exactly _ _ _ _ _ H3) as (_ & HS & _).
      eapply clean_bind; [eapply Ipc with (p := n) (q := q); cbn [r_start r_end]; eauto; try lia|intros [? ?]; ff|].
      * eapply PB_comb; [exact HP|exact I].
      * cbn [sels_from sel_empty s_range r_start r_end]. unfold valid_range. cbn. lia.
      * exists (sel_empty s), []. auto.
      * intros [r out] G. cbn [snd r_start r_end] in *. apply clean_ret. cbn [snd]. apply Hsp. eapply LR_weak; eauto; lia.
  - intros pr ns sels la p q Lpr Hpr Bpr Hp H HP HK HB HF HA HS Ela. cbn [post_child].
    assert (Hfall : Clean (let* (rest, children) := build_line slc f ns in
        ret (rest, [elt_node (mkElt match rev children with n :: _ => Doc.combine pr (n_range n) | [] => pr end
             sels (mkR (r_end pr) (r_end match rev children with n :: _ => Doc.combine pr (n_range n) | [] => pr end))
             children (Standard (DLine la)) false false)])) (fun v => LR (r_start pr) (r_end pr) q (snd v))).
    { eapply clean_bind; [eapply Ibl; eauto|intros [? ?]; ff|]. intros [r out] (H1 & H2 & H3). cbn [snd fst] in *. apply clean_ret. cbn [snd].
      destruct (fwd_items _ _ _ _ _ Hp H) as [Bq Hq].
      assert (exists z, match rev out with n :: _ => Doc.combine pr (n_range n) | [] => pr end = mkR (r_start pr) z /\
         r_end pr <= z /\ z <= q /\ Forall (In2 p z) out) as (z & -> & Z1 & Z2 & Z3).
      { destruct (rev out) as [|n l] eqn:Er.
        - exists (r_end pr). assert (out = []) as -> by (rewrite <- (rev_involutive out), Er; reflexivity).
          destruct pr as [a b]; cbn in *. split; [reflexivity|]. split; [lia|]. split; [lia|constructor].
        - assert (out = rev l ++ [n]) as -> by (rewrite <- (rev_involutive out), Er; reflexivity).
          apply runs_last in H2 as (R1 & R2 & R3). assert (In2 p q n) as Hn by (apply Forall_app in H1 as [_ H1]; now inversion H1).
          apply placed_range in Hn as [Vn [Wn _]]. unfold valid_range in Vn. cbn [r_start] in Wn.
          exists (r_end (n_range n)). unfold Doc.combine.
          replace (N.min (r_start pr) (r_start (n_range n))) with (r_start pr) by lia.
          replace (N.max (r_end pr) (r_end (n_range n))) with (r_end (n_range n)) by lia. split; [reflexivity|]. split; [lia|]. split; [lia|].
          rewrite Forall_forall in *. intros m Hm. eapply placed_end; [apply H1; exact Hm|apply R3; exact Hm]. }
      cbn [r_end]. apply LR_one; [|cbn; lia]. destruct HA as (s & more & -> & HA).
      constructor; cbn [e_range e_crange e_selectors e_nodes e_type]; unfold valid_range, within; cbn [r_start r_end]; auto; try lia.
      - eapply DeLine; [reflexivity|exact HA|exact HS|exact Ela].
      - eapply In2_weak; eauto; lia. }
    destruct ns as [|[sp [s t n]] rest]; [exact Hfall|].
    pose proof (PB_cons _ _ HP) as HP'. pose proof (KP_cons _ _ HK) as HK'. destruct (KP_in _ _ _ _ _ HK) as [L1 K1].
    apply item_inv in H as (x & X1 & X2 & X3 & X4 & X5 & Bs & Bn & Bq & H3 & H4); auto.
    destruct t as [ml|t|sl|e]; try exact Hfall; cbn [ntype_ok] in H3.
    + eapply clean_bind; [eapply clean_sel_range; eauto|intros; ff|]. intros v Hv.
      eapply clean_impl; [eapply Ips with (p := n) (q := q); cbn [r_start r_end]; eauto; try lia|].
      * eapply sels_from_snoc; [exact HF| | |]; rewrite Hv; unfold valid_range; cbn; lia.
      * now apply SelAt_app.
      * cbn [r_start r_end]. intros w G. eapply LR_weak; eauto; lia.
    + destruct e as [c|b|i|sp']; try exact Hfall; cbn [element_ok] in H3.
      * pose proof (token_exactly _ _ _ _ _ H3) as (-> & HS' & _).
        eapply clean_impl; [eapply Ipc with (p := n) (q := q); cbn [r_start r_end]; eauto; try lia|].
        -- eapply PB_comb; [exact HP|exact I].
        -- eapply sels_from_snoc; [exact HF| | |]; unfold valid_range; cbn; lia.
        -- now apply SelAt_app.
        -- cbn [r_start r_end]. intros w G. eapply LR_weak; eauto; lia.
      * exfalso. apply HB. exact I.
  - intros pr ns sels la p q Lpr Hpr Bpr Hp H HP HK HF HA. cbn [post_selector].
    destruct ns as [|[sp [s t n]] rest].
    { cbn in H. subst. apply clean_ret. apply LR_nil. lia. }
    pose proof (PB_cons _ _ HP) as HP'. pose proof (KP_cons _ _ HK) as HK'. destruct (KP_in _ _ _ _ _ HK) as [L1 K1].
    apply item_inv in H as (x & X1 & X2 & X3 & X4 & X5 & Bs & Bn & Bq & H3 & H4); auto.
    destruct t as [ml|t|sl|e]; try (apply clean_err; ff); cbn [ntype_ok] in H3.
    + destruct t; try (apply clean_err; ff). cbn [text_ok] in H3.
      eapply clean_bind; [eapply clean_comment; eauto|intros; ff|]. intros v Hv.
      eapply clean_bind; [eapply Ips with (p := n) (q := q); cbn [r_start r_end]; eauto; try lia|intros [? ?]; ff|].
      * eapply sels_from_lim; [exact HF|lia].
      * intros [r out] G. cbn [snd r_start r_end] in *. apply clean_ret. cbn [snd].
        destruct (txt_LR s n v) as [A1 A2]; [lia|exact Hv|]. apply (LR_app _ _ n _ [v]); [|exact A2|exact G]. eapply LR_weak; eauto; lia.
    + destruct e as [c|b|i|sp']; try (apply clean_err; ff); cbn [element_ok] in H3.
      * pose proof (token_exactly _ _ _ _ _ H3) as (-> & HS' & _).
        eapply clean_impl; [eapply Ipc with (p := n) (q := q); cbn [r_start r_end]; eauto; try lia|].
        -- eapply PB_comb; [exact HP|exact I].
        -- eapply sels_from_lim; [exact HF|lia].
        -- cbn [r_start r_end]. intros w G. eapply LR_weak; eauto; lia.
      * assert (rest = []) as -> by (eapply PB_block; [exact HP|exact I]). cbn in H4. subst q.
        eapply clean_bind; [eapply Ibb with (p := s) (q := n); cbn [r_start r_end]; eauto; lia|intros; ff|]. intros e (_ & G1 & G2 & G3). apply clean_ret. cbn [snd].
        destruct HA as (s0 & more & -> & HA). cbn [r_start r_end] in *.
        apply LR_one; [apply G3; [eapply sels_from_lim; [exact HF|lia]|exact HA]|]. cbn. rewrite G1. cbn. lia.
  - intros r b par p q (x & y & z & H1 & H2 & H3 & H4) Br Hr Eq HP HK. cbn [build_block].
    eapply clean_bind; [apply clean_close|intros; ff|]. intros u0 Hc. cbn beta in Hc. destruct (bk_rbrace b) as [rb|]; [|congruence]. cbn [Maybe] in H4.
    eapply clean_bind; [eapply Ic; eauto|intros; ff|]. intros v Hv. apply clean_ret.
    pose proof (token_exactly _ _ _ _ _ H1) as (_ & S1 & _). pose proof (token_exactly _ _ _ _ _ H4) as (_ & S4 & _).
    apply content_pos in H2 as (C1 & C2 & C3 & (wa & Sa & Wa) & (wb & Sb & Wb)).
    destruct (gap_white _ _ H3) as (wc & Sc & Wc). apply token_pos in H1 as (Bp & _ & ? & _). apply token_pos in H4 as (_ & _ & ? & _). apply gap_pos in H3 as (_ & _ & ?).
    unfold BlockAt. cbn [with_content new_elt e_range e_type e_crange e_nodes with_selectors e_selectors]. split; [reflexivity|]. split; [reflexivity|]. split; [reflexivity|].
    intros sels HF HA. destruct r as [r0 r1]. cbn [r_start r_end] in *. subst r1.
    unfold elt_node. constructor; cbn [with_selectors with_content new_elt e_range e_crange e_selectors e_nodes e_type]; unfold valid_range, within; cbn [r_start r_end]; auto; try lia.
    + destruct (slice_any r0 p) as (h & Sh); auto.
      eapply DeBlock with (h := match sels with [] => [] | _ => h end) (a := wa) (b := wb ++ wc); cbn [r_start r_end].
      * destruct sels; [subst r0; change (SliceOf src (mkR p (ct_start (bk_content b))) (L "{" ++ wa)); eapply slice_app; eassumption|]. eapply slice_app; [exact Sh|]. eapply slice_app; eassumption.
      * exact Wa.
      * rewrite <- app_assoc. eapply slice_app; [exact Sb|]. eapply slice_app; eassumption.
      * apply Forall_app. auto.
      * destruct sels; auto.
    + eapply sels_from_lim; [exact HF|lia].
    + eapply In2_weak; eauto; lia.
  - intros i p q (w & x & y & z & H1 & H2 & H3 & H4 & H5) HP HK. cbn [build_inline].
    eapply clean_bind; [apply clean_close|intros; unfold validate_line; ff|]. intros u0 Hc. cbn beta in Hc. destruct (in_close i) as [rc|]; [|congruence]. cbn [Maybe] in H5.
    pose proof (token_exactly _ _ _ _ _ H1) as (E1 & S1 & Q1). pose proof (token_exactly _ _ _ _ _ H5) as (E5 & S5 & Q5).
    apply gap_pos in H2 as (? & ? & ?). assert (B y /\ x <= y) as [By Hxy] by (eapply fwd_items; [|exact H3]; auto). apply gap_pos in H4 as (? & ? & ?).
    destruct (slice_any w z) as (m & Sm); auto; [lia|].
    assert (SliceOf src (mkR p q) (L "<(" ++ m ++ L ")>")) as SA by (eapply slice_app; [exact S1|]; eapply slice_app; eassumption).
    change (blen (L "<(")) with 2 in Q1. change (blen (L ")>")) with 2 in Q5.
    eapply clean_bind; [eapply Ibl with (p := x) (q := y); eauto|intros [? ?]; unfold validate_line; ff|]. intros [rest line] Hl. cbn [snd] in Hl.
    eapply clean_bind; [apply clean_true, Fv|intros; ff|]. intros _ _. apply clean_ret.
    destruct (inline_first (mkR p q) line) as [l'|] eqn:E0.
    + eapply inline_first_placed; [exact SA| | |exact Hl|exact E0]; lia.
    + split; [|constructor; [intros []|constructor]]. apply LR_one; [|cbn; lia]. destruct Hl as (Hl & _). rewrite E1, E5. subst w q. cbn [r_start r_end].
      unfold elt_node. constructor; cbn [with_content new_elt e_range e_crange e_selectors e_nodes e_type sels_from]; unfold valid_range, within; cbn [r_start r_end]; auto; try lia.
      * now constructor.
      * eapply In2_weak; eauto; lia.
  - intros s p q H HP HK. cbn [build_special]. destruct s as [k o c cl|code]; cbn [special_ok] in H.
    + destruct H as (x & y & H1 & H2 & H3). cbn [lines_of type_items] in *.
      eapply clean_bind; [apply clean_close|intros; ff|]. intros u0 Hc. cbn beta in Hc. destruct cl as [rc|]; [|congruence]. cbn [Maybe] in H3.
      eapply clean_bind; [eapply Ic; eauto|intros; ff|]. intros v Hv. apply clean_ret.
      pose proof (token_exactly _ _ _ _ _ H1) as (_ & S1 & _). pose proof (token_exactly _ _ _ _ _ H3) as (_ & S3 & _).
      apply content_pos in H2 as (C1 & C2 & C3 & (wa & Sa & Wa) & (wb & Sb & Wb)).
      apply token_pos in H1 as (_ & _ & ? & _). apply token_pos in H3 as (_ & _ & ? & _).
      split; [|intros []]. apply LR_one; [|cbn; lia].
      unfold elt_node. constructor; cbn [with_content new_elt e_range e_crange e_selectors e_nodes e_type sels_from]; unfold valid_range, within; cbn [r_start r_end]; auto; try lia.
      * apply (DeSpecial _ _ _ _ _ (special_open k) (special_close k) wa wb); cbn [r_start r_end]; auto.
        -- destruct k; cbn; auto 10.
        -- eapply slice_app; eassumption.
        -- eapply slice_app; eassumption.
      * eapply In2_weak; eauto; lia.
    + pose proof (code_at _ _ _ _ H) as HC. apply token_parts in H as (pre & m & post & (m1 & m2 & -> & H1 & H2) & -> & E & -> & ->).
      unfold exactly in H1. subst m1. apply lazily_exactly in H2 as [u ->]. unfold inset. cbn [r_start r_end] in *.
      eapply clean_bind; [apply clean_text|intros; ff|]. intros t ->. apply clean_ret. cbn [n_range].
      rewrite !blen_app in *. change (blen (L "<`")) with 2 in *. change (blen (L "`>")) with 2 in *.
      split; [|intros []]. apply LR_one; [|cbn; lia].
      unfold elt_node. constructor; cbn [with_content new_elt e_range e_crange e_selectors e_nodes e_type sels_from]; unfold valid_range, within; cbn [r_start r_end]; auto; try lia.
      * apply DeCode; cbn [r_start r_end]; [| |reflexivity].
        -- exists pre, (u ++ L "`>" ++ post). cbn [r_start r_end]. rewrite E, <- !app_assoc. auto.
        -- exists (pre ++ L "<`" ++ u), post. cbn [r_start r_end]. rewrite E, <- !app_assoc, !blen_app. change (blen (L "<`")) with 2. change (blen (L "`>")) with 2.
           repeat split; lia.
      * constructor; [|constructor]. apply In2_txt; lia.
  - intros e p q H Hpq Hne Bp HP HK. cbn [build_element]. destruct e as [c|b|i|s]; [contradiction| | |]; cbn [element_ok] in H.
    + eapply clean_bind; [eapply Ibb with (p := p) (q := q); cbn [r_start r_end]; eauto; lia|intros; ff|].
      intros e (G0 & G1 & G2 & G3). apply clean_ret. split; [|exact I]. cbn [r_start r_end] in *.
      assert (with_selectors e [] = e) as Ee by (destruct e; cbn in G0; now subst). specialize (G3 [] (N.le_refl _) eq_refl). rewrite Ee in G3.
      apply LR_one; [exact G3|]. cbn. rewrite G1. exact Hpq.
    + eapply Ibi; eauto. now inversion HP.
    + eapply clean_bind; [eapply Ibs; eauto|intros; ff|]. intros v [V1 V2]. apply clean_ret. split; [exact V1|]. constructor; auto.
Qed.

Theorem tree_placed : forall c tree, document_ok src alnum c -> all_lines plain_blocks c -> builds slc c [] tree ->
  Forall (PlacedIn src (mkR (ct_start c) (ct_end c))) tree.
Proof.
  intros c tree (x & y & _ & HO & _) [HL HK] HB. destruct (build_placed (build_fuel c)) as (Ic & _).
  specialize (Ic c true x y HO). apply Forall_map in HL. specialize (Ic HL HK (mkErrs false [] [] false) eq_refl).
  unfold builds, from_ast in HB. rewrite HB in Ic. destruct Ic as (d & E & H). apply H. injection E as <-. reflexivity.
Qed.

(** ** The transforms *)
Lemma placed_from : forall n o, PlacedIn src o n -> FromSrc o n.
Proof.
  induction n as [r e IH|r t] using node_ind'; intros o H; inversion H as [|r' e' V W E Vc Wc D F K]; subst; constructor; auto.
  - eapply sels_from_lim; [exact F|]. unfold within, valid_range in *. lia.
  - rewrite Forall_forall in *. auto.
Qed.
Theorem document_nested : forall c tree cfg ns, document_ok src alnum c -> all_lines plain_blocks c -> builds slc c [] tree ->
  transform_document slc cfg (mkR (ct_start c) (ct_end c)) tree = Some ns -> Forall (Nested (mkR (ct_start c) (ct_end c))) ns.
Proof.
  intros c tree cfg ns HO HA HB HT. eapply transform_nested; [| |exact HT].
  - destruct HO as (x & y & _ & HO & _). apply content_pos in HO as (_ & H & _). exact H.
  - eapply Forall_impl; [|exact (tree_placed c tree HO HA HB)]. intros n. apply placed_from.
Qed.
End Nest.

Fixpoint plainb (prev : bool) (l : list a_item) : bool :=
  match l with
  | [] => true
  | i :: l' => (negb (blockb i) || (is_nil l' && negb prev)) && plainb (combinatorb i) l'
  end.
Lemma plain_check : forall l, plainb false l = true -> plain_blocks l.
Proof.
  assert (forall l prev, plainb prev l = true -> forall a i b, l = a ++ i :: b -> is_block i ->
    b = [] /\ (a = [] -> prev = false) /\ forall a' c, a = a' ++ [c] -> ~ is_combinator c) as HG.
  { induction l as [|x l IH]; intros prev H a i b E Hi; [destruct a; discriminate|].
    cbn [plainb] in H. apply andb_prop in H as [H1 H2]. destruct a as [|y a]; injection E as -> E.
    - subst l. destruct i as [sp [s [m|t|sl|[ | | | ]] e]]; cbn in Hi; try contradiction. cbn in H1. apply andb_prop in H1 as [H1 H3].
      split; [now destruct b|]. split; [now destruct prev|]. intros [|? ?] c E; discriminate.
    - destruct (IH _ H2 a i b E Hi) as (G1 & G2 & G3). split; [exact G1|]. split; [discriminate|].
      intros [|z a'] c Ec Hc; injection Ec as -> Ec.
      + specialize (G2 Ec). destruct c as [sp [s [m|t|sl|[ | | | ]] e]]; cbn in Hc; try contradiction. discriminate.
      + now apply (G3 a' c). }
  intros l H a i b E Hi. destruct (HG l false H a i b E Hi) as (G1 & _ & G3). auto.
Qed.

(** * The transforms keep properties of selectors and texts. *)

From Verif Require Import Base Escape Doc Config Infer Transform SpecMarkup SpecHtml SpecTree SpecInfer SpecTransform
  P_Base P_Infer P_InferProps.

Definition SelsT (PS : selector -> Prop) (PT : textlike -> Prop) : node -> Prop :=
  TreeAll (fun e => Forall PS (e_selectors e)) PT.

(** Values written as metadata. *)
Definition meta_value (v : str) : Prop := (exists n, v = dec n) \/ v = L "true" \/ v = xmlns_uri.
Definition meta_list (names : list str) (loc : N) (l : list attribute) : Prop :=
  Forall (fun a => exists n v, a = meta_attr loc n v /\ In n names /\ meta_value v) l /\ NoDup (map a_name l).
Definition text_meta : list str := [a_verbatim; a_multiline].
Definition elt_meta : list str := [a_xmlns; a_rawname; a_start; a_end; a_content_start; a_content_end].

Definition good_tagb (t : str) : bool :=
  match t with c :: _ => ascii_letter c && forallb tag_name_char t | [] => false end.
Lemma good_tagb_ok : forall t, good_tagb t = true -> good_tag t.
Proof.
  intros [|c t] H; [discriminate|]. cbn [good_tagb] in H. apply andb_prop in H as [H1 H2]. split; [eauto|].
  now apply Forall_forall, forallb_forall.
Qed.
Lemma name_for_good : forall c g fi la k t, name_for c g fi la k = Named t -> good_tag t.
Proof.
  intros c g fi la k t H. apply good_tagb_ok.
  destruct c; cbn [name_for] in H; unfold in_section, always in H;
    repeat match type of H with
      | context [match ?x with _ => _ end] => destruct x
      end; try discriminate H; injection H as <-; reflexivity.
Qed.

(** The builder gives elements that get names from options without selectors. *)
Definition special_bare (e : element) : Prop :=
  match e_type e with Special _ | Multiline MLCode => e_selectors e = [] | _ => True end.

Section Trees.
Variable slc : lrange -> str.
Variable cfg : config.
Variables PS PS1 PS2 : selector -> Prop.
Variable PT : textlike -> Prop.
(** Names given by the transforms, and contexts of inference that occur. *)
Variable NameOk : str -> Prop.
Variable CtxOk : context -> Prop.
Hypothesis N_table : forall c g fi la k t, CtxOk c -> name_for c g fi la k = Named t -> NameOk t.
Hypothesis C_top : CtxOk CSection.
Hypothesis C_inside : forall sels k, Forall PS sels -> CtxOk (inside (first_name slc sels) k).
Hypothesis N_page : c_complete_page cfg = Some true -> Forall NameOk [L "html"; L "head"; L "body"].
Hypothesis N_meta : c_metadata cfg = Some true -> Forall NameOk [L "mty:element"; L "mty:comment"].
Hypothesis N_default : forall k, NameOk (documented_default k).
Hypothesis S_empty : forall n, PS (sel_empty n).
Hypothesis S_tag : forall s t, uninferred s = true -> NameOk t -> PS s -> PS (mkSel (s_range s) (Explicit (Provided t)) (s_items s)).
Hypothesis S_special : forall k t, documented_option (c_special cfg) k = Some t -> t = [] \/ NameOk t.
Hypothesis S_text : c_metadata cfg = Some true -> forall loc l, meta_list text_meta loc l ->
  PS (add_attrs (sel_with_tag (sel_empty loc) (Provided (L "mty:text"))) loc l).
Hypothesis S_meta : c_metadata cfg <> None -> forall s loc l, PS s -> meta_list elt_meta loc l -> PS1 (add_attrs s loc l).
Hypothesis S_keep : forall s, PS s -> PS1 s.
Hypothesis S_lang : forall s loc l, c_lang cfg = Some l -> PS1 s -> PS2 (mkSel (s_range s) (s_tag s) (s_items s ++ [lang_attr loc l])).
Hypothesis S_keep' : forall s, PS1 s -> PS2 s.
Hypothesis T_space : PT (TSpace ParagraphEnd).
Hypothesis T_comment : c_metadata cfg = Some true -> forall s, PT (TComment s) -> PT (TText (comment_text s)).

Notation T := (SelsT PS PT).
Notation T0 := (TreeAll (fun e => Forall PS (e_selectors e) /\ special_bare e) PT).
Notation E e := (Forall PS (e_selectors e)).

Lemma st_empty : forall n t, NameOk t -> PS (sel_with_tag (sel_empty n) (Provided t)).
Proof. intros n t H. apply (S_tag (sel_empty n)); [reflexivity|exact H|apply S_empty]. Qed.

Lemma st_apply_tags : forall e ts, Forall (fun t => t = [] \/ NameOk t) ts -> e_selectors e = [] -> E (apply_tags e (map Provided ts)).
Proof.
  intros e ts Ht H. unfold apply_tags. rewrite H.
  assert (exists us, filter (fun t => negb (slice_is_empty t)) (map Provided ts) = map Provided us /\ Forall NameOk us) as (us & -> & Hu).
  { clear H. induction Ht as [|t ts Ht _ (us & E & Hu)]; [exists []; now split|]. cbn [map filter slice_is_empty].
    rewrite E. destruct t as [|c t]; [now exists us|]. cbn [str_empty negb]. exists ((c :: t) :: us). split; [reflexivity|].
    constructor; [|exact Hu]. destruct Ht as [Ht|Ht]; [discriminate|exact Ht]. }
  destruct Hu as [|t us Ht' Hu]; cbn [map].
  - constructor.
  - assert (HM : forall k, Forall PS (map (fun t => sel_with_tag (sel_empty k) t) (map Provided us))).
    { intros k. rewrite map_map. apply Forall_map. eapply Forall_impl; [|exact Hu]. intros. now apply st_empty. }
    cbn [with_selectors e_selectors]. constructor; [now apply st_empty|apply HM].
Qed.
Lemma special_name_ok : forall k, special_tag_name (c_special cfg) k = [] \/ NameOk (special_tag_name (c_special cfg) k).
Proof.
  assert (forall k d, NameOk d -> or_name (documented_option (c_special cfg) k) d = [] \/
    NameOk (or_name (documented_option (c_special cfg) k) d)) as H.
  { intros k d Hd. pose proof (S_special k) as HS. destruct (documented_option (c_special cfg) k) as [t|]; cbn; auto. }
  intros k. pose proof (N_default k) as HK.
  destruct k; [apply (H Emphasis)|apply (H Strong)|apply (H Underline)|apply (H Strike)|apply (H Quote)|apply (H Code)|apply (H Emphasis)]; exact HK.
Qed.
Lemma st_special : forall n, T0 n -> T (special_node (c_special cfg) n).
Proof.
  induction n as [r e IH|r t] using node_ind'; intros H; [|inversion H; now constructor].
  inversion H as [? ? [He Hb] Hk|]; subst. cbn [special_node]. constructor.
  - unfold special_bare in Hb. change (E (special_element (c_special cfg) e)). unfold special_element.
    destruct (e_type e) as [|d|d|k|k|]; try exact He.
    + apply (st_apply_tags e [special_tag_name (c_special cfg) k]); [|exact Hb]. constructor; [apply special_name_ok|constructor].
    + destruct k; try exact He.
      apply (st_apply_tags e [special_tag_name (c_special cfg) CodeBlockContainer; special_tag_name (c_special cfg) Code]); [|exact Hb].
      repeat (constructor; [apply special_name_ok|]). constructor.
  - cbn. apply Forall_map. rewrite Forall_forall in *. intros x Hx. apply IH; [exact Hx|now apply Hk].
Qed.
Lemma st_page_element : forall t cr ns, NameOk t -> Forall T ns -> T (elt_node (page_element t cr ns)).
Proof.
  intros t cr ns Ht H. constructor; [|exact H].
  apply (st_apply_tags (new_elt invalid_range Unknown) [t]); [constructor; [now right|constructor]|reflexivity].
Qed.
Lemma st_page : c_complete_page cfg = Some true -> forall cr ns, Forall T ns -> Forall T (complete_page slc cr ns).
Proof.
  intros HC cr ns H. apply N_page in HC. inversion HC as [|? ? Nh HC1]; subst. inversion HC1 as [|? ? Ne HC2]; subst. inversion HC2 as [|? ? Nb _]; subst.
  unfold complete_page. destruct (existsb _ ns); [exact H|]. destruct (existsb _ ns).
  { constructor; [apply st_page_element; [assumption|assumption]|constructor]. }
  assert (Forall T (fst (split_page slc ns)) /\ Forall T (snd (split_page slc ns))) as [H1 H2].
  { induction H as [|n l Hn H [IH1 IH2]]; cbn [split_page]; [split; constructor|].
    destruct (split_page slc l) as [hd bd]. cbn [fst snd] in *.
    destruct (element_with_tag_in slc [L "head"] n) as [e|] eqn:E.
    - cbn. split; [|assumption]. apply Forall_app. split; [|assumption].
      destruct n as [r e'|]; cbn [element_with_tag_in] in E; [|discriminate].
      destruct (e_selectors e') as [|s ?]; [discriminate|]. destruct (tag_name (s_tag s)); [|discriminate].
      destruct (existsb _ _); [|discriminate]. injection E as <-. now inversion Hn.
    - destruct (has_tag_in slc metadata_tags n); cbn; split; auto. }
  destruct (split_page slc ns) as [hd bd]. cbn [fst snd] in *.
  constructor; [|constructor]. apply st_page_element; [assumption|]. constructor; [apply st_page_element; [assumption|assumption]|].
  constructor; [now constructor|]. constructor; [apply st_page_element; [assumption|assumption]|constructor].
Qed.

Lemma st_name_sels : forall st sels c g fi la k, CtxOk c -> Forall PS sels -> Forall PS (name_sels slc st sels (name_for c g fi la k)).
Proof.
  intros st sels c g fi la k HC H. unfold name_sels. destruct (first_name slc sels) eqn:EF; [exact H|].
  destruct (name_for c g fi la k) eqn:N.
  - apply N_table in N; [|exact HC]. destruct H as [|s l Hs H].
    + repeat constructor. apply (S_tag (sel_empty st)); [reflexivity|exact N|apply S_empty].
    + constructor; [|assumption]. apply S_tag; auto. cbn [first_name] in EF. unfold sel_name in EF. unfold uninferred.
      now destruct (s_tag s).
  - destruct H; [constructor|assumption].
  - exact H.
Qed.
Lemma st_chain : forall k sels c g p fi la r er cr ty f raw kids, CtxOk c -> Forall PS sels ->
  (forall c g p, CtxOk c -> Forall T (kids c g p)) ->
  T (chain slc k c g p fi la r er sels cr ty f raw kids).
Proof.
  induction k as [|x k IH]; intros sels c g p fi la r er cr ty f raw kids HC Hs Hk; cbn [chain];
    set (sels1 := name_sels _ _ _ _); assert (Forall PS sels1) as H1 by (subst sels1; now apply st_name_sels);
    pose proof (C_inside sels1 (kind_of ty) H1) as HC';
    destruct sels1 as [|s0 [|s1 rest]]; try (constructor; [exact H1|apply Hk; exact HC']).
  inversion H1 as [|? ? H2 H3]; subst. constructor; [now repeat constructor|]. cbn [e_nodes]. constructor; [|constructor]. now apply IH.
Qed.
Lemma st_resolve : forall n, T n -> forall c g p fi la, CtxOk c -> T (resolve slc c g p fi la n).
Proof.
  induction n as [r e IH|r t] using node_ind'; intros H c g p fi la HC; [|exact H].
  inversion H as [? ? He Hk|]; subst. cbn [resolve]. apply st_chain; [exact HC|exact He|]. intros c' g' p' HC'.
  apply Forall_map_pos. rewrite Forall_forall in *. intros x Hx f1 f2. apply IH; [exact Hx|now apply Hk|exact HC'].
Qed.

(** ** Metadata *)
Notation T1 := (SelsT PS1 PT).
Lemma ml_app : forall names loc a b, meta_list names loc a -> meta_list names loc b ->
  (forall x y, In x a -> In y b -> a_name x <> a_name y) -> meta_list names loc (a ++ b).
Proof.
  intros names loc a b [H1 H2] [H3 H4] HD. split; [now apply Forall_app|]. rewrite map_app. clear H1 H3.
  induction a as [|x a IH]; [exact H4|]. cbn [map app] in *. inversion H2; subst. constructor.
  - intros Hi. apply in_app_or in Hi as [Hi|Hi]; [contradiction|]. apply in_map_iff in Hi as (y & Ey & Hy).
    apply (HD x y); auto. now left.
  - apply IH; [assumption|]. intros x' y Hx. apply HD. now right.
Qed.
Lemma ml_nil : forall names loc, meta_list names loc []. Proof. split; constructor. Qed.
Lemma ml_one : forall names loc n v, In n names -> meta_value v -> meta_list names loc [meta_attr loc n v].
Proof. intros. split; [repeat constructor; eauto|]. cbn. constructor; [intros []|constructor]. Qed.
Lemma ml_true : forall names loc n b, In n names -> meta_list names loc (add_true loc n b).
Proof. intros names loc n [|] H; [|apply ml_nil]. apply ml_one; [exact H|]. right. now left. Qed.
Lemma ml_range : forall names loc a b r, In a names -> In b names -> a <> b -> meta_list names loc (add_range loc a b r).
Proof.
  intros names loc a b r Ha Hb Hn. unfold add_range. destruct (_ <=? _); [|apply ml_nil].
  apply (ml_app _ _ [_] [_]); try (apply ml_one; [assumption|left; eauto]).
  intros x y [<-|[]] [<-|[]]. cbn. congruence.
Qed.
Lemma in_true : forall loc n b x, In x (add_true loc n b) -> a_name x = Provided n.
Proof. intros loc n [|] x H; [destruct H as [<-|[]]; reflexivity|destruct H]. Qed.
Lemma in_range : forall loc a b r x, In x (add_range loc a b r) -> a_name x = Provided a \/ a_name x = Provided b.
Proof. intros loc a b r x H. unfold add_range in H. destruct (_ <=? _); [|destruct H]. destruct H as [<-|[<-|[]]]; auto. Qed.
Ltac inl := cbv [elt_meta text_meta In]; tauto.

Lemma ml_elt : forall loc (out root raw : bool) r1 r2, meta_list elt_meta loc
  ((if out then (if root then [meta_attr loc a_xmlns xmlns_uri] else []) ++ add_true loc a_rawname raw else [])
   ++ add_range loc a_start a_end r1 ++ add_range loc a_content_start a_content_end r2).
Proof.
  intros loc out root raw r1 r2.
  apply ml_app; [destruct out; [apply ml_app|apply ml_nil]|apply ml_app|].
  - destruct root; [apply ml_one; [inl|now right; right]|apply ml_nil].
  - apply ml_true. inl.
  - intros x y Hx Hy. apply in_true in Hy. rewrite Hy. destruct root; [|destruct Hx]. destruct Hx as [<-|[]]. discriminate.
  - apply ml_range; [inl|inl|discriminate].
  - apply ml_range; [inl|inl|discriminate].
  - intros x y Hx Hy. apply in_range in Hx, Hy. destruct Hx as [-> | ->], Hy as [-> | ->]; discriminate.
  - intros x y Hx Hy.
    assert (a_name x = Provided a_xmlns \/ a_name x = Provided a_rawname) as HX.
    { destruct out; [|destruct Hx]. apply in_app_or in Hx as [Hx|Hx].
      - destruct root; [|destruct Hx]. destruct Hx as [<-|[]]. now left.
      - right. now apply in_true in Hx. }
    apply in_app_or in Hy as [Hy|Hy]; apply in_range in Hy; destruct HX as [-> | ->], Hy as [-> | ->]; discriminate.
Qed.

Lemma st_meta_sels : forall el, c_metadata cfg = Some el -> forall outer e root oi sels i, Forall PS sels ->
  Forall PS1 (fst (meta_sels el outer e root oi i sels)).
Proof.
  intros el HC outer e root oi sels i H. revert i. induction H as [|s l Hs H IH]; intros i; cbn [meta_sels]; [constructor|].
  specialize (IH (S i)). destruct (meta_sels el outer e root oi (S i) l) as [rest cr]. cbn [fst] in IH.
  destruct (uninferred s) eqn:U; cbn [andb].
  - destruct el; cbn [negb]; [|constructor; auto]. cbn [fst]. constructor; [|exact IH].
    apply S_meta; [congruence| |apply ml_elt]. apply S_tag; [exact U| |exact Hs]. apply N_meta in HC. now inversion HC.
  - cbn [fst]. constructor; [|exact IH]. apply S_meta; [congruence|exact Hs|apply ml_elt].
Qed.
Lemma st_handle : forall el, c_metadata cfg = Some el -> forall r e root, E e -> Forall PS1 (e_selectors (handle_element el r e root)).
Proof.
  intros el HC r e root H. unfold handle_element. destruct (_ && _); [eapply Forall_impl; [|exact H]; exact S_keep|].
  cbn [with_selectors e_selectors]. apply st_meta_sels; [exact HC|]. destruct (e_selectors e) eqn:EE.
  - destruct (negb _); [|constructor]. constructor; [apply S_empty|constructor].
  - exact H.
Qed.
Lemma handle_nodes : forall el r e root, e_nodes (handle_element el r e root) = e_nodes e.
Proof. intros. unfold handle_element. now destruct (_ && _). Qed.
Lemma st_meta : forall el, c_metadata cfg = Some el -> forall n root, T n -> T1 (meta_node el root n).
Proof.
  intros el HC.
  induction n as [r e IH|r t] using node_ind'; intros root H.
  - inversion H as [? ? He Hk|]; subst. cbn [meta_node]. constructor.
    + apply (st_handle el HC r e root) in He. exact He.
    + cbn. apply Forall_map. rewrite Forall_forall in *. intros x Hx. apply IH; [exact Hx|now apply Hk].
  - inversion H as [|? ? Ht]; subst. cbn [meta_node].
    assert (T1 (NTxt r t)) as H0 by now constructor.
    destruct t as [t|s|s]; [|destruct el|]; try exact H0.
    + destruct el; [|exact H0]. destruct (negb (t_raw t)); [|exact H0]. cbn [andb]. constructor.
      * apply (st_handle _ HC). constructor; [|constructor]. apply (S_text HC).
        apply ml_app; [apply ml_true; inl|apply ml_true; inl|]. intros x y Hx Hy. apply in_true in Hx, Hy. rewrite Hx, Hy. discriminate.
      * rewrite handle_nodes. constructor; [exact H0|constructor].
    + constructor.
      * apply (st_handle _ HC). constructor; [|constructor]. apply st_empty. apply N_meta in HC. inversion HC as [|? ? _ HC']. now inversion HC'.
      * rewrite handle_nodes. constructor; [|constructor]. constructor. now apply (T_comment HC).
Qed.
Lemma st_lang : forall n, T1 n -> Forall (SelsT PS2 PT) (apply_lang (c_lang cfg) [n]).
Proof.
  assert (HK : forall n, T1 n -> SelsT PS2 PT n).
  { apply TreeAll_impl; [|auto]. intros e. apply Forall_impl. exact S_keep'. }
  intros n H. unfold apply_lang. destruct (c_lang cfg) as [l|] eqn:EL; [|constructor; [now apply HK|constructor]].
  constructor; [|constructor]. destruct n as [r e|r t]; [|now apply HK].
  inversion H as [? ? He Hk|]; subst. cbn [lang_node]. constructor; [|eapply Forall_impl; [|exact Hk]; exact HK].
  cbn. clear Hk H. induction He as [|s ss Hs He IH]; cbn [lang_sels]; [constructor|].
  destruct (uninferred s); constructor; auto. eapply Forall_impl; [|exact He]. exact S_keep'.
Qed.

Theorem tree_transform : forall cr ns out, Forall T0 ns ->
  transform_document slc cfg cr ns = Some out -> Forall (SelsT PS2 PT) out.
Proof.
  intros cr ns out H EE. unfold transform_document in EE.
  set (ns1 := match c_complete_page cfg with Some true => _ | _ => _ end) in EE.
  assert (Forall T ns1) as H1.
  { assert (Forall T (map (special_node (c_special cfg)) ns)) as H0.
    { apply Forall_map. eapply Forall_impl; [|exact H]. intros n. apply st_special. }
    pose proof st_page as HP. subst ns1. clear -HP H0. destruct (c_complete_page cfg) as [[|]|]; auto. }
  rewrite infer_resolves in EE. injection EE as <-.
  assert (Forall T (resolve_all slc CSection None None ns1)) as H2.
  { apply Forall_map_pos. rewrite Forall_forall in *. intros n Hn f1 f2. apply st_resolve; auto. }
  assert (forall ns2, Forall T1 ns2 -> Forall (SelsT PS2 PT) (apply_lang (c_lang cfg) ns2)) as H3.
  { intros ns2 Hn. induction Hn as [|n l Hn _ IH]; [unfold apply_lang; destruct (c_lang cfg); constructor|].
    pose proof (st_lang n Hn) as HL. unfold apply_lang in *. destruct (c_lang cfg); [|now constructor; [inversion HL|]].
    cbn [map] in *. constructor; [now inversion HL|exact IH]. }
  apply H3. pose proof st_meta as HM. clear -H2 HM S_keep. destruct (c_metadata cfg) as [el|].
  - apply Forall_map. eapply Forall_impl; [|exact H2]. intros n Hn. now apply HM.
  - eapply Forall_impl; [|exact H2]. apply TreeAll_impl; [|auto]. intros e. apply Forall_impl. exact S_keep.
Qed.
End Trees.

(** * Plain sources give documents that can be read back (C07, C08, C38). *)

From Verif Require Import Base Escape OutText Doc Ast Config Errors Build Output Infer Transform Convert Grammar
  SpecEscape SpecMarkup SpecHtml SpecTree SpecInfer SpecTransform SpecBuild SpecSource SpecErrors SpecWhole SpecOrdinary
  P_Base P_Escape P_OutText P_Build P_BuildAll P_Selector P_Infer P_InferProps P_Layout P_Convert P_Grammar P_Trees P_Inside P_Source P_Read.

(** ** Names read by the grammar *)

Lemma plain_decode : forall s, ~ In 92 s -> unescape s = (s, true).
Proof.
  intros s H. apply unescape_spec. rewrite <- (app_nil_r s) at 1.
  apply Decodes_plain_app; [exact H|]. exists []. split; [now rewrite app_nil_r|constructor].
Qed.

Lemma many_chars : forall (f : chr -> bool) (b : pat) pre m post, many (palt (one f) b) pre m post ->
  (forall pre m post, b pre m post -> In 92 m) -> ~ In 92 m -> Forall (fun c => f c = true) m.
Proof.
  intros f b pre m post H Hb. induction H as [|pre m1 m2 post [H1|H1] H2 IH]; intros Hn; [constructor| |].
  - destruct H1 as (c & -> & Hc). constructor; [exact Hc|]. apply IH. intros Hi. apply Hn. now right.
  - exfalso. apply Hn. apply in_or_app. left. eapply Hb. exact H1.
Qed.
Lemma many1_chars : forall (f : chr -> bool) (b : pat) pre m post, many1 (palt (one f) b) pre m post ->
  (forall pre m post, b pre m post -> In 92 m) -> ~ In 92 m -> m <> [] /\ Forall (fun c => f c = true) m.
Proof.
  intros f b pre m post (m1 & m2 & -> & H1 & H2) Hb Hn. destruct H1 as [H1|H1].
  - destruct H1 as (c & -> & Hc). split; [discriminate|]. constructor; [exact Hc|].
    eapply many_chars; [exact H2|exact Hb|]. intros Hi. apply Hn. now right.
  - exfalso. apply Hn. apply in_or_app. left. eapply Hb. exact H1.
Qed.
Lemma escape_backslash : forall pre m post, escape pre m post -> In 92 m.
Proof.
  intros pre m post [(m1 & m2 & -> & H & _)|(m1 & m2 & -> & H & _)]; unfold exactly in H; subst m1; now left.
Qed.

Lemma Forall_weak : forall (f g : chr -> bool) s, (forall c, f c = true -> g c = true) ->
  Forall (fun c => f c = true) s -> Forall (fun c => g c = true) s.
Proof. intros f g s H. apply Forall_impl. exact H. Qed.

Section Src.
Variable src : str.
Variable alnum : chr -> bool.
Notation slc := (source_slice src).

Lemma token_slice : forall a p q r, Token src a p q r -> exists pre post, a pre (slc r) post.
Proof.
  intros a p q r [-> (pre & m & post & E & -> & -> & H)].
  assert (slc (mkR (blen pre) (blen pre + blen m)) = m) as ->.
  { apply slice_of. exists pre, post. auto. }
  eauto.
Qed.

Lemma tag_plain : forall p q r, Token src element_name p q r -> starts_with_letter (slc r) -> ~ In 92 (slc r) -> good_tag (slc r).
Proof.
  intros p q r H Hl Hn. apply token_slice in H as (pre & post & H). split; [exact Hl|].
  destruct H as (m1 & m2 & E & [-> _] & H). cbn [app] in E. rewrite <- E in H.
  apply many1_chars in H as [_ H]; [|exact escape_backslash|exact Hn].
  eapply Forall_weak; [|exact H]. intros c Hc. unfold or_, is_ascii_alnum, is_digit, mem in Hc. change (L "-:") with [45; 58] in Hc. cbn [existsb] in Hc.
  unfold tag_name_char, html_ws. 
  repeat (apply orb_prop in Hc as [Hc|Hc]); try (apply andb_prop in Hc as [H1 H2]; apply N.leb_le in H1, H2);
    try (apply N.eqb_eq in Hc; subst c; reflexivity); try discriminate;
  apply negb_true_iff; repeat (apply orb_false_intro); apply N.eqb_neq; lia.
Qed.

Lemma attr_plain : forall p q r, Token src attribute_name p q r -> ~ In 92 (slc r) -> ~ In 60 (slc r) -> good_attr (slc r).
Proof.
  intros p q r H Hn Hl. apply token_slice in H as (pre & post & H).
  apply many1_chars in H as [Hne H]; [|exact escape_backslash|exact Hn]. split; [exact Hne|].
  rewrite Forall_forall in *. intros c Hc. pose proof (H c Hc) as Hx. assert (c <> 60) as H60 by (intros ->; contradiction).
  unfold not_, or_, mem in Hx. change (L "=>'""/[]\") with [61; 62; 39; 34; 47; 91; 93; 92] in Hx. cbn [existsb] in Hx. apply negb_true_iff in Hx. unfold is_whitespace in Hx.
  unfold attr_name_char, html_ws. apply negb_true_iff.
  repeat match goal with H : _ || _ = false |- _ => apply orb_false_elim in H as [? ?] end.
  repeat match goal with H : (_ =? _) = false |- _ => apply N.eqb_neq in H end.
  repeat match goal with H : _ && _ = false |- _ => apply andb_false_iff in H; rewrite !N.leb_gt in H end.
  repeat (apply orb_false_intro); apply N.eqb_neq; lia.
Qed.
Lemma space_plain : forall p q r, Token src space_pat p q r -> ~ In 60 (slc r) /\ ~ In 38 (slc r).
Proof.
  intros p q r H. apply token_slice in H as (pre & post & H).
  assert (forall pre m post, many (one not_newline_space) pre m post -> ~ In 60 m /\ ~ In 38 m) as HM.
  { clear. intros pre m post H. induction H as [|pre m1 m2 post (c & -> & Hc) H [IH1 IH2]]; [split; intros []|].
    split; (intros [->|Hi]; [vm_compute in Hc; discriminate|]); auto. }
  destruct H as (m1 & m2 & -> & (c & -> & Hc) & H2). apply HM in H2 as [H2 H3].
  split; (intros [->|Hi]; [vm_compute in Hc; discriminate|]); auto.
Qed.

(** ** Items of the syntax tree *)
Notation node_ok := (node_ok src alnum).
Notation item_ok := (item_ok src node_ok).
Definition ok_item (i : a_item) : Prop := exists p q, item_ok p q i.

Lemma tiles_in : forall A (R : N -> N -> A -> Prop) l p q, Tiles R p q l -> Forall (fun a => exists p q, R p q a) l.
Proof.
  intros A R. induction l as [|a l IH]; intros p q H; constructor; cbn [Tiles] in H; destruct H as (m & H1 & H2); eauto.
Qed.
Lemma lines_in : forall ls p q, lines_ok src node_ok p q ls -> Forall ok_item (flat_map ln_nodes ls).
Proof.
  assert (forall l p q, Grammar.line_ok src node_ok p q l -> Forall ok_item (ln_nodes l)) as HL.
  { intros l p q (x & y & _ & _ & H & _). now apply tiles_in in H. }
  induction ls as [|l ls IH]; intros p q H; cbn [flat_map]; [constructor|]. apply Forall_app. destruct ls as [|l2 ls].
  - split; [eapply HL; exact H|constructor].
  - destruct H as (x & y & H1 & _ & H2). split; [eapply HL; exact H1|eapply IH; exact H2].
Qed.
Lemma content_in : forall c p q, content_ok src node_ok p q c -> Forall ok_item (content_items c).
Proof. intros c p q (x & y & _ & _ & H & _). eapply lines_in. exact H. Qed.
Lemma kids_in : forall sp s t e, ok_item (sp, ANode s t e) -> Forall ok_item (type_items t).
Proof.
  intros sp s t e (p & q & x & y & _ & _ & (_ & H & _)). cbn [fst snd] in H. destruct t as [m|t|sl|el]; try constructor.
  cbn [ntype_ok element_ok type_items element_items] in *. destruct el as [r|b|i|[k o c cl|r]]; try constructor.
  - destruct H as (x1 & y1 & z1 & _ & H & _). eapply content_in. exact H.
  - destruct H as (w1 & x1 & y1 & z1 & _ & _ & H & _). now apply tiles_in in H.
  - destruct H as (x1 & y1 & _ & H & _). eapply content_in. exact H.
Qed.
Lemma document_in : forall c, document_ok src alnum c -> Forall ok_item (content_items c).
Proof. intros c (x & y & _ & H & _). eapply content_in. exact H. Qed.

(** ** Selectors *)
Lemma selector_tag_ok : forall p q s r, selector_ok src alnum p q s -> source_tag s = Explicit (FromSource r) ->
  exists p q, Token src element_name p q r.
Proof.
  intros p q s r (_ & (x & H & _) & _) E. unfold source_tag in E. destruct (as_first s) as [a|[[r'|r']|] cl]; try discriminate.
  injection E as ->. destruct H as (_ & y & H & _). eauto.
Qed.
Lemma attrs_names_ok : forall p q l r, attrs_ok src p q l -> In r (attrs_names l) -> exists p q, Token src attribute_name p q r.
Proof.
  intros p q l r (x & y & z & _ & _ & H & _) Hr. apply tiles_in in H. rewrite Forall_forall in H.
  unfold attrs_names in Hr. apply in_map_iff in Hr as (a & <- & Ha). destruct (H a Ha) as (p' & q' & x' & y' & _ & _ & HT & _). eauto.
Qed.
Lemma selector_names_ok : forall p q s r, selector_ok src alnum p q s -> In r (selector_attr_names s) ->
  exists p q, Token src attribute_name p q r.
Proof.
  intros p q s r (_ & (x & H1 & H2) & _) Hr. unfold selector_attr_names in Hr. apply in_app_or in Hr as [Hr|Hr].
  - destruct (as_first s) as [a|e cl]; [|destruct Hr]. eapply attrs_names_ok; eauto.
  - apply in_flat_map in Hr as (g & Hg & Hr). apply tiles_in in H2. rewrite Forall_forall in H2.
    destruct (H2 g Hg) as (p' & q' & H). destruct g as [a|cl]; [|destruct Hr]. eapply attrs_names_ok; eauto.
Qed.
End Src.

(** The names of the attributes of the selector built. *)
Definition items_names (l : list sel_item) : list tslice :=
  flat_map (fun i => match i with SAttrs _ l => map a_name l | _ => [] end) l.
Lemma attrs_names_built : forall l, Clean (build_attribute_list l) (fun i => items_names [i] = map FromSource (attrs_names l)).
Proof.
  intros l. unfold build_attribute_list. eapply clean_bind with (Q := fun _ => True).
  - destruct (al_rbracket l); [now apply clean_ret|unfold unclosed; now apply clean_syntax].
  - intros. apply ff_ret.
  - intros _ _. apply clean_ret. unfold items_names, attrs_names. cbn [flat_map]. rewrite app_nil_r, !map_map.
    apply map_ext. now intros [s n [[eq [r|r]]|] e].
Qed.
Lemma classes_names_built : forall cl, Clean (build_class_likes cl) (fun l => items_names l = []).
Proof.
  intros cl. unfold build_class_likes. eapply clean_bind with (Q := Forall2 (fun c o => items_names (opt_list o) = []) cl).
  - apply clean_mapM; [apply ff_class|]. intros [d i|h i|r]; cbn [build_class_like]; [now apply clean_ret|now apply clean_ret|].
    unfold invalid. apply clean_err. apply ff_ret.
  - intros. apply ff_ret.
  - intros v Hv. apply clean_ret. induction Hv as [|c o cl l Ho H IH]; [reflexivity|]. cbn [flat_map]. unfold items_names in *.
    now rewrite flat_map_app, Ho, IH.
Qed.
Lemma items_names_app : forall a b, items_names (a ++ b) = items_names a ++ items_names b.
Proof. intros. apply flat_map_app. Qed.
Lemma selector_names_built : forall s, Clean (build_selector s) (fun v => items_names (s_items v) = map FromSource (selector_attr_names s)).
Proof.
  intros s. unfold build_selector. eapply clean_bind with
    (Q := fun v : tag * list sel_item => items_names (snd v) = map FromSource
       match as_first s with AStartAttrs a => attrs_names a | AStartTag _ cl => [] end).
  - destruct (as_first s) as [a|e cl].
    + eapply clean_bind; [apply attrs_names_built|intros; apply ff_ret|]. intros i Hi. now apply clean_ret.
    + eapply clean_bind; [apply classes_names_built|intros; apply ff_ret|]. intros i Hi. now apply clean_ret.
  - intros [tg items]. ff. apply ff_segment.
  - intros [tg items] Hi. cbn [snd] in Hi. eapply clean_bind with (Q := fun l => items_names (concat l) = map FromSource
      (flat_map (fun g => match g with ASegAttrs a => attrs_names a | ASegClass _ => [] end) (as_segments s))).
    + eapply clean_impl; [apply clean_mapM with (P := fun g l => items_names l = map FromSource
        (match g with ASegAttrs a => attrs_names a | ASegClass _ => [] end)); [apply ff_segment|]|].
      * intros [a|cl]; cbn [build_segment]; [|apply classes_names_built].
        eapply clean_bind; [apply attrs_names_built|intros; apply ff_ret|]. intros i H. now apply clean_ret.
      * intros l H. induction H as [|g x gs l Hx H IH]; [reflexivity|]. cbn [concat flat_map].
        now rewrite items_names_app, map_app, Hx, IH.
    + intros. apply ff_ret.
    + intros more Hm. apply clean_ret. cbn [s_items]. unfold selector_attr_names. rewrite items_names_app, map_app, Hi. f_equal.
      exact Hm.
Qed.

(** ** Plain selectors and readable texts, kept by all steps *)
Section Plain.
Variable src : str.
Variable cfg : config.
Notation slc := (source_slice src).
Notation xml := (is_xml cfg).

Definition okS (s : selector) : Prop :=
  (forall t, tag_name (s_tag s) = Some t -> good_tag (as_str slc t)) /\
  Forall (fun x => readable_str xml (decoded slc x)) (sel_strings s) /\
  Forall (fun n => good_attr (decoded slc n)) (items_names (s_items s)).
Definition okT (t : textlike) : Prop :=
  match t with TSpace s => plain_space slc s | _ => readable_leaf slc xml t end.

Lemma readable_space : readable xml 32 = true.
Proof. unfold readable. destruct (is_xml cfg); reflexivity. Qed.
Lemma readable_join : forall l, Forall (readable_str xml) l -> readable_str xml (join_with [32] l).
Proof.
  induction l as [|a [|b l] IH]; intros H; cbn [join_with]; inversion H; subst; [constructor|assumption|].
  apply Forall_app. split; [assumption|]. constructor; [apply readable_space|]. now apply IH.
Qed.
Lemma okS_good : forall s, okS s -> good_selector slc xml s.
Proof.
  intros s (_ & H1 & H2). unfold good_selector, sel_attrs.
  assert (Forall (fun x => readable_str xml (decoded slc x)) (ids_in s) /\
          Forall (fun x => readable_str xml (decoded slc x)) (classes_in s) /\
          Forall (fun a => good_attr (decoded slc (a_name a)) /\
             match Doc.a_value a with Some v => readable_str xml (decoded slc v) | None => True end) (attrs_in s)) as (HI & HC & HA).
  { unfold ids_in, classes_in, attrs_in, sel_strings, items_names in *.
    induction (s_items s) as [|i l IH]; cbn [flat_map] in *; [repeat split; constructor|].
    apply Forall_app in H1 as [H1 H1'], H2 as [H2 H2']. destruct (IH H1' H2') as (I1 & I2 & I3).
    repeat split; apply Forall_app; (split; [|assumption]); destruct i as [r v|r v|r la]; try constructor; try (inversion H1; assumption); try constructor.
    cbn [item_strings] in H1. clear -H1 H2. induction la as [|a la IH]; [constructor|]. cbn [flat_map map] in *.
    inversion H1 as [|? ? Ha H1']; subst. apply Forall_app in H1' as [Hv H1']. inversion H2; subst. constructor; auto.
    split; [assumption|]. destruct (Doc.a_value a); [|exact I]. now inversion Hv. }
  apply Forall_app. split; [|apply Forall_app; split].
  - destruct (ids_in s); constructor; [|constructor]. cbn [fst snd]. inversion HI; subst. split; [|assumption].
    split; [discriminate|]. repeat constructor.
  - destruct (classes_in s) as [|c cs] eqn:EC; constructor; [|constructor]. cbn [fst snd]. split.
    + split; [discriminate|]. repeat constructor.
    + apply readable_join. now apply Forall_map.
  - apply Forall_map. eapply Forall_impl; [|exact HA]. intros a [Ha Hv]. cbn [fst snd]. split; [exact Ha|].
    destruct (Doc.a_value a); [exact Hv|]. destruct (is_xml cfg); [constructor|exact I].
Qed.

Definition digits_readable : forall c, 48 <= c <= 57 -> readable xml c = true.
Proof.
  intros c H. unfold readable. destruct (is_xml cfg).
  - unfold xml_char. replace (0x20 <=? c) with true by (symmetry; apply N.leb_le; lia).
    replace (c <=? 0xD7FF) with true by (symmetry; apply N.leb_le; lia). cbn. now rewrite !orb_true_r.
  - assert (c = 48 \/ c = 49 \/ c = 50 \/ c = 51 \/ c = 52 \/ c = 53 \/ c = 54 \/ c = 55 \/ c = 56 \/ c = 57) as HC by lia.
    repeat (destruct HC as [->|HC]; [reflexivity|]). now subst.
Qed.
Lemma dec_plain : forall n, decoded slc (Provided (dec n)) = dec n.
Proof.
  intros n. unfold decoded. cbn [as_str]. rewrite plain_decode; [reflexivity|]. intros H.
  pose proof (dec_digit_chars n) as HD. rewrite Forall_forall in HD. specialize (HD _ H). lia.
Qed.
Lemma meta_value_ok : forall v, meta_value v -> readable_str xml (decoded slc (Provided v)).
Proof.
  intros v [[n ->]|[->| ->]].
  - rewrite dec_plain. eapply Forall_impl; [|apply dec_digit_chars]. intros c. apply digits_readable.
  - unfold decoded. cbn [as_str]. unfold readable_str, readable. destruct (is_xml cfg); repeat constructor.
  - unfold decoded. cbn [as_str]. unfold readable_str, readable. destruct (is_xml cfg); repeat constructor.
Qed.
Lemma meta_name_ok : forall n, In n (text_meta ++ elt_meta) ->
  good_attr (decoded slc (Provided n)) /\ readable_str xml (decoded slc (Provided n)).
Proof.
  intros n H. cbn [text_meta elt_meta app In] in H.
  repeat (destruct H as [<-|H]; [split; [split; [discriminate|repeat constructor]|unfold readable_str, readable; destruct (is_xml cfg); repeat constructor]|]).
  destruct H.
Qed.
Lemma okS_add : forall s loc l names, incl names (text_meta ++ elt_meta) -> okS s -> meta_list names loc l -> okS (add_attrs s loc l).
Proof.
  intros s loc l names HN (H1 & H2 & H3) [HL _]. unfold add_attrs. destruct l as [|a0 l0]; [now split|].
  remember (a0 :: l0) as l. clear Heql. split; [exact H1|].
  unfold sel_strings, items_names in *. cbn [s_items]. rewrite !flat_map_app. cbn [flat_map item_strings]. rewrite !app_nil_r.
  split; (apply Forall_app; split; [assumption|]).
  - clear H1 H2 H3. induction HL as [|a l (n & v & -> & Hn & Hv) HL IH]; [constructor|]. cbn. 
    constructor; [apply (meta_name_ok n); now apply HN|]. constructor; [exact (meta_value_ok v Hv)|]. exact IH.
  - clear H1 H2 H3. induction HL as [|a l (n & v & -> & Hn & Hv) HL IH]; [constructor|]. cbn. constructor; [|exact IH].
    apply meta_name_ok. now apply HN.
Qed.

Hypothesis HO : plain_options slc xml cfg.

Lemma okS_lang : forall s loc l, c_lang cfg = Some l -> okS s ->
  okS (mkSel (s_range s) (s_tag s) (s_items s ++ [lang_attr loc l])).
Proof.
  intros s loc l El (H1 & H2 & H3). split; [exact H1|]. unfold sel_strings, items_names in *. cbn [s_items].
  rewrite !flat_map_app. split; (apply Forall_app; split; [assumption|]); cbn; repeat constructor.
  - unfold readable. destruct (is_xml cfg); reflexivity.
  - unfold readable. destruct (is_xml cfg); reflexivity.
  - unfold readable. destruct (is_xml cfg); reflexivity.
  - unfold readable. destruct (is_xml cfg); reflexivity.
  - apply HO. exact El.
  - discriminate.
Qed.
Lemma paragraph_plain : plain_space slc ParagraphEnd.
Proof. split; cbn; intuition discriminate. Qed.
Lemma okS_empty : forall n, okS (sel_empty n).
Proof. intros n. split; [discriminate|]. split; constructor. Qed.

Theorem plain_transform : forall cr ns out,
  Forall (TreeAll (fun e => Forall okS (e_selectors e) /\ special_bare e) okT) ns ->
  transform_document slc cfg cr ns = Some out -> Forall (SelsT okS okT) out.
Proof.
  intros cr ns out. apply (tree_transform slc cfg okS okS okS okT good_tag (fun _ => True)); auto using okS_empty, paragraph_plain.
  - intros c g fi la k t _. apply name_for_good.
  - intros _. repeat constructor; apply good_tagb_ok; reflexivity.
  - intros _. repeat constructor; apply good_tagb_ok; reflexivity.
  - intros k. apply good_tagb_ok. now destruct k.
  - intros s t _ Ht (_ & H2 & H3). split; [|split]; auto. cbn. intros t' E. injection E as <-. exact Ht.
  - apply HO.
  - intros _ loc l Hl. eapply okS_add; [|  |exact Hl]; [apply incl_appl, incl_refl|]. split; [|split; constructor].
    intros t E. injection E as <-. apply good_tagb_ok. reflexivity.
  - intros _ s loc l Hs Hl. eapply okS_add; [|exact Hs|exact Hl]. apply incl_appr, incl_refl.
  - intros. now apply okS_lang.
  - exact paragraph_plain.
  - intros _ s H. cbn [okT readable_leaf] in *. unfold text_value, text_pieces, comment_text. cbn [t_slice t_multiline t_unescape_in].
    destruct (slice_is_empty s); [constructor|]. cbn. now rewrite app_nil_r.
Qed.

(** The builder. *)
Variable alnum : chr -> bool.
Definition plain_item (i : a_item) : Prop :=
  ok_item src alnum i /\
  (forall b s e, Occurs [i] (ANode b (ANSelector s) e) -> plain_selector slc xml s) /\
  Forall (readable_leaf slc xml) (node_marks (fun _ => []) (fun _ => leaf) (snd i)).

Lemma occurs_kid : forall sp s t e i n, In i (type_items t) -> Occurs [i] n -> Occurs [(sp, ANode s t e)] n.
Proof.
  intros sp s t e i n Hi H. induction H as [sp' n [->|[]]|s' t' e' sp' n H IH Hn].
  - eapply OcIn; [|exact Hi]. eapply OcHere. now left.
  - eapply OcIn; eauto.
Qed.
Lemma occurs_item : forall l i n, In i l -> Occurs [i] n -> Occurs l n.
Proof.
  intros l i n Hi H. induction H as [sp n [->|[]]|s t e sp n H IH Hn]; [eapply OcHere; exact Hi|eapply OcIn; eauto].
Qed.
Lemma marks_kid : forall s t e i x, In i (type_items t) -> In x (node_marks (fun _ => []) (fun _ => leaf) (snd i)) ->
  In x (node_marks (fun _ : a_selector => []) (fun _ => leaf) (ANode s t e)).
Proof.
  intros s t e i x Hi Hx. destruct t as [m|t|sl|el]; try destruct Hi. cbn [type_items] in Hi.
  destruct el as [r|b|il|[k o c cl|r]]; cbn [element_items] in Hi; try destruct Hi; cbn [node_marks].
  - unfold content_items in Hi. apply in_flat_map in Hi as (ln & Hl & Hi). apply in_flat_map. exists ln. split; [exact Hl|].
    apply in_flat_map. eauto.
  - apply in_flat_map. eauto.
  - unfold content_items in Hi. apply in_flat_map in Hi as (ln & Hl & Hi). apply in_flat_map. exists ln. split; [exact Hl|].
    apply in_flat_map. eauto.
Qed.
Lemma selector_plain : forall sp b s e, plain_item (sp, ANode b (ANSelector s) e) -> Clean (build_selector s) okS.
Proof.
  intros sp b s e ((p & q & x & y & _ & _ & (_ & HK & _)) & HS & _). cbn [fst snd ntype_ok] in HK.
  destruct (HS b s e) as (S1 & S2 & S3); [eapply OcHere; now left|].
  eapply clean_impl; [apply clean_and; [apply selector_built|apply selector_names_built]|].
  intros v ((_ & Ht & Hv) & Hn). split; [|split].
  - rewrite Ht. intros t E. unfold source_tag in *. destruct (as_first s) as [a|[[r|r]|] cl] eqn:EF; try discriminate.
    injection E as <-. cbn [as_str]. destruct (S1 r eq_refl) as [L1 L2].
    destruct (selector_tag_ok src alnum y q s r HK) as (p' & q' & HT); [unfold source_tag; now rewrite EF|].
    eapply tag_plain; eauto.
  - rewrite Hv. apply Forall_map, Forall_forall. intros r Hr. now apply S3.
  - rewrite Hn. apply Forall_map, Forall_forall. intros r Hr. destruct (S2 r Hr) as [N1 N2].
    destruct (selector_names_ok src alnum y q s r HK Hr) as (p' & q' & HT).
    unfold decoded. cbn [as_str]. rewrite plain_decode by exact N1. eapply attr_plain; eauto.
Qed.
Lemma leaf_marks : forall t l, incl (leaf t) l -> Forall (readable_leaf slc xml) l ->
  match t with TSpace _ => False | _ => True end -> okT t.
Proof.
  intros t l Hi H Ht. rewrite Forall_forall in H. destruct t as [t|s|s]; [| |destruct Ht]; apply H, Hi; now left.
Qed.

Theorem plain_build : forall c, document_ok src alnum c -> plain_source slc xml c ->
  Clean (from_ast slc c) (Forall (TreeAll (PE okS) okT)).
Proof.
  intros c HD [HS HL]. apply (from_ast_items slc plain_item okS okT).
  - exact okS_empty.
  - intros sp s t e (H1 & H2 & H3). apply kids_in in H1. rewrite Forall_forall in *. intros i Hi. split; [auto|]. split.
    + intros b s' e' Ho. apply (H2 b s' e'). eapply occurs_kid; eauto.
    + apply Forall_forall. intros x Hx. apply H3. cbn [snd]. eapply marks_kid; eauto.
  - exact selector_plain.
  - split; cbn; intuition discriminate.
  - exact paragraph_plain.
  - intros r n ((p & q & x & y & _ & H & _) & _). cbn [fst Maybe] in H. apply space_plain in H. exact H.
  - intros sp b t e (_ & _ & H) _. cbn [snd node_marks] in H. eapply leaf_marks; [apply incl_refl|exact H|]. destruct t; exact I.
  - intros sp b m e (_ & _ & H) _. cbn [snd node_marks] in H. eapply leaf_marks; [apply incl_refl|exact H|]. exact I.
  - intros sp b e n (_ & _ & H). cbn [snd node_marks] in H. destruct e as [r|bk|il|[k o cc cl|r]]; try exact I.
    cbn [code_ok]. eapply leaf_marks; [apply incl_refl|exact H|]. exact I.
  - apply document_in in HD. rewrite Forall_forall in *. intros i Hi. split; [auto|]. split.
    + intros b s e Ho. apply (HS b s e). eapply occurs_item; eauto.
    + apply Forall_forall. intros x Hx. apply HL. unfold content_leaves, content_marks, content_items in *.
      apply in_flat_map in Hi as (ln & Hl & Hi). apply in_flat_map. exists ln. split; [exact Hl|].
      unfold items_marks. apply in_flat_map. eauto.
Qed.
End Plain.

(** ** Raw marks of the document *)
Section Raw.
Variable slc : lrange -> str.
Notation NR := (TreeAll not_raw (fun _ => True)).
Notation RN := (TreeAll (fun e => e_raw e = raw_name slc e) (fun _ => True)).

Lemma apply_tags_raw : forall e ts, e_raw (apply_tags e ts) = e_raw e.
Proof. intros e ts. unfold apply_tags. destruct (filter _ ts); destruct (e_selectors e); reflexivity. Qed.
Lemma nr_special : forall st n, NR n -> NR (special_node st n).
Proof.
  intros st. induction n as [r e IH|r t] using node_ind'; intros H; [|exact H].
  inversion H as [? ? He Hk|]; subst. cbn [special_node]. constructor.
  - unfold not_raw in *. change (e_raw (special_element st e) = false). unfold special_element.
    destruct (e_type e) as [|d|d|k|[]|]; try exact He; now rewrite apply_tags_raw.
  - cbn. apply Forall_map. rewrite Forall_forall in *. intros x Hx. apply IH; [exact Hx|now apply Hk].
Qed.
Lemma nr_page_element : forall t cr ns, Forall NR ns -> NR (elt_node (page_element t cr ns)).
Proof. intros t cr ns H. constructor; [|exact H]. unfold not_raw. change (e_raw (apply_tags (new_elt invalid_range Unknown) [Provided t]) = false). now rewrite apply_tags_raw. Qed.
Lemma nr_page : forall cr ns, Forall NR ns -> Forall NR (complete_page slc cr ns).
Proof.
  intros cr ns H. unfold complete_page. destruct (existsb _ ns); [exact H|]. destruct (existsb _ ns).
  { constructor; [now apply nr_page_element|constructor]. }
  assert (Forall NR (fst (split_page slc ns)) /\ Forall NR (snd (split_page slc ns))) as [H1 H2].
  { induction H as [|n l Hn H [IH1 IH2]]; cbn [split_page]; [split; constructor|].
    destruct (split_page slc l) as [hd bd]. cbn [fst snd] in *.
    destruct (element_with_tag_in slc [L "head"] n) as [e|] eqn:E.
    - cbn. split; [|assumption]. apply Forall_app. split; [|assumption].
      destruct n as [r e'|]; cbn [element_with_tag_in] in E; [|discriminate].
      destruct (e_selectors e') as [|s ?]; [discriminate|]. destruct (tag_name (s_tag s)); [|discriminate].
      destruct (existsb _ _); [|discriminate]. injection E as <-. now inversion Hn.
    - destruct (has_tag_in slc metadata_tags n); cbn; split; auto. }
  destruct (split_page slc ns) as [hd bd]. cbn [fst snd] in *.
  constructor; [|constructor]. apply nr_page_element. constructor; [now apply nr_page_element|].
  constructor; [now constructor|]. constructor; [now apply nr_page_element|constructor].
Qed.

Lemma add_attrs_name : forall s loc l, sel_name slc (add_attrs s loc l) = sel_name slc s.
Proof. intros s loc [|a l]; reflexivity. Qed.
Lemma meta_sels_name : forall outer e root oi sels i,
  first_name slc (fst (meta_sels false outer e root oi i sels)) = first_name slc sels.
Proof.
  intros outer e root oi sels i. destruct sels as [|s l]; [reflexivity|]. cbn [meta_sels].
  destruct (meta_sels false outer e root oi (S i) l) as [rest cr]. destruct (uninferred s) eqn:U; cbn [andb negb fst first_name]; [reflexivity|].
  apply add_attrs_name.
Qed.
Lemma handle_same : forall r e root, first_name slc (e_selectors (handle_element false r e root)) = first_name slc (e_selectors e)
  /\ e_raw (handle_element false r e root) = e_raw e.
Proof.
  intros r e root. unfold handle_element. destruct (existsb _ (e_selectors e)) eqn:EX; cbn [negb andb]; [|now split].
  split; [|reflexivity]. cbn [with_selectors e_selectors]. rewrite meta_sels_name. now destruct (e_selectors e).
Qed.
Lemma rn_meta : forall n root, RN n -> RN (meta_node false root n).
Proof.
  induction n as [r e IH|r t] using node_ind'; intros root H.
  - inversion H as [? ? He Hk|]; subst. cbn [meta_node]. constructor.
    + destruct (handle_same r e root) as [H1 H2]. 
      change (e_raw (handle_element false r e root) = raw_name slc (handle_element false r e root)).
      unfold raw_name in *. now rewrite H1, H2.
    + cbn. apply Forall_map. rewrite Forall_forall in *. intros x Hx. apply IH; [exact Hx|now apply Hk].
  - destruct t; exact H.
Qed.
Lemma rn_lang : forall l n, RN n -> RN (lang_node l n).
Proof.
  intros l [r e|r t] H; [|exact H]. inversion H as [? ? He Hk|]; subst. cbn [lang_node]. constructor; [|exact Hk].
  unfold raw_name in *. cbn [with_selectors e_raw e_selectors]. rewrite He. destruct (e_selectors e) as [|s ss]; [reflexivity|].
  cbn [lang_sels]. now destruct (uninferred s).
Qed.
Theorem transform_raw : forall cfg cr ns out, c_metadata cfg <> Some true -> Forall NR ns ->
  transform_document slc cfg cr ns = Some out -> Forall RN out.
Proof.
  intros cfg cr ns out HM H E. unfold transform_document in E.
  match type of E with (match infer slc ?x with _ => _ end = _) => set (ns1 := x) in E end.
  assert (Forall NR ns1) as H1.
  { assert (Forall NR (map (special_node (c_special cfg)) ns)) as H0.
    { apply Forall_map. eapply Forall_impl; [|exact H]. intros n. apply nr_special. }
    subst ns1. destruct (c_complete_page cfg) as [[|]|]; auto. now apply nr_page. }
  destruct (infer slc ns1) as [ns2|] eqn:EI; [|discriminate]. apply infer_raw in EI; [|exact H1]. injection E as <-.
  assert (Forall RN ns2) as H2.
  { eapply Forall_impl; [|exact EI]. intros n. apply TreeAll_impl; [apply raw_iff_name|auto]. }
  assert (forall ns3, Forall RN ns3 -> Forall RN (apply_lang (c_lang cfg) ns3)) as HL.
  { intros ns3 H3. unfold apply_lang. destruct (c_lang cfg) as [l|]; [|exact H3]. apply Forall_map.
    eapply Forall_impl; [|exact H3]. intros n. apply rn_lang. }
  apply HL. destruct (c_metadata cfg) as [[|]|]; [congruence| |exact H2]. apply Forall_map. eapply Forall_impl; [|exact H2].
  intros n. apply rn_meta.
Qed.
End Raw.

(** ** Reading back *)
Lemma TreeAll_and : forall (P Q : element -> Prop) (PT QT : textlike -> Prop) n, TreeAll P PT n -> TreeAll Q QT n ->
  TreeAll (fun e => P e /\ Q e) (fun t => PT t /\ QT t) n.
Proof.
  intros P Q PT QT. induction n as [r e IH|r t] using node_ind'; intros H H'; inversion H; inversion H'; subst; constructor; auto.
  rewrite Forall_forall in *. auto.
Qed.

Section Fit.
Variable src : str.
Variable cfg : config.
Notation slc := (source_slice src).
Notation xml := (is_xml cfg).

Definition doc_elt (e : element) : Prop :=
  one_sel e /\ Forall (okS src cfg) (e_selectors e) /\ (xml = false -> e_raw e = raw_name slc e).

Lemma one_tag : forall e t s, one_sel e -> elt_tag slc (e_selectors e) = Some (t, s) ->
  first_name slc (e_selectors e) = Some t /\ In s (e_selectors e) /\ tag_name (s_tag s) <> None /\
  (forall x, tag_name (s_tag s) = Some x -> as_str slc x = t).
Proof.
  intros e t s H1 H2. unfold one_sel in H1. destruct (e_selectors e) as [|s0 [|s1 l]]; cbn in H1; [discriminate| |lia].
  cbn [elt_tag first_name] in *. unfold sel_name. destruct (s_tag s0) as [x| |x] eqn:ET; try discriminate.
  injection H2 as <- <-. rewrite ET. split; [reflexivity|]. split; [now left|]. split; [discriminate|].
  intros x' Ex. now injection Ex as <-.
Qed.
Lemma elt_good : forall e t s, doc_elt e -> elt_tag slc (e_selectors e) = Some (t, s) -> good_tag t /\ good_selector slc xml s.
Proof.
  intros e t s (H1 & H2 & _) HT. destruct (one_tag e t s H1 HT) as (_ & Hi & Hn & Hx).
  rewrite Forall_forall in H2. pose proof (H2 s Hi) as Hs. split; [|now apply okS_good].
  destruct (tag_name (s_tag s)) as [x|] eqn:EX; [|congruence]. rewrite <- (Hx x eq_refl). now apply (proj1 Hs).
Qed.

Theorem fits_readable : forall n, TreeAll doc_elt (okT src cfg) n -> Fits slc xml n -> Readable slc xml false n.
Proof.
  induction n as [r e IH|r t] using node_ind'; intros HT HF.
  - inversion HT as [? ? He Hk|]; subst r0 e0. pose proof He as (H1 & H2 & H3). pose proof (one_sel_single e H1) as HS.
    assert (HM : (forall t s, elt_tag slc (e_selectors e) = Some (t, s) -> xml = false -> content_kind_of t = KMarkup) ->
                 Forall (Fits slc xml) (e_nodes e) -> Readable slc xml false (NElt r e)).
    { intros HK Hf. apply RdElt; [exact HS| | |].
      - destruct (is_xml cfg) eqn:EX; [now right|]. left. cbn [orb]. rewrite (H3 eq_refl). unfold raw_name.
        destruct (first_name slc (e_selectors e)) as [t|] eqn:EF; [|reflexivity].
        unfold one_sel in H1. destruct (e_selectors e) as [|s0 [|s1 l]]; cbn in H1; [discriminate| |lia].
        cbn [first_name elt_tag] in *. unfold sel_name in EF. destruct (s_tag s0) as [x| |x]; try discriminate.
        injection EF as EF. assert (content_kind_of t = KMarkup) as HK' by (rewrite <- EF; eapply HK; reflexivity). clear HK.
        destruct (str_eqb t (L "script")) eqn:E1; [apply str_eqb_eq in E1; rewrite E1 in HK'; discriminate|].
        destruct (str_eqb t (L "style")) eqn:E2; [apply str_eqb_eq in E2; rewrite E2 in HK'; discriminate|reflexivity].
      - rewrite Forall_forall in *. auto.
      - intros t s Et. destruct (elt_good e t s He Et) as [G1 G2]. split; [exact G1|]. split; [exact G2|]. now apply (HK t s). }
    assert (HR : forall t s, xml = false -> elt_tag slc (e_selectors e) = Some (t, s) ->
                 e_raw e = str_eqb t (L "script") || str_eqb t (L "style")).
    { intros t s Ex Et. rewrite (H3 Ex). unfold raw_name. destruct (one_tag e t s H1 Et) as (-> & _). reflexivity. }
    inversion HF as [| | |? ? HK Hf|? ? t s Ex Et HK Hf|? ? t s Ex Et HK Hf]; subst.
    + now apply HM.
    + destruct (elt_good e t s He Et) as [G1 G2]. eapply RdRcdata; eauto.
      * cbn [orb]. rewrite (HR t s Ex Et). destruct (str_eqb t (L "script")) eqn:E1; [apply str_eqb_eq in E1; subst t; discriminate|].
        destruct (str_eqb t (L "style")) eqn:E2; [apply str_eqb_eq in E2; subst t; discriminate|reflexivity].
      * rewrite Forall_forall in *. intros n Hn. specialize (Hf n Hn). specialize (Hk n Hn).
        destruct n as [? ?|? [t'|?|sp]]; try destruct Hf; inversion Hk as [|? ? Ho]; subst; [|exact Ho].
        split; [assumption|]. split; assumption.
    + destruct (elt_good e t s He Et) as [G1 G2]. eapply RdRaw; eauto.
      * cbn [orb]. rewrite (HR t s Ex Et). destruct HK as [-> | ->]; reflexivity.
      * destruct HK as [-> | ->]; reflexivity.
      * rewrite Forall_forall in *. intros n Hn. specialize (Hf n Hn). specialize (Hk n Hn).
        destruct n as [? ?|? [t'|?|sp]]; try destruct Hf; inversion Hk as [|? ? Ho]; subst; [|exact Ho].
        now split.
  - inversion HT as [|? ? Ho]; subst. apply RdText; [now left|]. destruct t as [t|s|s]; [|exact I|exact Ho].
    inversion HF as [? ? [F1 F2]| | | | |]; subst. split; [exact F1|]. split; [exact F2|exact Ho].
Qed.
End Fit.

Theorem document_readable : forall alnum parse src cfg d ns, reads alnum parse src ->
  (forall c, parse src = inl c -> plain_source (source_slice src) (is_xml cfg) c) ->
  plain_options (source_slice src) (is_xml cfg) cfg ->
  document_of parse src cfg d ns -> d = [] -> Forall (Fits (source_slice src) (is_xml cfg)) ns ->
  Forall (Readable (source_slice src) (is_xml cfg) false) ns.
Proof.
  intros alnum parse src cfg d ns HR HS HO HD -> HF.
  apply (document_built _ parse src cfg ns (Forall (TreeAll (PE (okS src cfg)) (okT src cfg)))) in HD as (c & tree & HP & HC & HT).
  2:{ intros c HP. unfold reads in HR. rewrite HP in HR. apply (plain_build src cfg alnum); auto. }
  pose proof (plain_transform src cfg HO _ _ _ (built_bare _ _ _ HC) HT) as H1.
  pose proof (transform_single _ _ _ _ _ HT) as H2.
  assert (is_xml cfg = false -> Forall (TreeAll (fun e => e_raw e = raw_name (source_slice src) e) (fun _ => True)) ns) as H3.
  { intros Ex. eapply (transform_raw _ cfg); [|  |exact HT].
    - destruct HO as (_ & _ & HO). intros Em. rewrite HO in Ex; [discriminate|exact Em].
    - eapply Forall_impl; [|exact HC]. intros n. apply TreeAll_impl; [|auto]. intros e He. apply He. }
  rewrite Forall_forall in *. intros n Hn.
  apply (fits_readable src cfg); [|auto].
  pose proof (TreeAll_and _ _ _ _ _ (H1 n Hn) (H2 n Hn)) as H4.
  destruct (is_xml cfg) eqn:Ex.
  - eapply TreeAll_impl; [| |exact H4]; [intros e [A B]|intros t [A B]]; [|exact A].
    split; [exact B|]. split; [exact A|congruence].
  - specialize (H3 eq_refl). pose proof (TreeAll_and _ _ _ _ _ H4 (H3 n Hn)) as H5.
    eapply TreeAll_impl; [| |exact H5]; [intros e [[A B] C]|intros t [[A B] C]]; [|exact A].
    split; [exact B|]. split; [exact A|auto].
Qed.

(** ** Ordinary sources give documents that fit *)
Section Ordinary.
Variable src : str.
Variable cfg : config.
Notation slc := (source_slice src).
Notation xml := (is_xml cfg).
Definition orS (s : selector) : Prop := forall t, tag_name (s_tag s) = Some t -> ordinary_name xml (as_str slc t).
Definition orT (t : textlike) : Prop := match t with TText t => not_copied xml t | _ => True end.

Lemma markup_name : forall t, match content_kind_of t with KMarkup => true | _ => false end && negb (str_eqb t (L "html")) = true ->
  ordinary_name xml t.
Proof.
  intros t H _. apply andb_prop in H as [H1 H2]. split; [now destruct (content_kind_of t)|].
  intros ->. discriminate.
Qed.
Ltac mk := apply markup_name; reflexivity.
Lemma name_for_ordinary : forall c g fi la k t, c <> CRoot -> name_for c g fi la k = Named t -> ordinary_name xml t.
Proof.
  intros c g fi la k t Hc H. destruct c; try congruence; destruct k; cbn [name_for in_section always] in H;
  repeat match type of H with
  | context [match ?x with _ => _ end] => destruct x; cbn [name_for in_section always] in H
  end; try discriminate; injection H as <-; mk.
Qed.
Lemma inside_root : forall t k, inside t k = CRoot -> t = Some (L "html").
Proof.
  intros t k H. unfold inside in H. destruct t as [t|]; [|destruct k; discriminate].
  destruct (named_context t) as [c|] eqn:E; [|destruct k; discriminate]. subst c.
  unfold named_context in E. apply find_some in E as [_ E]. cbn [names_of existsb] in E. rewrite orb_false_r in E.
  apply str_eqb_eq in E. now subst.
Qed.

Theorem ordinary_transform : ordinary_options xml cfg -> forall cr ns out,
  Forall (TreeAll (fun e => Forall orS (e_selectors e) /\ special_bare e) orT) ns ->
  transform_document slc cfg cr ns = Some out -> Forall (SelsT orS orT) out.
Proof.
  intros [O1 O2] cr ns out.
  apply (tree_transform slc cfg orS orS orS orT (ordinary_name xml) (fun c => xml = false -> c <> CRoot)); auto.
  - intros c g fi la k t Hc Hn Ex. eapply name_for_ordinary; eauto.
  - discriminate.
  - intros sels k Hs Ex Hc. apply inside_root in Hc. destruct sels as [|s l]; [discriminate|]. cbn [first_name] in Hc.
    inversion Hs as [|? ? H1 _]; subst. unfold sel_name in Hc. unfold orS in H1.
    destruct (s_tag s) as [t| |t]; try discriminate; injection Hc as Hc; destruct (H1 t eq_refl Ex) as [_ H]; now apply H.
  - intros Hc. apply Forall_forall. intros t _ Ex. now apply O2 in Ex.
  - intros _. apply Forall_forall. intros t [<-|[<-|[]]]; mk.
  - intros k. destruct k; mk.
  - discriminate.
  - intros s t _ Ht H. unfold orS. cbn. intros t' E. injection E as <-. exact Ht.
  - intros k t Hk. right. eapply O1. exact Hk.
  - intros _ loc l _ t E. assert (t = Provided (L "mty:text")) as -> by (destruct l; now injection E as <-). mk.
  - intros _ s loc l Hs _. destruct l; exact Hs.
  - exact I.
  - intros _ s _. now split.
Qed.

Definition or_item (i : a_item) : Prop :=
  (forall b s e r, Occurs [i] (ANode b (ANSelector s) e) -> source_tag s = Explicit (FromSource r) -> ordinary_name xml (slc r)) /\
  (forall t, In (TText t) (node_marks (fun _ => []) (fun _ => leaf) (snd i)) -> not_copied xml t).
Theorem ordinary_build : forall c, ordinary_source slc xml c -> Clean (from_ast slc c) (Forall (TreeAll (PE orS) orT)).
Proof.
  intros c [HS HL]. apply (from_ast_items slc or_item orS orT); try exact I.
  - discriminate.
  - intros sp s t e (H2 & H3). apply Forall_forall. intros i Hi. split.
    + intros b s' e' r Ho. apply (H2 b s' e'). eapply occurs_kid; eauto.
    + intros x Hx. apply H3. cbn [snd]. eapply marks_kid; eauto.
  - intros sp b s e (H2 & _). eapply clean_impl; [apply selector_built|]. intros v (_ & Ht & _) t E.
    rewrite Ht in E. unfold source_tag in E. destruct (as_first s) as [a|[[r|r]|] cl] eqn:EF; try discriminate.
    injection E as <-. apply (H2 b s e r); [eapply OcHere; now left|]. unfold source_tag. now rewrite EF.
  - intros r n _. exact I.
  - intros sp b t e (_ & H) _. cbn [snd node_marks] in H. destruct t; try exact I; apply H; now left.
  - intros sp b m e (_ & H) _. cbn [snd node_marks] in H. apply H. now left.
  - intros sp b e n (_ & H). cbn [snd node_marks] in H. destruct e as [r|bk|il|[k o cc cl|r]]; try exact I.
    cbn [code_ok]. apply H. now left.
  - apply Forall_forall. intros i Hi. split.
    + intros b s e r Ho. apply (HS b s e). eapply occurs_item; eauto.
    + intros x Hx. apply HL. unfold content_leaves, content_marks, content_items in *.
      apply in_flat_map in Hi as (ln & Hl & Hi). apply in_flat_map. exists ln. split; [exact Hl|].
      unfold items_marks. apply in_flat_map. eauto.
Qed.

Lemma ordinary_fits : forall n, TreeAll (fun e => Forall orS (e_selectors e) /\ one_sel e) (fun t => orT t /\ True) n -> Fits slc xml n.
Proof.
  induction n as [r e IH|r t] using node_ind'; intros H.
  - inversion H as [? ? [He H1] Hk|]; subst. apply FiMarkup.
    + intros t s Et Ex. destruct (one_tag src e t s H1 Et) as (_ & Hi & Hn & Hx).
      rewrite Forall_forall in He. pose proof (He s Hi) as Hs. unfold orS in Hs. destruct (tag_name (s_tag s)) as [x|] eqn:EX; [|congruence].
      rewrite <- (Hx x eq_refl). now apply (Hs x eq_refl).
    + rewrite Forall_forall in *. auto.
  - inversion H as [|? ? [Ht _]]; subst. destruct t as [t|s|s]; now constructor.
Qed.
End Ordinary.

Theorem document_fits : forall (E : Type) (parse : str -> a_content + E) src cfg d ns,
  (forall c, parse src = inl c -> ordinary_source (source_slice src) (is_xml cfg) c) ->
  ordinary_options (is_xml cfg) cfg ->
  document_of parse src cfg d ns -> d = [] -> Forall (Fits (source_slice src) (is_xml cfg)) ns.
Proof.
  intros E parse src cfg d ns HS HO HD ->.
  apply (document_built _ parse src cfg ns (Forall (TreeAll (PE (orS src cfg)) (orT cfg)))) in HD as (c & tree & HP & HC & HT).
  2:{ intros c HP. apply ordinary_build. auto. }
  pose proof (ordinary_transform src cfg HO _ _ _ (built_bare _ _ _ HC) HT) as H1.
  pose proof (transform_single _ _ _ _ _ HT) as H2.
  rewrite Forall_forall in *. intros n Hn. apply ordinary_fits.
  exact (TreeAll_and _ _ _ _ _ (H1 n Hn) (H2 n Hn)).
Qed.

(** * From a source to the document that is written; ranges stay in the source (C25). *)

From Verif Require Import Base Escape Doc Config Ast Errors Build Infer Transform Output Convert Grammar SpecMarkup SpecTree
  SpecInfer SpecSource SpecTransform SpecErrors SpecWhole P_Base P_Infer P_InferProps P_Transform P_Meta P_Build P_BuildAll
  P_Grammar.
From Coq Require Import Lia.

(** ** The document of a run *)
Definition none : errors := mkErrs false [] [] false.
Lemma from_ast_new : forall slc c cfg e ns, from_ast slc c (errors_new cfg) = (e, Ok ns) ->
  builds slc c (er_syntax e) ns /\ er_semantic e = [] /\ er_unknown e = false.
Proof.
  intros slc c cfg e ns H. unfold builds. unfold errors_new in H.
  pose proof (from_ast_ff slc c none eq_refl) as F. fold none.
  destruct (from_ast slc c none) as [e1 [v| |]] eqn:E1; [|contradiction|].
  - destruct F as (d & -> & F). destruct (match c_fail_fast cfg with Some b => b | None => false end).
    + change (mkErrs true [] [] false) with (set_ff none) in H. destruct F as [[-> F]|(d1 & d2 & _ & _ & F)]; rewrite H in F;
        [|discriminate]. injection F as -> ->. auto.
    + fold none in H. rewrite H in E1. injection E1 as -> ->. auto.
  - pose proof (from_ast_total slc c none eq_refl) as T. rewrite E1 in T. discriminate.
Qed.

Lemma prepare_document : forall parse src cfg e ns, prepare parse source_slice src cfg (errors_new cfg) = (e, Ok ns) ->
  document_of parse src cfg (er_syntax e) ns /\ er_semantic e = [] /\ er_unknown e = false.
Proof.
  intros parse src cfg e ns H. unfold prepare, document_parse in H. destruct (parse src) as [c|pe] eqn:EP.
  - unfold bind in H. destruct (from_ast _ c _) as [e1 [v| |]] eqn:E1; try discriminate. unfold ret in H.
    destruct (transform_document _ _ _ _) as [t|] eqn:ET; [|discriminate]. injection H as <- <-.
    apply from_ast_new in E1 as (E1 & E2 & E3). repeat split; auto. exists c, v. auto.
  - unfold bind in H. destruct (syntax _ _) as [e1 [| |]]; discriminate.
Qed.

(** What [convert] returns is the output of the document, which has no errors. *)
Theorem convert_document : forall parse src cfg out, convert parse source_slice src cfg = Some (inl out) ->
  exists ns, document_of parse src cfg [] ns /\ output_html (source_slice src) cfg ns = (out, true).
Proof.
  intros parse src cfg out H. unfold convert, convert_to_internal in H.
  destruct (prepare parse source_slice src cfg (errors_new cfg)) as [e [ns| |]] eqn:E; [| |discriminate].
  - apply prepare_document in E as (E1 & E2 & E3). rewrite orb_false_r in H.
    destruct (errors_empty e) eqn:EE.
    + unfold errors_empty in EE. destruct e as [ff s se u]. cbn in *. subst. destruct s; [|discriminate].
      exists ns. split; [exact E1|]. destruct (output_html _ _ _) as [o []]; [now injection H as <-|].
      cbn in H. discriminate.
    + destruct e as [ff s se u]. cbn in *. subst. destruct s; [discriminate|]. cbn in H. discriminate.
  - exfalso. destruct (to_convert_error e) eqn:ET; [discriminate|].
    injection H as <-. unfold prepare, document_parse in E. destruct (parse src) as [c|pe].
    + unfold bind in E. destruct (from_ast _ c _) as [e1 [v| |]] eqn:E1; try discriminate.
      * unfold ret in E. destruct (transform_document _ _ _ _); discriminate.
      * injection E as <-. pose proof (from_ast_ff (source_slice src) c none eq_refl) as F.
        unfold errors_new in E1. destruct (from_ast _ c none) as [e2 [v| |]] eqn:E2; [|contradiction|].
        -- destruct F as (d & -> & F). destruct (match c_fail_fast cfg with Some b => b | None => false end).
           ++ change (mkErrs true [] [] false) with (set_ff none) in E1. destruct F as [[_ F]|(d1 & d2 & _ & Hd & F)];
                rewrite E1 in F; [discriminate|]. injection F as ->. unfold to_convert_error in ET. cbn in ET.
              destruct d1; [now elim Hd|discriminate].
           ++ fold none in E1. rewrite E1 in E2. discriminate.
        -- pose proof (from_ast_total (source_slice src) c none eq_refl) as T. rewrite E2 in T. discriminate.
    + unfold bind, syntax in E. cbn in E. destruct (_ && _) in E; injection E as <-; discriminate.
Qed.

(** ** Ranges *)
Section Src.
Variable src : str.
Hypothesis src_size : blen src < loc_max.
Notation B := (boundary src).

Definition SB (x : N) : Prop := B x \/ x = loc_max.
Definition V (r : lrange) : Prop := SB (r_start r) /\ B (r_end r).
Definition VS (s : selector) : Prop := SB (r_start (s_range s)) /\ SB (r_end (s_range s)).
Inductive VN : node -> Prop :=
| VnTxt : forall r t, V r -> VN (NTxt r t)
| VnElt : forall r e, V r -> V (e_range e) -> V (e_crange e) -> Forall VS (e_selectors e) -> Forall VN (e_nodes e) ->
    VN (NElt r e).

Lemma B_le : forall x, B x -> x <= blen src.
Proof. intros x (a & b & E & <-). rewrite E, blen_app. lia. Qed.
Lemma B_0 : B 0.
Proof. exists [], src. auto. Qed.
Lemma V_sliceable : forall r, V r -> valid_range r -> sliceable src r.
Proof.
  intros r [[H1|H1] H2] H; unfold valid_range in H; [split; auto|]. apply B_le in H2. lia.
Qed.
Lemma sliceable_V : forall r, sliceable src r -> V r.
Proof. intros r (H1 & H2 & _). split; [now left|exact H2]. Qed.
Lemma V_invalid : V invalid_range.
Proof. split; [now right|exact B_0]. Qed.
Lemma V_combine : forall a b, V a -> V b -> V (combine a b).
Proof.
  intros a b [A1 A2] [B1 B2]. unfold V, combine. cbn [r_start r_end].
  split; [destruct (N.min_dec (r_start a) (r_start b)) as [-> | ->]|destruct (N.max_dec (r_end a) (r_end b)) as [-> | ->]]; auto.
Qed.

Lemma VN_located : forall n, VN n -> Located src n.
Proof.
  induction n as [r e IH|r t] using node_ind'; intros H; inversion H; subst; constructor; auto using V_sliceable.
  rewrite Forall_forall in *. auto.
Qed.
Lemma source_VN : forall n, Forall (sliceable src) (node_ranges n) -> VN n.
Proof.
  induction n as [r e IH|r t] using node_ind'; intros H; cbn [node_ranges] in H.
  - inversion H as [|a l H1 H2]; subst. inversion H2 as [|a l H3 H4]; subst. inversion H4 as [|a l H5 H6]; subst.
    apply Forall_app in H6 as [H6 H7]. apply Forall_app in H7 as [_ H7].
    constructor; auto using sliceable_V.
    + apply Forall_forall. intros s Hs. rewrite Forall_flat_map in H6. rewrite Forall_forall in H6. specialize (H6 s Hs).
      unfold sel_ranges in H6. inversion H6 as [|a l H8 _]; subst. destruct H8 as (H8 & H9 & _). split; now left.
    + rewrite Forall_flat_map in H7. rewrite Forall_forall in *. auto.
  - inversion H; subst. constructor. now apply sliceable_V.
Qed.

Lemma source_all : forall ns, Forall (sliceable src) (flat_map node_ranges ns) -> Forall VN ns.
Proof.
  intros ns H. rewrite Forall_flat_map in H. eapply Forall_impl; [|exact H]. intros n. apply source_VN.
Qed.

Lemma apply_tags_VS : forall e tags, SB (r_start (e_range e)) -> Forall VS (e_selectors e) ->
  Forall VS (e_selectors (apply_tags e tags)).
Proof.
  intros e tags He Hs. unfold apply_tags. destruct (filter _ tags) as [|first more].
  - cbn [with_selectors e_selectors]. destruct (e_selectors e) as [|s rest]; [constructor|]. inversion Hs; subst. assumption.
  - assert (forall p, SB p -> Forall VS (map (fun t => sel_with_tag (sel_empty p) t) more)) as HM
      by (intros p Hp; apply Forall_map, Forall_forall; intros t _; split; exact Hp).
    destruct (e_selectors e) as [|s rest]; cbn [with_selectors e_selectors].
    + constructor; [split; exact He|]. now apply HM.
    + inversion Hs as [|s0 l0 Hs1 Hs2]; subst. constructor; [exact Hs1|]. apply Forall_app. split; [apply HM, Hs1|exact Hs2].
Qed.
Lemma special_VN : forall cfg n, VN n -> VN (special_node cfg n).
Proof.
  intros cfg. induction n as [r e IH|r t] using node_ind'; intros H; [|exact H].
  inversion H as [|r' e' H1 H2 H3 H4 H5]; subst. cbn [special_node]. destruct (special_element_same cfg e) as [S1 S2].
  constructor; cbn [with_nodes with_content e_range e_crange e_selectors e_nodes]; rewrite ?S1, ?S2; auto.
  - unfold special_element. destruct H2 as [H2 _]. destruct (e_type e) as [| | |k|[]|]; auto; now apply apply_tags_VS.
  - apply Forall_map. rewrite Forall_forall in *. auto.
Qed.

Variable slc : lrange -> str.

Lemma page_VN : forall t cr ns, V cr -> Forall VN ns -> VN (elt_node (page_element t cr ns)).
Proof.
  intros t cr ns H1 H2. unfold elt_node, page_element.
  assert (forall tags, e_range (apply_tags (new_elt invalid_range Unknown) tags) = invalid_range) as ER.
  { intros tags. unfold apply_tags. destruct (filter _ _); reflexivity. }
  constructor; cbn [with_content e_range e_crange e_nodes e_selectors]; rewrite ?ER; auto using V_invalid.
  apply apply_tags_VS; [now right|constructor].
Qed.
Lemma complete_VN : forall cr ns, V cr -> Forall VN ns -> Forall VN (complete_page slc cr ns).
Proof.
  intros cr ns HV H. unfold complete_page. destruct (existsb _ ns); [exact H|]. destruct (existsb _ ns).
  - constructor; [|constructor]. now apply page_VN.
  - rewrite split_page_ok. constructor; [|constructor]. apply page_VN; [exact HV|].
    repeat apply Forall_cons; try apply Forall_nil.
    + apply page_VN; [exact V_invalid|]. apply Forall_forall. intros m Hm. apply in_flat_map in Hm as (x & Hx & Hm).
      unfold to_head in Hm. rewrite Forall_forall in H. specialize (H x Hx). destruct (written_as slc [L "head"] x).
      * destruct x as [r e|r t]; [|destruct Hm]. inversion H as [|r' e' H1 H2 H3 H4 H5]; subst. rewrite Forall_forall in H5. auto.
      * destruct (written_as slc head_only x); [|destruct Hm]. destruct Hm as [<-|[]]. exact H.
    + constructor. exact V_invalid.
    + apply page_VN; [exact V_invalid|]. rewrite Forall_forall in *. intros m Hm. apply filter_In in Hm as [Hm _]. auto.
Qed.

Lemma name_VS : forall st sels nm, SB st -> Forall VS sels -> Forall VS (name_sels slc st sels nm).
Proof.
  intros st sels nm H1 H2. unfold name_sels. destruct (first_name slc sels); [exact H2|].
  destruct nm; [destruct sels; inversion H2; subst; (constructor; [split; auto; apply H1 || now apply H3|auto])|destruct H2; [constructor|auto]|exact H2].
Qed.
Lemma chain_VN : forall k sels c g p fi la r er cr ty f raw kids,
  V r -> V er -> V cr -> Forall VS sels -> (forall c g p, Forall VN (kids c g p)) ->
  VN (chain slc k c g p fi la r er sels cr ty f raw kids).
Proof.
  induction k as [|x k IH]; intros sels c g p fi la r er cr ty f raw kids Hr He Hc Hs HK; cbn [chain];
    pose proof (name_VS (r_start er) sels (name_for c g fi la (kind_of ty)) (proj1 He) Hs) as F1;
    destruct (name_sels _ _ _ _) as [|s0 [|s1 rest]];
    try (constructor; cbn [e_range e_crange e_nodes e_selectors]; auto; fail).
  set (ir := combine cr (mkR (r_start (s_range s1)) (r_end er))).
  assert (V ir) as Hi.
  { apply V_combine; [exact Hc|]. inversion F1 as [|? ? _ F2]; subst. inversion F2 as [|? ? F3 _]; subst. split; [apply F3|apply He]. }
  inversion F1; subst.
  constructor; cbn [e_range e_crange e_nodes e_selectors]; auto.
  now apply V_combine.
Qed.
Lemma resolve_VN : forall n, VN n -> forall c g p fi la, VN (resolve slc c g p fi la n).
Proof.
  induction n as [r e IH|r t] using node_ind'; intros H c g p fi la; cbn [resolve]; [|exact H].
  inversion H as [|r' e' H1 H2 H3 H4 H5]; subst. apply chain_VN; auto.
  intros c' g' p'. apply Forall_map_pos. rewrite Forall_forall in *. auto.
Qed.
Lemma meta_located : forall el n root, Located src n -> Located src (meta_node el root n).
Proof.
  intros el. assert (forall r e root, e_crange (handle_element el r e root) = e_crange e /\ e_nodes (handle_element el r e root) = e_nodes e
      /\ e_range (handle_element el r e root) = e_range e) as E
      by (intros r e root; unfold handle_element; destruct (_ && _); auto).
  assert (~ valid_range invalid_range) as NV by exact not_valid_invalid.
  induction n as [r e IH|r t] using node_ind'; intros root H.
  - inversion H as [|r' e' H1 H2 H3]; subst. cbn [meta_node]. destruct (E r e root) as (E1 & E2 & E3).
    constructor; cbn [with_nodes with_content e_crange e_nodes]; rewrite ?E1; auto.
    apply Forall_map. rewrite Forall_forall in *. auto.
  - inversion H as [r' t' Hw|]; subst. destruct t as [t|s|s]; cbn [meta_node]; [| |exact H].
    + destruct (el && negb (t_raw t)); [|exact H]. unfold elt_node. destruct (E r (text_element r t) root) as (E1 & E2 & E3).
      rewrite E3. constructor; rewrite ?E1, ?E2; cbn [text_element e_range e_crange e_nodes]; auto.
      intros A. now elim NV.
    + destruct el; [|exact H]. unfold elt_node. destruct (E r (comment_element r s) root) as (E1 & E2 & E3).
      rewrite E3. constructor; rewrite ?E1, ?E2; change (e_range (comment_element r s)) with r;
        change (e_crange (comment_element r s)) with r; auto. constructor; [apply LoTxt; exact Hw|constructor].
Qed.
Lemma lang_located : forall lang n, Located src n -> Located src (lang_node lang n).
Proof. intros lang n H. inversion H; subst; cbn [lang_node]; constructor; auto. Qed.

Theorem transform_located : forall cfg cr ns out, V cr -> Forall VN ns ->
  transform_document slc cfg cr ns = Some out -> Forall (Located src) out.
Proof.
  intros cfg cr ns out HV HS H. unfold transform_document in H.
  assert (Forall VN (map (special_node (c_special cfg)) ns)) as H1
    by (apply Forall_map; eapply Forall_impl; [|exact HS]; intros a; apply special_VN).
  set (ns0 := map (special_node (c_special cfg)) ns) in *.
  assert (Forall VN (match c_complete_page cfg with Some true => complete_page slc cr ns0 | _ => ns0 end)) as H2
    by (destruct (c_complete_page cfg) as [[]|]; auto using complete_VN).
  rewrite infer_resolves in H. injection H as <-.
  assert (Forall (Located src) (resolve_all slc CSection None None
    match c_complete_page cfg with Some true => complete_page slc cr ns0 | _ => ns0 end)) as H3.
  { apply Forall_map_pos. rewrite Forall_forall in *. intros m Hm a b. apply VN_located, resolve_VN. auto. }
  unfold apply_lang. revert H3. generalize (resolve_all slc CSection None None
    match c_complete_page cfg with Some true => complete_page slc cr ns0 | _ => ns0 end). intros l H3.
  assert (Forall (Located src) (match c_metadata cfg with Some el => map (meta_node el true) l | None => l end)) as H4.
  { destruct (c_metadata cfg) as [el|]; [|exact H3]. apply Forall_map. eapply Forall_impl; [|exact H3].
    intros n. apply meta_located. }
  destruct (c_lang cfg) as [lang|]; [|exact H4].
  apply Forall_map. eapply Forall_impl; [|exact H4]. intros n. apply lang_located.
Qed.

End Src.

Theorem document_located : forall alnum parse src cfg d ns, blen src < loc_max -> reads alnum parse src ->
  document_of parse src cfg d ns -> Forall (Located src) ns.
Proof.
  intros alnum parse src cfg d ns Hlen HR (c & tree & EP & HB & HT). unfold reads in HR. rewrite EP in HR.
  pose proof (from_ast_sound src alnum c HR none eq_refl) as HS. unfold builds in HB. fold none in HB.
  rewrite HB in HS. destruct HS as (d' & _ & _ & HS).
  destruct HR as (x & y & H1 & (x' & y' & H2 & H3 & H4 & H5 & H6) & H7).
  apply gap_pos in H3 as (G1 & _). apply gap_pos in H5 as (_ & G2 & _).
  eapply transform_located; [exact Hlen| |exact (source_all src _ HS)|exact HT]. split; [now left|exact G2].
Qed.

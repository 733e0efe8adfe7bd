(** * The texts and comments of the output are those of the source (C45). *)

From Verif Require Import Base Escape OutText Doc Ast Config Errors Build Output Infer Transform Convert Grammar
  SpecEscape SpecMarkup SpecHtml SpecTree SpecInfer SpecTransform SpecBuild SpecSource SpecErrors SpecWhole SpecOrdinary SpecText
  P_Base P_Build P_BuildAll P_Marks P_Infer P_InferProps P_Convert P_Trees P_Inside P_Source P_Ordinary.
From Coq Require Import Permutation.

(** ** The transforms *)
(** Stated for anything that is made of texts (and not of selectors). *)
Section Marks.
Context {X : Type} (txt : lrange -> textlike -> list X).
Hypothesis txt_space : forall r s, txt r (TSpace s) = [].
Local Notation one_marks := (doc_marks (fun _ => []) txt).
Local Notation marks := (flat_map one_marks).
Lemma marks_elt : forall r e, one_marks (NElt r e) = marks (e_nodes e).
Proof.
  intros r e. change (flat_map (fun _ : selector => [] : list X) (e_selectors e) ++ marks (e_nodes e) = marks (e_nodes e)).
  assert (forall l : list selector, flat_map (fun _ => [] : list X) l = []) as -> by (induction l; auto). reflexivity.
Qed.
Lemma marks_map : forall (f : node -> node) l, (forall n, In n l -> one_marks (f n) = one_marks n) -> marks (map f l) = marks l.
Proof.
  intros f l H. induction l as [|n l IH]; [reflexivity|]. cbn [map flat_map]. rewrite H by now left. f_equal. apply IH.
  intros x Hx. apply H. now right.
Qed.
Lemma marks_special : forall st n, one_marks (special_node st n) = one_marks n.
Proof.
  intros st. induction n as [r e IH|r t] using node_ind'; [|reflexivity]. cbn [special_node].
  rewrite !marks_elt. cbn [with_nodes e_nodes]. apply marks_map. rewrite Forall_forall in IH. exact IH.
Qed.
Lemma marks_page_element : forall t cr ns, one_marks (elt_node (page_element t cr ns)) = marks ns.
Proof. intros t cr ns. unfold elt_node. rewrite marks_elt. reflexivity. Qed.
Lemma marks_page : forall slc cr ns, Permutation (marks (complete_page slc cr ns)) (marks ns).
Proof.
  intros slc cr ns. unfold complete_page. destruct (existsb _ ns); [reflexivity|]. destruct (existsb _ ns).
  { cbn [flat_map]. now rewrite marks_page_element, app_nil_r. }
  assert (Permutation (marks (fst (split_page slc ns)) ++ marks (snd (split_page slc ns))) (marks ns)) as H.
  { induction ns as [|n l IH]; [reflexivity|]. cbn [split_page]. destruct (split_page slc l) as [hd bd]. cbn [fst snd] in IH.
    destruct (element_with_tag_in slc [L "head"] n) as [e|] eqn:E.
    - cbn [fst snd flat_map]. rewrite flat_map_app, <- app_assoc, IH.
      destruct n as [r e'|]; cbn [element_with_tag_in] in E; [|discriminate].
      destruct (e_selectors e') as [|s ?]; [discriminate|]. destruct (tag_name (s_tag s)); [|discriminate].
      destruct (existsb _ _); [|discriminate]. injection E as <-. now rewrite marks_elt.
    - destruct (has_tag_in slc metadata_tags n); cbn [fst snd flat_map].
      + now rewrite <- app_assoc, IH.
      + rewrite <- IH. rewrite app_assoc. etransitivity; [apply Permutation_app_tail, Permutation_app_comm|]. now rewrite <- app_assoc. }
  destruct (split_page slc ns) as [hd bd]. cbn [fst snd] in H. cbn [flat_map]. rewrite marks_page_element, app_nil_r. cbn [flat_map].
  rewrite !marks_page_element, app_nil_r. cbn [doc_marks]. rewrite txt_space. exact H.
Qed.
Lemma marks_chain : forall slc (k : list X) sels' c g p fi la r er sels cr ty f raw kids,
  (forall c g p, marks (kids c g p) = k) -> one_marks (chain slc sels' c g p fi la r er sels cr ty f raw kids) = k.
Proof.
  intros slc k. induction sels' as [|s' sels' IH]; intros c g p fi la r er sels cr ty f raw kids H; cbn [chain];
    set (sels1 := name_sels _ _ _ _); clearbody sels1; destruct sels1 as [|s0 [|s1 rest]]; rewrite marks_elt; cbn [e_nodes]; try apply H.
  cbn [flat_map]. rewrite app_nil_r. now apply IH.
Qed.
Lemma marks_map_pos : forall (f : bool -> bool -> node -> node) l b, (forall n x y, In n l -> one_marks (f x y n) = one_marks n) ->
  marks (map_pos f b l) = marks l.
Proof.
  intros f l. induction l as [|n l IH]; intros b H; [reflexivity|]. cbn [map_pos flat_map]. rewrite H by now left. f_equal.
  apply IH. intros m x y Hm. apply H. now right.
Qed.
Lemma marks_resolve : forall slc n c g p fi la, one_marks (resolve slc c g p fi la n) = one_marks n.
Proof.
  intros slc. induction n as [r e IH|r t] using node_ind'; intros c g p fi la; [|reflexivity]. cbn [resolve].
  rewrite marks_elt. apply marks_chain. intros c' g' p'. apply marks_map_pos. rewrite Forall_forall in IH. intros. now apply IH.
Qed.
Lemma marks_meta : forall n root, one_marks (meta_node false root n) = one_marks n.
Proof.
  induction n as [r e IH|r t] using node_ind'; intros root.
  - cbn [meta_node]. rewrite !marks_elt. cbn [with_nodes e_nodes]. apply marks_map. rewrite Forall_forall in IH. intros. now apply IH.
  - now destruct t.
Qed.
Lemma marks_lang : forall l n, one_marks (lang_node l n) = one_marks n.
Proof. intros l [r e|r t]; [|reflexivity]. cbn [lang_node]. now rewrite !marks_elt. Qed.

Theorem marks_transform : forall slc cfg cr ns out, c_metadata cfg <> Some true -> transform_document slc cfg cr ns = Some out ->
  Permutation (marks out) (marks ns) /\ (c_complete_page cfg <> Some true -> marks out = marks ns).
Proof.
  intros slc cfg cr ns out HM E. unfold transform_document in E.
  match type of E with (match infer slc ?x with _ => _ end = _) => set (ns1 := x) in E end.
  rewrite infer_resolves in E. injection E as <-.
  assert (H : marks (apply_lang (c_lang cfg) match c_metadata cfg with
      | Some el => map (meta_node el true) (resolve_all slc CSection None None ns1) | None => resolve_all slc CSection None None ns1 end) = marks ns1).
  { transitivity (marks match c_metadata cfg with
      | Some el => map (meta_node el true) (resolve_all slc CSection None None ns1) | None => resolve_all slc CSection None None ns1 end).
    - unfold apply_lang. destruct (c_lang cfg); [|reflexivity]. apply marks_map. intros. apply marks_lang.
    - transitivity (marks (resolve_all slc CSection None None ns1)).
      + destruct (c_metadata cfg) as [[|]|]; [congruence| |reflexivity]. apply marks_map. intros. apply marks_meta.
      + apply marks_map_pos. intros. apply marks_resolve. }
  rewrite H. assert (marks (map (special_node (c_special cfg)) ns) = marks ns) as HS by (apply marks_map; intros; apply marks_special).
  subst ns1. clear H. split.
  - destruct (c_complete_page cfg) as [[|]|]; try (now rewrite HS). etransitivity; [apply marks_page|]. now rewrite HS.
  - intros HC. destruct (c_complete_page cfg) as [[|]|]; [congruence|exact HS..].
Qed.

End Marks.
Notation leaves := (flat_map doc_leaves).
Lemma leaves_elt : forall r e, doc_leaves (NElt r e) = leaves (e_nodes e).
Proof. exact (marks_elt (fun _ => leaf)). Qed.
Theorem leaves_transform : forall slc cfg cr ns out, c_metadata cfg <> Some true -> transform_document slc cfg cr ns = Some out ->
  Permutation (leaves out) (leaves ns) /\ (c_complete_page cfg <> Some true -> leaves out = leaves ns).
Proof. apply (marks_transform (fun _ => leaf)). reflexivity. Qed.
Theorem places_transform : forall slc cfg cr ns out, c_metadata cfg <> Some true -> transform_document slc cfg cr ns = Some out ->
  Permutation (flat_map doc_places out) (flat_map doc_places ns) /\
  (c_complete_page cfg <> Some true -> flat_map doc_places out = flat_map doc_places ns).
Proof. apply (marks_transform place). reflexivity. Qed.

(** ** White space of the document *)
Definition blank_leaf (slc : lrange -> str) (t : textlike) : Prop :=
  match t with TSpace s => Forall (fun c => is_whitespace c = true) (space_value slc s) | _ => True end.
Definition any_sel (s : selector) : Prop := True.

Lemma space_blank : forall src p q r, Token src space_pat p q r -> Forall (fun c => is_whitespace c = true) (source_slice src r).
Proof.
  intros src p q r H. apply token_slice in H as (pre & post & H).
  assert (forall c, not_newline_space c = true -> is_whitespace c = true) as HC.
  { intros c H0. unfold not_newline_space in H0. apply andb_prop in H0 as [H0 H1]. first [exact H0|exact H1]. }
  destruct H as (m1 & m2 & -> & (c & -> & Hc) & H2). constructor; [now apply HC|].
  induction H2 as [|pre' m1 m2 post' (c' & -> & Hc') H2 IH]; [constructor|]. cbn [app]. constructor; auto.
Qed.
Theorem document_blank : forall alnum parse src cfg ns, reads alnum parse src -> document_of parse src cfg [] ns ->
  Forall (TreeAll (fun _ => True) (blank_leaf (source_slice src))) ns.
Proof.
  intros alnum parse src cfg ns HR HD.
  assert (blank_leaf (source_slice src) (TSpace ParagraphEnd)) as HP by (repeat constructor).
  apply (document_built _ parse src cfg ns (Forall (TreeAll (PE any_sel) (blank_leaf (source_slice src))))) in HD as (c & tree & HE & HC & HT).
  - assert (Forall (SelsT any_sel (blank_leaf (source_slice src))) ns) as HS.
    { apply (tree_transform (source_slice src) cfg any_sel any_sel any_sel (blank_leaf (source_slice src)) (fun _ => True) (fun _ => True)
          (fun _ _ _ _ _ _ _ _ => I) I (fun _ _ _ => I)) with (cr := mkR (ct_start c) (ct_end c)) (ns := tree);
        try exact (built_bare _ _ _ HC); try exact HT; unfold any_sel; auto; intros; try exact I; repeat constructor. }
    eapply Forall_impl; [|exact HS]. intros n. apply TreeAll_impl; auto.
  - intros c HE. unfold reads in HR. rewrite HE in HR. apply (from_ast_items (source_slice src) (ok_item src alnum) any_sel (blank_leaf (source_slice src))).
    + exact (fun _ => I).
    + intros sp s t e H. eapply kids_in. exact H.
    + intros sp b s e _. eapply clean_impl; [apply selector_names_built|]. intros v _. exact I.
    + repeat constructor.
    + exact HP.
    + intros r n (p & q & x & y & _ & H & _). cbn [fst Maybe] in H. exact (space_blank _ _ _ _ H).
    + intros sp b t e _ _. destruct t; exact I.
    + intros sp b m e _ _. exact I.
    + intros sp b e n _. destruct e as [r|bk|il|[k o cc cl|r]]; exact I.
    + now apply document_in.
Qed.

(** ** Reading *)
Definition expect_text (l : list expect) : str := flat_map (fun x => match x with XItem (IText t) => t | _ => [] end) l.
Definition expect_comments (l : list expect) : list str := flat_map (fun x => match x with XItem (IComment t) => [t] | _ => [] end) l.

Lemma read_text_app : forall a b, read_text (a ++ b) = read_text a ++ read_text b.
Proof. intros. apply flat_map_app. Qed.
Lemma merged_text : forall is acc, read_text (merge_from acc is) = acc ++ read_text is /\ read_comments (merge_from acc is) = read_comments is.
Proof.
  assert (forall acc, read_text (flush acc) = acc /\ read_comments (flush acc) = []) as HF.
  { intros [|x acc]; cbn [flush]; [now split|]. unfold read_text, read_comments. cbn [flat_map]. now rewrite app_nil_r. }
  induction is as [|i is IH]; intros acc; cbn [merge_from].
  { destruct (HF acc) as [-> ->]. unfold read_text. cbn [flat_map]. now rewrite app_nil_r. }
  assert (forall a b, read_comments (a ++ b) = read_comments a ++ read_comments b) as RC by (intros; apply flat_map_app).
  destruct (IH []) as [H1 H2]. destruct (HF acc) as [F1 F2].
  destruct i; try (rewrite read_text_app, RC, F1, F2; cbn [app]; unfold read_text, read_comments in *; cbn [flat_map]; rewrite H1, H2; now split).
  match goal with |- context [merge_from (acc ++ ?s)] => destruct (IH (acc ++ s)) as [H3 H4] end. rewrite H3, H4. unfold read_text, read_comments. cbn [flat_map]. now rewrite <- app_assoc.
Qed.

Lemma dense_app : forall a b, dense (a ++ b) = dense a ++ dense b.
Proof. intros. apply filter_app. Qed.
Lemma dense_blank : forall s, Forall (fun c => is_whitespace c = true) s -> dense s = [].
Proof. intros s H. induction H as [|c s Hc H IH]; [reflexivity|]. unfold dense in *. cbn [filter]. now rewrite Hc. Qed.
Lemma html_ws_blank : forall w, all_ws w -> Forall (fun c => is_whitespace c = true) w.
Proof.
  intros w H. eapply Forall_impl; [|exact H]. intros c Hc. cbn beta in Hc. unfold html_ws in Hc.
  repeat (apply orb_prop in Hc as [Hc|Hc]); apply N.eqb_eq in Hc; subst c; reflexivity.
Qed.
Lemma shown_text : forall lay es is, Forall (fun x => match x with XGap w => Forall (fun c => is_whitespace c = true) w | _ => True end) es ->
  Shows lay es is -> dense (read_text is) = dense (expect_text es) /\ read_comments is = expect_comments es.
Proof.
  intros lay es is HG H. induction H as [|i es is H IH|w es is H IH|w w' es is Hw H IH|w es is Hl Hw H IH].
  - now split.
  - inversion HG; subst. destruct (IH H3) as [H4 H5]. unfold read_text, expect_text, read_comments, expect_comments in *. cbn [flat_map].
    rewrite !dense_app, H4, H5. split; [reflexivity|now destruct i].
  - inversion HG; subst. now apply IH.
  - inversion HG as [|? ? G1 G2]; subst. destruct (IH G2) as [H4 H5]. unfold read_text, expect_text, read_comments, expect_comments in *. cbn [flat_map].
    rewrite dense_app, H4, H5. split; [|reflexivity]. rewrite dense_blank; [reflexivity|].
    destruct Hw as [->|[_ Hw]]; [exact G1|now apply html_ws_blank].
  - destruct (IH HG) as [H4 H5]. unfold read_text, read_comments in *. cbn [flat_map]. rewrite dense_app, H4, H5. split; [|reflexivity].
    rewrite dense_blank; [reflexivity|now apply html_ws_blank].
Qed.

Section Items.
Variable slc : lrange -> str.
Variable xml : bool.
Lemma tree_text : forall n, expect_text (tree_items slc xml n) = said_text slc (doc_leaves n) /\
  expect_comments (tree_items slc xml n) = said_comments slc (doc_leaves n).
Proof.
  assert (forall a b, expect_text (a ++ b) = expect_text a ++ expect_text b) as TA by (intros; apply flat_map_app).
  assert (forall a b, expect_comments (a ++ b) = expect_comments a ++ expect_comments b) as CA by (intros; apply flat_map_app).
  induction n as [r e IH|r t] using node_ind'.
  - rewrite leaves_elt. cbn [tree_items].
    assert (expect_text (flat_map (tree_items slc xml) (e_nodes e)) = said_text slc (leaves (e_nodes e)) /\
            expect_comments (flat_map (tree_items slc xml) (e_nodes e)) = said_comments slc (leaves (e_nodes e))) as [H1 H2].
    { induction IH as [|n l [Hn Hn'] IH [IH1 IH2]]; [now split|]. cbn [flat_map]. rewrite TA, CA, Hn, Hn', IH1, IH2.
      unfold said_text, said_comments. now rewrite !flat_map_app. }
    destruct (elt_tag slc (e_selectors e)) as [[t s]|]; [|now split].
    destruct (xml && is_nil (e_nodes e)) eqn:EE.
    + apply andb_prop in EE as [_ EE]. destruct (e_nodes e); [now split|discriminate].
    + assert (forall x l, expect_text (x :: l) = expect_text [x] ++ expect_text l) as TC by (intros; apply (TA [x] l)).
      assert (forall x l, expect_comments (x :: l) = expect_comments [x] ++ expect_comments l) as CC by (intros; apply (CA [x] l)).
      rewrite TC, CC, TA, CA, H1, H2. destruct (negb xml && html_void_name t); cbn; now rewrite !app_nil_r.
  - destruct t as [t|s|s]; cbn; now rewrite ?app_nil_r.
Qed.
Lemma tree_gaps : forall n, TreeAll (fun _ => True) (blank_leaf slc) n ->
  Forall (fun x => match x with XGap w => Forall (fun c => is_whitespace c = true) w | _ => True end) (tree_items slc xml n).
Proof.
  induction n as [r e IH|r t] using node_ind'; intros H.
  - inversion H as [? ? _ Hk|]; subst. cbn [tree_items].
    assert (Forall (fun x => match x with XGap w => Forall (fun c => is_whitespace c = true) w | _ => True end) (flat_map (tree_items slc xml) (e_nodes e))) as HC.
    { apply Forall_flat_map. rewrite Forall_forall in *. auto. }
    destruct (elt_tag slc (e_selectors e)) as [[t s]|]; [|exact HC].
    destruct (xml && is_nil (e_nodes e)); [repeat constructor|]. constructor; [exact I|]. apply Forall_app. split; [exact HC|].
    destruct (negb xml && html_void_name t); repeat constructor.
  - inversion H as [|? ? Ht]; subst. destruct t as [t|s|s]; repeat constructor. exact Ht.
Qed.
Lemma doc_text : forall page ns, Forall (TreeAll (fun _ => True) (blank_leaf slc)) ns ->
  let es := doc_items slc xml page ns in
  dense (expect_text es) = dense (said_text slc (leaves ns)) /\ expect_comments es = said_comments slc (leaves ns) /\
  Forall (fun x => match x with XGap w => Forall (fun c => is_whitespace c = true) w | _ => True end) es.
Proof.
  intros page ns H es. subst es. unfold doc_items.
  assert (expect_text (flat_map (tree_items slc xml) ns) = said_text slc (leaves ns) /\
          expect_comments (flat_map (tree_items slc xml) ns) = said_comments slc (leaves ns)) as [H1 H2].
  { clear H. induction ns as [|n l [IH1 IH2]]; [now split|]. cbn [flat_map]. destruct (tree_text n) as [T1 T2].
    unfold expect_text, expect_comments, said_text, said_comments in *. rewrite !flat_map_app. now rewrite T1, T2, IH1, IH2. }
  unfold expect_text, expect_comments in *. rewrite !flat_map_app, H1, H2. split; [|split].
  - destruct page; reflexivity.
  - destruct page; reflexivity.
  - apply Forall_app. split.
    + destruct page; repeat constructor.
    + apply Forall_flat_map. eapply Forall_impl; [|exact H]. intros n. apply tree_gaps.
Qed.
End Items.

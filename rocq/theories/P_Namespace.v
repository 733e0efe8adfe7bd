(** * The namespace of metadata (for C68). *)

From Verif Require Import Base Escape OutText Doc Config Ast Errors Build Infer Transform Output SpecMarkup SpecHtml SpecTree SpecBuild SpecInfer SpecTransform SpecWhole SpecSource SpecNamespace
  P_Base P_Escape P_Build P_BuildAll P_InferProps P_Infer P_Meta P_Source P_Balance.
From Coq Require Import Lia.

(** ** What the builder puts at the top *)
Definition top_type (t : element_type) : Prop := match t with Standard _ | Paragraph | Multiline MLCode => True | _ => False end.
Definition top (n : node) : Prop := match n with NElt _ e => top_type (e_type e) | NTxt _ _ => True end.
Definition quiet (n : node) : Prop := is_visible n = false.

Lemma quiet_top : forall n, quiet n -> top n.
Proof. intros [r e|r t]; [discriminate|exact (fun _ => I)]. Qed.

Lemma validate_after : forall ns lt lr, stands_alone lt = true -> Clean (validate_from (Some (lt, lr)) ns) (fun _ => Forall quiet ns).
Proof.
  induction ns as [|n ns IH]; intros lt lr H; cbn [validate_from]; [now apply clean_ret|].
  assert (is_visible n = true -> Clean (let ty := item_type_of n in (if stands_alone lt then misplaced lr (MustNotPrecede lt [ty]) else
     if stands_alone ty then misplaced (n_range n) (MustNotFollow [lt] ty) else ret tt) ;* validate_from (Some (ty, n_range n)) ns) (fun _ => Forall quiet (n :: ns))) as HV.
  { intros Hv. cbn zeta. rewrite H. unfold misplaced. apply clean_err. apply ff_validate. }
  destruct n as [r e|r [t|t|t]].
  - assert (is_visible (NElt r e) = true) as Hv by reflexivity. specialize (HV Hv). cbn zeta in HV. cbn [item_type_of] in *. destruct (e_type e); exact HV.
  - apply HV. reflexivity.
  - cbn [item_type_of]. eapply clean_impl; [apply IH, H|]. intros v HF. now constructor.
  - cbn [item_type_of]. eapply clean_impl; [apply IH, H|]. intros v HF. now constructor.
Qed.
Lemma validate_first : forall ns, starts_with_element ns = true -> Clean (validate_line ns) (fun _ => Forall top ns).
Proof.
  unfold validate_line, starts_with_element. induction ns as [|n ns IH]; intros H; [discriminate|]. cbn [validate_from find] in *.
  destruct n as [r e|r [t|t|t]]; cbn [is_visible item_type_of] in *.
  - destruct (e_type e) as [|d|d|k|k|] eqn:Et; try discriminate; [|destruct k; try discriminate];
      (eapply clean_bind with (Q := fun _ => True); [apply clean_ret; exact I|intros; apply ff_validate|intros _ _];
       eapply clean_impl; [apply validate_after; reflexivity|]; intros v HF; constructor; [cbn; rewrite Et; exact I|];
       eapply Forall_impl; [|exact HF]; apply quiet_top).
  - discriminate.
  - eapply clean_impl; [apply IH, H|]. intros v HF. constructor; [exact I|exact HF].
  - eapply clean_impl; [apply IH, H|]. intros v HF. constructor; [exact I|exact HF].
Qed.

Lemma top_append : forall out line r le out' line', append_to_previous out line r le = (out', line') -> Forall top out -> Forall top out' /\ (line' = line \/ line' = []).
Proof.
  intros out line r le out' line' H HO. unfold append_to_previous in H. destruct out as [|[ro e|ro t] before]; try (injection H as <- <-; auto).
  inversion HO as [|? ? He Hb]; subst. cbn [top] in He.
  assert (forall x : node * list node, True) by auto.
  destruct (e_type e) as [|d|d|k|k|] eqn:Et; try destruct d; injection H as <- <-; split; auto; constructor; auto; cbn; rewrite Et; exact I.
Qed.
Lemma top_add_line : forall out line r le, Forall top out -> (starts_with_element line = true -> Forall top line) -> Forall top (add_line out line r le true).
Proof.
  intros out line r le Ho Hl. unfold add_line.
  destruct (if starts_with_element line then (out, line) else append_to_previous out line r le) as [out' line'] eqn:E.
  assert (Forall top out' /\ (line' = line \/ line' = [])) as [Ho' Hl'].
  { destruct (starts_with_element line); [injection E as <- <-; auto|]. eapply top_append; eauto. }
  destruct line' as [|n0 line0]; [exact Ho'|]. destruct Hl' as [Hl'|]; [|discriminate]. rewrite Hl' in *.
  set (o2 := if existsb is_visible out' then _ else _).
  assert (Forall top o2) as Ho2 by (subst o2; destruct (existsb is_visible out'); [constructor; [exact I|]|]; assumption).
  destruct (starts_with_element line) eqn:Es; cbn [andb negb].
  - apply Forall_app. split; [apply Forall_rev; auto|exact Ho2].
  - destruct (existsb is_visible line) eqn:Ev.
    + constructor; [exact I|exact Ho2].
    + apply Forall_app. split; [|exact Ho2]. apply Forall_rev. apply Forall_forall. intros n Hn. apply quiet_top. unfold quiet.
      destruct (is_visible n) eqn:Hv; [|reflexivity]. assert (existsb is_visible line = true) by (apply existsb_exists; eauto). congruence.
Qed.

Section Slc.
Variable slc : lrange -> str.
Lemma top_lines : forall f ls le out, Forall top out -> Clean (build_lines slc f ls le out true) (Forall top).
Proof.
  induction f as [|f IH]; intros ls le out Ho; [apply clean_fuel|]. destruct (build_ff slc f) as (Fbc & Fbl & Fln & Fel & _).
  cbn [build_lines]. destruct ls as [|l ls]; [now apply clean_ret|].
  eapply clean_bind with (Q := Forall top); [|intros; ff|intros; apply IH; auto].
  destruct (ln_nodes l) as [|n ns]; [apply clean_ret; constructor; [exact I|exact Ho]|].
  eapply clean_bind with (Q := fun v => starts_with_element (snd v) = true -> Forall top (snd v)); [|intros [? ?]; ff|].
  - destruct f as [|f']; [apply clean_fuel|]. cbn [build_line]. destruct (build_ff slc f') as (_ & _ & _ & Fel' & _).
    eapply clean_bind; [apply clean_true, Fel'|intros [? ?]; apply ff_bind; [apply ff_validate|intros; apply ff_ret]|]. intros [rest line] _.
    destruct (starts_with_element line) eqn:Es.
    + eapply clean_bind; [apply validate_first, Es|intros; apply ff_ret|]. intros v H. apply clean_ret. auto.
    + eapply clean_bind; [apply clean_true, ff_validate|intros; apply ff_ret|]. intros _ _. apply clean_ret. cbn. congruence.
  - intros [rest line] H. apply clean_ret. now apply top_add_line.
Qed.
Theorem from_ast_top : forall c, Clean (from_ast slc c) (Forall top).
Proof.
  intros c. unfold from_ast. destruct (build_fuel c) as [|f]; [apply clean_fuel|]. cbn [build_content].
  eapply clean_bind; [apply top_lines; constructor|intros; apply ff_ret|]. intros v H. apply clean_ret. now apply Forall_rev.
Qed.
End Slc.

(** ** The transforms *)
Definition headed (n : node) : Prop :=
  match n with
  | NElt _ e => kind_of (e_type e) <> KOther \/ exists s rest, e_selectors e = s :: rest /\ uninferred s = false
  | NTxt _ _ => True
  end.
Definition single_named (n : node) : Prop :=
  match n with NElt _ e => exists s, e_selectors e = [s] /\ uninferred s = false | NTxt _ _ => True end.

Lemma tags_headed : forall e tags, (exists t, In t tags /\ slice_is_empty t = false) ->
  exists s rest, e_selectors (apply_tags e tags) = s :: rest /\ uninferred s = false.
Proof.
  intros e tags (t & Hin & Ht). unfold apply_tags.
  destruct (filter (fun t => negb (slice_is_empty t)) tags) as [|x l] eqn:E.
  - assert (In t []) as [] by (rewrite <- E; apply filter_In; now rewrite Ht).
  - destruct (e_selectors e); cbn; eauto.
Qed.
Lemma special_headed : forall cfg n, st_code cfg <> Some [] -> top n -> headed (special_node cfg n).
Proof.
  intros cfg [r e|r t] Hc H; [|exact I]. cbn [special_node headed top with_nodes with_content e_type e_selectors] in *. unfold special_element.
  destruct (e_type e) as [|d|d|k|[| |]|] eqn:Et; try contradiction; rewrite ?Et.
  - left. discriminate.
  - left. destruct d; discriminate.
  - right. apply tags_headed. exists (Provided (special_tag_name cfg Code)). split; [cbn; auto|].
    cbn [special_tag_name]. destruct (st_code cfg) as [[|c l]|]; [congruence|reflexivity..].
Qed.
Lemma page_headed : forall t cr ns, t <> [] -> headed (elt_node (page_element t cr ns)).
Proof.
  intros t cr ns H. right. unfold page_element. cbn [with_content e_selectors]. apply tags_headed. exists (Provided t). split; [now left|]. now destruct t.
Qed.
Lemma complete_headed : forall slc cr ns, Forall headed ns -> Forall headed (complete_page slc cr ns).
Proof.
  intros slc cr ns H. unfold complete_page. destruct (existsb _ ns); [exact H|]. destruct (existsb _ ns).
  - constructor; [apply page_headed; discriminate|constructor].
  - destruct (split_page slc ns) as [h b]. constructor; [apply page_headed; discriminate|constructor].
Qed.
Lemma section_named : forall g fi la k, k <> KOther -> exists t, name_for CSection g fi la k = Named t.
Proof. intros g fi la [] H; try congruence; cbn; eauto. Qed.
Lemma resolve_headed : forall slc g p fi la n, headed n -> single_named (resolve slc CSection g p fi la n).
Proof.
  intros slc g p fi la [r e|r t] H; [|exact I]. cbn [resolve headed] in *.
  destruct (e_selectors e) as [|s rest] eqn:E.
  - destruct H as [H|(s & rest & H & _)]; [|discriminate]. destruct (section_named g fi la (kind_of (e_type e)) H) as (t & Et).
    cbn [chain]. unfold name_sels. cbn [first_name]. rewrite Et. cbn. eauto.
  - assert (exists s', name_sels slc (r_start (e_range e)) (s :: rest) (name_for CSection g fi la (kind_of (e_type e))) = s' :: rest /\ uninferred s' = false) as (s' & Es & Hu).
    { unfold name_sels. cbn [first_name]. destruct (sel_name slc s) as [t|] eqn:En.
      - exists s. split; [reflexivity|]. apply (sel_name_uninferred slc). congruence.
      - destruct H as [H|(s0 & rest0 & [= <- <-] & H)].
        + destruct (section_named g fi la (kind_of (e_type e)) H) as (t & ->). eexists. split; reflexivity.
        + exfalso. unfold sel_name, uninferred in *. destruct (s_tag s); discriminate. }
    cbn [chain]. rewrite Es. destruct rest; cbn; eauto.
Qed.
Lemma infer_headed : forall slc ns ns', Forall headed ns -> infer slc ns = Some ns' -> Forall single_named ns'.
Proof.
  intros slc ns ns' H E. rewrite infer_resolves in E. injection E as <-. unfold resolve_all. apply Forall_map_pos.
  eapply Forall_impl; [|exact H]. intros n Hn a b. now apply resolve_headed.
Qed.

(** The declaration is in the selector. *)
Definition declaring (s : selector) : Prop := exists a lr l b lr', s_items s = a ++ SAttrs lr l :: b /\
  In (mkAttr lr' (Provided (L "xmlns:mty")) (Some (Provided (L "tag:youngspe.github.io,2024:mintyml/metadata")))) l.
Definition root (n : node) : Prop :=
  match n with NElt _ e => exists s, e_selectors e = [s] /\ uninferred s = false /\ declaring s | NTxt _ _ => True end.

Lemma handle_root : forall el r e s, e_selectors e = [s] -> uninferred s = false -> root (NElt r (handle_element el r e true)).
Proof.
  intros el r e s E U. rewrite (handle_named el r e true s E U). cbn. eexists. split; [reflexivity|]. unfold add_attrs, all_attrs. cbn [app].
  split; [unfold uninferred in *; cbn; exact U|]. exists (s_items s). eexists _, _, [], _. cbn [s_items]. split; [reflexivity|]. left. reflexivity.
Qed.
Lemma handle_empty : forall r e, (e_selectors e = [] \/ exists s, e_selectors e = [s] /\ uninferred s = true) -> root (NElt r (handle_element true r e true)).
Proof.
  intros r e [E|(s & E & U)].
  - unfold handle_element. rewrite E. cbn [existsb negb andb]. cbn [meta_sels]. cbn [uninferred sel_empty s_tag negb andb]. cbn [Nat.eqb fst]. cbn.
    eexists. split; [reflexivity|]. split; [reflexivity|]. eexists [], _, _, [], _. split; [reflexivity|]. left. reflexivity.
  - unfold handle_element. rewrite E. cbn [existsb]. rewrite U. cbn [negb andb orb]. cbn [meta_sels]. rewrite U. cbn [negb andb Nat.eqb fst].
    cbn. eexists. split; [reflexivity|]. split; [reflexivity|]. cbn. exists (s_items s). eexists _, _, [], _. split; [reflexivity|]. left. reflexivity.
Qed.
Lemma meta_root : forall el n, TreeAll one_sel (fun _ => True) n -> (el = false -> single_named n) -> root (meta_node el true n).
Proof.
  intros el n H1 H2. destruct n as [r e|r t].
  - cbn [meta_node]. change (root (NElt r (handle_element el r e true))). inversion H1 as [? ? Ho _|]; subst. unfold one_sel in Ho.
    destruct (e_selectors e) as [|s [|]] eqn:E; [| |cbn in Ho; lia].
    + destruct el; [apply handle_empty; auto|]. destruct (H2 eq_refl) as (s & Es & _). congruence.
    + destruct (uninferred s) eqn:U; [|now apply handle_root with s]. destruct el; [apply handle_empty; eauto|].
      destruct (H2 eq_refl) as (s0 & Es & U0). rewrite E in Es. injection Es as <-. congruence.
  - cbn [meta_node]. destruct t as [t|s|sp]; [destruct (el && negb (t_raw t)); [|exact I]| |exact I].
    + eapply handle_root; [reflexivity|]. unfold add_attrs. now destruct (_ ++ _).
    + destruct el; [|exact I]. eapply handle_root; [reflexivity|reflexivity].
Qed.
Lemma lang_root : forall lang n, root n -> root (lang_node lang n).
Proof.
  intros lang [r e|r t]; [|exact (fun H => H)]. cbn [lang_node root with_selectors with_content e_selectors].
  intros (s & E & U & (a & lr & l & b & lr' & Ei & Hin)). cbn. rewrite E. cbn [lang_sels]. rewrite U. eexists. split; [reflexivity|]. split; [exact U|].
  exists a, lr, l, (b ++ [lang_attr (r_end (s_range s)) lang]), lr'. cbn [s_items]. rewrite Ei, <- app_assoc. auto.
Qed.
Theorem document_roots : forall E (parse : str -> a_content + E) src cfg ns el, c_metadata cfg = Some el ->
  (el = false -> st_code (c_special cfg) <> Some []) -> document_of parse src cfg [] ns -> Forall root ns.
Proof.
  intros E parse src cfg ns el Hm Hc HD.
  apply (document_built _ parse src cfg ns (Forall top)) in HD as (c & tree & HP & HQ & HT); [|intros; apply from_ast_top].
  unfold transform_document in HT. rewrite Hm in HT. set (ns1 := map _ tree) in HT.
  set (ns2 := match c_complete_page cfg with Some true => _ | _ => _ end) in HT.
  destruct (infer (source_slice src) ns2) as [ns3|] eqn:Ei; [|discriminate]. injection HT as <-.
  assert (Forall root (map (meta_node el true) ns3)) as HR.
  { pose proof (infer_single _ _ _ Ei) as H1.
    assert (el = false -> Forall single_named ns3) as H2.
    { intros He. specialize (Hc He). eapply infer_headed; [|exact Ei].
      assert (Forall headed ns1) as Hh by (apply Forall_map; eapply Forall_impl; [|exact HQ]; intros n Hn; now apply special_headed).
      unfold ns2. destruct (c_complete_page cfg) as [[|]|]; auto. now apply complete_headed. }
    apply Forall_map. apply Forall_forall. intros n Hn. rewrite Forall_forall in H1. apply meta_root; [auto|].
    intros He. specialize (H2 He). rewrite Forall_forall in H2. auto. }
  unfold apply_lang. destruct (c_lang cfg); [|exact HR]. apply Forall_map. eapply Forall_impl; [|exact HR]. intros n. apply lang_root.
Qed.

(** ** What a reader of the output finds *)
Lemma known_merge : forall l open acc, mty_known open (merge_from acc l) = mty_known open l.
Proof.
  induction l as [|i l IH]; intros open acc.
  - cbn. destruct acc; reflexivity.
  - assert (forall l', mty_known open (flush acc ++ l') = mty_known open l') as Hf by (intros; destruct acc; reflexivity).
    destruct i as [t a sc|t|b| |t]; cbn [merge_from]; rewrite ?Hf; cbn [mty_known]; auto; now rewrite IH.
Qed.
Lemma roots_merge : forall l d acc, roots d (merge_from acc l) = roots d l.
Proof.
  induction l as [|i l IH]; intros d acc.
  - cbn. destruct acc; reflexivity.
  - assert (forall l', roots d (flush acc ++ l') = roots d l') as Hf by (intros; destruct acc; reflexivity).
    destruct i as [t a sc|t|b| |t]; cbn [merge_from]; rewrite ?Hf; cbn [roots]; auto; now rewrite IH.
Qed.
Lemma known_shows : forall lay es is, Shows lay es is -> forall open, mty_known open is = mty_known open (expect_items es).
Proof.
  intros lay es is H. induction H as [|i es is H IH|w es is H IH|w w' es is _ H IH|w es is _ _ H IH]; intros open; cbn; auto.
  destruct i as [t a sc|t|b| |t]; cbn; rewrite ?IH; auto.
Qed.
Lemma roots_shows : forall lay es is, Shows lay es is -> forall d, roots d is = roots d (expect_items es).
Proof.
  intros lay es is H. induction H as [|i es is H IH|w es is H IH|w w' es is _ H IH|w es is _ _ H IH]; intros d; cbn; auto.
  destruct i as [t a sc|t|b| |t]; cbn; rewrite ?IH; auto.
Qed.

Section Read.
Variable slc : lrange -> str.
Lemma nodes_known : forall ns open rest,
  Forall (fun n => forall open rest, mty_known (true :: open) (expect_items (tree_items slc true n) ++ rest) = mty_known (true :: open) rest) ns ->
  mty_known (true :: open) (expect_items (flat_map (tree_items slc true) ns) ++ rest) = mty_known (true :: open) rest.
Proof.
  intros ns open rest H. induction H as [|n ns Hn _ IHns]; [reflexivity|].
  cbn [flat_map]. unfold expect_items at 1. rewrite flat_map_app, <- app_assoc. fold (expect_items (tree_items slc true n)). rewrite Hn. apply IHns.
Qed.
Lemma tree_known : forall n open rest, mty_known (true :: open) (expect_items (tree_items slc true n) ++ rest) = mty_known (true :: open) rest.
Proof.
  induction n as [r e IH|r t] using node_ind'; intros open rest.
  - cbn [tree_items]. destruct (elt_tag slc (e_selectors e)) as [[t s]|]; [|now apply nodes_known].
    cbn [andb negb]. destruct (is_nil (e_nodes e)) eqn:Ex; [reflexivity|].
    unfold expect_items at 1. cbn [flat_map app mty_known]. rewrite flat_map_app.
    fold (expect_items (flat_map (tree_items slc true) (e_nodes e))). rewrite <- app_assoc. cbn [orb andb]. now rewrite nodes_known.
  - destruct t; reflexivity.
Qed.
Lemma nodes_roots : forall ns d rest,
  Forall (fun n => forall d rest, roots (S d) (expect_items (tree_items slc true n) ++ rest) = roots (S d) rest) ns ->
  roots (S d) (expect_items (flat_map (tree_items slc true) ns) ++ rest) = roots (S d) rest.
Proof.
  intros ns d rest H. induction H as [|n ns Hn _ IHns]; [reflexivity|].
  cbn [flat_map]. unfold expect_items at 1. rewrite flat_map_app, <- app_assoc. fold (expect_items (tree_items slc true n)). rewrite Hn. apply IHns.
Qed.
Lemma tree_roots : forall n d rest, roots (S d) (expect_items (tree_items slc true n) ++ rest) = roots (S d) rest.
Proof.
  induction n as [r e IH|r t] using node_ind'; intros d rest.
  - cbn [tree_items]. destruct (elt_tag slc (e_selectors e)) as [[t s]|]; [|now apply nodes_roots].
    cbn [andb negb]. destruct (is_nil (e_nodes e)) eqn:Ex; [reflexivity|].
    unfold expect_items at 1. cbn [flat_map app roots]. rewrite flat_map_app.
    fold (expect_items (flat_map (tree_items slc true) (e_nodes e))). rewrite <- app_assoc. now rewrite nodes_roots.
  - destruct t; reflexivity.
Qed.
Lemma declaring_attrs : forall s, declaring s -> declares_mty (sel_attrs slc true s) = true.
Proof.
  intros s (a & lr & l & b & lr' & Ei & Hin). unfold declares_mty, sel_attrs. rewrite !existsb_app. apply orb_true_iff. right.
  apply orb_true_iff. right. apply existsb_exists. eexists. split; [eapply in_map with (x := mkAttr lr' (Provided (L "xmlns:mty")) (Some (Provided (L "tag:youngspe.github.io,2024:mintyml/metadata"))))|].
  - unfold attrs_in. rewrite Ei, flat_map_app. apply in_or_app. right. cbn [flat_map]. apply in_or_app. left. exact Hin.
  - vm_compute. reflexivity.
Qed.
Lemma root_known : forall n rest, root n -> mty_known [] (expect_items (tree_items slc true n) ++ rest) = mty_known [] rest.
Proof.
  intros [r e|r t] rest H; [|destruct t; reflexivity]. destruct H as (s & Es & U & HD). cbn [tree_items]. rewrite Es. cbn [elt_tag].
  apply declaring_attrs in HD. unfold uninferred in U. destruct (s_tag s) as [t| |t]; try discriminate. cbn [tag_name andb negb].
  destruct (is_nil (e_nodes e)) eqn:Ex.
  - cbn [expect_items flat_map app mty_known]. now rewrite HD.
  - unfold expect_items at 1. cbn [flat_map app mty_known]. rewrite flat_map_app.
    fold (expect_items (flat_map (tree_items slc true) (e_nodes e))). rewrite <- app_assoc, HD. cbn [orb andb].
    rewrite nodes_known by (apply Forall_forall; intros; apply tree_known). reflexivity.
Qed.
Lemma root_roots : forall n rest, root n -> Forall (fun a => declares_mty a = true) (roots 0 rest) ->
  Forall (fun a => declares_mty a = true) (roots 0 (expect_items (tree_items slc true n) ++ rest)).
Proof.
  intros [r e|r t] rest H HR; [|destruct t; exact HR]. destruct H as (s & Es & U & HD). cbn [tree_items]. rewrite Es. cbn [elt_tag].
  apply declaring_attrs in HD. unfold uninferred in U. destruct (s_tag s) as [t| |t]; try discriminate. cbn [tag_name andb negb].
  destruct (is_nil (e_nodes e)) eqn:Ex.
  - cbn [expect_items flat_map app roots]. now constructor.
  - unfold expect_items at 1. cbn [flat_map app roots]. rewrite flat_map_app. constructor; [exact HD|].
    fold (expect_items (flat_map (tree_items slc true) (e_nodes e))). rewrite <- app_assoc.
    rewrite nodes_roots by (apply Forall_forall; intros; apply tree_roots). exact HR.
Qed.
Theorem items_roots : forall pg ns lay is, Forall root ns -> Shows lay (doc_items slc true pg ns) is ->
  mty_known [] (merge_text is) = true /\ Forall (fun a => declares_mty a = true) (roots 0 (merge_text is)).
Proof.
  intros pg ns lay is HR HS. unfold merge_text. rewrite known_merge, roots_merge, (known_shows _ _ _ HS), (roots_shows _ _ _ HS).
  unfold doc_items, expect_items. rewrite flat_map_app.
  assert (forall l, mty_known [] (flat_map (fun e => match e with XItem i => [i] | XGap _ => [] end) (if pg then [XItem IDoctype; XGap [10]] else []) ++ l) = mty_known [] l) as ->
    by (intros; destruct pg; reflexivity).
  assert (forall l, roots 0 (flat_map (fun e => match e with XItem i => [i] | XGap _ => [] end) (if pg then [XItem IDoctype; XGap [10]] else []) ++ l) = roots 0 l) as ->
    by (intros; destruct pg; reflexivity).
  fold (expect_items (flat_map (tree_items slc true) ns)). clear HS. induction HR as [|n ns Hn _ [IH1 IH2]]; [split; [reflexivity|constructor]|].
  - cbn [flat_map]. unfold expect_items. rewrite flat_map_app. fold (expect_items (tree_items slc true n)). fold (expect_items (flat_map (tree_items slc true) ns)).
    split; [now rewrite root_known|now apply root_roots].
Qed.
End Read.

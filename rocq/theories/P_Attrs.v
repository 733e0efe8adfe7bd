(** * Where the names and attributes of opening tags come from (C27, C38, C39). *)

From Verif Require Import Base Escape OutText Doc Ast Config Errors Build Output Infer Transform Convert Grammar
  SpecEscape SpecMarkup SpecHtml SpecTree SpecInfer SpecTransform SpecBuild SpecSource SpecErrors SpecWhole SpecAttrs
  P_Base P_Escape P_OutText P_Build P_BuildAll P_Selector P_Infer P_InferProps P_Convert P_Trees P_Inside P_Source P_Ordinary.

(** ** The builder *)
Definition item_written (i : sel_item) : list (option (option tslice) * tslice * option tslice) :=
  match i with
  | SId _ v => [(None, v, None)]
  | SClass _ v => [(Some None, v, None)]
  | SAttrs _ l => map (fun a => (Some (Some (a_name a)), a_name a, Doc.a_value a)) l
  end.
Definition doc_written (w : written) : option (option tslice) * tslice * option tslice :=
  match w with
  | WId r => (None, FromSource r, None)
  | WClass r => (Some None, FromSource r, None)
  | WAttr n v => (Some (Some (FromSource n)), FromSource n, option_map FromSource v)
  end.
Definition items_written (l : list sel_item) := flat_map item_written l.

Lemma attrs_written_built : forall l, Clean (build_attribute_list l) (fun i => items_written [i] = map doc_written (map attr_written (al_parts l))).
Proof.
  intros l. unfold build_attribute_list. eapply clean_bind with (Q := fun _ => True).
  - destruct (al_rbracket l); [now apply clean_ret|unfold unclosed; now apply clean_syntax].
  - intros. apply ff_ret.
  - intros _ _. apply clean_ret. unfold items_written. cbn [flat_map item_written]. rewrite app_nil_r, !map_map.
    apply map_ext. now intros [s n [[eq [r|r]]|] e].
Qed.
Lemma classes_written_built : forall cl, Clean (build_class_likes cl) (fun l => items_written l = map doc_written (flat_map classlike_written cl)).
Proof.
  intros cl. unfold build_class_likes.
  eapply clean_bind with (Q := Forall2 (fun c o => items_written (opt_list o) = map doc_written (classlike_written c)) cl).
  - apply clean_mapM; [apply ff_class|]. intros [d i|h i|r]; cbn [build_class_like]; [now apply clean_ret|now apply clean_ret|].
    unfold invalid. apply clean_err. apply ff_ret.
  - intros. apply ff_ret.
  - intros v Hv. apply clean_ret. induction Hv as [|c o cl l Ho H IH]; [reflexivity|]. cbn [flat_map]. unfold items_written in *.
    now rewrite flat_map_app, map_app, Ho, IH.
Qed.
Lemma items_written_app : forall a b, items_written (a ++ b) = items_written a ++ items_written b.
Proof. intros. apply flat_map_app. Qed.
Lemma selector_written_built : forall s, Clean (build_selector s) (fun v => items_written (s_items v) = map doc_written (selector_written s)).
Proof.
  intros s. unfold build_selector. eapply clean_bind with
    (Q := fun v : tag * list sel_item => items_written (snd v) = map doc_written
       match as_first s with AStartAttrs a => map attr_written (al_parts a) | AStartTag _ cl => flat_map classlike_written cl end).
  - destruct (as_first s) as [a|e cl].
    + eapply clean_bind; [apply attrs_written_built|intros; apply ff_ret|]. intros i Hi. now apply clean_ret.
    + eapply clean_bind; [apply classes_written_built|intros; apply ff_ret|]. intros i Hi. now apply clean_ret.
  - intros [tg items]. ff. apply ff_segment.
  - intros [tg items] Hi. cbn [snd] in Hi. eapply clean_bind with (Q := fun l => items_written (concat l) = map doc_written
      (flat_map segment_written (as_segments s))).
    + eapply clean_impl; [apply clean_mapM with (P := fun g l => items_written l = map doc_written (segment_written g)); [apply ff_segment|]|].
      * intros [a|cl]; cbn [build_segment]; [|apply classes_written_built].
        eapply clean_bind; [apply attrs_written_built|intros; apply ff_ret|]. intros i H. now apply clean_ret.
      * intros l H. induction H as [|g x gs l Hx H IH]; [reflexivity|]. cbn [concat flat_map].
        now rewrite items_written_app, map_app, Hx, IH.
    + intros. apply ff_ret.
    + intros more Hm. apply clean_ret. cbn [s_items]. unfold selector_written. rewrite items_written_app, map_app, Hi. f_equal.
      exact Hm.
Qed.

Section Attrs.
Variable slc : lrange -> str.
Variable xml : bool.
Notation dec_ := (decoded slc).

(** The attributes of a selector, from what is written. *)
Lemma ids_written : forall l, flat_map (fun i => match i with SId _ v => [v] | _ => [] end) l =
  flat_map (fun x : option (option tslice) * tslice * option tslice => match fst (fst x) with None => [snd (fst x)] | _ => [] end) (items_written l).
Proof.
  induction l as [|i l IH]; [reflexivity|]. unfold items_written in *. cbn [flat_map]. rewrite flat_map_app, <- IH. f_equal.
  destruct i as [r v|r v|r la]; [reflexivity..|]. cbn. induction la; [reflexivity|exact IHla].
Qed.
Lemma classes_written : forall l, flat_map (fun i => match i with SClass _ v => [v] | _ => [] end) l =
  flat_map (fun x : option (option tslice) * tslice * option tslice => match fst (fst x) with Some None => [snd (fst x)] | _ => [] end) (items_written l).
Proof.
  induction l as [|i l IH]; [reflexivity|]. unfold items_written in *. cbn [flat_map]. rewrite flat_map_app, <- IH. f_equal.
  destruct i as [r v|r v|r la]; [reflexivity..|]. cbn. induction la; [reflexivity|exact IHla].
Qed.
Definition pair_of (n : tslice) (v : option tslice) : str * option str :=
  (dec_ n, match v with Some v => Some (dec_ v) | None => if xml then Some [] else None end).
Lemma attrs_written : forall l, map (fun a => pair_of (a_name a) (Doc.a_value a)) (flat_map (fun i => match i with SAttrs _ l => l | _ => [] end) l) =
  flat_map (fun x : option (option tslice) * tslice * option tslice => match fst (fst x) with Some (Some _) => [pair_of (snd (fst x)) (snd x)] | _ => [] end) (items_written l).
Proof.
  induction l as [|i l IH]; [reflexivity|]. unfold items_written in *. cbn [flat_map]. rewrite flat_map_app, map_app, <- IH. f_equal.
  destruct i as [r v|r v|r la]; [reflexivity..|]. cbn. induction la; [reflexivity|]. cbn. f_equal. exact IHla.
Qed.
Lemma sel_attrs_written : forall s, sel_attrs slc xml s =
  match flat_map (fun i => match i with SId _ v => [v] | _ => [] end) (s_items s) with i :: _ => [(L "id", Some (dec_ i))] | [] => [] end ++
  match flat_map (fun i => match i with SClass _ v => [v] | _ => [] end) (s_items s) with [] => [] | cs => [(L "class", Some (join_with [32] (map dec_ cs)))] end ++
  map (fun a => pair_of (a_name a) (Doc.a_value a)) (flat_map (fun i => match i with SAttrs _ l => l | _ => [] end) (s_items s)).
Proof. reflexivity. Qed.

Lemma built_attrs : forall a v, items_written (s_items v) = map doc_written (selector_written a) ->
  sel_attrs slc xml v = source_attrs slc xml a.
Proof.
  intros a v H. rewrite sel_attrs_written, ids_written, classes_written, attrs_written, H. unfold source_attrs.
  rewrite !flat_map_concat_map, !map_map, <- !flat_map_concat_map.

  f_equal; [|f_equal].
  - assert (flat_map (fun x => match x with WId r => [dec_ (FromSource r)] | _ => [] end) (selector_written a) =
      map dec_ (flat_map (fun x => match fst (fst (doc_written x)) with None => [snd (fst (doc_written x))] | _ => [] end) (selector_written a))) as ->.
    { clear H. induction (selector_written a) as [|x l IH]; [reflexivity|]. cbn [flat_map]. rewrite map_app, <- IH. f_equal. now destruct x. }
    now destruct (flat_map _ _).
  - assert (flat_map (fun x => match x with WClass r => [dec_ (FromSource r)] | _ => [] end) (selector_written a) =
      map dec_ (flat_map (fun x => match fst (fst (doc_written x)) with Some None => [snd (fst (doc_written x))] | _ => [] end) (selector_written a))) as ->.
    { clear H. induction (selector_written a) as [|x l IH]; [reflexivity|]. cbn [flat_map]. rewrite map_app, <- IH. f_equal. now destruct x. }
    now destruct (flat_map _ _).
  - apply flat_map_ext. intros [r|r|n [v'|]]; reflexivity.
Qed.

Lemma sel_attrs_app : forall r t items r' l, sel_attrs slc xml (mkSel r t (items ++ [SAttrs r' l])) =
  sel_attrs slc xml (mkSel r t items) ++ map (fun a => pair_of (a_name a) (Doc.a_value a)) l.
Proof.
  intros r t items r' l. rewrite !sel_attrs_written. cbn [s_items]. rewrite !flat_map_app. cbn [flat_map]. rewrite !app_nil_r, map_app.
  now rewrite !app_assoc.
Qed.
Lemma sel_attrs_add : forall s loc l, sel_attrs slc xml (add_attrs s loc l) =
  sel_attrs slc xml s ++ map (fun a => pair_of (a_name a) (Doc.a_value a)) l.
Proof.
  intros [r t items] loc l. unfold add_attrs. destruct l as [|a l]; [now rewrite app_nil_r|]. apply sel_attrs_app.
Qed.
End Attrs.

(** ** The transforms *)
Section From.
Variable src : str.
Variable cfg : config.
Variable c : a_content.
Notation slc := (source_slice src).
Notation xml := (is_xml cfg).

Definition from_stage (names : list str) (L0 : list (str * option str) -> Prop) (s : selector) : Prop :=
  exists o : option a_selector,
    (forall a, o = Some a -> exists b e, Occurs (content_items c) (ANode b (ANSelector a) e)) /\
    (forall t, s_tag s = Explicit t ->
      (exists a r, o = Some a /\ source_tag a = Explicit (FromSource r) /\ t = FromSource r) \/
      (exists n, t = Provided n /\ given_name cfg n /\ forall a r, o = Some a -> source_tag a <> Explicit (FromSource r))) /\
    (uninferred s = true -> forall a r, o = Some a -> source_tag a <> Explicit (FromSource r)) /\
    exists m l, sel_attrs slc xml s = match o with Some a => source_attrs slc xml a | None => [] end ++ m ++ l /\
      (m <> [] -> c_metadata cfg <> None) /\ Forall (fun a => In (fst a) names) m /\ NoDup (map fst m) /\ L0 l.

Notation S0 := (from_stage text_meta (fun l => l = [])).
Notation S1 := (from_stage (text_meta ++ elt_meta) (fun l => l = [])).
Notation S2 := (from_stage (text_meta ++ elt_meta) (lang_attrs slc cfg)).

Lemma stage_empty : forall n, S0 (sel_empty n).
Proof.
  intros n. exists None. split; [discriminate|]. split; [discriminate|]. split; [discriminate|]. exists [], []. repeat split; auto; constructor.
Qed.
Lemma stage_impl : forall n1 n2 (L1 L2 : _ -> Prop) s, incl n1 n2 -> (forall l, L1 l -> L2 l) -> from_stage n1 L1 s -> from_stage n2 L2 s.
Proof.
  intros n1 n2 L1 L2 s Hn HL (o & H1 & H2 & H3 & m & l & H4 & H5 & H6 & H7 & H8).
  exists o. split; [exact H1|]. split; [exact H2|]. split; [exact H3|]. exists m, l. repeat split; auto.
  eapply Forall_impl; [|exact H6]. intros a. apply Hn.
Qed.
Lemma meta_name_plain : forall n, In n (text_meta ++ elt_meta) -> decoded slc (Provided n) = n.
Proof.
  intros n H. cbn [text_meta elt_meta app In] in H. repeat (destruct H as [<-|H]; [reflexivity|]). destruct H.
Qed.
Lemma meta_pairs : forall names loc l, incl names (text_meta ++ elt_meta) -> meta_list names loc l ->
  let p := map (fun a => pair_of slc xml (a_name a) (Doc.a_value a)) l in
  Forall (fun a => In (fst a) names) p /\ NoDup (map fst p).
Proof.
  intros names loc l HI [HL HN] p. subst p.
  assert (map fst (map (fun a => pair_of slc xml (a_name a) (Doc.a_value a)) l) = map (as_str slc) (map a_name l)) as EM.
  { rewrite !map_map. clear HN. induction HL as [|a l (n & v & -> & Hn & _) HL IH]; [reflexivity|]. cbn [map]. f_equal; [|exact IH].
    cbn [meta_attr a_name pair_of fst as_str]. apply meta_name_plain. now apply HI. }
  split.
  - assert (Forall (fun n => In n names) (map (as_str slc) (map a_name l))) as HF.
    { clear HN EM. induction HL as [|a l (n & v & -> & Hn & _) HL IH]; constructor; [exact Hn|exact IH]. }
    rewrite <- EM in HF. rewrite Forall_map in HF. exact HF.
  - rewrite EM. assert (forall x, In x (map a_name l) -> exists n, x = Provided n) as HP.
    { intros x Hx. apply in_map_iff in Hx as (a & <- & Ha). rewrite Forall_forall in HL. destruct (HL a Ha) as (n & v & -> & _). now exists n. }
    clear EM HL HI. induction HN as [|x l0 Hx HN IH]; cbn [map]; constructor.
    + intros Hi. apply in_map_iff in Hi as (y & Ey & Hy). destruct (HP x (or_introl eq_refl)) as [n ->].
      destruct (HP y (or_intror Hy)) as [n' ->]. cbn [as_str] in Ey. subst n'. contradiction.
    + apply IH. intros y Hy. apply HP. now right.
Qed.
Lemma stage_add : forall names names' s loc l, incl names' (text_meta ++ elt_meta) -> c_metadata cfg <> None ->
  (forall n, In n names -> In n names' -> False) ->
  from_stage names (fun l => l = []) s -> meta_list names' loc l -> from_stage (names ++ names') (fun l => l = []) (add_attrs s loc l).
Proof.
  intros names names' s loc l HI HC HD (o & H1 & H2 & H3 & m & l0 & H4 & H5 & H6 & H7 & ->) HL.
  pose proof (meta_pairs names' loc l HI HL) as [HP HQ].
  exists o. split; [exact H1|]. assert (s_tag (add_attrs s loc l) = s_tag s) as ET by (destruct l; reflexivity).
  unfold uninferred. rewrite ET. split; [exact H2|]. split; [exact H3|].
  exists (m ++ map (fun a => pair_of slc xml (a_name a) (Doc.a_value a)) l), [].
  rewrite sel_attrs_add, H4, !app_nil_r, !app_assoc. repeat split; auto.
  - apply Forall_app. split; [eapply Forall_impl; [|exact H6]|eapply Forall_impl; [|exact HP]]; intros a Ha; apply in_or_app; auto.
  - rewrite map_app. clear -H6 H7 HP HQ HD. induction m as [|a m IH]; [exact HQ|]. cbn [map app] in *. inversion H7; inversion H6; subst.
    constructor; [|auto]. intros Hi. apply in_app_or in Hi as [Hi|Hi]; [contradiction|].
    apply in_map_iff in Hi as (b & Eb & Hb). rewrite Forall_forall in HP. apply (HD (fst a)); [assumption|]. rewrite <- Eb. now apply HP.
Qed.

Theorem from_transform : forall cr ns out,
  Forall (TreeAll (fun e => Forall S0 (e_selectors e) /\ special_bare e) (fun _ => True)) ns ->
  transform_document slc cfg cr ns = Some out -> Forall (SelsT S2 (fun _ => True)) out.
Proof.
  intros cr ns out. apply (tree_transform slc cfg S0 S1 S2 (fun _ => True) (given_name cfg) (fun _ => True)); auto using stage_empty.
  - intros cc g fi la k t _ H. left. destruct cc, k; cbn [name_for in_section always] in H;
    repeat match type of H with
    | context [match ?x with _ => _ end] => destruct x; cbn [name_for in_section always] in H
    end; try discriminate; injection H as <-; cbn; tauto.
  - intros HC. apply Forall_forall. intros t Ht. right. right. left. auto.
  - intros HC. apply Forall_forall. intros t Ht. right. right. right. split; [exact HC|]. cbn in *. tauto.
  - intros k. right. left. exists k. now right.
  - intros s t U Ht (o & H1 & H2 & H3 & H4). exists o. split; [exact H1|]. split; [|split; [discriminate|exact H4]].
    cbn [s_tag]. intros t' E. injection E as <-. right. exists t. repeat split; auto.
  - intros k t Hk. right. right. left. exists k. now left.
  - intros HC loc l Hl.
    apply (stage_impl ([] ++ text_meta) text_meta (fun l => l = []) (fun l => l = [])); [apply incl_refl|auto|].
    eapply stage_add; [apply incl_appl, incl_refl|congruence|intros n []| |exact Hl].
    exists None. split; [discriminate|]. split.
    + cbn. intros t E. injection E as <-. right. exists (L "mty:text"). split; [reflexivity|]. split; [|discriminate].
      right. right. right. split; [exact HC|]. cbn. tauto.
    + split; [discriminate|]. exists [], []. repeat split; auto; constructor.
  - intros HC s loc l Hs Hl. eapply stage_add; [apply incl_appr, incl_refl|exact HC| |exact Hs|exact Hl].
    intros n H1 H2. cbn in H1, H2. destruct H1 as [<-|[<-|[]]]; repeat (destruct H2 as [H2|H2]; [discriminate|]); destruct H2.
  - intros s. apply stage_impl; [apply incl_appl, incl_refl|auto].
  - intros s loc l El (o & H1 & H2 & H3 & m & l0 & H4 & H5 & H6 & H7 & ->).
    exists o. split; [exact H1|]. split; [exact H2|]. split; [exact H3|]. exists m, [(L "lang", Some (decoded slc (Provided l)))].
    repeat split; auto.
    + destruct s as [r t items]. unfold lang_attr. cbn [s_range s_tag s_items]. rewrite sel_attrs_app, H4, !app_nil_r, <- !app_assoc. reflexivity.
    + right. eauto.
  - intros s. apply stage_impl; [apply incl_refl|]. intros l ->. now left.
Qed.

Definition from_item (i : a_item) : Prop := forall b s e, Occurs [i] (ANode b (ANSelector s) e) ->
  exists b e, Occurs (content_items c) (ANode b (ANSelector s) e).
Theorem from_build : Clean (from_ast slc c) (Forall (TreeAll (PE S0) (fun _ => True))).
Proof.
  apply (from_ast_items slc from_item S0 (fun _ => True)); try (intros; exact I).
  - exact stage_empty.
  - intros sp s t e H. apply Forall_forall. intros i Hi b s' e' Ho. apply (H b s' e'). eapply occurs_kid; eauto.
  - intros sp b s e H.
    eapply clean_impl; [apply clean_and; [apply selector_built|apply selector_written_built]|].
    intros v ((_ & Ht & _) & Hw). exists (Some s). split; [|split; [|split]].
    + intros a E. injection E as <-. apply (H b s e). eapply OcHere. now left.
    + intros t E. left. rewrite Ht in E. unfold source_tag in *. destruct (as_first s) as [a|[[r|r]|] cl] eqn:EF; try discriminate.
      injection E as <-. exists s, r. rewrite EF. auto.
    + intros U a r E HT. injection E as <-. rewrite <- Ht in HT. unfold uninferred in U. now rewrite HT in U.
    + exists [], []. rewrite !app_nil_r. split; [now apply built_attrs|]. repeat split; auto; constructor.
  - intros sp b e n. destruct e as [r|bk|il|[k o cc cl|r]]; intros; exact I.
  - apply Forall_forall. intros i Hi b s e Ho. exists b, e. eapply occurs_item; eauto.
Qed.
End From.

Theorem document_from : forall E (parse : str -> a_content + E) src cfg ns c, parse src = inl c ->
  document_of parse src cfg [] ns ->
  Forall (TreeAll (fun e => forall t s, elt_tag (source_slice src) (e_selectors e) = Some (t, s) ->
    tag_from (source_slice src) (is_xml cfg) cfg c t (sel_attrs (source_slice src) (is_xml cfg) s)) (fun _ => True)) ns.
Proof.
  intros E parse src cfg ns c HP HD. pose proof (document_single _ _ _ _ _ _ HD) as HS.
  apply (document_built _ parse src cfg ns (Forall (TreeAll (PE (from_stage src cfg c text_meta (fun l => l = []))) (fun _ => True))))
    in HD as (c' & tree & HP' & HC & HT).
  2:{ intros c' HP'. rewrite HP in HP'. injection HP' as <-. apply from_build. }
  pose proof (from_transform src cfg c _ _ _ (built_bare _ _ _ HC) HT) as H1.
  rewrite Forall_forall in *. intros n Hn. pose proof (TreeAll_and _ _ _ _ _ (H1 n Hn) (HS n Hn)) as H2.
  eapply TreeAll_impl; [| |exact H2]; [|auto]. intros e [He Ho] t s Et.
  destruct (one_tag src e t s Ho Et) as (_ & Hi & Hn' & Hx). rewrite Forall_forall in He.
  destruct (He s Hi) as (o & F1 & F2 & F3 & m & l & F4 & F5 & F6 & F7 & F8).
  destruct (s_tag s) as [x| |x] eqn:ES; cbn [tag_name] in *; try congruence.
  exists o. split; [exact F1|]. split.
  - destruct (F2 x eq_refl) as [(a & r & -> & Ha & ->)|(n' & -> & G & Ha)].
    + left. exists a, r. rewrite <- (Hx _ eq_refl). auto.
    + right. rewrite <- (Hx _ eq_refl). auto.
  - exists m, l. rewrite F4. repeat split; auto. eapply Forall_impl; [|exact F6]. intros a. cbn. tauto.
Qed.

(** ** Each attribute once *)
Lemma tag_distinct : forall slc xml cfg c n attrs, distinct_source slc xml cfg c -> tag_from slc xml cfg c n attrs ->
  distinct_attrs xml attrs.
Proof.
  intros slc xml cfg c n attrs HD (o & HO & _ & m & l & -> & (M1 & M2 & M3) & HL).
  assert (forall n, In n metadata_names -> attr_key xml n = n) as HK.
  { intros x Hx. unfold attr_key. destruct xml; [reflexivity|]. cbn [metadata_names In] in Hx.
    repeat (destruct Hx as [<-|Hx]; [reflexivity|]). destruct Hx. }
  assert (attr_key xml (L "lang") = L "lang") as HKL by (unfold attr_key; destruct xml; reflexivity).
  assert (map (fun a : str * option str => attr_key xml (fst a)) m = map fst m) as EM.
  { apply map_ext_Forall. eapply Forall_impl; [|exact M2]. intros a. apply HK. }
  set (base := match o with Some a => source_attrs slc xml a | None => [] end) in *.
  assert (distinct_attrs xml base /\ (c_metadata cfg <> None -> forall n, In n metadata_names -> ~ has_attr xml n base) /\
    (c_lang cfg <> None -> ~ has_attr xml (L "lang") base)) as (B1 & B2 & B3).
  { subst base. destruct o as [a|]; [|split; [constructor|split; intros; intros []]].
    destruct (HO a eq_refl) as (b & e & H). exact (HD b a e H). }
  assert (HN : distinct_attrs xml (m ++ l)).
  { unfold distinct_attrs. rewrite map_app, EM. destruct HL as [->|(v & _ & ->)]; [now rewrite app_nil_r|].
    cbn [map fst]. rewrite HKL. assert (~ In (L "lang") (map fst m)) as Hn.
    { intros Hi. apply in_map_iff in Hi as (a & Ea & Ha). rewrite Forall_forall in M2. specialize (M2 a Ha). rewrite Ea in M2.
      cbn in M2. repeat (destruct M2 as [M2|M2]; [discriminate|]). destruct M2. }
    clear -M3 Hn. induction M3 as [|x k Hx M3 IH]; cbn [app]; [repeat constructor; auto|]. constructor.
    - intros Hi. apply in_app_or in Hi as [Hi|[<-|[]]]; [contradiction|]. apply Hn. now left.
    - apply IH. intros Hi. apply Hn. now right. }
  assert (HX : forall k, In k (map (fun a : str * option str => attr_key xml (fst a)) base) ->
    In k (map (fun a : str * option str => attr_key xml (fst a)) (m ++ l)) -> False).
  { intros k Hk Hi. rewrite map_app, EM in Hi. apply in_app_or in Hi as [Hi|Hi].
    - assert (m <> []) as Hm by (intros ->; destruct Hi). assert (In k metadata_names) as Hkm.
      { apply in_map_iff in Hi as (a & <- & Ha). rewrite Forall_forall in M2. now apply M2. }
      apply (B2 (M1 Hm) k Hkm). unfold has_attr. now rewrite HK.
    - destruct HL as [->|(v & Hv & ->)]; [destruct Hi|]. destruct Hi as [<-|[]]. apply B3; [congruence|]. exact Hk. }
  unfold distinct_attrs in *. rewrite map_app. clear -B1 HN HX.
  induction B1 as [|x k Hx B1 IH]; cbn [app]; [exact HN|]. constructor.
  - intros Hi. apply in_app_or in Hi as [Hi|Hi]; [contradiction|]. apply (HX x); [now left|exact Hi].
  - apply IH. intros y Hy. apply HX. now right.
Qed.

(** ** Opening tags that a reader of the output finds *)
Lemma merged_open : forall is acc n a sc, In (IOpen n a sc) (merge_from acc is) -> In (IOpen n a sc) is.
Proof.
  assert (forall acc n a sc, ~ In (IOpen n a sc) (flush acc)) as HF.
  { intros [|x acc] n a sc; cbn [flush]; [intros []|]. intros [H|[]]. discriminate. }
  induction is as [|i is IH]; intros acc n a sc H; cbn [merge_from] in H; [now apply HF in H|].
  destruct i; try (apply in_app_or in H as [H|[H|H]]; [now apply HF in H|left; exact H|right; eapply IH; exact H]).
  right. eapply IH. exact H.
Qed.
Lemma shown_open : forall lay es is n a sc, Shows lay es is -> In (IOpen n a sc) is -> In (XItem (IOpen n a sc)) es.
Proof.
  intros lay es is n a sc H. induction H as [|i es is H IH|w es is H IH|w w' es is Hw H IH|w es is Hl Hw H IH]; intros Hi.
  - destruct Hi.
  - destruct Hi as [->|Hi]; [now left|right; auto].
  - right. auto.
  - destruct Hi as [Hi|Hi]; [discriminate|right; auto].
  - destruct Hi as [Hi|Hi]; [discriminate|auto].
Qed.
Lemma tree_open : forall slc xml (P : str -> list (str * option str) -> Prop) nm a sc n,
  TreeAll (fun e => forall t s, elt_tag slc (e_selectors e) = Some (t, s) -> P t (sel_attrs slc xml s)) (fun _ => True) n ->
  In (XItem (IOpen nm a sc)) (tree_items slc xml n) -> P nm a.
Proof.
  intros slc xml P nm a sc. induction n as [r e IH|r t] using node_ind'; intros H Hi.
  - inversion H as [? ? He Hk|]; subst. cbn [tree_items] in Hi.
    assert (In (XItem (IOpen nm a sc)) (flat_map (tree_items slc xml) (e_nodes e)) -> P nm a) as HC.
    { intros Hx. apply in_flat_map in Hx as (x & Hx & Hx'). rewrite Forall_forall in *. eapply IH; eauto. }
    destruct (elt_tag slc (e_selectors e)) as [[t s]|] eqn:ET; [|auto].
    destruct (xml && is_nil (e_nodes e)).
    + destruct Hi as [Hi|[]]. injection Hi as <- <- <-. now apply He.
    + destruct Hi as [Hi|Hi]; [injection Hi as <- <- <-; now apply He|].
      apply in_app_or in Hi as [Hi|Hi]; [auto|]. destruct (negb xml && html_void_name t); [destruct Hi|].
      destruct Hi as [Hi|[]]. discriminate.
  - cbn [tree_items] in Hi. destruct t as [t|s|s]; destruct Hi as [Hi|[]]; discriminate.
Qed.
Lemma doc_open : forall slc xml page (P : str -> list (str * option str) -> Prop) nm a sc ns,
  Forall (TreeAll (fun e => forall t s, elt_tag slc (e_selectors e) = Some (t, s) -> P t (sel_attrs slc xml s)) (fun _ => True)) ns ->
  In (XItem (IOpen nm a sc)) (doc_items slc xml page ns) -> P nm a.
Proof.
  intros slc xml page P nm a sc ns H Hi. unfold doc_items in Hi. apply in_app_or in Hi as [Hi|Hi].
  - destruct page; [|destruct Hi]. destruct Hi as [Hi|[Hi|[]]]; discriminate.
  - apply in_flat_map in Hi as (n & Hn & Hi). rewrite Forall_forall in H. eapply tree_open; [|exact Hi]. auto.
Qed.

(** ** Selectors that occur, as a list (for examples) *)
Definition selectors_of : a_content -> list a_selector := content_marks (fun s => [s]) (fun _ _ => []).
Lemma marks_kids : forall X (f : a_selector -> list X) g s t e i x, In i (type_items t) -> In x (node_marks f g (snd i)) ->
  In x (node_marks f g (ANode s t e)).
Proof.
  intros X f g s t e i x Hi Hx. destruct t as [m|t|sl|el]; try destruct Hi. cbn [type_items] in Hi.
  destruct el as [r|b|il|[k o c cl|r]]; cbn [element_items] in Hi; try destruct Hi; cbn [node_marks].
  - unfold content_items in Hi. apply in_flat_map in Hi as (ln & Hl & Hi). apply in_flat_map. exists ln. split; [exact Hl|].
    apply in_flat_map. eauto.
  - apply in_flat_map. eauto.
  - unfold content_items in Hi. apply in_flat_map in Hi as (ln & Hl & Hi). apply in_flat_map. exists ln. split; [exact Hl|].
    apply in_flat_map. eauto.
Qed.
Lemma occurs_selector : forall c b s e, Occurs (content_items c) (ANode b (ANSelector s) e) -> In s (selectors_of c).
Proof.
  intros c b s e H.
  assert (forall n x, Occurs (content_items c) n -> In x (node_marks (fun s => [s]) (fun _ _ => []) n) -> In x (selectors_of c)) as HM.
  { intros n x Ho. induction Ho as [sp n Hn|s' t e' sp n Ho IH Hn]; intros Hx.
    - unfold selectors_of, content_marks, content_items in *. apply in_flat_map in Hn as (ln & Hl & Hi). apply in_flat_map.
      exists ln. split; [exact Hl|]. unfold items_marks. apply in_flat_map. eauto.
    - apply IH. eapply marks_kids; [exact Hn|exact Hx]. }
  eapply HM; [exact H|]. now left.
Qed.

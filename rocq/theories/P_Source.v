(** * Facts about the output of [convert], from facts about the source. *)

From Verif Require Import Base Escape OutText Doc Ast Config Errors Build Output Infer Transform Convert Grammar
  SpecEscape SpecMarkup SpecHtml SpecTree SpecInfer SpecTransform SpecBuild SpecSource SpecErrors SpecWhole
  P_Base P_Build P_BuildAll P_Infer P_InferProps P_Layout P_Convert P_Trees P_Inside.

(** ** Every element of the document has at most one selector *)
Notation One := (TreeAll one_sel (fun _ => True)).

Lemma one_meta_sels : forall el outer e root oi sels i,
  length (fst (meta_sels el outer e root oi i sels)) = length sels.
Proof.
  intros el outer e root oi sels. induction sels as [|s l IH]; intros i; cbn [meta_sels]; [reflexivity|].
  specialize (IH (S i)). destruct (meta_sels el outer e root oi (S i) l) as [rest cr]. cbn [fst] in IH.
  destruct (uninferred s && negb el); cbn; now f_equal.
Qed.
Lemma one_handle : forall el r e root, one_sel e -> one_sel (handle_element el r e root).
Proof.
  intros el r e root H. unfold handle_element. destruct (_ && _); [exact H|].
  unfold one_sel in *. cbn [with_selectors e_selectors]. rewrite one_meta_sels. destruct (e_selectors e); [|exact H].
  destruct (negb _); cbn; lia.
Qed.
Lemma one_meta : forall el n root, One n -> One (meta_node el root n).
Proof.
  intros el. induction n as [r e IH|r t] using node_ind'; intros root H.
  - inversion H as [? ? He Hk|]; subst. cbn [meta_node]. constructor.
    + apply (one_handle el r e root) in He. exact He.
    + cbn. apply Forall_map. rewrite Forall_forall in *. intros x Hx. apply IH; [exact Hx|now apply Hk].
  - cbn [meta_node]. destruct t as [t|s|s]; [destruct (el && negb (t_raw t))|destruct el|]; try exact H.
    + constructor; [apply one_handle; unfold one_sel; cbn; lia|]. rewrite handle_nodes. repeat constructor.
    + constructor; [apply one_handle; unfold one_sel; cbn; lia|]. rewrite handle_nodes. repeat constructor.
Qed.
Lemma one_lang_sels : forall l sels, length (lang_sels l sels) = length sels.
Proof. intros l sels. induction sels as [|s ss IH]; cbn [lang_sels]; [reflexivity|]. destruct (uninferred s); cbn; congruence. Qed.
Lemma one_lang : forall l n, One n -> One (lang_node l n).
Proof.
  intros l [r e|r t] H; [|exact H]. inversion H as [? ? He Hk|]; subst. cbn [lang_node]. constructor; [|exact Hk].
  unfold one_sel in *. cbn. now rewrite one_lang_sels.
Qed.
Theorem transform_single : forall slc cfg cr ns out, transform_document slc cfg cr ns = Some out -> Forall One out.
Proof.
  intros slc cfg cr ns out E. unfold transform_document in E.
  match type of E with (match infer slc ?x with _ => _ end = _) => set (ns1 := x) in E end.
  destruct (infer slc ns1) as [ns2|] eqn:EI; [|discriminate]. apply infer_single in EI. injection E as <-.
  assert (forall ns3, Forall One ns3 -> Forall One (apply_lang (c_lang cfg) ns3)) as HL.
  { intros ns3 H. unfold apply_lang. destruct (c_lang cfg) as [l|]; [|exact H]. apply Forall_map.
    eapply Forall_impl; [|exact H]. intros n. apply one_lang. }
  apply HL. destruct (c_metadata cfg) as [el|]; [|exact EI]. apply Forall_map. eapply Forall_impl; [|exact EI].
  intros n. apply one_meta.
Qed.
Theorem document_single : forall E (parse : str -> a_content + E) src cfg d ns,
  document_of parse src cfg d ns -> Forall One ns.
Proof. intros E parse src cfg d ns (c & tree & _ & _ & H). eapply transform_single. exact H. Qed.
Lemma one_single : forall ns, Forall One ns -> Forall Single ns.
Proof. intros ns H. eapply Forall_impl; [|exact H]. intros n. apply TreeAll_impl; [apply one_sel_single|auto]. Qed.

(** ** Spaces and indentation *)
Theorem convert_spaces_exact : forall parse src cfg out, c_indent cfg = None ->
  convert parse source_slice src cfg = Some (inl out) ->
  exists ns ps, document_of parse src cfg [] ns /\
    PiecesL (source_slice src) (is_xml cfg) false (trim_spaces ns) ps /\
    out = (if match c_complete_page cfg with Some b => b | None => false end
           then L "<!DOCTYPE html>" ++ [10] else []) ++ spaced true ps.
Proof.
  intros parse src cfg out Hi H. apply convert_document in H as (ns & Hd & Ho).
  destruct (output_no_indent (source_slice src) cfg Hi ns out) as (ps & H1 & H2); [|exact Ho|].
  - eapply one_single, document_single. exact Hd.
  - exists ns, ps. auto.
Qed.


Lemma prepare_fail : forall parse src cfg e, prepare parse source_slice src cfg (errors_new cfg) = (e, Fail) ->
  to_convert_error e <> None.
Proof.
  intros parse src cfg e E ET. unfold prepare, document_parse in E. destruct (parse src) as [c|pe].
  - unfold bind in E. destruct (from_ast _ c _) as [e1 [v| |]] eqn:E1; try discriminate.
    + unfold ret in E. destruct (transform_document _ _ _ _); discriminate.
    + injection E as <-. pose proof (from_ast_ff (source_slice src) c none eq_refl) as F.
      unfold errors_new in E1. destruct (from_ast _ c none) as [e2 [v| |]] eqn:E2; [|contradiction|].
      * destruct F as (d & -> & F). destruct (match c_fail_fast cfg with Some b => b | None => false end).
        -- change (mkErrs true [] [] false) with (set_ff none) in E1. destruct F as [[_ F]|(d1 & d2 & _ & Hd & F)];
             rewrite E1 in F; [discriminate|]. injection F as ->. unfold to_convert_error in ET. cbn in ET.
           destruct d1; [now elim Hd|discriminate].
        -- fold none in E1. rewrite E1 in E2. discriminate.
      * pose proof (from_ast_total (source_slice src) c none eq_refl) as T. rewrite E2 in T. discriminate.
  - unfold bind, syntax in E. cbn in E. destruct (_ && _) in E; injection E as <-; discriminate.
Qed.

Theorem convert_indent : forall parse src cfg ind, (forall i, ind = Some i -> all_ws i) ->
  (forall i, c_indent cfg = Some i -> all_ws i) ->
  match convert parse source_slice src cfg, convert parse source_slice src (with_indent cfg ind) with
  | Some (inl o), Some (inl o') =>
      exists ns ps p p', document_of parse src cfg [] ns /\
        PiecesL (source_slice src) (is_xml cfg) false (trim_spaces ns) ps /\
        let doctype := if match c_complete_page cfg with Some b => b | None => false end
                       then L "<!DOCTYPE html>" ++ [10] else [] in
        o = doctype ++ p /\ o' = doctype ++ p' /\ Laid ps p /\ Laid ps p'
  | a, b => a = b
  end.
Proof.
  intros parse src cfg ind Hi Hc.
  unfold convert. unfold convert_to_internal.
  change (errors_new (with_indent cfg ind)) with (errors_new cfg).
  change (prepare parse source_slice src (with_indent cfg ind)) with (prepare parse source_slice src cfg).
  destruct (prepare parse source_slice src cfg (errors_new cfg)) as [e [ns| |]] eqn:EP; [| |reflexivity].
  2:{ apply prepare_fail in EP. destruct (to_convert_error e); [reflexivity|congruence]. }
  apply prepare_document in EP as (E1 & E2 & E3). rewrite !orb_false_r in *.
  destruct e as [ff s se u]. cbn [er_syntax er_semantic er_unknown] in *. subst se u.
  destruct s as [|x s]; [|reflexivity]. cbn.
  pose proof (one_single _ (document_single _ _ _ _ _ _ E1)) as HS.
  destruct (indent_only_space (source_slice src) cfg ns HS) as (ps & Hps & H1).
  pose proof (H1 ind Hi) as [HA HB]. pose proof (H1 (c_indent cfg) Hc) as [_ HB'].
  assert (with_indent cfg (c_indent cfg) = cfg) as EC by now destruct cfg. rewrite EC in HB'.
  destruct (output_html (source_slice src) cfg ns) as [o ok].
  destruct (output_html (source_slice src) (with_indent cfg ind) ns) as [o' ok'].
  cbn [fst snd] in *. subst ok'. destruct ok; [|reflexivity]. cbn.
  destruct (HB eq_refl) as (q' & -> & Hq'). destruct (HB' eq_refl) as (q & -> & Hq).
  exists ns, ps, q, q'. repeat split; auto.
Qed.

(** ** From the builder to the document *)
Lemma document_built : forall E (parse : str -> a_content + E) src cfg ns (Q : list node -> Prop),
  (forall c, parse src = inl c -> Clean (from_ast (source_slice src) c) Q) -> document_of parse src cfg [] ns ->
  exists c tree, parse src = inl c /\ Q tree /\ transform_document (source_slice src) cfg (mkR (ct_start c) (ct_end c)) tree = Some ns.
Proof.
  intros E parse src cfg ns Q HQ (c & tree & HP & HB & HT). exists c, tree. split; [exact HP|]. split; [|exact HT].
  pose proof (HQ c HP none eq_refl) as HC. unfold builds in HB. fold none in HB. rewrite HB in HC.
  destruct HC as (d' & Ed & HC). apply HC. unfold none, add_errs in Ed. cbn in Ed. now injection Ed as <-.
Qed.
Lemma built_bare : forall PS PT ns, Forall (TreeAll (PE PS) PT) ns ->
  Forall (TreeAll (fun e => Forall PS (e_selectors e) /\ special_bare e) PT) ns.
Proof.
  intros PS PT ns H. eapply Forall_impl; [|exact H]. intros n. apply TreeAll_impl; [|auto].
  intros e (H1 & _ & _ & H2). split; [exact H1|]. unfold built_type, special_bare in *. destruct (e_type e) as [|d|d|k|[]|]; auto.
  now destruct k.
Qed.

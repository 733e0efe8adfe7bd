(** * The exact layout of the output (C67). *)
From Verif Require Import Base Escape OutText Doc Config Output SpecMarkup SpecHtml SpecTree SpecLayout
  P_Base P_OutText P_Read P_Output P_Layout.

Scheme Marks_mut := Minimality for Marks Sort Prop
  with MarksL_mut := Minimality for MarksL Sort Prop.
Combined Scheme Marks_both from Marks_mut, MarksL_mut.

Lemma own_inline : forall e, own_lines e = negb (format_inline e).
Proof. intros e. unfold own_lines, format_inline. destruct (e_format_inline e), (e_type e) as [|[]|[[]|]|[]|[]|]; reflexivity. Qed.

Section Exist.
Variable slc : lrange -> str.
Variable xml : bool.
Lemma marks_exist : forall n d own raw, exists ms, Marks slc xml d own raw n ms.
Proof.
  induction n as [r e IH|r t] using node_ind'; intros d own raw.
  - assert (forall d own raw, exists ms, MarksL slc xml d own raw (trim_spaces (e_nodes e)) ms) as HL.
    { intros d' own' raw'. rewrite trim_spaces_eq.
      assert (Forall (fun n => forall d own raw, exists ms, Marks slc xml d own raw n ms) (trim_by is_space (e_nodes e))) as H by now apply trim_Forall.
      clear IH. induction H as [|n ns Hn H IH]; [eexists; constructor|]. destruct (Hn d' own' raw') as [ps Hps], IH as [qs Hqs]. eexists. constructor; eauto. }
    destruct (elt_tag slc (e_selectors e)) as [[t s]|] eqn:Et.
    + assert (e_nodes e = [] \/ e_nodes e <> []) as [En|En] by (destruct (e_nodes e); [now left|right; discriminate]); [destruct (bool_cases xml) as [Ex|Ex]|].
      * eexists. eapply MkSelfClosed; eauto.
      * destruct (HL d false (raw || e_raw e)) as [ms Hms]. eexists. eapply MkLine; eauto.
      * destruct (own_lines e) eqn:Eo.
        -- destruct (HL (deeper t d) true (raw || e_raw e)) as [ms Hms]. eexists. eapply MkLines; eauto.
        -- destruct (HL d false (raw || e_raw e)) as [ms Hms]. eexists. eapply MkLine; eauto.
    + destruct (HL d (own_lines e) (raw || e_raw e)) as [ms Hms]. eexists. apply MkUnnamed; eauto.
  - destruct t as [t|s|s].
    + destruct (slice_is_empty (t_slice t)) eqn:E; eexists; [now apply MkEmpty|now apply MkText].
    + eexists. apply MkComment.
    + destruct s as [| |s]; eexists; [apply MkBreak; auto|apply MkBreak; auto|apply MkInline].
Qed.
Lemma marksL_exist : forall ns d own raw, exists ms, MarksL slc xml d own raw ns ms.
Proof.
  induction ns as [|n ns IH]; intros d own raw; [eexists; constructor|].
  destruct (marks_exist n d own raw) as [ms H], (IH d own raw) as [ms' H']. eexists. constructor; eauto.
Qed.
Lemma marks_unique :
  (forall d own raw n ms, Marks slc xml d own raw n ms -> forall ms', Marks slc xml d own raw n ms' -> ms = ms') /\
  (forall d own raw ns ms, MarksL slc xml d own raw ns ms -> forall ms', MarksL slc xml d own raw ns ms' -> ms = ms').
Proof.
  apply Marks_both.
  - intros d own raw r t E ms' H. inversion H; subst; congruence.
  - intros d own raw r t E ms' H. inversion H; subst; congruence.
  - intros d own raw r s ms' H. inversion H; subst; congruence.
  - intros d own raw r s ms' H. inversion H as [| | | |? ? ? ? ? Hs| | | |]; subst; [reflexivity|]. destruct Hs; discriminate.
  - intros d own raw r s Hs ms' H. inversion H; subst; [destruct Hs; discriminate|reflexivity].
  - intros d own raw r e ms Et _ IH ms' H. inversion H; subst; try congruence. now apply IH.
  - intros d own raw r e t s Et Hx En ms' H. inversion H; subst; try congruence. intuition congruence.
  - intros d own raw r e t s ms Et Hx Ho _ IH ms' H. inversion H; subst; try congruence; [intuition congruence| |intuition congruence].
    rewrite Et in *. match goal with E : Some _ = Some _ |- _ => injection E as <- <- end. now rewrite (IH _ ltac:(eassumption)).
  - intros d own raw r e t s ms Et Ho En _ IH ms' H. inversion H; subst; try congruence; [intuition congruence|].
    rewrite Et in *. match goal with E : Some _ = Some _ |- _ => injection E as <- <- end. now rewrite (IH _ ltac:(eassumption)).
  - intros d own raw ms' H. now inversion H.
  - intros d own raw n ns ms ms0 _ IH1 _ IH2 ms' H. inversion H; subst. now rewrite (IH1 _ ltac:(eassumption)), (IH2 _ ltac:(eassumption)).
Qed.
End Exist.

Section P.
Variable slc : lrange -> str.
Variable cfg : config.
Notation xml := (is_xml cfg).
Notation ind := (c_indent cfg).

(** A named element; the environments are known. *)
Lemma element_envs : forall v e content t s fs o f,
  single_tag e -> elt_tag slc (e_selectors e) = Some (t, s) ->
  process_element slc cfg v e content fs = (o, f, true) ->
  (e_nodes e = [] /\ xml = true /\ o = open_text slc xml t s true /\ f = false) \/
  ((xml = false \/ e_nodes e <> []) /\
   exists o2 f2,
     o = open_text slc xml t s false ++ o2 ++ (if negb xml && html_void_name t then [] else close_text t) /\
     f = (if negb xml && html_void_name t then f2 else false) /\
     ((e_nodes e = [] /\ o2 = [] /\ f2 = false) \/
      e_nodes e <> [] /\ exists b1 b2 b3 f1 f2', o2 = b1 ++ b2 ++ b3 /\
        let v1 := enter v e in let v2 := indented cfg v1 (if tag_is_root t then 0 else 1) in
        line cfg v2 false = (b1, f1, true) /\ content v2 f1 = (b2, f2', true) /\ line cfg v1 f2' = (b3, f2, true))).
Proof.
  intros v e content t s fs o f Hst Htag H. unfold process_element in H.
  rewrite (valid_tags_single slc e Hst), Htag in H. cbn zeta in H.
  apply andthen_ok in H as (o1 & f1 & k1 & H1 & H & ->).
  apply andthen_ok in H as (o2 & f2 & o3 & H2 & H & ->).
  cbn [open_tags] in H1. apply open_text_out in H1 as [-> ->].
  assert (is_nil (e_nodes e) && xml = false ->
          o3 = (if negb xml && html_void_name t then [] else close_text t) /\
          f = (if negb xml && html_void_name t then f2 else false)) as Hclose.
  { intros E. rewrite E in H. unfold close_tags in H. cbn [rev skipn app map fst negb andb] in H.
    rewrite void_names_ok in H. apply seqW_cons_ok in H as (a & fa & b & Ha & Hb & ->).
    cbn in Hb. apply nop_ok in Hb as [-> ->]. rewrite app_nil_r.
    destruct (negb xml && html_void_name t); cbn [negb] in Ha.
    - now wsteps.
    - now apply close_tag_mark in Ha. }
  destruct (e_nodes e) as [|n0 ns0] eqn:En; cbn [is_nil andb] in *.
  - wsteps. destruct (bool_cases xml) as [Ex|Ex]; rewrite Ex in *.
    + left. cbn in H. wsteps. rewrite app_nil_r. auto.
    + right. split; [auto|]. destruct (Hclose eq_refl) as [-> ->]. exists [], false.
      repeat split. auto.
  - right. split; [right; congruence|].
    apply andthen_ok in H2 as (b1 & g1 & c1 & L1 & H2 & ->).
    apply andthen_ok in H2 as (b2 & g2 & b3 & C & L3 & ->).
    destruct (Hclose eq_refl) as [-> ->].
    exists (b1 ++ b2 ++ b3), f2. split; [reflexivity|]. split; [reflexivity|]. right.
    split; [congruence|]. exists b1, b2, b3, g1, g2. split; [reflexivity|]. cbn zeta.
    unfold last_is_root in *. cbn [rev app] in *. auto.
Qed.

Lemma line_typeset : forall v fs o f ms, v_inline v = false -> line cfg v fs = (o, f, true) -> typeset ind fs (Edge (v_level v) :: ms) = o ++ typeset ind f ms.
Proof.
  intros v fs o f ms Hi H. unfold line, line_ in H. rewrite Hi, orb_false_r in H. cbn [typeset]. destruct ind as [i|].
  - destruct fs; wsteps; [reflexivity|]. now rewrite app_nil_r.
  - destruct fs; wsteps; reflexivity.
Qed.

Lemma typeset_both :
  (forall d own raw n ms, Marks slc xml d own raw n ms -> forall v fs o f, Single n -> v_raw v = raw -> v_inline v = negb own -> (is_some ind = true -> v_level v = d) ->
     process_node slc cfg v n fs = (o, f, true) ->
     forall rest, typeset ind fs (ms ++ rest) = o ++ typeset ind f rest) /\
  (forall d own raw ns ms, MarksL slc xml d own raw ns ms -> forall v fs o f, Forall Single ns -> v_raw v = raw -> v_inline v = negb own -> (is_some ind = true -> v_level v = d) ->
     seqW (map (process_node slc cfg v) ns) fs = (o, f, true) ->
     forall rest, typeset ind fs (ms ++ rest) = o ++ typeset ind f rest).
Proof.
  apply Marks_both.
  - intros d own raw r t E v fs o f _ Hv Ho Hl H rest. cbn [process_node] in H.
    pose proof (text_fs _ _ _ _ _ _ _ H) as Hf. rewrite E in Hf. apply text_exact in H; [|exact E].
    rewrite Hv in H. cbn [app typeset]. now rewrite Hf, H.
  - intros d own raw r t E v fs o f _ Hv Ho Hl H rest. cbn [process_node] in H. apply text_empty in H as [-> ->]; auto.
  - intros d own raw r s v fs o f _ Hv Ho Hl H rest. cbn [process_node] in H. unfold write_comment in H. wsteps.
    cbn [app typeset]. now rewrite app_nil_r, <- !app_assoc.
  - intros d own raw r s v fs o f _ Hv Ho Hl H rest. cbn [process_node] in H. unfold write_space in H.
    apply andthen_ok in H as (o1 & f1 & o2 & H & H2 & ->). apply set_fs_ok in H2 as [-> ->].
    rewrite app_nil_r. cbn [app typeset]. destruct fs; [wsteps; reflexivity|].
    apply andthen_ok in H as (o2 & f2 & o3 & H & H3 & ->). apply set_fs_ok in H3 as [-> ->].
    rewrite app_nil_r. destruct s as [t|]; wsteps; reflexivity.
  - intros d own raw r s Hs v fs o f _ Hv Ho Hl H rest. cbn [process_node] in H. unfold write_space in H.
    apply andthen_ok in H as (o1 & f1 & o2 & H & H2 & ->). apply set_fs_ok in H2 as [-> ->].
    rewrite app_nil_r. destruct fs.
    { wsteps. destruct own; reflexivity. }
    apply andthen_ok in H as (o2 & f2 & o3 & H & H3 & ->). apply set_fs_ok in H3 as [-> ->].
    rewrite app_nil_r.
    assert ((if negb (v_inline v) && is_some ind then line_ cfg v else emit (L " ")) false = (o2, f2, true)) as H' by now destruct Hs as [-> | ->].
    clear H. rewrite Ho, negb_involutive in H'. destruct own; cbn [andb app typeset] in *; [|wsteps; reflexivity].
    unfold line_ in H'. destruct ind as [i|]; cbn [is_some] in *; wsteps; [|reflexivity]. now rewrite app_nil_r, (Hl eq_refl).
  - intros d own raw r e ms Et _ IH v fs o f HS Hv Ho Hl H rest. apply Single_elt in HS as [Hst HS].
    rewrite process_node_elt in H. unfold process_element in H.
    rewrite (valid_tags_single slc e Hst), Et in H. unfold process_content in H.
    rewrite <- trim_spaces_eq in H. eapply IH; [ | | | |exact H].
    + rewrite trim_spaces_eq. now apply trim_Forall.
    + cbn. now rewrite Hv.
    + cbn. now rewrite own_inline, negb_involutive.
    + exact Hl.
  - intros d own raw r e t s Et Hx En v fs o f HS Hv Ho Hl H rest. apply Single_elt in HS as [Hst HS].
    rewrite process_node_elt in H.
    destruct (element_envs _ _ _ _ _ _ _ _ Hst Et H) as [(_ & _ & -> & ->)|([Hx'|Hx'] & _)]; [|congruence..].
    reflexivity.
  - intros d own raw r e t s ms Et Hx Hown _ IH v fs o f HS Hv Ho Hl H rest. apply Single_elt in HS as [Hst HS].
    rewrite process_node_elt in H.
    destruct (element_envs _ _ _ _ _ _ _ _ Hst Et H)
      as [(En & Hx' & _)|(_ & o2 & f2 & -> & -> & Hc)]; [destruct Hx; congruence|].
    cbn [app typeset]. rewrite <- !app_assoc. f_equal.
    assert (forall rest', typeset ind false (ms ++ rest') = o2 ++ typeset ind f2 rest') as Hps.
    { intros rest'. destruct Hc as [(En & -> & ->)|(En & b1 & b2 & b3 & f1 & f2' & -> & L1 & C & L3)].
      - rewrite En in IH. cbn in IH.
        apply (IH (mkEnv d true (raw || e_raw e)) false [] false); [constructor|reflexivity..|reflexivity].
      - destruct Hown as [Hown|Hown]; [|congruence]. rewrite own_inline in Hown. apply negb_false_iff in Hown.
        unfold indented, enter in L1, C, L3. cbn [v_inline] in L1, C, L3. rewrite Hown in L1, C, L3. cbn [negb andb] in L1, C.
        unfold line in L1, L3. cbn [v_inline] in L1, L3. rewrite orb_true_r in L1, L3. wsteps. cbn [app]. rewrite app_nil_r.
        unfold process_content in C. rewrite <- trim_spaces_eq in C.
        eapply IH; [ | | | |exact C].
        + rewrite trim_spaces_eq. now apply trim_Forall.
        + cbn. now rewrite Hv.
        + reflexivity.
        + exact Hl. }
    rewrite Hps. destruct (negb xml && html_void_name t); cbn [app typeset]; reflexivity.
  - intros d own raw r e t s ms Et Hown En _ IH v fs o f HS Hv Ho Hl H rest. apply Single_elt in HS as [Hst HS].
    rewrite process_node_elt in H.
    destruct (element_envs _ _ _ _ _ _ _ _ Hst Et H)
      as [(En' & _)|(_ & o2 & f2 & -> & -> & [(En' & _)|(_ & b1 & b2 & b3 & f1 & f2' & -> & L1 & C & L3)])]; try congruence.
    rewrite own_inline in Hown. apply negb_true_iff in Hown.
    set (v2 := indented cfg (enter v e) (if tag_is_root t then 0 else 1)) in *.
    assert (v_inline v2 = false /\ v_raw v2 = raw || e_raw e /\ (is_some ind = true -> v_level v2 = deeper t d)) as (I1 & I2 & I3).
    { unfold v2, indented, enter. cbn [v_inline]. rewrite Hown. cbn [negb andb]. destruct (is_some ind) eqn:Ei; cbn [v_inline v_raw v_level]; rewrite ?Hv; repeat split; auto; try discriminate.
      intros _. rewrite (Hl eq_refl). unfold deeper, tag_is_root, eq_ignore_case. change (lower (L "html")) with (L "html").
      destruct (str_eqb (lower t) (L "html")); lia. }
    cbn [app]. rewrite <- !app_assoc. cbn [typeset]. f_equal. cbn [app].
    assert (forall d' v' fs o f ms, (is_some ind = true -> v_level v' = d') -> typeset ind fs (Edge (v_level v') :: ms) = o ++ typeset ind f ms -> typeset ind fs (Edge d' :: ms) = o ++ typeset ind f ms) as HE.
    { intros d' v' fs' o' f' ms' Hd. cbn [typeset]. destruct ind; [|auto]. now rewrite Hd. }
    change (typeset ind false (Edge (deeper t d) :: ms ++ (Edge d :: (if negb xml && html_void_name t then [] else [Ink (close_text t) false])) ++ rest) = b1 ++ b2 ++ b3 ++ (if negb xml && html_void_name t then [] else close_text t) ++ typeset ind (if negb xml && html_void_name t then f2 else false) rest).
    rewrite (HE (deeper t d) v2 false b1 f1 _ I3 (line_typeset v2 false b1 f1 _ I1 L1)). f_equal.
    unfold process_content in C. rewrite <- trim_spaces_eq in C.
    rewrite (IH v2 f1 b2 f2' ltac:(rewrite trim_spaces_eq; now apply trim_Forall) I2 I1 I3 C). f_equal. cbn [app].
    rewrite (HE d (enter v e) f2' b3 f2 _ Hl (line_typeset (enter v e) f2' b3 f2 _ Hown L3)). f_equal.
    destruct (negb xml && html_void_name t); reflexivity.
  - intros d own raw v fs o f _ _ _ _ H rest. cbn in H. wsteps. reflexivity.
  - intros d own raw n ns ms ms' _ IH1 _ IH2 v fs o f HS Hv Ho Hl H rest. cbn [map] in H.
    apply seqW_cons_ok in H as (o1 & f1 & o2 & H1 & H2 & ->).
    inversion HS as [|? ? HSn HSns]; subst.
    rewrite <- !app_assoc.
    rewrite (IH1 _ _ _ _ HSn eq_refl Ho Hl H1), (IH2 _ _ _ _ HSns eq_refl Ho Hl H2). reflexivity.
Qed.

Theorem output_typeset : forall ns o ms, Forall Single ns -> MarksL slc xml 0 true false (trim_spaces ns) ms ->
  output_html slc cfg ns = (o, true) ->
  o = (if match c_complete_page cfg with Some b => b | None => false end then L "<!DOCTYPE html>" ++ [10] else []) ++ typeset ind true (ms ++ [Edge 0]).
Proof.
  intros ns o ms HS Hms H.
  unfold output_html in H. cbn zeta in H.
  match type of H with match ?x with _ => _ end = _ => destruct x as [[o' f'] ok] eqn:E end.
  injection H as -> ->.
  apply andthen_ok in E as (o1 & f1 & k & H1 & E & ->).
  apply andthen_ok in E as (o2 & f2 & o3 & H2 & H3 & ->).
  assert (f1 = true /\ o1 = (if match c_complete_page cfg with Some b => b | None => false end then L "<!DOCTYPE html>" ++ [10] else [])) as [-> ->].
  { destruct (c_complete_page cfg) as [[|]|]; [apply emit_ok in H1 as [-> ->]|apply nop_ok in H1 as [-> ->]..]; now split. }
  unfold process_content in H2. rewrite <- trim_spaces_eq in H2.
  rewrite (proj2 typeset_both _ _ _ _ _ Hms (mkEnv 0 false false) _ _ _ (ltac:(rewrite trim_spaces_eq; now apply trim_Forall)) eq_refl eq_refl (fun _ => eq_refl) H2).
  pose proof (line_typeset (mkEnv 0 false false) f2 o3 f' [] eq_refl H3) as EL. cbn [v_level] in EL. rewrite EL. clear EL. cbn [typeset]. now rewrite app_nil_r.
Qed.
End P.

(** * Exact white space: with and without indentation. *)
From Coq Require Import ZifyBool ZifyNat ZifyN.
From Verif Require Import Base Escape OutText Doc Config Output SpecMarkup SpecHtml SpecTree
  P_Base P_OutText P_Read P_Output.

Scheme Pieces_mut := Minimality for Pieces Sort Prop
  with PiecesL_mut := Minimality for PiecesL Sort Prop.
Combined Scheme Pieces_both from Pieces_mut, PiecesL_mut.

Lemma drop_spaces_eq : forall ns, drop_spaces ns = drop_while is_space ns.
Proof.
  induction ns as [|n ns IH]; [reflexivity|]. destruct n as [r e|r [t|s|s]]; cbn; auto.
Qed.
Lemma trim_spaces_eq : forall ns, trim_spaces ns = trim_by is_space ns.
Proof. intros. unfold trim_spaces, trim_by. now rewrite !drop_spaces_eq. Qed.

Lemma pieces_exist : forall slc xml n raw, exists ps, Pieces slc xml raw n ps.
Proof.
  intros slc xml. induction n as [r e IH|r t] using node_ind'; intros raw.
  - assert (forall raw', exists ps, PiecesL slc xml raw' (trim_spaces (e_nodes e)) ps) as HL.
    { intros raw'. rewrite trim_spaces_eq.
      assert (Forall (fun n => forall raw, exists ps, Pieces slc xml raw n ps) (trim_by is_space (e_nodes e))) as H
        by now apply trim_Forall.
      clear IH. induction H as [|n ns Hn H IH].
      - exists []. constructor.
      - destruct (Hn raw') as [ps Hps], IH as [qs Hqs]. exists (ps ++ qs). now constructor. }
    destruct (HL (raw || e_raw e)) as [ps Hps].
    destruct (elt_tag slc (e_selectors e)) as [[t s]|] eqn:Et.
    + assert ((xml = true /\ e_nodes e = []) \/ (xml = false \/ e_nodes e <> [])) as [[Hx En]|Hx].
      { destruct xml; [|auto]. destruct (e_nodes e); [auto|right; right; discriminate]. }
      * eexists. eapply PcSelfClosed; eauto.
      * eexists. eapply PcNamed; eauto.
    + eexists. apply PcUnnamed; eauto.
  - destruct t as [t|s|s].
    + destruct (slice_is_empty (t_slice t)) eqn:E; eexists; [now apply PcEmpty|now apply PcText].
    + eexists. apply PcComment.
    + eexists. apply PcSpace.
Qed.

Lemma piecesL_exist : forall slc xml raw ns, exists ps, PiecesL slc xml raw ns ps.
Proof.
  induction ns as [|n ns [qs IH]]; [eexists; constructor|].
  destruct (pieces_exist slc xml n raw) as [ps H]. eexists. constructor; eauto.
Qed.

Definition Single : node -> Prop := TreeAll single_tag (fun _ => True).

Lemma Single_elt : forall r e, Single (NElt r e) -> single_tag e /\ Forall Single (e_nodes e).
Proof. intros r e H. inversion H; subst. auto. Qed.

Section P.
Variable slc : lrange -> str.
Variable cfg : config.
Let xml := is_xml cfg.

Lemma attr_text_eq : forall a, attr_text xml a = attr_out cfg a.
Proof.
  intros [n [v|]]; unfold attr_text, attr_out; cbn [fst snd]; [|reflexivity].
  rewrite esc_str_flat. reflexivity.
Qed.

Lemma open_text_out : forall t s sc fs o f, write_open_tag slc cfg t s sc fs = (o, f, true) ->
  o = open_text slc xml t s sc /\ f = false.
Proof.
  intros t s sc fs o f H. apply open_tag_out in H as [-> ->]. split; [|reflexivity].
  unfold open_text. do 3 f_equal. fold xml.
  generalize (sel_attrs slc xml s) as l. induction l as [|a l IH]; [reflexivity|].
  cbn [flat_map]. now rewrite attr_text_eq, <- IH.
Qed.

Lemma text_fs : forall v t fs o f, write_text slc cfg v t fs = (o, f, true) ->
  f = if slice_is_empty (t_slice t) then fs else text_blank slc t.
Proof.
  intros v t fs o f H. unfold write_text in H. unfold text_blank, text_pieces.
  destruct (slice_is_empty (t_slice t)); [now wsteps|].
  destruct (t_multiline t); cbn zeta in H;
    apply andthen_ok in H as (o1 & f1 & o2 & H & H2 & ->); apply set_fs_ok in H2 as [-> ->]; reflexivity.
Qed.

Lemma text_exact : forall v t fs o f, write_text slc cfg v t fs = (o, f, true) ->
  slice_is_empty (t_slice t) = false ->
  o = (if written_raw xml (v_raw v) t then text_value slc t else esc_str xml false (text_value slc t)).
Proof.
  intros v t fs o f H _. apply text_out in H. rewrite esc_str_flat. exact H.
Qed.

Lemma text_empty : forall v t fs o f, write_text slc cfg v t fs = (o, f, true) ->
  slice_is_empty (t_slice t) = true -> o = [] /\ f = fs.
Proof. intros v t fs o f H E. unfold write_text in H. rewrite E in H. now wsteps. Qed.

(** A named element, exactly. *)
Lemma element_exact : forall v e content t s fs o f,
  single_tag e -> elt_tag slc (e_selectors e) = Some (t, s) ->
  process_element slc cfg v e content fs = (o, f, true) ->
  (e_nodes e = [] /\ xml = true /\ o = open_text slc xml t s true /\ f = false) \/
  ((xml = false \/ e_nodes e <> []) /\
   exists o2 f2,
     o = open_text slc xml t s false ++ o2 ++ (if negb xml && html_void_name t then [] else close_text t) /\
     f = (if negb xml && html_void_name t then f2 else false) /\
     ((e_nodes e = [] /\ o2 = [] /\ f2 = false) \/
      e_nodes e <> [] /\ exists b1 b2 b3 v1 v2 f1 f2', o2 = b1 ++ b2 ++ b3 /\
        line cfg v2 false = (b1, f1, true) /\ content v2 f1 = (b2, f2', true) /\
        line cfg v1 f2' = (b3, f2, true) /\ v_raw v2 = v_raw v || e_raw e)).
Proof.
  intros v e content t s fs o f Hst Htag H. unfold process_element in H.
  rewrite (valid_tags_single slc e Hst), Htag in H. cbn zeta in H.
  apply andthen_ok in H as (o1 & f1 & k1 & H1 & H & ->).
  apply andthen_ok in H as (o2 & f2 & o3 & H2 & H & ->).
  cbn [open_tags] in H1. fold xml in H1, H2, H. apply open_text_out in H1 as [-> ->].
  assert (is_nil (e_nodes e) && xml = false ->
          o3 = (if negb xml && html_void_name t then [] else close_text t) /\
          f = (if negb xml && html_void_name t then f2 else false)) as Hclose.
  { intros E. rewrite E in H. unfold close_tags in H. cbn [rev skipn app map fst negb andb] in H.
    rewrite void_names_ok in H. apply seqW_cons_ok in H as (a & fa & b & Ha & Hb & ->).
    cbn in Hb. apply nop_ok in Hb as [-> ->]. rewrite app_nil_r. fold xml in Ha.
    destruct (negb xml && html_void_name t); cbn [negb] in Ha.
    - now wsteps.
    - now apply close_tag_mark in Ha. }
  destruct (e_nodes e) as [|n0 ns0] eqn:En; cbn [is_nil andb] in *.
  - wsteps. destruct (bool_cases xml) as [Ex|Ex]; rewrite Ex in *.
    + left. cbn in H. wsteps. rewrite app_nil_r. auto.
    + right. split; [auto|]. destruct (Hclose eq_refl) as [-> ->]. exists [], false.
      repeat split. auto.
  - right. split; [right; congruence|].
    apply andthen_ok in H2 as (b1 & g1 & c1 & L1 & H2 & ->).
    apply andthen_ok in H2 as (b2 & g2 & b3 & C & L3 & ->).
    destruct (Hclose eq_refl) as [-> ->].
    exists (b1 ++ b2 ++ b3), f2. split; [reflexivity|]. split; [reflexivity|]. right.
    split; [congruence|]. eexists b1, b2, b3, _, _, _, _. repeat split; eauto.
    unfold indented, enter. cbn [v_inline v_level v_raw].
    destruct (negb (format_inline e) && is_some (c_indent cfg)); reflexivity.
Qed.

(** ** Without indentation *)
Section NoIndent.
Hypothesis no_indent : c_indent cfg = None.

Lemma line_none : forall v fs, line cfg v fs = ([], fs, true).
Proof. intros v fs. unfold line, line_. rewrite no_indent. destruct (fs || v_inline v); reflexivity. Qed.

Lemma spaced_both :
  (forall raw n ps, Pieces slc xml raw n ps -> forall v fs o f, Single n -> v_raw v = raw ->
     process_node slc cfg v n fs = (o, f, true) ->
     forall rest, spaced fs (ps ++ rest) = o ++ spaced f rest) /\
  (forall raw ns ps, PiecesL slc xml raw ns ps -> forall v fs o f, Forall Single ns -> v_raw v = raw ->
     seqW (map (process_node slc cfg v) ns) fs = (o, f, true) ->
     forall rest, spaced fs (ps ++ rest) = o ++ spaced f rest).
Proof.
  apply Pieces_both.
  - intros raw r t E v fs o f _ Hv H rest. cbn [process_node] in H.
    pose proof (text_fs _ _ _ _ _ H) as Hf. rewrite E in Hf. apply text_exact in H; [|exact E].
    rewrite Hv in H. cbn [app spaced]. now rewrite Hf, H.
  - intros raw r t E v fs o f _ Hv H rest. cbn [process_node] in H. apply text_empty in H as [-> ->]; auto.
  - intros raw r s v fs o f _ Hv H rest. cbn [process_node] in H. unfold write_comment in H. wsteps.
    cbn [app spaced]. now rewrite app_nil_r, <- !app_assoc.
  - intros raw r s v fs o f _ Hv H rest. cbn [process_node] in H. unfold write_space in H.
    rewrite no_indent in H. cbn [is_some] in H. rewrite andb_false_r in H.
    apply andthen_ok in H as (o1 & f1 & o2 & H & H2 & ->). apply set_fs_ok in H2 as [-> ->].
    rewrite app_nil_r. cbn [app spaced]. destruct fs; [wsteps; reflexivity|].
    apply andthen_ok in H as (o2 & f2 & o3 & H & H3 & ->). apply set_fs_ok in H3 as [-> ->].
    rewrite app_nil_r. destruct s as [| |[t|]]; wsteps; reflexivity.
  - intros raw r e ps Et _ IH v fs o f HS Hv H rest. apply Single_elt in HS as [Hst HS].
    rewrite process_node_elt in H. unfold process_element in H.
    rewrite (valid_tags_single slc e Hst), Et in H. unfold process_content in H.
    rewrite <- trim_spaces_eq in H. eapply IH; eauto.
    + rewrite trim_spaces_eq. now apply trim_Forall.
    + cbn. now rewrite Hv.
  - intros raw r e t s Et Hx En v fs o f HS Hv H rest. apply Single_elt in HS as [Hst HS].
    rewrite process_node_elt in H.
    destruct (element_exact _ _ _ _ _ _ _ _ Hst Et H) as [(_ & _ & -> & ->)|([Hx'|Hx'] & _)]; [|congruence..].
    reflexivity.
  - intros raw r e t s ps Et Hx _ IH v fs o f HS Hv H rest. apply Single_elt in HS as [Hst HS].
    rewrite process_node_elt in H.
    destruct (element_exact _ _ _ _ _ _ _ _ Hst Et H)
      as [(En & Hx' & _)|(_ & o2 & f2 & -> & -> & Hc)]; [destruct Hx; congruence|].
    cbn [app spaced]. rewrite <- !app_assoc. f_equal.
    assert (forall rest', spaced false (ps ++ rest') = o2 ++ spaced f2 rest') as Hps.
    { intros rest'. destruct Hc as [(En & -> & ->)|(_ & b1 & b2 & b3 & v1 & v2 & f1 & f2' & -> & L1 & C & L3 & Hv2)].
      - rewrite En in IH. cbn in IH.
        apply (IH (mkEnv 0 false (raw || e_raw e)) false [] false); [constructor|reflexivity|reflexivity].
      - rewrite line_none in L1, L3. injection L1 as <- <-. injection L3 as <- ->.
        cbn [app]. rewrite app_nil_r. unfold process_content in C. rewrite <- trim_spaces_eq in C.
        eapply IH; [|  |exact C].
        + rewrite trim_spaces_eq. now apply trim_Forall.
        + now rewrite Hv2, Hv. }
    rewrite Hps. destruct (negb xml && html_void_name t); cbn [app spaced]; reflexivity.
  - intros raw v fs o f _ _ H rest. cbn in H. wsteps. reflexivity.
  - intros raw n ns ps qs _ IH1 _ IH2 v fs o f HS Hv H rest. cbn [map] in H.
    apply seqW_cons_ok in H as (o1 & f1 & o2 & H1 & H2 & ->).
    inversion HS as [|? ? HSn HSns]; subst.
    rewrite <- !app_assoc.
    rewrite (IH1 _ _ _ _ HSn eq_refl H1), (IH2 _ _ _ _ HSns eq_refl H2). reflexivity.
Qed.

Theorem output_pieces : forall ns o ps, Forall Single ns -> PiecesL slc xml false (trim_spaces ns) ps ->
  output_html slc cfg ns = (o, true) ->
  o = (if match c_complete_page cfg with Some b => b | None => false end
       then L "<!DOCTYPE html>" ++ [10] else [])
      ++ spaced true ps.
Proof.
  intros ns o ps HS Hps H.
  unfold output_html in H. cbn zeta in H.
  match type of H with match ?x with _ => _ end = _ => destruct x as [[o' f'] ok] eqn:E end.
  injection H as -> ->.
  apply andthen_ok in E as (o1 & f1 & k & H1 & E & ->).
  apply andthen_ok in E as (o2 & f2 & o3 & H2 & H3 & ->).
  rewrite line_none in H3. injection H3 as <- ->. rewrite app_nil_r.
  unfold process_content in H2. rewrite <- trim_spaces_eq in H2.
  pose proof (proj2 spaced_both _ _ _ Hps (mkEnv 0 false false) _ _ _ (ltac:(rewrite trim_spaces_eq; now apply trim_Forall)) eq_refl H2 []) as E.
  cbn in E. rewrite !app_nil_r in E. rewrite <- E.
  destruct (c_complete_page cfg) as [[|]|]; wsteps; reflexivity.
Qed.

Theorem output_no_indent : forall ns o, Forall Single ns -> output_html slc cfg ns = (o, true) ->
  exists ps, PiecesL slc xml false (trim_spaces ns) ps /\
    o = (if match c_complete_page cfg with Some b => b | None => false end
         then L "<!DOCTYPE html>" ++ [10] else [])
        ++ spaced true ps.
Proof.
  intros ns o HS H. destruct (piecesL_exist slc xml false (trim_spaces ns)) as [ps Hps].
  exists ps. split; [exact Hps|]. now apply (output_pieces ns o ps).
Qed.
End NoIndent.

(** ** With any indentation *)
Section Indent.
Hypothesis indent_ws : forall ind, c_indent cfg = Some ind -> all_ws ind.

Lemma Laid_app : forall p o q o', Laid p o -> Laid q o' -> Laid (p ++ q) (o ++ o').
Proof.
  intros p o q o' H H'. induction H; cbn [app]; rewrite <- ?app_assoc; try (constructor; assumption).
  exact H'.
Qed.

Lemma line_laid : forall v fs o f, line cfg v fs = (o, f, true) -> Laid [] o.
Proof.
  intros v fs o f H. unfold line in H. destruct (fs || v_inline v); [wsteps; constructor|].
  apply line_out_ws in H as [(_ & H & _)|(_ & -> & _)]; [|constructor|exact indent_ws].
  rewrite <- (app_nil_r o). apply LdSpace; [exact H|constructor].
Qed.

Lemma space_laid : forall v s fs o f, (write_space slc cfg v s ;; set_fs true) fs = (o, f, true) ->
  Laid [Gap (space_value slc s)] o.
Proof.
  intros v s fs o f H. apply andthen_ok in H as (o1 & f1 & o2 & H & H2 & ->).
  apply set_fs_ok in H2 as [-> ->]. rewrite app_nil_r. unfold write_space in H.
  destruct fs; [wsteps; apply LdNoGap; constructor|].
  apply andthen_ok in H as (o2 & f2 & o3 & H & H3 & ->). apply set_fs_ok in H3 as [-> ->].
  assert (o2 = space_value slc s \/ all_ws o2) as [->|Hw].
  { destruct s as [| |[t|]]; try (wsteps; auto; fail);
      (destruct (negb (v_inline v) && is_some (c_indent cfg)) eqn:E; [|wsteps; auto]);
      (apply line_out_ws in H as [(Hl & Hw & _)|(Hl & -> & _)]; [auto|right; constructor|exact indent_ws]). }
  - apply LdGap. constructor.
  - apply LdNoGap. apply LdSpace; [exact Hw|constructor].
Qed.

Lemma Laid_solid1 : forall s b, Laid [Solid s b] s.
Proof. intros s b. rewrite <- (app_nil_r s) at 2. constructor. constructor. Qed.

Lemma laid_both :
  (forall raw n ps, Pieces slc xml raw n ps -> forall v fs o f, Single n -> v_raw v = raw ->
     process_node slc cfg v n fs = (o, f, true) -> Laid ps o) /\
  (forall raw ns ps, PiecesL slc xml raw ns ps -> forall v fs o f, Forall Single ns -> v_raw v = raw ->
     seqW (map (process_node slc cfg v) ns) fs = (o, f, true) -> Laid ps o).
Proof.
  apply Pieces_both.
  - intros raw r t E v fs o f _ Hv H. cbn [process_node] in H. apply text_exact in H; [|exact E].
    rewrite Hv in H. rewrite H. apply Laid_solid1.
  - intros raw r t E v fs o f _ Hv H. cbn [process_node] in H. apply text_empty in H as [-> ->]; [constructor|auto].
  - intros raw r s v fs o f _ Hv H. cbn [process_node] in H. unfold write_comment in H. wsteps.
    rewrite app_nil_r. apply Laid_solid1.
  - intros raw r s v fs o f _ Hv H. cbn [process_node] in H. now apply space_laid in H.
  - intros raw r e ps Et _ IH v fs o f HS Hv H. apply Single_elt in HS as [Hst HS].
    rewrite process_node_elt in H. unfold process_element in H.
    rewrite (valid_tags_single slc e Hst), Et in H. unfold process_content in H.
    rewrite <- trim_spaces_eq in H. eapply IH; eauto.
    + rewrite trim_spaces_eq. now apply trim_Forall.
    + cbn. now rewrite Hv.
  - intros raw r e t s Et Hx En v fs o f HS Hv H. apply Single_elt in HS as [Hst HS].
    rewrite process_node_elt in H.
    destruct (element_exact _ _ _ _ _ _ _ _ Hst Et H) as [(_ & _ & -> & ->)|([Hx'|Hx'] & _)]; [|congruence..].
    apply Laid_solid1.
  - intros raw r e t s ps Et Hx _ IH v fs o f HS Hv H. apply Single_elt in HS as [Hst HS].
    rewrite process_node_elt in H.
    destruct (element_exact _ _ _ _ _ _ _ _ Hst Et H)
      as [(En & Hx' & _)|(_ & o2 & f2 & -> & -> & Hc)]; [destruct Hx; congruence|].
    apply LdSolid. apply Laid_app.
    + destruct Hc as [(En & -> & ->)|(_ & b1 & b2 & b3 & v1 & v2 & f1 & f2' & -> & L1 & C & L3 & Hv2)].
      * rewrite En in IH. cbn in IH.
        apply (IH (mkEnv 0 false (raw || e_raw e)) false [] false); [constructor|reflexivity|reflexivity].
      * apply (Laid_app [] b1); [eapply line_laid; eauto|].
        rewrite <- (app_nil_r ps). apply Laid_app; [|eapply line_laid; eauto].
        unfold process_content in C. rewrite <- trim_spaces_eq in C.
        eapply IH; [|  |exact C].
        -- rewrite trim_spaces_eq. now apply trim_Forall.
        -- now rewrite Hv2, Hv.
    + destruct (negb xml && html_void_name t); [constructor|apply Laid_solid1].
  - intros raw v fs o f _ _ H. cbn in H. wsteps. constructor.
  - intros raw n ns ps qs _ IH1 _ IH2 v fs o f HS Hv H. cbn [map] in H.
    apply seqW_cons_ok in H as (o1 & f1 & o2 & H1 & H2 & ->).
    inversion HS as [|? ? HSn HSns]; subst. apply Laid_app; eauto.
Qed.

Theorem output_laid : forall ns o ps, Forall Single ns -> PiecesL slc xml false (trim_spaces ns) ps ->
  output_html slc cfg ns = (o, true) ->
  exists o', o = (if match c_complete_page cfg with Some b => b | None => false end
                  then L "<!DOCTYPE html>" ++ [10] else []) ++ o' /\ Laid ps o'.
Proof.
  intros ns o ps HS Hps H.
  unfold output_html in H. cbn zeta in H.
  match type of H with match ?x with _ => _ end = _ => destruct x as [[o' f'] ok] eqn:E end.
  injection H as -> ->.
  apply andthen_ok in E as (o1 & f1 & k & H1 & E & ->).
  apply andthen_ok in E as (o2 & f2 & o3 & H2 & H3 & ->).
  unfold process_content in H2. rewrite <- trim_spaces_eq in H2.
  pose proof (proj2 laid_both _ _ _ Hps (mkEnv 0 false false) _ _ _ (ltac:(rewrite trim_spaces_eq; now apply trim_Forall)) eq_refl H2) as E.
  exists (o2 ++ o3). split; [destruct (c_complete_page cfg) as [[|]|]; wsteps; reflexivity|].
  rewrite <- (app_nil_r ps). apply Laid_app; [exact E|]. eapply line_laid; eauto.
Qed.
End Indent.
End P.

(** ** Success does not depend on the indentation. *)
Definition with_indent (c : config) (i : option str) : config :=
  mkConfig i (c_xml c) (c_special c) (c_complete_page c) (c_lang c) (c_metadata c) (c_fail_fast c).

Definition Succ (a b : W) : Prop := forall f g, snd (a f) = snd (b g).

Lemma Succ_andthen : forall a b a' b', Succ a a' -> Succ b b' -> Succ (a ;; b) (a' ;; b').
Proof.
  intros a b a' b' Ha Hb f g. unfold andthen. specialize (Ha f g).
  destruct (a f) as [[o1 f1] ok1], (a' g) as [[o2 f2] ok2]. cbn in Ha. subst ok2.
  destruct ok1; [|reflexivity]. specialize (Hb f1 f2).
  destruct (b f1) as [[? ?] ?], (b' f2) as [[? ?] ?]. exact Hb.
Qed.
Lemma Succ_seq : forall l l', Forall2 Succ l l' -> Succ (seqW l) (seqW l').
Proof.
  intros l l' H. induction H; cbn [seqW]; [intros f g; reflexivity|]. now apply Succ_andthen.
Qed.
Lemma Succ_map : forall A (f g : A -> W) l, (forall x, In x l -> Succ (f x) (g x)) ->
  Forall2 Succ (map f l) (map g l).
Proof.
  induction l as [|x l IH]; intros H; cbn; constructor; [apply H; now left|].
  apply IH. intros y Hy. apply H. now right.
Qed.
Lemma Succ_const : forall a b, (forall f, snd (a f) = true) -> (forall f, snd (b f) = true) -> Succ a b.
Proof. intros a b H1 H2 f g. now rewrite H1, H2. Qed.
Lemma ok_andthen : forall a b, (forall f, snd (a f) = true) -> (forall f, snd (b f) = true) ->
  forall f, snd ((a ;; b) f) = true.
Proof.
  intros a b H1 H2 f. unfold andthen. specialize (H1 f). destruct (a f) as [[o1 f1] ok1]. cbn in H1. subst.
  specialize (H2 f1). destruct (b f1) as [[o2 f2] ok2]. exact H2.
Qed.

Lemma line__ok : forall c v f, snd (line_ c v f) = true.
Proof. intros c v f. unfold line_. destruct (c_indent c); reflexivity. Qed.
Lemma line_ok : forall c v f, snd (line c v f) = true.
Proof. intros c v f. unfold line. destruct (f || v_inline v); [reflexivity|apply line__ok]. Qed.
Lemma space_ok : forall slc c v s f, snd (write_space slc c v s f) = true.
Proof.
  intros slc c v s f. unfold write_space. destruct f; [reflexivity|].
  apply ok_andthen; [|reflexivity]. intros g.
  destruct s as [| |[t|]]; try reflexivity; destruct (_ && _); try reflexivity; apply line__ok.
Qed.

Section Indep.
Variable slc : lrange -> str.
Variables c1 c2 : config.
Hypothesis same_xml : is_xml c1 = is_xml c2.


Lemma Succ_open : forall t s sc, Succ (write_open_tag slc c1 t s sc) (write_open_tag slc c2 t s sc).
Proof.
  intros t s sc. unfold write_open_tag.
  apply Succ_andthen; [intros f g; reflexivity|].
  apply Succ_andthen.
  { destruct (sel_id s); [|intros f g; reflexivity].
    apply Succ_andthen; [intros f g; reflexivity|]. rewrite same_xml.
    apply Succ_andthen; intros f g; reflexivity. }
  apply Succ_andthen.
  { unfold write_classes. destruct (class_names s); [intros f g; reflexivity|]. rewrite same_xml.
    apply Succ_andthen; [intros f g; reflexivity|].
    apply Succ_andthen; [intros f g; reflexivity|].
    apply Succ_andthen; [|intros f g; reflexivity].
    apply Succ_seq, Succ_map. intros x _. apply Succ_andthen; intros f g; reflexivity. }
  apply Succ_andthen.
  { apply Succ_seq, Succ_map. intros [n v] _. unfold write_attribute. cbn [fst snd]. rewrite same_xml.
    apply Succ_andthen; [intros f g; reflexivity|].
    apply Succ_andthen; [intros f g; reflexivity|].
    destruct v; [|intros f g; destruct (is_xml c2); reflexivity].
    apply Succ_andthen; [intros f g; reflexivity|].
    apply Succ_andthen; intros f g; reflexivity. }
  intros f g. destruct sc; reflexivity.
Qed.

Lemma Succ_open_tags : forall b tags, Succ (open_tags slc c1 b tags) (open_tags slc c2 b tags).
Proof.
  induction tags as [|[t s] [|[t' s'] l] IH]; cbn [open_tags].
  - intros f g. reflexivity.
  - apply Succ_open.
  - apply Succ_andthen; [apply Succ_open|exact IH].
Qed.

Lemma Succ_close_tags : forall b tags, Succ (close_tags c1 b tags) (close_tags c2 b tags).
Proof.
  intros b tags. unfold close_tags. apply Succ_seq, Succ_map. intros [t s] _. cbn [fst].
  unfold tag_is_void. rewrite same_xml. destruct (_ && _); intros f g; reflexivity.
Qed.

Lemma Succ_text : forall v1 v2 t, v_raw v1 = v_raw v2 -> Succ (write_text slc c1 v1 t) (write_text slc c2 v2 t).
Proof.
  intros v1 v2 t Hv. unfold write_text. destruct (slice_is_empty (t_slice t)); [intros f g; reflexivity|].
  cbn zeta. rewrite same_xml, Hv.
  assert (forall un raw p, Succ (write_piece c1 un raw p) (write_piece c2 un raw p)) as Hp.
  { intros un raw p. unfold write_piece. rewrite same_xml. destruct un, raw; intros f g; reflexivity. }
  destruct (t_multiline t).
  - apply Succ_andthen; [|intros f g; reflexivity]. apply Succ_seq, Succ_map. auto.
  - apply Succ_andthen; [auto|intros f g; reflexivity].
Qed.

Lemma Succ_node : forall n v1 v2, v_raw v1 = v_raw v2 ->
  Succ (process_node slc c1 v1 n) (process_node slc c2 v2 n).
Proof.
  induction n as [r e IH|r t] using node_ind'; intros v1 v2 Hv.
  - rewrite !process_node_elt.
    assert (forall v1 v2, v_raw v1 = v_raw v2 ->
      Succ (process_content slc c1 v1 (e_nodes e)) (process_content slc c2 v2 (e_nodes e))) as Hc.
    { intros w1 w2 Hw. unfold process_content. apply Succ_seq, Succ_map. intros x Hx.
      apply (trim_Forall) in IH. rewrite Forall_forall in IH. auto. }
    unfold process_element. rewrite same_xml.
    assert (v_raw (enter v1 e) = v_raw (enter v2 e)) as He by (cbn; now rewrite Hv).
    destruct (valid_tags slc (e_selectors e)) as [|t0 ts]; [now apply Hc|].
    cbn zeta. apply Succ_andthen; [apply Succ_open_tags|].
    apply Succ_andthen; [|apply Succ_close_tags].
    destruct (is_nil (e_nodes e)); [intros f g; reflexivity|].
    apply Succ_andthen; [apply Succ_const; apply line_ok|].
    apply Succ_andthen; [|apply Succ_const; apply line_ok].
    apply Hc. unfold indented. destruct (_ && _), (_ && _); exact He.
  - destruct t as [t|s|s]; cbn [process_node].
    + now apply Succ_text.
    + intros f g. reflexivity.
    + apply Succ_andthen; [|intros f g; reflexivity]. apply Succ_const; apply space_ok.
Qed.

Lemma output_ok_indep : c_complete_page c1 = c_complete_page c2 -> forall ns,
  snd (output_html slc c1 ns) = snd (output_html slc c2 ns).
Proof.
  intros Hp ns. unfold output_html. cbn zeta. rewrite Hp.
  match goal with |- snd match ?a with _ => _ end = snd match ?b with _ => _ end =>
    assert (snd a = snd b) as E; [|destruct a as [[? ?] ?], b as [[? ?] ?]; exact E] end.
  apply Succ_andthen; [intros f g; destruct (c_complete_page c2) as [[|]|]; reflexivity|].
  apply Succ_andthen; [|apply Succ_const; apply line_ok].
  unfold process_content. apply Succ_seq, Succ_map. intros x _. now apply Succ_node.
Qed.

(** ** Inline content is not touched by indentation. *)
Definition AllInline : node -> Prop := TreeAll (fun e => format_inline e = true) (fun _ => True).

Lemma open_same : forall t s sc f, write_open_tag slc c1 t s sc f = write_open_tag slc c2 t s sc f.
Proof.
  intros. unfold write_open_tag, write_classes, write_attribute. now rewrite same_xml.
Qed.

Lemma andthen_ext : forall a a' b b', (forall f, a f = a' f) -> (forall f, b f = b' f) ->
  forall f, (a ;; b) f = (a' ;; b') f.
Proof.
  intros a a' b b' Ha Hb f. unfold andthen. rewrite Ha. destruct (a' f) as [[? ?] [|]]; [|reflexivity].
  now rewrite Hb.
Qed.
Lemma seq_map_ext : forall A (p q : A -> W) l, (forall x, In x l -> forall f, p x f = q x f) ->
  forall f, seqW (map p l) f = seqW (map q l) f.
Proof.
  induction l as [|x l IH]; intros H; [reflexivity|]. cbn [map seqW]. apply andthen_ext.
  - apply H. now left.
  - apply IH. intros y Hy. apply H. now right.
Qed.

Lemma inline_same : forall n v1 v2, AllInline n -> v_raw v1 = v_raw v2 ->
  v_inline v1 = true -> v_inline v2 = true ->
  forall f, process_node slc c1 v1 n f = process_node slc c2 v2 n f.
Proof.
  induction n as [r e IH|r t] using node_ind'; intros v1 v2 HI Hv Hi1 Hi2.
  - rewrite !process_node_elt. inversion HI as [? ? He Hall|]; subst.
    assert (forall v1 v2, v_raw v1 = v_raw v2 -> v_inline v1 = true -> v_inline v2 = true -> forall f,
      process_content slc c1 v1 (e_nodes e) f = process_content slc c2 v2 (e_nodes e) f) as Hc.
    { intros w1 w2 Hw Hw1 Hw2. unfold process_content. apply seq_map_ext. intros x Hx.
      apply (trim_Forall) in IH, Hall. rewrite Forall_forall in IH, Hall.
      apply IH; auto. apply Hall. exact Hx. }
    assert (v_raw (enter v1 e) = v_raw (enter v2 e)) as Er by (cbn; now rewrite Hv).
    unfold process_element. rewrite same_xml.
    destruct (valid_tags slc (e_selectors e)) as [|t0 ts]; [now apply Hc|]. cbn zeta.
    assert (forall k w, indented k (enter w e) (if last_is_root (t0 :: ts) then 0%nat else 1%nat) = enter w e) as Hin.
    { intros k w. unfold indented. cbn [enter v_inline]. now rewrite He. }
    rewrite !Hin.
    apply andthen_ext.
    { generalize (t0 :: ts) as tags. clear -same_xml.
      induction tags as [|[t s] [|[t' s'] l] IHt]; cbn [open_tags]; intros f.
      - reflexivity.
      - apply open_same.
      - apply andthen_ext; [apply open_same|exact IHt]. }
    apply andthen_ext.
    + destruct (is_nil (e_nodes e)); [reflexivity|].
      assert (forall k w g, line k (enter w e) g = nop g) as Hl.
      { intros k w g. unfold line. cbn [enter v_inline]. rewrite He, orb_true_r. reflexivity. }
      apply andthen_ext; [intros g; now rewrite !Hl|]. apply andthen_ext; [|intros g; now rewrite !Hl].
      now apply Hc.
    + unfold close_tags. apply seq_map_ext. intros [t s] _ g. cbn [fst]. unfold tag_is_void.
      rewrite same_xml. reflexivity.
  - destruct t as [t|s|s]; cbn [process_node].
    + intros f. unfold write_text, write_piece. now rewrite same_xml, Hv.
    + reflexivity.
    + apply andthen_ext; [|reflexivity]. intros f. unfold write_space. rewrite Hi1, Hi2. reflexivity.
Qed.
End Indep.

(** ** Corollaries used by the property theorems *)
Lemma void_and_self_closed : forall slc cfg v r e t s fs o f,
  single_tag e -> elt_tag slc (e_selectors e) = Some (t, s) ->
  process_node slc cfg v (NElt r e) fs = (o, f, true) ->
  if is_xml cfg && is_nil (e_nodes e)
  then o = open_text slc (is_xml cfg) t s true
  else exists inner,
       o = open_text slc (is_xml cfg) t s false ++ inner
           ++ (if negb (is_xml cfg) && html_void_name t then [] else close_text t)
       /\ (e_nodes e = [] -> inner = []).
Proof.
  intros slc cfg v r e t s fs o f Hst Et H. rewrite process_node_elt in H.
  destruct (element_exact _ _ _ _ _ _ _ _ _ _ Hst Et H) as [(En & Hx & -> & _)|(Hx & o2 & f2 & -> & _ & Hc)].
  - rewrite Hx, En. reflexivity.
  - assert (is_xml cfg && is_nil (e_nodes e) = false) as ->.
    { destruct Hx as [->|Hn]; [reflexivity|]. destruct (e_nodes e); [congruence|]. apply andb_false_r. }
    exists o2. split; [reflexivity|]. intros En.
    destruct Hc as [(_ & -> & _)|(Hn & _)]; [reflexivity|contradiction].
Qed.

Lemma html_void_name_spec : forall t, html_void_name t = true <-> In (lower t) html_void.
Proof.
  intros t. unfold html_void_name. rewrite existsb_exists. split.
  - intros (x & Hx & E). unfold eq_ignore_case in E. apply str_eqb_eq in E. rewrite E.
    assert (lower x = x) as -> by (cbn in Hx; repeat (destruct Hx as [<-|Hx]; [reflexivity|]); destruct Hx).
    exact Hx.
  - intros H. exists (lower t). split; [exact H|]. unfold eq_ignore_case. apply str_eqb_eq.
    cbn in H. repeat (destruct H as [<-|H]; [reflexivity|]). destruct H.
Qed.

Theorem indent_only_space : forall slc cfg ns, Forall Single ns ->
  exists ps, PiecesL slc (is_xml cfg) false (trim_spaces ns) ps /\
  forall ind, (forall i, ind = Some i -> all_ws i) ->
  snd (output_html slc (with_indent cfg ind) ns) = snd (output_html slc cfg ns) /\
  (snd (output_html slc cfg ns) = true ->
   exists o', fst (output_html slc (with_indent cfg ind) ns) =
     (if match c_complete_page cfg with Some b => b | None => false end
      then L "<!DOCTYPE html>" ++ [10] else []) ++ o' /\ Laid ps o').
Proof.
  intros slc cfg ns HS. destruct (piecesL_exist slc (is_xml cfg) false (trim_spaces ns)) as [ps Hps].
  exists ps. split; [exact Hps|]. intros ind Hi.
  assert (snd (output_html slc (with_indent cfg ind) ns) = snd (output_html slc cfg ns)) as E
    by (apply output_ok_indep; reflexivity).
  split; [exact E|]. intros Hok. rewrite Hok in E.
  destruct (output_html slc (with_indent cfg ind) ns) as [o ok] eqn:Eo. cbn [fst snd] in *. subst ok.
  exact (output_laid slc (with_indent cfg ind) Hi ns o ps HS Hps Eo).
Qed.

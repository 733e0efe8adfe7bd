(** * Proofs about metadata (C24, C25). *)

From Verif Require Import Base Escape Doc Config Infer Transform SpecMarkup SpecTree SpecInfer SpecTransform
  P_Base P_OutText P_Infer P_InferProps P_Transform.
From Coq Require Import Lia.

Lemma attr_value_cons : forall name loc n v l,
  attr_value name (meta_attr loc n v :: l) = if str_eqb n name then Some v else attr_value name l.
Proof. reflexivity. Qed.

Ltac eqbs := repeat match goal with
  | |- context [str_eqb ?a ?b] => let x := eval vm_compute in (str_eqb a b) in change (str_eqb a b) with x; cbv iota
  end.

(** ** The recorded attributes *)
Definition all_attrs (loc : N) (root raw : bool) (r cr : lrange) : list attribute :=
  ((if root then [meta_attr loc a_xmlns xmlns_uri] else []) ++ add_true loc a_rawname raw)
  ++ add_range loc a_start a_end r ++ add_range loc a_content_start a_content_end cr.

Lemma all_attrs_ok : forall loc root raw r cr, meta_attrs root r cr raw (all_attrs loc root raw r cr).
Proof.
  intros loc root raw r cr. unfold meta_attrs, all_attrs, recorded_range, recorded, add_range, add_true.
  destruct root, raw, (r_start r <=? r_end r), (r_start cr <=? r_end cr); cbn [app];
    (split; [repeat (constructor; [eexists _, _; split; [reflexivity|]; split; [reflexivity|];
       first [left; split; reflexivity|right; left; split; reflexivity|right; right; split; [cbn; tauto|apply dec_digit_chars]]|]); constructor|]);
    (split; [cbn [map a_name meta_attr]; repeat (constructor; [intros HI; repeat (destruct HI as [HI|HI]; [discriminate HI|]); destruct HI|]); constructor|]);
    rewrite ?attr_value_cons; eqbs; rewrite ?parse_dec_dec; repeat split; reflexivity.
Qed.

Section Meta.
Variable slc : lrange -> str.

Lemma handle_nil : forall r e root, e_selectors e = [] -> handle_element false r e root = e.
Proof. intros r e root H. unfold handle_element. rewrite H. reflexivity. Qed.
Lemma handle_unnamed : forall r e root s, e_selectors e = [s] -> uninferred s = true ->
  handle_element false r e root = e.
Proof. intros r e root s H U. unfold handle_element. rewrite H. cbn [existsb]. rewrite U. reflexivity. Qed.
Lemma handle_named : forall el r e root s, e_selectors e = [s] -> uninferred s = false ->
  handle_element el r e root =
  with_selectors e [add_attrs s (r_end (s_range s)) (all_attrs (r_end (s_range s)) root (e_raw e) r (e_crange e))].
Proof.
  intros el r e root s H U. unfold handle_element. rewrite H. cbn [existsb]. rewrite U. cbn [negb orb andb].
  assert ((if el then 0%nat else match first_inferred [s] with Some i => i | None => 0%nat end) = 0%nat) as ->.
  { cbn [first_inferred]. rewrite U. now destruct el. }
  cbn [meta_sels]. rewrite U. cbn [andb Nat.eqb fst]. reflexivity.
Qed.

Theorem meta_added : forall n root, TreeAll one_sel (fun _ => True) n ->
  MetaAdded root n (meta_node false root n).
Proof.
  induction n as [r e IH|r t] using node_ind'; intros root H.
  2:{ destruct t; constructor. }
  inversion H as [r' e' He Hns|]; subst. cbn [meta_node].
  assert (Forall2 (MetaAdded false) (e_nodes e) (map (meta_node false false) (e_nodes e))) as HK.
  { clear -IH Hns. induction IH as [|n l Hn _ IHl]; [constructor|]. inversion Hns; subst. constructor; auto. }
  unfold one_sel in He. destruct (e_selectors e) as [|s [|]] eqn:E; [| |cbn in He; lia].
  - rewrite handle_nil by exact E. apply MaUnnamed; [rewrite E; constructor|exact HK].
  - destruct (uninferred s) eqn:U.
    + rewrite (handle_unnamed r e root s E U). apply MaUnnamed; [rewrite E; repeat constructor; exact U|exact HK].
    + rewrite (handle_named false r e root s E U). unfold add_attrs.
      apply (MaNamed root r e (map (meta_node false false) (e_nodes e)) s (s_items s) []
               (all_attrs (r_end (s_range s)) root (e_raw e) r (e_crange e))
               (mkR (r_end (s_range s)) (r_end (s_range s)))); auto.
      * now rewrite app_nil_r.
      * apply all_attrs_ok.
Qed.

Lemma lang_added : forall lang root n n', MetaAdded root n n' ->
  MetaAdded root (lang_node lang n) (lang_node lang n').
Proof.
  intros lang root n n' H. destruct H as [r t|r e ns Hu HK|r e ns s a b l lr E U Ei Ha HK].
  - constructor.
  - cbn [lang_node]. assert (forall sels, Forall (fun s => uninferred s = true) sels -> lang_sels lang sels = sels) as A.
    { induction 1 as [|s rest Hs _ IHs]; [reflexivity|]. cbn [lang_sels]. now rewrite Hs, IHs. }
    change (e_selectors (with_nodes e ns)) with (e_selectors e). rewrite A by exact Hu.
    replace (with_selectors e (e_selectors e)) with e by now destruct e.
    change (with_selectors (with_nodes e ns) (e_selectors e)) with (with_nodes (with_selectors e (e_selectors e)) ns).
    replace (with_selectors e (e_selectors e)) with e by now destruct e. now apply MaUnnamed.
  - cbn [lang_node]. rewrite E. cbn [with_nodes with_content with_selectors e_selectors e_nodes e_range e_crange e_type
      e_format_inline e_raw lang_sels]. rewrite U.
    assert (uninferred match l with [] => s | _ => mkSel (s_range s) (s_tag s) (a ++ SAttrs lr l :: b) end = false) as ->
      by (destruct l; exact U).
    set (it := lang_attr (r_end (s_range s)) lang).
    pose proof (MaNamed root r (mkElt (e_range e) [mkSel (s_range s) (s_tag s) (s_items s ++ [it])] (e_crange e)
      (e_nodes e) (e_type e) (e_format_inline e) (e_raw e)) ns _ a (b ++ [it]) l lr eq_refl U) as M.
    cbn [s_items e_crange e_raw e_nodes s_range s_tag] in M. rewrite Ei, <- app_assoc in M. specialize (M eq_refl Ha HK).
    rewrite Ei, <- app_assoc.
    destruct l as [|x l]; cbn [s_range s_tag s_items].
    + rewrite Ei, <- app_assoc. exact M.
    + rewrite <- app_assoc. exact M.
Qed.

(** ** Recorded ranges, with or without metadata elements *)
Lemma records_named : forall r e s loc l0 kids,
  uninferred s = false ->
  Forall Records kids ->
  (exists root raw, l0 = all_attrs loc root raw r (e_crange e)) ->
  Records (NElt r (with_nodes (with_selectors e [add_attrs s loc l0]) kids)).
Proof.
  intros r e s loc l0 kids U HK (root & raw & ->).
  pose proof (all_attrs_ok loc root raw r (e_crange e)) as (_ & _ & H1 & H2 & _).
  apply (ReNamed r _ (add_attrs s loc (all_attrs loc root raw r (e_crange e)))); auto.
  - unfold add_attrs. destruct (all_attrs _ _ _ _ _); exact U.
  - cbn [with_nodes with_content with_selectors e_crange]. intros HV. unfold add_attrs.
    destruct (all_attrs loc root raw r (e_crange e)) as [|x l] eqn:E.
    + exfalso. unfold recorded_range in *. unfold valid_range in HV.
      destruct HV as [HV|HV]; [rewrite (proj2 (N.leb_le _ _) HV) in H1; destruct H1 as [H1 _]; discriminate|].
      rewrite (proj2 (N.leb_le _ _) HV) in H2; destruct H2 as [H2 _]; discriminate.
    + exists (s_items s), (mkR loc loc), (x :: l), []. auto.
Qed.

Lemma handle_el_nil : forall r e root, e_selectors e = [] ->
  handle_element true r e root =
  with_selectors e [add_attrs (mkSel (mkR (r_start r) (r_start r)) (Explicit (Provided (L "mty:element"))) [])
                      (r_start r) (all_attrs (r_start r) root (e_raw e) r (e_crange e))].
Proof. intros r e root H. unfold handle_element. rewrite H. reflexivity. Qed.
Lemma handle_el_unnamed : forall r e root s, e_selectors e = [s] -> uninferred s = true ->
  handle_element true r e root =
  with_selectors e [add_attrs (mkSel (s_range s) (Explicit (Provided (L "mty:element"))) (s_items s))
                      (r_end (s_range s)) (all_attrs (r_end (s_range s)) root (e_raw e) r (e_crange e))].
Proof.
  intros r e root s H U. unfold handle_element. rewrite H. cbn [existsb]. rewrite U. cbn [negb orb andb].
  cbn [meta_sels]. rewrite U. cbn [andb Nat.eqb negb fst s_range s_items s_tag]. reflexivity.
Qed.

Lemma with_nodes_same : forall e : element, with_nodes e (e_nodes e) = e.
Proof. now destruct e. Qed.

Theorem meta_records : forall el n root, TreeAll one_sel (fun _ => True) n -> Records (meta_node el root n).
Proof.
  intros el. induction n as [r e IH|r t] using node_ind'; intros root H.
  - inversion H as [r' e' He Hns|]; subst. cbn [meta_node].
    assert (Forall Records (map (meta_node el false) (e_nodes e))) as HK.
    { clear -IH Hns. induction IH as [|n l Hn _ IHl]; [constructor|]. inversion Hns; subst. cbn. constructor; auto. }
    unfold one_sel in He. destruct (e_selectors e) as [|s [|]] eqn:E; [| |cbn in He; lia].
    + destruct el.
      * rewrite handle_el_nil by exact E. apply records_named; eauto.
      * rewrite handle_nil by exact E. apply ReUnnamed; [cbn; rewrite E; constructor|exact HK].
    + destruct (uninferred s) eqn:U.
      * destruct el.
        -- rewrite (handle_el_unnamed r e root s E U). apply records_named; eauto.
        -- rewrite (handle_unnamed r e root s E U). apply ReUnnamed; [cbn; rewrite E; repeat constructor; exact U|exact HK].
      * rewrite (handle_named el r e root s E U). apply records_named; eauto.
  - destruct t as [t|s|s]; cbn [meta_node]; [destruct (el && negb (t_raw t)); [|constructor]|destruct el; [|constructor]|constructor].
    + assert (exists s, e_selectors (text_element r t) = [s] /\ uninferred s = false) as (s & E & U).
      { unfold text_element. cbn [e_selectors]. eexists. split; [reflexivity|]. unfold add_attrs. destruct (_ ++ _); reflexivity. }
      rewrite (handle_named el r _ root s E U).
      rewrite <- (with_nodes_same (with_selectors _ _)). apply records_named; eauto. repeat constructor.
    + assert (exists s', e_selectors (comment_element r s) = [s'] /\ uninferred s' = false) as (s' & E & U)
        by (eexists; split; reflexivity).
      rewrite (handle_named _ r _ root s' E U).
      rewrite <- (with_nodes_same (with_selectors _ _)). apply records_named; eauto. repeat constructor.
Qed.

Lemma lang_records : forall lang n, Records n -> Records (lang_node lang n).
Proof.
  intros lang n H. inversion H as [r t|r e Hu HK|r e s E U HR HK]; subst; [constructor| |]; cbn [lang_node].
  - apply ReUnnamed; cbn [with_selectors e_selectors e_nodes]; [|exact HK].
    clear -Hu. induction Hu as [|s l Hs _ IH]; [constructor|]. cbn [lang_sels]. rewrite Hs. constructor; auto.
  - rewrite E. cbn [lang_sels]. rewrite U.
    eapply ReNamed; cbn [with_selectors e_selectors e_nodes e_crange]; [reflexivity|exact U| |exact HK].
    intros HV. destruct (HR HV) as (a & lr & l & b & Ei & H1 & H2). cbn [s_items].
    exists a, lr, l, (b ++ [lang_attr (r_end (s_range s)) lang]). rewrite Ei, <- app_assoc. auto.
Qed.

(** ** Nested ranges *)
Lemma within_trans : forall a b c, within a b -> within b c -> within a c.
Proof. unfold within. intros; lia. Qed.
Lemma within_refl : forall a, within a a.
Proof. unfold within. intros; lia. Qed.
Lemma FromSrc_mono : forall n o o', within o o' -> FromSrc o n -> FromSrc o' n.
Proof.
  intros n o o' H F. inversion F; subst; constructor; auto; eapply within_trans; eauto.
Qed.

Lemma sels_from_mono : forall sels p p' lim, p' <= p -> sels_from p lim sels -> sels_from p' lim sels.
Proof. intros [|s sels] p p' lim H F; cbn in *; [lia|]. destruct F as (F1 & F2 & F3). repeat split; auto; lia. Qed.
Lemma sels_from_le : forall sels p lim, sels_from p lim sels -> p <= lim.
Proof.
  induction sels as [|s sels IH]; intros p lim F; cbn in F; [exact F|]. destruct F as (F1 & F2 & F3).
  apply IH in F3. unfold valid_range in F2. lia.
Qed.
Lemma sels_from_at : forall tags p lim rest, sels_from p lim rest ->
  sels_from p lim (map (fun t => sel_with_tag (sel_empty p) t) tags ++ rest).
Proof.
  induction tags as [|t tags IH]; intros p lim rest F; [exact F|]. cbn [map app sels_from].
  cbn [sel_with_tag sel_empty s_range r_start r_end]. unfold valid_range. cbn [r_start r_end].
  repeat split; try lia. now apply IH.
Qed.

Lemma apply_tags_from : forall e tags, let r := e_range e in
  sels_from (r_start r) (r_end r) (e_selectors e) ->
  sels_from (r_start r) (r_end r) (e_selectors (apply_tags e tags)).
Proof.
  intros e tags r F. unfold apply_tags. destruct (filter _ tags) as [|first more].
  - cbn [with_selectors e_selectors]. destruct (e_selectors e) as [|s rest]; [exact F|]. cbn [tl].
    cbn in F. destruct F as (F1 & F2 & F3). eapply sels_from_mono; [|exact F3]. unfold valid_range in F2. lia.
  - destruct (e_selectors e) as [|s rest]; cbn [with_selectors e_selectors].
    + rewrite <- (app_nil_r (map _ more)). cbn in F.
      change (sel_with_tag (sel_empty (r_start (e_range e))) first
        :: map (fun t => sel_with_tag (sel_empty (r_start (e_range e))) t) more ++ [])
        with (map (fun t => sel_with_tag (sel_empty (r_start (e_range e))) t) (first :: more) ++ []).
      now apply sels_from_at.
    + cbn [sels_from s_range] in *. destruct F as (F1 & F2 & F3). repeat split; auto. now apply sels_from_at.
Qed.

Lemma special_element_same : forall cfg e, e_range (special_element cfg e) = e_range e /\
  e_crange (special_element cfg e) = e_crange e.
Proof.
  intros cfg e. unfold special_element, apply_tags.
  destruct (e_type e) as [| | |k|[]|]; auto;
    destruct (filter _ _); auto; destruct (e_selectors e); auto.
Qed.

Lemma special_from : forall cfg n o, FromSrc o n -> FromSrc o (special_node cfg n).
Proof.
  intros cfg. induction n as [r e IH|r t] using node_ind'; intros o F; [|exact F].
  inversion F as [|r' e' H1 H2 H3 H4 H5 H6 H7]; subst. cbn [special_node].
  destruct (special_element_same cfg e) as [S1 S2].
  apply FsElt; cbn [with_nodes with_content e_range e_crange e_selectors e_nodes]; rewrite ?S1, ?S2; auto.
  - unfold special_element. destruct (e_type e) as [| | |k|[]|]; auto; now apply apply_tags_from.
  - apply Forall_forall. intros m Hm. apply in_map_iff in Hm as (x & <- & Hx).
    rewrite Forall_forall in IH, H7. auto.
Qed.

(** Trees of source nodes under elements made by page completion. *)
Inductive Ranged (outer : lrange) : node -> Prop :=
| RgSrc : forall n, FromSrc outer n -> Ranged outer n
| RgPage : forall r e, ~ valid_range r -> (length (e_selectors e) <= 1)%nat ->
    within_if_valid (e_crange e) outer ->
    Forall (Ranged (onward outer (e_crange e))) (e_nodes e) -> Ranged outer (NElt r e)
| RgTxt : forall r t, ~ valid_range r -> Ranged outer (NTxt r t).

Lemma not_valid_invalid : ~ valid_range invalid_range.
Proof. unfold valid_range, invalid_range, loc_max. cbn. lia. Qed.
Lemma narrow_valid : forall o r, valid_range r -> narrow o r = r.
Proof. intros o r H. unfold narrow. unfold valid_range in H. now rewrite (proj2 (N.leb_le _ _) H). Qed.
Lemma narrow_invalid : forall o r, ~ valid_range r -> narrow o r = o.
Proof. intros o r H. unfold narrow. unfold valid_range in H. destruct (N.leb_spec (r_start r) (r_end r)); [contradiction|reflexivity]. Qed.
Lemma onward_valid : forall o r, valid_range r -> onward o r = mkR (r_start r) (r_end o).
Proof. intros o r H. unfold onward. unfold valid_range in H. now rewrite (proj2 (N.leb_le _ _) H). Qed.
Lemma onward_same : forall r, onward r r = r.
Proof. intros [a b]. unfold onward. cbn [r_start r_end]. now destruct (a <=? b). Qed.
Lemma onward_invalid : forall o r, ~ valid_range r -> onward o r = o.
Proof. intros o r H. unfold onward. unfold valid_range in H. destruct (N.leb_spec (r_start r) (r_end r)); [contradiction|reflexivity]. Qed.

Lemma page_ranged : forall t cr ns o, within_if_valid cr o -> Forall (Ranged (onward o cr)) ns ->
  Ranged o (elt_node (page_element t cr ns)).
Proof.
  intros t cr ns o H1 H2. unfold elt_node, page_element.
  assert (forall tags, e_range (apply_tags (new_elt invalid_range Unknown) tags) = invalid_range) as ER.
  { intros tags. unfold apply_tags. destruct (filter _ _); reflexivity. }
  apply RgPage.
  - cbn [with_content e_range]. rewrite ER. exact not_valid_invalid.
  - cbn [with_content e_selectors]. unfold apply_tags. cbn [filter slice_is_empty].
    destruct (negb (str_empty t)); cbn; lia.
  - exact H1.
  - exact H2.
Qed.

Lemma complete_ranged : forall cr ns, valid_range cr -> Forall (FromSrc cr) ns ->
  Forall (Ranged cr) (complete_page slc cr ns).
Proof.
  intros cr ns V H. assert (Forall (Ranged cr) ns) as HR by (eapply Forall_impl; [|exact H]; intros; now apply RgSrc).
  unfold complete_page. destruct (existsb _ ns); [exact HR|]. destruct (existsb _ ns).
  - constructor; [|constructor]. apply page_ranged; [intros _; apply within_refl|]. now rewrite onward_same.
  - rewrite split_page_ok. constructor; [|constructor]. apply page_ranged; [intros _; apply within_refl|].
    rewrite onward_same. repeat apply Forall_cons; try apply Forall_nil.
    + apply page_ranged; [intros A; now elim not_valid_invalid|].
      rewrite onward_invalid by exact not_valid_invalid.
      apply Forall_forall. intros m Hm. apply in_flat_map in Hm as (x & Hx & Hm). unfold to_head in Hm.
      rewrite Forall_forall in H. specialize (H x Hx). apply RgSrc.
      destruct (written_as slc [L "head"] x).
      * destruct x as [r e|r t]; [|destruct Hm]. cbn [children] in Hm.
        inversion H as [|r' e' H1 H2 H3 H4 H5 H6 H7]; subst. rewrite Forall_forall in H7.
        eapply FromSrc_mono; [|apply H7, Hm]. unfold within, valid_range in *; cbn [r_start r_end]; lia.
      * destruct (written_as slc head_only x); [|destruct Hm]. destruct Hm as [<-|[]]. exact H.
    + apply RgTxt. exact not_valid_invalid.
    + apply page_ranged; [intros A; now elim not_valid_invalid|].
      rewrite onward_invalid by exact not_valid_invalid.
      rewrite Forall_forall in *. intros m Hm. apply filter_In in Hm as [Hm _]. apply RgSrc. auto.
Qed.

Lemma name_sels_from : forall st sels nm lim, sels_from st lim sels -> sels_from st lim (name_sels slc st sels nm).
Proof.
  intros st sels nm lim F. unfold name_sels. destruct (first_name slc sels); [exact F|].
  destruct nm; [destruct sels as [|s rest]|destruct sels as [|s rest]|]; try exact F.
  - cbn in *. unfold valid_range. cbn. repeat split; lia.
  - cbn in F |- *. destruct F as (F1 & F2 & F3). eapply sels_from_mono; [|exact F3]. unfold valid_range in F2. lia.
Qed.

Lemma chain_nested : forall k sels c g p fi la r cr ty f raw kids outer,
  valid_range r -> within r outer -> valid_range cr -> within cr r ->
  sels_from (r_start r) (r_end r) sels ->
  (forall c g p, Forall (Nested (mkR (r_start cr) (r_end r))) (kids c g p)) ->
  Nested outer (chain slc k c g p fi la r r sels cr ty f raw kids).
Proof.
  induction k as [|x k IH]; intros sels c g p fi la r cr ty f raw kids outer V W Vc Wc F HK; cbn [chain];
    pose proof (name_sels_from (r_start r) sels (name_for c g fi la (kind_of ty)) (r_end r) F) as F1;
    destruct (name_sels _ _ _ _) as [|s0 [|s1 rest]];
    try (apply NeElt; cbn [e_crange e_nodes]; [now intros _|rewrite narrow_valid by exact V; now intros _|];
         rewrite (narrow_valid _ r) by exact V; rewrite onward_valid by exact Vc; apply HK).
  set (ir := combine cr (mkR (r_start (s_range s1)) (r_end r))).
  cbn [sels_from] in F1. destruct F1 as (G1 & G2 & G3 & G4 & G5). pose proof (sels_from_le _ _ _ G5) as G6.
  unfold valid_range, within in *.
  assert (r_start ir = N.min (r_start cr) (r_start (s_range s1))) as E1 by reflexivity.
  assert (r_end ir = N.max (r_end cr) (r_end r)) as E2 by reflexivity.
  assert (r_start (combine cr ir) = N.min (r_start cr) (r_start ir)) as E3 by reflexivity.
  assert (r_end (combine cr ir) = N.max (r_end cr) (r_end ir)) as E4 by reflexivity.
  apply NeElt; cbn [e_crange e_nodes].
  - intros _. exact W.
  - rewrite narrow_valid by exact V. intros _. unfold within. lia.
  - rewrite (narrow_valid _ r) by exact V. rewrite onward_valid by (unfold valid_range; lia). constructor; [|constructor].
    apply IH; auto; unfold valid_range, within; cbn [r_start r_end]; try lia;
      [|assert (r_end ir = r_end r) as -> by lia; exact HK].
    cbn [sels_from]. repeat split; auto; try lia. assert (r_end ir = r_end r) as -> by lia. exact G5.
Qed.

Lemma resolve_nested : forall n outer, Ranged outer n ->
  forall c g p fi la, Nested outer (resolve slc c g p fi la n).
Proof.
  induction n as [r e IH|r t] using node_ind'; intros outer H c g p fi la.
  - inversion H as [n F| r' e' Hi HL Hw HK|]; subst; cbn [resolve].
    + inversion F as [|r' e' H1 H2 H3 H4 H5 H6 H7]; subst. apply chain_nested; auto.
      intros c' g' p'. apply Forall_map_pos. rewrite Forall_forall in *. intros m Hm a b. apply IH; auto. apply RgSrc. auto.
    + assert (Forall (Nested (onward outer (e_crange e)))
        (map_pos (resolve slc (inside (first_name slc (name_sels slc (r_start (e_range e)) (e_selectors e)
           (name_for c g fi la (kind_of (e_type e))))) (kind_of (e_type e))) p
           (first_name slc (name_sels slc (r_start (e_range e)) (e_selectors e)
           (name_for c g fi la (kind_of (e_type e)))))) true (e_nodes e))) as A.
      { apply Forall_map_pos. rewrite Forall_forall in *. auto. }
      pose proof (name_sels_length slc (r_start (e_range e)) (e_selectors e) (name_for c g fi la (kind_of (e_type e)))) as HN.
      destruct (e_selectors e) as [|s0 [|]] eqn:E; cbn [length] in HL; try lia; cbn [chain];
        destruct (name_sels _ _ _ _) as [|s1 [|s2 rest]]; cbn [length Nat.max] in HN; try lia;
        (apply NeElt; cbn [e_crange e_nodes];
         [intros V; contradiction|rewrite (narrow_invalid outer r) by exact Hi; exact Hw|
          rewrite (narrow_invalid outer r) by exact Hi; exact A]).
  - cbn [resolve]. apply NeTxt. inversion H as [n F| |]; subst; [inversion F; subst; now intros _|].
    intros V. contradiction.
Qed.

Lemma meta_nested : forall el n outer root, Nested outer n -> Nested outer (meta_node el root n).
Proof.
  intros el. induction n as [r e IH|r t] using node_ind'; intros outer root H.
  - inversion H as [|r' e' H1 H2 H3]; subst. cbn [meta_node].
    assert (e_crange (handle_element el r e root) = e_crange e) as E
      by (unfold handle_element; destruct (_ && _); reflexivity).
    apply NeElt; cbn [with_nodes with_content e_crange e_nodes]; rewrite ?E; auto.
    rewrite Forall_forall in *. intros m Hm. apply in_map_iff in Hm as (x & <- & Hx). auto.
  - inversion H as [r' t' Hw|]; subst.
    assert (forall e, e_crange (handle_element el r e root) = e_crange e /\ e_nodes (handle_element el r e root) = e_nodes e
      /\ e_range (handle_element el r e root) = e_range e) as E
      by (intros e; unfold handle_element; destruct (_ && _); auto).
    assert (forall cr t', cr = r \/ ~ valid_range cr -> Nested (onward (narrow outer r) cr) (NTxt r t')) as N.
    { intros cr t' Hcr. apply NeTxt. intros V. rewrite (narrow_valid outer r V).
      destruct Hcr as [->|Hcr]; [rewrite onward_same|rewrite onward_invalid by exact Hcr]; apply within_refl. }
    destruct t as [t|s|s]; cbn [meta_node]; [destruct (el && negb (t_raw t)); [|exact H]|destruct el; [|exact H]|exact H];
      unfold elt_node; destruct (E (text_element r t)) as (E1 & E2 & E3) || destruct (E (comment_element r s)) as (E1 & E2 & E3);
      rewrite E3.
    + cbn [text_element e_range]. apply NeElt; rewrite ?E1, ?E2; cbn [text_element e_crange e_nodes]; auto.
      * intros V. now elim not_valid_invalid.
      * constructor; [|constructor]. apply N. right. exact not_valid_invalid.
    + change (e_range (comment_element r s)) with r.
      apply NeElt; rewrite ?E1, ?E2; change (e_crange (comment_element r s)) with r; auto.
      * intros V. rewrite narrow_valid by exact V. apply within_refl.
      * constructor; [|constructor]. apply N. now left.
Qed.

Lemma lang_nested : forall lang n outer, Nested outer n -> Nested outer (lang_node lang n).
Proof. intros lang n outer H. inversion H; subst; cbn [lang_node]; constructor; auto. Qed.

(** ** All transforms *)
Definition without_metadata (cfg : config) : config :=
  mkConfig (c_indent cfg) (c_xml cfg) (c_special cfg) (c_complete_page cfg) (c_lang cfg) None (c_fail_fast cfg).

Theorem transform_added : forall cfg cr ns, c_metadata cfg = Some false ->
  exists plain added, transform_document slc (without_metadata cfg) cr ns = Some plain /\
    transform_document slc cfg cr ns = Some added /\ Forall2 (MetaAdded true) plain added.
Proof.
  intros cfg cr ns HM. unfold transform_document, without_metadata. cbn [c_special c_complete_page c_metadata c_lang].
  rewrite HM. set (ns0 := match c_complete_page cfg with Some true => _ | _ => _ end).
  assert (exists ns1, infer slc ns0 = Some ns1) as (ns1 & E) by (eexists; apply infer_resolves).
  rewrite E. eexists _, _. split; [reflexivity|]. split; [reflexivity|].
  apply infer_single in E. unfold apply_lang.
  assert (Forall2 (MetaAdded true) ns1 (map (meta_node false true) ns1)) as A.
  { induction E; cbn [map]; constructor; auto. now apply meta_added. }
  destruct (c_lang cfg) as [lang|]; [|exact A].
  clear -slc A. induction A; cbn [map]; constructor; auto. now apply lang_added.
Qed.

Definition without_lang (cfg : config) : config :=
  mkConfig (c_indent cfg) (c_xml cfg) (c_special cfg) (c_complete_page cfg) None (c_metadata cfg) (c_fail_fast cfg).


Lemma shown_named : forall r e root s m marks name body,
  e_selectors e = [s] -> e_nodes e = [body] -> e_range e = r -> e_format_inline e = true ->
  s_tag s = Explicit (Provided name) ->
  s_items s = match m with [] => [] | _ => [SAttrs (mkR (r_start r) (r_start r)) m] end -> same_attrs m marks ->
  shown root r name marks body (elt_node (handle_element true r e root)).
Proof.
  intros r e root s m marks name body E EN ER EF ET EI HM.
  assert (uninferred s = false) as U by (unfold uninferred; now rewrite ET).
  rewrite (handle_named true r e root s E U). unfold elt_node, shown. cbn [with_selectors e_range]. rewrite ER.
  set (l := all_attrs _ _ _ _ _).
  pose proof (all_attrs_ok (r_end (s_range s)) root (e_raw e) r (e_crange e)) as HL. fold l in HL.
  eexists _, _, ((match m with [] => [] | _ => [m] end) ++ match l with [] => [] | _ => [l] end), m, l.
  split; [reflexivity|]. split; [reflexivity|]. cbn [e_nodes e_format_inline e_crange e_raw].
  split; [exact EN|]. split; [exact EF|].
  split; [unfold add_attrs; destruct l; exact ET|].
  split; [|split; [|auto]].
  - unfold add_attrs. destruct l, m; cbn [s_items]; rewrite EI; reflexivity.
  - rewrite concat_app. destruct l, m; cbn [concat app]; now rewrite ?app_nil_r.
Qed.

Theorem meta_shown : forall n root, TreeAll one_sel (fun _ => True) n ->
  MetaShown root n (meta_node true root n).
Proof.
  induction n as [r e IH|r t] using node_ind'; intros root H.
  - inversion H as [r' e' He Hns|]; subst. cbn [meta_node].
    assert (Forall2 (MetaShown false) (e_nodes e) (map (meta_node true false) (e_nodes e))) as HK.
    { clear -IH Hns. induction IH as [|n l Hn _ IHl]; [constructor|]. inversion Hns; subst. constructor; auto. }
    unfold one_sel in He. destruct (e_selectors e) as [|s [|]] eqn:E; [| |cbn in He; lia].
    + rewrite handle_el_nil by exact E.
      eapply MsElt; [| |apply (all_attrs_ok (r_start r))|exact HK]; unfold shown_name, add_attrs; rewrite E; cbn [find flat_map app];
        destruct (all_attrs (r_start r) root (e_raw e) r (e_crange e)); reflexivity.
    + destruct (uninferred s) eqn:U.
      * rewrite (handle_el_unnamed r e root s E U).
        eapply MsElt; [| |apply (all_attrs_ok (r_end (s_range s)))|exact HK]; unfold shown_name, add_attrs; rewrite E; cbn [find flat_map];
          rewrite ?U, ?app_nil_r; cbn [negb];
          destruct (all_attrs (r_end (s_range s)) root (e_raw e) r (e_crange e)); cbn [s_tag s_items]; rewrite ?app_nil_r; reflexivity.
      * rewrite (handle_named true r e root s E U).
        eapply MsElt; [| |apply (all_attrs_ok (r_end (s_range s)))|exact HK]; unfold shown_name, add_attrs; rewrite E; cbn [find flat_map];
          rewrite ?U, ?app_nil_r; cbn [negb];
          destruct (all_attrs (r_end (s_range s)) root (e_raw e) r (e_crange e)); cbn [s_tag s_items]; rewrite ?app_nil_r; reflexivity.
  - destruct t as [t|s|s]; cbn [meta_node andb].
    + destruct (t_raw t) eqn:R; cbn [negb]; [now constructor|]. apply MsText; [exact R|].
      eapply shown_named with (m := add_true (r_start r) a_verbatim (negb (t_unescape_in t)) ++ add_true (r_start r) a_multiline (t_multiline t));
        try reflexivity; unfold text_element; cbn [e_selectors].
      * unfold add_attrs. destruct (_ ++ _); reflexivity.
      * unfold add_attrs. destruct (_ ++ _); reflexivity.
      * unfold text_marks, same_attrs. destruct (t_unescape_in t), (t_multiline t); reflexivity.
    + eapply MsComment. eapply shown_named with (m := []); reflexivity.
    + constructor.
Qed.

Theorem transform_shown : forall cfg cr ns, c_metadata cfg = Some true ->
  exists plain added, transform_document slc (without_lang (without_metadata cfg)) cr ns = Some plain /\
    transform_document slc (without_lang cfg) cr ns = Some added /\ Forall2 (MetaShown true) plain added.
Proof.
  intros cfg cr ns HM. unfold transform_document, without_metadata, without_lang. cbn [c_special c_complete_page c_metadata c_lang].
  rewrite HM. set (ns0 := match c_complete_page cfg with Some true => _ | _ => _ end).
  assert (exists ns1, infer slc ns0 = Some ns1) as (ns1 & E) by (eexists; apply infer_resolves).
  rewrite E. eexists _, _. split; [reflexivity|]. split; [reflexivity|].
  apply infer_single in E. unfold apply_lang.
  induction E; cbn [map]; constructor; auto. now apply meta_shown.
Qed.

Theorem transform_lang : forall cfg cr ns,
  exists plain, transform_document slc (without_lang cfg) cr ns = Some plain /\
    transform_document slc cfg cr ns = Some (apply_lang (c_lang cfg) plain).
Proof.
  intros cfg cr ns. unfold transform_document, without_lang. cbn [c_special c_complete_page c_metadata c_lang].
  rewrite infer_resolves. eexists. split; reflexivity.
Qed.

Theorem transform_recorded : forall cfg el cr ns out, c_metadata cfg = Some el ->
  transform_document slc cfg cr ns = Some out -> Forall Records out.
Proof.
  intros cfg el cr ns out HM H. unfold transform_document in H. rewrite HM in H.
  destruct (infer slc _) as [ns1|] eqn:E; [|discriminate]. injection H as <-. apply infer_single in E.
  assert (Forall Records (map (meta_node el true) ns1)) as A.
  { induction E; cbn [map]; constructor; auto. now apply meta_records. }
  unfold apply_lang. destruct (c_lang cfg) as [lang|]; [|exact A].
  clear -slc A. induction A; cbn [map]; constructor; auto. now apply lang_records.
Qed.

Theorem transform_nested : forall cfg cr ns out, valid_range cr -> Forall (FromSrc cr) ns ->
  transform_document slc cfg cr ns = Some out -> Forall (Nested cr) out.
Proof.
  intros cfg cr ns out V HS H. unfold transform_document in H.
  assert (Forall (FromSrc cr) (map (special_node (c_special cfg)) ns)) as H1
    by (apply Forall_map; eapply Forall_impl; [|exact HS]; intros a; apply special_from).
  set (ns0 := map (special_node (c_special cfg)) ns) in *.
  assert (Forall (Ranged cr) (match c_complete_page cfg with Some true => complete_page slc cr ns0 | _ => ns0 end)) as H2.
  { destruct (c_complete_page cfg) as [[]|]; [now apply complete_ranged| |];
      (eapply Forall_impl; [|exact H1]; intros; now apply RgSrc). }
  rewrite infer_resolves in H. injection H as <-.
  assert (Forall (Nested cr) (resolve_all slc CSection None None
    match c_complete_page cfg with Some true => complete_page slc cr ns0 | _ => ns0 end)) as H3.
  { apply Forall_map_pos. rewrite Forall_forall in *. intros m Hm a b. apply resolve_nested. auto. }
  unfold apply_lang. revert H3. generalize (resolve_all slc CSection None None
    match c_complete_page cfg with Some true => complete_page slc cr ns0 | _ => ns0 end). intros l H3.
  assert (Forall (Nested cr) (match c_metadata cfg with Some el => map (meta_node el true) l | None => l end)) as H4.
  { destruct (c_metadata cfg) as [el|]; [|exact H3]. clear -slc H3. induction H3; cbn [map]; constructor; auto. now apply meta_nested. }
  destruct (c_lang cfg) as [lang|]; [|exact H4].
  clear -slc H4. induction H4; cbn [map]; constructor; auto. now apply lang_nested.
Qed.
End Meta.

Theorem transform_one_root : forall slc cfg cr ns,
  c_complete_page cfg = Some true ->
  existsb (written_as slc [L "html"]) (map (special_node (c_special cfg)) ns) = false ->
  exists r e s, transform_document slc cfg cr ns = Some [NElt r e] /\
    elt_tag slc (e_selectors e) = Some (L "html", s).
Proof.
  intros slc cfg cr ns HP H. unfold transform_document. rewrite HP.
  set (ns0 := map (special_node (c_special cfg)) ns) in *.
  assert (exists n body, complete_page slc cr ns0 = [n] /\ plain_elt slc (L "html") body n) as (n & body & E & Hn).
  { destruct (existsb (written_as slc [L "body"]) ns0) eqn:HB.
    - destruct (page_body slc cr ns0 H HB) as (n & E & Hn). eauto.
    - destruct (page_split slc cr ns0 H HB) as (h & hd & bd & r & E & Hh & _). eauto. }
  rewrite E, infer_resolves. destruct Hn as (r & e & s & -> & E1 & E2 & _). unfold resolve_all. cbn [map_pos resolve].
  rewrite E1. cbn [chain]. unfold name_sels. cbn [first_name]. rewrite E2.
  assert (exists v, s_tag s = Explicit v /\ as_str slc v = L "html") as (v & Ev & Es).
  { unfold sel_name in E2. destruct (s_tag s); [|discriminate|discriminate]. injection E2 as E2. eauto. }
  assert (uninferred s = false) as U by (unfold uninferred; now rewrite Ev).
  set (e1 := mkElt (e_range e) [s] _ _ _ _ _).
  assert (exists e2 s2, match c_metadata cfg with Some el => map (meta_node el true) [NElt r e1] | None => [NElt r e1] end
     = [NElt r e2] /\ e_selectors e2 = [s2] /\ s_tag s2 = Explicit v) as (e2 & s2 & EM & ES & ET).
  { destruct (c_metadata cfg) as [el|].
    - cbn [map meta_node]. rewrite (handle_named el r e1 true s eq_refl U). eexists _, _. split; [reflexivity|].
      split; [reflexivity|]. unfold add_attrs. destruct (all_attrs _ _ _ _ _); exact Ev.
    - eexists _, _. split; [reflexivity|]. split; [reflexivity|exact Ev]. }
  rewrite EM. unfold apply_lang. destruct (c_lang cfg) as [lang|].
  - cbn [map lang_node]. rewrite ES. cbn [lang_sels]. unfold uninferred. rewrite ET.
    eexists _, _, _. split; [reflexivity|]. cbn [with_selectors e_selectors elt_tag s_tag tag_name]. rewrite Es. reflexivity.
  - eexists _, _, _. split; [reflexivity|]. rewrite ES. cbn [elt_tag]. rewrite ET. cbn [tag_name]. rewrite Es. reflexivity.
Qed.

(** * The places of texts, comments and interpolations (for C70). *)

From Verif Require Import Base Doc Config Ast Errors Build Transform Grammar SpecTree SpecBuild SpecSource SpecErrors SpecWhole SpecPlaces
  P_Base P_Build P_BuildAll P_Grammar P_Marks P_Source P_Ordinary P_Text.
From Coq Require Import Lia Permutation.

Section Source.
Variable src : str.
Variable alnum : chr -> bool.

Lemma token_parts : forall a p q r, Token src a p q r -> exists pre m post, a pre m post /\ r = mkR p q /\
  src = pre ++ m ++ post /\ p = blen pre /\ q = blen pre + blen m.
Proof. intros a p q r [-> (pre & m & post & E & Hp & Hq & H)]. exists pre, m, post. auto. Qed.
Lemma slice_split : forall pre m post p q, src = pre ++ m ++ post -> p = blen pre -> q = blen pre + blen m -> SliceOf src (mkR p q) m.
Proof. intros pre m post p q E -> ->. exists pre, post. auto. Qed.
Lemma slice_app : forall p q r x y, SliceOf src (mkR p q) x -> SliceOf src (mkR q r) y -> SliceOf src (mkR p r) (x ++ y).
Proof.
  intros p q r x y (a & b & E1 & A1 & A2) (c & d & E2 & B1 & B2). cbn [r_start r_end] in *.
  assert (c = a ++ x /\ b = y ++ d) as [-> ->].
  { assert (HH : (a ++ x) ++ b = c ++ y ++ d) by (rewrite <- app_assoc; congruence).
    assert (HL : blen (a ++ x) = blen c) by (rewrite blen_app; lia). clear - HH HL.
    revert c HH HL. induction (a ++ x) as [|u l IH]; intros [|v c] HH HL; cbn in HH.
    - auto.
    - change (v :: c) with ([v] ++ c) in HL. rewrite blen_app in HL. exfalso. cbn in HL. pose proof (utf8_len_pos v). lia.
    - change (u :: l) with ([u] ++ l) in HL. rewrite blen_app in HL. exfalso. cbn in HL. pose proof (utf8_len_pos u). lia.
    - injection HH as -> HH. change (v :: l) with ([v] ++ l) in HL. change (v :: c) with ([v] ++ c) in HL. rewrite !blen_app in HL.
      destruct (IH c HH) as [-> ->]; [lia|auto]. }
  exists a, d. cbn [r_start r_end]. rewrite blen_app. repeat split; [|lia|lia]. rewrite E1, <- !app_assoc. reflexivity.
Qed.
Lemma token_exactly : forall s p q r, Token src (exactly s) p q r -> r = mkR p q /\ SliceOf src (mkR p q) s /\ q = p + blen s.
Proof.
  intros s p q r H. apply token_parts in H as (pre & m & post & Hm & -> & E & -> & ->). unfold exactly in Hm. subst m.
  split; [reflexivity|]. split; [|reflexivity]. eapply slice_split; eauto.
Qed.

Lemma lazily_exactly : forall n s pre m post, lazily n (exactly s) pre m post -> exists x, m = x ++ s.
Proof. intros n s pre m post (x & y & -> & _ & H & _). unfold exactly in H. subst y. eauto. Qed.
Lemma tail_parts : forall h p q r, Token src (verbatim_tail h) p q r ->
  exists m, r = mkR p q /\ SliceOf src r ((h ++ L "[") ++ m ++ L "]" ++ h ++ L "]>") /\ q = p + blen (h ++ L "[") + blen m + blen (L "]" ++ h ++ L "]>").
Proof.
  intros h p q r H. apply token_parts in H as (pre & m & post & (m1 & m2 & -> & H1 & H2) & -> & E & -> & ->).
  unfold exactly in H1. subst m1. apply lazily_exactly in H2 as [x ->]. exists x. split; [reflexivity|]. split; [eapply slice_split; eauto|].
  rewrite !blen_app. lia.
Qed.
Lemma interpolation_parts : forall p q r, Token src interpolation_pat p q r -> WrittenAt src r (TText (interpolation r)).
Proof.
  intros p q r H. apply token_parts in H as (pre & m & post & H & -> & E & -> & ->).
  assert (exists o x c, In (o, c) interpolation_delimiters /\ m = o ++ x ++ c) as (o & x & c & Hi & ->).
  { unfold interpolation_delimiters. destruct H as [H|[H|[H|H]]].
    - destruct H as (m1 & m2 & -> & [-> _] & m3 & m4 & -> & H3 & m5 & m6 & -> & [-> _] & x & y & -> & _ & Hy & _). unfold exactly in H3. subst m3.
      destruct Hy as (y1 & y2 & -> & [-> _] & y3 & y4 & -> & H3 & [-> _]). unfold exactly in H3. subst y3.
      exists (L "{{"), x, (L "}}"). split; [now left|]. cbn [app]. now rewrite app_nil_r.
    - destruct H as (m1 & m2 & -> & H1 & H2). unfold exactly in H1. subst m1. apply lazily_exactly in H2 as [x ->]. exists (L "{%"), x, (L "%}"). split; [right; now left|reflexivity].
    - destruct H as (m1 & m2 & -> & H1 & H2). unfold exactly in H1. subst m1. apply lazily_exactly in H2 as [x ->]. exists (L "<%"), x, (L "%>"). split; [right; right; now left|reflexivity].
    - destruct H as (m1 & m2 & -> & H1 & H2). unfold exactly in H1. subst m1. apply lazily_exactly in H2 as [x ->]. exists (L "<?"), x, (L "?>"). split; [do 3 right; now left|reflexivity]. }
  eapply WaInterpolation; [exact Hi|]. eapply slice_split; eauto.
Qed.

Definition here (pr : lrange * textlike) : Prop := WrittenAt src (fst pr) (snd pr).
Lemma text_at : forall p q t, text_ok src alnum p q t -> here (text_range t, text_leaf t).
Proof.
  unfold here. intros p q [r|v|c|r] H; cbn [text_ok text_range text_leaf fst snd] in *.
  - pose proof H as H0. apply token_parts in H as (pre & m & post & Hm & -> & E & -> & ->). apply (WaPlain _ _ m).
    + intros ->. destruct Hm as (m1 & m2 & Em & (m3 & m4 & -> & (m5 & m6 & -> & H1 & _) & _) & _).
      symmetry in Em. apply app_eq_nil in Em as [Em _]. apply app_eq_nil in Em as [Em _]. apply app_eq_nil in Em as [-> _].
      destruct H1 as [(a & b & Ea & (c & -> & _) & _)|[(c & Ec & _)|[H1|H1]]]; try discriminate.
      * destruct H1 as (a & b & Ea & Ha & _). unfold exactly in Ha. subst a. discriminate.
      * destruct H1 as (a & b & Ea & Ha & _). unfold exactly in Ha. subst a. discriminate.
    + eapply slice_split; eauto.
  - destruct H as (x & y & H1 & H2 & H3). apply token_exactly in H1 as (E1 & S1 & X1).
    assert (exists raw : bool, match av_raw v with Some _ => true | None => false end = raw /\
      SliceOf src (mkR x y) (if raw then L "raw" else []) /\ y = x + blen (if raw then L "raw" else [])) as (raw & -> & S2 & Y1).
    { destruct (av_raw v) as [r|]; cbn [Maybe] in H2.
      - apply token_exactly in H2 as (_ & H2 & H4). exists true. auto.
      - subst y. exists false. split; [reflexivity|]. split; [|cbn; lia]. destruct S1 as (a & b & Es & A1 & A2). cbn [r_start r_end] in *.
        exists (a ++ L "<["), b. cbn [r_start r_end app]. rewrite <- app_assoc, blen_app. cbn [blen]. repeat split; [exact Es|lia|lia]. }
    assert (exists h m t, av_tail v = t /\ In h [[]; L "#"; L "##"] /\
      match t with AVerbatim0 r | AVerbatim1 r | AVerbatim2 r => r end = mkR y q /\
      SliceOf src (mkR y q) ((h ++ L "[") ++ m ++ L "]" ++ h ++ L "]>") /\
      verbatim_range v = mkR (y + blen (h ++ L "[")) (q - blen (L "]" ++ h ++ L "]>")) /\ q = y + blen (h ++ L "[") + blen m + blen (L "]" ++ h ++ L "]>"))
      as (h & m & t & Et & Hh & Er & S3 & Ev & Q1).
    { unfold verbatim_range. destruct (av_tail v) as [r|r|r]; cbn [tail_ok] in H3; apply tail_parts in H3 as (m & -> & H4 & H5).
      - exists [], m, (AVerbatim0 (mkR y q)). cbn [r_start r_end]. repeat split; auto. now left.
      - exists (L "#"), m, (AVerbatim1 (mkR y q)). cbn [r_start r_end]. repeat split; auto. right; now left.
      - exists (L "##"), m, (AVerbatim2 (mkR y q)). cbn [r_start r_end]. repeat split; auto. do 2 right; now left. }
    rewrite Et, Er, E1. rewrite Ev. unfold combine. cbn [r_start r_end].
    replace (N.min p y) with p by lia. replace (N.max x q) with q by lia.
    apply (WaVerbatim src (mkR p q) raw h m _ Hh).
    + rewrite <- !app_assoc. eapply slice_app; [exact S1|]. eapply slice_app; [exact S2|]. rewrite <- !app_assoc in S3. exact S3.
    + cbn [r_start]. rewrite !blen_app in *. f_equal; lia.
  - destruct H as (x & y & E1 & H1 & H2 & H3 & E2). apply token_exactly in H1 as (_ & S1 & X1).
    apply token_parts in H2 as (pre & m & post & _ & Ei & Es & Hx & Hy).
    rewrite E1, E2. assert (SliceOf src (mkR x y) m) as S2 by (eapply slice_split; eauto).
    assert (exists cl, (cl = L "!>" \/ cl = []) /\ SliceOf src (mkR p q) (L "<!" ++ m ++ cl)) as (cl & Hc & S3).
    { destruct (ac_close c) as [r|]; cbn [Maybe] in H3.
      - apply token_exactly in H3 as (_ & S3 & _). exists (L "!>"). split; [now left|]. eapply slice_app; [exact S1|]. eapply slice_app; eassumption.
      - subst q. exists []. split; [now right|]. rewrite app_nil_r. eapply slice_app; eassumption. }
    apply (WaComment _ _ m cl _ Hc S3). rewrite Ei. cbn [r_start]. change (blen (L "<!")) with 2 in X1. f_equal; lia.
  - eapply interpolation_parts. exact H.
Qed.
Lemma code_at : forall p q r, Token src inline_code p q r ->
  here (mkR (r_start r + 2) (r_end r - 2), TText (code_text (mkR (r_start r + 2) (r_end r - 2)))).
Proof.
  intros p q r H. apply token_parts in H as (pre & m & post & (m1 & m2 & -> & H1 & H2) & -> & E & -> & ->). unfold exactly in H1. subst m1.
  apply lazily_exactly in H2 as [x ->]. unfold here. cbn [fst snd r_start r_end]. rewrite !blen_app in *.
  change (blen (L "<`")) with 2. change (blen (L "`>")) with 2.
  replace (blen pre + (2 + (blen x + 2)) - 2) with (blen pre + 2 + blen x) by lia.
  apply (WaCode _ _ (mkR (blen pre) (blen pre + 2)) x (mkR (blen pre + 2 + blen x) (blen pre + 2 + blen x + 2))); try reflexivity.
  - exists pre, (x ++ L "`>" ++ post). cbn [r_start r_end]. rewrite E, <- !app_assoc. auto.
  - exists (pre ++ L "<`"), (L "`>" ++ post). cbn [r_start r_end]. rewrite E, <- !app_assoc, !blen_app. change (blen (L "<`")) with 2. auto.
  - exists (pre ++ L "<`" ++ x), post. cbn [r_start r_end]. rewrite E, <- !app_assoc, !blen_app. change (blen (L "<`")) with 2. change (blen (L "`>")) with 2.
    repeat split; lia.
Qed.
Lemma skip_no_newline : forall (a s u w : str), ~ In 10 a -> a ++ s = u ++ 10 :: w -> exists u', s = u' ++ 10 :: w.
Proof.
  induction a as [|c a IH]; intros s u w Hn E; [now exists u|]. destruct u as [|d u]; cbn [app] in E.
  - exfalso. apply Hn. left. congruence.
  - injection E as _ E. apply (IH s u w); [|exact E]. intros Hi. apply Hn. now right.
Qed.
Lemma multiline_at : forall p q m, multiline_ok src p q m ->
  here (mkR (am_start m) (am_end m), TText (multiline_text (am_kind m) (mkR (am_start m) (am_end m)))).
Proof.
  intros p q m (x & y & H1 & -> & H2 & -> & H3). unfold here. cbn [fst snd].
  assert (multiline_quote (am_kind m) = multiline_quotes (am_kind m)) as EQ by (destruct (am_kind m); reflexivity). rewrite EQ in *.
  apply token_parts in H1 as (pre & mo & post & Ho & _ & E & Hp & Hx). destruct Ho as (m1 & m2 & -> & Hm1 & m3 & m4 & -> & Hm3 & Hm4). unfold exactly in Hm1. subst m1.
  apply token_parts in H2 as (pre2 & mb & post2 & _ & _ & E2 & Hx2 & Hy2).
  apply token_parts in H3 as (pre3 & mc & post3 & Hc & _ & E3 & Hy3 & Hq3). destruct Hc as (c1 & c2 & -> & Hc1 & [-> _]). unfold exactly in Hc1. subst c1. rewrite app_nil_r in *.
  apply (WaMultiline _ _ _ (mkR p x) (m3 ++ m4) mb (mkR y q)); try reflexivity.
  - eapply slice_split; eauto.
  - assert (~ In 10 m3) as Hn.
    { clear - Hm3. induction Hm3 as [|pr m1 m2 po Hc H IH]; [intros []|]. destruct Hc as (c & -> & Hc). cbn [app In]. intros [->|Hi]; [vm_compute in Hc; discriminate|auto]. }
    intros u w Ew. destruct Hm4 as [->|[->| ->]].
    + exfalso. apply Hn. rewrite app_nil_r in Ew. rewrite Ew. apply in_or_app. right. now left.
    + apply (skip_no_newline _ _ _ _ Hn) in Ew as [u' Ew]. destruct u' as [|? [|]]; try discriminate. now injection Ew as <-.
    + apply (skip_no_newline _ _ _ _ Hn) in Ew as [u' Ew]. destruct u' as [|? [|? [|]]]; try discriminate. now injection Ew as _ <-.
  - eapply slice_split; eauto.
  - eapply slice_split; eauto.
Qed.

Lemma lines_marks : forall (ls : list a_line), flat_map (fun l => flat_map (fun i : a_item => node_marks (fun _ => []) place (snd i)) (ln_nodes l)) ls =
  flat_map (fun i : a_item => node_marks (fun _ => []) place (snd i)) (flat_map ln_nodes ls).
Proof. induction ls as [|l ls IH]; [reflexivity|]. cbn [flat_map]. now rewrite IH, flat_map_app. Qed.
Lemma items_here : forall l, Forall (fun i : a_item => ok_item src alnum i -> Forall here (node_marks (fun _ => []) place (snd i))) l ->
  Forall (ok_item src alnum) l -> Forall here (flat_map (fun i : a_item => node_marks (fun _ => []) place (snd i)) l).
Proof.
  induction l as [|i l IH]; intros H1 H2; [constructor|]. inversion H1; inversion H2; subst. cbn [flat_map]. apply Forall_app. auto.
Qed.
Lemma nodes_here : forall n sp, ok_item src alnum (sp, n) -> Forall here (node_marks (fun _ => []) place n).
Proof.
  apply (a_node_ind' (fun n => forall sp, ok_item src alnum (sp, n) -> Forall here (node_marks (fun _ => []) place n))).
  intros s t e IH sp H. pose proof (kids_in src alnum sp s t e H) as HK. destruct H as (p & q & x & y & _ & _ & _ & H & _). cbn [fst snd] in H.
  assert (Forall here (flat_map (fun i : a_item => node_marks (fun _ => []) place (snd i)) (type_items t))) as HT.
  { apply items_here; [|exact HK]. rewrite Forall_forall in *. intros [sp' n'] Hi. exact (IH _ Hi sp'). }
  assert (forall r t', leaf t' = [t'] -> here (r, t') -> Forall here (place r t')) as HP.
  { intros r t' E Hh. unfold place. rewrite E. constructor; [exact Hh|constructor]. }
  destruct t as [m|t|sl|el]; cbn [ntype_ok element_ok node_marks] in *.
  - apply HP; [reflexivity|]. eapply multiline_at. exact H.
  - apply HP; [now destruct t|]. eapply text_at. exact H.
  - constructor.
  - destruct el as [r|b|i|[k o c cl|r]]; cbn [special_ok type_items element_items] in *.
    + constructor.
    + rewrite lines_marks. exact HT.
    + exact HT.
    + rewrite lines_marks. exact HT.
    + apply HP; [reflexivity|]. eapply code_at. exact H.
Qed.
Lemma document_here : forall c, document_ok src alnum c -> Forall here (content_places c).
Proof.
  intros c H. apply document_in in H. unfold content_places, content_marks, items_marks. rewrite lines_marks.
  apply items_here; [|exact H]. apply Forall_forall. intros [sp n] _. apply nodes_here.
Qed.

(** ** In order *)
Notation Asc := one_after_another.
Lemma asc_le : forall l p q, Asc p q l -> p <= q.
Proof. induction l as [|r l IH]; intros p q H; cbn [one_after_another] in H; [exact H|]. destruct H as (H1 & H2 & H3). apply IH in H3. lia. Qed.
Lemma asc_app : forall a b p x q, Asc p x a -> Asc x q b -> Asc p q (a ++ b).
Proof.
  induction a as [|r a IH]; intros b p x q H1 H2; cbn [one_after_another app] in *.
  - revert H1 H2. destruct b as [|r b]; cbn [one_after_another]; [lia|]. intros H1 (H2 & H3). split; [lia|exact H3].
  - destruct H1 as (H1 & H3 & H4). repeat split; auto. eapply IH; eassumption.
Qed.
Lemma asc_wide : forall l p q p' q', p' <= p -> q <= q' -> Asc p q l -> Asc p' q' l.
Proof.
  induction l as [|r l IH]; intros p q p' q' H1 H2 H; cbn [one_after_another] in *; [lia|]. destruct H as (H3 & H4 & H5).
  repeat split; [lia|exact H4|]. eapply IH; [|exact H2|exact H5]. lia.
Qed.
Lemma asc_subseq : forall (a b : list (lrange * textlike)), Subseq a b -> forall p q, Asc p q (map fst b) -> Asc p q (map fst a).
Proof.
  induction 1 as [|x a b _ IH|x a b _ IH]; intros p q H; [exact H| |]; cbn [map one_after_another] in *; destruct H as (H1 & H2 & H3).
  - auto.
  - apply IH. eapply asc_wide; [| |exact H3]; lia.
Qed.
Notation marks1 := (fun n : a_node => map fst (node_marks (fun _ => []) place n)).
Notation marksL := (fun l : list a_item => map fst (flat_map (fun i : a_item => node_marks (fun _ => []) place (snd i)) l)).
Notation node_ok := (node_ok src alnum).
Lemma text_range_ok : forall p q t, text_ok src alnum p q t -> text_range t = mkR p q /\ p <= q.
Proof.
  intros p q [r|v|c|r] H; cbn [text_ok text_range] in *.
  - apply (token_pos src alnum) in H as (_ & _ & H & ->). auto.
  - destruct H as (x & y & H1 & H2 & H3). apply (token_pos src alnum) in H1 as (_ & _ & H1 & ->).
    assert (x <= y) by (destruct (av_raw v); cbn [Maybe] in H2; [apply (token_pos src alnum) in H2; tauto|lia]).
    destruct (av_tail v) as [r|r|r]; cbn [tail_ok] in H3; apply (token_pos src alnum) in H3 as (_ & _ & H3 & ->); unfold combine; cbn [r_start r_end];
      (split; [f_equal; lia|lia]).
  - destruct H as (x & y & -> & H1 & H2 & H3 & ->). apply (token_pos src alnum) in H1 as (_ & _ & H1 & _). apply (token_pos src alnum) in H2 as (_ & _ & H2 & _).
    split; [reflexivity|]. destruct (ac_close c); cbn [Maybe] in H3; [apply (token_pos src alnum) in H3 as (_ & _ & H3 & _)|]; lia.
  - apply (token_pos src alnum) in H as (_ & _ & H & ->). auto.
Qed.
Definition asc_node (n : a_node) : Prop := forall p q, node_ok p q n -> Asc p q (marks1 n).
Lemma asc_gap : forall p q, Grammar.Gap src p q -> p <= q.
Proof. intros p q H. apply gap_pos in H. tauto. Qed.
Lemma asc_sgap : forall p q, SpaceGap src p q -> p <= q.
Proof. intros p q H. apply spacegap_pos in H. tauto. Qed.
Lemma asc_maybe : forall a p q o, Maybe (Token src a) p q o -> p <= q.
Proof. intros a p q [r|] H; cbn in H; [|lia]. apply (token_pos src alnum) in H. tauto. Qed.
Lemma asc_items : forall l, Forall (fun i : a_item => asc_node (snd i)) l -> forall p q, Tiles (item_ok src node_ok) p q l -> Asc p q (marksL l).
Proof.
  induction 1 as [|[sp n] l Hn _ IH]; intros p q H; cbn [Tiles] in H; [subst; cbn; lia|].
  destruct H as (m & (x & y & H1 & H2 & H3) & H4). cbn [fst snd] in *. apply asc_sgap in H1. apply asc_maybe in H2. apply Hn in H3. apply IH in H4.
  cbn [flat_map snd]. rewrite map_app. eapply asc_app; [|exact H4]. eapply asc_wide; [| |exact H3]; lia.
Qed.
Lemma asc_line : forall l, Forall (fun i : a_item => asc_node (snd i)) (ln_nodes l) -> forall p q, Grammar.line_ok src node_ok p q l -> Asc p q (marksL (ln_nodes l)).
Proof.
  intros l Hl p q (x & y & H1 & H2 & H3 & H4 & H5). apply asc_sgap in H1, H2, H4, H5. apply (asc_items _ Hl) in H3. eapply asc_wide; [| |exact H3]; lia.
Qed.
Lemma asc_lines : forall ls, Forall (fun i : a_item => asc_node (snd i)) (flat_map ln_nodes ls) -> forall p q, lines_ok src node_ok p q ls -> Asc p q (marksL (flat_map ln_nodes ls)).
Proof.
  induction ls as [|l ls IH]; intros HF p q H; [cbn in H; subst; cbn; lia|].
  cbn [flat_map] in HF. apply Forall_app in HF as [HF1 HF2]. cbn [flat_map]. rewrite flat_map_app, map_app. destruct ls as [|l' ls].
  - apply (asc_line _ HF1) in H. eapply asc_app; [exact H|]. cbn. lia.
  - change (exists x y, Grammar.line_ok src node_ok p x l /\ Tok src new_line x y /\ lines_ok src node_ok y q (l' :: ls)) in H.
    destruct H as (x & y & H1 & H2 & H3). apply (asc_line _ HF1) in H1. apply (tok_pos src) in H2 as (_ & _ & H2).
    apply (IH HF2) in H3. eapply asc_app; [exact H1|]. eapply asc_wide; [| |exact H3]; lia.
Qed.
Lemma asc_content : forall c, Forall (fun i : a_item => asc_node (snd i)) (content_items c) -> forall p q, content_ok src node_ok p q c ->
  Asc p q (marksL (content_items c)).
Proof.
  intros c HF p q (x & y & H1 & H2 & H3 & H4 & H5). apply asc_gap in H1, H2, H4, H5. apply (asc_lines _ HF) in H3. eapply asc_wide; [| |exact H3]; lia.
Qed.
Lemma asc_nodes : forall n, asc_node n.
Proof.
  apply a_node_ind'. intros s t e IH p q H. pose proof (node_nonempty _ _ _ _ _ H) as Hne. destruct H as (_ & H & _). cbn beta.
  destruct t as [m|t|sl|el]; cbn [ntype_ok node_marks] in *.
  - destruct H as (x & y & H1 & -> & H2 & -> & H3). apply (token_pos src alnum) in H1 as (_ & _ & H1 & _). apply (token_pos src alnum) in H2 as (_ & _ & H2 & _).
    apply (token_pos src alnum) in H3 as (_ & _ & H3 & _). cbn [place leaf map fst one_after_another r_start r_end]. lia.
  - apply text_range_ok in H as [H1 H2]. unfold place. destruct t; cbn [text_leaf leaf map fst one_after_another]; rewrite H1; cbn [r_start r_end]; lia.
  - cbn. lia.
  - destruct el as [r|b|i|[k o c cl|r]]; cbn [element_ok special_ok type_items element_items] in *.
    + apply (token_pos src alnum) in H as (_ & _ & H & _). exact H.
    + destruct H as (x & y & z & H1 & H2 & H3 & H4). apply (token_pos src alnum) in H1 as (_ & _ & H1 & _). apply asc_gap in H3. apply asc_maybe in H4.
      apply (asc_content _ IH) in H2. rewrite lines_marks. eapply asc_wide; [| |exact H2]; lia.
    + destruct H as (w & x & y & z & H1 & H2 & H3 & H4 & H5). apply (token_pos src alnum) in H1 as (_ & _ & H1 & _). apply asc_gap in H2, H4. apply asc_maybe in H5.
      apply (asc_items _ IH) in H3. eapply asc_wide; [| |exact H3]; lia.
    + destruct H as (x & y & H1 & H2 & H3). apply (token_pos src alnum) in H1 as (_ & _ & H1 & _). apply asc_maybe in H3.
      apply (asc_content _ IH) in H2. rewrite lines_marks. eapply asc_wide; [| |exact H2]; lia.
    + apply token_parts in H as (pre & m & post & (m1 & m2 & -> & H1 & H2) & -> & E & -> & ->). unfold exactly in H1. subst m1.
      apply lazily_exactly in H2 as [x ->]. cbn [place leaf map fst one_after_another r_start r_end]. rewrite !blen_app in *.
      change (blen (L "<`")) with 2. change (blen (L "`>")) with 2. lia.
Qed.
Lemma document_asc : forall c, document_ok src alnum c -> Asc 0 (blen src) (map fst (content_places c)).
Proof.
  intros c (x & y & H1 & H & H2). apply asc_gap in H1, H2. unfold content_places, content_marks, items_marks. rewrite lines_marks.
  apply asc_content in H; [|apply Forall_forall; intros; apply asc_nodes]. eapply asc_wide; [| |exact H]; lia.
Qed.
End Source.

Lemma subseq_in : forall A (a b : list A), Subseq a b -> forall x, In x a -> In x b.
Proof. induction 1; intros y Hy; [exact Hy| |right; auto]. destruct Hy as [->|Hy]; [now left|right; auto]. Qed.

Theorem written_places : forall alnum parse src cfg d ns, reads alnum parse src -> c_metadata cfg <> Some true ->
  document_of parse src cfg d ns -> Forall (fun p => WrittenAt src (fst p) (snd p)) (flat_map doc_places ns).
Proof.
  intros alnum parse src cfg d ns HR HM (c & tree & EP & EB & ET). unfold reads in HR. rewrite EP in HR.
  apply document_here in HR. apply (places_transform _ _ _ _ _ HM) in ET as [ET _].
  rewrite Forall_forall in *. intros x Hx. apply HR. eapply Permutation_in in Hx; [|exact ET].
  destruct (places_kept (source_slice src) c config_default _ _ EB) as [HK _]. eapply subseq_in; eassumption.
Qed.

Theorem ordered_places : forall alnum parse src cfg d ns, reads alnum parse src -> c_metadata cfg <> Some true -> c_complete_page cfg <> Some true ->
  document_of parse src cfg d ns -> one_after_another 0 (blen src) (map fst (flat_map doc_places ns)).
Proof.
  intros alnum parse src cfg d ns HR HM HP (c & tree & EP & EB & ET). unfold reads in HR. rewrite EP in HR.
  apply document_asc in HR. apply (places_transform _ _ _ _ _ HM) in ET as [_ ET]. rewrite (ET HP).
  destruct (places_kept (source_slice src) c config_default _ _ EB) as [HK _]. eapply asc_subseq; eassumption.
Qed.

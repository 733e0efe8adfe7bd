(** * The size of the syntax tree, by the size of the source, and the size of the
      output (for C69). *)

From Verif Require Import Base Escape Doc Config Ast Errors Build Transform Output Convert Grammar SpecTree SpecBuild SpecSource SpecErrors SpecWhole
  P_Base P_Build P_Grammar P_Layout P_Source P_Size P_Size2.
From Coq Require Import Lia.

Local Open Scope nat_scope.
Local Ltac lia := cbn beta in *; Lia.lia.

Section Source.
Variable src : str.
Variable alnum : chr -> bool.
Definition dist (p q : N) : nat := N.to_nat (q - p).

Lemma wd_token : forall a p q r, Token src a p q r -> wd r = dist p q /\ (p <= q)%N.
Proof. intros a p q r H. apply (token_pos src alnum) in H as (_ & _ & H & ->). split; [reflexivity|exact H]. Qed.
Lemma wd_ne : forall a p q r, nonempty a -> Token src a p q r -> wd r = dist p q /\ (p < q)%N.
Proof. intros a p q r Hn [-> H]. apply tok_ne in H; [|exact Hn]. split; [reflexivity|exact H]. Qed.

Lemma tiles_size : forall A (R : N -> N -> A -> Prop) (f : A -> nat) k, (forall p q x, R p q x -> (p <= q)%N /\ f x <= k * dist p q) ->
  forall l p q, Tiles R p q l -> (p <= q)%N /\ list_sum (map f l) <= k * dist p q.
Proof.
  intros A R f k H. induction l as [|x l IH]; intros p q HT; cbn [Tiles] in HT; [subst; split; [Lia.lia|cbn; Lia.lia]|].
  destruct HT as (m & H1 & H2). apply H in H1 as [A1 A2]. apply IH in H2 as [B1 B2]. split; [Lia.lia|]. cbn [map]. rewrite sum_cons.
  assert (dist p q = dist p m + dist m q) as -> by (unfold dist; Lia.lia). Lia.nia.
Qed.
Lemma gap_le : forall p q, Grammar.Gap src p q -> (p <= q)%N.
Proof. intros p q H. apply gap_pos in H. tauto. Qed.
Lemma sgap_le : forall p q, SpaceGap src p q -> (p <= q)%N.
Proof. intros p q H. apply spacegap_pos in H. tauto. Qed.
Lemma maybe_token : forall a p q o, Maybe (Token src a) p q o -> (p <= q)%N.
Proof. intros a p q [r|] H; cbn in H; [|subst; Lia.lia]. apply (token_pos src alnum) in H. tauto. Qed.

Lemma ne_name : nonempty attribute_name.
Proof. apply ne_seql, ne_alt; [apply ne_one|apply ne_escape]. Qed.
Lemma ne_class : nonempty class_name.
Proof. apply ne_seql, ne_one. Qed.
Lemma value_w : forall p q v, value_ok src p q v -> (p <= q)%N /\ aw_value v = dist p q.
Proof. intros p q [r|r] H; cbn in H; apply wd_token in H as [H1 H2]; auto. Qed.
Lemma attr_w : forall p q a, attr_ok src p q a -> (p <= q)%N /\ aw_attr a <= 2 * dist p q.
Proof.
  intros p q a (x & y & H1 & H2 & H3 & H4 & _). apply gap_le in H1, H2. apply (wd_ne _ _ _ _ ne_name) in H3 as [H3 H3']. unfold aw_attr. rewrite H3.
  destruct (aa_assign a) as [[e v]|]; cbn [Maybe] in H4.
  - destruct H4 as (u & t & z & G1 & G2 & G3 & G4). cbn [fst snd] in *. apply gap_le in G1, G3. apply wd_token in G2 as [_ G2]. apply value_w in G4 as [G4 ->]. unfold dist. lia.
  - subst. unfold dist. lia.
Qed.
Lemma attrs_w : forall p q l, attrs_ok src p q l -> (p < q)%N /\ aw_attrs l <= 2 * dist p q.
Proof.
  intros p q l (x & y & z & _ & H2 & H3 & H4 & H5 & _). apply (wd_ne _ _ _ _ (ne_exactly (L "[") ltac:(discriminate))) in H2 as [_ H2].
  apply (tiles_size _ _ aw_attr 2 attr_w) in H3 as [H3 H3']. apply gap_le in H4. apply maybe_token in H5. unfold aw_attrs, dist in *. lia.
Qed.
Lemma class_w : forall p q c, class_like_ok src p q c -> (p <= q)%N /\ aw_class c <= 2 * dist p q.
Proof.
  intros p q [d i|d i|r] H; cbn in H |- *.
  - destruct H as (x & H1 & H2). apply wd_token in H1 as [_ H1]. apply (wd_ne _ _ _ _ ne_class) in H2 as [-> H2]. unfold dist. lia.
  - destruct H as (x & H1 & H2). apply wd_token in H1 as [_ H1]. apply (wd_ne _ _ _ _ ne_class) in H2 as [-> H2]. unfold dist. lia.
  - apply wd_token in H as [_ H]. split; [exact H|lia].
Qed.
Lemma start_w : forall p q s, sel_start_ok src alnum p q s -> (p < q)%N /\ aw_start s <= 2 * dist p q.
Proof.
  intros p q [a|e cl] H; cbn in H |- *; [now apply attrs_w|]. destruct H as (H & x & H1 & H2). apply (tok_ne _ _ _ _ (ne_chain alnum)) in H.
  apply (tiles_size _ _ aw_class 2 class_w) in H2 as [H2 H3]. split; [exact H|]. unfold aw_classes.
  destruct e as [[r|r]|]; cbn in H1 |- *; [apply wd_token in H1 as [-> H1]|apply wd_token in H1 as [_ H1]|subst]; unfold dist in *; lia.
Qed.
Lemma seg_w : forall p q s, segment_ok src alnum p q s -> (p <= q)%N /\ aw_seg s <= 2 * dist p q.
Proof.
  intros p q [a|cl] H; cbn in H |- *; [apply attrs_w in H as [H1 H2]; split; [Lia.lia|exact H2]|]. destruct H as [_ H]. now apply (tiles_size _ _ aw_class 2 class_w).
Qed.
Lemma sel_w : forall p q s, selector_ok src alnum p q s -> (p < q)%N /\ aw_sel s <= 1 + 2 * dist p q.
Proof.
  intros p q s (_ & (x & H1 & H2) & _). apply start_w in H1 as [H1 H3]. apply (tiles_size _ _ aw_seg 2 seg_w) in H2 as [H2 H4]. unfold aw_sel, dist in *. lia.
Qed.
Lemma text_w : forall p q t, text_ok src alnum p q t -> (p <= q)%N /\ aw_text t <= 1 + dist p q.
Proof.
  intros p q [r|v|c|r] H; cbn in H |- *.
  - apply wd_token in H as [-> H]. lia.
  - destruct H as (x & y & H1 & H2 & H3). apply wd_token in H1 as [_ H1]. apply maybe_token in H2.
    destruct (av_tail v) as [r|r|r]; cbn in H3 |- *; apply wd_token in H3 as [-> H3]; unfold dist; lia.
  - destruct H as (x & y & _ & H1 & H2 & H3 & _). apply wd_token in H1 as [_ H1]. apply wd_token in H2 as [-> H2]. apply maybe_token in H3. unfold dist. lia.
  - apply wd_token in H as [-> H]. lia.
Qed.

Notation node_ok := (node_ok src alnum).
Definition node_w (n : a_node) : Prop := forall p q, node_ok p q n -> (p < q)%N /\ aw n + 1 <= 5 * dist p q.
Lemma items_w : forall l, Forall (fun i : a_item => node_w (snd i)) l -> forall p q, Tiles (item_ok src node_ok) p q l -> (p <= q)%N /\ ais l <= 5 * dist p q.
Proof.
  induction 1 as [|[sp n] l Hn _ IH]; intros p q H; cbn [Tiles] in H; [subst; split; [Lia.lia|cbn; lia]|].
  destruct H as (m & (x & y & H1 & H2 & H3) & H4). cbn [fst snd] in *. apply sgap_le in H1. apply Hn in H3 as [H3 H5]. apply IH in H4 as [H4 H6].
  rewrite ais_cons. cbn [fst snd].
  destruct sp as [r|]; cbn in H2; [apply wd_token in H2 as [-> H2]|subst]; unfold dist in *; lia.
Qed.
Lemma line_w : forall l, Forall (fun i : a_item => node_w (snd i)) (ln_nodes l) -> forall p q, Grammar.line_ok src node_ok p q l -> (p <= q)%N /\ ais (ln_nodes l) <= 5 * dist p q.
Proof.
  intros l Hl p q (x & y & H1 & H2 & H3 & H4 & H5). apply sgap_le in H1, H2, H4, H5. apply (items_w _ Hl) in H3 as [H3 H6]. unfold dist in *. lia.
Qed.
Lemma ne_newline : nonempty new_line.
Proof. apply ne_seqr, ne_seql, ne_exactly. discriminate. Qed.
Lemma lines_w : forall ls, Forall (fun i : a_item => node_w (snd i)) (flat_map ln_nodes ls) -> forall p q, lines_ok src node_ok p q ls -> (p <= q)%N /\ als ls <= 3 + 5 * dist p q.
Proof.
  induction ls as [|l ls IH]; intros HF p q H; [cbn in H; subst; split; [Lia.lia|cbn; lia]|].
  cbn [flat_map] in HF. apply Forall_app in HF as [HF1 HF2]. rewrite als_cons. destruct ls as [|l' ls].
  - apply (line_w _ HF1) in H as [H H']. split; [exact H|]. change (als []) with 0. lia.
  - change (exists x y, Grammar.line_ok src node_ok p x l /\ Tok src new_line x y /\ lines_ok src node_ok y q (l' :: ls)) in H.
    destruct H as (x & y & H1 & H2 & H3). apply (line_w _ HF1) in H1 as [H1 H4]. apply (tok_ne _ _ _ _ ne_newline) in H2.
    apply (IH HF2) in H3 as [H3 H5]. unfold dist in *. lia.
Qed.
Lemma content_w : forall c, Forall (fun i : a_item => node_w (snd i)) (content_items c) -> forall p q, content_ok src node_ok p q c ->
  (p <= q)%N /\ als (ct_lines c) <= 3 + 5 * dist p q.
Proof.
  intros c HF p q (x & y & H1 & H2 & H3 & H4 & H5). apply gap_le in H1, H2, H4, H5. apply (lines_w _ HF) in H3 as [H3 H6]. unfold dist in *. lia.
Qed.
Lemma nodes_w : forall n, node_w n.
Proof.
  apply a_node_ind'. intros s t e IH p q H. pose proof (node_nonempty _ _ _ _ _ H) as Hne. split; [exact Hne|]. destruct H as (_ & H & _).
  assert (1 <= dist p q) as Hd by (unfold dist; lia).
  destruct t as [m|t|sl|el]; cbn [ntype_ok] in H; cbn [aw].
  - destruct H as (x & y & H1 & -> & H2 & -> & H3). apply wd_token in H1 as [_ H1]. apply wd_token in H2 as [_ H2]. apply wd_token in H3 as [_ H3]. unfold wd, dist in *. cbn [r_start r_end]. lia.
  - apply text_w in H as [_ H]. lia.
  - apply sel_w in H as [_ H]. lia.
  - destruct el as [c|b|i|[k o c cl|r]]; cbn [element_ok special_ok type_items element_items] in *.
    + lia.
    + destruct H as (x & y & z & H1 & H2 & H3 & H4). apply (wd_ne _ _ _ _ (ne_exactly (L "{") ltac:(discriminate))) in H1 as [_ H1].
      apply (content_w _ IH) in H2 as [H2 H5]. apply gap_le in H3. apply maybe_token in H4. unfold dist in *. lia.
    + destruct H as (w & x & y & z & H1 & H2 & H3 & H4 & H5). apply (wd_ne _ _ _ _ (ne_exactly (L "<(") ltac:(discriminate))) in H1 as [_ H1].
      apply (items_w _ IH) in H3 as [H3 H6]. apply gap_le in H2, H4. apply maybe_token in H5. unfold dist in *. lia.
    + destruct H as (x & y & H1 & H2 & H3). assert (p < x)%N.
      { apply (wd_ne _ _ _ _ (ne_exactly (special_open k) ltac:(destruct k; discriminate))) in H1. tauto. }
      apply (content_w _ IH) in H2 as [H2 H5]. apply maybe_token in H3. unfold dist in *. lia.
    + apply wd_token in H as [-> H]. lia.
Qed.
Lemma document_w : forall c, document_ok src alnum c -> als (ct_lines c) <= 3 + 5 * N.to_nat (blen src).
Proof.
  intros c (x & y & H1 & H2 & H3). apply gap_le in H1, H3. apply content_w in H2 as [H2 H4]; [|apply Forall_forall; intros; apply nodes_w].
  unfold dist in *. lia.
Qed.
Lemma slice_wd : forall r, length (source_slice src r) <= wd r.
Proof.
  intros r. unfold source_slice, wd. generalize (skip_bytes (r_start r) src) as s. generalize (r_end r - r_start r)%N as n.
  intros n s. revert n. induction s as [|c s IH]; intros n; cbn [take_bytes]; [cbn; lia|]. destruct (N.eqb_spec n 0); [cbn; lia|].
  cbn [length]. specialize (IH (n - utf8_len c)%N). assert (1 <= utf8_len c)%N; [|lia].
  unfold utf8_len. repeat destruct (_ <? _)%N; repeat destruct (_ <=? _)%N; lia.
Qed.
End Source.

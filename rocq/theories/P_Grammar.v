(** * Trees that are readings of a source: where their ranges lie, and what the builder
      makes of them. *)

From Verif Require Import Base Escape Doc Ast Config Errors Build Grammar SpecEscape SpecSource SpecErrors SpecBuild
  P_Base P_Escape P_Build P_BuildAll.

(** ** Positions *)
Lemma boundary_app : forall a b, boundary (a ++ b) (blen a).
Proof. intros a b. now exists a, b. Qed.
Lemma blen_pos : forall s : str, s <> [] -> 0 < blen s.
Proof. intros [|c s] H; [congruence|]. cbn [blen]. pose proof (utf8_len_pos c). lia. Qed.
Lemma skip_bytes_app : forall a b, skip_bytes (blen a) (a ++ b) = b.
Proof.
  induction a as [|c a IH]; intros b; cbn [app blen skip_bytes].
  - destruct b; reflexivity.
  - pose proof (utf8_len_pos c). replace (utf8_len c + blen a =? 0) with false by (symmetry; apply N.eqb_neq; lia).
    replace (utf8_len c + blen a - utf8_len c) with (blen a) by lia. apply IH.
Qed.
Lemma take_bytes_app : forall a b, take_bytes (blen a) (a ++ b) = a.
Proof.
  induction a as [|c a IH]; intros b; cbn [app blen take_bytes].
  - destruct b; reflexivity.
  - pose proof (utf8_len_pos c). replace (utf8_len c + blen a =? 0) with false by (symmetry; apply N.eqb_neq; lia).
    replace (utf8_len c + blen a - utf8_len c) with (blen a) by lia. now rewrite IH.
Qed.
Lemma slice_of : forall src r m, SliceOf src r m -> source_slice src r = m.
Proof.
  intros src r m (a & b & -> & H1 & H2). unfold source_slice. rewrite <- H1, <- H2, skip_bytes_app.
  replace (blen a + blen m - blen a) with (blen m) by lia. apply take_bytes_app.
Qed.
Lemma boundary_split : forall src p q, boundary src p -> boundary src q -> p <= q ->
  exists a m b, src = a ++ m ++ b /\ blen a = p /\ blen a + blen m = q.
Proof.
  intros src p q (a & b & -> & <-) (a' & b' & E & <-) Hle.
  destruct (app_prefix_blen a a' b b' E Hle) as [m ->]. exists a, m, b'.
  rewrite <- app_assoc in E. apply app_inv_head in E. subst b. rewrite blen_app. auto.
Qed.
Lemma sliceable_slice : forall src r, sliceable src r <-> exists m, SliceOf src r m.
Proof.
  intros src r. split.
  - intros (H1 & H2 & H3). destruct (boundary_split _ _ _ H1 H2 H3) as (a & m & b & E & E1 & E2).
    exists m, a, b. auto.
  - intros (m & a & b & -> & H1 & H2). split; [|split].
    + exists a, (m ++ b). auto.
    + exists (a ++ m), b. rewrite <- app_assoc, blen_app. auto.
    + lia.
Qed.

Section Src.
Variable src : str.
Variable alnum : chr -> bool.
Notation B := (boundary src).
Notation OK := (sliceable src).
Notation Tok := (Tok src).
Notation Token := (Token src).

Lemma ok_mk : forall p q, B p -> B q -> p <= q -> OK (mkR p q).
Proof. intros. repeat split; auto. Qed.
Lemma tok_pos : forall a p q, Tok a p q -> B p /\ B q /\ p <= q.
Proof.
  intros a p q (pre & m & post & E & -> & -> & _). split; [|split].
  - exists pre, (m ++ post). auto.
  - exists (pre ++ m), post. rewrite <- app_assoc, blen_app. auto.
  - lia.
Qed.
Lemma token_pos : forall a p q r, Token a p q r -> B p /\ B q /\ p <= q /\ r = mkR p q.
Proof. intros a p q r [-> H]. apply tok_pos in H. tauto. Qed.
Lemma token_ok : forall a p q r, Token a p q r -> OK r.
Proof. intros a p q r H. apply token_pos in H as (H1 & H2 & H3 & ->). now apply ok_mk. Qed.

(** Rules go forward. *)
Definition Fwd {A} (R : N -> N -> A -> Prop) : Prop := forall p q a, R p q a -> B p /\ B q /\ p <= q.
Lemma fwd_token : forall a, Fwd (Token a).
Proof. intros a p q r H. apply token_pos in H. tauto. Qed.
Lemma fwd_tiles : forall A (R : N -> N -> A -> Prop), Fwd R -> forall l p q, B p -> Tiles R p q l -> B q /\ p <= q.
Proof.
  intros A R HR. induction l as [|a l IH]; intros p q Hp H; cbn [Tiles] in H.
  - subst. split; [assumption|lia].
  - destruct H as (m & H1 & H2). apply HR in H1 as (_ & Hm & Hl). apply IH in H2 as [H2 H3]; auto. split; [auto|lia].
Qed.
Lemma fwd_maybe : forall A (R : N -> N -> A -> Prop), Fwd R -> forall o p q, B p -> Maybe R p q o -> B q /\ p <= q.
Proof.
  intros A R HR [a|] p q Hp H; cbn in H.
  - apply HR in H. tauto.
  - subst. split; [auto|lia].
Qed.
Lemma gap_pos : forall p q, Gap src p q -> B p /\ B q /\ p <= q.
Proof. intros p q H. now apply tok_pos in H. Qed.
Lemma spacegap_pos : forall p q, SpaceGap src p q -> B p /\ B q /\ p <= q.
Proof. intros p q H. now apply tok_pos in H. Qed.
Ltac pos :=
  repeat match goal with
  | H : Gap _ _ _ |- _ => apply gap_pos in H as (? & ? & ?)
  | H : SpaceGap _ _ _ |- _ => apply spacegap_pos in H as (? & ? & ?)
  | H : Grammar.Tok _ _ _ _ |- _ => apply tok_pos in H as (? & ? & ?)
  | H : Grammar.Token _ _ _ _ _ |- _ => apply token_pos in H as (? & ? & ? & ?)
  | H : _ /\ _ |- _ => destruct H
  | H : exists _, _ |- _ => destruct H
  end.

Lemma fwd_value : Fwd (value_ok src).
Proof. intros p q [r|r] H; cbn in H; pos; auto. Qed.
Lemma fwd_assign : Fwd (assign_ok src).
Proof.
  intros p q [e v] (x & y & z & H1 & H2 & H3 & H4). apply fwd_value in H4. pos. split; [auto|]. split; [auto|lia].
Qed.
Lemma fwd_attr : Fwd (attr_ok src).
Proof.
  intros p q a (x & y & H1 & H2 & H3 & H4 & H5). pos. apply (fwd_maybe _ _ fwd_assign) in H4; auto. pos.
  split; [auto|]. split; [auto|lia].
Qed.
Lemma fwd_attrs : Fwd (attrs_ok src).
Proof.
  intros p q a (x & y & z & H1 & H2 & H3 & H4 & H5 & H6). apply token_pos in H2 as (? & ? & ? & ?).
  apply (fwd_tiles _ _ fwd_attr) in H3 as []; auto. apply gap_pos in H4 as (? & ? & ?).
  apply (fwd_maybe _ _ (fwd_token _)) in H5 as []; auto. split; [auto|]. split; [auto|lia].
Qed.
Lemma fwd_sel_start : Fwd (sel_start_ok src alnum).
Proof. intros p q [a|e cl] H; cbn in H; [now apply fwd_attrs in H|]. destruct H as [H _]. pos. auto. Qed.
Lemma fwd_segment : Fwd (segment_ok src alnum).
Proof. intros p q [a|cl] H; cbn in H; [now apply fwd_attrs in H|]. destruct H as [H _]. pos. auto. Qed.
Lemma fwd_selector : Fwd (selector_ok src alnum).
Proof.
  intros p q s (H1 & (x & H2 & H3) & H4). apply fwd_sel_start in H2 as (? & ? & ?).
  apply (fwd_tiles _ _ fwd_segment) in H3 as []; auto. split; [auto|]. split; [auto|lia].
Qed.
Lemma fwd_tail : Fwd (tail_ok src).
Proof. intros p q [r|r|r] H; cbn in H; pos; auto. Qed.
Lemma fwd_text : Fwd (text_ok src alnum).
Proof.
  intros p q [r|v|c|r] H; cbn in H; [now apply fwd_token in H| | |now apply fwd_token in H].
  - destruct H as (x & y & H1 & H2 & H3). apply token_pos in H1 as (? & ? & ? & ?).
    apply (fwd_maybe _ _ (fwd_token _)) in H2 as []; auto. apply fwd_tail in H3 as (? & ? & ?). split; [auto|]. split; [auto|lia].
  - destruct H as (x & y & H1 & H2 & H3 & H4 & H5). apply token_pos in H2 as (? & ? & ? & ?). apply token_pos in H3 as (? & ? & ? & ?).
    apply (fwd_maybe _ _ (fwd_token _)) in H4 as []; auto. split; [auto|]. split; [auto|lia].
Qed.
Lemma fwd_multiline : Fwd (multiline_ok src).
Proof. intros p q m (x & y & H1 & H2 & H3 & H4 & H5). pos. split; [auto|]. split; [auto|lia]. Qed.

Notation node_ok := (node_ok src alnum).
Notation item_ok := (item_ok src node_ok).
Notation line_ok := (line_ok src node_ok).
Notation lines_ok := (lines_ok src node_ok).
Notation content_ok := (content_ok src node_ok).

Lemma fwd_item_ : forall sp n, (forall p q, node_ok p q n -> B p /\ B q /\ p <= q) ->
  forall p q, item_ok p q (sp, n) -> B p /\ B q /\ p <= q.
Proof.
  intros sp n Hn p q (x & y & H1 & H2 & H3). apply spacegap_pos in H1 as (? & ? & ?).
  apply (fwd_maybe _ _ (fwd_token _)) in H2 as []; auto. apply Hn in H3 as (? & ? & ?). split; [auto|]. split; [auto|lia].
Qed.
Definition fwd_n (n : a_node) : Prop := forall p q, node_ok p q n -> B p /\ B q /\ p <= q.
Lemma fwd_items_ : forall l, Forall (fun i : a_item => fwd_n (snd i)) l -> forall p q, B p -> Tiles item_ok p q l -> B q /\ p <= q.
Proof.
  induction 1 as [|[sp n] l Hn _ IH]; intros p q Hp H; cbn [Tiles] in H.
  - subst. split; [auto|lia].
  - destruct H as (m & H1 & H2). apply (fwd_item_ _ _ Hn) in H1 as (_ & H1 & H3). apply IH in H2 as []; auto. split; [auto|lia].
Qed.
Lemma fwd_line_ : forall l, Forall (fun i : a_item => fwd_n (snd i)) (ln_nodes l) ->
  forall p q, line_ok p q l -> B p /\ B q /\ p <= q.
Proof.
  intros l Hl p q (x & y & H1 & H2 & H3 & H4 & H5). pos.
  apply (fwd_items_ _ Hl) in H3 as []; auto. split; [auto|]. split; [auto|lia].
Qed.
Lemma fwd_lines_ : forall ls, Forall (fun i : a_item => fwd_n (snd i)) (flat_map ln_nodes ls) ->
  forall p q, B p -> lines_ok p q ls -> B q /\ p <= q.
Proof.
  induction ls as [|l ls IH]; intros HA p q Hp H; cbn [flat_map] in HA.
  - cbn in H. subst. split; [auto|lia].
  - apply Forall_app in HA as [H1 H2]. destruct ls as [|l' ls].
    + cbn in H. apply (fwd_line_ _ H1) in H. tauto.
    + destruct H as (x & y & H3 & H4 & H5). apply (fwd_line_ _ H1) in H3 as (? & ? & ?). pos.
      apply (IH H2) in H5 as []; auto. split; [auto|lia].
Qed.
Lemma fwd_content_ : forall c, Forall (fun i : a_item => fwd_n (snd i)) (content_items c) ->
  forall p q, content_ok p q c -> B p /\ B q /\ p <= q.
Proof.
  intros c Hc p q (x & y & H1 & H2 & H3 & H4 & H5). pos.
  apply (fwd_lines_ _ Hc) in H3 as []; auto. split; [auto|]. split; [auto|lia].
Qed.
Lemma fwd_node : Fwd node_ok.
Proof.
  intros p q n. revert n p q. change (forall n, fwd_n n). apply a_node_ind'. intros s t e IH p q (_ & H & _).
  destruct t as [m|t|sl|el]; cbn [ntype_ok type_items element_items] in *.
  - now apply fwd_multiline in H.
  - now apply fwd_text in H.
  - now apply fwd_selector in H.
  - destruct el as [r|b|i|[k o c cl|r]]; cbn [element_ok special_ok element_items] in *.
    + now apply fwd_token in H.
    + destruct H as (x & y & z & H1 & H2 & H3 & H4). pos. apply (fwd_content_ _ IH) in H2 as (? & ? & ?).
      apply (fwd_maybe _ _ (fwd_token _)) in H4 as []; auto. split; [auto|]. split; [auto|lia].
    + destruct H as (w & x & y & z & H1 & H2 & H3 & H4 & H5). pos. apply (fwd_items_ _ IH) in H3 as []; auto.
      apply (fwd_maybe _ _ (fwd_token _)) in H5 as []; auto. split; [auto|]. split; [auto|lia].
    + destruct H as (x & y & H1 & H2 & H3). pos. apply (fwd_content_ _ IH) in H2 as (? & ? & ?).
      apply (fwd_maybe _ _ (fwd_token _)) in H3 as []; auto. split; [auto|]. split; [auto|lia].
    + now apply fwd_token in H.
Qed.
Lemma fwd_all : forall l, Forall (fun i : a_item => fwd_n (snd i)) l.
Proof. intros l. apply Forall_forall. intros i _ p q H. now apply fwd_node in H. Qed.
Lemma fwd_items : forall l p q, B p -> Tiles item_ok p q l -> B q /\ p <= q.
Proof. intros l. apply fwd_items_, fwd_all. Qed.
Lemma fwd_line : Fwd line_ok.
Proof. intros p q l H. now apply (fwd_line_ _ (fwd_all _)) in H. Qed.
Lemma fwd_lines : forall ls p q, B p -> lines_ok p q ls -> B q /\ p <= q.
Proof. intros ls. apply fwd_lines_, fwd_all. Qed.
Lemma fwd_content : Fwd content_ok.
Proof. intros p q l H. now apply (fwd_content_ _ (fwd_all _)) in H. Qed.

(** ** Tokens are not empty *)
Definition nonempty (a : pat) : Prop := forall pre m post, a pre m post -> m <> [].
Lemma ne_exactly : forall s, s <> [] -> nonempty (exactly s).
Proof. intros s H pre m post E. now rewrite E. Qed.
Lemma ne_one : forall f, nonempty (one f).
Proof. intros f pre m post (c & -> & _). discriminate. Qed.
Lemma ne_seql : forall a b, nonempty a -> nonempty (pseq a b).
Proof. intros a b H pre m post (m1 & m2 & -> & H1 & _) E. apply app_nil in E as [E _]. now apply H in H1. Qed.
Lemma ne_seqr : forall a b, nonempty b -> nonempty (pseq a b).
Proof. intros a b H pre m post (m1 & m2 & -> & _ & H1) E. apply app_nil in E as [_ E]. now apply H in H1. Qed.
Lemma ne_alt : forall a b, nonempty a -> nonempty b -> nonempty (palt a b).
Proof. intros a b H H' pre m post [E|E]; eauto. Qed.
Lemma tok_ne : forall a p q, nonempty a -> Tok a p q -> p < q.
Proof. intros a p q H (pre & m & post & _ & -> & -> & Hm). apply H, blen_pos in Hm. lia. Qed.
Lemma ne_escape : nonempty escape.
Proof. apply ne_alt; apply ne_seql, ne_exactly; discriminate. Qed.
Lemma ne_word_item : forall f, nonempty (word_item f).
Proof. intros f. apply ne_alt; [apply ne_seql, ne_one|]. apply ne_alt; [apply ne_one|apply ne_escape]. Qed.
Lemma ne_chain : nonempty (selector_chain alnum).
Proof. apply ne_seql, ne_seql, ne_word_item. Qed.
Lemma ne_segment : nonempty (text_segment alnum).
Proof. apply ne_seql, ne_seql, ne_seql, ne_word_item. Qed.
Lemma ne_interp : nonempty interpolation_pat.
Proof.
  apply ne_alt; [apply ne_seqr, ne_seql, ne_exactly; discriminate|].
  repeat (apply ne_alt; [apply ne_seql, ne_exactly; discriminate|]). apply ne_seql, ne_exactly. discriminate.
Qed.
Lemma ne_any : nonempty any_chars.
Proof. apply ne_seql, ne_one. Qed.

Lemma node_nonempty : forall p q n, node_ok p q n -> p < q.
Proof.
  assert (forall s p q r, Token (exactly s) p q r -> s <> [] -> p < q) as HE.
  { intros s p q r [_ H] Hs. apply tok_ne in H; [lia|]. now apply ne_exactly. }
  intros p q [s t e] (_ & H & _). destruct t as [m|t|sl|el]; cbn [ntype_ok] in H.
  - destruct H as (x & y & H1 & H2 & H3 & H4 & H5). destruct H1 as [_ H1].
    assert (p < x).
    { eapply tok_ne; [|exact H1]. apply ne_seql, ne_exactly. destruct (am_kind m); discriminate. }
    pos. lia.
  - destruct t as [r|v|c|r]; cbn [text_ok] in H.
    + destruct H as [_ H]. eapply tok_ne; [|exact H]. apply ne_segment.
    + destruct H as (x & y & H1 & H2 & H3). pose proof (HE _ _ _ _ H1 ltac:(discriminate)).
      apply fwd_tail in H3. apply (fwd_maybe _ _ (fwd_token _)) in H2; pos; auto. lia.
    + destruct H as (x & y & H1 & H2 & H3 & H4 & H5). pose proof (HE _ _ _ _ H2 ltac:(discriminate)).
      apply (fwd_maybe _ _ (fwd_token _)) in H4; pos; auto. lia.
    + destruct H as [_ H]. eapply tok_ne; [|exact H]. apply ne_interp.
  - destruct H as (H1 & (x & H2 & H3) & H4). assert (p < x).
    { destruct (as_first sl) as [a|e' cl]; cbn [sel_start_ok] in H2.
      - destruct H2 as (x1 & y1 & z1 & G1 & G2 & G3 & G4 & G5 & G6). pose proof (HE _ _ _ _ G2 ltac:(discriminate)).
        apply token_pos in G2 as (? & ? & ? & ?). apply (fwd_tiles _ _ fwd_attr) in G3 as []; auto. pos.
        apply (fwd_maybe _ _ (fwd_token _)) in G5 as []; auto. lia.
      - destruct H2 as [H2 _]. eapply tok_ne; [|exact H2]. apply ne_chain. }
    apply fwd_sel_start in H2. apply (fwd_tiles _ _ fwd_segment) in H3; pos; auto. lia.
  - destruct el as [r|b|i|[k o c cl|r]]; cbn [element_ok special_ok] in H.
    + eapply HE; [exact H|]. discriminate.
    + destruct H as (x & y & z & H1 & H2 & H3 & H4). pose proof (HE _ _ _ _ H1 ltac:(discriminate)).
      apply fwd_content in H2. apply (fwd_maybe _ _ (fwd_token _)) in H4; pos; auto. lia.
    + destruct H as (w & x & y & z & H1 & H2 & H3 & H4 & H5). pose proof (HE _ _ _ _ H1 ltac:(discriminate)).
      pos. apply fwd_items in H3; auto. apply (fwd_maybe _ _ (fwd_token _)) in H5; pos; auto. lia.
    + destruct H as (x & y & H1 & H2 & H3). assert (p < x).
      { eapply HE; [exact H1|]. destruct k; discriminate. }
      apply fwd_content in H2. apply (fwd_maybe _ _ (fwd_token _)) in H3; pos; auto. lia.
    + destruct H as [_ H]. eapply tok_ne; [|exact H]. apply ne_seql, ne_exactly. discriminate.
Qed.

(** ** What is inside brackets and quotes *)
Lemma tok_inset : forall p q a b, (exists pre x post, src = pre ++ (a ++ x ++ b) ++ post /\ p = blen pre /\
    q = blen pre + blen (a ++ x ++ b)) -> OK (inset (mkR p q) (blen a) (blen b)).
Proof.
  intros p q a b (pre & x & post & E & -> & ->). unfold inset. cbn [r_start r_end]. rewrite !blen_app.
  apply ok_mk; [| |lia].
  - exists (pre ++ a), (x ++ b ++ post). split; [|now rewrite blen_app]. rewrite E. now rewrite <- !app_assoc.
  - exists (pre ++ a ++ x), (b ++ post). split; [|rewrite !blen_app; lia]. rewrite E. now rewrite <- !app_assoc.
Qed.
Lemma lazy_inset : forall p q a n b, Tok (pseq (exactly a) (lazily n (exactly b))) p q -> OK (inset (mkR p q) (blen a) (blen b)).
Proof.
  intros p q a n b (pre & m & post & E & -> & -> & m1 & m2 & -> & H1 & x & y & -> & _ & H2 & _).
  unfold exactly in H1, H2. subst m1 y. apply tok_inset. exists pre, x, post. auto.
Qed.
Lemma quoted_inset : forall p q, Tok quoted_string p q -> OK (inset (mkR p q) 1 1).
Proof.
  assert (forall c p q, utf8_len c = 1 -> Tok (quoted_with c) p q -> OK (inset (mkR p q) 1 1)) as HQ.
  { intros c p q Hc (pre & m & post & E & -> & -> & m1 & m2 & -> & H1 & m3 & m4 & -> & _ & H2).
    unfold exactly in H1, H2. subst m1 m4. replace 1 with (blen [c]) by (cbn; lia).
    apply tok_inset. exists pre, m3, post. auto. }
  intros p q (pre & m & post & E & H1 & H2 & [H|H]); [apply (HQ 34)|apply (HQ 39)]; try reflexivity; exists pre, m, post; auto.
Qed.

(** ** The builder *)
Definition E (d : list syntax_error) : Prop := Forall (points_at src) d.
Definition Sound {A} (m : M A) (Q : A -> Prop) : Prop := Post false m (fun d v => E d /\ Q v).
Lemma sound_ret : forall A (v : A) (Q : A -> Prop), Q v -> Sound (ret v) Q.
Proof. intros. apply post_ret. split; [constructor|assumption]. Qed.
Lemma sound_bind : forall A A' (m : M A) (f : A -> M A') Q Q', Sound m Q -> (forall v, Q v -> Sound (f v) Q') -> Sound (bind m f) Q'.
Proof.
  intros A A' m f Q Q' Hm Hf. eapply post_bind; [exact Hm|]. intros d v [Hd Hv].
  eapply post_impl; [apply Hf, Hv|]. intros d' v' [Hd' Hv']. split; [|exact Hv']. apply Forall_app. now split.
Qed.
Lemma sound_impl : forall A (m : M A) (Q Q' : A -> Prop), Sound m Q -> (forall v, Q v -> Q' v) -> Sound m Q'.
Proof. intros A m Q Q' H HQ. eapply post_impl; [exact H|]. intros d v [? ?]. auto. Qed.
Lemma sound_syntax : forall l (Q : unit -> Prop), E l -> Q tt -> Sound (syntax l) Q.
Proof. intros. apply post_syntax. auto. Qed.
Lemma sound_fuel : forall A (Q : A -> Prop), Sound out_of_fuel Q.
Proof. intros. apply post_fuel. Qed.

Lemma points_ok : forall r k, OK r -> r_start r < r_end r ->
  match k with KUnclosed _ | KInvalidEscape => False | _ => True end -> points_at src (mkSyn r k).
Proof.
  intros r k Hr Hlt Hk. apply sliceable_slice in Hr as (m & Hm). exists m. split; [exact Hm|].
  assert (m <> []) by (intros ->; destruct Hm as (a & b & _ & H1 & H2); cbn [blen] in H2; lia).
  destruct k; auto; contradiction.
Qed.
Lemma points_open : forall s d p q r, Token (exactly s) p q r -> s = opening d -> s <> [] -> points_at src (mkSyn r (KUnclosed d)).
Proof.
  intros s d p q r [-> (pre & m & post & H1 & H2 & H3 & H4)] Hs Hn. unfold exactly in H4. subst m. exists s. split; [|auto].
  exists pre, post. cbn [sy_range r_start r_end]. auto.
Qed.
Lemma sound_close : forall A (R : N -> N -> A -> Prop) y q (o : option A) s d p x r,
  Token (exactly s) p x r -> s = opening d -> s <> [] -> Maybe R y q o ->
  Sound (match o with None => unclosed r d | Some _ => ret tt end) (fun _ => True).
Proof.
  intros A R y q o s d p x r H Hs Hn _. destruct o; [now apply sound_ret|].
  apply sound_syntax; [|trivial]. constructor; [|constructor]. eapply points_open; eauto.
Qed.
Lemma escapes_point : forall r x, OK r -> In x (escape_errors (source_slice src r) (r_start r)) ->
  points_at src (mkSyn x KInvalidEscape).
Proof.
  intros r x Hr Hx. apply sliceable_slice in Hr as (m & Hm). rewrite (slice_of _ _ _ Hm) in Hx.
  destruct Hm as (a & b & Es & H1 & H2).
  destruct (escape_errors_inside _ _ _ Hx) as (pre & bad & post & -> & E1 & E2 & E3). exists (92 :: bad). split.
  - exists (a ++ pre), (post ++ b). split; [rewrite Es; now rewrite <- !app_assoc|]. cbn [sy_range].
    rewrite E1, E2, !blen_app. lia.
  - split; [now exists bad|]. intros c Hc. eapply (E3 pre ((92 :: bad) ++ post)); [reflexivity|lia|exact Hc|reflexivity].
Qed.

Notation slc := (source_slice src).
Definition NI (lo hi : N) (n : node) : Prop :=
  Forall OK (node_ranges n) /\ lo <= r_start (n_range n) /\ r_end (n_range n) <= hi /\
  (is_space n = false -> r_start (n_range n) < r_end (n_range n)) /\
  match n with NElt r e => e_range e = r | NTxt _ _ => True end.
Lemma NI_weak : forall lo hi lo' hi' n, NI lo hi n -> lo' <= lo -> hi <= hi' -> NI lo' hi' n.
Proof. intros lo hi lo' hi' n (H1 & H2 & H3 & H4 & H5) Hl Hh. repeat split; auto; lia. Qed.
Lemma NIs_weak : forall lo hi lo' hi' ns, Forall (NI lo hi) ns -> lo' <= lo -> hi <= hi' -> Forall (NI lo' hi') ns.
Proof. intros. eapply Forall_impl; [|eassumption]. intros n Hn. eapply NI_weak; eauto. Qed.
Lemma NI_ranges : forall lo hi ns, Forall (NI lo hi) ns -> Forall OK (flat_map node_ranges ns).
Proof. intros lo hi ns H. induction H as [|n ns Hn _ IH]; cbn [flat_map]; [constructor|]. apply Forall_app. split; [apply Hn|exact IH]. Qed.
Lemma NI_range : forall lo hi n, NI lo hi n -> OK (n_range n).
Proof. intros lo hi [r e|r t] (H & _); cbn in H; now inversion H. Qed.
Lemma NI_txt : forall lo hi p q t, B p -> B q -> p <= q -> lo <= p -> q <= hi -> Forall OK (text_ranges t) ->
  (p < q \/ exists s, t = TSpace s) -> NI lo hi (NTxt (mkR p q) t).
Proof.
  intros lo hi p q t Hp Hq Hl H1 H2 Ht Hs. repeat split; auto.
  - cbn. constructor; [now apply ok_mk|exact Ht].
  - cbn. destruct Hs as [Hs|(s & ->)]; [auto|discriminate].
Qed.
Definition SelOK (s : selector) : Prop := Forall OK (sel_ranges s).
Lemma sels_ok : forall l, Forall SelOK l -> Forall OK (flat_map sel_ranges l).
Proof. induction 1; cbn [flat_map]; [constructor|]. apply Forall_app. now split. Qed.
Lemma NI_elt : forall lo hi r sels cr ns ty fi raw lo' hi', OK r -> r_start r < r_end r -> lo <= r_start r -> r_end r <= hi ->
  Forall SelOK sels -> OK cr -> Forall (NI lo' hi') ns -> Forall OK (type_ranges ty) ->
  NI lo hi (elt_node (mkElt r sels cr ns ty fi raw)).
Proof.
  intros. repeat split; auto. cbn. repeat (constructor; [assumption|]). apply Forall_app. split; [now apply sels_ok|].
  apply Forall_app. split; [assumption|]. eapply NI_ranges; eauto.
Qed.

Lemma sound_text : forall lo hi p q u eo raw ml, B p -> B q -> p < q -> lo <= p -> q <= hi ->
  Sound (build_text_node slc (mkR p q) u eo raw ml) (NI lo hi).
Proof.
  intros lo hi p q u eo raw ml Hp Hq Hl H1 H2. unfold build_text_node, escapable_slice.
  assert (OK (mkR p q)) as Hr by (apply ok_mk; auto; lia).
  eapply sound_bind with (Q := fun s => s = FromSource (mkR p q)).
  - eapply sound_bind with (Q := fun _ => True).
    + destruct u; [|now apply sound_ret]. apply sound_syntax; [|trivial]. apply Forall_map.
      apply Forall_forall. intros x Hx. eapply escapes_point; eauto.
    + intros. now apply sound_ret.
  - intros s ->. apply sound_ret. apply NI_txt; auto; [lia|]. cbn. constructor; [assumption|constructor].
Qed.
(** The text of inline code may be empty. *)
Lemma sound_text0 : forall r u eo raw ml, OK r -> Sound (build_text_node slc r u eo raw ml)
  (fun n => n = NTxt r (TText (mkText (FromSource r) ml u eo raw)) /\ Forall OK (node_ranges n)).
Proof.
  intros r u eo raw ml Hr. unfold build_text_node, escapable_slice.
  eapply sound_bind with (Q := fun s => s = FromSource r).
  - eapply sound_bind with (Q := fun _ => True).
    + destruct u; [|now apply sound_ret]. apply sound_syntax; [|trivial]. apply Forall_map.
      apply Forall_forall. intros x Hx. eapply escapes_point; eauto.
    + intros. now apply sound_ret.
  - intros s ->. apply sound_ret. split; [reflexivity|]. cbn. auto.
Qed.
Lemma sound_comment : forall p q c lo hi, comment_ok src p q c -> lo <= p -> q <= hi -> Sound (build_comment c) (NI lo hi).
Proof.
  intros p q c lo hi H Hlo Hhi.
  pose proof (node_nonempty p q (ANode p (ANText (AComment c)) q)) as Hne. cbn in Hne.
  assert (p < q) as Hlt by (apply Hne; auto). clear Hne.
  pose proof (fwd_text p q (AComment c) H) as (Hp & Hq & _).
  destruct H as (x & y & H1 & H2 & H3 & H4 & H5). unfold build_comment.
  eapply sound_bind with (Q := fun _ => True); [eapply sound_close; eauto; discriminate|]. intros _ _. apply sound_ret.
  rewrite H1, H5. apply NI_txt; auto; [lia|]. cbn. constructor; [|constructor]. eapply token_ok; eauto.
Qed.
Lemma sound_inline_text : forall p q t lo hi, text_ok src alnum p q t -> lo <= p -> q <= hi -> Sound (build_inline_text slc t) (NI lo hi).
Proof.
  intros p q t lo hi H Hlo Hhi.
  assert (p < q) as Hlt by (apply (node_nonempty p q (ANode p (ANText t) q)); cbn; auto).
  pose proof (fwd_text p q t H) as (Hp & Hq & _).
  destruct t as [r|v|c|r]; cbn [text_ok build_inline_text] in *.
  - destruct H as [-> _]. now apply sound_text.
  - apply sound_ret. destruct H as (x & y & H1 & H2 & H3). unfold build_verbatim.
    assert (exists t r n, av_tail v = t /\ (match t with AVerbatim0 r => (r, 0) | AVerbatim1 r => (r, 1) | AVerbatim2 r => (r, 2) end) = (r, n) /\
       r = mkR y q /\ OK (inset r (n + 1) (n + 3))) as (t & r & n & -> & -> & Er & Ht).
    { destruct (av_tail v) as [r|r|r]; cbn [tail_ok] in H3; destruct H3 as [-> H3]; apply lazy_inset in H3;
        (eexists _, _, _; split; [reflexivity|split; [reflexivity|split; [reflexivity|exact H3]]]). }
    apply token_pos in H1 as (? & ? & ? & ->). apply (fwd_maybe _ _ (fwd_token _)) in H2 as []; auto.
    apply fwd_tail in H3 as (? & ? & ?). subst r. unfold combine. cbn [r_start r_end].
    replace (N.min p y) with p by lia. replace (N.max x q) with q by lia.
    apply NI_txt; auto; try lia. cbn. auto.
  - eapply sound_comment; eauto.
  - destruct H as [-> _]. now apply sound_text.
Qed.
Lemma ne_body : forall qt p q, Tok (multiline_body qt) p q -> p < q.
Proof.
  intros qt p q H. eapply tok_ne; [|exact H]. intros pre m post (x & y & -> & Hx & _) E0. apply app_nil in E0 as [-> _]. cbn in Hx. lia.
Qed.
Lemma sound_multiline : forall p q m lo hi, multiline_ok src p q m -> lo <= p -> q <= hi ->
  Sound (build_multiline slc (mkR p q) m) (NI lo hi).
Proof.
  intros p q m lo hi H Hlo Hhi.
  assert (p < q) as Hlt by (apply (node_nonempty p q (ANode p (ANMultiline m) q)); cbn; auto).
  destruct H as (x & y & H1 & H2 & H3 & H4 & H5). unfold build_multiline. rewrite H2, H4.
  assert (x < y) as Hxy by (destruct H3 as [_ H3]; now apply ne_body in H3). pos.
  eapply sound_bind; [apply (sound_text p q x y); auto; lia|]. intros n Hn. apply sound_ret.
  apply (NI_elt lo hi) with (lo' := p) (hi' := q); auto; try (apply ok_mk; auto; lia); try (now constructor).
Qed.

Lemma attribute_ok : forall p q a, attr_ok src p q a -> Forall OK (attr_ranges (build_attribute a)).
Proof.
  intros p q a H. pose proof (fwd_attr p q a H) as (Hp & Hq & Hl). destruct H as (x & y & H1 & H2 & H3 & H4 & H5).
  unfold attr_ranges, build_attribute. cbn [a_range a_name Doc.a_value slice_ranges app].
  pose proof (token_ok _ _ _ _ H3). pos. constructor; [|constructor; [assumption|]].
  - rewrite H5. apply ok_mk; auto. destruct (aa_assign a) as [ev|]; cbn [Maybe] in H4.
    + apply fwd_assign in H4. lia.
    + lia.
  - destruct (aa_assign a) as [[eq v]|]; cbn [opt_map Maybe] in *; [|constructor].
    destruct H4 as (x1 & y1 & z1 & _ & _ & _ & H4). cbn [snd] in *.
    destruct v as [r|r]; cbn [value_ok] in H4; cbn [slice_ranges]; (apply Forall_cons; [|apply Forall_nil]).
    + eapply token_ok; eauto.
    + destruct H4 as [-> H4]. now apply quoted_inset.
Qed.
Lemma attributes_ok : forall l p q, Tiles (attr_ok src) p q l -> Forall OK (flat_map attr_ranges (map build_attribute l)).
Proof.
  induction l as [|a l IH]; intros p q H; cbn [map flat_map]; [constructor|]. destruct H as (m & H1 & H2).
  apply Forall_app. split; [eapply attribute_ok; eauto|eauto].
Qed.
Lemma sound_attrs : forall p q l, attrs_ok src p q l -> Sound (build_attribute_list l) (fun i => Forall OK (sel_item_ranges i)).
Proof.
  intros p q l H. pose proof (fwd_attrs p q l H) as (Hp & Hq & Hl).
  destruct H as (x & y & z & H1 & H2 & H3 & H4 & H5 & H6). unfold build_attribute_list.
  eapply sound_bind with (Q := fun _ => True); [eapply sound_close; eauto; discriminate|]. intros _ _. apply sound_ret.
  cbn [sel_item_ranges]. constructor; [rewrite H1, H6; now apply ok_mk|eapply attributes_ok; eauto].
Qed.
Lemma sound_class_like : forall p q c, class_like_ok src p q c ->
  Sound (build_class_like c) (fun o => Forall OK (flat_map sel_item_ranges (opt_list o))).
Proof.
  intros p q c H. destruct c as [d i|d i|r]; cbn [class_like_ok build_class_like] in *.
  - destruct H as (x & H1 & H2). apply sound_ret. cbn. repeat (constructor; [eapply token_ok; eauto|]). constructor.
  - destruct H as (x & H1 & H2). apply sound_ret. cbn. repeat (constructor; [eapply token_ok; eauto|]). constructor.
  - eapply sound_bind with (Q := fun _ => True).
    + apply sound_syntax; [|trivial]. constructor; [|constructor]. apply points_ok; [eapply token_ok; eauto| |trivial].
      destruct H as [-> H]. cbn. apply tok_ne in H; [assumption|]. apply ne_any.
    + intros. apply sound_ret. constructor.
Qed.
Lemma sound_mapM : forall A A' (f : A -> M A') (R : N -> N -> A -> Prop) (Q : A' -> Prop),
  (forall p q a, R p q a -> Sound (f a) Q) -> forall l p q, Tiles R p q l -> Sound (mapM f l) (Forall Q).
Proof.
  intros A A' f R Q Hf. induction l as [|a l IH]; intros p q H; cbn [mapM]; [apply sound_ret; constructor|].
  destruct H as (m & H1 & H2). eapply sound_bind; [eapply Hf; eauto|]. intros v Hv.
  eapply sound_bind; [eapply IH; eauto|]. intros vs Hvs. apply sound_ret. now constructor.
Qed.
Lemma flat_opt : forall l : list (option sel_item), Forall (fun o => Forall OK (flat_map sel_item_ranges (opt_list o))) l ->
  Forall OK (flat_map sel_item_ranges (flat_map opt_list l)).
Proof. induction 1; cbn [flat_map]; [constructor|]. rewrite flat_map_app. apply Forall_app. now split. Qed.
Lemma sound_class_likes : forall p q l, Tiles (class_like_ok src) p q l ->
  Sound (build_class_likes l) (fun items => Forall OK (flat_map sel_item_ranges items)).
Proof.
  intros p q l H. unfold build_class_likes. eapply sound_bind; [eapply sound_mapM; [|exact H]; intros; eapply sound_class_like; eauto|].
  intros v Hv. apply sound_ret. now apply flat_opt.
Qed.
Lemma sound_segment : forall p q s, segment_ok src alnum p q s ->
  Sound (build_segment s) (fun items => Forall OK (flat_map sel_item_ranges items)).
Proof.
  intros p q [a|cl] H; cbn [segment_ok build_segment] in *.
  - eapply sound_bind; [eapply sound_attrs; eauto|]. intros v Hv. apply sound_ret. cbn. now rewrite app_nil_r.
  - destruct H as [_ H]. eapply sound_class_likes; eauto.
Qed.
Lemma sound_selector : forall p q s, selector_ok src alnum p q s -> Sound (build_selector s) SelOK.
Proof.
  intros p q s H. pose proof (fwd_selector p q s H) as (Hp & Hq & Hl). destruct H as (H1 & (x & H2 & H3) & H4). unfold build_selector.
  eapply sound_bind with (Q := fun ti : tag * list sel_item => Forall OK (tag_ranges (fst ti)) /\ Forall OK (flat_map sel_item_ranges (snd ti))).
  - destruct (as_first s) as [a|e cl]; cbn [sel_start_ok] in H2.
    + eapply sound_bind; [eapply sound_attrs; eauto|]. intros v Hv. apply sound_ret. cbn. rewrite app_nil_r. auto.
    + destruct H2 as (_ & y & H5 & H6). eapply sound_bind; [eapply sound_class_likes; eauto|]. intros v Hv. apply sound_ret.
      split; [|exact Hv]. cbn [fst]. destruct e as [[r|r]|]; cbn [Maybe elt_sel_ok build_tag tag_ranges slice_ranges] in *;
        repeat constructor; eapply token_ok; eauto.
  - intros [t items] [Ht Hi]. cbn [fst snd] in *. eapply sound_bind; [eapply sound_mapM; [|exact H3]; intros; eapply sound_segment; eauto|].
    intros more Hm. apply sound_ret. unfold SelOK, sel_ranges. cbn [s_range s_tag s_items]. rewrite H1, H4.
    constructor; [now apply ok_mk|]. apply Forall_app. split; [assumption|]. rewrite flat_map_app. apply Forall_app. split; [assumption|].
    clear -Hm. induction Hm; cbn [concat]; [constructor|]. rewrite flat_map_app. apply Forall_app. now split.
Qed.
Lemma sel_empty_ok : forall p, B p -> SelOK (sel_empty p).
Proof. intros p Hp. constructor; [|constructor]. apply ok_mk; auto. lia. Qed.

Lemma sound_validate : forall lo hi ns last, Forall (NI lo hi) ns ->
  match last with Some (_, r) => OK r /\ r_start r < r_end r | None => True end -> Sound (validate_from last ns) (fun _ => True).
Proof.
  intros lo hi ns. induction ns as [|n ns IH]; intros last Hn Hl; cbn [validate_from]; [now apply sound_ret|].
  inversion Hn as [|? ? H1 H2]; subst. pose proof (NI_range _ _ _ H1) as Hr.
  assert (is_space n = false -> Sound
     ((match last with
           | None => ret tt
           | Some (lt, lr) =>
               if stands_alone lt then misplaced lr (MustNotPrecede lt [item_type_of n])
               else if stands_alone (item_type_of n) then misplaced (n_range n) (MustNotFollow [lt] (item_type_of n))
               else ret tt
           end) ;* validate_from (Some (item_type_of n, n_range n)) ns) (fun _ => True)) as HM.
  { intros Hs. assert (r_start (n_range n) < r_end (n_range n)) as Hlt by (apply H1; exact Hs).
    eapply sound_bind with (Q := fun _ => True); [|intros _ _; apply IH; auto].
    destruct last as [[lt lr]|]; [|now apply sound_ret]. destruct Hl as [Hl1 Hl2].
    destruct (stands_alone lt); [|destruct (stands_alone (item_type_of n)); [|now apply sound_ret]];
      (apply sound_syntax; [|trivial]; constructor; [|constructor]; apply points_ok; auto; exact I). }
  destruct n as [r e|r [t|s|s]].
  - specialize (HM eq_refl). cbn [item_type_of] in *. destruct (e_type e); exact HM.
  - exact (HM eq_refl).
  - cbn [item_type_of]. now apply IH.
  - cbn [item_type_of]. now apply IH.
Qed.
Lemma NI_elt0 : forall lo hi r sels cr ns ty fi raw, OK r -> r_start r < r_end r -> lo <= r_start r -> r_end r <= hi ->
  Forall SelOK sels -> OK cr -> Forall OK (flat_map node_ranges ns) -> Forall OK (type_ranges ty) ->
  NI lo hi (elt_node (mkElt r sels cr ns ty fi raw)).
Proof.
  intros. repeat split; auto. cbn. repeat (constructor; [assumption|]). apply Forall_app. split; [now apply sels_ok|].
  apply Forall_app. now split.
Qed.
Lemma NI_elt_inv : forall lo hi r e, NI lo hi (NElt r e) -> e_range e = r /\ OK r /\ r_start r < r_end r /\ lo <= r_start r /\ r_end r <= hi /\
  Forall OK (flat_map sel_ranges (e_selectors e)) /\ OK (e_crange e) /\ Forall OK (flat_map node_ranges (e_nodes e)) /\
  Forall OK (type_ranges (e_type e)).
Proof.
  intros lo hi r e (H1 & H2 & H3 & H4 & H5). cbn in H1, H2, H3, H4. inversion H1 as [|? ? R1 H1']; subst.
  inversion H1' as [|? ? R2 H1'']; subst. inversion H1'' as [|? ? R3 H]; subst. apply Forall_app in H as [G1 G2]. apply Forall_app in G2 as [G2 G3].
  repeat split; auto; try apply R2; try apply R3.
Qed.
Lemma ok_ends : forall r, OK r -> B (r_start r) /\ B (r_end r) /\ r_start r <= r_end r.
Proof. intros r H. exact H. Qed.

Lemma NI_append : forall lo s t le out line out' line', Forall (NI lo le) out -> Forall (NI s t) line ->
  B le -> B s -> B t -> le <= s -> s <= t ->
  append_to_previous out line (mkR s t) le = (out', line') ->
  Forall (NI lo t) out' /\ Forall (NI s t) line' /\ (line' <> [] -> Forall (NI lo le) out').
Proof.
  intros lo s t le out line out' line' Ho Hl Ble Bs Bt H1 H2 E0. unfold append_to_previous in E0. cbn [r_start r_end] in E0.
  assert (Hsame : (out, line) = (out', line') ->
    Forall (NI lo t) out' /\ Forall (NI s t) line' /\ (line' <> [] -> Forall (NI lo le) out')).
  { intros H. injection H as <- <-. split; [|split]; auto. eapply NIs_weak; eauto; lia. }
  destruct out as [|[r e|] before]; try (now apply Hsame).
  inversion Ho as [|? ? Hn Hb]; subst. apply NI_elt_inv in Hn as (Er & Or & Lr & R1 & R2 & K1 & K2 & K3 & K4).
  assert (forall ty, e_type e = ty -> Forall OK (type_ranges ty) -> NI lo t (NElt (mkR (r_start r) t)
     (with_range (with_nodes e (e_nodes e ++ line_end le s :: line)) (mkR (r_start (e_range e)) t)))) as HA.
  { intros ty _ _. rewrite Er. apply ok_ends in Or as (O1 & O2 & O3). repeat split; cbn; auto; try lia.
    cbn. repeat (constructor; [first [assumption|apply ok_mk; auto; lia]|]).
    apply Forall_app. split; [assumption|]. apply Forall_app. split; [assumption|]. rewrite flat_map_app. apply Forall_app. split; [assumption|].
    cbn. constructor; [apply ok_mk; auto|]. eapply NI_ranges; eauto. }
  destruct (e_type e) as [|[]| | | |] eqn:Et; try (now apply Hsame); injection E0 as <- <-;
    (split; [|split; [constructor|congruence]]; constructor; [eapply HA; eauto|]; eapply NIs_weak; eauto; lia).
Qed.
Lemma NI_space : forall lo hi p q s, B p -> B q -> p <= q -> lo <= p -> q <= hi -> text_ranges (TSpace s) = [] ->
  NI lo hi (NTxt (mkR p q) (TSpace s)).
Proof. intros lo hi p q s ? ? ? ? ? Hs. apply NI_txt; auto; [rewrite Hs; constructor|]. right. eauto. Qed.
Lemma NI_add_line : forall lo s t le out line p, Forall (NI lo le) out -> Forall (NI s t) line ->
  B le -> B s -> B t -> lo <= le -> le <= s -> s < t -> Forall (NI lo t) (add_line out line (mkR s t) le p).
Proof.
  intros lo s t le out line p Ho Hl Ble Bs Bt H0 H1 H2. unfold add_line. cbn [r_start].
  destruct (if starts_with_element line then (out, line) else append_to_previous out line (mkR s t) le) as [out' line'] eqn:E0.
  assert (Forall (NI lo t) out' /\ Forall (NI s t) line' /\ (line' <> [] -> Forall (NI lo le) out')) as (Ho' & Hl' & Hle).
  { destruct (starts_with_element line); [injection E0 as <- <-|eapply NI_append; eauto; lia].
    split; [|split]; auto. eapply NIs_weak; eauto; lia. }
  destruct line' as [|n0 line']; [assumption|].
  set (o2 := if existsb is_visible out' then _ else _).
  assert (Forall (NI lo t) o2) as Ho2.
  { subst o2. destruct (existsb is_visible out'); [|assumption]. constructor; [|assumption]. apply NI_space; auto; lia. }
  destruct (p && _ && _).
  - constructor; [|assumption]. eapply NI_elt; try eassumption; cbn; auto; try lia; apply ok_mk; auto; lia.
  - apply Forall_app. split; [apply Forall_rev|assumption]. eapply NIs_weak; eauto; lia.
Qed.
Lemma NI_inline_first : forall p q line line', B p -> B q -> p < q -> inline_first (mkR p q) line = Some line' ->
  Forall (NI p q) line -> Forall (NI p q) line'.
Proof.
  intros p q line line' Hp Hq Hlt. revert line'. induction line as [|n line IH]; cbn [inline_first]; intros line' H Hl; [discriminate|].
  inversion Hl as [|? ? Hn Hr]; subst. destruct (is_visible n).
  - destruct n as [r0 e|]; [|discriminate]. destruct (e_type e) eqn:Et; try discriminate. injection H as <-.
    apply NI_elt_inv in Hn as (Er & Or & Lr & R1 & R2 & K1 & K2 & K3 & K4). constructor; [|assumption].
    repeat split; cbn; auto; try lia. repeat (constructor; [first [assumption|apply ok_mk; auto; lia]|]).
    apply Forall_app. split; [assumption|]. apply Forall_app. split; [now rewrite Et in K4|assumption].
  - destruct (inline_first (mkR p q) line) as [l'|] eqn:E0; [|discriminate]. injection H as <-. constructor; auto.
Qed.

Definition RR (p q lo : N) (r : list a_item * list node) : Prop :=
  (exists p', p <= p' /\ B p' /\ Tiles item_ok p' q (fst r)) /\ Forall (NI lo q) (snd r).
Definition BlockSound (p q : N) (range : lrange) (e : element) : Prop :=
  e_range e = range /\ e_selectors e = [] /\ e_type e = Standard (DBlock range) /\ OK (e_crange e) /\
  Forall OK (flat_map node_ranges (e_nodes e)).
Lemma RR_weak : forall p q lo p' lo' r, RR p q lo r -> p' <= p -> lo' <= lo -> RR p' q lo' r.
Proof.
  intros p q lo p' lo' r [(x & H1 & H2 & H3) H4] Hp Hl. split; [exists x; split; [lia|auto]|]. eapply NIs_weak; eauto; lia.
Qed.

Theorem build_sound : forall f,
  (forall c par p q, content_ok p q c -> Sound (build_content slc f c par) (Forall (NI p q))) /\
  (forall ls le out par p q lo, lines_ok p q ls -> B p -> B le -> le <= p -> lo <= le -> Forall (NI lo le) out ->
     Sound (build_lines slc f ls le out par) (Forall (NI lo q))) /\
  (forall ns p q, B p -> Tiles item_ok p q ns -> Sound (build_line slc f ns) (RR p q p)) /\
  (forall ns p q, B p -> Tiles item_ok p q ns -> Sound (extend_line slc f ns) (RR p q p)) /\
  (forall pr ns sels la p q, OK pr -> r_start pr < r_end pr -> r_end pr <= p -> B p -> Tiles item_ok p q ns -> Forall SelOK sels -> OK la ->
     Sound (post_child slc f pr ns sels la) (RR p q (r_start pr))) /\
  (forall pr ns sels la p q, OK pr -> r_start pr < r_end pr -> r_end pr <= p -> B p -> Tiles item_ok p q ns -> Forall SelOK sels -> OK la ->
     Sound (post_selector slc f pr ns sels la) (RR p q (r_start pr))) /\
  (forall r b par p q, block_ok src node_ok p q b -> Sound (build_block slc f r b par) (BlockSound p q r)) /\
  (forall i p q, inline_ok src node_ok p q i -> p < q -> Sound (build_inline slc f (mkR p q) i) (Forall (NI p q))) /\
  (forall s p q, special_ok src node_ok p q s -> p < q -> Sound (build_special slc f (mkR p q) s) (fun e => NI p q (elt_node e))) /\
  (forall e p q, element_ok src node_ok p q e -> p < q -> Sound (build_element slc f (mkR p q) e) (Forall (NI p q))).
Proof.
  induction f as [|f IH].
  { repeat split; intros; apply sound_fuel. }
  destruct IH as (Ic & Il & Ibl & Iel & Ipc & Ips & Ibb & Ibi & Ibs & Ibe).
  split; [|split; [|split; [|split; [|split; [|split; [|split; [|split; [|split]]]]]]]].
  - intros c par p q (x & y & H1 & H2 & H3 & H4 & H5). cbn [build_content].
    assert (Hxy : B y /\ x <= y) by (pos; eapply fwd_lines; eauto).
    pos. eapply sound_bind; [eapply Il with (p := x) (lo := p); eauto; lia|].
    intros v Hv. apply sound_ret. apply Forall_rev. eapply NIs_weak; eauto; lia.
  - intros ls le out par p q lo H Hp Hle Hl1 Hl2 Ho. cbn [build_lines]. destruct ls as [|l ls].
    { cbn in H. subst. apply sound_ret. eapply NIs_weak; eauto; lia. }
    assert (exists x y, line_ok p x l /\ x <= y /\ B y /\ lines_ok y q ls) as (x & y & HL & Hxy & By & Hrest).
    { destruct ls as [|l' ls'].
      - cbn in H. exists q, q. apply fwd_line in H as HF. split; [exact H|]. split; [lia|]. split; [tauto|reflexivity].
      - destruct H as (x & y & H1 & H2 & H3). exists x, y. pos. auto. }
    destruct HL as (a & b & H1 & H2 & H3 & H4 & H5). pos.
    eapply sound_bind with (Q := Forall (NI lo (ln_end l))).
    + destruct (ln_nodes l) as [|n ns] eqn:En.
      * cbn in H3. subst a. apply sound_ret. constructor; [apply NI_space; auto; lia|]. eapply NIs_weak; eauto; lia.
      * assert (a < b).
        { cbn [Tiles] in H3. destruct H3 as (m & H3 & H3'). destruct n as [sp n].
          destruct H3 as (x1 & y1 & G1 & G2 & G3). apply spacegap_pos in G1 as (? & ? & ?).
          apply (fwd_maybe _ _ (fwd_token _)) in G2 as []; auto. pose proof (node_nonempty _ _ _ G3).
          apply fwd_node in G3 as (? & ? & ?). apply fwd_items in H3' as []; auto. lia. }
        eapply sound_bind; [eapply Ibl; [|exact H3]; auto|].
        intros [rest line] [_ Hline]. apply sound_ret. cbn [snd] in Hline.
        apply NI_add_line with (le := le); auto; try lia. eapply NIs_weak; eauto; lia.
    + intros out' Ho'. assert (B b /\ a <= b) as [] by (eapply fwd_items; eauto).
      eapply Il; [exact Hrest| | | | |exact Ho']; auto; lia.
  - intros ns p q Hp H. cbn [build_line]. eapply sound_bind; [eapply Iel; eauto|]. intros [rest out] HR.
    eapply sound_bind; [eapply sound_validate; [apply HR|exact I]|]. intros _ _. now apply sound_ret.
  - intros ns p q Hp H. cbn [extend_line]. destruct ns as [|[sp [s t n]] rest].
    { apply sound_ret. split; [|constructor]. exists p. split; [lia|]. auto. }
    cbn [Tiles] in H. destruct H as (m & (x & y & H1 & H2 & H3) & H4). cbn [fst snd] in H2, H3.
    pose proof (node_nonempty _ _ _ H3) as Hym. pose proof (fwd_node _ _ _ H3) as (By & Bm & _).
    apply spacegap_pos in H1 as (_ & Bx & Hpx).
    assert (x <= y) as Hxy by (apply (fwd_maybe _ _ (fwd_token _)) in H2; tauto).
    destruct (fwd_items _ _ _ Bm H4) as [Bq Hmq].
    destruct H3 as (-> & H3 & ->).
    set (spn := match sp with Some r => [exact_space r] | None => [] end).
    assert (Hsp : Forall (NI p q) spn).
    { subst spn. destruct sp as [r|]; [|constructor]. cbn in H2. apply token_ok in H2 as Hr. destruct H2 as [-> H2].
      constructor; [|constructor]. apply NI_txt; auto; try lia; [|right; eauto]. cbn. auto. }
    assert (Hgen : forall c, Sound c (RR m q p) ->
      Sound (let* (rest', out) := c in let* (rest'', out') := extend_line slc f rest' in
            ret (rest'', spn ++ out ++ out')) (RR p q p)).
    { intros c Hc. eapply sound_bind; [exact Hc|]. intros [r out] [(p1 & G1 & G2 & G3) G4]. cbn [fst snd] in *.
      eapply sound_bind; [eapply Iel; eauto|]. intros [r2 out2] [(p2 & K1 & K2 & K3) K4]. cbn [fst snd] in *.
      apply sound_ret. split; [exists p2; split; [lia|auto]|]. cbn [snd].
      apply Forall_app. split; [exact Hsp|]. apply Forall_app. split; [exact G4|]. eapply NIs_weak; eauto; lia. }
    assert (Hend : forall nn, Forall (NI y m) nn -> RR m q p (rest, nn)).
    { intros nn Hnn. split; [exists m; split; [lia|auto]|]. cbn. eapply NIs_weak; eauto; lia. }
    assert (OK (mkR y m)) as Oym by (apply ok_mk; auto; lia).
    destruct t as [ml|t|sl|e]; cbn [ntype_ok] in H3.
    + apply Hgen. eapply sound_bind; [eapply sound_multiline with (lo := y) (hi := m); eauto; lia|]. intros v Hv. apply sound_ret. auto.
    + apply Hgen. eapply sound_bind; [eapply sound_inline_text with (lo := y) (hi := m); eauto; lia|]. intros v Hv. apply sound_ret. auto.
    + apply Hgen. eapply sound_bind; [eapply sound_selector; eauto|]. intros v Hv.
      eapply sound_impl; [eapply Ips with (p := m); eauto; cbn; lia|]. intros v' Hv'. eapply RR_weak; [exact Hv'| |]; cbn; lia.
    + assert (Hel : Sound (let* out := build_element slc f (mkR y m) e in ret (rest, out)) (RR m q p)).
      { eapply sound_bind; [eapply Ibe; eauto|]. intros v Hv. apply sound_ret. auto. }
      destruct e as [c|b|i|sp']; try (apply Hgen; exact Hel).
      eapply sound_bind; [eapply Ipc with (p := m); eauto; cbn; try lia|].
      * constructor; [|constructor]. now apply sel_empty_ok.
      * intros [r out] [(p1 & G1 & G2 & G3) G4]. cbn [fst snd r_start] in *. apply sound_ret.
        split; [exists p1; split; [lia|auto]|]. cbn [snd]. apply Forall_app. split; [exact Hsp|]. eapply NIs_weak; eauto; lia.
  - intros pr ns sels la p q Opr Lpr Hpr Hp H Hs Ola. cbn [post_child]. apply ok_ends in Opr as (O1 & O2 & O3).
    assert (Hfall : Sound (let* (rest, children) := build_line slc f ns in
        ret (rest, [elt_node (mkElt match rev children with n :: _ => Doc.combine pr (n_range n) | [] => pr end
             sels (mkR (r_end pr) (r_end match rev children with n :: _ => Doc.combine pr (n_range n) | [] => pr end))
             children (Standard (DLine la)) false false)])) (RR p q (r_start pr))).
    { eapply sound_bind; [eapply Ibl; eauto|]. intros [r out] [H1 H2]. cbn [snd fst] in *. apply sound_ret.
      split; [exact H1|]. constructor; [|constructor]. destruct (fwd_items _ _ _ Hp H) as [Bq Hq].
      assert (exists z, match rev out with n :: _ => Doc.combine pr (n_range n) | [] => pr end = mkR (r_start pr) z /\
         B z /\ r_end pr <= z /\ z <= q) as (z & -> & Bz & Z1 & Z2).
      { destruct (rev out) as [|n l] eqn:Er.
        - exists (r_end pr). destruct pr as [a b]; cbn in *. split; [reflexivity|]. split; [auto|]. split; lia.
        - assert (NI p q n) as Hn. { rewrite Forall_forall in H2. apply H2. apply in_rev. rewrite Er. now left. }
          pose proof (NI_range _ _ _ Hn) as (R1 & R2 & R3). destruct Hn as (_ & N1 & N2 & _).
          exists (r_end (n_range n)). unfold Doc.combine.
          replace (N.min (r_start pr) (r_start (n_range n))) with (r_start pr) by lia.
          replace (N.max (r_end pr) (r_end (n_range n))) with (r_end (n_range n)) by lia. split; [reflexivity|]. split; [auto|]. split; lia. }
      eapply NI_elt with (lo' := p) (hi' := q); cbn [r_start r_end]; auto; try lia; try (apply ok_mk; auto; lia).
      cbn. auto. }
    destruct ns as [|[sp [s t n]] rest]; [exact Hfall|].
    cbn [Tiles] in H. destruct H as (m & (x & y & H1 & H2 & H3) & H4). cbn [fst snd] in H2, H3.
    pose proof (node_nonempty _ _ _ H3) as Hym. pose proof (fwd_node _ _ _ H3) as (By & Bm & _).
    apply spacegap_pos in H1 as (_ & Bx & Hpx).
    assert (x <= y) as Hxy by (apply (fwd_maybe _ _ (fwd_token _)) in H2; tauto).
    destruct (fwd_items _ _ _ Bm H4) as [Bq Hmq].
    destruct H3 as (-> & H3 & ->).
    assert (OK (mkR y m)) as Oym by (apply ok_mk; auto; lia).
    assert (OK (mkR (r_start pr) m)) as Opm by (apply ok_mk; auto; lia).
    destruct t as [ml|t|sl|e]; try exact Hfall; cbn [ntype_ok] in H3.
    + eapply sound_bind; [eapply sound_selector; eauto|]. intros v Hv.
      eapply sound_impl; [eapply Ips with (p := m); eauto; cbn; try lia; apply Forall_app; auto|].
      intros v' Hv'. eapply RR_weak; [exact Hv'| |]; cbn; lia.
    + destruct e as [c|b|i|sp']; try exact Hfall; cbn [element_ok] in H3.
      * eapply sound_impl; [eapply Ipc with (p := m); eauto; cbn; try lia|].
        -- apply Forall_app. split; [assumption|]. constructor; [now apply sel_empty_ok|constructor].
        -- eapply token_ok; eauto.
        -- intros v' Hv'. eapply RR_weak; [exact Hv'| |]; cbn; lia.
      * eapply sound_bind; [eapply Ibb; eauto|]. intros e (G1 & G2 & G3 & G4 & G5). apply sound_ret.
        split; [exists m; split; [lia|auto]|]. constructor; [|constructor].
        unfold with_type, with_selectors. cbn [e_range e_selectors e_crange e_nodes e_format_inline e_raw]. rewrite G1.
        apply NI_elt0; cbn [r_start r_end]; auto; try lia. cbn. auto.
  - intros pr ns sels la p q Opr Lpr Hpr Hp H Hs Ola. cbn [post_selector]. apply ok_ends in Opr as (O1 & O2 & O3).
    destruct ns as [|[sp [s t n]] rest].
    { apply sound_ret. split; [exists p; split; [lia|auto]|constructor]. }
    pose proof H as Hall.
    cbn [Tiles] in H. destruct H as (m & (x & y & H1 & H2 & H3) & H4). cbn [fst snd] in H2, H3.
    pose proof (node_nonempty _ _ _ H3) as Hym. pose proof (fwd_node _ _ _ H3) as (By & Bm & _).
    apply spacegap_pos in H1 as (_ & Bx & Hpx).
    assert (x <= y) as Hxy by (apply (fwd_maybe _ _ (fwd_token _)) in H2; tauto).
    destruct (fwd_items _ _ _ Bm H4) as [Bq Hmq].
    destruct H3 as (-> & H3 & ->).
    assert (OK (mkR y m)) as Oym by (apply ok_mk; auto; lia).
    assert (OK (mkR (r_start pr) m)) as Opm by (apply ok_mk; auto; lia).
    assert (Hmis : forall k, Sound (misplaced (mkR y m) k ;* ret ((sp, ANode y t m) :: rest, [])) (RR p q (r_start pr))).
    { intros k. eapply sound_bind with (Q := fun _ => True).
      - apply sound_syntax; [|trivial]. constructor; [|constructor]. apply points_ok; auto.
      - intros _ _. apply sound_ret. split; [|constructor]. exists p. split; [lia|]. split; [auto|]. exact Hall. }
    destruct t as [ml|t|sl|e]; try exact (Hmis _); cbn [ntype_ok] in H3.
    + destruct t; try exact (Hmis _). cbn [text_ok] in H3.
      eapply sound_bind; [eapply sound_comment with (lo := y) (hi := m); eauto; lia|]. intros v Hv.
      eapply sound_bind; [eapply Ips with (p := m); eauto; cbn; lia|]. intros [r out] [(p1 & G1 & G2 & G3) G4]. cbn [fst snd r_start] in *.
      apply sound_ret. split; [exists p1; split; [lia|auto]|]. constructor; [|exact G4]. eapply NI_weak; eauto; lia.
    + destruct H3 as (G1 & _ & G2). rewrite G1, G2. apply Hmis.
    + destruct e as [c|b|i|sp']; try exact (Hmis _); cbn [element_ok] in H3.
      * eapply sound_impl; [eapply Ipc with (p := m); eauto; cbn; try lia; eapply token_ok; eauto|].
        intros v' Hv'. eapply RR_weak; [exact Hv'| |]; cbn; lia.
      * eapply sound_bind; [eapply Ibb; eauto|]. intros e (G1 & G2 & G3 & G4 & G5). apply sound_ret.
        split; [exists m; split; [lia|auto]|]. constructor; [|constructor].
        unfold with_selectors. rewrite G1. apply NI_elt0; cbn [r_start r_end]; auto; try lia. rewrite G3. cbn. auto.
  - intros r b par p q (x & y & z & H1 & H2 & H3 & H4). cbn [build_block].
    eapply sound_bind with (Q := fun _ => True); [eapply sound_close; eauto; discriminate|]. intros _ _.
    pose proof (fwd_content _ _ _ H2) as (Bx & By & Hxy).
    eapply sound_bind; [eapply Ic; eauto|]. intros v Hv. apply sound_ret.
    assert (OK (mkR (ct_start (bk_content b)) (ct_end (bk_content b)))) as Hc.
    { destruct H2 as (x1 & y1 & G1 & G2 & G3 & G4 & G5). pos. apply fwd_lines in G3 as []; auto. apply ok_mk; auto. lia. }
    repeat split; try apply Hc. eapply NI_ranges; eauto.
  - intros i p q (w & x & y & z & H1 & H2 & H3 & H4 & H5) Hlt. cbn [build_inline].
    eapply sound_bind with (Q := fun _ => True); [eapply sound_close; eauto; discriminate|]. intros _ _.
    pos. assert (B y /\ x <= y) as [By Hxy] by (eapply fwd_items; [|exact H3]; auto).
    assert (B q /\ z <= q) as [Bq Hzq] by (eapply (fwd_maybe _ _ (fwd_token _)); [|exact H5]; auto).
    eapply sound_bind; [eapply Ibl; [|exact H3]; auto|]. intros [rest line] [_ Hl]. cbn [snd] in Hl.
    eapply sound_bind; [eapply sound_validate; [exact Hl|exact I]|]. intros _ _. apply sound_ret.
    assert (Forall (NI p q) line) as Hl' by (eapply NIs_weak; eauto; lia).
    destruct (inline_first (mkR p q) line) as [l'|] eqn:E0.
    + eapply NI_inline_first; [| | |exact E0|]; auto.
    + constructor; [|constructor].
      eapply NI_elt with (lo' := p) (hi' := q); cbn [r_start r_end]; auto; try lia; try (apply ok_mk; auto; lia); try solve [constructor].
      match goal with H : in_open i = _ |- _ => rewrite H end. cbn [r_end].
      destruct (in_close i) as [c|]; cbn [Maybe] in H5.
      * apply token_pos in H5 as (? & ? & ? & ->). cbn [r_start]. apply ok_mk; auto. lia.
      * apply ok_mk; auto. lia.
  - intros s p q H Hlt. cbn [build_special]. destruct s as [k o c cl|code]; cbn [special_ok] in H.
    + destruct H as (x & y & H1 & H2 & H3).
      pose proof (fwd_content _ _ _ H2) as (Bx & By & Hxy).
      destruct (fwd_maybe _ _ (fwd_token _) _ _ _ By H3) as [Bq Hyq].
      eapply sound_bind with (Q := fun _ => True); [eapply sound_close; [exact H1|destruct k; reflexivity|destruct k; discriminate|exact H3]|].
      intros _ _. apply token_pos in H1 as (? & ? & ? & ?).
      eapply sound_bind; [eapply Ic; eauto|]. intros v Hv. apply sound_ret.
      assert (OK (mkR (ct_start c) (ct_end c))) as Hc.
      { destruct H2 as (x1 & y1 & G1 & G2 & G3 & G4 & G5). pos. apply fwd_lines in G3 as []; auto. apply ok_mk; auto. lia. }
      eapply NI_elt; try eassumption; cbn; auto; try lia. apply ok_mk; auto. lia.
    + pose proof (fwd_token _ _ _ _ H) as (Bp & Bq & _). destruct H as [-> H]. apply lazy_inset in H.
      eapply sound_bind; [eapply (sound_text0 (inset (mkR p q) 2 2)); exact H|]. intros v [-> Hv]. apply sound_ret.
      apply NI_elt0; cbn [r_start r_end]; auto; try lia; try (apply ok_mk; auto; lia); try solve [constructor].
  - intros e p q H Hlt. cbn [build_element]. destruct e as [c|b|i|sp]; cbn [element_ok] in H.
    + apply sound_ret. pose proof (fwd_token _ _ _ _ H) as (Bp & Bq & _). constructor; [|constructor].
      eapply NI_elt with (lo' := p) (hi' := q); cbn [r_start r_end]; auto; try lia; try (apply ok_mk; auto; lia); try solve [constructor].
      cbn. constructor; [eapply token_ok; eauto|constructor].
    + pose proof (fwd_node p q (ANode p (ANElement (ABlockElt b)) q)) as (Bp & Bq & _); [cbn; auto|].
      eapply sound_bind; [eapply Ibb; eauto|]. intros v (G1 & G2 & G3 & G4 & G5). apply sound_ret. constructor; [|constructor].
      destruct v as [vr vs vc vn vt vf vw]; cbn in *. subst. apply NI_elt0; cbn [r_start r_end]; auto; try lia; try (apply ok_mk; auto; lia).
      cbn. constructor; [apply ok_mk; auto; lia|constructor].
    + apply Ibi; auto.
    + eapply sound_bind; [eapply Ibs; eauto|]. intros v Hv. apply sound_ret. auto.
Qed.

Theorem from_ast_sound : forall c, document_ok src alnum c ->
  Sound (from_ast slc c) (fun ns => Forall OK (flat_map node_ranges ns)).
Proof.
  intros c (x & y & H1 & H2 & H3). eapply sound_impl; [eapply (proj1 (build_sound _)); eauto|].
  intros ns H. eapply NI_ranges; eauto.
Qed.
End Src.

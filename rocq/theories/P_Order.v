(** * The faults of a source come one after the other (for C72). *)

From Verif Require Import Base Doc Config Ast Errors Escape Convert Build Grammar SpecEscape SpecTree SpecBuild SpecSource SpecErrors SpecFaults SpecPlaces
  P_Base P_Escape P_Build P_BuildAll P_Marks P_Grammar P_Source P_Faults P_Accept P_Places.
From Coq Require Import Lia.

Section Source.
Variable src : str.
Variable alnum : chr -> bool.
Notation slc := (source_slice src).
Notation node_ok := (node_ok src alnum).
Notation nfs := (node_faults escape_errors slc).
Notation ifs := (items_faults escape_errors slc).

(** In order, and none of them empty *)
Definition Ord (p q : N) (l : list syntax_error) : Prop :=
  one_after_another p q (map sy_range l) /\ Forall (fun e => r_start (sy_range e) < r_end (sy_range e)) l.
Lemma ord_nil : forall p q, p <= q -> Ord p q [].
Proof. intros p q H. split; [exact H|constructor]. Qed.
Lemma ord_app : forall a b p x q, Ord p x a -> Ord x q b -> Ord p q (a ++ b).
Proof. intros a b p x q [H1 H2] [H3 H4]. split; [rewrite map_app; eapply (asc_app alnum); eassumption|now apply Forall_app]. Qed.
Lemma ord_wide : forall l p q p' q', p' <= p -> q <= q' -> Ord p q l -> Ord p' q' l.
Proof. intros l p q p' q' H1 H2 [H3 H4]. split; [eapply (asc_wide alnum); [exact H1|exact H2|exact H3]|exact H4]. Qed.
Lemma ord_one : forall p q a b k, p <= a -> a < b -> b <= q -> Ord p q [mkSyn (mkR a b) k].
Proof. intros p q a b k H1 H2 H3. split; [cbn; lia|]. constructor; [exact H2|constructor]. Qed.
Lemma ord_le : forall l p q, Ord p q l -> p <= q.
Proof. intros l p q [H _]. eapply (asc_le alnum). exact H. Qed.
Lemma ord_prefix : forall a b p q, Ord p q (a ++ b) -> Ord p q a.
Proof.
  intros a b p q [H1 H2]. apply Forall_app in H2 as [H2 _]. split; [|exact H2]. clear H2. revert p H1.
  induction a as [|e a IH]; intros p H; cbn [map app one_after_another] in *; [eapply (asc_le alnum); exact H|].
  destruct H as (H1 & H2 & H3). auto.
Qed.

Lemma exact_pos : forall s p q r, s <> [] -> Token src (exactly s) p q r -> r = mkR p q /\ p < q.
Proof.
  intros s p q r Hs H. apply token_exactly in H as (-> & _ & ->). split; [reflexivity|].
  destruct s as [|c s]; [contradiction|]. cbn [blen]. pose proof (utf8_len_pos c). lia.
Qed.
Lemma opened : forall s p x o cl k, s <> [] -> Token src (exactly s) p x o -> Ord p x (not_closed cl o k).
Proof. intros s p x o cl k Hs H. apply (exact_pos _ _ _ _ Hs) in H as [-> H]. unfold not_closed. destruct cl; [apply ord_nil; lia|apply ord_one; lia]. Qed.

Lemma ord_escapes : forall p q, (exists m, SliceOf src (mkR p q) m) -> Ord p q (escape_faults escape_errors slc (mkR p q)).
Proof.
  intros p q [m H]. unfold escape_faults. rewrite (slice_of _ _ _ H). destruct H as (pre & post & _ & E1 & E2). cbn [r_start r_end] in *.
  pose proof (escape_errors_ordered m p) as HO.
  assert (forall r, In r (escape_errors m p) -> r_end r <= q) as HI.
  { intros r Hr. apply escape_errors_inside in Hr as (a & b & c & -> & H1 & H2 & _). rewrite H2. rewrite !blen_app in *. lia. }
  assert (p <= q) as HL by lia. clear E1 E2. revert HO HI HL. generalize (escape_errors m p) as rs. intros rs HO. 
  split; [|apply Forall_map; induction HO; constructor; cbn [sy_range]; auto; apply IHHO; [intros; apply HI; now right|]; specialize (HI r (or_introl eq_refl)); lia].
  revert HI HL. rewrite map_map. cbn [sy_range]. rewrite map_id. induction HO as [lo|lo r rs H1 H2 H3 IH]; intros HI HL; cbn [one_after_another]; [exact HL|].
  repeat split; [exact H1|lia|]. apply IH; [intros; apply HI; now right|]. apply HI. now left.
Qed.
Lemma token_slice : forall a p q r, Token src a p q r -> r = mkR p q /\ exists m, SliceOf src (mkR p q) m.
Proof. intros a p q r H. apply token_parts in H as (pre & m & post & _ & -> & E & -> & ->). split; [reflexivity|]. exists m. eapply slice_split; eauto. Qed.

(** ** Selectors *)
Lemma attrs_ord : forall p q l, attrs_ok src p q l -> Ord p q (attrs_faults l).
Proof.
  intros p q l (x & y & z & _ & H1 & H2 & H3 & H4 & _). unfold attrs_faults.
  assert (x <= y) as Hxy.
  { clear - H2 alnum. revert x H2. induction (al_parts l) as [|a ps IH]; intros x H; cbn [Tiles] in H; [lia|]. destruct H as (m & H & H2). apply IH in H2.
    destruct H as (u & v & G1 & G2 & T & M & _). apply (asc_gap src alnum) in G1, G2. apply (token_pos src alnum) in T as (_ & _ & T & _).
    destruct (aa_assign a) as [[e w]|]; cbn [Maybe] in M; [|lia]. destruct M as (i & j & k & M1 & M2 & M3 & M4). apply (asc_gap src alnum) in M1, M3.
    apply (token_pos src alnum) in M2 as (_ & _ & M2 & _). cbn [snd] in M4. destruct w; cbn [value_ok] in M4; apply (token_pos src alnum) in M4 as (_ & _ & M4 & _); lia. }
  apply (asc_gap src alnum) in H3. apply (asc_maybe src alnum) in H4. eapply ord_wide; [apply N.le_refl| |eapply opened; [|exact H1]; discriminate]. lia.
Qed.
Lemma class_ord : forall p q c, class_like_ok src p q c -> Ord p q (class_faults c).
Proof.
  intros p q [d i|h i|r] H; cbn [class_like_ok class_faults] in *.
  - destruct H as (x & H1 & H2). apply (token_pos src alnum) in H1 as (_ & _ & H1 & _). apply (token_pos src alnum) in H2 as (_ & _ & H2 & _). apply ord_nil. lia.
  - destruct H as (x & H1 & H2). apply (token_pos src alnum) in H1 as (_ & _ & H1 & _). apply (token_pos src alnum) in H2 as (_ & _ & H2 & _). apply ord_nil. lia.
  - apply token_parts in H as (pre & m & post & Hm & -> & E & -> & ->). apply ord_one; [lia| |lia].
    destruct Hm as (m1 & m2 & -> & (c & -> & _) & _). cbn [app blen]. pose proof (utf8_len_pos c). lia.
Qed.
Lemma tiles_ord : forall A (R : N -> N -> A -> Prop) (f : A -> list syntax_error), (forall p q a, R p q a -> Ord p q (f a)) ->
  forall l p q, Tiles R p q l -> Ord p q (flat_map f l).
Proof.
  intros A R f HR. induction l as [|a l IH]; intros p q H; cbn [Tiles flat_map] in *; [apply ord_nil; lia|]. destruct H as (m & H1 & H2).
  eapply ord_app; [apply HR; exact H1|apply IH; exact H2].
Qed.
Lemma segment_ord : forall p q s, segment_ok src alnum p q s -> Ord p q (segment_faults s).
Proof.
  intros p q [a|cl] H; cbn [segment_ok segment_faults] in *; [now apply attrs_ord|]. destruct H as [_ H]. eapply tiles_ord; [exact class_ord|exact H].
Qed.
Lemma selector_ord : forall p q s, selector_ok src alnum p q s -> Ord p q (selector_faults s).
Proof.
  intros p q s (_ & (x & H1 & H2) & _). unfold selector_faults. eapply ord_app; [|eapply tiles_ord; [exact segment_ord|exact H2]].
  destruct (as_first s) as [a|e cl]; cbn [sel_start_ok] in H1; [now apply attrs_ord|]. destruct H1 as (_ & y & H1 & H3).
  eapply ord_wide; [| |eapply tiles_ord; [exact class_ord|exact H3]]; [|lia].
  destruct e as [[r|r]|]; cbn [Maybe elt_sel_ok] in H1; try (apply (token_pos src alnum) in H1 as (_ & _ & H1 & _)); lia.
Qed.

(** ** Nodes *)
Definition ord_node (n : a_node) : Prop := forall p q, node_ok p q n -> Ord p q (nfs n).
Lemma lines_faults : forall (ls : list a_line), flat_map (fun l => flat_map (fun i : a_item => nfs (snd i)) (ln_nodes l)) ls = ifs (flat_map ln_nodes ls).
Proof. unfold items_faults. induction ls as [|l ls IH]; [reflexivity|]. cbn [flat_map]. now rewrite IH, flat_map_app. Qed.
Lemma ord_items : forall l, Forall (fun i : a_item => ord_node (snd i)) l -> forall p q, Tiles (item_ok src node_ok) p q l -> Ord p q (ifs l).
Proof.
  induction 1 as [|[sp n] l Hn _ IH]; intros p q H; cbn [Tiles] in H; [subst; apply ord_nil; lia|].
  destruct H as (m & (x & y & H1 & H2 & H3) & H4). cbn [fst snd] in *. apply (asc_sgap src alnum) in H1. apply (asc_maybe src alnum) in H2. apply Hn in H3. apply IH in H4.
  unfold items_faults. cbn [flat_map snd]. eapply ord_app; [|exact H4]. eapply ord_wide; [| |exact H3]; lia.
Qed.
Lemma ord_line : forall l, Forall (fun i : a_item => ord_node (snd i)) (ln_nodes l) -> forall p q, Grammar.line_ok src node_ok p q l -> Ord p q (ifs (ln_nodes l)).
Proof.
  intros l Hl p q (x & y & H1 & H2 & H3 & H4 & H5). apply (asc_sgap src alnum) in H1, H2, H4, H5. apply (ord_items _ Hl) in H3. eapply ord_wide; [| |exact H3]; lia.
Qed.
Lemma ord_lines : forall ls, Forall (fun i : a_item => ord_node (snd i)) (flat_map ln_nodes ls) -> forall p q, lines_ok src node_ok p q ls -> Ord p q (ifs (flat_map ln_nodes ls)).
Proof.
  induction ls as [|l ls IH]; intros HF p q H; [cbn in H; subst; apply ord_nil; lia|].
  cbn [flat_map] in HF. apply Forall_app in HF as [HF1 HF2]. cbn [flat_map]. unfold items_faults. rewrite flat_map_app. destruct ls as [|l' ls].
  - apply (ord_line _ HF1) in H. cbn [flat_map]. rewrite app_nil_r. exact H.
  - change (exists x y, Grammar.line_ok src node_ok p x l /\ Tok src new_line x y /\ lines_ok src node_ok y q (l' :: ls)) in H.
    destruct H as (x & y & H1 & H2 & H3). apply (ord_line _ HF1) in H1. apply (tok_pos src) in H2 as (_ & _ & H2).
    apply (IH HF2) in H3. eapply ord_app; [exact H1|]. eapply ord_wide; [| |exact H3]; lia.
Qed.
Lemma ord_content : forall c, Forall (fun i : a_item => ord_node (snd i)) (content_items c) -> forall p q, content_ok src node_ok p q c ->
  Ord p q (ifs (content_items c)).
Proof.
  intros c HF p q (x & y & H1 & H2 & H3 & H4 & H5). apply (asc_gap src alnum) in H1, H2, H4, H5. apply (ord_lines _ HF) in H3. eapply ord_wide; [| |exact H3]; lia.
Qed.
Lemma ord_nodes : forall n, ord_node n.
Proof.
  apply a_node_ind'. intros s t e IH p q H. destruct H as (_ & H & _).
  destruct t as [m|t|sl|el]; cbn [ntype_ok node_faults] in *.
  - destruct H as (x & y & H1 & -> & H2 & -> & H3). apply (token_pos src alnum) in H1 as (_ & _ & H1 & _). apply (token_pos src alnum) in H3 as (_ & _ & H3 & _).
    pose proof H2 as H2'. apply (token_pos src alnum) in H2' as (_ & _ & H2' & _). apply token_slice in H2 as [_ H2].
    destruct (am_kind m); try (apply ord_nil; lia). eapply ord_wide; [| |apply ord_escapes; exact H2]; lia.
  - destruct (text_range_ok _ _ _ _ _ H) as [_ HL]. destruct t as [r|v|c|r]; cbn [text_ok text_faults] in *; try (apply ord_nil; exact HL).
    + apply token_slice in H as [-> H]. now apply ord_escapes.
    + destruct H as (x & y & _ & H1 & H2 & H3 & _). apply (token_pos src alnum) in H2 as (_ & _ & H2 & _). apply (asc_maybe src alnum) in H3.
      eapply ord_wide; [apply N.le_refl| |eapply opened; [|exact H1]; discriminate]. lia.
  - now apply selector_ord.
  - destruct el as [r|b|i|[k o c cl|r]]; cbn [element_ok special_ok type_items element_items] in *.
    + apply ord_nil. apply (token_pos src alnum) in H as (_ & _ & H & _). exact H.
    + destruct H as (x & y & z & H1 & H2 & H3 & H4). apply (asc_gap src alnum) in H3. apply (asc_maybe src alnum) in H4.
      apply (ord_content _ IH) in H2. rewrite lines_faults. eapply ord_app; [eapply opened; [|exact H1]; discriminate|]. eapply ord_wide; [| |exact H2]; lia.
    + destruct H as (w & x & y & z & H1 & H2 & H3 & H4 & H5). apply (asc_gap src alnum) in H2, H4. apply (asc_maybe src alnum) in H5.
      apply (ord_items _ IH) in H3. eapply ord_app; [eapply opened; [|exact H1]; discriminate|]. eapply ord_wide; [| |exact H3]; lia.
    + destruct H as (x & y & H1 & H2 & H3). apply (asc_maybe src alnum) in H3.
      apply (ord_content _ IH) in H2. rewrite lines_faults. eapply ord_app; [eapply opened; [|exact H1]; destruct k; discriminate|]. eapply ord_wide; [| |exact H2]; lia.
    + apply ord_nil. apply (token_pos src alnum) in H as (_ & _ & H & _). exact H.
Qed.
Lemma document_ord : forall c, document_ok src alnum c -> Ord 0 (blen src) (faults escape_errors slc c).
Proof.
  intros c (x & y & H1 & H & H2). apply (asc_gap src alnum) in H1, H2. unfold faults. unfold items_faults. rewrite lines_faults.
  apply ord_content in H; [|apply Forall_forall; intros; apply ord_nodes]. eapply ord_wide; [| |exact H]; lia.
Qed.
End Source.

Lemma ord_nodup : forall l p q, Ord p q l -> NoDup l.
Proof.
  induction l as [|e l IH]; intros p q [H1 H2]; [constructor|]. cbn [map one_after_another] in H1. destruct H1 as (H1 & _ & H3).
  inversion H2 as [|? ? H4 H5]; subst. constructor; [|eapply IH; split; eassumption].
  intros Hi. assert (r_end (sy_range e) <= r_start (sy_range e)); [|lia].
  revert Hi H3 H5. generalize (r_end (sy_range e)) as z. clear. induction l as [|f l IH]; intros z Hi H H5; [destruct Hi|].
  cbn [map one_after_another] in H. destruct H as (H1 & H2 & H3). inversion H5; subst. destruct Hi as [->|Hi]; [exact H1|]. specialize (IH _ Hi H3). lia.
Qed.

Theorem errors_ordered : forall alnum parse src cfg c l, reads alnum parse src -> parse src = inl c ->
  all_lines proper_line c -> all_lines tidy_line c -> convert parse source_slice src cfg = Some (inr (CESyntax l)) -> Ord 0 (blen src) l.
Proof.
  intros alnum parse src cfg c l HR Hc HP HT HE. unfold reads in HR. rewrite Hc in HR. apply document_ord in HR.
  destruct (convert_outcome parse source_slice src cfg c Hc) as (d & ns & HA & HO).
  assert (all_lines (LPr true) c) as HL.
  { destruct HP as [P1 P2], HT as [T1 T2]. split.
    - rewrite Forall_forall in *. intros x Hx. split; auto.
    - intros s t' e Ho. specialize (T2 s t' e Ho). specialize (P2 s t' e Ho). rewrite Forall_forall in *. intros x Hx. split; auto. }
  pose proof (from_ast_errs _ _ _ _ _ (from_ast_faults (source_slice src) true c HL) HA) as H. cbn in H. rewrite <- H in HR.
  destruct d as [|x d].
  - exfalso. destruct HO as [[t HO]|HO]; congruence.
  - destruct HO as (_ & d1 & d2 & _ & Ed & HO). rewrite HO in HE. injection HE as <-. rewrite Ed in HR. eapply (ord_prefix alnum). exact HR.
Qed.

(** ** Any source: the errors that are not about what may follow what *)
Section Build.
Variable slc : lrange -> str.
Notation nfs := (node_faults escape_errors slc).
Notation ifs := (items_faults escape_errors slc).
Notation cfs := (faults escape_errors slc).
Definition Lo (d D : list syntax_error) : Prop := Subseq (filter of_item d) D.
Lemma lo_nil : Lo [] [].
Proof. constructor. Qed.
Lemma lo_app : forall a b a' b', Lo a a' -> Lo b b' -> Lo (a ++ b) (a' ++ b').
Proof. intros a b a' b' H1 H2. unfold Lo. rewrite filter_app. now apply subseq_app. Qed.
Lemma lo_more : forall d D D', Lo d D -> Lo d (D ++ D').
Proof. intros d D D' H. now apply subseq_app_l. Qed.
Lemma lo_of : forall d, Lo d d.
Proof.
  intros d. unfold Lo. induction d as [|e d IH]; cbn [filter]; [constructor|]. destruct (of_item e); [now apply SubKeep|now apply SubDrop].
Qed.
Lemma misplaced_quiet : forall r k, Post false (misplaced r k) (fun d _ => Lo d []).
Proof. intros r k. apply post_syntax. constructor. Qed.
Lemma validate_quiet : forall ns last, Post false (validate_from last ns) (fun d _ => Lo d []).
Proof.
  induction ns as [|n ns IH]; intros last; cbn [validate_from]; [apply post_ret; constructor|].
  assert (forall m : M unit, Post false m (fun d _ => Lo d []) ->
    Post false (m ;* validate_from (Some (item_type_of n, n_range n)) ns) (fun d _ => Lo d [])) as HG.
  { intros m Hm. eapply post_bind; [exact Hm|]. intros d v Hd. eapply post_impl; [apply IH|]. intros d' v' Hd'. exact (lo_app _ _ _ _ Hd Hd'). }
  assert (Post false match last with None => ret tt | Some (lt, lr) => if stands_alone lt then misplaced lr (MustNotPrecede lt [item_type_of n])
    else if stands_alone (item_type_of n) then misplaced (n_range n) (MustNotFollow [lt] (item_type_of n)) else ret tt end (fun d _ => Lo d [])) as HL.
  { destruct last as [[lt lr]|]; [|apply post_ret; constructor]. destruct (stands_alone lt); [apply misplaced_quiet|].
    destruct (stands_alone (item_type_of n)); [apply misplaced_quiet|apply post_ret; constructor]. }
  destruct (item_type_of n); try apply IH; exact (HG _ HL).
Qed.
(** What is left of a line, and the faults of the part that was read *)
Definition Read (ns : list a_item) (d : list syntax_error) (v : list a_item * list node) : Prop :=
  exists D, ifs ns = D ++ ifs (fst v) /\ Lo d D.
Lemma read_lo : forall ns d v, Read ns d v -> Lo d (ifs ns).
Proof. intros ns d v (D & -> & H). now apply lo_more. Qed.
Lemma read_cons : forall sp n rest d d' v, Lo d (nfs n) -> Read rest d' v -> Read ((sp, n) :: rest) (d ++ d') v.
Proof. intros sp n rest d d' v H1 (D & E & H2). exists (nfs n ++ D). rewrite ifs_cons, E, app_assoc. split; [reflexivity|now apply lo_app]. Qed.
Lemma read_stop : forall sp n rest d out, Lo d (nfs n) -> Read ((sp, n) :: rest) d (rest, out).
Proof. intros sp n rest d out H. exists (nfs n). split; [apply ifs_cons|exact H]. Qed.
Lemma read_none : forall ns d out, Lo d [] -> Read ns d (ns, out).
Proof. intros ns d out H. exists []. split; [reflexivity|exact H]. Qed.
Lemma reports_lo : forall A (m : M A) D, reports m D -> Post false m (fun d _ => Lo d D).
Proof. intros A m D H. eapply post_impl; [exact H|]. intros d v ->. apply lo_of. Qed.

Lemma build_order : forall f,
  (forall c p, Post false (build_content slc f c p) (fun d _ => Lo d (cfs c))) /\
  (forall ls le out p, Post false (build_lines slc f ls le out p) (fun d _ => Lo d (flat_map (fun l => ifs (ln_nodes l)) ls))) /\
  (forall ns, Post false (build_line slc f ns) (Read ns)) /\
  (forall ns, Post false (extend_line slc f ns) (Read ns)) /\
  (forall pr ns sels la, Post false (post_child slc f pr ns sels la) (Read ns)) /\
  (forall pr ns sels la, Post false (post_selector slc f pr ns sels la) (Read ns)) /\
  (forall r b p, Post false (build_block slc f r b p) (fun d _ => Lo d (not_closed (bk_rbrace b) (bk_lbrace b) UBlock ++ cfs (bk_content b)))) /\
  (forall r i, Post false (build_inline slc f r i) (fun d _ => Lo d (not_closed (in_close i) (in_open i) UInline ++ ifs (in_inner i)))) /\
  (forall r s a b, Post false (build_special slc f r s) (fun d _ => Lo d (nfs (ANode a (ANElement (ASpecialElt s)) b)))) /\
  (forall r e a b, Post false (build_element slc f r e) (fun d _ => Lo d (nfs (ANode a (ANElement e) b)))).
Proof.
  induction f as [|f IH].
  { repeat split; intros; apply post_fuel. }
  destruct IH as (Ic & Il & Ibl & Iel & Ipc & Ips & Ibb & Ibi & Ibs & Ibe).
  split; [|split; [|split; [|split; [|split; [|split; [|split; [|split; [|split]]]]]]]].
  - intros c p. cbn [build_content]. eapply post_bind; [apply Il|]. intros d v Hd. apply post_ret. now rewrite app_nil_r.
  - intros ls le out p. cbn [build_lines]. destruct ls as [|l ls]; [apply post_ret; constructor|]. cbn [flat_map].
    eapply post_bind with (Q := fun d _ => Lo d (ifs (ln_nodes l))).
    + destruct (ln_nodes l) as [|n ns] eqn:E; [apply post_ret; constructor|]. rewrite <- E in *. clear E n ns.
      eapply post_bind; [apply Ibl|]. intros d [r line] HG. apply post_ret. rewrite app_nil_r. eapply read_lo. exact HG.
    + intros d v Hd. eapply post_impl; [apply Il|]. intros d' v' Hd'. now apply lo_app.
  - intros ns. cbn [build_line]. eapply post_bind; [apply Iel|]. intros d [rest out] (D & E & Hd). cbn [fst] in E.
    eapply post_bind; [apply validate_quiet|]. intros d' [] Hd'. apply post_ret. exists D. split; [exact E|]. rewrite app_nil_r, <- (app_nil_r D). now apply lo_app.
  - intros [|[sp [s t n]] rest]; cbn [extend_line]; [apply post_ret; apply read_none; constructor|].
    assert (Hgen : forall m (sp' : list node), Post false m (Read ((sp, ANode s t n) :: rest)) ->
      Post false (let* (rest', out) := m in let* (rest'', out') := extend_line slc f rest' in
        ret (rest'', sp' ++ out ++ out')) (Read ((sp, ANode s t n) :: rest))).
    { intros m sp' Hm. eapply post_bind; [exact Hm|]. intros d [r out] (D & E & Hd). cbn [fst] in E.
      eapply post_bind; [apply Iel|]. intros d' [r' out'] (D' & E' & Hd'). cbn [fst] in E'. apply post_ret. exists (D ++ D').
      cbn [fst]. rewrite E, E', app_assoc, app_nil_r. split; [reflexivity|now apply lo_app]. }
    assert (Hone : forall A (m : M A) (g : A -> list node), Post false m (fun d _ => Lo d (nfs (ANode s t n))) ->
      Post false (let* v := m in ret (rest, g v)) (Read ((sp, ANode s t n) :: rest))).
    { intros A m g Hm. eapply post_bind; [exact Hm|]. intros d v Hd. apply post_ret. rewrite app_nil_r. now apply read_stop. }
    destruct t as [m|t|sl|e].
    + apply Hgen. apply (Hone _ _ (fun v => [v])). apply reports_lo. apply reports_multiline.
    + apply Hgen. apply (Hone _ _ (fun v => [v])). apply reports_lo. apply reports_inline_text.
    + apply Hgen. eapply post_bind; [apply reports_selector|]. intros d v ->. eapply post_impl; [apply Ips|]. intros d' v' H. apply read_cons; [apply lo_of|exact H].
    + destruct e as [c|b|i|sp'].
      * eapply post_bind; [apply Ipc|]. intros d [r out] H. apply post_ret. rewrite app_nil_r. apply (read_cons sp (ANode s (ANElement (ALineElt c)) n) rest [] d); [constructor|exact H].
      * apply Hgen. apply (Hone _ _ (fun v => v)). apply Ibe.
      * apply Hgen. apply (Hone _ _ (fun v => v)). apply Ibe.
      * apply Hgen. apply (Hone _ _ (fun v => v)). apply Ibe.
  - intros pr ns sels la. cbn [post_child].
    assert (Hfall : Post false (let* (rest, children) := build_line slc f ns in
        ret (rest, [elt_node (mkElt match rev children with n :: _ => Doc.combine pr (n_range n) | [] => pr end
             sels (mkR (r_end pr) (r_end match rev children with n :: _ => Doc.combine pr (n_range n) | [] => pr end))
             children (Standard (DLine la)) false false)])) (Read ns)).
    { eapply post_bind; [apply Ibl|]. intros d [r out] H. apply post_ret. rewrite app_nil_r. exact H. }
    destruct ns as [|[sp [s t n]] rest]; [exact Hfall|]. destruct t as [m|t|sl|e]; try exact Hfall.
    + eapply post_bind; [apply reports_selector|]. intros d v ->. eapply post_impl; [apply Ips|]. intros d' v' H. apply read_cons; [apply lo_of|exact H].
    + destruct e as [c|b|i|sp']; try exact Hfall.
      * eapply post_impl; [apply Ipc|]. intros d v H. apply (read_cons sp (ANode s (ANElement (ALineElt c)) n) rest [] d); [constructor|exact H].
      * eapply post_bind; [apply Ibb|]. intros d v Hd. apply post_ret. rewrite app_nil_r. apply read_stop. exact Hd.
  - intros pr [|[sp [s t n]] rest] sels la; cbn [post_selector]; [apply post_ret; apply read_none; constructor|].
    assert (Hbad : forall r k (out : list node), Post false (misplaced r k ;* ret ((sp, ANode s t n) :: rest, out)) (Read ((sp, ANode s t n) :: rest))).
    { intros r k out. eapply post_bind; [apply misplaced_quiet|]. intros d v Hd. apply post_ret. rewrite app_nil_r. now apply read_none. }
    destruct t as [m|t|sl|e]; try apply Hbad.
    + destruct t; try apply Hbad. eapply post_bind; [apply reports_comment|]. intros d v ->. eapply post_bind; [apply Ips|]. intros d' [r out] H. apply post_ret.
      rewrite app_nil_r. destruct H as (D & E & H). cbn [fst] in E. 
      eexists. rewrite ifs_cons, E, app_assoc. split; [reflexivity|]. apply lo_app; [apply lo_of|exact H].
    + destruct e as [c|b|i|sp']; try apply Hbad.
      * eapply post_impl; [apply Ipc|]. intros d v H. apply (read_cons sp (ANode s (ANElement (ALineElt c)) n) rest [] d); [constructor|exact H].
      * eapply post_bind; [apply Ibb|]. intros d v Hd. apply post_ret. rewrite app_nil_r. apply read_stop. exact Hd.
  - intros r b p. cbn [build_block]. eapply post_bind; [apply reports_unclosed|]. intros d v ->. eapply post_bind; [apply Ic|]. intros d v' Hd. apply post_ret.
    rewrite app_nil_r. apply lo_app; [apply lo_of|exact Hd].
  - intros r i. cbn [build_inline]. eapply post_bind; [apply reports_unclosed|]. intros d v ->. eapply post_bind; [apply Ibl|]. intros d [rest line] H.
    eapply post_bind; [apply validate_quiet|]. intros d' [] Hd'. apply post_ret. rewrite app_nil_r. apply lo_app; [apply lo_of|].
    rewrite <- (app_nil_r (ifs _)). apply lo_app; [|exact Hd']. eapply read_lo. exact H.
  - intros r s a b. cbn [build_special node_faults]. destruct s as [k o c cl|code].
    + eapply post_bind; [apply reports_unclosed|]. intros d v ->. eapply post_bind; [apply Ic|]. intros d v' Hd. apply post_ret. rewrite app_nil_r.
      apply lo_app; [|exact Hd]. destruct k; apply lo_of.
    + eapply post_bind; [apply (reports_text slc _ false)|]. intros d v ->. apply post_ret. constructor.
  - intros r e a b. cbn [build_element node_faults]. destruct e as [c|bl|i|sp].
    + apply post_ret. constructor.
    + eapply post_bind; [apply Ibb|]. intros d v Hd. apply post_ret. now rewrite app_nil_r.
    + eapply post_impl; [apply Ibi|]. intros d v Hd. exact Hd.
    + eapply post_bind; [apply (Ibs _ _ a b)|]. intros d v Hd. apply post_ret. rewrite app_nil_r. exact Hd.
Qed.
Lemma from_ast_order : forall c, Post false (from_ast slc c) (fun d _ => Lo d (cfs c)).
Proof. intros c. apply (proj1 (build_order _)). Qed.
End Build.

Lemma ord_subseq : forall a b : list syntax_error, Subseq a b -> forall p q, Ord p q b -> Ord p q a.
Proof.
  induction 1 as [|x a b _ IH|x a b _ IH]; intros p q [H1 H2]; [now split| |]; cbn [map one_after_another] in H1; destruct H1 as (H1 & H3 & H4);
    inversion H2 as [|? ? H5 H6]; subst; destruct (IH _ _ (conj H4 H6)) as [H7 H8].
  - split; [cbn [map one_after_another]; auto|now constructor].
  - eapply (ord_wide (fun _ => false)); [| |split; [exact H7|exact H8]]; lia.
Qed.
Theorem items_ordered : forall alnum parse src cfg c l, reads alnum parse src -> parse src = inl c ->
  convert parse source_slice src cfg = Some (inr (CESyntax l)) ->
  Subseq (filter of_item l) (faults escape_errors (source_slice src) c) /\ Ord 0 (blen src) (filter of_item l).
Proof.
  intros alnum parse src cfg c l HR Hc HE. unfold reads in HR. rewrite Hc in HR. apply document_ord in HR.
  destruct (convert_outcome parse source_slice src cfg c Hc) as (d & ns & HA & HO).
  pose proof (from_ast_errs _ _ _ _ _ (from_ast_order (source_slice src) c) HA) as H. cbn beta in H.
  assert (Subseq (filter of_item l) (faults escape_errors (source_slice src) c)) as HS.
  { destruct d as [|x d]; [exfalso; destruct HO as [[t HO]|HO]; congruence|].
    destruct HO as (_ & d1 & d2 & _ & Ed & HO). rewrite HO in HE. injection HE as <-. eapply subseq_trans; [exact H|].
    rewrite Ed, filter_app. apply subseq_app_l. apply subseq_refl. }
  split; [exact HS|]. eapply ord_subseq; eassumption.
Qed.

(** * How many errors are reported (C76): lemmas. *)

From Verif Require Import Base Doc Config Ast Errors Escape Convert Build Grammar SpecEscape SpecTree SpecBuild SpecSource SpecErrors SpecFaults SpecPlaces
  P_Base P_Escape P_Build P_BuildAll P_Marks P_Grammar P_Source P_Faults P_Accept P_Places P_Order.
From Coq Require Import Lia.
Local Open Scope nat_scope.

(** ** The number of nodes of a tree *)
Fixpoint wgt (n : a_node) : nat :=
  let 'ANode _ t _ := n in
  match t with
  | ANElement (ABlockElt b) => S (list_sum (map (fun l => items_size wgt (ln_nodes l)) (ct_lines (bk_content b))))
  | ANElement (AInlineElt i) => S (items_size wgt (in_inner i))
  | ANElement (ASpecialElt (ASpecial _ _ c _)) => S (list_sum (map (fun l => items_size wgt (ln_nodes l)) (ct_lines c)))
  | _ => 1
  end.
Notation iw := (items_size wgt).
Definition lw (ls : list a_line) : nat := list_sum (map (fun l => iw (ln_nodes l)) ls).
Lemma wgt_pos : forall n, 1 <= wgt n.
Proof. intros [s t e]. destruct t as [m|t|sl|[r|b|i|[k o c cl|r]]]; cbn [wgt]; lia. Qed.
Lemma iw_cons : forall sp n l, iw ((sp, n) :: l) = wgt n + iw l.
Proof. reflexivity. Qed.
Lemma lw_cons : forall l ls, lw (l :: ls) = iw (ln_nodes l) + lw ls.
Proof. reflexivity. Qed.

(** ** Errors about what follows what *)
Definition mis (d : list syntax_error) : nat := length (filter (fun e => negb (of_item e)) d).
Lemma mis_app : forall a b, mis (a ++ b) = mis a + mis b.
Proof. intros. unfold mis. now rewrite filter_app, app_length. Qed.
Lemma mis_nil : mis [] = 0.
Proof. reflexivity. Qed.
Lemma mis_length : forall d, length d = length (filter of_item d) + mis d.
Proof. induction d as [|e d IH]; [reflexivity|]. unfold mis in *. cbn [filter]. destruct (of_item e); cbn [negb length]; lia. Qed.
Lemma mis_flat : forall A (g : A -> list syntax_error) l, (forall a, mis (g a) = 0) -> mis (flat_map g l) = 0.
Proof. intros A g l H. induction l as [|a l IH]; [reflexivity|]. cbn [flat_map]. now rewrite mis_app, H, IH. Qed.
Lemma mis_closed : forall c o k, mis (not_closed c o k) = 0.
Proof. now intros [r|] o k. Qed.
Lemma mis_escape : forall slc r, mis (escape_faults escape_errors slc r) = 0.
Proof. intros slc r. unfold escape_faults. induction (escape_errors _ _) as [|x l IH]; [reflexivity|exact IH]. Qed.
Lemma mis_class : forall c, mis (class_faults c) = 0.
Proof. now intros []. Qed.
Lemma mis_selector : forall s, mis (selector_faults s) = 0.
Proof.
  intros s. unfold selector_faults. rewrite mis_app, (mis_flat _ segment_faults).
  - destruct (as_first s); [unfold attrs_faults; now rewrite mis_closed|rewrite (mis_flat _ class_faults); [reflexivity|apply mis_class]].
  - intros [a|cl]; cbn [segment_faults]; [apply mis_closed|apply mis_flat; apply mis_class].
Qed.
Lemma mis_text : forall slc t, mis (text_faults escape_errors slc t) = 0.
Proof. intros slc [r|v|c|r]; cbn [text_faults]; [apply mis_escape|reflexivity|apply mis_closed|reflexivity]. Qed.
Lemma mis_multiline : forall slc s m n, mis (node_faults escape_errors slc (ANode s (ANMultiline m) n)) = 0.
Proof. intros slc s m n. cbn [node_faults]. destruct (am_kind m); [apply mis_escape|reflexivity|reflexivity]. Qed.

Lemma misplaced_one : forall r k, Post false (misplaced r k) (fun d _ => mis d <= 1).
Proof. intros r k. apply post_syntax. cbn. lia. Qed.
Lemma validate_few : forall ns last, Post false (validate_from last ns) (fun d _ => mis d <= length ns).
Proof.
  induction ns as [|n ns IH]; intros last; cbn [validate_from length]; [apply post_ret; cbn; lia|].
  assert (forall m : M unit, Post false m (fun d _ => mis d <= 1) ->
    Post false (m ;* validate_from (Some (item_type_of n, n_range n)) ns) (fun d _ => mis d <= S (length ns))) as HG.
  { intros m Hm. eapply post_bind; [exact Hm|]. intros d v Hd. eapply post_impl; [apply IH|]. intros d' v' Hd'. cbn beta in *. rewrite mis_app. lia. }
  assert (Post false match last with None => ret tt | Some (lt, lr) => if stands_alone lt then misplaced lr (MustNotPrecede lt [item_type_of n])
    else if stands_alone (item_type_of n) then misplaced (n_range n) (MustNotFollow [lt] (item_type_of n)) else ret tt end (fun d _ => mis d <= 1)) as HL.
  { destruct last as [[lt lr]|]; [|apply post_ret; cbn; lia]. destruct (stands_alone lt); [apply misplaced_one|].
    destruct (stands_alone (item_type_of n)); [apply misplaced_one|apply post_ret; cbn; lia]. }
  assert (Post false (validate_from last ns) (fun d _ => mis d <= S (length ns))) as HS.
  { eapply post_impl; [apply IH|]. intros d v H. cbn beta in *. lia. }
  destruct (item_type_of n); try exact HS; exact (HG _ HL).
Qed.

(** ** The builder *)
Section Build.
Variable slc : lrange -> str.
(** [u]: the nodes read; at most [2 u + k] nodes are made and [2 u u + b u + k] errors reported *)
Definition Few (b k : nat) (ns : list a_item) (d : list syntax_error) (v : list a_item * list node) : Prop :=
  exists u, iw ns = u + iw (fst v) /\ length (snd v) <= 2 * u + k /\ mis d <= 2 * (u * u) + b * u + k.
Definition quad (u : nat) : nat := 2 * (u * u).
Lemma quad_add : forall a b, quad a + quad b <= quad (a + b).
Proof. intros. unfold quad. nia. Qed.
Lemma quad_S : forall a, quad (S a) = quad a + 4 * a + 2.
Proof. intros. unfold quad. nia. Qed.
Lemma quad_le : forall a b, a <= b -> quad a <= quad b.
Proof. intros. unfold quad. nia. Qed.
Lemma inline_first_length : forall r l l', inline_first r l = Some l' -> length l' = length l.
Proof.
  intros r l. induction l as [|n l IH]; intros l' H; [discriminate|]. cbn [inline_first] in H. destruct (is_visible n).
  - destruct n as [rr e|rr t]; [|discriminate]. destruct (e_type e); try discriminate. injection H as <-. reflexivity.
  - destruct (inline_first r l) as [x|] eqn:E; [|discriminate]. injection H as <-. cbn. f_equal. now apply IH.
Qed.
Lemma reports_mis : forall A (m : M A) D, reports m D -> mis D = 0 -> Post false m (fun d _ => mis d = 0).
Proof. intros A m D H E. eapply post_impl; [exact H|]. now intros d v ->. Qed.
Lemma few_cons : forall sp n rest d d' v, mis d = 0 -> Few 2 1 rest d' v -> Few 2 1 ((sp, n) :: rest) (d ++ d') v.
Proof.
  intros sp n rest d d' v H1 (u & E & H2 & H3). pose proof (wgt_pos n) as Hn. exists (wgt n + u). rewrite iw_cons, E, mis_app. fold (quad u) in H3. fold (quad (wgt n + u)).
  pose proof (quad_le u (wgt n + u)). lia.
Qed.

Lemma build_few : forall f,
  (forall c p, Post false (build_content slc f c p) (fun d _ => mis d <= quad (lw (ct_lines c)) + 2 * lw (ct_lines c))) /\
  (forall ls le out p, Post false (build_lines slc f ls le out p) (fun d _ => mis d <= quad (lw ls) + 2 * lw ls)) /\
  (forall ns, Post false (build_line slc f ns) (Few 2 0 ns)) /\
  (forall ns, Post false (extend_line slc f ns) (Few 0 0 ns)) /\
  (forall pr ns sels la, Post false (post_child slc f pr ns sels la) (Few 2 1 ns)) /\
  (forall pr ns sels la, Post false (post_selector slc f pr ns sels la) (Few 2 1 ns)) /\
  (forall r b p, Post false (build_block slc f r b p) (fun d _ => mis d <= quad (lw (ct_lines (bk_content b))) + 2 * lw (ct_lines (bk_content b)))) /\
  (forall r i, Post false (build_inline slc f r i) (fun d v => mis d <= quad (iw (in_inner i)) + 4 * iw (in_inner i) /\ length v <= 2 * iw (in_inner i) + 1)) /\
  (forall r s a b, Post false (build_special slc f r s) (fun d _ => mis d <= quad (wgt (ANode a (ANElement (ASpecialElt s)) b)))) /\
  (forall r e a b, Post false (build_element slc f r e) (fun d v => mis d <= quad (wgt (ANode a (ANElement e) b)) /\ length v + 1 <= 2 * wgt (ANode a (ANElement e) b))).
Proof.
  induction f as [|f IH].
  { repeat split; intros; apply post_fuel. }
  destruct IH as (Ic & Il & Ibl & Iel & Ipc & Ips & Ibb & Ibi & Ibs & Ibe).
  split; [|split; [|split; [|split; [|split; [|split; [|split; [|split; [|split]]]]]]]].
  - intros c p. cbn [build_content]. eapply post_bind; [apply Il|]. intros d v Hd. apply post_ret. now rewrite app_nil_r.
  - intros ls le out p. cbn [build_lines]. destruct ls as [|l ls]; [apply post_ret; cbn; lia|]. rewrite lw_cons.
    eapply post_bind with (Q := fun d _ => mis d <= quad (iw (ln_nodes l)) + 2 * iw (ln_nodes l)).
    + destruct (ln_nodes l) as [|n ns] eqn:E; [apply post_ret; cbn; lia|]. rewrite <- E in *. clear E n ns.
      eapply post_bind; [apply Ibl|]. intros d [r line] (u & E & _ & H). cbn [fst] in E. apply post_ret. rewrite app_nil_r. fold (quad u) in H.
      pose proof (quad_le u (iw (ln_nodes l))). lia.
    + intros d v Hd. eapply post_impl; [apply Il|]. intros d' v' Hd'. cbn beta in *. rewrite mis_app. pose proof (quad_add (iw (ln_nodes l)) (lw ls)). lia.
  - intros ns. cbn [build_line]. eapply post_bind; [apply Iel|]. intros d [rest out] (u & E & H1 & H2). cbn [fst snd] in *.
    eapply post_bind; [apply validate_few|]. intros d' [] Hd'. cbn beta in Hd'. apply post_ret. exists u. cbn [fst snd]. rewrite app_nil_r, mis_app. lia.
  - intros [|[sp [s t n]] rest]; cbn [extend_line]; [apply post_ret; exists 0; cbn; lia|].
    set (sp' := match sp with Some r => [exact_space r] | None => [] end).
    assert (Hsp : length sp' <= 1) by (destruct sp; cbn; lia).
    assert (Hgen : forall m, Post false m (fun d v => exists u, iw ((sp, ANode s t n) :: rest) = u + iw (fst v) /\ length (snd v) + 1 <= 2 * u /\ mis d <= quad u) ->
      Post false (let* (rest', out) := m in let* (rest'', out') := extend_line slc f rest' in
        ret (rest'', sp' ++ out ++ out')) (Few 0 0 ((sp, ANode s t n) :: rest))).
    { intros m Hm. eapply post_bind; [exact Hm|]. intros d [r out] (u & E & H1 & H2). cbn [fst snd] in *.
      eapply post_bind; [apply Iel|]. intros d' [r' out'] (u' & E' & H3 & H4). cbn [fst snd] in *. apply post_ret. exists (u + u').
      cbn [fst snd]. rewrite E, E', !app_nil_r, mis_app, !app_length. fold (quad u') in H4. fold (quad (u + u')). pose proof (quad_add u u'). lia. }
    assert (Hone : forall A (m : M A) (g : A -> list node), Post false m (fun d v => mis d <= quad (wgt (ANode s t n)) /\ length (g v) + 1 <= 2 * wgt (ANode s t n)) ->
      Post false (let* v := m in ret (rest, g v)) (fun d v => exists u, iw ((sp, ANode s t n) :: rest) = u + iw (fst v) /\ length (snd v) + 1 <= 2 * u /\ mis d <= quad u)).
    { intros A m g Hm. eapply post_bind; [exact Hm|]. intros d v [H1 H2]. apply post_ret. exists (wgt (ANode s t n)). rewrite app_nil_r. now rewrite iw_cons. }
    assert (Hleaf : forall A (m : M A) (g : A -> node), Post false m (fun d _ => mis d = 0) ->
      Post false m (fun d v => mis d <= quad (wgt (ANode s t n)) /\ length [g v] + 1 <= 2 * wgt (ANode s t n))).
    { intros A m g Hm. eapply post_impl; [exact Hm|]. intros d v H. cbn beta in H. pose proof (wgt_pos (ANode s t n)). cbn [length]. lia. }
    destruct t as [m|t|sl|e].
    + apply Hgen. apply (Hone _ _ (fun v => [v])). apply Hleaf with (g := fun v => v). eapply reports_mis; [apply reports_multiline with (s := s) (n := n)|apply mis_multiline].
    + apply Hgen. apply (Hone _ _ (fun v => [v])). apply Hleaf with (g := fun v => v). eapply reports_mis; [apply reports_inline_text|apply mis_text].
    + apply Hgen. eapply post_bind; [apply reports_selector|]. intros d v ->. eapply post_impl; [apply Ips|]. intros d' [r out] (u & E & H1 & H2). cbn [fst snd] in *.
      exists (S u). rewrite iw_cons, mis_app, mis_selector, quad_S. cbn [wgt]. fold (quad u) in H2. lia.
    + destruct e as [c|b|i|sp''].
      * eapply post_bind; [apply Ipc|]. intros d [r out] (u & E & H1 & H2). cbn [fst snd] in *. apply post_ret. exists (S u). cbn [fst snd].
        rewrite iw_cons, app_nil_r, app_length. cbn [wgt]. fold (quad u) in H2. fold (quad (S u)). rewrite quad_S. lia.
      * apply Hgen. apply (Hone _ _ (fun v => v)). apply Ibe.
      * apply Hgen. apply (Hone _ _ (fun v => v)). apply Ibe.
      * apply Hgen. apply (Hone _ _ (fun v => v)). apply Ibe.
  - intros pr ns sels la. cbn [post_child].
    assert (Hfall : Post false (let* (rest, children) := build_line slc f ns in
        ret (rest, [elt_node (mkElt match rev children with n :: _ => Doc.combine pr (n_range n) | [] => pr end
             sels (mkR (r_end pr) (r_end match rev children with n :: _ => Doc.combine pr (n_range n) | [] => pr end))
             children (Standard (DLine la)) false false)])) (Few 2 1 ns)).
    { eapply post_bind; [apply Ibl|]. intros d [r out] (u & E & H1 & H2). apply post_ret. exists u. rewrite app_nil_r. cbn [fst snd length] in *. lia. }
    destruct ns as [|[sp [s t n]] rest]; [exact Hfall|]. destruct t as [m|t|sl|e]; try exact Hfall.
    + eapply post_bind; [apply reports_selector|]. intros d v ->. eapply post_impl; [apply Ips|]. intros d' v' H. apply few_cons; [apply mis_selector|exact H].
    + destruct e as [c|b|i|sp']; try exact Hfall.
      * eapply post_impl; [apply Ipc|]. intros d v H. apply (few_cons sp (ANode s (ANElement (ALineElt c)) n) rest [] d); [reflexivity|exact H].
      * eapply post_bind; [apply Ibb|]. intros d v Hd. cbn beta in Hd. apply post_ret. rewrite app_nil_r. exists (S (lw (ct_lines (bk_content b)))).
        fold (quad (S (lw (ct_lines (bk_content b))))). rewrite quad_S. cbn [fst snd length]. split; [reflexivity|lia].
  - intros pr [|[sp [s t n]] rest] sels la; cbn [post_selector]; [apply post_ret; exists 0; cbn; lia|].
    assert (Hbad : forall r k, Post false (misplaced r k ;* ret ((sp, ANode s t n) :: rest, [])) (Few 2 1 ((sp, ANode s t n) :: rest))).
    { intros r k. eapply post_bind; [apply misplaced_one|]. intros d v Hd. cbn beta in Hd. apply post_ret. rewrite app_nil_r. exists 0. cbn [fst snd length]. lia. }
    destruct t as [m|t|sl|e]; try apply Hbad.
    + destruct t; try apply Hbad. eapply post_bind; [apply reports_comment|]. intros d v ->. eapply post_bind; [apply Ips|]. intros d' [r out] (u & E & H1 & H2). apply post_ret.
      rewrite app_nil_r. cbn [fst snd] in *. exists (S u). rewrite iw_cons, mis_app, mis_closed. fold (quad u) in H2. fold (quad (S u)). rewrite quad_S. cbn [fst snd length wgt]. lia.
    + destruct e as [c|b|i|sp']; try apply Hbad.
      * eapply post_impl; [apply Ipc|]. intros d v H. apply (few_cons sp (ANode s (ANElement (ALineElt c)) n) rest [] d); [reflexivity|exact H].
      * eapply post_bind; [apply Ibb|]. intros d v Hd. cbn beta in Hd. apply post_ret. rewrite app_nil_r. exists (S (lw (ct_lines (bk_content b)))).
        fold (quad (S (lw (ct_lines (bk_content b))))). rewrite quad_S. cbn [fst snd length]. split; [reflexivity|lia].
  - intros r b p. cbn [build_block]. eapply post_bind; [apply reports_unclosed|]. intros d v ->. eapply post_bind; [apply Ic|]. intros d v' Hd. apply post_ret.
    cbn beta in Hd. now rewrite app_nil_r, mis_app, mis_closed.
  - intros r i. cbn [build_inline]. eapply post_bind; [apply reports_unclosed|]. intros d v ->. eapply post_bind; [apply Ibl|]. intros d [rest line] (u & E & H1 & H2). cbn [fst snd] in *.
    eapply post_bind; [apply validate_few|]. intros d' [] Hd'. cbn beta in Hd'. apply post_ret. rewrite app_nil_r, !mis_app, mis_closed.
    fold (quad u) in H2. pose proof (quad_le u (iw (in_inner i))). split; [lia|].
    destruct (inline_first r line) as [l'|] eqn:EL; [apply inline_first_length in EL; lia|cbn [length]; lia].
  - intros r s a b. cbn [build_special wgt]. destruct s as [k o c cl|code].
    + fold (lw (ct_lines c)). eapply post_bind; [apply reports_unclosed|]. intros d v ->. eapply post_bind; [apply Ic|]. intros d v' Hd. cbn beta in Hd. apply post_ret.
      rewrite app_nil_r, mis_app, mis_closed, quad_S. lia.
    + eapply post_bind; [apply (reports_text slc _ false)|]. intros d v ->. apply post_ret. cbn. lia.
  - intros r e a b. cbn [build_element]. destruct e as [c|bl|i|sp].
    + apply post_ret. cbn. lia.
    + eapply post_bind; [apply Ibb|]. intros d v Hd. cbn beta in Hd. apply post_ret. rewrite app_nil_r. cbn [wgt length]. fold (lw (ct_lines (bk_content bl))). rewrite quad_S. lia.
    + eapply post_impl; [apply Ibi|]. intros d v [H1 H2]. cbn [wgt]. rewrite quad_S. lia.
    + eapply post_bind; [apply (Ibs _ _ a b)|]. intros d v Hd. cbn beta in Hd. apply post_ret. rewrite app_nil_r. cbn [length]. pose proof (wgt_pos (ANode a (ANElement (ASpecialElt sp)) b)). lia.
Qed.
End Build.

(** ** Each node takes at least a byte of its own *)
Local Open Scope N_scope.
Section Source.
Variable src : str.
Variable alnum : chr -> bool.
Notation node_ok := (node_ok src alnum).
Notation wN n := (N.of_nat n).
Definition fits (n : a_node) : Prop := forall p q, node_ok p q n -> p + wN (wgt n) <= q.
Lemma fits_items : forall l, Forall (fun i : a_item => fits (snd i)) l -> forall p q, Tiles (item_ok src node_ok) p q l -> p + wN (iw l) <= q.
Proof.
  induction 1 as [|[sp n] l Hn _ IH]; intros p q H; cbn [Tiles] in H; [subst; cbn; lia|].
  destruct H as (m & (x & y & H1 & H2 & H3) & H4). cbn [fst snd] in *. apply (asc_sgap src alnum) in H1. apply (asc_maybe src alnum) in H2. apply Hn in H3. apply IH in H4.
  rewrite iw_cons. lia.
Qed.
Lemma fits_line : forall l, Forall (fun i : a_item => fits (snd i)) (ln_nodes l) -> forall p q, Grammar.line_ok src node_ok p q l -> p + wN (iw (ln_nodes l)) <= q.
Proof.
  intros l Hl p q (x & y & H1 & H2 & H3 & H4 & H5). apply (asc_sgap src alnum) in H1, H2, H4, H5. apply (fits_items _ Hl) in H3. lia.
Qed.
Lemma fits_lines : forall ls, Forall (fun i : a_item => fits (snd i)) (flat_map ln_nodes ls) -> forall p q, lines_ok src node_ok p q ls -> p + wN (lw ls) <= q.
Proof.
  induction ls as [|l ls IH]; intros HF p q H; [cbn in H; subst; cbn; lia|].
  cbn [flat_map] in HF. apply Forall_app in HF as [HF1 HF2]. rewrite lw_cons. destruct ls as [|l' ls].
  - apply (fits_line _ HF1) in H. cbn [lw map list_sum fold_right]. unfold lw. cbn. lia.
  - change (exists x y, Grammar.line_ok src node_ok p x l /\ Tok src new_line x y /\ lines_ok src node_ok y q (l' :: ls)) in H.
    destruct H as (x & y & H1 & H2 & H3). apply (fits_line _ HF1) in H1. apply (tok_pos src) in H2 as (_ & _ & H2).
    apply (IH HF2) in H3. lia.
Qed.
Lemma fits_content : forall c, Forall (fun i : a_item => fits (snd i)) (content_items c) -> forall p q, content_ok src node_ok p q c -> p + wN (lw (ct_lines c)) <= q.
Proof.
  intros c HF p q (x & y & H1 & H2 & H3 & H4 & H5). apply (asc_gap src alnum) in H1, H2, H4, H5. apply (fits_lines _ HF) in H3. lia.
Qed.
Lemma token_ne : forall s p q r, Token src (exactly s) p q r -> s <> [] -> p + 1 <= q.
Proof. intros s p q r [_ H] Hs. apply tok_ne in H; [lia|]. now apply ne_exactly. Qed.
Lemma fits_nodes : forall n, fits n.
Proof.
  apply a_node_ind'. intros s t e IH p q HN. pose proof (node_nonempty _ _ _ _ _ HN) as Hne. destruct HN as (_ & H & _).
  destruct t as [m|t|sl|[r|b|i|[k o c cl|r]]]; cbn [wgt]; try lia; cbn [ntype_ok element_ok special_ok type_items element_items] in *.
  - destruct H as (x & y & z & H1 & H2 & H3 & H4). apply (asc_gap src alnum) in H3. apply (asc_maybe src alnum) in H4.
    apply (fits_content _ IH) in H2. apply token_ne in H1; [|discriminate]. fold (lw (ct_lines (bk_content b))). lia.
  - destruct H as (w & x & y & z & H1 & H2 & H3 & H4 & H5). apply (asc_gap src alnum) in H2, H4. apply (asc_maybe src alnum) in H5.
    apply (fits_items _ IH) in H3. apply token_ne in H1; [|discriminate]. lia.
  - destruct H as (x & y & H1 & H2 & H3). apply (asc_maybe src alnum) in H3. apply (fits_content _ IH) in H2. apply token_ne in H1; [|destruct k; discriminate].
    fold (lw (ct_lines c)). lia.
Qed.
Lemma fits_document : forall c, document_ok src alnum c -> wN (lw (ct_lines c)) <= blen src.
Proof.
  intros c (x & y & H1 & H & H2). apply (asc_gap src alnum) in H1, H2. apply fits_content in H; [lia|]. apply Forall_forall. intros i _. apply fits_nodes.
Qed.
End Source.

Lemma ord_length : forall l p q, Ord p q l -> p + N.of_nat (length l) <= q.
Proof.
  induction l as [|e l IH]; intros p q [H1 H2]; cbn [map one_after_another length] in *; [lia|].
  destruct H1 as (H1 & H3 & H4). inversion H2 as [|? ? G1 G2]; subst. specialize (IH _ _ (conj H4 G2)). lia.
Qed.
Theorem errors_few : forall alnum parse src cfg c l, reads alnum parse src -> parse src = inl c ->
  convert parse source_slice src cfg = Some (inr (CESyntax l)) ->
  N.of_nat (length (filter of_item l)) <= blen src /\ N.of_nat (length l) <= 2 * (blen src * blen src) + 3 * blen src.
Proof.
  intros alnum parse src cfg c l HR Hc HE. destruct (items_ordered _ _ _ _ _ _ HR Hc HE) as [_ HO].
  apply ord_length in HO. split; [lia|]. unfold reads in HR. rewrite Hc in HR. apply fits_document in HR.
  destruct (convert_outcome parse source_slice src cfg c Hc) as (d & ns & HA & HC).
  pose proof (from_ast_errs _ _ _ _ _ (proj1 (build_few (source_slice src) _) c true) HA) as H. cbn beta in H.
  destruct d as [|x d]; [exfalso; destruct HC as [[t HC]|HC]; congruence|].
  destruct HC as (_ & d1 & d2 & _ & Ed & HC). rewrite HC in HE. injection HE as <-.
  rewrite Ed, mis_app in H. rewrite mis_length. unfold quad in H. set (u := lw (ct_lines c)) in *.
  assert (N.of_nat u * N.of_nat u <= blen src * blen src) by (apply N.mul_le_mono; assumption). lia.
Qed.

(** * The size of the document, by the size of the source (for C69). *)

From Verif Require Import Base Escape Doc Config Ast Errors Build Transform Output Convert Grammar SpecTree SpecBuild SpecSource SpecErrors SpecWhole
  P_Base P_Build P_BuildAll P_Grammar P_Marks P_Size.
From Coq Require Import Lia.

Local Open Scope nat_scope.
Local Ltac lia := cbn beta in *; Lia.lia.

(** ** Weights of a syntax tree *)
Definition wd (r : lrange) : nat := N.to_nat (r_end r - r_start r).
Definition aw_value (v : Ast.a_value) : nat := match v with AUnquoted r => wd r | AQuoted r => wd r end.
Definition aw_attr (a : a_attr) : nat := 1 + wd (aa_name a) + match aa_assign a with Some (_, v) => aw_value v | None => 0 end.
Definition aw_attrs (l : a_attrs) : nat := list_sum (map aw_attr (al_parts l)).
Definition aw_class (c : a_classlike) : nat := match c with AClass _ i | AId _ i => 1 + wd i | AInvalid _ => 0 end.
Definition aw_classes (l : list a_classlike) : nat := list_sum (map aw_class l).
Definition aw_seg (s : a_segment) : nat := match s with ASegAttrs a => aw_attrs a | ASegClass l => aw_classes l end.
Definition aw_name (e : option a_eltsel) : nat := match e with Some (AName r) => wd r | _ => 0 end.
Definition aw_start (s : a_selstart) : nat := match s with AStartTag e l => aw_name e + aw_classes l | AStartAttrs a => aw_attrs a end.
Definition aw_sel (s : a_selector) : nat := 1 + aw_start (as_first s) + list_sum (map aw_seg (as_segments s)).
Definition tail_range (t : a_vtail) : lrange := match t with AVerbatim0 r | AVerbatim1 r | AVerbatim2 r => r end.
Definition aw_text (t : a_text) : nat :=
  match t with ASegment r | AInterpolation r => 1 + wd r | AVerbatim v => 1 + wd (tail_range (av_tail v)) | AComment c => 1 + wd (ac_inner c) end.
Definition aw_items (aw : a_node -> nat) (l : list a_item) : nat :=
  list_sum (map (fun i => 1 + match fst i with Some r => wd r | None => 0 end + aw (snd i)) l).
Definition aw_lines (aw : a_node -> nat) (l : list a_line) : nat := list_sum (map (fun l => 3 + aw_items aw (ln_nodes l)) l).
Fixpoint aw (n : a_node) : nat :=
  let 'ANode _ t _ := n in
  match t with
  | ANMultiline m => 2 + wd (mkR (am_start m) (am_end m))
  | ANText t => aw_text t
  | ANSelector s => aw_sel s
  | ANElement (ALineElt _) => 2
  | ANElement (ABlockElt b) => 1 + aw_lines aw (ct_lines (bk_content b))
  | ANElement (AInlineElt i) => 1 + aw_items aw (in_inner i)
  | ANElement (ASpecialElt (ASpecial _ _ c _)) => 1 + aw_lines aw (ct_lines c)
  | ANElement (ASpecialElt (ACode r)) => 2 + wd r
  end.
Notation ais := (aw_items aw).
Notation als := (aw_lines aw).

Section Build.
Variable slc : lrange -> str.
Hypothesis slc_len : forall r, length (slc r) <= wd r.
Notation nz := (nsz slc 1 1).
Notation nzs := (nssz slc 1 1).
Notation sz := (ssz slc 1 1).
Notation szs := (sssz slc 1 1).

Lemma inset_wd : forall r a b, wd (inset r a b) <= wd r.
Proof. intros [p q] a b. unfold wd, inset. cbn [r_start r_end]. lia. Qed.
Lemma fs_len : forall r, slen slc (FromSource r) <= wd r.
Proof. intros r. apply slc_len. Qed.

(** ** Selectors *)
Lemma attrs_size : forall l, list_sum (map (asz slc 1 1) (map build_attribute l)) <= list_sum (map aw_attr l).
Proof.
  intros l. rewrite map_map. apply sum_le. intros a _. unfold asz, aw_attr, build_attribute. cbn [a_name Doc.a_value].
  pose proof (fs_len (aa_name a)). destruct (aa_assign a) as [[e [r|r]]|]; cbn [opt_map olen snd aw_value]; [pose proof (fs_len r)|pose proof (fs_len (inset r 1 1)); pose proof (inset_wd r 1 1)|]; lia.
Qed.
Lemma sub_attrs : forall l, Sub (build_attribute_list l) (fun i => isz slc 1 1 i <= aw_attrs l).
Proof.
  intros l. unfold build_attribute_list, unclosed. eapply sub_bind; [apply sub_any; ff|]. intros _ _. apply sub_ret. cbn [isz]. apply attrs_size.
Qed.
Lemma sub_mapM : forall A B (f : A -> M B) (g : B -> nat) (h : A -> nat), (forall x, Sub (f x) (fun v => g v <= h x)) ->
  forall l, Sub (mapM f l) (fun v => list_sum (map g v) <= list_sum (map h l)).
Proof.
  intros A B f g h H. induction l as [|x l IH]; cbn [mapM]; [apply sub_ret; cbn; lia|].
  eapply sub_bind; [apply H|]. intros v Hv. eapply sub_bind; [apply IH|]. intros vs Hvs. apply sub_ret. cbn beta in *. cbn [map]. rewrite !sum_cons. lia.
Qed.
Lemma sub_class : forall c, Sub (build_class_like c) (fun v => list_sum (map (isz slc 1 1) (opt_list v)) <= aw_class c).
Proof.
  intros [d i|d i|r]; cbn [build_class_like aw_class].
  - apply sub_ret. cbn [opt_list map isz]. rewrite sum_cons. change (list_sum []) with 0. pose proof (fs_len i). lia.
  - apply sub_ret. cbn [opt_list map isz]. rewrite sum_cons. change (list_sum []) with 0. pose proof (fs_len i). lia.
  - apply sub_syntax, sub_ret. cbn. lia.
Qed.
Lemma flat_sum : forall A B (f : A -> list B) (g : B -> nat) l, list_sum (map g (flat_map f l)) = list_sum (map (fun x => list_sum (map g (f x))) l).
Proof. induction l as [|x l IH]; [reflexivity|]. cbn [flat_map map]. rewrite map_app, sum_app, sum_cons, IH. reflexivity. Qed.
Lemma sub_classes : forall l, Sub (build_class_likes l) (fun v => issz slc 1 1 v <= aw_classes l).
Proof.
  intros l. unfold build_class_likes. eapply sub_bind; [apply (sub_mapM _ _ _ (fun v => list_sum (map (isz slc 1 1) (opt_list v))) aw_class sub_class)|].
  intros v Hv. apply sub_ret. unfold issz. now rewrite flat_sum.
Qed.
Lemma sub_segment : forall s, Sub (build_segment s) (fun v => issz slc 1 1 v <= aw_seg s).
Proof.
  intros [a|l]; cbn [build_segment aw_seg]; [|apply sub_classes]. eapply sub_bind; [apply sub_attrs|]. intros i Hi. apply sub_ret.
  unfold issz. cbn [map]. rewrite sum_cons. change (list_sum []) with 0. lia.
Qed.
Lemma sub_sel : forall s, Sub (build_selector s) (fun v => sz v <= aw_sel s).
Proof.
  intros s. unfold build_selector.
  eapply sub_bind with (Q := fun p => olen slc (tag_name (fst p)) + issz slc 1 1 (snd p) <= aw_start (as_first s)).
  - destruct (as_first s) as [a|e cl]; cbn [aw_start].
    + eapply sub_bind; [apply sub_attrs|]. intros i Hi. apply sub_ret. cbn [fst snd tag_name olen]. unfold issz. cbn [map]. rewrite sum_cons. change (list_sum []) with 0. lia.
    + eapply sub_bind; [apply sub_classes|]. intros i Hi. apply sub_ret. cbn [fst snd].
      destruct e as [[r|r]|]; cbn [build_tag tag_name olen aw_name]; [pose proof (fs_len r)|..]; lia.
  - intros [tg items] H. cbn [fst snd] in H. eapply sub_bind; [apply (sub_mapM _ _ _ (issz slc 1 1) aw_seg sub_segment)|].
    intros more Hm. apply sub_ret. unfold ssz, aw_sel. cbn [s_tag s_items]. unfold issz in *. rewrite map_app, sum_app.
    rewrite concat_map. assert (list_sum (concat (map (map (isz slc 1 1)) more)) = list_sum (map (fun l => list_sum (map (isz slc 1 1) l)) more)) as ->.
    { clear. induction more as [|x more IH]; [reflexivity|]. cbn [map concat]. rewrite sum_app, sum_cons, IH. reflexivity. }
    lia.
Qed.

(** ** Texts *)
Lemma sub_comment_size : forall c, Sub (build_comment c) (fun n => nz n <= 1 + wd (ac_inner c)).
Proof.
  intros c. unfold build_comment, unclosed. eapply sub_bind; [apply sub_any; ff|]. intros. apply sub_ret. cbn [nsz tsz]. pose proof (fs_len (ac_inner c)). lia.
Qed.
Lemma sub_text_size : forall t, Sub (build_inline_text slc t) (fun n => nz n <= aw_text t).
Proof.
  intros [r|v|c|r]; cbn [build_inline_text aw_text].
  - eapply post_impl; [apply sub_text|]. intros d v ->. cbn [nsz tsz t_slice]. pose proof (fs_len r). lia.
  - apply sub_ret. unfold build_verbatim. destruct v as [o raw tl]. cbn [av_tail av_open av_raw].
    destruct tl as [r|r|r]; cbn [tail_range nsz tsz t_slice]; match goal with |- context [inset ?r ?a ?b] => pose proof (fs_len (inset r a b)); pose proof (inset_wd r a b) end; lia.
  - apply sub_comment_size.
  - eapply post_impl; [apply sub_text|]. intros d v ->. cbn [nsz tsz t_slice]. pose proof (fs_len r). lia.
Qed.
Lemma sub_ml_size : forall r m, Sub (build_multiline slc r m) (fun n => nz n <= 2 + wd (mkR (am_start m) (am_end m))).
Proof.
  intros r m. unfold build_multiline. eapply sub_bind; [apply sub_text|]. intros v ->. apply sub_ret.
  unfold elt_node. rewrite nsz_elt. cbn [e_selectors e_nodes with_content new_elt]. rewrite nssz_cons. cbn [nsz tsz t_slice]. change (nzs []) with 0. change (szs []) with 0.
  pose proof (fs_len (mkR (am_start m) (am_end m))). lia.
Qed.
Lemma nzs_space : forall sp, nzs (match sp with Some r => [exact_space r] | None => [] end) <= 1 + match sp with Some r => wd r | None => 0 end.
Proof. intros [r|]; [|cbn; lia]. rewrite nssz_cons. change (nzs []) with 0. cbn [exact_space nsz tsz]. pose proof (fs_len r). lia. Qed.

(** ** Lines *)
Lemma append_size : forall out line r le out' line', append_to_previous out line r le = (out', line') ->
  (line' = [] /\ nzs out' <= nzs out + nzs line + 1) \/ (out' = out /\ line' = line).
Proof.
  intros out line r le out' line' H. unfold append_to_previous in H.
  destruct out as [|[ro e|] before]; try (right; injection H as <- <-; auto; fail).
  assert (nzs (NElt (mkR (r_start ro) (r_end r))
      (with_range (with_nodes e (e_nodes e ++ line_end le (r_start r) :: line)) (mkR (r_start (e_range e)) (r_end r))) :: before)
      <= nzs (NElt ro e :: before) + nzs line + 1) as Happ.
  { rewrite !nssz_cons, !nsz_elt. cbn [e_selectors e_nodes with_range with_nodes with_content]. rewrite nssz_app, nssz_cons. cbn [line_end nsz tsz]. lia. }
  destruct (e_type e) as [|[]| | | |]; injection H as <- <-; auto.
Qed.
Lemma add_line_size : forall out line r le p, nzs (add_line out line r le p) <= nzs out + nzs line + 3.
Proof.
  intros out line r le p. unfold add_line.
  destruct (if starts_with_element line then (out, line) else append_to_previous out line r le) as [out' line'] eqn:E.
  assert ((line' = [] /\ nzs out' <= nzs out + nzs line + 1) \/ (out' = out /\ line' = line)) as [[-> H]|[-> ->]].
  { destruct (starts_with_element line); [injection E as <- <-; auto|]. eapply append_size; eauto. }
  { lia. }
  destruct line as [|n0 l']; [lia|]. set (line := n0 :: l').
  set (o2 := if existsb is_visible out then _ else _).
  assert (nzs o2 <= nzs out + 1). { subst o2. destruct (existsb is_visible out); [|lia]. rewrite nssz_cons. cbn [paragraph_end nsz tsz]. lia. }
  destruct (p && _ && _).
  - rewrite nssz_cons. unfold elt_node. rewrite nsz_elt. cbn [e_selectors e_nodes with_content new_elt]. change (szs []) with 0. lia.
  - rewrite nssz_app, nssz_rev. lia.
Qed.
Lemma inline_first_size : forall r line line', inline_first r line = Some line' -> nzs line' = nzs line.
Proof.
  induction line as [|n line IH]; cbn [inline_first]; intros line' H; [discriminate|].
  destruct (is_visible n).
  - destruct n as [r0 e|]; [|discriminate]. destruct (e_type e); try discriminate. injection H as <-. reflexivity.
  - destruct (inline_first r line) as [l'|] eqn:E; [|discriminate]. injection H as <-. rewrite !nssz_cons. f_equal. now apply IH.
Qed.

(** ** The builder *)
Lemma ais_cons : forall i l, ais (i :: l) = 1 + match fst i with Some r => wd r | None => 0 end + aw (snd i) + ais l.
Proof. reflexivity. Qed.
Lemma als_cons : forall i l, als (i :: l) = 3 + ais (ln_nodes i) + als l.
Proof. reflexivity. Qed.
Definition SzR (pre : nat) (ns : list a_item) (r : list a_item * list node) : Prop := nzs (snd r) + ais (fst r) <= pre + ais ns.
Theorem build_size : forall f,
  (forall c p, Sub (build_content slc f c p) (fun v => nzs v <= als (ct_lines c))) /\
  (forall ls le out p, Sub (build_lines slc f ls le out p) (fun v => nzs v <= nzs out + als ls)) /\
  (forall ns, Sub (build_line slc f ns) (SzR 0 ns)) /\
  (forall ns, Sub (extend_line slc f ns) (SzR 0 ns)) /\
  (forall pr ns sels la, Sub (post_child slc f pr ns sels la) (SzR (1 + szs sels) ns)) /\
  (forall pr ns sels la, Sub (post_selector slc f pr ns sels la) (SzR (szs sels) ns)) /\
  (forall r b p, Sub (build_block slc f r b p) (fun e => e_selectors e = [] /\ nzs (e_nodes e) <= als (ct_lines (bk_content b)))) /\
  (forall r i, Sub (build_inline slc f r i) (fun v => nzs v <= 1 + ais (in_inner i))) /\
  (forall r s, Sub (build_special slc f r s) (fun e => nz (elt_node e) <= aw (ANode 0 (ANElement (ASpecialElt s)) 0))) /\
  (forall r e, Sub (build_element slc f r e) (fun v => nzs v <= aw (ANode 0 (ANElement e) 0))).
Proof.
  pose proof ff_validate as Fv.
  induction f as [|f IH].
  { repeat split; intros; apply post_fuel. }
  destruct IH as (Ic & Il & Ibl & Iel & Ipc & Ips & Ibb & Ibi & Ibs & Ibe).
  split; [|split; [|split; [|split; [|split; [|split; [|split; [|split; [|split]]]]]]]].
  - intros c p. cbn [build_content]. eapply sub_bind; [apply Il|]. intros v Hv. apply sub_ret. rewrite nssz_rev. change (nzs []) with 0 in Hv. lia.
  - intros ls le out p. cbn [build_lines]. destruct ls as [|l ls].
    { apply sub_ret. lia. }
    eapply sub_bind with (Q := fun v => nzs v <= nzs out + 3 + ais (ln_nodes l)).
    + destruct (ln_nodes l) as [|n ns] eqn:E.
      * apply sub_ret. rewrite nssz_cons. cbn [paragraph_end nsz tsz]. lia.
      * eapply sub_bind; [apply Ibl|]. intros [r line] H. apply sub_ret. pose proof (add_line_size out line (mkR (ln_start l) (ln_end l)) le p).
        unfold SzR in H. cbn [fst snd] in H. lia.
    + intros v Hv. eapply post_impl; [apply Il|]. intros d w Hw. cbn beta in *. rewrite als_cons. lia.
  - intros ns. cbn [build_line]. eapply sub_bind; [apply Iel|]. intros [rest out] H.
    eapply sub_bind; [apply sub_any; apply Fv|]. intros _ _. now apply sub_ret.
  - intros ns. cbn [extend_line]. destruct ns as [|[sp [s t n]] rest].
    { apply sub_ret. unfold SzR. cbn. lia. }
    set (spn := match sp with Some r => [exact_space r] | None => [] end).
    assert (Hsp : nzs spn <= 1 + match sp with Some r => wd r | None => 0 end) by apply nzs_space.
    assert (Hgen : forall m, Sub m (fun r => nzs (snd r) + ais (fst r) <= aw (ANode s t n) + ais rest) ->
      Sub (let* (rest', out) := m in let* (rest'', out') := extend_line slc f rest' in
            ret (rest'', spn ++ out ++ out')) (SzR 0 ((sp, ANode s t n) :: rest))).
    { intros m Hm. eapply sub_bind; [exact Hm|]. intros [r out] H1.
      eapply sub_bind; [apply Iel|]. intros [r2 out2] H2. apply sub_ret. unfold SzR in *. cbn [fst snd] in *.
      rewrite !nssz_app, ais_cons. cbn [fst snd]. lia. }
    destruct t as [m|t|sl|e].
    + apply Hgen. eapply sub_bind; [apply sub_ml_size|]. intros v Hv. apply sub_ret. cbn [fst snd].
      rewrite nssz_cons. change (nzs []) with 0. cbn [aw]. lia.
    + apply Hgen. eapply sub_bind; [apply sub_text_size|]. intros v Hv. apply sub_ret. cbn [fst snd].
      rewrite nssz_cons. change (nzs []) with 0. cbn [aw]. lia.
    + apply Hgen. eapply sub_bind; [apply sub_sel|]. intros v Hv. eapply post_impl; [apply Ips|]. intros d w Hw.
      unfold SzR in Hw. rewrite sssz_cons in Hw. change (szs []) with 0 in Hw. cbn beta in *. cbn [aw]. lia.
    + assert (Hel : Sub (let* out := build_element slc f (mkR s n) e in ret (rest, out))
        (fun r => nzs (snd r) + ais (fst r) <= aw (ANode s (ANElement e) n) + ais rest)).
      { eapply sub_bind; [apply Ibe|]. intros v Hv. apply sub_ret. cbn [fst snd]. cbn [aw] in *. lia. }
      destruct e as [c|b|i|sp']; try (apply Hgen; exact Hel).
      eapply sub_bind; [apply Ipc|]. intros [r out] H1. apply sub_ret. unfold SzR in *. cbn [fst snd] in *.
      rewrite nssz_app, ais_cons. cbn [fst snd aw]. rewrite sssz_cons in H1. change (szs []) with 0 in H1. change (sz (sel_empty s)) with 1 in H1. lia.
  - intros pr ns sels la. cbn [post_child].
    assert (Hfall : Sub (let* (rest, children) := build_line slc f ns in
        ret (rest, [elt_node (mkElt match rev children with n :: _ => Doc.combine pr (n_range n) | [] => pr end
             sels (mkR (r_end pr) (r_end match rev children with n :: _ => Doc.combine pr (n_range n) | [] => pr end))
             children (Standard (DLine la)) false false)])) (SzR (1 + szs sels) ns)).
    { eapply sub_bind; [apply Ibl|]. intros [r out] H1. apply sub_ret. unfold SzR in *. cbn [fst snd] in *.
      rewrite nssz_cons. change (nzs []) with 0. unfold elt_node. rewrite nsz_elt. cbn [e_selectors e_nodes]. lia. }
    destruct ns as [|[sp [s t n]] rest]; [exact Hfall|].
    destruct t as [m|t|sl|e]; try exact Hfall.
    + eapply sub_bind; [apply sub_sel|]. intros v Hv. eapply post_impl; [apply Ips|]. intros d w Hw. unfold SzR in *.
      rewrite sssz_app, sssz_cons in Hw. change (szs []) with 0 in Hw. rewrite ais_cons. cbn [fst snd aw]. lia.
    + destruct e as [c|b|i|sp']; try exact Hfall.
      * eapply post_impl; [apply Ipc|]. intros d w Hw. unfold SzR in *. rewrite sssz_app, sssz_cons in Hw. change (szs []) with 0 in Hw.
        change (sz (sel_empty s)) with 1 in Hw. rewrite ais_cons. cbn [fst snd aw]. lia.
      * eapply sub_bind; [apply Ibb|]. intros e [H1 H2]. apply sub_ret. unfold SzR. cbn [fst snd].
        rewrite nssz_cons. change (nzs []) with 0. unfold elt_node. rewrite nsz_elt. cbn [e_selectors e_nodes with_type with_selectors].
        rewrite ais_cons. cbn [fst snd aw]. lia.
  - intros pr ns sels la. cbn [post_selector].
    assert (Hnone : forall l, SzR (szs sels) l (l, [])).
    { intros l. unfold SzR. cbn [fst snd]. change (nzs []) with 0. lia. }
    destruct ns as [|[sp [s t n]] rest]; [apply sub_ret; apply Hnone|].
    destruct t as [m|t|sl|e]; try (apply sub_syntax, sub_ret; apply Hnone).
    + destruct t; try (apply sub_syntax, sub_ret; apply Hnone).
      eapply sub_bind; [apply sub_comment_size|]. intros v Hv.
      eapply sub_bind; [apply Ips|]. intros [r out] H1. apply sub_ret. unfold SzR in *. cbn [fst snd] in *.
      rewrite nssz_cons, ais_cons. cbn [fst snd aw aw_text]. lia.
    + destruct e as [c|b|i|sp']; try (apply sub_syntax, sub_ret; apply Hnone).
      * eapply post_impl; [apply Ipc|]. intros d w Hw. unfold SzR in *. rewrite ais_cons. cbn [fst snd aw]. lia.
      * eapply sub_bind; [apply Ibb|]. intros e [H1 H2]. apply sub_ret. unfold SzR. cbn [fst snd].
        rewrite nssz_cons. change (nzs []) with 0. unfold elt_node. rewrite nsz_elt. cbn [e_selectors e_nodes with_type with_selectors].
        rewrite ais_cons. cbn [fst snd aw]. lia.
  - intros r b p. cbn [build_block]. eapply sub_bind; [apply sub_any; unfold unclosed; ff|]. intros _ _.
    eapply sub_bind; [apply Ic|]. intros v Hv. apply sub_ret. split; [reflexivity|exact Hv].
  - intros r i. cbn [build_inline]. eapply sub_bind; [apply sub_any; unfold unclosed; ff|]. intros _ _.
    eapply sub_bind; [apply Ibl|]. intros [rest line] H.
    eapply sub_bind; [apply sub_any; apply Fv|]. intros _ _. apply sub_ret. unfold SzR in H. cbn [fst snd] in H.
    destruct (inline_first r line) as [l'|] eqn:E.
    + rewrite (inline_first_size _ _ _ E). lia.
    + rewrite nssz_cons. change (nzs []) with 0. unfold elt_node. rewrite nsz_elt. cbn [e_selectors e_nodes with_content new_elt]. change (szs []) with 0. lia.
  - intros r s. cbn [build_special]. destruct s as [k o c cl'|code].
    + eapply sub_bind; [apply sub_any; unfold unclosed; ff|]. intros _ _.
      eapply sub_bind; [apply Ic|]. intros v Hv. apply sub_ret. unfold elt_node. rewrite nsz_elt. cbn [e_selectors e_nodes with_content new_elt aw]. change (szs []) with 0. lia.
    + eapply sub_bind; [apply sub_text|]. intros v ->. apply sub_ret. unfold elt_node. rewrite nsz_elt. cbn [e_selectors e_nodes with_content new_elt aw].
      change (szs []) with 0. rewrite nssz_cons. change (nzs []) with 0. cbn [nsz tsz t_slice]. pose proof (fs_len (inset code 2 2)). pose proof (inset_wd code 2 2). lia.
  - intros r e. cbn [build_element]. destruct e as [c|b|i|sp].
    + apply sub_ret. rewrite nssz_cons. change (nzs []) with 0. unfold elt_node. rewrite nsz_elt. cbn [e_selectors e_nodes with_content new_elt aw]. cbn. lia.
    + eapply sub_bind; [apply Ibb|]. intros v [H1 H2]. apply sub_ret. rewrite nssz_cons. change (nzs []) with 0. unfold elt_node. rewrite nsz_elt, H1.
      change (szs []) with 0. cbn [aw]. lia.
    + eapply post_impl; [apply Ibi|]. intros d v Hv. cbn [aw]. cbn beta in Hv. lia.
    + eapply sub_bind; [apply Ibs|]. intros v Hv. apply sub_ret. rewrite nssz_cons. change (nzs []) with 0. lia.
Qed.
Lemma tree_size : forall c d tree, builds slc c d tree -> nzs tree <= als (ct_lines c).
Proof.
  intros c d tree H. pose proof (proj1 (build_size (build_fuel c)) c true) as HS. specialize (HS (mkErrs false [] [] false) eq_refl).
  unfold builds, from_ast in H. rewrite H in HS. destruct HS as (d' & _ & HS). exact HS.
Qed.
End Build.

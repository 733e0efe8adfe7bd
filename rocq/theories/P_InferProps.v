(** * Consequences of the table-driven description of inference (C16, C17, C19, C20). *)

From Verif Require Import Base Doc SpecTree Infer SpecInfer P_Base P_Infer.
From Coq Require Import Lia.

Section P.
Variable slc : lrange -> str.

Lemma Forall_map_pos : forall A B (Q : B -> Prop) (f : bool -> bool -> A -> B) l first,
  Forall (fun x => forall a b, Q (f a b x)) l -> Forall Q (map_pos f first l).
Proof.
  intros A B Q f l. induction l as [|x l IH]; intros first H; [constructor|].
  inversion H; subst. cbn. constructor; auto.
Qed.

Lemma kind_para : forall t, kind_of t = KPara <-> t = Paragraph.
Proof. intros [|[]|[[]|]| | |]; cbn; split; congruence. Qed.

(** ** Shape of the selectors after naming *)
Lemma name_sels_cons : forall st s rest nm, nm <> Plain \/ sel_name slc s <> None ->
  exists s', name_sels slc st (s :: rest) nm = s' :: rest /\ s_items s' = s_items s /\
    (sel_name slc s = None \/ s' = s) /\
    (sel_name slc s' = match sel_name slc s with Some t => Some t | None => match nm with Named t => Some t | _ => None end end).
Proof.
  intros st s rest nm H. unfold name_sels. cbn [first_name]. destruct (sel_name slc s) as [t|] eqn:E.
  - exists s. auto.
  - destruct nm as [t| |].
    + eexists. split; [reflexivity|]. cbn. auto.
    + destruct H; congruence.
    + exists s. auto.
Qed.

Lemma name_for_plain : forall c g f l k, name_for c g f l k = Plain -> k = KPara.
Proof.
  intros c g f l k H. destruct c, k, f, l; vm_compute in H; try discriminate; try reflexivity;
    destruct g as [g|]; try discriminate;
    match type of H with (if ?b then _ else _) = _ => destruct b; discriminate end.
Qed.

(** ** C17 *)
Lemma chain_extends : forall k sels c g p fi la r er cr ty f raw kids kt,
  (length sels <= length k)%nat -> (ty = Paragraph -> sels = []) ->
  (forall c g p, Forall2 Extends kt (map (tree_of slc) (kids c g p))) ->
  Extends (nest slc sels kt) (tree_of slc (chain slc k c g p fi la r er sels cr ty f raw kids)).
Proof.
  induction k as [|x k IH]; intros sels c g p fi la r er cr ty f raw kids kt HL Hp HK.
  - destruct sels as [|]; [|cbn in HL; lia]. cbn [chain nest].
    pose proof (name_sels_length slc (r_start er) [] (name_for c g fi la (kind_of ty))) as HN. cbn [length Nat.max] in HN.
    unfold name_sels in *. cbn [first_name] in *. destruct (name_for _ _ _ _ _); cbn [tl first_name tree_of e_selectors nest e_nodes];
      constructor; auto.
  - cbn [chain]. destruct sels as [|s sels].
    + unfold name_sels. cbn [first_name]. destruct (name_for _ _ _ _ _); cbn [tl first_name tree_of e_selectors nest e_nodes];
        constructor; auto.
    + destruct (name_sels_cons (r_start er) s sels (name_for c g fi la (kind_of ty))) as (s' & -> & Hi & Hk & Hn).
      { left. intros E. apply name_for_plain, kind_para in E. specialize (Hp E). discriminate. }
      destruct sels as [|s1 rest].
      * cbn [first_name tree_of nest e_selectors e_nodes]. rewrite Hi. constructor; [|apply HK].
        destruct Hk as [Hk| ->]; auto.
      * cbn [first_name tree_of e_selectors e_nodes map].
        change (nest slc (s :: s1 :: rest) kt) with (TElt (sel_name slc s) (s_items s) [nest slc (s1 :: rest) kt]).
        match goal with |- Extends _ (nest slc [s'] ?k) =>
          change (nest slc [s'] k) with (TElt (sel_name slc s') (s_items s') k) end.
        rewrite Hi. constructor; [destruct Hk as [Hk| ->]; auto|].
        constructor; [|constructor]. apply IH; [cbn in *; lia| |exact HK].
        intros E. specialize (Hp E). discriminate.
Qed.

Theorem resolve_extends : forall n, TreeAll bare_paragraph (fun _ => True) n ->
  forall c g p fi la, Extends (tree_of slc n) (tree_of slc (resolve slc c g p fi la n)).
Proof.
  induction n as [r e IH|r t] using node_ind'; intros H c g p fi la; [|constructor].
  inversion H as [r' e' He Hns|]; subst. cbn [tree_of resolve]. apply chain_extends; [lia|exact He|].
  intros c' g' p'. clear -IH Hns.
  assert (forall l first, Forall (fun n => TreeAll bare_paragraph (fun _ => True) n ->
      forall c g p fi la, Extends (tree_of slc n) (tree_of slc (resolve slc c g p fi la n))) l ->
      Forall (TreeAll bare_paragraph (fun _ => True)) l ->
      Forall2 Extends (map (tree_of slc) l) (map (tree_of slc) (map_pos (resolve slc c' g' p') first l))) as G; [|now apply G].
  induction l as [|n l IHl]; intros first H1 H2; [constructor|]. inversion H1; inversion H2; subst.
  cbn [map map_pos]. constructor; auto.
Qed.

Theorem infer_extends : forall ns ns', Forall (TreeAll bare_paragraph (fun _ => True)) ns ->
  infer slc ns = Some ns' -> Forall2 Extends (map (tree_of slc) ns) (map (tree_of slc) ns').
Proof.
  intros ns ns' H E. rewrite infer_resolves in E. injection E as <-. unfold resolve_all.
  generalize true. induction H as [|n ns Hn _ IH]; intros first; [constructor|].
  cbn [map map_pos]. constructor; [now apply resolve_extends|apply IH].
Qed.

(** ** Properties of all elements of the result *)
Lemma chain_all : forall (PE : element -> Prop) (PT : textlike -> Prop) k sels c g p fi la r er cr ty f raw kids,
  (forall c g p, Forall (TreeAll PE PT) (kids c g p)) ->
  (forall sels1 name cr' ns fi', name = first_name slc sels1 ->
     PE (mkElt er sels1 cr' ns ty fi' (raw || match inside name (kind_of ty) with CRaw => true | _ => false end))) ->
  (forall er' sels1 name cr' ns fi', name = first_name slc sels1 ->
     PE (mkElt er' sels1 cr' ns ty fi' (raw || match inside name (kind_of ty) with CRaw => true | _ => false end))) ->
  TreeAll PE PT (chain slc k c g p fi la r er sels cr ty f raw kids).
Proof.
  intros PE PT. induction k as [|x k IH]; intros sels c g p fi la r er cr ty f raw kids HK HP HP'.
  - cbn [chain]. destruct (name_sels _ _ _ _) as [|s0 [|s1 rest]]; constructor; cbn [e_nodes]; auto.
  - cbn [chain]. destruct (name_sels _ _ _ _) as [|s0 [|s1 rest]]; constructor; cbn [e_nodes]; auto.
Qed.

(** ** C20 *)
Lemma named_context_raw : forall t, named_context t = Some CRaw <-> t = L "script" \/ t = L "style".
Proof.
  intros t. rewrite named_lookup. split.
  - intros H. apply lookup_some in H. unfold all_names in H. apply in_flat_map in H as (c & Hc & H).
    apply in_map_iff in H as (x & E & H). injection E as -> ->. destruct H as [<-|[<-|[]]]; auto.
  - intros [->| ->]; reflexivity.
Qed.
Lemma inside_raw : forall name k, (match inside name k with CRaw => true | _ => false end) = true <->
  name = Some (L "script") \/ name = Some (L "style").
Proof.
  intros name k. unfold inside. destruct name as [t|].
  - pose proof (named_context_raw t) as H. destruct (named_context t) as [c|].
    + destruct c; (split; [try discriminate|]);
        try (intros [E|E]; injection E as E; assert (t = L "script" \/ t = L "style") as E' by auto;
             apply H in E'; discriminate).
      * intros _. destruct (proj1 H eq_refl) as [->| ->]; auto.
      * auto.
    + split; [destruct k; discriminate|]. intros [E|E]; injection E as E;
        assert (t = L "script" \/ t = L "style") as E' by auto; apply H in E'; discriminate.
  - split; [destruct k; discriminate|]. intros [E|E]; discriminate.
Qed.

Definition not_raw (e : element) : Prop := e_raw e = false.
Definition raw_iff (e : element) : Prop := e_raw e = true <-> raw_named slc e.

Lemma raw_iff_ok : forall er sels cr ns ty fi name, name = first_name slc sels ->
  raw_iff (mkElt er sels cr ns ty fi (false || match inside name (kind_of ty) with CRaw => true | _ => false end)).
Proof.
  intros er sels cr ns ty fi name ->. unfold raw_iff, raw_named. cbn [e_raw e_selectors orb]. rewrite inside_raw.
  unfold first_name. destruct sels as [|s rest].
  - split; [intros [E|E]; discriminate|]. intros (s & rest & E & _). discriminate.
  - split; [intros H; eauto|]. intros (s' & rest' & E & H). injection E as <- <-. exact H.
Qed.

Theorem resolve_raw : forall n, TreeAll not_raw (fun _ => True) n ->
  forall c g p fi la, TreeAll raw_iff (fun _ => True) (resolve slc c g p fi la n).
Proof.
  induction n as [r e IH|r t] using node_ind'; intros H c g p fi la; [|now constructor].
  inversion H as [r' e' He Hns|]; subst. cbn [resolve]. unfold not_raw in He. rewrite He.
  apply chain_all.
  - intros c' g' p'. apply Forall_map_pos. rewrite Forall_forall in *. auto.
  - intros. now apply raw_iff_ok.
  - intros. now apply raw_iff_ok.
Qed.

Theorem infer_raw : forall ns ns', Forall (TreeAll not_raw (fun _ => True)) ns ->
  infer slc ns = Some ns' -> Forall (TreeAll raw_iff (fun _ => True)) ns'.
Proof.
  intros ns ns' H E. rewrite infer_resolves in E. injection E as <-. unfold resolve_all.
  apply Forall_map_pos. rewrite Forall_forall in *. intros n Hn a b. apply resolve_raw; auto.
Qed.

Lemma raw_iff_name : forall e, raw_iff e -> e_raw e = raw_name slc e.
Proof.
  intros e H. unfold raw_iff, raw_named in H. unfold raw_name, first_name.
  destruct (e_selectors e) as [|s rest].
  - destruct (e_raw e); [|reflexivity]. destruct (proj1 H eq_refl) as (s & rest & E & _). discriminate.
  - destruct (e_raw e) eqn:R.
    + destruct (proj1 H eq_refl) as (s' & rest' & E & [N|N]); injection E as <- <-; rewrite N; reflexivity.
    + destruct (sel_name slc s) as [t|] eqn:N; [|reflexivity].
      destruct (str_eqb t (L "script") || str_eqb t (L "style")) eqn:B; [|reflexivity].
      apply (proj2 H). exists s, rest. split; [reflexivity|]. rewrite N. apply orb_prop in B.
      destruct B as [B|B]; apply str_eqb_eq in B; subst t; auto.
Qed.
Lemma raw_by_name_same : forall n, TreeAll raw_iff (fun _ => True) n -> raw_by_name slc n = n.
Proof.
  induction n as [r e IH|r t] using node_ind'; intros H; [|reflexivity].
  inversion H as [r' e' He Hns|]; subst. cbn [raw_by_name].
  assert (map (raw_by_name slc) (e_nodes e) = e_nodes e) as ->.
  { clear -IH Hns. induction IH as [|n l Hn _ IHl]; [reflexivity|]. inversion Hns; subst. cbn [map]. f_equal; auto. }
  rewrite <- (raw_iff_name e He). now destruct e.
Qed.
Theorem infer_raw_by_name : forall ns ns', Forall (TreeAll not_raw (fun _ => True)) ns ->
  infer slc ns = Some ns' -> map (raw_by_name slc) ns' = ns'.
Proof.
  intros ns ns' H E. apply infer_raw in E; [|exact H]. clear -E.
  induction E as [|n l Hn _ IH]; [reflexivity|]. cbn [map]. f_equal; [now apply raw_by_name_same|exact IH].
Qed.


(** ** At most one selector after inference *)
Definition one_sel (e : element) : Prop := (length (e_selectors e) <= 1)%nat.
Lemma one_sel_single : forall e, one_sel e -> single_tag e.
Proof.
  intros e H. unfold one_sel, single_tag in *. destruct (e_selectors e) as [|s [|? ?]]; cbn in *; [lia| |lia].
  destruct (is_some _); cbn; lia.
Qed.

Lemma chain_single : forall k sels c g p fi la r er cr ty f raw kids,
  (length sels <= length k)%nat -> (forall c g p, Forall (TreeAll one_sel (fun _ => True)) (kids c g p)) ->
  TreeAll one_sel (fun _ => True) (chain slc k c g p fi la r er sels cr ty f raw kids).
Proof.
  induction k as [|x k IH]; intros sels c g p fi la r er cr ty f raw kids HL HK; cbn [chain];
    pose proof (name_sels_length slc (r_start er) sels (name_for c g fi la (kind_of ty))) as HN;
    destruct (name_sels _ _ _ _) as [|s0 [|s1 rest]].
  - constructor; [cbn; unfold one_sel; cbn; lia|apply HK].
  - constructor; [cbn; unfold one_sel; cbn; lia|apply HK].
  - cbn [length] in *; lia.
  - constructor; [cbn; unfold one_sel; cbn; lia|apply HK].
  - constructor; [cbn; unfold one_sel; cbn; lia|apply HK].
  - constructor; [cbn; unfold one_sel; cbn; lia|]. cbn [e_nodes]. constructor; [|constructor]. apply IH; [cbn [length] in *; lia|exact HK].
Qed.
Lemma resolve_single : forall n c g p a b, TreeAll one_sel (fun _ => True) (resolve slc c g p a b n).
Proof.
  induction n as [r e IH|r t] using node_ind'; intros c g p a b; [|now constructor].
  cbn [resolve]. apply chain_single; [lia|]. intros c' g' p'. apply Forall_map_pos.
  rewrite Forall_forall in *. auto.
Qed.
Theorem infer_single : forall ns ns', infer slc ns = Some ns' ->
  Forall (TreeAll one_sel (fun _ => True)) ns'.
Proof.
  intros ns ns' E. rewrite infer_resolves in E. injection E as <-. unfold resolve_all.
  apply Forall_map_pos. apply Forall_forall. intros n _ a b. apply resolve_single.
Qed.

Lemma TreeAll_impl : forall (P Q : element -> Prop) (PT QT : textlike -> Prop),
  (forall e, P e -> Q e) -> (forall t, PT t -> QT t) -> forall n, TreeAll P PT n -> TreeAll Q QT n.
Proof.
  intros P Q PT QT HP HT. induction n as [r e IH|r t] using node_ind'; intros H; inversion H; subst; constructor; auto.
  rewrite Forall_forall in *. auto.
Qed.
Theorem infer_single_tag : forall ns ns', infer slc ns = Some ns' ->
  Forall (TreeAll single_tag (fun _ => True)) ns'.
Proof.
  intros ns ns' H. apply infer_single in H. eapply Forall_impl; [|exact H]. intros n.
  apply TreeAll_impl; auto. apply one_sel_single.
Qed.

(** ** C19 *)
Definition pic_name (name : option str) : bool :=
  match name with Some t => str_eqb t (L "picture") | None => false end.

Lemma inside_pic : forall name k, inside name k = CPicture -> pic_name name = true.
Proof.
  intros name k H. unfold inside in H. destruct name as [t|]; [|destruct k; discriminate].
  rewrite named_lookup in H. destruct (lookup t all_names) as [c|] eqn:E; [|destruct k; discriminate].
  subst c. apply lookup_some in E. unfold all_names in E. apply in_flat_map in E as (c & Hc & H).
  apply in_map_iff in H as (x & E & H). injection E as -> ->. destruct H as [<-|[]]. reflexivity.
Qed.

Lemma name_for_not_pic : forall c g fi la k, name_for c g fi la k <> Named (L "picture").
Proof.
  intros c g fi la k H. destruct c, k, fi, la; vm_compute in H; try discriminate;
    destruct g as [g|]; try discriminate;
    match type of H with (if ?b then _ else _) = _ => destruct b; discriminate end.
Qed.
Lemma name_for_named : forall c g fi la k, k <> KOther -> (c = CPicture -> k = KLine) ->
  name_for c g fi la k <> Unnamed.
Proof.
  intros c g fi la k H1 H2 H.
  destruct c, k, fi, la; try congruence; try (specialize (H2 eq_refl); discriminate); vm_compute in H;
    try discriminate; destruct g as [g|]; try discriminate;
    match type of H with (if ?b then _ else _) = _ => destruct b; discriminate end.
Qed.

Definition all_named : node -> Prop := TreeAll named (fun _ => True).

Lemma sel_name_uninferred : forall s, sel_name slc s <> None -> uninferred s = false.
Proof. intros s H. unfold sel_name, uninferred in *. destruct (s_tag s); [reflexivity|congruence..]. Qed.

Lemma chain_nil_named : forall k c g p fi la r er cr ty f raw kids,
  (forall c g p, (c = CPicture -> False) -> Forall all_named (kids c g p)) ->
  all_named (chain slc k c g p fi la r er [] cr ty f raw kids).
Proof.
  intros k c g p fi la r er cr ty f raw kids HK.
  assert (forall t, name_for c g fi la (kind_of ty) = Named t -> inside (Some t) (kind_of ty) <> CPicture) as HP.
  { intros t En E. apply inside_pic in E. cbn in E. apply str_eqb_eq in E. subst t. now apply name_for_not_pic in En. }
  assert (inside None (kind_of ty) <> CPicture) as HP' by (destruct ty as [|[]|[[]|]| | |]; discriminate).
  destruct k; cbn [chain]; unfold name_sels; cbn [first_name];
    destruct (name_for c g fi la (kind_of ty)) as [t| |] eqn:En; cbn [tl first_name]; constructor;
    try (repeat constructor); cbn [e_nodes]; apply HK; auto; intros E; apply (HP t eq_refl), E.
Qed.

Lemma chain_named : forall k sels c g p fi la r er cr ty f raw kids,
  (length sels <= length k)%nat ->
  (ty = Paragraph -> sels = []) ->
  (Forall (fun s => sel_name slc s <> None) sels \/ kind_of ty = KLine \/
   (kind_of ty <> KOther /\ c <> CPicture /\
    Forall (fun s => sel_name slc s <> Some (L "picture")) (removelast sels))) ->
  (forall c g p, (c = CPicture -> pic_name (last (map (sel_name slc) sels) None) = true) ->
     Forall all_named (kids c g p)) ->
  all_named (chain slc k c g p fi la r er sels cr ty f raw kids).
Proof.
  induction k as [|x k IH]; intros sels c g p fi la r er cr ty f raw kids HL Hp Hn HK;
    (destruct sels as [|s sels];
     [apply chain_nil_named; intros c' g' p' Hc; apply HK; intros E; destruct (Hc E)|]); [cbn in HL; lia|].
  cbn [chain].
  destruct (name_sels_cons (r_start er) s sels (name_for c g fi la (kind_of ty))) as (s' & -> & Hi & Hk & Hs).
  { left. intros E. apply name_for_plain, kind_para in E. specialize (Hp E). discriminate. }
  assert (sel_name slc s' <> None) as Hs'.
  { rewrite Hs. destruct (sel_name slc s) as [t|] eqn:E; [discriminate|].
    assert (name_for c g fi la (kind_of ty) <> Unnamed /\ name_for c g fi la (kind_of ty) <> Plain) as [H1 H2].
    { split.
      - destruct Hn as [Hn|[Hn|(H1 & H2 & _)]].
        + inversion Hn; congruence.
        + apply name_for_named; [congruence|auto].
        + apply name_for_named; [exact H1|congruence].
      - intros E'. apply name_for_plain, kind_para in E'. specialize (Hp E'). discriminate. }
    destruct (name_for _ _ _ _ _); congruence. }
  assert (inside (sel_name slc s') (kind_of ty) = CPicture -> pic_name (sel_name slc s) = true) as Hpic.
  { intros E. apply inside_pic in E. rewrite Hs in E. destruct (sel_name slc s) as [t|]; [exact E|].
    destruct (name_for c g fi la (kind_of ty)) as [t| |] eqn:En; try discriminate. cbn in E.
    apply str_eqb_eq in E. subst t. now apply name_for_not_pic in En. }
  destruct sels as [|s1 rest]; cbn [first_name].
  - constructor.
    + repeat constructor. now apply sel_name_uninferred.
    + cbn [e_nodes]. apply HK. exact Hpic.
  - constructor.
    + repeat constructor. now apply sel_name_uninferred.
    + cbn [e_nodes]. constructor; [|constructor]. apply IH.
      * cbn in *; lia.
      * intros E. specialize (Hp E). discriminate.
      * destruct Hn as [Hn|[Hn|(H1 & H2 & H3)]]; [left; now inversion Hn|auto|]. right; right.
        change (removelast (s :: s1 :: rest)) with (s :: removelast (s1 :: rest)) in H3.
        inversion H3; subst. split; [exact H1|]. split; [|assumption].
        intros E. apply Hpic in E. unfold pic_name in E. destruct (sel_name slc s) as [t|]; [|discriminate].
        apply str_eqb_eq in E. congruence.
      * exact HK.
Qed.

Theorem resolve_named : forall n pic, Nameable slc pic n ->
  forall c g p fi la, (c = CPicture -> pic = true) -> all_named (resolve slc c g p fi la n).
Proof.
  induction n as [r e IH|r t] using node_ind'; intros pic H c g p fi la Hc; [|now constructor].
  inversion H as [|r' e' Hb Hn Hns]; subst. cbn [resolve]. apply chain_named; [lia|exact Hb| |].
  - destruct Hn as [Hn|[Hn|(H1 & H2 & H3)]]; auto. right; right. split; [exact H1|]. split; [|exact H3].
    intros E. specialize (Hc E). congruence.
  - intros c' g' p' Hc'. apply Forall_map_pos. rewrite Forall_forall in *.
    intros n Hin a b. eapply IH; eauto.
Qed.

Theorem infer_named : forall ns ns', Forall (Nameable slc false) ns -> infer slc ns = Some ns' ->
  Forall all_named ns'.
Proof.
  intros ns ns' H E. rewrite infer_resolves in E. injection E as <-. unfold resolve_all.
  apply Forall_map_pos. rewrite Forall_forall in *. intros n Hn a b. eapply resolve_named; eauto. discriminate.
Qed.

End P.

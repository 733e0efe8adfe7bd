(** * Proofs about the document transforms (C15, C21-C25). *)

From Verif Require Import Base Escape Doc Config Infer Transform SpecMarkup SpecTree SpecInfer SpecTransform
  P_Base P_OutText P_Infer P_InferProps.
From Coq Require Import Lia Permutation.

(** ** Special tags *)
Section Special.
Variable slc : lrange -> str.

Lemma nest_as_pairs : forall sels kids, nest slc sels kids = nest_pairs (sel_pairs slc sels) kids.
Proof.
  induction sels as [|s rest IH]; intros kids; [reflexivity|].
  destruct rest as [|s1 rest]; [reflexivity|].
  cbn [nest sel_pairs map nest_pairs]. f_equal. f_equal. apply IH.
Qed.

Lemma apply_tags_pairs : forall e names,
  sel_pairs slc (e_selectors (apply_tags e (map Provided names))) =
  rename names (sel_pairs slc (e_selectors e)).
Proof.
  intros e names. unfold apply_tags, rename.
  assert (filter (fun t => negb (slice_is_empty t)) (map Provided names) =
          map Provided (filter (fun t => negb (str_empty t)) names)) as ->.
  { induction names as [|t l IH]; [reflexivity|]. cbn [map filter slice_is_empty].
    destruct (negb (str_empty t)); cbn [map]; now rewrite IH. }
  destruct (filter _ names) as [|t more]; cbn [map].
  - cbn [with_selectors e_selectors]. unfold sel_pairs. destruct (e_selectors e); reflexivity.
  - destruct (e_selectors e) as [|s rest]; cbn [with_selectors e_selectors sel_pairs map tl].
    + unfold sel_pairs. cbn [map]. rewrite app_nil_r, map_map. f_equal. now rewrite map_map.
    + unfold sel_pairs. rewrite map_app, !map_map. reflexivity.
Qed.

Variable cfg : special_tags.

(** Elements for which the configured names are those documented. *)
Definition plain_special (e : element) : Prop :=
  e_type e <> Doc.Special CodeBlockContainer /\ e_type e <> Doc.Multiline MLCode.

Lemma name_ok : forall k, k <> CodeBlockContainer \/ st_emphasis cfg = st_code_block_container cfg ->
  special_tag_name cfg k = documented_name cfg k.
Proof.
  intros k H. destruct k; unfold special_tag_name, documented_name, or_name; cbn; try reflexivity.
  destruct H as [H|H]; [congruence|]. now rewrite H.
Qed.

Lemma special_elt_ok : forall e,
  plain_special e \/ st_emphasis cfg = st_code_block_container cfg ->
  sel_pairs slc (e_selectors (special_element cfg e)) =
  match special_names (documented_name cfg) (e_type e) with
  | Some names => rename names (sel_pairs slc (e_selectors e))
  | None => sel_pairs slc (e_selectors e)
  end.
Proof.
  intros e H. unfold special_element, special_names, plain_special in *.
  destruct (e_type e) as [| | |k|k|]; try reflexivity.
  - change [Provided (special_tag_name cfg k)] with (map Provided [special_tag_name cfg k]).
    rewrite apply_tags_pairs, name_ok; [reflexivity|].
    destruct H as [[H _]|H]; [left; congruence|now right].
  - destruct k; try reflexivity. destruct H as [[_ H]|H]; [congruence|].
    change [Provided (special_tag_name cfg CodeBlockContainer); Provided (special_tag_name cfg Code)]
      with (map Provided [special_tag_name cfg CodeBlockContainer; special_tag_name cfg Code]).
    rewrite apply_tags_pairs. rewrite !name_ok; [reflexivity|left; discriminate|now right].
Qed.


Theorem special_node_ok : forall n,
  TreeAll plain_special (fun _ => True) n \/ st_emphasis cfg = st_code_block_container cfg ->
  tree_of slc (special_node cfg n) = special_tree slc (documented_name cfg) n.
Proof.
  induction n as [r e IH|r t] using node_ind'; intros H; [|reflexivity].
  cbn [special_node tree_of special_tree]. cbn [with_nodes with_content e_selectors e_nodes].
  rewrite nest_as_pairs, special_elt_ok.
  2:{ destruct H as [H|H]; [|now right]. inversion H; subst. now left. }
  f_equal. rewrite map_map. apply map_ext_in. intros m Hm. rewrite Forall_forall in IH. apply IH; [exact Hm|].
  destruct H as [H|H]; [|now right]. inversion H as [? ? _ Hns|]; subst. rewrite Forall_forall in Hns. left; auto.
Qed.
End Special.

(** ** Page completion *)
Section Page.
Variable slc : lrange -> str.

Lemma lower_idem_names : forall names, Forall (fun t => lower t = t) names ->
  forall t, existsb (eq_ignore_case t) names = existsb (str_eqb (lower t)) names.
Proof.
  intros names H t. induction H as [|x l Hx _ IH]; [reflexivity|]. cbn [existsb]. unfold eq_ignore_case at 1.
  now rewrite Hx, IH.
Qed.

Lemma has_tag_written : forall names n, Forall (fun t => lower t = t) names ->
  has_tag_in slc names n = written_as slc names n.
Proof.
  intros names [r e|r t] H; [|reflexivity]. unfold has_tag_in, element_with_tag_in, written_as, first_name, sel_name, tag_name.
  destruct (e_selectors e) as [|s rest]; [reflexivity|]. destruct (s_tag s); try reflexivity.
  rewrite lower_idem_names by exact H. destruct (existsb _ _); reflexivity.
Qed.
Lemma lower_ok : forall names, forallb (fun t => str_eqb (lower t) t) names = true -> Forall (fun t => lower t = t) names.
Proof. intros names H. apply Forall_forall. intros t Ht. rewrite forallb_forall in H. apply str_eqb_eq. auto. Qed.

Lemma existsb_ext : forall A (f g : A -> bool) l, (forall x, f x = g x) -> existsb f l = existsb g l.
Proof. intros A f g l H. induction l; [reflexivity|]. cbn. now rewrite H, IHl. Qed.

Lemma split_page_ok : forall ns,
  split_page slc ns = (flat_map (to_head slc) ns, filter (to_body slc) ns).
Proof.
  induction ns as [|n ns IH]; [reflexivity|]. cbn [split_page flat_map filter]. rewrite IH.
  unfold to_head, to_body.
  pose proof (has_tag_written [L "head"] n (lower_ok [L "head"] eq_refl)) as H1.
  pose proof (has_tag_written head_only n (lower_ok head_only eq_refl)) as H2.
  rewrite <- H1, <- H2. change metadata_tags with head_only.
  assert (has_tag_in slc [L "head"] n = match element_with_tag_in slc [L "head"] n with Some _ => true | None => false end)
    as -> by reflexivity.
  destruct (element_with_tag_in slc [L "head"] n) as [e|] eqn:E.
  - cbn [orb negb]. destruct n as [r e'|r t]; [|discriminate]. cbn [children].
    assert (e = e') as ->; [|reflexivity].
    unfold element_with_tag_in in E. destruct (e_selectors e'); [discriminate|].
    destruct (tag_name _); [|discriminate]. destruct (existsb _ _); congruence.
  - cbn [orb]. destruct (has_tag_in slc head_only n); reflexivity.
Qed.

Lemma page_element_plain : forall t cr ns, t <> [] ->
  plain_elt slc t ns (elt_node (page_element t cr ns)).
Proof.
  intros t cr ns H. destruct t as [|c t]; [congruence|].
  unfold plain_elt, elt_node, page_element, apply_tags, new_elt. cbn.
  eexists _, _, _. repeat split; reflexivity.
Qed.

Theorem page_html : forall cr ns, existsb (written_as slc [L "html"]) ns = true -> complete_page slc cr ns = ns.
Proof.
  intros cr ns H. unfold complete_page.
  rewrite (existsb_ext _ _ (written_as slc [L "html"])); [now rewrite H|].
  intros n. apply has_tag_written, lower_ok; reflexivity.
Qed.
Theorem page_body : forall cr ns, existsb (written_as slc [L "html"]) ns = false ->
  existsb (written_as slc [L "body"]) ns = true ->
  exists n, complete_page slc cr ns = [n] /\ plain_elt slc (L "html") ns n.
Proof.
  intros cr ns H1 H2. unfold complete_page.
  rewrite (existsb_ext _ _ (written_as slc [L "html"])), H1 by (intros n; apply has_tag_written, lower_ok; reflexivity).
  rewrite (existsb_ext _ _ (written_as slc [L "body"])), H2 by (intros n; apply has_tag_written, lower_ok; reflexivity).
  eexists. split; [reflexivity|]. apply page_element_plain. discriminate.
Qed.
Theorem page_split : forall cr ns, existsb (written_as slc [L "html"]) ns = false ->
  existsb (written_as slc [L "body"]) ns = false ->
  exists h hd bd r, complete_page slc cr ns = [h] /\
    plain_elt slc (L "html") [hd; NTxt r (TSpace ParagraphEnd); bd] h /\
    plain_elt slc (L "head") (flat_map (to_head slc) ns) hd /\
    plain_elt slc (L "body") (filter (to_body slc) ns) bd.
Proof.
  intros cr ns H1 H2. unfold complete_page.
  rewrite (existsb_ext _ _ (written_as slc [L "html"])), H1 by (intros n; apply has_tag_written, lower_ok; reflexivity).
  rewrite (existsb_ext _ _ (written_as slc [L "body"])), H2 by (intros n; apply has_tag_written, lower_ok; reflexivity).
  rewrite split_page_ok. eexists _, _, _, _. split; [reflexivity|].
  repeat split; apply page_element_plain; discriminate.
Qed.

(** *** Nothing is lost *)
Lemma plain_facts : forall t ns n, In t page_names -> plain_elt slc t ns n -> facts slc [n] = facts slc ns.
Proof.
  intros t ns n Ht (r & e & s & -> & E1 & E2 & E3 & E4 & _). unfold facts. cbn [flat_map]. rewrite app_nil_r.
  cbn [tree_of]. rewrite E1. cbn [nest]. rewrite E2, E3, E4. cbn [tree_facts].
  assert (existsb (str_eqb (lower t)) page_names = true) as ->
    by (destruct Ht as [<-|[<-|[<-|[]]]]; reflexivity).
  cbn [app]. rewrite flat_map_concat_map, map_map, <- flat_map_concat_map. reflexivity.
Qed.

Lemma facts_app : forall a b, facts slc (a ++ b) = facts slc a ++ facts slc b.
Proof. intros. apply flat_map_app. Qed.

Lemma head_facts : forall n, written_as slc [L "head"] n = true -> plain_head n ->
  facts slc [n] = facts slc (children n).
Proof.
  intros [r e|r t] H Hp; [|destruct Hp]. destruct Hp as (s & E1 & E2). cbn [children].
  unfold written_as in H. rewrite E1 in H. cbn [first_name] in H.
  destruct (sel_name slc s) as [t|] eqn:En; [|discriminate].
  unfold facts. cbn [flat_map]. rewrite app_nil_r. cbn [tree_of]. rewrite E1. cbn [nest].
  rewrite En, E2. cbn [tree_facts]. cbn [existsb] in H. rewrite orb_false_r in H. apply str_eqb_eq in H.
  assert (existsb (str_eqb (lower t)) page_names = true) as -> by (rewrite H; reflexivity).
  cbn [app]. rewrite flat_map_concat_map, map_map, <- flat_map_concat_map. reflexivity.
Qed.

Lemma split_facts : forall ns,
  Forall (fun n => written_as slc [L "head"] n = true -> plain_head n) ns ->
  Permutation (facts slc ns) (facts slc (flat_map (to_head slc) ns) ++ facts slc (filter (to_body slc) ns)).
Proof.
  induction 1 as [|n ns Hn _ IH]; [constructor|].
  change (n :: ns) with ([n] ++ ns) at 1. rewrite facts_app. cbn [flat_map filter]. rewrite facts_app.
  unfold to_head at 1, to_body at 1. destruct (written_as slc [L "head"] n) eqn:E1.
  - cbn [orb negb]. rewrite (head_facts n E1 (Hn eq_refl)), <- app_assoc. now apply Permutation_app_head.
  - cbn [orb]. destruct (written_as slc head_only n); cbn [negb].
    + rewrite <- app_assoc. now apply Permutation_app_head.
    + change (facts slc []) with (@nil fact). cbn [app].
      change (n :: filter (to_body slc) ns) with ([n] ++ filter (to_body slc) ns). rewrite facts_app.
      apply Permutation_trans with (facts slc [n] ++ (facts slc (flat_map (to_head slc) ns) ++ facts slc (filter (to_body slc) ns)));
        [now apply Permutation_app_head|]. rewrite !app_assoc. apply Permutation_app_tail, Permutation_app_comm.
Qed.

Theorem page_facts : forall cr ns,
  Forall (fun n => written_as slc [L "head"] n = true -> plain_head n) ns ->
  Permutation (facts slc (complete_page slc cr ns)) (facts slc ns) \/
  Permutation (facts slc (complete_page slc cr ns)) (FLeaf (TSpace ParagraphEnd) :: facts slc ns).
Proof.
  intros cr ns H. destruct (existsb (written_as slc [L "html"]) ns) eqn:E1.
  - rewrite page_html by exact E1. left. apply Permutation_refl.
  - destruct (existsb (written_as slc [L "body"]) ns) eqn:E2.
    + destruct (page_body cr ns E1 E2) as (n & -> & Hn). left.
      rewrite (plain_facts (L "html") ns n); [apply Permutation_refl|now left|exact Hn].
    + destruct (page_split cr ns E1 E2) as (h & hd & bd & r & -> & Hh & Hhd & Hbd). right.
      rewrite (plain_facts (L "html") _ h (or_introl eq_refl) Hh).
      change [hd; NTxt r (TSpace ParagraphEnd); bd] with ([hd] ++ [NTxt r (TSpace ParagraphEnd)] ++ [bd]).
      rewrite !facts_app. rewrite (plain_facts (L "head") _ hd (or_intror (or_introl eq_refl)) Hhd).
      rewrite (plain_facts (L "body") _ bd (or_intror (or_intror (or_introl eq_refl))) Hbd).
      cbn [facts flat_map tree_of tree_facts app]. apply Permutation_sym.
      eapply Permutation_trans; [apply perm_skip, split_facts, H|]. apply Permutation_cons_app, Permutation_refl.
Qed.
End Page.

(** ** Language *)
Section Lang.
Variable slc : lrange -> str.
Variable xml : bool.

Lemma lang_items : forall s lang it, it = lang_attr (r_end (s_range s)) lang ->
  sel_attrs slc xml (mkSel (s_range s) (s_tag s) (s_items s ++ [it])) =
  sel_attrs slc xml s ++ [(L "lang", Some (decoded slc (Provided lang)))].
Proof.
  intros s lang it ->. unfold sel_attrs, ids_in, classes_in, attrs_in. cbn [s_items].
  rewrite !flat_map_app. unfold lang_attr. cbn [flat_map]. rewrite !app_nil_r, map_app. cbn [map a_name a_value].
  rewrite <- !app_assoc. reflexivity.
Qed.

Theorem lang_sels_ok : forall lang sels,
  match elt_tag slc sels with
  | Some (t, s) => exists a b s', sels = a ++ s :: b /\ lang_sels lang sels = a ++ s' :: b /\
      elt_tag slc (lang_sels lang sels) = Some (t, s') /\
      sel_attrs slc xml s' = sel_attrs slc xml s ++ [(L "lang", Some (decoded slc (Provided lang)))]
  | None => lang_sels lang sels = sels
  end.
Proof.
  intros lang. induction sels as [|s rest IH]; [reflexivity|]. cbn [elt_tag lang_sels].
  unfold uninferred. destruct (s_tag s) as [v| |r] eqn:E; cbn [tag_name].
  - exists [], rest. eexists. split; [reflexivity|]. split; [reflexivity|]. split.
    + cbn [elt_tag s_tag tag_name]. reflexivity.
    + rewrite <- E. now apply lang_items.
  - destruct (elt_tag slc rest) as [[t s0]|].
    + destruct IH as (a & b & s' & -> & E2 & E3 & E4). exists (s :: a), b, s'. rewrite E2 in *. cbn [app].
      repeat split; auto. cbn [elt_tag]. rewrite E. exact E3.
    + now rewrite IH.
  - destruct (elt_tag slc rest) as [[t s0]|].
    + destruct IH as (a & b & s' & -> & E2 & E3 & E4). exists (s :: a), b, s'. rewrite E2 in *. cbn [app].
      repeat split; auto. cbn [elt_tag]. rewrite E. exact E3.
    + now rewrite IH.
Qed.
End Lang.

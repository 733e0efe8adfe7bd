(** * Balanced tags. *)
From Verif Require Import Base Escape OutText Doc Config Output SpecMarkup SpecHtml SpecTree
  P_Base P_OutText P_Read P_Output.

Lemma balanced_merge : forall xml l open acc,
  balanced xml open (merge_from acc l) = balanced xml open l.
Proof.
  intros xml. induction l as [|i l IH]; intros open acc.
  - cbn. destruct acc; reflexivity.
  - assert (forall l', balanced xml open (flush acc ++ l') = balanced xml open l') as Hf
      by (intros; destruct acc; reflexivity).
    destruct i as [t a sc|t|b| |t]; cbn [merge_from]; rewrite ?Hf; cbn [balanced]; auto.
    + now rewrite !IH.
    + destruct open as [|t' open]; [reflexivity|]. now rewrite IH.
Qed.

Definition expect_items (es : list expect) : list item :=
  flat_map (fun e => match e with XItem i => [i] | XGap _ => [] end) es.

Lemma balanced_shows : forall xml lay es is, Shows lay es is ->
  forall open, balanced xml open is = balanced xml open (expect_items es).
Proof.
  intros xml lay es is H. induction H as [|i es is H IH|w es is H IH|w w' es is _ H IH|w es is _ _ H IH];
    intros open; cbn; auto.
  destruct i as [t a sc|t|b| |t]; cbn; rewrite ?IH; auto.
  destruct open; [reflexivity|]. now rewrite IH.
Qed.

Lemma balanced_tree : forall slc xml n open rest,
  balanced xml open (expect_items (tree_items slc xml n) ++ rest) = balanced xml open rest.
Proof.
  intros slc xml. induction n as [r e IH|r t] using node_ind'; intros open rest.
  - assert (forall open rest, balanced xml open (expect_items (flat_map (tree_items slc xml) (e_nodes e)) ++ rest)
              = balanced xml open rest) as Hc.
    { induction IH as [|n ns Hn _ IHns]; intros o' r'; [reflexivity|].
      cbn [flat_map]. unfold expect_items at 1. rewrite flat_map_app, <- app_assoc.
      fold (expect_items (tree_items slc xml n)). rewrite Hn. apply IHns. }
    cbn [tree_items]. destruct (elt_tag slc (e_selectors e)) as [[t s]|]; [|apply Hc].
    destruct (xml && is_nil (e_nodes e)) eqn:Ex; [reflexivity|].
    unfold expect_items at 1. cbn [flat_map app balanced]. rewrite flat_map_app.
    fold (expect_items (flat_map (tree_items slc xml) (e_nodes e))). rewrite <- app_assoc.
    cbn [orb]. destruct (negb xml && html_void_name t).
    + apply Hc.
    + rewrite Hc. cbn. now rewrite str_eqb_refl.
  - destruct t; reflexivity.
Qed.

Theorem output_balanced : forall slc cfg ns o,
  (forall ind, c_indent cfg = Some ind -> all_ws ind) ->
  Forall (Readable slc (is_xml cfg) false) ns -> output_html slc cfg ns = (o, true) ->
  exists is, read_markup (is_xml cfg) o = Some is /\ balanced (is_xml cfg) [] is = true.
Proof.
  intros slc cfg ns o Hi HR H. destruct (output_reads_back slc cfg Hi ns o HR H) as (is & Hr & Hs).
  eexists. split; [exact Hr|]. unfold merge_text. rewrite balanced_merge, (balanced_shows _ _ _ _ Hs).
  unfold doc_items, expect_items. rewrite flat_map_app.
  assert (forall l, balanced (is_xml cfg) [] (flat_map (fun e => match e with XItem i => [i] | XGap _ => [] end)
    (if (match c_complete_page cfg with Some b => b | None => false end) then [XItem IDoctype; XGap [10]] else []) ++ l)
    = balanced (is_xml cfg) [] l) as E by (intros; destruct (c_complete_page cfg) as [[|]|]; reflexivity).
  rewrite E. clear.
  assert (forall l, balanced (is_xml cfg) [] (expect_items (flat_map (tree_items slc (is_xml cfg)) ns) ++ l)
    = balanced (is_xml cfg) [] l) as H.
  { induction ns as [|n ns IH]; intros l; [reflexivity|]. cbn [flat_map]. unfold expect_items at 1.
    rewrite flat_map_app, <- app_assoc. fold (expect_items (tree_items slc (is_xml cfg) n)).
    rewrite balanced_tree. apply IH. }
  specialize (H []). rewrite app_nil_r in H. exact H.
Qed.

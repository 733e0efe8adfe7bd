(** * Sources with many errors (for C76): blocks inside nested inline elements. *)

From Verif Require Import Base Doc Config Ast Errors Escape Convert Build Grammar SpecEscape SpecTree SpecBuild SpecSource SpecErrors SpecFaults SpecPlaces
  P_Base P_Escape P_Build P_BuildAll P_Marks P_Grammar P_Source P_Faults P_Accept P_Places P_Order P_Many.
From Coq Require Import Lia.

(** ** The source and its tree *)
(** [m] blocks in an inline element, and around it [k] inline elements that begin with a block *)
Definition blocks_text (m : nat) : str := flat_map (fun _ => L "{}") (repeat tt m).
Fixpoint nest_text (k m : nat) : str :=
  match k with
  | O => L "<(" ++ blocks_text m ++ L ")>"
  | S k => L "<(" ++ L "{}" ++ nest_text k m ++ L ")>"
  end.
Definition block_item (p : N) : a_item :=
  (None, ANode p (ANElement (ABlockElt (mkABlock (mkR p (p + 1)) (mkACont (p + 1) [mkALine (p + 1) [] (p + 1)] (p + 1)) (Some (mkR (p + 1) (p + 2)))))) (p + 2)).
Fixpoint block_items (p : N) (m : nat) : list a_item :=
  match m with O => [] | S m => block_item p :: block_items (p + 2) m end.
Fixpoint nest_inner (p : N) (k m : nat) : list a_item :=
  match k with
  | O => block_items (p + 2) m
  | S k => [block_item (p + 2); (None, ANode (p + 4) (ANElement (AInlineElt (mkAInl (mkR (p + 4) (p + 6)) (nest_inner (p + 4) k m)
      (Some (mkR (p + 4 + blen (nest_text k m) - 2) (p + 4 + blen (nest_text k m))))))) (p + 4 + blen (nest_text k m)))]
  end.
Definition nest (p : N) (k m : nat) : a_inline :=
  mkAInl (mkR p (p + 2)) (nest_inner p k m) (Some (mkR (p + blen (nest_text k m) - 2) (p + blen (nest_text k m)))).
Definition nest_node (p : N) (k m : nat) : a_node := ANode p (ANElement (AInlineElt (nest p k m))) (p + blen (nest_text k m)).
Definition nest_tree (k m : nat) : a_content :=
  mkACont 0 [mkALine 0 [(None, nest_node 0 k m)] (blen (nest_text k m))] (blen (nest_text k m)).

Lemma blocks_length : forall m, blen (blocks_text m) = 2 * N.of_nat m.
Proof. induction m as [|m IH]; [reflexivity|]. unfold blocks_text in *. cbn [repeat flat_map]. rewrite blen_app, IH. change (blen (L "{}")) with 2. lia. Qed.
Lemma nest_length : forall k m, blen (nest_text k m) = 4 + 2 * N.of_nat m + 6 * N.of_nat k.
Proof.
  induction k as [|k IH]; intros m; cbn [nest_text]; rewrite !blen_app; [rewrite blocks_length|rewrite IH];
    change (blen (L "<(")) with 2; change (blen (L ")>")) with 2; change (blen (L "{}")) with 2; lia.
Qed.

(** ** It is read so *)
Section Source.
Variable src : str.
Variable alnum : chr -> bool.
Notation node_ok := (node_ok src alnum).
Lemma here_token : forall s pre post p q, src = pre ++ s ++ post -> p = blen pre -> q = p + blen s -> Token src (exactly s) p q (mkR p q).
Proof. intros s pre post p q H -> ->. split; [reflexivity|]. exists pre, s, post. repeat split. exact H. Qed.
Lemma here_many : forall f pre post p, src = pre ++ post -> p = blen pre -> Tok src (many (one f)) p p.
Proof. intros f pre post p H ->. exists pre, [], post. split; [exact H|]. split; [reflexivity|]. split; [cbn; lia|]. constructor. Qed.
Lemma block_ok_here : forall pre post p, src = pre ++ L "{}" ++ post -> p = blen pre -> item_ok src node_ok p (p + 2) (block_item p).
Proof.
  intros pre post p H E. assert (forall f, Tok src (many (one f)) p p) as G0 by (intros f; eapply here_many; eassumption).
  assert (forall f, Tok src (many (one f)) (p + 1) (p + 1)) as G1.
  { intros f. apply (here_many f (pre ++ L "{") (L "}" ++ post)); [rewrite H, <- app_assoc; reflexivity|rewrite blen_app, E; reflexivity]. }
  exists p, p. split; [apply G0|]. split; [reflexivity|]. cbn [snd block_item Grammar.node_ok ntype_ok element_ok]. split; [reflexivity|]. split; [|reflexivity].
  exists (p + 1), (p + 1), (p + 1). split; [|split; [|split]].
  - apply (here_token _ pre (L "}" ++ post)); [exact H|exact E|reflexivity].
  - exists (p + 1), (p + 1). cbn [ct_start ct_end ct_lines lines_ok]. split; [apply G1|]. split; [apply G1|]. split; [|split; apply G1].
    exists (p + 1), (p + 1). cbn [ln_start ln_end ln_nodes Tiles]. repeat split; apply G1.
  - apply G1.
  - cbn [Maybe bk_rbrace]. apply (here_token _ (pre ++ L "{") post); [rewrite H, <- app_assoc; reflexivity|rewrite blen_app, E; reflexivity|cbn; lia].
Qed.
Lemma blocks_ok_here : forall m pre post p, src = pre ++ blocks_text m ++ post -> p = blen pre -> Tiles (item_ok src node_ok) p (p + blen (blocks_text m)) (block_items p m).
Proof.
  induction m as [|m IH]; intros pre post p H E; cbn [block_items Tiles]; [cbn; lia|].
  exists (p + 2). split; [apply (block_ok_here pre (blocks_text m ++ post)); [exact H|exact E]|].
  assert (p + blen (blocks_text (S m)) = p + 2 + blen (blocks_text m)) as -> by (rewrite !blocks_length; lia).
  apply (IH (pre ++ L "{}") post); [rewrite H, <- app_assoc; reflexivity|rewrite blen_app, E; reflexivity].
Qed.
Lemma nest_ok : forall k m pre post p, src = pre ++ nest_text k m ++ post -> p = blen pre -> node_ok p (p + blen (nest_text k m)) (nest_node p k m).
Proof.
  induction k as [|k IH]; intros m pre post p H E; unfold nest_node; cbn [Grammar.node_ok ntype_ok element_ok]; (split; [reflexivity|]); (split; [|reflexivity]);
    cbn [nest_text] in H.
  - assert (Hl : blen (nest_text 0 m) = 4 + blen (blocks_text m)) by (cbn [nest_text]; rewrite !blen_app; change (blen (L "<(")) with 2; change (blen (L ")>")) with 2; lia).
    rewrite <- !app_assoc in H. exists (p + 2), (p + 2), (p + 2 + blen (blocks_text m)), (p + 2 + blen (blocks_text m)). split; [|split; [|split; [|split]]].
    + eapply here_token; [exact H|exact E|reflexivity].
    + apply (here_many _ (pre ++ L "<(") (blocks_text m ++ L ")>" ++ post)); [rewrite H, <- app_assoc; reflexivity|rewrite blen_app, E; reflexivity].
    + apply (blocks_ok_here m (pre ++ L "<(") (L ")>" ++ post)); [rewrite H, <- app_assoc; reflexivity|rewrite blen_app, E; reflexivity].
    + apply (here_many _ (pre ++ L "<(" ++ blocks_text m) (L ")>" ++ post)); [rewrite H, <- !app_assoc; reflexivity|rewrite !blen_app, E; change (blen (L "<(")) with 2; lia].
    + unfold nest. cbn [in_close Maybe]. rewrite Hl. replace (p + (4 + blen (blocks_text m)) - 2) with (p + 2 + blen (blocks_text m)) by lia.
      apply (here_token _ (pre ++ L "<(" ++ blocks_text m) post); [rewrite H, <- !app_assoc; reflexivity|rewrite !blen_app, E; change (blen (L "<(")) with 2; lia|change (blen (L ")>")) with 2; lia].
  - assert (Hl : blen (nest_text (S k) m) = 6 + blen (nest_text k m)) by (rewrite !nest_length; lia).
    rewrite <- !app_assoc in H. exists (p + 2), (p + 2), (p + 4 + blen (nest_text k m)), (p + 4 + blen (nest_text k m)). split; [|split; [|split; [|split]]].
    + eapply here_token; [exact H|exact E|reflexivity].
    + apply (here_many _ (pre ++ L "<(") (L "{}" ++ nest_text k m ++ L ")>" ++ post)); [rewrite H, <- app_assoc; reflexivity|rewrite blen_app, E; reflexivity].
    + cbn [in_inner nest nest_inner Tiles]. exists (p + 4). split.
      * replace (p + 4) with (p + 2 + 2) by lia. apply (block_ok_here (pre ++ L "<(") (nest_text k m ++ L ")>" ++ post)); [rewrite H, <- !app_assoc; reflexivity|rewrite blen_app, E; reflexivity].
      * eexists. split; [|reflexivity]. exists (p + 4), (p + 4).
        assert (src = (pre ++ L "<(" ++ L "{}") ++ nest_text k m ++ L ")>" ++ post) as H4 by (rewrite H, <- !app_assoc; reflexivity).
        assert (p + 4 = blen (pre ++ L "<(" ++ L "{}")) as E4 by (rewrite !blen_app, E; change (blen (L "<(")) with 2; change (blen (L "{}")) with 2; lia).
        split; [eapply here_many; eassumption|]. split; [reflexivity|]. cbn [snd].
        replace (p + 6) with (p + 4 + 2) by lia. change (node_ok (p + 4) (p + 4 + blen (nest_text k m)) (nest_node (p + 4) k m)). eapply IH; eassumption.
    + apply (here_many _ (pre ++ L "<(" ++ L "{}" ++ nest_text k m) (L ")>" ++ post)); [rewrite H, <- !app_assoc; reflexivity|rewrite !blen_app, E; change (blen (L "<(")) with 2; change (blen (L "{}")) with 2; lia].
    + unfold nest. cbn [in_close Maybe]. rewrite Hl. replace (p + (6 + blen (nest_text k m)) - 2) with (p + 4 + blen (nest_text k m)) by lia.
      apply (here_token _ (pre ++ L "<(" ++ L "{}" ++ nest_text k m) post); [rewrite H, <- !app_assoc; reflexivity|rewrite !blen_app, E; change (blen (L "<(")) with 2; change (blen (L "{}")) with 2; lia|change (blen (L ")>")) with 2; lia].
Qed.
End Source.
Lemma nest_reads : forall alnum k m, document_ok (nest_text k m) alnum (nest_tree k m).
Proof.
  intros alnum k m. set (src := nest_text k m).
  assert (forall f, Tok src (many (one f)) 0 0) as G0 by (intros f; now apply (here_many src f [] src)).
  assert (forall f, Tok src (many (one f)) (blen src) (blen src)) as G1 by (intros f; apply (here_many src f src []); [symmetry; apply app_nil_r|reflexivity]).
  exists 0, (blen src). split; [apply G0|]. split; [|apply G1].
  exists 0, (blen src). cbn [ct_start ct_end ct_lines nest_tree]. fold src. repeat (split; [apply G0|]). split; [|split; apply G1].
  cbn [lines_ok]. exists 0, (blen src). cbn [ln_start ln_end ln_nodes]. repeat (split; [apply G0|]). split; [|split; apply G1].
  cbn [Tiles]. exists (blen src). split; [|reflexivity]. exists 0, 0. split; [apply G0|]. split; [reflexivity|]. cbn [snd].
  apply (nest_ok src alnum k m [] []); [symmetry; apply app_nil_r|reflexivity].
Qed.

(** ** The errors *)
Section Build.
Local Open Scope nat_scope.
Variable slc : lrange -> str.
Notation types := (map item_type_of).
(** How many errors [validate_from] reports, at least, at the end of a line *)
Lemma validate_elements : forall l last, types l = repeat ITElement (length l) ->
  Post false (validate_from (Some last) l) (fun d _ => length l <= mis d).
Proof.
  induction l as [|n l IH]; intros [lt lr] H; cbn [validate_from length]; [apply post_ret; cbn; lia|].
  cbn [map repeat length] in H. injection H as H0 H. rewrite H0.
  eapply post_bind with (Q := fun d _ => mis d = 1).
  - destruct (stands_alone lt); [now apply post_syntax|]. now apply post_syntax.
  - intros d v Hd. eapply post_impl; [now apply IH|]. intros d' v' Hd'. cbn beta in *. rewrite mis_app. lia.
Qed.
Lemma validate_skip : forall a l last x, types a = repeat ITInlineElement (length a) ->
  types l = repeat ITElement (length l) -> Post false (validate_from (Some (last, x)) (a ++ l)) (fun d _ => length l <= mis d).
Proof.
  induction a as [|n a IH]; intros l last x Ha Hl; [now apply validate_elements|]. cbn [app validate_from].
  cbn [map repeat length] in Ha. injection Ha as H0 Ha. rewrite H0.
  assert (forall m : M unit, Post false m (fun _ _ => True) -> Post false (m ;* validate_from (Some (ITInlineElement, n_range n)) (a ++ l)) (fun d _ => length l <= mis d)) as HG.
  { intros m Hm. eapply post_bind; [exact Hm|]. intros d v _. eapply post_impl; [now apply IH|]. intros d' v' Hd'. cbn beta in *. rewrite mis_app. lia. }
  apply HG. destruct (stands_alone last); [now apply post_syntax|]. cbn [stands_alone]. now apply post_ret.
Qed.

Definition a_block_item (i : a_item) : Prop := fst i = None /\ exists s b e, snd i = ANode s (ANElement (ABlockElt b)) e.
Lemma block_element : forall f r b, Post false (build_element slc f r (ABlockElt b)) (fun _ v => types v = [ITElement]).
Proof.
  intros [|f] r b; [apply post_fuel|]. cbn [build_element]. destruct f as [|f]; [apply post_fuel|]. cbn [build_block].
  eapply post_bind with (Q := fun _ e => exists x, e_type e = Standard x).
  - eapply post_bind; [eapply post_impl; [apply reports_unclosed|intros; exact I]|]. intros d v _.
    eapply post_bind; [eapply post_impl; [apply (proj1 (build_few slc f))|intros; exact I]|]. intros d' v' _. apply post_ret. eexists. reflexivity.
  - intros d e [x Hx]. apply post_ret. cbn. now rewrite Hx.
Qed.
Lemma line_blocks : forall l f, Forall a_block_item l -> Post false (extend_line slc f l) (fun _ v => types (snd v) = repeat ITElement (length l)).
Proof.
  induction l as [|[sp [s t e]] l IH]; intros [|f] H; try apply post_fuel; cbn [extend_line length repeat]; [now apply post_ret|].
  inversion H as [|? ? [H1 (s' & b & e' & H2)] H3]; subst. cbn [fst snd] in *. subst sp. injection H2 as -> -> ->.
  eapply post_bind with (Q := fun _ v => fst v = l /\ types (snd v) = [ITElement]).
  - eapply post_bind; [apply block_element|]. intros d v Hv. now apply post_ret.
  - intros d [r out] [E Ho]. cbn [fst snd] in *. subst r. eapply post_bind; [now apply IH|]. intros d' [r' out'] Ho'. apply post_ret. cbn [fst snd app] in *. now rewrite map_app, Ho, Ho'.
Qed.
Lemma inline_first_element : forall r n l, item_type_of n = ITElement -> exists n', inline_first r (n :: l) = Some (n' :: l) /\ item_type_of n' = ITInlineElement.
Proof.
  intros r [rr e|rr [x|x|x]] l H; try discriminate. cbn [item_type_of] in H. cbn [inline_first is_visible]. destruct (e_type e) as [|d|d|d|d|] eqn:E; try discriminate.
  eexists. split; [reflexivity|]. reflexivity.
Qed.
Lemma types_length : forall l x n, types l = repeat x n -> length l = n.
Proof. intros l x n H. apply (f_equal (@length _)) in H. now rewrite map_length, repeat_length in H. Qed.

Lemma nest_errors : forall k m f r p, 
  Post false (build_inline slc f r (nest p k (S m))) (fun d v => 2 * m * S k <= mis d /\ types v = repeat ITInlineElement (S k) ++ repeat ITElement m).
Proof.
  (** given what the line of the inline element is *)
  assert (forall k m f r i e0, Post false (build_line slc f (in_inner i)) (fun d v => e0 <= mis d /\ types (snd v) = ITElement :: repeat ITInlineElement k ++ repeat ITElement m) ->
    Post false (build_inline slc (S f) r i) (fun d v => e0 + m <= mis d /\ types v = repeat ITInlineElement (S k) ++ repeat ITElement m)) as HI.
  { intros k m f r i e0 H. cbn [build_inline]. eapply post_bind; [eapply post_impl; [apply reports_unclosed|intros; exact I]|]. intros d0 v0 _.
    eapply post_bind; [exact H|]. intros d [rest line] [H1 H2]. cbn [snd] in H2. destruct line as [|n line]; [discriminate|]. cbn [map] in H2. injection H2 as H2 H3.
    assert (exists a l, line = a ++ l /\ types a = repeat ITInlineElement (length a) /\ types l = repeat ITElement (length l) /\ length l = m) as (a & l & -> & Ha & Hl & El).
    { apply map_eq_app in H3 as (a & l & -> & Ha & Hl). exists a, l. pose proof (types_length _ _ _ Ha) as E1. pose proof (types_length _ _ _ Hl) as E2. rewrite E1, E2. auto. }
    eapply post_bind with (Q := fun d _ => m <= mis d).
    - unfold validate_line. cbn [validate_from]. rewrite H2. eapply post_bind; [now apply post_ret with (Q := fun _ _ => True)|]. intros d' v' _.
      eapply post_impl; [now apply validate_skip|]. intros d'' v'' H''. cbn beta in *. rewrite mis_app. lia.
    - intros d' v' H'. apply post_ret. rewrite app_nil_r, !mis_app. split; [lia|].
      destruct (inline_first_element r n (a ++ l) H2) as (n' & -> & Hn). cbn [map repeat]. now rewrite Hn, H3. }
  assert (forall f items e0 k m, Post false (extend_line slc f items) (fun d v => e0 <= mis d /\ types (snd v) = ITElement :: repeat ITInlineElement k ++ repeat ITElement m) ->
    Post false (build_line slc (S f) items) (fun d v => e0 + m <= mis d /\ types (snd v) = ITElement :: repeat ITInlineElement k ++ repeat ITElement m)) as HL.
  { intros f items e0 k m H. cbn [build_line]. eapply post_bind; [exact H|]. intros d [rest line] [H1 H2]. cbn [snd] in H2. destruct line as [|n line]; [discriminate|]. cbn [map] in H2. injection H2 as H2 H3.
    assert (exists a l, line = a ++ l /\ types a = repeat ITInlineElement (length a) /\ types l = repeat ITElement (length l) /\ length l = m) as (a & l & -> & Ha & Hl & El).
    { apply map_eq_app in H3 as (a & l & -> & Ha & Hl). exists a, l. pose proof (types_length _ _ _ Ha) as E1. pose proof (types_length _ _ _ Hl) as E2. rewrite E1, E2. auto. }
    eapply post_bind with (Q := fun d _ => m <= mis d).
    - unfold validate_line. cbn [validate_from]. rewrite H2. eapply post_bind; [now apply post_ret with (Q := fun _ _ => True)|]. intros d' v' _.
      eapply post_impl; [now apply validate_skip|]. intros d'' v'' H''. cbn beta in *. rewrite mis_app. lia.
    - intros d' v' H'. apply post_ret. rewrite app_nil_r, !mis_app. split; [lia|]. cbn [snd map]. now rewrite H2, H3. }
  induction k as [|k IH]; intros m [|f] r p; try apply post_fuel.
  - destruct f as [|f]; [cbn [build_inline build_line]; eapply post_bind; [eapply post_impl; [apply reports_unclosed|intros; exact I]|]; intros; intros e He; reflexivity|].
    eapply post_impl; [eapply (HI 0 m (S f) r _ (0 + m)); eapply HL|].
    + eapply post_impl; [apply line_blocks|].
      * cbn [nest in_inner nest_inner]. generalize (p + 2)%N. generalize (S m). clear. induction n as [|n IHn]; intros q; constructor; [|apply IHn]. split; [reflexivity|]. repeat eexists.
      * intros d v H. cbn beta in H. split; [lia|]. rewrite H. cbn [nest in_inner nest_inner].
        assert (forall n q, length (block_items q n) = n) as -> by (clear; induction n as [|n IHn]; intros q; cbn; [reflexivity|now rewrite IHn]). reflexivity.
    + intros d v [H1 H2]. split; [lia|exact H2].
  - destruct f as [|f]; [cbn [build_inline build_line]; eapply post_bind; [eapply post_impl; [apply reports_unclosed|intros; exact I]|]; intros; intros e He; reflexivity|].
    eapply post_impl; [eapply (HI (S k) m (S f) r _ (2 * m * S k + m)); eapply HL|].
    + destruct f as [|f]; [apply post_fuel|]. cbn [nest in_inner nest_inner block_item extend_line].
      eapply post_bind with (Q := fun _ v => fst v = [(None, nest_node (p + 4) k (S m))] /\ types (snd v) = [ITElement]).
      * eapply post_bind; [apply block_element|]. intros d v Hv. apply post_ret. split; [|exact Hv]. cbn [fst]. unfold nest_node, nest. do 6 f_equal. f_equal. lia.
      * intros d [rest out] [E Ho]. cbn [fst snd] in *. subst rest. destruct f as [|f]; [intros e He; reflexivity|]. cbn [extend_line nest_node].
        eapply post_bind with (Q := fun d v => 2 * m * S k <= mis d /\ types (snd v) = repeat ITInlineElement (S k) ++ repeat ITElement m).
        -- eapply post_bind with (Q := fun d v => 2 * m * S k <= mis d /\ fst v = [] /\ types (snd v) = repeat ITInlineElement (S k) ++ repeat ITElement m).
           ++ eapply post_bind with (Q := fun d v => 2 * m * S k <= mis d /\ types v = repeat ITInlineElement (S k) ++ repeat ITElement m).
              ** destruct f as [|f]; [apply post_fuel|]. cbn [build_element]. apply IH.
              ** intros d' v' [H1 H2]. apply post_ret. rewrite app_nil_r. auto.
           ++ intros d' [r' o'] (H1 & E & H2). cbn [fst snd] in *. subst r'. destruct f as [|f]; [intros e He; reflexivity|]. cbn [extend_line]. eapply post_bind; [now apply post_ret with (Q := fun d v => d = [] /\ v = ([], []))|].
              intros d'' v'' [-> ->]. apply post_ret. cbn [snd app]. rewrite !app_nil_r. auto.
        -- intros d' [r' o'] [H1 H2]. cbn [snd] in H2. apply post_ret. cbn [snd app]. rewrite app_nil_r, mis_app, map_app, Ho, H2. split; [lia|reflexivity].
    + intros d v [H1 H2]. split; [nia|exact H2].
Qed.
Lemma tree_errors : forall k m, Post false (from_ast slc (nest_tree k (S m))) (fun d _ => 2 * m * S k <= mis d).
Proof.
  intros k m. unfold from_ast. destruct (build_fuel _) as [|f]; [apply post_fuel|]. cbn [build_content]. eapply post_bind with (Q := fun d _ => 2 * m * S k <= mis d).
  2: { intros d v H. apply post_ret. now rewrite app_nil_r. }
  destruct f as [|f]; [apply post_fuel|]. cbn [build_lines nest_tree ct_lines ln_nodes].
  eapply post_bind with (Q := fun d _ => 2 * m * S k <= mis d).
  - eapply post_bind with (Q := fun d _ => 2 * m * S k <= mis d).
    + destruct f as [|f]; [apply post_fuel|]. cbn [build_line]. eapply post_bind with (Q := fun d _ => 2 * m * S k <= mis d).
      * destruct f as [|f]; [apply post_fuel|]. cbn [extend_line nest_node]. eapply post_bind with (Q := fun d _ => 2 * m * S k <= mis d).
        -- eapply post_bind with (Q := fun d _ => 2 * m * S k <= mis d).
           ++ destruct f as [|f]; [apply post_fuel|]. cbn [build_element]. eapply post_impl; [apply nest_errors|]. intros d v [H _]. exact H.
           ++ intros d v H. apply post_ret. now rewrite app_nil_r.
        -- intros d [r o] H. eapply post_bind; [eapply post_impl; [apply (proj1 (proj2 (proj2 (proj2 (build_few slc f)))))|intros; exact I]|].
           intros d' [r' o'] _. apply post_ret. rewrite !mis_app. lia.
      * intros d [r o] H. eapply post_bind; [eapply post_impl; [apply validate_few|intros; exact I]|]. intros d' v' _. apply post_ret. rewrite !mis_app. lia.
    + intros d [r o] H. apply post_ret. now rewrite app_nil_r.
  - intros d v H. eapply post_impl; [apply (proj1 (proj2 (build_few slc f)))|]. intros d' v' _. cbn beta in *. rewrite mis_app. lia.
Qed.
End Build.

Theorem many_errors : forall alnum k, exists src c l, document_ok src alnum c /\
  convert (fun _ => inl c) source_slice src config_default = Some (inr (CESyntax l)) /\ k * blen src < N.of_nat (length l).
Proof.
  intros alnum k. set (m := (5 * N.to_nat k + 2)%nat). exists (nest_text m (S m)), (nest_tree m (S m)).
  destruct (convert_outcome (fun _ => inl (nest_tree m (S m))) source_slice (nest_text m (S m)) config_default _ eq_refl) as (d & ns & HA & HO).
  pose proof (from_ast_errs _ _ _ _ _ (tree_errors _ m m) HA) as H. cbn beta in H. exists d. split; [apply nest_reads|].
  assert (k * blen (nest_text m (S m)) < N.of_nat (length d)) as HK.
  { rewrite mis_length, nest_length. unfold m in *. nia. }
  split; [|exact HK]. destruct d as [|x d]; [cbn in HK; lia|]. apply HO. discriminate.
Qed.

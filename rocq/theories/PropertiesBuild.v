(** * Property theorems about building the document from the syntax tree: C28, C41.

    [from_ast slc c (errors_new cfg) = (e, Ok ns)]: the nodes of the document are [ns]
    and the errors reported are those in [e].  Specifications: SpecBuild.v. *)

From Verif Require Import Base Doc Config Ast Errors Build Convert SpecSource SpecBuild P_Marks PropertiesConvert.

(** ** C28: texts, comments and interpolations are kept in order.

    Whatever the errors, nothing is invented, doubled or reordered.  Without errors nothing
    is lost either, provided that no line is a child combinator leading to a block
    followed by more. *)
Theorem C28_texts_kept_partial : forall slc c cfg e ns, from_ast slc c (errors_new cfg) = (e, Ok ns) ->
  Subseq (flat_map doc_leaves ns) (content_leaves c) /\
  (er_syntax e = [] -> all_lines tidy_line c -> flat_map doc_leaves ns = content_leaves c).
Proof. exact texts_kept. Qed.
Print Assumptions C28_texts_kept_partial.

(** [> { x } foo] *)
Definition ex_drop_src : str := L "> { x } foo".
Definition ex_drop_block : a_item :=
  (Some (R 1 2), ANode 2 (ANElement (ABlockElt (mkABlock (R 2 3)
     (mkACont 4 [mkALine 4 [ex_item 4 5 (ANText (ASegment (R 4 5)))] 5] 5) (Some (R 6 7))))) 7).
Definition ex_drop_tree : a_content :=
  ex_content [ex_item 0 1 (ANElement (ALineElt (R 0 1))); ex_drop_block;
              (Some (R 7 8), ANode 8 (ANText (ASegment (R 8 11))) 11)] 11.

(** The full claim (without the proviso) is REFUTED: here "foo" is lost, with no error. *)
Theorem C28_text_lost_refuted :
  convert (ex_parse ex_drop_tree) source_slice ex_drop_src ex_cfg = Some (inl (L "<p>x</p>")) /\
  exists e ns, from_ast (source_slice ex_drop_src) ex_drop_tree (errors_new ex_cfg) = (e, Ok ns) /\
    er_syntax e = [] /\ flat_map doc_leaves ns <> content_leaves ex_drop_tree /\
    In (TText (plain_text (R 8 11))) (content_leaves ex_drop_tree) /\
    ~ In (TText (plain_text (R 8 11))) (flat_map doc_leaves ns).
Proof.
  split; [vm_compute; reflexivity|].
  destruct (from_ast (source_slice ex_drop_src) ex_drop_tree (errors_new ex_cfg)) as [e r] eqn:E.
  vm_compute in E. injection E as <- <-. eexists. eexists. split; [reflexivity|]. split; [reflexivity|].
  split; [vm_compute; discriminate|]. split; [vm_compute; auto|]. vm_compute. intros [H|[]]. discriminate.
Qed.
Print Assumptions C28_text_lost_refuted.

(** [p { x } <! c !>]: meets the proviso, with something after the block. *)
Definition ex_kept_tree : a_content :=
  ex_content [ex_item 0 1 (ANSelector (mkASel 0 (AStartTag (Some (AName (R 0 1))) []) [] 1)); ex_drop_block;
              (Some (R 7 8), ANode 8 (ANText (AComment (mkACom 8 (R 8 10) (R 10 13) (Some (R 13 15)) 15))) 15)] 15.
Example C28_example :
  let src := L "p { x } <! c !>" in
  all_lines tidy_line ex_kept_tree /\ all_lines selectors_used ex_kept_tree /\
  content_leaves ex_kept_tree = [TText (plain_text (R 4 5)); TComment (FromSource (R 10 13))] /\
  exists e ns, from_ast (source_slice src) ex_kept_tree (errors_new ex_cfg) = (e, Ok ns) /\ er_syntax e = [] /\
    flat_map doc_leaves ns = content_leaves ex_kept_tree /\ flat_map doc_selectors ns = content_selectors ex_kept_tree.
Proof.
  cbv zeta. split; [|split; [|split]].
  - apply all_lines_check. repeat (constructor; [apply tidy_check; reflexivity|]). constructor.
  - apply all_lines_check. repeat (constructor; [apply used_check; reflexivity|]). constructor.
  - reflexivity.
  - eexists. eexists. split; [vm_compute; reflexivity|]. repeat split; vm_compute; reflexivity.
Qed.

(** ** C41: selectors are kept in order.

    Range, tag, ids, classes, attribute names and values of the selectors in the source are
    those of the elements of the document, if no error is reported, each line is as for C28,
    and no line ends in a selector. *)
Theorem C41_selectors_kept_partial : forall slc c cfg e ns, from_ast slc c (errors_new cfg) = (e, Ok ns) ->
  er_syntax e = [] -> all_lines tidy_line c -> all_lines selectors_used c ->
  flat_map doc_selectors ns = content_selectors c.
Proof. exact selectors_kept. Qed.
Print Assumptions C41_selectors_kept_partial.
(** The tree of C28_example meets the hypotheses; it has a selector. *)
Example C41_example : length (content_selectors ex_kept_tree) = 1%nat /\
  exists e ns, from_ast (source_slice (L "p { x } <! c !>")) ex_kept_tree (errors_new ex_cfg) = (e, Ok ns) /\ er_syntax e = [] /\
    flat_map doc_selectors ns = content_selectors ex_kept_tree.
Proof. split; [vm_compute; reflexivity|]. eexists. eexists. split; [vm_compute; reflexivity|]. split; vm_compute; reflexivity. Qed.

(** [foo [x]]: the selector at the end of the line is dropped without an error. *)
Definition ex_trail_tree : a_content :=
  ex_content [ex_item 0 3 (ANText (ASegment (R 0 3)));
              (Some (R 3 4), ANode 4 (ANSelector (mkASel 4 (AStartAttrs (mkAAttrs 4 (R 4 5) [mkAAttr 5 (R 5 6) None 6] (Some (R 6 7)) 7)) [] 7)) 7)] 7.
Theorem C41_selector_lost_refuted :
  convert (ex_parse ex_trail_tree) source_slice (L "foo [x]") ex_cfg = Some (inl (L "<p>foo</p>")) /\
  exists e ns, from_ast (source_slice (L "foo [x]")) ex_trail_tree (errors_new ex_cfg) = (e, Ok ns) /\ er_syntax e = [] /\
    all_lines tidy_line ex_trail_tree /\ content_selectors ex_trail_tree <> [] /\ flat_map doc_selectors ns = [].
Proof.
  split; [vm_compute; reflexivity|]. eexists. eexists. split; [vm_compute; reflexivity|]. split; [reflexivity|].
  split; [|split; vm_compute; [discriminate|reflexivity]].
  apply all_lines_check. repeat (constructor; [apply tidy_check; reflexivity|]). constructor.
Qed.
Print Assumptions C41_selector_lost_refuted.

(** * Property theorems about the recorded positions of texts and elements: C70, C71, C25. *)

From Verif Require Import Base Doc Config Ast Errors Build Transform Convert Output Parser Grammar SpecBuild SpecSource SpecWhole SpecErrors SpecTransform SpecPlaces
  P_Base P_Meta P_Marks P_Places P_Nest PropertiesTransform PropertiesParser.
From Coq Require Import Lia.

(** ** C70: each text, comment and interpolation of the document stands in the source where its
    range says, delimited as the syntax has it, and its content is what stands there between the
    delimiters; and the texts of the document come in the order of the source, none of them twice.

    [WrittenAt], [one_after_another]: SpecPlaces.v; [doc_places]: SpecBuild.v. *)
Theorem C70_places : forall alnum parse src cfg d ns, reads alnum parse src -> c_metadata cfg <> Some true ->
  document_of parse src cfg d ns ->
  Forall (fun p => WrittenAt src (fst p) (snd p)) (flat_map doc_places ns) /\
  (c_complete_page cfg <> Some true -> one_after_another 0 (blen src) (map fst (flat_map doc_places ns))).
Proof.
  intros alnum parse src cfg d ns HR HM HD. split.
  - eapply written_places; eassumption.
  - intros HP. eapply ordered_places; eassumption.
Qed.
Print Assumptions C70_places.

(** Where metadata shows texts and comments as elements, the ranges recorded on these elements
    ([MetaShown], as in C24) are such places. *)
Theorem C70_shown : forall alnum parse src cfg d ns, reads alnum parse src -> c_metadata cfg = Some true -> c_lang cfg = None ->
  document_of parse src cfg d ns ->
  exists plain, Forall2 (MetaShown true) plain ns /\
    Forall (fun p => WrittenAt src (fst p) (snd p)) (flat_map doc_places plain) /\
    (c_complete_page cfg <> Some true -> one_after_another 0 (blen src) (map fst (flat_map doc_places plain))).
Proof.
  intros alnum parse src cfg d ns HR HM HL (c & tree & EP & EB & ET).
  destruct (C24_metadata_elements (source_slice src) cfg (mkR (ct_start c) (ct_end c)) tree HM) as (plain & added & E1 & E2 & H).
  replace (without_lang cfg) with cfg in E2 by (destruct cfg; cbn in HL; subst; reflexivity).
  assert (added = ns) as -> by congruence. exists plain. split; [exact H|].
  apply (C70_places alnum parse src (without_lang (without_metadata cfg)) d plain HR).
  - destruct cfg. discriminate.
  - exists c, tree. auto.
Qed.
Print Assumptions C70_shown.

(** One text of each kind. *)
Definition ex_places_src : str :=
  L "a {" ++ [10] ++ L "b <! c !> {{d}} <`e`> <[raw#[f]#]>" ++ [10] ++ L "'''g" ++ [10] ++ L " h" ++ [10] ++ L "'''" ++ [10] ++ L "}".
Definition ex_places_parse := parser is_ascii_alnum (fun _ => mkPE 0 [] []).
Definition ex_places_tree : a_content := match ex_places_parse ex_places_src with inl c => c | inr _ => mkACont 0 [] 0 end.
Definition ex_places_nodes : list node :=
  match snd (from_ast (source_slice ex_places_src) ex_places_tree (mkErrs false [] [] false)) with
  | Ok tree => match transform_document (source_slice ex_places_src) config_default (mkR (ct_start ex_places_tree) (ct_end ex_places_tree)) tree with
               | Some ns => ns | None => [] end
  | _ => [] end.
Example C70_example :
  reads is_ascii_alnum ex_places_parse ex_places_src /\
  document_of ex_places_parse ex_places_src config_default [] ex_places_nodes /\
  flat_map doc_places ex_places_nodes =
    [(mkR 4 5, TText (plain_text (mkR 4 5)));
     (mkR 6 13, TComment (FromSource (mkR 8 11)));
     (mkR 14 19, TText (interpolation (mkR 14 19)));
     (mkR 22 23, TText (code_text (mkR 22 23)));
     (mkR 26 38, TText (verbatim_text true (mkR 33 34)));
     (mkR 43 47, TText (multiline_text MLUnescaped (mkR 43 47)))].
Proof.
  split; [apply C50_readings; exists [], ex_places_src; repeat split|]. split; [|vm_compute; reflexivity].
  exists ex_places_tree, match snd (from_ast (source_slice ex_places_src) ex_places_tree (mkErrs false [] [] false)) with Ok t => t | _ => [] end.
  split; [vm_compute; reflexivity|]. split; vm_compute; reflexivity.
Qed.

(** ** C71: each element stands in the source where its range and content range say, delimited as
    the syntax has it; its selectors come before its content, and what is inside it stands after
    the start of its content and before its end.

    [PlacedIn], [Delimited], [plain_blocks]: SpecPlaces.v.  A block after a combinator, and a block
    with something after it in its line, are set aside: see C25_includes_refuted,
    C25_comment_refuted. *)
Theorem C71_elements : forall alnum parse src c tree, reads alnum parse src -> parse src = inl c -> all_lines plain_blocks c ->
  builds (source_slice src) c [] tree -> Forall (PlacedIn src (mkR (ct_start c) (ct_end c))) tree.
Proof.
  intros alnum parse src c tree HR HP HA HB. unfold reads in HR. rewrite HP in HR. eapply tree_placed; eassumption.
Qed.
Print Assumptions C71_elements.

(** An element of each kind. *)
Definition ex_nest_src : str :=
  L "a {" ++ [10] ++ L "b> c> d <( e { f } )> <( g )> </ h />" ++ [10] ++ L "i <`j`>" ++ [10] ++ L "```k" ++ [10] ++ L " l" ++ [10] ++ L "```" ++ [10] ++ L "}".
Definition ex_nest_tree : a_content := Eval vm_compute in match ex_places_parse ex_nest_src with inl c => c | inr _ => mkACont 0 [] 0 end.
Definition ex_nest_nodes : list node := Eval vm_compute in
  match snd (from_ast (source_slice ex_nest_src) ex_nest_tree (mkErrs false [] [] false)) with Ok t => t | _ => [] end.
Fixpoint node_elements (n : node) : list (lrange * lrange * element_type) :=
  match n with NElt r e => (r, e_crange e, e_type e) :: flat_map node_elements (e_nodes e) | NTxt _ _ => [] end.
Example C71_example :
  reads is_ascii_alnum ex_places_parse ex_nest_src /\ ex_places_parse ex_nest_src = inl ex_nest_tree /\
  all_lines plain_blocks ex_nest_tree /\ builds (source_slice ex_nest_src) ex_nest_tree [] ex_nest_nodes /\
  flat_map node_elements ex_nest_nodes =
    [(mkR 0 63, mkR 4 62, Standard (DBlock (mkR 0 63)));
     (mkR 4 49, mkR 9 41, Standard (DLine (mkR 8 9)));
     (mkR 12 25, mkR 19 21, Inline (Some (DBlock (mkR 15 22)))); (mkR 19 21, mkR 19 21, Paragraph);
     (mkR 26 33, mkR 28 31, Inline None); (mkR 34 41, mkR 36 39, Doc.Special Emphasis);
     (mkR 44 49, mkR 46 47, Doc.Special Code);
     (mkR 50 61, mkR 54 58, Multiline MLCode)].
Proof.
  split; [apply C50_readings; exists [], ex_nest_src; repeat split|]. split; [vm_compute; reflexivity|].
  split; [apply all_lines_check; repeat (constructor; [apply plain_check; reflexivity|]); constructor|].
  split; [vm_compute; reflexivity|]. vm_compute. reflexivity.
Qed.

(** ** C25, from the source: in such sources the range of an element includes the ranges of what is
    inside it, also in the document that is written, with its chains of elements made of chains of
    selectors, and with page completion. *)
Theorem C25_includes_partial : forall alnum parse src c tree cfg ns, reads alnum parse src -> parse src = inl c -> all_lines plain_blocks c ->
  builds (source_slice src) c [] tree ->
  transform_document (source_slice src) cfg (mkR (ct_start c) (ct_end c)) tree = Some ns ->
  Forall (Nested (mkR (ct_start c) (ct_end c))) ns.
Proof.
  intros alnum parse src c tree cfg ns HR HP HA HB HT. unfold reads in HR. rewrite HP in HR. eapply document_nested; eassumption.
Qed.
Print Assumptions C25_includes_partial.
(** The source of C71_example, as a completed page *)
Definition ex_nest_cfg : config := mkConfig None None special_default (Some true) None None None.
Definition ex_nest_page : list node := Eval vm_compute in
  match transform_document (source_slice ex_nest_src) ex_nest_cfg (mkR (ct_start ex_nest_tree) (ct_end ex_nest_tree)) ex_nest_nodes with Some ns => ns | None => [] end.
Example C25_includes_example :
  transform_document (source_slice ex_nest_src) ex_nest_cfg (mkR (ct_start ex_nest_tree) (ct_end ex_nest_tree)) ex_nest_nodes = Some ex_nest_page /\
  length (flat_map node_elements ex_nest_page) = 13%nat.
Proof. split; vm_compute; reflexivity. Qed.

(** [p> x <(a { y } <!c!>)>]: the inline element [a] has the range of the whole [<(...)>], but the
    line ends where its last thing ends, the comment, so that [p] does not include [a]. *)
Definition ex_trail_src : str := L "p> x <(a { y } <!c!>)>".
Definition ex_trail_doc : list node := Eval vm_compute in
  match ex_places_parse ex_trail_src with
  | inl c => match snd (from_ast (source_slice ex_trail_src) c (mkErrs false [] [] false)) with
             | Ok tree => match transform_document (source_slice ex_trail_src) config_default (mkR (ct_start c) (ct_end c)) tree with Some ns => ns | None => [] end
             | _ => [] end
  | inr _ => [] end.
Definition ex_trail_c : a_content := Eval vm_compute in match ex_places_parse ex_trail_src with inl c => c | inr _ => mkACont 0 [] 0 end.
Theorem C25_comment_refuted :
  reads is_ascii_alnum ex_places_parse ex_trail_src /\ document_of ex_places_parse ex_trail_src config_default [] ex_trail_doc /\
  exists r e r' e', ex_trail_doc = [NElt r e] /\ In (NElt r' e') (e_nodes e) /\ valid_range r /\ valid_range r' /\ ~ within r' r.
Proof.
  split; [apply C50_readings; exists [], ex_trail_src; repeat split|]. split.
  - exists ex_trail_c, match snd (from_ast (source_slice ex_trail_src) ex_trail_c (mkErrs false [] [] false)) with Ok t => t | _ => [] end.
    split; [vm_compute; reflexivity|]. split; vm_compute; reflexivity.
  - unfold ex_trail_doc. eexists _, _, _, _. split; [reflexivity|]. split; [cbn [e_nodes]; do 3 right; left; reflexivity|].
    split; [vm_compute; discriminate|]. split; [vm_compute; discriminate|]. unfold within. cbn [r_start r_end]. lia.
Qed.
Print Assumptions C25_comment_refuted.

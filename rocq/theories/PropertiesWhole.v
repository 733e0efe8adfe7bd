(** * Properties from the source to the output.

    [document_of parse src cfg d ns] (SpecWhole.v): [ns] is the document that is written
    for the source [src], [d] are the errors found in it.  [reads alnum parse src]
    (SpecErrors.v): the parser's answer for [src] agrees with the grammar. *)

From Verif Require Import Base Doc Config Ast Errors Build Transform Output Convert Grammar SpecSource SpecTransform SpecErrors
  SpecWhole P_Match P_Inside PropertiesConvert.
From Coq Require Import Lia.

(** What [convert] returns is the output of a document without errors. *)
Theorem whole_document : forall parse src cfg out, convert parse source_slice src cfg = Some (inl out) ->
  exists ns, document_of parse src cfg [] ns /\ output_html (source_slice src) cfg ns = (out, true).
Proof. exact convert_document. Qed.
Print Assumptions whole_document.

(** ** C25: every recorded position is a character boundary of the source.

    With [C25_recorded] (PropertiesTransform.v), which says that the attributes hold
    these ranges where start <= end.  A source is shorter than the greatest location. *)
Theorem C25_inside : forall alnum parse src cfg d ns, blen src < loc_max -> reads alnum parse src ->
  document_of parse src cfg d ns -> Forall (Located src) ns.
Proof. exact document_located. Qed.
Print Assumptions C25_inside.

(** [div> p> { x }] *)
Definition ex_src5 : str := L "div> p> { x }".
Definition ex_tree5 : a_content :=
  ex_content [ex_item 0 3 (ANSelector (mkASel 0 (AStartTag (Some (AName (R 0 3))) []) [] 3));
              ex_item 3 4 (ANElement (ALineElt (R 3 4)));
              (Some (R 4 5), ANode 5 (ANSelector (mkASel 5 (AStartTag (Some (AName (R 5 6))) []) [] 6)) 6);
              ex_item 6 7 (ANElement (ALineElt (R 6 7)));
              (Some (R 7 8), ANode 8 (ANElement (ABlockElt (mkABlock (R 8 9)
                 (mkACont 10 [mkALine 10 [ex_item 10 11 (ANText (ASegment (R 10 11)))] 11] 12) (Some (R 12 13))))) 13)] 13.
Definition ex_meta : config := mkConfig None None (mkSpecial None None None None None None None) None None (Some false) None.
Definition document_for (src : str) (c : a_content) (cfg : config) : list node :=
  match prepare (ex_parse c) source_slice src cfg (errors_new cfg) with (_, Ok ns) => ns | _ => [] end.
Lemma document_for_ok : forall src c cfg, fst (prepare (ex_parse c) source_slice src cfg (errors_new cfg)) = errors_new cfg ->
  document_for src c cfg <> [] -> document_of (ex_parse c) src cfg [] (document_for src c cfg).
Proof.
  unfold document_for. intros src c cfg H1 H2.
  destruct (prepare _ _ _ _ _) as [e [ns| |]] eqn:E; [|now elim H2|now elim H2]. cbn in H1. subst e.
  now apply prepare_document in E as (E & _).
Qed.
Definition ex_doc5 : list node := Eval vm_compute in document_for ex_src5 ex_tree5 ex_meta.
Lemma ex_doc5_ok : document_of (ex_parse ex_tree5) ex_src5 ex_meta [] ex_doc5.
Proof.
  change ex_doc5 with (document_for ex_src5 ex_tree5 ex_meta). apply document_for_ok; vm_compute; [reflexivity|discriminate].
Qed.
Example C25_inside_example : reads is_ascii_alnum (ex_parse ex_tree5) ex_src5 /\ blen ex_src5 < loc_max /\
  exists ns, document_of (ex_parse ex_tree5) ex_src5 ex_meta [] ns.
Proof.
  split; [apply document_b_ok; vm_compute; reflexivity|]. split; [vm_compute; reflexivity|].
  exists ex_doc5. exact ex_doc5_ok.
Qed.

(** The claim that the range of an element includes the ranges of its content is
    REFUTED: [div> p> { x }] records the range of the block for [div] and a range that
    starts at the selector for [p], which is inside [div]. *)
Theorem C25_includes_refuted :
  document_ok ex_src5 is_ascii_alnum ex_tree5 /\
  (exists r e r' e', document_of (ex_parse ex_tree5) ex_src5 ex_meta [] [NElt r e] /\
     e_nodes e = [NElt r' e'] /\ valid_range r /\ valid_range r' /\ ~ within r' r) /\
  convert (ex_parse ex_tree5) source_slice ex_src5 ex_meta = Some (inl (L "<div xmlns:mty=""tag:youngspe.github.io,2024:mintyml/metadata"" mty:start=""8"" mty:end=""13"" mty:content-start=""5"" mty:content-end=""13""><p mty:start=""5"" mty:end=""13"" mty:content-start=""10"" mty:content-end=""12"">x</p></div>")).
Proof.
  split; [apply document_b_ok; vm_compute; reflexivity|]. split.
  - eexists _, _, _, _. split; [|split; [|split; [|split]]].
    + exact ex_doc5_ok.
    + cbn [e_nodes]. reflexivity.
    + vm_compute. discriminate.
    + vm_compute. discriminate.
    + unfold within. cbn [r_start r_end]. lia.
  - vm_compute. reflexivity.
Qed.
Print Assumptions C25_includes_refuted.

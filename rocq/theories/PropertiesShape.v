(** * Property theorems about how documents are nested: C46. *)

From Verif Require Import Base Escape OutText Doc Ast Config Errors Build Output Infer Transform Convert Grammar
  SpecEscape SpecMarkup SpecHtml SpecTree SpecInfer SpecTransform SpecBuild SpecSource SpecErrors SpecWhole SpecAttrs SpecShape
  P_Match P_Marks P_Shape PropertiesConvert PropertiesWhole PropertiesSource.

(** ** C46: elements contain what the source says they contain.

    [Says c shapes] (SpecShape.v) is the reading of a source according to the README: which
    nodes a line has, which lines belong to a paragraph, a line element or a block, and
    where white space is.  Every source has at most one reading; if the source is
    converted without errors it has one, and the elements of the result are nested,
    named and given attributes as it says, up to names for elements without a name.  If
    options ask for it: the page is completed, metadata are added, and the outermost
    elements have the language.

    Partial: lines must be [orderly], see C28; a completed page must not have a head with
    attributes or more selectors, see C22. *)
Theorem C46_structure_partial : forall E (parse : str -> a_content + E) src cfg ns c, parse src = inl c ->
  document_of parse src cfg [] ns -> all_lines orderly c ->
  exists shapes, Says (source_slice src) (is_xml cfg) true c shapes /\
    ((c_complete_page cfg = Some true -> Forall (head_alone (c_special cfg)) shapes) ->
     exists named annotated,
       Forall2 Completed
         (let page := map (planned (c_special cfg)) shapes in
          match c_complete_page cfg with Some true => completed_page page | _ => page end) named /\
       Forall2 (Annotated (c_metadata cfg)) named annotated /\
       map (page_tree_of (source_slice src) (is_xml cfg)) ns = map (given_language (source_slice src) (c_lang cfg)) annotated).
Proof. exact document_shape. Qed.
Print Assumptions C46_structure_partial.

Theorem C46_one_reading : forall slc xml p c shapes shapes',
  Says slc xml p c shapes -> Says slc xml p c shapes' -> shapes = shapes'.
Proof. intros slc xml p c s s' H H'. exact (proj1 (proj2 (proj2 (proj2 (shape_unique slc xml)))) p c s H s' H'). Qed.
Print Assumptions C46_one_reading.

Definition ex_src13 : str := L "ul {
> a
b
}

p> x <(i> y)>
z".
Definition ex_name (s e : N) : a_ntype := ANSelector (mkASel s (AStartTag (Some (AName (R s e))) []) [] e).
Definition ex_tree13 : a_content :=
  mkACont 0 [
    mkALine 0 [ex_item 0 2 (ex_name 0 2);
      (Some (R 2 3), ANode 3 (ANElement (ABlockElt (mkABlock (R 3 4)
         (mkACont 5 [mkALine 5 [ex_item 5 6 (ANElement (ALineElt (R 5 6))); (Some (R 6 7), ANode 7 (ANText (ASegment (R 7 8))) 8)] 8;
                     mkALine 9 [ex_item 9 10 (ANText (ASegment (R 9 10)))] 10] 10) (Some (R 11 12))))) 12)] 12;
    mkALine 13 [] 13;
    mkALine 14 [ex_item 14 15 (ex_name 14 15); ex_item 15 16 (ANElement (ALineElt (R 15 16)));
      (Some (R 16 17), ANode 17 (ANText (ASegment (R 17 18))) 18);
      (Some (R 18 19), ANode 19 (ANElement (AInlineElt (mkAInl (R 19 21)
         [ex_item 21 22 (ex_name 21 22); ex_item 22 23 (ANElement (ALineElt (R 22 23)));
          (Some (R 23 24), ANode 24 (ANText (ASegment (R 24 25))) 25)] (Some (R 25 27))))) 27)] 27;
    mkALine 28 [ex_item 28 29 (ANText (ASegment (R 28 29)))] 29] 29.
Definition ex_txt (a b : N) : textlike := TText (mkText (FromSource (R a b)) false true true false).
Definition ex_gap (a b : N) : textlike := TSpace (SInline (Some (FromSource (R a b)))).
Example C46_example :
  document_ok ex_src13 is_ascii_alnum ex_tree13 /\ all_lines orderly ex_tree13 /\
  (exists ns, document_of (ex_parse ex_tree13) ex_src13 config_default [] ns) /\
  Says (source_slice ex_src13) false true ex_tree13
    [ShElt FBlock [(Some (L "ul"), [])]
       [ShElt FLine [(None, [])] [ShLeaf (ex_gap 6 7); ShLeaf (ex_txt 7 8); ShLeaf (TSpace LineEnd); ShLeaf (ex_txt 9 10)]];
     ShLeaf (TSpace ParagraphEnd); ShLeaf (TSpace ParagraphEnd);
     ShElt FLine [(Some (L "p"), [])]
       [ShLeaf (ex_gap 16 17); ShLeaf (ex_txt 17 18); ShLeaf (ex_gap 18 19);
        ShElt (FInline (Some FLine)) [(Some (L "i"), [])] [ShLeaf (ex_gap 23 24); ShLeaf (ex_txt 24 25)];
        ShLeaf (TSpace LineEnd); ShLeaf (ex_txt 28 29)]] /\
  convert (ex_parse ex_tree13) source_slice ex_src13 config_default = Some (inl (L "<ul><li>a b</li></ul> <p>x <i>y</i> z</p>")).
Proof.
  assert (all_lines orderly ex_tree13) as HO.
  { apply all_lines_check. repeat (constructor; [apply orderly_check; reflexivity|]). constructor. }
  assert (document_of (ex_parse ex_tree13) ex_src13 config_default [] (document_for ex_src13 ex_tree13 config_default)) as HD
    by (apply document_for_ok; vm_compute; [reflexivity|discriminate]).
  split; [apply document_b_ok; vm_compute; reflexivity|]. split; [exact HO|]. split; [eexists; exact HD|]. split; [|vm_compute; reflexivity].
  destruct HD as (c & tree & E & HB & _). injection E as <-.
  pose proof (from_ast_shape (source_slice ex_src13) false ex_tree13 HO (mkErrs false [] [] false) eq_refl) as HC.
  unfold builds in HB. rewrite HB in HC. vm_compute in HB. injection HB as <-. destruct HC as (d & Ed & HC).
  assert (d = []) as Hd by (unfold P_Build.add_errs in Ed; cbn in Ed; now injection Ed as <-). specialize (HC Hd). clear Ed Hd.
  match type of HC with Says _ _ _ _ ?x => match goal with |- Says _ _ _ _ ?y => replace y with x by (vm_compute; reflexivity) end end.
  exact HC.
Qed.

Definition ex_shapes13 : list shape :=
    [ShElt FBlock [(Some (L "ul"), [])]
       [ShElt FLine [(None, [])] [ShLeaf (ex_gap 6 7); ShLeaf (ex_txt 7 8); ShLeaf (TSpace LineEnd); ShLeaf (ex_txt 9 10)]];
     ShLeaf (TSpace ParagraphEnd); ShLeaf (TSpace ParagraphEnd);
     ShElt FLine [(Some (L "p"), [])]
       [ShLeaf (ex_gap 16 17); ShLeaf (ex_txt 17 18); ShLeaf (ex_gap 18 19);
        ShElt (FInline (Some FLine)) [(Some (L "i"), [])] [ShLeaf (ex_gap 23 24); ShLeaf (ex_txt 24 25)];
        ShLeaf (TSpace LineEnd); ShLeaf (ex_txt 28 29)]].
Example C46_example_options :
  Forall (head_alone special_default) ex_shapes13 /\
  convert (ex_parse ex_tree13) source_slice ex_src13 (mkConfig None (Some false) special_default (Some true) (Some (L "en")) None None) =
    Some (inl (L "<!DOCTYPE html>
<html lang=""en""><head></head> <body><ul><li>a b</li></ul> <p>x <i>y</i> z</p></body></html>")).
Proof. split; [unfold ex_shapes13; repeat (apply Forall_cons; [vm_compute; first [exact I|discriminate]|]); apply Forall_nil|vm_compute; reflexivity]. Qed.

(** * What the source says about the markup of the output.

    [reads alnum parse src] (SpecErrors.v): the parser's answer for [src] agrees with the
    grammar.  [read_markup] (SpecHtml.v) reads HTML or XML.  [document_of] (SpecWhole.v):
    the document that is written for a source.  The conditions on sources and documents
    are in SpecOrdinary.v and SpecAttrs.v. *)

From Verif Require Import Base Escape Doc Config Ast Errors Build Transform Output Convert Grammar SpecMarkup SpecHtml SpecTree SpecBuild SpecSource
  SpecTransform SpecErrors SpecWhole SpecOrdinary SpecAttrs SpecText P_Match P_Layout P_Inside P_Source P_Ordinary P_Attrs P_Marks P_Text PropertiesOutput PropertiesConvert PropertiesWhole.
From Coq Require Import Lia Permutation.

Definition indent_ok (cfg : config) : Prop := forall ind, c_indent cfg = Some ind -> all_ws ind.
Definition page (cfg : config) : bool := match c_complete_page cfg with Some b => b | None => false end.

(** ** C07, C08 from the source: names that are plain, and content that fits the elements
       it is in, are enough. *)
Theorem C07_source_reads_back : forall alnum parse src cfg out, indent_ok cfg -> reads alnum parse src ->
  (forall c, parse src = inl c -> plain_source (source_slice src) (is_xml cfg) c) ->
  plain_options (source_slice src) (is_xml cfg) cfg ->
  (forall ns, document_of parse src cfg [] ns -> Forall (Fits (source_slice src) (is_xml cfg)) ns) ->
  convert parse source_slice src cfg = Some (inl out) ->
  exists ns is, document_of parse src cfg [] ns /\
    read_markup (is_xml cfg) out = Some (merge_text is) /\
    Shows (is_some (c_indent cfg)) (doc_items (source_slice src) (is_xml cfg) (page cfg) ns) is /\
    exists items, read_markup (is_xml cfg) out = Some items /\ balanced (is_xml cfg) [] items = true.
Proof.
  intros alnum parse src cfg out Hi HR HS HO HF HC. apply convert_document in HC as (ns & HD & Hout).
  pose proof (document_readable alnum parse src cfg [] ns HR HS HO HD eq_refl (HF ns HD)) as HB.
  destruct (C07_output_reads_back (source_slice src) cfg ns out Hi HB Hout) as (is & H1 & H2).
  exists ns, is. repeat split; auto. exact (C08_balanced (source_slice src) cfg ns out Hi HB Hout).
Qed.
Print Assumptions C07_source_reads_back.

(** ** C38: no tags but those of the source, and those that the converter adds.

    Missing from the full claim: the source writes the names of elements and attributes
    without escapes (and without less signs in names of attributes), uses HTML (or XML)
    characters, and, in HTML, has no elements whose content is not read as markup and
    no interpolation.  The claim without conditions is refuted below. *)
Theorem C38_no_injection_partial : forall alnum parse src cfg out c, indent_ok cfg -> reads alnum parse src ->
  parse src = inl c ->
  plain_source (source_slice src) (is_xml cfg) c -> plain_options (source_slice src) (is_xml cfg) cfg ->
  ordinary_source (source_slice src) (is_xml cfg) c -> ordinary_options (is_xml cfg) cfg ->
  convert parse source_slice src cfg = Some (inl out) ->
  exists items, read_markup (is_xml cfg) out = Some items /\ balanced (is_xml cfg) [] items = true /\
    forall n attrs sc, In (IOpen n attrs sc) items -> tag_from (source_slice src) (is_xml cfg) cfg c n attrs.
Proof.
  intros alnum parse src cfg out c Hi HR HP S1 O1 S2 O2 HC.
  assert (HX : forall Q : a_content -> Prop, Q c -> forall c', parse src = inl c' -> Q c').
  { intros Q Hq c' E. rewrite HP in E. now injection E as <-. }
  destruct (C07_source_reads_back alnum parse src cfg out Hi HR (HX _ S1) O1) as (ns & is & HD & H1 & H2 & items & H3 & H4); auto.
  { intros ns HD. eapply document_fits; [exact (HX _ S2)|exact O2|exact HD|reflexivity]. }
  exists items. split; [exact H3|]. split; [exact H4|]. intros n attrs sc Hin.
  rewrite H1 in H3. injection H3 as <-. apply merged_open in Hin. apply (shown_open _ _ _ _ _ _ H2) in Hin.
  pose proof (document_from _ parse src cfg ns c HP HD) as HF.
  eapply doc_open; [exact HF|exact Hin].
Qed.
Print Assumptions C38_no_injection_partial.

(** [p#i.c[x=1]> a] *)
Definition ex_src6 : str := L "p#i.c[x=1]> a".
Definition ex_tree6 : a_content :=
  ex_content [ex_item 0 10 (ANSelector (mkASel 0 (AStartTag (Some (AName (R 0 1))) [AId (R 1 2) (R 2 3); AClass (R 3 4) (R 4 5)])
    [ASegAttrs (mkAAttrs 5 (R 5 6) [mkAAttr 6 (R 6 7) (Some (R 7 8, AUnquoted (R 8 9))) 9] (Some (R 9 10)) 10)] 10));
              ex_item 10 11 (ANElement (ALineElt (R 10 11)));
              (Some (R 11 12), ANode 12 (ANText (ASegment (R 12 13))) 13)] 13.
Ltac each_selector H := apply occurs_selector in H; vm_compute in H; repeat (destruct H as [<-|H]); [..|destruct H].
Lemma readable_b : forall xml s, forallb (readable xml) s = true -> readable_str xml s.
Proof. intros xml s H. now apply Forall_forall, forallb_forall. Qed.
Example C38_example :
  reads is_ascii_alnum (ex_parse ex_tree6) ex_src6 /\
  plain_source (source_slice ex_src6) false ex_tree6 /\ plain_options (source_slice ex_src6) false config_default /\
  ordinary_source (source_slice ex_src6) false ex_tree6 /\ ordinary_options false config_default /\
  convert (ex_parse ex_tree6) source_slice ex_src6 config_default = Some (inl (L "<p id=""i"" class=""c"" x=""1"">a</p>")).
Proof.
  split; [apply document_b_ok; vm_compute; reflexivity|]. split; [|split; [|split; [|split]]].
  - split.
    + intros b s e H. each_selector H. split; [|split].
      * intros r E. vm_compute in E. injection E as <-. split; [exists 112, []; split; vm_compute; reflexivity|].
        intros Hi. vm_compute in Hi. intuition discriminate.
      * intros r Hr. vm_compute in Hr. destruct Hr as [<-|[]]. split; intros Hi; vm_compute in Hi; intuition discriminate.
      * intros r Hr. vm_compute in Hr. repeat (destruct Hr as [<-|Hr]; [apply readable_b; vm_compute; reflexivity|]). destruct Hr.
    + apply Forall_forall. intros t H. vm_compute in H. destruct H as [<-|[]]. apply readable_b. vm_compute. reflexivity.
  - split; [intros k t E; destruct k; discriminate|]. split; discriminate.
  - split.
    + intros b s e r H E. each_selector H. vm_compute in E. injection E as <-. intros _. split; [reflexivity|vm_compute; discriminate].
    + intros t H. vm_compute in H. destruct H as [H|[]]. injection H as <-. split; [reflexivity|auto].
  - split; [intros k t E; destruct k; discriminate|discriminate].
  - vm_compute. reflexivity.
Qed.

(** The claim for all sources is REFUTED.  Names of attributes are decoded and then
    written as they are: [p[\>\<script\>f()\<\x2fscript\>]> a] writes a [script]. *)
Definition ex_src7 : str := L "p[\>\<script\>f()\<\x2fscript\>]> a".
Definition ex_tree7 : a_content :=
  ex_content [ex_item 0 32 (ANSelector (mkASel 0 (AStartTag (Some (AName (R 0 1))) [])
    [ASegAttrs (mkAAttrs 1 (R 1 2) [mkAAttr 2 (R 2 31) None 31] (Some (R 31 32)) 32)] 32));
              ex_item 32 33 (ANElement (ALineElt (R 32 33)));
              (Some (R 33 34), ANode 34 (ANText (ASegment (R 34 35))) 35)] 35.
(** Names of elements are written as in the source, with escapes and without escaping:
    [a\>b> x]. *)
Definition ex_src8 : str := L "a\>b> x".
Definition ex_tree8 : a_content :=
  ex_content [ex_item 0 4 (ANSelector (mkASel 0 (AStartTag (Some (AName (R 0 4))) []) [] 4));
              ex_item 4 5 (ANElement (ALineElt (R 4 5)));
              (Some (R 5 6), ANode 6 (ANText (ASegment (R 6 7))) 7)] 7.
Theorem C38_no_injection_refuted :
  (document_ok ex_src7 is_ascii_alnum ex_tree7 /\
   exists ns out items, document_of (ex_parse ex_tree7) ex_src7 config_default [] ns /\
     convert (ex_parse ex_tree7) source_slice ex_src7 config_default = Some (inl out) /\
     out = L "<p ><script>f()</script>>a</p>" /\
     read_markup false out = Some items /\ In (IOpen (L "script") [] false) items /\
     forall a sc, ~ In (XItem (IOpen (L "script") a sc)) (doc_items (source_slice ex_src7) false false ns)) /\
  (document_ok ex_src8 is_ascii_alnum ex_tree8 /\
   exists ns out, document_of (ex_parse ex_tree8) ex_src8 config_default [] ns /\
     convert (ex_parse ex_tree8) source_slice ex_src8 config_default = Some (inl out) /\
     out = L "<a\>b>x</a\>b>" /\
     read_markup false out = Some [IOpen (L "a\") [] false; IText (L "b>x"); IClose (L "a\"); IText (L "b>")]).
Proof.
  split; (split; [apply document_b_ok; vm_compute; reflexivity|]).
  - exists (document_for ex_src7 ex_tree7 config_default), (L "<p ><script>f()</script>>a</p>"). eexists.
    split; [apply document_for_ok; vm_compute; [reflexivity|discriminate]|].
    split; [vm_compute; reflexivity|]. split; [reflexivity|]. split; [vm_compute; reflexivity|]. split; [right; now left|].
    intros a sc H. vm_compute in H. intuition discriminate.
  - exists (document_for ex_src8 ex_tree8 config_default), (L "<a\>b>x</a\>b>").
    split; [apply document_for_ok; vm_compute; [reflexivity|discriminate]|]. repeat split; vm_compute; reflexivity.
Qed.
Print Assumptions C38_no_injection_refuted.

(** Names and attributes of every element of the document, for all sources: they come
    from one selector of the source and from what the converter adds. *)
Theorem C38_names_from_source : forall E (parse : str -> a_content + E) src cfg ns c, parse src = inl c ->
  document_of parse src cfg [] ns ->
  Forall (TreeAll (fun e => forall t s, elt_tag (source_slice src) (e_selectors e) = Some (t, s) ->
    tag_from (source_slice src) (is_xml cfg) cfg c t (sel_attrs (source_slice src) (is_xml cfg) s)) (fun _ => True)) ns.
Proof. exact document_from. Qed.
Print Assumptions C38_names_from_source.

(** ** C39: each attribute once.  The claim is REFUTED: [p[a=1 a=2]> x], an id and an
       attribute [id], and an attribute [lang] together with the option. *)
Definition ex_src9 : str := L "p[a=1 a=2]> x".
Definition ex_tree9 : a_content :=
  ex_content [ex_item 0 10 (ANSelector (mkASel 0 (AStartTag (Some (AName (R 0 1))) [])
    [ASegAttrs (mkAAttrs 1 (R 1 2) [mkAAttr 2 (R 2 3) (Some (R 3 4, AUnquoted (R 4 5))) 5;
                                    mkAAttr 6 (R 6 7) (Some (R 7 8, AUnquoted (R 8 9))) 9] (Some (R 9 10)) 10)] 10));
              ex_item 10 11 (ANElement (ALineElt (R 10 11)));
              (Some (R 11 12), ANode 12 (ANText (ASegment (R 12 13))) 13)] 13.
Definition ex_src10 : str := L "p#y[id=z]> x".
Definition ex_tree10 : a_content :=
  ex_content [ex_item 0 9 (ANSelector (mkASel 0 (AStartTag (Some (AName (R 0 1))) [AId (R 1 2) (R 2 3)])
    [ASegAttrs (mkAAttrs 3 (R 3 4) [mkAAttr 4 (R 4 6) (Some (R 6 7, AUnquoted (R 7 8))) 8] (Some (R 8 9)) 9)] 9));
              ex_item 9 10 (ANElement (ALineElt (R 9 10)));
              (Some (R 10 11), ANode 11 (ANText (ASegment (R 11 12))) 12)] 12.
Definition ex_src11 : str := L "p[lang=fr]> x".
Definition ex_tree11 : a_content :=
  ex_content [ex_item 0 10 (ANSelector (mkASel 0 (AStartTag (Some (AName (R 0 1))) [])
    [ASegAttrs (mkAAttrs 1 (R 1 2) [mkAAttr 2 (R 2 6) (Some (R 6 7, AUnquoted (R 7 9))) 9] (Some (R 9 10)) 10)] 10));
              ex_item 10 11 (ANElement (ALineElt (R 10 11)));
              (Some (R 11 12), ANode 12 (ANText (ASegment (R 12 13))) 13)] 13.
Definition ex_en : config := mkConfig None None (mkSpecial None None None None None None None) None (Some (L "en")) None None.
Theorem C39_attribute_once_refuted :
  (document_ok ex_src9 is_ascii_alnum ex_tree9 /\
   convert (ex_parse ex_tree9) source_slice ex_src9 config_default = Some (inl (L "<p a=""1"" a=""2"">x</p>"))) /\
  (document_ok ex_src10 is_ascii_alnum ex_tree10 /\
   convert (ex_parse ex_tree10) source_slice ex_src10 config_default = Some (inl (L "<p id=""y"" id=""z"">x</p>"))) /\
  (document_ok ex_src11 is_ascii_alnum ex_tree11 /\
   convert (ex_parse ex_tree11) source_slice ex_src11 ex_en = Some (inl (L "<p lang=""fr"" lang=""en"">x</p>"))).
Proof.
  split; [|split]; (split; [apply document_b_ok; vm_compute; reflexivity|vm_compute; reflexivity]).
Qed.
Print Assumptions C39_attribute_once_refuted.

(** What holds: if the attributes of each selector of the source are different, and none
    is one that the converter adds, then so are the attributes of each opening tag. *)
Theorem C39_attribute_once_partial : forall E (parse : str -> a_content + E) src cfg ns c, parse src = inl c ->
  distinct_source (source_slice src) (is_xml cfg) cfg c -> document_of parse src cfg [] ns ->
  Forall (TreeAll (fun e => forall t s, elt_tag (source_slice src) (e_selectors e) = Some (t, s) ->
    distinct_attrs (is_xml cfg) (sel_attrs (source_slice src) (is_xml cfg) s)) (fun _ => True)) ns.
Proof.
  intros E parse src cfg ns c HP HD H. eapply Forall_impl; [|exact (document_from E parse src cfg ns c HP H)].
  intros n. apply P_InferProps.TreeAll_impl; [|auto]. intros e He t s Et. eapply tag_distinct; [exact HD|]. exact (He t s Et).
Qed.
Print Assumptions C39_attribute_once_partial.

Example C39_example : distinct_source (source_slice ex_src6) false ex_meta ex_tree6 /\
  (exists ns, document_of (ex_parse ex_tree6) ex_src6 ex_meta [] ns) /\
  ~ distinct_source (source_slice ex_src9) false config_default ex_tree9.
Proof.
  split; [|split].
  - intros b a e H. each_selector H. split; [|split].
    + vm_compute. repeat constructor; cbn; intuition discriminate.
    + intros _ n Hn Hx. cbn [In metadata_names] in Hn.
      repeat (destruct Hn as [<-|Hn]; [vm_compute in Hx; intuition discriminate|]). destruct Hn.
    + intros HL. now elim HL.
  - exists (document_for ex_src6 ex_tree6 ex_meta). apply document_for_ok; vm_compute; [reflexivity|discriminate].
  - intros H. specialize (H 0 (mkASel 0 (AStartTag (Some (AName (R 0 1))) [])
    [ASegAttrs (mkAAttrs 1 (R 1 2) [mkAAttr 2 (R 2 3) (Some (R 3 4, AUnquoted (R 4 5))) 5;
                                    mkAAttr 6 (R 6 7) (Some (R 7 8, AUnquoted (R 8 9))) 9] (Some (R 9 10)) 10)] 10) 10).
    destruct H as [H _]; [eapply OcHere; now left|]. vm_compute in H. inversion H as [|? ? Hn _]; subst. apply Hn. now left.
Qed.

(** ** C10 from the source: the white space of the output, without indentation. *)
Theorem C10_source_spaces : forall parse src cfg out, c_indent cfg = None ->
  convert parse source_slice src cfg = Some (inl out) ->
  exists ns ps, document_of parse src cfg [] ns /\
    PiecesL (source_slice src) (is_xml cfg) false (trim_spaces ns) ps /\
    out = (if page cfg then L "<!DOCTYPE html>" ++ [10] else []) ++ spaced true ps.
Proof. exact convert_spaces_exact. Qed.
Print Assumptions C10_source_spaces.
Example C10_source_example : c_indent config_default = None /\
  convert (ex_parse ex_tree6) source_slice ex_src6 config_default <> None.
Proof. split; [reflexivity|]. vm_compute. discriminate. Qed.

(** ** C11 from the source: for every source and every two indentations, the results are
       equal errors, or outputs with the same tags, comments and texts. *)
Theorem C11_source_indent : forall parse src cfg ind, (forall i, ind = Some i -> all_ws i) -> indent_ok cfg ->
  match convert parse source_slice src cfg, convert parse source_slice src (with_indent cfg ind) with
  | Some (inl o), Some (inl o') =>
      exists ns ps p p', document_of parse src cfg [] ns /\
        PiecesL (source_slice src) (is_xml cfg) false (trim_spaces ns) ps /\
        let doctype := if page cfg then L "<!DOCTYPE html>" ++ [10] else [] in
        o = doctype ++ p /\ o' = doctype ++ p' /\ Laid ps p /\ Laid ps p'
  | a, b => a = b
  end.
Proof. exact convert_indent. Qed.
Print Assumptions C11_source_indent.
Example C11_source_example : convert (ex_parse ex_tree5) source_slice ex_src5 (with_indent config_default (Some (L "  "))) =
  Some (inl (L "<div><p>" ++ [10] ++ L "  x" ++ [10] ++ L "</p></div>" ++ [10])).
Proof. vm_compute. reflexivity. Qed.

(** ** C45: the texts and comments that a reader finds in the output are those of the
       source, each once, and in order (but see C21: a page is ordered anew).

    Missing from the full claim: names are plain and content fits its elements (C07), no
    line is a child combinator leading to a block followed by more (C28), and no elements
    are added for metadata (which turn comments into elements).  White space is not
    compared (C10, C11). *)
Theorem C45_texts_in_output_partial : forall alnum parse src cfg out c, indent_ok cfg -> reads alnum parse src ->
  parse src = inl c ->
  plain_source (source_slice src) (is_xml cfg) c -> plain_options (source_slice src) (is_xml cfg) cfg ->
  (forall ns, document_of parse src cfg [] ns -> Forall (Fits (source_slice src) (is_xml cfg)) ns) ->
  c_metadata cfg <> Some true -> all_lines tidy_line c ->
  convert parse source_slice src cfg = Some (inl out) ->
  exists items leaves, read_markup (is_xml cfg) out = Some items /\
    Permutation leaves (content_leaves c) /\ (c_complete_page cfg <> Some true -> leaves = content_leaves c) /\
    dense (read_text items) = dense (said_text (source_slice src) leaves) /\
    read_comments items = said_comments (source_slice src) leaves.
Proof.
  intros alnum parse src cfg out c Hi HR HP S1 O1 HF HM HL HC.
  assert (HX : forall Q : a_content -> Prop, Q c -> forall c', parse src = inl c' -> Q c').
  { intros Q Hq c' E. rewrite HP in E. now injection E as <-. }
  destruct (C07_source_reads_back alnum parse src cfg out Hi HR (HX _ S1) O1 HF HC) as (ns & is & HD & H1 & H2 & _).
  pose proof (document_blank alnum parse src cfg ns HR HD) as HB.
  destruct (doc_text (source_slice src) (is_xml cfg) (page cfg) ns HB) as (T1 & T2 & T3).
  destruct (shown_text _ _ _ T3 H2) as [R1 R2]. destruct (merged_text is []) as [M1 M2].
  destruct HD as (c' & tree & HP' & HT & HTr). rewrite HP in HP'. injection HP' as <-.
  destruct (leaves_transform _ _ _ _ _ HM HTr) as [L1 L2].
  assert (flat_map doc_leaves tree = content_leaves c) as HK.
  { unfold builds in HT. destruct (texts_kept (source_slice src) c config_default _ _ HT) as [_ HK]. apply HK; [reflexivity|exact HL]. }
  rewrite HK in *. exists (merge_text is), (flat_map doc_leaves ns). unfold merge_text. rewrite M1, M2. cbn [app].
  repeat split; auto; congruence.
Qed.
Print Assumptions C45_texts_in_output_partial.

(** What counts as white space there: these characters and no others. *)
Theorem C45_white : forall c, is_whitespace c = true <-> In c white_characters.
Proof.
  intros c. split.
  - unfold is_whitespace. rewrite !orb_true_iff, !andb_true_iff, !N.leb_le, !N.eqb_eq. intros H.
    assert (exists k, (k < 25)%nat /\ c = nth k white_characters 0) as (k & Hk & ->); [|apply nth_In; exact Hk].
    assert (forall k, (k < 25)%nat -> c = nth k white_characters 0 -> exists k, (k < 25)%nat /\ c = nth k white_characters 0) as HW by eauto.
    repeat (destruct H as [H|H]); try (subst c).
    + apply (HW (N.to_nat (c - 9))); [lia|]. assert (c = 9 \/ c = 10 \/ c = 11 \/ c = 12 \/ c = 13) as D by lia.
      repeat destruct D as [D|D]; subst c; reflexivity.
    + exists 5%nat; split; [lia|reflexivity].
    + exists 6%nat; split; [lia|reflexivity].
    + exists 7%nat; split; [lia|reflexivity].
    + exists 8%nat; split; [lia|reflexivity].
    + apply (HW (9 + N.to_nat (c - 0x2000))%nat); [lia|].
      assert (c = 0x2000 \/ c = 0x2001 \/ c = 0x2002 \/ c = 0x2003 \/ c = 0x2004 \/ c = 0x2005 \/ c = 0x2006 \/ c = 0x2007 \/ c = 0x2008 \/ c = 0x2009 \/ c = 0x200A) as D by lia.
      repeat destruct D as [D|D]; subst c; reflexivity.
    + exists 20%nat; split; [lia|reflexivity].
    + exists 21%nat; split; [lia|reflexivity].
    + exists 22%nat; split; [lia|reflexivity].
    + exists 23%nat; split; [lia|reflexivity].
    + exists 24%nat; split; [lia|reflexivity].
  - intros H. repeat (destruct H as [<-|H]; [reflexivity|]). destruct H.
Qed.
Print Assumptions C45_white.

(** [p { x } <! c !>] *)
Definition ex_src12 : str := L "p { x } <! c !>".
Definition ex_tree12 : a_content :=
  ex_content [ex_item 0 1 (ANSelector (mkASel 0 (AStartTag (Some (AName (R 0 1))) []) [] 1));
    (Some (R 1 2), ANode 2 (ANElement (ABlockElt (mkABlock (R 2 3)
       (mkACont 4 [mkALine 4 [ex_item 4 5 (ANText (ASegment (R 4 5)))] 5] 5) (Some (R 6 7))))) 7);
    (Some (R 7 8), ANode 8 (ANText (AComment (mkACom 8 (R 8 10) (R 10 13) (Some (R 13 15)) 15))) 15)] 15.
Example C45_example :
  reads is_ascii_alnum (ex_parse ex_tree12) ex_src12 /\
  plain_source (source_slice ex_src12) false ex_tree12 /\ plain_options (source_slice ex_src12) false config_default /\
  (forall ns, document_of (ex_parse ex_tree12) ex_src12 config_default [] ns -> Forall (Fits (source_slice ex_src12) false) ns) /\
  all_lines tidy_line ex_tree12 /\
  said_text (source_slice ex_src12) (content_leaves ex_tree12) = L "x" /\
  said_comments (source_slice ex_src12) (content_leaves ex_tree12) = [L " c "] /\
  convert (ex_parse ex_tree12) source_slice ex_src12 config_default = Some (inl (L "<p>x</p> <!-- c -->")).
Proof.
  split; [apply document_b_ok; vm_compute; reflexivity|]. split; [|split; [|split; [|split]]].
  - split.
    + intros b s e H. each_selector H. split; [|split].
      * intros r E. vm_compute in E. injection E as <-. split; [exists 112, []; split; vm_compute; reflexivity|].
        intros Hi. vm_compute in Hi. intuition discriminate.
      * intros r Hr. vm_compute in Hr. destruct Hr.
      * intros r Hr. vm_compute in Hr. destruct Hr.
    + apply Forall_forall. intros t H. vm_compute in H. destruct H as [<-|[<-|[]]]; apply readable_b; vm_compute; reflexivity.
  - split; [intros k t E; destruct k; discriminate|]. split; discriminate.
  - intros ns HD. apply (document_fits _ (ex_parse ex_tree12) ex_src12 config_default [] ns); auto.
    + intros c E. injection E as <-. split.
      * intros b s e r H E. each_selector H. vm_compute in E. injection E as <-. intros _. split; [reflexivity|vm_compute; discriminate].
      * intros t H. vm_compute in H. destruct H as [H|[H|[]]]; [|discriminate]. injection H as <-. split; [reflexivity|auto].
    + split; [intros k t E; destruct k; discriminate|discriminate].
  - apply all_lines_check. repeat (constructor; [apply tidy_check; reflexivity|]). constructor.
  - vm_compute. repeat split.
Qed.

(** * Property theorems about the writer: C07-C11, C27.

    [output_html slc cfg ns] is the text written for the top-level nodes [ns] and
    whether writing succeeded. The specifications are in SpecHtml.v and SpecTree.v. *)

From Verif Require Import Base Escape OutText Doc Config Output SpecMarkup SpecHtml SpecTree
  P_Output P_Layout P_Balance.

(** A document used in the examples:
    a paragraph with an id, two classes and attributes holding text with markup
    characters, a line break and a comment; a title; and a script. *)
Definition slc0 : lrange -> str := fun _ => [].
Definition ex_text (s : str) : node := NTxt (mkR 0 0) (TText (mkText (Provided s) false true true false)).
Definition ex_space (s : space) : node := NTxt (mkR 0 0) (TSpace s).
Definition ex_elt (ty : element_type) (raw : bool) (t : str) (items : list sel_item) (ns : list node) : node :=
  NElt (mkR 0 0) (mkElt (mkR 0 0) [mkSel (mkR 0 0) (Explicit (Provided t)) items] (mkR 0 0) ns ty false raw).
Definition ex_doc : list node :=
  [ex_space LineEnd;
   ex_elt Paragraph false (L "p")
     [SClass (mkR 0 0) (Provided (L "a")); SId (mkR 0 0) (Provided (L "b"));
      SClass (mkR 0 0) (Provided (L "c"));
      SAttrs (mkR 0 0) [mkAttr (mkR 0 0) (Provided (L "x")) (Some (Provided (L "q\""<")));
                        mkAttr (mkR 0 0) (Provided (L "y")) None]]
     [ex_text (L "1<2\n"); ex_space (SInline None); ex_elt Unknown false (L "BR") [] [];
      NTxt (mkR 0 0) (TComment (Provided (L "--note")))];
   ex_space ParagraphEnd;
   ex_elt (Standard (DBlock (mkR 0 0))) false (L "title") [] [ex_space LineEnd; ex_text (L "T&S")];
   ex_elt (Standard (DBlock (mkR 0 0))) true (L "script") [] [ex_text (L "if (a<b) c();")];
   ex_space LineEnd].
Definition ex_pretty : config := mkConfig (Some (L "  ")) None special_default (Some true) None None None.

Lemma ex_doc_readable : Forall (Readable slc0 false false) ex_doc.
Proof.
  repeat apply Forall_cons; try apply Forall_nil.
  - apply RdText; [now left|]. split; cbn; intuition discriminate.
  - apply RdElt; [cbv; lia|now left| |].
    + repeat apply Forall_cons; try apply Forall_nil.
      * apply RdText; [now left|]. repeat split; cbn; repeat constructor.
      * apply RdText; [now left|]. split; cbn; intuition discriminate.
      * apply RdElt; [cbv; lia|now left|constructor|]. intros t s E; vm_compute in E; injection E as <- <-.
        repeat split; [eexists _, _; split; reflexivity|repeat constructor|constructor].
      * apply RdText; [now left|exact I].
    + intros t s E; vm_compute in E; injection E as <- <-. repeat split.
      * eexists _, _; split; reflexivity.
      * repeat constructor.
      * repeat apply Forall_cons; try apply Forall_nil; cbn; (split; [split; [discriminate|repeat constructor]|]);
          try exact I; repeat constructor.
  - apply RdText; [now left|]. split; cbn; intuition discriminate.
  - eapply RdRcdata; try reflexivity.
    + cbv; lia.
    + split; [eexists _, _; split; reflexivity|repeat constructor].
    + constructor.
    + repeat apply Forall_cons; try apply Forall_nil.
      * split; cbn; intuition discriminate.
      * repeat split; cbn; repeat constructor.
  - eapply RdRaw; try reflexivity.
    + cbv; lia.
    + split; [eexists _, _; split; reflexivity|repeat constructor].
    + constructor.
    + repeat apply Forall_cons; try apply Forall_nil. split.
      * intros (p & q & E). vm_compute in E.
        repeat (destruct p as [|? p]; [discriminate|cbn in E; try discriminate; injection E as _ E]).
      * intros (r & E). assert (last_char (text_value slc0 (mkText (Provided (L "if (a<b) c();")) false true true false)) = Some 60) as E'.
        { rewrite E. apply P_Base.last_char_app. }
        vm_compute in E'. discriminate.
  - apply RdText; [now left|]. split; cbn; intuition discriminate.
Qed.

Lemma ex_doc_single : Forall Single ex_doc.
Proof.
  repeat (apply Forall_cons || apply Forall_nil || apply TAElt || apply TATxt); try exact I; cbv; lia.
Qed.

(** ** C07: the output reads back as the document tree.

    [Shows]: the items read are the expected items, in order, with white space
    added only at the gaps of the tree, or elsewhere when indentation is requested.
    [Readable] is the condition that names, attribute names and characters are
    ones HTML (or XML) can express at all, and that no text is marked to be
    written raw except directly in script and style. *)
Theorem C07_output_reads_back : forall slc cfg ns o,
  (forall ind, c_indent cfg = Some ind -> all_ws ind) ->
  Forall (Readable slc (is_xml cfg) false) ns ->
  output_html slc cfg ns = (o, true) ->
  exists is, read_markup (is_xml cfg) o = Some (merge_text is) /\
    Shows (is_some (c_indent cfg))
          (doc_items slc (is_xml cfg) (match c_complete_page cfg with Some b => b | None => false end) ns)
          is.
Proof. intros slc cfg ns o Hi. exact (output_reads_back slc cfg Hi ns o). Qed.
Print Assumptions C07_output_reads_back.

Example C07_example :
  (forall ind, c_indent ex_pretty = Some ind -> all_ws ind) /\
  Forall (Readable slc0 (is_xml ex_pretty) false) ex_doc /\
  snd (output_html slc0 ex_pretty ex_doc) = true /\
  fst (output_html slc0 ex_pretty ex_doc) =
    L "<!DOCTYPE html>" ++ [10] ++
    L "<p id=""b"" class=""a c"" x=""q&quot;&lt;"" y>1&lt;2&NewLine; <BR><!---" ++ L " -note--></p>" ++ [10] ++
    L "<title>" ++ [10] ++ L "  T&amp;S" ++ [10] ++ L "</title><script>" ++ [10] ++
    L "  if (a<b) c();" ++ [10] ++ L "</script>" ++ [10] /\
  read_markup false (fst (output_html slc0 ex_pretty ex_doc)) =
  Some [IDoctype; IText [10];
        IOpen (L "p") [(L "id", Some (L "b")); (L "class", Some (L "a c"));
                       (L "x", Some (L "q""<")); (L "y", None)] false;
        IText (L "1<2" ++ [10] ++ L " "); IOpen (L "BR") [] false; IComment (L "- -note");
        IClose (L "p"); IText [10];
        IOpen (L "title") [] false; IText ([10] ++ L "  T&S" ++ [10]); IClose (L "title");
        IOpen (L "script") [] false; IText ([10] ++ L "  if (a<b) c();" ++ [10]); IClose (L "script");
        IText [10]].
Proof.
  split; [intros ind E; injection E as <-; repeat constructor|].
  split; [exact ex_doc_readable|]. vm_compute. auto.
Qed.

(** ** C08: tags are balanced. *)
Theorem C08_balanced : forall slc cfg ns o,
  (forall ind, c_indent cfg = Some ind -> all_ws ind) ->
  Forall (Readable slc (is_xml cfg) false) ns -> output_html slc cfg ns = (o, true) ->
  exists is, read_markup (is_xml cfg) o = Some is /\ balanced (is_xml cfg) [] is = true.
Proof. exact output_balanced. Qed.
Print Assumptions C08_balanced.

Example C08_example :
  balanced false [] [IOpen (L "p") [] false; IOpen (L "Br") [] false; IClose (L "p")] = true
  /\ balanced false [] [IOpen (L "p") [] false; IOpen (L "i") [] false; IClose (L "p")] = false.
Proof. split; reflexivity. Qed.

(** ** C09: void elements and self-closed elements.
    An element with one name [t] is written as opening tag, content and closing
    tag; in HTML the closing tag is absent exactly for void elements and no tag is
    self-closed; in XML an element without content is one self-closed tag. *)
Theorem C09_void_and_self_closed : forall slc cfg v r e t s fs o f,
  single_tag e -> elt_tag slc (e_selectors e) = Some (t, s) ->
  process_node slc cfg v (NElt r e) fs = (o, f, true) ->
  if is_xml cfg && is_nil (e_nodes e)
  then o = open_text slc (is_xml cfg) t s true
  else exists inner,
       o = open_text slc (is_xml cfg) t s false ++ inner
           ++ (if negb (is_xml cfg) && html_void_name t then [] else close_text t)
       /\ (e_nodes e = [] -> inner = []).
Proof. exact void_and_self_closed. Qed.
Print Assumptions C09_void_and_self_closed.

Theorem C09_void_names : forall t, html_void_name t = true <-> In (lower t) html_void.
Proof. exact html_void_name_spec. Qed.
Print Assumptions C09_void_names.

Example C09_example :
  fst (output_html slc0 config_default [ex_elt Unknown false (L "iMg") [] []]) = L "<iMg>"
  /\ fst (output_html slc0 config_default [ex_elt Unknown false (L "i") [] []]) = L "<i></i>".
Proof. vm_compute. split; reflexivity. Qed.

(** ** C10: white space without indentation is exactly that of the tree. *)
Theorem C10_spaces_exact : forall slc cfg ns o, c_indent cfg = None ->
  Forall Single ns -> output_html slc cfg ns = (o, true) ->
  exists ps, PiecesL slc (is_xml cfg) false (trim_spaces ns) ps /\
    o = (if match c_complete_page cfg with Some b => b | None => false end
         then L "<!DOCTYPE html>" ++ [10] else [])
        ++ spaced true ps.
Proof. intros slc cfg ns o Hi. exact (output_no_indent slc cfg Hi ns o). Qed.
Print Assumptions C10_spaces_exact.

Example C10_example :
  Forall Single ex_doc /\
  output_html slc0 config_default ex_doc =
    (L "<p id=""b"" class=""a c"" x=""q&quot;&lt;"" y>1&lt;2&NewLine; <BR><!---" ++ L " -note--></p> " ++
     L "<title>T&amp;S</title><script>if (a<b) c();</script>", true).
Proof. split; [exact ex_doc_single|vm_compute; reflexivity]. Qed.

(** ** C11: indentation changes white space only.
    The solid pieces (tags, comments, texts) are the same for every indentation,
    and so is success. *)
Theorem C11_indent_only_space : forall slc cfg ns, Forall Single ns ->
  exists ps, PiecesL slc (is_xml cfg) false (trim_spaces ns) ps /\
  forall ind, (forall i, ind = Some i -> all_ws i) ->
  snd (output_html slc (with_indent cfg ind) ns) = snd (output_html slc cfg ns) /\
  (snd (output_html slc cfg ns) = true ->
   exists o', fst (output_html slc (with_indent cfg ind) ns) =
     (if match c_complete_page cfg with Some b => b | None => false end
      then L "<!DOCTYPE html>" ++ [10] else []) ++ o' /\ Laid ps o').
Proof. exact indent_only_space. Qed.
Print Assumptions C11_indent_only_space.

(** Inline content is written byte for byte the same. *)
Theorem C11_inline_identical : forall slc c1 c2 n v1 v2 fs, is_xml c1 = is_xml c2 ->
  TreeAll (fun e => format_inline e = true) (fun _ => True) n ->
  v_raw v1 = v_raw v2 -> v_inline v1 = true -> v_inline v2 = true ->
  process_node slc c1 v1 n fs = process_node slc c2 v2 n fs.
Proof. intros slc c1 c2 n v1 v2 fs Hx HI Hr H1 H2. exact (inline_same slc c1 c2 Hx n v1 v2 HI Hr H1 H2 fs). Qed.
Print Assumptions C11_inline_identical.

(** Raw elements are not protected: a line end inside a script block becomes a
    space without indentation and a line feed with it (in JavaScript these differ,
    by automatic semicolon insertion and line comments). *)
Theorem C11_raw_identical_refuted : exists body,
  let doc := [ex_elt (Standard (DBlock (mkR 0 0))) true (L "script") [] body] in
  fst (output_html slc0 config_default doc) = L "<script>// a b()</script>"
  /\ fst (output_html slc0 (with_indent config_default (Some (L " "))) doc) =
     L "<script>" ++ [10] ++ L " // a" ++ [10] ++ L " b()" ++ [10] ++ L "</script>" ++ [10].
Proof. exists [ex_text (L "// a"); ex_space LineEnd; ex_text (L "b()")]. vm_compute. split; reflexivity. Qed.
Print Assumptions C11_raw_identical_refuted.

Example C11_example :
  TreeAll (fun e => format_inline e = true) (fun _ => True)
    (ex_elt Paragraph false (L "p") [] [ex_text (L "a"); ex_space LineEnd; ex_elt (Inline None) false (L "i") [] [ex_text (L "b")]]).
Proof. repeat (constructor || reflexivity). Qed.

(** ** C27: id, classes and attributes of a selector.
    The text of the opening tag, with the attributes in the order first id, all
    classes, attributes ([sel_attrs] in SpecTree.v). *)
Theorem C27_opening_tag : forall slc cfg t s self_close fs o f,
  write_open_tag slc cfg t s self_close fs = (o, f, true) ->
  o = L "<" ++ t ++ flat_map (attr_text (is_xml cfg)) (sel_attrs slc (is_xml cfg) s)
      ++ (if self_close then L "/>" else L ">").
Proof. intros slc cfg t s sc fs o f H. exact (proj1 (open_text_out slc cfg t s sc fs o f H)). Qed.
Print Assumptions C27_opening_tag.

Example C27_example :
  fst (fst (write_open_tag slc0 (mkConfig None (Some true) special_default None None None None) (L "a")
    (mkSel (mkR 0 0) Implicit [SAttrs (mkR 0 0) [mkAttr (mkR 0 0) (Provided (L "h")) None];
       SClass (mkR 0 0) (Provided (L "k")); SId (mkR 0 0) (Provided (L "i")); SId (mkR 0 0) (Provided (L "j"));
       SClass (mkR 0 0) (Provided (L "l"))]) false true))
  = L "<a id=""i"" class=""k l"" h="""">".
Proof. vm_compute. reflexivity. Qed.

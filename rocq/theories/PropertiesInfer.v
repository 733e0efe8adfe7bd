(** * Property theorems about tag inference: C16-C20.

    [infer slc ns] is the tree after tag inference ([None] would be running out of
    fuel, which [C18_inference_by_context] excludes). The specifications are in
    SpecInfer.v. *)

From Verif Require Import Base Escape OutText Doc Config Output Infer SpecTree SpecInfer
  P_Layout P_Infer P_InferProps PropertiesOutput.

(** A document used in the examples, README's (567) with a selector chain and a
    list: [section { { .a> { > Hello } } Goodbye  ul.k > .l > Item }]. *)
Definition ex_line : element_type := Standard (DLine (mkR 0 0)).
Definition ex_block : element_type := Standard (DBlock (mkR 0 0)).
Definition ex_sel (t : option str) (classes : list str) : selector :=
  mkSel (mkR 0 0) (match t with Some t => Explicit (Provided t) | None => Implicit end)
        (map (fun c => SClass (mkR 0 0) (Provided c)) classes).
Definition ex_node (ty : element_type) (sels : list selector) (ns : list node) : node :=
  NElt (mkR 0 0) (mkElt (mkR 0 0) sels (mkR 0 0) ns ty false false).
Definition ex_infer : list node :=
  [ex_node ex_block [ex_sel (Some (L "section")) []]
     [ex_node ex_block []
        [ex_node (Standard (DLineBlock (mkR 0 0) (mkR 0 0))) [ex_sel None [L "a"]]
           [ex_node ex_line [ex_sel None []] [ex_text (L "Hello")]]];
      ex_space ParagraphEnd;
      ex_node Paragraph [] [ex_text (L "Goodbye")];
      ex_node ex_line [ex_sel (Some (L "ul")) [L "k"]; ex_sel None [L "l"]] [ex_text (L "Item")];
      ex_node ex_block [ex_sel (Some (L "script")) []] [ex_text (L "a<b")]]].
Definition infer_out (ns : list node) : str :=
  match infer slc0 ns with Some ns' => fst (output_html slc0 config_default ns') | None => [] end.

Example infer_example : infer_out ex_infer =
  L "<section><div><p class=""a""><span>Hello</span></p></div> <p>Goodbye</p>" ++
  L "<ul class=""k""><li class=""l"">Item</li></ul><script>a<b</script></section>".
Proof. vm_compute. reflexivity. Qed.

Lemma ex_infer_bare : Forall (TreeAll bare_paragraph (fun _ => True)) ex_infer.
Proof.
  repeat (apply Forall_cons || apply Forall_nil || apply TAElt || apply TATxt); try exact I;
    unfold bare_paragraph; cbn; intros; try discriminate; reflexivity.
Qed.

(** ** C16, C17: inference only gives names to unnamed elements.

    [tree_of] is the content of a node: names, ids, classes and attributes, texts,
    spaces, comments and nesting, where each selector of a chain [a>b>] is an
    element of its own. [Extends t t'] says that [t'] is [t] except that elements
    without a name may have got one. The hypothesis is about the builder, which
    gives paragraphs no selector of their own. *)
Theorem C16_names_kept : forall slc ns ns',
  Forall (TreeAll bare_paragraph (fun _ => True)) ns -> infer slc ns = Some ns' ->
  Forall2 (fun t t' => Extends t t') (map (tree_of slc) ns) (map (tree_of slc) ns').
Proof. exact infer_extends. Qed.
Print Assumptions C16_names_kept.

Example C16_example :
  Forall (TreeAll bare_paragraph (fun _ => True)) ex_infer /\
  exists ns', infer slc0 ex_infer = Some ns' /\ map (tree_of slc0) ns' <> map (tree_of slc0) ex_infer.
Proof.
  split; [exact ex_infer_bare|]. eexists. split; [vm_compute; reflexivity|]. vm_compute. discriminate.
Qed.

(** The leaves (texts, comments, spaces) and the items (ids, classes, attributes)
    of a tree, in document order. *)
Fixpoint tree_leaves (t : tree) : list (textlike + list sel_item) :=
  match t with
  | TLeaf t => [inl t]
  | TElt _ items kids => inr items :: flat_map tree_leaves kids
  end.
(** The names of a tree in document order, [None] for unnamed elements. *)
Fixpoint tree_names (t : tree) : list (option str) :=
  match t with
  | TLeaf _ => []
  | TElt name _ kids => name :: flat_map tree_names kids
  end.

Section TreeInd.
  Variable P : tree -> Prop.
  Hypothesis HE : forall n i ks, Forall P ks -> P (TElt n i ks).
  Hypothesis HL : forall t, P (TLeaf t).
  Fixpoint tree_ind' (t : tree) : P t :=
    match t with
    | TElt n i ks => HE n i ks ((fix go (l : list tree) : Forall P l :=
        match l with [] => Forall_nil P | x :: r => Forall_cons x (tree_ind' x) (go r) end) ks)
    | TLeaf t => HL t
    end.
End TreeInd.

Lemma extends_leaves : forall t t', Extends t t' -> tree_leaves t = tree_leaves t'.
Proof.
  induction t as [n i ks IH|x] using tree_ind'; intros t' H; inversion H as [|? n' ? ? ks' Hn Hk]; subst; [|reflexivity].
  cbn [tree_leaves]. f_equal. clear -IH Hk. revert ks' Hk.
  induction IH as [|x l Hx _ IHl]; intros ks' Hk; inversion Hk; subst; [reflexivity|]. cbn [flat_map]. f_equal; auto.
Qed.
Lemma extends_names : forall t t', Extends t t' ->
  Forall2 (fun a b => a = None \/ b = a) (tree_names t) (tree_names t').
Proof.
  induction t as [n i ks IH|x] using tree_ind'; intros t' H; inversion H as [|? n' ? ? ks' Hn Hk]; subst; [|constructor].
  cbn [tree_names]. constructor; [exact Hn|]. clear -IH Hk. revert ks' Hk.
  induction IH as [|x l Hx _ IHl]; intros ks' Hk; inversion Hk; subst; [constructor|]. cbn [flat_map]. apply Forall2_app; auto.
Qed.

(** The same, as lists in document order: names ... *)
Theorem C16_names_in_order : forall slc ns ns',
  Forall (TreeAll bare_paragraph (fun _ => True)) ns -> infer slc ns = Some ns' ->
  Forall2 (fun a b => a = None \/ b = a)
    (flat_map tree_names (map (tree_of slc) ns)) (flat_map tree_names (map (tree_of slc) ns')).
Proof.
  intros slc ns ns' H E. apply infer_extends in E; [|exact H]. induction E; [constructor|].
  cbn [flat_map]. apply Forall2_app; [now apply extends_names|].
  assumption.
Qed.
Print Assumptions C16_names_in_order.

(** ... and texts, spaces, comments, ids, classes and attributes. *)
Theorem C17_content_kept : forall slc ns ns',
  Forall (TreeAll bare_paragraph (fun _ => True)) ns -> infer slc ns = Some ns' ->
  flat_map tree_leaves (map (tree_of slc) ns) = flat_map tree_leaves (map (tree_of slc) ns').
Proof.
  intros slc ns ns' H E. apply infer_extends in E; [|exact H]. induction E; [reflexivity|].
  cbn [flat_map]. f_equal; [now apply extends_leaves|assumption].
Qed.
Print Assumptions C17_content_kept.

Example C17_example :
  length (flat_map tree_leaves (map (tree_of slc0) ex_infer)) = 13%nat /\
  flat_map tree_names (map (tree_of slc0) ex_infer) =
    [Some (L "section"); None; None; None; None; Some (L "ul"); None; Some (L "script")].
Proof. vm_compute. split; reflexivity. Qed.

(** The hypothesis is needed: a paragraph with a selector would lose it where
    paragraphs are plain text. *)
Example C17_bare_needed : infer_out
  [ex_node ex_line [ex_sel (Some (L "p")) []] [ex_node Paragraph [ex_sel None [L "a"]] [ex_text (L "x")]]]
  = L "<p>x</p>".
Proof. vm_compute. reflexivity. Qed.

(** ** C18: names are given by context.

    Inference always finishes and is the one-pass top-down naming of SpecInfer.v:
    the name of an unnamed element is [name_for] its context, kind and position. *)
Theorem C18_inference_by_context : forall slc ns,
  infer slc ns = Some (resolve_all slc CSection None None ns).
Proof. exact infer_resolves. Qed.
Print Assumptions C18_inference_by_context.

(** README's tables: every entry holds, except in rows of a thead. *)
Theorem C18_readme_tables_partial : forall c grand first last k nm,
  readme_name c k = Some nm -> (c = CRow -> grand <> Some (L "thead")) ->
  name_for c grand first last k = nm.
Proof.
  intros c grand first last k nm H Hr. destruct c, k; vm_compute in H; try discriminate;
    injection H as <-; try reflexivity;
    (cbn [name_for]; destruct grand as [g|]; [|reflexivity]; destruct (str_eqb g (L "thead")) eqn:E; [|reflexivity];
     apply P_Base.str_eqb_eq in E; subst g; now elim (Hr eq_refl)).
Qed.
Print Assumptions C18_readme_tables_partial.

(** README's lists of elements for each context. *)
Theorem C18_readme_contexts : forall t c, In (t, c) readme_contexts -> forall k, inside (Some t) k = c.
Proof.
  intros t c H k. unfold inside. assert (named_context t = Some c) as ->; [|reflexivity].
  assert (Forall (fun p => named_context (fst p) = Some (snd p)) readme_contexts) as A
    by (repeat (apply Forall_cons; [reflexivity|]); apply Forall_nil).
  rewrite Forall_forall in A. exact (A _ H).
Qed.
Print Assumptions C18_readme_contexts.
Theorem C18_readme_by_kind : forall t, In t readme_by_kind ->
  inside (Some t) KBlock = CSection /\ inside (Some t) KLine = CParagraph.
Proof.
  apply Forall_forall. repeat (apply Forall_cons; [split; reflexivity|]). apply Forall_nil.
Qed.
Print Assumptions C18_readme_by_kind.

(** README's details and fieldset, when the content begins with an element. *)
Theorem C18_readme_details : forall grand last k, k <> KOther ->
  name_for CDetails grand true last k = Named (L "summary") /\
  name_for CDetails grand false last k = name_for CSection None false last k /\
  name_for CFieldSet grand true last KPara = Named (L "legend") /\
  name_for CFieldSet grand false last k = name_for CSection None false last k /\
  (k <> KPara -> name_for CFieldSet grand true last k = name_for CSection None true last k).
Proof. intros grand last k H. destruct k; try congruence; repeat split; intros; try congruence; reflexivity. Qed.
Print Assumptions C18_readme_details.

(** The documentation differs from the code in these cases. README 665: header cells
    need their type stated; the code infers th in a thead. *)
Theorem C18_thead_refuted : exists ns,
  infer_out ns = L "<table><thead><tr><th>x</th></tr></thead></table>" /\
  readme_name CRow KLine = Some (Named (L "td")) /\
  ns = [ex_node ex_line [ex_sel (Some (L "table")) []; ex_sel (Some (L "thead")) []; ex_sel None []; ex_sel None []]
         [ex_text (L "x")]].
Proof. eexists. split; [|split; [|reflexivity]]; vm_compute; reflexivity. Qed.
Print Assumptions C18_thead_refuted.

(** README 673: inside a paragraph context [a] and custom elements contain a paragraph
    context, otherwise a section context. The code decides by the kind of element
    alone: a block link in a paragraph holds a section, ... *)
Theorem C18_link_in_paragraph_refuted : forall t, In t [L "a"; L "my-element"] ->
  infer_out [ex_node ex_line [ex_sel (Some (L "p")) []]
              [ex_node ex_block [ex_sel (Some t) []] [ex_node ex_block [ex_sel None []] []]]]
  = L "<p><" ++ t ++ L "><div></div></" ++ t ++ L "></p>".
Proof. apply Forall_forall. repeat (apply Forall_cons; [vm_compute; reflexivity|]). apply Forall_nil. Qed.
Print Assumptions C18_link_in_paragraph_refuted.
(** ... and a link line in a section holds a paragraph context. *)
Theorem C18_link_in_section_refuted : forall t, In t [L "a"; L "my-element"] ->
  infer_out [ex_node ex_line [ex_sel (Some t) []] [ex_node ex_line [ex_sel None []] [ex_text (L "x")]]]
  = L "<" ++ t ++ L "><span>x</span></" ++ t ++ L ">".
Proof. apply Forall_forall. repeat (apply Forall_cons; [vm_compute; reflexivity|]). apply Forall_nil. Qed.
Print Assumptions C18_link_in_section_refuted.

(** README 681: the image map context is said to be that of [imagemap] (the code
    knows [map]). *)
Theorem C18_imagemap_refuted :
  infer_out [ex_node ex_block [ex_sel (Some (L "imagemap")) []] [ex_node ex_line [ex_sel None [L "k"]] []]]
    = L "<imagemap><p class=""k""></p></imagemap>" /\
  infer_out [ex_node ex_block [ex_sel (Some (L "map")) []] [ex_node ex_line [ex_sel None [L "k"]] []]]
    = L "<map><area class=""k""></map>".
Proof. split; vm_compute; reflexivity. Qed.
Print Assumptions C18_imagemap_refuted.

(** README 667: the first line, block or paragraph of [details] is the summary. A comment
    before it prevents that. *)
Theorem C18_details_comment_refuted :
  infer_out [ex_node ex_block [ex_sel (Some (L "details")) []]
              [NTxt (mkR 0 0) (TComment (Provided (L "c"))); ex_space LineEnd;
               ex_node Paragraph [] [ex_text (L "More info")]]]
  = L "<details><!--c--> <p>More info</p></details>".
Proof. vm_compute. reflexivity. Qed.
Print Assumptions C18_details_comment_refuted.

Example C18_example :
  readme_name CDescription KBlock = Some (Named (L "dd")) /\
  infer_out [ex_node ex_block [ex_sel (Some (L "dl")) []]
              [ex_node ex_line [ex_sel None []] [ex_text (L "t")]; ex_node ex_block [] []; ex_node Paragraph [] [ex_text (L "d")]]]
  = L "<dl><dt>t</dt><dd></dd><dd>d</dd></dl>".
Proof. vm_compute. split; reflexivity. Qed.

(** ** C19: elements with a selector are named.

    REFUTED in two cases: an inline element written with a block, [<(.a {x})>], and a
    block directly in [picture]. Their selectors are dropped. *)
Theorem C19_named_refuted :
  infer_out [ex_node (Inline (Some (DBlock (mkR 0 0)))) [ex_sel None [L "a"]] [ex_text (L "x")]] = L "x" /\
  infer_out [ex_node ex_block [ex_sel (Some (L "picture")) []] [ex_node ex_block [ex_sel None [L "a"]] [ex_text (L "x")]]]
    = L "<picture>x</picture>".
Proof. split; vm_compute; reflexivity. Qed.
Print Assumptions C19_named_refuted.

(** Every other element is named ([Nameable] excludes just these two: unnamed
    elements that are neither line, block nor paragraph, and unnamed blocks and
    paragraphs directly inside picture). *)
Theorem C19_named_partial : forall slc ns ns',
  Forall (Nameable slc false) ns -> infer slc ns = Some ns' ->
  Forall (TreeAll named (fun _ => True)) ns'.
Proof. exact infer_named. Qed.
Print Assumptions C19_named_partial.

Example C19_example : Forall (Nameable slc0 false) ex_infer.
Proof.
  repeat (apply Forall_cons || apply Forall_nil || apply NaTxt || apply NaElt);
    try (unfold bare_paragraph; cbn; intros; try discriminate; reflexivity);
    (left; repeat constructor; discriminate) || (right; left; reflexivity) ||
    (right; right; repeat split; cbn; try discriminate; repeat constructor; discriminate).
Qed.

(** ** C20: only script and style are raw.

    If the tree carries no raw marks before inference (the builder makes none), the
    tree after inference is marked exactly where a name is [script] or [style] ... *)
Theorem C20_raw_marks : forall slc ns ns',
  Forall (TreeAll (fun e => e_raw e = false) (fun _ => True)) ns -> infer slc ns = Some ns' ->
  map (raw_by_name slc) ns' = ns'.
Proof. exact infer_raw_by_name. Qed.
Print Assumptions C20_raw_marks.

(** ... so that, in the text written ([Pieces], SpecTree.v: [written_raw] decides
    between a text and its escaped form), everything but explicit interpolation is
    escaped outside of them. *)
Theorem C20_text_escaped : forall slc cfg ns ns' o, c_indent cfg = None ->
  Forall (TreeAll (fun e => e_raw e = false) (fun _ => True)) ns -> infer slc ns = Some ns' ->
  output_html slc cfg ns' = (o, true) ->
  exists ps, PiecesL slc (is_xml cfg) false (trim_spaces (map (raw_by_name slc) ns')) ps /\
    o = (if match c_complete_page cfg with Some b => b | None => false end
         then L "<!DOCTYPE html>" ++ [10] else [])
        ++ spaced true ps.
Proof.
  intros slc cfg ns ns' o Hi H E HO. rewrite (infer_raw_by_name slc ns ns' H E).
  apply (output_no_indent slc cfg Hi ns' o); [|exact HO]. exact (infer_single_tag slc ns ns' E).
Qed.
Print Assumptions C20_text_escaped.

(** A text node that is not interpolation and is to be escaped is written raw only in
    HTML below a raw element. *)
Theorem C20_written_raw : forall xml raw t, t_raw t = false -> t_escape_out t = true ->
  written_raw xml raw t = negb xml && raw.
Proof. intros xml raw t H1 H2. unfold written_raw. rewrite H1, H2. reflexivity. Qed.
Print Assumptions C20_written_raw.

Example C20_example :
  Forall (TreeAll (fun e => e_raw e = false) (fun _ => True)) ex_infer /\
  infer_out [ex_node ex_line [ex_sel (Some (L "i")) []] [ex_text (L "a<b")]] = L "<i>a&lt;b</i>".
Proof.
  split; [|vm_compute; reflexivity].
  repeat (apply Forall_cons || apply Forall_nil || apply TAElt || apply TATxt); try exact I; reflexivity.
Qed.

(** * Property theorems about the document transforms: C15, C20 (metadata), C21-C25.

    [transform_document slc cfg cr ns] is the content of the document after all
    transforms, for content [ns] with range [cr]. Specifications: SpecTransform.v. *)

From Verif Require Import Base Escape OutText Doc Config Output Infer Transform SpecMarkup SpecTree SpecInfer
  SpecTransform P_InferProps P_Transform P_Meta PropertiesOutput PropertiesInfer.
From Coq Require Import Lia Permutation.

Definition convert_tree (cfg : config) (ns : list node) : str :=
  match transform_document slc0 cfg (mkR 0 0) ns with
  | Some ns' => fst (output_html slc0 cfg ns')
  | None => []
  end.
Definition cfg_with (st : special_tags) (page : bool) (lang : option str) (meta : option bool) : config :=
  mkConfig None None st (Some page) lang meta None.

(** ** C15: special syntax becomes the configured elements.

    [special_tree slc (documented_name tags) n] is the content of [n] with each special
    element named by its own option, or the documented default. It holds for all
    trees without code blocks, and for all trees if the options for emphasis and for
    the code block container are the same. *)
Theorem C15_special_tags_partial : forall slc tags n,
  TreeAll (fun e => e_type e <> Doc.Special CodeBlockContainer /\ e_type e <> Doc.Multiline MLCode) (fun _ => True) n
    \/ st_emphasis tags = st_code_block_container tags ->
  tree_of slc (special_node tags n) = special_tree slc (documented_name tags) n.
Proof. exact special_node_ok. Qed.
Print Assumptions C15_special_tags_partial.

(** The full claim is REFUTED: the container of a code block takes the name configured
    for emphasis, and its own option has no effect. *)
Definition ex_code_block : node := ex_node (Doc.Multiline MLCode) [] [ex_text (L "x")].
Theorem C15_code_block_refuted :
  convert_tree (cfg_with (mkSpecial (Some (L "i")) None None None None None None) false None None) [ex_code_block]
    = L "<i><code>x</code></i>" /\
  convert_tree (cfg_with (mkSpecial None None None None None None (Some (L "div"))) false None None) [ex_code_block]
    = L "<pre><code>x</code></pre>" /\
  (exists tags n, tree_of slc0 (special_node tags n) <> special_tree slc0 (documented_name tags) n).
Proof.
  split; [vm_compute; reflexivity|]. split; [vm_compute; reflexivity|].
  exists (mkSpecial (Some (L "i")) None None None None None None), ex_code_block. vm_compute. discriminate.
Qed.
Print Assumptions C15_code_block_refuted.

Definition ex_special : node :=
  ex_node (Doc.Special Strong) [ex_sel None [L "k"]]
    [ex_node (Doc.Special Emphasis) [] [ex_text (L "x")]; ex_node (Doc.Special Strike) [] []].
Example C15_example :
  TreeAll (fun e => e_type e <> Doc.Special CodeBlockContainer /\ e_type e <> Doc.Multiline MLCode) (fun _ => True) ex_special /\
  convert_tree (cfg_with (mkSpecial (Some (L "i")) None None (Some (L "del")) None None None) false None None) [ex_special]
    = L "<strong class=""k""><i>x</i><del></del></strong>".
Proof.
  split; [|vm_compute; reflexivity].
  repeat (apply TAElt || apply TATxt || apply Forall_cons || apply Forall_nil); try exact I; cbn; split; discriminate.
Qed.

(** ** C21: page completion.

    A document that has a top-level html element is unchanged; ... *)
Theorem C21_html_unchanged : forall slc cr ns,
  existsb (written_as slc [L "html"]) ns = true -> complete_page slc cr ns = ns.
Proof. exact page_html. Qed.
Print Assumptions C21_html_unchanged.
(** ... one that has a body is wrapped in a plain html element; ... *)
Theorem C21_body_wrapped : forall slc cr ns,
  existsb (written_as slc [L "html"]) ns = false -> existsb (written_as slc [L "body"]) ns = true ->
  exists n, complete_page slc cr ns = [n] /\ plain_elt slc (L "html") ns n.
Proof. exact page_body. Qed.
Print Assumptions C21_body_wrapped.
(** ... in any other, the head holds the content of head elements and the head-only
    elements and the body holds all the rest, both in source order. *)
Theorem C21_head_and_body : forall slc cr ns,
  existsb (written_as slc [L "html"]) ns = false -> existsb (written_as slc [L "body"]) ns = false ->
  exists h hd bd r, complete_page slc cr ns = [h] /\
    plain_elt slc (L "html") [hd; NTxt r (TSpace ParagraphEnd); bd] h /\
    plain_elt slc (L "head") (flat_map (to_head slc) ns) hd /\
    plain_elt slc (L "body") (filter (to_body slc) ns) bd.
Proof. exact page_split. Qed.
Print Assumptions C21_head_and_body.
(** After all transforms, the document is one html element unless the source had html
    elements at the top level. *)
Theorem C21_one_root_partial : forall slc cfg cr ns,
  c_complete_page cfg = Some true ->
  existsb (written_as slc [L "html"]) (map (special_node (c_special cfg)) ns) = false ->
  exists r e s, transform_document slc cfg cr ns = Some [NElt r e] /\
    elt_tag slc (e_selectors e) = Some (L "html", s).
Proof. exact transform_one_root. Qed.
Print Assumptions C21_one_root_partial.
(** REFUTED: a source with two html elements, or with text beside one, keeps them all
    at the top level. *)
Theorem C21_single_root_refuted :
  convert_tree (cfg_with special_default true None None)
    [ex_node ex_block [ex_sel (Some (L "html")) []] []; ex_node ex_block [ex_sel (Some (L "html")) []] [];
     ex_node Paragraph [] [ex_text (L "x")]]
  = L "<!DOCTYPE html>" ++ [10] ++ L "<html></html><html></html><p>x</p>".
Proof. vm_compute. reflexivity. Qed.
Print Assumptions C21_single_root_refuted.

Definition ex_page : list node :=
  [ex_node Paragraph [] [ex_text (L "x")]; ex_node ex_line [ex_sel (Some (L "Title")) []] [ex_text (L "t")];
   ex_node ex_block [ex_sel (Some (L "head")) []] [ex_node ex_line [ex_sel (Some (L "style")) []] []];
   ex_node ex_line [ex_sel (Some (L "h1")) []] [ex_text (L "y")]].
Example C21_example :
  existsb (written_as slc0 [L "html"]) ex_page = false /\ existsb (written_as slc0 [L "body"]) ex_page = false /\
  convert_tree (cfg_with special_default true None None) ex_page
  = L "<!DOCTYPE html>" ++ [10] ++
    L "<html><head><Title>t</Title><style></style></head> <body><p>x</p><h1>y</h1></body></html>".
Proof. repeat split; vm_compute; reflexivity. Qed.

(** ** C22: page completion loses nothing, if head elements are plain.

    [facts]: texts, comments, spaces and elements (name with ids, classes, attributes)
    except bare html, head and body. One space is added between head and body. *)
Theorem C22_nothing_lost_partial : forall slc cr ns,
  Forall (fun n => written_as slc [L "head"] n = true -> plain_head n) ns ->
  Permutation (facts slc (complete_page slc cr ns)) (facts slc ns) \/
  Permutation (facts slc (complete_page slc cr ns)) (FLeaf (TSpace ParagraphEnd) :: facts slc ns).
Proof. exact page_facts. Qed.
Print Assumptions C22_nothing_lost_partial.

(** REFUTED in general: [head>title> t] loses the title element, and attributes of head
    are lost. *)
Theorem C22_head_refuted :
  convert_tree (cfg_with special_default true None None)
    [ex_node ex_line [ex_sel (Some (L "head")) []; ex_sel (Some (L "title")) []] [ex_text (L "t")]]
    = L "<!DOCTYPE html>" ++ [10] ++ L "<html><head>t</head> <body></body></html>" /\
  convert_tree (cfg_with special_default true None None)
    [ex_node ex_block [ex_sel (Some (L "head")) [L "k"]] [ex_node ex_line [ex_sel (Some (L "title")) []] [ex_text (L "t")]]]
    = L "<!DOCTYPE html>" ++ [10] ++ L "<html><head><title>t</title></head> <body></body></html>".
Proof. split; vm_compute; reflexivity. Qed.
Print Assumptions C22_head_refuted.

Example C22_example :
  Forall (fun n => written_as slc0 [L "head"] n = true -> plain_head n) ex_page /\
  length (facts slc0 ex_page) = 7%nat.
Proof.
  split; [|vm_compute; reflexivity].
  repeat (apply Forall_cons; [vm_compute; intros E; try discriminate; eexists; split; reflexivity|]). apply Forall_nil.
Qed.

(** ** C23: the language option.

    Without it nothing changes; with it each node is changed by itself, texts not at
    all, and of an element only the selector that gives it its name: there the lang
    attribute is added after all others. *)
Definition given_lang (slc : lrange -> str) (xml : bool) (lang : str) (n n' : node) : Prop :=
  match n with
  | NTxt _ _ => n' = n
  | NElt r e =>
      match elt_tag slc (e_selectors e) with
      | None => n' = n
      | Some (t, s) => exists a b s', e_selectors e = a ++ s :: b /\
          n' = NElt r (with_selectors e (a ++ s' :: b)) /\
          elt_tag slc (a ++ s' :: b) = Some (t, s') /\
          sel_attrs slc xml s' = sel_attrs slc xml s ++ [(L "lang", Some (decoded slc (Provided lang)))]
      end
  end.
(** [plain] is the document without the option, all others as they are. *)
Theorem C23_lang : forall slc xml cfg cr ns,
  exists plain out, transform_document slc (without_lang cfg) cr ns = Some plain /\
    transform_document slc cfg cr ns = Some out /\
    match c_lang cfg with
    | None => out = plain
    | Some lang => Forall2 (given_lang slc xml lang) plain out
    end.
Proof.
  intros slc xml cfg cr ns. destruct (transform_lang slc cfg cr ns) as (plain & E1 & E2).
  exists plain, (apply_lang (c_lang cfg) plain). split; [exact E1|]. split; [exact E2|].
  destruct (c_lang cfg) as [lang|]; [|reflexivity]. clear. unfold apply_lang.
  induction plain as [|n ns IH]; cbn [map]; constructor; [|exact IH].
  destruct n as [r e|r t]; cbn [lang_node given_lang]; [|reflexivity].
  pose proof (lang_sels_ok slc xml lang (e_selectors e)) as H. destruct (elt_tag slc (e_selectors e)) as [[t s]|].
  - destruct H as (a & b & s' & E1 & E2 & E3 & E4). exists a, b, s'. rewrite E2 in *. auto.
  - rewrite H. now destruct e.
Qed.
Print Assumptions C23_lang.

Example C23_example :
  convert_tree (cfg_with special_default false (Some (L "en")) None)
    [ex_node ex_block [ex_sel (Some (L "div")) [L "k"]] [ex_node ex_line [ex_sel (Some (L "i")) []] []]; ex_text (L "x");
     ex_node Paragraph [] []]
  = L "<div class=""k"" lang=""en""><i></i></div>x<p lang=""en""></p>".
Proof. vm_compute. reflexivity. Qed.

(** ** C24: metadata attributes change nothing else.

    [MetaAdded]: the tree with metadata is the tree without, except for one list of
    metadata attributes (names and values given by [meta_attrs]) at each named element. *)
Theorem C24_metadata_only_adds : forall slc cfg cr ns, c_metadata cfg = Some false ->
  exists plain added, transform_document slc (without_metadata cfg) cr ns = Some plain /\
    transform_document slc cfg cr ns = Some added /\ Forall2 (MetaAdded true) plain added.
Proof. exact transform_added. Qed.
Print Assumptions C24_metadata_only_adds.
(** [MetaShown]: where nodes are to be shown as elements, each text and each comment is
    put, with its content as it is, in an element of its own, and elements without a
    name get one; nothing else is changed. What the language option adds to this is
    said by [C23_lang]. *)
Theorem C24_metadata_elements : forall slc cfg cr ns, c_metadata cfg = Some true ->
  exists plain added, transform_document slc (without_lang (without_metadata cfg)) cr ns = Some plain /\
    transform_document slc (without_lang cfg) cr ns = Some added /\ Forall2 (MetaShown true) plain added.
Proof. exact transform_shown. Qed.
Print Assumptions C24_metadata_elements.

Definition ex_ranged : list node :=
  [NElt (mkR 0 12) (mkElt (mkR 0 12) [mkSel (mkR 0 3) (Explicit (Provided (L "div"))) [];
                                      mkSel (mkR 4 6) Implicit [SClass (mkR 4 5) (Provided (L "k"))]]
     (mkR 8 11) [NTxt (mkR 8 11) (TText (mkText (Provided (L "a<b")) false true true false))]
     (Standard (DLine (mkR 7 8))) false false)].
Example C24_example :
  convert_tree (cfg_with special_default false None (Some false)) ex_ranged =
  L "<div xmlns:mty=""tag:youngspe.github.io,2024:mintyml/metadata"" mty:start=""0"" mty:end=""12""" ++
  L " mty:content-start=""4"" mty:content-end=""12""><p class=""k"" mty:start=""4"" mty:end=""12""" ++
  L " mty:content-start=""8"" mty:content-end=""11"">a&lt;b</p></div>".
Proof. vm_compute. reflexivity. Qed.

Example C24_elements_example :
  convert_tree (cfg_with special_default false None (Some true))
    [NElt (mkR 0 12) (mkElt (mkR 0 12) [] (mkR 2 11)
       [NTxt (mkR 2 5) (TText (mkText (Provided (L "x\n")) false false false false));
        NTxt (mkR 5 11) (TComment (Provided (L "a\n<")))] Unknown false false)] =
  L "<mty:element xmlns:mty=""tag:youngspe.github.io,2024:mintyml/metadata"" mty:start=""0"" mty:end=""12""" ++
  L " mty:content-start=""2"" mty:content-end=""11""><mty:text mty:verbatim=""true""" ++
  L " mty:start=""2"" mty:end=""5"">x\n</mty:text><mty:comment mty:start=""5"" mty:end=""11""" ++
  L " mty:content-start=""5"" mty:content-end=""11"">a\n&lt;</mty:comment></mty:element>".
Proof. vm_compute. reflexivity. Qed.

(** ** C25: recorded positions.

    With metadata (with or without elements), every named element carries its range
    and content range as decimal numbers, where start <= end, ... *)
Theorem C25_recorded : forall slc cfg el cr ns out, c_metadata cfg = Some el ->
  transform_document slc cfg cr ns = Some out -> Forall Records out.
Proof. exact transform_recorded. Qed.
Print Assumptions C25_recorded.
(** ... and if the ranges of the source tree are valid and nested, then in the result
    every valid range lies in the document and in the ranges of the elements around
    it. (That the trees built from sources are nested is not so in general, see
    C25_includes_refuted; where it is so is C25_includes_partial, PropertiesPlaces.v.) *)
Theorem C25_nested_partial : forall slc cfg cr ns out, valid_range cr -> Forall (FromSrc cr) ns ->
  transform_document slc cfg cr ns = Some out -> Forall (Nested cr) out.
Proof. exact transform_nested. Qed.
Print Assumptions C25_nested_partial.

Example C25_example : valid_range (mkR 0 12) /\ Forall (FromSrc (mkR 0 12)) ex_ranged.
Proof.
  assert (forall a b, (a <=? b) = true -> a <= b) as A by (intros; now apply N.leb_le).
  split; [apply A; reflexivity|].
  repeat (apply Forall_cons || apply Forall_nil || apply FsElt || apply FsTxt); cbn;
    unfold valid_range, within; cbn; repeat split; try (apply A; reflexivity).
Qed.

(** ** C20 with metadata elements: REFUTED. Each text is put in an element that is
    marked raw exactly if the text is to be escaped, so that all ordinary text is
    written unescaped. *)
Theorem C20_metadata_elements_refuted :
  convert_tree (cfg_with special_default false None (Some true))
    [NElt (mkR 5 1) (mkElt (mkR 5 1) [ex_sel (Some (L "i")) []] (mkR 5 1)
       [NTxt (mkR 5 1) (TText (mkText (Provided (L "a<b>")) false true true false))] ex_line false false)]
  = L "<i xmlns:mty=""tag:youngspe.github.io,2024:mintyml/metadata""><mty:text mty:raw=""true"">a<b></mty:text></i>".
Proof. vm_compute. reflexivity. Qed.
Print Assumptions C20_metadata_elements_refuted.

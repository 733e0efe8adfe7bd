(** * How a document is nested (README, 'Basic structure').

    [Says c l]: the content [c] of a source consists of the nodes [l].  The relation says
    which element contains what, and where white space is; positions do not matter.
    Written over the types of Ast.v only. *)

From Verif Require Import Base Doc Config Ast SpecTree SpecInfer SpecTransform SpecBuild SpecAttrs.

Section Shape.
Variable slc : lrange -> str.
Variable xml : bool.

(** How an element is written. *)
Inductive form :=
| FParagraph
| FLine                     (* [sel> rest of the line] *)
| FBlock                    (* [sel { ... }] *)
| FLineBlock                (* [sel> { ... }] *)
| FInline (f : option form) (* [<( ... )>], around an element or not *)
| FSpecial (k : special_kind)
| FMultiline (k : ml_kind)
| FOther.

(** A selector: the name and the attributes that it writes. *)
Definition label : Type := option str * list (str * option str).
Definition no_label : label := (None, []).
Definition source_label (s : a_selector) : label :=
  (match source_tag s with Explicit t => Some (as_str slc t) | _ => None end, source_attrs slc xml s).

(** [ShElt f path kids]: one element for each label of [path] (an unnamed one if there
    are none), each inside the one before; the last contains [kids]. *)
Inductive shape :=
| ShLeaf (t : textlike)
| ShElt (f : form) (path : list label) (kids : list shape).

Definition space_between (sp : option lrange) : list shape :=
  match sp with Some r => [ShLeaf (TSpace (SInline (Some (FromSource r))))] | None => [] end.
Definition visible (s : shape) : bool :=
  match s with ShLeaf (TComment _) | ShLeaf (TSpace _) => false | _ => true end.

(** Line, block and line-block elements, and code blocks, form lines of their own. *)
Definition standard (f : form) : bool := match f with FLine | FBlock | FLineBlock => true | _ => false end.
Definition own_line (l : list shape) : bool :=
  match find visible l with
  | Some (ShElt (FMultiline MLCode) _ _) => true
  | Some (ShElt f _ _) => standard f
  | _ => false
  end.

(** ** Lines (README 'Paragraph', 'Line Element', 'Line-Block Element')

    A line of text after a paragraph or a line element belongs to it; otherwise it is a
    paragraph, where there are paragraphs.  Nodes are separated by white space. *)
Definition separator (out : list shape) : list shape :=
  if existsb visible out then [ShLeaf (TSpace ParagraphEnd)] else [].
Definition goes_on (f : form) : bool := match f with FLine | FParagraph => true | _ => false end.
Inductive Placed (paragraphs : bool) (out : list shape) : option (list shape) -> list shape -> Prop :=
| PlBlank : Placed paragraphs out None (out ++ [ShLeaf (TSpace ParagraphEnd)])
| PlOwn : forall new, own_line new = true -> Placed paragraphs out (Some new) (out ++ separator out ++ new)
| PlGoesOn : forall new before f path kids, own_line new = false -> out = before ++ [ShElt f path kids] -> goes_on f = true ->
    Placed paragraphs out (Some new) (before ++ [ShElt f path (kids ++ ShLeaf (TSpace LineEnd) :: new)])
| PlParagraph : forall new, own_line new = false -> existsb visible new = true ->
    (forall before f path kids, out = before ++ [ShElt f path kids] -> goes_on f = false) ->
    Placed paragraphs out (Some new) (out ++ separator out ++ if paragraphs then [ShElt FParagraph [] new] else new)
| PlComment : forall new, own_line new = false -> existsb visible new = false ->
    (forall before f path kids, out = before ++ [ShElt f path kids] -> goes_on f = false) ->
    Placed paragraphs out (Some new) (out ++ separator out ++ new).
Inductive Arranged (paragraphs : bool) : list shape -> list (option (list shape)) -> list shape -> Prop :=
| ArNil : forall out, Arranged paragraphs out [] out
| ArCons : forall out m ms out' out'', Placed paragraphs out m out' -> Arranged paragraphs out' ms out'' ->
    Arranged paragraphs out (m :: ms) out''.

(** ** Inline elements: an element inside becomes the inline element *)
Inductive Inlined : list shape -> list shape -> Prop :=
| InElement : forall before f path kids after, Forall (fun s => visible s = false) before -> standard f = true ->
    Inlined (before ++ ShElt f path kids :: after) (before ++ ShElt (FInline (Some f)) path kids :: after)
| InOther : forall l,
    (forall before f path kids after, l = before ++ ShElt f path kids :: after ->
       Forall (fun s => visible s = false) before -> standard f = false) ->
    Inlined l [ShElt (FInline None) [] l].

Definition special_of (k : a_skind) : special_kind :=
  match k with
  | AEmphasis => Emphasis | AStrong => Strong | AUnderline => Underline | AStrike => Strike | AQuote => Quote
  end.
Definition code_leaf (r : lrange) : shape := ShLeaf (TText (code_text (mkR (r_start r + 2) (r_end r - 2)))).
Definition multiline_leaf (m : a_multiline) : shape :=
  ShLeaf (TText (multiline_text (am_kind m) (mkR (am_start m) (am_end m)))).

(** ** Nodes *)
Definition begins_element (l : list a_item) : Prop :=
  match l with
  | (_, ANode _ (ANSelector _) _) :: _ => True
  | (_, ANode _ (ANElement (ALineElt _)) _) :: _ => True
  | (_, ANode _ (ANElement (ABlockElt _)) _) :: _ => True
  | _ => False
  end.

(** [Line]: the nodes of a line, in order.
    [Chain items cs path f kids rest]: [items] begins with the element [ShElt f path kids],
    written with selectors or combinators; [cs] are comments between these, which come
    before the element; [rest] is what follows.
    [After]: the same, after a selector.  [Below]: the same, after a combinator. *)
Inductive Line : list a_item -> list shape -> Prop :=
| LnNil : Line [] []
| LnText : forall sp b t e items out, Line items out ->
    Line ((sp, ANode b (ANText t) e) :: items) (space_between sp ++ ShLeaf (text_leaf t) :: out)
| LnMultiline : forall sp b m e items out, Line items out ->
    Line ((sp, ANode b (ANMultiline m) e) :: items)
         (space_between sp ++ ShElt (FMultiline (am_kind m)) [] [multiline_leaf m] :: out)
| LnBlock : forall sp b k e items kids out, Says true (bk_content k) kids -> Line items out ->
    Line ((sp, ANode b (ANElement (ABlockElt k)) e) :: items) (space_between sp ++ ShElt FBlock [] kids :: out)
| LnInline : forall sp b i e items l l' out, Line (in_inner i) l -> Inlined l l' -> Line items out ->
    Line ((sp, ANode b (ANElement (AInlineElt i)) e) :: items) (space_between sp ++ l' ++ out)
| LnCode : forall sp b r e items out, Line items out ->
    Line ((sp, ANode b (ANElement (ASpecialElt (ACode r))) e) :: items)
         (space_between sp ++ ShElt (FSpecial Code) [] [code_leaf r] :: out)
| LnSpecial : forall sp b k o c cl e items kids out, Says false c kids -> Line items out ->
    Line ((sp, ANode b (ANElement (ASpecialElt (ASpecial k o c cl))) e) :: items)
         (space_between sp ++ ShElt (FSpecial (special_of k)) [] kids :: out)
| LnSelector : forall sp b s e items cs path f kids rest out, After items cs path f kids rest -> Line rest out ->
    Line ((sp, ANode b (ANSelector s) e) :: items)
         (space_between sp ++ cs ++ ShElt f (source_label s :: path) kids :: out)
| LnCombinator : forall sp b r e items cs path f kids rest out, Below items cs path f kids rest -> Line rest out ->
    Line ((sp, ANode b (ANElement (ALineElt r)) e) :: items)
         (space_between sp ++ cs ++ ShElt f (no_label :: path) kids :: out)
with After : list a_item -> list shape -> list label -> form -> list shape -> list a_item -> Prop :=
| AfComment : forall sp b c e items cs path f kids rest, After items cs path f kids rest ->
    After ((sp, ANode b (ANText (AComment c)) e) :: items) (ShLeaf (text_leaf (AComment c)) :: cs) path f kids rest
| AfBlock : forall sp b k e kids rest, Says true (bk_content k) kids ->
    After ((sp, ANode b (ANElement (ABlockElt k)) e) :: rest) [] [] FBlock kids rest
| AfCombinator : forall sp b r e items cs path f kids rest, Below items cs path f kids rest ->
    After ((sp, ANode b (ANElement (ALineElt r)) e) :: items) cs path f kids rest
with Below : list a_item -> list shape -> list label -> form -> list shape -> list a_item -> Prop :=
| BeSelector : forall sp b s e items cs path f kids rest, After items cs path f kids rest ->
    Below ((sp, ANode b (ANSelector s) e) :: items) cs (source_label s :: path) f kids rest
| BeCombinator : forall sp b r e items cs path f kids rest, Below items cs path f kids rest ->
    Below ((sp, ANode b (ANElement (ALineElt r)) e) :: items) cs (no_label :: path) f kids rest
| BeBlock : forall sp b k e kids rest, Says false (bk_content k) kids ->
    Below ((sp, ANode b (ANElement (ABlockElt k)) e) :: rest) [] [] FLineBlock kids rest
| BeLine : forall items kids, ~ begins_element items -> Line items kids -> Below items [] [] FLine kids []
with Says : bool -> a_content -> list shape -> Prop :=
| SaLines : forall p c ms out, Means (ct_lines c) ms -> Arranged p [] ms out -> Says p c out
with Means : list a_line -> list (option (list shape)) -> Prop :=
| MeNil : Means [] []
| MeBlank : forall b e ls ms, Means ls ms -> Means (mkALine b [] e :: ls) (None :: ms)
| MeLine : forall b i items e ls l ms, Line (i :: items) l -> Means ls ms ->
    Means (mkALine b (i :: items) e :: ls) (Some l :: ms).

(** ** Lines in which the code does as above

    As in C28: in a line that begins with a combinator, selectors, combinators and comments
    that lead to a block, nothing follows the block; also not if such a line follows a
    combinator and a comment. *)
Definition tidy_below (l : list a_item) : Prop :=
  forall a c i b, l = a ++ c :: i :: b -> is_combinator c -> is_comment i -> tidy_line (i :: b).
Definition orderly (l : list a_item) : Prop := tidy_line l /\ tidy_below l /\ selectors_used l.

(** ** The document built from the source *)
Definition form_of (t : element_type) : form :=
  let delimited d := match d with DLine _ => FLine | DBlock _ => FBlock | DLineBlock _ _ => FLineBlock end in
  match t with
  | Paragraph => FParagraph
  | Standard d => delimited d
  | Inline None => FInline None
  | Inline (Some d) => FInline (Some (delimited d))
  | Special k => FSpecial k
  | Multiline k => FMultiline k
  | Unknown => FOther
  end.
Definition doc_label (s : selector) : label := (sel_name slc s, sel_attrs slc xml s).
Fixpoint shape_of (n : node) : shape :=
  match n with
  | NTxt _ t => ShLeaf t
  | NElt _ e => ShElt (form_of (e_type e)) (map doc_label (e_selectors e)) (map shape_of (e_nodes e))
  end.

(** ** The elements of the result *)
Inductive page_tree :=
| PElt (l : label) (kids : list page_tree)
| PLeaf (t : textlike).

(** One element for each label, each inside the one before. *)
Fixpoint nest_labels (path : list label) (kids : list page_tree) : page_tree :=
  match path with
  | [] => PElt no_label kids
  | [l] => PElt l kids
  | l :: more => PElt l [nest_labels more kids]
  end.

(** Names of inline formatting and code blocks (README 'Inline Formatting'); the container
    of a code block takes the name for emphasis, see C15.  An empty name means no element. *)
Definition formatting (tags : special_tags) (k : special_kind) : str :=
  match k with
  | CodeBlockContainer => match st_emphasis tags with Some t => t | None => L "pre" end
  | _ => documented_name tags k
  end.
Definition only_names (l : list str) : list label := map (fun t => (Some t, [])) (filter (fun t => negb (str_empty t)) l).
Definition path_of (tags : special_tags) (f : form) (path : list label) : list label :=
  match f with
  | FSpecial k => only_names [formatting tags k]
  | FMultiline MLCode => only_names [formatting tags CodeBlockContainer; formatting tags Code]
  | _ => path
  end.
Fixpoint planned (tags : special_tags) (s : shape) : page_tree :=
  match s with
  | ShLeaf t => PLeaf t
  | ShElt f path kids => nest_labels (path_of tags f path) (map (planned tags) kids)
  end.

(** ** Page completion (README '--complete-page'): missing html, head and body elements are
    supplied; elements for the head are taken there. *)
Definition root_called (names : list str) (t : page_tree) : bool :=
  match t with PElt (Some n, _) _ => existsb (str_eqb (lower n)) names | _ => false end.
Definition only_named (name : str) (kids : list page_tree) : page_tree := PElt (Some name, []) kids.
Definition for_head (t : page_tree) : list page_tree :=
  if root_called [L "head"] t then match t with PElt _ kids => kids | PLeaf _ => [] end
  else if root_called head_only t then [t] else [].
Definition for_body (t : page_tree) : bool := negb (root_called [L "head"] t || root_called head_only t).
Definition completed_page (l : list page_tree) : list page_tree :=
  if existsb (root_called [L "html"]) l then l
  else if existsb (root_called [L "body"]) l then [only_named (L "html") l]
  else [only_named (L "html")
          [only_named (L "head") (flat_map for_head l); PLeaf (TSpace ParagraphEnd); only_named (L "body") (filter for_body l)]].
(** A head has neither attributes nor further selectors: they would be lost (C22). *)
Definition head_alone (tags : special_tags) (s : shape) : Prop :=
  match s with
  | ShElt f path _ =>
      match path_of tags f path with
      | (Some n, attrs) :: more => lower n = L "head" -> attrs = [] /\ more = []
      | _ => True
      end
  | ShLeaf _ => True
  end.

(** The same with names for elements that have none (C18). *)
Inductive Completed : page_tree -> page_tree -> Prop :=
| CoLeaf : forall t, Completed (PLeaf t) (PLeaf t)
| CoElt : forall name name' attrs kids kids', name = None \/ name' = name -> Forall2 Completed kids kids' ->
    Completed (PElt (name, attrs) kids) (PElt (name', attrs) kids').

(** The same with metadata: attributes of the namespace [mty] (C24); if elements are
    asked for, elements for text and comments, and for elements without a name. *)
Definition mty_names : list str := meta_names ++ [L "mty:verbatim"; L "mty:multiline"].
Definition mty_attrs (l : list (str * option str)) : Prop := Forall (fun p => In (fst p) mty_names) l.
Inductive Annotated (md : option bool) : page_tree -> page_tree -> Prop :=
| AnLeaf : forall t,
    (md = Some true -> match t with TSpace _ => True | TText t => t_raw t = true | TComment _ => False end) ->
    Annotated md (PLeaf t) (PLeaf t)
| AnText : forall t attrs, md = Some true -> t_raw t = false -> mty_attrs attrs ->
    Annotated md (PLeaf (TText t)) (PElt (Some (L "mty:text"), attrs) [PLeaf (TText t)])
| AnComment : forall s attrs, md = Some true -> mty_attrs attrs ->
    Annotated md (PLeaf (TComment s)) (PElt (Some (L "mty:comment"), attrs) [PLeaf (TText (mkText s false false true false))])
| AnElt : forall name name' attrs more kids kids',
    name' = name \/ name = None /\ name' = Some (L "mty:element") /\ md = Some true ->
    (md = Some true -> name' <> None) ->
    mty_attrs more -> (md = None \/ name' = None -> more = []) ->
    Forall2 (Annotated md) kids kids' ->
    Annotated md (PElt (name, attrs) kids) (PElt (name', attrs ++ more) kids').

(** The language is an attribute of the outermost elements that have names. *)
Definition given_language (lang : option str) (t : page_tree) : page_tree :=
  match lang, t with
  | Some v, PElt (Some n, attrs) kids => PElt (Some n, attrs ++ [(L "lang", Some (decoded slc (Provided v)))]) kids
  | _, _ => t
  end.

(** What is written for a node of the document. *)
Fixpoint page_tree_of (n : node) : page_tree :=
  match n with
  | NTxt _ t => PLeaf t
  | NElt _ e => nest_labels (map doc_label (e_selectors e)) (map page_tree_of (e_nodes e))
  end.
End Shape.

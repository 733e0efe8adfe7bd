(** * What the syntax tree says: the strings of its selectors, and its texts, comments
      and interpolations in order.  Written over the types of Ast.v and Doc.v only. *)

From Verif Require Import Base Doc Ast.

(** A node occurs in a list of items: as an item, or as a child of one that occurs. *)
Inductive Occurs (l : list a_item) : a_node -> Prop :=
| OcHere : forall sp n, In (sp, n) l -> Occurs l n
| OcIn : forall s t e sp n, Occurs l (ANode s t e) -> In (sp, n) (type_items t) -> Occurs l n.

(** ** Selectors *)

(** The source ranges of names and values of attributes (a quoted value without its
    quotes), of classes and of ids. *)
Definition attr_strings (a : a_attr) : list lrange :=
  aa_name a :: match aa_assign a with
               | Some (_, AUnquoted r) => [r]
               | Some (_, AQuoted r) => [mkR (r_start r + 1) (r_end r - 1)]
               | None => []
               end.
Definition attrs_strings (l : a_attrs) : list lrange := flat_map attr_strings (al_parts l).
Definition classlike_strings (c : a_classlike) : list lrange :=
  match c with AClass _ i | AId _ i => [i] | AInvalid _ => [] end.
Definition segment_strings (s : a_segment) : list lrange :=
  match s with ASegAttrs a => attrs_strings a | ASegClass cl => flat_map classlike_strings cl end.
Definition selector_strings (s : a_selector) : list lrange :=
  match as_first s with
  | AStartAttrs a => attrs_strings a
  | AStartTag _ cl => flat_map classlike_strings cl
  end ++ flat_map segment_strings (as_segments s).

(** The same for a selector of the document. *)
Definition item_strings (i : sel_item) : list tslice :=
  match i with
  | SId _ v | SClass _ v => [v]
  | SAttrs _ l => flat_map (fun a => a_name a :: match Doc.a_value a with Some v => [v] | None => [] end) l
  end.
Definition sel_strings (s : selector) : list tslice := flat_map item_strings (s_items s).

(** ** Texts, comments and interpolations *)

(** Escapes apply in plain text and in multi-line text with double quotes; the output is escaped
    except for interpolations, which are copied, and verbatim text marked raw. *)
Definition plain_text (r : lrange) : text := mkText (FromSource r) false true true false.
Definition interpolation (r : lrange) : text := mkText (FromSource r) false false false true.
Definition code_text (r : lrange) : text := mkText (FromSource r) false false true false.
Definition verbatim_text (raw : bool) (r : lrange) : text := mkText (FromSource r) false false (negb raw) false.
Definition multiline_text (k : ml_kind) (r : lrange) : text :=
  mkText (FromSource r) true (match k with MLEscaped => true | _ => false end) true false.

(** The tail of verbatim text is [n] hash signs, a bracket, the text, a bracket, [n] hash
    signs, a bracket and a greater sign. *)
Definition verbatim_range (v : a_verbatim) : lrange :=
  match av_tail v with
  | AVerbatim0 r => mkR (r_start r + 1) (r_end r - 3)
  | AVerbatim1 r => mkR (r_start r + 2) (r_end r - 4)
  | AVerbatim2 r => mkR (r_start r + 3) (r_end r - 5)
  end.

Definition text_leaf (t : a_text) : textlike :=
  match t with
  | ASegment r => TText (plain_text r)
  | AVerbatim v => TText (verbatim_text match av_raw v with Some _ => true | None => false end (verbatim_range v))
  | AComment c => TComment (FromSource (ac_inner c))
  | AInterpolation r => TText (interpolation r)
  end.

(** Where it stands *)
Definition text_range (t : a_text) : lrange :=
  match t with
  | ASegment r | AInterpolation r => r
  | AVerbatim v => combine (av_open v) match av_tail v with AVerbatim0 r | AVerbatim1 r | AVerbatim2 r => r end
  | AComment c => mkR (ac_start c) (ac_end c)
  end.

(** What a tree holds, in the order of the source, given what a selector and a text at a range
    count for. *)
Section Marks.
Context {X : Type}.
Variable sel : a_selector -> list X.
Variable txt : lrange -> textlike -> list X.
Fixpoint node_marks (n : a_node) : list X :=
  let 'ANode _ t _ := n in
  let items := flat_map (fun i : a_item => node_marks (snd i)) in
  match t with
  | ANMultiline m => txt (mkR (am_start m) (am_end m)) (TText (multiline_text (am_kind m) (mkR (am_start m) (am_end m))))
  | ANText t => txt (text_range t) (text_leaf t)
  | ANSelector s => sel s
  | ANElement (ALineElt _) => []
  | ANElement (ABlockElt b) => flat_map (fun l => items (ln_nodes l)) (ct_lines (bk_content b))
  | ANElement (AInlineElt i) => items (in_inner i)
  | ANElement (ASpecialElt (ASpecial _ _ c _)) => flat_map (fun l => items (ln_nodes l)) (ct_lines c)
  | ANElement (ASpecialElt (ACode r)) => txt (mkR (r_start r + 2) (r_end r - 2)) (TText (code_text (mkR (r_start r + 2) (r_end r - 2))))
  end.
Definition items_marks (l : list a_item) : list X := flat_map (fun i => node_marks (snd i)) l.
Definition content_marks (c : a_content) : list X :=
  flat_map (fun l => items_marks (ln_nodes l)) (ct_lines c).
End Marks.
(** The same for a document, where an element is opened by its selectors. *)
Section DocMarks.
Context {X : Type}.
Variable sel : selector -> list X.
Variable txt : lrange -> textlike -> list X.
Fixpoint doc_marks (n : node) : list X :=
  match n with
  | NTxt r t => txt r t
  | NElt _ e => flat_map sel (e_selectors e) ++ flat_map doc_marks (e_nodes e)
  end.
End DocMarks.

(** Texts, comments and interpolations; not the white space between. *)
Definition leaf (t : textlike) : list textlike := match t with TSpace _ => [] | _ => [t] end.
Definition content_leaves : a_content -> list textlike := content_marks (fun _ => []) (fun _ => leaf).
Definition doc_leaves : node -> list textlike := doc_marks (fun _ => []) (fun _ => leaf).
(** The same, with their ranges *)
Definition place (r : lrange) (t : textlike) : list (lrange * textlike) := map (pair r) (leaf t).
Definition content_places : a_content -> list (lrange * textlike) := content_marks (fun _ => []) place.
Definition doc_places : node -> list (lrange * textlike) := doc_marks (fun _ => []) place.

(** Selectors: the range, the tag, and the ids, classes, attribute names and values; empty
    selectors (the document has them for combinators without a selector) do not count. *)
Definition sel_mark (r : lrange) (t : tag) (strings : list tslice) : list (lrange * tag * list tslice) :=
  match t, strings with Implicit, [] => [] | _, _ => [(r, t, strings)] end.
Definition source_tag (s : a_selector) : tag :=
  match as_first s with
  | AStartTag (Some (AName r)) _ => Explicit (FromSource r)
  | AStartTag (Some (AStar r)) _ => Wildcard r
  | _ => Implicit
  end.
Definition source_selector (s : a_selector) : list (lrange * tag * list tslice) :=
  sel_mark (mkR (as_start s) (as_end s)) (source_tag s) (map FromSource (selector_strings s)).
Definition doc_selector (s : selector) : list (lrange * tag * list tslice) :=
  sel_mark (s_range s) (s_tag s) (sel_strings s).
Definition content_selectors : a_content -> list (lrange * tag * list tslice) := content_marks source_selector (fun _ _ => []).
Definition doc_selectors : node -> list (lrange * tag * list tslice) := doc_marks doc_selector (fun _ _ => []).

(** [a] is [b] with some elements left out. *)
Inductive Subseq {A} : list A -> list A -> Prop :=
| SubNil : Subseq [] []
| SubKeep : forall x a b, Subseq a b -> Subseq (x :: a) (x :: b)
| SubDrop : forall x a b, Subseq a b -> Subseq a (x :: b).

(** ** Lines in which the code drops nothing (see C28, C41) *)

Definition is_combinator (i : a_item) : Prop :=
  match an_type (snd i) with ANElement (ALineElt _) => True | _ => False end.
Definition is_block (i : a_item) : Prop :=
  match an_type (snd i) with ANElement (ABlockElt _) => True | _ => False end.
Definition is_comment (i : a_item) : Prop :=
  match an_type (snd i) with ANText (AComment _) => True | _ => False end.
Definition is_selector (i : a_item) : Prop :=
  match an_type (snd i) with ANSelector _ => True | _ => False end.

(** A line that starts with a combinator, goes on with selectors, combinators and comments
    and reaches a block, ends there. *)
Definition tidy_line (l : list a_item) : Prop :=
  forall cs c mid i b, l = cs ++ c :: mid ++ i :: b ->
    Forall is_comment cs -> is_combinator c ->
    Forall (fun x => is_selector x \/ is_combinator x \/ is_comment x) mid -> is_block i -> b = [].
(** A selector is not the last thing in a line. *)
Definition selectors_used (l : list a_item) : Prop :=
  forall a i cs, l = a ++ i :: cs -> is_selector i -> ~ Forall is_comment cs.

(** All lines of a tree. *)
Definition lines_of (t : a_ntype) : list (list a_item) :=
  match t with
  | ANElement (ABlockElt b) => map ln_nodes (ct_lines (bk_content b))
  | ANElement (AInlineElt i) => [in_inner i]
  | ANElement (ASpecialElt (ASpecial _ _ c _)) => map ln_nodes (ct_lines c)
  | _ => []
  end.
Definition all_lines (P : list a_item -> Prop) (c : a_content) : Prop :=
  Forall (fun l => P (ln_nodes l)) (ct_lines c) /\
  forall s t e, Occurs (content_items c) (ANode s t e) -> Forall P (lines_of t).

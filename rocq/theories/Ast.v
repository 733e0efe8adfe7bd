(** * The syntax tree: types of mintyml/src/ast.rs and mintyml/src/ast/*.rs.

    A token is a struct with one field [range] (gramma's [define_token!]) and is
    represented by that range.  The parser that produces the tree is not modelled
    (DESIGN.md). *)

From Verif Require Import Base Doc.

(** ast/text.rs:143-147 [VerbatimTail]: the number of "#" and the token. *)
Inductive a_vtail := AVerbatim0 (r : lrange) | AVerbatim1 (r : lrange) | AVerbatim2 (r : lrange).

(** ast/text.rs:137-141 [Verbatim] *)
Record a_verbatim := mkAVerb { av_open : lrange; av_raw : option lrange; av_tail : a_vtail }.

(** ast/text.rs:173-180 [Comment]; its parts (182-185) are read as one range. *)
Record a_comment := mkACom {
  ac_start : N; ac_open : lrange; ac_inner : lrange; ac_close : option lrange; ac_end : N }.

(** ast/text.rs:130-135 [InlineText] *)
Inductive a_text :=
| ASegment (r : lrange)
| AVerbatim (v : a_verbatim)
| AComment (c : a_comment)
| AInterpolation (r : lrange).

(** ast/text.rs:149-171 [Multiline]: the variant, and the common fields. *)
Record a_multiline := mkAMl {
  am_kind : ml_kind; am_open : lrange; am_start : N; am_body : lrange; am_end : N; am_close : lrange }.

(** ast/selectors.rs:134-137 [AttributeValue] *)
Inductive a_value := AUnquoted (r : lrange) | AQuoted (r : lrange).

(** ast/selectors.rs:121-132 [Attribute], [AttributeAssignment] *)
Record a_attr := mkAAttr {
  aa_start : N; aa_name : lrange; aa_assign : option (lrange * a_value); aa_end : N }.

(** ast/selectors.rs:111-118 [AttributeSelector] *)
Record a_attrs := mkAAttrs {
  al_start : N; al_lbracket : lrange; al_parts : list a_attr; al_rbracket : option lrange; al_end : N }.

(** ast/selectors.rs:93-104 [ClassLike], with 139-147 [ClassSelector], [IdSelector]
    inlined. *)
Inductive a_classlike :=
| AClass (dot ident : lrange)
| AId (hash ident : lrange)
| AInvalid (r : lrange).

(** ast/selectors.rs:106-109 [ElementSelector] *)
Inductive a_eltsel := AName (r : lrange) | AStar (r : lrange).

(** ast/selectors.rs:72-81 [SelectorStart] *)
Inductive a_selstart :=
| AStartAttrs (a : a_attrs)
| AStartTag (e : option a_eltsel) (cl : list a_classlike).

(** ast/selectors.rs:83-91 [SelectorSegment] *)
Inductive a_segment := ASegAttrs (a : a_attrs) | ASegClass (cl : list a_classlike).

(** ast/selectors.rs:65-70 [Selector] *)
Record a_selector := mkASel {
  as_start : N; as_first : a_selstart; as_segments : list a_segment; as_end : N }.

(** The variants of [InlineSpecial] (ast/elements.rs:55-90) other than [Code]. *)
Inductive a_skind := AEmphasis | AStrong | AUnderline | AStrike | AQuote.

(** The recursive types are written over the type [A] of nodes and tied below. *)
Section Tree.
Variable A : Type.

(** ast.rs:30-35 [Line] *)
Record a_line_ := mkALine { ln_start : N; ln_nodes : list (option lrange * A); ln_end : N }.

(** ast.rs:37-43 [Content]; also [Document] (45-48), which holds just a content *)
Record a_content_ := mkACont { ct_start : N; ct_lines : list a_line_; ct_end : N }.

(** ast/elements.rs:40-46 [Block] *)
Record a_block_ := mkABlock { bk_lbrace : lrange; bk_content : a_content_; bk_rbrace : option lrange }.

(** ast/elements.rs:48-53 [Inline] *)
Record a_inline_ := mkAInl {
  in_open : lrange; in_inner : list (option lrange * A); in_close : option lrange }.

(** ast/elements.rs:55-90 [InlineSpecial]: the five variants with [open], [inner],
    [close], and [Code]. *)
Inductive a_special_ :=
| ASpecial (k : a_skind) (open : lrange) (inner : a_content_) (close : option lrange)
| ACode (code : lrange).

(** ast/elements.rs:92-106 [Element] *)
Inductive a_element_ :=
| ALineElt (combinator : lrange)
| ABlockElt (b : a_block_)
| AInlineElt (i : a_inline_)
| ASpecialElt (s : a_special_).

(** ast.rs:23-28 [NodeType] *)
Inductive a_ntype_ :=
| ANMultiline (m : a_multiline)
| ANText (t : a_text)
| ANSelector (s : a_selector)
| ANElement (e : a_element_).
End Tree.
Arguments mkALine {A}. Arguments ln_start {A}. Arguments ln_nodes {A}. Arguments ln_end {A}.
Arguments mkACont {A}. Arguments ct_start {A}. Arguments ct_lines {A}. Arguments ct_end {A}.
Arguments mkABlock {A}. Arguments bk_lbrace {A}. Arguments bk_content {A}. Arguments bk_rbrace {A}.
Arguments mkAInl {A}. Arguments in_open {A}. Arguments in_inner {A}. Arguments in_close {A}.
Arguments ASpecial {A}. Arguments ACode {A}.
Arguments ALineElt {A}. Arguments ABlockElt {A}. Arguments AInlineElt {A}. Arguments ASpecialElt {A}.
Arguments ANMultiline {A}. Arguments ANText {A}. Arguments ANSelector {A}. Arguments ANElement {A}.

(** ast.rs:17-21 [Node] *)
Inductive a_node := ANode (start : N) (ty : a_ntype_ a_node) (end_ : N).
Notation a_item := (option lrange * a_node)%type.
Notation a_line := (a_line_ a_node).
Notation a_content := (a_content_ a_node).
Notation a_block := (a_block_ a_node).
Notation a_inline := (a_inline_ a_node).
Notation a_special := (a_special_ a_node).
Notation a_element := (a_element_ a_node).
Notation a_ntype := (a_ntype_ a_node).

(* field [node_type] of ast.rs:17-21 *)
Definition an_type (n : a_node) : a_ntype := let 'ANode _ t _ := n in t.
(* fields [start], [end] of ast.rs:17-21 *)
Definition an_range (n : a_node) : lrange := let 'ANode s _ e := n in mkR s e.

(** Nodes of the lines of a content, and the direct children of a node. *)
(* plumbing of the model, stands for no code (a view of ast.rs:30-43) *)
Definition content_items {A} (c : a_content_ A) : list (option lrange * A) :=
  flat_map ln_nodes (ct_lines c).
(* plumbing of the model, stands for no code (a view of ast/elements.rs:92-106) *)
Definition element_items {A} (e : a_element_ A) : list (option lrange * A) :=
  match e with
  | ALineElt _ => []
  | ABlockElt b => content_items (bk_content b)
  | AInlineElt i => in_inner i
  | ASpecialElt (ASpecial _ _ c _) => content_items c
  | ASpecialElt (ACode _) => []
  end.
(* plumbing of the model, stands for no code (a view of ast.rs:23-28) *)
Definition type_items {A} (t : a_ntype_ A) : list (option lrange * A) :=
  match t with ANElement e => element_items e | _ => [] end.

(** Induction principle: a property that holds of a node when it holds of its
    direct children. *)
Section a_node_ind.
  Variable P : a_node -> Prop.
  Hypothesis H : forall s t e, Forall (fun i => P (snd i)) (type_items t) -> P (ANode s t e).

  (* plumbing of the model, stands for no code *)
  Local Definition items_all (F : forall n, P n) : forall l : list a_item, Forall (fun i => P (snd i)) l :=
    fix go l := match l with
                | [] => Forall_nil _
                | i :: l' => Forall_cons i (F (snd i)) (go l')
                end.
  (* plumbing of the model, stands for no code *)
  Local Definition lines_all (F : forall n, P n) :
      forall ls : list a_line, Forall (fun i => P (snd i)) (flat_map ln_nodes ls) :=
    fix go ls := match ls with
                 | [] => Forall_nil _
                 | l :: ls' => proj2 (Forall_app _ _ _) (conj (items_all F (ln_nodes l)) (go ls'))
                 end.
  (* plumbing of the model, stands for no code *)
  Fixpoint a_node_ind' (n : a_node) : P n :=
    match n with
    | ANode s t e =>
        H s t e
          (match t as t return Forall (fun i => P (snd i)) (type_items t) with
           | ANElement (ABlockElt b) => lines_all a_node_ind' (ct_lines (bk_content b))
           | ANElement (AInlineElt i) => items_all a_node_ind' (in_inner i)
           | ANElement (ASpecialElt (ASpecial _ _ c _)) => lines_all a_node_ind' (ct_lines c)
           | _ => Forall_nil _
           end)
    end.
End a_node_ind.

(** Size of a node, for the fuel of the builder. *)
(* plumbing of the model, stands for no code *)
Definition items_size (sz : a_node -> nat) (l : list a_item) : nat :=
  list_sum (map (fun i => sz (snd i)) l).
(* plumbing of the model, stands for no code *)
Definition lines_size (sz : a_node -> nat) (ls : list a_line) : nat :=
  list_sum (map (fun l => S (items_size sz (ln_nodes l))) ls).
(* plumbing of the model, stands for no code *)
Fixpoint a_size (n : a_node) : nat :=
  let 'ANode _ t _ := n in
  match t with
  | ANElement (ABlockElt b) => S (lines_size a_size (ct_lines (bk_content b)))
  | ANElement (AInlineElt i) => S (items_size a_size (in_inner i))
  | ANElement (ASpecialElt (ASpecial _ _ c _)) => S (lines_size a_size (ct_lines c))
  | _ => 1
  end.

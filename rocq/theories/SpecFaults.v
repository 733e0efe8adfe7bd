(** * The faults of a source, and how the items of a line may follow each other (C47).
      Written over the syntax tree (Ast.v) only. *)

From Verif Require Import Base Doc Ast Errors SpecBuild.

(** ** Faults of single items: delimiters that are not closed, parts of selectors that are
       none, malformed escapes. *)

Definition not_closed (close : option lrange) (opening : lrange) (k : unclosed_kind) : list syntax_error :=
  match close with Some _ => [] | None => [mkSyn opening (KUnclosed k)] end.
Definition attrs_faults (l : a_attrs) : list syntax_error := not_closed (al_rbracket l) (al_lbracket l) UAttributeList.
Definition class_faults (c : a_classlike) : list syntax_error :=
  match c with AInvalid r => [mkSyn r (KInvalidItem ITSelector)] | _ => [] end.
Definition segment_faults (s : a_segment) : list syntax_error :=
  match s with ASegAttrs a => attrs_faults a | ASegClass cl => flat_map class_faults cl end.
Definition selector_faults (s : a_selector) : list syntax_error :=
  match as_first s with
  | AStartAttrs a => attrs_faults a
  | AStartTag _ cl => flat_map class_faults cl
  end ++ flat_map segment_faults (as_segments s).
Definition special_of_kind (k : a_skind) : special_kind :=
  match k with AEmphasis => Emphasis | AStrong => Strong | AUnderline => Underline | AStrike => Strike | AQuote => Quote end.

(** ** All faults of a source, in its order.  [bad s o] are the places of the malformed
       escapes of the text [s] that starts at the offset [o].  Escapes count in plain text
       and in multi-line text with double quotes. *)
Section Faults.
Variable bad : str -> N -> list lrange.
Variable slc : lrange -> str.

Definition escape_faults (r : lrange) : list syntax_error :=
  map (fun x => mkSyn x KInvalidEscape) (bad (slc r) (r_start r)).
Definition text_faults (t : a_text) : list syntax_error :=
  match t with
  | ASegment r => escape_faults r
  | AComment c => not_closed (ac_close c) (ac_open c) UComment
  | AVerbatim _ | AInterpolation _ => []
  end.
Fixpoint node_faults (n : a_node) : list syntax_error :=
  let 'ANode _ t _ := n in
  let items := flat_map (fun i : a_item => node_faults (snd i)) in
  let lines := flat_map (fun l => items (ln_nodes l)) in
  match t with
  | ANMultiline m => match am_kind m with MLEscaped => escape_faults (mkR (am_start m) (am_end m)) | _ => [] end
  | ANText t => text_faults t
  | ANSelector s => selector_faults s
  | ANElement (ALineElt _) => []
  | ANElement (ABlockElt b) => not_closed (bk_rbrace b) (bk_lbrace b) UBlock ++ lines (ct_lines (bk_content b))
  | ANElement (AInlineElt i) => not_closed (in_close i) (in_open i) UInline ++ items (in_inner i)
  | ANElement (ASpecialElt (ASpecial k o c cl)) => not_closed cl o (USpecial (special_of_kind k)) ++ lines (ct_lines c)
  | ANElement (ASpecialElt (ACode _)) => []
  end.
Definition items_faults (l : list a_item) : list syntax_error := flat_map (fun i => node_faults (snd i)) l.
Definition faults (c : a_content) : list syntax_error := flat_map (fun l => items_faults (ln_nodes l)) (ct_lines c).
End Faults.

(** ** Lines *)

(** Text (comments too) and inline elements *)
Definition is_inline (i : a_item) : Prop :=
  match an_type (snd i) with
  | ANText _ | ANElement (AInlineElt _) | ANElement (ASpecialElt _) => True
  | _ => False
  end.
(** What makes a line of its own: multi-line text and blocks *)
Definition is_own_line (i : a_item) : Prop :=
  match an_type (snd i) with ANMultiline _ | ANElement (ABlockElt _) => True | _ => False end.

(** A line holds text and inline elements, or one multi-line text or block, or one element: a
    selector with a block, or with a combinator and another line, or a combinator and
    another line.  Comments may stand everywhere. *)
Inductive proper_line : list a_item -> Prop :=
| PrText : forall l, Forall is_inline l -> proper_line l
| PrAlone : forall cs i cs', Forall is_comment cs -> is_own_line i -> Forall is_comment cs' -> proper_line (cs ++ i :: cs')
| PrElement : forall cs s l, Forall is_comment cs -> is_selector s -> proper_rest l -> proper_line (cs ++ s :: l)
| PrUnnamed : forall cs c l, Forall is_comment cs -> is_combinator c -> proper_line l -> proper_line (cs ++ c :: l)
(** What may follow a selector *)
with proper_rest : list a_item -> Prop :=
| PrBlock : forall cs b cs', Forall is_comment cs -> is_block b -> Forall is_comment cs' -> proper_rest (cs ++ b :: cs')
| PrChild : forall cs c l, Forall is_comment cs -> is_combinator c -> proper_line l -> proper_rest (cs ++ c :: l).

(** An error of a single item, as in [faults], and not about what may follow what *)
Definition of_item (e : syntax_error) : bool := match sy_kind e with KMisplaced _ => false | _ => true end.

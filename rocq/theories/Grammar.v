(** * The grammar: tokens and rules of mintyml/src/ast.rs and mintyml/src/ast/*.rs.

    The parser itself is generated by the crate gramma, whose source is not in the
    repository.  What is modelled is which trees are readings of a source:
    [document_ok src c] says that the ranges of the tree [c] lie in the source in the
    order of the rules, and that each token matches its pattern.  It allows more than
    the parser does: a pattern repeated "greedily" may match any number of times, an
    alternative may be chosen although an earlier one matches, and white space that a
    rule skips may be counted to either side of a [Location] field. *)

From Verif Require Import Base Doc Ast.

(** ** Patterns (gramma's [define_string_pattern!]) *)

(** What comes before, what is matched, what comes after. *)
(* gramma's operator, as used in ast/tokens.rs:2-59, ast/selectors.rs:8-62, ast/text.rs:9-122 *)
Definition pat := str -> str -> str -> Prop.

(* gramma's operator, as used in ast/tokens.rs:2-59, ast/selectors.rs:8-62, ast/text.rs:9-122 *)
Definition exactly (s : str) : pat := fun _ m _ => m = s.
(* gramma's operator, as used in ast/tokens.rs:2-59, ast/selectors.rs:8-62, ast/text.rs:9-122 *)
Definition one (f : chr -> bool) : pat := fun _ m _ => exists c, m = [c] /\ f c = true.
(* gramma's operator, as used in ast/tokens.rs:2-59, ast/selectors.rs:8-62, ast/text.rs:9-122 *)
Definition pseq (a b : pat) : pat := fun pre m post =>
  exists m1 m2, m = m1 ++ m2 /\ a pre m1 (m2 ++ post) /\ b (pre ++ m1) m2 post.
(* gramma's operator, as used in ast/tokens.rs:2-59, ast/selectors.rs:8-62, ast/text.rs:9-122 *)
Definition palt (a b : pat) : pat := fun pre m post => a pre m post \/ b pre m post.
(** [repeat(..)], [repeat(1..)] *)
(* gramma's operator, as used in ast/tokens.rs:2-59, ast/selectors.rs:8-62, ast/text.rs:9-122 *)
Inductive many (a : pat) : pat :=
| ManyNil : forall pre post, many a pre [] post
| ManyCons : forall pre m1 m2 post, a pre m1 (m2 ++ post) -> many a (pre ++ m1) m2 post -> many a pre (m1 ++ m2) post.
(* gramma's operator, as used in ast/tokens.rs:2-59, ast/selectors.rs:8-62, ast/text.rs:9-122 *)
Definition many1 (a : pat) : pat := pseq a (many a).
(** [precedes], [!precedes], [follows], [!follows] *)
(* gramma's operator, as used in ast/tokens.rs:2-59, ast/selectors.rs:8-62, ast/text.rs:9-122 *)
Definition precedes (a : pat) : pat := fun pre m post =>
  m = [] /\ exists x rest, post = x ++ rest /\ a pre x rest.
(* gramma's operator, as used in ast/tokens.rs:2-59, ast/selectors.rs:8-62, ast/text.rs:9-122 *)
Definition not_precedes (a : pat) : pat := fun pre m post =>
  m = [] /\ forall x rest, post = x ++ rest -> ~ a pre x rest.
(* gramma's operator, as used in ast/tokens.rs:2-59, ast/selectors.rs:8-62, ast/text.rs:9-122 *)
Definition follows (a : pat) : pat := fun pre m post =>
  m = [] /\ exists before x, pre = before ++ x /\ a before x post.
(* gramma's operator, as used in ast/tokens.rs:2-59, ast/selectors.rs:8-62, ast/text.rs:9-122 *)
Definition not_follows (a : pat) : pat := fun pre m post =>
  m = [] /\ forall before x, pre = before ++ x -> ~ a before x post.
(** [char(..).repeat(n..).lazy() + a]: up to the first place where [a] matches. *)
(* gramma's operator, as used in ast/tokens.rs:2-59, ast/selectors.rs:8-62, ast/text.rs:9-122 *)
Definition lazily (n : nat) (a : pat) : pat := fun pre m post =>
  exists x y, m = x ++ y /\ (n <= length x)%nat /\ a (pre ++ x) y post /\
    forall x' y' rest, x ++ y ++ post = x' ++ y' ++ rest -> (n <= length x' < length x)%nat -> ~ a (pre ++ x') y' rest.
(** [src_end], [line_start], [line_end] (whether the last takes the line end is left
    open) *)
(* gramma's operator, as used in ast/tokens.rs:2-59, ast/selectors.rs:8-62, ast/text.rs:9-122 *)
Definition src_end : pat := fun _ m post => m = [] /\ post = [].
(* gramma's operator, as used in ast/tokens.rs:2-59, ast/selectors.rs:8-62, ast/text.rs:9-122 *)
Definition line_start : pat := fun pre m _ => m = [] /\ (pre = [] \/ exists a, pre = a ++ L "
").
(* gramma's operator, as used in ast/tokens.rs:2-59, ast/selectors.rs:8-62, ast/text.rs:9-122 *)
Definition line_end_ : pat := fun _ m post => m = [] \/ m = [10] \/ m = [13; 10].

(** [char("...")], [!char("...")] *)
(* gramma's operator, as used in ast/tokens.rs:2-59, ast/selectors.rs:8-62, ast/text.rs:9-122 *)
Definition mem (s : str) (c : chr) : bool := existsb (N.eqb c) s.
(* gramma's operator, as used in ast/tokens.rs:2-59, ast/selectors.rs:8-62, ast/text.rs:9-122 *)
Definition not_ (f : chr -> bool) (c : chr) : bool := negb (f c).
(* gramma's operator, as used in ast/tokens.rs:2-59, ast/selectors.rs:8-62, ast/text.rs:9-122 *)
Definition and_ (f g : chr -> bool) (c : chr) : bool := f c && g c.
(* gramma's operator, as used in ast/tokens.rs:2-59, ast/selectors.rs:8-62, ast/text.rs:9-122 *)
Definition or_ (f g : chr -> bool) (c : chr) : bool := f c || g c.
(* gramma's operator, as used in ast/tokens.rs:2-59, ast/selectors.rs:8-62, ast/text.rs:9-122 *)
Definition any_char (c : chr) : bool := true.
(* [ascii_digit()], ast/selectors.rs:24 *)
Definition is_digit (c : chr) : bool := (48 <=? c) && (c <=? 57).
(* [ascii_alphanumeric()], ast/selectors.rs:9 *)
Definition is_ascii_alnum (c : chr) : bool :=
  is_digit c || ((65 <=? c) && (c <=? 90)) || ((97 <=? c) && (c <=? 122)).
(* [space()], ast/tokens.rs:10-12 *)
Definition not_newline_space : chr -> bool := and_ is_whitespace (not_ (mem [10])).

(** ** ast/tokens.rs *)

(** ast/tokens.rs:2-4 *)
Definition unicode_escape : pat :=
  pseq (exactly (L "\u{")) (pseq (many (one (not_ (mem (10 :: L "{}"))))) (exactly (L "}"))).
(** ast/tokens.rs:6-8 *)
Definition escape : pat := palt unicode_escape (pseq (exactly (L "\")) (one any_char)).
(** ast/tokens.rs:10-12; also 47-48 [Space] *)
Definition space_pat : pat := many1 (one not_newline_space).
(** ast/tokens.rs:39-45 [NewLine] *)
Definition new_line : pat :=
  pseq (many (one not_newline_space)) (pseq (exactly [10]) (many (one not_newline_space))).
(** ast/tokens.rs:52-56 [QuotedString] *)
Definition quoted_with (q : chr) : pat :=
  pseq (exactly [q]) (pseq (many (palt (one (not_ (mem [92; q]))) escape)) (exactly [q])).
(* ast/tokens.rs:52-56 (as above) *)
Definition quoted_string : pat := palt (quoted_with 34) (quoted_with 39).
(** ast/tokens.rs:58-59 [AnyChars] *)
Definition any_chars : pat := many1 (one any_char).

(** ** ast/selectors.rs *)

(** ast/selectors.rs:8-10 *)
Definition identifier_char : pat := palt (one (or_ is_ascii_alnum (mem (L "-:")))) escape.
(** ast/selectors.rs:12-16 *)
Definition class_name_excluded : str := L "\{}[]()<>`~!@#$%^&*+=,./?""'|; " ++ [9; 13; 10].
(* ast/selectors.rs:12-16 (as above) *)
Definition class_name : pat := many1 (one (not_ (or_ (mem class_name_excluded) is_whitespace))).
(** ast/selectors.rs:23-25 *)
Definition element_name : pat := pseq (not_precedes (one is_digit)) (many1 identifier_char).
(** ast/selectors.rs:35-39 *)
Definition post_selector_chain : pat :=
  palt (pseq (many (one (mem [32; 9])))
             (palt (exactly (L ">"))
                   (pseq (exactly (L "{")) (not_precedes (one (not_ (or_ is_whitespace (mem (L "}")))))))))
       (exactly (L "[")).

(** ast/selectors.rs:54-57 [AttributeName] *)
Definition attribute_name : pat :=
  many1 (palt (one (not_ (or_ (mem (L "=>'""/[]\")) is_whitespace))) escape).
(** ast/selectors.rs:59-62 [UnquotedAttributeValue] *)
Definition unquoted_value : pat :=
  many1 (palt (one (not_ (or_ (mem (L "[]\""'")) is_whitespace))) escape).

(** ast/selectors.rs:26-34, and the same in ast/text.rs:9-17: a character of a word,
    where [alnum] says which characters may stand before a greater sign. *)
Definition word_char (c : chr) : bool :=
  negb (mem (L "\[]{}<> " ++ [10; 13; 9]) c) && negb (is_whitespace c).
(* ast/selectors.rs:26-34, ast/text.rs:9-17 *)
Definition word_item (alnum : chr -> bool) : pat :=
  palt (pseq (one word_char) (not_precedes (exactly (L ">")))) (palt (one alnum) escape).

(** ** ast/text.rs *)

(** ast/text.rs:20-32 [interpolation] *)
Definition interpolation_pat : pat :=
  palt (pseq (not_follows (one (mem (L "\{"))))
       (pseq (exactly (L "{{"))
       (pseq (not_precedes (exactly (L "{")))
             (lazily 0 (pseq (not_follows (one (mem (L "\}"))))
                       (pseq (exactly (L "}}")) (not_precedes (exactly (L "}")))))))))
 (palt (pseq (exactly (L "{%")) (lazily 0 (exactly (L "%}"))))
 (palt (pseq (exactly (L "<%")) (lazily 0 (exactly (L "%>"))))
       (pseq (exactly (L "<?")) (lazily 0 (exactly (L "?>")))))).

(** ast/text.rs:54-67 [VerbatimTail0] to [VerbatimTail2], by number of hash signs *)
Definition verbatim_tail (hashes : str) : pat :=
  pseq (exactly (hashes ++ L "[")) (lazily 0 (exactly (L "]" ++ hashes ++ L "]>"))).

(** ast/text.rs:69-112: the tokens of multi-line text, by quote *)
Definition multiline_open (q : str) : pat :=
  pseq (exactly q) (pseq (many (one (not_ (mem [10; 96])))) line_end_).
(* ast/text.rs:69-112 (as above) *)
Definition multiline_body (q : str) : pat :=
  lazily 1 (palt src_end
    (pseq (precedes (exactly q)) (follows (pseq line_start (many (one (mem [9; 32]))))))).
(* ast/text.rs:69-112 (as above) *)
Definition multiline_close (q : str) : pat :=
  pseq (exactly q) (not_precedes (exactly (firstn 1 q))).
(* ast/text.rs:69-112 (as above) *)
Definition multiline_quote (k : ml_kind) : str :=
  match k with MLEscaped => [34; 34; 34] | MLUnescaped => L "'''" | MLCode => L "```" end.

(** ast/text.rs:117-122 [CommentText] *)
Definition comment_text_pat : pat :=
  palt (one (not_ (mem (L "<!"))))
 (palt (pseq (exactly (L "<")) (not_precedes (exactly (L "!"))))
       (pseq (exactly (L "!")) (not_precedes (exactly (L ">"))))).
(** ast/text.rs:173-185 [Comment], [CommentPart]: the parts of a comment, which are read
    as one range; a comment in it may lack its end. *)
Inductive comment_parts : pat :=
| CpNil : forall pre post, comment_parts pre [] post
| CpText : forall pre m1 m2 post, comment_text_pat pre m1 (m2 ++ post) ->
    comment_parts (pre ++ m1) m2 post -> comment_parts pre (m1 ++ m2) post
| CpNested : forall pre m1 close m2 post, (close = L "!>" \/ close = []) ->
    comment_parts (pre ++ L "<!") m1 (close ++ m2 ++ post) ->
    comment_parts (pre ++ L "<!" ++ m1 ++ close) m2 post ->
    comment_parts pre (L "<!" ++ m1 ++ close ++ m2) post.

(** ast/elements.rs:8-36 *)
Definition special_open (k : a_skind) : str :=
  match k with AEmphasis => L "</" | AStrong => L "<#" | AUnderline => L "<_" | AStrike => L "<~" | AQuote => [60; 34] end.
(* ast/elements.rs:8-36 (as above) *)
Definition special_close (k : a_skind) : str :=
  match k with AEmphasis => L "/>" | AStrong => L "#>" | AUnderline => L "_>" | AStrike => L "~>" | AQuote => [34; 62] end.
(* ast/elements.rs:8-36 (as above) *)
Definition inline_code : pat := pseq (exactly (L "<`")) (lazily 0 (exactly (L "`>"))).

(** ** Rules *)
Section Rules.
Variable src : str.
(** [char::is_alphanumeric] *)
Variable alnum : chr -> bool.

(** The source from [p] to [q] matches [a]. *)
(* gramma's rules, as used in ast.rs:17-48, ast/selectors.rs:65-147, ast/text.rs:130-185, ast/elements.rs:40-106 *)
Definition Tok (a : pat) (p q : N) : Prop :=
  exists pre m post, src = pre ++ m ++ post /\ p = blen pre /\ q = blen pre + blen m /\ a pre m post.
(** [ignore_...<Whitespace>], [discard_...<Whitespace>], [ignore_...<Space>] *)
(* gramma's rules, as used in ast.rs:17-48, ast/selectors.rs:65-147, ast/text.rs:130-185, ast/elements.rs:40-106 *)
Definition Gap : N -> N -> Prop := Tok (many (one is_whitespace)).
(* gramma's rules, as used in ast.rs:17-48, ast/selectors.rs:65-147, ast/text.rs:130-185, ast/elements.rs:40-106 *)
Definition SpaceGap : N -> N -> Prop := Tok (many (one not_newline_space)).

(** [Vec<R>]: one after the other from [p] to [q]. *)
Section Tiles.
Context {A : Type}.
Variable R : N -> N -> A -> Prop.
(* gramma's rules, as used in ast.rs:17-48, ast/selectors.rs:65-147, ast/text.rs:130-185, ast/elements.rs:40-106 *)
Fixpoint Tiles (p q : N) (l : list A) : Prop :=
  match l with
  | [] => p = q
  | a :: l' => exists m, R p m a /\ Tiles m q l'
  end.
End Tiles.
(** [Option<R>] *)
(* gramma's rules, as used in ast.rs:17-48, ast/selectors.rs:65-147, ast/text.rs:130-185, ast/elements.rs:40-106 *)
Definition Maybe {A} (R : N -> N -> A -> Prop) (p q : N) (o : option A) : Prop :=
  match o with Some a => R p q a | None => p = q end.
(** A token, as the range that represents it. *)
(* gramma's rules, as used in ast.rs:17-48, ast/selectors.rs:65-147, ast/text.rs:130-185, ast/elements.rs:40-106 *)
Definition Token (a : pat) (p q : N) (r : lrange) : Prop := r = mkR p q /\ Tok a p q.

(** ast/selectors.rs:41-52 [SelectorChain] *)
Definition selector_chain : pat := pseq (many1 (word_item (or_ alnum (mem (L "*"))))) (precedes post_selector_chain).

(** ast/text.rs:36-41 [TextSegment], with 9-17 [text_word] *)
Definition text_word : pat := pseq (many1 (word_item alnum)) (not_precedes post_selector_chain).
(* ast/text.rs:36-41 (as above) *)
Definition text_segment : pat := pseq text_word (many (pseq space_pat text_word)).

(** ast/selectors.rs:134-137 [AttributeValue] *)
Definition value_ok (p q : N) (v : a_value) : Prop :=
  match v with
  | AUnquoted r => Token unquoted_value p q r
  | AQuoted r => Token quoted_string p q r
  end.
(** ast/selectors.rs:128-132 [AttributeAssignment] *)
Definition assign_ok (p q : N) (a : lrange * a_value) : Prop :=
  exists x y z, Gap p x /\ Token (exactly (L "=")) x y (fst a) /\ Gap y z /\ value_ok z q (snd a).
(** ast/selectors.rs:120-126 [Attribute] *)
Definition attr_ok (p q : N) (a : a_attr) : Prop :=
  exists x y, Gap p (aa_start a) /\ Gap (aa_start a) x /\ Token attribute_name x y (aa_name a) /\
    Maybe assign_ok y q (aa_assign a) /\ aa_end a = q.
(** ast/selectors.rs:111-118 [AttributeSelector] *)
Definition attrs_ok (p q : N) (l : a_attrs) : Prop :=
  exists x y z, al_start l = p /\ Token (exactly (L "[")) p x (al_lbracket l) /\ Tiles attr_ok x y (al_parts l) /\
    Gap y z /\ Maybe (Token (exactly (L "]"))) z q (al_rbracket l) /\ al_end l = q.
(** ast/selectors.rs:93-104 [ClassLike], 139-147 [ClassSelector], [IdSelector] *)
Definition class_like_ok (p q : N) (c : a_classlike) : Prop :=
  match c with
  | AClass dot ident => exists x, Token (exactly (L ".")) p x dot /\ Token class_name x q ident
  | AId hash ident => exists x, Token (exactly (L "#")) p x hash /\ Token class_name x q ident
  | AInvalid r => Token any_chars p q r
  end.
(** ast/selectors.rs:106-109 [ElementSelector] *)
Definition elt_sel_ok (p q : N) (e : a_eltsel) : Prop :=
  match e with
  | AName r => Token element_name p q r
  | AStar r => Token (exactly (L "*")) p q r
  end.
(** ast/selectors.rs:72-81 [SelectorStart], 83-91 [SelectorSegment]; [parse_as]: the
    parts are read from the text of the token [SelectorChain]. *)
Definition sel_start_ok (p q : N) (s : a_selstart) : Prop :=
  match s with
  | AStartAttrs a => attrs_ok p q a
  | AStartTag e cl => Tok selector_chain p q /\ exists x, Maybe elt_sel_ok p x e /\ Tiles class_like_ok x q cl
  end.
(* ast/selectors.rs:72-81 (as above) *)
Definition segment_ok (p q : N) (s : a_segment) : Prop :=
  match s with
  | ASegAttrs a => attrs_ok p q a
  | ASegClass cl => Tok selector_chain p q /\ Tiles class_like_ok p q cl
  end.
(** ast/selectors.rs:65-70 [Selector] *)
Definition selector_ok (p q : N) (s : a_selector) : Prop :=
  as_start s = p /\ (exists x, sel_start_ok p x (as_first s) /\ Tiles segment_ok x q (as_segments s)) /\ as_end s = q.

(** ast/text.rs:137-147 [Verbatim], [VerbatimTail] *)
Definition tail_ok (p q : N) (t : a_vtail) : Prop :=
  match t with
  | AVerbatim0 r => Token (verbatim_tail []) p q r
  | AVerbatim1 r => Token (verbatim_tail (L "#")) p q r
  | AVerbatim2 r => Token (verbatim_tail (L "##")) p q r
  end.
(* ast/text.rs:137-147 (as above) *)
Definition verbatim_ok (p q : N) (v : a_verbatim) : Prop :=
  exists x y, Token (exactly (L "<[")) p x (av_open v) /\ Maybe (Token (exactly (L "raw"))) x y (av_raw v) /\
    tail_ok y q (av_tail v).
(** ast/text.rs:173-180 [Comment] *)
Definition comment_ok (p q : N) (c : a_comment) : Prop :=
  exists x y, ac_start c = p /\ Token (exactly (L "<!")) p x (ac_open c) /\ Token comment_parts x y (ac_inner c) /\
    Maybe (Token (exactly (L "!>"))) y q (ac_close c) /\ ac_end c = q.
(** ast/text.rs:130-135 [InlineText] *)
Definition text_ok (p q : N) (t : a_text) : Prop :=
  match t with
  | ASegment r => Token text_segment p q r
  | AVerbatim v => verbatim_ok p q v
  | AComment c => comment_ok p q c
  | AInterpolation r => Token interpolation_pat p q r
  end.
(** ast/text.rs:149-171 [Multiline] *)
Definition multiline_ok (p q : N) (m : a_multiline) : Prop :=
  let quote := multiline_quote (am_kind m) in
  exists x y, Token (multiline_open quote) p x (am_open m) /\ am_start m = x /\
    Token (multiline_body quote) x y (am_body m) /\ am_end m = y /\ Token (multiline_close quote) y q (am_close m).

(** The rules that contain nodes, given the rule for a node. *)
Section Nodes.
Variable node_ok : N -> N -> a_node -> Prop.

(** [(Option<Space>, Node)] *)
(* ast.rs:33, ast/elements.rs:51 *)
Definition item_ok (p q : N) (i : a_item) : Prop :=
  exists x y, SpaceGap p x /\ Maybe (Token space_pat) x y (fst i) /\ node_ok y q (snd i).
(** ast.rs:30-35 [Line] *)
Definition line_ok (p q : N) (l : a_line) : Prop :=
  exists x y, SpaceGap p (ln_start l) /\ SpaceGap (ln_start l) x /\ Tiles item_ok x y (ln_nodes l) /\
    SpaceGap y (ln_end l) /\ SpaceGap (ln_end l) q.
(** [delimited<NewLine, false>] *)
(* ast.rs:40-41 *)
Fixpoint lines_ok (p q : N) (ls : list a_line) : Prop :=
  match ls with
  | [] => p = q
  | [l] => line_ok p q l
  | l :: ls' => exists x y, line_ok p x l /\ Tok new_line x y /\ lines_ok y q ls'
  end.
(** ast.rs:37-43 [Content] *)
Definition content_ok (p q : N) (c : a_content) : Prop :=
  exists x y, Gap p (ct_start c) /\ Gap (ct_start c) x /\ lines_ok x y (ct_lines c) /\
    Gap y (ct_end c) /\ Gap (ct_end c) q.
(** ast/elements.rs:40-46 [Block] *)
Definition block_ok (p q : N) (b : a_block) : Prop :=
  exists x y z, Token (exactly (L "{")) p x (bk_lbrace b) /\ content_ok x y (bk_content b) /\
    Gap y z /\ Maybe (Token (exactly (L "}"))) z q (bk_rbrace b).
(** ast/elements.rs:48-53 [Inline] *)
Definition inline_ok (p q : N) (i : a_inline) : Prop :=
  exists w x y z, Token (exactly (L "<(")) p w (in_open i) /\ Gap w x /\ Tiles item_ok x y (in_inner i) /\
    Gap y z /\ Maybe (Token (exactly (L ")>"))) z q (in_close i).
(** ast/elements.rs:55-90 [InlineSpecial] *)
Definition special_ok (p q : N) (s : a_special) : Prop :=
  match s with
  | ASpecial k open inner close =>
      exists x y, Token (exactly (special_open k)) p x open /\ content_ok x y inner /\
        Maybe (Token (exactly (special_close k))) y q close
  | ACode code => Token inline_code p q code
  end.
(** ast/elements.rs:92-106 [Element] *)
Definition element_ok (p q : N) (e : a_element) : Prop :=
  match e with
  | ALineElt r => Token (exactly (L ">")) p q r
  | ABlockElt b => block_ok p q b
  | AInlineElt i => inline_ok p q i
  | ASpecialElt s => special_ok p q s
  end.
(** ast.rs:23-28 [NodeType] *)
Definition ntype_ok (p q : N) (t : a_ntype) : Prop :=
  match t with
  | ANMultiline m => multiline_ok p q m
  | ANText t => text_ok p q t
  | ANSelector s => selector_ok p q s
  | ANElement e => element_ok p q e
  end.
End Nodes.

(** ast.rs:17-21 [Node] *)
Fixpoint node_ok (p q : N) (n : a_node) {struct n} : Prop :=
  let 'ANode s t e := n in s = p /\ ntype_ok node_ok p q t /\ e = q.

(** ast.rs:45-48 [Document] *)
Definition document_ok (c : a_content) : Prop :=
  exists x y, Gap 0 x /\ content_ok node_ok x y c /\ Gap y (blen src).
End Rules.

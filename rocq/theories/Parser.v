(** * The parser: mintyml/src/ast.rs and mintyml/src/ast/*.rs run on a source.

    The grammar is given to the crate gramma, whose source is not in the repository; what
    its operators do is taken from their names, the comments and the tests (DESIGN.md):
    - [.simple()] repeats as often as it can and does not give back; a repetition
      without it ([Space], [Whitespace]) ends its pattern, so that it makes no
      difference; [.lazy()] stops at the first place where what follows it matches;
    - [a | b] is [b] only where [a] does not match;
    - a [Vec], [Option] or variant is taken if its first [LOOKAHEAD] = 2 tokens
      (ast.rs:51) match; if what is taken then fails the source is not parsed;
    - a source of which something is left over is not parsed.
    Which error gramma then reports is not modelled: [failure] is a parameter. *)

From Verif Require Import Base Doc Ast Convert Grammar.

(** ** Patterns *)

(** Given what comes before (last character first) and what is left: what is matched
    and what is left then. *)
(* gramma's operator, as used in ast/tokens.rs:2-59, ast/selectors.rs:8-62, ast/text.rs:9-122 *)
Definition lexer := str -> str -> option (str * str).

(* gramma's operator, as used in ast/tokens.rs:2-59, ast/selectors.rs:8-62, ast/text.rs:9-122 *)
Definition x_exactly (s : str) : lexer := fun _ r =>
  match strip_prefix s r with Some r' => Some (s, r') | None => None end.
(* gramma's operator, as used in ast/tokens.rs:2-59, ast/selectors.rs:8-62, ast/text.rs:9-122 *)
Definition x_one (f : chr -> bool) : lexer := fun _ r =>
  match r with c :: r' => if f c then Some ([c], r') else None | [] => None end.
(* gramma's operator, as used in ast/tokens.rs:2-59, ast/selectors.rs:8-62, ast/text.rs:9-122 *)
Definition x_seq (a b : lexer) : lexer := fun back r =>
  match a back r with
  | Some (m1, r1) => match b (rev_append m1 back) r1 with
                     | Some (m2, r2) => Some (m1 ++ m2, r2)
                     | None => None
                     end
  | None => None
  end.
(* gramma's operator, as used in ast/tokens.rs:2-59, ast/selectors.rs:8-62, ast/text.rs:9-122 *)
Definition x_alt (a b : lexer) : lexer := fun back r =>
  match a back r with Some x => Some x | None => b back r end.
(** [repeat(..).simple()]; the fuel is the length of what is left. *)
(* gramma's operator, as used in ast/tokens.rs:2-59, ast/selectors.rs:8-62, ast/text.rs:9-122 *)
Fixpoint many_ (a : lexer) (fuel : nat) (back r : str) : str * str :=
  match fuel with
  | O => ([], r)
  | S fuel => match a back r with
              | Some (c :: m1, r1) =>
                  let '(m2, r2) := many_ a fuel (rev_append (c :: m1) back) r1 in ((c :: m1) ++ m2, r2)
              | _ => ([], r)
              end
  end.
(* gramma's operator, as used in ast/tokens.rs:2-59, ast/selectors.rs:8-62, ast/text.rs:9-122 *)
Definition x_many (a : lexer) : lexer := fun back r => Some (many_ a (length r) back r).
(* gramma's operator, as used in ast/tokens.rs:2-59, ast/selectors.rs:8-62, ast/text.rs:9-122 *)
Definition x_many1 (a : lexer) : lexer := x_seq a (x_many a).
(** [precedes], [!precedes]; [!follows] of a character *)
(* gramma's operator, as used in ast/tokens.rs:2-59, ast/selectors.rs:8-62, ast/text.rs:9-122 *)
Definition x_precedes (a : lexer) : lexer := fun back r =>
  match a back r with Some _ => Some ([], r) | None => None end.
(* gramma's operator, as used in ast/tokens.rs:2-59, ast/selectors.rs:8-62, ast/text.rs:9-122 *)
Definition x_not_precedes (a : lexer) : lexer := fun back r =>
  match a back r with Some _ => None | None => Some ([], r) end.
(* gramma's operator, as used in ast/tokens.rs:2-59, ast/selectors.rs:8-62, ast/text.rs:9-122 *)
Definition x_not_follows (f : chr -> bool) : lexer := fun back r =>
  match back with c :: _ => if f c then None else Some ([], r) | [] => Some ([], r) end.
(** [char(..).repeat(n..).lazy() + a] *)
(* gramma's operator, as used in ast/tokens.rs:2-59, ast/selectors.rs:8-62, ast/text.rs:9-122 *)
Fixpoint lazy_ (a : lexer) (n : nat) (back r : str) {struct r} : option (str * str) :=
  match (match n with O => a back r | S _ => None end) with
  | Some x => Some x
  | None => match r with
            | [] => None
            | c :: r' => match lazy_ a (pred n) (c :: back) r' with
                         | Some (m, r'') => Some (c :: m, r'')
                         | None => None
                         end
            end
  end.
(* gramma's operator, as used in ast/tokens.rs:2-59, ast/selectors.rs:8-62, ast/text.rs:9-122 *)
Definition x_lazy (n : nat) (a : lexer) : lexer := lazy_ a n.
(** [line_end]: before a line feed or at the end.  That it takes nothing is seen from
    output/utils.rs, which drops the first line of the text between the tokens. *)
(* gramma's operator, as used in ast/tokens.rs:2-59, ast/selectors.rs:8-62, ast/text.rs:9-122 *)
Definition x_line_end : lexer := fun _ r =>
  match r with [] => Some ([], r) | c :: _ => if c =? 10 then Some ([], r) else None end.
(** [follows(line_start() + char("\t ").repeat(..).simple())] *)
(* ast/text.rs:69-112 *)
Fixpoint blank_before (back : str) : bool :=
  match back with
  | [] => true
  | c :: back' => if c =? 10 then true else if mem [9; 32] c then blank_before back' else false
  end.

(** ast/tokens.rs:2-12 *)
Definition x_unicode_escape : lexer :=
  x_seq (x_exactly (L "\u{")) (x_seq (x_many (x_one (not_ (mem (10 :: L "{}"))))) (x_exactly (L "}"))).
(* ast/tokens.rs:2-12 (as above) *)
Definition x_escape : lexer := x_alt x_unicode_escape (x_seq (x_exactly (L "\")) (x_one any_char)).
(** ast/tokens.rs:10-12, 47-48; 49-50 *)
Definition x_space : lexer := x_many1 (x_one not_newline_space).
(** ast/tokens.rs:39-45 *)
Definition x_new_line : lexer :=
  x_seq (x_many (x_one not_newline_space)) (x_seq (x_exactly [10]) (x_many (x_one not_newline_space))).
(** ast/tokens.rs:52-56 *)
Definition x_quoted_with (q : chr) : lexer :=
  x_seq (x_exactly [q]) (x_seq (x_many (x_alt (x_one (not_ (mem [92; q]))) x_escape)) (x_exactly [q])).
(* ast/tokens.rs:52-56 (as above) *)
Definition x_quoted_string : lexer := x_alt (x_quoted_with 34) (x_quoted_with 39).
(** ast/tokens.rs:58-59 *)
Definition x_any_chars : lexer := x_many1 (x_one any_char).

(** ast/selectors.rs:8-39, 54-62 *)
Definition x_identifier_char : lexer := x_alt (x_one (or_ is_ascii_alnum (mem (L "-:")))) x_escape.
(* ast/selectors.rs:8-39, 54-62 (as above) *)
Definition x_class_name : lexer := x_many1 (x_one (not_ (or_ (mem class_name_excluded) is_whitespace))).
(* ast/selectors.rs:8-39, 54-62 (as above) *)
Definition x_element_name : lexer := x_seq (x_not_precedes (x_one is_digit)) (x_many1 x_identifier_char).
(* ast/selectors.rs:8-39, 54-62 (as above) *)
Definition x_post_selector_chain : lexer :=
  x_alt (x_seq (x_many (x_one (mem [32; 9])))
               (x_alt (x_exactly (L ">"))
                      (x_seq (x_exactly (L "{")) (x_not_precedes (x_one (not_ (or_ is_whitespace (mem (L "}")))))))))
        (x_exactly (L "[")).
(* ast/selectors.rs:8-39, 54-62 (as above) *)
Definition x_attribute_name : lexer :=
  x_many1 (x_alt (x_one (not_ (or_ (mem (L "=>'""/[]\")) is_whitespace))) x_escape).
(* ast/selectors.rs:8-39, 54-62 (as above) *)
Definition x_unquoted_value : lexer :=
  x_many1 (x_alt (x_one (not_ (or_ (mem (L "[]\""'")) is_whitespace))) x_escape).
(* ast/selectors.rs:8-39, 54-62 (as above) *)
Definition x_word_item (alnum : chr -> bool) : lexer :=
  x_alt (x_seq (x_one word_char) (x_not_precedes (x_exactly (L ">")))) (x_alt (x_one alnum) x_escape).

(** ast/text.rs:20-32 *)
Definition x_interpolation : lexer :=
  x_alt (x_seq (x_not_follows (mem (L "\{")))
        (x_seq (x_exactly (L "{{"))
        (x_seq (x_not_precedes (x_exactly (L "{")))
               (x_lazy 0 (x_seq (x_not_follows (mem (L "\}")))
                         (x_seq (x_exactly (L "}}")) (x_not_precedes (x_exactly (L "}")))))))))
 (x_alt (x_seq (x_exactly (L "{%")) (x_lazy 0 (x_exactly (L "%}"))))
 (x_alt (x_seq (x_exactly (L "<%")) (x_lazy 0 (x_exactly (L "%>"))))
        (x_seq (x_exactly (L "<?")) (x_lazy 0 (x_exactly (L "?>")))))).
(** ast/text.rs:54-67 *)
Definition x_verbatim_tail (hashes : str) : lexer :=
  x_seq (x_exactly (hashes ++ L "[")) (x_lazy 0 (x_exactly (L "]" ++ hashes ++ L "]>"))).
(** ast/text.rs:69-112 *)
Definition x_multiline_open (q : str) : lexer :=
  x_seq (x_exactly q) (x_seq (x_many (x_one (not_ (mem [10; 96])))) x_line_end).
(* ast/text.rs:69-112 (as above) *)
Definition x_body_end (q : str) : lexer := fun back r =>
  match r with
  | [] => Some ([], r)
  | _ => if starts_with q r then if blank_before back then Some ([], r) else None else None
  end.
(* ast/text.rs:69-112 (as above) *)
Definition x_multiline_body (q : str) : lexer := x_lazy 1 (x_body_end q).
(* ast/text.rs:69-112 (as above) *)
Definition x_multiline_close (q : str) : lexer := x_seq (x_exactly q) (x_not_precedes (x_exactly (firstn 1 q))).
(** ast/text.rs:117-122 *)
Definition x_comment_text : lexer :=
  x_alt (x_one (not_ (mem (L "<!"))))
 (x_alt (x_seq (x_exactly (L "<")) (x_not_precedes (x_exactly (L "!"))))
        (x_seq (x_exactly (L "!")) (x_not_precedes (x_exactly (L ">"))))).
(** ast/text.rs:173-185 [Vec<CommentPart>]; [None] is for lack of fuel. *)
Fixpoint parts_ (fuel : nat) (back r : str) : option (str * str) :=
  match fuel with
  | O => None
  | S fuel =>
      match x_comment_text back r with
      | Some (m1, r1) =>
          match parts_ fuel (rev_append m1 back) r1 with
          | Some (m2, r2) => Some (m1 ++ m2, r2)
          | None => None
          end
      | None =>
          match strip_prefix (L "<!") r with
          | None => Some ([], r)
          | Some r1 =>
              let back1 := rev_append (L "<!") back in
              match parts_ fuel back1 r1 with
              | None => None
              | Some (m1, r2) =>
                  let back2 := rev_append m1 back1 in
                  let '(close, r3) := match strip_prefix (L "!>") r2 with Some r3 => (L "!>", r3) | None => ([], r2) end in
                  match parts_ fuel (rev_append close back2) r3 with
                  | Some (m2, r4) => Some (L "<!" ++ m1 ++ close ++ m2, r4)
                  | None => None
                  end
              end
          end
      end
  end.
(** ast/elements.rs:33-36 *)
Definition x_inline_code : lexer := x_seq (x_exactly (L "<`")) (x_lazy 0 (x_exactly (L "`>"))).

(** ** Rules *)

(** The position in bytes, what comes before (last character first), what is left. *)
(* gramma's rules, as used in ast.rs:17-48, ast/selectors.rs:65-147, ast/text.rs:130-185, ast/elements.rs:40-106 *)
Record pstate := mkP { p_at : N; p_back : str; p_rest : str }.

(** Found; not there; taken, but then failed; lack of fuel *)
(* gramma's rules, as used in ast.rs:17-48, ast/selectors.rs:65-147, ast/text.rs:130-185, ast/elements.rs:40-106 *)
Inductive outcome (A : Type) := Got (a : A) (s : pstate) | Absent | Broken | Starved.
Arguments Got {A}. Arguments Absent {A}. Arguments Broken {A}. Arguments Starved {A}.

(* gramma's rules, as used in ast.rs:17-48, ast/selectors.rs:65-147, ast/text.rs:130-185, ast/elements.rs:40-106 *)
Definition then_ {A B} (o : outcome A) (f : A -> pstate -> outcome B) : outcome B :=
  match o with Got a s => f a s | Absent => Absent | Broken => Broken | Starved => Starved end.
(** A variant, or else the next *)
(* gramma's rules, as used in ast.rs:17-48, ast/selectors.rs:65-147, ast/text.rs:130-185, ast/elements.rs:40-106 *)
Definition or_else {A} (o o' : outcome A) : outcome A := match o with Absent => o' | _ => o end.
(** What comes after the first two tokens *)
(* gramma's rules, as used in ast.rs:17-48, ast/selectors.rs:65-147, ast/text.rs:130-185, ast/elements.rs:40-106 *)
Definition taken {A} (o : outcome A) : outcome A := match o with Absent => Broken | _ => o end.
(** [Option<R>] *)
(* gramma's rules, as used in ast.rs:17-48, ast/selectors.rs:65-147, ast/text.rs:130-185, ast/elements.rs:40-106 *)
Definition maybe {A} (s : pstate) (o : outcome A) : outcome (option A) :=
  match o with Got a s' => Got (Some a) s' | Absent => Got None s | Broken => Broken | Starved => Starved end.

(* gramma's rules, as used in ast.rs:17-48, ast/selectors.rs:65-147, ast/text.rs:130-185, ast/elements.rs:40-106 *)
Definition advance (s : pstate) (m r : str) : pstate := mkP (p_at s + blen m) (rev_append m (p_back s)) r.
(** A token *)
(* gramma's rules, as used in ast.rs:17-48, ast/selectors.rs:65-147, ast/text.rs:130-185, ast/elements.rs:40-106 *)
Definition tok (a : lexer) (s : pstate) : outcome lrange :=
  match a (p_back s) (p_rest s) with
  | Some (m, r) => Got (mkR (p_at s) (p_at s + blen m)) (advance s m r)
  | None => Absent
  end.
(* gramma's rules, as used in ast.rs:17-48, ast/selectors.rs:65-147, ast/text.rs:130-185, ast/elements.rs:40-106 *)
Definition text_tok (t : str) : pstate -> outcome lrange := tok (x_exactly t).
(** [ignore_...], [discard_...] *)
(* gramma's rules, as used in ast.rs:17-48, ast/selectors.rs:65-147, ast/text.rs:130-185, ast/elements.rs:40-106 *)
Definition skip (f : chr -> bool) (s : pstate) : pstate :=
  let '(m, r) := many_ (x_one f) (length (p_rest s)) (p_back s) (p_rest s) in advance s m r.
(* gramma's rules, as used in ast.rs:17-48, ast/selectors.rs:65-147, ast/text.rs:130-185, ast/elements.rs:40-106 *)
Definition skip_ws : pstate -> pstate := skip is_whitespace.
(* gramma's rules, as used in ast.rs:17-48, ast/selectors.rs:65-147, ast/text.rs:130-185, ast/elements.rs:40-106 *)
Definition skip_space : pstate -> pstate := skip not_newline_space.

(** [Vec<R>]; the fuel is more than the length of what is left. *)
(* gramma's rules, as used in ast.rs:17-48, ast/selectors.rs:65-147, ast/text.rs:130-185, ast/elements.rs:40-106 *)
Fixpoint vec_ {A} (one : pstate -> outcome A) (fuel : nat) (s : pstate) : outcome (list A) :=
  match fuel with
  | O => Starved
  | S fuel => match one s with
              | Got a s1 => then_ (vec_ one fuel s1) (fun l s2 => Got (a :: l) s2)
              | Absent => Got [] s
              | Broken => Broken
              | Starved => Starved
              end
  end.
(* gramma's rules, as used in ast.rs:17-48, ast/selectors.rs:65-147, ast/text.rs:130-185, ast/elements.rs:40-106 *)
Definition vec {A} (one : pstate -> outcome A) (s : pstate) : outcome (list A) := vec_ one (S (length (p_rest s))) s.

Section Parser.
(** [char::is_alphanumeric] *)
Variable alnum : chr -> bool.

(** ast/selectors.rs:41-52 *)
Definition x_selector_chain : lexer :=
  x_seq (x_many1 (x_word_item (or_ alnum (mem (L "*"))))) (x_precedes x_post_selector_chain).
(** ast/text.rs:9-17, 36-41 *)
Definition x_text_word : lexer := x_seq (x_many1 (x_word_item alnum)) (x_not_precedes x_post_selector_chain).
(* ast/text.rs:9-17, 36-41 (as above) *)
Definition x_text_segment : lexer := x_seq x_text_word (x_many (x_seq x_space x_text_word)).

(** ast/selectors.rs:120-137 *)
Definition p_value (s : pstate) : outcome a_value :=
  or_else (then_ (tok x_unquoted_value s) (fun r s1 => Got (AUnquoted r) s1))
          (then_ (tok x_quoted_string s) (fun r s1 => Got (AQuoted r) s1)).
(* ast/selectors.rs:120-137 (as above) *)
Definition p_assign (s : pstate) : outcome (lrange * a_value) :=
  then_ (text_tok (L "=") (skip_ws s)) (fun eq s1 => then_ (p_value (skip_ws s1)) (fun v s2 => Got (eq, v) s2)).
(* ast/selectors.rs:120-137 (as above) *)
Definition p_attr (s : pstate) : outcome a_attr :=
  let s0 := skip_ws s in
  then_ (tok x_attribute_name s0) (fun name s1 =>
  then_ (maybe s1 (p_assign s1)) (fun assign s2 =>
  Got (mkAAttr (p_at s0) name assign (p_at s2)) s2)).
(** ast/selectors.rs:111-118 *)
Definition p_attrs (s : pstate) : outcome a_attrs :=
  then_ (text_tok (L "[") s) (fun l s1 =>
  then_ (vec p_attr s1) (fun parts s2 =>
  let s3 := skip_ws s2 in
  then_ (maybe s3 (text_tok (L "]") s3)) (fun r s4 =>
  Got (mkAAttrs (p_at s) l parts r (p_at s4)) s4))).
(** ast/selectors.rs:93-104, 139-147 *)
Definition p_class_like (s : pstate) : outcome a_classlike :=
  or_else (then_ (text_tok (L ".") s) (fun d s1 => then_ (tok x_class_name s1) (fun i s2 => Got (AClass d i) s2)))
 (or_else (then_ (text_tok (L "#") s) (fun d s1 => then_ (tok x_class_name s1) (fun i s2 => Got (AId d i) s2)))
          (then_ (tok x_any_chars s) (fun r s1 => Got (AInvalid r) s1))).
(** ast/selectors.rs:106-109 *)
Definition p_elt_sel (s : pstate) : outcome a_eltsel :=
  or_else (then_ (tok x_element_name s) (fun r s1 => Got (AName r) s1))
          (then_ (text_tok (L "*") s) (fun r s1 => Got (AStar r) s1)).
(** [parse_as<SelectorChain>]: the text of the token is parsed. *)
(* ast/selectors.rs:76, 88 *)
Definition in_chain {A} (f : pstate -> outcome A) (s : pstate) : outcome A :=
  match x_selector_chain (p_back s) (p_rest s) with
  | Some (m, r) =>
      match f (mkP (p_at s) (p_back s) m) with
      | Got a (mkP _ _ []) => Got a (advance s m r)
      | Starved => Starved
      | _ => Broken
      end
  | None => Absent
  end.
(** ast/selectors.rs:72-91 *)
Definition p_sel_start (s : pstate) : outcome a_selstart :=
  or_else (then_ (p_attrs s) (fun a s1 => Got (AStartAttrs a) s1))
          (in_chain (fun s0 =>
             then_ (maybe s0 (p_elt_sel s0)) (fun e s1 =>
             then_ (vec p_class_like s1) (fun cl s2 => Got (AStartTag e cl) s2))) s).
(* ast/selectors.rs:72-91 (as above) *)
Definition p_segment (s : pstate) : outcome a_segment :=
  or_else (then_ (p_attrs s) (fun a s1 => Got (ASegAttrs a) s1))
          (in_chain (fun s0 => then_ (vec p_class_like s0) (fun cl s1 => Got (ASegClass cl) s1)) s).
(** ast/selectors.rs:65-70 *)
Definition p_selector (s : pstate) : outcome a_selector :=
  then_ (p_sel_start s) (fun first s1 =>
  then_ (vec p_segment s1) (fun segs s2 => Got (mkASel (p_at s) first segs (p_at s2)) s2)).

(** ast/text.rs:137-147 *)
Definition p_tail (s : pstate) : outcome a_vtail :=
  or_else (then_ (tok (x_verbatim_tail []) s) (fun r s1 => Got (AVerbatim0 r) s1))
 (or_else (then_ (tok (x_verbatim_tail (L "#")) s) (fun r s1 => Got (AVerbatim1 r) s1))
          (then_ (tok (x_verbatim_tail (L "##")) s) (fun r s1 => Got (AVerbatim2 r) s1))).
(* ast/text.rs:137-147 (as above) *)
Definition p_verbatim (s : pstate) : outcome a_verbatim :=
  then_ (text_tok (L "<[") s) (fun o s1 =>
  then_ (maybe s1 (text_tok (L "raw") s1)) (fun raw s2 =>
  then_ (match raw with Some _ => taken (p_tail s2) | None => p_tail s2 end) (fun t s3 => Got (mkAVerb o raw t) s3))).
(** ast/text.rs:173-185 *)
Definition p_comment (s : pstate) : outcome a_comment :=
  then_ (text_tok (L "<!") s) (fun o s1 =>
  match parts_ (S (length (p_rest s1))) (p_back s1) (p_rest s1) with
  | None => Starved
  | Some (m, r) =>
      let s2 := advance s1 m r in
      then_ (maybe s2 (text_tok (L "!>") s2)) (fun c s3 =>
      Got (mkACom (p_at s) o (mkR (p_at s1) (p_at s2)) c (p_at s3)) s3)
  end).
(** ast/text.rs:130-135 *)
Definition p_text (s : pstate) : outcome a_text :=
  or_else (then_ (tok x_text_segment s) (fun r s1 => Got (ASegment r) s1))
 (or_else (then_ (p_verbatim s) (fun v s1 => Got (AVerbatim v) s1))
 (or_else (then_ (p_comment s) (fun c s1 => Got (AComment c) s1))
          (then_ (tok x_interpolation s) (fun r s1 => Got (AInterpolation r) s1)))).
(** ast/text.rs:149-171 *)
Definition p_multiline_kind (k : ml_kind) (s : pstate) : outcome a_multiline :=
  let q := multiline_quote k in
  then_ (tok (x_multiline_open q) s) (fun o s1 =>
  then_ (tok (x_multiline_body q) s1) (fun b s2 =>
  then_ (taken (tok (x_multiline_close q) s2)) (fun c s3 =>
  Got (mkAMl k o (p_at s1) b (p_at s2) c) s3))).
(* ast/text.rs:149-171 (as above) *)
Definition p_multiline (s : pstate) : outcome a_multiline :=
  or_else (p_multiline_kind MLEscaped s) (or_else (p_multiline_kind MLUnescaped s) (p_multiline_kind MLCode s)).

(** The rules that contain nodes, given the one for a node. *)
Section Nodes.
Variable p_node : pstate -> outcome a_node.

(** [(Option<Space>, Node)] *)
(* ast.rs:33, ast/elements.rs:51 *)
Definition p_item (s : pstate) : outcome a_item :=
  then_ (maybe s (tok x_space s)) (fun sp s1 => then_ (p_node s1) (fun n s2 => Got (sp, n) s2)).
(** ast.rs:30-35 *)
Definition p_line (s : pstate) : outcome a_line :=
  then_ (vec p_item (skip_space s)) (fun l s1 =>
  let s2 := skip_space s1 in Got (mkALine (p_at s) l (p_at s2)) s2).
(** [delimited<NewLine, false>] *)
(* ast.rs:40-41 *)
Fixpoint lines_ (fuel : nat) (s : pstate) : outcome (list a_line) :=
  match fuel with
  | O => Starved
  | S fuel =>
      then_ (p_line s) (fun l s1 =>
      match tok x_new_line s1 with
      | Got _ s2 => then_ (lines_ fuel s2) (fun ls s3 => Got (l :: ls) s3)
      | _ => Got [l] s1
      end)
  end.
(** ast.rs:37-43 *)
Definition p_content (s : pstate) : outcome a_content :=
  let s1 := skip_ws s in
  then_ (lines_ (S (length (p_rest s1))) s1) (fun ls s2 => Got (mkACont (p_at s) ls (p_at s2)) (skip_ws s2)).
(** ast/elements.rs:40-46 *)
Definition p_block (s : pstate) : outcome a_block :=
  then_ (text_tok (L "{") s) (fun l s1 =>
  then_ (p_content (skip_ws s1)) (fun c s2 =>
  let s3 := skip_ws s2 in
  then_ (maybe s3 (text_tok (L "}") s3)) (fun r s4 => Got (mkABlock l c r) s4))).
(** ast/elements.rs:48-53 *)
Definition p_inline (s : pstate) : outcome a_inline :=
  then_ (text_tok (L "<(") s) (fun o s1 =>
  then_ (vec p_item (skip_ws s1)) (fun inner s2 =>
  let s3 := skip_ws s2 in
  then_ (maybe s3 (text_tok (L ")>") s3)) (fun c s4 => Got (mkAInl o inner c) s4))).
(** ast/elements.rs:55-90 *)
Definition p_special_kind (k : a_skind) (s : pstate) : outcome a_special :=
  then_ (text_tok (special_open k) s) (fun o s1 =>
  then_ (p_content s1) (fun c s2 =>
  then_ (maybe s2 (text_tok (special_close k) s2)) (fun cl s3 => Got (ASpecial k o c cl) s3))).
(* ast/elements.rs:55-90 (as above) *)
Definition p_special (s : pstate) : outcome a_special :=
  or_else (p_special_kind AEmphasis s) (or_else (p_special_kind AStrong s) (or_else (p_special_kind AUnderline s)
 (or_else (p_special_kind AStrike s) (or_else (p_special_kind AQuote s)
          (then_ (tok x_inline_code s) (fun r s1 => Got (ACode r) s1)))))).
(** ast/elements.rs:92-106 *)
Definition p_element (s : pstate) : outcome a_element :=
  or_else (then_ (text_tok (L ">") s) (fun r s1 => Got (ALineElt r) s1))
 (or_else (then_ (p_block s) (fun b s1 => Got (ABlockElt b) s1))
 (or_else (then_ (p_inline s) (fun i s1 => Got (AInlineElt i) s1))
          (then_ (p_special s) (fun x s1 => Got (ASpecialElt x) s1)))).
(** ast.rs:23-28 *)
Definition p_ntype (s : pstate) : outcome a_ntype :=
  or_else (then_ (p_multiline s) (fun m s1 => Got (ANMultiline m) s1))
 (or_else (then_ (p_text s) (fun t s1 => Got (ANText t) s1))
 (or_else (then_ (p_selector s) (fun x s1 => Got (ANSelector x) s1))
          (then_ (p_element s) (fun e s1 => Got (ANElement e) s1)))).
End Nodes.

(** ast.rs:17-21; the fuel bounds the nesting. *)
Fixpoint p_node (fuel : nat) (s : pstate) : outcome a_node :=
  match fuel with
  | O => Starved
  | S fuel => then_ (p_ntype (p_node fuel) s) (fun t s1 => Got (ANode (p_at s) t (p_at s1)) s1)
  end.

(** ast.rs:45-48 [Document] *)
Definition p_document (src : str) : outcome a_content :=
  let s := skip_ws (mkP 0 [] src) in
  then_ (p_content (p_node (S (length src))) s) (fun c s1 =>
  let s2 := skip_ws s1 in match p_rest s2 with [] => Got c s2 | _ => Broken end).

(** ast.rs:53-55 [parse]; [failure]: the error for a source that is not parsed *)
Definition parser (failure : str -> parse_error) (src : str) : a_content + parse_error :=
  match p_document src with Got c _ => inl c | _ => inr (failure src) end.
End Parser.

(** * Building the document from the syntax tree: mintyml/src/document/*.rs.

    [BuildContext] (document/mod.rs:106-113) is the source, here through the
    slicing function [slc], and [&mut Errors], here the state of the monad [M].
    Vectors passed by [&mut] are returned: [out_nodes] as the list of nodes pushed,
    [nodes] as the nodes not yet read. *)

From Verif Require Import Base Escape Doc Ast Errors.

(** document/mod.rs:32-48 [item_type] *)
Definition item_type_of (n : node) : item_type :=
  match n with
  | NElt _ e =>
      match e_type e with
      | Paragraph => ITParagraph
      | Standard _ => ITElement
      | Inline _ => ITInlineElement
      | Special _ => ITInlineElement
      | Multiline _ => ITMultiline
      | Unknown => ITUnknown
      end
  | NTxt _ (TText _) => ITText
  | NTxt _ (TComment _) => ITComment
  | NTxt _ (TSpace _) => ITSpace
  end.

(** document/mod.rs:133-157 [unclosed], [invalid], [misplaced] *)
Definition unclosed (opening : lrange) (d : unclosed_kind) : M unit :=
  syntax [mkSyn opening (KUnclosed d)].
(* document/mod.rs:133-157 (as above) *)
Definition invalid (r : lrange) (i : item_type) : M unit :=
  syntax [mkSyn r (KInvalidItem i)].
(* document/mod.rs:133-157 (as above) *)
Definition misplaced (r : lrange) (k : misplaced_kind) : M unit :=
  syntax [mkSyn r (KMisplaced k)].

(** document/text.rs:230-269 [exact_space], [line_end], [paragraph_end] (they never
    fail) *)
Definition exact_space (r : lrange) : node := NTxt r (TSpace (SInline (Some (FromSource r)))).
(* document/text.rs:230-269 (as above) *)
Definition line_end (prev_end next_start : N) : node := NTxt (mkR prev_end next_start) (TSpace LineEnd).
(* document/text.rs:230-269 (as above) *)
Definition paragraph_end (prev_end next_start : N) : node :=
  NTxt (mkR prev_end next_start) (TSpace ParagraphEnd).

(** gramma: [Location] moved forward or back *)
Definition inset (r : lrange) (a b : N) : lrange := mkR (r_start r + a) (r_end r - b).

(** document/text.rs:149-187 [build_verbatim_node] *)
Definition build_verbatim (v : a_verbatim) : node :=
  let '(tail_range, hash_count) :=
    match av_tail v with
    | AVerbatim0 r => (r, 0)
    | AVerbatim1 r => (r, 1)
    | AVerbatim2 r => (r, 2)
    end in
  NTxt (combine (av_open v) tail_range)
       (TText (mkText (FromSource (inset tail_range (hash_count + 1) (hash_count + 3)))
                      false false (is_none (av_raw v)) false)).

(** document/text.rs:202-228 [build_comment_node] *)
Definition build_comment (c : a_comment) : M node :=
  (match ac_close c with None => unclosed (ac_open c) UComment | Some _ => ret tt end) ;*
  ret (NTxt (mkR (ac_start c) (ac_end c)) (TComment (FromSource (ac_inner c)))).

(** document/selectors.rs:133-163 [build_attribute] *)
Definition build_attribute (a : a_attr) : attribute :=
  mkAttr (mkR (aa_start a) (aa_end a)) (FromSource (aa_name a))
         (opt_map (fun ev : lrange * a_value =>
                     FromSource match snd ev with AUnquoted r => r | AQuoted r => inset r 1 1 end)
                  (aa_assign a)).

(** document/selectors.rs:165-182 [build_attribute_list] *)
Definition build_attribute_list (l : a_attrs) : M sel_item :=
  (match al_rbracket l with None => unclosed (al_lbracket l) UAttributeList | Some _ => ret tt end) ;*
  ret (SAttrs (mkR (al_start l) (al_end l)) (map build_attribute (al_parts l))).

(** document/selectors.rs:184-192 [build_tag] *)
Definition build_tag (e : option a_eltsel) : tag :=
  match e with
  | Some (AName r) => Explicit (FromSource r)
  | Some (AStar r) => Wildcard r
  | None => Implicit
  end.

(** document/selectors.rs:194-212 [build_class_like] *)
Definition build_class_like (c : a_classlike) : M (option sel_item) :=
  match c with
  | AClass dot ident => ret (Some (SClass dot (FromSource ident)))
  | AId hash ident => ret (Some (SId hash (FromSource ident)))
  | AInvalid r => invalid r ITSelector ;* ret None
  end.

(** document/selectors.rs:214-223 [extend_class_like] *)
Definition opt_list {A} (o : option A) : list A := match o with Some a => [a] | None => [] end.
(* document/selectors.rs:214-223 (as above) *)
Definition build_class_likes (l : list a_classlike) : M (list sel_item) :=
  let* items := mapM build_class_like l in ret (flat_map opt_list items).

(** document/selectors.rs:268-276: one segment. *)
Definition build_segment (s : a_segment) : M (list sel_item) :=
  match s with
  | ASegAttrs a => let* i := build_attribute_list a in ret [i]
  | ASegClass cl => build_class_likes cl
  end.

(** document/selectors.rs:225-281 [build_selector] *)
Definition build_selector (s : a_selector) : M selector :=
  let* (tg, items) :=
    match as_first s with
    | AStartTag e cl => let* items := build_class_likes cl in ret (build_tag e, items)
    | AStartAttrs a => let* i := build_attribute_list a in ret (Implicit, [i])
    end in
  let* more := mapM build_segment (as_segments s) in
  ret (mkSel (mkR (as_start s) (as_end s)) tg (items ++ concat more)).

(** document/line.rs:311-346 [validate_line] *)
Definition stands_alone (i : item_type) : bool :=
  match i with ITElement | ITMultiline => true | _ => false end.
(* document/line.rs:311-346 (as above) *)
Fixpoint validate_from (last : option (item_type * lrange)) (nodes : list node) : M unit :=
  match nodes with
  | [] => ret tt
  | n :: rest =>
      let ty := item_type_of n in
      match ty with
      | ITComment | ITSpace => validate_from last rest
      | _ =>
          (match last with
           | None => ret tt
           | Some (lt, lr) =>
               if stands_alone lt then misplaced lr (MustNotPrecede lt [ty])
               else if stands_alone ty then misplaced (n_range n) (MustNotFollow [lt] ty)
               else ret tt
           end) ;*
          validate_from (Some (ty, n_range n)) rest
      end
  end.
(* document/line.rs:311-346 (as above) *)
Definition validate_line (nodes : list node) : M unit := validate_from None nodes.

(** document/mod.rs:203-248 [append_to_previous_node_if_applicable]; it never fails.
    [out] is [out_nodes], last node first.  Returns the new [out_nodes] and what is
    left of [line]. *)
Definition append_to_previous (out line : list node) (range : lrange) (last_end : N)
    : list node * list node :=
  match out with
  | NElt r e :: before =>
      match e_type e with
      | Standard (DLine _) | Paragraph =>
          let e' := with_range (with_nodes e (e_nodes e ++ line_end last_end (r_start range) :: line))
                               (mkR (r_start (e_range e)) (r_end range)) in
          (NElt (mkR (r_start r) (r_end range)) e' :: before, [])
      | _ => (out, line)
      end
  | _ => (out, line)
  end.

(** document/line.rs:26-41: the first visible node is an element that forms a line of
    its own. *)
Definition starts_with_element (line : list node) : bool :=
  match find is_visible line with
  | Some (NElt _ e) =>
      match e_type e with Standard _ | Multiline MLCode => true | _ => false end
  | _ => false
  end.

(** document/line.rs:18-71 [add_line]; it never fails.  [out]: last node first. *)
Definition add_line (out line : list node) (range : lrange) (last_end : N) (paragraphs : bool)
    : list node :=
  let swe := starts_with_element line in
  let visible := existsb is_visible line in
  let '(out, line) := if swe then (out, line) else append_to_previous out line range last_end in
  match line with
  | [] => out
  | _ =>
      let out := if existsb is_visible out then paragraph_end last_end (r_start range) :: out else out in
      if paragraphs && negb swe && visible
      then elt_node (with_content (new_elt range Paragraph) range line) :: out
      else rev line ++ out
  end.

(** document/elements.rs:284-297: if the first visible node is a standard element, it
    becomes the inline element. *)
Fixpoint inline_first (range : lrange) (line : list node) : option (list node) :=
  match line with
  | [] => None
  | n :: rest =>
      if is_visible n then
        match n with
        | NElt _ e =>
            match e_type e with
            | Standard d => Some (NElt range (with_range (with_type e (Inline (Some d))) range) :: rest)
            | _ => None
            end
        | NTxt _ _ => None
        end
      else opt_map (cons n) (inline_first range rest)
  end.

(** document/elements.rs:245-252 *)
Definition special_kind_of (k : a_skind) : special_kind :=
  match k with
  | AEmphasis => Emphasis | AStrong => Strong | AUnderline => Underline
  | AStrike => Strike | AQuote => Quote
  end.

Section Build.
Variable slc : lrange -> str.

(** document/mod.rs:117-132 [slice], [escapable_slice], with error.rs:118-125 *)
Definition escapable_slice (r : lrange) (escape : bool) : M tslice :=
  (if escape
   then syntax (map (fun x => mkSyn x KInvalidEscape) (escape_errors (slc r) (r_start r)))
   else ret tt) ;*
  ret (FromSource r).

(** document/text.rs:125-147 [build_text_node] *)
Definition build_text_node (r : lrange) (unescape_in escape_out raw multiline : bool) : M node :=
  let* s := escapable_slice r unescape_in in
  ret (NTxt r (TText (mkText s multiline unescape_in escape_out raw))).

(** document/text.rs:189-200 [build_inline_text] *)
Definition build_inline_text (t : a_text) : M node :=
  match t with
  | ASegment r => build_text_node r true true false false
  | AVerbatim v => ret (build_verbatim v)
  | AComment c => build_comment c
  | AInterpolation r => build_text_node r false false true false
  end.

(** document/elements.rs:363-405 [build_multiline] *)
Definition build_multiline (range : lrange) (m : a_multiline) : M node :=
  let inner := mkR (am_start m) (am_end m) in
  let unescape_in := match am_kind m with MLEscaped => true | MLUnescaped | MLCode => false end in
  let* t := build_text_node inner unescape_in true false true in
  ret (elt_node (with_content (new_elt range (Multiline (am_kind m))) inner [t])).

(** The recursive functions, with a bound [f] on the depth of calls. *)

(** document/mod.rs:160-201 [build_content]; [build_lines] is its loop, with
    [out_nodes] last node first. *)
Fixpoint build_content (f : nat) (c : a_content) (paragraphs : bool) {struct f} : M (list node) :=
  match f with
  | O => out_of_fuel
  | S f => let* out := build_lines f (ct_lines c) (ct_start c) [] paragraphs in ret (rev out)
  end

(* document/mod.rs:160-201 (as above) *)
with build_lines (f : nat) (lines : list a_line) (last_end : N) (out : list node) (paragraphs : bool)
    {struct f} : M (list node) :=
  match f with
  | O => out_of_fuel
  | S f =>
      match lines with
      | [] => ret out
      | l :: rest =>
          let* out' :=
            match ln_nodes l with
            | [] => ret (paragraph_end last_end (ln_end l) :: out)
            | nodes =>
                let* (_, line) := build_line f nodes in
                ret (add_line out line (mkR (ln_start l) (ln_end l)) last_end paragraphs)
            end in
          build_lines f rest (ln_end l) out' paragraphs
      end
  end

(** document/line.rs:348-357 [build_line] *)
with build_line (f : nat) (nodes : list a_item) {struct f} : M (list a_item * list node) :=
  match f with
  | O => out_of_fuel
  | S f =>
      let* (rest, out) := extend_line f nodes in
      validate_line out ;*
      ret (rest, out)
  end

(** document/line.rs:257-309 [extend_line] *)
with extend_line (f : nat) (nodes : list a_item) {struct f} : M (list a_item * list node) :=
  match f with
  | O => out_of_fuel
  | S f =>
      match nodes with
      | [] => ret ([], [])
      | (space, ANode start ty end_) :: rest =>
          let sp := match space with Some r => [exact_space r] | None => [] end in
          let node_range := mkR start end_ in
          match ty with
          | ANElement (ALineElt _) =>
              let* (rest', out) := post_child f node_range rest [sel_empty start] node_range in
              ret (rest', sp ++ out)
          | _ =>
              let* (rest', out) :=
                match ty with
                | ANText t => let* n := build_inline_text t in ret (rest, [n])
                | ANSelector s =>
                    let* sel := build_selector s in
                    post_selector f node_range rest [sel] node_range
                | ANElement e => let* out := build_element f node_range e in ret (rest, out)
                | ANMultiline m => let* n := build_multiline node_range m in ret (rest, [n])
                end in
              let* (rest'', out') := extend_line f rest' in
              ret (rest'', sp ++ out ++ out')
          end
      end
  end

(** document/line.rs:74-173 [post_child_combinator] *)
with post_child (f : nat) (prefix : lrange) (nodes : list a_item) (sels : list selector) (last : lrange)
    {struct f} : M (list a_item * list node) :=
  match f with
  | O => out_of_fuel
  | S f =>
      let fallback :=
        let* (rest, children) := build_line f nodes in
        let range := match rev children with n :: _ => combine prefix (n_range n) | [] => prefix end in
        ret (rest, [elt_node (mkElt range sels (mkR (r_end prefix) (r_end range)) children
                                    (Standard (DLine last)) false false)]) in
      match nodes with
      | (_, ANode start ty end_) :: rest =>
          let node_range := mkR start end_ in
          let prefix' := mkR (r_start prefix) end_ in
          match ty with
          | ANSelector s =>
              let* sel := build_selector s in
              post_selector f prefix' rest (sels ++ [sel]) node_range
          | ANElement (ABlockElt b) =>
              let* e := build_block f node_range b false in
              ret (rest, [elt_node (with_type (with_selectors e sels) (Standard (DLineBlock last node_range)))])
          | ANElement (ALineElt combinator) =>
              post_child f prefix' rest (sels ++ [sel_empty start]) combinator
          | _ => fallback
          end
      | [] => fallback
      end
  end

(** document/line.rs:176-255 [post_selector] *)
with post_selector (f : nat) (prefix : lrange) (nodes : list a_item) (sels : list selector) (last : lrange)
    {struct f} : M (list a_item * list node) :=
  match f with
  | O => out_of_fuel
  | S f =>
      match nodes with
      | [] => ret (nodes, [])
      | (_, ANode start ty end_) :: rest =>
          let prefix' := mkR (r_start prefix) end_ in
          match ty with
          | ANSelector s =>
              misplaced (mkR (as_start s) (as_end s)) (MustNotFollow [ITSelector] ITSelector) ;*
              ret (nodes, [])
          | ANText (AComment c) =>
              let* n := build_comment c in
              let* (rest', out) := post_selector f prefix' rest sels last in
              ret (rest', n :: out)
          | ANElement (ALineElt combinator) => post_child f prefix' rest sels combinator
          | ANElement (ABlockElt b) =>
              let* e := build_block f prefix' b true in
              ret (rest, [elt_node (with_selectors e sels)])
          | _ =>
              misplaced (mkR start end_) (MustPrecede ITSelector [ITElement]) ;*
              ret (nodes, [])
          end
      end
  end

(** document/elements.rs:314-331 [build_block] *)
with build_block (f : nat) (range : lrange) (b : a_block) (paragraphs : bool) {struct f} : M element :=
  match f with
  | O => out_of_fuel
  | S f =>
      (match bk_rbrace b with None => unclosed (bk_lbrace b) UBlock | Some _ => ret tt end) ;*
      let* ns := build_content f (bk_content b) paragraphs in
      ret (with_content (new_elt range (Standard (DBlock range)))
                        (mkR (ct_start (bk_content b)) (ct_end (bk_content b))) ns)
  end

(** document/elements.rs:265-312 [build_inline]; the second [validate_line] is in the
    code. *)
with build_inline (f : nat) (range : lrange) (i : a_inline) {struct f} : M (list node) :=
  match f with
  | O => out_of_fuel
  | S f =>
      let inner_range := mkR (r_end (in_open i))
                             (match in_close i with Some c => r_start c | None => r_end range end) in
      (match in_close i with None => unclosed (in_open i) UInline | Some _ => ret tt end) ;*
      let* (_, line) := build_line f (in_inner i) in
      validate_line line ;*
      ret (match inline_first range line with
           | Some line' => line'
           | None => [elt_node (with_content (new_elt range (Inline None)) inner_range line)]
           end)
  end

(** document/elements.rs:218-263 [build_inline_special] *)
with build_special (f : nat) (range : lrange) (s : a_special) {struct f} : M element :=
  match f with
  | O => out_of_fuel
  | S f =>
      match s with
      | ACode code =>
          let r := inset code 2 2 in
          let* t := build_text_node r false true false false in
          ret (with_content (new_elt range (Special Code)) (n_range t) [t])
      | ASpecial k open inner close =>
          (match close with None => unclosed open (USpecial (special_kind_of k)) | Some _ => ret tt end) ;*
          let* ns := build_content f inner false in
          ret (with_content (new_elt range (Special (special_kind_of k))) (mkR (ct_start inner) (ct_end inner)) ns)
      end
  end

(** document/elements.rs:333-361 [build_element] *)
with build_element (f : nat) (range : lrange) (e : a_element) {struct f} : M (list node) :=
  match f with
  | O => out_of_fuel
  | S f =>
      match e with
      | ALineElt combinator =>
          ret [elt_node (with_content (new_elt range (Standard (DLine combinator)))
                                      (mkR (r_end range) (r_end range)) [])]
      | ABlockElt b => let* e := build_block f range b true in ret [elt_node e]
      | AInlineElt i => build_inline f range i
      | ASpecialElt s => let* e := build_special f range s in ret [elt_node e]
      end
  end.

(** Enough fuel for a content (proved in P_Build.v). *)
(* plumbing of the model, stands for no code *)
Definition build_fuel (c : a_content) : nat := 4 + 4 * lines_size a_size (ct_lines c).

(** document/mod.rs:259-276 [from_ast], the document's content (its range is not used
    after this). *)
Definition from_ast (c : a_content) : M (list node) := build_content (build_fuel c) c true.
End Build.

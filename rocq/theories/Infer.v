(** * Tag inference: mintyml/src/inference/**.

    The predicate and definition traits (engine/mod.rs:24-206) are embedded as
    functions and lists: a predicate is a function of its context with result
    [Some b] for [Ok(b)] and [None] for [Err(Incomplete)]; a definition is the list
    of its (predicate, value) pairs. Closures of type [TagFn] are represented by
    the tag they apply. *)

From Verif Require Import Base Doc.

(** engine/mod.rs:322-327 [InferencePredicateContext] (without [src]). *)
Inductive ictx := ICtx (nodes : list node) (index : nat) (parent : option ictx).
(* field of engine/mod.rs:322-327 *)
Definition cx_nodes (c : ictx) : list node := let (ns, _, _) := c in ns.
(* field of engine/mod.rs:322-327 *)
Definition cx_index (c : ictx) : nat := let (_, i, _) := c in i.
(* field of engine/mod.rs:322-327 *)
Definition cx_parent (c : ictx) : option ictx := let (_, _, p) := c in p.

(** engine/mod.rs:376-386 [InferencePredicate], [TestResult] *)
Definition pred := ictx -> option bool.

(** engine/mod.rs:329-354 [match_this_node], [match_this_element] at type [bool]. *)
Definition match_this_node (f : node -> option bool) (c : ictx) : option bool :=
  match nth_error (cx_nodes c) (cx_index c) with Some n => f n | None => Some false end.
(* engine/mod.rs:329-354 (as above) *)
Definition match_this_element (f : element -> option bool) : pred :=
  match_this_node (fun n => match n with NElt _ e => f e | NTxt _ _ => Some false end).

(** when.rs:80-85 [element_where] *)
Definition element_where (f : element -> bool) : pred := match_this_element (fun e => Some (f e)).

(** when.rs:91-93 [paragraph] *)
Definition w_paragraph : pred :=
  element_where (fun e => match e_type e with Paragraph => true | _ => false end).

(** when.rs:99-111 [line] *)
Definition w_line : pred :=
  element_where (fun e => match e_type e with
    | Standard (DLine _) | Standard (DLineBlock _ _)
    | Inline (Some (DLine _)) | Inline (Some (DLineBlock _ _)) | Inline None => true
    | _ => false
    end).

(** when.rs:113-122 [block] *)
Definition w_block : pred :=
  element_where (fun e => match e_type e with Standard (DBlock _) => true | _ => false end).

(** when.rs:151-153 [any] *)
Definition w_any : pred := fun _ => Some true.

(** when.rs:155-159 [child_of] *)
Definition w_child_of (p : pred) : pred := fun c =>
  Some match cx_parent c with
       | Some c' => match p c' with Some b => b | None => false end
       | None => false
       end.

(** when.rs:184-203 the loop of [before], [after]: [Ok(true)] as soon as some index
    satisfies the predicate; otherwise incomplete if some index was incomplete. *)
Fixpoint w_some (p : nat -> option bool) (is : list nat) (out : option bool) : option bool :=
  match is with
  | [] => out
  | i :: is' =>
      match p i with
      | Some true => Some true
      | res => w_some p is' (match out with Some _ => res | None => None end)
      end
  end.
(* when.rs:184-203 (as above) *)
Definition at_index (c : ictx) (i : nat) : ictx := ICtx (cx_nodes c) i (cx_parent c).
(** when.rs:220-221 [before], [after] *)
Definition w_before (p : pred) : pred := fun c =>
  w_some (fun i => p (at_index c i))
         (seq (S (cx_index c)) (length (cx_nodes c) - S (cx_index c))) (Some false).
(* when.rs:220-221 (as above) *)
Definition w_after (p : pred) : pred := fun c =>
  w_some (fun i => p (at_index c i)) (seq 0 (cx_index c)) (Some false).

(** ops.rs:63-102 [&], [|] and [!] on predicates *)
Definition res_and (a b : option bool) : option bool := match a with Some _ => b | None => None end.
(* ops.rs:63-102 (as above) *)
Definition w_and (p q : pred) : pred := fun c =>
  match p c with
  | Some false => Some false
  | r1 => match q c with Some false => Some false | r2 => res_and r1 r2 end
  end.
(* ops.rs:63-102 (as above) *)
Definition w_or (p q : pred) : pred := fun c =>
  match p c with
  | Some true => Some true
  | r1 => match q c with Some true => Some true | r2 => res_and r1 r2 end
  end.
(* ops.rs:63-102 (as above) *)
Definition w_not (p : pred) : pred := fun c => option_map negb (p c).

(** when.rs:161-167 [first], [last] *)
Definition w_first : pred := w_not (w_after w_any).
(* when.rs:161-167 (as above) *)
Definition w_last : pred := w_not (w_before w_any).

(** engine/mod.rs:165-178 [InferTest::test] of a list of pairs: [inl r] is [Ok(r)],
    [inr i] is [Err(i)]. *)
Fixpoint test_defs {A} (defs : list (pred * A)) (c : ictx) (index start : nat) : option A + nat :=
  match defs with
  | [] => inl None
  | (p, a) :: rest =>
      if (start <=? index)%nat then
        match p c with
        | None => inr index
        | Some true => inl (Some a)
        | Some false => test_defs rest c (S index) start
        end
      else test_defs rest c (S index) start
  end.

(** The inference methods of definitions/*.rs. *)
(* definitions/mod.rs:62-110, specialty.rs, table.rs: the types that implement [Infer] *)
Inductive meth :=
| MStandard | MPhrasing | MRaw
| MRoot | MList | MDescriptionList | MOptGroup | MSelect | MMap | MDetails | MLabel
| MFieldSet | MPicture
| MTable | MRow | MColGroup.

(** engine/mod.rs:88-90, 116-118 [default] *)
Definition w_default : pred := w_or (w_or w_line w_block) w_paragraph.

Section Infer.
Variable slc : lrange -> str.

(** when.rs:134-149 [tag_where] *)
Definition tag_where (f : str -> bool) : pred :=
  match_this_element (fun e =>
    match e_selectors e with
    | [] => Some false
    | s :: _ => match s_tag s with Explicit v => Some (f (as_str slc v)) | _ => None end
    end).
(** when.rs:124-132 [tag], [tag_in] *)
Definition w_tag (t : str) : pred := tag_where (fun s => str_eqb s t).
(* when.rs:124-132 (as above) *)
Definition w_tag_in (ts : list str) : pred := tag_where (fun s => existsb (fun t => str_eqb s t) ts).

(** definitions/mod.rs:6-30 *)
Definition contains_phrasing (t : str) : bool :=
  existsb (str_eqb t) [L "p"; L "h1"; L "h2"; L "h3"; L "h4"; L "h5"; L "h6"; L "span"; L "b"; L "i";
    L "q"; L "s"; L "u"; L "button"; L "caption"; L "cite"; L "code"; L "data"; L "dfn"; L "dt";
    L "em"; L "kbd"; L "legend"; L "mark"; L "meter"; L "option"; L "output"; L "pre"; L "progress";
    L "samp"; L "small"; L "strong"; L "sub"; L "summary"; L "sup"; L "textarea"; L "time"; L "var"].
(* definitions/mod.rs:6-30 (as above) *)
Definition contains_blocks (t : str) : bool :=
  existsb (str_eqb t) [L "div"; L "section"; L "article"; L "header"; L "footer"; L "main"; L "hgroup";
    L "body"; L "dialog"; L "nav"; L "aside"; L "template"; L "figure"; L "blockquote"].
(* definitions/mod.rs:6-30 (as above) *)
Definition infer_is_void (t : str) : bool :=
  existsb (str_eqb t) [L "area"; L "base"; L "br"; L "col"; L "embed"; L "hr"; L "img"; L "input";
    L "link"; L "meta"; L "param"; L "source"; L "track"; L "wbr"].

(** definitions/mod.rs:32-59 [common_methods] *)
Definition common_methods : list (pred * meth) :=
  [(w_or (tag_where contains_phrasing) (tag_where infer_is_void), MPhrasing);
   (w_tag (L "html"), MRoot);
   (tag_where contains_blocks, MStandard);
   (w_tag_in [L "ul"; L "ol"; L "menu"], MList);
   (w_tag_in [L "table"; L "thead"; L "tbody"; L "tfoot"], MTable);
   (w_tag_in [L "tr"], MRow);
   (w_tag_in [L "colgroup"], MColGroup);
   (w_tag (L "dl"), MDescriptionList);
   (w_tag_in [L "optgroup"; L "datalist"], MOptGroup);
   (w_tag (L "select"), MSelect);
   (w_tag (L "map"), MMap);
   (w_tag (L "details"), MDetails);
   (w_tag (L "label"), MLabel);
   (w_tag (L "fieldset"), MFieldSet);
   (w_tag (L "picture"), MPicture);
   (w_tag_in [L "style"; L "script"], MRaw)].

(** definitions/mod.rs:66-68 [StandardInfer::define_tags] *)
Definition standard_tags : list (pred * str) :=
  [(w_or w_line w_paragraph, L "p"); (w_default, L "div")].

(** [define_tags]: definitions/mod.rs:66-68, 83-85, 104-106; specialty.rs:10-15,
    23-25, 33-35, 43-45, 53-55, 63-65, 73-77, 85-89, 97-101, 109-113; table.rs:8-10,
    18-22, 30-32. *)
Definition define_tags (m : meth) : list (pred * str) :=
  match m with
  | MStandard | MRaw => standard_tags
  | MPhrasing => [(w_paragraph, []); (w_default, L "span")]
  | MRoot => [(w_and w_first w_paragraph, L "title"); (w_first, L "head"); (w_default, L "body")]
  | MList => [(w_default, L "li")]
  | MDescriptionList => [(w_line, L "dt"); (w_default, L "dd")]
  | MOptGroup => [(w_default, L "option")]
  | MSelect => [(w_block, L "optgroup"); (w_default, L "option")]
  | MMap => [(w_default, L "area")]
  | MDetails => (w_first, L "summary") :: standard_tags
  | MLabel => (w_line, L "input") :: standard_tags
  | MFieldSet => (w_and w_first w_paragraph, L "legend") :: standard_tags
  | MPicture => [(w_and w_line w_last, L "img"); (w_line, L "source")]
  | MTable => [(w_default, L "tr")]
  | MRow => [(w_child_of (w_child_of (w_tag (L "thead"))), L "th"); (w_default, L "td")]
  | MColGroup => [(w_default, L "col")]
  end.

(** [define_methods]: definitions/mod.rs:70-75 (also the default, engine/mod.rs:210-212)
    and 87-96 *)
Definition define_methods (m : meth) : list (pred * meth) :=
  match m with
  | MPhrasing =>
      common_methods ++
      [(w_or (tag_where contains_phrasing) (tag_where contains_blocks), MPhrasing);
       (w_block, MStandard); (w_default, MPhrasing)]
  | _ => common_methods ++ [(w_or w_line w_paragraph, MPhrasing); (w_default, MStandard)]
  end.

(** engine/mod.rs:214-216, definitions/mod.rs:107-109 [root_is_raw] *)
Definition root_is_raw (m : meth) : bool := match m with MRaw => true | _ => false end.

(* assignment to an element, [nodes[i] = ..], engine/mod.rs:400-444 *)
Fixpoint set_nth {A} (i : nat) (x : A) (l : list A) : list A :=
  match l, i with
  | [], _ => []
  | _ :: r, O => x :: r
  | y :: r, S j => y :: set_nth j x r
  end.

(** engine/mod.rs:409-420: the name of the element's first selector. *)
Definition has_tag (n : node) : bool :=
  match n with
  | NElt _ e => match e_selectors e with
                | s :: _ => match tag_name (s_tag s) with Some _ => true | None => false end
                | [] => false
                end
  | NTxt _ _ => false
  end.

(** [TagFn] applied to a node (engine/mod.rs:84, 432-436). *)
Definition apply_tag_fn (t : str) (n : node) : node :=
  match n with
  | NElt r e => NElt r (apply_tags e [Provided t])
  | NTxt _ _ => n
  end.

(** engine/mod.rs:388-390: [None] is a resolved state, [Some i] is [Err(i)]. *)
Definition istates := list (option nat).

(** engine/mod.rs:400-444 [infer_tag_node]; the boolean is the result. *)
Definition infer_tag_node (defs : list (pred * str)) (parent : option ictx) (index : nat)
    (nodes : list node) (states : istates) : list node * istates * bool :=
  match nth_error states index with
  | Some (Some start) =>
      match nth_error nodes index with
      | Some n =>
          if has_tag n then (nodes, set_nth index None states, true)
          else match test_defs defs (ICtx nodes index parent) 0 start with
               | inl (Some t) => (set_nth index (apply_tag_fn t n) nodes, set_nth index None states, true)
               | inl None => (nodes, set_nth index None states, true)
               | inr i => (nodes, set_nth index (Some i) states, false)
               end
      | None => (nodes, states, false)
      end
  | _ => (nodes, states, false)
  end.

(** One pass over the indices (engine/mod.rs:453-457): the new nodes and states and
    the number resolved. *)
Fixpoint infer_pass (defs : list (pred * str)) (parent : option ictx) (is : list nat)
    (nodes : list node) (states : istates) : list node * istates * nat :=
  match is with
  | [] => (nodes, states, 0%nat)
  | i :: is' =>
      let '(nodes, states, ok) := infer_tag_node defs parent i nodes states in
      let '(nodes, states, k) := infer_pass defs parent is' nodes states in
      (nodes, states, ((if ok then 1 else 0) + k)%nat)
  end.

(** engine/mod.rs:446-468 [infer_tag_nodes]. [None]: out of fuel. The initial
    direction is forward: [InferWhen] (when.rs:13-17) does not forward
    [direction_precedence], so it is always zero. *)
Fixpoint infer_loop (fuel : nat) (defs : list (pred * str)) (parent : option ictx) (reverse : bool)
    (total : nat) (nodes : list node) (states : istates) : option (list node) :=
  match fuel with
  | O => None
  | S fuel =>
      let indices := seq 0 (length nodes) in
      let '(nodes, states, k) :=
        infer_pass defs parent (if reverse then rev indices else indices) nodes states in
      if ((total + k =? length nodes) || (k =? 0))%nat then Some nodes
      else infer_loop fuel defs parent (negb reverse) (total + k) nodes states
  end.
(* engine/mod.rs:446-468, when.rs:13-17 (as above) *)
Definition infer_tag_nodes (defs : list (pred * str)) (parent : option ictx) (nodes : list node)
    : option (list node) :=
  infer_loop (S (length nodes)) defs parent false 0 nodes (repeat (Some 0%nat) (length nodes)).

(** engine/mod.rs:512-524: the first method whose predicate holds; incomplete
    predicates are skipped. The restarted search ([Err(i)], [index = i + 1]) is the
    loop below; the list of definitions bounds the number of restarts. [None]: out of
    fuel. *)
Fixpoint find_method_loop (fuel : nat) (defs : list (pred * meth)) (c : ictx) (index : nat)
    : option meth :=
  match fuel with
  | O => None
  | S fuel =>
      match test_defs defs c 0 index with
      | inl (Some m) => Some m
      | inl None => Some MStandard
      | inr i => find_method_loop fuel defs c (S i)
      end
  end.
(* engine/mod.rs:512-524 (as above) *)
Definition find_method (defs : list (pred * meth)) (c : ictx) : option meth :=
  find_method_loop (S (length defs)) defs c 0.

(** engine/mod.rs:537-543 *)
Definition put_back (e : element) (ns : list node) (raw : bool) : element :=
  with_raw (with_nodes e ns) (e_raw e || raw).

(** engine/mod.rs:481-483, 500-544: [inference_level] for each node in order. [done]
    are the nodes before the current one, already processed. [rec m parent nodes] is
    [DynInfer::infer] of method [m]. *)
Fixpoint levels (rec : meth -> option ictx -> list node -> option (list node))
    (defs : list (pred * meth)) (parent : option ictx) (done rest : list node) : option (list node) :=
  match rest with
  | [] => Some done
  | NTxt r t :: rest' => levels rec defs parent (done ++ [NTxt r t]) rest'
  | NElt r e :: rest' =>
      let e1 := split_first e in
      let cx := ICtx (done ++ NElt r (with_nodes e1 []) :: rest') (length done) parent in
      match find_method defs cx with
      | Some m =>
          match rec m (Some cx) (e_nodes e1) with
          | Some ns => levels rec defs parent (done ++ [NElt r (put_back e1 ns (root_is_raw m))]) rest'
          | None => None
          end
      | None => None
      end
  end.

(** engine/mod.rs:224-227, 470-484 [use_method]. [None]: out of fuel. *)
Fixpoint use_method (fuel : nat) (m : meth) (parent : option ictx) (nodes : list node)
    : option (list node) :=
  match fuel with
  | O => None
  | S fuel =>
      match infer_tag_nodes (define_tags m) parent nodes with
      | Some nodes => levels (use_method fuel) (define_methods m) parent [] nodes
      | None => None
      end
  end.

(** Bound on the depth of recursion: nesting depth counting the selectors. *)
(* plumbing of the model, stands for no code *)
Fixpoint infer_depth (n : node) : nat :=
  match n with
  | NElt _ e => (S (length (e_selectors e)) + list_max (map infer_depth (e_nodes e)))%nat
  | NTxt _ _ => 0
  end.

(** engine/mod.rs:547-554 [infer] *)
Definition infer (nodes : list node) : option (list node) :=
  use_method (S (list_max (map infer_depth nodes))) MStandard None nodes.

End Infer.

(** * The document tree: types of mintyml/src/document/*.rs and the [Element]
      and [Selector] methods used by the transforms and the writer. *)

From Verif Require Import Base.

(** document/text.rs:8-15 [TextSlice] *)
Inductive tslice := FromSource (r : lrange) | Provided (v : str).

(** document/text.rs:60-67 [TextSlice::is_empty] *)
Definition slice_is_empty (t : tslice) : bool :=
  match t with
  | FromSource r => r_end r <=? r_start r
  | Provided v => str_empty v
  end.

(** document/text.rs:17-24 [TextSlice::as_str].  [slc] stands for
    [|r| r.slice(src)] (gramma's [LocationRange::slice] on the source text), a
    parameter of everything that reads source text. *)
Definition as_str (slc : lrange -> str) (t : tslice) : str :=
  match t with
  | FromSource r => slc r
  | Provided v => v
  end.

(** document/text.rs:75-83 [Text] *)
Record text := mkText {
  t_slice : tslice;
  t_multiline : bool;
  t_unescape_in : bool;
  t_escape_out : bool;
  t_raw : bool;
}.

(** document/text.rs:101-115 [Space] *)
Inductive space := LineEnd | ParagraphEnd | SInline (s : option tslice).

(** document/text.rs:85-93 [TextLike], with 117-121 [Comment::Tag] inlined. *)
Inductive textlike := TText (t : text) | TComment (s : tslice) | TSpace (s : space).

(** document/selectors.rs:75-83 [Tag] *)
Inductive tag := Explicit (v : tslice) | Implicit | Wildcard (r : lrange).

(** document/selectors.rs:126-131 [Attribute] *)
Record attribute := mkAttr {
  a_range : lrange;
  a_name : tslice;
  a_value : option tslice;
}.

(** document/selectors.rs:106-124 [SelectorItem] *)
Inductive sel_item :=
| SId (hash : lrange) (v : tslice)
| SClass (dot : lrange) (v : tslice)
| SAttrs (r : lrange) (attrs : list attribute).

(** document/selectors.rs:13-19 [Selector] *)
Record selector := mkSel {
  s_range : lrange;
  s_tag : tag;
  s_items : list sel_item;
}.

(** document/selectors.rs:22-27 [uninferred] *)
Definition uninferred (s : selector) : bool :=
  match s_tag s with Explicit _ => false | Implicit | Wildcard _ => true end.

(** document/selectors.rs:85-92 [Tag::name] *)
Definition tag_name (t : tag) : option tslice :=
  match t with Explicit v => Some v | _ => None end.

(** document/selectors.rs:29-34 [class_names] *)
Fixpoint class_names_of (items : list sel_item) : list tslice :=
  match items with
  | [] => []
  | SClass _ v :: rest => v :: class_names_of rest
  | _ :: rest => class_names_of rest
  end.
(* document/selectors.rs:29-34 (as above) *)
Definition class_names (s : selector) : list tslice := class_names_of (s_items s).

(** document/selectors.rs:36-41 [id]: the first id. *)
Fixpoint id_of (items : list sel_item) : option tslice :=
  match items with
  | [] => None
  | SId _ v :: _ => Some v
  | _ :: rest => id_of rest
  end.
(* document/selectors.rs:36-41 (as above) *)
Definition sel_id (s : selector) : option tslice := id_of (s_items s).

(** document/selectors.rs:43-53 [attributes] *)
Definition attributes (s : selector) : list (tslice * option tslice) :=
  flat_map (fun item => match item with
                        | SAttrs _ attrs => map (fun a => (a_name a, a_value a)) attrs
                        | _ => []
                        end) (s_items s).

(** document/selectors.rs:57-65 [Selector::empty] *)
Definition sel_empty (loc : N) : selector := mkSel (mkR loc loc) Implicit [].

(** document/selectors.rs:67-72 [Selector::with_tag] *)
Definition sel_with_tag (s : selector) (t : tslice) : selector :=
  mkSel (s_range s) (Explicit t) (s_items s).

(** document/elements.rs:18-29 [ElementDelimiter] *)
Inductive delimiter :=
| DLine (combinator : lrange)
| DBlock (block : lrange)
| DLineBlock (combinator block : lrange).

(** document/elements.rs:161-185 [SpecialKind] *)
Inductive special_kind :=
| Emphasis | Strong | Underline | Strike | Quote | Code | CodeBlockContainer.

(** document/elements.rs:187-201 [MultilineKind] *)
Inductive ml_kind := MLEscaped | MLUnescaped | MLCode.

(** document/elements.rs:31-46 [ElementType] *)
Inductive element_type :=
| Paragraph
| Standard (d : delimiter)
| Inline (d : option delimiter)
| Special (k : special_kind)
| Multiline (k : ml_kind)
| Unknown.

(** document/elements.rs:60-68 [Element], with its [Content] (document/mod.rs:91-94)
    split into [e_crange] and [e_nodes]. *)
Record element_ (A : Type) := mkElt {
  e_range : lrange;
  e_selectors : list selector;
  e_crange : lrange;
  e_nodes : list A;
  e_type : element_type;
  e_format_inline : bool;
  e_raw : bool;
}.
Arguments mkElt {A}.
Arguments e_range {A}. Arguments e_selectors {A}. Arguments e_crange {A}.
Arguments e_nodes {A}. Arguments e_type {A}. Arguments e_format_inline {A}.
Arguments e_raw {A}.

(** document/mod.rs:25-29 [Node] and 83-89 [NodeType] *)
Inductive node :=
| NElt (r : lrange) (e : element_ node)
| NTxt (r : lrange) (t : textlike).
Notation element := (element_ node).

(** document/mod.rs:251-255 [Document] *)
Record document := mkDoc { d_range : lrange; d_crange : lrange; d_nodes : list node }.

(* field [range] of document/mod.rs:25-29 *)
Definition n_range (n : node) : lrange := match n with NElt r _ | NTxt r _ => r end.

(** gramma [LocationRange::combine]: the smallest range containing both
    (assumption recorded in DESIGN.md). *)
Definition combine (a b : lrange) : lrange :=
  mkR (N.min (r_start a) (r_start b)) (N.max (r_end a) (r_end b)).

(** document/elements.rs:203-210 [From<Element> for Node] *)
Definition elt_node (e : element) : node := NElt (e_range e) e.

(** document/elements.rs:70-82 [Element::new] *)
Definition new_elt (r : lrange) (t : element_type) : element :=
  mkElt r [] r [] t false false.

(** Field updates ([Element { field, ..e }]). *)
(* field update of document/elements.rs:60-68 *)
Definition with_selectors (e : element) (s : list selector) : element :=
  mkElt (e_range e) s (e_crange e) (e_nodes e) (e_type e) (e_format_inline e) (e_raw e).
(* field update of document/elements.rs:60-68 *)
Definition with_content (e : element) (cr : lrange) (ns : list node) : element :=
  mkElt (e_range e) (e_selectors e) cr ns (e_type e) (e_format_inline e) (e_raw e).
(* field update of document/elements.rs:60-68 *)
Definition with_nodes (e : element) (ns : list node) : element :=
  with_content e (e_crange e) ns.
(* field update of document/elements.rs:60-68 *)
Definition with_type (e : element) (t : element_type) : element :=
  mkElt (e_range e) (e_selectors e) (e_crange e) (e_nodes e) t (e_format_inline e) (e_raw e).
(* field update of document/elements.rs:60-68 *)
Definition with_range (e : element) (r : lrange) : element :=
  mkElt r (e_selectors e) (e_crange e) (e_nodes e) (e_type e) (e_format_inline e) (e_raw e).
(* field update of document/elements.rs:60-68 *)
Definition with_raw (e : element) (b : bool) : element :=
  mkElt (e_range e) (e_selectors e) (e_crange e) (e_nodes e) (e_type e) (e_format_inline e) b.

(** document/mod.rs:64-72 [is_visible] *)
Definition is_visible (n : node) : bool :=
  match n with NTxt _ (TComment _) | NTxt _ (TSpace _) => false | _ => true end.

(** document/mod.rs:74-81 [is_space] *)
Definition is_space (n : node) : bool :=
  match n with NTxt _ (TSpace _) => true | _ => false end.

(** document/mod.rs:50-62 [as_element] *)
Definition as_element (n : node) : option element :=
  match n with NElt _ e => Some e | NTxt _ _ => None end.

(** document/elements.rs:88-120 [split_at(1)] as used by [split_first]: the element
    keeps its first selector and gets one child holding the rest. *)
Definition split_first (e : element) : element :=
  match e_selectors e with
  | s0 :: ((s1 :: _) as rest) =>
      let new_range := combine (e_crange e) (mkR (r_start (s_range s1)) (r_end (e_range e))) in
      let inner := mkElt new_range rest (e_crange e) (e_nodes e) (e_type e)
                         (e_format_inline e) (e_raw e) in
      mkElt (e_range e) [s0] (combine (e_crange e) new_range) [elt_node inner] (e_type e)
            true (e_raw e)
  | _ => e
  end.

(** document/elements.rs:122-133 [format_inline] *)
Definition format_inline (e : element) : bool :=
  e_format_inline e ||
  match e_type e with
  | Standard (DLine _) | Inline _ | Special _ | Paragraph | Multiline _ => true
  | _ => false
  end.

(** document/elements.rs:135-159 [apply_tags] *)
Definition apply_tags (e : element) (tags : list tslice) : element :=
  match filter (fun t => negb (slice_is_empty t)) tags with
  | [] => with_selectors e (tl (e_selectors e))
  | first :: more =>
      match e_selectors e with
      | s :: rest =>
          with_selectors e (mkSel (s_range s) (Explicit first) (s_items s)
            :: map (fun t => sel_with_tag (sel_empty (r_end (s_range s))) t) more ++ rest)
      | [] =>
          let loc := r_start (e_range e) in
          with_selectors e (sel_with_tag (sel_empty loc) first
            :: map (fun t => sel_with_tag (sel_empty loc) t) more)
      end
  end.

(** Induction principle for trees. *)
Section node_ind.
  Variable P : node -> Prop.
  Hypothesis HE : forall r e, Forall P (e_nodes e) -> P (NElt r e).
  Hypothesis HT : forall r t, P (NTxt r t).
  (* plumbing of the model, stands for no code *)
  Fixpoint node_ind' (n : node) : P n :=
    match n with
    | NElt r e =>
        HE r e ((fix go (ns : list node) : Forall P ns :=
                   match ns with
                   | [] => Forall_nil P
                   | m :: ms => Forall_cons m (node_ind' m) (go ms)
                   end) (e_nodes e))
    | NTxt r t => HT r t
    end.
End node_ind.


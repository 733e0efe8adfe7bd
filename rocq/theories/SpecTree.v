(** * What the output of a document tree should show to a reader. *)

From Verif Require Import Base Escape OutText Doc SpecMarkup SpecHtml.

(** A property of every element and every text of a tree. *)
Inductive TreeAll (PE : element -> Prop) (PT : textlike -> Prop) : node -> Prop :=
| TAElt : forall r e, PE e -> Forall (TreeAll PE PT) (e_nodes e) -> TreeAll PE PT (NElt r e)
| TATxt : forall r t, PT t -> TreeAll PE PT (NTxt r t).


(** The 14 void elements of the HTML standard (13.1.2). *)
Definition html_void : list str :=
  [L "area"; L "base"; L "br"; L "col"; L "embed"; L "hr"; L "img"; L "input"; L "link";
   L "meta"; L "param"; L "source"; L "track"; L "wbr"].
Definition html_void_name (t : str) : bool := existsb (eq_ignore_case t) html_void.

(** Tags are balanced: reading the items with a stack of open elements.  In HTML
    void elements are never open; a self-closed tag opens nothing. *)
Fixpoint balanced (xml : bool) (open : list str) (l : list item) : bool :=
  match l with
  | [] => is_nil open
  | IOpen t _ self_close :: l' =>
      if self_close || (negb xml && html_void_name t) then balanced xml open l'
      else balanced xml (t :: open) l'
  | IClose t :: l' =>
      match open with
      | t' :: open' => str_eqb t t' && balanced xml open' l'
      | [] => false
      end
  | _ :: l' => balanced xml open l'
  end.

Fixpoint join_with (sep : str) (l : list str) : str :=
  match l with
  | [] => []
  | [a] => a
  | a :: l' => a ++ sep ++ join_with sep l'
  end.

Section Tree.
Variable slc : lrange -> str.
Variable xml : bool.

(** The text denoted by a slice with escapes (unique by C01). *)
Definition decoded (t : tslice) : str := fst (unescape (as_str slc t)).

(** Ids, classes and attributes of a selector, in source order. *)
Definition ids_in (s : selector) : list tslice :=
  flat_map (fun i => match i with SId _ v => [v] | _ => [] end) (s_items s).
Definition classes_in (s : selector) : list tslice :=
  flat_map (fun i => match i with SClass _ v => [v] | _ => [] end) (s_items s).
Definition attrs_in (s : selector) : list attribute :=
  flat_map (fun i => match i with SAttrs _ l => l | _ => [] end) (s_items s).

(** The attributes written for a selector: the first id, all classes as one
    attribute, then the attributes; one without a value is bare in HTML and has
    the empty value in XML. *)
Definition sel_attrs (s : selector) : list (str * option str) :=
  match ids_in s with i :: _ => [(L "id", Some (decoded i))] | [] => [] end
  ++ match classes_in s with
     | [] => []
     | cs => [(L "class", Some (join_with [32] (map decoded cs)))]
     end
  ++ map (fun a => (decoded (a_name a),
                    match a_value a with
                    | Some v => Some (decoded v)
                    | None => if xml then Some [] else None
                    end)) (attrs_in s).

(** The characters of a text node: the lines of a multi-line text without their
    indentation (C26), and escapes decoded (C01) where escapes apply. *)
Definition text_pieces (t : text) : list str :=
  if slice_is_empty (t_slice t) then []
  else if t_multiline t then trim_multiline (as_str slc (t_slice t))
  else [as_str slc (t_slice t)].
Definition text_value (t : text) : str :=
  flat_map (fun p => if t_unescape_in t then fst (unescape p) else p) (text_pieces t).

(** The text of a space without indentation. *)
Definition space_value (s : space) : str :=
  match s with
  | SInline (Some t) => as_str slc t
  | _ => [32]
  end.

(** The name of an element, with its selector: the first selector that has one. *)
Fixpoint elt_tag (sels : list selector) : option (str * selector) :=
  match sels with
  | [] => None
  | s :: rest => match tag_name (s_tag s) with
                 | Some t => Some (as_str slc t, s)
                 | None => elt_tag rest
                 end
  end.

(** Expected items, in order: the opening tag, the content and the closing tag,
    for elements with a name; the content alone for elements without.  In HTML,
    void elements have no closing tag; in XML an element without content is one
    self-closed tag. *)
Fixpoint tree_items (n : node) : list expect :=
  match n with
  | NElt _ e =>
      let content := flat_map tree_items (e_nodes e) in
      match elt_tag (e_selectors e) with
      | None => content
      | Some (t, s) =>
          if xml && is_nil (e_nodes e) then [XItem (IOpen t (sel_attrs s) true)]
          else XItem (IOpen t (sel_attrs s) false) :: content
               ++ (if negb xml && html_void_name t then [] else [XItem (IClose t)])
      end
  | NTxt _ (TText t) => [XItem (IText (text_value t))]
  | NTxt _ (TComment s) => [XItem (IComment (comment_body (as_str slc s)))]
  | NTxt _ (TSpace s) => [XGap (space_value s)]
  end.

Definition doc_items (page : bool) (ns : list node) : list expect :=
  (if page then [XItem IDoctype; XGap [10]] else []) ++ flat_map tree_items ns.

(** ** The exact text of the output *)

(** Attribute and opening tag as text. *)
Definition attr_text (a : str * option str) : str :=
  L " " ++ fst a ++ match snd a with
                    | Some v => L "=""" ++ esc_str xml true v ++ L """"
                    | None => []
                    end.
Definition open_text (t : str) (s : selector) (self_close : bool) : str :=
  L "<" ++ t ++ flat_map attr_text (sel_attrs s) ++ (if self_close then L "/>" else L ">").
Definition close_text (t : str) : str := L "</" ++ t ++ L ">".

(** The output is made of solid pieces (tags, comments, texts) and spaces.
    [blank] marks a piece that ends in a space or tab of the source. *)
Inductive piece := Solid (s : str) (blank : bool) | Gap (w : str).

(** Whether the source of a text ends in a blank: of its last line, for multi-line
    text. *)
Definition text_blank (t : text) : bool :=
  let l := last (text_pieces t) (as_str slc (t_slice t)) in
  ends_with_char 32 l || ends_with_char 9 l.

(** [raw]: text is inside a raw element. *)
Definition written_raw (raw : bool) (t : text) : bool :=
  t_raw t || (negb xml && (negb (t_escape_out t) || raw)).

(** Content without leading and trailing spaces. *)
Fixpoint drop_spaces (ns : list node) : list node :=
  match ns with
  | NTxt _ (TSpace _) :: ns' => drop_spaces ns'
  | _ => ns
  end.
Definition trim_spaces (ns : list node) : list node := rev (drop_spaces (rev (drop_spaces ns))).

Inductive Pieces : bool -> node -> list piece -> Prop :=
| PcText : forall raw r t,
    slice_is_empty (t_slice t) = false ->
    Pieces raw (NTxt r (TText t))
      [Solid (if written_raw raw t then text_value t else esc_str xml false (text_value t)) (text_blank t)]
| PcEmpty : forall raw r t, slice_is_empty (t_slice t) = true -> Pieces raw (NTxt r (TText t)) []
| PcComment : forall raw r s,
    Pieces raw (NTxt r (TComment s)) [Solid (L "<!--" ++ comment_body (as_str slc s) ++ L "-->") false]
| PcSpace : forall raw r s, Pieces raw (NTxt r (TSpace s)) [Gap (space_value s)]
| PcUnnamed : forall raw r e ps, elt_tag (e_selectors e) = None ->
    PiecesL (raw || e_raw e) (trim_spaces (e_nodes e)) ps -> Pieces raw (NElt r e) ps
| PcSelfClosed : forall raw r e t s, elt_tag (e_selectors e) = Some (t, s) ->
    xml = true -> e_nodes e = [] ->
    Pieces raw (NElt r e) [Solid (open_text t s true) false]
| PcNamed : forall raw r e t s ps, elt_tag (e_selectors e) = Some (t, s) ->
    (xml = false \/ e_nodes e <> []) ->
    PiecesL (raw || e_raw e) (trim_spaces (e_nodes e)) ps ->
    Pieces raw (NElt r e)
      (Solid (open_text t s false) false :: ps
       ++ (if negb xml && html_void_name t then [] else [Solid (close_text t) false]))
with PiecesL : bool -> list node -> list piece -> Prop :=
| PcNil : forall raw, PiecesL raw [] []
| PcCons : forall raw n ns ps qs, Pieces raw n ps -> PiecesL raw ns qs -> PiecesL raw (n :: ns) (ps ++ qs).

(** Without indentation: solid pieces as they are; a space is written unless what
    precedes it is a space, a blank, or the beginning of the output. *)
Fixpoint spaced (after_space : bool) (ps : list piece) : str :=
  match ps with
  | [] => []
  | Solid s blank :: ps' => s ++ spaced blank ps'
  | Gap w :: ps' => if after_space then spaced true ps' else w ++ spaced true ps'
  end.

(** With indentation: the solid pieces in order, and between them white space (or
    the text of the space that is there). *)
Inductive Laid : list piece -> str -> Prop :=
| LdNil : Laid [] []
| LdSolid : forall s b ps o, Laid ps o -> Laid (Solid s b :: ps) (s ++ o)
| LdGap : forall w ps o, Laid ps o -> Laid (Gap w :: ps) (w ++ o)
| LdNoGap : forall w ps o, Laid ps o -> Laid (Gap w :: ps) o
| LdSpace : forall w ps o, all_ws w -> Laid ps o -> Laid ps (w ++ o).

(** ** Trees that can be shown to a reader *)

(** At most one selector of an element has a name (inference splits chains of
    selectors into nested elements). *)
Definition single_tag (e : element) : Prop :=
  (length (filter (fun s => is_some (tag_name (s_tag s))) (e_selectors e)) <= 1)%nat.

(** Names and values a reader can take in. *)
Definition good_selector (s : selector) : Prop :=
  Forall (fun a : str * option str =>
            good_attr (fst a) /\
            match snd a with Some v => Forall (fun c => readable xml c = true) v | None => True end)
         (sel_attrs s).

(** Text written as text, not as raw markup. *)
Definition escaped_text (t : text) : Prop :=
  t_raw t = false /\ (xml = false -> t_escape_out t = true) /\
  Forall (fun c => readable xml c = true) (text_value t).
(** Spaces do not contain markup characters. *)
Definition plain_space (s : space) : Prop :=
  ~ In 60 (space_value s) /\ ~ In 38 (space_value s).

Definition good_textlike (t : textlike) : Prop :=
  match t with
  | TText t => escaped_text t
  | TComment _ => True
  | TSpace s => plain_space s
  end.

(** Texts directly inside an element whose content is raw text. *)
Definition raw_child (n : node) : Prop :=
  match n with
  | NTxt _ (TText t) => ~ occurs (L "</") (text_value t) /\ ~ (exists r, text_value t = r ++ [60])
  | NTxt _ (TSpace s) => plain_space s
  | _ => False
  end.
Definition text_child (n : node) : Prop :=
  match n with
  | NTxt _ (TText t) => escaped_text t
  | NTxt _ (TSpace s) => plain_space s
  | _ => False
  end.

(** Elements a reader can take in: names are names; the content fits the way HTML
    reads the content of that element. [raw] says whether text is written raw here. *)
Inductive Readable (raw : bool) : node -> Prop :=
| RdElt : forall r e,
    single_tag e ->
    raw || e_raw e = false \/ xml = true ->
    Forall (Readable raw) (e_nodes e) ->
    (forall t s, elt_tag (e_selectors e) = Some (t, s) ->
       good_tag t /\ good_selector s /\ (xml = false -> content_kind_of t = KMarkup)) ->
    Readable raw (NElt r e)
| RdText : forall r t, raw = false \/ xml = true -> good_textlike t -> Readable raw (NTxt r t)
(** title, textarea *)
| RdRcdata : forall r e t s,
    single_tag e ->
    raw || e_raw e = false ->
    xml = false -> elt_tag (e_selectors e) = Some (t, s) ->
    good_tag t -> good_selector s -> content_kind_of t = KRcdata ->
    Forall text_child (e_nodes e) ->
    Readable raw (NElt r e)
(** script, style *)
| RdRaw : forall r e t s,
    single_tag e ->
    raw || e_raw e = true ->
    xml = false -> elt_tag (e_selectors e) = Some (t, s) ->
    good_tag t -> good_selector s -> content_kind_of t = KRawText ->
    Forall raw_child (e_nodes e) ->
    Readable raw (NElt r e).

End Tree.

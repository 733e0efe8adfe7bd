(** * Sources whose names are plain, and content that fits the elements it is in. *)

From Verif Require Import Base Escape Doc Config Ast SpecMarkup SpecHtml SpecTree SpecBuild SpecTransform.

Section Ordinary.
Variable slc : lrange -> str.
Variable xml : bool.

(** ** The source *)

Definition attrs_names (l : a_attrs) : list lrange := map aa_name (al_parts l).
Definition selector_attr_names (s : a_selector) : list lrange :=
  match as_first s with AStartAttrs a => attrs_names a | AStartTag _ _ => [] end ++
  flat_map (fun g => match g with ASegAttrs a => attrs_names a | ASegClass _ => [] end) (as_segments s).

Definition readable_str (s : str) : Prop := Forall (fun c => readable xml c = true) s.
Definition starts_with_letter (s : str) : Prop := exists c r, s = c :: r /\ ascii_letter c = true.

(** The name of an element begins with a letter and is written without escapes; names
    of attributes are written without escapes and less signs; ids, classes and values
    are made of characters that HTML (or XML) has. *)
Definition plain_selector (s : a_selector) : Prop :=
  (forall r, source_tag s = Explicit (FromSource r) -> starts_with_letter (slc r) /\ ~ In 92 (slc r)) /\
  (forall r, In r (selector_attr_names s) -> ~ In 92 (slc r) /\ ~ In 60 (slc r)) /\
  (forall r, In r (selector_strings s) -> readable_str (decoded slc (FromSource r))).

Definition readable_leaf (t : textlike) : Prop :=
  match t with
  | TText t => readable_str (text_value slc t)
  | TComment s => readable_str (as_str slc s)
  | TSpace _ => True
  end.

Definition plain_source (c : a_content) : Prop :=
  (forall b s e, Occurs (content_items c) (ANode b (ANSelector s) e) -> plain_selector s) /\
  Forall readable_leaf (content_leaves c).

(** Options: a name for inline formatting is empty or a name of an element, the language
    is made of characters of HTML (or XML), and elements are added for metadata in XML
    only. *)
Definition plain_options (cfg : config) : Prop :=
  (forall k t, documented_option (c_special cfg) k = Some t -> t = [] \/ good_tag t) /\
  (forall l, c_lang cfg = Some l -> readable_str (decoded slc (Provided l))) /\
  (c_metadata cfg = Some true -> xml = true).

(** ** The document *)

(** Text that is not copied to the output. *)
Definition not_copied (t : text) : Prop := t_raw t = false /\ (xml = false -> t_escape_out t = true).

(** Sources that give such documents: in HTML, no text is interpolated or verbatim and
    raw, and no name is one of the elements above, nor [html] (whose first paragraph is
    a [title]); in XML, no text is raw. *)
Definition ordinary_name (t : str) : Prop := xml = false -> content_kind_of t = KMarkup /\ t <> L "html".
Definition ordinary_source (c : a_content) : Prop :=
  (forall b s e r, Occurs (content_items c) (ANode b (ANSelector s) e) -> source_tag s = Explicit (FromSource r) ->
     ordinary_name (slc r)) /\
  (forall t, In (TText t) (content_leaves c) -> not_copied t).
Definition ordinary_options (cfg : config) : Prop :=
  (forall k t, documented_option (c_special cfg) k = Some t -> ordinary_name t) /\
  (xml = false -> c_complete_page cfg <> Some true).

Definition only_text (n : node) : Prop :=
  match n with NTxt _ (TText t) => not_copied t | NTxt _ (TSpace _) => True | _ => False end.
Definition no_end_tag (n : node) : Prop :=
  match n with
  | NTxt _ (TText t) => ~ occurs (L "</") (text_value slc t) /\ ~ (exists r, text_value slc t = r ++ [60])
  | NTxt _ (TSpace _) => True
  | _ => False
  end.

(** [Fits]: texts are not copied, except in [script] and [style], where they do not contain the
    beginning of an end tag; [title] and [textarea] contain only text; elements whose
    content HTML does not read as markup otherwise do not occur.  XML reads the content
    of all elements alike. *)
Inductive Fits : node -> Prop :=
| FiText : forall r t, not_copied t -> Fits (NTxt r (TText t))
| FiComment : forall r s, Fits (NTxt r (TComment s))
| FiSpace : forall r s, Fits (NTxt r (TSpace s))
| FiMarkup : forall r e,
    (forall t s, elt_tag slc (e_selectors e) = Some (t, s) -> xml = false -> content_kind_of t = KMarkup) ->
    Forall Fits (e_nodes e) -> Fits (NElt r e)
| FiRcdata : forall r e t s, xml = false -> elt_tag slc (e_selectors e) = Some (t, s) -> content_kind_of t = KRcdata ->
    Forall only_text (e_nodes e) -> Fits (NElt r e)
| FiRaw : forall r e t s, xml = false -> elt_tag slc (e_selectors e) = Some (t, s) -> t = L "script" \/ t = L "style" ->
    Forall no_end_tag (e_nodes e) -> Fits (NElt r e).
End Ordinary.

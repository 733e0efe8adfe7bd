(** * Specifications of the document transforms. *)

From Verif Require Import Base Doc Config SpecMarkup SpecTree SpecInfer SpecSource.

(** ** Special tags (config.rs 5-23, README 'Inline Formatting') *)
Definition documented_option (cfg : special_tags) (k : special_kind) : option str :=
  match k with
  | Emphasis => st_emphasis cfg
  | Strong => st_strong cfg
  | Underline => st_underline cfg
  | Strike => st_strike cfg
  | Quote => st_quote cfg
  | Code => st_code cfg
  | CodeBlockContainer => st_code_block_container cfg
  end.
Definition documented_default (k : special_kind) : str :=
  match k with
  | Emphasis => L "em" | Strong => L "strong" | Underline => L "u" | Strike => L "s"
  | Quote => L "q" | Code => L "code" | CodeBlockContainer => L "pre"
  end.
Definition documented_name (cfg : special_tags) (k : special_kind) : str :=
  match documented_option cfg k with Some t => t | None => documented_default k end.

(** The names an element gets from its syntax, outermost first. *)
Definition special_names (name : special_kind -> str) (t : element_type) : option (list str) :=
  match t with
  | Special k => Some [name k]
  | Multiline MLCode => Some [name CodeBlockContainer; name Code]
  | _ => None
  end.

Section Special.
Variable slc : lrange -> str.
Variable name : special_kind -> str.

(** An element with the given names and items, outermost first. *)
Fixpoint nest_pairs (l : list (option str * list sel_item)) (kids : list tree) : tree :=
  match l with
  | [] => TElt None [] kids
  | [(t, i)] => TElt t i kids
  | (t, i) :: rest => TElt t i [nest_pairs rest kids]
  end.
Definition sel_pairs (sels : list selector) : list (option str * list sel_item) :=
  map (fun s => (sel_name slc s, s_items s)) sels.

(** The first name goes to the element as written (its id, classes and attributes);
    further names are plain elements inside it. An empty name means no element. *)
Definition rename (names : list str) (l : list (option str * list sel_item))
    : list (option str * list sel_item) :=
  match filter (fun t => negb (str_empty t)) names with
  | [] => tl l
  | t :: more =>
      (Some t, match l with (_, i) :: _ => i | [] => [] end) :: map (fun t => (Some t, [])) more ++ tl l
  end.

(** The expected content of a tree. *)
Fixpoint special_tree (n : node) : tree :=
  match n with
  | NTxt _ t => TLeaf t
  | NElt _ e =>
      nest_pairs (match special_names name (e_type e) with
                  | Some names => rename names (sel_pairs (e_selectors e))
                  | None => sel_pairs (e_selectors e)
                  end)
                 (map special_tree (e_nodes e))
  end.
End Special.

(** ** Page completion *)
Section Page.
Variable slc : lrange -> str.

(** The element is written with one of these names, up to ASCII case. *)
Definition written_as (names : list str) (n : node) : bool :=
  match n with
  | NElt _ e => match first_name slc (e_selectors e) with
                | Some t => existsb (str_eqb (lower t)) names
                | None => false
                end
  | NTxt _ _ => false
  end.
Definition head_only : list str := [L "base"; L "link"; L "meta"; L "title"; L "style"].
Definition children (n : node) : list node := match n with NElt _ e => e_nodes e | NTxt _ _ => [] end.

(** A plain element: one name, no id, classes or attributes. *)
Definition plain_elt (t : str) (ns : list node) (n : node) : Prop :=
  exists r e s, n = NElt r e /\ e_selectors e = [s] /\ sel_name slc s = Some t /\ s_items s = [] /\
    e_nodes e = ns /\ e_raw e = false.

Definition to_head (n : node) : list node :=
  if written_as [L "head"] n then children n
  else if written_as head_only n then [n] else [].
Definition to_body (n : node) : bool := negb (written_as [L "head"] n || written_as head_only n).

(** A head element that carries nothing but its content. *)
Definition plain_head (n : node) : Prop :=
  match n with
  | NElt _ e => exists s, e_selectors e = [s] /\ s_items s = []
  | NTxt _ _ => False
  end.
End Page.

(** What a node says: its texts, comments and spaces, and each element's name with its
    ids, classes and attributes, except bare html, head and body elements (README:
    these are supplied where missing). *)
Inductive fact := FLeaf (t : textlike) | FElt (name : option str) (items : list sel_item).
Definition page_names : list str := [L "html"; L "head"; L "body"].
Fixpoint tree_facts (t : tree) : list fact :=
  match t with
  | TLeaf t => [FLeaf t]
  | TElt name items kids =>
      match name, items with
      | Some t, [] => if existsb (str_eqb (lower t)) page_names then [] else [FElt name items]
      | _, _ => [FElt name items]
      end ++ flat_map tree_facts kids
  end.
Definition facts (slc : lrange -> str) (ns : list node) : list fact :=
  flat_map (fun n => tree_facts (tree_of slc n)) ns.

(** ** Metadata *)
Definition meta_names : list str :=
  [L "xmlns:mty"; L "mty:start"; L "mty:end"; L "mty:content-start"; L "mty:content-end"; L "mty:raw"].

(** The value of an attribute in a list, by name. *)
Fixpoint attr_value (name : str) (l : list attribute) : option str :=
  match l with
  | [] => None
  | a :: r => match a_name a, a_value a with
              | Provided n, Some (Provided v) => if str_eqb n name then Some v else attr_value name r
              | _, _ => attr_value name r
              end
  end.
Definition recorded (name : str) (l : list attribute) : option N :=
  match attr_value name l with Some v => parse_dec v | None => None end.
Definition recorded_range (start_name end_name : str) (l : list attribute) (r : lrange) : Prop :=
  if r_start r <=? r_end r
  then recorded start_name l = Some (r_start r) /\ recorded end_name l = Some (r_end r)
  else attr_value start_name l = None /\ attr_value end_name l = None.

(** The attributes recorded for an element with range [r] and content range [cr]. *)
Definition meta_namespace : str := L "tag:youngspe.github.io,2024:mintyml/metadata".
Definition meta_value (n v : str) : Prop :=
  n = L "xmlns:mty" /\ v = meta_namespace \/ n = L "mty:raw" /\ v = L "true" \/
  In n [L "mty:start"; L "mty:end"; L "mty:content-start"; L "mty:content-end"] /\ Forall (fun c => 48 <= c <= 57) v.
Definition meta_attrs (root : bool) (r cr : lrange) (raw : bool) (l : list attribute) : Prop :=
  Forall (fun a => exists n v, a_name a = Provided n /\ a_value a = Some (Provided v) /\ meta_value n v) l /\
  NoDup (map a_name l) /\
  recorded_range (L "mty:start") (L "mty:end") l r /\
  recorded_range (L "mty:content-start") (L "mty:content-end") l cr /\
  attr_value (L "mty:raw") l = (if raw then Some (L "true") else None) /\
  attr_value (L "xmlns:mty") l = (if root then Some meta_namespace else None).

(** The second tree is the first with one list of metadata attributes added to each
    named element (nothing where the list would be empty). The attributes come after
    those of the source ([a]) and before those added later ([b]). *)
Inductive MetaAdded (root : bool) : node -> node -> Prop :=
| MaTxt : forall r t, MetaAdded root (NTxt r t) (NTxt r t)
| MaUnnamed : forall r e ns,
    Forall (fun s => uninferred s = true) (e_selectors e) ->
    Forall2 (MetaAdded false) (e_nodes e) ns ->
    MetaAdded root (NElt r e) (NElt r (with_nodes e ns))
| MaNamed : forall r e ns s a b l lr,
    e_selectors e = [s] -> uninferred s = false -> s_items s = a ++ b ->
    meta_attrs root r (e_crange e) (e_raw e) l ->
    Forall2 (MetaAdded false) (e_nodes e) ns ->
    MetaAdded root (NElt r e)
      (NElt r (with_nodes (with_selectors e
         [match l with
          | [] => s
          | _ => mkSel (s_range s) (s_tag s) (a ++ SAttrs lr l :: b)
          end]) ns)).

(** The same where nodes are shown as elements. Every element has a name then, its own
    or [mty:element]; a text is put in an element [mty:text] and a comment, as it is
    written in the source, in an element [mty:comment], both written inline; marks say
    how the text is written. Text of interpolations and spaces stay as they are. *)
Definition same_attrs (l : list attribute) (m : list (str * str)) : Prop :=
  map (fun a => (a_name a, a_value a)) l = map (fun p => (Provided (fst p), Some (Provided (snd p)))) m.
Definition text_marks (t : text) : list (str * str) :=
  (if t_unescape_in t then [] else [(L "mty:verbatim", L "true")]) ++
  (if t_multiline t then [(L "mty:multiline", L "true")] else []).
Definition shown_name (e : element) : tag :=
  match find (fun s => negb (uninferred s)) (e_selectors e) with
  | Some s => s_tag s
  | None => Explicit (Provided (L "mty:element"))
  end.
Definition only_attrs (it : sel_item) : option (list attribute) :=
  match it with SAttrs _ l => Some l | _ => None end.
Definition shown (root : bool) (r : lrange) (name : str) (marks : list (str * str)) (body : node)
    (n : node) : Prop :=
  exists e s ls m l, n = NElt r e /\ e_selectors e = [s] /\ e_nodes e = [body] /\ e_format_inline e = true /\
    s_tag s = Explicit (Provided name) /\ map only_attrs (s_items s) = map Some ls /\
    concat ls = m ++ l /\ same_attrs m marks /\ meta_attrs root r (e_crange e) (e_raw e) l.
Inductive MetaShown (root : bool) : node -> node -> Prop :=
| MsSpace : forall r s, MetaShown root (NTxt r (TSpace s)) (NTxt r (TSpace s))
| MsRaw : forall r t, t_raw t = true -> MetaShown root (NTxt r (TText t)) (NTxt r (TText t))
| MsText : forall r t n, t_raw t = false ->
    shown root r (L "mty:text") (text_marks t) (NTxt r (TText t)) n ->
    MetaShown root (NTxt r (TText t)) n
| MsComment : forall r s n ml,
    shown root r (L "mty:comment") [] (NTxt r (TText (mkText s ml false true false))) n ->
    MetaShown root (NTxt r (TComment s)) n
| MsElt : forall r e ns s l lr,
    s_tag s = shown_name e ->
    s_items s = flat_map s_items (e_selectors e) ++ match l with [] => [] | _ => [SAttrs lr l] end ->
    meta_attrs root r (e_crange e) (e_raw e) l ->
    Forall2 (MetaShown false) (e_nodes e) ns ->
    MetaShown root (NElt r e) (NElt r (with_nodes (with_selectors e [s]) ns)).

(** Ranges of a tree are nested: a valid range lies in the valid range around it;
    nodes without a valid range (made by page completion) impose nothing.  What is inside an
    element stands between the start of its content range and the end of its range: lines
    that are joined to an element extend its range only. *)
Definition valid_range (r : lrange) : Prop := r_start r <= r_end r.
Definition within (r o : lrange) : Prop := r_start o <= r_start r /\ r_end r <= r_end o.
Definition within_if_valid (r o : lrange) : Prop := valid_range r -> within r o.
Definition narrow (o r : lrange) : lrange := if r_start r <=? r_end r then r else o.
Definition onward (o cr : lrange) : lrange := if r_start cr <=? r_end cr then mkR (r_start cr) (r_end o) else o.

Inductive Nested (outer : lrange) : node -> Prop :=
| NeTxt : forall r t, within_if_valid r outer -> Nested outer (NTxt r t)
| NeElt : forall r e,
    within_if_valid r outer ->
    within_if_valid (e_crange e) (narrow outer r) ->
    Forall (Nested (onward (narrow outer r) (e_crange e))) (e_nodes e) ->
    Nested outer (NElt r e).

(** A tree as read from a source: every range is valid and inside the one around it;
    the selectors of an element stand in the element, one after the other. *)
Fixpoint sels_from (pos lim : N) (sels : list selector) : Prop :=
  match sels with
  | [] => pos <= lim
  | s :: rest => pos <= r_start (s_range s) /\ valid_range (s_range s) /\
                 sels_from (r_end (s_range s)) lim rest
  end.
Inductive FromSrc (outer : lrange) : node -> Prop :=
| FsTxt : forall r t, valid_range r -> within r outer -> FromSrc outer (NTxt r t)
| FsElt : forall r e,
    valid_range r -> within r outer -> e_range e = r ->
    valid_range (e_crange e) -> within (e_crange e) r ->
    sels_from (r_start r) (r_end r) (e_selectors e) ->
    Forall (FromSrc (mkR (r_start (e_crange e)) (r_end r))) (e_nodes e) ->
    FromSrc outer (NElt r e).

(** Every named element carries its range and content range (those that are valid) in
    one list of attributes, as decimal numbers. *)
Inductive Records : node -> Prop :=
| ReTxt : forall r t, Records (NTxt r t)
| ReUnnamed : forall r e,
    Forall (fun s => uninferred s = true) (e_selectors e) ->
    Forall Records (e_nodes e) -> Records (NElt r e)
| ReNamed : forall r e s,
    e_selectors e = [s] -> uninferred s = false ->
    (valid_range r \/ valid_range (e_crange e) ->
     exists a lr l b, s_items s = a ++ SAttrs lr l :: b /\
       recorded_range (L "mty:start") (L "mty:end") l r /\
       recorded_range (L "mty:content-start") (L "mty:content-end") l (e_crange e)) ->
    Forall Records (e_nodes e) -> Records (NElt r e).

(** Every range of the tree that is recorded (start <= end) has both ends at character
    boundaries of the source. *)
Inductive Located (src : str) : node -> Prop :=
| LoTxt : forall r t, (valid_range r -> sliceable src r) -> Located src (NTxt r t)
| LoElt : forall r e,
    (valid_range r -> sliceable src r) -> (valid_range (e_crange e) -> sliceable src (e_crange e)) ->
    Forall (Located src) (e_nodes e) -> Located src (NElt r e).

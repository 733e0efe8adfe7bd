(** * Specification of tag inference: tables, written after README.md 561-757, and a
      one-pass function that names the elements of a tree by these tables. Nothing
      here refers to the inference engine. *)

From Verif Require Import Base Doc.

(** Kinds of element (README 'Line Element', 'Block Element', ...): an inline
    element counts as a line unless it holds a block. *)
Inductive kind := KLine | KBlock | KPara | KOther.
Definition kind_of (t : element_type) : kind :=
  match t with
  | Standard (DBlock _) => KBlock
  | Standard _ => KLine
  | Inline (Some (DBlock _)) => KOther
  | Inline _ => KLine
  | Paragraph => KPara
  | Special _ | Multiline _ | Unknown => KOther
  end.

(** The context inside an element. *)
Inductive context :=
| CSection | CParagraph | CRaw | CRoot | CList | CTable | CRow | CColGroup | CDescription
| CDataList | CSelect | CMap | CDetails | CLabel | CFieldSet | CPicture.

(** Contexts given by the element's name. *)
Definition names_of (c : context) : list str :=
  match c with
  | CParagraph =>
      [L "p"; L "h1"; L "h2"; L "h3"; L "h4"; L "h5"; L "h6"; L "span"; L "b"; L "i"; L "q"; L "s";
       L "u"; L "button"; L "caption"; L "cite"; L "code"; L "data"; L "dfn"; L "dt"; L "em"; L "kbd";
       L "legend"; L "mark"; L "meter"; L "option"; L "output"; L "pre"; L "progress"; L "samp";
       L "small"; L "strong"; L "sub"; L "summary"; L "sup"; L "textarea"; L "time"; L "var";
       L "area"; L "base"; L "br"; L "col"; L "embed"; L "hr"; L "img"; L "input"; L "link"; L "meta";
       L "param"; L "source"; L "track"; L "wbr"]
  | CSection =>
      [L "body"; L "main"; L "article"; L "header"; L "footer"; L "section"; L "nav"; L "aside";
       L "figure"; L "dialog"; L "blockquote"; L "div"; L "template"; L "hgroup"]
  | CRaw => [L "script"; L "style"]
  | CRoot => [L "html"]
  | CList => [L "ul"; L "ol"; L "menu"]
  | CTable => [L "table"; L "thead"; L "tbody"; L "tfoot"]
  | CRow => [L "tr"]
  | CColGroup => [L "colgroup"]
  | CDescription => [L "dl"]
  | CDataList => [L "datalist"; L "optgroup"]
  | CSelect => [L "select"]
  | CMap => [L "map"]
  | CDetails => [L "details"]
  | CLabel => [L "label"]
  | CFieldSet => [L "fieldset"]
  | CPicture => [L "picture"]
  end.
Definition all_contexts : list context :=
  [CSection; CParagraph; CRaw; CRoot; CList; CTable; CRow; CColGroup; CDescription; CDataList;
   CSelect; CMap; CDetails; CLabel; CFieldSet; CPicture].

Definition named_context (t : str) : option context :=
  find (fun c => existsb (str_eqb t) (names_of c)) all_contexts.

(** Other elements: a paragraph context inside lines and paragraphs, a section
    context inside blocks. *)
Definition inside (name : option str) (k : kind) : context :=
  match match name with Some t => named_context t | None => None end with
  | Some c => c
  | None => match k with KLine | KPara => CParagraph | KBlock | KOther => CSection end
  end.

(** What an unnamed element of a kind becomes. [Plain]: no tag of its own. *)
Inductive naming := Named (t : str) | Plain | Unnamed.

Definition in_section (k : kind) : naming :=
  match k with KLine | KPara => Named (L "p") | KBlock => Named (L "div") | KOther => Unnamed end.
Definition always (t : str) (k : kind) : naming :=
  match k with KOther => Unnamed | _ => Named t end.

(** [grand] is the name of the parent's parent. *)
Definition name_for (c : context) (grand : option str) (first last : bool) (k : kind) : naming :=
  match c with
  | CSection | CRaw => in_section k
  | CParagraph => match k with KPara => Plain | _ => always (L "span") k end
  | CList => always (L "li") k
  | CTable => always (L "tr") k
  | CRow => match grand with
            | Some g => if str_eqb g (L "thead") then Named (L "th") else always (L "td") k
            | None => always (L "td") k
            end
  | CColGroup => always (L "col") k
  | CDescription => match k with KLine => Named (L "dt") | _ => always (L "dd") k end
  | CDataList => always (L "option") k
  | CSelect => match k with KBlock => Named (L "optgroup") | _ => always (L "option") k end
  | CMap => always (L "area") k
  | CDetails => if first then Named (L "summary") else in_section k
  | CLabel => match k with KLine => Named (L "input") | _ => in_section k end
  | CFieldSet => match k with
                 | KPara => if first then Named (L "legend") else in_section k
                 | _ => in_section k
                 end
  | CPicture => match k with
                | KLine => if last then Named (L "img") else Named (L "source")
                | _ => Unnamed
                end
  | CRoot => if first then match k with KPara => Named (L "title") | _ => Named (L "head") end
             else always (L "body") k
  end.

(** The rows of README's tables (618-640 and 690-757): line, block, paragraph.
    [None]: no entry. *)
Definition readme_row (c : context) : option (naming * naming * option naming) :=
  match c with
  | CSection => Some (Named (L "p"), Named (L "div"), Some (Named (L "p")))
  | CParagraph => Some (Named (L "span"), Named (L "span"), Some Plain)
  | CList => Some (Named (L "li"), Named (L "li"), Some (Named (L "li")))
  | CTable => Some (Named (L "tr"), Named (L "tr"), Some (Named (L "tr")))
  | CRow => Some (Named (L "td"), Named (L "td"), Some (Named (L "td")))
  | CDescription => Some (Named (L "dt"), Named (L "dd"), Some (Named (L "dd")))
  | CLabel => Some (Named (L "input"), Named (L "div"), Some (Named (L "p")))
  | CSelect => Some (Named (L "option"), Named (L "optgroup"), Some (Named (L "option")))
  | CDataList => Some (Named (L "option"), Named (L "option"), Some (Named (L "option")))
  | CColGroup => Some (Named (L "col"), Named (L "col"), None)
  | CMap => Some (Named (L "area"), Named (L "area"), None)
  | _ => None
  end.
Definition readme_name (c : context) (k : kind) : option naming :=
  match readme_row c, k with
  | Some (l, _, _), KLine => Some l
  | Some (_, b, _), KBlock => Some b
  | Some (_, _, p), KPara => p
  | _, _ => None
  end.

(** The elements README lists for each context (573-603 and 658-683). *)
Definition readme_contexts : list (str * context) :=
  map (fun t => (t, CSection))
    [L "body"; L "main"; L "article"; L "header"; L "footer"; L "section"; L "nav"; L "aside";
     L "figure"; L "dialog"; L "blockquote"; L "div"; L "template"; L "hgroup"] ++
  map (fun t => (t, CParagraph))
    [L "p"; L "h1"; L "h2"; L "h3"; L "h4"; L "h5"; L "h6"; L "span";
     L "em"; L "strong"; L "u"; L "s"; L "q"; L "code"] ++
  [(L "ul", CList); (L "ol", CList); (L "menu", CList);
   (L "table", CTable); (L "thead", CTable); (L "tbody", CTable); (L "tfoot", CTable);
   (L "tr", CRow); (L "details", CDetails); (L "fieldset", CFieldSet); (L "dl", CDescription);
   (L "label", CLabel); (L "datalist", CDataList); (L "optgroup", CDataList); (L "select", CSelect);
   (L "colgroup", CColGroup)].
(** Elements whose context depends on how they are written (607-614). *)
Definition readme_by_kind : list str := [L "td"; L "th"; L "li"; L "dd"; L "figcaption"].

(** Apply a function to the elements of a list, telling it whether the element is
    the first and whether it is the last. *)
Section MapPos.
  Context {A B : Type}.
  Variable f : bool -> bool -> A -> B.
  Fixpoint map_pos (first : bool) (l : list A) : list B :=
    match l with
    | [] => []
    | x :: r => f first (match r with [] => true | _ => false end) x :: map_pos false r
    end.
End MapPos.

Section Resolve.
Variable slc : lrange -> str.

Definition sel_name (s : selector) : option str :=
  match s_tag s with Explicit v => Some (as_str slc v) | _ => None end.
Definition first_name (sels : list selector) : option str :=
  match sels with s :: _ => sel_name s | [] => None end.

(** The selectors of an element after naming. An element without selectors gets one,
    located at the element's start. *)
Definition name_sels (start : N) (sels : list selector) (n : naming) : list selector :=
  match first_name sels with
  | Some _ => sels
  | None =>
      match n with
      | Named t =>
          match sels with
          | s :: rest => mkSel (s_range s) (Explicit (Provided t)) (s_items s) :: rest
          | [] => [mkSel (mkR start start) (Explicit (Provided t)) []]
          end
      | Plain => tl sels
      | Unnamed => sels
      end
  end.

(** Name the element with selectors [sels] in context [c]; further selectors become
    elements nested in it, of the same kind, the only child of the one before.
    [kids c grand parent] are the element's children resolved in their context. *)
Fixpoint chain (sels' : list selector) (c : context) (grand parent : option str) (first last : bool)
    (r er : lrange) (sels : list selector) (cr : lrange) (ty : element_type) (fi raw : bool)
    (kids : context -> option str -> option str -> list node) : node :=
  let sels1 := name_sels (r_start er) sels (name_for c grand first last (kind_of ty)) in
  let name := first_name sels1 in
  let c' := inside name (kind_of ty) in
  let raw' := raw || match c' with CRaw => true | _ => false end in
  match sels1, sels' with
  | s0 :: ((s1 :: _) as rest), _ :: sels'' =>
      let ir := combine cr (mkR (r_start (s_range s1)) (r_end er)) in
      NElt r (mkElt er [s0] (combine cr ir)
                    [chain sels'' c' parent name true true ir ir rest cr ty fi raw kids]
                    ty true raw')
  | _, _ => NElt r (mkElt er sels1 cr (kids c' parent name) ty fi raw')
  end.

(** Name all elements of a tree: [c] is the context, [grand] and [parent] the names
    of the elements around. *)
Fixpoint resolve (c : context) (grand parent : option str) (first last : bool) (n : node) : node :=
  match n with
  | NTxt r t => NTxt r t
  | NElt r e =>
      chain (e_selectors e) c grand parent first last r (e_range e) (e_selectors e) (e_crange e)
            (e_type e) (e_format_inline e) (e_raw e)
            (fun c grand parent => map_pos (resolve c grand parent) true (e_nodes e))
  end.
Definition resolve_all (c : context) (grand parent : option str) (ns : list node) : list node :=
  map_pos (resolve c grand parent) true ns.

End Resolve.

(** ** Content of a tree, up to what inference may change *)

(** Names, ids, classes and attributes, texts and nesting; every selector of a
    chain is an element of its own. *)
Inductive tree := TElt (name : option str) (items : list sel_item) (kids : list tree)
                | TLeaf (t : textlike).

Section Content.
Variable slc : lrange -> str.

Fixpoint nest (sels : list selector) (kids : list tree) : tree :=
  match sels with
  | [] => TElt None [] kids
  | [s] => TElt (sel_name slc s) (s_items s) kids
  | s :: rest => TElt (sel_name slc s) (s_items s) [nest rest kids]
  end.
Fixpoint tree_of (n : node) : tree :=
  match n with
  | NTxt _ t => TLeaf t
  | NElt _ e => nest (e_selectors e) (map tree_of (e_nodes e))
  end.

(** The second tree is the first with names given to some of the unnamed elements. *)
Inductive Extends : tree -> tree -> Prop :=
| ExLeaf : forall t, Extends (TLeaf t) (TLeaf t)
| ExElt : forall name name' items kids kids',
    name = None \/ name' = name -> Forall2 Extends kids kids' ->
    Extends (TElt name items kids) (TElt name' items kids').

(** Paragraphs carry no selector of their own (the builder never gives them one). *)
Definition bare_paragraph (e : element) : Prop := e_type e = Paragraph -> e_selectors e = [].

(** Elements whose selectors all get a name. [pic]: directly inside picture. *)
Inductive Nameable (pic : bool) : node -> Prop :=
| NaTxt : forall r t, Nameable pic (NTxt r t)
| NaElt : forall r e,
    bare_paragraph e ->
    (Forall (fun s => sel_name slc s <> None) (e_selectors e) \/
     kind_of (e_type e) = KLine \/
     (kind_of (e_type e) <> KOther /\ pic = false /\
      Forall (fun s => sel_name slc s <> Some (L "picture")) (removelast (e_selectors e)))) ->
    Forall (Nameable match last (map (sel_name slc) (e_selectors e)) None with
                     | Some t => str_eqb t (L "picture")
                     | None => false
                     end) (e_nodes e) ->
    Nameable pic (NElt r e).

Definition named (e : element) : Prop := Forall (fun s => uninferred s = false) (e_selectors e).

(** HTML raw text elements with the exact spelling inference knows. *)
Definition raw_named (e : element) : Prop :=
  exists s rest, e_selectors e = s :: rest /\
    (sel_name slc s = Some (L "script") \/ sel_name slc s = Some (L "style")).

(** The tree with its raw marks taken from the names alone. *)
Definition raw_name (e : element) : bool :=
  match first_name slc (e_selectors e) with
  | Some t => str_eqb t (L "script") || str_eqb t (L "style")
  | None => false
  end.
Fixpoint raw_by_name (n : node) : node :=
  match n with
  | NElt r e => NElt r (with_raw (with_nodes e (map raw_by_name (e_nodes e))) (raw_name e))
  | NTxt r t => NTxt r t
  end.
End Content.

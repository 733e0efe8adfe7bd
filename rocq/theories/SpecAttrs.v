(** * Where the names and attributes of opening tags come from. *)

From Verif Require Import Base Escape Doc Config Ast SpecTree SpecBuild SpecTransform.

Section Attrs.
Variable slc : lrange -> str.
Variable xml : bool.

(** ** The attributes that a selector of the source writes *)
Inductive written := WId (r : lrange) | WClass (r : lrange) | WAttr (n : lrange) (v : option lrange).
Definition classlike_written (c : a_classlike) : list written :=
  match c with AClass _ i => [WClass i] | AId _ i => [WId i] | AInvalid _ => [] end.
Definition attr_written (a : a_attr) : written :=
  WAttr (aa_name a) match aa_assign a with
                    | Some (_, AUnquoted r) => Some r
                    | Some (_, AQuoted r) => Some (mkR (r_start r + 1) (r_end r - 1))
                    | None => None
                    end.
Definition segment_written (s : a_segment) : list written :=
  match s with ASegAttrs a => map attr_written (al_parts a) | ASegClass cl => flat_map classlike_written cl end.
Definition selector_written (s : a_selector) : list written :=
  match as_first s with
  | AStartAttrs a => map attr_written (al_parts a)
  | AStartTag _ cl => flat_map classlike_written cl
  end ++ flat_map segment_written (as_segments s).

Notation value r := (decoded slc (FromSource r)).

(** The first id, all classes in one attribute, then the attributes in order; escapes are
    decoded; in XML an attribute without a value has the empty value. *)
Definition source_attrs (s : a_selector) : list (str * option str) :=
  let w := selector_written s in
  match flat_map (fun x => match x with WId r => [value r] | _ => [] end) w with
  | i :: _ => [(L "id", Some i)]
  | [] => []
  end
  ++ match flat_map (fun x => match x with WClass r => [value r] | _ => [] end) w with
     | [] => []
     | cs => [(L "class", Some (join_with [32] cs))]
     end
  ++ flat_map (fun x => match x with
                        | WAttr n (Some v) => [(value n, Some (value v))]
                        | WAttr n None => [(value n, if xml then Some [] else None)]
                        | _ => []
                        end) w.

(** ** What the converter adds *)
Variable cfg : config.

(** Names for elements without a name (README 561-757), for inline formatting (by an
    option or by default), of the page, and of the elements that hold metadata. *)
Definition inferred_names : list str :=
  [L "p"; L "div"; L "span"; L "li"; L "tr"; L "th"; L "td"; L "col"; L "dt"; L "dd"; L "option"; L "optgroup";
   L "area"; L "summary"; L "input"; L "legend"; L "img"; L "source"; L "title"; L "head"; L "body"].
Definition given_name (t : str) : Prop :=
  In t inferred_names \/
  (exists k, documented_option (c_special cfg) k = Some t \/ t = documented_default k) \/
  (c_complete_page cfg = Some true /\ In t [L "html"; L "head"; L "body"]) \/
  (c_metadata cfg = Some true /\ In t [L "mty:element"; L "mty:text"; L "mty:comment"]).

Definition metadata_names : list str :=
  [L "xmlns:mty"; L "mty:raw"; L "mty:verbatim"; L "mty:multiline"; L "mty:start"; L "mty:end";
   L "mty:content-start"; L "mty:content-end"].
Definition metadata_attrs (m : list (str * option str)) : Prop :=
  (m <> [] -> c_metadata cfg <> None) /\ Forall (fun a => In (fst a) metadata_names) m /\ NoDup (map fst m).
Definition lang_attrs (l : list (str * option str)) : Prop :=
  l = [] \/ exists v, c_lang cfg = Some v /\ l = [(L "lang", Some (decoded slc (Provided v)))].

(** ** The name [n] and the attributes of an opening tag, for the source [c].
    [o]: the selector of the source, if there is one. *)
Definition tag_from (c : a_content) (n : str) (attrs : list (str * option str)) : Prop :=
  exists o : option a_selector,
    (forall a, o = Some a -> exists b e, Occurs (content_items c) (ANode b (ANSelector a) e)) /\
    ((exists a r, o = Some a /\ source_tag a = Explicit (FromSource r) /\ n = slc r) \/
     (given_name n /\ forall a r, o = Some a -> source_tag a <> Explicit (FromSource r))) /\
    exists m l, attrs = match o with Some a => source_attrs a | None => [] end ++ m ++ l /\ metadata_attrs m /\ lang_attrs l.

(** ** Attributes that occur once.  Names of attributes are compared without case in HTML. *)
Definition attr_key (n : str) : str := if xml then n else lower n.
Definition distinct_attrs (attrs : list (str * option str)) : Prop := NoDup (map (fun a => attr_key (fst a)) attrs).
Definition has_attr (n : str) (attrs : list (str * option str)) : Prop := In (attr_key n) (map (fun a => attr_key (fst a)) attrs).

(** Every selector of the source writes attributes with different names (the first id
    and the classes count as attributes [id] and [class]), other than those that the
    converter adds. *)
Definition distinct_source (c : a_content) : Prop :=
  forall b a e, Occurs (content_items c) (ANode b (ANSelector a) e) ->
    distinct_attrs (source_attrs a) /\
    (c_metadata cfg <> None -> forall n, In n metadata_names -> ~ has_attr n (source_attrs a)) /\
    (c_lang cfg <> None -> ~ has_attr (L "lang") (source_attrs a)).
End Attrs.

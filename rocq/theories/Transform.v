(** * Document transforms: mintyml/src/transform/*.rs. *)

From Verif Require Import Base Doc Config Infer.

(** gramma's [LocationRange::INVALID]: from the greatest location to the least
    ([usize] of 64 bits). *)
Definition loc_max : N := 18446744073709551615.
(* used in complete_page.rs:63-64, metadata.rs:239-256 *)
Definition invalid_range : lrange := mkR loc_max 0.

(** ** transform/apply_special_tags.rs *)

(** apply_special_tags.rs:26-38 [tag_name]. The last case reads [emphasis], as the
    code does. *)
Definition or_name (o : option str) (d : str) : str := match o with Some s => s | None => d end.
(* apply_special_tags.rs:26-38 (as above) *)
Definition special_tag_name (cfg : special_tags) (k : special_kind) : str :=
  match k with
  | Emphasis => or_name (st_emphasis cfg) (L "em")
  | Strong => or_name (st_strong cfg) (L "strong")
  | Underline => or_name (st_underline cfg) (L "u")
  | Strike => or_name (st_strike cfg) (L "s")
  | Quote => or_name (st_quote cfg) (L "q")
  | Code => or_name (st_code cfg) (L "code")
  | CodeBlockContainer => or_name (st_emphasis cfg) (L "pre")
  end.

(** apply_special_tags.rs:59-73: the tags of one element. *)
Definition special_element (cfg : special_tags) (e : element) : element :=
  match e_type e with
  | Special k => apply_tags e [Provided (special_tag_name cfg k)]
  | Multiline MLCode =>
      apply_tags e [Provided (special_tag_name cfg CodeBlockContainer); Provided (special_tag_name cfg Code)]
  | _ => e
  end.

(** apply_special_tags.rs:40-77 [transform_content], [transform_node],
    [transform_element]. *)
Fixpoint special_node (cfg : special_tags) (n : node) : node :=
  match n with
  | NTxt r t => NTxt r t
  | NElt r e => NElt r (with_nodes (special_element cfg e) (map (special_node cfg) (e_nodes e)))
  end.

(** ** transform/complete_page.rs *)

Section Page.
Variable slc : lrange -> str.

(** complete_page.rs:12 *)
Definition metadata_tags : list str := [L "base"; L "link"; L "meta"; L "title"; L "style"].

(** complete_page.rs:15-48 [extract_element_with_tag_in], [has_tag_in] *)
Definition element_with_tag_in (tags : list str) (n : node) : option element :=
  match n with
  | NElt _ e =>
      match e_selectors e with
      | s :: _ =>
          match tag_name (s_tag s) with
          | Some t => if existsb (eq_ignore_case (as_str slc t)) tags then Some e else None
          | None => None
          end
      | [] => None
      end
  | NTxt _ _ => None
  end.
(* complete_page.rs:15-48 (as above) *)
Definition has_tag_in (tags : list str) (n : node) : bool :=
  match element_with_tag_in tags n with Some _ => true | None => false end.

(** [Element::new(LocationRange::INVALID, Unknown).with_tag(t)] with the given content
    (complete_page.rs:63-64, 75-78) *)
Definition page_element (t : str) (crange : lrange) (ns : list node) : element :=
  with_content (apply_tags (new_elt invalid_range Unknown) [Provided t]) crange ns.

(** complete_page.rs:80-95: the nodes of the head and of the body. *)
Fixpoint split_page (ns : list node) : list node * list node :=
  match ns with
  | [] => ([], [])
  | n :: rest =>
      let (head, body) := split_page rest in
      match element_with_tag_in [L "head"] n with
      | Some e => (e_nodes e ++ head, body)
      | None => if has_tag_in metadata_tags n then (n :: head, body) else (head, n :: body)
      end
  end.

(** complete_page.rs:51-110 [complete_page] *)
Definition complete_page (crange : lrange) (ns : list node) : list node :=
  if existsb (has_tag_in [L "html"]) ns then ns
  else if existsb (has_tag_in [L "body"]) ns
  then [elt_node (page_element (L "html") crange ns)]
  else
    let (head, body) := split_page ns in
    [elt_node (page_element (L "html") crange
       [elt_node (page_element (L "head") invalid_range head);
        NTxt invalid_range (TSpace ParagraphEnd);
        elt_node (page_element (L "body") invalid_range body)])].
End Page.

(** ** transform/metadata.rs *)

(** metadata.rs:15-35 *)
Definition xmlns_uri : str := L "tag:youngspe.github.io,2024:mintyml/metadata".
(* metadata.rs:15-35 (as above) *)
Definition a_xmlns : str := L "xmlns:mty".
(* metadata.rs:15-35 (as above) *)
Definition a_start : str := L "mty:start".
(* metadata.rs:15-35 (as above) *)
Definition a_end : str := L "mty:end".
(* metadata.rs:15-35 (as above) *)
Definition a_content_start : str := L "mty:content-start".
(* metadata.rs:15-35 (as above) *)
Definition a_content_end : str := L "mty:content-end".
(* metadata.rs:15-35 (as above) *)
Definition a_verbatim : str := L "mty:verbatim".
(* metadata.rs:15-35 (as above) *)
Definition a_rawname : str := L "mty:raw".
(* metadata.rs:15-35 (as above) *)
Definition a_multiline : str := L "mty:multiline".

(** metadata.rs:50-76 [add_some], [add] *)
Definition meta_attr (loc : N) (name v : str) : attribute :=
  mkAttr (mkR loc loc) (Provided name) (Some (Provided v)).

(** metadata.rs:78-98 [add_location], [add_range]; [dec] is [usize::to_string]. *)
Definition add_range (loc : N) (start_name end_name : str) (r : lrange) : list attribute :=
  if r_start r <=? r_end r
  then [meta_attr loc start_name (dec (r_start r)); meta_attr loc end_name (dec (r_end r))]
  else [].

(** metadata.rs:100-115 [add_bool_except] with default [false] *)
Definition add_true (loc : N) (name : str) (v : bool) : list attribute :=
  if v then [meta_attr loc name (L "true")] else [].

(** metadata.rs:117-131 [build_selector_item], [finish] *)
Definition add_attrs (s : selector) (loc : N) (attrs : list attribute) : selector :=
  match attrs with
  | [] => s
  | _ => mkSel (s_range s) (s_tag s) (s_items s ++ [SAttrs (mkR loc loc) attrs])
  end.

Section Metadata.
Variable elements : bool.

(** metadata.rs:184-217: the selectors from the [i]-th on, last first; also the
    content range accumulated so far. *)
Fixpoint meta_sels (outer : lrange) (e : element) (root : bool) (outer_index i : nat)
    (sels : list selector) : list selector * lrange :=
  match sels with
  | [] => ([], e_crange e)
  | s :: rest =>
      let (rest', content_range) := meta_sels outer e root outer_index (S i) rest in
      if uninferred s && negb elements then (s :: rest', content_range)
      else
        let s := if uninferred s then mkSel (s_range s) (Explicit (Provided (L "mty:element"))) (s_items s)
                 else s in
        let loc := r_end (s_range s) in
        let is_outer := (i =? outer_index)%nat in
        let range := if is_outer then outer
                     else combine content_range (mkR (r_start (s_range s)) (r_end outer)) in
        let attrs :=
          (if is_outer
           then (if root then [meta_attr loc a_xmlns xmlns_uri] else []) ++ add_true loc a_rawname (e_raw e)
           else [])
          ++ add_range loc a_start a_end range
          ++ add_range loc a_content_start a_content_end (e_crange e) in
        (add_attrs s loc attrs :: rest', combine content_range range)
  end.

(** [position(|s| !s.uninferred()).unwrap_or(0)] *)
(* metadata.rs:174-178 *)
Fixpoint first_inferred (sels : list selector) : option nat :=
  match sels with
  | [] => None
  | s :: rest => if uninferred s then option_map S (first_inferred rest) else Some 0%nat
  end.

(** metadata.rs:154-220 [handle_element] *)
Definition handle_element (outer : lrange) (e : element) (root : bool) : element :=
  if negb (existsb (fun s => negb (uninferred s)) (e_selectors e)) && negb elements then e
  else
    let sels := match e_selectors e with
                | [] => if negb (existsb (fun s => negb (uninferred s)) (e_selectors e))
                        then [sel_empty (r_start outer)] else []
                | sels => sels
                end in
    let outer_index := if elements then 0%nat
                       else match first_inferred sels with Some i => i | None => 0%nat end in
    with_selectors e (fst (meta_sels outer e root outer_index 0 sels)).

(** metadata.rs:239-256. [is_raw] is set from [escape_out], as in the code. *)
Definition text_element (r : lrange) (t : text) : element :=
  let loc := r_start r in
  let attrs := add_true loc a_verbatim (negb (t_unescape_in t)) ++ add_true loc a_multiline (t_multiline t) in
  mkElt r [add_attrs (sel_with_tag (sel_empty loc) (Provided (L "mty:text"))) loc attrs] invalid_range
        [NTxt r (TText t)] Unknown true (t_escape_out t).

(** document/text.rs:75-83 [Text::default] with the fields of metadata.rs:270-274 *)
Definition comment_text (s : tslice) : text := mkText s false false true false.

(** metadata.rs:261-277 *)
Definition comment_element (r : lrange) (s : tslice) : element :=
  let e := apply_tags (new_elt r Unknown) [Provided (L "mty:comment")] in
  mkElt (e_range e) (e_selectors e) (e_crange e) [NTxt r (TText (comment_text s))] Unknown true false.

(** metadata.rs:221-286 [process_node] *)
Fixpoint meta_node (root : bool) (n : node) : node :=
  match n with
  | NElt r e => NElt r (with_nodes (handle_element r e root) (map (meta_node false) (e_nodes e)))
  | NTxt r (TText t) =>
      if elements && negb (t_raw t) then elt_node (handle_element r (text_element r t) root) else n
  | NTxt r (TComment s) =>
      if elements then elt_node (handle_element r (comment_element r s) root) else n
  | NTxt _ (TSpace _) => n
  end.
End Metadata.

(** ** transform/mod.rs *)

(** transform/mod.rs:24-38: append the attribute to the first named selector. *)
Definition lang_attr (loc : N) (lang : str) : sel_item :=
  SAttrs (mkR loc loc) [mkAttr (mkR loc loc) (Provided (L "lang")) (Some (Provided lang))].
(* transform/mod.rs:24-38 (as above) *)
Fixpoint lang_sels (lang : str) (sels : list selector) : list selector :=
  match sels with
  | [] => []
  | s :: rest =>
      if uninferred s then s :: lang_sels lang rest
      else mkSel (s_range s) (s_tag s) (s_items s ++ [lang_attr (r_end (s_range s)) lang]) :: rest
  end.
(* transform/mod.rs:24-38 (as above) *)
Definition lang_node (lang : str) (n : node) : node :=
  match n with
  | NElt r e => NElt r (with_selectors e (lang_sels lang (e_selectors e)))
  | NTxt _ _ => n
  end.

(** transform/mod.rs:17-43 [apply_lang] *)
Definition apply_lang (lang : option str) (ns : list node) : list node :=
  match lang with Some l => map (lang_node l) ns | None => ns end.

(** transform/mod.rs:45-65 [transform_document], on the document's content.
    [None]: inference ran out of fuel (it does not, see P_Infer.v). *)
Definition transform_document (slc : lrange -> str) (cfg : config) (crange : lrange) (ns : list node)
    : option (list node) :=
  let ns := map (special_node (c_special cfg)) ns in
  let ns := match c_complete_page cfg with Some true => complete_page slc crange ns | _ => ns end in
  match infer slc ns with
  | Some ns =>
      let ns := match c_metadata cfg with Some el => map (meta_node el true) ns | None => ns end in
      Some (apply_lang (c_lang cfg) ns)
  | None => None
  end.

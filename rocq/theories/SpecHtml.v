(** * A reader for the output, and what it should read.

    The reader is written from the tokenization rules of the HTML standard
    (13.2.5) and XML restricted to the constructs a serializer needs; it knows
    nothing about the writer. *)

From Verif Require Import Base SpecMarkup.

(** HTML/XML white space. *)
Definition html_ws (c : chr) : bool := (c =? 9) || (c =? 10) || (c =? 12) || (c =? 13) || (c =? 32).

Definition ascii_letter (c : chr) : bool :=
  ((65 <=? c) && (c <=? 90)) || ((97 <=? c) && (c <=? 122)).

(** What a reader sees. *)
Inductive item :=
| IOpen (name : str) (attrs : list (str * option str)) (self_close : bool)
| IClose (name : str)
| IComment (body : str)
| IDoctype
| IText (t : str).

Fixpoint take_while (p : chr -> bool) (s : str) : str * str :=
  match s with
  | [] => ([], [])
  | c :: s' => if p c then let '(a, b) := take_while p s' in (c :: a, b) else ([], s)
  end.

Definition tag_name_char (c : chr) : bool :=
  negb (html_ws c || (c =? 47) || (c =? 62) || (c =? 60)).
Definition attr_name_char (c : chr) : bool :=
  negb (html_ws c || (c =? 47) || (c =? 62) || (c =? 61) || (c =? 34) || (c =? 39) || (c =? 60)).

(** Attributes up to the end of the tag: the attributes, whether the tag is
    self-closed, and the rest of the input. *)
Fixpoint read_attrs (ref : str -> option chr) (fuel : nat) (s : str)
  : option (list (str * option str) * bool * str) :=
  match fuel with
  | O => None
  | S f =>
      let '(ws, s1) := take_while html_ws s in
      match s1 with
      | [] => None
      | c :: s2 =>
          if c =? 62 then Some ([], false, s2)
          else if c =? 47 then
            match s2 with
            | d :: s3 => if d =? 62 then Some ([], true, s3) else None
            | [] => None
            end
          else if is_nil ws then None
          else
            let '(name, s3) := take_while attr_name_char s1 in
            if is_nil name then None
            else
              match s3 with
              | 61 :: 34 :: s4 =>
                  match split_once 34 s4 with
                  | None => None
                  | Some (raw, s5) =>
                      match read_refs ref (S (length raw)) raw, read_attrs ref f s5 with
                      | Some v, Some (attrs, sc, rest) => Some ((name, Some v) :: attrs, sc, rest)
                      | _, _ => None
                      end
                  end
              | _ =>
                  match read_attrs ref f s3 with
                  | Some (attrs, sc, rest) => Some ((name, None) :: attrs, sc, rest)
                  | None => None
                  end
              end
      end
  end.

(** One markup construct at a "<". *)
Definition read_mark (ref : str -> option chr) (fuel : nat) (s : str) : option (item * str) :=
  match strip_prefix (L "<!--") s with
  | Some s1 => opt_map (fun br : str * str => (IComment (fst br), snd br)) (until_close s1)
  | None =>
      match strip_prefix (L "<!DOCTYPE html>") s with
      | Some s1 => Some (IDoctype, s1)
      | None =>
          match strip_prefix (L "</") s with
          | Some s1 =>
              let '(name, s2) := take_while tag_name_char s1 in
              match name, s2 with
              | c :: _, 62 :: rest => if ascii_letter c then Some (IClose name, rest) else None
              | _, _ => None
              end
          | None =>
              match strip_prefix (L "<") s with
              | None => None
              | Some s1 =>
                  let '(name, s2) := take_while tag_name_char s1 in
                  match name with
                  | [] => None
                  | c :: _ =>
                      if ascii_letter c then
                        match read_attrs ref fuel s2 with
                        | Some (attrs, sc, rest) => Some (IOpen name attrs sc, rest)
                        | None => None
                        end
                      else None
                  end
              end
          end
      end
  end.

(** How the content of an element is tokenized in HTML (13.2.5.1-5, 13.2.6.4):
    as markup, as text with references only, as raw text, or (plaintext) raw up to
    the end of the page. *)
Inductive content_kind := KMarkup | KRcdata | KRawText | KPlaintext.
Definition content_kind_of (name : str) : content_kind :=
  let n := lower name in
  if existsb (str_eqb n) [L "title"; L "textarea"] then KRcdata
  else if existsb (str_eqb n) [L "script"; L "style"; L "xmp"; L "iframe"; L "noembed"; L "noframes"]
  then KRawText
  else if str_eqb n (L "plaintext") then KPlaintext
  else KMarkup.

(** Does [s] begin with an end tag for [name]? *)
Definition at_end_tag (name s : str) : bool :=
  match strip_prefix (L "</") s with
  | Some s1 => let '(n, r) := take_while tag_name_char s1 in eq_ignore_case n name && negb (is_nil r)
  | None => false
  end.
(** Text before the first end tag for [name], and the rest. *)
Fixpoint until_end_tag (name s : str) : option (str * str) :=
  if at_end_tag name s then Some ([], s)
  else match s with
       | [] => None
       | c :: s' => opt_map (fun br : str * str => (c :: fst br, snd br)) (until_end_tag name s')
       end.

Definition flush (acc : str) : list item := match acc with [] => [] | _ => [IText acc] end.

(** Reading after the opening tag of element [name]: its raw content if it has
    such content, and the rest. *)
Definition read_special (html : bool) (ref : str -> option chr) (i : item) (s : str)
  : option (list item * str) :=
  match i with
  | IOpen name _ _ =>
      match (if html then content_kind_of name else KMarkup) with
      | KMarkup => Some ([], s)
      | KPlaintext => None
      | k =>
          match until_end_tag name s with
          | None => None
          | Some (body, rest) =>
              match k with
              | KRcdata => opt_map (fun t => (flush t, rest)) (read_refs ref (S (length body)) body)
              | _ => Some (flush body, rest)
              end
          end
      end
  | _ => Some ([], s)
  end.

(** The whole output.  [None]: not readable. *)
Fixpoint read_loop (html : bool) (ref : str -> option chr) (fuel : nat) (s : str)
  : option (list item) :=
  match fuel with
  | O => None
  | S f =>
      match s with
      | [] => Some []
      | c :: _ =>
          if c =? 60 then
            match read_mark ref f s with
            | Some (i, rest) =>
                match read_special html ref i rest with
                | Some (l, rest') => opt_map (fun l' => i :: l ++ l') (read_loop html ref f rest')
                | None => None
                end
            | None => None
            end
          else
            let '(run, rest) := take_while (fun d => negb (d =? 60)) s in
            match read_refs ref (S (length run)) run, read_loop html ref f rest with
            | Some t, Some l => Some (IText t :: l)
            | _, _ => None
            end
      end
  end.

Definition ref_of (xml : bool) : str -> option chr := if xml then xml_ref else html_ref.
Definition read_markup (xml : bool) (s : str) : option (list item) :=
  read_loop (negb xml) (ref_of xml) (S (length s)) s.

(** Adjacent text is one text to a reader, and empty text is none. *)
Fixpoint merge_from (acc : str) (l : list item) : list item :=
  match l with
  | [] => flush acc
  | IText t :: l' => merge_from (acc ++ t) l'
  | i :: l' => flush acc ++ i :: merge_from [] l'
  end.
Definition merge_text (l : list item) : list item := merge_from [] l.

(** ** What is expected *)

(** The expected sequence: markup and text exactly as given, and gaps, where the
    document has white space. *)
Inductive expect := XItem (i : item) | XGap (w : str).

Definition all_ws (w : str) : Prop := Forall (fun c => html_ws c = true) w.

(** [Shows layout es is]: the items [is] show the expected sequence [es]: each
    expected item appears unchanged and in order; a gap shows as its own text (or,
    if [layout], other white space) or not at all; white space elsewhere only if
    [layout]. *)
Inductive Shows (layout : bool) : list expect -> list item -> Prop :=
| ShNil : Shows layout [] []
| ShItem : forall i es is, Shows layout es is -> Shows layout (XItem i :: es) (i :: is)
| ShGapNone : forall w es is, Shows layout es is -> Shows layout (XGap w :: es) is
| ShGap : forall w w' es is, w' = w \/ (layout = true /\ all_ws w') ->
    Shows layout es is -> Shows layout (XGap w :: es) (IText w' :: is)
| ShLayout : forall w es is, layout = true -> all_ws w ->
    Shows layout es is -> Shows layout es (IText w :: is).

(** Names a reader takes as one tag or attribute name. *)
Definition good_tag (t : str) : Prop :=
  (exists c r, t = c :: r /\ ascii_letter c = true) /\ Forall (fun c => tag_name_char c = true) t.
Definition good_attr (a : str) : Prop :=
  a <> [] /\ Forall (fun c => attr_name_char c = true) a.

(** Characters that survive the writer's escaping (C04/C05). *)
Definition readable (xml : bool) (c : chr) : bool :=
  if xml then xml_char c else is_scalar c && html_ok c.

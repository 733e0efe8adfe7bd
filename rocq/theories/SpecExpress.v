(** * HTML as a tree, and as text (the standard's serialisation, 13.3). *)

From Verif Require Import Base SpecTree SpecWrite.

Inductive html :=
| HElt (name : str) (attrs : list (str * option str)) (kids : list html)
| HText (t : str)
| HComment (t : str).

(** [raw]: in a script or style, whose text is written as it is in HTML.  Characters and
    attributes are those of SpecWrite.v. *)
Definition raw_text (name : str) : bool := str_eqb name (L "script") || str_eqb name (L "style").
Fixpoint serial (xml raw : bool) (h : html) : str :=
  match h with
  | HElt name attrs kids =>
      if xml && is_nil kids then L "<" ++ name ++ flat_map (attr_html xml) attrs ++ L "/>"
      else if negb xml && html_void_name name then L "<" ++ name ++ flat_map (attr_html xml) attrs ++ L ">"
      else L "<" ++ name ++ flat_map (attr_html xml) attrs ++ L ">" ++
           flat_map (serial xml (raw || raw_text name)) kids ++ L "</" ++ name ++ L ">"
  | HText t => if negb xml && raw then t else text_html xml t
  | HComment t => L "<!--" ++ t ++ L "-->"
  end.

(** Names in ASCII letters, digits, hyphens and colons; void elements are empty; no text is
    empty or next to another; in comments neither two hyphens nor half of a comment of
    MinTyML's. *)
Definition is_element (h : html) : Prop := match h with HElt _ _ _ => True | _ => False end.
Definition is_text (h : html) : Prop := match h with HText _ => True | _ => False end.
Definition scalars (s : str) : Prop := Forall (fun c => is_scalar c = true) s.
Inductive Fine : html -> Prop :=
| FiElt : forall name attrs kids,
    Forall name_char name -> ends_alnum name -> (forall c r, name = c :: r -> ~ 48 <= c <= 57) ->
    Forall (fun a => fst a <> [] /\ scalars (fst a) /\ match snd a with Some v => scalars v | None => True end) attrs ->
    (html_void_name name = true -> kids = []) ->
    Forall Fine kids -> (forall a x y b, kids = a ++ x :: y :: b -> ~ (is_text x /\ is_text y)) ->
    Fine (HElt name attrs kids)
| FiText : forall t, t <> [] -> scalars t -> Fine (HText t)
| FiComment : forall t, Comment t -> ~ starts (L ">") t -> ~ starts (L "->") t ->
    (forall a b, t <> a ++ L "--" ++ b) -> (forall a, t <> a ++ L "-") -> Fine (HComment t).

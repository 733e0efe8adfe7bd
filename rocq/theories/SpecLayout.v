(** * How the output is laid out in lines (C67). *)

From Verif Require Import Base OutText Doc Config SpecMarkup SpecHtml SpecTree.

(** What is written, from left to right: *)
Inductive mark :=
| Ink (s : str) (blank : bool)   (* a tag, a text or a comment; [blank]: it ends in a blank of the source *)
| Space (w : str)                (* white space in a line *)
| Break (depth : nat)            (* white space where a line may end *)
| Edge (depth : nat).            (* the begin or the end of an element's content, if it has lines of its own *)

(** Elements whose content has lines of its own: those written with a block, and those that
    page completion adds, but not the outer ones of a chain ([a> b { ... }]). *)
Definition own_lines (e : element) : bool :=
  match e_type e with
  | Standard (DBlock _) | Standard (DLineBlock _ _) | Unknown => negb (e_format_inline e)
  | _ => false
  end.
(** Everything in an element is indented by one step more than the element, but in html. *)
Definition deeper (name : str) (depth : nat) : nat := if str_eqb (lower name) (L "html") then depth else S depth.

Section Layout.
Variable slc : lrange -> str.
Variable xml : bool.

(** [Marks depth own raw n ms]: [n] is written as [ms] at the given depth, in an element whose
    content has lines of its own ([own]) or not, and is raw text ([raw]) or not. *)
Inductive Marks : nat -> bool -> bool -> node -> list mark -> Prop :=
| MkText : forall d own raw r t, slice_is_empty (t_slice t) = false ->
    Marks d own raw (NTxt r (TText t))
      [Ink (if written_raw xml raw t then text_value slc t else esc_str xml false (text_value slc t)) (text_blank slc t)]
| MkEmpty : forall d own raw r t, slice_is_empty (t_slice t) = true -> Marks d own raw (NTxt r (TText t)) []
| MkComment : forall d own raw r s,
    Marks d own raw (NTxt r (TComment s)) [Ink (L "<!--" ++ comment_body (as_str slc s) ++ L "-->") false]
| MkInline : forall d own raw r s, Marks d own raw (NTxt r (TSpace (SInline s))) [Space (space_value slc (SInline s))]
| MkBreak : forall d own raw r s, (s = LineEnd \/ s = ParagraphEnd) ->
    Marks d own raw (NTxt r (TSpace s)) [if own then Break d else Space [32]]
| MkUnnamed : forall d own raw r e ms, elt_tag slc (e_selectors e) = None ->
    MarksL d (own_lines e) (raw || e_raw e) (trim_spaces (e_nodes e)) ms -> Marks d own raw (NElt r e) ms
| MkSelfClosed : forall d own raw r e t s, elt_tag slc (e_selectors e) = Some (t, s) -> xml = true -> e_nodes e = [] ->
    Marks d own raw (NElt r e) [Ink (open_text slc xml t s true) false]
| MkLine : forall d own raw r e t s ms, elt_tag slc (e_selectors e) = Some (t, s) -> xml = false \/ e_nodes e <> [] ->
    own_lines e = false \/ e_nodes e = [] -> MarksL d false (raw || e_raw e) (trim_spaces (e_nodes e)) ms ->
    Marks d own raw (NElt r e)
      (Ink (open_text slc xml t s false) false :: ms ++ (if negb xml && html_void_name t then [] else [Ink (close_text t) false]))
| MkLines : forall d own raw r e t s ms, elt_tag slc (e_selectors e) = Some (t, s) ->
    own_lines e = true -> e_nodes e <> [] -> MarksL (deeper t d) true (raw || e_raw e) (trim_spaces (e_nodes e)) ms ->
    Marks d own raw (NElt r e)
      (Ink (open_text slc xml t s false) false :: Edge (deeper t d) :: ms ++ Edge d :: (if negb xml && html_void_name t then [] else [Ink (close_text t) false]))
with MarksL : nat -> bool -> bool -> list node -> list mark -> Prop :=
| MkNil : forall d own raw, MarksL d own raw [] []
| MkCons : forall d own raw n ns ms ms', Marks d own raw n ms -> MarksL d own raw ns ms' -> MarksL d own raw (n :: ns) (ms ++ ms').
End Layout.

(** The text: white space is written unless there is some already.  With an indentation a line
    ends at every [Break] and [Edge], and the next one begins with as many indentations as its
    depth; without, a [Break] is a space and an [Edge] nothing. *)
Fixpoint typeset (indent : option str) (after_space : bool) (ms : list mark) : str :=
  match ms with
  | [] => []
  | Ink s blank :: ms' => s ++ typeset indent blank ms'
  | Space w :: ms' => (if after_space then [] else w) ++ typeset indent true ms'
  | Break d :: ms' =>
      (if after_space then [] else match indent with Some i => [10] ++ concat (repeat i d) | None => [32] end) ++ typeset indent true ms'
  | Edge d :: ms' =>
      match indent with
      | Some i => (if after_space then [] else [10] ++ concat (repeat i d)) ++ typeset indent true ms'
      | None => typeset indent after_space ms'
      end
  end.

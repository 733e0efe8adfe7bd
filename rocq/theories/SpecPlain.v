(** * Plain text: a source without the characters that mean something.

    Its lines, its paragraphs, and their HTML.  Written over strings only. *)

From Verif Require Import Base SpecTree SpecWrite.

(** The lines of a text *)
Fixpoint lines_of (s : str) : list str :=
  match s with
  | [] => [[]]
  | c :: s' => if c =? 10 then [] :: lines_of s'
               else match lines_of s' with l :: ls => (c :: l) :: ls | [] => [[c]] end
  end.

(** Without the white space at both ends *)
Fixpoint drop_white (s : str) : str :=
  match s with [] => [] | c :: s' => if is_whitespace c then drop_white s' else s end.
Definition trimmed (l : str) : str := rev (drop_white (rev (drop_white l))).

(** Lines that follow each other without an empty one between them; [cur]: those so far *)
Fixpoint grouped (cur : list str) (ls : list str) : list (list str) :=
  match ls with
  | [] => match cur with [] => [] | _ => [cur] end
  | [] :: ls' => match cur with [] => [] | _ => [cur] end ++ grouped [] ls'
  | l :: ls' => grouped (cur ++ [l]) ls'
  end.
Definition paragraphs (s : str) : list (list str) := grouped [] (map trimmed (lines_of s)).

(** Nothing in it means anything: no [\[]{}<>], and no line begins with three equal
    quotation marks. *)
Definition plain_text (s : str) : Prop :=
  Forall (fun c => ~ one_of (L "\[]{}<>") c) s /\
  Forall (fun l => forall c, one_of (L "'""`") c -> ~ starts [c; c; c] (trimmed l)) (lines_of s).

(** [open]: the tag that begins a paragraph *)
Definition paragraph_html (xml : bool) (open : str) (ls : list str) : str :=
  open ++ join_with [32] (map (text_html xml) ls) ++ L "</p>".
Definition plain_html (xml : bool) (open : str) (s : str) : str :=
  join_with [32] (map (paragraph_html xml open) (paragraphs s)).

(** The same with other line ends *)
Definition crlf (s : str) : str := flat_map (fun c => if c =? 10 then [13; 10] else [c]) s.

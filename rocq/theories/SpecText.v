(** * Texts and comments of the source and of the output. *)

From Verif Require Import Base OutText Doc Ast SpecMarkup SpecHtml SpecTree SpecBuild.

(** White space, as Unicode has it: tab, line feed, vertical tab, form feed, carriage return, space,
    next line, no-break space, ogham space mark, the spaces from en quad to hair space, line and
    paragraph separator, narrow no-break space, medium mathematical space, ideographic space. *)
Definition white_characters : list chr :=
  [0x9; 0xA; 0xB; 0xC; 0xD; 0x20; 0x85; 0xA0; 0x1680; 0x2000; 0x2001; 0x2002; 0x2003; 0x2004; 0x2005; 0x2006;
   0x2007; 0x2008; 0x2009; 0x200A; 0x2028; 0x2029; 0x202F; 0x205F; 0x3000].

(** Without white space. *)
Definition dense (s : str) : str := filter (fun c => negb (is_whitespace c)) s.

(** What a reader of the output finds. *)
Definition read_text (l : list item) : str := flat_map (fun i => match i with IText t => t | _ => [] end) l.
Definition read_comments (l : list item) : list str := flat_map (fun i => match i with IComment t => [t] | _ => [] end) l.

(** What texts and comments of the source say. *)
Definition said_text (slc : lrange -> str) (l : list textlike) : str :=
  flat_map (fun t => match t with TText t => text_value slc t | _ => [] end) l.
Definition said_comments (slc : lrange -> str) (l : list textlike) : list str :=
  flat_map (fun t => match t with TComment s => [comment_body (as_str slc s)] | _ => [] end) l.

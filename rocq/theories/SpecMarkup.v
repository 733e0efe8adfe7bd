(** * Readers' side of text-level markup: character references and comments.

    Written from the HTML standard (section 13.2.5.72 ff., character references)
    and the XML recommendation (sections 2.4, 2.5, 4.1, 4.6), independently of the
    writer. *)

From Verif Require Import Base.

(** Value of a decimal numeral (at least one digit). *)
Fixpoint dec_digits (acc : N) (s : str) : option N :=
  match s with
  | [] => Some acc
  | c :: s' => if (48 <=? c) && (c <=? 57) then dec_digits (10 * acc + (c - 48)) s' else None
  end.
Definition parse_dec (s : str) : option N :=
  match s with [] => None | _ => dec_digits 0 s end.

(** HTML "numeric character reference end state": 0, surrogates and out of range
    numbers become U+FFFD; 0x80-0x9F are read as windows-1252. *)
Definition win1252 : list (N * N) :=
  [(0x80,0x20AC); (0x82,0x201A); (0x83,0x0192); (0x84,0x201E); (0x85,0x2026); (0x86,0x2020);
   (0x87,0x2021); (0x88,0x02C6); (0x89,0x2030); (0x8A,0x0160); (0x8B,0x2039); (0x8C,0x0152);
   (0x8E,0x017D); (0x91,0x2018); (0x92,0x2019); (0x93,0x201C); (0x94,0x201D); (0x95,0x2022);
   (0x96,0x2013); (0x97,0x2014); (0x98,0x02DC); (0x99,0x2122); (0x9A,0x0161); (0x9B,0x203A);
   (0x9C,0x0153); (0x9E,0x017E); (0x9F,0x0178)].
Fixpoint assoc (n : N) (l : list (N * N)) : option N :=
  match l with [] => None | (k, v) :: l' => if k =? n then Some v else assoc n l' end.
Definition html_numeric (n : N) : chr :=
  if n =? 0 then 0xFFFD
  else if negb (is_scalar n) then 0xFFFD
  else match assoc n win1252 with Some c => c | None => n end.

(** Code points whose numeric reference an HTML reader takes at face value. *)
Definition html_ok (c : chr) : bool := negb (c =? 0) && is_none (assoc c win1252).

(** The named references used by the writer, from the HTML table of named
    character references. A reader knows many more; none of the others matters,
    because a writer that used another one would not be read back here. *)
Definition html_named (name : str) : option chr :=
  if str_eqb name (L "amp") then Some 38
  else if str_eqb name (L "lt") then Some 60
  else if str_eqb name (L "gt") then Some 62
  else if str_eqb name (L "quot") then Some 34
  else if str_eqb name (L "Tab") then Some 9
  else if str_eqb name (L "NewLine") then Some 10
  else None.

(** XML's five predefined entities. *)
Definition xml_named (name : str) : option chr :=
  if str_eqb name (L "amp") then Some 38
  else if str_eqb name (L "lt") then Some 60
  else if str_eqb name (L "gt") then Some 62
  else if str_eqb name (L "quot") then Some 34
  else if str_eqb name (L "apos") then Some 39
  else None.

(** XML [Char] (production 2): the characters a numeric reference may denote. *)
Definition xml_char (c : chr) : bool :=
  (c =? 9) || (c =? 10) || (c =? 13)
  || ((0x20 <=? c) && (c <=? 0xD7FF)) || ((0xE000 <=? c) && (c <=? 0xFFFD))
  || ((0x10000 <=? c) && (c <=? 0x10FFFF)).

(** The character denoted by the reference [&name;]. *)
Definition html_ref (name : str) : option chr :=
  match name with
  | c :: ds => if c =? 35 then opt_map html_numeric (parse_dec ds) else html_named name
  | [] => None
  end.
Definition xml_ref (name : str) : option chr :=
  match name with
  | c :: ds =>
      if c =? 35 then
        match parse_dec ds with
        | Some n => if xml_char n then Some n else None
        | None => None
        end
      else xml_named name
  | [] => None
  end.

(** Reading a run of text: every ampersand must begin a reference that ends at the
    next semicolon; everything else stands for itself.  [None]: not readable. *)
Fixpoint read_refs (ref : str -> option chr) (fuel : nat) (s : str) : option str :=
  match fuel with
  | O => None
  | S f =>
      match s with
      | [] => Some []
      | c :: s' =>
          if c =? 38 then
            match split_once 59 s' with
            | None => None
            | Some (name, rest) =>
                match ref name with
                | None => None
                | Some x => opt_map (cons x) (read_refs ref f rest)
                end
            end
          else opt_map (cons c) (read_refs ref f s')
      end
  end.

(** Line ends are read as line feeds (HTML 13.2.3.5, XML 2.11), before anything else. *)
Fixpoint newlines (s : str) : str :=
  match s with
  | [] => []
  | c :: s' =>
      if c =? 13 then
        match s' with
        | d :: _ => if d =? 10 then newlines s' else 10 :: newlines s'
        | [] => [10]
        end
      else c :: newlines s'
  end.
(** In an XML attribute value, line ends and tabs are read as spaces (XML 3.3.3). *)
Definition attr_spaces (s : str) : str :=
  map (fun c => if (c =? 9) || (c =? 10) || (c =? 13) then 32 else c) s.

Definition read_html (s : str) : option str := let s := newlines s in read_refs html_ref (S (length s)) s.
(** An XML reader also rejects characters that are not [Char]s. *)
Definition read_xml (s : str) : option str :=
  if forallb xml_char s then let s := newlines s in read_refs xml_ref (S (length s)) s else None.
Definition read_xml_attr (s : str) : option str :=
  if forallb xml_char s then let s := attr_spaces (newlines s) in read_refs xml_ref (S (length s)) s else None.

(** [a] occurs in [s]. *)
Definition occurs (a s : str) : Prop := exists pre post, s = pre ++ a ++ post.

(** [Padded s b]: [b] is [s] with spaces inserted and nothing else changed. *)
Inductive Padded : str -> str -> Prop :=
| PadNil : Padded [] []
| PadKeep : forall c s b, Padded s b -> Padded (c :: s) (c :: b)
| PadSpace : forall s b, Padded s b -> Padded s (32 :: b).

(** A comment body both standards accept (HTML 13.1.6, XML 2.5). *)
Record comment_ok (b : str) : Prop := {
  co_dashes : ~ occurs (L "--") b;
  co_gt : ~ exists r, b = L ">" ++ r;
  co_dash_gt : ~ exists r, b = L "->" ++ r;
  co_end : ~ exists r, b = r ++ L "-";
}.

(** What the reader of a comment sees: the text before the first "-->". *)
Fixpoint until_close (s : str) : option (str * str) :=
  match s with
  | [] => None
  | c :: s' =>
      match strip_prefix (L "-->") s with
      | Some rest => Some ([], rest)
      | None => match until_close s' with
                | Some (b, rest) => Some (c :: b, rest)
                | None => None
                end
      end
  end.

(** Lines joined with line feeds. *)
Fixpoint join_lines (ls : list str) : str :=
  match ls with
  | [] => []
  | [l] => l
  | l :: ls' => l ++ 10 :: join_lines ls'
  end.

(** [Unindent prefix l l']: [l'] is [l] without the indentation [prefix], or [l]
    itself if it does not begin with it. *)
Definition Unindent (prefix l l' : str) : Prop :=
  l = prefix ++ l' \/ (l' = l /\ ~ exists r, l = prefix ++ r).

(** [l'] is [l] without one trailing carriage return, if it has one. *)
Definition ChopCR (l l' : str) : Prop :=
  l = l' ++ [13] \/ (l' = l /\ ~ exists r, l = r ++ [13]).

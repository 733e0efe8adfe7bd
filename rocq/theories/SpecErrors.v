(** * What an error should point at, and the ranges kept in a document. *)

From Verif Require Import Base Doc Ast Errors Convert Grammar SpecSource SpecEscape.

(** The text that opens each kind of delimiter (README). *)
Definition opening (d : unclosed_kind) : str :=
  match d with
  | UBlock => L "{"
  | UInline => L "<("
  | USpecial Emphasis => L "</"
  | USpecial Strong => L "<#"
  | USpecial Underline => L "<_"
  | USpecial Strike => L "<~"
  | USpecial Quote => [60; 34]
  | USpecial Code => L "<`"
  | USpecial CodeBlockContainer => L "```"
  | UComment => L "<!"
  | UAttributeList => L "["
  end.

(** An error points at a piece of the source: for an unclosed delimiter the opening one,
    for a bad escape something that begins with a backslash and is no escape
    sequence, else any piece that is not empty.  Only the error of the parser may
    point between two characters. *)
Definition points_at (src : str) (e : syntax_error) : Prop :=
  exists m, SliceOf src (sy_range e) m /\
    match sy_kind e with
    | KUnclosed d => m = opening d
    | KInvalidEscape => (exists bad, m = 92 :: bad) /\ forall c, ~ EscSeq true m c
    | KParseFailed _ => True
    | _ => m <> []
    end.

(** The parser's answer for [src] is right as far as needed: a tree is a reading of the
    source (Grammar.v), an error quotes the source. *)
Definition reads (alnum : chr -> bool) (parse : str -> a_content + parse_error) (src : str) : Prop :=
  match parse src with
  | inl c => document_ok src alnum c
  | inr e => SliceOf src (mkR (pe_location e) (pe_location e + blen (pe_actual e))) (pe_actual e)
  end.

Definition item_name (i : item_type) : str :=
  match i with
  | ITSelector => L "selector"
  | ITElement => L "element"
  | ITParagraph => L "paragraph"
  | ITText => L "text"
  | ITInlineElement => L "inline element"
  | ITMultiline => L "multiline text"
  | ITComment => L "comment"
  | ITSpace => L "space"
  | ITUnknown => L "<unknown>"
  end.
(** A list in an English sentence. *)
Fixpoint separated (sep : str) (l : list str) : str :=
  match l with
  | [] => []
  | [x] => x
  | x :: l' => x ++ sep ++ separated sep l'
  end.
Definition english (conj : str) (l : list str) : str :=
  match l with
  | [] => L "<none>"
  | [a] => a
  | [a; b] => a ++ L " " ++ conj ++ L " " ++ b
  | _ => separated (L ", ") (removelast l) ++ L ", " ++ conj ++ L " " ++ last l []
  end.

(** What the message about an error should say, given the text it points at. *)
Definition message (debug : str -> str) (src : str) (e : syntax_error) (m : str) : str :=
  match sy_kind e with
  | KInvalidEscape => L "Invalid escape sequence " ++ debug m ++ L "."
  | KUnclosed d => L "Unclosed delimiter " ++ debug (opening d)
  | KParseFailed expected =>
      L "Unexpected " ++ (if r_start (sy_range e) =? blen src then L "end-of-file" else debug m) ++
      L ". Expected " ++ separated (L " | ") expected
  | KUnknown => L "Unknown"
  | KInvalidItem i => L "Invalid " ++ item_name i
  | KMisplaced (MustPrecede t l) => item_name t ++ L " must be followed by " ++ english (L "or") (map item_name l)
  | KMisplaced (MustNotPrecede t l) => item_name t ++ L " must not be followed by " ++ english (L "or") (map item_name l)
  | KMisplaced (MustFollow l t) => item_name t ++ L " must follow " ++ english (L "or") (map item_name l)
  | KMisplaced (MustNotFollow l t) => item_name t ++ L " must not follow " ++ english (L "or") (map item_name l)
  end.

(** Every range kept in a node. *)
Definition slice_ranges (t : tslice) : list lrange := match t with FromSource r => [r] | Provided _ => [] end.
Definition attr_ranges (a : attribute) : list lrange :=
  a_range a :: slice_ranges (a_name a) ++ match Doc.a_value a with Some v => slice_ranges v | None => [] end.
Definition sel_item_ranges (i : sel_item) : list lrange :=
  match i with
  | SId r v | SClass r v => r :: slice_ranges v
  | SAttrs r l => r :: flat_map attr_ranges l
  end.
Definition tag_ranges (t : tag) : list lrange :=
  match t with Explicit v => slice_ranges v | Implicit => [] | Wildcard r => [r] end.
Definition sel_ranges (s : selector) : list lrange :=
  s_range s :: tag_ranges (s_tag s) ++ flat_map sel_item_ranges (s_items s).
Definition delimiter_ranges (d : delimiter) : list lrange :=
  match d with DLine r | DBlock r => [r] | DLineBlock r r' => [r; r'] end.
Definition type_ranges (t : element_type) : list lrange :=
  match t with Standard d | Inline (Some d) => delimiter_ranges d | _ => [] end.
Definition text_ranges (t : textlike) : list lrange :=
  match t with
  | TText t => slice_ranges (t_slice t)
  | TComment s => slice_ranges s
  | TSpace (SInline (Some s)) => slice_ranges s
  | TSpace _ => []
  end.
Fixpoint node_ranges (n : node) : list lrange :=
  match n with
  | NTxt r t => r :: text_ranges t
  | NElt r e => r :: e_range e :: e_crange e :: flat_map sel_ranges (e_selectors e) ++ type_ranges (e_type e) ++
                flat_map node_ranges (e_nodes e)
  end.

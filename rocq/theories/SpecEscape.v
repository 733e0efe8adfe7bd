(** * Specification of text escapes, written from README.md ("Escape Sequence")
    and the documented decoder, independently of the model in Escape.v. *)

From Verif Require Import Base.

(** Hexadecimal digits and their values. *)
Inductive HexDigit : chr -> N -> Prop :=
| HexDec : forall d, d < 10 -> HexDigit (48 + d) d
| HexLow : forall d, 10 <= d < 16 -> HexDigit (87 + d) d
| HexUp  : forall d, 10 <= d < 16 -> HexDigit (55 + d) d.

(** A big-endian hexadecimal numeral with at least one digit. *)
Inductive HexNum : str -> N -> Prop :=
| HexOne : forall c d, HexDigit c d -> HexNum [c] d
| HexSnoc : forall s v c d, HexNum s v -> HexDigit c d -> HexNum (s ++ [c]) (16 * v + d).

(** Numeral as the decoder takes it: an optional plus sign is tolerated. *)
Inductive SignedHexNum (plus_ok : bool) : str -> N -> Prop :=
| Unsigned : forall s v, HexNum s v -> SignedHexNum plus_ok s v
| Plus : forall s v, plus_ok = true -> HexNum s v -> SignedHexNum plus_ok (43 :: s) v.

(** [EscSeq plus_ok e c]: [e] is one complete escape sequence denoting [c]. *)
Inductive EscSeq (plus_ok : bool) : str -> chr -> Prop :=
| EscTab : EscSeq plus_ok (L "\t") 9
| EscNewline : EscSeq plus_ok (L "\n") 10
| EscReturn : EscSeq plus_ok (L "\r") 13
| EscPunct : forall c, In c (L "<>{}'\[]") \/ c = 34 -> EscSeq plus_ok [92; c] c
| EscHex : forall ds v, length ds = 2%nat -> SignedHexNum plus_ok ds v -> v <= 0x7f ->
    EscSeq plus_ok (L "\x" ++ ds) v
| EscUni : forall ds v, (1 <= length ds <= 6)%nat -> SignedHexNum plus_ok ds v ->
    is_scalar v = true ->
    EscSeq plus_ok (L "\u{" ++ ds ++ L "}") v.

(** [Decodes plus_ok s t]: [s] is a concatenation of plain characters and escape
    sequences and [t] is the concatenation of what they denote. *)
Inductive Decodes (plus_ok : bool) : str -> str -> Prop :=
| DecNil : Decodes plus_ok [] []
| DecPlain : forall c s t, c <> 92 -> Decodes plus_ok s t -> Decodes plus_ok (c :: s) (c :: t)
| DecEsc : forall e c s t, EscSeq plus_ok e c -> Decodes plus_ok s t ->
    Decodes plus_ok (e ++ s) (c :: t).

(** What README.md documents: hexadecimal digits only, plus backslash-space for a
    space. *)
Inductive DocumentedEsc : str -> chr -> Prop :=
| DocEsc : forall e c, EscSeq false e c -> DocumentedEsc e c
| DocSpace : DocumentedEsc (L "\ ") 32.

Inductive Documented : str -> str -> Prop :=
| DocNil : Documented [] []
| DocPlain : forall c s t, c <> 92 -> Documented s t -> Documented (c :: s) (c :: t)
| DocSeq : forall e c s t, DocumentedEsc e c -> Documented s t -> Documented (e ++ s) (c :: t).

(** The characters of [s] start at byte offset [p] when a prefix has length [p]. *)
Definition boundary (s : str) (p : N) : Prop := exists pre post, s = pre ++ post /\ blen pre = p.

(** Ranges in increasing order without overlap, each non-empty, from [lo] on. *)
Inductive OrderedFrom : N -> list lrange -> Prop :=
| OrdNil : forall lo, OrderedFrom lo []
| OrdCons : forall lo r rs, lo <= r_start r -> r_start r < r_end r ->
    OrderedFrom (r_end r) rs -> OrderedFrom lo (r :: rs).

(** No escape sequence begins the text. *)
Definition no_escape (s : str) : Prop := forall e c rest, EscSeq true e c -> s <> e ++ rest.

(** No escape sequence begins at byte offset [p] of [s]. *)
Definition no_escape_at (s : str) (p : N) : Prop :=
  forall pre post e c rest, s = pre ++ post -> blen pre = p -> EscSeq true e c -> post <> e ++ rest.

(** [Scan o s rs]: [s], starting at offset [o], is divided into plain characters,
    escape sequences and malformed parts; [rs] are the ranges of the malformed
    parts, each of which starts with a backslash where no escape sequence begins. *)
Inductive Scan : N -> str -> list lrange -> Prop :=
| ScanNil : forall o, Scan o [] []
| ScanPlain : forall o c s rs, c <> 92 -> Scan (o + utf8_len c) s rs -> Scan o (c :: s) rs
| ScanEsc : forall o e c s rs, EscSeq true e c -> Scan (o + blen e) s rs -> Scan o (e ++ s) rs
| ScanBad : forall o bad s rs, no_escape ((92 :: bad) ++ s) ->
    Scan (o + blen (92 :: bad)) s rs ->
    Scan o ((92 :: bad) ++ s) (mkR o (o + blen (92 :: bad)) :: rs).

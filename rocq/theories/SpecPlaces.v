(** * Where texts, comments and interpolations stand in the source. *)

From Verif Require Import Base Doc Ast SpecSource SpecTree SpecBuild SpecTransform.

Definition interpolation_delimiters : list (str * str) :=
  [(L "{{", L "}}"); (L "{%", L "%}"); (L "<%", L "%>"); (L "<?", L "?>")].
Definition multiline_quotes (k : ml_kind) : str :=
  match k with MLEscaped => L """""""" | MLUnescaped => L "'''" | MLCode => L "```" end.

(** [WrittenAt src r t]: the text or comment [t], with the range [r], is written in [src] as the
    syntax has it.  The range of plain text, interpolations, verbatim text and comments is the whole of
    them, delimiters included; that of code and of multi-line text is what stands between the
    delimiters.  The content of [t] is the text between the delimiters, and for an interpolation the
    whole. *)
Inductive WrittenAt (src : str) (r : lrange) : textlike -> Prop :=
| WaPlain : forall m, m <> [] -> SliceOf src r m -> WrittenAt src r (TText (plain_text r))
| WaInterpolation : forall o m c, In (o, c) interpolation_delimiters -> SliceOf src r (o ++ m ++ c) ->
    WrittenAt src r (TText (interpolation r))
| WaCode : forall a m b,
    SliceOf src a (L "<`") -> SliceOf src r m -> SliceOf src b (L "`>") ->
    r_end a = r_start r -> r_end r = r_start b -> WrittenAt src r (TText (code_text r))
| WaVerbatim : forall (raw : bool) hashes m s, In hashes [[]; L "#"; L "##"] ->
    let o := L "<[" ++ (if raw then L "raw" else []) ++ hashes ++ L "[" in
    let c := L "]" ++ hashes ++ L "]>" in
    SliceOf src r (o ++ m ++ c) -> s = mkR (r_start r + blen o) (r_start r + blen o + blen m) ->
    WrittenAt src r (TText (verbatim_text raw s))
| WaMultiline : forall k a info m b,
    SliceOf src a (multiline_quotes k ++ info) -> (forall x y, info = x ++ 10 :: y -> y = []) ->
    SliceOf src r m -> SliceOf src b (multiline_quotes k) ->
    r_end a = r_start r -> r_end r = r_start b -> WrittenAt src r (TText (multiline_text k r))
| WaComment : forall m c s, c = L "!>" \/ c = [] ->
    SliceOf src r (L "<!" ++ m ++ c) -> s = mkR (r_start r + 2) (r_start r + 2 + blen m) ->
    WrittenAt src r (TComment (FromSource s)).

(** Ranges one after the other, from [p] to [q]. *)
Fixpoint one_after_another (p q : N) (l : list lrange) : Prop :=
  match l with
  | [] => p <= q
  | r :: l' => p <= r_start r /\ r_start r <= r_end r /\ one_after_another (r_end r) q l'
  end.

(** ** Elements *)

Definition special_delimiters : list (special_kind * (str * str)) :=
  [(Emphasis, (L "</", L "/>")); (Strong, (L "<#", L "#>")); (Underline, (L "<_", L "_>")); (Strike, (L "<~", L "~>"));
   (Quote, (L "<""", L """>"))].
Definition white (s : str) : Prop := Forall (fun c => is_whitespace c = true) s.

(** [Delimited src sels r cr t]: the source has the delimiters of an element of type [t] around
    its content range [cr], in its range [r]; [sels] are its selectors.  White space between
    delimiters and content is in neither. *)
Inductive Delimited (src : str) (sels : list selector) (r cr : lrange) : element_type -> Prop :=
| DeParagraph : r_start cr = r_start r -> sels = [] -> Delimited src sels r cr Paragraph
| DeLine : forall c s more, sels = s :: more -> r_start (s_range s) = r_start r ->
    SliceOf src c (L ">") -> r_end c = r_start cr -> Delimited src sels r cr (Standard (DLine c))
| DeBlock : forall h a b,
    SliceOf src (mkR (r_start r) (r_start cr)) (h ++ L "{" ++ a) -> white a ->
    SliceOf src (mkR (r_end cr) (r_end r)) (b ++ L "}") -> white b ->
    match sels with [] => h = [] | s :: _ => r_start (s_range s) = r_start r end ->
    Delimited src sels r cr (Standard (DBlock r))
| DeInline : SliceOf src (mkR (r_start r) (r_start cr)) (L "<(") -> SliceOf src (mkR (r_end cr) (r_end r)) (L ")>") ->
    sels = [] -> Delimited src sels r cr (Inline None)
| DeInlineOf : forall m r' d, SliceOf src r (L "<(" ++ m ++ L ")>") -> within r' (mkR (r_start r + 2) (r_end r - 2)) ->
    Delimited src sels r' cr (Standard d) -> Delimited src sels r cr (Inline (Some d))
| DeSpecial : forall k o c a b, In (k, (o, c)) special_delimiters ->
    SliceOf src (mkR (r_start r) (r_start cr)) (o ++ a) -> white a ->
    SliceOf src (mkR (r_end cr) (r_end r)) (b ++ c) -> white b -> sels = [] ->
    Delimited src sels r cr (Special k)
| DeCode : SliceOf src (mkR (r_start r) (r_start cr)) (L "<`") -> SliceOf src (mkR (r_end cr) (r_end r)) (L "`>") -> sels = [] ->
    Delimited src sels r cr (Special Code)
| DeMultiline : forall k info, SliceOf src (mkR (r_start r) (r_start cr)) (multiline_quotes k ++ info) ->
    SliceOf src (mkR (r_end cr) (r_end r)) (multiline_quotes k) -> sels = [] ->
    Delimited src sels r cr (Multiline k).

(** [PlacedIn src outer n]: [n] stands in [outer]; if it is an element it is delimited as written,
    its selectors come one after the other before its content, and what is inside it stands
    between the start of its content and its end. *)
Inductive PlacedIn (src : str) (outer : lrange) : node -> Prop :=
| PiTxt : forall r t, valid_range r -> within r outer -> PlacedIn src outer (NTxt r t)
| PiElt : forall r e,
    valid_range r -> within r outer -> e_range e = r ->
    valid_range (e_crange e) -> within (e_crange e) r ->
    Delimited src (e_selectors e) r (e_crange e) (e_type e) ->
    sels_from (r_start r) (r_start (e_crange e)) (e_selectors e) ->
    Forall (PlacedIn src (mkR (r_start (e_crange e)) (r_end r))) (e_nodes e) ->
    PlacedIn src outer (NElt r e).

(** A line in which every block is the last thing and is not preceded by a combinator. *)
Definition plain_blocks (l : list a_item) : Prop :=
  forall a i b, l = a ++ i :: b -> is_block i -> b = [] /\ forall a' c, a = a' ++ [c] -> ~ is_combinator c.

(** * The core of the language, as README describes it: how a source is written, and the
      HTML that it stands for.

    [Source s us]: the text [s] is the source of the document [us].  Written over strings
    only: no positions, no syntax tree.  [page]: the HTML of a document. *)

From Verif Require Import Base SpecEscape SpecMarkup SpecInfer SpecTree.

(** ** Characters *)

Definition one_of (s : str) (c : chr) : Prop := In c s.
Definition ascii_alnum (c : chr) : Prop := 48 <= c <= 57 \/ 65 <= c <= 90 \/ 97 <= c <= 122.
Definition ends_alnum (s : str) : Prop := exists r c, s = r ++ [c] /\ ascii_alnum c.
(** White space, and without line feed *)
Definition ws (s : str) : Prop := Forall (fun c => is_whitespace c = true) s.
Definition blank_char (c : chr) : Prop := is_whitespace c = true /\ c <> 10.
Definition blanks (s : str) : Prop := Forall blank_char s.
(** Between the parts of a line *)
Definition gap (s : str) : Prop := Forall (one_of [32; 9]) s.
Definition solid (s : str) : Prop := exists c r, s = c :: r /\ is_whitespace c = false.

(** ** Text (README 'Escape Sequence') *)

(** Plain characters and escapes, and what they stand for *)
Inductive Spelled (plain : chr -> Prop) : str -> str -> Prop :=
| SpNil : Spelled plain [] []
| SpPlain : forall c s t, plain c -> Spelled plain s t -> Spelled plain (c :: s) (c :: t)
| SpEscape : forall e c s t, EscSeq false e c -> Spelled plain s t -> Spelled plain (e ++ s) (c :: t).

Definition word_plain (c : chr) : Prop := ~ one_of (L "\[]{}<>") c /\ is_whitespace c = false.
Inductive Words : str -> str -> Prop :=
| WdOne : forall s t, s <> [] -> Spelled word_plain s t -> Words s t
| WdMore : forall s t g s' t', s <> [] -> Spelled word_plain s t -> g <> [] -> blanks g -> Words s' t' ->
    Words (s ++ g ++ s') (t ++ g ++ t').
Definition starts (t s : str) : Prop := exists r, s = t ++ r.
(** Three quotation marks would begin a multi-line text. *)
Definition Text (s t : str) : Prop := Words s t /\ forall c, one_of (L "'""`") c -> ~ starts [c; c; c] s.

(** [t] is followed by [close], and does not contain it before. *)
Definition up_to (close t : str) : Prop := forall a b, t ++ close = a ++ close ++ b -> b = [].

(** ** Selectors (README 'Selectors') *)

Definition name_char (c : chr) : Prop := ascii_alnum c \/ one_of (L "-:") c.
Inductive Tag : str -> option str -> Prop :=
| TgName : forall n, Forall name_char n -> ends_alnum n -> (forall c r, n = c :: r -> ~ 48 <= c <= 57) -> Tag n (Some n)
| TgAny : Tag (L "*") None
| TgNone : Tag [] None.

Definition class_char (c : chr) : Prop := ~ one_of (L "\{}[]()<>`~!@#$%^&*+=,./?""'|;") c /\ is_whitespace c = false.
(** Ids and classes *)
Inductive Marks : str -> list str -> list str -> Prop :=
| MkNil : Marks [] [] []
| MkClass : forall c s ids classes, Forall class_char c -> ends_alnum c -> Marks s ids classes ->
    Marks (L "." ++ c ++ s) ids (c :: classes)
| MkId : forall i s ids classes, Forall class_char i -> ends_alnum i -> Marks s ids classes ->
    Marks (L "#" ++ i ++ s) (i :: ids) classes.

Definition attr_plain (c : chr) : Prop := ~ one_of (L "=>'""/[]\") c /\ is_whitespace c = false.
Definition value_plain (c : chr) : Prop := ~ one_of (L "[]\""'") c /\ is_whitespace c = false.
Inductive Value : str -> str -> Prop :=
| VaDouble : forall s t, Spelled (fun c => c <> 34 /\ c <> 92) s t -> Value (34 :: s ++ [34]) t
| VaSingle : forall s t, Spelled (fun c => c <> 39 /\ c <> 92) s t -> Value (39 :: s ++ [39]) t
| VaPlain : forall s t, s <> [] -> Spelled value_plain s t -> Value s t.
Inductive Attr : str -> str * option str -> Prop :=
| AtName : forall s t, s <> [] -> Spelled attr_plain s t -> Attr s (t, None)
| AtValue : forall s t v w, s <> [] -> Spelled attr_plain s t -> Value v w -> Attr (s ++ L "=" ++ v) (t, Some w).
Inductive Attrs : str -> list (str * option str) -> Prop :=
| AsNil : Attrs [] []
| AsOne : forall s a, Attr s a -> Attrs s [a]
| AsMore : forall s a w s' l, Attr s a -> w <> [] -> ws w -> Attrs s' l -> Attrs (s ++ w ++ s') (a :: l).
Inductive AttrList : str -> list (str * option str) -> Prop :=
| AlNone : AttrList [] []
| AlSome : forall w s l w', ws w -> Attrs s l -> ws w' -> AttrList (L "[" ++ w ++ s ++ w' ++ L "]") l.

(** A selector: the name, if it has one, and the attributes *)
Definition label : Type := option str * list (str * option str).
Definition attributes_of (ids classes : list str) (l : list (str * option str)) : list (str * option str) :=
  match ids with i :: _ => [(L "id", Some i)] | [] => [] end ++
  match classes with [] => [] | _ => [(L "class", Some (join_with [32] classes))] end ++ l.
Inductive Selector : str -> label -> Prop :=
| SelOf : forall tg name mk ids classes al l, Tag tg name -> Marks mk ids classes -> AttrList al l ->
    tg ++ mk ++ al <> [] -> Selector (tg ++ mk ++ al) (name, attributes_of ids classes l).

(** ** Comments (README 'Comments'): they nest. *)

Inductive Comment : str -> Prop :=
| CmNil : Comment []
| CmChar : forall c s, ~ starts (L "<!") (c :: s ++ L "!>") -> ~ starts (L "!>") (c :: s ++ L "!>") -> Comment s -> Comment (c :: s)
| CmNested : forall t s, Comment t -> Comment s -> Comment (L "<!" ++ t ++ L "!>" ++ s).

(** ** Texts of several lines (README 'Multiline', 'Code block') *)

(** [Body q s ls]: [s] is a text between two [q], which stands first in its line at the
    end; [ls] are its lines without the indentation of the end. *)
Inductive Body (q : str) : str -> list str -> Prop :=
| BdOf : forall info ls l0 l0' indent outs, Forall (fun c => ~ one_of [10; 96] c) info ->
    Forall (fun l => ~ In 10 l /\ forall g, gap g -> ~ starts (g ++ q) l) (ls ++ [l0]) -> gap indent ->
    ChopCR l0 l0' -> Forall2 (Unindent indent) (ls ++ [l0']) outs -> join_lines outs <> [] ->
    Body q (q ++ info ++ [10] ++ join_lines (ls ++ [l0]) ++ [10] ++ indent ++ q) outs.

(** ** Documents *)

Inductive written :=
| WElt (k : kind) (l : label) (kids : list written)
| WText (t : str)       (* escaped *)
| WVerbatim (t : str)   (* escaped; its source is the text itself *)
| WLines (t : str) (blank : bool)   (* escaped; [blank]: its source ends with a blank *)
| WMarkup (t : str)     (* as it is in HTML, escaped in XML *)
| WCode (t : str)       (* as it is *)
| WComment (t : str)
| WGap (g : str)
| WBreak.

(** What is not a comment or white space *)
Definition shown (u : written) : bool := match u with WComment _ | WGap _ | WBreak => false | _ => true end.
Definition some_shown (us : list written) : bool := existsb shown us.

(** One element for each selector, each in the one before *)
Fixpoint nested (k : kind) (path : list label) (kids : list written) : written :=
  match path with
  | [] => WElt k (None, []) kids
  | [l] => WElt k l kids
  | l :: path' => WElt k l [nested k path' kids]
  end.

(** A selector or none, and a greater sign *)
Inductive Step : str -> label -> Prop :=
| StSelector : forall s l g, Selector s l -> gap g -> Step (s ++ g ++ L ">") l
| StNone : Step (L ">") (None, []).
(** [a > b >] *)
Inductive Path : str -> list label -> Prop :=
| PaOne : forall s l, Step s l -> Path s [l]
| PaMore : forall s l g s' path, Step s l -> gap g -> Path s' path -> Path (s ++ g ++ s') (l :: path).
(** [a > b {] *)
Inductive Head : str -> list label -> Prop :=
| HdNone : Head [] []
| HdOne : forall s l g, Selector s l -> gap g -> Head (s ++ g) [l]
| HdMore : forall s l g s' l' path, Step s l -> gap g -> Head s' (l' :: path) -> Head (s ++ g ++ s') (l :: l' :: path).

Definition space (g : str) : list written := match g with [] => [] | _ => [WGap g] end.

(** Comments, and what may stand before an element in its line: comments and a gap *)
Inductive Comments : str -> list written -> Prop :=
| CsNil : Comments [] []
| CsCons : forall g t s us, gap g -> Comment t -> Comments s us ->
    Comments (g ++ L "<!" ++ t ++ L "!>" ++ s) (space g ++ WComment t :: us).
Inductive Margin : str -> list written -> Prop :=
| MgNone : Margin [] []
| MgSome : forall s us g, solid s -> Comments s us -> gap g -> Margin (s ++ g) (us ++ space g).

(** Elements that are not written with a selector; their names can be set. *)
Inductive mark := MEmphasis | MStrong | MUnderline | MStrike | MQuote | MCode | MCodeBlock.
Definition special : list (str * str * mark) :=
  [(L "</", L "/>", MEmphasis); (L "<#", L "#>", MStrong); (L "<_", L "_>", MUnderline); (L "<~", L "~>", MStrike);
   ([60; 34], [34; 62], MQuote)].
Definition usual (m : mark) : str :=
  match m with
  | MEmphasis => L "em" | MStrong => L "strong" | MUnderline => L "u" | MStrike => L "s" | MQuote => L "q"
  | MCode => L "code" | MCodeBlock => L "pre"
  end.

(** A line feed, with the white space around it *)
Definition Newline (s : str) : Prop := exists a b, s = a ++ [10] ++ b /\ blanks a /\ blanks b.
Definition break (seen : bool) : list written := if seen then [WBreak] else [].
(** [s] may come before the quotation mark of [r]: it does not end with three of them, nor
    with two that begin a text. *)
Definition begins (a : str) : Prop := a = [] \/ exists a' c, a = a' ++ [c] /\ (is_whitespace c = true \/ one_of (L ">}") c).
Definition apart (s r : str) : Prop :=
  forall a b, r = 34 :: b -> s <> a ++ [34; 34; 34] /\ (begins a -> s <> a ++ [34; 34]).
Definition ends_blank (t : str) : bool := ends_with_char 32 t || ends_with_char 9 t.

Section Written.
Variable tag : mark -> str.
Definition named (m : mark) : list label := match tag m with [] => [] | t => [(Some t, [])] end.

(** [Multi code s u]; [code]: it may be a code block. *)
Inductive Multi : bool -> str -> written -> Prop :=
| MuEscaped : forall code s ls ts, Body [34; 34; 34] s ls -> Forall2 (Spelled (fun c => c <> 92)) ls ts ->
    Multi code s (WElt KOther (None, []) [WLines (join_lines ts) (ends_blank (join_lines ls))])
| MuPlain : forall code s ls, Body [39; 39; 39] s ls ->
    Multi code s (WElt KOther (None, []) [WLines (join_lines ls) (ends_blank (join_lines ls))])
| MuCode : forall s ls, Body (L "```") s ls ->
    Multi true s (nested KOther (named MCodeBlock ++ named MCode) [WLines (join_lines ls) (ends_blank (join_lines ls))]).

(** [Item txt s u]: [txt] tells texts, which cannot stand next to each other.
    [Items free s us]: what stands in a line; [free]: a text may come.
    [Row code s us]: a line, or a text of several; [code]: or a code block.
    [More s us]: further lines of text of a paragraph or of a line element.
    [Block line s path us]: what ends with a block; [line]: after a greater sign.
    [Lines para seen open s us]: [para]: lines of text are paragraphs; [seen]: there is
    something before; [open]: the line before takes lines of text.
    [Element go s us]: what makes a line of its own, with comments; [go]: it takes lines of
    text.  (After a block that begins with a greater sign nothing may follow, C28.) *)
Inductive Item : bool -> str -> written -> Prop :=
| ItText : forall s t, Text s t -> Item true s (WText t)
| ItVerbatim : forall h t, In h [[]; L "#"; L "##"] -> up_to (L "]" ++ h ++ L "]>") t ->
    Item false (L "<[" ++ h ++ L "[" ++ t ++ L "]" ++ h ++ L "]>") (WVerbatim t)
| ItRaw : forall h t, In h [[]; L "#"; L "##"] -> up_to (L "]" ++ h ++ L "]>") t ->
    Item false (L "<[raw" ++ h ++ L "[" ++ t ++ L "]" ++ h ++ L "]>") (WMarkup t)
| ItInterpolation : forall o c t, In (o, c) [(L "<?", L "?>"); (L "<%", L "%>"); (L "{%", L "%}")] -> up_to c t ->
    Item false (o ++ t ++ c) (WCode (o ++ t ++ c))
| ItComment : forall t, Comment t -> Item false (L "<!" ++ t ++ L "!>") (WComment t)
| ItCode : forall t, up_to (L "`>") t -> Item false (L "<`" ++ t ++ L "`>") (nested KOther (named MCode) [WVerbatim t])
| ItSpecial : forall o c m w s us g, In (o, c, m) special -> ws w -> s = [] \/ solid s -> Lines false false false s us -> blanks g ->
    apart s (g ++ c) -> Item false (o ++ w ++ s ++ g ++ c) (nested KOther (named m) us)
| ItInline : forall w s us w', ws w -> s = [] \/ solid s -> Row true s us -> ws w' ->
    Item false (L "<(" ++ w ++ s ++ w' ++ L ")>") (WElt KLine (None, []) us)
| ItElement : forall w p path s us w', ws w -> Path p path -> Row true s us -> ws w' ->
    Item false (L "<(" ++ w ++ p ++ s ++ w' ++ L ")>") (nested KLine path us)
| ItBlock : forall w line s path us w', ws w -> Block line s path us -> ws w' ->
    Item false (L "<(" ++ w ++ s ++ w' ++ L ")>") (nested (if line then KLine else KOther) path us)
with Items : bool -> str -> list written -> Prop :=
| IsNil : forall free, Items free [] []
| IsCons : forall free txt g s u s' us, gap g -> Item txt s u -> (txt = true -> free = true) ->
    Items (negb txt) s' us -> Items free (g ++ s ++ s') (space g ++ u :: us)
with Row : bool -> str -> list written -> Prop :=
| RwItems : forall code s us, Items true s us -> Row code s us
| RwMulti : forall code g s u, gap g -> Multi code s u -> Row code (g ++ s) (space g ++ [u])
with More : str -> list written -> Prop :=
| MoNil : More [] []
| MoCons : forall nl s us s' us', Newline nl -> solid s -> Row false s us -> More s' us' ->
    More (nl ++ s ++ s') (WBreak :: us ++ us')
with Block : bool -> str -> list label -> list written -> Prop :=
| BkBlock : forall h path w s us g, Head h path -> ws w -> s = [] \/ solid s -> Lines true false false s us -> blanks g ->
    (s <> [] -> w <> []) -> Block false (h ++ L "{" ++ w ++ s ++ g ++ L "}") path us
| BkLine : forall p path g' w s us g, Path p path -> gap g' -> ws w -> s = [] \/ solid s -> Lines false false false s us -> blanks g ->
    (s <> [] -> w <> []) -> Block true (p ++ g' ++ L "{" ++ w ++ s ++ g ++ L "}") path us
with Lines : bool -> bool -> bool -> str -> list written -> Prop :=
| LsEmpty : forall para seen open, Lines para seen open [] [WBreak]
| LsBlank : forall para seen open b s us, blanks b -> Lines para seen false s us -> Lines para seen open ([10] ++ b ++ s) (WBreak :: us)
| LsElement : forall para seen open go s us, Element go s us -> Lines para seen open s (break seen ++ us)
| LsElements : forall para seen open go s us nl s' us', Element go s us -> Newline nl -> Lines para true go s' us' ->
    Lines para seen open (s ++ nl ++ s') (break seen ++ us ++ us')
| LsText : forall seen s u, Paragraph_ s u -> Lines true seen false s (break seen ++ [u])
| LsTexts : forall seen s u nl s' us, Paragraph_ s u -> Newline nl -> Lines true true true s' us ->
    Lines true seen false (s ++ nl ++ s') (break seen ++ u :: us)
| LsRow : forall para seen s us, solid s -> Row false s us -> (para = true -> some_shown us = false) ->
    Lines para seen false s (break seen ++ us)
| LsRows : forall para seen s us nl s' us', solid s -> Row false s us -> (para = true -> some_shown us = false) -> Newline nl ->
    Lines para (seen || some_shown us) false s' us' -> Lines para seen false (s ++ nl ++ s') (break seen ++ us ++ us')
with Paragraph_ : str -> written -> Prop :=
| PgText : forall s us s' us', solid s -> Row false s us -> some_shown us = true -> More s' us' ->
    Paragraph_ (s ++ s') (WElt KPara (None, []) (us ++ us'))
with Element : bool -> str -> list written -> Prop :=
| ElLine : forall c cs p path s us s' us', Margin c cs -> Path p path -> Row true s us -> More s' us' ->
    Element true (c ++ p ++ s ++ s') (cs ++ [nested KLine path (us ++ us')])
| ElBlock : forall c cs line s path us c' cs', Margin c cs -> Block line s path us -> Comments c' cs' ->
    (starts (L ">") s -> c' = []) ->
    Element false (c ++ s ++ c') (cs ++ nested (if line then KLine else KBlock) path us :: cs')
| ElCode : forall c cs s ls c' cs', Margin c cs -> Body (L "```") s ls -> Comments c' cs' ->
    Element false (c ++ s ++ c')
      (cs ++ nested KOther (named MCodeBlock ++ named MCode) [WLines (join_lines ls) (ends_blank (join_lines ls))] :: cs').

Inductive Source : str -> list written -> Prop :=
| SrcOf : forall w s us g, ws w -> s = [] \/ solid s -> Lines true false false s us -> blanks g -> Source (w ++ s ++ g) us.
End Written.

(** ** The HTML of a document *)
Section Page.
Variable xml : bool.

(** Characters in text, and in the value of an attribute *)
Definition char_html (attr : bool) (c : chr) : str :=
  if c =? 38 then L "&amp;" else if c =? 60 then L "&lt;" else if c =? 62 then L "&gt;"
  else if negb xml && (c =? 9) then L "&Tab;" else if negb xml && (c =? 10) then L "&NewLine;"
  else if attr && (c =? 34) then L "&quot;"
  else if (c <=? 31) || ((127 <=? c) && (c <=? 159)) then L "&#" ++ dec c ++ L ";"
  else [c].
Definition text_html : str -> str := flat_map (char_html false).
Definition attr_html (a : str * option str) : str :=
  L " " ++ fst a ++ match snd a with
                    | Some v => L "=""" ++ flat_map (char_html true) v ++ L """"
                    | None => if xml then L "=""""" else []
                    end.
(** In a comment two hyphens are separated, and nothing ends it. *)
Fixpoint hyphens (t : str) : str :=
  match t with
  | [] => []
  | c :: t' => c :: (if (c =? 45) && match t' with [] => true | d :: _ => d =? 45 end then [32] else []) ++ hyphens t'
  end.
Definition comment_html (t : str) : str :=
  L "<!--" ++ (if starts_with (L ">") t || starts_with (L "->") t then [32] else []) ++ hyphens t ++ L "-->".
Definition tag_html (name : str) (attrs : list (str * option str)) (close : str) : str :=
  L "<" ++ name ++ flat_map attr_html attrs ++ close.

Definition text_piece (t html : str) : list piece := match t with [] => [] | _ => [Solid html (ends_blank t)] end.

(** Pieces without the white space at both ends; [true] marks white space. *)
Fixpoint drop_true (l : list (bool * list piece)) : list (bool * list piece) :=
  match l with (true, _) :: l' => drop_true l' | _ => l end.
Definition inner (l : list (bool * list piece)) : list piece := flat_map snd (rev (drop_true (rev (drop_true l)))).

(** [c]: the context; [grand], [parent]: the names of the elements around; [raw]: in a
    script or style *)
Fixpoint pieces (c : context) (grand parent : option str) (raw : bool) (first last : bool) (u : written)
    : bool * list piece :=
  match u with
  | WElt k (given, attrs) kids =>
      let name := match given with
                  | Some _ => given
                  | None => match name_for c grand first last k with Named t => Some t | _ => None end
                  end in
      let c' := inside name k in
      let raw' := raw || match c' with CRaw => true | _ => false end in
      let content := inner (map_pos (pieces c' parent name raw') true kids) in
      (false,
       match name with
       | None => content
       | Some t =>
           if xml && is_nil kids then [Solid (tag_html t attrs (L "/>")) false]
           else Solid (tag_html t attrs (L ">")) false :: content ++
                (if negb xml && html_void_name t then [] else [Solid (L "</" ++ t ++ L ">") false])
       end)
  | WText t => (false, [Solid (if negb xml && raw then t else text_html t) false])
  | WVerbatim t => (false, text_piece t (if negb xml && raw then t else text_html t))
  | WLines t blank => (false, [Solid (if negb xml && raw then t else text_html t) blank])
  | WMarkup t => (false, text_piece t (if xml then text_html t else t))
  | WCode t => (false, text_piece t t)
  | WComment t => (false, [Solid (comment_html t) false])
  | WGap g => (true, [Gap g])
  | WBreak => (true, [Gap [32]])
  end.
Definition page (us : list written) : str :=
  spaced true (inner (map_pos (pieces CSection None None false) true us)).
End Page.

(** *** Options: a complete page, and the language *)
Definition is_named (names : list str) (u : written) : bool :=
  match u with WElt _ (Some n, _) _ => existsb (str_eqb (lower n)) names | _ => false end.
Definition contents (u : written) : list written := match u with WElt _ _ kids => kids | _ => [] end.
Definition wrapped (name : str) (us : list written) : written := WElt KOther (Some name, []) us.
(** What belongs in the head: metadata, and what is in a head that is written *)
Definition in_head : list str := [L "base"; L "link"; L "meta"; L "title"; L "style"].
Definition head_part (u : written) : list written :=
  if is_named [L "head"] u then contents u else if is_named in_head u then [u] else [].
Definition completed (us : list written) : list written :=
  if existsb (is_named [L "html"]) us then us
  else if existsb (is_named [L "body"]) us then [wrapped (L "html") us]
  else [wrapped (L "html")
         [wrapped (L "head") (flat_map head_part us); WBreak;
          wrapped (L "body") (filter (fun u => negb (is_named (L "head" :: in_head) u)) us)]].
Definition in_language (lang : option str) (u : written) : written :=
  match lang, u with
  | Some l, WElt k (name, attrs) kids => WElt k (name, attrs ++ [(L "lang", Some l)]) kids
  | _, _ => u
  end.
Definition document (complete : bool) (lang : option str) (us : list written) : list written :=
  map (in_language lang) (if complete then completed us else us).
Definition doctype (complete : bool) : str := if complete then L "<!DOCTYPE html>" ++ [10] else [].

(** A head that is written with one selector, which is a name only *)
Definition bare_head (u : written) : Prop :=
  is_named [L "head"] u = true -> exists k n kids, u = WElt k (n, []) kids /\ forall l ks, kids <> [WElt k l ks].

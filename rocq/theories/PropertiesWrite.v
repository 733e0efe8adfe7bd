(** * Property theorems about sources and the HTML they stand for: C51, C52.

    SpecWrite.v describes, over strings, how sources are written ([Source s us]) and the
    HTML of what is written ([page]). *)

From Verif Require Import Base Doc Config Errors Convert Grammar Parser SpecSource SpecEscape SpecHtml SpecTree SpecInfer SpecMarkup SpecWrite SpecExpress
  P_Base P_Forward P_Write P_Express.
From Coq Require Import Lia.

(** [alnum]: Rust's [char::is_alphanumeric]: what it is in ASCII, and that white space is
    not; nothing else about it matters here. *)
Definition ascii_alnum_ok (alnum : chr -> bool) : Prop :=
  (forall c, c < 128 -> (alnum c = true <-> ascii_alnum c)) /\ (forall c, is_whitespace c = true -> alnum c = false).
Lemma ascii_is : forall c, is_ascii_alnum c = true <-> ascii_alnum c.
Proof. intros c. unfold is_ascii_alnum, is_digit, ascii_alnum. lia. Qed.
Lemma ascii_is_ok : ascii_alnum_ok is_ascii_alnum.
Proof.
  split; [intros c _; apply ascii_is|]. intros c H. destruct (is_ascii_alnum c) eqn:E; [|reflexivity].
  unfold is_ascii_alnum, is_digit, is_whitespace in *. lia.
Qed.
Lemma ascii_alnum_same : forall alnum, ascii_alnum_ok alnum -> ascii_ok alnum.
Proof.
  intros alnum [H Hw]. split; [|exact Hw]. intros c Hc. specialize (H c Hc). pose proof (ascii_is c).
  destruct (alnum c), (is_ascii_alnum c); intuition congruence.
Qed.
(** The name that an element without a selector has: what the option says, or the usual one *)
Definition names (o : special_tags) (m : mark) : str :=
  match match m with
        | MEmphasis => st_emphasis o | MStrong => st_strong o | MUnderline => st_underline o | MStrike => st_strike o
        | MQuote => st_quote o | MCode => st_code o | MCodeBlock => st_code_block_container o
        end with
  | Some n => n
  | None => usual m
  end.
(** Any options but metadata; the language is written without a backslash, which would be
    decoded.  The option for the container of code blocks is
    not read; that of emphases is read in its place (DESIGN.md): they are the same here. *)
Definition ordinary (cfg : config) : Prop :=
  c_metadata cfg = None /\ forall l, c_lang cfg = Some l -> ~ In 92 l.
Definition complete (cfg : config) : bool := match c_complete_page cfg with Some true => true | _ => false end.
Definition plain (cfg : config) : Prop :=
  ordinary cfg /\ st_code_block_container (c_special cfg) = st_emphasis (c_special cfg).
Lemma complete_is : forall cfg, complete cfg = completes cfg.
Proof. intros cfg. unfold complete, completes. now destruct (c_complete_page cfg) as [[|]|]. Qed.
Lemma names_of : forall cfg tag, ordinary cfg -> (forall m, m <> MCodeBlock -> tag m = names (c_special cfg) m) ->
  tag MCodeBlock = match st_emphasis (c_special cfg) with Some n => n | None => L "pre" end -> plain_config tag cfg.
Proof.
  intros cfg tag (H1 & H2) Hn Hb. split; [|split; [exact H1|unfold speaks; destruct (c_lang cfg); auto]]. intros []; cbn [P_WriteItems.mark_of]; try exact Hb; now rewrite Hn by discriminate.
Qed.
Lemma plain_ok : forall cfg, plain cfg -> plain_config (names (c_special cfg)) cfg.
Proof. intros cfg [Hb Hc]. apply names_of; [exact Hb|reflexivity|]. unfold names. now rewrite Hc. Qed.

(** ** C51: a source written as README describes is converted to the HTML it stands for. *)
Theorem C51_source_converts : forall alnum failure src us cfg, ascii_alnum_ok alnum -> plain cfg -> c_indent cfg = None ->
  Source (names (c_special cfg)) src us -> (complete cfg = true -> Forall bare_head us) ->
  convert (parser alnum failure) source_slice src cfg =
    Some (inl (doctype (complete cfg) ++ page (is_xml cfg) (document (complete cfg) (c_lang cfg) us))).
Proof. intros alnum failure src us cfg Ha Hc Hi Hs Hh. rewrite complete_is in *. eapply source_page; eauto using ascii_alnum_same, plain_ok. Qed.
Print Assumptions C51_source_converts.

(** With indentation: the same tags and texts, apart from white space between them. *)
Theorem C51_source_indented : forall alnum failure src us cfg i, ascii_alnum_ok alnum -> plain cfg -> c_indent cfg = Some i -> all_ws i ->
  Source (names (c_special cfg)) src us -> (complete cfg = true -> Forall bare_head us) ->
  exists o, convert (parser alnum failure) source_slice src cfg = Some (inl (doctype (complete cfg) ++ o)) /\
    Laid (inner (map_pos (pieces (is_xml cfg) CSection None None false) true (document (complete cfg) (c_lang cfg) us))) o.
Proof. intros alnum failure src us cfg i Ha Hc Hi Hw Hs Hh. rewrite complete_is in *. eapply source_laid; eauto using ascii_alnum_same, plain_ok. Qed.
Print Assumptions C51_source_indented.

(** Sources without code blocks, whatever the options are *)
Theorem C51_without_code_blocks : forall alnum failure src us cfg, ascii_alnum_ok alnum -> ordinary cfg -> c_indent cfg = None ->
  (forall tag, (forall m, m <> MCodeBlock -> tag m = names (c_special cfg) m) -> Source tag src us) ->
  (complete cfg = true -> Forall bare_head us) ->
  convert (parser alnum failure) source_slice src cfg =
    Some (inl (doctype (complete cfg) ++ page (is_xml cfg) (document (complete cfg) (c_lang cfg) us))).
Proof.
  intros alnum failure src us cfg Ha Hc Hi Hs Hh. rewrite complete_is in *.
  set (tag := fun m => match m with MCodeBlock => match st_emphasis (c_special cfg) with Some n => n | None => L "pre" end | _ => names (c_special cfg) m end).
  assert (forall m, m <> MCodeBlock -> tag m = names (c_special cfg) m) as Ht by (intros [] Hm; try reflexivity; contradiction).
  apply (source_page src tag); [now apply ascii_alnum_same|now apply Hs|now apply names_of|exact Hh|exact Hi].
Qed.
Print Assumptions C51_without_code_blocks.

(** The description is not ambiguous. *)
Theorem C51_unambiguous : forall xml o src us us', st_code_block_container o = st_emphasis o ->
  Source (names o) src us -> Source (names o) src us' -> page xml us = page xml us'.
Proof.
  intros xml o src us us' Ho H H'.
  set (cfg := mkConfig None (Some xml) o None None None None).
  assert (plain cfg) as Hc by (repeat split; first [discriminate|exact Ho]).
  pose proof (C51_source_converts is_ascii_alnum (fun _ => mkPE 0 [] []) src us cfg ascii_is_ok Hc eq_refl H ltac:(discriminate)) as E.
  pose proof (C51_source_converts is_ascii_alnum (fun _ => mkPE 0 [] []) src us' cfg ascii_is_ok Hc eq_refl H' ltac:(discriminate)) as E'.
  rewrite E in E'. injection E' as E'. change (page xml (document false None us) = page xml (document false None us')) in E'.
  unfold document in E'. rewrite !(map_ext (in_language None) (fun u => u)), !map_id in E' by (now intros []). exact E'.
Qed.
Print Assumptions C51_unambiguous.

(** [<#x#>] is [<(strong> x)>], and so on. *)
Theorem C51_special : forall xml c grand parent raw first last m us,
  pieces xml c grand parent raw first last (WElt KOther (Some (usual m), []) us) =
  pieces xml c grand parent raw first last (nested KLine [(Some (usual m), [])] us).
Proof. now intros xml c grand parent raw first last [] us. Qed.
Print Assumptions C51_special.

(** README 'Code block': the same as [pre > code > '''], the text in the same lines *)
Theorem C51_code_block : forall xml c grand parent raw first last t blank,
  pieces xml c grand parent raw first last (nested KOther (named usual MCodeBlock ++ named usual MCode) [WLines t blank]) =
  pieces xml c grand parent raw first last (nested KLine [(Some (L "pre"), []); (Some (L "code"), [])] [WElt KOther (None, []) [WLines t blank]]).
Proof.
  intros xml c grand parent raw first last t blank.
  change (named usual MCodeBlock ++ named usual MCode) with [(Some (L "pre"), []); (Some (L "code"), []) : label].
  destruct raw, xml; reflexivity.
Qed.
Print Assumptions C51_code_block.

Ltac plain_word := repeat (apply SpPlain; [split; [cbn; intuition discriminate|reflexivity]|]); apply SpNil.
Ltac word := apply ItText; split; [apply WdOne; [discriminate|plain_word]|intros ? Hc [? E]; cbn in Hc; intuition (subst; discriminate)].
Ltac blank := repeat (apply Forall_cons; [split; [reflexivity|discriminate]|]); apply Forall_nil.
Ltac solid_text := eexists _, _; split; reflexivity.
Lemma newline_of : forall b, blanks b -> Newline ([10] ++ b).
Proof. intros b H. exists [], b. repeat split; [constructor|exact H]. Qed.
(** A block of a selector with a class: a text, a special element and a comment in a line,
    an element after a comment, and a code block before a comment *)
Definition c51_source : str :=
  L "div.a {" ++ [10] ++ L "  Some <#big#> text<!no!>" ++ [10] ++ L "  <!m!> img[src=x.png]>" ++ [10] ++
  L "  ```" ++ [10] ++ L "  x < y" ++ [10] ++ L "    z" ++ [10] ++ L "  ``` <!e!>" ++ [10] ++ L "}".
Definition c51_document : list written :=
  [WElt KBlock (Some (L "div"), [(L "class", Some (L "a"))])
     [WElt KPara (None, []) [WText (L "Some"); WGap [32]; WElt KOther (Some (L "strong"), []) [WText (L "big")]; WGap [32]; WText (L "text"); WComment (L "no")];
      WBreak; WComment (L "m"); WGap [32]; WElt KLine (Some (L "img"), [(L "src", Some (L "x.png"))]) [];
      WBreak; WElt KOther (Some (L "pre"), []) [WElt KOther (Some (L "code"), []) [WLines (L "x < y" ++ [10] ++ L "  z") false]]; WGap [32]; WComment (L "e"); WBreak]].
Example C51_example_source : Source usual c51_source c51_document.
Proof.
  assert (Items usual true (L "big") [WText (L "big")]) as I0.
  { apply (IsCons usual true true [] (L "big") (WText (L "big")) [] []); [constructor|word|reflexivity|constructor]. }
  assert (Items usual true (L "Some <#big#> text<!no!>")
    [WText (L "Some"); WGap [32]; WElt KOther (Some (L "strong"), []) [WText (L "big")]; WGap [32]; WText (L "text"); WComment (L "no")]) as I1.
  { apply (IsCons usual true true [] (L "Some") (WText (L "Some")) (L " <#big#> text<!no!>")); [constructor|word|reflexivity|].
    apply (IsCons usual false false [32] (L "<#big#>") (WElt KOther (Some (L "strong"), []) [WText (L "big")]) (L " text<!no!>")); [repeat constructor| |discriminate|].
    - apply (ItSpecial usual (L "<#") (L "#>") MStrong [] (L "big") [WText (L "big")] []);
        [cbn; auto|constructor|right; solid_text| |constructor|intros a b E; destruct a as [|? [|? [|? [|? ?]]]]; discriminate].
      apply (LsRow usual false false (L "big") [WText (L "big")]); [solid_text|now apply RwItems|discriminate].
    - apply (IsCons usual true true [32] (L "text") (WText (L "text")) (L "<!no!>") [WComment (L "no")]); [repeat constructor|word|reflexivity|].
      apply (IsCons usual false false [] (L "<!no!>") (WComment (L "no")) [] []); [constructor| |discriminate|constructor].
      apply (ItComment usual (L "no")). repeat (apply CmChar; [intros [r E]; discriminate|intros [r E]; discriminate|]). constructor. }
  assert (forall n, forallb (fun c => is_ascii_alnum c) n = true -> Forall name_char n) as HN.
  { intros n H. apply Forall_forall. intros c Hc. rewrite forallb_forall in H. specialize (H c Hc). left. now apply ascii_is. }
  assert (Path (L "img[src=x.png]>") [(Some (L "img"), [(L "src", Some (L "x.png"))])]) as P1.
  { apply PaOne. apply (StSelector (L "img[src=x.png]") _ []); [|constructor].
    apply (SelOf (L "img") (Some (L "img")) [] [] [] (L "[src=x.png]") [(L "src", Some (L "x.png"))]); [|constructor| |discriminate].
    - apply TgName; [apply HN; reflexivity|exists (L "im"), 103; split; [reflexivity|unfold ascii_alnum; lia]|]. intros c r [= <- <-]. lia.
    - apply (AlSome [] (L "src=x.png") _ []); [constructor| |constructor]. apply AsOne.
      apply (AtValue (L "src") (L "src") (L "x.png") (L "x.png")); [discriminate|plain_word|]. apply VaPlain; [discriminate|plain_word]. }
  assert (forall l, gap l -> ~ starts (L "```") l) as Q0.
  { intros l H [r ->]. inversion H as [|? ? Hc _]; subst. cbn in Hc. intuition discriminate. }
  assert (Body (L "```") (L "```" ++ [10] ++ L "  x < y" ++ [10] ++ L "    z" ++ [10] ++ L "  ```") [L "x < y"; L "  z"]) as B1.
  { apply (BdOf (L "```") [] [L "  x < y"] (L "    z") (L "    z") (L "  ") [L "x < y"; L "  z"]).
    - constructor.
    - assert (forall a c b g r, gap a -> ~ one_of [32; 9; 96] c -> gap g -> a ++ c :: b = g ++ L "```" ++ r -> False) as Q1.
      { intros a c b g r Ha Hc Hg. revert a Ha. induction Hg as [|d g Hd Hg IH]; intros a Ha E.
        - destruct a as [|e a]; injection E as -> _; [apply Hc; cbn; auto|]. inversion Ha as [|? ? He _]; subst. cbn in He. intuition discriminate.
        - destruct a as [|e a]; injection E as -> E; [apply Hc; cbn in Hd |- *; intuition|]. inversion Ha; subst. eapply IH; eauto. }
      constructor; [|constructor; [|constructor]]; (split; [cbn; intuition discriminate|]); intros g Hg [r E]; rewrite <- app_assoc in E.
      + apply (Q1 (L "  ") 120 (L " < y") g r); [repeat constructor|cbn; intuition discriminate|exact Hg|exact E].
      + apply (Q1 (L "    ") 122 [] g r); [repeat constructor|cbn; intuition discriminate|exact Hg|exact E].
    - repeat constructor.
    - right. split; [reflexivity|]. intros [r E]. do 6 (destruct r as [|? r]; try discriminate).
    - repeat (constructor; [left; reflexivity|]). constructor.
    - discriminate. }
  assert (Lines usual true false false
    (L "Some <#big#> text<!no!>" ++ ([10] ++ L "  ") ++ (L "<!m!> " ++ L "img[src=x.png]>" ++ [] ++ []) ++ ([10] ++ L "  ") ++
     ([] ++ (L "```" ++ [10] ++ L "  x < y" ++ [10] ++ L "    z" ++ [10] ++ L "  ```") ++ L " <!e!>") ++ [10] ++ [])
    ([] ++ WElt KPara (None, []) ([WText (L "Some"); WGap [32]; WElt KOther (Some (L "strong"), []) [WText (L "big")]; WGap [32]; WText (L "text"); WComment (L "no")] ++ []) ::
      [WBreak] ++ ([WComment (L "m"); WGap [32]] ++ [nested KLine [(Some (L "img"), [(L "src", Some (L "x.png"))])] ([] ++ [])]) ++
      [WBreak] ++ ([] ++ nested KOther (named usual MCodeBlock ++ named usual MCode) [WLines (join_lines [L "x < y"; L "  z"]) (ends_blank (join_lines [L "x < y"; L "  z"]))] ::
        [WGap [32]; WComment (L "e")]) ++
      [WBreak])) as L1.
  { apply (LsTexts usual false).
    - rewrite <- (app_nil_r (L "Some <#big#> text<!no!>")). apply PgText; [solid_text|now apply RwItems|reflexivity|constructor].
    - apply newline_of. blank.
    - apply (LsElements usual true true true true).
      + apply ElLine; [|exact P1|apply RwItems; constructor|constructor].
        apply (MgSome (L "<!m!>") [WComment (L "m")] [32]); [solid_text| |repeat constructor].
        apply (CsCons [] (L "m") [] []); [constructor| |constructor]. apply CmChar; [intros [r E]; discriminate|intros [r E]; discriminate|constructor].
      + apply newline_of. blank.
      + apply (LsElements usual true true true false).
        * apply ElCode; [constructor|exact B1|]. apply (CsCons [32] (L "e") [] []); [repeat constructor| |constructor].
          apply CmChar; [intros [r E]; discriminate|intros [r E]; discriminate|constructor].
        * apply newline_of. constructor.
        * constructor. }
  apply (SrcOf usual [] c51_source c51_document []); [constructor|right; solid_text| |constructor].
  apply (LsElement usual true false false false c51_source).
  apply (ElBlock usual [] [] false c51_source [(Some (L "div"), [(L "class", Some (L "a"))])] _ [] []); [constructor| |constructor|reflexivity].
  apply (BkBlock usual (L "div.a ") [(Some (L "div"), [(L "class", Some (L "a"))])] ([10] ++ L "  ")
    (L "Some <#big#> text<!no!>" ++ ([10] ++ L "  ") ++ (L "<!m!> " ++ L "img[src=x.png]>" ++ [] ++ []) ++ ([10] ++ L "  ") ++
     ([] ++ (L "```" ++ [10] ++ L "  x < y" ++ [10] ++ L "    z" ++ [10] ++ L "  ```") ++ L " <!e!>") ++ [10] ++ []) _ []);
    [|repeat (apply Forall_cons; [reflexivity|]); apply Forall_nil|right; solid_text|exact L1|constructor|discriminate].
  apply (HdOne (L "div.a") _ [32]); [|repeat constructor].
  apply (SelOf (L "div") (Some (L "div")) (L ".a") [] [L "a"] [] []); [| |constructor|discriminate].
  - apply TgName; [apply HN; reflexivity|exists (L "di"), 118; split; [reflexivity|unfold ascii_alnum; lia]|]. intros c r [= <- <-]. lia.
  - apply (MkClass (L "a") [] [] []); [|exists [], 97; split; [reflexivity|unfold ascii_alnum; lia]|constructor].
    constructor; [|constructor]. split; [cbn; intuition discriminate|reflexivity].
Qed.
Example C51_example_page :
  page false c51_document = L "<div class=""a""><p>Some <strong>big</strong> text<!--no--></p> <!--m--> <img src=""x.png""> <pre><code>x &lt; y&NewLine;  z</code></pre> <!--e--></div>" /\
  page true c51_document = L "<div class=""a""><p>Some <strong>big</strong> text<!--no--></p> <!--m--> <img src=""x.png""/> <pre><code>x &lt; y&#10;  z</code></pre> <!--e--></div>" /\
  ascii_alnum_ok is_ascii_alnum /\
  (let cfg := mkConfig None None (mkSpecial None None None None None None None) None None None (Some true) in
   plain cfg /\ forall m, names (c_special cfg) m = usual m) /\
  (let cfg := mkConfig None None (mkSpecial (Some []) (Some (L "b")) None None None None None) None None None None in ordinary cfg).
Proof.
  split; [reflexivity|]. split; [reflexivity|]. split; [apply ascii_is_ok|]. split; [|repeat split; discriminate].
  split; [repeat split; discriminate|]. now intros [].
Qed.

(** A title, a head with a character set, and a paragraph, completed *)
Definition c51_parts : list written :=
  [WElt KLine (Some (L "title"), []) [WGap [32]; WText (L "T")]; WBreak;
   WElt KBlock (Some (L "head"), []) [WElt KLine (Some (L "meta"), [(L "charset", Some (L "utf-8"))]) []; WBreak]; WBreak;
   WElt KPara (None, []) [WText (L "x")]].
Example C51_example_complete : Forall bare_head c51_parts /\
  doctype true ++ page false (document true (Some (L "en")) c51_parts) =
  L "<!DOCTYPE html>" ++ [10] ++ L "<html lang=""en""><head><title>T</title><meta charset=""utf-8""></head> <body><p>x</p></body></html>".
Proof.
  split; [|reflexivity]. repeat (constructor; [intros H; try discriminate H|]); [|constructor].
  do 3 eexists. split; [reflexivity|]. intros l ks E. discriminate E.
Qed.

(** ** C52: every HTML element has a source.

    README, 'Principles': any reasonable, valid HTML should be representable.  [Fine]: the
    trees; [serial]: their text in HTML or XML. *)
Theorem C52_html_is_representable : forall alnum failure hs, ascii_alnum_ok alnum ->
  Forall Fine hs -> Forall is_element hs ->
  exists src, forall cfg, ordinary cfg -> complete cfg = false -> c_lang cfg = None -> c_indent cfg = None ->
    convert (parser alnum failure) source_slice src cfg = Some (inl (join_with [32] (map (serial (is_xml cfg) false) hs))).
Proof.
  intros alnum failure hs Ha HF HE. destruct (forest alnum failure (ascii_alnum_same alnum Ha) hs HF HE) as [src H].
  exists src. intros cfg Hc Hp Hl Hi. rewrite complete_is in Hp.
  apply (H (fun m => match m with MCodeBlock => match st_emphasis (c_special cfg) with Some n => n | None => L "pre" end | _ => names (c_special cfg) m end));
    [|exact Hp|exact Hl|exact Hi]. apply names_of; [exact Hc| |reflexivity]. intros [] Hm; try reflexivity. contradiction.
Qed.
Print Assumptions C52_html_is_representable.

(** A list with a link, a line break and a comment *)
Definition c52_tree : html :=
  HElt (L "ul") [] [HElt (L "li") [] [HElt (L "a") [(L "href", Some (L "?a&b"))] [HText (L " 1 < 2 ")]; HText (L "x"); HElt (L "br") [] []; HComment (L "no")]].
Example C52_example : Fine c52_tree /\ is_element c52_tree /\
  serial false false c52_tree = L "<ul><li><a href=""?a&amp;b""> 1 &lt; 2 </a>x<br><!--no--></li></ul>".
Proof.
  assert (forall n, forallb (fun c => is_ascii_alnum c) n = true -> Forall name_char n) as HN.
  { intros n H. apply Forall_forall. intros c Hc. rewrite forallb_forall in H. specialize (H c Hc). left. now apply ascii_is. }
  assert (forall r c, is_ascii_alnum c = true -> ends_alnum (r ++ [c])) as HE.
  { intros r c H. exists r, c. split; [reflexivity|]. now apply ascii_is. }
  assert (forall h, (forall a x y b, [h] = a ++ x :: y :: b -> ~ (is_text x /\ is_text y)) : Prop) as H1.
  { intros h [|? [|? ?]] x y b E; discriminate. }
  split; [|split; [exact I|reflexivity]].
  apply FiElt; [apply HN; reflexivity|apply (HE (L "u")); reflexivity|intros ? ? [= <- <-]; lia|constructor|discriminate| |apply H1].
  constructor; [|constructor].
  apply FiElt; [apply HN; reflexivity|apply (HE (L "l")); reflexivity|intros ? ? [= <- <-]; lia|constructor|discriminate| |].
  - constructor; [|constructor; [|constructor; [|constructor; [|constructor]]]].
    + apply FiElt; [apply HN; reflexivity|apply (HE []); reflexivity|intros ? ? [= <- <-]; lia| |discriminate| |apply H1].
      * constructor; [|constructor]. repeat split; [discriminate|repeat constructor..].
      * constructor; [|constructor]. apply FiText; [discriminate|repeat constructor].
    + apply FiText; [discriminate|repeat constructor].
    + apply FiElt; [apply HN; reflexivity|apply (HE (L "b")); reflexivity|intros ? ? [= <- <-]; lia|constructor|reflexivity|constructor|].
      intros [|? ?] x y b E; discriminate.
    + apply FiComment; [|intros [r E]; discriminate|intros [r E]; discriminate|intros [|? [|? [|? ?]]] b E; discriminate|intros [|? [|? [|? ?]]] E; discriminate].
      repeat (apply CmChar; [intros [r E]; discriminate|intros [r E]; discriminate|]). constructor.
  - intros [|? [|? [|? [|? [|? ?]]]]] x y b E [Hx Hy]; try discriminate; injection E; intros; subst; first [exact Hx|exact Hy].
Qed.

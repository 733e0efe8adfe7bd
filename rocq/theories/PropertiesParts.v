(** * Property theorems about parts of a source, and about its line ends: C55, C56. *)

From Verif Require Import Base Doc Config Errors Convert Grammar Parser SpecSource SpecTree SpecMarkup SpecInfer SpecWrite SpecPlain SpecLineEnds
  P_Base P_Forward P_Write P_Plain P_Parts P_LineEnds PropertiesWrite PropertiesPlain.
From Coq Require Import Lia.

(** ** C55: parts that are separated by an empty line are converted each for itself. *)

(** Refuted for arbitrary sources: a part that begins with two braces, and one that ends
    with two, are each a block; together they are an interpolation. *)
Definition c55_first : str := L "{{ x } }".
Definition c55_second : str := L "{ { y }}".
Theorem C55_parts_refuted : exists a b oa ob o, let conv s := convert (parser is_ascii_alnum (fun _ => mkPE 0 [] [])) source_slice s config_default in
  conv a = Some (inl oa) /\ conv b = Some (inl ob) /\ conv (a ++ [10; 10] ++ b) = Some (inl o) /\
  forall sep, ws sep -> o <> oa ++ sep ++ ob.
Proof.
  exists c55_first, c55_second, (L "<div><div><p>x</p></div></div>"), (L "<div><div><p>y</p></div></div>"), (L "<p>{{ x } }" ++ [10; 10] ++ L "{ { y }}</p>").
  split; [vm_compute; reflexivity|]. split; [vm_compute; reflexivity|]. split; [vm_compute; reflexivity|]. intros sep _. discriminate.
Qed.
Print Assumptions C55_parts_refuted.

(** For sources as in C51.  A comment at the beginning of the second part is left out: it
    is followed by a space if there is something before it. *)
Theorem C55_parts : forall alnum failure cfg a b us us', ascii_alnum_ok alnum -> plain cfg -> c_indent cfg = None -> complete cfg = false ->
  Source (names (c_special cfg)) a us -> Source (names (c_special cfg)) b us' -> (forall w r, b = w ++ L "<!" ++ r -> ~ ws w) ->
  exists oa sep ob, (sep = [] \/ sep = [32]) /\
    convert (parser alnum failure) source_slice a cfg = Some (inl oa) /\
    convert (parser alnum failure) source_slice b cfg = Some (inl ob) /\
    convert (parser alnum failure) source_slice (a ++ [10; 10] ++ b) cfg = Some (inl (oa ++ sep ++ ob)).
Proof.
  intros alnum failure cfg a b us us' Ha Hp Hi Hc HA HB Hb.
  destruct (source_then _ a b us us' HA HB Hb) as (He & us'' & HS & Hu).
  pose proof (C51_source_converts alnum failure a us cfg Ha Hp Hi HA ltac:(congruence)) as EA.
  pose proof (C51_source_converts alnum failure b us' cfg Ha Hp Hi HB ltac:(congruence)) as EB.
  pose proof (C51_source_converts alnum failure _ us'' cfg Ha Hp Hi HS ltac:(congruence)) as EC.
  rewrite Hc in EA, EB, EC. cbn [doctype app] in EA, EB, EC.
  destruct Hu as [[-> ->]|[k ->]].
  - exists [], [], (page (is_xml cfg) (document false (c_lang cfg) us')). split; [now left|]. split; [|split; [exact EB|exact EC]].
    rewrite EA. unfold document. cbn [map]. destruct (c_lang cfg); reflexivity.
  - destruct (parts_document (is_xml cfg) (c_lang cfg) us us' k He) as (sep & Hsep & E). rewrite E in EC. eauto 10.
Qed.
Print Assumptions C55_parts.
Example C55_example : (* the source of C51, twice *)
  Source usual c51_source c51_document /\ (forall w r, c51_source = w ++ L "<!" ++ r -> ~ ws w).
Proof.
  split; [exact C51_example_source|]. intros [|c w] r E Hw; [discriminate|]. injection E as <- _. inversion Hw; discriminate.
Qed.

(** ** C56: line ends of other systems mean the same. *)

(** Refuted: in a code block, a text of several lines, and a verbatim text, the carriage
    returns are written. *)
Theorem C56_line_ends_refuted : exists s o o', let conv s := convert (parser is_ascii_alnum (fun _ => mkPE 0 [] [])) source_slice s config_default in
  conv s = Some (inl o) /\ conv (crlf s) = Some (inl o') /\ o <> o'.
Proof.
  exists (L "```" ++ [10] ++ L "a" ++ [10] ++ L "b" ++ [10] ++ L "```"),
    (L "<pre><code>a&NewLine;b</code></pre>"), (L "<pre><code>a&#13;&NewLine;b</code></pre>").
  split; [vm_compute; reflexivity|]. split; [vm_compute; reflexivity|]. discriminate.
Qed.
Print Assumptions C56_line_ends_refuted.

Theorem C56_plain_text : forall alnum failure src cfg, ascii_alnum_ok alnum -> ordinary cfg -> c_indent cfg = None -> plain_text src ->
  convert (parser alnum failure) source_slice (crlf src) cfg = convert (parser alnum failure) source_slice src cfg.
Proof.
  intros alnum failure src cfg Ha Ho Hi Hp. pose proof (crlf_plain src Hp) as Hp'. destruct (complete cfg) eqn:Hc.
  - rewrite !C54_plain_page by assumption. now rewrite crlf_html.
  - rewrite !C54_plain_text by assumption. now rewrite crlf_html.
Qed.
Print Assumptions C56_plain_text.
Example C56_example : plain_text c54_text /\ crlf c54_text <> c54_text.
Proof. split; [apply C54_example|discriminate]. Qed.

(** For sources as in C51: everything but texts of several lines, and line feeds in what is
    kept as it is or in the value of an attribute, which are refuted above *)
Theorem C56_source : forall alnum failure src us cfg, ascii_alnum_ok alnum -> plain cfg -> c_indent cfg = None ->
  Source (names (c_special cfg)) src us -> (complete cfg = true -> Forall bare_head us) -> Forall steady us ->
  convert (parser alnum failure) source_slice (crlf src) cfg = convert (parser alnum failure) source_slice src cfg.
Proof.
  intros alnum failure src us cfg Ha Hp Hi Hs Hh Ht.
  rewrite (C51_source_converts alnum failure src us cfg), (C51_source_converts alnum failure (crlf src) us cfg); auto using source_crlf.
Qed.
Print Assumptions C56_source.
(** A block with an attribute in a line of its own, a paragraph of two lines, an empty line
    and an element *)
Definition c56_source : str :=
  L "div[" ++ [10] ++ L "title=x] {" ++ [10] ++ L "  a" ++ [10] ++ L "  b" ++ [10; 10] ++ L "  h1> c" ++ [10] ++ L "}".
Definition c56_document : list written :=
  [WElt KBlock (Some (L "div"), [(L "title", Some (L "x"))])
     [WElt KPara (None, []) [WText (L "a"); WBreak; WText (L "b")]; WBreak; WBreak;
      WElt KLine (Some (L "h1"), []) [WGap [32]; WText (L "c")]; WBreak]].
Example C56_source_example : Source usual c56_source c56_document /\ Forall steady c56_document.
Proof.
  split; [|repeat first [apply Forall_nil|apply Forall_cons|split|exact I]; intros [H|[]]; discriminate].
  assert (forall n, forallb (fun c => is_ascii_alnum c) n = true -> Forall name_char n) as HN.
  { intros n H. apply Forall_forall. intros c Hc. rewrite forallb_forall in H. specialize (H c Hc). left. now apply ascii_is. }
  assert (forall c, word_plain c -> ~ one_of (L "'""`") c -> Row usual false [c] [WText [c]]) as R1.
  { intros c Hc Hq. apply RwItems. apply (IsCons usual true true [] [c] (WText [c]) [] []); [constructor| |reflexivity|constructor].
    apply ItText. split; [apply WdOne; [discriminate|apply SpPlain; [exact Hc|constructor]]|]. intros d Hd [r E]. discriminate. }
  assert (forall c, In c (L "abc") -> word_plain c /\ ~ one_of (L "'""`") c) as W1.
  { intros c Hc. cbn in Hc. destruct Hc as [<-|[<-|[<-|[]]]]; (split; [split; [cbn; intuition discriminate|reflexivity]|cbn; intuition discriminate]). }
  assert (Element usual true (L "h1> c") [WElt KLine (Some (L "h1"), []) [WGap [32]; WText (L "c")]]) as E1.
  { apply (ElLine usual [] [] (L "h1>") [(Some (L "h1"), [])] (L " c") [WGap [32]; WText (L "c")] [] []); [constructor| | |constructor].
    - apply PaOne. apply (StSelector (L "h1") _ []); [|constructor]. apply (SelOf (L "h1") (Some (L "h1")) [] [] [] [] []); [|constructor|constructor|discriminate].
      apply TgName; [apply HN; reflexivity|exists (L "h"), 49; split; [reflexivity|unfold ascii_alnum; lia]|]. intros c r [= <- <-]. lia.
    - apply RwItems. apply (IsCons usual true true [32] (L "c") (WText (L "c")) [] []); [repeat constructor|word|reflexivity|constructor]. }
  assert (Lines usual true false false ((L "a" ++ ([10] ++ L "  ") ++ L "b" ++ []) ++ [10] ++ [10] ++ L "  " ++ L "h1> c" ++ [10] ++ [])
    ([] ++ WElt KPara (None, []) ([WText (L "a")] ++ WBreak :: [WText (L "b")] ++ []) :: WBreak :: [WBreak] ++ [WElt KLine (Some (L "h1"), []) [WGap [32]; WText (L "c")]] ++ [WBreak])) as L1.
  { apply (LsTexts usual false).
    - apply PgText; [solid_text|apply R1; apply W1; cbn; auto|reflexivity|]. apply MoCons; [apply newline_of; blank|solid_text|apply R1; apply W1; cbn; auto|constructor].
    - apply (newline_of []). constructor.
    - apply (LsBlank usual true true true (L "  ")); [blank|]. apply (LsElements usual true true false true); [exact E1|apply (newline_of []); constructor|constructor]. }
  apply (SrcOf usual [] c56_source c56_document []); [constructor|right; solid_text| |constructor].
  apply (LsElement usual true false false false c56_source).
  apply (ElBlock usual [] [] false c56_source [(Some (L "div"), [(L "title", Some (L "x"))])] _ [] []); [constructor| |constructor|reflexivity].
  apply (BkBlock usual (L "div[" ++ [10] ++ L "title=x] ") [(Some (L "div"), [(L "title", Some (L "x"))])] ([10] ++ L "  ")
    ((L "a" ++ ([10] ++ L "  ") ++ L "b" ++ []) ++ [10] ++ [10] ++ L "  " ++ L "h1> c" ++ [10] ++ []) _ []);
    [|repeat (apply Forall_cons; [reflexivity|]); apply Forall_nil|right; solid_text|exact L1|constructor|discriminate].
  apply (HdOne (L "div[" ++ [10] ++ L "title=x]") _ [32]); [|repeat constructor].
  apply (SelOf (L "div") (Some (L "div")) [] [] [] (L "[" ++ [10] ++ L "title=x]") [(L "title", Some (L "x"))]); [|constructor| |discriminate].
  - apply TgName; [apply HN; reflexivity|exists (L "di"), 118; split; [reflexivity|unfold ascii_alnum; lia]|]. intros c r [= <- <-]. lia.
  - apply (AlSome [10] (L "title=x") _ []); [repeat (apply Forall_cons; [reflexivity|]); apply Forall_nil| |constructor]. apply AsOne.
    apply (AtValue (L "title") (L "title") (L "x") (L "x")); [discriminate|plain_word|]. apply VaPlain; [discriminate|plain_word].
Qed.

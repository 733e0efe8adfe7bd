(** * Property theorems about plain text: C54.

    SpecPlain.v says what plain text, its paragraphs and their HTML are. *)

From Verif Require Import Base Doc Config Errors Convert Grammar Parser SpecSource SpecTree SpecMarkup SpecWrite SpecPlain
  P_Base P_Forward P_Write P_Plain PropertiesWrite.
From Coq Require Import Lia.

(** [ name="value"] for the language, if there is one *)
Definition lang_html (cfg : config) : str :=
  match c_lang cfg with Some l => L " lang=""" ++ flat_map (char_html (is_xml cfg) true) l ++ L """" | None => [] end.

(** ** C54: plain text becomes its paragraphs, whatever it says. *)
Theorem C54_plain_text : forall alnum failure src cfg, ascii_alnum_ok alnum -> ordinary cfg -> c_indent cfg = None -> complete cfg = false ->
  plain_text src ->
  convert (parser alnum failure) source_slice src cfg = Some (inl (plain_html (is_xml cfg) (L "<p" ++ lang_html cfg ++ L ">") src)).
Proof.
  intros alnum failure src cfg Ha Ho Hi Hc Hp. destruct (plain_source src Hp) as (us & HS & HP & _).
  rewrite (C51_without_code_blocks alnum failure src us cfg Ha Ho Hi) by (auto; congruence). rewrite Hc. cbn [doctype app]. do 2 f_equal.
  rewrite (plain_page _ _ _ _ HP). unfold plain_html, open_tag, tag_html, lang_html. destruct (c_lang cfg) as [l|]; cbn [flat_map]; unfold attr_html; cbn [fst snd]; rewrite ?app_nil_r, <- ?app_assoc; try rewrite <- !app_assoc; reflexivity.
Qed.
Print Assumptions C54_plain_text.

Theorem C54_plain_page : forall alnum failure src cfg, ascii_alnum_ok alnum -> ordinary cfg -> c_indent cfg = None -> complete cfg = true ->
  plain_text src ->
  convert (parser alnum failure) source_slice src cfg =
    Some (inl (L "<!DOCTYPE html>" ++ [10] ++ L "<html" ++ lang_html cfg ++ L ">" ++ (if is_xml cfg then L "<head/>" else L "<head></head>") ++
               L " <body>" ++ plain_html (is_xml cfg) (L "<p>") src ++ L "</body></html>")).
Proof.
  intros alnum failure src cfg Ha Ho Hi Hc Hp. destruct (plain_source src Hp) as (us & HS & HP & Hn).
  rewrite (C51_without_code_blocks alnum failure src us cfg Ha Ho Hi) by (auto; intros _; now apply plain_bare with (paragraphs src)). rewrite Hc.
  rewrite (plain_whole _ _ _ _ HP Hn). unfold plain_html, tag_html, lang_html. do 2 f_equal. unfold doctype. rewrite <- !app_assoc.
  destruct (c_lang cfg) as [l|]; cbn [flat_map]; unfold attr_html; cbn [fst snd]; rewrite ?app_nil_r, <- ?app_assoc; try rewrite <- !app_assoc; reflexivity.
Qed.
Print Assumptions C54_plain_page.

(** Every character of the text is there: what is left out is white space at the ends of
    lines. *)
Theorem C54_characters : forall src,
  filter (fun c => negb (is_whitespace c)) (concat (concat (paragraphs src))) = filter (fun c => negb (is_whitespace c)) src.
Proof. apply plain_characters. Qed.
Print Assumptions C54_characters.

(** A quotation mark and a colon, white space of several kinds, characters that are
    escaped, and lines that look like selectors *)
Definition c54_text : str :=
  [32] ++ [10] ++ L "'Tom' & ""Jerry"":" ++ [13; 10; 9] ++ L ".a #b p" ++ [0xA0; 10; 32; 13; 10; 10] ++ [0x3000] ++ L "*(x) = y; " ++ [10].
Example C54_example : plain_text c54_text /\
  plain_html false (L "<p>") c54_text = L "<p>'Tom' &amp; ""Jerry"": .a #b p</p> <p>*(x) = y;</p>".
Proof.
  split; [|reflexivity]. split.
  - repeat (apply Forall_cons; [cbn; intuition discriminate|]). apply Forall_nil.
  - repeat (apply Forall_cons; [intros c Hc [r E]; cbn in Hc, E; intuition (subst; discriminate)|]). apply Forall_nil.
Qed.

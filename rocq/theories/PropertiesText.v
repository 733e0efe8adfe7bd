(** * Property theorems about text: C01-C06, C26. *)
From Verif Require Import Base Escape SpecEscape OutText SpecMarkup.
From Verif Require Import P_Escape P_EscapeDoc P_OutText P_Trim.

(** ** C01: the decoder yields exactly what the escape grammar assigns. *)
Theorem C01_decode_exact : forall s t, unescape s = (t, true) <-> Decodes true s t.
Proof. exact unescape_spec. Qed.
Print Assumptions C01_decode_exact.

Theorem C01_decode_or_error : forall s off,
  escape_errors s off = [] <-> exists t, Decodes true s t.
Proof. exact escape_errors_nil. Qed.
Print Assumptions C01_decode_or_error.

Theorem C01_decode_unique : forall s t1 t2, Decodes true s t1 -> Decodes true s t2 -> t1 = t2.
Proof. exact Decodes_unique. Qed.
Print Assumptions C01_decode_unique.

Example C01_example :
  unescape (L "a\u{20AC}\<b\x7B\n") = (L "a" ++ [0x20AC] ++ L "<b{" ++ [10], true).
Proof. vm_compute. reflexivity. Qed.

(** ** C02: reported ranges. *)
Theorem C02_ranges_ordered : forall s off, OrderedFrom off (escape_errors s off).
Proof. exact escape_errors_ordered. Qed.
Print Assumptions C02_ranges_ordered.

Theorem C02_ranges_point_at_malformed : forall s off r, In r (escape_errors s off) ->
  exists pre bad post, s = pre ++ (92 :: bad) ++ post /\
    r_start r = off + blen pre /\ r_end r = off + blen (pre ++ 92 :: bad) /\
    no_escape_at s (r_start r - off).
Proof. exact escape_errors_inside. Qed.
Print Assumptions C02_ranges_point_at_malformed.

Theorem C02_segmentation : forall s off, Scan off s (escape_errors s off).
Proof. exact escape_errors_scan. Qed.
Print Assumptions C02_segmentation.

Theorem C02_none_iff_well_formed : forall s off,
  escape_errors s off = [] <-> exists t, Decodes true s t.
Proof. exact escape_errors_nil. Qed.
Print Assumptions C02_none_iff_well_formed.

Example C02_example : escape_errors (L "ok \q \u{zz} \<\") 10 = [mkR 13 15; mkR 16 22; mkR 25 26].
Proof. vm_compute. reflexivity. Qed.

(** ** C03: documented escapes.  The claim is false in both directions. *)
Theorem C03_accepts_undocumented_refuted : exists s t,
  unescape s = (t, true) /\ ~ exists t', Documented s t'.
Proof. exact (ex_intro _ _ (ex_intro _ _ plus_accepted)). Qed.
Print Assumptions C03_accepts_undocumented_refuted.

Theorem C03_rejects_documented_refuted : exists s t,
  Documented s t /\ snd (unescape s) = false.
Proof. exact (ex_intro _ _ (ex_intro _ _ space_rejected)). Qed.
Print Assumptions C03_rejects_documented_refuted.

(** Apart from these two the decoder does what is documented. *)
Theorem C03_documented_partial : forall s t,
  ~ In 43 s -> ~ (exists a b, s = a ++ L "\ " ++ b) ->
  (unescape s = (t, true) <-> Documented s t).
Proof. exact documented_iff. Qed.
Print Assumptions C03_documented_partial.

Example C03_example : ~ In 43 (L "\x41\u{e9}") /\ unescape (L "\x41\u{e9}") = ([0x41; 0xe9], true).
Proof. split; [cbn; intuition discriminate|vm_compute; reflexivity]. Qed.

(** ** C04: HTML escaping. *)
Theorem C04_html_inert : forall quote s x, In x (esc_str false quote s) ->
  x <> 60 /\ x <> 62 /\ (quote = true -> x <> 34) /\ 32 <= x /\ ~ (127 <= x <= 159).
Proof.
  intros q s x Hx. destruct (html_inert q s x Hx) as (H1 & H2 & H3). apply esc_no_control in Hx.
  unfold is_control in Hx. repeat split; auto; lia.
Qed.
Print Assumptions C04_html_inert.

(** Reading back fails for NUL and for the C1 controls that HTML readers take as
    windows-1252: e.g. U+0080 is written [&#128;], which reads as a euro sign. *)
Theorem C04_html_lossless_refuted : exists s,
  Forall (fun c => is_scalar c = true) s /\ read_html (esc_str false false s) <> Some s.
Proof. exact html_not_lossless. Qed.
Print Assumptions C04_html_lossless_refuted.

Theorem C04_html_lossless_partial : forall quote s,
  Forall (fun c => is_scalar c = true /\ html_ok c = true) s ->
  read_html (esc_str false quote s) = Some s.
Proof. exact html_roundtrip. Qed.
Print Assumptions C04_html_lossless_partial.

Example C04_example :
  esc_str false true (L "a<b & ""c""") = L "a&lt;b &amp; &quot;c&quot;"
  /\ read_html (esc_str false true (L "a<b & ""c""")) = Some (L "a<b & ""c""").
Proof. vm_compute. split; reflexivity. Qed.

(** ** C05: XML escaping. *)
Theorem C05_xml_inert : forall quote s x, In x (esc_str true quote s) ->
  x <> 60 /\ x <> 62 /\ (quote = true -> x <> 34) /\ 32 <= x /\ ~ (127 <= x <= 159).
Proof.
  intros q s x Hx. destruct (xml_inert q s x Hx) as (H1 & H2 & H3). apply esc_no_control in Hx.
  unfold is_control in Hx. repeat split; auto; lia.
Qed.
Print Assumptions C05_xml_inert.

(** Control characters that XML forbids are written as numeric references, which
    XML forbids too. *)
Theorem C05_xml_lossless_refuted : exists s,
  Forall (fun c => is_scalar c = true) s /\ read_xml (esc_str true false s) <> Some s.
Proof. exact xml_not_lossless. Qed.
Print Assumptions C05_xml_lossless_refuted.

Theorem C05_xml_lossless_partial : forall quote s,
  Forall (fun c => xml_char c = true) s ->
  read_xml (esc_str true quote s) = Some s /\ read_xml_attr (esc_str true quote s) = Some s.
Proof. exact xml_roundtrip. Qed.
Print Assumptions C05_xml_lossless_partial.

Example C05_example :
  read_xml (esc_str true true (L "a<b & ""c""" ++ [9; 10; 0x80])) = Some (L "a<b & ""c""" ++ [9; 10; 0x80]).
Proof. vm_compute. reflexivity. Qed.

(** ** C06: comments. *)
Theorem C06_comment_body : forall s, comment_ok (comment_body s) /\ Padded s (comment_body s).
Proof. exact comment_body_ok. Qed.
Print Assumptions C06_comment_body.

Theorem C06_comment_reads_back : forall s rest,
  until_close (comment_body s ++ L "-->" ++ rest) = Some (comment_body s, rest).
Proof. exact comment_reads_back. Qed.
Print Assumptions C06_comment_reads_back.

Theorem C06_comment_unchanged : forall s, comment_ok s -> comment_body s = s.
Proof. exact comment_body_id. Qed.
Print Assumptions C06_comment_unchanged.

Example C06_example :
  comment_body (L "->a---b--") = L " ->a- - -b- - ".
Proof. vm_compute. reflexivity. Qed.

(** ** C26: multi-line text. *)
Theorem C26_trim : forall first ls l0 l0' prefix rest outs,
  ~ In 10 first -> Forall (fun l => ~ In 10 l) ls -> ~ In 10 l0 -> ~ In 10 (prefix ++ rest) ->
  Forall (fun c => is_whitespace c = true) prefix ->
  (forall c r, rest = c :: r -> is_whitespace c = false) ->
  ChopCR l0 l0' ->
  Forall2 (Unindent prefix) (ls ++ [l0']) outs ->
  concat (trim_multiline (first ++ 10 :: join_lines (ls ++ [l0]) ++ 10 :: prefix ++ rest))
  = join_lines outs.
Proof. exact trim_multiline_spec. Qed.
Print Assumptions C26_trim.

Theorem C26_trim_short : forall s, (count_occ N.eq_dec s 10%N < 2)%nat -> trim_multiline s = [].
Proof. exact trim_multiline_short. Qed.
Print Assumptions C26_trim_short.

Example C26_example :
  concat (trim_multiline ([10] ++ L "  a" ++ [10] ++ L "    b" ++ [10] ++ L "c" ++ [10] ++ L "  "))
  = L "a" ++ [10] ++ L "  b" ++ [10] ++ L "c".
Proof. vm_compute. reflexivity. Qed.

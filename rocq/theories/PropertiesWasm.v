(** * Property theorems about the JavaScript package: C48, C49.

    [js_convert], [js_convert_forgiving]: the methods of [MintymlConverter]
    (index.ts).  [requests o cfg]: the configuration that options ask for
    (SpecWasm.v).  [debug], [show]: how Rust quotes a string and gramma writes what was
    expected, any functions. *)

From Coq Require Import ZArith Lia.
From Verif Require Import Base Doc Config Ast Errors Convert Display Grammar SpecSource SpecErrors Wasm SpecWasm
  P_Base P_Build P_Grammar P_Match P_Convert P_Errors P_Wasm PropertiesConvert PropertiesError.

(** ** C48: the JavaScript package does what the library does, as its options ask.

    [convertForgiving] is successful exactly if [convert] of the library is, and has
    its output; else its output is that of [convert_forgiving].  [convert] returns the
    output, or throws the error. *)
Theorem C48_results : forall parse slice debug show o cfg source, requests o cfg ->
  exists r, js_convert_forgiving parse slice debug show o source = Some r /\
    (forall t, convert parse slice (from_js source) cfg = Some (inl t) ->
       r = mkJR true (Some (to_js t)) None /\ js_convert parse slice debug show o source = Some (inl (Some (to_js t)))) /\
    (forall err, convert parse slice (from_js source) cfg = Some (inr err) ->
       jr_success r = false /\ js_convert parse slice debug show o source = Some (inr (jr_error r)) /\ jr_error r <> None /\
       exists out, convert_forgiving parse slice (from_js source) cfg = Some (inr (out, err)) /\ jr_output r = opt_map to_js out).
Proof.
  intros parse slice debug show o cfg source H.
  pose proof (forgiving_ok parse slice debug show o cfg source H) as E.
  destruct (C12_strict_forgiving parse slice (from_js source) cfg) as (Hok & Herr & Hn & _).
  unfold js_convert. rewrite E.
  destruct (convert parse slice (from_js source) cfg) as [[t|err]|] eqn:EC; [| |congruence].
  - rewrite (proj1 (Hok t) eq_refl). eexists. split; [reflexivity|]. cbn [jr_success jr_output]. split; [|discriminate].
    intros t' [= <-]. auto.
  - destruct (proj1 (Herr err) eq_refl) as (out & EF). rewrite EF. eexists. split; [reflexivity|]. cbn [jr_success jr_output jr_error].
    split; [discriminate|]. intros err' [= <-]. repeat split; try discriminate. exists out. auto.
Qed.
Print Assumptions C48_results.

(** A string of JavaScript that encodes a string of Rust is read as this string. *)
Theorem C48_strings : forall s, Forall (fun c => is_scalar c = true) s -> from_js (to_js s) = s.
Proof. exact from_to_js. Qed.
Print Assumptions C48_strings.

(** Any string of JavaScript is read as UTF-16 says. *)
Theorem C48_units : forall s, Forall (fun u => u < 65536) s -> Utf16 s (from_js s).
Proof.
  assert (forall n s, (length s <= n)%nat -> Forall (fun u => u < 65536) s -> Utf16 s (from_js s)) as H; [|intros s; now apply (H (length s))].
  induction n as [|n IH]; intros [|h s] Hl Hf; [constructor|cbn in Hl; lia|constructor|]. inversion Hf as [|? ? Hh Hs]; subst. cbn [length] in Hl. cbn [from_js].
  destruct (surrogate_high h) eqn:Eh; unfold surrogate_high in Eh.
  - destruct s as [|l s]; [apply UFirst; [unfold first_half; lia|discriminate|constructor]|]. destruct (surrogate_low l) eqn:El; unfold surrogate_low in El.
    + inversion Hs; subst. apply UPair; [lia|unfold first_half; lia|unfold second_half; lia|lia|]. apply IH; [cbn in Hl; lia|assumption].
    + apply UFirst; [unfold first_half; lia| |apply IH; [lia|assumption]]. intros b s' [= <- <-]. unfold second_half. lia.
  - destruct (surrogate_low h) eqn:El; unfold surrogate_low in El.
    + apply USecond; [unfold second_half; lia|apply IH; [lia|assumption]].
    + apply UUnit; [exact Hh|unfold first_half; lia|unfold second_half; lia|apply IH; [lia|assumption]].
Qed.
Print Assumptions C48_units.
Example C48_units_example : from_js [97; 55357; 56832; 55357] = [97; 128512; 65533].
Proof. reflexivity. Qed.

(** [<#a#>] with indentation 2, strong named b, metadata *)
Definition ex_object (l : list (str * js_value)) : js_value :=
  JObject (fun key => inl (match find (fun p => str_eqb (fst p) key) l with Some (_, v) => v | None => JPrimitive false end)).
Definition ex_options : js_options :=
  mkJO (Some true) (Some (Finite 2 1)) None (ex_object [(L "strong", JString (L "b"))]) (ex_object [(L "elements", JPrimitive false)]) None.
Definition ex_request : config :=
  mkConfig (Some (L "  ")) (Some true) (mkSpecial None (Some (L "b")) None None None None None) None None (Some false) None.
Definition ex_js_src : str := L "<#a#>".
Definition ex_js_tree : a_content :=
  ex_content [ex_item 0 5 (ANElement (ASpecialElt (ASpecial AStrong (R 0 2) (mkACont 2 [mkALine 2 [ex_item 2 3 (ANText (ASegment (R 2 3)))] 3] 3) (Some (R 3 5)))))] 5.
Example C48_example :
  requests ex_options ex_request /\ reads is_ascii_alnum (ex_parse ex_js_tree) ex_js_src /\
  js_convert (ex_parse ex_js_tree) source_slice (fun s => s) (fun s => s) ex_options ex_js_src
  = Some (inl (Some (L "<p xmlns:mty=""tag:youngspe.github.io,2024:mintyml/metadata"" mty:start=""0"" mty:end=""5"" mty:content-start=""0"" mty:content-end=""5""><b mty:start=""0"" mty:end=""5"" mty:content-start=""2"" mty:content-end=""3"">a</b></p>
"))).
Proof.
  split; [|split].
  - repeat split; try reflexivity.
    + apply (WIndent 2). lia.
    + apply WTags; cbn; constructor.
    + now apply WMeta.
  - apply document_b_ok. vm_compute. reflexivity.
  - vm_compute. reflexivity.
Qed.

(** ** C49: errors of the JavaScript package.

    The full claim (index.ts:24-49): an entry's start and end locate the error in the source
    string, its [actual] is the text there, its message and the message of the whole
    describe the error.

    Entries are those of the library, in its order, with its messages; what was
    expected is listed for errors of the parser, with the text found. *)
Theorem C49_entries : forall parse alnum debug show o cfg source r, requests o cfg -> reads alnum parse (from_js source) ->
  js_convert_forgiving parse source_slice debug show o source = Some r -> jr_success r = false ->
  (convert parse source_slice (from_js source) cfg = Some (inr CEUnknown) /\ jr_error r = Some (JError (L "Unknown"))) \/
  exists l, convert parse source_slice (from_js source) cfg = Some (inr (CESyntax l)) /\ l <> [] /\
    Forall2 (entry_for debug (from_js source)) l (entries r) /\
    Forall2 (fun e j => forall expected, sy_kind e = KParseFailed expected ->
      je_expected j = Some (map (fun x => to_js (show x)) expected) /\
      exists m, SliceOf (from_js source) (sy_range e) m /\
        je_actual j = Some (if r_start (sy_range e) =? blen (from_js source) then L "<end-of-file>" else to_js m)) l (entries r).
Proof.
  intros parse alnum debug show o cfg source r H HR E HS. rewrite (forgiving_ok _ _ _ _ _ _ _ H) in E.
  destruct (C12_strict_forgiving parse source_slice (from_js source) cfg) as (Hok & Herr & _ & _ & Hto).
  destruct (convert_forgiving parse source_slice (from_js source) cfg) as [[out|[out err]]|] eqn:EF; [injection E as <-; discriminate| |discriminate].
  injection E as <-. pose proof (proj2 (Herr err) (ex_intro _ out eq_refl)) as EC.
  destruct (Hto out err eq_refl) as (w & Ew & _).
  destruct (errors_located _ _ _ _ _ _ HR Ew) as [->|(l & -> & Hl & Hp)].
  - left. split; [exact EC|]. reflexivity.
  - right. exists l. split; [exact EC|]. split; [exact Hl|].
    destruct (errors_single _ _ _ _ _ _ Ew) as [F|(l2 & El & _ & Hs)]; [discriminate|]. injection El as <-.
    cbn [to_js_error entries jr_error]. clear EC EF Ew Hl Hok Herr Hto. split.
    + induction l as [|e l IH]; [constructor|]. inversion_clear Hp as [|? ? Hpe Hp']. inversion_clear Hs as [|? ? Hse Hs'].
      constructor; [|now apply IH]. destruct Hpe as (m & Hm & Hk). pose proof Hm as (a & b & Es & Ha & Hb).
      exists a, m, b. split; [exact Es|].
      assert (Hmsg : display_with_src debug (from_js source) false e = message debug (from_js source) e m).
      { unfold display_with_src. rewrite app_nil_r. apply message_ok; auto. exists m. auto. }
      unfold to_js_syntax_error. rewrite Hmsg, Hb, Ha. destruct (sy_kind e); repeat split; reflexivity.
    + induction l as [|e l IH]; [constructor|]. inversion_clear Hp as [|? ? Hpe Hp']. inversion_clear Hs as [|? ? Hse Hs'].
      constructor; [|now apply IH]. intros expected Hk. destruct Hpe as (m & Hm & _). pose proof Hm as (a & b & Es & Ha & Hb).
      unfold to_js_syntax_error. rewrite Hk. cbn [je_expected je_actual]. split; [reflexivity|]. exists m. split; [exact Hm|].
      replace (range_eqb (sy_range e) Transform.invalid_range) with false.
      2: { symmetry. apply Bool.andb_false_iff. cbn [Transform.invalid_range r_start r_end].
           destruct (N.eqb_spec (r_end (sy_range e)) 0); [left|now right]. apply N.eqb_neq. unfold Transform.loc_max. lia. }
      rewrite (slice_of _ _ _ Hm).
      assert (Hle : r_start (sy_range e) <= blen (from_js source)) by (rewrite Es, !blen_app; lia).
      destruct (N.leb_spec (blen (from_js source)) (r_start (sy_range e))), (N.eqb_spec (r_start (sy_range e)) (blen (from_js source))); try lia; reflexivity.
Qed.
Print Assumptions C49_entries.

(** In a source of ASCII characters, [source.slice(start, end)] is the text that the error
    points at. *)
Theorem C49_locations_partial : forall parse alnum debug show o cfg source r, requests o cfg -> reads alnum parse source ->
  Forall (fun c => c < 128) source ->
  js_convert_forgiving parse source_slice debug show o source = Some r ->
  Forall (fun j => exists e m, points_at source e /\ SliceOf source (sy_range e) m /\
    js_slice source (je_start j) (je_end j) = m /\ je_message j = to_js (message debug source e m)) (entries r).
Proof.
  intros parse alnum debug show o cfg source r H HR HA E. pose proof (from_js_ascii _ HA) as EA.
  rewrite (forgiving_ok _ _ _ _ _ _ _ H), EA in E.
  destruct (C12_strict_forgiving parse source_slice source cfg) as (_ & _ & _ & _ & Hto).
  destruct (convert_forgiving parse source_slice source cfg) as [[out|[out err]]|] eqn:EF; [injection E as <-; constructor| |discriminate].
  injection E as <-. destruct (Hto out err eq_refl) as (w & Ew & _).
  destruct (errors_located _ _ _ _ _ _ HR Ew) as [->|(l & -> & Hl & Hp)]; [constructor|].
  destruct (errors_single _ _ _ _ _ _ Ew) as [F|(l2 & El & _ & Hs)]; [discriminate|]. injection El as <-.
  cbn [to_js_error entries jr_error]. clear -HA Hp Hs.
  induction l as [|e l IH]; [constructor|]. inversion_clear Hp as [|? ? Hpe Hp']. inversion_clear Hs as [|? ? Hse Hs'].
  constructor; [|now apply IH]. pose proof Hpe as (m & Hm & _). exists e, m. split; [exact Hpe|]. split; [exact Hm|]. split.
  - replace (je_start _) with (r_start (sy_range e)) by (unfold to_js_syntax_error; now destruct (sy_kind e)).
    replace (je_end _) with (r_end (sy_range e)) by (unfold to_js_syntax_error; now destruct (sy_kind e)).
    now apply js_slice_ascii.
  - assert (Hmsg : display_with_src debug source false e = message debug source e m).
    { unfold display_with_src. rewrite app_nil_r. now apply message_ok. }
    unfold to_js_syntax_error. rewrite Hmsg. now destruct (sy_kind e).
Qed.
Print Assumptions C49_locations_partial.

(** The full claim is REFUTED.  [é \q]: positions are byte offsets, so that the slice of the
    source string is [q] and not [\q]. *)
Definition ex_accent_src : str := 233 :: L " \q".
Definition ex_accent_tree : a_content := ex_content [ex_item 0 5 (ANText (ASegment (R 0 5)))] 5.
Definition ex_plain_options : js_options := mkJO None None None (JPrimitive false) (JPrimitive false) None.
Theorem C49_locations_refuted : exists j,
  requests ex_plain_options config_default /\ reads (fun c => is_ascii_alnum c || (c =? 233)) (ex_parse ex_accent_tree) ex_accent_src /\
  opt_map entries (js_convert_forgiving (ex_parse ex_accent_tree) source_slice (fun s => s) (fun s => s) ex_plain_options ex_accent_src) = Some [j] /\
  je_message j = L "Invalid escape sequence \q." /\ js_slice ex_accent_src (je_start j) (je_end j) = L "q".
Proof.
  eexists. split; [|split; [|split; [vm_compute; reflexivity|]]].
  - repeat split; constructor.
  - apply document_b_ok. vm_compute. reflexivity.
  - split; vm_compute; reflexivity.
Qed.
Print Assumptions C49_locations_refuted.

(** [a \q <#b]: only errors of the parser have the text found, so that the message of the
    whole says nothing about the errors. *)
Theorem C49_message_refuted :
  reads is_ascii_alnum (ex_parse ex_tree4) ex_src4 /\
  exists r, js_convert_forgiving (ex_parse ex_tree4) source_slice (fun s => s) (fun s => s) ex_plain_options ex_src4 = Some r /\
    map je_message (entries r) = [L "Invalid escape sequence \q."; L "Unclosed delimiter <#"] /\
    map je_actual (entries r) = [None; None] /\
    error_message r = Some (L "Unexpected 'undefined'" ++ [10] ++ L "Unexpected 'undefined'").
Proof.
  split; [apply document_b_ok; vm_compute; reflexivity|]. eexists. split; [vm_compute; reflexivity|].
  repeat split; vm_compute; reflexivity.
Qed.
Print Assumptions C49_message_refuted.

(** A parse error, and the ASCII source above *)
Example C49_example :
  requests ex_plain_options config_default /\ Forall (fun c => c < 128) ex_src4 /\
  opt_map entries (js_convert_forgiving ex_failed source_slice (fun s => s) (fun s => s) ex_plain_options (L "a")) =
    Some [mkJSE 1 1 (L "Unexpected end-of-file. Expected word | space") (Some (L "<end-of-file>")) (Some [L "word"; L "space"])] /\
  reads is_ascii_alnum ex_failed (L "a").
Proof.
  split; [repeat split; constructor|]. split; [repeat constructor|]. split; [vm_compute; reflexivity|].
  exists (L "a"), []. repeat split.
Qed.

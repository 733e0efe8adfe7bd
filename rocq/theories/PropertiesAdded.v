(** * Property theorems about the output with metadata attributes: C24, C51. *)

From Verif Require Import Base Doc Config Errors Build Transform Output Convert Grammar Parser SpecMarkup SpecTree SpecTransform
  SpecInfer SpecSource SpecWrite SpecAdded P_Base P_Meta P_Added P_Convert PropertiesConvert PropertiesWrite.

(** ** C24: for every parser and every source, metadata attributes only add to tags.

    [Inserted]: the text with metadata is the text without, but for metadata attributes in
    tags.  Errors are the same. *)
Theorem C24_output : forall parse slice src cfg, c_metadata cfg = Some false ->
  match convert parse slice src (without_metadata cfg), convert parse slice src cfg with
  | Some (inl o), Some (inl o') => Inserted o o'
  | Some (inr e), Some (inr e') => e' = e
  | _, _ => False
  end.
Proof.
  intros parse slice src cfg HM. pose proof (proj1 (proj2 (proj2 (C12_strict_forgiving parse slice src cfg)))) as HN.
  unfold convert, convert_to_internal, prepare in *. change (errors_new (without_metadata cfg)) with (errors_new cfg).
  unfold bind in *. destruct (document_parse parse slice src (errors_new cfg)) as [e [[cr ns]| |]].
  - destruct (transform_added (slice src) cfg cr ns HM) as (pl & ad & E1 & E2 & H). rewrite E1, E2. unfold ret.
    destruct (output_ins (slice src) cfg pl ad H) as [H1 H2].
    change (output_html (slice src) (without_metadata cfg) pl) with (output_html (slice src) cfg pl).
    destruct (errors_empty e || false).
    + destruct (output_html (slice src) cfg pl) as [o ok]. destruct (output_html (slice src) cfg ad) as [o' ok']. cbn [fst snd] in *. subst ok'.
      destruct ok; [|unfold to_convert_error, unknown; cbn [fst er_syntax er_semantic er_unknown]; destruct (er_syntax e), (er_semantic e); reflexivity]. destruct (to_convert_error e); [reflexivity|]. now apply H2.
    + destruct (to_convert_error e); [reflexivity|constructor].
  - destruct (to_convert_error e); [reflexivity|constructor].
  - now apply HN.
Qed.
Print Assumptions C24_output.

(** ** C51 with metadata attributes: the page, with metadata attributes in its tags. *)
Theorem C51_with_metadata : forall alnum failure src us cfg, ascii_alnum_ok alnum -> c_metadata cfg = Some false ->
  plain (without_metadata cfg) -> c_indent cfg = None ->
  Source (names (c_special cfg)) src us -> (complete cfg = true -> Forall bare_head us) ->
  exists o, convert (parser alnum failure) source_slice src cfg = Some (inl o) /\
    Inserted (doctype (complete cfg) ++ page (is_xml cfg) (document (complete cfg) (c_lang cfg) us)) o.
Proof.
  intros alnum failure src us cfg Ha HM Hp Hi HS Hh.
  pose proof (C51_source_converts alnum failure src us (without_metadata cfg) Ha Hp Hi HS Hh) as E.
  pose proof (C24_output (parser alnum failure) source_slice src cfg HM) as H. rewrite E in H.
  destruct (convert (parser alnum failure) source_slice src cfg) as [[o|e]|]; try contradiction. exists o. split; [reflexivity|exact H].
Qed.
Print Assumptions C51_with_metadata.

(** The example of C51 *)
Example C51_with_metadata_example :
  let cfg := mkConfig None None special_default (Some false) (Some (L "en")) (Some false) None in
  plain (without_metadata cfg) /\ (forall m, names (c_special cfg) m = usual m) /\
  exists o, convert (parser is_ascii_alnum (fun _ => mkPE 0 [] [])) source_slice (L "div> i.a> x") cfg = Some (inl o) /\
    o = L "<div xmlns:mty=""tag:youngspe.github.io,2024:mintyml/metadata"" mty:start=""0"" mty:end=""11"" mty:content-start=""5"" mty:content-end=""11"" lang=""en"">" ++
        L "<i class=""a"" mty:start=""5"" mty:end=""11"" mty:content-start=""9"" mty:content-end=""11"">x</i></div>" /\
    Inserted (L "<div lang=""en""><i class=""a"">x</i></div>") o.
Proof.
  cbv zeta. split; [|split].
  - split; [split; [reflexivity|]|reflexivity]. intros l [= <-]. cbn. intuition discriminate.
  - now intros [].
  - set (cfg := mkConfig _ _ _ _ _ _ _).
    pose proof (C24_output (parser is_ascii_alnum (fun _ => mkPE 0 [] [])) source_slice (L "div> i.a> x") cfg eq_refl) as H.
    assert (convert (parser is_ascii_alnum (fun _ => mkPE 0 [] [])) source_slice (L "div> i.a> x") (without_metadata cfg) =
      Some (inl (L "<div lang=""en""><i class=""a"">x</i></div>"))) as E by (vm_compute; reflexivity).
    rewrite E in H. clear E. eexists. split; [vm_compute; reflexivity|]. split; [vm_compute; reflexivity|].
    match type of H with match ?x with _ => _ end => let y := eval vm_compute in x in change x with y in H end. exact H.
Qed.

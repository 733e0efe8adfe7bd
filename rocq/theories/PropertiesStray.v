(** * C62: a closing bracket that closes nothing is refused. *)

From Verif Require Import Base Doc Config Ast Errors Build Convert Grammar Parser SpecSource SpecEscape SpecTree SpecInfer SpecMarkup SpecWrite SpecStray
  P_Base P_Forward P_WriteItems P_Parser P_Stray PropertiesWrite PropertiesParts.
From Coq Require Import Lia.

(** A source of the described language (C51), then a closing bracket, then anything: the
    source is refused, even in forgiving mode, with the error of the parser and nothing else.
    (A quotation mark of [>] after it is part of the bracket if none comes before.) *)
Theorem C62_stray : forall alnum failure tag s us c r cfg, ascii_alnum_ok alnum -> Source tag s us -> closer c -> apart s c ->
  let src := s ++ c ++ r in
  let error := CESyntax [parse_failed (failure src)] in
  convert (parser alnum failure) source_slice src cfg = Some (inr error) /\
  convert_forgiving (parser alnum failure) source_slice src cfg = Some (inr (None, error)).
Proof.
  intros alnum failure tag s us c r cfg Ha H Hc Hq src error.
  assert (parser alnum failure src = inr (failure src)) as HP.
  { unfold parser. destruct (stray_document alnum tag s us c r (ascii_alnum_same _ Ha) H Hc Hq) as [E|E]; unfold src; now rewrite E. }
  assert (forall f, convert_to_internal (parser alnum failure) source_slice src cfg f = Some ([], Some error)) as HI.
  { intros f. unfold convert_to_internal, prepare, document_parse. rewrite HP. unfold errors_new. destruct (c_fail_fast cfg) as [[|]|]; reflexivity. }
  split; unfold convert, convert_forgiving; now rewrite HI.
Qed.
Print Assumptions C62_stray.

(** [div[title=x] { ... } /> x] *)
Example C62_example : Source usual c56_source c56_document /\ closer (L "/>") /\ apart c56_source (L "/>") /\
  parser is_ascii_alnum (fun _ => mkPE 41 [] []) (c56_source ++ L "/>" ++ L " x") = inr (mkPE 41 [] []).
Proof.
  split; [apply C56_source_example|]. split; [right; right; eexists _, _; cbn; tauto|]. split; [discriminate|]. vm_compute. reflexivity.
Qed.

(** Between its brackets it is not refused: [</ x />] *)
Example C62_closed : forall r, convert (parser is_ascii_alnum (fun _ => mkPE 0 [] [])) source_slice (L "</ x />") config_default = r ->
  r = Some (inl (L "<p><em>x</em></p>")).
Proof. intros r <-. vm_compute. reflexivity. Qed.

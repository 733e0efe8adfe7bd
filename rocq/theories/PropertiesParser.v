(** * Property theorems about sources, with the parser of Parser.v: C50.

    [document_ok] (Grammar.v): the tree is a reading of the source by the grammar.
    [alnum]: Rust's [char::is_alphanumeric]; [failure]: the error that gramma reports for
    a source that is not parsed, of which [quotes] says that it quotes the source. *)

From Verif Require Import Base Doc Config Ast Errors Convert Grammar Parser SpecSource SpecErrors
  P_Base P_Convert P_Parser.

(** ** C50: every source is read to its end, or refused.

    Parsing ends.  A tree is a reading of the source, from the first byte to the last.
    Thus the theorems about the readings of a source (those that assume [reads]) are
    about the conversions of all sources. *)
Definition quotes (src : str) (e : parse_error) : Prop :=
  SliceOf src (mkR (pe_location e) (pe_location e + blen (pe_actual e))) (pe_actual e).

Theorem C50_every_source_is_read : forall alnum src,
  p_document alnum src <> Starved /\
  (forall c s, p_document alnum src = Got c s -> document_ok src alnum c).
Proof. intros alnum src. split; [apply document_live|apply document_sound]. Qed.
Print Assumptions C50_every_source_is_read.

Theorem C50_readings : forall alnum failure src, quotes src (failure src) -> reads alnum (parser alnum failure) src.
Proof. exact parser_reads. Qed.
Print Assumptions C50_readings.

(** [div {], a text, [}]; a stray brace *)
Definition c50_failure : str -> parse_error := fun src => mkPE (blen src) [] [].
Example C50_example :
  (exists c, parser is_ascii_alnum c50_failure (L "div { a> b }") = inl c) /\
  parser is_ascii_alnum c50_failure (L "div } x") = inr (mkPE 7 [] []) /\ quotes (L "div } x") (c50_failure (L "div } x")).
Proof.
  split; [|split].
  - eexists. vm_compute. reflexivity.
  - vm_compute. reflexivity.
  - exists (L "div } x"), []. vm_compute. auto.
Qed.

(** * mintyml/src/lib.rs: the entry points. *)

From Verif Require Import Base Doc Config Ast Errors Build Infer Transform Escape OutText Output.

(** gramma's [ParseError]: location, the text found there, names of what was
    expected. *)
Record parse_error := mkPE { pe_location : N; pe_actual : str; pe_expected : list str }.

(** error.rs:127-138 [From<ParseError> for SyntaxError] *)
Definition parse_failed (e : parse_error) : syntax_error :=
  mkSyn (mkR (pe_location e) (pe_location e + blen (pe_actual e))) (KParseFailed (pe_expected e)).

Section Convert.
(** ast.rs:53-55 [parse]: gramma's parser, not modelled. *)
Variable parse : str -> a_content + parse_error.
(** gramma's [LocationRange::slice] *)
Variable slice : str -> lrange -> str.

(** document/mod.rs:278-286 [Document::parse]: the range and nodes of the document's
    content. *)
Definition document_parse (src : str) : M (lrange * list node) :=
  match parse src with
  | inl c =>
      let* ns := from_ast (slice src) c in
      ret (mkR (ct_start c) (ct_end c), ns)
  | inr e => syntax [parse_failed e] ;* (fun st => (st, Fail))
  end.

(** lib.rs:163-166: parse and transform. The transforms report no errors. *)
Definition prepare (src : str) (cfg : config) : M (list node) :=
  let* (crange, ns) := document_parse src in
  match transform_document (slice src) cfg crange ns with
  | Some ns => ret ns
  | None => out_of_fuel
  end.

(** lib.rs:155-179 [convert_to_internal], writing to a string: the text written and
    the error, if any. [None]: out of fuel. *)
Definition convert_to_internal (src : str) (cfg : config) (forgive : bool)
    : option (str * option convert_error) :=
  match prepare src cfg (errors_new cfg) with
  | (e, Ok ns) =>
      if errors_empty e || forgive then
        let '(out, ok) := output_html (slice src) cfg ns in
        Some (out, to_convert_error (if ok then e else fst (unknown e)))
      else Some ([], to_convert_error e)
  | (e, Fail) => Some ([], to_convert_error e)
  | (_, Fuel) => None
  end.

(** lib.rs:68-75 [convert] *)
Definition convert (src : str) (cfg : config) : option (str + convert_error) :=
  match convert_to_internal src cfg false with
  | Some (out, None) => Some (inl out)
  | Some (_, Some err) => Some (inr err)
  | None => None
  end.

(** lib.rs:104-114 [convert_forgiving] *)
Definition convert_forgiving (src : str) (cfg : config)
    : option (str + option str * convert_error) :=
  match convert_to_internal src cfg true with
  | Some (out, None) => Some (inl out)
  | Some ([], Some err) => Some (inr (None, err))
  | Some (out, Some err) => Some (inr (Some out, err))
  | None => None
  end.

(** lib.rs:147-153 [convert_to]: what is written to the sink, and the result. *)
Definition convert_to (src : str) (cfg : config) : option (str * option convert_error) :=
  convert_to_internal src cfg true.
End Convert.

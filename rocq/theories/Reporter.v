(** * minty-cli/src/error_reporter.rs: how errors reach stderr. *)

From Verif Require Import Base Doc Errors Display.

(** error_reporter.rs:75-80 [StreamName] *)
Inductive stream := SFile (p : str) | Stdio.

(** error_reporter.rs:247-255 [ErrorCategory], with its derived Display *)
Inductive category := CatSyntax | CatSemantic | CatInternal | CatArgument | CatHidden.
(* error_reporter.rs:247-255 (as above) *)
Definition show_category (c : category) : str :=
  match c with
  | CatSyntax => L "Syntax"
  | CatSemantic => L "Semantic"
  | CatInternal => L "Internal"
  | CatArgument => L "Argument"
  | CatHidden => L "Hidden"
  end.

(** [anyhow::Error], as far as it is looked at (error_reporter.rs:198-218): the
    category and the stream among its contexts, the message of its root cause. *)
Record cli_error := mkErr { ce_category : option category; ce_source : option stream; ce_message : str }.

(** args.rs:54-62 [ErrorMode] *)
Inductive error_mode := MDefault | MJson | MSilent.

(** error_reporter.rs:21-34 [ErrorEntry]; [None] of the location, of the source and of
    [expected] is left out; the iterator of [expected] says that it is empty, and so is
    left out (error_reporter.rs:36-38), for all errors but parse errors: there it is the
    [Flatten] of a vector, of which no bound is known. *)
Record entry := mkEntry {
  en_category : category;
  en_source : option stream;
  en_location : option lrange;
  en_expected : option (list str);
  en_message : option str;
}.

(** error_reporter.rs:139-145 [ErrorEventData] *)
Record event_data := mkData {
  ed_src : option str;
  ed_source : option stream;
  ed_syntax : list syntax_error;
  ed_semantic : list semantic_error;
  ed_other : list cli_error;
}.

(** error_reporter.rs:225-229 [ErrorEvent] *)
Inductive event := EvError (d : event_data) | EvMode (m : error_mode) | EvClose.

Section Reporter.
Variable debug : str -> str.
(** [serde_json::to_writer] of an entry *)
Variable json : entry -> str.

(** error_reporter.rs:257-305 [write_error]; writing succeeds. *)
Definition write_error (mode : error_mode) (e : entry) : str :=
  match en_category e, mode with
  | CatHidden, _ => []
  | c, MDefault =>
      (match c with CatArgument => [] | _ => show_category c ++ L " error: " end) ++
      (match en_source e with
       | Some (SFile p) => p ++ L ": "
       | Some Stdio => L "<stdin>: "
       | None => []
       end) ++
      (match en_location e with
       | Some r => L "at position " ++ dec (r_start r) ++
                   (if r_start r + 1 <=? r_end r then L "..<" ++ dec (r_end r) else []) ++ L ": "
       | None => []
       end) ++
      (match en_message e with Some m => m | None => L "unknown error" end) ++ [10]
  | _, MJson => json e ++ [10]
  | _, MSilent => []
  end.

(** error_reporter.rs:148-222 [report]: the entries, in order. *)
Definition entries (d : event_data) : list entry :=
  map (fun e => mkEntry CatSyntax (ed_source d) (Some (sy_range e))
                  (match sy_kind e with KParseFailed x => Some x | _ => None end)
                  (opt_map (fun s => display_with_src debug s false e) (ed_src d)))
      (ed_syntax d) ++
  map (fun e => mkEntry CatSemantic (ed_source d) (Some (se_range e)) None
                  (opt_map (fun _ => L "Unknown") (ed_src d)))
      (ed_semantic d) ++
  map (fun e => mkEntry (match ce_category e with Some c => c | None => CatInternal end)
                  (ce_source e) None None (Some (ce_message e)))
      (ed_other d).
(* error_reporter.rs:148-222 (as above) *)
Definition report (mode : error_mode) (d : event_data) : str :=
  flat_map (write_error mode) (entries d).

(** error_reporter.rs:308-357: the loop of the reporter's thread, with the errors kept
    until a mode is set ([None] after that) and the mode; the text written. *)
Fixpoint reporter (pending : option (list event_data)) (mode : error_mode) (events : list event) : str :=
  match events with
  | [] => []
  | EvError d :: rest =>
      match pending with
      | Some batch => reporter (Some (batch ++ [d])) mode rest
      | None => report mode d ++ reporter None mode rest
      end
  | EvMode m :: rest =>
      flat_map (report m) (match pending with Some batch => batch | None => [] end) ++
      reporter None m rest
  | EvClose :: _ =>
      flat_map (report mode) (match pending with Some batch => batch | None => [] end)
  end.
(* error_reporter.rs:308-357 (as above) *)
Definition run_reporter (events : list event) : str := reporter (Some []) MDefault events.

End Reporter.

(** error_reporter.rs:359-382 [conversion_error] *)
Definition conversion_error (name : stream) (src : str) (e : convert_error) : event :=
  EvError (match e with
           | CESyntax l => mkData (Some src) (Some name) l [] []
           | CESemantic l => mkData (Some src) (Some name) [] l []
           | CEUnknown => mkData None (Some name) [] [] []
           end).

(** error_reporter.rs:384-394 [other_error] *)
Definition other_error (e : cli_error) : event := EvError (mkData None None [] [] [e]).

(** * minty-cli/src/args.rs, key_value.rs and main.rs: reading the command line.

    args.rs declares the arguments; that they are read as declared is the work of the
    library clap (4.5), whose parser, as far as these declarations use it, is modelled
    here from its documentation.  Words are Unicode texts.  The messages of clap are
    not modelled, only that there is one. *)

From Verif Require Import Base Doc Config Errors Reporter Cli.

(* the result of [try_parse]: the matches, the text of [--help] (not an error), or an
   error; clap::error::ErrorKind *)
Inductive outcome (A : Type) := Got (a : A) | Help | Usage.
Arguments Got {A} a.
Arguments Help {A}.
Arguments Usage {A}.

(* [?] on it *)
Definition bind_o {A B} (m : outcome A) (f : A -> outcome B) : outcome B :=
  match m with Got a => f a | Help => Help | Usage => Usage end.

(** ** The declarations *)

(** The arguments that have names: args.rs:31-50, 65-168, and [--help] of clap. *)
Inductive opt :=
| OStdin | ODir | ORecurse | OOut | OStdout | OXml | OPretty | OIndent | OCompletePage
| OFragment | OSpecialTag | OForgiving | OFailFast | OMetadata | OMetadataElements
| OErrorMode | OHelp.

(* args.rs:31-50, 65-168 *)
Definition all_opts : list opt :=
  [OStdin; ODir; ORecurse; OOut; OStdout; OXml; OPretty; OIndent; OCompletePage; OFragment;
   OSpecialTag; OForgiving; OFailFast; OMetadata; OMetadataElements; OErrorMode; OHelp].

(** [long]: the name of the field with hyphens (clap_derive), or the name given.
    args.rs:38, 48, 67, 70, 79, 82, 93, 96, 99, 113, 120, 129, 137, 144, 154, 163 *)
Definition long_name (o : opt) : str :=
  match o with
  | OStdin => L "stdin"
  | ODir => L "dir"
  | ORecurse => L "recurse"
  | OOut => L "out"
  | OStdout => L "stdout"
  | OXml => L "xml"
  | OPretty => L "pretty"
  | OIndent => L "indent"
  | OCompletePage => L "complete-page"
  | OFragment => L "fragment"
  | OSpecialTag => L "special-tag"
  | OForgiving => L "forgiving"
  | OFailFast => L "fail-fast"
  | OMetadata => L "metadata"
  | OMetadataElements => L "metadata-elements"
  | OErrorMode => L "error-mode"
  | OHelp => L "help"
  end.

(** [short]: args.rs:37, 67, 82, 93, 96; [-h] of clap *)
Definition short_name (o : opt) : option chr :=
  match o with
  | ODir => Some 100
  | ORecurse => Some 114
  | OOut => Some 111
  | OXml => Some 120
  | OPretty => Some 112
  | OHelp => Some 104
  | _ => None
  end.

(** How many values there are: none (a [bool]); one; none or one (an
    [Option<Option<_>>]); none or one, which is written after an equals sign
    ([num_args = 0..=1], [require_equals]).  args.rs:31-50, 65-168 *)
Inductive arity := ANone | AOne | AMaybe | AEquals.
(* args.rs:31-50, 65-168 *)
Definition arity_of (o : opt) : arity :=
  match o with
  | OStdin | OStdout | OXml | OPretty | OFragment | OHelp => ANone
  | ODir | OOut | OIndent | OSpecialTag | OErrorMode => AOne
  | ORecurse => AMaybe
  | OCompletePage | OForgiving | OFailFast | OMetadata | OMetadataElements => AEquals
  end.

(* clap: arguments are looked up by their names *)
Definition find_long (s : str) : option opt := find (fun o => str_eqb (long_name o) s) all_opts.
(* clap: as above *)
Definition find_short (c : chr) : option opt :=
  find (fun o => match short_name o with Some d => c =? d | None => false end) all_opts.

(** ** Values *)

(** One use of an argument, with its value; [UFile] is args.rs:85-86, without a name. *)
(* args.rs:31-50, 65-168 *)
Inductive use :=
| UStdin | UDir (p : str) | URecurse (d : option N) | UOut (p : str) | UStdout
| UXml | UPretty | UIndent (n : N) | UCompletePage (b : bool) | UFragment
| USpecialTag (l : list (special_kind * str)) | UForgiving (b : bool) | UFailFast (f : fail_fast)
| UMetadata (b : bool) | UMetadataElements (b : bool) | UErrorMode (m : error_mode)
| UFile (p : str).

(* the values of digits, in u32::from_str and u8::from_str *)
Fixpoint digits (acc : N) (s : str) : option N :=
  match s with
  | [] => Some acc
  | c :: rest => if (48 <=? c) && (c <=? 57) then digits (10 * acc + (c - 48)) rest else None
  end.

(** The parser of a [u32] (args.rs:42), [value_parser!(u8).range(0..=16)] (args.rs:99):
    clap reads an i64, by [i64::from_str], and compares it with the bounds. *)
Definition read_number (max : N) (s : str) : option N :=
  let '(negative, ds) :=
    match s with
    | c :: ds => if c =? 43 then (false, ds) else if c =? 45 then (true, ds) else (false, s)
    | [] => (false, s)
    end in
  match ds with
  | [] => None
  | _ =>
      match digits 0 ds with
      | Some n => if (n <=? max) && (negb negative || (n =? 0)) then Some n else None
      | None => None
      end
  end.

(* [BoolValueParser] of clap *)
Definition read_bool (s : str) : option bool :=
  if str_eqb s (L "true") then Some true else if str_eqb s (L "false") then Some false else None.

(** args.rs:170-180, by [EnumValueParser] of clap *)
Definition read_fail_fast (s : str) : option fail_fast :=
  if str_eqb s (L "false") then Some FFFalse
  else if str_eqb s (L "true") then Some FFTrue
  else if str_eqb s (L "file") then Some FFFile
  else None.

(** args.rs:52-60 *)
Definition read_mode (s : str) : option error_mode :=
  if str_eqb s (L "default") then Some MDefault
  else if str_eqb s (L "json") then Some MJson
  else if str_eqb s (L "silent") then Some MSilent
  else None.

(** args.rs:182-198 *)
Definition kind_name (k : special_kind) : str :=
  match k with
  | Strong => L "strong"
  | Emphasis => L "emphasis"
  | Underline => L "underline"
  | Strike => L "strike"
  | Quote => L "quote"
  | Code => L "code"
  | CodeBlockContainer => L "code-block-container"
  end.
(* args.rs:182-198 (as above), by [EnumValueParser] *)
Definition read_kind (s : str) : option special_kind :=
  find (fun k => str_eqb s (kind_name k)) [Strong; Emphasis; Underline; Strike; Quote; Code; CodeBlockContainer].

(** key_value.rs:42-82 [parse_ref] *)
Definition read_tag (s : str) : option (special_kind * str) :=
  match split_once 61 s with
  | None => None
  | Some (key, value) =>
      match read_kind key with
      | Some k => Some (k, value)
      | None => None
      end
  end.

(* [split] with a character; args.rs:132 [value_delimiter], by clap *)
Fixpoint split_char (p : chr) (s : str) : list str :=
  match s with
  | [] => [[]]
  | c :: rest =>
      if c =? p then [] :: split_char p rest
      else match split_char p rest with
           | w :: ws => (c :: w) :: ws
           | [] => [[c]]
           end
  end.

(* collecting results: an error if one is *)
Fixpoint collect {A} (l : list (option A)) : option (list A) :=
  match l with
  | [] => Some []
  | o :: rest => match o, collect rest with Some a, Some l => Some (a :: l) | _, _ => None end
  end.

(* args.rs:129-134 *)
Definition read_tags (s : str) : option (list (special_kind * str)) :=
  collect (map read_tag (split_char 44 s)).

(* [PathBufValueParser] of clap *)
Definition read_path (s : str) : option str := if str_empty s then None else Some s.

(* an invalid value is an error *)
Definition got {A} (o : option A) : outcome A := match o with Some a => Got a | None => Usage end.

(** A use of an argument with a value or without: [react] of clap, with the value
    parsers of args.rs:31-50, 65-168; without a value there is [default_missing_value]. *)
Definition take (o : opt) (v : option str) : outcome use :=
  let flag (u : use) := match v with None => Got u | Some _ => Usage end in
  let one {A} (read : str -> option A) (f : A -> use) :=
    match v with Some s => got (opt_map f (read s)) | None => Usage end in
  let missing {A} (d : A) (read : str -> option A) (f : A -> use) :=
    match v with Some s => got (opt_map f (read s)) | None => Got (f d) end in
  match o with
  | OStdin => flag UStdin
  | ODir => one read_path UDir
  | ORecurse => missing None (fun s => opt_map Some (read_number u32_max s)) URecurse
  | OOut => one read_path UOut
  | OStdout => flag UStdout
  | OXml => flag UXml
  | OPretty => flag UPretty
  | OIndent => one (read_number 16) UIndent
  | OCompletePage => missing true read_bool UCompletePage
  | OFragment => flag UFragment
  | OSpecialTag => one read_tags USpecialTag
  | OForgiving => missing true read_bool UForgiving
  | OFailFast => missing FFTrue read_fail_fast UFailFast
  | OMetadata => missing true read_bool UMetadata
  | OMetadataElements => missing true read_bool UMetadataElements
  | OErrorMode => one read_mode UErrorMode
  | OHelp => match v with None => Help | Some _ => Usage end
  end.

(** ** Words *)

(* put a use in front *)
Definition cons_o {A} (u : outcome A) (us : outcome (list A)) : outcome (list A) :=
  bind_o u (fun u => bind_o us (fun us => Got (u :: us))).

(** [parse_short_arg] of clap, after the hyphen: the uses, and the argument that is
    still to get its value. *)
Fixpoint shorts (cs : str) : outcome (list use * option opt) :=
  match cs with
  | [] => Got ([], None)
  | c :: rest =>
      match find_short c with
      | None => Usage
      | Some o =>
          match arity_of o with
          | ANone =>
              bind_o (take o None) (fun u =>
              bind_o (shorts rest) (fun '(us, p) => Got (u :: us, p)))
          | _ =>
              match rest with
              | [] => Got ([], Some o)
              | d :: v => bind_o (take o (Some (if d =? 61 then v else rest))) (fun u => Got ([u], None))
              end
          end
      end
  end.

(** [parse_long_arg] of clap, after the hyphens *)
Definition long (s : str) : outcome (list use * option opt) :=
  let '(name, v) := match split_once 61 s with Some (n, v) => (n, Some v) | None => (s, None) end in
  match find_long name with
  | None => Usage
  | Some o =>
      match arity_of o, v with
      | (AOne | AMaybe), None => Got ([], Some o)
      | _, _ => bind_o (take o v) (fun u => Got ([u], None))
      end
  end.

(* [resolve_pending] of clap: there is no value *)
Definition finish (pending : option opt) (k : outcome (list use)) : outcome (list use) :=
  match pending with
  | None => k
  | Some o => cons_o (take o None) k
  end.

(* args.rs:85-86 *)
Definition file (w : str) : outcome use := got (opt_map UFile (read_path w)).

(* the words after [--] *)
Fixpoint files (ws : list str) : outcome (list use) :=
  match ws with
  | [] => Got []
  | w :: rest => cons_o (file w) (files rest)
  end.

(* [is_escape], [to_long], [to_short] of clap_lex *)
Inductive word := WEscape | WLong (s : str) | WShort (s : str) | WOther.
(* as above *)
Definition word_of (w : str) : word :=
  match w with
  | a :: b :: s =>
      if a =? 45 then
        if b =? 45 then (if is_nil s then WEscape else WLong s) else WShort (b :: s)
      else WOther
  | _ => WOther
  end.

(** [get_matches_with] of clap: a word is [--], begins with two hyphens or with one, is
    the value of the argument before it, or a file. *)
Fixpoint read (pending : option opt) (ws : list str) : outcome (list use) :=
  match ws with
  | [] => finish pending (Got [])
  | w :: rest =>
      let named (m : outcome (list use * option opt)) :=
        finish pending (bind_o m (fun '(us, p) => bind_o (read p rest) (fun vs => Got (us ++ vs)))) in
      match word_of w with
      | WEscape => finish pending (files rest)
      | WLong s => named (long s)
      | WShort s => named (shorts s)
      | WOther =>
          match pending with
          | Some o => cons_o (take o (Some w)) (read None rest)
          | None => cons_o (file w) (read None rest)
          end
      end
  end.

(** ** What the uses say together *)

(** args.rs:17 [args_override_self]; args.rs:165 [overrides_with], which in clap goes
    both ways; [ArgAction::Append] (args.rs:131, and of a [Vec]) keeps what was there. *)
Definition overrides (new old : use) : bool :=
  match new, old with
  | UStdin, UStdin | UDir _, UDir _ | URecurse _, URecurse _ | UOut _, UOut _
  | UStdout, UStdout | UXml, UXml | UPretty, UPretty | UIndent _, UIndent _
  | UCompletePage _, UCompletePage _ | UFragment, UFragment | UForgiving _, UForgiving _
  | UFailFast _, UFailFast _ | UErrorMode _, UErrorMode _ => true
  | (UMetadata _ | UMetadataElements _), (UMetadata _ | UMetadataElements _) => true
  | _, _ => false
  end.

(* [ArgMatcher] of clap *)
Definition add (m : list use) (u : use) : list use := filter (fun e => negb (overrides u e)) m ++ [u].
(* as above *)
Definition matches (us : list use) : list use := fold_left add us [].

(* [get_one], [get_many] of clap: the values of one argument *)
Definition values {A} (f : use -> option A) (m : list use) : list A :=
  flat_map (fun u => match f u with Some a => [a] | None => [] end) m.
(* as above *)
Definition value {A} (f : use -> option A) (m : list use) : option A :=
  match values f m with a :: _ => Some a | [] => None end.
(* as above *)
Definition present (f : use -> option unit) (m : list use) : bool := is_some (value f m).

(** The values of the uses. *)
(* args.rs:79-80 *)
Definition f_stdin (u : use) := match u with UStdin => Some tt | _ => None end.
(* args.rs:82-83 *)
Definition f_dir (u : use) := match u with UDir p => Some p | _ => None end.
(* args.rs:36-42 *)
Definition f_recurse (u : use) := match u with URecurse d => Some d | _ => None end.
(* args.rs:67-68 *)
Definition f_out (u : use) := match u with UOut p => Some p | _ => None end.
(* args.rs:70-71 *)
Definition f_stdout (u : use) := match u with UStdout => Some tt | _ => None end.
(* args.rs:93-94 *)
Definition f_xml (u : use) := match u with UXml => Some tt | _ => None end.
(* args.rs:96-97 *)
Definition f_pretty (u : use) := match u with UPretty => Some tt | _ => None end.
(* args.rs:99-100 *)
Definition f_indent (u : use) := match u with UIndent n => Some n | _ => None end.
(* args.rs:112-117 *)
Definition f_complete_page (u : use) := match u with UCompletePage b => Some b | _ => None end.
(* args.rs:120-121 *)
Definition f_fragment (u : use) := match u with UFragment => Some tt | _ => None end.
(* args.rs:129-134 *)
Definition f_special_tag (u : use) := match u with USpecialTag l => Some l | _ => None end.
(* args.rs:136-141 *)
Definition f_forgiving (u : use) := match u with UForgiving b => Some b | _ => None end.
(* args.rs:143-148 *)
Definition f_fail_fast (u : use) := match u with UFailFast f => Some f | _ => None end.
(* args.rs:153-158 *)
Definition f_metadata (u : use) := match u with UMetadata b => Some b | _ => None end.
(* args.rs:162-167 *)
Definition f_metadata_elements (u : use) := match u with UMetadataElements b => Some b | _ => None end.
(* args.rs:48-49 *)
Definition f_error_mode (u : use) := match u with UErrorMode m => Some m | _ => None end.
(* args.rs:85-86 *)
Definition f_file (u : use) := match u with UFile p => Some p | _ => None end.

(** [Validator::validate] of clap.  Conflicts: args.rs:40 (the depth and files), 63 (the
    destinations), 70, 79, 120, 146; required: 75 (a source), 79 (a destination for
    [--stdin]), 99 ([--pretty] for [--indent]). *)
Definition valid (m : list use) : bool :=
  let stdin := present f_stdin m in
  let dir := is_some (value f_dir m) in
  let files := is_some (value f_file m) in
  let out := is_some (value f_out m) in
  let stdout := present f_stdout m in
  negb (stdin && (dir || files)) &&
  negb (is_some (value f_recurse m) && files) &&
  negb (out && stdout) &&
  negb (stdout && dir) &&
  negb (present f_fragment m && is_some (value f_complete_page m)) &&
  negb (is_some (value f_fail_fast m) && is_some (value f_forgiving m)) &&
  (stdin || dir || files) &&
  (negb stdin || out || stdout) &&
  (negb (is_some (value f_indent m)) || present f_pretty m).

(** [from_arg_matches] of clap_derive: args.rs:31-50, 65-168, with the values of
    [default_value] (args.rs:48, 99) *)
Definition build (m : list use) : args :=
  mkArgs
    (present f_stdin m)
    (value f_dir m)
    (match values f_file m with [] => None | l => Some l end)
    (value f_recurse m)
    (value f_out m)
    (present f_stdout m)
    (mkOpts
       (present f_xml m)
       (present f_pretty m)
       (N.to_nat (opt_or (value f_indent m) 2))
       (value f_complete_page m)
       (present f_fragment m)
       (concat (values f_special_tag m))
       (value f_forgiving m)
       (value f_fail_fast m)
       (value f_metadata m)
       (value f_metadata_elements m))
    (opt_or (value f_error_mode m) MDefault).

(** args.rs:24-50: the words after [convert] *)
Definition read_convert (ws : list str) : outcome args :=
  bind_o (read None ws) (fun us =>
  let m := matches us in
  if valid m then Got (build m) else Usage).

(** args.rs:13-27 [Cli::try_parse]: the words after the name of the program.  [help],
    which clap adds, takes the name of a command (its own options are left out). *)
Definition read_command (ws : list str) : outcome args :=
  match ws with
  | [] => Usage
  | w :: rest =>
      if str_eqb w (L "convert") then read_convert rest
      else if starts_with (L "-h") w || str_eqb w (L "--help") then Help
      else if str_eqb w (L "help") then
        match rest with
        | [] => Help
        | [c] => if str_eqb c (L "convert") || str_eqb c (L "help") then Help else Usage
        | _ => Usage
        end
      else Usage
  end.

(** ** main.rs *)

(** main.rs:119-127 [FallbackArgs::try_parse]: it is given the same words, has [--help]
    and [--error-mode], and nothing overrides.  The uses of [--error-mode]; *)
Fixpoint fallback_uses (ws : list str) : outcome (list error_mode) :=
  match ws with
  | [] => Got []
  | w :: rest =>
      if str_eqb w (L "--error-mode") then
        match rest with
        | [] => Usage
        | v :: rest =>
            match word_of v with
            | WOther => cons_o (got (read_mode v)) (fallback_uses rest)
            | _ => Usage
            end
        end
      else if str_eqb w (L "--") then match rest with [] => Got [] | _ => Usage end
      else if str_eqb w (L "-h") || str_eqb w (L "--help") then Help
      else match strip_prefix (L "--error-mode=") w with
           | Some v => cons_o (got (read_mode v)) (fallback_uses rest)
           | None => Usage
           end
  end.
(* main.rs:119-127: at most one of them; [default_value] *)
Definition fallback (ws : list str) : outcome error_mode :=
  bind_o (fallback_uses ws) (fun ms =>
  match ms with
  | [] => Got MDefault
  | [m] => Got m
  | _ => Usage
  end).

(** main.rs:118-138 [parse_args]: a command is run; or clap prints the help or its
    message and exits; or there is only the mode of the reporter. *)
Inductive start := SRun (a : args) | SHelp | SMessage | SFail (m : error_mode).
(* main.rs:118-138 (as above) *)
Definition parse_args (ws : list str) : start :=
  let exit (o : outcome args) := match o with Got a => SRun a | Help => SHelp | Usage => SMessage end in
  match read_command ws with
  | Got a => SRun a
  | e =>
      match fallback ws with
      | Got MDefault | Help | Usage => exit e
      | Got m => SFail m
      end
  end.

(** main.rs:140-144: what is on stderr after [ExitCode::FAILURE] at that point; the
    reporter is closed (error_reporter.rs:236-245). *)
Definition failed_stderr (debug : str -> str) (json : entry -> str) (m : error_mode) : str :=
  run_reporter debug json [EvMode m; EvClose].

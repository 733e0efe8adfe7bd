(** * minty-cli: the [convert] command.

    A command is the record [args]; Args.v says how it is read from the command line.  The file system is a record of functions [io]; it does not change
    during a run (what is written is a result of the model). *)

From Coq Require Import Permutation.
From Verif Require Import Base Doc Config Errors Path Reporter.

(* [anyhow::Result], minty-cli/src/utils.rs, convert.rs *)
Definition cres (A : Type) : Type := (A + cli_error)%type.
(* [?] on it *)
Definition bind_c {A B} (m : cres A) (f : A -> cres B) : cres B :=
  match m with inl a => f a | inr e => inr e end.
Notation "'let+' x ':=' m 'in' f" := (bind_c m (fun x => f)) (at level 61, x pattern, right associativity).

(** io_helper.rs:130-134 [PathInfo] *)
Record path_info := mkInfo { is_file : bool; is_dir : bool }.

(** io_helper.rs:17-70 [IoHelper]: [None] of [io_path_info] is a path that does not
    exist; [io_read_dir] is the whole directory (convert.rs:95 collects it); [io_write]
    gives the error, if any. *)
Record io := mkIo {
  io_path_info : str -> cres (option path_info);
  io_read_dir : str -> cres (list (str * path_info));
  io_read : stream -> cres str;
  io_write : stream -> str -> option cli_error;
}.

(** args.rs:169-180 [FailFast] *)
Inductive fail_fast := FFFalse | FFTrue | FFFile.

(** args.rs:88-167 [ConvertOptions]; [SpecialTag] (182-199) has the same values as
    [special_kind]. *)
Record options := mkOpts {
  o_xml : bool;
  o_pretty : bool;
  o_indent : nat;
  o_complete_page : option bool;
  o_fragment : bool;
  o_special_tag : list (special_kind * str);
  o_forgiving : option bool;
  o_fail_fast : option fail_fast;
  o_metadata : option bool;
  o_metadata_elements : option bool;
}.

(** args.rs:30-52 [Convert], with 64-74 [ConvertDest] and 76-86 [ConvertSource] *)
Record args := mkArgs {
  g_stdin : bool;
  g_src_dir : option str;
  g_src_files : option (list str);
  g_recurse : option (option N);
  g_out : option str;
  g_stdout : bool;
  g_options : options;
  g_error_mode : error_mode;
}.

(** ** Options *)

(** convert.rs:452-466 *)
Definition set_special (t : special_tags) (kv : special_kind * str) : special_tags :=
  let '(k, v) := kv in
  let set (k' : special_kind) (old : option str) :=
    match k, k' with
    | Strong, Strong | Emphasis, Emphasis | Underline, Underline | Strike, Strike
    | Quote, Quote | Code, Code | CodeBlockContainer, CodeBlockContainer => Some v
    | _, _ => old
    end in
  mkSpecial (set Emphasis (st_emphasis t)) (set Strong (st_strong t)) (set Underline (st_underline t))
            (set Strike (st_strike t)) (set Quote (st_quote t)) (set Code (st_code t))
            (set CodeBlockContainer (st_code_block_container t)).

(** convert.rs:443-490 [as_config] *)
Definition as_config (o : options) : config :=
  mkConfig
    (if o_pretty o then Some (repeat 32 (o_indent o)) else None)
    (Some (o_xml o))
    (fold_left set_special (o_special_tag o) special_default)
    (Some (match o_complete_page o with Some b => b | None => negb (o_fragment o) end))
    None
    (match o_metadata o, o_metadata_elements o with
     | None, Some b | Some true, Some b => Some b
     | Some true, None => Some false
     | _, _ => None
     end)
    (opt_map (fun f => match f with FFFalse => false | _ => true end) (o_fail_fast o)).

(** convert.rs:27-34 [get_recursion] *)
Definition u32_max : N := 4294967295.
(* convert.rs:27-34 *)
Definition get_recursion (a : args) : N :=
  match g_recurse a with
  | Some (Some r) => r
  | Some None => u32_max
  | None => 0
  end.

(** ** Sources *)

(** convert.rs:375-385 [SourceFileLocation], [joined] *)
Record location := mkLoc { l_base : str; l_rel : str }.
(* convert.rs:375-385 (as above) *)
Definition joined (l : location) : str := push (l_base l) (l_rel l).

(** convert.rs:387-396, Display *)
Definition show_location (l : location) : str :=
  l_base l ++ (if has_trailing_slash (l_base l) then [] else [slash]) ++ l_rel l.

(* [.context(ErrorCategory::Argument)], convert.rs:148, 220-301 *)
Definition argument_error (m : str) : cli_error := mkErr (Some CatArgument) None m.
(* the texts of convert.rs:148, 220-301 *)
Definition quoted (s m : str) : str := L "'" ++ s ++ L "'" ++ m.

(** convert.rs:345-372 [get_search_parts] with a path *)
Definition get_search_parts (dir : option str) (path : str) : str * str :=
  match dir with
  | Some d => (d, path)
  | None => (pop path, match file_name path with Some n => n | None => [] end)
  end.

(** convert.rs:398-406 [PathType] *)
Inductive path_type := PFile | PProbablyFile | PUnknown | PProbablyDir | PDir (trailing_slash : bool).

(** [>= PathType::ProbablyDir], by the derived order *)
(* convert.rs:398-427 *)
Definition at_least_dir (t : path_type) : bool :=
  match t with PProbablyDir | PDir _ => true | _ => false end.

(** convert.rs:429-440 [SourceType], [DestinationType] *)
Inductive source_type :=
| SStdin
| SDir (l : list location)
| SImplicit (l : list location)
| SPath (l : location) (t : path_type)
| SPaths (l : list location).
(* convert.rs:429-440 (as above) *)
Inductive dest_type := DStdout | DImplicit | DPath (p : str) (t : path_type).

Section Cli.
Variable fs : io.

(** convert.rs:408-427 [PathType::for_path] *)
Definition path_type_for (p : str) : cres path_type :=
  let+ info := io_path_info fs p in
  inl (match info with
       | Some i => if is_dir i then PDir (has_trailing_slash p) else PFile
       | None =>
           if has_trailing_slash p then PProbablyDir
           else if is_some (extension p) then PProbablyFile
           else PUnknown
       end).

(** convert.rs:87-114 [search_dir_inner]: the loop over the entries and the recursive
    call.  The call leaves [exact] and [rel] as it finds them: both end in a name, and
    [pop] after [push] restores such a path (P_Path.v). *)
Fixpoint search_dir_inner (recurse : nat) (base exact rel : str) {struct recurse} : cres (list location) :=
  let+ entries := io_read_dir fs exact in
  (fix go (entries : list (str * path_info)) (exact rel : str) : cres (list location) :=
     match entries with
     | [] => inl []
     | (name, info) :: rest =>
         if is_file info then
           let+ out := go rest exact rel in
           inl (if has_minty_extension name then mkLoc base (push rel name) :: out else out)
         else
           match recurse with
           | O => go rest exact rel
           | S recurse =>
               let rel' := push rel name in
               let exact' := push exact name in
               let+ found := search_dir_inner recurse base exact' rel' in
               let+ out := go rest (pop exact') (pop rel') in
               inl (found ++ out)
           end
     end) entries exact rel.

(** convert.rs:115-123 [search_dir] *)
Definition search_dir (a : args) (base rel : str) : cres (list location) :=
  search_dir_inner (N.to_nat (get_recursion a)) base (push base rel) rel.

(** convert.rs:139-159: several files *)
Fixpoint source_files (a : args) (dir : option str) (files : list str) : cres (list location) :=
  match files with
  | [] => inl []
  | f :: rest =>
      let+ info := io_path_info fs f in
      let (base, rel) := get_search_parts dir f in
      match info with
      | None => inr (argument_error (quoted (show_location (mkLoc base rel)) (L " does not exist")))
      | Some i =>
          let+ found := if is_dir i then search_dir a base rel else inl [mkLoc base rel] in
          let+ out := source_files a dir rest in
          inl (found ++ out)
      end
  end.

(** convert.rs:125-170 [conversion_src_type] *)
Definition conversion_src_type (a : args) : cres source_type :=
  if g_stdin a then inl SStdin
  else match g_src_files a, g_src_dir a with
       | Some [f], dir =>
           let+ t := path_type_for f in
           let (base, rel) := get_search_parts dir f in
           inl (SPath (mkLoc base rel) t)
       | Some files, dir => let+ l := source_files a dir files in inl (SPaths l)
       | None, Some dir => let+ l := search_dir a dir [] in inl (SDir l)
       | None, None => let+ l := search_dir a (L ".") [] in inl (SImplicit l)
       end.

(** convert.rs:172-182 [conversion_dest_type] *)
Definition conversion_dest_type (a : args) : cres dest_type :=
  if g_stdout a then inl DStdout
  else match g_out a with
       | Some out => let+ t := path_type_for out in inl (DPath out t)
       | None => inl DImplicit
       end.

(** ** What is converted where *)

(** One conversion, or several in parallel; each with its source and destination. *)
(* the outcomes of convert.rs:215-343 *)
Inductive plan := PSingle (src dest : stream) | PMany (jobs : list (stream * stream)).

(** convert.rs:184-207: the jobs of [convert_multiple] *)
Definition job (o : options) (dest : option str) (l : location) : stream * stream :=
  (SFile (joined l),
   SFile (change_extension (o_xml o) (match dest with
                                      | Some d => push d (l_rel l)
                                      | None => push (l_base l) (l_rel l)
                                      end))).
(* convert.rs:184-207 (as above) *)
Definition convert_multiple (a : args) (l : list location) (dest : option str) : cres plan :=
  inl (PMany (map (job (g_options a) dest) l)).

(** convert.rs:215-343 [convert_src_to_dest], in the order of its cases *)
Definition convert_src_to_dest (a : args) (src : source_type) (dest : dest_type) : cres plan :=
  match src, dest with
  | SPath l (PProbablyDir | PDir _), (DPath _ PFile | DStdout) =>
      inr (argument_error (quoted (show_location l) (L " is not a file")))
  | SPath l (PProbablyFile | PUnknown | PProbablyDir), _ =>
      inr (argument_error (quoted (show_location l) (L " does not exist")))
  | (SDir _ | SImplicit _ | SPaths _), DPath out PFile =>
      inr (argument_error (quoted out (L " is not a directory")))
  | SPath l PFile, DStdout => inl (PSingle (SFile (joined l)) Stdio)
  | (SDir _ | SImplicit _ | SPaths _), DStdout =>
      inr (mkErr None None (L "--stdout requires --stdin or exactly one source file"))
  | SStdin, DStdout => inl (PSingle Stdio Stdio)
  | SStdin, DPath out t =>
      if at_least_dir t then inr (argument_error (quoted out (L " is not a file")))
      else inl (PSingle Stdio (SFile out))
  | SStdin, DImplicit => inr (argument_error (L "--stdin requires --stdout or exactly one output file"))
  | SPath l PFile, DImplicit => convert_multiple a [l] None
  | SPath l (PDir _), DImplicit =>
      let+ found := search_dir a (l_base l) (l_rel l) in
      convert_multiple a found None
  | (SDir l | SImplicit l | SPaths l), DImplicit => convert_multiple a l None
  | (SDir l | SImplicit l | SPaths l), DPath out _ => convert_multiple a l (Some out)
  | SPath _ PFile, DPath out (PDir false) => inr (argument_error (quoted out (L " is a directory")))
  | SPath l PFile, DPath out t =>
      if at_least_dir t then convert_multiple a [l] (Some out)
      else inl (PSingle (SFile (joined l)) (SFile out))
  | SPath l (PDir trailing), DPath out _ =>
      let '(base, dir) :=
        if negb trailing && has_trailing_slash out && str_empty (l_base l)
        then (match parent out with Some p => p | None => L "." end,
              match file_name (l_rel l) with Some n => n | None => [] end)
        else (push (l_base l) (l_rel l), []) in
      let+ found := search_dir a base dir in
      convert_multiple a found (Some out)
  end.

(** convert.rs:80-85 [execute], up to the conversions *)
Definition make_plan (a : args) : cres plan :=
  let+ src := conversion_src_type a in
  let+ dest := conversion_dest_type a in
  convert_src_to_dest a src dest.

(** ** Conversions *)

(** mintyml's [convert] and [convert_forgiving] *)
Variable convert : str -> config -> str + convert_error.
Variable convert_forgiving : str -> config -> str + option str * convert_error.

(** What a conversion does: the errors sent to the reporter, the texts written (also
    if writing fails), the result. *)
(* convert.rs:36-78 *)
Record job_result := mkJob {
  jr_events : list event;
  jr_writes : list (stream * str);
  jr_result : cres bool;
}.

(** convert.rs:36-78 [convert] *)
Definition convert_job (a : args) (j : stream * stream) : job_result :=
  let '(source, dest) := j in
  match io_read fs source with
  | inr e => mkJob [] [] (inr (mkErr (ce_category e) (Some source) (ce_message e)))
  | inl src =>
      let cfg := as_config (g_options a) in
      let '(out, error) :=
        if match o_forgiving (g_options a) with Some b => b | None => false end then
          match convert_forgiving src cfg with
          | inl out => (Some out, None)
          | inr (out, e) => (out, Some e)
          end
        else
          match convert src cfg with
          | inl out => (Some out, None)
          | inr e => (None, Some e)
          end in
      let success := is_none error && is_some out in
      let events := match error with Some e => [conversion_error source src e] | None => [] end in
      let result :=
        match success, o_fail_fast (g_options a) with
        | false, Some FFTrue => inr (mkErr (Some CatHidden) None (show_category CatHidden))
        | _, _ => inl success
        end in
      match out with
      | Some text =>
          mkJob events [(dest, text)]
                (match io_write fs dest text with
                 | Some e => inr (mkErr (ce_category e) (Some source) (ce_message e))
                 | None => result
                 end)
      | None => mkJob events [] result
      end
  end.
End Cli.

(** ** Running *)

Section Run.
Variable fs : io.
Variable convert : str -> config -> str + convert_error.
Variable convert_forgiving : str -> config -> str + option str * convert_error.
Variable debug : str -> str.
Variable json : entry -> str.

(** convert.rs:212, the operation of rayon's [try_reduce]: [lhs & rhs], or the first of
    the errors. *)
Definition try_and (l r : cres bool) : cres bool :=
  match l, r with
  | inl a, inl b => inl (a && b)
  | inr e, _ | _, inr e => inr e
  end.

(** [try_reduce] splits the jobs in any way and combines the results of neighbours;
    any number of identities may be among them. *)
(* convert.rs:212 *)
Inductive reduces : list (cres bool) -> cres bool -> Prop :=
| red_identity : reduces [] (inl true)
| red_one r : reduces [r] r
| red_join l1 l2 r1 r2 : reduces l1 r1 -> reduces l2 r2 -> reduces (l1 ++ l2) (try_and r1 r2).

(** Some of the elements, in order. *)
(* used for convert.rs:190-212 *)
Inductive sublist {A} : list A -> list A -> Prop :=
| sub_nil : sublist [] []
| sub_keep x l l' : sublist l l' -> sublist (x :: l) (x :: l')
| sub_skip x l l' : sublist l l' -> sublist l (x :: l').

(* convert.rs:36-78 *)
Definition run_job (a : args) := convert_job fs convert convert_forgiving a.

(** convert.rs:190-212: jobs are left out only once one has failed with an error. *)
Definition parallel (a : args) (jobs run : list (stream * stream)) (r : cres bool) : Prop :=
  sublist run jobs /\
  (run = jobs \/ exists j e, In j run /\ jr_result (run_job a j) = inr e) /\
  reduces (map (fun j => jr_result (run_job a j)) run) r.

(** convert.rs:80-85, 492-504 [execute]: the errors reported, in any order between
    jobs, the texts written, the result. *)
Inductive executes (a : args) : list event -> list (stream * str) -> cres bool -> Prop :=
| ex_error e : make_plan fs a = inr e -> executes a [] [] (inr e)
| ex_single s d :
    make_plan fs a = inl (PSingle s d) ->
    executes a (jr_events (run_job a (s, d))) (jr_writes (run_job a (s, d))) (jr_result (run_job a (s, d)))
| ex_many jobs run order r :
    make_plan fs a = inl (PMany jobs) -> parallel a jobs run r -> Permutation run order ->
    executes a (flat_map (fun j => jr_events (run_job a j)) order)
               (flat_map (fun j => jr_writes (run_job a j)) order) r.

(** main.rs:140-153, after the command line has been parsed; error_reporter.rs:236-245,
    closing the reporter: stderr, what is written, and whether the exit code is
    [SUCCESS]. *)
Inductive runs (a : args) : str -> list (stream * str) -> bool -> Prop :=
| runs_intro evs ws r :
    executes a evs ws r ->
    runs a (run_reporter debug json
              (EvMode (g_error_mode a) :: evs
               ++ (match r with inr e => [other_error e] | inl _ => [] end) ++ [EvClose]))
           ws (match r with inl true => true | _ => false end).
End Run.

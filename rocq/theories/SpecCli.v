(** * What is said about the command line tool. *)

From Coq Require Import Permutation.
From Verif Require Import Base Doc Config Ast Errors Convert Display Path Reporter Cli.

(** ** Names *)

(** A name of an entry of a directory. *)
Definition EntryName (n : str) : Prop := n <> [] /\ ~ In slash n /\ n <> L "." /\ n <> L "..".

(** [stem.mty] or [stem.minty], in upper or lower case; [stem] is not empty. *)
Definition MintyName (n stem : str) : Prop :=
  exists e, n = stem ++ L "." ++ e /\ stem <> [] /\ (lower e = L "mty" \/ lower e = L "minty").

Definition Suffix (xml : bool) : str := if xml then L ".xhtml" else L ".html".

(** The name of the output for a source of name [n]. *)
Inductive OutName (xml : bool) : str -> str -> Prop :=
| out_minty n stem : MintyName n stem -> OutName xml n (stem ++ Suffix xml)
| out_other n : (forall stem, ~ MintyName n stem) -> OutName xml n (n ++ Suffix xml).

(** ** Directories *)

Inductive tree := TFile | TDir (children : list (str * tree)).

(** [sub] are the entries of the directory at the path [names]. *)
Inductive dir_at : list (str * tree) -> list str -> list (str * tree) -> Prop :=
| dir_here ch : dir_at ch [] ch
| dir_in n ch sub names sub' : In (n, TDir sub) ch -> dir_at sub names sub' -> dir_at ch (n :: names) sub'.

(** There is a file of that path. *)
Definition file_at (ch : list (str * tree)) (names : list str) : Prop :=
  exists dir n sub, names = dir ++ [n] /\ dir_at ch dir sub /\ In (n, TFile) sub.

(** Names of entries are names, each used once in a directory. *)
Definition tree_ok (ch : list (str * tree)) : Prop :=
  forall names sub, dir_at ch names sub -> NoDup (map fst sub) /\ forall n t, In (n, t) sub -> EntryName n.

Definition info_of (t : tree) : path_info :=
  match t with TFile => mkInfo true false | TDir _ => mkInfo false true end.

(** At the path [root] there is a directory with the entries [ch], however the path is
    written. *)
Definition holds_tree (fs : io) (root : str) (ch : list (str * tree)) : Prop :=
  forall names sub p, dir_at ch names sub -> components p = components root ++ map Normal names ->
    io_read_dir fs p = inl (map (fun c => (fst c, info_of (snd c))) sub).

(** How deep to look: [-r N], [-r] (no limit but that of a u32) or neither. *)
Definition Depth (a : args) (d : N) : Prop :=
  match g_recurse a with Some (Some n) => d = n | Some None => d = 2 ^ 32 - 1 | None => d = 0 end.

(** A MinTyML file not more than [d] directories down. *)
Definition MintyFile (ch : list (str * tree)) (d : N) (names : list str) : Prop :=
  file_at ch names /\
  (exists dir n stem, names = dir ++ [n] /\ MintyName n stem /\ N.of_nat (length dir) <= d).

(** ** The reporter *)

(** The next mode set before closing. *)
Fixpoint next_mode (evs : list event) : option error_mode :=
  match evs with
  | EvMode m :: _ => Some m
  | EvError _ :: evs => next_mode evs
  | _ => None
  end.

(** Each error until closing with the mode it is to be written in: the last one set
    before it; if there is none the next one; if there is none the default. *)
Fixpoint with_mode (last : option error_mode) (evs : list event) : list (error_mode * event_data) :=
  match evs with
  | EvError d :: evs =>
      (match last with
       | Some m => m
       | None => match next_mode evs with Some m => m | None => MDefault end
       end, d) :: with_mode last evs
  | EvMode m :: evs => with_mode (Some m) evs
  | EvClose :: _ | [] => []
  end.

(** The errors among events. *)
Definition errors_of (evs : list event) : list event_data :=
  flat_map (fun ev => match ev with EvError d => [d] | _ => [] end) evs.

(** ** Conversions *)

(** The conversion of [source] to [dest] succeeds: the source is read, converted
    without error, and written. *)
Definition Converts (fs : io) (cv : str -> config -> str + convert_error)
    (cvf : str -> config -> str + option str * convert_error) (cfg : config) (forgiving : bool)
    (source dest : stream) : Prop :=
  exists src out, io_read fs source = inl src /\
    (if forgiving then cvf src cfg = inl out else cv src cfg = inl out) /\
    io_write fs dest out = None.

(** The special tag's last override. *)
Definition LastOverride (l : list (special_kind * str)) (k : special_kind) (v : str) : Prop :=
  exists before after, l = before ++ (k, v) :: after /\ forall v', ~ In (k, v') after.

(** ** Sources and destinations *)

(** A place in the file system: a path, but for how it is written.  ([..] is not
    resolved.) *)
Definition place (p : str) : list component :=
  filter (fun c => match c with CurDir => false | _ => true end) (components p).

(** What holds of any file system: entries of directories have names; what is not a
    directory has a path that ends in a name. *)
Definition ordinary (fs : io) : Prop :=
  (forall p es, io_read_dir fs p = inl es -> forall n i, In (n, i) es -> EntryName n) /\
  (forall p i, io_path_info fs p = inl (Some i) -> is_dir i = false -> exists n, file_name p = Some n).

(** The files or directories that a command names as its sources. *)
Definition Named (a : args) (root : str) : Prop :=
  match g_src_files a, g_src_dir a with
  | Some files, Some d => exists f, In f files /\ root = push d f
  | Some files, None => In root files
  | None, Some d => root = d
  | None, None => root = L "."
  end.

Definition jobs_of (p : plan) : list (stream * stream) :=
  match p with PSingle s d => [(s, d)] | PMany jobs => jobs end.

(** The path given is that of an existing file, or directory. *)
Definition a_file (fs : io) (p : str) : Prop := exists i, io_path_info fs p = inl (Some i) /\ is_dir i = false.
Definition a_dir (fs : io) (p : str) : Prop := exists i, io_path_info fs p = inl (Some i) /\ is_dir i = true.

(** The functions of the library that the tool calls (C12: they always return). *)
Definition library (parse : str -> a_content + parse_error) (slice : str -> lrange -> str)
    (cv : str -> config -> str + convert_error) (cvf : str -> config -> str + option str * convert_error) : Prop :=
  forall src cfg, Convert.convert parse slice src cfg = Some (cv src cfg) /\
                  Convert.convert_forgiving parse slice src cfg = Some (cvf src cfg).

Definition forgives (a : args) : bool := match o_forgiving (g_options a) with Some b => b | None => false end.

(** No error of the file system is of the kind that is not shown. *)
Definition visible_errors (fs : io) : Prop :=
  (forall p e, io_path_info fs p = inr e -> ce_category e <> Some CatHidden) /\
  (forall p e, io_read_dir fs p = inr e -> ce_category e <> Some CatHidden) /\
  (forall s e, io_read fs s = inr e -> ce_category e <> Some CatHidden) /\
  (forall s t e, io_write fs s t = Some e -> ce_category e <> Some CatHidden).

(** The setting of a special tag. *)
Definition special_field (t : special_tags) (k : special_kind) : option str :=
  match k with
  | Strong => st_strong t
  | Emphasis => st_emphasis t
  | Underline => st_underline t
  | Strike => st_strike t
  | Quote => st_quote t
  | Code => st_code t
  | CodeBlockContainer => st_code_block_container t
  end.

(** ** What is printed about a run *)

(** Something to complain about: an error in a source (of that name and text), or an
    error of the tool. *)
Inductive complaint :=
| CoSyntax (name : stream) (src : str) (e : syntax_error)
| CoSemantic (name : stream) (src : str) (e : semantic_error)
| CoOther (e : cli_error).

(** The errors in the source of a conversion, in the order in which the library returns
    them. *)
Definition complaints (fs : io) (cv : str -> config -> str + convert_error)
    (cvf : str -> config -> str + option str * convert_error) (a : args) (source : stream) : list complaint :=
  match io_read fs source with
  | inr _ => []
  | inl src =>
      match (if forgives a
             then match cvf src (as_config (g_options a)) with inr (_, e) => Some e | inl _ => None end
             else match cv src (as_config (g_options a)) with inr e => Some e | inl _ => None end) with
      | Some (CESyntax l) => map (CoSyntax source src) l
      | Some (CESemantic l) => map (CoSemantic source src) l
      | _ => []
      end
  end.

Definition shown_stream (s : stream) : str := match s with SFile p => p | Stdio => L "<stdin>" end.
Definition shown_place (r : lrange) : str :=
  L "at position " ++ dec (r_start r) ++ (if r_start r <? r_end r then L "..<" ++ dec (r_end r) else []).

(** A line of plain text: kind, file, place, message.  Errors of arguments are printed
    without their kind; hidden errors are not printed at all. *)
Definition plain_line (debug : str -> str) (c : complaint) : str :=
  match c with
  | CoSyntax name src e =>
      L "Syntax error: " ++ shown_stream name ++ L ": " ++ shown_place (sy_range e) ++ L ": " ++
      Display.display_with_src debug src false e ++ [10]
  | CoSemantic name src e =>
      L "Semantic error: " ++ shown_stream name ++ L ": " ++ shown_place (se_range e) ++ L ": " ++ L "Unknown" ++ [10]
  | CoOther e =>
      let place := match ce_source e with Some s => shown_stream s ++ L ": " | None => [] end in
      match ce_category e with
      | Some CatHidden => []
      | Some CatArgument => place ++ ce_message e ++ [10]
      | Some CatSyntax => L "Syntax error: " ++ place ++ ce_message e ++ [10]
      | Some CatSemantic => L "Semantic error: " ++ place ++ ce_message e ++ [10]
      | Some CatInternal | None => L "Internal error: " ++ place ++ ce_message e ++ [10]
      end
  end.
Definition json_line (debug : str -> str) (json : entry -> str) (c : complaint) : str :=
  match c with
  | CoSyntax name src e =>
      json (mkEntry CatSyntax (Some name) (Some (sy_range e))
              (match sy_kind e with KParseFailed x => Some x | _ => None end)
              (Some (Display.display_with_src debug src false e))) ++ [10]
  | CoSemantic name src e => json (mkEntry CatSemantic (Some name) (Some (se_range e)) None (Some (L "Unknown"))) ++ [10]
  | CoOther e =>
      match ce_category e with
      | Some CatHidden => []
      | k => json (mkEntry (match k with Some c => c | None => CatInternal end) (ce_source e) None None (Some (ce_message e))) ++ [10]
      end
  end.
Definition printed (debug : str -> str) (json : entry -> str) (m : error_mode) (c : complaint) : str :=
  match m with MSilent => [] | MDefault => plain_line debug c | MJson => json_line debug json c end.

(** The error [e] ended a run while [j] was converted: its source cannot be read, its
    output cannot be written, or, with [--fail-fast], its conversion failed (which has
    been reported). *)
Definition ended_by (fs : io) (a : args) (j : stream * stream) (e : cli_error) : Prop :=
  (exists e', io_read fs (fst j) = inr e' /\ e = mkErr (ce_category e') (Some (fst j)) (ce_message e')) \/
  (exists t e', io_write fs (snd j) t = Some e' /\ e = mkErr (ce_category e') (Some (fst j)) (ce_message e')) \/
  (o_fail_fast (g_options a) = Some FFTrue /\ ce_category e = Some CatHidden).

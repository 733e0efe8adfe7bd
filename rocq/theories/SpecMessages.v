(** * Why a command is refused, and how it is told. *)

From Verif Require Import Base Path Reporter Cli SpecCli.

(** The root directory: the only path that the tool takes to end with a slash. *)
Definition is_root (p : str) : Prop := components p = [RootDir].
Definition missing (fs : io) (p : str) : Prop := io_path_info fs p = inl None.

(** [s] is how the source [f] is written in a message: after the directory of [--dir]; or
    with the same components, but from the root if it is a name only. *)
Definition Shows (a : args) (f s : str) : Prop :=
  match g_src_dir a with
  | Some d => is_root d /\ s = d ++ f \/ ~ is_root d /\ s = d ++ L "/" ++ f
  | None => components s = match components f with [Normal n] => [RootDir; Normal n] | cs => cs end
  end.

(** Sources that are not one path *)
Definition not_one (a : args) : Prop := g_stdin a = false /\ forall f, g_src_files a <> Some [f].

(** [Refused fs a m]: the command [a] cannot be done, and [m] says why. *)
Inductive Refused (fs : io) (a : args) : str -> Prop :=
| RfMissing : forall files f s, g_stdin a = false -> g_src_files a = Some files -> In f files -> missing fs f -> Shows a f s ->
    Refused fs a (L "'" ++ s ++ L "' does not exist")
| RfSourceDir : forall f s, g_stdin a = false -> g_src_files a = Some [f] -> a_dir fs f \/ missing fs f /\ is_root f ->
    g_stdout a = true \/ (exists out, g_stdout a = false /\ g_out a = Some out /\ a_file fs out) -> Shows a f s ->
    Refused fs a (L "'" ++ s ++ L "' is not a file")
| RfOutFile : forall out, not_one a -> g_stdout a = false -> g_out a = Some out -> a_file fs out ->
    Refused fs a (L "'" ++ out ++ L "' is not a directory")
| RfOutDir : forall f out, g_stdin a = false -> g_src_files a = Some [f] -> a_file fs f ->
    g_stdout a = false -> g_out a = Some out -> a_dir fs out -> ~ is_root out ->
    Refused fs a (L "'" ++ out ++ L "' is a directory")
| RfStdinDir : forall out, g_stdin a = true -> g_stdout a = false -> g_out a = Some out ->
    a_dir fs out \/ missing fs out /\ is_root out ->
    Refused fs a (L "'" ++ out ++ L "' is not a file")
| RfStdin : g_stdin a = true -> g_stdout a = false -> g_out a = None ->
    Refused fs a (L "--stdin requires --stdout or exactly one output file")
| RfStdout : not_one a -> g_stdout a = true ->
    Refused fs a (L "--stdout requires --stdin or exactly one source file").

(** * minty-cli/src/main.rs: the whole program. *)

From Verif Require Import Base Doc Config Errors Reporter Cli Args.

Section Program.
Variable fs : io.
Variable convert : str -> config -> str + convert_error.
Variable convert_forgiving : str -> config -> str + option str * convert_error.
Variable debug : str -> str.
Variable json : entry -> str.

(** main.rs:118-153: what is on stderr, what is written, and whether the exit code is
    [SUCCESS].  clap prints help on stdout and exits with 0, messages on stderr and exits
    with 2 ([Error::exit]); these texts are any. *)
Inductive program (ws : list str) : str -> list (stream * str) -> bool -> Prop :=
| pr_run a stderr written ok :
    parse_args ws = SRun a -> runs fs convert convert_forgiving debug json a stderr written ok ->
    program ws stderr written ok
| pr_help text : parse_args ws = SHelp -> program ws [] [(Stdio, text)] true
| pr_message text : parse_args ws = SMessage -> text <> [] -> program ws text [] false
| pr_fail m : parse_args ws = SFail m -> program ws (failed_stderr debug json m) [] false.
End Program.

(** * C36: why a command is refused *)

From Verif Require Import Base Doc Config Errors Path Reporter Cli SpecCli P_Cli P_Plan SpecMessages P_Messages PropertiesCli.

(** If the sources are named by paths that end in a name (see [C36_parent_refuted]), a
    command that does nothing has an error of the file system, or there is a reason to
    refuse it, which its message tells; and where there is such a reason it is refused. *)
Theorem C36_messages : forall fs a,
  (g_src_dir a = None -> forall files f, g_src_files a = Some files -> In f files -> exists n, file_name f = Some n) ->
  (forall e, make_plan fs a = inr e ->
     (exists p, io_path_info fs p = inr e \/ io_read_dir fs p = inr e) \/ Refused fs a (ce_message e)) /\
  (forall m, Refused fs a m -> exists e, make_plan fs a = inr e).
Proof.
  intros fs a H. split; [intros e He; now apply refused_ok|]. apply refused_fails.
Qed.
Print Assumptions C36_messages.

Example C36_messages_example :
  let a := ex_args None (Some [L "x.mty"; L "c/z.mty"]) None None false in
  (g_src_dir a = None -> forall files f, g_src_files a = Some files -> In f files -> exists n, file_name f = Some n) /\
  make_plan ex_fs36 a = inr (mkErr (Some CatArgument) None (L "'c/z.mty' does not exist")) /\
  Refused ex_fs36 a (L "'c/z.mty' does not exist").
Proof.
  cbn zeta. split; [|split; [vm_compute; reflexivity|]].
  - intros _ files f [= <-] [<-|[<-|[]]]; eexists; vm_compute; reflexivity.
  - apply (RfMissing ex_fs36 _ [L "x.mty"; L "c/z.mty"] (L "c/z.mty") (L "c/z.mty")); try reflexivity; [right; now left].
Qed.

(** A missing file that is named without a directory is shown as a file in the root
    directory. *)
Theorem C36_message_refuted :
  missing ex_fs36 (L "z.mty") /\
  make_plan ex_fs36 (ex_args None (Some [L "z.mty"]) None None false)
    = inr (mkErr (Some CatArgument) None (L "'/z.mty' does not exist")).
Proof. split; vm_compute; reflexivity. Qed.
Print Assumptions C36_message_refuted.

(** * Properties of the command line. *)

From Coq Require Import Lia Permutation.
From Verif Require Import Base P_Base Doc Config Errors Reporter Cli Args SpecArgs P_Args P_Allowed P_ArgsOrder.

(** ** C57: what a command line says.

    A command line is accepted exactly if, after [convert], its words spell uses of the
    options and files in one of the usual ways, and these go together; the command is
    what they say: the last use of an option counts, files and special tags add up. *)
Theorem C57_command_line : forall ws a,
  read_command ws = Got a <->
  exists rest us, ws = L "convert" :: rest /\ Spelled rest us /\ Coherent us /\ Means us a.
Proof.
  intros ws a. rewrite read_command_iff. split.
  - intros (rest & -> & H). apply read_convert_iff in H. destruct H as (us & H). eauto.
  - intros (rest & us & -> & H). exists rest. split; [reflexivity |]. apply read_convert_iff. eauto.
Qed.
Print Assumptions C57_command_line.

(** The order of the options does not matter, if none is used twice. *)
Theorem C57_order : forall ws us ws' us',
  Spelled ws us -> Spelled ws' us' -> Permutation us us' -> Once us -> SameFiles us us' ->
  read_command (L "convert" :: ws) = read_command (L "convert" :: ws').
Proof. intros ws us ws' us' H1 H2 H3 H4 H5. exact (order ws us ws' us' H1 H2 H3 H4 H5). Qed.
Print Assumptions C57_order.

Definition ex_opts : options := mkOpts false false 2 None false [] None None None None.

(** [convert -xp --indent 4 a.mty --special-tag=strike=del,quote=x=y -o out b.mty] and
    the same in another order; the commands of the tests of the program; and errors. *)
Example C57_example :
  let ws := [L "-xp"; L "--indent"; L "4"; L "a.mty"; L "--special-tag=strike=del,quote=x=y"; L "-o"; L "out"; L "b.mty"] in
  let us := [UXml; UPretty; UIndent 4; UFile (L "a.mty"); USpecialTag [(Strike, L "del"); (Quote, L "x=y")];
             UOut (L "out"); UFile (L "b.mty")] in
  let ws' := [L "-pxo=out"; L "--indent=+04"; L "a.mty"; L "--special-tag"; L "strike=del,quote=x=y"; L "--"; L "b.mty"] in
  let us' := [UPretty; UXml; UOut (L "out"); UIndent 4; UFile (L "a.mty");
              USpecialTag [(Strike, L "del"); (Quote, L "x=y")]; UFile (L "b.mty")] in
  let a := mkArgs false None (Some [L "a.mty"; L "b.mty"]) None (Some (L "out")) false
             (mkOpts true true 4 None false [(Strike, L "del"); (Quote, L "x=y")] None None None None) MDefault in
  Spelled ws us /\ Spelled ws' us' /\ Permutation us us' /\ Once us /\ SameFiles us us' /\
  Coherent us /\ Means us a /\ read_command (L "convert" :: ws) = Got a /\ read_command (L "convert" :: ws') = Got a.
Proof.
  intros ws us ws' us' a.
  assert (Hs : Spelled ws us) by (apply read_iff; vm_compute; reflexivity).
  assert (Hs' : Spelled ws' us') by (apply read_iff; vm_compute; reflexivity).
  assert (Hc : Coherent us /\ Means us a) by (apply convert_iff; vm_compute; split; reflexivity).
  destruct Hc as [Hc Hm].
  split; [exact Hs |]. split; [exact Hs' |].
  split.
  { unfold us, us'. apply (Permutation_trans (l' := [UPretty; UXml; UIndent 4; UFile (L "a.mty");
      USpecialTag [(Strike, L "del"); (Quote, L "x=y")]; UOut (L "out"); UFile (L "b.mty")])); [constructor |].
    do 2 apply perm_skip.
    exact (Permutation_app (Permutation_app_comm [UIndent 4; UFile (L "a.mty"); USpecialTag [(Strike, L "del"); (Quote, L "x=y")]] [UOut (L "out")])
             (Permutation_refl [UFile (L "b.mty")])). }
  split.
  { unfold Once. cbn [flat_map app us family]. repeat (apply NoDup_cons; [intros H; repeat (destruct H as [H | H]; [discriminate |]); exact H |]). apply NoDup_nil. }
  split; [reflexivity |]. split; [exact Hc |]. split; [exact Hm |].
  split; vm_compute; reflexivity.
Qed.

(** The command lines of minty-cli/src/tests.rs and of doc-utils.psm1. *)
Example C57_repository :
  let page := mkOpts false false 2 (Some false) false [] None None None None in
  let command (ws : list str) := read_command (L "convert" :: L "--complete-page=false" :: ws) in
  command [L "--stdin"; L "--stdout"] = Got (mkArgs true None None None None true page MDefault) /\
  read_command [L "convert"; L "--stdin"; L "--stdout"; L "--complete-page=true"]
    = Got (mkArgs true None None None None true (mkOpts false false 2 (Some true) false [] None None None None) MDefault) /\
  command [L "c/d/foo.mty"; L "-o"; L "c/foo2.html"]
    = Got (mkArgs false None (Some [L "c/d/foo.mty"]) None (Some (L "c/foo2.html")) false page MDefault) /\
  command [L "c/d/foo.minty"; L "/a/bar.mty"; L "--out"; L "c/new_dir1/new_dir2/"]
    = Got (mkArgs false None (Some [L "c/d/foo.minty"; L "/a/bar.mty"]) None (Some (L "c/new_dir1/new_dir2/")) false page MDefault) /\
  command [L "--dir"; L "c"; L "--recurse"]
    = Got (mkArgs false (Some (L "c")) None (Some None) None false page MDefault) /\
  read_command [L "convert"; L "--special-tag"; L "underline=ins"; L "--pretty"; L "--fragment"; L "README.mty"; L "--out"; L "README.md"]
    = Got (mkArgs false None (Some [L "README.mty"]) None (Some (L "README.md")) false
             (mkOpts false true 2 None true [(Underline, L "ins")] None None None None) MDefault).
Proof. cbv zeta. repeat split; vm_compute; reflexivity. Qed.

(** Not accepted: a depth with files, a word that looks like an option as a value, an
    option that is not there; [--complete-page false] is the option and a file. *)
Example C57_refused :
  read_command [L "convert"; L "-r"; L "3"; L "a.mty"] = Usage /\
  read_command [L "convert"; L "-d"; L "-x"] = Usage /\
  read_command [L "convert"; L "--special_tag"; L "underline=ins,strike=del"; L "a.mty"] = Usage /\
  read_command [L "convert"; L "--complete-page"; L "false"]
    = Got (mkArgs false None (Some [L "false"]) None None false (mkOpts false false 2 (Some true) false [] None None None None) MDefault).
Proof. repeat split; vm_compute; reflexivity. Qed.

(** ** C58: exactly the commands that are allowed can be given.

    For each of them there is a command line, whatever the names of files are. *)
Theorem C58_allowed : forall a, (exists ws, read_command ws = Got a) <-> Allowed a.
Proof.
  intros a. split.
  - intros [ws H]. apply read_command_iff in H. destruct H as (rest & -> & H). now apply given_allowed with rest.
  - intros H. apply allowed_given in H. destruct H as [ws H]. exists (L "convert" :: ws). apply read_command_iff. eauto.
Qed.
Print Assumptions C58_allowed.

(** So directories are searched deeply only for [--dir], and no run is without a source:
    the cases of the program for these do not occur. *)
Theorem C58_sources : forall ws a,
  read_command ws = Got a ->
  (get_recursion a <> 0 -> g_src_files a = None) /\
  (forall fs l, conversion_src_type fs a <> inl (SImplicit l)).
Proof.
  intros ws a H. assert (Ha : Allowed a) by (apply C58_allowed; eauto). destruct Ha. split.
  - intros Hr. apply al_recurse. unfold get_recursion in Hr. destruct (g_recurse a); congruence.
  - intros fs l. unfold conversion_src_type. destruct (g_stdin a) eqn:Es; [discriminate |].
    destruct (g_src_files a) as [[| f [|]] |] eqn:Ef.
    + unfold bind_c. destruct (source_files fs a (g_src_dir a) []); discriminate.
    + unfold bind_c. destruct (path_type_for fs f); [| discriminate]. destruct (get_search_parts (g_src_dir a) f); discriminate.
    + unfold bind_c. destruct (source_files fs a (g_src_dir a) (f :: l0 :: l1)); discriminate.
    + destruct (g_src_dir a) as [d |] eqn:Ed.
      * unfold bind_c. destruct (search_dir fs a d []); discriminate.
      * exfalso. destruct al_source as [E | [E | E]]; congruence.
Qed.
Print Assumptions C58_sources.

(** A file that is called [-x], and a search of depth 7. *)
Example C58_example :
  let a := mkArgs false None (Some [L "-x"; L "--"]) None (Some (L "-o")) false ex_opts MJson in
  let b := mkArgs false (Some (L "src")) None (Some (Some 7)) None false ex_opts MSilent in
  Allowed a /\ read_command [L "convert"; L "--error-mode=json"; L "--out=-o"; L "--"; L "-x"; L "--"] = Got a /\
  Allowed b /\ read_command [L "convert"; L "-r7"; L "--error-mode"; L "silent"; L "-dsrc"] = Got b.
Proof.
  cbv zeta.
  assert (H1 : read_command [L "convert"; L "--error-mode=json"; L "--out=-o"; L "--"; L "-x"; L "--"]
                = Got (mkArgs false None (Some [L "-x"; L "--"]) None (Some (L "-o")) false ex_opts MJson)) by (vm_compute; reflexivity).
  assert (H2 : read_command [L "convert"; L "-r7"; L "--error-mode"; L "silent"; L "-dsrc"]
                = Got (mkArgs false (Some (L "src")) None (Some (Some 7)) None false ex_opts MSilent)) by (vm_compute; reflexivity).
  split; [apply C58_allowed; eauto |]. split; [exact H1 |]. split; [apply C58_allowed; eauto | exact H2].
Qed.

(** ** C59: what is wrong with the command line is reported as [--error-mode] says.

    It is not.  With [--error-mode=json] alone the program fails and says nothing;
    with [convert --error-mode=json] it is clap that writes, not JSON. *)
Theorem C59_error_mode_refuted :
  (forall debug json, parse_args [L "--error-mode=json"] = SFail MJson /\ failed_stderr debug json MJson = []) /\
  parse_args [L "convert"; L "--error-mode=json"] = SMessage.
Proof. split; [intros debug json |]; repeat split; vm_compute; reflexivity. Qed.
Print Assumptions C59_error_mode_refuted.

(** Nothing is said exactly if the words are a mode and nothing else; otherwise a
    command that is not accepted gets a message (or the help). *)
Theorem C59_messages : forall ws,
  (forall m, parse_args ws = SFail m <-> OnlyMode ws m /\ m <> MDefault) /\
  (forall a, parse_args ws = SRun a <-> read_command ws = Got a) /\
  (forall debug json m, failed_stderr debug json m = []).
Proof.
  intros ws. split; [apply fail_iff |]. split; [| reflexivity].
  intros a. unfold parse_args. destruct (read_command ws) as [b | |].
  - split; congruence.
  - split; [| discriminate]. destruct (fallback ws) as [[] | |]; discriminate.
  - split; [| discriminate]. destruct (fallback ws) as [[] | |]; discriminate.
Qed.
Print Assumptions C59_messages.

Example C59_example : parse_args [L "--error-mode"; L "silent"; L "--"] = SFail MSilent /\
  parse_args [L "--error-mode"; L "default"] = SMessage /\ parse_args [L "convert"; L "-xh"] = SHelp.
Proof. repeat split; vm_compute; reflexivity. Qed.

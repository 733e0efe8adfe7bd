(** * Property theorems about the command line tool: C31-C37, C40, C42-C44.

    A command is a value of [args] (Cli.v: what clap makes of the command line), [fs] the
    file system.  [make_plan fs a] tells what is converted where: one conversion
    [PSingle source dest] or several [PMany [(source, dest); ...]], or the error before any
    conversion.  [runs fs cv cvf debug json a stderr written ok]: running the command may
    print [stderr], write [written] and exit with success iff [ok]; [cv] and [cvf] are the
    library's [convert] and [convert_forgiving].  [components p] is std's [Path::components]
    (Path.v), [place p] the same without [.]. *)

From Coq Require Import Permutation.
From Verif Require Import Base Doc Config Ast Errors Convert SpecSource Path Reporter Cli SpecCli.
From Verif Require Import P_Path P_Cli P_Plan P_Run PropertiesConvert.
From Verif Require P_Convert.

(** ** Example file systems and commands *)

Definition file_info : path_info := mkInfo true false.
Definition dir_info : path_info := mkInfo false true.
Definition no_entry : cli_error := mkErr None None (L "No such file or directory").

Definition comps_eqb (a b : list component) : bool := comps_prefix a b && comps_prefix b a.

(** Files, directories with their entries, texts; paths are compared by components. *)
Definition ex_io (files : list (str * str)) (dirs : list (str * list (str * path_info))) : io :=
  mkIo
    (fun p => if existsb (fun f => str_eqb p (fst f)) files then inl (Some file_info)
              else if existsb (fun d => str_eqb p (fst d)) dirs then inl (Some dir_info)
              else inl None)
    (fun p => match find (fun d => comps_eqb (components p) (components (fst d))) dirs with
              | Some d => inl (snd d)
              | None => inr no_entry
              end)
    (fun s => match s with
              | SFile p => match find (fun f => comps_eqb (components p) (components (fst f))) files with
                           | Some f => inl (snd f)
                           | None => inr no_entry
                           end
              | Stdio => inl []
              end)
    (fun _ _ => None).

Definition ex_opts : options := mkOpts false false 2 None true [] None None None None.
(** [mintyml-cli convert [-d dir] files... [-o out] [--stdout] --fragment] *)
Definition ex_args (dir : option str) (files : option (list str)) (r : option (option N)) (out : option str) (stdout : bool) : args :=
  mkArgs false dir files r out stdout ex_opts MDefault.

Definition name_okb (n : str) : bool :=
  negb (str_empty n) && negb (existsb (N.eqb slash) n) && negb (str_eqb n (L ".")) && negb (str_eqb n (L "..")).
Lemma name_okb_ok : forall n, name_okb n = true -> EntryName n.
Proof.
  intros n H. unfold name_okb in H. rewrite !andb_true_iff, !negb_true_iff in H. destruct H as [[[H1 H2] H3] H4].
  apply P_Base.str_eqb_neq in H3. apply P_Base.str_eqb_neq in H4. repeat split; try assumption.
  - intros ->. discriminate.
  - intros Hin. assert (E : existsb (N.eqb slash) n = true).
    { apply existsb_exists. exists slash. split; [assumption | apply N.eqb_refl]. }
    congruence.
Qed.
Lemma ex_ordinary : forall files dirs,
  forallb (fun f => is_some (file_name (fst f))) files = true ->
  forallb (fun d => forallb (fun e => name_okb (fst e)) (snd d)) dirs = true ->
  ordinary (ex_io files dirs).
Proof.
  intros files dirs Hf Hd. split.
  - cbn [io_read_dir ex_io]. intros p es H n i Hin.
    destruct (find (fun d => comps_eqb (components p) (components (fst d))) dirs) as [d |] eqn:E; [| discriminate].
    injection H as <-. apply find_some in E. destruct E as [E _]. rewrite forallb_forall in Hd.
    specialize (Hd d E). rewrite forallb_forall in Hd. apply name_okb_ok. apply (Hd (n, i) Hin).
  - cbn [io_path_info ex_io]. intros p i H Hi.
    destruct (existsb (fun f => str_eqb p (fst f)) files) eqn:E.
    + apply existsb_exists in E. destruct E as (f & Hin & E). apply P_Base.str_eqb_eq in E. subst p.
      rewrite forallb_forall in Hf. specialize (Hf f Hin). destruct (file_name (fst f)); [eauto | discriminate].
    + destruct (existsb (fun d => str_eqb p (fst d)) dirs); [| discriminate]. injection H as <-. discriminate.
Qed.

(** ** C31: without a destination, the output goes beside the source.

    Every output differs from its source, also if the paths are written differently; a
    source [dir/name] is written to [dir/out] where [out] is the name with the extension
    replaced or added. *)
Theorem C31_default_output : forall fs a p,
  g_out a = None -> g_stdout a = false -> make_plan fs a = inl p ->
  exists jobs, p = PMany jobs /\
    forall j, In j jobs -> exists s d, j = (SFile s, SFile d) /\
      components d <> components s /\
      forall dir n, s = dir ++ n -> EntryName n -> (dir = [] \/ exists x, dir = x ++ L "/") ->
        exists m, OutName (o_xml (g_options a)) n m /\ d = dir ++ m.
Proof.
  intros fs a p Ho Hs H. destruct (plan_default fs a p Ho Hs H) as (jobs & -> & HJ).
  exists jobs. split; [reflexivity |]. intros j Hj. destruct (HJ j Hj) as (q & ->).
  exists q, (change_extension (o_xml (g_options a)) q). split; [reflexivity |].
  split; [apply change_differs |]. intros dir n -> Hn Hd. now apply out_plain.
Qed.
Print Assumptions C31_default_output.

Example C31_example :
  make_plan (ex_io [(L "d/a.MTY", []); (L "b.txt", []); (L "/.mty", [])] [])
    (ex_args None (Some [L "d/a.MTY"; L "b.txt"; L "/.mty"]) None None false)
  = inl (PMany [(SFile (L "d/a.MTY"), SFile (L "d/a.html"));
                (SFile (L "b.txt"), SFile (L "b.txt.html"));
                (SFile (L "/.mty"), SFile (L "/.mty.html"))]).
Proof. vm_compute. reflexivity. Qed.

(** ** C32: a search finds exactly the MinTyML files within the depth limit.

    [-d dir [-r depth]] converts each MinTyML file in the directory, and in
    subdirectories up to the depth, exactly once, to the same relative path in the
    output directory.  (Missing: entries that are neither files nor directories, see
    [C32_other_entry_refuted].) *)
Theorem C32_search_partial : forall fs a dir ch d,
  tree_ok ch -> holds_tree fs dir ch -> dir <> [] -> Depth a d ->
  g_stdin a = false -> g_src_files a = None -> g_src_dir a = Some dir -> g_stdout a = false ->
  (forall out, g_out a = Some out -> out <> [] /\ (io_path_info fs out = inl None \/ a_dir fs out)) ->
  exists jobs found,
    make_plan fs a = inl (PMany jobs) /\
    Forall2 (fun j names => exists p q sub n stem,
               j = (SFile p, SFile q) /\ names = sub ++ [n] /\ MintyName n stem /\
               components p = components dir ++ map Normal names /\
               components q = components (match g_out a with Some out => out | None => dir end)
                              ++ map Normal (sub ++ [stem ++ Suffix (o_xml (g_options a))]))
            jobs found /\
    NoDup found /\ (forall names, In names found <-> MintyFile ch d names).
Proof. exact search_dir_plan. Qed.
Print Assumptions C32_search_partial.

(** [d/a.mty], [d/b.txt], [d/s/c.Minty], [d/s/t/e.mty] *)
Definition ex_tree32 : list (str * tree) :=
  [(L "a.mty", TFile);
   (L "s", TDir [(L "c.Minty", TFile); (L "t", TDir [(L "e.mty", TFile)])]);
   (L "b.txt", TFile)].
Definition ex_fs32 : io :=
  ex_io [] [(L "d", [(L "a.mty", file_info); (L "s", dir_info); (L "b.txt", file_info)]);
            (L "d/s", [(L "c.Minty", file_info); (L "t", dir_info)]);
            (L "d/s/t", [(L "e.mty", file_info)])].
Example C32_example :
  tree_ok ex_tree32 /\ holds_tree ex_fs32 (L "d//") ex_tree32 /\
  Depth (ex_args (Some (L "d//")) None (Some (Some 1)) (Some (L "o")) false) 1 /\
  io_path_info ex_fs32 (L "o") = inl None /\
  make_plan ex_fs32 (ex_args (Some (L "d//")) None (Some (Some 1)) (Some (L "o")) false)
  = inl (PMany [(SFile (L "d//a.mty"), SFile (L "o/a.html")); (SFile (L "d//s/c.Minty"), SFile (L "o/s/c.html"))]).
Proof.
  assert (Hdirs : forall names sub, dir_at ex_tree32 names sub ->
    names = [] /\ sub = ex_tree32 \/
    names = [L "s"] /\ sub = [(L "c.Minty", TFile); (L "t", TDir [(L "e.mty", TFile)])] \/
    names = [L "s"; L "t"] /\ sub = [(L "e.mty", TFile)]).
  { intros names sub H. inversion H as [| n c sub1 ns1 s1 Hin Hd]; subst; [auto |].
    repeat (destruct Hin as [E | Hin]; [try discriminate |]); try contradiction. injection E as <- <-.
    inversion Hd as [| n2 c2 sub2 ns2 s2 Hin2 Hd2]; subst; [auto |].
    repeat (destruct Hin2 as [E | Hin2]; [try discriminate |]); try contradiction. injection E as <- <-.
    inversion Hd2 as [| n3 c3 sub3 ns3 s3 Hin3 Hd3]; subst; [auto |].
    repeat (destruct Hin3 as [E | Hin3]; [try discriminate |]); contradiction. }
  split; [| split; [| split; [| split]]].
  - intros names sub H. destruct (Hdirs names sub H) as [(_ & ->) | [(_ & ->) | (_ & ->)]];
      (split; [repeat constructor; cbn; intuition discriminate |]);
      intros n t Hin; repeat (destruct Hin as [E | Hin]; [injection E as <- _; apply name_okb_ok; reflexivity |]); contradiction.
  - intros names sub p H Hp. destruct (Hdirs names sub H) as [(-> & ->) | [(-> & ->) | (-> & ->)]];
      cbn [io_read_dir ex_fs32 ex_io]; rewrite Hp; vm_compute; reflexivity.
  - reflexivity.
  - vm_compute. reflexivity.
  - vm_compute. reflexivity.
Qed.

(** With other entries than files and directories (a pipe, or a symbolic link to a file: the
    entries are not followed) the search fails, unless it is not to recurse at all. *)
Theorem C32_other_entry_refuted :
  let fs := ex_io [(L "d/a.mty", [])] [(L "d", [(L "a.mty", file_info); (L "pipe", mkInfo false false)])] in
  ordinary fs /\
  make_plan fs (ex_args (Some (L "d")) None None None false) = inl (PMany [(SFile (L "d/a.mty"), SFile (L "d/a.html"))]) /\
  make_plan fs (ex_args (Some (L "d")) None (Some (Some 1)) None false) = inr no_entry.
Proof. cbn zeta. split; [apply ex_ordinary; reflexivity |]. split; vm_compute; reflexivity. Qed.
Print Assumptions C32_other_entry_refuted.

(** ** C33: different sources are not always written to different files: they are not if
      their names differ in the extension only, nor if files of the same name are named in
      different directories with an output directory. *)
Theorem C33_distinct_refuted :
  exists fs a b jobs jobs' s1 s2 s3 s4 d d',
    ordinary fs /\
    make_plan fs a = inl (PMany jobs) /\ In (s1, d) jobs /\ In (s2, d) jobs /\ s1 <> s2 /\
    make_plan fs b = inl (PMany jobs') /\ In (s3, d') jobs' /\ In (s4, d') jobs' /\ s3 <> s4.
Proof.
  exists (ex_io [(L "a.mty", []); (L "a.minty", []); (L "x/a.mty", []); (L "y/a.mty", [])] [(L "out", [])]).
  exists (ex_args None (Some [L "a.mty"; L "a.minty"]) None None false).
  exists (ex_args None (Some [L "x/a.mty"; L "y/a.mty"]) None (Some (L "out")) false).
  exists [(SFile (L "a.mty"), SFile (L "a.html")); (SFile (L "a.minty"), SFile (L "a.html"))].
  exists [(SFile (L "x/a.mty"), SFile (L "out/a.html")); (SFile (L "y/a.mty"), SFile (L "out/a.html"))].
  exists (SFile (L "a.mty")), (SFile (L "a.minty")), (SFile (L "x/a.mty")), (SFile (L "y/a.mty")).
  exists (SFile (L "a.html")), (SFile (L "out/a.html")).
  split; [apply ex_ordinary; reflexivity |].
  split; [vm_compute; reflexivity |]. split; [now left |]. split; [right; now left |]. split; [discriminate |].
  split; [vm_compute; reflexivity |]. split; [now left |]. split; [right; now left | discriminate].
Qed.
Print Assumptions C33_distinct_refuted.

(** What holds: the files found in a search that all have the same extension, spelt the
    same, are written to different files.  (Missing: other lists of files, as above.) *)
Theorem C33_same_extension_partial : forall fs a dir ch d ext,
  tree_ok ch -> holds_tree fs dir ch -> dir <> [] -> Depth a d ->
  g_stdin a = false -> g_src_files a = None -> g_src_dir a = Some dir -> g_stdout a = false ->
  (forall out, g_out a = Some out -> out <> [] /\ (io_path_info fs out = inl None \/ a_dir fs out)) ->
  ~ In dot ext ->
  (forall names, MintyFile ch d names -> exists sub stem, names = sub ++ [stem ++ L "." ++ ext]) ->
  exists jobs, make_plan fs a = inl (PMany jobs) /\
    NoDup (map (fun j => match snd j with SFile q => components q | Stdio => [] end) jobs).
Proof.
  intros fs a dir ch d ext H1 H2 H3 H4 H5 H6 H7 H8 H9 Hdot Hext.
  destruct (search_dir_plan fs a dir ch d H1 H2 H3 H4 H5 H6 H7 H8 H9) as (jobs & found & Hp & HF & Hnd & Hin).
  exists jobs. split; [exact Hp |].
  apply (distinct_outputs (o_xml (g_options a)) dir (dest_root a dir) ext jobs found HF Hdot); [| exact Hnd].
  intros names Hn. apply Hext. now apply Hin.
Qed.
Print Assumptions C33_same_extension_partial.
Example C33_example : forall names, MintyFile ex_tree32 0 names -> exists sub stem, names = sub ++ [stem ++ L "." ++ L "mty"].
Proof.
  intros names ((dir & n & sub & -> & Hd & Hin) & (dir' & n' & stem & E & Hm & Hlen)).
  apply app_inj_tail in E. destruct E as [<- <-]. destruct dir; [| cbn in Hlen; lia].
  inversion Hd; subst. destruct Hin as [E | [E | [E | []]]]; try discriminate; injection E as <-.
  - exists [], (L "a"). reflexivity.
  - exfalso. assert (H : has_minty_extension (L "b.txt") = true); [| discriminate].
    apply has_minty_name; [now apply name_okb_ok | eauto].
Qed.

(** ** C34: the exit status tells whether every conversion succeeded, whatever the
      schedule.

    Success exactly if the command could be planned and each of its conversions read its
    source, converted it without error and wrote its output; then each output was
    written. *)
Theorem C34_exit_status : forall fs cv cvf debug json a stderr written ok,
  runs fs cv cvf debug json a stderr written ok ->
  (ok = true <-> exists p, make_plan fs a = inl p /\
     forall s d, In (s, d) (jobs_of p) -> Converts fs cv cvf (as_config (g_options a)) (forgives a) s d) /\
  (ok = true -> forall p s d, make_plan fs a = inl p -> In (s, d) (jobs_of p) -> exists t, In (d, t) written).
Proof.
  intros fs cv cvf debug json a stderr written ok H. inversion H as [evs ws r He E1 E2 E3]. subst ws.
  assert (Hr : (match r with inl true => true | _ => false end = true) <-> r = inl true).
  { destruct r as [[|] |]; split; intros E; try reflexivity; discriminate. }
  destruct (executes_jobs _ _ _ _ _ _ _ He) as [(e & Hp & _ & _ & Er) | (p & run & Hp & _ & _ & Hws & Hok & Hrun & _)].
  - split.
    + rewrite Hr. split; [intros E; congruence |]. intros (p & Hp' & _). congruence.
    + intros _ p s d Hp'. congruence.
  - split.
    + rewrite Hr, Hok. split.
      * intros Hj. exists p. split; [exact Hp |]. intros s d Hin. apply job_success. now apply Hj.
      * intros (p' & Hp' & Hj) [s d] Hin. apply job_success. apply Hj. congruence.
    + intros E p' s d Hp' Hin. apply Hr in E.
      assert (p' = p) as -> by congruence.
      pose proof (proj1 Hok E (s, d) Hin) as Hs. destruct (job_written _ _ _ _ _ _ Hs) as (t & Ht).
      exists t. apply Hws. exists (s, d). split; [now apply (Hrun true E) |]. rewrite Ht. now left.
Qed.
Print Assumptions C34_exit_status.

Definition ex_cv : str -> config -> str + convert_error :=
  fun src _ => if str_eqb src (L "bad") then inr CEUnknown else inl (L "ok " ++ src).
Definition ex_cvf : str -> config -> str + option str * convert_error := fun src _ => inl src.

Lemma many_run : forall fs cv cvf debug json a jobs run order r stderr ws ok,
  make_plan fs a = inl (PMany jobs) -> parallel fs cv cvf a jobs run r -> Permutation run order ->
  stderr = run_reporter debug json
             (EvMode (g_error_mode a) :: flat_map (fun j => jr_events (run_job fs cv cvf a j)) order
              ++ match r with inr e => [other_error e] | inl _ => [] end ++ [EvClose]) ->
  ws = flat_map (fun j => jr_writes (run_job fs cv cvf a j)) order ->
  ok = match r with inl true => true | _ => false end ->
  runs fs cv cvf debug json a stderr ws ok.
Proof. intros. subst. apply runs_intro. eapply ex_many; eassumption. Qed.

(** Two files of which the second cannot be converted: it fails, whatever the order. *)
Example C34_example :
  let fs := ex_io [(L "a.mty", L "x"); (L "b.mty", L "bad")] [] in
  let a := ex_args None (Some [L "a.mty"; L "b.mty"]) None None false in
  (forall debug json, runs fs ex_cv ex_cvf debug json a [] [(SFile (L "a.html"), L "ok x")] false) /\
  Converts fs ex_cv ex_cvf (as_config ex_opts) false (SFile (L "a.mty")) (SFile (L "a.html")) /\
  ~ Converts fs ex_cv ex_cvf (as_config ex_opts) false (SFile (L "b.mty")) (SFile (L "b.html")).
Proof.
  cbn zeta. split; [| split].
  - intros debug json.
    apply (many_run _ _ _ _ _ _ [(SFile (L "a.mty"), SFile (L "a.html")); (SFile (L "b.mty"), SFile (L "b.html"))]
             [(SFile (L "a.mty"), SFile (L "a.html")); (SFile (L "b.mty"), SFile (L "b.html"))]
             [(SFile (L "b.mty"), SFile (L "b.html")); (SFile (L "a.mty"), SFile (L "a.html"))] (inl false)).
    + vm_compute. reflexivity.
    + split; [repeat constructor | split; [now left |]].
      apply (red_join [inl true] [inl false] (inl true) (inl false)); constructor.
    + apply perm_swap.
    + vm_compute. reflexivity.
    + vm_compute. reflexivity.
    + reflexivity.
  - exists (L "x"), (L "ok x"). repeat split; vm_compute; reflexivity.
  - intros (src & out & H1 & H2 & _). vm_compute in H1. injection H1 as <-. discriminate.
Qed.

(** ** C35: every reported error is written exactly once, in order, in the mode set.

    Events up to the closing of the reporter: the errors among them are written one
    after the other, each in the last mode set before it, or the next one if there is
    none yet; nothing after. *)
Theorem C35_reporter : forall debug json evs rest, ~ In EvClose evs ->
  exists l : list (error_mode * event_data),
    run_reporter debug json (evs ++ EvClose :: rest) = flat_map (fun md => report debug json (fst md) (snd md)) l /\
    l = with_mode None (evs ++ EvClose :: rest) /\
    map snd l = errors_of evs.
Proof.
  intros debug json evs rest H. exists (with_mode None (evs ++ EvClose :: rest)). split; [| split; [reflexivity |]].
  - apply run_reporter_ok. apply in_or_app. right. now left.
  - now apply with_mode_errors.
Qed.
Print Assumptions C35_reporter.

(** The errors of a run: what the conversions report, then the error that ended it, all in
    the mode asked for. *)
Theorem C35_run : forall fs cv cvf debug json a stderr written ok,
  runs fs cv cvf debug json a stderr written ok ->
  exists evs r, executes fs cv cvf a evs written r /\
    stderr = flat_map (report debug json (g_error_mode a))
               (errors_of evs ++ match r with inr e => [mkData None None [] [] [e]] | inl _ => [] end).
Proof.
  intros fs cv cvf debug json a stderr written ok H. inversion H as [evs ws r He E1 E2 E3]. subst ws.
  exists evs, r. split; [exact He |].
  assert (Hev : forall ev, In ev (evs ++ match r with inr e => [other_error e] | inl _ => [] end) -> exists d, ev = EvError d).
  { intros ev Hin. apply in_app_or in Hin. destruct Hin as [Hin | Hin].
    - destruct (executes_jobs _ _ _ _ _ _ _ He) as [(e & _ & -> & _) | (p & run & _ & _ & Hevs & _)]; [contradiction |].
      apply Hevs in Hin. destruct Hin as (j & _ & Hin). eapply job_events_errors, Hin.
    - destruct r; [contradiction |]. destruct Hin as [<- | []]. unfold other_error. eauto. }
  rewrite app_assoc. rewrite run_reporter_ok by (right; apply in_or_app; right; now left).
  cbn [with_mode]. rewrite with_mode_only by exact Hev.
  assert (E : errors_of (evs ++ match r with inr e => [other_error e] | inl _ => [] end) =
              errors_of evs ++ match r with inr e => [mkData None None [] [] [e]] | inl _ => [] end).
  { unfold errors_of. rewrite flat_map_app. f_equal. destruct r; reflexivity. }
  rewrite E. generalize (errors_of evs ++ match r with inr e => [mkData None None [] [] [e]] | inl _ => [] end).
  induction l as [| d l IH]; [reflexivity |]. cbn [map flat_map fst snd]. now rewrite IH.
Qed.
Print Assumptions C35_run.

(** What is printed: for each conversion attempted, in the order in which they finish, a
    line for each error in its source ([complaints]), then a line for the error that ended
    the run, if one did; each as in [printed] (SpecCli.v). *)
Theorem C35_lines : forall fs cv cvf debug json a stderr written ok,
  runs fs cv cvf debug json a stderr written ok ->
  exists done final,
    stderr = flat_map (printed debug json (g_error_mode a))
               (flat_map (fun j => complaints fs cv cvf a (fst j)) done ++ map CoOther final) /\
    match make_plan fs a with
    | inr e => done = [] /\ final = [e]
    | inl p => (exists rest, Permutation (jobs_of p) (done ++ rest) /\ (final = [] -> rest = [])) /\
               (final = [] \/ exists j e, In j done /\ final = [e] /\ ended_by fs a j e)
    end.
Proof.
  intros fs cv cvf debug json a stderr written ok H. destruct (C35_run _ _ _ _ _ _ _ _ _ H) as (evs & r & He & ->).
  destruct (executes_done _ _ _ _ _ _ _ He) as (done & -> & Hd).
  exists done, (match r with inr e => [e] | inl _ => [] end). split.
  - rewrite !flat_map_app. f_equal.
    + clear. induction done as [| [s d] done IH]; [reflexivity |]. cbn [flat_map fst]. unfold errors_of in *.
      rewrite !flat_map_app, IH, <- (job_printed fs cv cvf debug json (g_error_mode a) a s d). reflexivity.
    + destruct r as [b | e]; [reflexivity |]. cbn [flat_map map]. unfold report, entries.
      cbn [ed_syntax ed_semantic ed_other map app flat_map]. now rewrite (write_other debug json), !app_nil_r.
  - destruct (make_plan fs a) as [p | e].
    + destruct Hd as (rest & P & Q & F). split.
      * exists rest. split; [exact P |]. intros E. apply Q. destruct r as [b |]; [eauto | discriminate].
      * destruct r as [b | e]; [now left |]. right. destruct (F e eq_refl) as (j & Hj & Hr). exists j, e.
        split; [exact Hj |]. split; [reflexivity |]. eapply job_ended. exact Hr.
    + destruct Hd as (-> & ->). auto.
Qed.
Print Assumptions C35_lines.

Definition an_error (m : str) : event := EvError (mkData None None [] [] [mkErr (Some CatArgument) None m]).
Example C35_example : forall debug json,
  run_reporter debug json [an_error (L "one"); an_error (L "two"); EvMode MDefault; an_error (L "three"); EvMode MSilent; an_error (L "four");
                           EvMode MDefault; an_error (L "five"); EvClose; an_error (L "six")]
  = L "one" ++ [10] ++ L "two" ++ [10] ++ L "three" ++ [10] ++ L "five" ++ [10].
Proof. intros. vm_compute. reflexivity. Qed.

(** A source with two invalid escapes. *)
Example C35_lines_example :
  let cv : str -> config -> str + convert_error := fun _ _ =>
    inr (CESyntax [mkSyn (mkR 0 2) KInvalidEscape; mkSyn (mkR 2 4) KInvalidEscape]) in
  let fs := ex_io [(L "a.mty", L "\y\z")] [] in
  let a := ex_args None (Some [L "a.mty"]) None None false in
  let out := L "Syntax error: a.mty: at position 0..<2: Invalid escape sequence d." ++ [10] ++
             L "Syntax error: a.mty: at position 2..<4: Invalid escape sequence d." ++ [10] in
  forall json, runs fs cv ex_cvf (fun _ => L "d") json a out [] false /\
    out = flat_map (printed (fun _ => L "d") json MDefault) (complaints fs cv ex_cvf a (SFile (L "a.mty"))).
Proof.
  cbv zeta. intros json. split; [| vm_compute; reflexivity].
  apply (many_run _ _ _ _ _ _ [(SFile (L "a.mty"), SFile (L "a.html"))] [(SFile (L "a.mty"), SFile (L "a.html"))]
           [(SFile (L "a.mty"), SFile (L "a.html"))] (inl false)).
  - vm_compute. reflexivity.
  - split; [repeat constructor | split; [now left |]]. apply red_one.
  - apply Permutation_refl.
  - vm_compute. reflexivity.
  - vm_compute. reflexivity.
  - reflexivity.
Qed.

(** ** C36: the command decides sources and destinations as documented. *)

(** Nothing but what is named is read: standard input if asked for; else a named file, or
    a MinTyML file below a named directory.  The named paths end in a name (see
    [C36_parent_refuted]). *)
Theorem C36_sources_partial : forall fs a p,
  ordinary fs -> g_src_dir a <> Some [] ->
  (g_src_dir a = None -> forall files f, g_src_files a = Some files -> In f files -> exists n, file_name f = Some n) ->
  make_plan fs a = inl p ->
  forall j, In j (jobs_of p) ->
    g_stdin a = true /\ fst j = Stdio \/
    g_stdin a = false /\ exists s root names, fst j = SFile s /\ Named a root /\ place s = place root ++ map Normal names /\
      (names = [] /\ (exists f files, g_src_files a = Some files /\ In f files /\ a_file fs f /\
                      root = match g_src_dir a with Some d => push d f | None => f end) \/
       exists sub n stem, names = sub ++ [n] /\ MintyName n stem).
Proof.
  intros fs a p H1 H2 H3 H4 j Hj. destruct (plan_sources fs a p H1 H2 H3 H4 j Hj) as [H | (Hin & s & Hs & root & names & H)].
  - now left.
  - right. split; [exact Hin |]. exists s, root, names. tauto.
Qed.
Print Assumptions C36_sources_partial.

(** Every named file is converted, once. *)
Theorem C36_named_files : forall fs a files,
  ordinary fs -> g_stdin a = false -> g_src_files a = Some files -> g_stdout a = false ->
  (g_out a = None \/ exists out, g_out a = Some out /\ a_dir fs out /\ length files <> 1%nat) ->
  (forall f, In f files -> a_file fs f) ->
  exists jobs, make_plan fs a = inl (PMany jobs) /\
    Forall2 (fun f j => exists s, fst j = SFile s /\
               place s = place (match g_src_dir a with Some d => push d f | None => f end)) files jobs.
Proof. exact named_jobs. Qed.
Print Assumptions C36_named_files.

(** With [-o out]: either there is one conversion, written to [out], which is not a
    directory; or all outputs are below [out], which is not a file.  Paths named together
    with [-d] are relative and do not climb (see [C36_outside_refuted]). *)
Theorem C36_destination_partial : forall fs a p out,
  ordinary fs -> g_src_dir a <> Some [] -> g_stdout a = false -> g_out a = Some out -> out <> [] ->
  (forall files f, g_src_files a = Some files -> In f files ->
     (g_src_dir a = None -> exists n, file_name f = Some n) /\
     (g_src_dir a <> None -> is_absolute f = false /\ ~ In ParentDir (components f))) ->
  make_plan fs a = inl p ->
  (exists s, p = PSingle s (SFile out)) /\ ~ a_dir fs out \/
  (exists jobs, p = PMany jobs /\
     forall j, In j jobs -> exists q more, snd j = SFile q /\ more <> [] /\ place q = place out ++ map Normal more) /\
  ~ a_file fs out.
Proof. exact plan_dest. Qed.
Print Assumptions C36_destination_partial.

(** A command that cannot be planned fails with an error of the file system or one about
    the arguments; or it is [--stdout] with other than one source, whose error has no
    category (see [C36_category_refuted]). *)
Theorem C36_errors_partial : forall fs a e, make_plan fs a = inr e ->
  (exists p, io_path_info fs p = inr e \/ io_read_dir fs p = inr e) \/
  ce_category e = Some CatArgument \/
  (g_stdout a = true /\ g_stdin a = false /\ (forall f, g_src_files a <> Some [f]) /\ ce_category e = None).
Proof. exact plan_error. Qed.
Print Assumptions C36_errors_partial.

Definition ex_fs36 : io :=
  ex_io [(L "x.mty", []); (L "c/y.mty", []); (L "page.html", [])]
        [(L "c", [(L "y.mty", file_info)]); (L "out", [])].
Example C36_example :
  ordinary ex_fs36 /\ a_file ex_fs36 (L "page.html") /\ a_dir ex_fs36 (L "out") /\
  make_plan ex_fs36 (ex_args None (Some [L "x.mty"]) None (Some (L "page.html")) false)
    = inl (PSingle (SFile (L "x.mty")) (SFile (L "page.html"))) /\
  make_plan ex_fs36 (ex_args None (Some [L "x.mty"; L "c"]) None (Some (L "out")) false)
    = inl (PMany [(SFile (L "x.mty"), SFile (L "out/x.html")); (SFile (L "c/y.mty"), SFile (L "out/c/y.html"))]) /\
  make_plan ex_fs36 (ex_args None (Some [L "x.mty"; L "c"]) None (Some (L "page.html")) false)
    = inr (mkErr (Some CatArgument) None (L "'page.html' is not a directory")) /\
  make_plan ex_fs36 (ex_args None (Some [L "x.mty"]) None (Some (L "out")) false)
    = inr (mkErr (Some CatArgument) None (L "'out' is a directory")).
Proof.
  split; [apply ex_ordinary; reflexivity |].
  split; [exists file_info; split; vm_compute; reflexivity |].
  split; [exists dir_info; split; vm_compute; reflexivity |].
  repeat split; vm_compute; reflexivity.
Qed.

(** Naming a directory by [..]: [convert c/..] converts the files in [c]; [convert .]
    looks for a directory with the empty path. *)
Theorem C36_parent_refuted :
  make_plan ex_fs36 (ex_args None (Some [L "c/.."]) None None false)
    = inr (argument_error (L "'c/' does not exist")) /\
  let fs := ex_io [] [(L "c", [(L "y.mty", file_info)]); (L "c/..", []); (L ".", [(L "z.mty", file_info)])] in
  ordinary fs /\
  make_plan fs (ex_args None (Some [L "c/.."]) None None false)
    = inl (PMany [(SFile (L "c/y.mty"), SFile (L "c/y.html"))]) /\
  make_plan fs (ex_args None (Some [L "."]) None None false) = inr no_entry.
Proof.
  split; [vm_compute; reflexivity |]. cbn zeta. split; [apply ex_ordinary; reflexivity |].
  split; vm_compute; reflexivity.
Qed.
Print Assumptions C36_parent_refuted.

(** [-d c y.mty] is refused although [c/y.mty] exists: the path is looked up without the
    directory; [-d c x.mty] is accepted although there is no [c/x.mty]. *)
Theorem C36_dir_base_refuted :
  a_file ex_fs36 (L "c/y.mty") /\
  make_plan ex_fs36 (ex_args (Some (L "c")) (Some [L "y.mty"]) None None false)
    = inr (argument_error (L "'c/y.mty' does not exist")) /\
  io_path_info ex_fs36 (L "c/x.mty") = inl None /\
  make_plan ex_fs36 (ex_args (Some (L "c")) (Some [L "x.mty"]) None None false)
    = inl (PMany [(SFile (L "c/x.mty"), SFile (L "c/x.html"))]).
Proof.
  split; [exists file_info; split; vm_compute; reflexivity |]. repeat split; vm_compute; reflexivity.
Qed.
Print Assumptions C36_dir_base_refuted.

(** [-d c /x.mty /y.mty -o out] writes outside [out]. *)
Theorem C36_outside_refuted :
  let fs := ex_io [(L "/x.mty", []); (L "/y.mty", [])] [(L "out", [])] in
  ordinary fs /\ a_dir fs (L "out") /\
  make_plan fs (ex_args (Some (L "c")) (Some [L "/x.mty"; L "/y.mty"]) None (Some (L "out")) false)
    = inl (PMany [(SFile (L "/x.mty"), SFile (L "/x.html")); (SFile (L "/y.mty"), SFile (L "/y.html"))]).
Proof.
  cbn zeta. split; [apply ex_ordinary; reflexivity |].
  split; [exists dir_info; split; vm_compute; reflexivity |]. vm_compute. reflexivity.
Qed.
Print Assumptions C36_outside_refuted.

(** A misuse of [--stdout] is reported as an internal error. *)
Theorem C36_category_refuted : forall debug json,
  let a := ex_args None (Some [L "x.mty"; L "c"]) None None true in
  runs ex_fs36 ex_cv ex_cvf debug json a
    (L "Internal error: --stdout requires --stdin or exactly one source file" ++ [10]) [] false.
Proof.
  intros debug json a.
  assert (Hp : make_plan ex_fs36 a = inr (mkErr None None (L "--stdout requires --stdin or exactly one source file")))
    by (vm_compute; reflexivity).
  exact (runs_intro ex_fs36 ex_cv ex_cvf debug json a _ _ _ (ex_error ex_fs36 ex_cv ex_cvf a _ Hp)).
Qed.
Print Assumptions C36_category_refuted.

(** ** C37: options map to the documented configuration.

    [--xml]; [--indent n] spaces with [--pretty]; a complete page unless [--fragment],
    [--complete-page=b] deciding; [--special-tag], the last override of a tag deciding;
    fail-fast; the language is not set; metadata is off unless [--metadata] or
    [--metadata-elements] is given, and then it has elements as [--metadata-elements] says. *)
Theorem C37_options : forall o,
  let c := as_config o in
  c_xml c = Some (o_xml o) /\
  (o_pretty o = false -> c_indent c = None) /\
  (o_pretty o = true -> exists i, c_indent c = Some i /\ length i = o_indent o /\ forall x, In x i -> x = 32) /\
  (forall b, o_complete_page o = Some b -> c_complete_page c = Some b) /\
  (o_complete_page o = None -> c_complete_page c = Some true <-> o_fragment o = false) /\
  (o_complete_page o = None -> c_complete_page c = Some false <-> o_fragment o = true) /\
  (forall k v, special_field (c_special c) k = Some v <-> LastOverride (o_special_tag o) k v) /\
  c_lang c = None /\
  (c_fail_fast c = None <-> o_fail_fast o = None) /\
  (c_fail_fast c = Some true <-> o_fail_fast o = Some FFTrue \/ o_fail_fast o = Some FFFile) /\
  (c_metadata c <> None -> o_metadata o = Some true \/ o_metadata o = None /\ o_metadata_elements o <> None) /\
  (o_metadata o = Some true -> c_metadata c = Some (match o_metadata_elements o with Some b => b | None => false end)) /\
  (o_metadata o <> Some false -> o_metadata_elements o = Some true -> c_metadata c = Some true).
Proof.
  intros o c. subst c. unfold as_config. cbn [c_xml c_indent c_complete_page c_special c_lang c_fail_fast c_metadata].
  split; [reflexivity |].
  split; [intros ->; reflexivity |].
  split. { intros ->. exists (repeat 32 (o_indent o)). split; [reflexivity |]. split; [apply repeat_length |]. apply repeat_spec. }
  split; [intros b ->; reflexivity |].
  split. { intros ->. destruct (o_fragment o); split; intros E; try reflexivity; discriminate. }
  split. { intros ->. destruct (o_fragment o); split; intros E; try reflexivity; discriminate. }
  split.
  { intros k v. rewrite special_last. split; [| now left]. intros [H | (H & _)]; [exact H |]. destruct k; discriminate. }
  split; [reflexivity |].
  split. { destruct (o_fail_fast o); split; intros E; try reflexivity; discriminate. }
  split. { destruct (o_fail_fast o) as [[| |] |]; cbn [opt_map]; split; intros E; auto; try reflexivity; try discriminate; destruct E; discriminate. }
  split. { destruct (o_metadata o) as [[|] |]; [auto | congruence |].
           destruct (o_metadata_elements o); [| congruence]. intros _. right. split; [reflexivity | discriminate]. }
  split. { intros ->. destruct (o_metadata_elements o); reflexivity. }
  intros H ->. destruct (o_metadata o) as [[|] |]; congruence.
Qed.
Print Assumptions C37_options.

Example C37_example :
  let o := mkOpts true true 3 None false [(Strike, L "del"); (Quote, L "b"); (Strike, L "x")] None (Some FFFile) (Some true) None in
  as_config o = mkConfig (Some (L "   ")) (Some true) (mkSpecial None None None (Some (L "x")) (Some (L "b")) None None)
                  (Some true) None (Some false) (Some true) /\
  LastOverride (o_special_tag o) Strike (L "x").
Proof.
  split; [vm_compute; reflexivity |]. exists [(Strike, L "del"); (Quote, L "b")], [].
  split; [reflexivity |]. intros v' [].
Qed.

(** Metadata is not off unless requested: [--metadata-elements=false] alone turns it on. *)
Theorem C37_metadata_refuted : exists o,
  o_metadata o = None /\ o_metadata_elements o = Some false /\ c_metadata (as_config o) <> None.
Proof.
  exists (mkOpts false false 2 None true [] None None None (Some false)). repeat split. discriminate.
Qed.
Print Assumptions C37_metadata_refuted.

(** ** C40: a destination with a trailing slash is not taken for a directory, ever: the
      test holds of paths to the root only.  [convert x.mty -o site/] is to write the file
      [site/]; if there is a directory [site] it is refused. *)
Theorem C40_trailing_slash_refuted :
  (forall p, has_trailing_slash p = true <-> components p = [RootDir]) /\
  make_plan ex_fs36 (ex_args None (Some [L "x.mty"]) None (Some (L "site/")) false)
    = inl (PSingle (SFile (L "x.mty")) (SFile (L "site/"))) /\
  let fs := ex_io [(L "x.mty", [])] [(L "site/", []); (L "site", [])] in
  ordinary fs /\
  make_plan fs (ex_args None (Some [L "x.mty"]) None (Some (L "site/")) false)
    = inr (argument_error (L "'site/' is a directory")).
Proof.
  split; [exact has_trailing_slash_root |]. split; [vm_compute; reflexivity |]. cbn zeta.
  split; [apply ex_ordinary; reflexivity | vm_compute; reflexivity].
Qed.
Print Assumptions C40_trailing_slash_refuted.

(** ** C42: nothing but the library's text for a source is written, and only to its
      destination.

    Without [--forgiving] nothing is written for a source whose conversion fails. *)
Theorem C42_written : forall fs cv cvf debug json a stderr written ok,
  runs fs cv cvf debug json a stderr written ok ->
  forall d t, In (d, t) written ->
  exists p s src, make_plan fs a = inl p /\ In (s, d) (jobs_of p) /\ io_read fs s = inl src /\
    if forgives a
    then cvf src (as_config (g_options a)) = inl t \/ exists e, cvf src (as_config (g_options a)) = inr (Some t, e)
    else cv src (as_config (g_options a)) = inl t.
Proof.
  intros fs cv cvf debug json a stderr written ok H d t Hin. inversion H as [evs ws r He E1 E2 E3]. subst ws.
  destruct (executes_jobs _ _ _ _ _ _ _ He) as [(e & _ & _ & -> & _) | (p & run & Hp & Hrun & _ & Hws & _)]; [contradiction |].
  apply Hws in Hin. destruct Hin as ([s d'] & Hj & Hin). destruct (job_writes _ _ _ _ _ _ _ Hin) as (src & t' & E & Hr & Hc).
  injection E as <- <-. exists p, s, src. auto.
Qed.
Print Assumptions C42_written.

(** The run of [C34_example]: one of two files is written. *)
Example C42_example : forall debug json,
  runs (ex_io [(L "a.mty", L "x"); (L "b.mty", L "bad")] []) ex_cv ex_cvf debug json
    (ex_args None (Some [L "a.mty"; L "b.mty"]) None None false) [] [(SFile (L "a.html"), L "ok x")] false /\
  ex_cv (L "bad") (as_config ex_opts) = inr CEUnknown.
Proof. intros debug json. split; [apply C34_example | reflexivity]. Qed.

(** ** C43: not every failure is reported: a source whose conversion fails with an error
      without a location ([C14]) makes the command fail silently. *)
Definition of_library {E} (r : option (str + E)) : str + E := match r with Some x => x | None => inl [] end.
Definition lib_cv parse slice src cfg := of_library (Convert.convert parse slice src cfg).
Definition lib_cvf parse slice src cfg := of_library (Convert.convert_forgiving parse slice src cfg).
Lemma lib_ok : forall parse slice, library parse slice (lib_cv parse slice) (lib_cvf parse slice).
Proof.
  intros parse slice src cfg. destruct (C12_strict_forgiving parse slice src cfg) as (Hs & He & Hn & _).
  unfold lib_cv, lib_cvf. destruct (Convert.convert parse slice src cfg) as [[t | e] |]; [| | congruence].
  - split; [reflexivity |]. rewrite (proj1 (Hs t) eq_refl). reflexivity.
  - split; [reflexivity |]. destruct (proj1 (He e) eq_refl) as (o & ->). reflexivity.
Qed.

Theorem C43_reported_refuted : forall debug json,
  exists fs parse slice a,
    visible_errors fs /\ g_error_mode a = MDefault /\
    library parse slice (lib_cv parse slice) (lib_cvf parse slice) /\
    runs fs (lib_cv parse slice) (lib_cvf parse slice) debug json a [] [] false.
Proof.
  intros debug json. exists (ex_io [(L "a.mty", ex_src3)] []), (ex_parse ex_tree3), source_slice,
    (ex_args None (Some [L "a.mty"]) None None false).
  split. { repeat split; cbn [io_path_info io_read_dir io_read io_write ex_io]; intros.
           - destruct (existsb _ _); [discriminate |]. destruct (existsb _ _); discriminate.
           - cbn [find] in H. injection H as <-. discriminate.
           - destruct s; [| discriminate]. destruct (find _ _); [discriminate |]. injection H as <-. discriminate.
           - discriminate. }
  split; [reflexivity |]. split; [apply lib_ok |].
  apply (many_run _ _ _ _ _ _ [(SFile (L "a.mty"), SFile (L "a.html"))] [(SFile (L "a.mty"), SFile (L "a.html"))]
           [(SFile (L "a.mty"), SFile (L "a.html"))] (inl false)).
  - vm_compute. reflexivity.
  - split; [repeat constructor | split; [now left |]].
    assert (E : map (fun j => jr_result (run_job (ex_io [(L "a.mty", ex_src3)] []) (lib_cv (ex_parse ex_tree3) source_slice)
                  (lib_cvf (ex_parse ex_tree3) source_slice) (ex_args None (Some [L "a.mty"]) None None false) j))
                  [(SFile (L "a.mty"), SFile (L "a.html"))] = [inl false]) by (vm_compute; reflexivity).
    rewrite E. constructor.
  - apply Permutation_refl.
  - vm_compute. reflexivity.
  - vm_compute. reflexivity.
  - reflexivity.
Qed.
Print Assumptions C43_reported_refuted.

(** What holds: that is the only case.  (Missing: the error without a location.) *)
Theorem C43_reported_partial : forall fs parse slice cv cvf debug json a stderr written,
  library parse slice cv cvf -> visible_errors fs -> g_error_mode a <> MSilent ->
  runs fs cv cvf debug json a stderr written false -> stderr = [] ->
  exists p j src, make_plan fs a = inl p /\ In j (jobs_of p) /\ io_read fs (fst j) = inl src /\
    Convert.convert parse slice src (as_config (g_options a)) = Some (inr CEUnknown).
Proof. intros. eapply failure_reported; eassumption. Qed.
Print Assumptions C43_reported_partial.

(** ** C44: unless [--fail-fast] is given, a source that cannot be converted does not keep
      others from being converted.

    If sources can be read and outputs written, each planned conversion is attempted: the
    output of each is written if its source can be converted. *)
Theorem C44_others_converted : forall fs cv cvf debug json a stderr written ok p,
  runs fs cv cvf debug json a stderr written ok -> make_plan fs a = inl p ->
  o_fail_fast (g_options a) <> Some FFTrue ->
  (forall s d, In (s, d) (jobs_of p) -> (exists src, io_read fs s = inl src) /\ forall t, io_write fs d t = None) ->
  forall s d src t, In (s, d) (jobs_of p) -> io_read fs s = inl src ->
    (if forgives a
     then cvf src (as_config (g_options a)) = inl t \/ exists e, cvf src (as_config (g_options a)) = inr (Some t, e)
     else cv src (as_config (g_options a)) = inl t) ->
    In (d, t) written.
Proof.
  intros fs cv cvf debug json a stderr written ok p H Hp Hff Hio s d src t Hin Hread Hc.
  inversion H as [evs ws r He E1 E2 E3]. subst ws.
  destruct (executes_jobs _ _ _ _ _ _ _ He) as [(e & Hp' & _) | (p' & run & Hp' & Hrun & _ & Hws & _ & Hall & Herr & _)]; [congruence |].
  assert (p' = p) as -> by congruence.
  assert (Hno : forall j, In j (jobs_of p) -> forall e, jr_result (run_job fs cv cvf a j) <> inr e).
  { intros [s' d'] Hj e. destruct (Hio s' d' Hj) as ((src' & Hs') & Hw').
    unfold run_job, convert_job. rewrite Hs'. fold (forgives a).
    destruct (forgives a).
    - destruct (cvf src' (as_config (g_options a))) as [out | [[out |] err]]; cbn [is_some is_none andb];
        rewrite ?Hw'; cbn [jr_result]; destruct (o_fail_fast (g_options a)) as [[| |] |] eqn:Eff; try discriminate; now destruct Hff.
    - destruct (cv src' (as_config (g_options a))) as [out | err]; cbn [is_some is_none andb];
        rewrite ?Hw'; cbn [jr_result]; destruct (o_fail_fast (g_options a)) as [[| |] |] eqn:Eff; try discriminate; now destruct Hff. }
  destruct r as [b | e].
  - apply Hws. exists (s, d). split; [now apply (Hall b) |].
    unfold run_job, convert_job. rewrite Hread. fold (forgives a). destruct (forgives a).
    + destruct Hc as [-> | (e & ->)]; cbn [is_some is_none andb]; destruct (io_write fs d t); now left.
    + rewrite Hc. cbn [is_some is_none andb]. destruct (io_write fs d t); now left.
  - destruct (Herr e eq_refl) as (j & Hj & E). exfalso. exact (Hno j (Hrun j Hj) e E).
Qed.
Print Assumptions C44_others_converted.

Example C44_example :
  let fs := ex_io [(L "a.mty", L "x"); (L "b.mty", L "bad")] [] in
  let a := ex_args None (Some [L "a.mty"; L "b.mty"]) None None false in
  (forall debug json, exists stderr written ok, runs fs ex_cv ex_cvf debug json a stderr written ok) /\
  (forall p, make_plan fs a = inl p -> forall s d, In (s, d) (jobs_of p) ->
     (exists src, io_read fs s = inl src) /\ forall t, io_write fs d t = None) /\
  ex_cv (L "x") (as_config ex_opts) = inl (L "ok x").
Proof.
  cbn zeta. split; [| split].
  - intros debug json. exists [], [(SFile (L "a.html"), L "ok x")], false. apply C34_example.
  - intros p Hp.
    assert (E : make_plan (ex_io [(L "a.mty", L "x"); (L "b.mty", L "bad")] [])
                  (ex_args None (Some [L "a.mty"; L "b.mty"]) None None false)
                = inl (PMany [(SFile (L "a.mty"), SFile (L "a.html")); (SFile (L "b.mty"), SFile (L "b.html"))]))
      by (vm_compute; reflexivity).
    assert (p = PMany [(SFile (L "a.mty"), SFile (L "a.html")); (SFile (L "b.mty"), SFile (L "b.html"))]) as -> by congruence.
    intros s d [E' | [E' | []]]; injection E' as <- <-; (split; [eexists; vm_compute; reflexivity | reflexivity]).
  - reflexivity.
Qed.

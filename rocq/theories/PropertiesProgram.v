(** * Property theorems about the whole program: C60, C61. *)

From Coq Require Import Permutation.
From Verif Require Import Base P_Base Doc Config Errors Display Reporter Cli SpecCli Args Json SpecJson Program
  Convert Grammar Parser SpecSource SpecTree SpecMarkup SpecInfer SpecWrite SpecPlain P_Json P_Program P_Run
  Path Disk SpecDisk PropertiesCli PropertiesDisk PropertiesConvert PropertiesWrite PropertiesPlain PropertiesArgs.

(** ** C60: with [--error-mode=json], stderr is a list of lines, each an object in JSON
      that says what is wrong; they are, in order, the errors that are printed as text
      by default (C35_lines). *)
Theorem C60_json : forall fs cv cvf debug a stderr written ok,
  g_error_mode a = MJson -> runs fs cv cvf debug json_entry a stderr written ok ->
  exists lines done final,
    stderr = flat_map (fun l => l ++ [10]) lines /\ (forall l, In l lines -> ~ In 10 l) /\
    map read_json lines =
      map Some (flat_map (as_json debug) (flat_map (fun j => complaints fs cv cvf a (fst j)) done ++ map CoOther final)) /\
    match make_plan fs a with
    | inr e => done = [] /\ final = [e]
    | inl p => (exists rest, Permutation (jobs_of p) (done ++ rest) /\ (final = [] -> rest = [])) /\
               (final = [] \/ exists j e, In j done /\ final = [e] /\ ended_by fs a j e)
    end.
Proof.
  intros fs cv cvf debug a stderr written ok Hm H. destruct (C35_lines _ _ _ _ _ _ _ _ _ H) as (done & final & E & Hd).
  rewrite Hm in E.
  destruct (json_lines debug (flat_map (fun j => complaints fs cv cvf a (fst j)) done ++ map CoOther final)) as (ls & E' & Hl & Hr).
  exists ls, done, final. split; [congruence|]. auto.
Qed.
Print Assumptions C60_json.

(** An object says all that the line of text says. *)
Theorem C60_at_least_the_text : forall debug debug' c c', as_json debug c <> [] -> as_json debug c = as_json debug' c' ->
  plain_line debug c = plain_line debug' c'.
Proof.
  assert (Hs : forall x y, stream_value x = stream_value y -> x = y) by (intros [p|] [q|] E; try discriminate E; [injection E as ->|]; reflexivity).
  assert (Hl : forall x y, location_value x = location_value y -> x = y) by (intros [p q] [p2 q2] E; unfold location_value in E; injection E; cbn [r_start r_end]; intros; subst; reflexivity).
  intros debug debug' [n s e|n s e|[k o m]] [n' s' e'|n' s' e'|[k' o' m']] Hne E; cbn [as_json ce_category ce_source ce_message] in E.
  - assert (Hx : n = n' /\ sy_range e = sy_range e' /\ display_with_src debug s false e = display_with_src debug' s' false e').
    { destruct (sy_kind e), (sy_kind e'); cbn [app] in E; try discriminate E; injection E; intros;
        repeat match goal with H : stream_value _ = stream_value _ |- _ => apply Hs in H | H : location_value _ = location_value _ |- _ => apply Hl in H end;
        (split; [assumption|]); (split; [apply Hl; unfold location_value; congruence|assumption]). }
    destruct Hx as (-> & E1 & E2). unfold plain_line. now rewrite E1, E2.
  - destruct (sy_kind e); discriminate E.
  - destruct k' as [[]|], o'; cbn [app] in E; try discriminate E; destruct (sy_kind e); discriminate E.
  - destruct (sy_kind e'); discriminate E.
  - injection E as E1 E2 E3. apply Hs in E1. assert (se_range e = se_range e') as E4 by (apply Hl; unfold location_value; congruence). unfold plain_line. now rewrite E1, E4.
  - destruct k' as [[]|], o'; discriminate E.
  - destruct k as [[]|], o; cbn [app] in E; try discriminate E; destruct (sy_kind e'); discriminate E.
  - destruct k as [[]|], o; discriminate E.
  - destruct k as [[]|]; cbn [as_json ce_category] in Hne; try (now destruct Hne);
      (destruct k' as [[]|]; try discriminate E; destruct o, o'; cbn [app] in E; try discriminate E;
       injection E; intros; repeat match goal with H : stream_value _ = stream_value _ |- _ => apply Hs in H end; subst; reflexivity).
Qed.
Print Assumptions C60_at_least_the_text.

(** A parse error, in a file whose name needs escapes, and an error of the tool. *)
Example C60_example :
  let e := mkSyn (mkR 3 5) (KParseFailed [L "text"; L "space"]) in
  let c := CoSyntax (SFile (L "a""b" ++ [10; 7])) (L "ab \q") e in
  let c' := CoOther (mkErr None None (L "no")) in
  printed (fun s => s) json_entry MJson c =
    L "{""category"":""syntax"",""sourceName"":{""file"":""a\""b\n\u0007""},""location"":{""start"":3,""end"":5},""expected"":[""text"",""space""],""message"":""" ++
    flat_map json_char (display_with_src (fun s => s) (L "ab \q") false e) ++ L """}" ++ [10] /\
  printed (fun s => s) json_entry MJson c' = L "{""category"":""internal"",""message"":""no""}" ++ [10] /\
  read_json (L " { ""a"" : [ 1 , null,true ] ,""b"":""A\/"" } ") =
    Some (VObject [(L "a", VArray [VNumber 1; VNull; VBool true]); (L "b", VString (L "A/"))]) /\
  read_json (L "{""a"":01}") = None /\ read_json (L "[1,]") = None.
Proof. cbv zeta. repeat split; vm_compute; reflexivity. Qed.

(** ** C61: the program as a whole.

    If every source that a command names is as C51 describes, can be read, and its output
    can be written, then nothing is on stderr, the page of each source is written to its
    output, nothing else is, and the exit code says success. *)
Definition library_convert (alnum : chr -> bool) (failure : str -> parse_error) := lib_cv (parser alnum failure) source_slice.
Definition library_forgiving (alnum : chr -> bool) (failure : str -> parse_error) := lib_cvf (parser alnum failure) source_slice.

(** [text s] is the page of the source [s] by these options *)
Definition page_of (fs : io) (a : args) (s : stream) (t : str) : Prop :=
  exists src us, io_read fs s = inl src /\ Source (names (c_special (as_config (g_options a)))) src us /\
    (complete (as_config (g_options a)) = true -> Forall bare_head us) /\
    t = doctype (complete (as_config (g_options a))) ++ page (o_xml (g_options a)) (document (complete (as_config (g_options a))) None us).

Theorem C61_program : forall alnum failure fs debug json ws a p text stderr written ok,
  ascii_alnum_ok alnum -> read_command ws = Args.Got a -> plain (as_config (g_options a)) -> o_pretty (g_options a) = false ->
  make_plan fs a = inl p ->
  (forall s d, In (s, d) (jobs_of p) -> page_of fs a s (text s) /\ io_write fs d (text s) = None) ->
  program fs (library_convert alnum failure) (library_forgiving alnum failure) debug json ws stderr written ok ->
  stderr = [] /\ Permutation written (map (fun j => (snd j, text (fst j))) (jobs_of p)) /\ ok = true.
Proof.
  intros alnum failure fs debug json ws a p text stderr written ok Ha Hr Hc Hi Hp Hg H.
  assert (E : parse_args ws = SRun a) by (unfold parse_args; now rewrite Hr).
  inversion H as [a' ? ? ? E' Hrun|t E'|t E'|m E']; subst; rewrite E in E'; try discriminate. injection E' as <-.
  eapply good_run; [exact Hp| |exact Hrun]. rewrite Forall_forall. intros [s d] Hj.
  destruct (Hg s d Hj) as ((src & us & Hs & HS & Hh & Et) & Hw). exists src. cbn [fst snd]. split; [exact Hs|]. split; [exact Hw|].
  assert (Hind : c_indent (as_config (g_options a)) = None) by (unfold as_config; rewrite Hi; reflexivity).
  pose proof (C51_source_converts alnum failure src us _ Ha Hc Hind HS Hh) as EC.
  change (is_xml (as_config (g_options a))) with (o_xml (g_options a)) in EC. change (c_lang (as_config (g_options a))) with (@None str) in EC.
  rewrite <- Et in EC. destruct (lib_ok (parser alnum failure) source_slice src (as_config (g_options a))) as [E1 E2].
  split.
  - unfold library_convert, lib_cv. rewrite EC. reflexivity.
  - destruct (PropertiesConvert.C12_strict_forgiving (parser alnum failure) source_slice src (as_config (g_options a))) as (Hsf & _).
    unfold library_forgiving, lib_cvf. rewrite (proj1 (Hsf _) EC). reflexivity.
Qed.
Print Assumptions C61_program.

(** As a filter, from the words on: what comes in on stdin goes out on stdout as a page;
    [--fragment] leaves out the page around it.  ([names special_default] are the usual
    names of special elements.) *)
Theorem C61_filter : forall alnum failure fs debug json src us stderr written ok fragment,
  ascii_alnum_ok alnum -> io_read fs Stdio = inl src -> (forall t, io_write fs Stdio t = None) ->
  Source (names special_default) src us -> (fragment = false -> Forall bare_head us) ->
  program fs (library_convert alnum failure) (library_forgiving alnum failure) debug json
    ([L "convert"; L "--stdin"; L "--stdout"] ++ (if fragment then [L "--fragment"] else [])) stderr written ok ->
  stderr = [] /\ written = [(Stdio, doctype (negb fragment) ++ page false (document (negb fragment) None us))] /\ ok = true.
Proof.
  intros alnum failure fs debug json src us stderr written ok fragment Ha Hr Hw Hs Hh H.
  set (a := mkArgs true None None None None true (mkOpts false false 2 None fragment [] None None None None) MDefault).
  assert (Hcmd : read_command ([L "convert"; L "--stdin"; L "--stdout"] ++ (if fragment then [L "--fragment"] else [])) = Args.Got a)
    by (destruct fragment; vm_compute; reflexivity).
  assert (Hcomp : complete (as_config (g_options a)) = negb fragment) by (destruct fragment; reflexivity).
  destruct (C61_program alnum failure fs debug json _ a (PSingle Stdio Stdio)
    (fun _ => doctype (negb fragment) ++ page false (document (negb fragment) None us)) stderr written ok Ha Hcmd) as (E1 & E2 & E3).
  - split; [split; [reflexivity|discriminate]|reflexivity].
  - reflexivity.
  - reflexivity.
  - intros s d [E|[]]. injection E as <- <-. split; [|apply Hw]. exists src, us. rewrite Hcomp. split; [exact Hr|].
    split; [|split; [|reflexivity]].
    + exact Hs.
    + intros E. apply Hh. now destruct fragment.
  - exact H.
  - split; [exact E1|]. split; [|exact E3]. cbn [jobs_of map snd fst] in E2. now apply Permutation_sym, Permutation_length_1_inv in E2.
Qed.
Print Assumptions C61_filter.
Example C61_usual : forall m, names special_default m = usual m.
Proof. now intros []. Qed.

(** Plain text on stdin: its paragraphs on stdout. *)
Theorem C61_plain_text : forall alnum failure fs debug json src stderr written ok,
  ascii_alnum_ok alnum -> io_read fs Stdio = inl src -> (forall t, io_write fs Stdio t = None) -> plain_text src ->
  program fs (library_convert alnum failure) (library_forgiving alnum failure) debug json
    [L "convert"; L "--stdin"; L "--stdout"; L "--fragment"] stderr written ok ->
  stderr = [] /\ written = [(Stdio, plain_html false (L "<p>") src)] /\ ok = true.
Proof.
  intros alnum failure fs debug json src stderr written ok Ha Hr Hw Hp H. destruct (P_Plain.plain_source src Hp) as (us & HS & HP & _).
  pose proof (C61_filter alnum failure fs debug json src us stderr written ok true Ha Hr Hw (HS (names special_default))) as F.
  cbn [app] in F. specialize (F ltac:(discriminate) H). destruct F as (E1 & E2 & E3).
  split; [exact E1|]. split; [|exact E3]. rewrite E2.
  assert (Ho : ordinary config_default) by (split; [reflexivity|discriminate]).
  pose proof (C54_plain_text alnum failure src config_default Ha Ho eq_refl eq_refl Hp) as A.
  pose proof (C51_without_code_blocks alnum failure src us config_default Ha Ho eq_refl (fun tag _ => HS tag)) as B.
  specialize (B ltac:(discriminate)).
  rewrite B in A. assert (inj : forall x y : str, Some (@inl str convert_error x) = Some (inl y) -> x = y) by (intros x y E; congruence).
  apply inj in A.
  cbn [complete c_complete_page config_default is_xml c_xml c_lang negb lang_html app] in *. rewrite A. reflexivity.
Qed.
Print Assumptions C61_plain_text.
Example C61_plain_example : exists fs, io_read fs Stdio = inl c54_text /\ (forall t, io_write fs Stdio t = None) /\ plain_text c54_text.
Proof.
  exists (mkIo (fun _ => inl None) (fun _ => inl []) (fun _ => inl c54_text) (fun _ _ => None)).
  split; [reflexivity|]. split; [reflexivity|]. apply C54_example.
Qed.

(** A file, from the words to what is written. *)
Example C61_example : forall debug json,
  let fs := ex_io [(L "a.mty", L "a <#b#>")] [] in
  let convert := library_convert is_ascii_alnum (fun _ => mkPE 0 [] []) in
  let forgiving := library_forgiving is_ascii_alnum (fun _ => mkPE 0 [] []) in
  let ws := [L "convert"; L "--fragment"; L "--"; L "a.mty"] in
  program fs convert forgiving debug json ws [] [(SFile (L "a.html"), L "<p>a <strong>b</strong></p>")] true.
Proof.
  cbv zeta. intros debug json.
  set (a := mkArgs false None (Some [L "a.mty"]) None None false (mkOpts false false 2 None true [] None None None None) MDefault).
  apply (pr_run _ _ _ _ _ _ a); [vm_compute; reflexivity|].
  set (j := (SFile (L "a.mty"), SFile (L "a.html"))).
  assert (E : run_job (ex_io [(L "a.mty", L "a <#b#>")] []) (library_convert is_ascii_alnum (fun _ => mkPE 0 [] []))
    (library_forgiving is_ascii_alnum (fun _ => mkPE 0 [] [])) a j = mkJob [] [(SFile (L "a.html"), L "<p>a <strong>b</strong></p>")] (inl true)) by (vm_compute; reflexivity).
  apply (many_run _ _ _ _ _ _ [j] [j] [j] (inl true)).
  - vm_compute. reflexivity.
  - split; [repeat constructor|split; [now left|]]. cbn [map]. rewrite E. constructor.
  - apply Permutation_refl.
  - cbn [flat_map]. rewrite E. reflexivity.
  - cbn [flat_map]. rewrite E. reflexivity.
  - reflexivity.
Qed.

(** A directory of sources, from the words of the command to the bytes of the files: after
    every successful run, in whatever order its calls of the operating system take turns,
    the output of a source as in C51 holds the page of the source. *)
Theorem C61_site : forall alnum failure cwd decode encode stdin fs ws a dir ch d ext,
  ascii_alnum_ok alnum -> read_command ws = Args.Got a -> plain (as_config (g_options a)) -> o_pretty (g_options a) = false ->
  tree_ok ch -> holds_tree fs dir ch -> dir <> [] -> Depth a d ->
  g_stdin a = false -> g_src_files a = None -> g_src_dir a = Some dir -> g_stdout a = false ->
  (forall out, g_out a = Some out -> out <> [] /\ (io_path_info fs out = inl None \/ a_dir fs out)) ->
  ~ In dot ext ->
  (forall names, MintyFile ch d names -> exists sub stem, names = sub ++ [stem ++ L "." ++ ext]) ->
  let cfg := as_config (g_options a) in
  let source sub stem := resolve cwd dir ++ sub ++ [stem ++ L "." ++ ext] in
  let output sub stem := resolve cwd (match g_out a with Some out => out | None => dir end) ++ sub ++ [stem ++ Suffix (o_xml (g_options a))] in
  exists jobs, parse_args ws = SRun a /\ make_plan fs a = inl (PMany jobs) /\
    forall w0 w l, steps cwd decode encode (library_convert alnum failure) (library_forgiving alnum failure) stdin a (w0, begin jobs) (w, l) -> exits_ok l ->
    forall sub stem data src us, MintyFile ch d (sub ++ [stem ++ L "." ++ ext]) ->
      w_disk w0 (source sub stem) = Some (DFile data) -> decode data = Some src ->
      Source (names (c_special cfg)) src us -> (complete cfg = true -> Forall bare_head us) ->
      w_disk w (output sub stem) = Some (DFile (encode (doctype (complete cfg) ++ page (o_xml (g_options a)) (document (complete cfg) None us)))).
Proof.
  intros alnum failure cwd decode encode stdin fs ws a dir ch d ext Ha Hr Hc Hi H1 H2 H3 H4 H5 H6 H7 H8 H9 H10 H11 cfg source output.
  destruct (C53_site cwd decode encode (library_convert alnum failure) (library_forgiving alnum failure) stdin fs a dir ch d ext H1 H2 H3 H4 H5 H6 H7 H8 H9 H10 H11)
    as (jobs & Hp & H).
  exists jobs. split; [unfold parse_args; now rewrite Hr|]. split; [exact Hp|].
  intros w0 w l Hst Hex sub stem data src us Hm Hd Hdec HS Hh. destruct (H w0 w l Hst Hex) as [HO _].
  destruct (HO sub stem Hm) as (data' & src' & t & E1 & E2 & Hg & Ht). unfold source in Hd. rewrite Hd in E1. injection E1 as <-. rewrite Hdec in E2. injection E2 as <-.
  unfold output. rewrite Ht. do 3 f_equal.
  assert (Hind : c_indent cfg = None) by (unfold cfg, as_config; rewrite Hi; reflexivity).
  pose proof (C51_source_converts alnum failure src us cfg Ha Hc Hind HS Hh) as EC.
  change (is_xml cfg) with (o_xml (g_options a)) in EC. change (c_lang cfg) with (@None str) in EC.
  inversion Hg as [? _ E| |? _ E|]; subst.
  - unfold library_convert, lib_cv in E. fold cfg in E. rewrite EC in E. injection E as E. symmetry. exact E.
  - destruct (C12_strict_forgiving (parser alnum failure) source_slice src cfg) as (Hsf & _). apply Hsf in EC.
    unfold library_forgiving, lib_cvf in E. fold cfg in E. rewrite EC in E. injection E as E. symmetry. exact E.
Qed.
Print Assumptions C61_site.
(** [minty convert -d d// -r 0 -o o] meets the conditions; for files as these and a run see C53_example. *)
Example C61_site_example :
  exists a, read_command [L "convert"; L "-d"; L "d//"; L "-r"; L "0"; L "-o"; L "o"] = Args.Got a /\
    plain (as_config (g_options a)) /\ o_pretty (g_options a) = false /\ Depth a 0 /\ g_stdin a = false /\ g_src_files a = None /\
    g_src_dir a = Some (L "d//") /\ g_stdout a = false /\ g_out a = Some (L "o").
Proof. eexists. split; [vm_compute; reflexivity|]. repeat split; try discriminate; try reflexivity. Qed.

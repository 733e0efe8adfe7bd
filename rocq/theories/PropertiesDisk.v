(** * Property theorems about the files that a run changes: C53.

    [steps ... (w0, begin jobs) (w, l)]: of the conversions [jobs], begun with the files
    [w0], some steps have been taken, in any order; the files are now [w], and each
    conversion is where [l] says (Disk.v).  SpecDisk.v says what is meant by outputs and
    by what they hold. *)

From Coq Require Import List Lia.
From Verif Require Import Base Doc Config Errors Path Reporter Cli SpecCli Disk SpecDisk P_Path P_Plan P_Run P_Disk PropertiesCli.
Import ListNotations.

(** Paths lead where they should. *)
Theorem C53_places : forall cwd p q, Leads cwd (components p) q <-> q = resolve cwd p.
Proof. intros cwd p q. split; [apply leads_unique|intros ->; apply follow_leads]. Qed.
Print Assumptions C53_places.
Example C53_places_example : resolve [L "h"; L "u"] (L "./a/../../b") = [L "h"; L "b"] /\ resolve [L "h"] (L "/../c") = [L "c"].
Proof. split; reflexivity. Qed.

(** ** C53: a run changes its outputs, and nothing else.

    At any time, also if something fails: files that are not outputs are as they were, as
    are directories; new are outputs, and directories on the way to them. *)
Theorem C53_nothing_else : forall cwd decode encode cv cvf stdin a jobs w0 w l,
  steps cwd decode encode cv cvf stdin a (w0, begin jobs) (w, l) ->
  (forall q data, w_disk w0 q = Some (DFile data) -> ~ is_output cwd jobs q -> w_disk w q = Some (DFile data)) /\
  (forall q, w_disk w0 q = Some DDir -> w_disk w q = Some DDir) /\
  (forall q, w_disk w0 q = None -> w_disk w q <> None ->
     is_output cwd jobs q \/ on_the_way cwd jobs q /\ w_disk w q = Some DDir).
Proof.
  intros cwd decode encode cv cvf stdin a jobs w0 w l H.
  destruct (steps_kept cwd decode encode cv cvf stdin a jobs w0 _ w l H (begin_works cwd jobs w0)) as [(K1 & K2 & K3 & _) _]. auto.
Qed.
Print Assumptions C53_nothing_else.

(** If outputs are apart from each other and from the sources: a conversion that has ended
    without an error of the file system was that of the source as it was at the beginning;
    its output holds the library's text, or is as before if there is none. *)
Theorem C53_results_partial : forall cwd decode encode cv cvf stdin a jobs w0 w l,
  steps cwd decode encode cv cvf stdin a (w0, begin jobs) (w, l) -> separate cwd jobs ->
  forall j ok, In (j, Finished (inl ok)) l ->
  exists src text, holds cwd decode stdin w0 (fst j) src /\ library_gives cv cvf a src text ok /\
    match text with
    | Some t => has_text cwd encode w0 w (snd j) t
    | None => as_before cwd w0 w (snd j)
    end.
Proof.
  intros cwd decode encode cv cvf stdin a jobs w0 w l H Hs j ok Hj.
  pose proof (steps_done cwd decode encode cv cvf stdin a jobs w0 Hs w l H) as HD. rewrite Forall_forall in HD. specialize (HD _ Hj). cbn in HD.
  destruct HD as [(t & (data & src & H1 & H2 & H3) & Ht)|[(data & src & H1 & H2 & H3) Hb]].
  - exists src, (Some t). split; [eapply first_holds; eauto|]. split; [now apply conversion_gives|exact Ht].
  - exists src, None. split; [eapply first_holds; eauto|]. split; [now apply conversion_gives|exact Hb].
Qed.
Print Assumptions C53_results_partial.

(** ** A directory of sources

    All files with the same extension, as in C33: if the exit code is success, every source
    has been converted, and nothing else has changed but directories that were made. *)
Theorem C53_site : forall cwd decode encode cv cvf stdin fs a dir ch d ext,
  tree_ok ch -> holds_tree fs dir ch -> dir <> [] -> Depth a d ->
  g_stdin a = false -> g_src_files a = None -> g_src_dir a = Some dir -> g_stdout a = false ->
  (forall out, g_out a = Some out -> out <> [] /\ (io_path_info fs out = inl None \/ a_dir fs out)) ->
  ~ In dot ext ->
  (forall names, MintyFile ch d names -> exists sub stem, names = sub ++ [stem ++ L "." ++ ext]) ->
  let source sub stem := resolve cwd dir ++ sub ++ [stem ++ L "." ++ ext] in
  let output sub stem := resolve cwd (match g_out a with Some out => out | None => dir end) ++ sub ++ [stem ++ Suffix (o_xml (g_options a))] in
  exists jobs, make_plan fs a = inl (PMany jobs) /\
    forall w0 w l, steps cwd decode encode cv cvf stdin a (w0, begin jobs) (w, l) -> exits_ok l ->
    (forall sub stem, MintyFile ch d (sub ++ [stem ++ L "." ++ ext]) ->
       exists data src t, w_disk w0 (source sub stem) = Some (DFile data) /\ decode data = Some src /\
         library_gives cv cvf a src (Some t) true /\ w_disk w (output sub stem) = Some (DFile (encode t))) /\
    (forall q, w_disk w q <> w_disk w0 q ->
       (exists sub stem, MintyFile ch d (sub ++ [stem ++ L "." ++ ext]) /\ q = output sub stem) \/
       w_disk w0 q = None /\ w_disk w q = Some DDir).
Proof.
  intros cwd decode encode cv cvf stdin fs a dir ch d ext H1 H2 H3 H4 H5 H6 H7 H8 H9 Hdot Hext source output.
  destruct (search_dir_plan fs a dir ch d H1 H2 H3 H4 H5 H6 H7 H8 H9) as (jobs & found & Hp & HF & Hnd & Hin).
  exists jobs. split; [exact Hp|].
  pose proof (distinct_outputs (o_xml (g_options a)) dir (dest_root a dir) ext jobs found HF Hdot
    (fun names Hn => Hext names (proj1 (Hin names) Hn)) Hnd) as HN.
  (* what a job is *)
  set (R := fun (j : stream * stream) (names : list str) => exists p q sub stem,
    j = (SFile p, SFile q) /\ names = sub ++ [stem ++ L "." ++ ext] /\ MintyFile ch d names /\
    resolve cwd p = source sub stem /\ resolve cwd q = output sub stem /\
    dest_comps j = components (dest_root a dir) ++ map Normal (sub ++ [stem ++ Suffix (o_xml (g_options a))])).
  assert (Forall2 R jobs found) as HR.
  { assert (forall names, In names found -> MintyFile ch d names) as Hin' by (intros; now apply Hin).
    clear Hp HN Hnd Hin. induction HF as [|j names jobs found (p & q & sub & n & stem & -> & -> & Hm & Ep & Eq) HF IH]; constructor.
    - destruct (Hext (sub ++ [n])) as (sub' & stem' & E); [apply Hin'; now left|].
      apply app_inj_tail in E. destruct E as [<- ->]. destruct Hm as (e & E & Hne & He).
      destruct (app_dot_inj dot stem' ext stem e Hdot (minty_no_dot e He) E) as [<- <-].
      exists p, q, sub, stem'. split; [reflexivity|]. split; [reflexivity|]. split; [apply Hin'; now left|].
      split; [|split; [|exact Eq]].
      + unfold resolve at 1. rewrite Ep, follow_app, follow_names. reflexivity.
      + unfold resolve at 1. rewrite Eq, follow_app, follow_names. reflexivity.
    - apply IH. intros names Hn. apply Hin'. now right. }
  assert (forall j, In j jobs -> exists names, In names found /\ R j names) as HJ.
  { clear - HR. induction HR as [|j names jobs found Hj HR IH]; intros i [].
    - subst. exists names. split; [now left|exact Hj].
    - destruct (IH i H) as (ns & Hn & Hi). exists ns. split; [now right|exact Hi]. }
  assert (separate cwd jobs) as HS.
  { split.
    - apply (nodup_finer _ _ _ dest_comps _ _ HN). intros x y Hx Hy E.
      destruct (HJ x Hx) as (nx & _ & px & qx & sx & tx & -> & _ & _ & _ & Ex & Cx).
      destruct (HJ y Hy) as (ny & _ & py & qy & sy & ty & -> & _ & _ & _ & Ey & Cy).
      rewrite Cx, Cy. cbn [snd file_of] in E. injection E as E. rewrite Ex, Ey in E. unfold output in E. apply app_inv_head in E. now rewrite E.
    - intros x y q Hx Hy Ex Ey.
      destruct (HJ x Hx) as (nx & _ & px & qx & sx & tx & -> & _ & _ & _ & Rx & _).
      destruct (HJ y Hy) as (ny & _ & py & qy & sy & ty & -> & -> & Hm & Ry & _).
      cbn [fst snd file_of] in Ex, Ey. injection Ex as <-. injection Ey as Ey. rewrite Rx, Ry in Ey. unfold source, output in Ey.
      rewrite !app_assoc in Ey. apply app_inj_tail in Ey. destruct Ey as [_ Ey].
      destruct Hm as [_ (dd & n & stem & E & Hm & _)]. apply app_inj_tail in E. destruct E as [_ <-].
      rewrite <- app_assoc in Ey. exact (html_not_minty _ _ _ _ Hm Ey). }
  intros w0 w l Hst (rs & Hrs & Hred).
  destruct (steps_kept cwd decode encode cv cvf stdin a jobs w0 _ w l Hst (begin_works cwd jobs w0)) as [(K1 & K2 & K3 & _) [_ HM]].
  rewrite begin_jobs in HM. apply reduces_ok in Hred. destruct Hred as [Hred _]. specialize (proj1 Hred eq_refl) as Hok. clear Hred.
  assert (forall j, In j jobs -> In (j, Finished (inl true)) l) as HL.
  { intros j Hj. rewrite <- HM in Hj. apply in_map_iff in Hj. destruct Hj as ([j' ph] & <- & Hj). cbn [fst].
    clear - Hrs Hok Hj. induction Hrs as [|x r l rs Hx Hrs IH]; [contradiction|]. inversion Hok as [|? ? Hr Hok']; subst.
    destruct Hj as [->|Hj]; [|right; now apply IH]. cbn [snd] in Hx. subst. now left. }
  split.
  - intros sub stem Hm.
    assert (exists j, In j jobs /\ R j (sub ++ [stem ++ L "." ++ ext])) as (j & Hj & p & q & sub' & stem' & -> & E & _ & Ep & Eq & _).
    { apply Hin in Hm. revert Hm. generalize (sub ++ [stem ++ L "." ++ ext]). clear - HR. intros names Hm. induction HR as [|j ns jobs found Hj HR IH]; [contradiction|].
      destruct Hm as [->|Hm]; [exists j; split; [now left|exact Hj]|]. destruct (IH Hm) as (i & Hi & HRi). exists i. split; [now right|exact HRi]. }
    apply app_inj_tail in E. destruct E as [<- E]. apply app_inv_tail in E. subst stem'.
    destruct (C53_results_partial cwd decode encode cv cvf stdin a jobs w0 w l Hst HS _ true (HL _ Hj)) as (src & text & (data & Hdec & Hdata) & Hg & Ht).
    cbn [fst snd] in *. assert (exists t, text = Some t) as [t ->].
    { inversion Hg; subst; eauto. }
    exists data, src, t. unfold has_text in Ht. rewrite Ep in Hdata. rewrite Eq in Ht. auto.
  - intros q Hq. destruct (w_disk w0 q) as [[data|]|] eqn:E0.
    + left. destruct (is_output_dec cwd jobs q) as [(j & Hj & Ej)|Hn]; [|elim Hq; exact (K1 q data E0 Hn)].
      destruct (HJ j Hj) as (ns & _ & p & q' & sub & stem & -> & -> & Hm & _ & Eq & _). cbn [snd file_of] in Ej. injection Ej as <-. exists sub, stem. auto.
    + now rewrite (K2 q E0) in Hq.
    + destruct (K3 q E0) as [(j & Hj & Ej)|[_ Hd]]; [exact Hq| |right; auto]. left.
      destruct (HJ j Hj) as (ns & _ & p & q' & sub & stem & -> & -> & Hm & _ & Eq & _). cbn [snd file_of] in Ej. injection Ej as <-. exists sub, stem. auto.
Qed.
Print Assumptions C53_site.

Lemma both_ok : reduces [inl true; inl true] (inl true).
Proof. change (inl true) with (try_and (inl true) (inl true)) at 3. exact (red_join [inl true] [inl true] _ _ (red_one _) (red_one _)). Qed.
Lemma put_there : forall w q e, w_disk (put_w w q e) q = Some e.
Proof. intros w q e. cbn. unfold put. destruct (place_dec q q); [reflexivity|contradiction]. Qed.
Lemma put_elsewhere : forall w q e p, p <> q -> w_disk (put_w w q e) p = w_disk w p.
Proof. intros w q e p H. cbn. unfold put. destruct (place_dec p q); [contradiction|reflexivity]. Qed.

(** ** Outputs that are not apart

    [convert a.mty a.minty] (C33): both conversions succeed, and the file holds the text of
    one, followed by the rest of the other's. *)
Theorem C53_torn_refuted : forall cwd decode encode cv cvf stdin w0 data1 data2 src1 src2 t1 t2,
  let a := ex_args None (Some [L "a.mty"; L "a.minty"]) None None false in
  let cfg := as_config (g_options a) in
  w_disk w0 cwd = Some DDir ->
  w_disk w0 (cwd ++ [L "a.mty"]) = Some (DFile data1) -> decode data1 = Some src1 -> cv src1 cfg = inl t1 ->
  w_disk w0 (cwd ++ [L "a.minty"]) = Some (DFile data2) -> decode data2 = Some src2 -> cv src2 cfg = inl t2 ->
  w_disk w0 (cwd ++ [L "a.html"]) = None ->
  exists jobs w l, make_plan (ex_io [(L "a.mty", []); (L "a.minty", [])] []) a = inl (PMany jobs) /\
    steps cwd decode encode cv cvf stdin a (w0, begin jobs) (w, l) /\ exits_ok l /\
    w_disk w (cwd ++ [L "a.html"]) = Some (DFile (encode t2 ++ skipn (length (encode t2)) (encode t1))).
Proof.
  intros cwd decode encode cv cvf stdin w0 data1 data2 src1 src2 t1 t2 a cfg Hc H1 D1 C1 H2 D2 C2 H3.
  exists [(SFile (L "a.mty"), SFile (L "a.html")); (SFile (L "a.minty"), SFile (L "a.html"))].
  assert (R1 : resolve cwd (L "a.mty") = cwd ++ [L "a.mty"]) by reflexivity.
  assert (R2 : resolve cwd (L "a.minty") = cwd ++ [L "a.minty"]) by reflexivity.
  assert (R3 : resolve cwd (L "a.html") = cwd ++ [L "a.html"]) by reflexivity.
  assert (V1 : conversion cv cvf a src1 = (Some t1, inl true)) by (unfold conversion; cbn; unfold cfg, a in C1; cbn in C1; now rewrite C1).
  assert (V2 : conversion cv cvf a src2 = (Some t2, inl true)) by (unfold conversion; cbn; unfold cfg, a in C2; cbn in C2; now rewrite C2).
  assert (DN : dirs_to cwd (L "a.html") = []) by reflexivity.
  set (j1 := (SFile (L "a.mty"), SFile (L "a.html"))). set (j2 := (SFile (L "a.minty"), SFile (L "a.html"))).
  pose proof (StepsHere cwd decode encode cv cvf stdin a (w0, begin [j1; j2])) as E. unfold begin in E at 2. cbn [map] in E.
  apply (get_reading cwd decode encode cv cvf stdin a _ _ [] _ _ data1) in E; [|now rewrite R1].
  apply (get_read cwd decode encode cv cvf stdin a _ _ [] _ _ data1 src1 t1 (inl true)) in E; [|now rewrite R1|exact D1|exact V1].
  cbn [begin_write] in E. rewrite DN in E.
  apply (get_reading cwd decode encode cv cvf stdin a _ _ [_] _ _ data2) in E; [|now rewrite R2].
  apply (get_read cwd decode encode cv cvf stdin a _ _ [_] _ _ data2 src2 t2 (inl true)) in E; [|now rewrite R2|exact D2|exact V2].
  cbn [begin_write] in E. rewrite DN in E. cbn [app] in E.
  apply (get_created cwd decode encode cv cvf stdin a _ _ []) in E; [|now rewrite R3|right; rewrite R3, removelast_last; exact Hc].
  cbn [app] in E. set (q := cwd ++ [L "a.html"]) in *. rewrite R3 in E.
  assert (P : forall w e, w_disk (put_w w q e) q = Some e) by (intros w e; cbn; unfold put; destruct (place_dec q q); [reflexivity|contradiction]).
  apply (get_opened cwd decode encode cv cvf stdin a _ _ [_] _ _ []) in E; [|rewrite R3; apply P]. rewrite R3 in E. cbn [app] in E.
  apply (get_emptied cwd decode encode cv cvf stdin a _ _ []) in E. cbn [app] in E.
  apply (get_emptied cwd decode encode cv cvf stdin a _ _ [_]) in E. cbn [app] in E.
  apply (get_written cwd decode encode cv cvf stdin a _ _ [] _ _ []) in E; [|apply P]. cbn [app] in E.
  eapply (get_written cwd decode encode cv cvf stdin a _ _ [_]) in E; [|apply P].
  eexists _, _. split; [vm_compute; reflexivity|]. split; [exact E|]. split.
  - exists [inl true; inl true]. split; [repeat constructor|exact both_ok].
  - rewrite P. unfold overwrite. cbn [firstn app length Nat.add]. now rewrite skipn_nil, app_nil_r.
Qed.
Print Assumptions C53_torn_refuted.

(** [convert a.mty a.html], where [a.html] is the output of the one and the source of the
    other: both conversions succeed, and the second converted neither the old nor the new
    contents of [a.html], but a file that had just been emptied. *)
Theorem C53_source_refuted : forall cwd decode encode cv cvf stdin w0 data1 data2 src1 src2 t1 t2,
  let a := ex_args None (Some [L "a.mty"; L "a.html"]) None None false in
  let cfg := as_config (g_options a) in
  w_disk w0 cwd = Some DDir ->
  w_disk w0 (cwd ++ [L "a.mty"]) = Some (DFile data1) -> decode data1 = Some src1 -> cv src1 cfg = inl t1 ->
  w_disk w0 (cwd ++ [L "a.html"]) = Some (DFile data2) ->
  decode [] = Some src2 -> cv src2 cfg = inl t2 ->
  w_disk w0 (cwd ++ [L "a.html.html"]) = None ->
  exists jobs w l, make_plan (ex_io [(L "a.mty", []); (L "a.html", [])] []) a = inl (PMany jobs) /\
    steps cwd decode encode cv cvf stdin a (w0, begin jobs) (w, l) /\ exits_ok l /\
    w_disk w (cwd ++ [L "a.html"]) = Some (DFile (encode t1)) /\
    w_disk w (cwd ++ [L "a.html.html"]) = Some (DFile (encode t2)).
Proof.
  intros cwd decode encode cv cvf stdin w0 data1 data2 src1 src2 t1 t2 a cfg Hc H1 D1 C1 H2 D2 C2 H3.
  exists [(SFile (L "a.mty"), SFile (L "a.html")); (SFile (L "a.html"), SFile (L "a.html.html"))].
  assert (R1 : resolve cwd (L "a.mty") = cwd ++ [L "a.mty"]) by reflexivity.
  assert (R2 : resolve cwd (L "a.html") = cwd ++ [L "a.html"]) by reflexivity.
  assert (R3 : resolve cwd (L "a.html.html") = cwd ++ [L "a.html.html"]) by reflexivity.
  assert (V1 : conversion cv cvf a src1 = (Some t1, inl true)) by (unfold conversion; cbn; unfold cfg, a in C1; cbn in C1; now rewrite C1).
  assert (V2 : conversion cv cvf a src2 = (Some t2, inl true)) by (unfold conversion; cbn; unfold cfg, a in C2; cbn in C2; now rewrite C2).
  assert (DN : dirs_to cwd (L "a.html") = []) by reflexivity. assert (DN' : dirs_to cwd (L "a.html.html") = []) by reflexivity.
  set (j1 := (SFile (L "a.mty"), SFile (L "a.html"))). set (j2 := (SFile (L "a.html"), SFile (L "a.html.html"))).
  pose proof (StepsHere cwd decode encode cv cvf stdin a (w0, begin [j1; j2])) as E. unfold begin in E at 2. cbn [map] in E.
  apply (get_reading cwd decode encode cv cvf stdin a _ _ [] _ _ data1) in E; [|now rewrite R1].
  apply (get_read cwd decode encode cv cvf stdin a _ _ [] _ _ data1 src1 t1 (inl true)) in E; [|now rewrite R1|exact D1|exact V1].
  cbn [begin_write] in E. rewrite DN in E. cbn [app] in E.
  set (q := cwd ++ [L "a.html"]) in *. set (q' := cwd ++ [L "a.html.html"]) in *.
  assert (NE : q' <> q) by (intros X; apply app_inv_head in X; discriminate).
  assert (NC : cwd <> q) by (intros X; apply (f_equal (@length _)) in X; unfold q in X; rewrite app_length in X; cbn in X; lia).
  apply (get_opened cwd decode encode cv cvf stdin a _ _ [] _ _ data2) in E; [|now rewrite R2]. rewrite R2 in E. cbn [app] in E.
  apply (get_emptied cwd decode encode cv cvf stdin a _ _ []) in E. cbn [app] in E.
  apply (get_reading cwd decode encode cv cvf stdin a _ _ [_] _ _ []) in E; [|rewrite R2; apply put_there].
  apply (get_read cwd decode encode cv cvf stdin a _ _ [_] _ _ [] src2 t2 (inl true)) in E; [|rewrite R2; apply put_there|exact D2|exact V2].
  cbn [begin_write] in E. rewrite DN' in E. cbn [app] in E.
  apply (get_created cwd decode encode cv cvf stdin a _ _ [_]) in E;
    [|rewrite R3, put_elsewhere by exact NE; exact H3|right; rewrite R3; unfold q'; rewrite removelast_last, put_elsewhere by exact NC; exact Hc].
  rewrite R3 in E. cbn [app] in E.
  apply (get_emptied cwd decode encode cv cvf stdin a _ _ [_]) in E. cbn [app] in E.
  apply (get_written cwd decode encode cv cvf stdin a _ _ [_] _ _ []) in E; [|apply put_there]. cbn [app] in E.
  apply (get_written cwd decode encode cv cvf stdin a _ _ [] _ _ []) in E;
    [|rewrite !put_elsewhere by (intros X; now apply NE); apply put_there].
  eexists _, _. split; [vm_compute; reflexivity|]. split; [exact E|]. split.
  - exists [inl true; inl true]. split; [repeat constructor|exact both_ok].
  - split; [rewrite put_there|rewrite put_elsewhere by exact NE; rewrite put_there];
      unfold overwrite; cbn [firstn app length Nat.add]; now rewrite skipn_nil, app_nil_r.
Qed.
Print Assumptions C53_source_refuted.

(** ** An output is not replaced at once: if it cannot be written, its old contents are
    lost, whatever they were. *)
Theorem C53_old_output_lost_refuted : forall cwd decode encode cv cvf stdin w0 data old src t e,
  let a := ex_args None (Some [L "a.mty"]) None None false in
  w_disk w0 (cwd ++ [L "a.mty"]) = Some (DFile data) -> decode data = Some src -> cv src (as_config (g_options a)) = inl t ->
  w_disk w0 (cwd ++ [L "a.html"]) = Some (DFile old) ->
  let j := (SFile (L "a.mty"), SFile (L "a.html")) in
  exists w, jobs_of (match make_plan (ex_io [(L "a.mty", [])] []) a with inl p => p | inr _ => PMany [] end) = [j] /\
    steps cwd decode encode cv cvf stdin a (w0, begin [j]) (w, [(j, Finished (inr e))]) /\
    w_disk w (cwd ++ [L "a.html"]) = Some (DFile []).
Proof.
  intros cwd decode encode cv cvf stdin w0 data old src t e a H1 D1 C1 H2 j.
  assert (R1 : resolve cwd (L "a.mty") = cwd ++ [L "a.mty"]) by reflexivity.
  assert (R2 : resolve cwd (L "a.html") = cwd ++ [L "a.html"]) by reflexivity.
  assert (V1 : conversion cv cvf a src = (Some t, inl true)) by (unfold conversion; cbn; unfold a in C1; cbn in C1; now rewrite C1).
  assert (DN : dirs_to cwd (L "a.html") = []) by reflexivity.
  pose proof (StepsHere cwd decode encode cv cvf stdin a (w0, begin [j])) as E. unfold begin in E at 2. cbn [map] in E.
  apply (get_reading cwd decode encode cv cvf stdin a _ _ [] _ _ data) in E; [|now rewrite R1].
  apply (get_read cwd decode encode cv cvf stdin a _ _ [] _ _ data src t (inl true)) in E; [|now rewrite R1|exact D1|exact V1].
  cbn [begin_write] in E. rewrite DN in E. cbn [app] in E.
  apply (get_opened cwd decode encode cv cvf stdin a _ _ [] _ _ old) in E; [|now rewrite R2]. rewrite R2 in E. cbn [app] in E.
  apply (get_emptied cwd decode encode cv cvf stdin a _ _ []) in E. cbn [app] in E.
  eexists. split; [vm_compute; reflexivity|]. split.
  - eapply (StepsOne _ _ _ _ _ _ _ _ _ []); [exact E|]. apply StFail. discriminate.
  - apply put_there.
Qed.
Print Assumptions C53_old_output_lost_refuted.

(** An execution: the plan of C32's example, with one file; the directory [o] is made. *)
Definition ex_jobs53 : list (stream * stream) := [(SFile (L "d//a.mty"), SFile (L "o/a.html"))].
Definition ex_world53 (data : bytes) : world :=
  mkWorld (put (put (put (fun _ => None) [] DDir) [L "d"] DDir) [L "d"; L "a.mty"] (DFile data)) [].
Example C53_example : forall encode cv cvf data t,
  let a := ex_args (Some (L "d//")) None (Some (Some 0)) (Some (L "o")) false in
  cv data (as_config (g_options a)) = inl t ->
  make_plan ex_fs32 a = inl (PMany ex_jobs53) /\ separate [] ex_jobs53 /\
  exists w l, steps [] Some encode cv cvf [] a (ex_world53 data, begin ex_jobs53) (w, l) /\ exits_ok l /\
    w_disk w [L "o"; L "a.html"] = Some (DFile (encode t)).
Proof.
  intros encode cv cvf data t a Hc. split; [vm_compute; reflexivity|]. split.
  - split; [repeat constructor; auto|]. intros x y q [<-|[]] [<-|[]] E1 E2. vm_compute in E1, E2. congruence.
  - assert (V : conversion cv cvf a data = (Some t, inl true)) by (unfold conversion; cbn; unfold a in Hc; cbn in Hc; now rewrite Hc).
    set (w0 := ex_world53 data).
    pose proof (StepsHere [] Some encode cv cvf [] a (w0, begin ex_jobs53)) as E. change (begin ex_jobs53) with ([] ++ [((SFile (L "d//a.mty"), SFile (L "o/a.html")), Start)]) in E at 2.
    assert (R1 : resolve [] (L "d//a.mty") = [L "d"; L "a.mty"]) by reflexivity.
    assert (R2 : resolve [] (L "o/a.html") = [L "o"; L "a.html"]) by reflexivity.
    apply (get_reading [] Some encode cv cvf [] a _ _ [] _ _ data) in E; [|now rewrite R1].
    apply (get_read [] Some encode cv cvf [] a _ _ [] _ _ data data t (inl true)) in E; [|now rewrite R1|reflexivity|exact V].
    cbn [begin_write] in E. change (dirs_to [] (L "o/a.html")) with [[L "o"]] in E.
    assert (E2 := StepsOne _ _ _ _ _ _ _ _ _ [] _ _ _ _ _ E (StMake _ _ _ _ _ _ _ _ _ w0 [L "o"] [] (encode t) (inl true) eq_refl (or_intror eq_refl))).
    cbn [app] in E2. clear E.
    apply (get_created [] Some encode cv cvf [] a _ _ []) in E2; [|now rewrite R2|right; now rewrite R2]. rewrite R2 in E2.
    apply (get_emptied [] Some encode cv cvf [] a _ _ []) in E2. cbn [app] in E2.
    eapply (get_written [] Some encode cv cvf [] a _ _ []) in E2; [|apply put_there]. cbn [app] in E2.
    eexists _, _. split; [exact E2|]. split; [exists [inl true]; split; [repeat constructor|apply red_one]|].
    rewrite put_there. unfold overwrite. cbn [firstn app length Nat.add]. now rewrite skipn_nil, app_nil_r.
Qed.

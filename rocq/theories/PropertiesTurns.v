(** * Property theorems about the turns that conversions take: C73, C74.

    As in PropertiesDisk.v: [steps ... (w0, begin jobs) (w, l)]: of the conversions [jobs], begun with
    the files [w0], some steps have been taken, in any order; the files are now [w], and each
    conversion is where [l] says (Disk.v). *)

From Coq Require Import List Lia.
From Verif Require Import Base Doc Config Errors Path Reporter Cli SpecCli Disk SpecDisk P_Path P_Plan P_Run P_Disk P_Turns P_Ends PropertiesCli PropertiesDisk.
Import ListNotations.

(** ** C73: what a run leaves behind does not depend on the order in which its conversions take turns.

    If outputs are apart from each other and from the sources, and no call of the operating system
    fails: the same results, the same standard output, the same files and directories everywhere. *)
Theorem C73_order_partial : forall cwd decode encode cv cvf stdin a jobs w0 w l w' l', separate cwd jobs ->
  steps cwd decode encode cv cvf stdin a (w0, begin jobs) (w, l) -> ended l ->
  steps cwd decode encode cv cvf stdin a (w0, begin jobs) (w', l') -> ended l' ->
  l = l' /\ w_out w = w_out w' /\ forall q, w_disk w q = w_disk w' q.
Proof. intros cwd decode encode cv cvf stdin a jobs w0 w l w' l' HS H HE H' HE'. now apply (same_end cwd decode encode cv cvf stdin a jobs w0 HS). Qed.
Print Assumptions C73_order_partial.

(** The claim is REFUTED if outputs are not apart: [convert a.mty a.minty] (C33) leaves the text of
    the one or of the other. *)
Theorem C73_order_refuted : forall cwd decode encode cv cvf stdin w0 data1 data2 src1 src2 t1 t2,
  let a := ex_args None (Some [L "a.mty"; L "a.minty"]) None None false in
  let cfg := as_config (g_options a) in
  w_disk w0 cwd = Some DDir ->
  w_disk w0 (cwd ++ [L "a.mty"]) = Some (DFile data1) -> decode data1 = Some src1 -> cv src1 cfg = inl t1 ->
  w_disk w0 (cwd ++ [L "a.minty"]) = Some (DFile data2) -> decode data2 = Some src2 -> cv src2 cfg = inl t2 ->
  w_disk w0 (cwd ++ [L "a.html"]) = None ->
  exists jobs w w' l, make_plan (ex_io [(L "a.mty", []); (L "a.minty", [])] []) a = inl (PMany jobs) /\
    steps cwd decode encode cv cvf stdin a (w0, begin jobs) (w, l) /\
    steps cwd decode encode cv cvf stdin a (w0, begin jobs) (w', l) /\ ended l /\
    w_disk w (cwd ++ [L "a.html"]) = Some (DFile (encode t2)) /\ w_disk w' (cwd ++ [L "a.html"]) = Some (DFile (encode t1)).
Proof.
  intros cwd decode encode cv cvf stdin w0 data1 data2 src1 src2 t1 t2 a cfg Hc H1 D1 C1 H2 D2 C2 H3.
  exists [(SFile (L "a.mty"), SFile (L "a.html")); (SFile (L "a.minty"), SFile (L "a.html"))].
  assert (R1 : resolve cwd (L "a.mty") = cwd ++ [L "a.mty"]) by reflexivity.
  assert (R2 : resolve cwd (L "a.minty") = cwd ++ [L "a.minty"]) by reflexivity.
  assert (R3 : resolve cwd (L "a.html") = cwd ++ [L "a.html"]) by reflexivity.
  assert (V1 : conversion cv cvf a src1 = (Some t1, inl true)) by (unfold conversion; cbn; unfold cfg, a in C1; cbn in C1; now rewrite C1).
  assert (V2 : conversion cv cvf a src2 = (Some t2, inl true)) by (unfold conversion; cbn; unfold cfg, a in C2; cbn in C2; now rewrite C2).
  assert (DN : dirs_to cwd (L "a.html") = []) by reflexivity.
  set (j1 := (SFile (L "a.mty"), SFile (L "a.html"))). set (j2 := (SFile (L "a.minty"), SFile (L "a.html"))).
  set (q := cwd ++ [L "a.html"]) in *.
  assert (exists w, steps cwd decode encode cv cvf stdin a (w0, begin [j1; j2]) (w, [(j1, Finished (inl true)); (j2, Finished (inl true))]) /\
    w_disk w q = Some (DFile (encode t2))) as (w & E & Ew).
  { pose proof (StepsHere cwd decode encode cv cvf stdin a (w0, begin [j1; j2])) as E. unfold begin in E at 2. cbn [map] in E.
    apply (get_reading cwd decode encode cv cvf stdin a _ _ [] _ _ data1) in E; [|now rewrite R1].
    apply (get_read cwd decode encode cv cvf stdin a _ _ [] _ _ data1 src1 t1 (inl true)) in E; [|now rewrite R1|exact D1|exact V1].
    cbn [begin_write] in E. rewrite DN in E.
    apply (get_reading cwd decode encode cv cvf stdin a _ _ [_] _ _ data2) in E; [|now rewrite R2].
    apply (get_read cwd decode encode cv cvf stdin a _ _ [_] _ _ data2 src2 t2 (inl true)) in E; [|now rewrite R2|exact D2|exact V2].
    cbn [begin_write] in E. rewrite DN in E. cbn [app] in E.
    apply (get_created cwd decode encode cv cvf stdin a _ _ []) in E; [|now rewrite R3|right; rewrite R3; unfold q; rewrite removelast_last; exact Hc].
    rewrite R3 in E. cbn [app] in E.
    apply (get_emptied cwd decode encode cv cvf stdin a _ _ []) in E. cbn [app] in E.
    apply (get_written cwd decode encode cv cvf stdin a _ _ [] _ _ []) in E; [|apply put_there]. cbn [app] in E.
    eapply (get_opened cwd decode encode cv cvf stdin a _ _ [_]) in E; [|rewrite R3; apply put_there]. rewrite R3 in E. cbn [app] in E.
    apply (get_emptied cwd decode encode cv cvf stdin a _ _ [_]) in E. cbn [app] in E.
    apply (get_written cwd decode encode cv cvf stdin a _ _ [_] _ _ []) in E; [|apply put_there]. cbn [app] in E.
    eexists. split; [exact E|]. rewrite put_there. unfold overwrite. cbn [firstn app length Nat.add]. now rewrite skipn_nil, app_nil_r. }
  assert (exists w, steps cwd decode encode cv cvf stdin a (w0, begin [j1; j2]) (w, [(j1, Finished (inl true)); (j2, Finished (inl true))]) /\
    w_disk w q = Some (DFile (encode t1))) as (w' & E' & Ew').
  { pose proof (StepsHere cwd decode encode cv cvf stdin a (w0, begin [j1; j2])) as E'. unfold begin in E' at 2. cbn [map] in E'.
    apply (get_reading cwd decode encode cv cvf stdin a _ _ [] _ _ data1) in E'; [|now rewrite R1].
    apply (get_read cwd decode encode cv cvf stdin a _ _ [] _ _ data1 src1 t1 (inl true)) in E'; [|now rewrite R1|exact D1|exact V1].
    cbn [begin_write] in E'. rewrite DN in E'.
    apply (get_reading cwd decode encode cv cvf stdin a _ _ [_] _ _ data2) in E'; [|now rewrite R2].
    apply (get_read cwd decode encode cv cvf stdin a _ _ [_] _ _ data2 src2 t2 (inl true)) in E'; [|now rewrite R2|exact D2|exact V2].
    cbn [begin_write] in E'. rewrite DN in E'. cbn [app] in E'.
    apply (get_created cwd decode encode cv cvf stdin a _ _ [_]) in E'; [|now rewrite R3|right; rewrite R3; unfold q; rewrite removelast_last; exact Hc].
    rewrite R3 in E'. cbn [app] in E'.
    apply (get_emptied cwd decode encode cv cvf stdin a _ _ [_]) in E'. cbn [app] in E'.
    apply (get_written cwd decode encode cv cvf stdin a _ _ [_] _ _ []) in E'; [|apply put_there]. cbn [app] in E'.
    eapply (get_opened cwd decode encode cv cvf stdin a _ _ []) in E'; [|rewrite R3; apply put_there]. rewrite R3 in E'. cbn [app] in E'.
    apply (get_emptied cwd decode encode cv cvf stdin a _ _ []) in E'. cbn [app] in E'.
    apply (get_written cwd decode encode cv cvf stdin a _ _ [] _ _ []) in E'; [|apply put_there]. cbn [app] in E'.
    eexists. split; [exact E'|]. rewrite put_there. unfold overwrite. cbn [firstn app length Nat.add]. now rewrite skipn_nil, app_nil_r. }
  exists w, w', [(j1, Finished (inl true)); (j2, Finished (inl true))]. split; [vm_compute; reflexivity|]. split; [exact E|]. split; [exact E'|].
  split; [|auto]. repeat constructor; exists true; reflexivity.
Qed.
Print Assumptions C73_order_refuted.

(** ** C74: a run comes to an end, and is not stuck before.

    The number of steps that get a conversion further is bounded, in whatever order, and whether or
    not calls fail. *)
Theorem C74_ends : forall cwd decode encode cv cvf stdin a jobs w0, separate cwd jobs ->
  exists most, forall n w l, moves cwd decode encode cv cvf stdin a n (w0, begin jobs) (w, l) -> (n <= most)%nat.
Proof.
  intros cwd decode encode cv cvf stdin a jobs w0 HS. eexists. intros n w l H.
  pose proof (moves_bound cwd decode encode cv cvf stdin a jobs w0 HS n w l H) as HB. eapply Nat.le_trans; [apply Nat.le_add_r|exact HB].
Qed.
Print Assumptions C74_ends.

(** If sources can be read and outputs written ([doable], SpecDisk.v; without [--fail-fast]): as long
    as a conversion has not ended, it can go on without failing, whatever the others have done so
    far (they may have failed). *)
Theorem C74_next : forall cwd decode encode cv cvf stdin a jobs w0 w l j ph, separate cwd jobs -> doable cwd decode stdin jobs w0 ->
  o_fail_fast (g_options a) <> Some FFTrue -> steps cwd decode encode cv cvf stdin a (w0, begin jobs) (w, l) ->
  In (j, ph) l -> (forall r, ph <> Finished r) ->
  exists w' ph', step cwd decode encode cv cvf stdin a (fst j) (snd j) w ph w' ph' /\ ph' <> ph /\ forall e, ph' <> Finished (inr e).
Proof.
  intros cwd decode encode cv cvf stdin a jobs w0 w l j ph HS HD HF H Hi HN. apply in_split in Hi as (before & after & ->).
  eapply next_step; eauto.
Qed.
Print Assumptions C74_next.

(** So the run can be completed from wherever it has come to without a failure; and C73 says that
    there is one way it can be complete. *)
Theorem C74_completes : forall cwd decode encode cv cvf stdin a jobs w0 w l, separate cwd jobs -> doable cwd decode stdin jobs w0 ->
  o_fail_fast (g_options a) <> Some FFTrue -> steps cwd decode encode cv cvf stdin a (w0, begin jobs) (w, l) -> no_failure l ->
  exists w' l', steps cwd decode encode cv cvf stdin a (w, l) (w', l') /\ ended l'.
Proof.
  intros cwd decode encode cv cvf stdin a jobs w0 w l HS HD HF H HN.
  destruct (finish cwd decode encode cv cvf stdin a jobs w0 HS HD HF (left_all cwd decode encode cv cvf stdin a w0 l) w l (w, l)) as (w' & l' & _ & G & E); auto.
  - apply StepsHere.
  - exists w', l'. auto.
Qed.
Print Assumptions C74_completes.

(** ** A directory of sources, as in C53_site *)
Lemma components_head : forall p, exists hd tl, components p = hd ++ tl /\ (hd = [] \/ hd = [RootDir] \/ hd = [CurDir]) /\
  Forall (fun c => c <> RootDir /\ c <> CurDir) tl.
Proof.
  intros p. unfold components. eexists _, _. split; [reflexivity|]. split.
  - destruct (is_absolute p); [auto|]. destruct (split_slash p) as [|f r]; [auto|]. destruct (str_eqb f (L ".")); auto.
  - apply Forall_forall. intros c Hc. apply in_flat_map in Hc as (x & _ & Hx). unfold part_component in Hx.
    repeat match type of Hx with context [if ?b then _ else _] => destruct b end; cbn in Hx; repeat (destruct Hx as [<-|Hx]); try contradiction; split; discriminate.
Qed.
Lemma along : forall cwd p names cs more, ~ In ParentDir (components p) -> components p ++ map Normal names = cs ++ more ->
  cs = [] \/ exists rest, resolve cwd p ++ names = follow cwd cs ++ rest.
Proof.
  intros cwd p names cs more Hp E. destruct (components_head p) as (hd & tl & Ec & Hh & Ht).
  assert (exists ns, tl = map Normal ns) as [ns ->].
  { assert (~ In ParentDir tl) as Hn by (intros X; apply Hp; rewrite Ec; apply in_or_app; now right). clear - Ht Hn.
    induction tl as [|c tl IH]; [now exists []|]. inversion Ht as [|? ? [H1 H2] H3]; subst. destruct IH as [ns ->]; [exact H3|intros X; apply Hn; now right|].
    destruct c as [| | |n]; try contradiction; [exfalso; apply Hn; now left|]. now exists (n :: ns). }
  assert (HN : forall q l a b, map Normal l = a ++ b -> exists rest, q ++ l = follow q a ++ rest).
  { intros q l a b El. assert (exists l1 l2, l = l1 ++ l2 /\ a = map Normal l1) as (l1 & l2 & -> & ->).
    { clear - El. revert l El. induction a as [|x a IH]; intros l El; [exists [], l; auto|]. destruct l as [|y l]; [discriminate|]. injection El as <- El.
      destruct (IH l El) as (l1 & l2 & -> & ->). exists (y :: l1), l2. auto. }
    rewrite follow_names. exists l2. now rewrite app_assoc. }
  unfold resolve. rewrite Ec in *. rewrite <- app_assoc, <- map_app in E. rewrite follow_app, follow_names, <- app_assoc.
  destruct cs as [|c cs]; [now left|]. right. destruct Hh as [->|[->| ->]]; cbn [app follow] in *.
  - now apply HN with (a := c :: cs) (b := more).
  - injection E as <- E. apply (HN [] (ns ++ names) cs more E).
  - injection E as <- E. apply (HN cwd (ns ++ names) cs more E).
Qed.

(** A search of a directory for files with the same extension can be carried out if the sources are
    text, no output is a directory, or in a place below another output or below a file. *)
Theorem C74_site : forall cwd decode encode cv cvf stdin fs a dir ch d ext,
  tree_ok ch -> holds_tree fs dir ch -> dir <> [] -> Depth a d ->
  g_stdin a = false -> g_src_files a = None -> g_src_dir a = Some dir -> g_stdout a = false ->
  (forall out, g_out a = Some out -> out <> [] /\ (io_path_info fs out = inl None \/ a_dir fs out)) ->
  ~ In dot ext ->
  (forall names, MintyFile ch d names -> exists sub stem, names = sub ++ [stem ++ L "." ++ ext]) ->
  let root := match g_out a with Some out => out | None => dir end in
  let source sub stem := resolve cwd dir ++ sub ++ [stem ++ L "." ++ ext] in
  let output sub stem := resolve cwd root ++ sub ++ [stem ++ Suffix (o_xml (g_options a))] in
  let is_source sub stem := MintyFile ch d (sub ++ [stem ++ L "." ++ ext]) in
  ~ In ParentDir (components root) -> o_fail_fast (g_options a) <> Some FFTrue ->
  exists jobs, make_plan fs a = inl (PMany jobs) /\
    forall w0 w l, is_tree w0 -> w_disk w0 cwd = Some DDir ->
    (forall sub stem, is_source sub stem -> exists data src, w_disk w0 (source sub stem) = Some (DFile data) /\ decode data = Some src) ->
    (forall sub stem, is_source sub stem -> w_disk w0 (output sub stem) <> Some DDir) ->
    (forall sub stem above below data, is_source sub stem -> output sub stem = above ++ below -> below <> [] -> w_disk w0 above <> Some (DFile data)) ->
    (forall sub stem sub' stem' below, is_source sub stem -> is_source sub' stem' -> output sub stem = output sub' stem' ++ below -> below = []) ->
    steps cwd decode encode cv cvf stdin a (w0, begin jobs) (w, l) -> no_failure l ->
    exists w' l', steps cwd decode encode cv cvf stdin a (w, l) (w', l') /\ ended l'.
Proof.
  intros cwd decode encode cv cvf stdin fs a dir ch d ext H1 H2 H3 H4 H5 H6 H7 H8 H9 Hdot Hext root source output is_source Hroot Hff.
  destruct (search_dir_plan fs a dir ch d H1 H2 H3 H4 H5 H6 H7 H8 H9) as (jobs & found & Hp & HF & Hnd & Hin).
  exists jobs. split; [exact Hp|].
  pose proof (distinct_outputs (o_xml (g_options a)) dir (dest_root a dir) ext jobs found HF Hdot
    (fun names Hn => Hext names (proj1 (Hin names) Hn)) Hnd) as HN.
  change (dest_root a dir) with root in *.
  set (R := fun (j : stream * stream) => exists p q sub stem,
    j = (SFile p, SFile q) /\ is_source sub stem /\ resolve cwd p = source sub stem /\ resolve cwd q = output sub stem /\
    components q = (components root ++ map Normal sub) ++ [Normal (stem ++ Suffix (o_xml (g_options a)))]).
  assert (forall j, In j jobs -> R j) as HJ.
  { assert (forall names, In names found -> MintyFile ch d names) as Hin' by (intros; now apply Hin).
    clear Hp HN Hnd Hin. induction HF as [|j names jobs found (p & q & sub & n & stem & -> & -> & Hm & Ep & Eq) HF IH]; intros i Hi; [contradiction|].
    destruct Hi as [<-|Hi]; [|apply IH; [|exact Hi]; intros; apply Hin'; now right].
    destruct (Hext (sub ++ [n])) as (sub' & stem' & E); [apply Hin'; now left|].
    apply app_inj_tail in E. destruct E as [<- ->]. destruct Hm as (e & E & Hne & He).
    destruct (app_dot_inj dot stem' ext stem e Hdot (minty_no_dot e He) E) as [<- <-].
    exists p, q, sub, stem'. split; [reflexivity|]. split; [apply Hin'; now left|].
    split; [|split].
    - unfold resolve at 1. rewrite Ep, follow_app, follow_names. reflexivity.
    - unfold resolve at 1. rewrite Eq, follow_app, follow_names. reflexivity.
    - rewrite Eq, map_app, app_assoc. reflexivity. }
  assert (separate cwd jobs) as HS.
  { split.
    - apply (nodup_finer _ _ _ dest_comps _ _ HN). intros x y Hx Hy E.
      destruct (HJ x Hx) as (px & qx & sx & tx & -> & _ & _ & Ex & Cx).
      destruct (HJ y Hy) as (py & qy & sy & ty & -> & _ & _ & Ey & Cy).
      unfold dest_comps. cbn [snd file_of] in *. injection E as E. rewrite Ex, Ey in E. unfold output in E. apply app_inv_head in E.
      apply app_inj_tail in E. destruct E as [<- E]. rewrite Cx, Cy, E. reflexivity.
    - intros x y q Hx Hy Ex Ey.
      destruct (HJ x Hx) as (px & qx & sx & tx & -> & _ & _ & Rx & _).
      destruct (HJ y Hy) as (py & qy & sy & ty & -> & Hm & Ry & _).
      cbn [fst snd file_of] in Ex, Ey. injection Ex as <-. injection Ey as Ey. rewrite Rx, Ry in Ey. unfold source, output in Ey.
      rewrite !app_assoc in Ey. apply app_inj_tail in Ey. destruct Ey as [_ Ey].
      destruct Hm as [_ (dd & n & stem & E & Hm & _)]. apply app_inj_tail in E. destruct E as [_ <-].
      rewrite <- app_assoc in Ey. exact (html_not_minty _ _ _ _ Hm Ey). }
  intros w0 w l HT HC Hsrc Hdir Hfile Hbelow Hst Hnf.
  assert (HW : forall q, on_the_way cwd jobs q -> q = cwd \/ exists sub stem below, is_source sub stem /\ output sub stem = q ++ below /\ below <> []).
  { intros q (j & p & dirq & cs & more & Hj & Ep & Ed & Ec & ->). destruct (HJ j Hj) as (px & qx & sub & stem & -> & Hm & _ & _ & Cx).
    cbn in Ep. injection Ep as ->. pose proof (components_pop p _ _ Cx) as Hpop. unfold pop in Hpop. rewrite Ed in Hpop. rewrite Hpop in Ec.
    destruct (along cwd root sub cs more Hroot Ec) as [->|[rest Er]]; [now left|]. right. exists sub, stem, (rest ++ [stem ++ Suffix (o_xml (g_options a))]).
    split; [exact Hm|]. unfold output. rewrite !app_assoc, Er. split; [reflexivity|]. now destruct rest. }
  apply (C74_completes cwd decode encode cv cvf stdin a jobs w0); auto. split; auto.
  - intros j Hj. destruct (HJ j Hj) as (p & q & sub & stem & -> & Hm & Ep & _). destruct (Hsrc sub stem Hm) as (data & src & G1 & G2).
    exists src, data. split; [exact G2|]. cbn [fst]. now rewrite Ep.
  - intros j p Hj Ep. destruct (HJ j Hj) as (p' & q & sub & stem & -> & Hm & _ & Eq & Cq). cbn in Ep. injection Ep as ->.
    split; [unfold file_name; rewrite Cq, last_opt_app; discriminate|]. rewrite Eq. split; [now apply Hdir|].
    intros X. destruct (HW _ X) as [E|(sub' & stem' & below & Hm' & E & Hb)].
    + apply (Hdir sub stem Hm). now rewrite E.
    + apply Hb. eapply Hbelow; [exact Hm'|exact Hm|exact E].
  - intros q data X. destruct (HW _ X) as [->|(sub & stem & below & Hm & E & Hb)]; [congruence|]. eapply Hfile; eauto.
Qed.
Print Assumptions C74_site.

(** [convert x.mty y.mty] with [-o out/new], where [out] exists: both outputs go to a directory that
    has to be made. *)
Definition ex_turn_cwd : Disk.place := [L "h"].
Definition ex_turn_jobs : list (stream * stream) :=
  [(SFile (L "x.mty"), SFile (L "out/new/x.html")); (SFile (L "y.mty"), SFile (L "out/../out/new/y.html"))].
Definition ex_turn_files : list (Disk.place * on_disk) :=
  [([], DDir); ([L "h"], DDir); ([L "h"; L "x.mty"], DFile [120]); ([L "h"; L "y.mty"], DFile [121; 122]); ([L "h"; L "out"], DDir)].
Definition ex_turn_disk : disk := fun q => match find (fun e => if place_dec (fst e) q then true else false) ex_turn_files with Some e => Some (snd e) | None => None end.
Lemma ex_turn_in : forall q e, ex_turn_disk q = Some e -> In (q, e) ex_turn_files.
Proof.
  intros q e. unfold ex_turn_disk. destruct (find _ _) as [[p d]|] eqn:E; [|discriminate]. intros [= <-]. apply find_some in E as [H1 H2].
  cbn [fst] in H2. destruct (place_dec p q) as [<-|]; [exact H1|discriminate].
Qed.
Example C74_example : separate ex_turn_cwd ex_turn_jobs /\ doable ex_turn_cwd (fun b => Some b) [] ex_turn_jobs (mkWorld ex_turn_disk []).
Proof.
  split.
  - split.
    + repeat constructor; cbn; intros H; repeat (destruct H as [H|H]); try discriminate; contradiction.
    + intros j j' q Hj Hj' E E'. repeat (destruct Hj as [<-|Hj]); try contradiction; repeat (destruct Hj' as [<-|Hj']); try contradiction;
        vm_compute in E, E'; congruence.
  - assert (HW : forall q, on_the_way ex_turn_cwd ex_turn_jobs q -> In q [[L "h"]; [L "h"; L "out"]; [L "h"; L "out"; L "new"]]).
    { intros q (j & p & dir & cs & more & Hj & Ep & Ed & Ec & ->).
      assert (cs = firstn (length cs) (components dir)) as Ef by (rewrite Ec, firstn_app, firstn_all, Nat.sub_diag; cbn; now rewrite app_nil_r).
      assert (length cs <= length (components dir))%nat as Hl by (rewrite Ec, app_length; lia). rewrite Ef. revert Hl. clear Ec Ef. generalize (length cs) as n.
      repeat (destruct Hj as [<-|Hj]); try contradiction; injection Ep as <-; vm_compute in Ed; injection Ed as <-; intros n Hl; cbn in Hl;
        do 5 (destruct n as [|n]; [vm_compute; tauto|]); lia. }
    split.
    + split; [reflexivity|]. intros q Hq Hd. cbn in Hd |- *. destruct (ex_turn_disk q) as [e|] eqn:E; [|contradiction]. apply ex_turn_in in E.
      repeat (destruct E as [E|E]; [injection E as <- _; try contradiction; reflexivity|]). contradiction.
    + reflexivity.
    + intros j Hj. repeat (destruct Hj as [<-|Hj]); try contradiction; eexists _, _; (split; [reflexivity|]); reflexivity.
    + intros j p Hj Ep. repeat (destruct Hj as [<-|Hj]); try contradiction; injection Ep as <-; (split; [discriminate|]); (split; [discriminate|]);
        intros H; apply HW in H; vm_compute in H; repeat (destruct H as [H|H]; [discriminate|]); contradiction.
    + intros q data H E. apply HW in H. repeat (destruct H as [<-|H]; [discriminate E|]). contradiction.
Qed.
(** C73: the run of the example has an end. *)
Example C73_example : forall decode encode cv cvf stdin a, (forall b, decode b = Some b) ->
  o_fail_fast (g_options a) <> Some FFTrue ->
  exists w l, steps ex_turn_cwd decode encode cv cvf stdin a (mkWorld ex_turn_disk [], begin ex_turn_jobs) (w, l) /\ ended l.
Proof.
  intros decode encode cv cvf stdin a Hd HF. destruct C74_example as [HS HD].
  apply (C74_completes ex_turn_cwd decode encode cv cvf stdin a ex_turn_jobs (mkWorld ex_turn_disk [])); auto.
  - destruct HD as [H1 H2 H3 H4 H5]. split; auto. intros j Hj. destruct (H3 j Hj) as (src & data & G1 & G2). exists src, data. split; [now rewrite Hd|].
    destruct (fst j) as [p|] eqn:Ej; [exact G2|]. repeat (destruct Hj as [<-|Hj]); try contradiction; discriminate.
  - apply StepsHere.
  - repeat constructor; intros e; discriminate.
Qed.

(** C74_site: [convert -d d// -r 0 -o o] in a tree with one source; [o] has to be made. *)
Example C74_site_example : forall encode cv cvf data,
  let a := ex_args (Some (L "d//")) None (Some (Some 0)) (Some (L "o")) false in
  make_plan ex_fs32 a = inl (PMany ex_jobs53) /\
  exists w l, steps [] Some encode cv cvf [] a (ex_world53 data, begin ex_jobs53) (w, l) /\ ended l.
Proof.
  intros encode cv cvf data a. split; [vm_compute; reflexivity|].
  destruct C32_example as (H1 & H2 & _).
  assert (HM : forall names, MintyFile ex_tree32 0 names -> names = [] ++ [L "a" ++ L "." ++ L "mty"]).
  { intros names [Hf (dd & n & stem & -> & Hm & Hd)]. destruct dd as [|x dd]; [|cbn in Hd; lia].
    destruct Hf as (dd & n' & sub & E0 & Hs & Hi). change ([] ++ [n]) with [n] in E0. destruct dd as [|y dd]; [|now destruct dd].
    injection E0 as <-. inversion Hs; subst.
    repeat (destruct Hi as [E|Hi]; [try discriminate; injection E as <-|]); try contradiction; [reflexivity|].
    destruct Hm as (e & E & Hne & He). exfalso.
    assert (L "b" = stem /\ L "txt" = e) as [_ <-].
    { apply (app_dot_inj dot (L "b") (L "txt") stem e); [vm_compute; intuition discriminate|now apply minty_no_dot|exact E]. }
    vm_compute in He. intuition discriminate. }
  assert (HS : forall sub stem, MintyFile ex_tree32 0 (sub ++ [stem ++ L "." ++ L "mty"]) -> sub = [] /\ stem = L "a").
  { intros sub stem H. apply HM in H. apply app_inj_tail in H as [-> H]. split; [reflexivity|]. now apply app_inv_tail in H. }
  destruct (C74_site [] Some encode cv cvf [] ex_fs32 a (L "d//") ex_tree32 0 (L "mty")) as (jobs & Hp & HC); auto; try discriminate.
  - reflexivity.
  - intros out [= <-]. split; [discriminate|]. left. vm_compute. reflexivity.
  - vm_compute. intuition discriminate.
  - intros names H. apply HM in H. eauto.
  - vm_compute. intuition discriminate.
  - assert (jobs = ex_jobs53) as -> by (assert (make_plan ex_fs32 a = inl (PMany ex_jobs53)) as X by (vm_compute; reflexivity); rewrite X in Hp; now injection Hp).
    apply (HC (ex_world53 data) (ex_world53 data) (begin ex_jobs53)).
    + split; [reflexivity|]. intros q Hq Hd. cbn in Hd |- *. unfold put in Hd.
      repeat match type of Hd with context [place_dec q ?x] => destruct (place_dec q x) as [->|]; [try reflexivity; contradiction|] end. contradiction.
    + reflexivity.
    + intros sub stem H. apply HS in H as [-> ->]. exists data, data. split; reflexivity.
    + intros sub stem H. apply HS in H as [-> ->]. discriminate.
    + intros sub stem above below data' H E Hb. apply HS in H as [-> ->]. 
      destruct above as [|x above]; [discriminate|]. injection E as <- E. destruct above as [|y above]; [discriminate|]. injection E as <- E. 
      destruct above; [cbn in E; subst; contradiction|discriminate].
    + intros sub stem sub' stem' below H H' E. apply HS in H as [-> ->]. apply HS in H' as [-> ->]. 
      rewrite <- (app_nil_r (_ ++ _)) in E at 1. now apply app_inv_head in E.
    + apply StepsHere.
    + repeat constructor; intros e; discriminate.
Qed.

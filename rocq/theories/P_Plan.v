(** * Lemmas about the command line tool: sources and destinations of a command. *)

From Coq Require Import Permutation.
From Verif Require Import Base P_Base Doc Config Errors Path P_Path Reporter Cli SpecCli P_Cli.

Lemma place_keep : forall p, place p = keep_dirs (components p).
Proof. reflexivity. Qed.


(** ** Where outputs go *)

Lemma out_plain : forall xml dir n,
  EntryName n -> (dir = [] \/ exists d, dir = d ++ [slash]) ->
  exists m, OutName xml n m /\ change_extension xml (dir ++ n) = dir ++ m.
Proof.
  intros xml dir n Hn Hd. destruct (change_plain xml dir n Hn Hd) as [(stem & Hm & E) | (Hm & E)].
  - exists (stem ++ Suffix xml). split; [now constructor | exact E].
  - exists (n ++ Suffix xml). split; [now apply out_other | exact E].
Qed.

Lemma default_jobs : forall o l, exists p, job o None l = (SFile p, SFile (change_extension (o_xml o) p)).
Proof. intros o l. exists (joined l). reflexivity. Qed.

Lemma plan_default : forall fs a p,
  g_out a = None -> g_stdout a = false -> make_plan fs a = inl p ->
  exists jobs, p = PMany jobs /\ forall j, In j jobs -> exists q, j = (SFile q, SFile (change_extension (o_xml (g_options a)) q)).
Proof.
  intros fs a p Ho Hs H. unfold make_plan in H.
  destruct (conversion_src_type fs a) as [src | e]; cbn [bind_c] in H; [| discriminate].
  unfold conversion_dest_type in H. rewrite Ho, Hs in H. cbn [bind_c] in H.
  assert (HJ : forall l, convert_multiple a l None = inl p ->
    exists jobs, p = PMany jobs /\ forall j, In j jobs -> exists q, j = (SFile q, SFile (change_extension (o_xml (g_options a)) q))).
  { intros l E. injection E as <-. eexists. split; [reflexivity |]. intros j Hj. apply in_map_iff in Hj.
    destruct Hj as (x & <- & _). apply default_jobs. }
  destruct src as [| l | l | l t | l]; cbn [convert_src_to_dest] in H; try discriminate; try (now apply (HJ l)).
  destruct t; cbn [convert_src_to_dest] in H; try discriminate.
  - now apply (HJ [l]).
  - destruct (search_dir fs a (l_base l) (l_rel l)) as [f | e]; cbn [bind_c] in H; [| discriminate]. now apply (HJ f).
Qed.

(** ** Searching *)

Lemma depth_recursion : forall a d, Depth a d -> get_recursion a = d.
Proof.
  intros a d H. unfold Depth in H. unfold get_recursion, u32_max.
  destruct (g_recurse a) as [[n |] |]; subst; reflexivity.
Qed.

Lemma minty_at_file : forall ch d names, minty_at ch (N.to_nat d) names <-> MintyFile ch d names.
Proof.
  intros ch d names. unfold MintyFile, file_at. split.
  - intros (dir & n & stem & sub & -> & H1 & H2 & H3 & H4). split; [exists dir, n, sub; auto |].
    exists dir, n, stem. repeat split; try assumption. lia.
  - intros [(dir & n & sub & -> & H1 & H2) (dir' & n' & stem & E & H3 & H4)].
    apply app_inj_tail in E. destruct E as [<- <-]. exists dir, n, stem, sub. repeat split; try assumption. lia.
Qed.

Definition dest_root (a : args) (dir : str) : str := match g_out a with Some out => out | None => dir end.

Lemma search_dir_plan : forall fs a dir ch d,
  tree_ok ch -> holds_tree fs dir ch -> dir <> [] -> Depth a d ->
  g_stdin a = false -> g_src_files a = None -> g_src_dir a = Some dir -> g_stdout a = false ->
  (forall out, g_out a = Some out -> out <> [] /\ (io_path_info fs out = inl None \/ a_dir fs out)) ->
  exists jobs found,
    make_plan fs a = inl (PMany jobs) /\
    Forall2 (fun j names => exists p q sub n stem,
               j = (SFile p, SFile q) /\ names = sub ++ [n] /\ MintyName n stem /\
               components p = components dir ++ map Normal names /\
               components q = components (dest_root a dir) ++ map Normal (sub ++ [stem ++ Suffix (o_xml (g_options a))]))
            jobs found /\
    NoDup found /\ (forall names, In names found <-> MintyFile ch d names).
Proof.
  intros fs a dir ch d Hok Hch Hdir Hd Hin Hfiles Hsrc Hout Hdest.
  assert (E0 : components (push dir []) = components dir).
  { rewrite components_push by (assumption || reflexivity). 
    change (flat_map part_component (split_slash [])) with (@nil component). apply app_nil_r. }
  destruct (search_exact fs (N.to_nat d) dir (push dir []) [] ch Hok) as (locs & found & H1 & H2 & H3 & H4).
  { eapply holds_same; [| exact Hch]. now symmetry. }
  exists (map (job (g_options a) (g_out a)) locs), found. split; [| split; [| split]].
  - unfold make_plan, conversion_src_type. rewrite Hin, Hfiles, Hsrc. unfold search_dir.
    rewrite (depth_recursion a d Hd), H1. cbn [bind_c]. unfold conversion_dest_type. rewrite Hout.
    destruct (g_out a) as [out |] eqn:Ho; cbn [bind_c]; [| reflexivity].
    destruct (Hdest out eq_refl) as (_ & [Hi | (i & Hi & Hid)]); unfold path_type_for; rewrite Hi; cbn [bind_c].
    + destruct (has_trailing_slash out); [reflexivity |]. destruct (is_some (extension out)); reflexivity.
    + rewrite Hid. reflexivity.
  - assert (HM : Forall (fun names => exists sub n stem, names = sub ++ [n] /\ minty_name n stem) found).
    { rewrite Forall_forall. intros names Hn. apply H4 in Hn.
      destruct Hn as (sub & n & stem & s & -> & _ & _ & Hm & _). eauto. }
    clear H1 H3 H4. induction H2 as [| l names locs found (Hb & Hr) HF IH]; [constructor |].
    inversion HM; subst. cbn [map]. constructor; [| now apply IH].
    destruct H1 as (sub & n & stem & -> & Hm).
    exists (joined l), (change_extension (o_xml (g_options a)) (match g_out a with Some o => push o (l_rel l) | None => push (l_base l) (l_rel l) end)), sub, n, stem.
    split; [reflexivity |]. split; [reflexivity |]. split; [exact Hm |].
    rewrite components_empty in Hr.
    assert (HP : forall b, b <> [] -> components (push b (l_rel l)) = components b ++ map Normal (sub ++ [n])).
    { intros b Hb. rewrite components_push_comps, Hr.
      rewrite push_comps_app. unfold push_comps. cbn [root_first keep_dirs filter].
      destruct b; [contradiction |]. now rewrite app_nil_r. }
    split.
    + unfold joined. now apply HP.
    + rewrite map_app, app_assoc. cbn [map]. rewrite suffix_html.
      apply change_minty with (n := n); [| exact Hm].
      rewrite <- app_assoc. change [Normal n] with (map Normal [n]). rewrite <- map_app.
      unfold dest_root. destruct (g_out a) as [out |].
      * apply HP. now apply (Hdest out).
      * now apply HP.
  - assumption.
  - intros names. rewrite H4. apply minty_at_file.
Qed.

(** ** Collisions *)

Definition dest_comps (j : stream * stream) : list component :=
  match snd j with SFile q => components q | Stdio => [] end.

Lemma distinct_outputs : forall xml dir root ext (jobs : list (stream * stream)) found,
  Forall2 (fun j names => exists p q sub n stem,
               j = (SFile p, SFile q) /\ names = sub ++ [n] /\ MintyName n stem /\
               components p = components dir ++ map Normal names /\
               components q = components root ++ map Normal (sub ++ [stem ++ Suffix xml])) jobs found ->
  ~ In dot ext ->
  (forall names, In names found -> exists sub stem, names = sub ++ [stem ++ L "." ++ ext]) ->
  NoDup found -> NoDup (map dest_comps jobs).
Proof.
  intros xml dir root ext jobs found HF Hdot Hext Hnd.
  assert (HF' : Forall2 (fun j names => exists sub stem, names = sub ++ [stem ++ L "." ++ ext] /\
      dest_comps j = components root ++ map Normal (sub ++ [stem ++ Suffix xml])) jobs found).
  { clear Hnd. induction HF as [| j names jobs found (p & q & sub & n & stem & -> & -> & Hm & _ & Hq) HF IH]; constructor.
    - destruct (Hext (sub ++ [n])) as (sub' & stem' & E); [now left |].
      apply app_inj_tail in E. destruct E as [<- ->]. exists sub, stem. split; [| exact Hq].
      destruct Hm as (e & E & Hne & He).
      destruct (app_dot_inj dot stem' ext stem e Hdot (minty_no_dot e He) E) as [<- _]. reflexivity.
    - apply IH. intros names Hin. apply Hext. now right. }
  clear HF Hext. induction HF' as [| j names jobs found (sub & stem & -> & Hq) HF IH]; cbn [map]; constructor.
  - inversion Hnd; subst. intros Hin. apply H1. clear - Hin HF Hq.
    induction HF as [| j' names' jobs found (sub' & stem' & -> & Hq') HF IH]; [contradiction |].
    cbn [map In] in Hin. destruct Hin as [Hin | Hin]; [left | right; now apply IH].
    rewrite Hq, Hq' in Hin. apply app_inv_head in Hin.
    assert (E : sub' ++ [stem' ++ Suffix xml] = sub ++ [stem ++ Suffix xml]).
    { revert Hin. generalize (sub' ++ [stem' ++ Suffix xml]) (sub ++ [stem ++ Suffix xml]).
      induction l as [| x l IHl]; intros [| y l'] H; try discriminate; [reflexivity |].
      cbn [map] in H. injection H as -> H. f_equal. now apply IHl. }
    apply app_inj_tail in E. destruct E as [-> E]. apply app_inv_tail in E. now subst.
  - inversion Hnd; subst. now apply IH.
Qed.

(** ** Sources *)

Lemma search_joined : forall fs a base rel locs, ordinary fs -> search_dir fs a base rel = inl locs ->
  forall l, In l locs -> l_base l = base /\ exists names n stem, MintyName n stem /\
    components (l_rel l) = components rel ++ map Normal (names ++ [n]) /\
    components (joined l) = components (push base rel) ++ map Normal (names ++ [n]).
Proof.
  intros fs a base rel locs (Hord & _) H l Hl. unfold search_dir in H.
  apply found_below in H; [| exact Hord]. rewrite Forall_forall in H.
  destruct (H l Hl) as (Hb & names & n & stem & Hm & Hr). split; [assumption |].
  exists names, n, stem. split; [exact Hm |]. split; [exact Hr |].
  unfold joined. rewrite Hb, !components_push_comps, Hr. apply push_comps_app.
Qed.

Lemma named_parts : forall f n, file_name f = Some n -> components (push (pop f) n) = components f.
Proof.
  intros f n H. apply file_name_comps in H. destruct H as (cs & H).
  assert (Hn : is_name n) by (apply (components_names f); rewrite H; apply in_or_app; right; now left).
  rewrite components_push_name by assumption. now rewrite (components_pop f cs n H), H.
Qed.

Lemma place_same : forall p q, components p = components q -> place p = place q.
Proof. intros p q H. unfold place. now rewrite H. Qed.

Lemma place_names : forall p q names, components p = components q ++ map Normal names -> place p = place q ++ map Normal names.
Proof.
  intros p q names H. rewrite !place_keep, H. unfold keep_dirs. rewrite filter_app.
  fold (keep_dirs (map Normal names)). now rewrite keep_normal.
Qed.

Lemma push_empty_comps : forall p, components (push p []) = components p.
Proof.
  intros [| c p]; [reflexivity |]. rewrite components_push by (discriminate || reflexivity).
  change (flat_map part_component (split_slash [])) with (@nil component). apply app_nil_r.
Qed.

(** The source of a conversion is a named file, or a MinTyML file below a named directory. *)
Definition a_source (fs : io) (a : args) (p : str) : Prop :=
  exists root names, Named a root /\ place p = place root ++ map Normal names /\
    (names = [] /\ (exists f files, g_src_files a = Some files /\ In f files /\ a_file fs f /\
                    root = match g_src_dir a with Some d => push d f | None => f end) \/
     exists sub n stem, names = sub ++ [n] /\ MintyName n stem).

Lemma parts_root : forall a f, (g_src_dir a = None -> exists n, file_name f = Some n) ->
  let (base, rel) := get_search_parts (g_src_dir a) f in
  components (push base rel) = components (match g_src_dir a with Some d => push d f | None => f end).
Proof.
  intros a f H. unfold get_search_parts. destruct (g_src_dir a) as [d |]; [reflexivity |].
  destruct (H eq_refl) as (n & Hn). rewrite Hn. now apply named_parts.
Qed.

Lemma named_root : forall a files f, g_src_files a = Some files -> In f files ->
  Named a (match g_src_dir a with Some d => push d f | None => f end).
Proof. intros a files f H Hin. unfold Named. rewrite H. destruct (g_src_dir a); [eauto | assumption]. Qed.

Lemma source_below : forall fs a root base rel locs,
  ordinary fs -> Named a root -> place (push base rel) = place root -> search_dir fs a base rel = inl locs ->
  forall l, In l locs -> a_source fs a (joined l).
Proof.
  intros fs a root base rel locs Hord Hroot Hp H l Hl.
  destruct (search_joined fs a base rel locs Hord H l Hl) as (_ & names & n & stem & Hm & _ & Hj).
  exists root, (names ++ [n]). split; [assumption |]. split.
  - rewrite <- Hp. now apply place_names.
  - right. exists names, n, stem. auto.
Qed.

Lemma source_files_ok : forall fs a all files locs,
  ordinary fs -> g_src_files a = Some all -> incl files all ->
  (g_src_dir a = None -> forall f, In f all -> exists n, file_name f = Some n) ->
  source_files fs a (g_src_dir a) files = inl locs ->
  forall l, In l locs -> a_source fs a (joined l).
Proof.
  intros fs a all files. induction files as [| f files IH]; intros locs Hord Ha Hincl Hnames H l Hl; cbn [source_files] in H.
  - injection H as <-. contradiction.
  - destruct (io_path_info fs f) as [info | e] eqn:Ei; cbn [bind_c] in H; [| discriminate].
    assert (Hin : In f all) by (apply Hincl; now left).
    pose proof (parts_root a f (fun E => Hnames E f Hin)) as Hparts.
    pose proof (named_root a all f Ha Hin) as Hroot.
    destruct (get_search_parts (g_src_dir a) f) as [base rel].
    destruct info as [i |]; [| discriminate].
    destruct (is_dir i) eqn:Ed.
    + destruct (search_dir fs a base rel) as [found | e] eqn:Es; cbn [bind_c] in H; [| discriminate].
      destruct (source_files fs a (g_src_dir a) files) as [out | e] eqn:Ef; cbn [bind_c] in H; [| discriminate].
      injection H as <-. apply in_app_or in Hl. destruct Hl as [Hl | Hl].
      * eapply source_below; [exact Hord | exact Hroot | apply place_same; exact Hparts | exact Es | exact Hl].
      * apply (IH out); try assumption; [intros x Hx; apply Hincl; now right | reflexivity].
    + cbn [bind_c] in H.
      destruct (source_files fs a (g_src_dir a) files) as [out | e] eqn:Ef; cbn [bind_c] in H; [| discriminate].
      injection H as <-. destruct Hl as [<- | Hl].
      * exists (match g_src_dir a with Some d => push d f | None => f end), []. split; [assumption |].
        split; [rewrite app_nil_r; apply place_same; exact Hparts |].
        left. split; [reflexivity |]. exists f, all. repeat split; try assumption. exists i. auto.
      * apply (IH out); try assumption; [intros x Hx; apply Hincl; now right | reflexivity].
Qed.

Lemma parent_root : forall p, components p = [RootDir] -> parent p = None.
Proof. intros p H. unfold parent. now rewrite H. Qed.

Lemma multiple_jobs : forall a l d p, convert_multiple a l d = inl p ->
  forall j, In j (jobs_of p) -> exists x, In x l /\ j = job (g_options a) d x.
Proof.
  intros a l d p H j Hj. injection H as <-. cbn [jobs_of] in Hj. apply in_map_iff in Hj.
  destruct Hj as (x & <- & Hx). eauto.
Qed.

Lemma str_empty_spec : forall s, str_empty s = true <-> s = [].
Proof. intros [| c s]; split; intros H; try reflexivity; discriminate. Qed.

Lemma plan_sources : forall fs a p,
  ordinary fs -> g_src_dir a <> Some [] ->
  (g_src_dir a = None -> forall files f, g_src_files a = Some files -> In f files -> exists n, file_name f = Some n) ->
  make_plan fs a = inl p ->
  forall j, In j (jobs_of p) ->
    g_stdin a = true /\ fst j = Stdio \/
    g_stdin a = false /\ exists s, fst j = SFile s /\ a_source fs a s.
Proof.
  intros fs a p Hord Hdir Hnames H j Hj. unfold make_plan in H.
  destruct (conversion_src_type fs a) as [src | e] eqn:Es; cbn [bind_c] in H; [| discriminate].
  destruct (conversion_dest_type fs a) as [dest | e]; cbn [bind_c] in H; [| discriminate].
  unfold conversion_src_type in Es. destruct (g_stdin a) eqn:Hin.
  { injection Es as <-. left. split; [reflexivity |].
    destruct dest as [| | out t]; cbn [convert_src_to_dest] in H; try discriminate.
    - injection H as <-. destruct Hj as [<- | []]. reflexivity.
    - destruct (at_least_dir t); [discriminate |]. injection H as <-. destruct Hj as [<- | []]. reflexivity. }
  right. split; [reflexivity |].
  (* jobs of a list of locations *)
  assert (HL : forall locs d, (forall l, In l locs -> a_source fs a (joined l)) ->
             convert_multiple a locs d = inl p -> exists s, fst j = SFile s /\ a_source fs a s).
  { intros locs d Hl Hm. destruct (multiple_jobs _ _ _ _ Hm j Hj) as (x & Hx & ->). exists (joined x). auto. }
  assert (HLs : forall locs src', (src' = SDir locs \/ src' = SImplicit locs \/ src' = SPaths locs) ->
             convert_src_to_dest fs a src' dest = inl p -> (forall l, In l locs -> a_source fs a (joined l)) ->
             exists s, fst j = SFile s /\ a_source fs a s).
  { intros locs src' Hsrc Hc Hl. destruct Hsrc as [-> | [-> | ->]];
      destruct dest as [| | out t]; cbn [convert_src_to_dest] in Hc; try discriminate; try (eapply HL; eassumption);
      destruct t; try discriminate; eapply HL; eassumption. }
  destruct (g_src_files a) as [files |] eqn:Ef.
  - destruct (match files with [_] => true | _ => false end) eqn:E1.
    + destruct files as [| f [| ? ?]]; try discriminate. clear E1.
      destruct (path_type_for fs f) as [t | e] eqn:Et; cbn [bind_c] in Es; [| discriminate].
      assert (Hin1 : In f [f]) by (now left).
      assert (Hf : g_src_dir a = None -> exists n, file_name f = Some n).
      { intros E. exact (Hnames E [f] f eq_refl Hin1). }
      pose proof (parts_root a f Hf) as Hparts.
      pose proof (named_root a [f] f Ef Hin1) as Hroot.
      assert (Hshape : forall base rel, get_search_parts (g_src_dir a) f = (base, rel) -> base = [] ->
                exists n, file_name f = Some n /\ rel = n /\ components f = [Normal n] /\ g_src_dir a = None).
      { intros base rel Eg Eb. unfold get_search_parts in Eg. destruct (g_src_dir a) as [d |] eqn:Ed.
        - injection Eg as E1 E2. congruence.
        - destruct (Hf eq_refl) as (n & Hn). rewrite Hn in Eg. injection Eg as E1 E2. exists n.
          repeat split; try congruence. rewrite <- (named_parts f n Hn), E1, Eb.
          apply file_name_comps in Hn. destruct Hn as (cs & Hn).
          assert (Hname : is_name n) by (apply (components_names f); rewrite Hn; apply in_or_app; right; now left).
          now rewrite components_push_name. }
      destruct (get_search_parts (g_src_dir a) f) as [base rel] eqn:Eg. injection Es as <-.
      assert (Hfile : t = PFile -> a_source fs a (joined (mkLoc base rel))).
      { intros ->. exists (match g_src_dir a with Some d => push d f | None => f end), [].
        split; [assumption |]. split; [rewrite app_nil_r; apply place_same; exact Hparts |].
        left. split; [reflexivity |]. exists f, [f]. repeat split; try assumption.
        unfold path_type_for in Et. destruct (io_path_info fs f) as [[i |] | e] eqn:Ei; cbn [bind_c] in Et; [| | discriminate].
        - exists i. split; [exact Ei |]. destruct (is_dir i); [discriminate | reflexivity].
        - destruct (has_trailing_slash f); [discriminate |]. destruct (is_some (extension f)); discriminate. }
      destruct t as [| | | | tr]; cbn [convert_src_to_dest] in H.
      * specialize (Hfile eq_refl).
        assert (Hone : forall l, In l [mkLoc base rel] -> a_source fs a (joined l)).
        { intros l [<- | []]. exact Hfile. }
        destruct dest as [| | out t]; cbn [convert_src_to_dest] in H.
        -- injection H as <-. destruct Hj as [<- | []]. cbn [fst]. eauto.
        -- eapply HL; eassumption.
        -- destruct t as [| | | | tr]; cbn [at_least_dir] in H;
             try (eapply HL; eassumption);
             try (injection H as <-; destruct Hj as [<- | []]; cbn [fst]; eauto).
           destruct tr; [eapply HL; eassumption | discriminate].
      * destruct dest; discriminate.
      * destruct dest; discriminate.
      * destruct dest as [| | out []]; discriminate.
      * cbn [l_base l_rel] in H.
        destruct dest as [| | out t]; cbn [convert_src_to_dest] in H; [discriminate | |].
        -- destruct (search_dir fs a base rel) as [found | e] eqn:Ess; cbn [bind_c] in H; [| discriminate].
           eapply HL; [| eassumption]. intros l Hl.
           eapply source_below; [exact Hord | exact Hroot | apply place_same; exact Hparts | exact Ess | exact Hl].
        -- assert (Hgo : forall b r found, search_dir fs a b r = inl found ->
                     place (push b r) = place (match g_src_dir a with Some d => push d f | None => f end) ->
                     convert_multiple a found (Some out) = inl p -> exists s, fst j = SFile s /\ a_source fs a s).
           { intros b r found Ess Hpl Hc. eapply HL; [| eassumption]. intros l Hl.
             eapply source_below; [exact Hord | exact Hroot | exact Hpl | exact Ess | exact Hl]. }
           assert (Hall : convert_src_to_dest fs a (SPath (mkLoc base rel) (PDir tr)) (DPath out t) = inl p -> t <> PFile ->
                     exists s, fst j = SFile s /\ a_source fs a s).
           { intros Hc Ht. assert (Hc' : (let '(b, dir) :=
                if negb tr && has_trailing_slash out && str_empty base
                then (match parent out with Some q => q | None => L "." end,
                      match file_name rel with Some n => n | None => [] end)
                else (push base rel, []) in
              let+ found := search_dir fs a b dir in
              convert_multiple a found (Some out)) = inl p) by (destruct t; [contradiction | exact Hc ..]).
             clear Hc. destruct (negb tr && has_trailing_slash out && str_empty base) eqn:Eb.
             - apply andb_true_iff in Eb. destruct Eb as [Eb Eb2]. apply andb_true_iff in Eb. destruct Eb as [_ Eb].
               apply has_trailing_slash_root in Eb. rewrite (parent_root out Eb) in Hc'.
               apply str_empty_spec in Eb2. subst base.
               destruct (Hshape [] rel eq_refl eq_refl) as (n & Hn & -> & Hcf & Ed).
               assert (Hname : is_name n) by (apply (components_names f); rewrite Hcf; now left).
               assert (Efn : file_name n = Some n).
               { apply file_name_comps. exists []. pose proof (components_push_name [] n Hname) as E.
                 unfold push in E. rewrite not_absolute in E by apply Hname. exact E. }
               rewrite Efn in Hc'.
               destruct (search_dir fs a (L ".") n) as [found | e] eqn:Ess; cbn [bind_c] in Hc'; [| discriminate].
               eapply Hgo; [exact Ess | | exact Hc']. rewrite Ed.
               rewrite !place_keep, Hcf, components_push_name by assumption. reflexivity.
             - destruct (search_dir fs a (push base rel) []) as [found | e] eqn:Ess; cbn [bind_c] in Hc'; [| discriminate].
               eapply Hgo; [exact Ess | | exact Hc'].
               apply place_same. rewrite push_empty_comps. exact Hparts. }
           destruct t; try discriminate; apply Hall; try exact H; discriminate.
    + assert (Es' : (let+ l := source_files fs a (g_src_dir a) files in inl (SPaths l)) = inl src).
      { destruct files as [| f [| g files]]; [exact Es | discriminate | exact Es]. }
      destruct (source_files fs a (g_src_dir a) files) as [locs | e] eqn:El; cbn [bind_c] in Es'; [| discriminate].
      injection Es' as <-. apply (HLs locs (SPaths locs)); [auto | exact H |].
      apply (source_files_ok fs a files files locs); try assumption.
      * intros x Hx. exact Hx.
      * intros E f Hf. exact (Hnames E files f eq_refl Hf).
  - destruct (g_src_dir a) as [d |] eqn:Ed.
    + destruct (search_dir fs a d []) as [locs | e] eqn:El; cbn [bind_c] in Es; [| discriminate].
      injection Es as <-. apply (HLs locs (SDir locs)); [auto | exact H |]. intros l Hl.
      eapply (source_below fs a d d [] locs); try eassumption.
      * unfold Named. rewrite Ef, Ed. reflexivity.
      * apply place_same, push_empty_comps.
    + destruct (search_dir fs a (L ".") []) as [locs | e] eqn:El; cbn [bind_c] in Es; [| discriminate].
      injection Es as <-. apply (HLs locs (SImplicit locs)); [auto | exact H |]. intros l Hl.
      eapply (source_below fs a (L ".") (L ".") [] locs); try eassumption.
      * unfold Named. rewrite Ef, Ed. reflexivity.
      * apply place_same, push_empty_comps.
Qed.

(** ** Destinations *)

(** A relative path to something below. *)
Definition below (cs : list component) (names : list str) : Prop :=
  keep_dirs cs = map Normal names /\ root_first cs = false.

Lemma below_app : forall cs names more, below cs names -> below (cs ++ map Normal more) (names ++ more).
Proof.
  intros cs names more (H1 & H2). split.
  - unfold keep_dirs in *. rewrite filter_app, H1. fold (keep_dirs (map Normal more)).
    now rewrite keep_normal, map_app.
  - destruct cs as [| [] cs]; try reflexivity; [destruct more; reflexivity | discriminate].
Qed.

Lemma below_name : forall n, below [Normal n] [n].
Proof. intros n. split; reflexivity. Qed.

Lemma job_below : forall o out l names, out <> [] -> below (components (l_rel l)) names -> names <> [] ->
  exists q more, snd (job o (Some out) l) = SFile q /\ more <> [] /\ place q = place out ++ map Normal more.
Proof.
  intros o out l names Ho (Hk & Hr) Hn. cbn [job snd].
  destruct (exists_last Hn) as (init & n & ->).
  assert (Hp : components (push out (l_rel l)) = (components out ++ map Normal init) ++ [Normal n]).
  { rewrite components_push_comps. unfold push_comps. rewrite Hr. destruct out; [contradiction |].
    rewrite Hk, map_app, app_assoc. reflexivity. }
  destruct (change_in_dir (o_xml o) _ _ _ Hp) as (names & Hnames & Hq).
  exists (change_extension (o_xml o) (push out (l_rel l))), (init ++ names). split; [reflexivity |]. split.
  - intros E. apply app_eq_nil in E. destruct E. contradiction.
  - rewrite <- app_assoc, <- map_app in Hq. now apply place_names.
Qed.

Definition loc_below (l : location) : Prop := exists names, names <> [] /\ below (components (l_rel l)) names.

Lemma search_below : forall fs a base rel locs names, ordinary fs -> below (components rel) names ->
  search_dir fs a base rel = inl locs -> forall l, In l locs -> loc_below l.
Proof.
  intros fs a base rel locs names Hord Hr H l Hl.
  destruct (search_joined fs a base rel locs Hord H l Hl) as (_ & more & n & stem & _ & Hc & _).
  exists (names ++ more ++ [n]). split.
  - intros E. apply app_eq_nil in E. destruct E as [_ E]. apply app_eq_nil in E. destruct E; discriminate.
  - rewrite Hc. now apply below_app.
Qed.

Lemma below_no_parent : forall f, is_absolute f = false -> ~ In ParentDir (components f) ->
  exists names, below (components f) names.
Proof.
  intros f Ha Hp. rewrite absolute_root in Ha.
  assert (Hroot : ~ In RootDir (components f)).
  { rewrite components_parts in *.
    assert (Hno : forall l, In RootDir (flat_map part_component l) -> False).
    { intros l Hin. apply in_flat_map in Hin. destruct Hin as (x & _ & Hin). unfold part_component in Hin.
      destruct (str_empty x || str_eqb x (L ".")); [contradiction |].
      destruct (str_eqb x (L "..")); destruct Hin as [Hin | []]; discriminate. }
    destruct (split_slash f) as [| p l]; [intros [] |]. cbn [comps_parts] in *.
    intros Hin. apply in_app_or in Hin. destruct Hin as [Hin | Hin]; [| eapply Hno, Hin].
    destruct p as [| c p].
    - destruct l; [contradiction |]. discriminate.
    - destruct (str_eqb (c :: p) (L ".")); [destruct Hin as [Hin | []]; discriminate |].
      apply (Hno [c :: p]). cbn [flat_map]. now rewrite app_nil_r. }
  clear Ha. unfold below. assert (H : exists names, keep_dirs (components f) = map Normal names).
  { induction (components f) as [| c cs IH]; [exists []; reflexivity |].
    destruct IH as (names & E); [intros H; apply Hp; now right | intros H; apply Hroot; now right |].
    destruct c.
    - exfalso. apply Hroot. now left.
    - exists names. exact E.
    - exfalso. apply Hp. now left.
    - exists (s :: names). cbn. now f_equal. }
  destruct H as (names & H). exists names. split; [exact H |].
  destruct (components f) as [| [] cs]; try reflexivity. exfalso. apply Hroot. now left.
Qed.

Lemma below_file : forall f n names, file_name f = Some n -> below (components f) names -> names <> [].
Proof.
  intros f n names Hf (H & _) ->. apply file_name_comps in Hf. destruct Hf as (cs & E). rewrite E in H.
  unfold keep_dirs in H. rewrite filter_app in H. apply app_eq_nil in H. destruct H as [_ H]. discriminate.
Qed.

Lemma parts_below : forall a f,
  (g_src_dir a = None -> exists n, file_name f = Some n) ->
  (g_src_dir a <> None -> is_absolute f = false /\ ~ In ParentDir (components f)) ->
  exists names, below (components (snd (get_search_parts (g_src_dir a) f))) names /\
    (forall n, file_name f = Some n -> names <> []).
Proof.
  intros a f H1 H2. unfold get_search_parts. destruct (g_src_dir a) as [d |].
  - destruct H2 as (Ha & Hp); [discriminate |]. destruct (below_no_parent f Ha Hp) as (names & Hb).
    exists names. split; [exact Hb |]. intros n Hn. eapply below_file; eassumption.
  - destruct (H1 eq_refl) as (n & Hn). rewrite Hn. cbn [snd].
    apply file_name_comps in Hn. destruct Hn as (cs & Hn).
    assert (Hname : is_name n) by (apply (components_names f); rewrite Hn; apply in_or_app; right; now left).
    exists [n]. split; [| discriminate]. pose proof (components_push_name [] n Hname) as E.
    unfold push in E. rewrite not_absolute in E by apply Hname. cbn [last_char] in E. rewrite E. apply below_name.
Qed.

Lemma source_files_below : forall fs a files locs,
  ordinary fs ->
  (g_src_dir a = None -> forall f, In f files -> exists n, file_name f = Some n) ->
  (g_src_dir a <> None -> forall f, In f files -> is_absolute f = false /\ ~ In ParentDir (components f)) ->
  source_files fs a (g_src_dir a) files = inl locs ->
  forall l, In l locs -> loc_below l.
Proof.
  intros fs a files. induction files as [| f files IH]; intros locs Hord H1 H2 H l Hl; cbn [source_files] in H.
  - injection H as <-. contradiction.
  - destruct (io_path_info fs f) as [info | e] eqn:Ei; cbn [bind_c] in H; [| discriminate].
    assert (Hin : In f (f :: files)) by (now left).
    destruct (parts_below a f (fun E => H1 E f Hin) (fun E => H2 E f Hin)) as (names & Hb & Hne).
    destruct (get_search_parts (g_src_dir a) f) as [base rel]. cbn [snd] in Hb.
    destruct info as [i |]; [| discriminate].
    assert (IH' : forall out, source_files fs a (g_src_dir a) files = inl out -> In l out -> loc_below l).
    { intros out E Hl'. apply (IH out); try assumption.
      - intros E' g Hg. apply (H1 E'). now right.
      - intros E' g Hg. apply (H2 E'). now right. }
    destruct (is_dir i) eqn:Ed.
    + destruct (search_dir fs a base rel) as [found | e] eqn:Es; cbn [bind_c] in H; [| discriminate].
      destruct (source_files fs a (g_src_dir a) files) as [out | e] eqn:Ef; cbn [bind_c] in H; [| discriminate].
      injection H as <-. apply in_app_or in Hl. destruct Hl as [Hl | Hl].
      * eapply search_below; [exact Hord | exact Hb | exact Es | exact Hl].
      * now apply (IH' out).
    + cbn [bind_c] in H.
      destruct (source_files fs a (g_src_dir a) files) as [out | e] eqn:Ef; cbn [bind_c] in H; [| discriminate].
      injection H as <-. destruct Hl as [<- | Hl]; [| now apply (IH' out)].
      destruct Hord as (_ & Hord). destruct (Hord f i Ei Ed) as (n & Hn).
      exists names. split; [now apply (Hne n) | exact Hb].
Qed.

Lemma type_file : forall fs p, path_type_for fs p = inl PFile -> a_file fs p.
Proof.
  intros fs p Et. unfold path_type_for in Et. destruct (io_path_info fs p) as [[i |] | e] eqn:Ei; cbn [bind_c] in Et; [| | discriminate].
  - exists i. split; [exact Ei |]. destruct (is_dir i); [discriminate | reflexivity].
  - destruct (has_trailing_slash p); [discriminate |]. destruct (is_some (extension p)); discriminate.
Qed.

Lemma type_of_file : forall fs p t, path_type_for fs p = inl t -> a_file fs p -> t = PFile.
Proof.
  intros fs p t Et (i & Hi & Hd). unfold path_type_for in Et. rewrite Hi in Et. cbn [bind_c] in Et.
  rewrite Hd in Et. congruence.
Qed.

Lemma type_of_dir : forall fs p t, path_type_for fs p = inl t -> a_dir fs p -> exists b, t = PDir b.
Proof.
  intros fs p t Et (i & Hi & Hd). unfold path_type_for in Et. rewrite Hi in Et. cbn [bind_c] in Et.
  rewrite Hd in Et. injection Et as <-. eauto.
Qed.

Lemma plan_dest : forall fs a p out,
  ordinary fs -> g_src_dir a <> Some [] -> g_stdout a = false -> g_out a = Some out -> out <> [] ->
  (forall files f, g_src_files a = Some files -> In f files ->
     (g_src_dir a = None -> exists n, file_name f = Some n) /\
     (g_src_dir a <> None -> is_absolute f = false /\ ~ In ParentDir (components f))) ->
  make_plan fs a = inl p ->
  (exists s, p = PSingle s (SFile out)) /\ ~ a_dir fs out \/
  (exists jobs, p = PMany jobs /\
     forall j, In j jobs -> exists q more, snd j = SFile q /\ more <> [] /\ place q = place out ++ map Normal more) /\
  ~ a_file fs out.
Proof.
  intros fs a p out Hord Hdir Hso Hout Hne Hnames H. unfold make_plan in H.
  destruct (conversion_src_type fs a) as [src | e] eqn:Es; cbn [bind_c] in H; [| discriminate].
  unfold conversion_dest_type in H. rewrite Hso, Hout in H.
  destruct (path_type_for fs out) as [t | e] eqn:Et; cbn [bind_c] in H; [| discriminate].
  assert (HL : forall locs, t <> PFile -> (forall l, In l locs -> loc_below l) ->
             convert_multiple a locs (Some out) = inl p ->
             (exists jobs, p = PMany jobs /\
                forall j, In j jobs -> exists q more, snd j = SFile q /\ more <> [] /\ place q = place out ++ map Normal more) /\
             ~ a_file fs out).
  { intros locs Ht Hl Hm. split.
    - injection Hm as <-. eexists. split; [reflexivity |]. intros j Hj. apply in_map_iff in Hj.
      destruct Hj as (x & <- & Hx). destruct (Hl x Hx) as (names & H1 & H2). eapply job_below; eassumption.
    - intros Hf. apply Ht. eapply type_of_file; eassumption. }
  assert (HS : forall s, at_least_dir t = false -> p = PSingle s (SFile out) ->
             (exists s, p = PSingle s (SFile out)) /\ ~ a_dir fs out).
  { intros s Ht ->. split; [eauto |]. intros Hd. destruct (type_of_dir fs out t Et Hd) as (b & ->). discriminate. }
  assert (HLs : forall locs src', (src' = SDir locs \/ src' = SImplicit locs \/ src' = SPaths locs) ->
             convert_src_to_dest fs a src' (DPath out t) = inl p -> (forall l, In l locs -> loc_below l) ->
             (exists jobs, p = PMany jobs /\
                forall j, In j jobs -> exists q more, snd j = SFile q /\ more <> [] /\ place q = place out ++ map Normal more) /\
             ~ a_file fs out).
  { intros locs src' Hsrc Hc Hl. destruct Hsrc as [-> | [-> | ->]]; destruct t; cbn [convert_src_to_dest] in Hc;
      try discriminate; (apply (HL locs); [discriminate | exact Hl | exact Hc]). }
  unfold conversion_src_type in Es. destruct (g_stdin a) eqn:Hin.
  { injection Es as <-. left. cbn [convert_src_to_dest] in H. destruct (at_least_dir t) eqn:El; [discriminate |].
    injection H as <-. now apply (HS Stdio). }
  destruct (g_src_files a) as [files |] eqn:Ef.
  - destruct (match files with [_] => true | _ => false end) eqn:E1.
    + destruct files as [| f [| ? ?]]; try discriminate. clear E1.
      destruct (path_type_for fs f) as [tf | e] eqn:Etf; cbn [bind_c] in Es; [| discriminate].
      destruct (Hnames [f] f eq_refl (or_introl eq_refl)) as (Hn1 & Hn2).
      destruct (parts_below a f Hn1 Hn2) as (names & Hb & Hnn).
      assert (Hshape : fst (get_search_parts (g_src_dir a) f) = [] ->
                exists n, snd (get_search_parts (g_src_dir a) f) = n /\ is_name n).
      { unfold get_search_parts. destruct (g_src_dir a) as [d |] eqn:Ed; cbn [fst snd].
        - intros ->. now contradiction Hdir.
        - destruct (Hn1 eq_refl) as (n & Hn). rewrite Hn. intros _. exists n. split; [reflexivity |].
          apply file_name_comps in Hn. destruct Hn as (cs & Hn).
          apply (components_names f). rewrite Hn. apply in_or_app. right. now left. }
      destruct (get_search_parts (g_src_dir a) f) as [base rel] eqn:Eg. injection Es as <-. cbn [fst snd] in Hb, Hshape.
      destruct tf as [| | | | tr].
      * assert (Hone : forall l, In l [mkLoc base rel] -> loc_below l).
        { intros l [<- | []]. exists names. split; [| exact Hb].
          apply type_file in Etf. destruct Etf as (i & Hi & Hd). destruct Hord as (_ & Hord).
          destruct (Hord f i Hi Hd) as (n & Hn). now apply (Hnn n). }
        destruct t as [| | | | tr]; cbn [convert_src_to_dest at_least_dir] in H.
        -- left. eapply HS; [reflexivity |]. injection H as <-. reflexivity.
        -- left. eapply HS; [reflexivity |]. injection H as <-. reflexivity.
        -- left. eapply HS; [reflexivity |]. injection H as <-. reflexivity.
        -- right. eapply HL; [discriminate | exact Hone | exact H].
        -- destruct tr; [| discriminate]. right. eapply HL; [discriminate | exact Hone | exact H].
      * discriminate.
      * discriminate.
      * destruct t; discriminate.
      * right. assert (Hc' : t <> PFile /\ (let '(b, dir) :=
                if negb tr && has_trailing_slash out && str_empty base
                then (match parent out with Some q => q | None => L "." end,
                      match file_name rel with Some n => n | None => [] end)
                else (push base rel, []) in
              let+ found := search_dir fs a b dir in
              convert_multiple a found (Some out)) = inl p).
        { destruct t; [discriminate | split; [discriminate | exact H] ..]. }
        destruct Hc' as (Ht & Hc).
        destruct (negb tr && has_trailing_slash out && str_empty base) eqn:Eb.
        -- apply andb_true_iff in Eb. destruct Eb as [_ Eb]. apply str_empty_spec in Eb.
           destruct (Hshape Eb) as (n & -> & Hname).
           assert (Efn : file_name n = Some n).
           { apply file_name_comps. exists []. pose proof (components_push_name [] n Hname) as E.
             unfold push in E. rewrite not_absolute in E by apply Hname. exact E. }
           rewrite Efn in Hc.
           destruct (search_dir fs a _ n) as [found | e] eqn:Ess; cbn [bind_c] in Hc; [| discriminate].
           apply (HL found Ht); [| exact Hc]. eapply search_below; eassumption.
        -- destruct (search_dir fs a (push base rel) []) as [found | e] eqn:Ess; cbn [bind_c] in Hc; [| discriminate].
           apply (HL found Ht); [| exact Hc].
           apply (search_below fs a (push base rel) [] found []); [exact Hord | split; reflexivity | exact Ess].
    + assert (Es' : (let+ l := source_files fs a (g_src_dir a) files in inl (SPaths l)) = inl src).
      { destruct files as [| f [| g files]]; [exact Es | discriminate | exact Es]. }
      destruct (source_files fs a (g_src_dir a) files) as [locs | e] eqn:El; cbn [bind_c] in Es'; [| discriminate].
      injection Es' as <-. right. apply (HLs locs (SPaths locs)); [auto | exact H |].
      apply (source_files_below fs a files locs); try assumption.
      * intros E f Hf. now apply (Hnames files f eq_refl Hf).
      * intros E f Hf. now apply (Hnames files f eq_refl Hf).
  - right. destruct (g_src_dir a) as [d |] eqn:Ed.
    + destruct (search_dir fs a d []) as [locs | e] eqn:El; cbn [bind_c] in Es; [| discriminate].
      injection Es as <-. apply (HLs locs (SDir locs)); [auto | exact H |].
      apply (search_below fs a d [] locs []); [exact Hord | split; reflexivity | exact El].
    + destruct (search_dir fs a (L ".") []) as [locs | e] eqn:El; cbn [bind_c] in Es; [| discriminate].
      injection Es as <-. apply (HLs locs (SImplicit locs)); [auto | exact H |].
      apply (search_below fs a (L ".") [] locs []); [exact Hord | split; reflexivity | exact El].
Qed.

(** ** Named files *)

Lemma source_files_all : forall fs a files,
  (forall f, In f files -> a_file fs f) ->
  source_files fs a (g_src_dir a) files =
  inl (map (fun f => let (base, rel) := get_search_parts (g_src_dir a) f in mkLoc base rel) files).
Proof.
  intros fs a files. induction files as [| f files IH]; intros H; [reflexivity |]. cbn [source_files map].
  destruct (H f (or_introl eq_refl)) as (i & Hi & Hd). rewrite Hi. cbn [bind_c].
  destruct (get_search_parts (g_src_dir a) f) as [base rel]. rewrite Hd. cbn [bind_c].
  rewrite IH by (intros g Hg; apply H; now right). reflexivity.
Qed.

Lemma named_jobs : forall fs a files,
  ordinary fs -> g_stdin a = false -> g_src_files a = Some files -> g_stdout a = false ->
  (g_out a = None \/ exists out, g_out a = Some out /\ a_dir fs out /\ length files <> 1%nat) ->
  (forall f, In f files -> a_file fs f) ->
  exists jobs, make_plan fs a = inl (PMany jobs) /\
    Forall2 (fun f j => exists s, fst j = SFile s /\
               place s = place (match g_src_dir a with Some d => push d f | None => f end)) files jobs.
Proof.
  intros fs a files Hord Hin Hf Hso Hdest Hall.
  set (loc := fun f => let (base, rel) := get_search_parts (g_src_dir a) f in mkLoc base rel).
  assert (HF : forall d, Forall2 (fun f j => exists s, fst j = SFile s /\
               place s = place (match g_src_dir a with Some d => push d f | None => f end)) files
               (map (job (g_options a) d) (map loc files))).
  { intros d. clear Hf Hdest. induction files as [| f files IH]; cbn [map]; constructor.
    - exists (joined (loc f)). split; [reflexivity |].
      destruct (Hall f (or_introl eq_refl)) as (i & Hi & Hd). destruct Hord as (_ & Hord).
      destruct (Hord f i Hi Hd) as (n & Hn). apply place_same.
      pose proof (parts_root a f (fun _ => ex_intro _ n Hn)) as Hp. unfold loc, joined.
      destruct (get_search_parts (g_src_dir a) f). exact Hp.
    - apply IH. intros g Hg. apply Hall. now right. }
  unfold make_plan, conversion_src_type. rewrite Hin, Hf.
  destruct (match files with [_] => true | _ => false end) eqn:E1.
  - destruct files as [| f [| ? ?]]; try discriminate.
    destruct Hdest as [Ho | (out & _ & _ & Hl)]; [| now contradiction Hl].
    destruct (Hall f (or_introl eq_refl)) as (i & Hi & Hd).
    unfold path_type_for, conversion_dest_type. rewrite Hi, Hso, Ho. cbn [bind_c]. rewrite Hd.
    exists (map (job (g_options a) None) (map loc [f])). split; [| apply HF].
    cbn [map]. unfold loc. destruct (get_search_parts (g_src_dir a) f) as [base rel]. reflexivity.
  - assert (Es : (match files with [f] => let+ t := path_type_for fs f in
                     (let (base, rel) := get_search_parts (g_src_dir a) f in inl (SPath (mkLoc base rel) t))
                  | _ => let+ l := source_files fs a (g_src_dir a) files in inl (SPaths l) end)
                 = inl (SPaths (map loc files)) :> cres source_type).
    { rewrite source_files_all by assumption. destruct files as [| f [| g files]]; [reflexivity | discriminate | reflexivity]. }
    assert (Es' : forall B (k : source_type -> cres B), (let+ src := match files with [f] => let+ t := path_type_for fs f in
                     (let (base, rel) := get_search_parts (g_src_dir a) f in inl (SPath (mkLoc base rel) t))
                  | _ => let+ l := source_files fs a (g_src_dir a) files in inl (SPaths l) end in k src) = k (SPaths (map loc files))).
    { intros B k. rewrite Es. reflexivity. }
    destruct Hdest as [Ho | (out & Ho & Hod & Hl)].
    + exists (map (job (g_options a) None) (map loc files)). split; [| apply HF].
      etransitivity; [apply Es' |]. unfold conversion_dest_type. rewrite Hso, Ho. reflexivity.
    + exists (map (job (g_options a) (Some out)) (map loc files)). split; [| apply HF].
      etransitivity; [apply Es' |]. unfold conversion_dest_type. rewrite Hso, Ho. destruct Hod as (i & Hi & Hd).
      unfold path_type_for. rewrite Hi. cbn [bind_c]. rewrite Hd. reflexivity.
Qed.

(** ** Errors *)

(** An error of the file system while the sources are looked for. *)
Definition io_error (fs : io) (e : cli_error) : Prop :=
  exists p, io_path_info fs p = inr e \/ io_read_dir fs p = inr e.

Lemma search_error : forall fs recurse base exact rel e,
  search_dir_inner fs recurse base exact rel = inr e -> io_error fs e.
Proof.
  intros fs recurse base. induction recurse as [| recurse IH]; intros exact rel e; rewrite search_dir_inner_eq;
    (destruct (io_read_dir fs exact) as [es | e'] eqn:Er; cbn [bind_c];
     [| intros H; injection H as <-; exists exact; auto]); clear Er.
  - revert exact rel. induction es as [| [n i] es IHes]; intros exact rel H; cbn [search_go] in H; [discriminate |].
    fold (search_go fs 0 base) in H. destruct (is_file i); [| eapply IHes; eassumption].
    destruct (search_go fs 0 base es exact rel) as [out | e'] eqn:E; cbn [bind_c] in H; [discriminate |].
    injection H as <-. eapply IHes. exact E.
  - revert exact rel. induction es as [| [n i] es IHes]; intros exact rel H; cbn [search_go] in H; [discriminate |].
    fold (search_go fs (S recurse) base) in H. destruct (is_file i).
    + destruct (search_go fs (S recurse) base es exact rel) as [out | e'] eqn:E; cbn [bind_c] in H; [discriminate |].
      injection H as <-. eapply IHes. exact E.
    + destruct (search_dir_inner fs recurse base (push exact n) (push rel n)) as [f | e'] eqn:E1; cbn [bind_c] in H.
      * destruct (search_go fs (S recurse) base es (pop (push exact n)) (pop (push rel n))) as [out | e''] eqn:E2;
          cbn [bind_c] in H; [discriminate |]. injection H as <-. eapply IHes. exact E2.
      * injection H as <-. eapply IH. exact E1.
Qed.

Definition argument (e : cli_error) : Prop := ce_category e = Some CatArgument.

Lemma source_files_error : forall fs a dir files e, source_files fs a dir files = inr e -> io_error fs e \/ argument e.
Proof.
  intros fs a dir files. induction files as [| f files IH]; intros e H; cbn [source_files] in H; [discriminate |].
  destruct (io_path_info fs f) as [info | e'] eqn:Ei; cbn [bind_c] in H; [| injection H as <-; left; exists f; auto].
  destruct (get_search_parts dir f) as [base rel]. destruct info as [i |]; [| injection H as <-; right; reflexivity].
  destruct (if is_dir i then search_dir fs a base rel else inl [mkLoc base rel]) as [found | e'] eqn:Es; cbn [bind_c] in H.
  - destruct (source_files fs a dir files) as [out | e'] eqn:Ef; cbn [bind_c] in H; [discriminate |].
    injection H as <-. now apply IH.
  - injection H as <-. left. destruct (is_dir i); [| discriminate]. eapply search_error. exact Es.
Qed.

Lemma plan_error : forall fs a e, make_plan fs a = inr e ->
  io_error fs e \/ argument e \/
  (g_stdout a = true /\ g_stdin a = false /\ (forall f, g_src_files a <> Some [f]) /\ ce_category e = None).
Proof.
  intros fs a e H. unfold make_plan in H.
  assert (Htype : forall p e', path_type_for fs p = inr e' -> io_error fs e').
  { intros p e' Hp. unfold path_type_for in Hp. destruct (io_path_info fs p) as [i | e''] eqn:Ei; cbn [bind_c] in Hp; [discriminate |].
    injection Hp as <-. exists p. auto. }
  destruct (conversion_src_type fs a) as [src | e'] eqn:Es; cbn [bind_c] in H.
  2: { injection H as <-. unfold conversion_src_type in Es. destruct (g_stdin a); [discriminate |].
       destruct (g_src_files a) as [files |].
       - destruct (match files with [_] => true | _ => false end) eqn:E1.
         + destruct files as [| f [| ? ?]]; try discriminate.
           destruct (path_type_for fs f) as [t | e''] eqn:Et; cbn [bind_c] in Es.
           * destruct (get_search_parts (g_src_dir a) f). discriminate.
           * injection Es as <-. left. eapply Htype, Et.
         + assert (Es' : (let+ l := source_files fs a (g_src_dir a) files in inl (SPaths l)) = inr e' :> cres source_type).
           { destruct files as [| f [| g files]]; [exact Es | discriminate | exact Es]. }
           destruct (source_files fs a (g_src_dir a) files) as [l | e''] eqn:Ef; cbn [bind_c] in Es'; [discriminate |].
           injection Es' as <-. apply source_files_error in Ef. destruct Ef; auto.
       - destruct (g_src_dir a) as [d |].
         + destruct (search_dir fs a d []) as [l | e''] eqn:Ef; cbn [bind_c] in Es; [discriminate |].
           injection Es as <-. left. eapply search_error, Ef.
         + destruct (search_dir fs a (L ".") []) as [l | e''] eqn:Ef; cbn [bind_c] in Es; [discriminate |].
           injection Es as <-. left. eapply search_error, Ef. }
  destruct (conversion_dest_type fs a) as [dest | e'] eqn:Ed; cbn [bind_c] in H.
  2: { injection H as <-. unfold conversion_dest_type in Ed. destruct (g_stdout a); [discriminate |].
       destruct (g_out a) as [out |]; [| discriminate].
       destruct (path_type_for fs out) as [t | e''] eqn:Et; cbn [bind_c] in Ed; [discriminate |].
       injection Ed as <-. left. eapply Htype, Et. }
  assert (Hstd : dest = DStdout -> g_stdout a = true).
  { intros ->. unfold conversion_dest_type in Ed. destruct (g_stdout a); [reflexivity |].
    destruct (g_out a) as [out |]; [| discriminate].
    destruct (path_type_for fs out) as [t | e'']; cbn [bind_c] in Ed; discriminate. }
  assert (Hmany : forall l, src = SDir l \/ src = SImplicit l \/ src = SPaths l ->
            g_stdin a = false /\ forall f, g_src_files a <> Some [f]).
  { intros l Hs. unfold conversion_src_type in Es. destruct (g_stdin a).
    - injection Es as <-. destruct Hs as [E | [E | E]]; discriminate.
    - split; [reflexivity |]. intros f Hf. rewrite Hf in Es.
      destruct (path_type_for fs f) as [t | e'']; cbn [bind_c] in Es; [| discriminate].
      destruct (get_search_parts (g_src_dir a) f). injection Es as <-. destruct Hs as [E | [E | E]]; discriminate. }
  assert (HE : forall m, inr (argument_error m) = inr e :> cres plan -> io_error fs e \/ argument e \/
      (g_stdout a = true /\ g_stdin a = false /\ (forall f, g_src_files a <> Some [f]) /\ ce_category e = None)).
  { intros m E. injection E as <-. right. left. reflexivity. }
  assert (Hsearch : forall b r d, (let+ found := search_dir fs a b r in convert_multiple a found d) = inr e -> io_error fs e).
  { intros b r d E. destruct (search_dir fs a b r) as [f | e'] eqn:Ef; cbn [bind_c] in E; [discriminate |].
    injection E as <-. eapply search_error, Ef. }
  destruct src as [| l | l | l t | l].
  - destruct dest as [| | out t]; cbn [convert_src_to_dest] in H; try discriminate.
    + eapply HE, H.
    + destruct (at_least_dir t); [eapply HE, H | discriminate].
  - destruct dest as [| | out t]; cbn [convert_src_to_dest] in H; try discriminate.
    + right. right. destruct (Hmany l) as (H1 & H2); [auto |]. injection H as <-. auto.
    + destruct t; try discriminate; eapply HE, H.
  - destruct dest as [| | out t]; cbn [convert_src_to_dest] in H; try discriminate.
    + right. right. destruct (Hmany l) as (H1 & H2); [auto |]. injection H as <-. auto.
    + destruct t; try discriminate; eapply HE, H.
  - destruct t as [| | | | tr]; destruct dest as [| | out t]; cbn [convert_src_to_dest] in H; try discriminate;
      try (eapply HE, H).
    + destruct t as [| | | | []]; cbn [at_least_dir] in H; try discriminate; try (eapply HE, H).
    + destruct t; eapply HE, H.
    + left. eapply Hsearch, H.
    + assert (Hc : t = PFile \/ (let '(b, dir) :=
                if negb tr && has_trailing_slash out && str_empty (l_base l)
                then (match parent out with Some q => q | None => L "." end,
                      match file_name (l_rel l) with Some n => n | None => [] end)
                else (push (l_base l) (l_rel l), []) in
              let+ found := search_dir fs a b dir in
              convert_multiple a found (Some out)) = inr e).
      { destruct t; [left; reflexivity | right; exact H ..]. }
      destruct Hc as [-> | Hc]; [eapply HE, H |]. left.
      destruct (negb tr && has_trailing_slash out && str_empty (l_base l)); eapply Hsearch, Hc.
  - destruct dest as [| | out t]; cbn [convert_src_to_dest] in H; try discriminate.
    + right. right. destruct (Hmany l) as (H1 & H2); [auto |]. injection H as <-. auto.
    + destruct t; try discriminate; eapply HE, H.
Qed.

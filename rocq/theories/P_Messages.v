(** * Lemmas about the messages of refused commands. *)

From Verif Require Import Base P_Base Doc Config Errors Path P_Path Reporter Cli SpecCli P_Cli P_Plan SpecMessages.

Lemma rev_not : forall (A : Type) (l m : list A), rev l = m -> l = rev m.
Proof. intros A l m <-. now rewrite rev_involutive. Qed.

(** The directory of a file in the root directory *)
Lemma pop_root : forall p n, components p = [RootDir; Normal n] -> pop p = [slash].
Proof.
  intros p n H. destruct (ends_in_name p [RootDir] n H) as (before & junk & Hp & Hj & Hs & Hd & Ht).
  unfold pop, parent. rewrite H. cbn [last_opt]. rewrite Ht.
  pose proof H as Hc. rewrite components_parts, Hp in Hc.
  assert (Ha : is_absolute p = true).
  { unfold components in H. destruct (is_absolute p); [reflexivity|exfalso].
    pose proof (split_nonempty p) as Hn. destruct (split_slash p) as [|f l]; [now apply Hn|].
    assert (forall q, ~ In RootDir (part_component q)) as HP.
    { intros q. unfold part_component. destruct (_ || _); [easy|]. destruct (str_eqb q (L "..")); cbn; intuition discriminate. }
    assert (In RootDir ((if str_eqb f (L ".") then [CurDir] else []) ++ flat_map part_component (f :: l))) as Hi by (rewrite H; now left).
    apply in_app_or in Hi. destruct Hi as [Hi|Hi].
    - destruct (str_eqb f (L ".")); cbn in Hi; intuition discriminate.
    - apply in_flat_map in Hi. destruct Hi as (q & _ & Hq). exact (HP q Hq). }
  rewrite Ha.
  destruct (comps_before before n junk [RootDir] Hc Hj Hs Hd) as [(_ & E) | [(-> & _) | (Hb & Hb' & E)]]; [discriminate|reflexivity|].
  assert (rev before <> []) as Hr by (intros F; apply rev_not in F; now apply Hb).
  destruct (trim_shape (rev before) Hr) as (junk2 & kept & H1 & H2 & H3 & H4 & H5). rewrite H2.
  destruct kept as [|x kept]; [now destruct H4|]. destruct kept as [|y r].
  - apply rev_not in H1. rewrite rev_app_distr in H1. cbn [rev app] in H1.
    assert (x = []) as ->; [|reflexivity].
    rewrite is_absolute_parts, Hp, H1 in Ha. cbn [app] in Ha. destruct x; [reflexivity|discriminate].
  - exfalso. specialize (H5 x y r eq_refl). destruct (part_kept x H5) as (c & Ec).
    apply rev_not in H1. rewrite rev_app_distr in H1. cbn [rev] in H1. 
    rewrite H1 in E. 
    assert (rev r ++ [y] <> [] /\ (rev r ++ [y]) <> [[]] \/ rev r ++ [y] = [[]]) as [(N1 & N2)|E1].
    { destruct (list_eq_dec (list_eq_dec N.eq_dec) (rev r ++ [y]) [[]]); [now right|left]. split; [|assumption]. now destruct (rev r). }
    + rewrite <- !app_assoc in E. rewrite (app_assoc (rev r)) in E. rewrite comps_parts_app in E by assumption.
      rewrite flat_map_app in E. cbn [flat_map app] in E. rewrite Ec in E. cbn [app] in E.
      assert (In RootDir (comps_parts (rev r ++ [y]))) as Hroot.
      { rewrite is_absolute_parts, Hp, H1 in Ha. destruct (rev r) as [|z l] eqn:Er.
        - cbn [app] in Ha, N2. destruct y; [now destruct N2|discriminate].
        - cbn [app] in Ha |- *. destruct z; [|discriminate]. destruct l; now left. }
      apply (f_equal (@length _)) in E. rewrite !app_length in E. cbn [length] in E.
      destruct (comps_parts (rev r ++ [y])); [contradiction|]. cbn [length] in E. lia.
    + rewrite E1 in E. cbn [app] in E. rewrite comps_parts_root in E by discriminate. cbn [flat_map app] in E. rewrite Ec in E. discriminate.
Qed.

Lemma components_nil : forall p, components p = [] -> p = [].
Proof.
  intros p H. rewrite components_parts in H. pose proof (join_split p) as HJ. pose proof (split_nonempty p) as Hn.
  destruct (split_slash p) as [|f rest]; [now destruct Hn|]. cbn [comps_parts] in H.
  destruct f as [|c f].
  - destruct rest; [now rewrite <- HJ|discriminate].
  - exfalso. apply app_eq_nil in H. destruct H as [H _]. destruct (str_eqb (c :: f) (L ".")) eqn:E; [discriminate|].
    destruct (part_kept (c :: f)) as (x & Ex); [unfold skipped; now rewrite E|]. rewrite Ex in H. discriminate.
Qed.

Lemma root_name : forall n, is_name n -> components (slash :: n) = [RootDir; Normal n].
Proof.
  intros n H. rewrite components_parts. change (slash :: n) with ([] ++ slash :: n). rewrite split_app.
  rewrite (split_one n) by apply H. change (split_slash []) with ([[]] : list str). cbn [app]. rewrite comps_parts_root by discriminate.
  cbn [flat_map]. now rewrite (name_part n H).
Qed.

Lemma shows_ok : forall a f b r, (g_src_dir a = None -> exists n, file_name f = Some n) -> get_search_parts (g_src_dir a) f = (b, r) ->
  Shows a f (show_location (mkLoc b r)).
Proof.
  intros a f b r Hn H. unfold Shows, show_location, get_search_parts in *. cbn [l_base l_rel].
  destruct (g_src_dir a) as [d|]; injection H as <- <-.
  - pose proof (has_trailing_slash_root d) as HR. destruct (has_trailing_slash d).
    + left. split; [now apply HR|reflexivity].
    + right. split; [|reflexivity]. intros F. apply HR in F. discriminate.
  - destruct (Hn eq_refl) as (n & En). rewrite En. apply file_name_comps in En. destruct En as (cs & En).
    pose proof (components_pop f cs n En) as Hp. pose proof (components_names f n) as Hname. rewrite En in Hname.
    assert (is_name n) as Hn1 by (apply Hname, in_or_app; right; now left). clear Hname. rename Hn1 into Hname. rewrite En.
    pose proof (has_trailing_slash_root (pop f)) as HR. destruct (has_trailing_slash (pop f)).
    + rewrite Hp in HR. rewrite (proj1 HR eq_refl) in *. rewrite (pop_root f n En).
      change ([slash] ++ [] ++ n) with (slash :: n). now rewrite root_name.
    + destruct cs as [|c cs].
      * cbn [app]. rewrite (components_nil _ Hp). exact (root_name n Hname).
      * assert (pop f <> []) as Hne by (intros F; rewrite F in Hp; discriminate).
        change ([slash] ++ n) with (slash :: n). rewrite components_parts, split_app, comps_parts_app.
        -- rewrite <- components_parts, Hp, split_one by apply Hname. cbn [flat_map]. rewrite (name_part n Hname).
           destruct c; [reflexivity|reflexivity|reflexivity|]. destruct cs; reflexivity.
        -- apply split_nonempty.
        -- intros F. apply (f_equal join_slash) in F. rewrite join_split in F. now apply Hne.
Qed.

Lemma path_kind : forall fs p t, path_type_for fs p = inl t ->
  match t with
  | PFile => a_file fs p
  | PProbablyFile | PUnknown => missing fs p /\ ~ is_root p
  | PProbablyDir => missing fs p /\ is_root p
  | PDir b => a_dir fs p /\ (b = true <-> is_root p)
  end.
Proof.
  intros fs p t H. unfold path_type_for in H. destruct (io_path_info fs p) as [i|e] eqn:Ei; cbn [bind_c] in H; [|discriminate].
  pose proof (has_trailing_slash_root p) as HR. injection H as <-. destruct i as [i|].
  - destruct (is_dir i) eqn:Ed; [|exists i; auto]. split; [exists i; auto|exact HR].
  - destruct (has_trailing_slash p); [split; [exact Ei|now apply HR]|].
    assert (~ is_root p) by (intros F; apply HR in F; discriminate).
    destruct (is_some (extension p)); now split.
Qed.

Lemma quoted_ok : forall s m, quoted s m = L "'" ++ s ++ L "'" ++ m.
Proof. reflexivity. Qed.

Definition names_ok (a : args) : Prop :=
  g_src_dir a = None -> forall files f, g_src_files a = Some files -> In f files -> exists n, file_name f = Some n.

Section Messages.
Variables (fs : io) (a : args).
Hypothesis Hnames : names_ok a.

Lemma refused_files : forall all files e, g_stdin a = false -> g_src_files a = Some all -> incl files all ->
  source_files fs a (g_src_dir a) files = inr e -> io_error fs e \/ ce_category e = Some CatArgument /\ Refused fs a (ce_message e).
Proof.
  intros all files e Hi Ha. revert e. induction files as [|f files IH]; intros e Hincl H; cbn [source_files] in H; [discriminate|].
  assert (In f all) as Hf by (apply Hincl; now left).
  destruct (io_path_info fs f) as [info|e'] eqn:Ei; cbn [bind_c] in H; [|injection H as <-; left; exists f; auto].
  destruct (get_search_parts (g_src_dir a) f) as [base rel] eqn:Eb. destruct info as [i|].
  - destruct (if is_dir i then search_dir fs a base rel else inl [mkLoc base rel]) as [found|e'] eqn:Es; cbn [bind_c] in H.
    + destruct (source_files fs a (g_src_dir a) files) as [out|e'] eqn:Ef; cbn [bind_c] in H; [discriminate|].
      injection H as <-. apply IH; [|reflexivity]. intros x Hx. apply Hincl. now right.
    + injection H as <-. left. destruct (is_dir i); [|discriminate]. eapply search_error. exact Es.
  - injection H as <-. right. split; [reflexivity|]. cbn [ce_message argument_error]. rewrite quoted_ok.
    apply (RfMissing fs a all f); try assumption. apply shows_ok; [|exact Eb]. intros Hd. exact (Hnames Hd all f Ha Hf).
Qed.

Lemma refused_ok : forall e, make_plan fs a = inr e -> io_error fs e \/ Refused fs a (ce_message e).
Proof.
  intros e H. unfold make_plan in H.
  destruct (conversion_src_type fs a) as [src|e'] eqn:Es; cbn [bind_c] in H.
  2: { injection H as <-. unfold conversion_src_type in Es. destruct (g_stdin a) eqn:Hi; [discriminate|].
       destruct (g_src_files a) as [files|] eqn:Hfiles.
       - destruct (match files with [_] => true | _ => false end) eqn:E1.
         + destruct files as [|f [|? ?]]; try discriminate. left.
           unfold path_type_for in Es. destruct (io_path_info fs f) as [i|e''] eqn:Et; cbn [bind_c] in Es.
           * destruct (get_search_parts (g_src_dir a) f). discriminate.
           * injection Es as <-. exists f. auto.
         + assert (Es' : (let+ l := source_files fs a (g_src_dir a) files in inl (SPaths l)) = inr e' :> cres source_type).
           { destruct files as [|f [|g files]]; [exact Es|discriminate|exact Es]. }
           destruct (source_files fs a (g_src_dir a) files) as [l|e''] eqn:Ef; cbn [bind_c] in Es'; [discriminate|].
           injection Es' as <-. destruct (refused_files files files e'' Hi Hfiles (fun x h => h) Ef) as [|[_ ?]]; auto.
       - left. destruct (g_src_dir a) as [d|].
         + destruct (search_dir fs a d []) as [l|e''] eqn:Ef; cbn [bind_c] in Es; [discriminate|]. injection Es as <-. eapply search_error, Ef.
         + destruct (search_dir fs a (L ".") []) as [l|e''] eqn:Ef; cbn [bind_c] in Es; [discriminate|]. injection Es as <-. eapply search_error, Ef. }
  destruct (conversion_dest_type fs a) as [dest|e'] eqn:Ed; cbn [bind_c] in H.
  2: { injection H as <-. left. unfold conversion_dest_type in Ed. destruct (g_stdout a); [discriminate|].
       destruct (g_out a) as [out|]; [|discriminate]. unfold path_type_for in Ed.
       destruct (io_path_info fs out) as [t|e''] eqn:Et; cbn [bind_c] in Ed; [discriminate|]. injection Ed as <-. exists out. auto. }
  assert (Hdest : match dest with
                  | DStdout => g_stdout a = true
                  | DImplicit => g_stdout a = false /\ g_out a = None
                  | DPath out t => g_stdout a = false /\ g_out a = Some out /\ path_type_for fs out = inl t
                  end).
  { unfold conversion_dest_type in Ed. destruct (g_stdout a); [now injection Ed as <-|].
    destruct (g_out a) as [out|]; [|now injection Ed as <-].
    destruct (path_type_for fs out) as [t|e''] eqn:Et; cbn [bind_c] in Ed; [|discriminate]. now injection Ed as <-. }
  assert (Hsrc : match src with
                 | SStdin => g_stdin a = true
                 | SPath l t => g_stdin a = false /\ exists f, g_src_files a = Some [f] /\ path_type_for fs f = inl t /\ Shows a f (show_location l)
                 | _ => not_one a
                 end).
  { unfold conversion_src_type in Es. unfold not_one. destruct (g_stdin a) eqn:Hi; [now injection Es as <-|].
    destruct (g_src_files a) as [files|] eqn:Hfiles.
    - destruct (match files with [_] => true | _ => false end) eqn:E1.
      + destruct files as [|f [|? ?]]; try discriminate. destruct (path_type_for fs f) as [t|e''] eqn:Et; cbn [bind_c] in Es; [|discriminate].
        destruct (get_search_parts (g_src_dir a) f) as [b r] eqn:Eb. injection Es as <-. split; [reflexivity|]. exists f. split; [reflexivity|].
        split; [exact Et|]. apply shows_ok; [|exact Eb]. intros Hd. apply (Hnames Hd [f]); [exact Hfiles|now left].
      + assert (Es' : (let+ l := source_files fs a (g_src_dir a) files in inl (SPaths l)) = inl src :> cres source_type).
        { destruct files as [|f [|g files]]; [exact Es|discriminate|exact Es]. }
        destruct (source_files fs a (g_src_dir a) files) as [l|e''] eqn:Ef; cbn [bind_c] in Es'; [|discriminate].
        injection Es' as <-. split; [reflexivity|]. intros f [= ->]. discriminate.
    - destruct (g_src_dir a) as [d|].
      + destruct (search_dir fs a d []) as [l|e'']; cbn [bind_c] in Es; [|discriminate]. injection Es as <-. split; [reflexivity|discriminate].
      + destruct (search_dir fs a (L ".") []) as [l|e'']; cbn [bind_c] in Es; [|discriminate]. injection Es as <-. split; [reflexivity|discriminate]. }
  assert (Hsearch : forall b r d, (let+ found := search_dir fs a b r in convert_multiple a found d) = inr e -> io_error fs e).
  { intros b r d E. destruct (search_dir fs a b r) as [f|e'] eqn:Ef; cbn [bind_c] in E; [discriminate|].
    injection E as <-. eapply search_error, Ef. }
  clear Es Ed. destruct src as [|l|l|l t|l].
  - right. destruct dest as [| |out t]; cbn [convert_src_to_dest] in H; try discriminate.
    + injection H as <-. now apply RfStdin.
    + destruct Hdest as (D1 & D2 & D3). apply path_kind in D3. destruct (at_least_dir t) eqn:Et; [|discriminate].
      injection H as <-. cbn [ce_message argument_error]. rewrite quoted_ok. apply RfStdinDir; auto. destruct t; try discriminate; tauto.
  - right. destruct dest as [| |out t]; cbn [convert_src_to_dest] in H; try discriminate.
    + injection H as <-. now apply RfStdout.
    + destruct Hdest as (D1 & D2 & D3). apply path_kind in D3. destruct t; try discriminate. injection H as <-.
      cbn [ce_message argument_error]. rewrite quoted_ok. now apply RfOutFile.
  - right. destruct dest as [| |out t]; cbn [convert_src_to_dest] in H; try discriminate.
    + injection H as <-. now apply RfStdout.
    + destruct Hdest as (D1 & D2 & D3). apply path_kind in D3. destruct t; try discriminate. injection H as <-.
      cbn [ce_message argument_error]. rewrite quoted_ok. now apply RfOutFile.
  - destruct Hsrc as (Hi & f & Hf & Ht & Hsh). apply path_kind in Ht.
    assert (Hmis : missing fs f -> Refused fs a (quoted (show_location l) (L " does not exist"))).
    { intros Hm. rewrite quoted_ok. apply (RfMissing fs a [f] f); auto. now left. }
    assert (Hdir : a_dir fs f \/ missing fs f /\ is_root f ->
      g_stdout a = true \/ (exists out, g_stdout a = false /\ g_out a = Some out /\ a_file fs out) ->
      Refused fs a (quoted (show_location l) (L " is not a file"))).
    { intros H1 H2. rewrite quoted_ok. now apply (RfSourceDir fs a f). }
    assert (Ho : match dest with DPath out PFile => g_stdout a = false /\ g_out a = Some out /\ a_file fs out | _ => True end).
    { destruct dest as [| |out []]; auto. destruct Hdest as (D1 & D2 & D3). apply path_kind in D3. auto. }
    destruct t as [| | | |tr].
    + right. destruct dest as [| |out t]; cbn [convert_src_to_dest] in H; try discriminate.
      destruct Hdest as (D1 & D2 & D3). apply path_kind in D3. destruct t as [| | | |[]]; cbn [at_least_dir] in H; try discriminate.
      injection H as <-. cbn [ce_message argument_error]. rewrite quoted_ok. apply (RfOutDir fs a f); auto; [apply D3|].
      intros F. apply D3 in F. discriminate.
    + right. destruct dest as [| |out []]; cbn [convert_src_to_dest] in H; injection H as <-; cbn [ce_message argument_error]; tauto.
    + right. destruct dest as [| |out []]; cbn [convert_src_to_dest] in H; injection H as <-; cbn [ce_message argument_error]; tauto.
    + right. destruct dest as [| |out []]; cbn [convert_src_to_dest] in H; injection H as <-; cbn [ce_message argument_error];
        first [apply Hdir; [tauto|]; first [left; exact Hdest|right; exists out; exact Ho] | apply Hmis; tauto].
    + destruct dest as [| |out t]; cbn [convert_src_to_dest] in H.
      * right. injection H as <-. cbn [ce_message argument_error]. apply Hdir; [tauto|now left].
      * left. eapply Hsearch, H.
      * assert (Hc : t = PFile \/ (let '(b, dir) :=
                  if negb tr && has_trailing_slash out && str_empty (l_base l)
                  then (match parent out with Some q => q | None => L "." end,
                        match file_name (l_rel l) with Some n => n | None => [] end)
                  else (push (l_base l) (l_rel l), []) in
                let+ found := search_dir fs a b dir in
                convert_multiple a found (Some out)) = inr e).
        { destruct t; [left; reflexivity|right; exact H ..]. }
        destruct Hc as [->|Hc].
        -- right. injection H as <-. cbn [ce_message argument_error]. apply Hdir; [tauto|]. right. exists out. exact Ho.
        -- left. destruct (negb tr && has_trailing_slash out && str_empty (l_base l)); eapply Hsearch, Hc.
  - right. destruct dest as [| |out t]; cbn [convert_src_to_dest] in H; try discriminate.
    + injection H as <-. now apply RfStdout.
    + destruct Hdest as (D1 & D2 & D3). apply path_kind in D3. destruct t; try discriminate. injection H as <-.
      cbn [ce_message argument_error]. rewrite quoted_ok. now apply RfOutFile.
Qed.
End Messages.

(** The other way round *)
Lemma kind_missing : forall fs p, missing fs p -> exists t, path_type_for fs p = inl t /\ (t = PProbablyFile \/ t = PUnknown \/ t = PProbablyDir).
Proof.
  intros fs p H. unfold path_type_for. rewrite H. cbn [bind_c]. eexists. split; [reflexivity|].
  destruct (has_trailing_slash p); [auto|]. destruct (is_some (extension p)); auto.
Qed.
Lemma kind_file : forall fs p, a_file fs p -> path_type_for fs p = inl PFile.
Proof. intros fs p (i & H & E). unfold path_type_for. rewrite H. cbn [bind_c]. now rewrite E. Qed.
Lemma kind_dir : forall fs p, a_dir fs p -> exists b, path_type_for fs p = inl (PDir b) /\ (b = true <-> is_root p).
Proof.
  intros fs p (i & H & E). unfold path_type_for. rewrite H. cbn [bind_c]. rewrite E. eexists. split; [reflexivity|]. apply has_trailing_slash_root.
Qed.
Lemma kind_root : forall fs p, missing fs p -> is_root p -> path_type_for fs p = inl PProbablyDir.
Proof.
  intros fs p H R. unfold path_type_for. rewrite H. cbn [bind_c]. apply has_trailing_slash_root in R. now rewrite R.
Qed.
Lemma files_missing : forall fs a dir files f, In f files -> missing fs f -> exists e, source_files fs a dir files = inr e.
Proof.
  intros fs a dir files f. induction files as [|g files IH]; intros Hin Hm; [destruct Hin|]. cbn [source_files].
  destruct (io_path_info fs g) as [i|e] eqn:Ei; cbn [bind_c]; [|eauto]. destruct (get_search_parts dir g) as [b r]. destruct Hin as [->|Hin].
  - rewrite Hm in Ei. injection Ei as <-. eauto.
  - destruct i as [i|]; [|eauto]. destruct (if is_dir i then _ else _) as [found|e]; cbn [bind_c]; [|eauto].
    destruct (IH Hin Hm) as (e & ->). cbn [bind_c]. eauto.
Qed.

Definition fails {A} (r : cres A) : Prop := exists e, r = inr e.
Lemma fails_bind : forall A B (r : cres A) (k : A -> cres B), (forall x, r = inl x -> fails (k x)) -> fails (bind_c r k).
Proof. intros A B [x|e] k H; cbn [bind_c]; [now apply H|now exists e]. Qed.

Lemma refused_fails : forall fs a m, Refused fs a m -> fails (make_plan fs a).
Proof.
  intros fs a m H. unfold make_plan. apply fails_bind. intros src Hs. apply fails_bind. intros dest Hd.
  unfold conversion_src_type in Hs. unfold conversion_dest_type in Hd.
  assert (Hout : g_stdout a = false -> forall out, g_out a = Some out -> exists t, path_type_for fs out = inl t /\ dest = DPath out t).
  { intros E out Eo. rewrite E, Eo in Hd. destruct (path_type_for fs out) as [t|]; cbn [bind_c] in Hd; [|discriminate].
    injection Hd as <-. eauto. }
  assert (Hmany : not_one a -> exists l, src = SDir l \/ src = SImplicit l \/ src = SPaths l).
  { intros (Hi & Hn). rewrite Hi in Hs. destruct (g_src_files a) as [files|].
    - assert (Hs' : (let+ l := source_files fs a (g_src_dir a) files in inl (SPaths l)) = inl src :> cres source_type).
      { destruct files as [|f [|g files]]; [exact Hs|now destruct (Hn f)|exact Hs]. }
      destruct (source_files fs a (g_src_dir a) files) as [l|]; cbn [bind_c] in Hs'; [|discriminate]. injection Hs' as <-. eauto.
    - destruct (g_src_dir a) as [d|].
      + destruct (search_dir fs a d []) as [l|]; cbn [bind_c] in Hs; [|discriminate]. injection Hs as <-. eauto.
      + destruct (search_dir fs a (L ".") []) as [l|]; cbn [bind_c] in Hs; [|discriminate]. injection Hs as <-. eauto. }
  assert (Hone : g_stdin a = false -> forall f, g_src_files a = Some [f] -> exists l t, path_type_for fs f = inl t /\ src = SPath l t).
  { intros Hi f Hf. rewrite Hi, Hf in Hs. destruct (path_type_for fs f) as [t|]; cbn [bind_c] in Hs; [|discriminate].
    destruct (get_search_parts (g_src_dir a) f). injection Hs as <-. eauto. }
  assert (Hstd : g_stdout a = true -> dest = DStdout) by (intros E; rewrite E in Hd; now injection Hd as <-).
  destruct H as [files f s Hi Hf Hin Hm _|f s Hi Hf Hk Ho _|out Hn Ho Eo Hk|f out Hi Hf Hk Ho Eo Hk' Hr|out Hi Ho Eo Hk|Hi Ho Eo|Hn Ho].
  - rewrite Hi, Hf in Hs. destruct (match files with [_] => true | _ => false end) eqn:E1.
    + destruct files as [|g [|? ?]]; try discriminate. destruct Hin as [->|[]].
      destruct (Hone Hi f Hf) as (l & t & Et & ->). destruct (kind_missing fs f Hm) as (t' & Et' & Hc). rewrite Et in Et'. injection Et' as ->.
      destruct Hc as [->|[->| ->]]; destruct dest as [| |out []]; cbn [convert_src_to_dest]; eexists; reflexivity.
    + destruct (files_missing fs a (g_src_dir a) files f Hin Hm) as (e & Ee).
      assert (Hs' : (let+ l := source_files fs a (g_src_dir a) files in inl (SPaths l)) = inl src :> cres source_type).
      { destruct files as [|g [|? ?]]; [exact Hs|discriminate|exact Hs]. }
      rewrite Ee in Hs'. discriminate.
  - destruct (Hone Hi f Hf) as (l & t & Et & ->).
    assert (t = PProbablyDir \/ exists b, t = PDir b) as Ht.
    { destruct Hk as [Hk|[Hk Hr]]; [destruct (kind_dir fs f Hk) as (b & Eb & _); rewrite Et in Eb; injection Eb as ->; eauto|].
      rewrite (kind_root fs f Hk Hr) in Et. injection Et as <-. auto. }
    assert (dest = DStdout \/ exists out, dest = DPath out PFile) as Hdd.
    { destruct Ho as [Ho|(out & Ho & Eo & Hk')]; [left; auto|]. destruct (Hout Ho out Eo) as (t' & Et' & ->).
      rewrite (kind_file fs out Hk') in Et'. injection Et' as <-. eauto. }
    destruct Ht as [->|(b & ->)]; destruct Hdd as [->|(out & ->)]; eexists; reflexivity.
  - destruct (Hmany Hn) as (l & Hl). destruct (Hout Ho out Eo) as (t & Et & ->). rewrite (kind_file fs out Hk) in Et. injection Et as <-.
    destruct Hl as [->|[->| ->]]; eexists; reflexivity.
  - destruct (Hone Hi f Hf) as (l & t & Et & ->). rewrite (kind_file fs f Hk) in Et. injection Et as <-.
    destruct (Hout Ho out Eo) as (t & Et & ->). destruct (kind_dir fs out Hk') as (b & Eb & Hb). rewrite Et in Eb. injection Eb as ->.
    destruct b; [now destruct Hr; apply Hb|]. eexists. reflexivity.
  - rewrite Hi in Hs. injection Hs as <-. destruct (Hout Ho out Eo) as (t & Et & ->). cbn [convert_src_to_dest].
    destruct Hk as [Hk|[Hk Hr]].
    + destruct (kind_dir fs out Hk) as (b & Eb & _). rewrite Et in Eb. injection Eb as ->. eexists. reflexivity.
    + rewrite (kind_root fs out Hk Hr) in Et. injection Et as <-. eexists. reflexivity.
  - rewrite Hi in Hs. injection Hs as <-. rewrite Ho, Eo in Hd. injection Hd as <-. eexists. reflexivity.
  - destruct (Hmany Hn) as (l & Hl). rewrite (Hstd Ho). destruct Hl as [->|[->| ->]]; eexists; reflexivity.
Qed.

(** * Lemmas about the command line tool: where sources are found and outputs go. *)

From Coq Require Import Permutation.
From Verif Require Import Base P_Base Doc Config Errors Path P_Path Reporter Cli SpecCli.

Lemma suffix_html : forall xml, Suffix xml = html xml.
Proof. reflexivity. Qed.

(** ** Pushing, by components *)

Definition keep_dirs (cs : list component) : list component :=
  filter (fun c => match c with CurDir => false | _ => true end) cs.

Lemma part_no_cur : forall p, keep_dirs (part_component p) = part_component p.
Proof.
  intros p. unfold part_component. destruct (str_empty p || str_eqb p (L ".")); [reflexivity |].
  destruct (str_eqb p (L "..")); reflexivity.
Qed.

Lemma parts_no_cur : forall l, keep_dirs (flat_map part_component l) = flat_map part_component l.
Proof.
  induction l as [| p l IH]; [reflexivity |]. cbn [flat_map]. unfold keep_dirs in *.
  rewrite filter_app. fold (keep_dirs (part_component p)). now rewrite part_no_cur, IH.
Qed.

Lemma relative_parts : forall r, is_absolute r = false ->
  flat_map part_component (split_slash r) = keep_dirs (components r).
Proof.
  intros r H. unfold components. rewrite H. unfold keep_dirs. rewrite filter_app.
  fold (keep_dirs (flat_map part_component (split_slash r))). rewrite parts_no_cur.
  destruct (split_slash r) as [| f l]; [reflexivity |]. destruct (str_eqb f (L ".")); reflexivity.
Qed.

Definition root_first (cs : list component) : bool := match cs with RootDir :: _ => true | _ => false end.

Lemma absolute_root : forall r, is_absolute r = root_first (components r).
Proof.
  intros r. rewrite is_absolute_parts, components_parts. pose proof (split_nonempty r) as Hn.
  destruct (split_slash r) as [| [| c f] [| q l]]; [contradiction | reflexivity | reflexivity | |];
    cbn [comps_parts]; unfold part_component at 1;
    destruct (str_eqb (c :: f) (L ".")); cbn [orb str_empty]; try reflexivity;
    destruct (str_eqb (c :: f) (L "..")); reflexivity.
Qed.

(** The components of a pushed path depend on those of the parts. *)
Definition push_comps (base : str) (cs : list component) : list component :=
  if root_first cs then cs
  else match base with [] => cs | _ => components base ++ keep_dirs cs end.

Lemma components_push_comps : forall base r, components (push base r) = push_comps base (components r).
Proof.
  intros base r. unfold push_comps. rewrite <- absolute_root. destruct (is_absolute r) eqn:E.
  - now rewrite push_absolute.
  - destruct base as [| c base].
    + unfold push. rewrite E. reflexivity.
    + rewrite components_push by (discriminate || assumption). now rewrite relative_parts.
Qed.

Lemma keep_normal : forall names, keep_dirs (map Normal names) = map Normal names.
Proof. induction names as [| n names IH]; [reflexivity |]. cbn. now f_equal. Qed.

Lemma push_comps_app : forall base cs names,
  push_comps base (cs ++ map Normal names) = push_comps base cs ++ map Normal names.
Proof.
  intros base cs names. unfold push_comps.
  assert (E : root_first (cs ++ map Normal names) = root_first cs).
  { destruct cs as [| c cs]; [destruct names; reflexivity | reflexivity]. }
  rewrite E. destruct (root_first cs); [reflexivity |]. destruct base as [| b base]; [reflexivity |].
  unfold keep_dirs. rewrite filter_app. fold (keep_dirs (map Normal names)). rewrite keep_normal.
  now rewrite app_assoc.
Qed.

(** ** Searching directories *)

Definition found_at (base : str) (rel : list component) (l : location) (names : list str) : Prop :=
  l_base l = base /\ components (l_rel l) = rel ++ map Normal names.

Definition minty_at (ch : list (str * tree)) (depth : nat) (names : list str) : Prop :=
  exists dir n stem sub, names = dir ++ [n] /\ dir_at ch dir sub /\ In (n, TFile) sub /\
    minty_name n stem /\ (length dir <= depth)%nat.

Lemma has_minty_name : forall n, is_name n -> has_minty_extension n = true <-> exists stem, minty_name n stem.
Proof.
  intros n Hn. rewrite has_minty_spec.
  assert (E : file_name n = Some n).
  { apply file_name_comps. exists []. pose proof (components_push_name [] n Hn) as E.
    unfold push in E. rewrite not_absolute in E by apply Hn. exact E. }
  rewrite E. split.
  - intros (n' & stem & H1 & H2). injection H1 as <-. eauto.
  - intros (stem & H). eauto.
Qed.

(** What the entries [es] of the directory contribute. *)
Definition minty_in (es : list (str * tree)) (depth : nat) (names : list str) : Prop :=
  (exists n stem, names = [n] /\ In (n, TFile) es /\ minty_name n stem) \/
  (exists n sub rest, names = n :: rest /\ In (n, TDir sub) es /\ (1 <= depth)%nat /\ minty_at sub (depth - 1) rest).

Lemma minty_at_in : forall ch depth names, minty_at ch depth names <-> minty_in ch depth names.
Proof.
  intros ch depth names. split.
  - intros (dir & n & stem & sub & -> & Hd & Hin & Hm & Hlen). inversion Hd; subst.
    + left. exists n, stem. auto.
    + right. exists n0, sub0, (names ++ [n]). cbn [length] in Hlen.
      repeat split; try assumption; try lia. exists names, n, stem, sub. repeat split; try assumption. lia.
  - intros [(n & stem & -> & Hin & Hm) | (n & sub & rest & -> & Hin & Hd & (dir & n' & stem & sub' & -> & H1 & H2 & H3 & H4))].
    + exists [], n, stem, ch. repeat split; try assumption; try constructor. cbn. lia.
    + exists (n :: dir), n', stem, sub'. repeat split; try assumption.
      * econstructor; eassumption.
      * cbn [length]. lia.
Qed.

Section Search.
Variable fs : io.

Definition search_go (recurse : nat) (base : str) :=
  fix go (entries : list (str * path_info)) (exact rel : str) : cres (list location) :=
     match entries with
     | [] => inl []
     | (name, info) :: rest =>
         if is_file info then
           let+ out := go rest exact rel in
           inl (if has_minty_extension name then mkLoc base (push rel name) :: out else out)
         else
           match recurse with
           | O => go rest exact rel
           | S recurse =>
               let rel' := push rel name in
               let exact' := push exact name in
               let+ found := search_dir_inner fs recurse base exact' rel' in
               let+ out := go rest (pop exact') (pop rel') in
               inl (found ++ out)
           end
     end.

Lemma search_dir_inner_eq : forall recurse base exact rel,
  search_dir_inner fs recurse base exact rel =
  (let+ entries := io_read_dir fs exact in search_go recurse base entries exact rel).
Proof. intros [| recurse]; reflexivity. Qed.

Lemma dir_at_in : forall (ch : list (str * tree)) n sub names sub',
  In (n, TDir sub) ch -> dir_at sub names sub' -> dir_at ch (n :: names) sub'.
Proof. intros. econstructor; eassumption. Qed.

Lemma holds_sub : forall root ch n sub p, holds_tree fs root ch -> In (n, TDir sub) ch ->
  components p = components root ++ [Normal n] -> holds_tree fs p sub.
Proof.
  intros root ch n sub p H Hin Hp names sub' q Hd Hq. apply (H (n :: names)).
  - eapply dir_at_in; eassumption.
  - rewrite Hq, Hp. cbn [map]. now rewrite <- app_assoc.
Qed.

Lemma holds_same : forall p q ch, components p = components q -> holds_tree fs p ch -> holds_tree fs q ch.
Proof. intros p q ch E H names sub r Hd Hr. apply (H names sub r Hd). now rewrite E. Qed.

Lemma tree_ok_sub : forall ch n sub, tree_ok ch -> In (n, TDir sub) ch -> tree_ok sub.
Proof. intros ch n sub H Hin names sub' Hd. apply (H (n :: names)). eapply dir_at_in; eassumption. Qed.

Lemma Forall2_map_r : forall (A B C : Type) (P : A -> C -> Prop) (f : B -> C) l m,
  Forall2 (fun a b => P a (f b)) l m -> Forall2 P l (map f m).
Proof. intros A B C P f l m H. induction H; constructor; assumption. Qed.

Lemma search_exact : forall recurse base exact rel ch,
  tree_ok ch -> holds_tree fs exact ch ->
  exists locs found,
    search_dir_inner fs recurse base exact rel = inl locs /\
    Forall2 (found_at base (components rel)) locs found /\
    NoDup found /\ (forall names, In names found <-> minty_at ch recurse names).
Proof.
  induction recurse as [| recurse IH]; intros base exact rel ch Hok Hch;
    rewrite search_dir_inner_eq, (Hch [] ch exact (dir_here ch)) by (cbn [map]; now rewrite app_nil_r);
    cbn [bind_c];
    destruct (Hok [] ch (dir_here ch)) as (Hnd & Hnames).
  - assert (HG : forall es exact rel,
      NoDup (map fst es) -> (forall n t, In (n, t) es -> EntryName n) ->
      exists locs found,
        search_go 0 base (map (fun c => (fst c, info_of (snd c))) es) exact rel = inl locs /\
        Forall2 (found_at base (components rel)) locs found /\
        NoDup found /\ (forall names, In names found <-> minty_in es 0 names)).
    { clear. induction es as [| [n t] es IHes]; intros exact rel Hnd Hnames.
      - exists [], []. repeat split; try constructor; try contradiction.
        intros [(n & stem & _ & [] & _) | (n & sub & rest & _ & [] & _)].
      - cbn [map fst] in Hnd. inversion Hnd; subst.
        destruct (IHes exact rel) as (locs & found & H3 & H4 & H5 & H6); [assumption | |].
        { intros m t' Hin. apply (Hnames m t'). now right. }
        assert (Hname : is_name n) by (apply (Hnames n t); now left).
        cbn [map fst snd search_go]. destruct t as [| sub]; cbn [info_of is_file].
        + fold (search_go 0 base). rewrite H3. cbn [bind_c]. destruct (has_minty_extension n) eqn:HM.
          * exists (mkLoc base (push rel n) :: locs), ([n] :: found). split; [reflexivity |]. split; [| split].
            -- constructor; [| assumption]. split; [reflexivity |]. cbn [l_rel].
               now rewrite components_push_name.
            -- constructor; [| assumption]. rewrite H6. intros [(m & stem & E & Hin & _) | (m & sub & rest & _ & _ & Hd & _)]; [| lia].
               injection E as <-. apply H1. apply in_map_iff. exists (n, TFile). auto.
            -- intros names. cbn [In]. rewrite H6. apply has_minty_name in HM; [| assumption].
               destruct HM as (stem & HM). split.
               ++ intros [<- | [(m & st & -> & Hin & Hm) | (m & sub & rest & _ & _ & Hd & _)]]; [| | lia].
                  ** left. exists n, stem. repeat split; try assumption. now left.
                  ** left. exists m, st. repeat split; try assumption. now right.
               ++ intros [(m & st & -> & [E | Hin] & Hm) | (m & sub & rest & _ & _ & Hd & _)]; [| | lia].
                  ** injection E as <-. now left.
                  ** right. left. eauto.
          * exists locs, found. split; [reflexivity |]. split; [assumption | split; [assumption |]].
            intros names. rewrite H6. split.
            -- intros [(m & st & -> & Hin & Hm) | (m & sub & rest & _ & _ & Hd & _)]; [| lia].
               left. exists m, st. repeat split; try assumption. now right.
            -- intros [(m & st & -> & [E | Hin] & Hm) | (m & sub & rest & _ & _ & Hd & _)]; [| | lia].
               ++ injection E as <-. assert (has_minty_extension n = true) by (apply has_minty_name; eauto). congruence.
               ++ left. eauto.
        + fold (search_go 0 base). exists locs, found. split; [assumption |]. split; [assumption | split; [assumption |]].
          intros names. rewrite H6. split.
          * intros [(m & st & -> & Hin & Hm) | (m & sub' & rest & _ & _ & Hd & _)]; [| lia].
            left. exists m, st. repeat split; try assumption. now right.
          * intros [(m & st & -> & [E | Hin] & Hm) | (m & sub' & rest & _ & _ & Hd & _)]; [discriminate | | lia].
            left. eauto. }
    destruct (HG ch exact rel Hnd Hnames) as (locs & found & H1 & H2 & H3 & H4).
    exists locs, found. repeat split; try assumption; intros H; [apply minty_at_in, H4 | apply H4, minty_at_in]; assumption.
  - assert (HG : forall es exact' rel',
      components exact' = components exact -> components rel' = components rel -> incl es ch ->
      NoDup (map fst es) -> (forall n t, In (n, t) es -> EntryName n) ->
      exists locs found,
        search_go (S recurse) base (map (fun c => (fst c, info_of (snd c))) es) exact' rel' = inl locs /\
        Forall2 (found_at base (components rel)) locs found /\
        NoDup found /\ (forall names, In names found <-> minty_in es (S recurse) names)).
    { clear Hnd Hnames. induction es as [| [n t] es IHes]; intros exact' rel' Hex Hrel Hincl Hnd Hnames.
      - exists [], []. repeat split; try constructor; try contradiction.
        intros [(n & stem & _ & [] & _) | (n & sub & rest & _ & [] & _)].
      - cbn [map fst] in Hnd. inversion Hnd; subst.
        assert (Hname : is_name n) by (apply (Hnames n t); now left).
        assert (Hincl' : incl es ch) by (intros x Hx; apply Hincl; now right).
        assert (Hnames' : forall m t', In (m, t') es -> EntryName m).
        { intros m t' Hin. apply (Hnames m t'). now right. }
        assert (Hnew : forall t', ~ In (n, t') es).
        { intros t' Hin. apply H1. apply in_map_iff. exists (n, t'). auto. }
        cbn [map fst snd search_go]. destruct t as [| sub]; cbn [info_of is_file]; fold (search_go (S recurse) base).
        + destruct (IHes exact' rel') as (locs & found & H3 & H4 & H5 & H6); try assumption.
          rewrite H3. cbn [bind_c]. destruct (has_minty_extension n) eqn:HM.
          * exists (mkLoc base (push rel' n) :: locs), ([n] :: found). split; [reflexivity |]. split; [| split].
            -- constructor; [| assumption]. split; [reflexivity |]. cbn [l_rel].
               rewrite components_push_name by assumption. now rewrite Hrel.
            -- constructor; [| assumption]. rewrite H6. intros [(m & stem & E & Hin & _) | (m & sub & rest & E & Hin & _)].
               ++ injection E as <-. eapply Hnew, Hin.
               ++ injection E as <- _. eapply Hnew, Hin.
            -- intros names. cbn [In]. rewrite H6. apply has_minty_name in HM; [| assumption].
               destruct HM as (stem & HM). split.
               ++ intros [<- | [(m & st & -> & Hin & Hm) | (m & sub & rest & -> & Hin & Hd & Hm)]].
                  ** left. exists n, stem. repeat split; try assumption. now left.
                  ** left. exists m, st. repeat split; try assumption. now right.
                  ** right. exists m, sub, rest. repeat split; try assumption. now right.
               ++ intros [(m & st & -> & [E | Hin] & Hm) | (m & sub & rest & -> & [E | Hin] & Hd & Hm)].
                  ** injection E as <-. now left.
                  ** right. left. eauto.
                  ** discriminate.
                  ** right. right. eauto 8.
          * exists locs, found. split; [reflexivity |]. split; [assumption | split; [assumption |]].
            intros names. rewrite H6. split.
            -- intros [(m & st & -> & Hin & Hm) | (m & sub & rest & -> & Hin & Hd & Hm)].
               ++ left. exists m, st. repeat split; try assumption. now right.
               ++ right. exists m, sub, rest. repeat split; try assumption. now right.
            -- intros [(m & st & -> & [E | Hin] & Hm) | (m & sub & rest & -> & [E | Hin] & Hd & Hm)].
               ++ injection E as <-. assert (has_minty_extension n = true) by (apply has_minty_name; eauto). congruence.
               ++ left. eauto.
               ++ discriminate.
               ++ right. eauto 8.
        + assert (Hin : In (n, TDir sub) ch) by (apply Hincl; now left).
          destruct (IH base (push exact' n) (push rel' n) sub) as (locs1 & found1 & G1 & G2 & G3 & G4).
          { eapply tree_ok_sub; eassumption. }
          { eapply holds_sub; [eassumption | eassumption |]. rewrite components_push_name by assumption. now rewrite Hex. }
          destruct (IHes (pop (push exact' n)) (pop (push rel' n))) as (locs & found & H3 & H4 & H5 & H6); try assumption.
          { now rewrite components_pop_push. }
          { now rewrite components_pop_push. }
          rewrite G1. cbn [bind_c]. rewrite H3. cbn [bind_c].
          exists (locs1 ++ locs), (map (cons n) found1 ++ found). split; [reflexivity |]. split; [| split].
          * apply Forall2_app; [| assumption]. apply Forall2_map_r. clear - G2 Hname Hrel.
            induction G2 as [| l names ls ns (H1 & H2) HF IH]; constructor; [| assumption].
            split; [assumption |]. rewrite H2, components_push_name by assumption. rewrite Hrel.
            cbn [map]. now rewrite <- app_assoc.
          * clear - G3 H5 H6 Hnew. induction found1 as [| f found1 IHf]; [assumption |]. cbn [map app].
            inversion G3; subst. constructor; [| apply IHf; assumption].
            intros Hin. apply in_app_or in Hin. destruct Hin as [Hin | Hin].
            -- apply in_map_iff in Hin. destruct Hin as (y & E & Hy). injection E as ->. contradiction.
            -- apply H6 in Hin. destruct Hin as [(m & stem & E & Hin & _) | (m & sub & rest & E & Hin & _)];
                 injection E as -> _; eapply Hnew, Hin.
          * intros names. rewrite in_app_iff, H6. split.
            -- intros [Hn | [(m & st & -> & Hn & Hm) | (m & sub' & rest & -> & Hn & Hd & Hm)]].
               ++ apply in_map_iff in Hn. destruct Hn as (y & <- & Hy). apply G4 in Hy.
                  right. exists n, sub, y. repeat split; [now left | lia |].
                  replace (S recurse - 1)%nat with recurse by lia. assumption.
               ++ left. exists m, st. repeat split; try assumption. now right.
               ++ right. exists m, sub', rest. repeat split; try assumption. now right.
            -- intros [(m & st & -> & [E | Hn] & Hm) | (m & sub' & rest & -> & [E | Hn] & Hd & Hm)].
               ++ discriminate.
               ++ right. left. eauto.
               ++ injection E as <- <-. left. apply in_map. apply G4.
                  replace (S recurse - 1)%nat with recurse in Hm by lia. assumption.
               ++ right. right. eauto 8. }
    destruct (HG ch exact rel eq_refl eq_refl (fun x H => H) Hnd Hnames) as (locs & found & H1 & H2 & H3 & H4).
    exists locs, found. repeat split; try assumption; intros H; [apply minty_at_in, H4 | apply H4, minty_at_in]; assumption.
Qed.

(** Whatever the file system: what is found lies where it was searched for. *)
Lemma found_below : forall recurse base exact rel locs,
  (forall p es, io_read_dir fs p = inl es -> forall n i, In (n, i) es -> EntryName n) ->
  search_dir_inner fs recurse base exact rel = inl locs ->
  Forall (fun l => l_base l = base /\ exists names n stem, minty_name n stem /\
            components (l_rel l) = components rel ++ map Normal (names ++ [n])) locs.
Proof.
  intros recurse base exact rel locs Hfs. revert exact rel locs.
  induction recurse as [| recurse IH]; intros exact rel locs; rewrite search_dir_inner_eq;
    (destruct (io_read_dir fs exact) as [es | e] eqn:Er; cbn [bind_c]; [| discriminate]);
    specialize (Hfs exact es Er) as Hn; clear Er.
  - revert locs. assert (HG : forall es exact rel locs, (forall n i, In (n, i) es -> EntryName n) ->
      search_go 0 base es exact rel = inl locs ->
      Forall (fun l => l_base l = base /\ exists names n stem, minty_name n stem /\
            components (l_rel l) = components rel ++ map Normal (names ++ [n])) locs).
    { clear. induction es as [| [n i] es IHes]; intros exact rel locs Hn H; cbn [search_go] in H.
      - injection H as <-. constructor.
      - fold (search_go 0 base) in H.
        assert (Hn' : forall m j, In (m, j) es -> EntryName m) by (intros m j Hin; apply (Hn m j); now right).
        destruct (is_file i).
        + destruct (search_go 0 base es exact rel) as [out | e] eqn:E; cbn [bind_c] in H; [| discriminate].
          injection H as <-. specialize (IHes _ _ _ Hn' E).
          destruct (has_minty_extension n) eqn:HM; [| assumption]. constructor; [| assumption].
          split; [reflexivity |]. assert (Hname : is_name n) by (apply (Hn n i); now left).
          apply has_minty_name in HM; [| assumption]. destruct HM as (stem & HM).
          exists [], n, stem. split; [assumption |]. cbn [l_rel]. now rewrite components_push_name.
        + eapply IHes; eassumption. }
    intros locs. now apply HG.
  - revert locs. assert (HG : forall es exact' rel' locs, components rel' = components rel ->
      (forall n i, In (n, i) es -> EntryName n) ->
      search_go (S recurse) base es exact' rel' = inl locs ->
      Forall (fun l => l_base l = base /\ exists names n stem, minty_name n stem /\
            components (l_rel l) = components rel ++ map Normal (names ++ [n])) locs).
    { clear Hn. induction es0 as [| [n i] es' IHes]; intros exact' rel' locs Hrel Hn H; cbn [search_go] in H.
      - injection H as <-. constructor.
      - fold (search_go (S recurse) base) in H.
        assert (Hn' : forall m j, In (m, j) es' -> EntryName m) by (intros m j Hin; apply (Hn m j); now right).
        assert (Hname : is_name n) by (apply (Hn n i); now left).
        destruct (is_file i).
        + destruct (search_go (S recurse) base es' exact' rel') as [out | e] eqn:E; cbn [bind_c] in H; [| discriminate].
          injection H as <-. specialize (IHes _ _ _ Hrel Hn' E).
          destruct (has_minty_extension n) eqn:HM; [| assumption]. constructor; [| assumption].
          split; [reflexivity |].
          apply has_minty_name in HM; [| assumption]. destruct HM as (stem & HM).
          exists [], n, stem. split; [assumption |]. cbn [l_rel]. rewrite components_push_name by assumption.
          now rewrite Hrel.
        + destruct (search_dir_inner fs recurse base (push exact' n) (push rel' n)) as [f | e] eqn:E1;
            cbn [bind_c] in H; [| discriminate].
          destruct (search_go (S recurse) base es' (pop (push exact' n)) (pop (push rel' n))) as [out | e] eqn:E2;
            cbn [bind_c] in H; [| discriminate].
          injection H as <-. apply Forall_app. split.
          * apply IH in E1. eapply Forall_impl; [| exact E1]. intros l (H1 & names & m & stem & H2 & H3).
            split; [assumption |]. exists (n :: names), m, stem. split; [assumption |].
            rewrite H3, components_push_name by assumption. rewrite Hrel. cbn [map app]. now rewrite <- app_assoc.
          * eapply IHes; [| eassumption | exact E2]. now rewrite components_pop_push. }
    intros locs. now apply HG.
Qed.
End Search.

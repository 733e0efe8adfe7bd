(** * Lemmas about paths (Path.v). *)

From Verif Require Import Base P_Base Path.

(** ** Splitting and joining *)

Definition no_slash (p : str) : Prop := ~ In slash p.

Lemma split_nonempty : forall s, split_slash s <> [].
Proof.
  destruct s as [| c s]; cbn [split_slash]; [discriminate |].
  destruct (c =? slash); [discriminate |]. destruct (split_slash s); discriminate.
Qed.

Lemma split_no_slash : forall s, Forall no_slash (split_slash s).
Proof.
  induction s as [| c s IH]; cbn [split_slash].
  - constructor; [intros [] | constructor].
  - destruct (c =? slash) eqn:E.
    + constructor; [intros [] | assumption].
    + apply N.eqb_neq in E. destruct (split_slash s) as [| p ps].
      * constructor; [| constructor]. intros [H | []]. congruence.
      * inversion IH; subst. constructor; [| assumption]. intros [H | H]; [congruence | contradiction].
Qed.

Lemma join_split : forall s, join_slash (split_slash s) = s.
Proof.
  induction s as [| c s IH]; [reflexivity |]. cbn [split_slash].
  pose proof (split_nonempty s) as Hn.
  destruct (c =? slash) eqn:E.
  - apply N.eqb_eq in E. subst c. destruct (split_slash s) as [| p ps]; [contradiction |].
    cbn [join_slash app] in *. now rewrite IH.
  - destruct (split_slash s) as [| p ps]; [contradiction |].
    destruct ps; cbn [join_slash app] in *; now rewrite <- IH.
Qed.

Lemma split_one : forall n, no_slash n -> split_slash n = [n].
Proof.
  induction n as [| c n IH]; intros H; [reflexivity |]. cbn [split_slash].
  destruct (c =? slash) eqn:E.
  - apply N.eqb_eq in E. exfalso. apply H. now left.
  - rewrite IH; [reflexivity |]. intros Hin. apply H. now right.
Qed.

Lemma split_app : forall a b, split_slash (a ++ slash :: b) = split_slash a ++ split_slash b.
Proof.
  induction a as [| c a IH]; intros b.
  - reflexivity.
  - cbn [app split_slash]. rewrite IH. pose proof (split_nonempty a) as Hn.
    destruct (c =? slash); [reflexivity |].
    destruct (split_slash a); [contradiction | reflexivity].
Qed.

Lemma join_cons : forall p l, l <> [] -> join_slash (p :: l) = p ++ slash :: join_slash l.
Proof. intros p [| q l] H; [contradiction | reflexivity]. Qed.

Lemma split_join : forall l, l <> [] -> Forall no_slash l -> split_slash (join_slash l) = l.
Proof.
  induction l as [| p l IH]; intros Hn HF; [contradiction |]. inversion HF; subst.
  destruct l as [| q l]; [now apply split_one |].
  rewrite join_cons by discriminate. rewrite split_app, split_one, IH by (assumption || discriminate).
  reflexivity.
Qed.

Lemma join_app : forall a b, a <> [] -> b <> [] -> join_slash (a ++ b) = join_slash a ++ slash :: join_slash b.
Proof.
  induction a as [| p a IH]; intros b Ha Hb; [contradiction |].
  destruct a as [| q a].
  - cbn [app]. now rewrite join_cons.
  - cbn [app] in *. rewrite join_cons by discriminate. rewrite IH by (assumption || discriminate).
    rewrite (join_cons p (q :: a)) by discriminate. now rewrite <- app_assoc.
Qed.

(** ** Components by parts *)

Definition skipped (p : str) : bool := str_empty p || str_eqb p (L ".").

Definition comps_parts (parts : list str) : list component :=
  match parts with
  | [] => []
  | first :: rest =>
      (match first, rest with
       | [], [] => []
       | [], _ => [RootDir]
       | _, _ => if str_eqb first (L ".") then [CurDir] else part_component first
       end) ++ flat_map part_component rest
  end.

Lemma part_skipped : forall p, skipped p = true -> part_component p = [].
Proof. intros p H. unfold part_component. unfold skipped in H. now rewrite H. Qed.

Lemma part_kept : forall p, skipped p = false -> exists c, part_component p = [c].
Proof.
  intros p H. unfold part_component. unfold skipped in H. rewrite H.
  destruct (str_eqb p (L "..")); eauto.
Qed.

Lemma is_absolute_parts : forall p,
  is_absolute p = match split_slash p with [] :: _ :: _ => true | _ => false end.
Proof.
  intros [| c p]; [reflexivity |]. cbn [is_absolute split_slash].
  destruct (c =? slash) eqn:E.
  - pose proof (split_nonempty p). destruct (split_slash p); [contradiction | reflexivity].
  - pose proof (split_nonempty p). destruct (split_slash p); reflexivity.
Qed.

Lemma components_parts : forall p, components p = comps_parts (split_slash p).
Proof.
  intros p. unfold components. rewrite is_absolute_parts. pose proof (split_nonempty p) as Hn.
  destruct (split_slash p) as [| first rest]; [contradiction |]. cbn [comps_parts flat_map].
  destruct first as [| c f].
  - destruct rest; reflexivity.
  - destruct (str_eqb (c :: f) (L ".")) eqn:E; [| reflexivity].
    rewrite (part_skipped (c :: f)); [reflexivity |]. unfold skipped. now rewrite E, orb_true_r.
Qed.

Lemma components_join : forall l, l <> [] -> Forall no_slash l -> components (join_slash l) = comps_parts l.
Proof. intros l Hn HF. rewrite components_parts, split_join by assumption. reflexivity. Qed.

Lemma comps_parts_app : forall a b, a <> [] -> a <> [[]] -> comps_parts (a ++ b) = comps_parts a ++ flat_map part_component b.
Proof.
  intros [| f a] b Hn Hn'; [contradiction |]. cbn [app comps_parts]. rewrite flat_map_app.
  destruct f as [| c f].
  - destruct a as [| q a]; [contradiction |]. reflexivity.
  - now rewrite <- app_assoc.
Qed.

Lemma comps_parts_root : forall b, b <> [] -> comps_parts ([] :: b) = RootDir :: flat_map part_component b.
Proof. intros [| q b] H; [contradiction | reflexivity]. Qed.

(** ** Names *)

(** An entry's name in a directory. *)
Definition is_name (n : str) : Prop := n <> [] /\ no_slash n /\ n <> L "." /\ n <> L "..".

Lemma name_part : forall n, is_name n -> part_component n = [Normal n].
Proof.
  intros n (H1 & H2 & H3 & H4). unfold part_component.
  destruct n as [| c n]; [contradiction |]. cbn [str_empty orb].
  apply str_eqb_neq in H3. apply str_eqb_neq in H4. now rewrite H3, H4.
Qed.

Lemma name_skipped : forall n, is_name n -> skipped n = false.
Proof.
  intros n (H1 & H2 & H3 & H4). unfold skipped. destruct n as [| c n]; [contradiction |].
  apply str_eqb_neq in H3. now rewrite H3.
Qed.

Lemma part_normal : forall p n, part_component p = [Normal n] -> p = n /\ skipped p = false /\ p <> L "..".
Proof.
  intros p n H. unfold part_component, skipped in *.
  destruct (str_empty p || str_eqb p (L ".")); [discriminate |].
  destruct (str_eqb p (L "..")) eqn:E; [discriminate |]. apply str_eqb_neq in E.
  injection H as <-. auto.
Qed.

Lemma last_char_app : forall a c, last_char (a ++ [c]) = Some c.
Proof.
  induction a as [| x a IH]; intros c; [reflexivity |]. cbn [app last_char]. rewrite IH.
  destruct a; reflexivity.
Qed.

Lemma last_char_split : forall s, s = [] /\ last_char s = None \/ exists a c, s = a ++ [c] /\ last_char s = Some c.
Proof.
  intros s. destruct (rev s) as [| c r] eqn:E.
  - left. apply (f_equal (@rev _)) in E. rewrite rev_involutive in E. subst. auto.
  - right. apply (f_equal (@rev _)) in E. rewrite rev_involutive in E. subst. cbn [rev].
    exists (rev r), c. rewrite last_char_app. auto.
Qed.

Lemma not_absolute : forall n, no_slash n -> is_absolute n = false.
Proof.
  intros [| c n] H; [reflexivity |]. cbn [is_absolute]. apply N.eqb_neq. intros ->. apply H. now left.
Qed.

(** The parts of a pushed path. *)
Lemma push_parts : forall p r, is_absolute r = false ->
  push p r = r /\ p = [] \/
  (exists a, p = a ++ [slash] /\ push p r = a ++ slash :: r) \/
  (p <> [] /\ last_char p <> Some slash /\ push p r = p ++ slash :: r).
Proof.
  intros p r H. unfold push. rewrite H. destruct (last_char_split p) as [(-> & _) | (a & c & -> & E)].
  - auto.
  - rewrite E. destruct (c =? slash) eqn:Ec.
    + apply N.eqb_eq in Ec. subst c. right. left. exists a. split; [reflexivity |].
      now rewrite <- app_assoc.
    + apply N.eqb_neq in Ec. right. right. split; [| split].
      * intros H0. apply app_eq_nil in H0. destruct H0; discriminate.
      * congruence.
      * reflexivity.
Qed.

Lemma components_push : forall p r, is_absolute r = false -> p <> [] ->
  components (push p r) = components p ++ flat_map part_component (split_slash r).
Proof.
  intros p r H Hp. rewrite !components_parts.
  destruct (push_parts p r H) as [(_ & ->) | [(a & -> & ->) | (Hn & Hl & ->)]]; [contradiction | |].
  - rewrite !split_app. change (split_slash []) with ([[]] : list str).
    pose proof (split_nonempty a) as Ha. pose proof (split_nonempty r) as Hr.
    destruct (list_eq_dec (list_eq_dec N.eq_dec) (split_slash a) [[]]) as [-> | Ha'].
    + cbn [app]. rewrite comps_parts_root by assumption. reflexivity.
    + rewrite !comps_parts_app by assumption. cbn [flat_map part_component str_empty orb].
      now rewrite !app_nil_r.
  - rewrite split_app. apply comps_parts_app; [apply split_nonempty |].
    intros E. apply (f_equal join_slash) in E. rewrite join_split in E. now apply Hn.
Qed.

Lemma components_push_name : forall p n, is_name n -> components (push p n) = components p ++ [Normal n].
Proof.
  intros p n Hn. pose proof Hn as (H1 & H2 & H3 & H4).
  destruct p as [| c p].
  - unfold push. rewrite not_absolute by assumption. cbn [last_char].
    rewrite components_parts, split_one by assumption. cbn [comps_parts].
    destruct n as [| d n]; [contradiction |].
    pose proof H3 as H3'. apply str_eqb_neq in H3'. rewrite H3'. cbn [flat_map]. rewrite app_nil_r.
    now apply name_part.
  - rewrite components_push by (discriminate || now apply not_absolute).
    rewrite split_one by assumption. cbn [flat_map]. now rewrite name_part, app_nil_r.
Qed.

Lemma components_empty : components [] = [].
Proof. reflexivity. Qed.

(** ** The parent of a path *)

Lemma trim_shape : forall l, l <> [] ->
  exists junk kept, l = junk ++ kept /\ trim_parts l = kept /\ forallb skipped junk = true /\ kept <> [] /\
    (forall x y r, kept = x :: y :: r -> skipped x = false).
Proof.
  induction l as [| p l IH]; intros Hl; [contradiction |].
  destruct l as [| q l].
  - exists [], [p]. repeat split; try discriminate.
  - cbn [trim_parts]. destruct (str_empty p || str_eqb p (L ".")) eqn:E.
    + destruct IH as (junk & kept & H1 & H2 & H3 & H4 & H5); [discriminate |].
      exists (p :: junk), kept. rewrite H1. split; [reflexivity |].
      rewrite <- H1. repeat split; try assumption. cbn [forallb].
      unfold skipped at 1. now rewrite E, H3.
    + exists [], (p :: q :: l). repeat split; try discriminate.
      intros x y r E'. injection E' as <- _ _. exact E.
Qed.

Lemma flat_skipped : forall l, forallb skipped l = true -> flat_map part_component l = [].
Proof.
  induction l as [| p l IH]; intros H; [reflexivity |]. cbn [forallb] in H.
  apply andb_true_iff in H. destruct H as [H1 H2]. cbn [flat_map]. now rewrite part_skipped, IH.
Qed.

Lemma forallb_rev : forall (f : str -> bool) l, forallb f (rev l) = forallb f l.
Proof.
  intros f l. induction l as [| x l IH]; [reflexivity |]. cbn [rev forallb].
  rewrite forallb_app, IH. cbn [forallb]. rewrite andb_true_r. apply andb_comm.
Qed.

Lemma last_opt_app : forall (A : Type) (l : list A) x, last_opt (l ++ [x]) = Some x.
Proof.
  induction l as [| y l IH]; intros x; [reflexivity |]. cbn [app last_opt]. rewrite IH.
  destruct l; reflexivity.
Qed.

Lemma last_opt_inv : forall (A : Type) (l : list A) x, last_opt l = Some x -> exists b, l = b ++ [x].
Proof.
  intros A l. induction l as [| y l IH]; intros x H; [discriminate |].
  destruct l as [| z l].
  - injection H as <-. exists []. reflexivity.
  - destruct (IH x H) as (b & E). exists (y :: b). cbn [app]. now rewrite <- E.
Qed.

(** A path that ends in a name: its parts are those before the name, the name, and
    parts that are skipped. *)
Lemma ends_in_name : forall p cs n, components p = cs ++ [Normal n] ->
  exists before junk,
    split_slash p = before ++ n :: junk /\ forallb skipped junk = true /\ skipped n = false /\ n <> L ".." /\
    trim_parts (rev (split_slash p)) = n :: rev before.
Proof.
  intros p cs n H. rewrite components_parts in H.
  pose proof (split_nonempty p) as Hn. remember (split_slash p) as parts eqn:Ep. clear Ep p.
  assert (Hr : rev parts <> []).
  { intros E. apply (f_equal (@rev _)) in E. rewrite rev_involutive in E. now apply Hn. }
  destruct (trim_shape (rev parts) Hr) as (junk & kept & H1 & H2 & H3 & H4 & H5).
  destruct kept as [| x kept]; [contradiction |].
  assert (Hp : parts = rev kept ++ x :: rev junk).
  { rewrite <- (rev_involutive parts), H1, rev_app_distr. cbn [rev]. now rewrite <- app_assoc. }
  assert (Hx : x = n /\ skipped n = false /\ n <> L "..").
  { rewrite Hp in H. destruct kept as [| y kept].
    - cbn [rev app] in H. cbn [comps_parts] in H.
      rewrite flat_skipped in H by (now rewrite forallb_rev). rewrite app_nil_r in H.
      destruct x as [| c x].
      + destruct (rev junk); [destruct cs; discriminate |].
        apply (f_equal last_opt) in H. rewrite last_opt_app in H. discriminate.
      + destruct (str_eqb (c :: x) (L ".")).
        * apply (f_equal last_opt) in H. rewrite last_opt_app in H. discriminate.
        * assert (Hc : part_component (c :: x) = [Normal n]).
          { destruct (skipped (c :: x)) eqn:Es.
            - rewrite part_skipped in H by assumption. destruct cs; discriminate.
            - destruct (part_kept _ Es) as (k & Ek). rewrite Ek in *.
              apply (f_equal last_opt) in H. rewrite last_opt_app in H. cbn in H. congruence. }
          destruct (part_normal _ _ Hc) as (-> & ? & ?). auto.
    - specialize (H5 x y kept eq_refl). destruct (part_kept _ H5) as (k & Ek).
      assert (E : last_opt (comps_parts (rev (y :: kept) ++ x :: rev junk)) = Some k).
      { destruct (list_eq_dec (list_eq_dec N.eq_dec) (rev (y :: kept)) [[]]) as [Ey | Ey].
        - rewrite Ey. cbn [app comps_parts flat_map]. rewrite Ek, flat_skipped by (now rewrite forallb_rev).
          reflexivity.
        - rewrite comps_parts_app; [| | exact Ey].
          + cbn [flat_map]. rewrite Ek, flat_skipped by (now rewrite forallb_rev).
            rewrite app_nil_r. apply last_opt_app.
          + cbn [rev]. intros E0. apply app_eq_nil in E0. destruct E0; discriminate. }
      rewrite H, last_opt_app in E. injection E as <-.
      destruct (part_normal _ _ Ek) as (-> & ? & ?). auto. }
  destruct Hx as (-> & Hs & Hd).
  exists (rev kept), (rev junk). rewrite rev_involutive, forallb_rev. auto 6.
Qed.

Lemma comps_before : forall before n junk cs,
  comps_parts (before ++ n :: junk) = cs ++ [Normal n] -> forallb skipped junk = true ->
  skipped n = false -> n <> L ".." ->
  before = [] /\ cs = [] \/ before = [[]] /\ cs = [RootDir] \/
  before <> [] /\ before <> [[]] /\ cs = comps_parts before.
Proof.
  intros before n junk cs H Hj Hs Hd.
  assert (Hn : part_component n = [Normal n]).
  { unfold part_component. unfold skipped in Hs. rewrite Hs. apply str_eqb_neq in Hd. now rewrite Hd. }
  destruct before as [| b before].
  - left. split; [reflexivity |]. cbn [app comps_parts] in H. rewrite flat_skipped, app_nil_r in H by assumption.
    destruct n as [| c n]; [discriminate |].
    unfold skipped in Hs. cbn [str_empty orb] in Hs. rewrite Hs, Hn in H.
    destruct cs as [| ? [| ? ?]]; try discriminate. reflexivity.
  - right. destruct (list_eq_dec (list_eq_dec N.eq_dec) (b :: before) [[]]) as [E | E].
    + left. injection E as -> ->. split; [reflexivity |].
      cbn [app comps_parts flat_map] in H. rewrite Hn, flat_skipped in H by assumption.
      cbn [app] in H. change [RootDir; Normal n] with ([RootDir] ++ [Normal n]) in H.
      now apply app_inj_tail in H.
    + right. split; [discriminate | split; [exact E |]].
      rewrite comps_parts_app in H by (discriminate || assumption). cbn [flat_map] in H.
      rewrite Hn, flat_skipped in H by assumption. rewrite app_nil_r in H.
      apply app_inj_tail in H. now destruct H.
Qed.

Lemma parts_path_comps : forall (b : bool) kept, kept <> [] -> Forall no_slash kept ->
  (kept = [[]] -> b = true) ->
  components (parts_path b kept) = match kept with [[]] => [RootDir] | _ => comps_parts (rev kept) end.
Proof.
  intros b kept Hn HF Hb. destruct (list_eq_dec (list_eq_dec N.eq_dec) kept [[]]) as [-> | E].
  - cbn [parts_path]. rewrite Hb by reflexivity. reflexivity.
  - assert (H1 : parts_path b kept = join_slash (rev kept)).
    { destruct kept as [| [| c k] [| ? ?]]; try reflexivity. now contradiction E. }
    rewrite H1, components_join.
    + destruct kept as [| [| c k] [| ? ?]]; try reflexivity. now contradiction E.
    + intros E'. apply (f_equal (@rev _)) in E'. rewrite rev_involutive in E'. now apply Hn.
    + now apply Forall_rev.
Qed.

Lemma components_pop : forall p cs n, components p = cs ++ [Normal n] -> components (pop p) = cs.
Proof.
  intros p cs n H. destruct (ends_in_name p cs n H) as (before & junk & Hp & Hj & Hs & Hd & Ht).
  unfold pop, parent. rewrite H, last_opt_app, Ht.
  pose proof H as Hc. rewrite components_parts, Hp in Hc.
  pose proof (split_no_slash p) as HF. rewrite Hp in HF. apply Forall_app in HF. destruct HF as [HF _].
  destruct (comps_before _ _ _ _ Hc Hj Hs Hd) as [(-> & ->) | [(-> & ->) | (Hb & Hb' & ->)]].
  - reflexivity.
  - assert (Ha : is_absolute p = true) by (rewrite is_absolute_parts, Hp; reflexivity).
    rewrite Ha. reflexivity.
  - assert (Hr : rev before <> []).
    { intros E. apply (f_equal (@rev _)) in E. rewrite rev_involutive in E. now apply Hb. }
    destruct (trim_shape (rev before) Hr) as (junk2 & kept & H1 & H2 & H3 & H4 & _).
    assert (Eb : before = rev kept ++ rev junk2).
    { rewrite <- (rev_involutive before), H1. apply rev_app_distr. }
    rewrite H2, parts_path_comps; try assumption.
    + destruct (list_eq_dec (list_eq_dec N.eq_dec) kept [[]]) as [Ek | Ek].
      * rewrite Ek in Eb |- *. rewrite Eb. cbn [rev app]. rewrite comps_parts_root, flat_skipped; [reflexivity | now rewrite forallb_rev |].
        intros Ej. apply Hb'. rewrite Eb, Ej. reflexivity.
      * transitivity (comps_parts (rev kept)).
        -- destruct kept as [| [| c k] [| ? ?]]; try reflexivity. now contradiction Ek.
        -- rewrite Eb. rewrite comps_parts_app, flat_skipped, app_nil_r; [reflexivity | | |].
           ++ now rewrite forallb_rev.
           ++ intros E. apply (f_equal (@rev _)) in E. rewrite rev_involutive in E. now apply H4.
           ++ intros E. apply (f_equal (@rev _)) in E. rewrite rev_involutive in E. now apply Ek.
    + rewrite Eb in HF. apply Forall_app in HF. destruct HF as [HF _]. apply Forall_rev in HF.
      now rewrite rev_involutive in HF.
    + intros ->. rewrite is_absolute_parts, Hp, Eb. cbn [rev app].
      destruct (rev junk2); reflexivity.
Qed.

Lemma components_pop_push : forall p n, is_name n -> components (pop (push p n)) = components p.
Proof. intros p n H. eapply components_pop. now apply components_push_name. Qed.

(** ** File names and extensions *)

Lemma file_name_comps : forall p n, file_name p = Some n <-> exists cs, components p = cs ++ [Normal n].
Proof.
  intros p n. unfold file_name. split.
  - destruct (last_opt (components p)) as [[| | | x] |] eqn:E; try discriminate.
    intros H. injection H as <-. now apply last_opt_inv.
  - intros (cs & ->). now rewrite last_opt_app.
Qed.

Lemma part_name : forall p c, no_slash p -> part_component p = [Normal c] -> is_name c.
Proof.
  intros p c Hp H. destruct (part_normal _ _ H) as (<- & Hs & Hd). unfold skipped in Hs.
  apply orb_false_iff in Hs. destruct Hs as [H1 H2]. apply str_eqb_neq in H2.
  repeat split; try assumption. intros ->. discriminate.
Qed.

Lemma components_names : forall p n, In (Normal n) (components p) -> is_name n.
Proof.
  intros p n. unfold components. rewrite in_app_iff. intros [H | H].
  - destruct (is_absolute p); [destruct H as [H | []]; discriminate |].
    destruct (split_slash p); [contradiction |]. destruct (str_eqb l (L ".")); [| contradiction].
    destruct H as [H | []]. discriminate.
  - apply in_flat_map in H. destruct H as (part & H1 & H2).
    pose proof (split_no_slash p) as HF. rewrite Forall_forall in HF. specialize (HF part H1).
    apply (part_name part); [assumption |]. unfold part_component in *.
    destruct (str_empty part || str_eqb part (L ".")); [contradiction |].
    destruct (str_eqb part (L "..")); destruct H2 as [H2 | []]; [discriminate | now rewrite H2].
Qed.

Lemma rsplit_once_spec : forall c s,
  match rsplit_once c s with
  | Some (a, b) => s = a ++ c :: b /\ ~ In c b
  | None => ~ In c s
  end.
Proof.
  intros c s. induction s as [| x s IH]; cbn [rsplit_once]; [now intros [] |].
  destruct (rsplit_once c s) as [[a b] |].
  - destruct IH as [-> IH]. now split.
  - destruct (x =? c) eqn:E.
    + apply N.eqb_eq in E. subst x. now split.
    + apply N.eqb_neq in E. intros [H | H]; [congruence | contradiction].
Qed.

Lemma app_dot_inj : forall (c : N) a b a' b', ~ In c b -> ~ In c b' -> a ++ c :: b = a' ++ c :: b' -> a = a' /\ b = b'.
Proof.
  intros c a. induction a as [| x a IH]; intros b [| y a'] b' Hb Hb' H; cbn [app] in H.
  - injection H as ->. auto.
  - injection H as <- ->. exfalso. apply Hb. apply in_or_app. right. now left.
  - injection H as -> <-. exfalso. apply Hb'. apply in_or_app. right. now left.
  - injection H as <- H. destruct (IH _ _ _ Hb Hb' H) as [-> ->]. auto.
Qed.

Lemma rsplit_once_app : forall c a b, ~ In c b -> rsplit_once c (a ++ c :: b) = Some (a, b).
Proof.
  intros c a b H. pose proof (rsplit_once_spec c (a ++ c :: b)) as HS.
  destruct (rsplit_once c (a ++ c :: b)) as [[a' b'] |].
  - destruct HS as [E Hb']. destruct (app_dot_inj _ _ _ _ _ H Hb' E) as [-> ->]. reflexivity.
  - exfalso. apply HS. apply in_or_app. right. now left.
Qed.

Lemma name_extension_spec : forall n e,
  name_extension n = Some e <-> exists stem, stem <> [] /\ n = stem ++ dot :: e /\ ~ In dot e.
Proof.
  intros n e. unfold name_extension. pose proof (rsplit_once_spec dot n) as HS.
  destruct (rsplit_once dot n) as [[[| c a] b] |].
  - destruct HS as [-> Hb]. split; [discriminate |]. intros (stem & Hs & E & He).
    change (dot :: b) with ([] ++ dot :: b) in E.
    destruct (app_dot_inj _ _ _ _ _ Hb He E) as [<- _]. contradiction.
  - destruct HS as [-> Hb]. split.
    + intros H. injection H as <-. exists (c :: a). repeat split; try assumption. discriminate.
    + intros (stem & Hs & E & He). destruct (app_dot_inj _ _ _ _ _ Hb He E) as [_ ->]. reflexivity.
  - split; [discriminate |]. intros (stem & Hs & -> & He). exfalso. apply HS. apply in_or_app. right. now left.
Qed.

Lemma name_stem_spec : forall stem e, stem <> [] -> ~ In dot e -> name_stem (stem ++ dot :: e) = stem.
Proof.
  intros stem e Hs He. unfold name_stem. rewrite rsplit_once_app by assumption.
  destruct stem; [contradiction | reflexivity].
Qed.

(** Names with an extension of a MinTyML file. *)
Definition minty_name (n stem : str) : Prop :=
  exists e, n = stem ++ dot :: e /\ stem <> [] /\ (lower e = L "mty" \/ lower e = L "minty").

Lemma lower_dot : forall e, In dot e -> In dot (lower e).
Proof.
  intros e H. unfold lower. apply in_map_iff. exists dot. split; [reflexivity | assumption].
Qed.

Lemma minty_no_dot : forall e, lower e = L "mty" \/ lower e = L "minty" -> ~ In dot e.
Proof.
  intros e H Hin. apply lower_dot in Hin. destruct H as [H | H]; rewrite H in Hin; cbn in Hin;
    intuition discriminate.
Qed.

Lemma eq_ignore_case_eq : forall a b, eq_ignore_case a b = true <-> lower a = lower b.
Proof. intros a b. unfold eq_ignore_case. apply str_eqb_eq. Qed.

Lemma has_minty_spec : forall p,
  has_minty_extension p = true <-> exists n stem, file_name p = Some n /\ minty_name n stem.
Proof.
  intros p. unfold has_minty_extension, extension. destruct (file_name p) as [n |].
  - split.
    + destruct (name_extension n) as [e |] eqn:E; [| discriminate]. intros H.
      apply name_extension_spec in E. destruct E as (stem & Hs & -> & He).
      exists (stem ++ dot :: e), stem. split; [reflexivity |]. exists e. split; [reflexivity |].
      split; [assumption |]. cbn [existsb] in H. rewrite orb_false_r in H. apply orb_true_iff in H.
      rewrite !eq_ignore_case_eq in H. exact H.
    + intros (n' & stem & E & (e & E' & Hs & He)). injection E as <-. subst n.
      assert (E : name_extension (stem ++ dot :: e) = Some e).
      { apply name_extension_spec. exists stem. repeat split; try assumption. now apply minty_no_dot. }
      rewrite E. cbn [existsb]. rewrite orb_false_r. apply orb_true_iff. rewrite !eq_ignore_case_eq. exact He.
  - split; [discriminate |]. intros (n & stem & E & _). discriminate.
Qed.

Lemma minty_stem : forall n stem, minty_name n stem -> name_stem n = stem.
Proof.
  intros n stem (e & -> & Hs & He). apply name_stem_spec; [assumption | now apply minty_no_dot].
Qed.

(** ** Changing the extension *)

Definition html (xml : bool) : str := if xml then L ".xhtml" else L ".html".

Lemma html_shape : forall xml, exists e, html xml = dot :: e /\ ~ In dot e /\ no_slash e /\ e <> [] /\
  lower e <> L "mty" /\ lower e <> L "minty".
Proof.
  intros [|]; [exists (L "xhtml") | exists (L "html")]; (split; [reflexivity |]);
    repeat split; try (cbn; intuition discriminate); try discriminate; intros H; cbn in H; intuition discriminate.
Qed.

Lemma name_html : forall s xml, no_slash s -> is_name (s ++ html xml).
Proof.
  intros s xml Hs. destruct (html_shape xml) as (e & -> & H1 & H2 & H3 & _). repeat split.
  - destruct s; discriminate.
  - intros H. apply in_app_or in H. destruct H as [H | [H | H]]; [contradiction | discriminate | contradiction].
  - intros H. destruct s as [| c [| ? ?]]; cbn in H; try discriminate. injection H as ->. contradiction.
  - intros H. destruct s as [| c s]; cbn [app] in H.
    + injection H as ->. now apply H1; left.
    + destruct s as [| d s]; cbn [app] in H; [injection H as _ -> ; contradiction |].
      injection H as _ _ H. destruct s; discriminate.
Qed.

Lemma change_minty : forall xml p cs n stem,
  components p = cs ++ [Normal n] -> minty_name n stem ->
  components (change_extension xml p) = cs ++ [Normal (stem ++ html xml)].
Proof.
  intros xml p cs n stem H Hm.
  assert (Hf : file_name p = Some n) by (apply file_name_comps; eauto).
  assert (HM : has_minty_extension p = true) by (apply has_minty_spec; eauto).
  unfold change_extension. rewrite HM. fold (html xml).
  destruct (ends_in_name p cs n H) as (before & junk & Hp & Hj & Hs & Hd & Ht).
  unfold remove_extension. rewrite Hf, Ht, (minty_stem n stem Hm).
  change (rev (stem :: rev before)) with (rev (rev before) ++ [stem]). rewrite rev_involutive.
  pose proof (split_no_slash p) as HF. rewrite Hp in HF. apply Forall_app in HF. destruct HF as [HF HN].
  apply Forall_inv in HN.
  assert (Hstem : no_slash stem).
  { destruct Hm as (e & -> & _ & _). intros Hin. apply HN. apply in_or_app. now left. }
  assert (Hname : is_name (stem ++ html xml)) by (now apply name_html).
  assert (E : join_slash (before ++ [stem]) ++ html xml = join_slash (before ++ [stem ++ html xml])).
  { destruct before as [| b before]; [reflexivity |].
    rewrite !join_app by discriminate. cbn [join_slash]. now rewrite <- app_assoc. }
  rewrite E, components_join.
  - pose proof H as Hc. rewrite components_parts, Hp in Hc.
    destruct (comps_before _ _ _ _ Hc Hj Hs Hd) as [(-> & ->) | [(-> & ->) | (Hb & Hb' & ->)]].
    + cbn [app comps_parts flat_map]. rewrite app_nil_r.
      pose proof (name_part _ Hname) as HP. pose proof Hname as (H1 & _ & H3 & _).
      apply str_eqb_neq in H3. destruct (stem ++ html xml); [contradiction |]. now rewrite H3.
    + cbn [app comps_parts flat_map]. rewrite name_part by assumption. reflexivity.
    + rewrite comps_parts_app by assumption. cbn [flat_map]. now rewrite name_part.
  - destruct before; discriminate.
  - apply Forall_app. split; [assumption |]. constructor; [apply Hname | constructor].
Qed.

Lemma push_absolute : forall p r, is_absolute r = true -> push p r = r.
Proof. intros p r H. unfold push. now rewrite H. Qed.

Lemma split_append : forall p before last h,
  split_slash p = before ++ [last] -> no_slash h -> split_slash (p ++ h) = before ++ [last ++ h].
Proof.
  intros p before last h H Hh. pose proof (split_no_slash p) as HF. rewrite H in HF.
  apply Forall_app in HF. destruct HF as [HF HL]. apply Forall_inv in HL.
  assert (E : p ++ h = join_slash (before ++ [last ++ h])).
  { rewrite <- (join_split p), H. destruct before as [| b before]; [reflexivity |].
    rewrite !join_app by discriminate. cbn [join_slash]. now rewrite <- app_assoc. }
  rewrite E. apply split_join.
  - destruct before; discriminate.
  - apply Forall_app. split; [assumption |]. constructor; [| constructor].
    intros Hin. apply in_app_or in Hin. destruct Hin; contradiction.
Qed.

Lemma html_no_slash : forall xml, no_slash (html xml).
Proof. intros [|] H; cbn in H; intuition discriminate. Qed.

Lemma split_last : forall p, exists before last, split_slash p = before ++ [last] /\ no_slash last.
Proof.
  intros p. destruct (exists_last (split_nonempty p)) as (before & last & E).
  exists before, last. split; [exact E |]. pose proof (split_no_slash p) as HF. rewrite E in HF.
  apply Forall_app in HF. destruct HF as [_ HL]. now apply Forall_inv in HL.
Qed.

(** The directory of a path's last part, and that part. *)
Lemma components_last : forall before,
  exists cs, forall l, (before <> [] \/ is_name l) ->
    (comps_parts (before ++ [l]) = cs ++ part_component l).
Proof.
  intros [| b before].
  - exists []. intros l [H | H]; [contradiction |]. cbn [app comps_parts flat_map]. rewrite app_nil_r.
    pose proof H as (H1 & _ & H3 & _). apply str_eqb_neq in H3. destruct l; [contradiction |]. now rewrite H3.
  - destruct (list_eq_dec (list_eq_dec N.eq_dec) (b :: before) [[]]) as [E | E].
    + injection E as -> ->. exists [RootDir]. intros l _. cbn. now rewrite app_nil_r.
    + exists (comps_parts (b :: before)). intros l _.
      rewrite comps_parts_app by (discriminate || assumption). cbn [flat_map]. now rewrite app_nil_r.
Qed.

Lemma change_other : forall xml p before last,
  has_minty_extension p = false -> split_slash p = before ++ [last] -> no_slash last ->
  exists cs, components (change_extension xml p) = cs ++ [Normal (last ++ html xml)] /\
    (before = [] /\ cs = [] /\ (components p = [] \/ components p = [CurDir] \/ components p = part_component last) \/
     components p = cs ++ part_component last).
Proof.
  intros xml p before last HM Hp Hl. unfold change_extension. rewrite HM. fold (html xml).
  rewrite (components_parts (p ++ html xml)), (split_append p before last _ Hp (html_no_slash xml)).
  rewrite (components_parts p), Hp.
  pose proof (name_html last xml Hl) as Hname.
  destruct (components_last before) as (cs & Hcs).
  exists cs. split.
  - rewrite Hcs by auto. now rewrite name_part.
  - destruct before as [| b before].
    + left. pose proof (Hcs (last ++ html xml) (or_intror Hname)) as E.
      cbn [app comps_parts flat_map] in E. rewrite app_nil_r, name_part in E by assumption.
      pose proof Hname as (H1 & _ & H3 & _). apply str_eqb_neq in H3.
      destruct (last ++ html xml) as [| c x] eqn:Eh; [contradiction |]. rewrite H3 in E.
      split; [reflexivity |]. split.
      * destruct cs as [| ? cs]; [reflexivity |]. apply (f_equal (@length _)) in E.
        cbn [length app] in E. rewrite app_length in E. cbn [length] in E. lia.
      * cbn [app comps_parts flat_map]. rewrite app_nil_r. destruct last as [| d l]; [auto |].
        destruct (str_eqb (d :: l) (L ".")); auto.
    + right. apply Hcs. left. discriminate.
Qed.

Lemma longer : forall (A : Type) (l : list A) x, l <> l ++ [x].
Proof.
  intros A l x H. apply (f_equal (@length _)) in H. rewrite app_length in H. cbn [length] in H. lia.
Qed.

Lemma append_differs : forall (s h : str), h <> [] -> s <> s ++ h.
Proof.
  intros s h Hh H. apply Hh. apply (f_equal (@length _)) in H. rewrite app_length in H.
  destruct h; [reflexivity | cbn [length] in H; lia].
Qed.

Lemma html_not_nil : forall xml, html xml <> [].
Proof. intros [|]; discriminate. Qed.

(** The path of the output is never that of the source. *)
Lemma change_differs : forall xml p, components (change_extension xml p) <> components p.
Proof.
  intros xml p. destruct (has_minty_extension p) eqn:HM.
  - apply has_minty_spec in HM. destruct HM as (n & stem & Hf & Hm).
    apply file_name_comps in Hf. destruct Hf as (cs & H).
    rewrite (change_minty xml p cs n stem H Hm), H. intros E. apply app_inj_tail in E.
    destruct E as [_ E]. injection E as E. destruct Hm as (e & -> & Hs & He).
    destruct (html_shape xml) as (e' & E' & Hd & _ & _ & H1 & H2). rewrite E' in E.
    apply app_dot_inj in E; [| assumption | now apply minty_no_dot]. destruct E as [_ <-].
    destruct He; contradiction.
  - destruct (split_last p) as (before & last & Hp & Hl).
    destruct (change_other xml p before last HM Hp Hl) as (cs & -> & [(_ & -> & H) | H]).
    + destruct H as [-> | [-> | ->]]; try discriminate. unfold part_component.
      destruct (str_empty last || str_eqb last (L ".")); [discriminate |].
      destruct (str_eqb last (L "..")); [discriminate |]. intros E. injection E as E. symmetry in E.
      now apply append_differs in E; [| apply html_not_nil].
    + rewrite H. unfold part_component.
      destruct (str_empty last || str_eqb last (L ".")).
      * rewrite app_nil_r. intros E. symmetry in E. now apply longer in E.
      * destruct (str_eqb last (L "..")); intros E; apply app_inv_head in E; [discriminate |].
        injection E as E. symmetry in E. now apply append_differs in E; [| apply html_not_nil].
Qed.

(** A path with a name at its end: its output is in the same directory. *)
Lemma change_in_dir : forall xml p cs n, components p = cs ++ [Normal n] ->
  exists names, names <> [] /\ components (change_extension xml p) = cs ++ map Normal names.
Proof.
  intros xml p cs n H. destruct (has_minty_extension p) eqn:HM.
  - apply has_minty_spec in HM. destruct HM as (n' & stem & Hf & Hm).
    assert (n' = n) as ->.
    { unfold file_name in Hf. rewrite H, last_opt_app in Hf. congruence. }
    exists [stem ++ html xml]. split; [discriminate |]. now rewrite (change_minty xml p cs n stem H Hm).
  - destruct (split_last p) as (before & last & Hp & Hl).
    destruct (change_other xml p before last HM Hp Hl) as (cs' & -> & [(_ & -> & H') | H']).
    + rewrite H in H'. destruct H' as [E | [E | E]].
      * destruct cs; discriminate.
      * destruct cs as [| ? [| ? ?]]; try discriminate.
      * destruct (part_component last) as [| k [| ? ?]] eqn:Ek.
        -- destruct cs; discriminate.
        -- destruct cs as [| ? [| ? ?]]; try discriminate. exists [last ++ html xml]. split; [discriminate | reflexivity].
        -- unfold part_component in Ek. destruct (str_empty last || str_eqb last (L ".")); [discriminate |].
           destruct (str_eqb last (L "..")); discriminate.
    + rewrite H in H'. unfold part_component in H'.
      destruct (str_empty last || str_eqb last (L ".")).
      * rewrite app_nil_r in H'. subst cs'. exists [n; last ++ html xml]. split; [discriminate |].
        now rewrite <- app_assoc.
      * destruct (str_eqb last (L "..")); apply app_inj_tail in H'; destruct H' as [-> E]; [discriminate |].
        exists [last ++ html xml]. split; [discriminate | reflexivity].
Qed.

(** A plainly written path. *)
Lemma change_plain : forall xml dir n,
  is_name n -> (dir = [] \/ exists d, dir = d ++ [slash]) ->
  (exists stem, minty_name n stem /\ change_extension xml (dir ++ n) = dir ++ stem ++ html xml) \/
  ((forall stem, ~ minty_name n stem) /\ change_extension xml (dir ++ n) = dir ++ n ++ html xml).
Proof.
  intros xml dir n Hn Hdir.
  assert (HP : exists before, split_slash (dir ++ n) = before ++ [n] /\ (forall x, join_slash (before ++ [x]) = dir ++ x) /\
               exists cs, components (dir ++ n) = cs ++ [Normal n]).
  { pose proof Hn as (H1 & H2 & H3 & H4). destruct Hdir as [-> | (d & ->)].
    - exists []. cbn [app]. rewrite split_one by assumption. repeat split.
      exists []. pose proof (components_push_name [] n Hn) as E. unfold push in E.
      rewrite not_absolute in E by assumption. exact E.
    - exists (split_slash d). rewrite <- app_assoc. cbn [app].
      rewrite split_app, (split_one n) by assumption. split; [reflexivity |]. split.
      + intros x. rewrite join_app, join_split by (apply split_nonempty || discriminate).
        now rewrite <- app_assoc.
      + rewrite components_parts, split_app, (split_one n) by assumption.
        destruct (components_last (split_slash d)) as (cs & Hcs). exists cs.
        rewrite Hcs by (left; apply split_nonempty). now rewrite name_part. }
  destruct HP as (before & Hp & Hj & cs & Hc).
  assert (Hf : file_name (dir ++ n) = Some n) by (apply file_name_comps; eauto).
  unfold change_extension. fold (html xml). destruct (has_minty_extension (dir ++ n)) eqn:HM.
  - left. apply has_minty_spec in HM. destruct HM as (n' & stem & Hf' & Hm).
    rewrite Hf in Hf'. injection Hf' as <-. exists stem. split; [assumption |].
    unfold remove_extension. rewrite Hf, Hp, rev_app_distr. cbn [rev app].
    assert (Ht : trim_parts (n :: rev before) = n :: rev before).
    { pose proof (name_skipped n Hn) as Hs. unfold skipped in Hs. cbn [trim_parts].
      destruct (rev before); [reflexivity |]. now rewrite Hs. }
    rewrite Ht, (minty_stem n stem Hm). cbn [rev]. rewrite rev_involutive, Hj. now rewrite <- app_assoc.
  - right. split.
    + intros stem Hm. assert (has_minty_extension (dir ++ n) = true) by (apply has_minty_spec; eauto). congruence.
    + now rewrite <- app_assoc.
Qed.

(** ** Trailing slashes *)

Lemma has_trailing_slash_root : forall p, has_trailing_slash p = true <-> components p = [RootDir].
Proof.
  intros p. unfold has_trailing_slash. rewrite orb_diag. unfold path_ends_with.
  change (rev (components (L "/"))) with [RootDir].
  assert (HR : forall c cs, rev (components p) = RootDir :: c :: cs -> False).
  { intros c cs E. apply (f_equal (@rev _)) in E. rewrite rev_involutive in E. cbn [rev] in E.
    rewrite components_parts in E. pose proof (split_nonempty p) as Hn.
    assert (Hno : forall l, In RootDir (flat_map part_component l) -> False).
    { intros l Hin. apply in_flat_map in Hin. destruct Hin as (x & _ & Hin). unfold part_component in Hin.
      destruct (str_empty x || str_eqb x (L ".")); [contradiction |].
      destruct (str_eqb x (L "..")); destruct Hin as [Hin | []]; discriminate. }
    destruct (split_slash p) as [| f rest]; [contradiction |]. cbn [comps_parts] in E.
    assert (Hin : forall pre, pre ++ flat_map part_component rest = (rev cs ++ [c]) ++ [RootDir] ->
                  (length pre <= 1)%nat -> (In RootDir pre -> length (flat_map part_component rest) = 0%nat -> False) ->
                  (pre <> [RootDir] -> ~ In RootDir pre) -> False).
    { intros pre Epre Hlen Hone Hpre.
      destruct (flat_map part_component rest) as [| k l] eqn:Ef.
      - rewrite app_nil_r in Epre. rewrite Epre in Hlen. rewrite !app_length in Hlen. cbn [length] in Hlen. lia.
      - destruct (exists_last (l := k :: l)) as (l' & z & El); [discriminate |].
        rewrite El, app_assoc in Epre. apply app_inj_tail in Epre. destruct Epre as [_ Ez]. subst z.
        apply (Hno rest). rewrite Ef, El. apply in_or_app. right. now left. }
    destruct f as [| x f].
    - destruct rest as [| q rest].
      + cbn in E. destruct (rev cs); discriminate.
      + apply (Hin [RootDir] E); [cbn; lia | | congruence].
        intros _ H0. apply (f_equal (@length _)) in E. rewrite !app_length in E. cbn [length] in E. lia.
    - destruct (str_eqb (x :: f) (L ".")).
      + apply (Hin [CurDir] E); [cbn; lia | |]; cbn; intuition discriminate.
      + unfold part_component in E at 1. destruct (str_empty (x :: f) || str_eqb (x :: f) (L ".")).
        * apply (Hin [] E); [cbn; lia | |]; cbn; intuition.
        * destruct (str_eqb (x :: f) (L "..")).
          -- apply (Hin [ParentDir] E); [cbn; lia | |]; cbn; intuition discriminate.
          -- apply (Hin [Normal (x :: f)] E); [cbn; lia | |]; cbn; intuition discriminate. }
  split.
  - destruct (rev (components p)) as [| k l] eqn:E; [discriminate |]. cbn [comps_prefix].
    destruct k; try discriminate. intros _. destruct l as [| c cs]; [| exfalso; eapply HR; eauto].
    apply (f_equal (@rev _)) in E. rewrite rev_involutive in E. exact E.
  - intros ->. reflexivity.
Qed.

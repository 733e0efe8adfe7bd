(** * Which commands can be given. *)

From Coq Require Import Lia.
From Verif Require Import Base P_Base Doc Config Errors Reporter Cli Args SpecArgs P_Args.

(* numbers in digits *)
Lemma numeral_exists n : exists ds, ds <> [] /\ Forall digit ds /\ n = decimal ds.
Proof.
  induction n as [n IH] using (well_founded_induction N.lt_wf_0).
  destruct (N.lt_ge_cases n 10) as [H | H].
  - exists [48 + n]. split; [discriminate |]. split; [constructor; [unfold digit; lia | constructor] |].
    unfold decimal. cbn [fold_left]. lia.
  - destruct (IH (n / 10)) as (ds & H1 & H2 & H3).
    { apply N.div_lt; lia. }
    exists (ds ++ [48 + n mod 10]). split; [destruct ds; discriminate |].
    pose proof (N.mod_lt n 10). split.
    + apply Forall_app. split; [exact H2 | constructor; [unfold digit; lia | constructor]].
    + unfold decimal in *. rewrite fold_left_app, <- H3. cbn [fold_left].
      rewrite (N.div_mod n 10) at 1 by lia. lia.
Qed.

Lemma numeral max n : n <= max -> exists s, Numeral max s n.
Proof.
  intros H. destruct (numeral_exists n) as (ds & H1 & H2 & H3). exists ds. exists ds. auto.
Qed.

(* the words of one use *)
Lemma spelled_use u n v ws us : Valued n v u -> Spelled ws us -> exists w, Spelled (w :: ws) (u :: us) /\ Hyphened w.
Proof.
  intros H Hs. exists (L "--" ++ n ++ L "=" ++ v). split; [now apply sp_equals |]. cbn. eexists _, _. reflexivity.
Qed.

Lemma spelled_bare u n ws us :
  Bare n u -> n <> L "recurse" -> Spelled ws us -> exists w, Spelled (w :: ws) (u :: us) /\ Hyphened w.
Proof.
  intros H Hn Hs. exists (L "--" ++ n). split; [apply sp_bare; auto; congruence |]. cbn. eexists _, _. reflexivity.
Qed.

Definition when (b : bool) (u : use) : list use := if b then [u] else [].
Definition given {A} (o : option A) (f : A -> use) : list use := match o with Some x => [f x] | None => [] end.

Lemma spelled_given {A} (o : option A) f us :
  (forall x, o = Some x -> exists n v, Valued n v (f x)) ->
  (exists ws, Spelled ws us) -> exists ws, Spelled ws (given o f ++ us).
Proof.
  intros H [ws Hs]. destruct o as [x |]; [| eauto]. destruct (H x eq_refl) as (n & v & Hv).
  destruct (spelled_use _ _ _ _ _ Hv Hs) as (w & Hw & _). eauto.
Qed.

Lemma spelled_when b u n us :
  Bare n u -> n <> L "recurse" -> (exists ws, Spelled ws us) -> exists ws, Spelled ws (when b u ++ us).
Proof.
  intros H Hn [ws Hs]. destruct b; [| eauto].
  destruct (spelled_bare _ _ _ _ H Hn Hs) as (w & Hw & _). exists (w :: ws). exact Hw.
Qed.

Lemma truth_exists b : exists s, Truth s b.
Proof. destruct b; eexists; constructor. Qed.

Lemma fast_exists f : exists s, Fast s f.
Proof. destruct f; eexists; constructor. Qed.

Lemma kind_exists k : exists s, Kind s k.
Proof. destruct k; eexists; constructor. Qed.

Lemma tags_exists l : l <> [] -> (forall k v, In (k, v) l -> ~ In 44 v) -> exists s, Tags s l.
Proof.
  induction l as [| [k v] l IH]; intros Hne H; [congruence |].
  destruct (kind_exists k) as [key Hk].
  destruct l as [| kv l].
  - eexists. apply tags_one; [exact Hk |]. apply (H k). now left.
  - destruct IH as [s Hs]; [discriminate | intros k' v' Hi; apply (H k'); now right |].
    eexists. apply tags_more; [exact Hk | | exact Hs]. apply (H k). now left.
Qed.

Definition uses_of (a : args) : list use :=
  let o := g_options a in
  when (g_stdin a) UStdin ++ given (g_src_dir a) UDir ++ given (g_out a) UOut ++ when (g_stdout a) UStdout ++
  when (o_xml o) UXml ++ when (o_pretty o) UPretty ++
  when (negb (Nat.eqb (o_indent o) 2)) (UIndent (N.of_nat (o_indent o))) ++
  given (o_complete_page o) UCompletePage ++ when (o_fragment o) UFragment ++
  when (negb (is_nil (o_special_tag o))) (USpecialTag (o_special_tag o)) ++
  given (o_forgiving o) UForgiving ++ given (o_fail_fast o) UFailFast ++
  given (o_metadata o) UMetadata ++ given (o_metadata_elements o) UMetadataElements ++
  given (g_recurse a) URecurse ++ [UErrorMode (g_error_mode a)] ++
  match g_src_files a with Some fs => map UFile fs | None => [] end.

Lemma uses_spelled a : Allowed a -> exists ws, Spelled ws (uses_of a).
Proof.
  intros [H1 H2 H3 H4 H5 H6 H7 H8 H9 H10 H11 H12 H13 H14 H15]. unfold uses_of.
  apply (spelled_when _ _ (L "stdin")); [constructor | discriminate |].
  apply spelled_given. { intros p Hp. eexists _, _. apply val_dir. congruence. }
  apply spelled_given. { intros p Hp. eexists _, _. apply val_out. congruence. }
  apply (spelled_when _ _ (L "stdout")); [constructor | discriminate |].
  apply (spelled_when _ _ (L "xml")); [constructor | discriminate |].
  apply (spelled_when _ _ (L "pretty")); [constructor | discriminate |].
  match goal with |- exists ws, Spelled ws (when ?b (UIndent ?n) ++ ?r) =>
    change (exists ws, Spelled ws ((if b then [UIndent n] else []) ++ r)) end.
  match goal with |- exists ws, Spelled ws ((if ?b then [UIndent ?n] else []) ++ ?r) =>
    replace (if b then [UIndent n] else []) with (given (if b then Some n else None) UIndent) by (destruct b; reflexivity) end.
  apply spelled_given.
  { intros n Hn. destruct (negb (Nat.eqb (o_indent (g_options a)) 2)); [| discriminate]. injection Hn as <-.
    destruct (numeral 16 (N.of_nat (o_indent (g_options a)))) as [s Hs]; [lia |]. eexists _, _. apply val_indent. exact Hs. }
  apply spelled_given. { intros b _. destruct (truth_exists b) as [s Hs]. eexists _, _. apply val_complete_page. exact Hs. }
  apply (spelled_when _ _ (L "fragment")); [constructor | discriminate |].
  match goal with |- exists ws, Spelled ws (when ?b (USpecialTag ?n) ++ ?r) =>
    change (exists ws, Spelled ws ((if b then [USpecialTag n] else []) ++ r));
    replace (if b then [USpecialTag n] else []) with (given (if b then Some n else None) USpecialTag) by (destruct b; reflexivity) end.
  apply spelled_given.
  { intros l Hl. destruct (o_special_tag (g_options a)) as [| kv l'] eqn:E; [discriminate |]. injection Hl as <-.
    destruct (tags_exists (kv :: l')) as [s Hs]; [discriminate | exact H15 |]. eexists _, _. apply val_special_tag. exact Hs. }
  apply spelled_given. { intros b _. destruct (truth_exists b) as [s Hs]. eexists _, _. apply val_forgiving. exact Hs. }
  apply spelled_given. { intros b _. destruct (fast_exists b) as [s Hs]. eexists _, _. apply val_fail_fast. exact Hs. }
  apply spelled_given. { intros b _. destruct (truth_exists b) as [s Hs]. eexists _, _. apply val_metadata. exact Hs. }
  apply spelled_given. { intros b _. destruct (truth_exists b) as [s Hs]. eexists _, _. apply val_metadata_elements. exact Hs. }
  assert (Hf : exists ws, Spelled ws (match g_src_files a with Some fs => map UFile fs | None => [] end)).
  { destruct (g_src_files a) as [fs |] eqn:E; [| eexists; constructor]. eexists. apply sp_rest.
    destruct (H9 fs eq_refl) as [_ Hn]. apply Forall_forall. intros x Hx ->. now apply Hn. }
  destruct Hf as [ws Hf].
  assert (Hm : exists s, Mode s (g_error_mode a)) by (destruct (g_error_mode a); eexists; constructor).
  destruct Hm as [s Hm]. apply val_error_mode in Hm.
  destruct (spelled_use _ _ _ _ _ Hm Hf) as (w & Hw & Hh).
  destruct (g_recurse a) as [[d |] |] eqn:Er.
  - apply (spelled_given (Some (Some d)) URecurse); [| eauto].
    intros x [= <-]. destruct (numeral (2 ^ 32 - 1) d) as [t Ht]; [now apply H6 |]. eexists _, _. apply val_recurse. exact Ht.
  - eexists. cbn [given app]. apply sp_bare; [apply bare_recurse | | exact Hw]. intros _. exact Hh.
  - eauto.
Qed.

Fixpoint apart_uses (us : list use) : Prop :=
  match us with
  | [] => True
  | u :: rest => (forall v, In v rest -> overrides v u = false) /\ apart_uses rest
  end.

Lemma matches_apart us : apart_uses us -> matches us = us.
Proof.
  enough (H : forall acc, (forall e v, In e acc -> In v us -> overrides v e = false) -> apart_uses us ->
                fold_left add us acc = acc ++ us) by (intros Ha; apply (H []); [intros e v [] | exact Ha]).
  induction us as [| u us IH]; intros acc H Ha; cbn [fold_left]; [now rewrite app_nil_r |].
  destruct Ha as [Ha1 Ha2].
  assert (add acc u = acc ++ [u]) as ->.
  { unfold add. f_equal. 
    assert (Hacc : forall e, In e acc -> overrides u e = false) by (intros e He; apply H; [exact He | now left]).
    clear - Hacc. induction acc as [| e acc IHa]; [reflexivity |]. cbn [filter].
    rewrite Hacc by now left. cbn [negb]. f_equal. apply IHa. intros x Hx. apply Hacc. now right. }
  rewrite IH; [now rewrite <- app_assoc | | exact Ha2].
  intros e v He Hv. apply in_app_or in He. destruct He as [He | [<- | []]].
  - apply H; [exact He | now right].
  - now apply Ha1.
Qed.

Lemma apart_app a b : apart_uses a -> apart_uses b -> (forall u v, In u a -> In v b -> overrides v u = false) -> apart_uses (a ++ b).
Proof.
  induction a as [| u a IH]; intros Ha Hb H; [exact Hb |]. destruct Ha as [Ha1 Ha2]. cbn [app apart_uses].
  split.
  - intros v Hv. apply in_app_or in Hv. destruct Hv as [Hv | Hv]; [now apply Ha1 | apply H; [now left | exact Hv]].
  - apply IH; auto. intros x y Hx Hy. apply H; [now right | exact Hy].
Qed.

Lemma in_when b u v : In v (when b u) -> v = u.
Proof. destruct b; cbn; [intros [<- | []]; reflexivity | intros []]. Qed.
Lemma in_given {A} (o : option A) f v : In v (given o f) -> exists x, o = Some x /\ v = f x.
Proof. destruct o as [x |]; cbn; [intros [<- | []]; eauto | intros []]. Qed.

Lemma apart_when b u us : (forall v, In v us -> overrides v u = false) -> apart_uses us -> apart_uses (when b u ++ us).
Proof. destruct b; cbn; auto. Qed.
Lemma apart_given {A} (o : option A) f us :
  (forall v x, o = Some x -> In v us -> overrides v (f x) = false) -> apart_uses us -> apart_uses (given o f ++ us).
Proof. destruct o; cbn; auto. Qed.

Ltac in_uses H :=
  repeat match type of H with
         | In _ (when _ _ ++ _) => apply in_app_or in H; destruct H as [H | H]; [apply in_when in H; subst; try reflexivity |]
         | In _ (given _ _ ++ _) => apply in_app_or in H; destruct H as [H | H]; [apply in_given in H; destruct H as (? & ? & ->); try reflexivity |]
         | In _ ([_] ++ _) => destruct H as [<- | H]; [try reflexivity |]
         end.

Lemma in_files {v} {o : option (list str)} : In v (match o with Some fs => map UFile fs | None => [] end) -> exists p, v = UFile p.
Proof. destruct o; [| intros []]. intros H. apply in_map_iff in H. destruct H as (x & <- & _). eauto. Qed.

Lemma uses_apart a : Allowed a -> apart_uses (uses_of a).
Proof.
  intros Ha. unfold uses_of.
  repeat first
    [ apply apart_when; [intros v Hv; in_uses Hv; apply in_files in Hv; destruct Hv as [p ->]; reflexivity |]
    | apply apart_given; [intros v x Hx Hv; in_uses Hv; try (apply in_files in Hv; destruct Hv as [p ->]; reflexivity) |] ].
  - destruct (al_metadata a Ha); congruence.
  - cbn [app apart_uses]. split; [intros v Hv; apply in_files in Hv; destruct Hv as [p ->]; reflexivity |].
    destruct (g_src_files a) as [fs |]; [| exact I]. induction fs as [| p fs IH]; [exact I |]. cbn [map apart_uses].
    split; [| exact IH]. intros v Hv. apply in_map_iff in Hv. destruct Hv as (x & <- & _). reflexivity.
Qed.

(* the values among them *)
Lemma vals_when {A} (f : use -> option A) b u : values f (when b u) = if b then values f [u] else [].
Proof. destruct b; reflexivity. Qed.
Lemma vals_given {A B} (f : use -> option A) (o : option B) g :
  values f (given o g) = match o with Some x => values f [g x] | None => [] end.
Proof. destruct o; reflexivity. Qed.
Lemma vals_files {A} (f : use -> option A) (o : option (list str)) :
  (forall p, f (UFile p) = None) -> values f (match o with Some fs => map UFile fs | None => [] end) = [].
Proof.
  intros H. destruct o as [fs |]; [| reflexivity]. induction fs as [| p fs IH]; [reflexivity |].
  unfold values in *. cbn [map flat_map]. now rewrite H, IH.
Qed.
Lemma vals_files_all (o : option (list str)) :
  values f_file (match o with Some fs => map UFile fs | None => [] end) = match o with Some fs => fs | None => [] end.
Proof.
  destruct o as [fs |]; [| reflexivity]. induction fs as [| p fs IH]; [reflexivity |].
  unfold values in *. cbn [map flat_map f_file app]. now rewrite IH.
Qed.

Ltac vals :=
  unfold uses_of; cbn zeta;
  rewrite !values_app, ?vals_when, ?vals_given, ?vals_files_all, ?vals_files by reflexivity;
  cbn [values flat_map app f_stdin f_dir f_recurse f_out f_stdout f_xml f_pretty f_indent f_complete_page f_fragment
       f_special_tag f_forgiving f_fail_fast f_metadata f_metadata_elements f_error_mode f_file];
  repeat match goal with
         | |- context [(if ?b then @nil ?T else @nil ?T)] => replace (if b then @nil T else @nil T) with (@nil T) by (destruct b; reflexivity)
         | |- context [match ?o with Some _ => @nil ?T | None => @nil ?T end] =>
             replace (match o with Some _ => @nil T | None => @nil T end) with (@nil T) by (destruct o; reflexivity)
         end; rewrite ?app_nil_r; cbn [app].

Lemma vl_stdin a : values f_stdin (uses_of a) = if g_stdin a then [tt] else [].
Proof. vals. reflexivity. Qed.
Lemma vl_dir a : values f_dir (uses_of a) = match g_src_dir a with Some p => [p] | None => [] end.
Proof. vals. reflexivity. Qed.
Lemma vl_recurse a : values f_recurse (uses_of a) = match g_recurse a with Some p => [p] | None => [] end.
Proof. vals. reflexivity. Qed.
Lemma vl_out a : values f_out (uses_of a) = match g_out a with Some p => [p] | None => [] end.
Proof. vals. reflexivity. Qed.
Lemma vl_stdout a : values f_stdout (uses_of a) = if g_stdout a then [tt] else [].
Proof. vals. reflexivity. Qed.
Lemma vl_xml a : values f_xml (uses_of a) = if o_xml (g_options a) then [tt] else [].
Proof. vals. reflexivity. Qed.
Lemma vl_pretty a : values f_pretty (uses_of a) = if o_pretty (g_options a) then [tt] else [].
Proof. vals. reflexivity. Qed.
Lemma vl_indent a : values f_indent (uses_of a) =
  if negb (Nat.eqb (o_indent (g_options a)) 2) then [N.of_nat (o_indent (g_options a))] else [].
Proof. vals. reflexivity. Qed.
Lemma vl_complete_page a : values f_complete_page (uses_of a) = match o_complete_page (g_options a) with Some p => [p] | None => [] end.
Proof. vals. reflexivity. Qed.
Lemma vl_fragment a : values f_fragment (uses_of a) = if o_fragment (g_options a) then [tt] else [].
Proof. vals. reflexivity. Qed.
Lemma vl_special_tag a : values f_special_tag (uses_of a) =
  if negb (is_nil (o_special_tag (g_options a))) then [o_special_tag (g_options a)] else [].
Proof. vals. reflexivity. Qed.
Lemma vl_forgiving a : values f_forgiving (uses_of a) = match o_forgiving (g_options a) with Some p => [p] | None => [] end.
Proof. vals. reflexivity. Qed.
Lemma vl_fail_fast a : values f_fail_fast (uses_of a) = match o_fail_fast (g_options a) with Some p => [p] | None => [] end.
Proof. vals. reflexivity. Qed.
Lemma vl_metadata a : values f_metadata (uses_of a) = match o_metadata (g_options a) with Some p => [p] | None => [] end.
Proof. vals. reflexivity. Qed.
Lemma vl_metadata_elements a : values f_metadata_elements (uses_of a) =
  match o_metadata_elements (g_options a) with Some p => [p] | None => [] end.
Proof. vals. reflexivity. Qed.
Lemma vl_error_mode a : values f_error_mode (uses_of a) = [g_error_mode a].
Proof. vals. reflexivity. Qed.
Lemma vl_file a : values f_file (uses_of a) = match g_src_files a with Some fs => fs | None => [] end.
Proof. vals. reflexivity. Qed.

Lemma uses_valid a : Allowed a -> valid (matches (uses_of a)) = true /\ build (matches (uses_of a)) = a.
Proof.
  intros Ha. rewrite matches_apart by now apply uses_apart. destruct Ha as [H1 H2 H3 H4 H5 H6 H7 H8 H9 H10 H11 H12 H13 H14 H15].
  unfold valid, build, present, value.
  rewrite vl_stdin, vl_dir, vl_recurse, vl_out, vl_stdout, vl_xml, vl_pretty, vl_indent, vl_complete_page, vl_fragment,
    vl_special_tag, vl_forgiving, vl_fail_fast, vl_metadata, vl_metadata_elements, vl_error_mode, vl_file.
  destruct a as [a1 a2 a3 a4 a5 a6 [o1 o2 o3 o4 o5 o6 o7 o8 o9 o10] a8].
  cbn [g_stdin g_src_dir g_src_files g_recurse g_out g_stdout g_options g_error_mode
      o_xml o_pretty o_indent o_complete_page o_fragment o_special_tag o_forgiving o_fail_fast o_metadata o_metadata_elements] in *.
  split.
  - cbn zeta. rewrite !Bool.andb_true_iff. repeat split.
    + destruct a1; [| reflexivity]. destruct H2 as [-> ->]; reflexivity.
    + destruct a4; [| reflexivity]. rewrite H5 by discriminate. reflexivity.
    + destruct a6; [| destruct a5; reflexivity]. destruct H4 as [-> _]; reflexivity.
    + destruct a6; [| reflexivity]. destruct H4 as [_ ->]; reflexivity.
    + destruct o5; [| reflexivity]. rewrite H10 by reflexivity. reflexivity.
    + destruct o8; [| reflexivity]. rewrite H11 by discriminate. reflexivity.
    + destruct a1; [reflexivity |]. destruct a2; [reflexivity |]. destruct a3 as [[| f fs] |]; try reflexivity.
      * destruct (H9 [] eq_refl). congruence.
      * exfalso. intuition congruence.
    + destruct a1; [| reflexivity]. destruct a5; [reflexivity |]. destruct a6; [reflexivity |]. exfalso. intuition congruence.
    + destruct (Nat.eqb o3 2) eqn:E; [reflexivity |]. destruct o2; [reflexivity |]. rewrite (H13 eq_refl) in E. discriminate.
  - cbn [opt_or]. f_equal.
    + destruct a1; reflexivity.
    + destruct a2; reflexivity.
    + destruct a3 as [[| f fs] |]; try reflexivity. destruct (H9 [] eq_refl). congruence.
    + destruct a4; reflexivity.
    + destruct a5; reflexivity.
    + destruct a6; reflexivity.
    + f_equal.
      * destruct o1; reflexivity.
      * destruct o2; reflexivity.
      * destruct (Nat.eqb_spec o3 2) as [-> |]; [reflexivity |]. cbn [negb opt_or]. apply Nnat.Nat2N.id.
      * destruct o4; reflexivity.
      * destruct o5; reflexivity.
      * destruct o6; [reflexivity |]. cbn [is_nil negb concat]. apply app_nil_r.
      * destruct o7; reflexivity.
      * destruct o8; reflexivity.
      * destruct o9; reflexivity.
      * destruct o10; reflexivity.
Qed.

Theorem allowed_given a : Allowed a -> exists ws, read_convert ws = Got a.
Proof.
  intros Ha. destruct (uses_spelled a Ha) as [ws Hs]. exists ws. unfold read_convert.
  apply read_iff in Hs. rewrite Hs. cbn [bind_o]. destruct (uses_valid a Ha) as [-> ->]. reflexivity.
Qed.

(** The other way. *)
Definition use_ok (u : use) : Prop :=
  match u with
  | UDir p | UOut p | UFile p => p <> []
  | URecurse (Some d) => d <= 2 ^ 32 - 1
  | UIndent n => n <= 16
  | USpecialTag l => forall k v, In (k, v) l -> ~ In 44 v
  | _ => True
  end.

Lemma valued_ok n v u : Valued n v u -> use_ok u.
Proof.
  intros H0. destruct H0 as [p H | s x H | p H | s x H | | s l H | | | | |]; cbn [use_ok]; auto.
  - destruct H as (ds & _ & _ & _ & _ & H). exact H.
  - destruct H as (ds & _ & _ & _ & _ & H). exact H.
  - induction H as [k kind v Hk Hv | k kind v s l Hk Hv H IH].
    + intros k' v' [[= <- <-] | []]. exact Hv.
    + intros k' v' [[= <- <-] | Hi]; [exact Hv | now apply (IH k')].
Qed.

Lemma bare_ok n u : Bare n u -> use_ok u.
Proof. intros []; exact I. Qed.

Lemma flags_ok cs fs : Flags cs fs -> Forall use_ok fs.
Proof. intros H. induction H as [| c u cs fs Hc H IH]; constructor; [destruct Hc; exact I | exact IH]. Qed.

Lemma spelled_ok ws us : Spelled ws us -> Forall use_ok us.
Proof.
  intros H. induction H;
    repeat match goal with
           | |- Forall _ (_ ++ _) => apply Forall_app; split
           | |- Forall _ (_ :: _) => apply Forall_cons
           | F : Flags _ _ |- Forall _ _ => now apply flags_ok in F
           end; eauto using bare_ok, valued_ok.
  - apply Forall_forall. intros u Hu. apply in_map_iff in Hu. destruct Hu as (p & <- & Hp).
    rewrite Forall_forall in H. now apply H.
Qed.

Lemma dir_use u : is_some (f_dir u) = true <-> is_dir_use u.
Proof. revert u. option_hyps. Qed.
Lemma out_use u : is_some (f_out u) = true <-> is_out_use u.
Proof. revert u. option_hyps. Qed.
Lemma indent_use u : is_some (f_indent u) = true <-> is_indent_use u.
Proof. revert u. option_hyps. Qed.

Lemma last_in P us u : Last_use P us u -> In u us.
Proof. intros (b & c & -> & _). apply in_or_app. right. now left. Qed.

Theorem given_allowed ws a : read_convert ws = Got a -> Allowed a.
Proof.
  intros H. apply read_convert_iff in H. destruct H as (us & Hs & Hc & Hm).
  apply spelled_ok in Hs. rewrite Forall_forall in Hs.
  destruct Hc as [C1 C2 C3 C4 C5 C6 C7 C8].
  destruct Hm as [M1 M2 M3 M4 M5 M6 M7 M8 M9 M10 M11 M12 M13 M14 M15 M16 M17 M18 M19 M20].
  assert (Hdir : g_src_dir a <> None <-> Some_use is_dir_use us).
  { split.
    - destruct (g_src_dir a) as [p |]; [| congruence]. intros _. eapply last_use_some. apply M2. reflexivity.
    - intros H. apply (last_use_exists is_dir_use (fun u => is_some (f_dir u)) dir_use) in H.
      destruct H as [u Hu]. assert (is_dir_use u) as [p ->] by (destruct Hu as (x & y & _ & Hu & _); exact Hu).
      apply M2 in Hu. congruence. }
  assert (Hout : g_out a <> None <-> Some_use is_out_use us).
  { split.
    - destruct (g_out a) as [p |]; [| congruence]. intros _. eapply last_use_some. apply M6. reflexivity.
    - intros H. apply (last_use_exists is_out_use (fun u => is_some (f_out u)) out_use) in H.
      destruct H as [u Hu]. assert (is_out_use u) as [p ->] by (destruct Hu as (x & y & _ & Hu & _); exact Hu).
      apply M6 in Hu. congruence. }
  assert (Hnone : forall A (o : option A), ~ o <> None -> o = None) by (intros A [x |]; [| reflexivity]; intros H; exfalso; now apply H).
  assert (Hfiles : Some_use is_file_use us -> g_src_files a <> None) by (intros H E; now apply M3 in E).
  constructor.
  - destruct C2 as [C | [C | C]]; [left; now apply M1 | right; left; now apply Hdir | right; right; now apply Hfiles].
  - intros H. apply M1, C1 in H. destruct H as [Ha Hb]. split; [apply Hnone; now rewrite Hdir | now apply M3].
  - intros H. apply M1, C5 in H. destruct H as [H | H]; [left; now apply M7 | right; now apply Hout].
  - intros H. apply M7, C4 in H. destruct H as [Ha Hb]. split; apply Hnone; [now rewrite Hout | now rewrite Hdir].
  - intros H. apply M3, C3. destruct (g_recurse a) as [d |]; [| congruence]. eapply last_use_some. apply M5. reflexivity.
  - intros d H. apply M5, last_in, Hs in H. exact H.
  - intros H. apply M2, last_in, Hs in H. now apply H.
  - intros H. apply M6, last_in, Hs in H. now apply H.
  - intros fs H. pose proof (M4 fs H) as Hfs. split.
    + intros ->. assert (~ Some_use is_file_use us).
      { intros (u & Hu & [p ->]). apply in_split in Hu. destruct Hu as (x & y & ->). rewrite flat_map_app in Hfs.
        cbn in Hfs. destruct (flat_map _ x) in Hfs; discriminate. }
      apply M3 in H0. congruence.
    + intros Hi. rewrite Hfs in Hi. apply in_flat_map in Hi. destruct Hi as (u & Hu & Hi). apply Hs in Hu.
      destruct u; try destruct Hi. { now apply Hu. } { destruct H0. }
  - intros H. apply M13, C6 in H. apply Hnone. intros Hn. apply H.
    destruct (o_complete_page (g_options a)) as [d |]; [| congruence]. eapply last_use_some. apply M12. reflexivity.
  - intros H. apply Hnone. intros Hn. apply C7.
    + destruct (o_fail_fast (g_options a)) as [d |]; [| congruence]. eapply last_use_some. apply M16. reflexivity.
    + destruct (o_forgiving (g_options a)) as [d |]; [| congruence]. eapply last_use_some. apply M15. reflexivity.
  - destruct (existsb (fun u => is_some (f_indent u)) us) eqn:E.
    + apply existsb_exists in E. destruct E as (u & Hu & E).
      assert (Hsu : Some_use is_indent_use us).
      { exists u. split; [exact Hu |]. destruct u; try discriminate. eexists. reflexivity. }
      apply (last_use_exists is_indent_use (fun u => is_some (f_indent u)) indent_use) in Hsu.
      destruct Hsu as [v Hv]. assert (is_indent_use v) as [n ->] by (destruct Hv as (x & y & _ & Hv & _); exact Hv).
      rewrite (M10 n Hv). apply last_in, Hs in Hv. cbn in Hv. lia.
    + rewrite M11; [lia |]. intros (u & Hu & [n ->]).
      assert (existsb (fun u => is_some (f_indent u)) us = true) by (apply existsb_exists; exists (UIndent n); auto). congruence.
  - intros H. apply M11. intros Hi. apply C8, M9 in Hi. congruence.
  - destruct (o_metadata (g_options a)) as [b |] eqn:E; [| now left]. right. apply Hnone. intros Hn.
    destruct (o_metadata_elements (g_options a)) as [b' |]; [| congruence].
    assert (H1 := proj1 (M17 b) eq_refl). assert (H2 := proj1 (M18 b') eq_refl).
    destruct H1 as (x & y & E1 & P1 & N1). destruct H2 as (x' & y' & E2 & P2 & N2). rewrite E1 in E2. clear - E2 P1 N1 P2 N2.
    revert x' E2. induction x as [| u x IH]; intros [| u' x'] E2; cbn in E2.
    + discriminate.
    + injection E2 as <- ->. apply (N1 (UMetadataElements b')); [apply in_or_app; right; now left | exact P2].
    + injection E2 as -> <-. apply (N2 (UMetadata b)); [apply in_or_app; right; now left | exact P1].
    + injection E2 as <- E2. now apply (IH x').
  - intros k v H. rewrite M14 in H. apply in_flat_map in H. destruct H as (u & Hu & Hi). apply Hs in Hu.
    destruct u; try contradiction. now apply (Hu k).
Qed.

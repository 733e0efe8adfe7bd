(** * The order of the options, and the start of the program. *)

From Coq Require Import Lia Permutation.
From Verif Require Import Base P_Base Doc Config Errors Reporter Cli Args SpecArgs P_Args.

Lemma once_last (P : use -> Prop) us u :
  Once us -> (forall v w, P v -> P w -> family v = family w /\ family v <> None) -> (Last_use P us u <-> In u us /\ P u).
Proof.
  intros Ho HP. split.
  - intros (b & c & -> & Hu & _). split; [apply in_or_app; right; now left | exact Hu].
  - intros [Hi Hu]. apply in_split in Hi. destruct Hi as (b & c & ->). exists b, c. split; [reflexivity |].
    split; [exact Hu |]. intros v Hv HPv. unfold Once in Ho. rewrite flat_map_app in Ho. cbn [flat_map] in Ho.
    destruct (HP u v Hu HPv) as [E Hn]. destruct (family u) as [n |]; [| congruence]. apply NoDup_remove_2 in Ho. apply Ho, in_or_app. right.
    apply in_flat_map. exists v. split; [exact Hv |]. rewrite <- E. now left.
Qed.

Lemma once_perm us us' : Permutation us us' -> Once us -> Once us'.
Proof. intros Hp. apply Permutation_NoDup. now apply Permutation_flat_map. Qed.

Lemma some_perm P us us' : Permutation us us' -> (Some_use P us <-> Some_use P us').
Proof.
  intros Hp. split; intros (u & Hu & HP); exists u; (split; [| exact HP]);
    [now apply (Permutation_in u Hp) | now apply (Permutation_in u (Permutation_sym Hp))].
Qed.

Lemma in_perm (u : use) us us' : Permutation us us' -> (In u us <-> In u us').
Proof. intros Hp. split; [apply (Permutation_in u Hp) | apply (Permutation_in u (Permutation_sym Hp))]. Qed.

Lemma last_perm (P : use -> Prop) us us' u :
  Permutation us us' -> Once us -> (forall v w, P v -> P w -> family v = family w /\ family v <> None) -> (Last_use P us u <-> Last_use P us' u).
Proof.
  intros Hp Ho HP. rewrite (once_last P us u Ho HP), (once_last P us' u (once_perm _ _ Hp Ho) HP).
  rewrite (in_perm u us us' Hp). reflexivity.
Qed.

Lemma coherent_perm us us' : Permutation us us' -> Coherent us -> Coherent us'.
Proof.
  intros Hp [C1 C2 C3 C4 C5 C6 C7 C8].
  constructor; rewrite <- ?(in_perm _ us us' Hp), <- ?(some_perm _ us us' Hp); assumption.
Qed.

Lemma flat_map_filter {A} (f : use -> list A) us :
  (forall u, family u <> None -> f u = []) -> flat_map f us = flat_map f (filter (fun u => is_none (family u)) us).
Proof.
  intros H. induction us as [| u us IH]; [reflexivity |]. cbn [flat_map filter].
  destruct (family u) eqn:E; cbn [is_none is_some negb flat_map].
  - rewrite H by congruence. exact IH.
  - now rewrite IH.
Qed.

Lemma means_perm us us' a : Permutation us us' -> Once us -> SameFiles us us' -> Means us a -> Means us' a.
Proof.
  intros Hp Ho Hf [M1 M2 M3 M4 M5 M6 M7 M8 M9 M10 M11 M12 M13 M14 M15 M16 M17 M18 M19 M20].
  assert (E1 : forall {A} (f : use -> list A), (forall u, family u <> None -> f u = []) -> flat_map f us' = flat_map f us).
  { intros A f H. rewrite (flat_map_filter f us H), (flat_map_filter f us' H). unfold SameFiles in Hf. now rewrite Hf. }
  constructor;
    rewrite <- ?(in_perm _ us us' Hp), <- ?(some_perm _ us us' Hp); try assumption;
    try (intros x; rewrite <- (last_perm _ us us' _ Hp Ho); [auto |]; intros v w [y Hv] [z Hw];
         (split; [| intros E]); first [subst v w; first [reflexivity | discriminate E] |
           destruct Hv as [-> | ->], Hw as [-> | ->]; first [reflexivity | discriminate E]]).
  - intros fs H. rewrite E1; [now apply M4 |]. intros []; cbn; congruence.
  - rewrite E1; [exact M14 |]. intros []; cbn; congruence.
Qed.

Lemma same_sym us us' : SameFiles us us' -> SameFiles us' us.
Proof. unfold SameFiles. congruence. Qed.

Theorem order ws us ws' us' :
  Spelled ws us -> Spelled ws' us' -> Permutation us us' -> Once us -> SameFiles us us' ->
  read_convert ws = read_convert ws'.
Proof.
  intros Hs Hs' Hp Ho Hf.
  assert (H : forall ws us ws' us' a, Spelled ws us -> Spelled ws' us' -> Permutation us us' -> Once us -> SameFiles us us' ->
                read_convert ws = Got a -> read_convert ws' = Got a).
  { clear. intros ws us ws' us' a Hs Hs' Hp Ho Hf H. apply read_convert_iff in H. destruct H as (vs & Hv & Hc & Hm).
    assert (vs = us) as -> by (apply read_iff in Hv; apply read_iff in Hs; congruence).
    apply read_convert_iff. exists us'. split; [exact Hs' |]. split; [now apply coherent_perm with us | now apply means_perm with us]. }
  assert (Hgot : forall ws us, Spelled ws us -> (exists a, read_convert ws = Got a) \/ read_convert ws = Usage).
  { clear. intros ws us H. apply read_iff in H. unfold read_convert. rewrite H. cbn [bind_o].
    destruct (valid (matches us)); eauto. }
  destruct (Hgot ws us Hs) as [[a Ha] | Ha].
  - rewrite Ha. symmetry. now apply (H ws us ws' us').
  - destruct (Hgot ws' us' Hs') as [[b Hb] | Hb]; [| congruence].
    rewrite Hb. apply (H ws' us' ws us); auto; [now apply Permutation_sym | now apply once_perm with us | now apply same_sym].
Qed.

(** ** The start *)

Lemma fallback_nil ws : fallback_uses ws = Got [] -> ws = [] \/ ws = [L "--"].
Proof.
  destruct ws as [| w ws]; [now left |]. cbn [fallback_uses].
  destruct (str_eqb w (L "--error-mode")).
  - destruct ws as [| v ws]; [discriminate |]. destruct (word_of v); try discriminate.
    intros H. apply cons_o_got in H. destruct H as (x & xs & _ & _ & H). discriminate.
  - destruct (str_eqb w (L "--")) eqn:E.
    + destruct ws; [| discriminate]. intros _. right. apply str_eqb_eq in E. now subst.
    + destruct (str_eqb w (L "-h") || str_eqb w (L "--help")); [discriminate |].
      destruct (strip_prefix (L "--error-mode=") w); [| discriminate].
      intros H. apply cons_o_got in H. destruct H as (x & xs & _ & _ & H). discriminate.
Qed.

Lemma strip_prefix_some p : forall s r, strip_prefix p s = Some r -> s = p ++ r.
Proof.
  induction p as [| x p IH]; intros s r; cbn [strip_prefix]; [now intros [= ->] |].
  destruct s as [| y s]; [discriminate |]. destruct (N.eqb_spec x y) as [-> |]; [| discriminate].
  intros H. apply IH in H. now subst.
Qed.

Lemma fallback_one ws m : fallback_uses ws = Got [m] -> OnlyMode ws m.
Proof.
  destruct ws as [| w ws]; [discriminate |]. cbn [fallback_uses].
  destruct (str_eqb w (L "--error-mode")) eqn:E1.
  - apply str_eqb_eq in E1. subst w. destruct ws as [| v ws]; [discriminate |].
    destruct (word_of v) eqn:Ew; try discriminate.
    intros H. apply cons_o_got in H. destruct H as (x & xs & Hx & Hxs & [= <- <-]).
    apply got_some, read_mode_spec in Hx. apply fallback_nil in Hxs. destruct Hxs as [-> | ->].
    + now apply only_next.
    + now apply only_next_end.
  - destruct (str_eqb w (L "--")) eqn:E; [destruct ws; discriminate |].
    destruct (str_eqb w (L "-h") || str_eqb w (L "--help")); [discriminate |].
    destruct (strip_prefix (L "--error-mode=") w) as [v |] eqn:Es; [| discriminate].
    apply strip_prefix_some in Es. subst w.
    intros H. apply cons_o_got in H. destruct H as (x & xs & Hx & Hxs & [= <- <-]).
    apply got_some, read_mode_spec in Hx. apply fallback_nil in Hxs. destruct Hxs as [-> | ->].
    + now apply only_equals.
    + now apply only_equals_end.
Qed.

Theorem fail_iff ws m : parse_args ws = SFail m <-> OnlyMode ws m /\ m <> MDefault.
Proof.
  split.
  - unfold parse_args. intros H.
    assert (Hf : fallback ws = Got m /\ m <> MDefault).
    { destruct (read_command ws); [discriminate |..]; destruct (fallback ws) as [[] | |]; try discriminate;
        injection H as <-; (split; [reflexivity | discriminate]). }
    destruct Hf as [Hf Hm]. split; [| exact Hm]. unfold fallback in Hf.
    destruct (fallback_uses ws) as [[| m' [|]] | |] eqn:E; try discriminate.
    + injection Hf as <-. congruence.
    + injection Hf as ->. now apply fallback_one.
  - intros [H Hm]. destruct H as [s m H | s m H | s m H | s m H]; destruct H; try congruence; reflexivity.
Qed.

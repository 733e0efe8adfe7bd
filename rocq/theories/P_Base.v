(** * Lemmas about Base.v *)
From Coq Require Import ZifyBool ZifyNat ZifyN.
From Verif Require Import Base.

Lemma str_eqb_refl : forall a, str_eqb a a = true.
Proof. induction a as [|x a IH]; cbn; [reflexivity|]. now rewrite N.eqb_refl, IH. Qed.

Lemma str_eqb_eq : forall a b, str_eqb a b = true <-> a = b.
Proof.
  split; [|intros ->; apply str_eqb_refl].
  revert b; induction a as [|x a IH]; intros [|y b]; cbn; try congruence.
  intros H. apply andb_true_iff in H as [H1 H2]. apply N.eqb_eq in H1. f_equal; auto.
Qed.

Lemma str_eqb_neq : forall a b, str_eqb a b = false <-> a <> b.
Proof.
  intros a b. rewrite <- str_eqb_eq. destruct (str_eqb a b); split; congruence.
Qed.

Lemma utf8_len_pos : forall c, 1 <= utf8_len c.
Proof. intros c. unfold utf8_len. repeat destruct (_ <? _); lia. Qed.

Lemma blen_app : forall a b, blen (a ++ b) = blen a + blen b.
Proof. induction a as [|x a IH]; intros b; cbn [blen app]; [lia|]. rewrite IH. lia. Qed.

Lemma blen_length : forall s, N.of_nat (length s) <= blen s.
Proof.
  induction s as [|c s IH]; cbn [blen length]; [lia|].
  pose proof (utf8_len_pos c). lia.
Qed.

Lemma blen_nil : forall s, blen s = 0 -> s = [].
Proof.
  intros [|c s] H; [reflexivity|]. pose proof (blen_length (c :: s)). cbn [length] in *. lia.
Qed.

Lemma split_at_char_some : forall p s pre post,
  split_at_char p s = Some (pre, post) ->
  s = pre ++ post /\ ~ In p pre /\ exists post', post = p :: post'.
Proof.
  induction s as [|c s IH]; intros pre post; cbn; [congruence|].
  destruct (N.eqb_spec c p) as [->|Hc].
  - intros [= <- <-]. cbn. eauto.
  - destruct (split_at_char p s) as [[pre0 post0]|]; [|congruence].
    intros [= <- <-]. destruct (IH _ _ eq_refl) as (-> & Hn & Hp).
    cbn. repeat split; auto. intros [->|]; auto.
Qed.

Lemma split_at_char_none : forall p s, split_at_char p s = None <-> ~ In p s.
Proof.
  induction s as [|c s IH]; cbn; [tauto|].
  destruct (N.eqb_spec c p) as [->|Hc].
  - split; [congruence|]. intros H; exfalso; auto.
  - destruct (split_at_char p s) as [[pre post]|].
    + split; [congruence|]. intros H. exfalso.
      assert (~ In p s) as Hn by tauto. apply IH in Hn. congruence.
    + split; auto. intros _ [|]; [auto|]. now apply IH.
Qed.

Lemma split_at_char_app : forall p pre post,
  ~ In p pre -> split_at_char p (pre ++ p :: post) = Some (pre, p :: post).
Proof.
  induction pre as [|c pre IH]; intros post Hn; cbn.
  - now rewrite N.eqb_refl.
  - destruct (N.eqb_spec c p) as [->|Hc]; [cbn in Hn; tauto|].
    rewrite IH; cbn in *; tauto.
Qed.

Lemma strip_prefix_some : forall p s r, strip_prefix p s = Some r <-> s = p ++ r.
Proof.
  induction p as [|x p IH]; intros s r; cbn.
  - split; congruence.
  - destruct s as [|y s]; [split; congruence|].
    destruct (N.eqb_spec x y) as [->|Hx].
    + rewrite IH. split; congruence.
    + split; [congruence|]. intros [= <- _]. congruence.
Qed.

Lemma starts_with_spec : forall p s, starts_with p s = true <-> exists r, s = p ++ r.
Proof.
  intros p s. unfold starts_with.
  destruct (strip_prefix p s) as [r|] eqn:E.
  - apply strip_prefix_some in E. split; eauto.
  - split; [congruence|]. intros [r Hr]. apply strip_prefix_some in Hr. congruence.
Qed.

Lemma last_char_app : forall s c, last_char (s ++ [c]) = Some c.
Proof.
  induction s as [|x s IH]; intros c; cbn; [reflexivity|].
  rewrite IH. destruct (s ++ [c]) eqn:E; [|reflexivity].
  destruct s; discriminate.
Qed.

Lemma last_char_some : forall s c, last_char s = Some c <-> exists s', s = s' ++ [c].
Proof.
  split; [|intros [s' ->]; apply last_char_app].
  induction s as [|x [|y s] IH]; cbn.
  - congruence.
  - intros [= <-]. now exists [].
  - intros H. destruct (IH H) as [s' Hs']. exists (x :: s'). cbn. now rewrite <- Hs'.
Qed.


Lemma ends_with_char_spec : forall c s, ends_with_char c s = true <-> exists s', s = s' ++ [c].
Proof.
  intros c s. unfold ends_with_char. rewrite <- last_char_some.
  destruct (last_char s) as [d|]; [|split; congruence].
  rewrite N.eqb_eq. split; congruence.
Qed.

(** * The decoder against the documented escapes (C03). *)
From Coq Require Import ZifyBool ZifyNat ZifyN.
From Verif Require Import Base Escape SpecEscape P_Base P_Escape.

Lemma HexNum_noplus : forall b s v, ~ In 43 s -> SignedHexNum b s v -> SignedHexNum false s v.
Proof.
  intros b s v Hn H. destruct H as [s v H|s v _ H]; [now constructor|].
  exfalso. apply Hn. now left.
Qed.

Lemma SignedHex_weaken : forall s v, SignedHexNum false s v -> SignedHexNum true s v.
Proof. intros s v H. destruct H as [s v H|s v H _]; [now constructor|discriminate]. Qed.

Lemma EscSeq_noplus : forall e c, ~ In 43 e -> EscSeq true e c -> EscSeq false e c.
Proof.
  intros e c Hn H. destruct H as [ | | |c Hc|ds v Hl Hd Hv|ds v Hl Hd Hv]; try constructor; auto.
  - eapply HexNum_noplus; [|exact Hd]. intros Hi. apply Hn, in_app_iff. now right.
  - eapply HexNum_noplus; [|exact Hd]. intros Hi. apply Hn.
    rewrite !in_app_iff. tauto.
Qed.

Lemma EscSeq_weaken : forall e c, EscSeq false e c -> EscSeq true e c.
Proof.
  intros e c H. destruct H as [ | | |c Hc|ds v Hl Hd Hv|ds v Hl Hd Hv]; constructor; auto using SignedHex_weaken.
Qed.

(** Without plus signs and without backslash-space, accepted and documented
    coincide, with the same meaning. *)
Theorem documented_iff : forall s t, ~ In 43 s -> ~ (exists a b, s = a ++ L "\ " ++ b) ->
  (unescape s = (t, true) <-> Documented s t).
Proof.
  intros s t Hp Hs. rewrite unescape_spec. split.
  - intros H. induction H as [|c s t Hc H IH|e c s t He H IH].
    + constructor.
    + constructor; [exact Hc|]. apply IH.
      * intros Hi. apply Hp. now right.
      * intros (a & b & ->). apply Hs. now exists (c :: a), b.
    + apply DocSeq.
      * constructor. apply EscSeq_noplus; [|exact He]. intros Hi. apply Hp, in_app_iff. now left.
      * apply IH.
        -- intros Hi. apply Hp, in_app_iff. now right.
        -- intros (a & b & ->). apply Hs. exists (e ++ a), b. now rewrite <- app_assoc.
  - intros H. induction H as [|c s t Hc H IH|e c s t He H IH].
    + constructor.
    + constructor; [exact Hc|]. apply IH.
      * intros Hi. apply Hp. now right.
      * intros (a & b & ->). apply Hs. now exists (c :: a), b.
    + destruct He as [e c He|].
      * apply DecEsc; [now apply EscSeq_weaken|]. apply IH.
        -- intros Hi. apply Hp, in_app_iff. now right.
        -- intros (a & b & ->). apply Hs. exists (e ++ a), b. now rewrite <- app_assoc.
      * exfalso. apply Hs. now exists [], s.
Qed.

(** [\x+5] is accepted although it is not documented. *)
Theorem plus_accepted : unescape (L "\x+5") = ([5], true) /\ ~ exists t, Documented (L "\x+5") t.
Proof.
  split; [vm_compute; reflexivity|]. intros [t H].
  inversion H as [|c s t' Hc H' Heq|e c s t' He H' Heq]; [congruence|].
  destruct He as [e c He|]; [|discriminate].
  destruct He as [ | | |c Hc|ds v Hl Hd Hv|ds v Hl Hd Hv]; cbn in Heq; try discriminate.
  - injection Heq as -> _. cbn in Hc. intuition discriminate.
  - injection Heq as Heq.
    destruct Hd as [ds v Hn|ds v Hb _]; [|discriminate].
    destruct ds as [|d ds]; [discriminate|]. cbn in Heq. injection Heq as -> _.
    pose proof (HexNum_chars _ _ Hn 43 (or_introl eq_refl)). lia.
Qed.

(** Backslash-space is documented but rejected. *)
Theorem space_rejected : Documented (L "\ ") [32] /\ snd (unescape (L "\ ")) = false.
Proof.
  split; [|vm_compute; reflexivity].
  change (Documented (L "\ " ++ []) [32]). apply DocSeq; [apply DocSpace|apply DocNil].
Qed.

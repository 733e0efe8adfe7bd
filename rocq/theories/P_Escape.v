(** * Proofs about Escape.v against SpecEscape.v *)
From Coq Require Import ZifyBool ZifyNat ZifyN.
From Verif Require Import Base Escape SpecEscape P_Base.

(** ** Hexadecimal *)
Lemma hex_digit_spec : forall c d, hex_digit c = Some d <-> HexDigit c d.
Proof.
  intros c d. unfold hex_digit. split.
  - destruct ((48 <=? c) && (c <=? 57)) eqn:E1.
    { intros [= <-]. replace c with (48 + (c - 48)) at 1 by lia. constructor; lia. }
    destruct ((97 <=? c) && (c <=? 102)) eqn:E2.
    { intros [= <-]. replace c with (87 + (c - 87)) at 1 by lia. constructor; lia. }
    destruct ((65 <=? c) && (c <=? 70)) eqn:E3; [|congruence].
    intros [= <-]. replace c with (55 + (c - 55)) at 1 by lia. constructor; lia.
  - intros H. destruct H as [d Hd|d Hd|d Hd].
    + destruct ((48 <=? 48 + d) && (48 + d <=? 57)) eqn:E1; [f_equal; lia|lia].
    + destruct ((48 <=? 87 + d) && (87 + d <=? 57)) eqn:E1; [lia|].
      destruct ((97 <=? 87 + d) && (87 + d <=? 102)) eqn:E2; [f_equal; lia|lia].
    + destruct ((48 <=? 55 + d) && (55 + d <=? 57)) eqn:E1; [lia|].
      destruct ((97 <=? 55 + d) && (55 + d <=? 102)) eqn:E2; [lia|].
      destruct ((65 <=? 55 + d) && (55 + d <=? 70)) eqn:E3; [f_equal; lia|lia].
Qed.

Lemma hex_digits_app : forall a b acc,
  hex_digits acc (a ++ b) =
  match hex_digits acc a with Some v => hex_digits v b | None => None end.
Proof.
  induction a as [|c a IH]; intros b acc; cbn [app hex_digits]; [reflexivity|].
  destruct (hex_digit c); auto.
Qed.

Lemma hex_digits_sound : forall s pre acc v,
  HexNum pre acc -> hex_digits acc s = Some v -> HexNum (pre ++ s) v.
Proof.
  induction s as [|c s IH]; intros pre acc v Hp; cbn [hex_digits].
  - intros [= <-]. now rewrite app_nil_r.
  - destruct (hex_digit c) as [d|] eqn:Hd; [|congruence]. intros H.
    apply hex_digit_spec in Hd.
    replace (pre ++ c :: s) with ((pre ++ [c]) ++ s) by (rewrite <- app_assoc; reflexivity).
    eapply IH; [|exact H].
    replace (acc * 16 + d) with (16 * acc + d) by lia. now constructor.
Qed.

Lemma hex_digits_spec : forall s v, s <> [] -> (hex_digits 0 s = Some v <-> HexNum s v).
Proof.
  intros s v Hs. split.
  - destruct s as [|c s]; [congruence|]. cbn [hex_digits].
    destruct (hex_digit c) as [d|] eqn:Hd; [|congruence]. intros H.
    apply hex_digit_spec in Hd.
    change (c :: s) with ([c] ++ s). eapply hex_digits_sound; [|exact H].
    now constructor.
  - intros H. clear Hs. induction H as [c d Hd|s v c d Hs IH Hd].
    + cbn [hex_digits]. apply hex_digit_spec in Hd. rewrite Hd. f_equal.
    + rewrite hex_digits_app, IH. cbn [hex_digits].
      apply hex_digit_spec in Hd. rewrite Hd. f_equal. lia.
Qed.

Lemma HexNum_ne : forall s v, HexNum s v -> s <> [].
Proof. intros s v H. destruct H; [congruence|]. destruct s; cbn; congruence. Qed.

Lemma HexDigit_range : forall c d, HexDigit c d -> 48 <= c <= 102.
Proof. intros c d H; destruct H; lia. Qed.

Lemma HexNum_chars : forall s v, HexNum s v -> forall c, In c s -> 48 <= c <= 102.
Proof.
  intros s v H. induction H as [c d Hd|s v c d Hs IH Hd]; intros x.
  - intros [<-|[]]. eapply HexDigit_range; eauto.
  - rewrite in_app_iff. intros [Hi|[<-|[]]]; [auto|]. eapply HexDigit_range; eauto.
Qed.

Lemma from_str_radix16_spec : forall s v,
  from_str_radix16 s = Some v <-> SignedHexNum true s v.
Proof.
  intros s v. unfold from_str_radix16. split.
  - destruct s as [|c s]; [congruence|].
    destruct (N.eqb_spec c 43) as [->|Hc].
    + destruct s as [|c' s']; [congruence|]. intros H.
      apply Plus; [reflexivity|]. apply hex_digits_spec; congruence.
    + intros H. apply Unsigned. apply hex_digits_spec; congruence.
  - intros H. destruct H as [s v H|s v _ H].
    + pose proof (HexNum_ne _ _ H) as Hne.
      destruct s as [|c s]; [congruence|].
      destruct (N.eqb_spec c 43) as [->|Hc].
      * exfalso. pose proof (HexNum_chars _ _ H 43 (or_introl eq_refl)). lia.
      * now apply hex_digits_spec.
    + rewrite N.eqb_refl. pose proof (HexNum_ne _ _ H).
      destruct s as [|c s]; [congruence|]. now apply hex_digits_spec.
Qed.

Lemma SignedHexNum_chars : forall b s v, SignedHexNum b s v ->
  forall c, In c s -> 43 <= c <= 102.
Proof.
  intros b s v H. destruct H as [s v H|s v _ H]; intros c Hc.
  - pose proof (HexNum_chars _ _ H c Hc). lia.
  - destruct Hc as [<-|Hc]; [lia|]. pose proof (HexNum_chars _ _ H c Hc). lia.
Qed.

Lemma blen_ascii : forall s, (forall c, In c s -> c < 128) -> blen s = N.of_nat (length s).
Proof.
  induction s as [|c s IH]; intros H; cbn [blen length]; [reflexivity|].
  rewrite IH by (intros; apply H; now right).
  assert (c < 128) by (apply H; now left).
  unfold utf8_len. destruct (N.ltb_spec c 0x80); lia.
Qed.

Lemma SignedHexNum_blen : forall b s v, SignedHexNum b s v -> blen s = N.of_nat (length s).
Proof.
  intros b s v H. apply blen_ascii. intros c Hc.
  pose proof (SignedHexNum_chars _ _ _ H c Hc). lia.
Qed.

(** ** One escape sequence *)
Lemma advance_to_char_spec : forall p q s found pre cu,
  advance_to_char p (mkC q s) = (found, pre, cu) ->
  s = pre ++ cu_post cu /\ cu_pos cu = q + blen pre /\ ~ In p pre /\
  (if found then exists post', cu_post cu = p :: post' else cu_post cu = []).
Proof.
  intros p q s found pre cu. unfold advance_to_char. cbn.
  destruct (split_at_char p s) as [[a b]|] eqn:E; intros [= <- <- <-]; cbn.
  - apply split_at_char_some in E as (-> & Hn & Hp). auto.
  - apply split_at_char_none in E. rewrite app_nil_r. auto.
Qed.

Lemma punct_spec : forall fc,
  existsb (N.eqb fc) [60; 62; 123; 125; 34; 39; 92; 91; 93] = true <->
  In fc (L "<>{}'\[]") \/ fc = 34.
Proof.
  intros fc. rewrite existsb_exists. split.
  - intros (x & Hx & He). apply N.eqb_eq in He. subst x. cbn in *. intuition.
  - intros H. exists fc. split; [cbn in *; intuition|apply N.eqb_refl].
Qed.

Lemma escape_body_sound : forall fc p s out cu,
  escape_body fc (mkC p s) = (out, cu) ->
  exists e, s = e ++ cu_post cu /\ cu_pos cu = p + blen e /\
            (forall c, out = Some c -> EscSeq true (92 :: fc :: e) c).
Proof.
  intros fc p s out cu. unfold escape_body.
  destruct (N.eqb_spec fc 116) as [->|H1].
  { intros [= <- <-]. exists []. cbn. repeat split; [lia|]. intros c [= <-]. constructor. }
  destruct (N.eqb_spec fc 110) as [->|H2].
  { intros [= <- <-]. exists []. cbn. repeat split; [lia|]. intros c [= <-]. constructor. }
  destruct (N.eqb_spec fc 114) as [->|H3].
  { intros [= <- <-]. exists []. cbn. repeat split; [lia|]. intros c [= <-]. constructor. }
  destruct (N.eqb_spec fc 120) as [->|H4].
  { unfold escape_x, advance_by. cbn [cu_post cu_pos].
    intros Heq. apply pair_equal_spec in Heq as [<- <-].
    exists (firstn 2 s). cbn [cu_post cu_pos]. rewrite firstn_skipn.
    repeat split. intros c.
    destruct (orb _ _) eqn:Ho; [|congruence].
    destruct (from_str_radix16 _) as [x|] eqn:Hx; [|congruence].
    destruct (N.leb_spec x 127) as [Hle|]; [|congruence].
    intros [= ->]. apply from_str_radix16_spec in Hx.
    assert (length (firstn 2 s) = 2%nat) as Hl.
    { apply orb_true_iff in Ho as [Ho|Ho]; [now apply Nat.eqb_eq|].
      destruct (firstn 2 s) in *; [|discriminate Ho].
      inversion Hx as [? ? Hn|]; subst. apply HexNum_ne in Hn. congruence. }
    change (92 :: 120 :: firstn 2 s) with (L "\x" ++ firstn 2 s).
    now constructor. }
  destruct (N.eqb_spec fc 117) as [->|H5].
  { unfold escape_u, peek. cbn [cu_post].
    destruct s as [|c0 s0].
    { intros [= <- <-]. exists []. cbn. repeat split; [lia|congruence]. }
    destruct (N.eqb_spec c0 123) as [->|H0].
    2:{ intros [= <- <-]. exists []. cbn. repeat split; [lia|congruence]. }
    unfold next at 1. cbn [cu_post cu_pos].
    destruct (advance_to_char 125 _) as [[found digits] cu2] eqn:Ha.
    apply advance_to_char_spec in Ha as (Hs & Hpos & Hn & Hf).
    destruct (found && _) eqn:Hg.
    - apply andb_true_iff in Hg as [-> Hlen].
      destruct Hf as [post' Hp']. unfold next. rewrite Hp'. intros [= <- <-].
      cbn [cu_post cu_pos]. exists (123 :: digits ++ [125]).
      split; [|split].
      + rewrite Hs, Hp'. cbn. now rewrite <- app_assoc.
      + rewrite Hpos. cbn [blen]. rewrite blen_app. cbn [blen]. lia.
      + intros c. destruct (from_str_radix16 _) as [x|] eqn:Hx; [|congruence].
        destruct (is_scalar x) eqn:Hsc; [|congruence]. intros [= ->].
        apply from_str_radix16_spec in Hx.
        change (92 :: 117 :: 123 :: digits ++ [125]) with (L "\u{" ++ digits ++ L "}").
        constructor; auto.
        rewrite (SignedHexNum_blen _ _ _ Hx) in Hlen. lia.
    - intros [= <- <-]. exists (123 :: digits). repeat split.
      + now rewrite Hs.
      + rewrite Hpos. cbn [blen]. lia.
      + congruence. }
  destruct (existsb _ _) eqn:He.
  - intros [= <- <-]. exists []. cbn [app cu_post cu_pos blen]. repeat split; [lia|].
    intros c [= <-]. constructor. now apply punct_spec.
  - intros [= <- <-]. exists []. cbn [app cu_post cu_pos blen]. repeat split; [lia|congruence].
Qed.

Lemma escape_body_complete : forall e c, EscSeq true e c ->
  exists fc e', e = 92 :: fc :: e' /\
    forall p rest, escape_body fc (mkC p (e' ++ rest)) = (Some c, mkC (p + blen e') rest).
Proof.
  intros e c H. destruct H as [ | | |c Hc|ds v Hl Hd Hv|ds v Hl Hd Hv].
  - exists 116, []. split; [reflexivity|]. intros p rest. cbn. now rewrite N.add_0_r.
  - exists 110, []. split; [reflexivity|]. intros p rest. cbn. now rewrite N.add_0_r.
  - exists 114, []. split; [reflexivity|]. intros p rest. cbn. now rewrite N.add_0_r.
  - exists c, []. split; [reflexivity|]. intros p rest.
    cbn [app blen]. rewrite N.add_0_r. unfold escape_body.
    replace (existsb _ _) with true by (symmetry; now apply punct_spec).
    cbn in Hc.
    repeat match goal with
           | |- context [c =? ?n] => destruct (N.eqb_spec c n) as [->|?]; [exfalso; intuition congruence|]
           end.
    reflexivity.
  - exists 120, ds. split; [reflexivity|]. intros p rest.
    destruct ds as [|d1 [|d2 [|]]]; cbn in Hl; try lia.
    unfold escape_body. cbn [N.eqb Pos.eqb]. unfold escape_x, advance_by.
    cbn [app cu_post cu_pos firstn skipn length Nat.eqb orb].
    apply from_str_radix16_spec in Hd. rewrite Hd.
    destruct (N.leb_spec v 127); [reflexivity|lia].
  - exists 117, (123 :: ds ++ [125]). split; [reflexivity|]. intros p rest.
    unfold escape_body. cbn [N.eqb Pos.eqb]. unfold escape_u, peek, next at 1.
    cbn [app cu_post cu_pos N.eqb Pos.eqb]. unfold advance_to_char. cbn [cu_post cu_pos].
    rewrite <- app_assoc. cbn [app].
    rewrite split_at_char_app.
    2:{ intros Hi. pose proof (SignedHexNum_chars _ _ _ Hd _ Hi). lia. }
    rewrite (SignedHexNum_blen _ _ _ Hd).
    replace (true && _) with true by lia.
    unfold next. cbn [cu_post cu_pos].
    apply from_str_radix16_spec in Hd as Hd'. rewrite Hd', Hv.
    do 2 f_equal. cbn [blen]. rewrite blen_app, (SignedHexNum_blen _ _ _ Hd). cbn [blen]. lia.
Qed.


(** ** One step of the iterator *)
Inductive StepSpec (off p : N) (s : str) : option ((part + lrange) * cursor) -> Prop :=
| SSend : s = [] -> StepSpec off p s None
| SSslice : forall pre post, s = pre ++ post -> pre <> [] -> ~ In 92 pre ->
    StepSpec off p s (Some (inl (PSlice pre), mkC (p + blen pre) post))
| SSesc : forall e c post, s = e ++ post -> EscSeq true e c ->
    StepSpec off p s (Some (inl (PChar c), mkC (p + blen e) post))
| SSbad : forall bad post, s = (92 :: bad) ++ post -> no_escape s ->
    StepSpec off p s (Some (inr (mkR (off + p) (off + p + blen (92 :: bad))),
                            mkC (p + blen (92 :: bad)) post)).

Lemma EscSeq_head : forall e c, EscSeq true e c -> exists e', e = 92 :: e'.
Proof.
  intros e c H. destruct (escape_body_complete e c H) as (fc & e' & -> & _). eauto.
Qed.

Lemma unescape_step_spec : forall off p s, StepSpec off p s (unescape_step off (mkC p s)).
Proof.
  intros off p s. unfold unescape_step.
  destruct (advance_to_char 92 (mkC p s)) as [[found pre] cu1] eqn:Ha.
  apply advance_to_char_spec in Ha as (Hs & Hpos & Hn & Hf).
  destruct cu1 as [q1 post1]. cbn [cu_post cu_pos] in *. subst q1.
  destruct pre as [|c0 pre].
  2:{ apply SSslice; auto; congruence. }
  destruct found; cbn [negb].
  2:{ apply SSend. rewrite Hs, Hf. reflexivity. }
  destruct Hf as [post' ->]. cbn [blen app] in *. subst s. rewrite N.add_0_r.
  unfold next. cbn [cu_post cu_pos].
  destruct post' as [|fc post'].
  { cbn [cu_post cu_pos].
    replace (p + utf8_len 92) with (p + blen [92]) by (cbn [blen]; lia).
    replace (off + (p + blen [92])) with (off + p + blen [92]) by lia.
    apply (SSbad off p [92] [] []); [reflexivity|].
    intros e c rest He Heq.
    destruct (escape_body_complete e c He) as (fc & e' & -> & _). cbn in Heq. congruence. }
  cbn [cu_post cu_pos].
  destruct (escape_body fc _) as [out cu4] eqn:Hb.
  pose proof (escape_body_sound _ _ _ _ _ Hb) as (e & Hs' & Hpos' & Hesc).
  destruct cu4 as [q4 post4]. cbn [cu_post cu_pos] in *. subst q4.
  assert (p + utf8_len 92 + utf8_len fc + blen e = p + blen (92 :: fc :: e)) as Hlen
    by (cbn [blen]; lia).
  destruct out as [c|].
  - rewrite Hlen. apply SSesc with (e := 92 :: fc :: e); [cbn; now rewrite Hs'|]. now apply Hesc.
  - rewrite Hlen.
    replace (off + (p + blen (92 :: fc :: e))) with (off + p + blen (92 :: fc :: e)) by lia.
    apply SSbad; [cbn; now rewrite Hs'|].
    intros e2 c rest He2 Heq.
    destruct (escape_body_complete e2 c He2) as (fc2 & e2' & -> & Hb2).
    cbn in Heq. injection Heq as <- Hr. rewrite Hr in Hb. rewrite Hb2 in Hb. congruence.
Qed.

Lemma EscSeq_unique : forall e1 c1 r1 e2 c2 r2,
  EscSeq true e1 c1 -> EscSeq true e2 c2 -> e1 ++ r1 = e2 ++ r2 -> e1 = e2 /\ c1 = c2 /\ r1 = r2.
Proof.
  intros e1 c1 r1 e2 c2 r2 H1 H2 Heq.
  destruct (escape_body_complete _ _ H1) as (f1 & e1' & -> & B1).
  destruct (escape_body_complete _ _ H2) as (f2 & e2' & -> & B2).
  cbn in Heq. injection Heq as -> Heq.
  specialize (B1 0 r1). specialize (B2 0 r2). rewrite Heq in B1. rewrite B1 in B2.
  injection B2 as -> _ ->. apply app_inv_tail in Heq. subst. auto.
Qed.

(** ** The whole iterator *)
Lemma Decodes_plain_app : forall pre s t, ~ In 92 pre ->
  (Decodes true (pre ++ s) t <-> exists t', t = pre ++ t' /\ Decodes true s t').
Proof.
  induction pre as [|c pre IH]; intros s t Hn; cbn [app].
  - split; [eauto|]. intros (t' & -> & H). exact H.
  - assert (c <> 92 /\ ~ In 92 pre) as [Hc Hn'].
    { split; [intros ->|intros Hi]; apply Hn; [now left|now right]. }
    split.
    + intros H. inversion H as [|c0 s0 t0 Hc0 H0|e c0 s0 t0 He H0]; subst.
      * apply IH in H0 as (t' & -> & H'); eauto.
      * exfalso. apply EscSeq_head in He as [e' ->]. cbn in *. congruence.
    + intros (t' & -> & H). constructor; [exact Hc|]. apply IH; eauto.
Qed.

Lemma Decodes_esc_app : forall e c s t, EscSeq true e c ->
  (Decodes true (e ++ s) t <-> exists t', t = c :: t' /\ Decodes true s t').
Proof.
  intros e c s t He. split.
  - intros H. inversion H as [Hnil|c0 s0 t0 Hc0 H0 Heq|e0 c0 s0 t0 He0 H0 Heq]; subst.
    + apply EscSeq_head in He as [e' ->]. discriminate.
    + apply EscSeq_head in He as [e' ->]. cbn in *. congruence.
    + destruct (EscSeq_unique _ _ _ _ _ _ He He0 (eq_sym Heq)) as (-> & -> & ->). eauto.
  - intros (t' & -> & H). now constructor.
Qed.

Lemma Decodes_bad : forall bad s t, no_escape (92 :: bad ++ s) -> ~ Decodes true (92 :: bad ++ s) t.
Proof.
  intros bad s t Hn H.
  inversion H as [|c0 s0 t0 Hc0 H0 Heq|e0 c0 s0 t0 He0 H0 Heq]; subst; [congruence|].
  eapply Hn; eauto.
Qed.

Lemma EscSeq_len : forall e c, EscSeq true e c -> (0 < length e)%nat.
Proof. intros e c H. apply EscSeq_head in H as [e' ->]. cbn. lia. Qed.

Lemma loop_decodes : forall fuel off p s, (length s < fuel)%nat -> forall t,
  write_parts (unescape_loop fuel off (mkC p s)) = (t, true) <-> Decodes true s t.
Proof.
  induction fuel as [|fuel IH]; intros off p s Hf t; [lia|].
  cbn [unescape_loop].
  destruct (unescape_step_spec off p s) as [->|pre post -> Hne Hn|e c post -> He|bad post -> Hbad].
  - cbn. split; [intros [= <-]; constructor|]. intros H.
    inversion H as [|?|e c s t' He ? Heq]; [reflexivity|].
    apply EscSeq_head in He as [e' ->]. discriminate.
  - cbn [write_parts]. rewrite app_length in Hf.
    assert (0 < length pre)%nat by (destruct pre; cbn; [congruence|lia]).
    specialize (IH off (p + blen pre) post ltac:(lia)).
    rewrite Decodes_plain_app by exact Hn.
    destruct (write_parts _) as [t' ok] eqn:E.
    split.
    + intros [= <- ->]. exists t'. split; auto. now apply IH.
    + intros (t2 & -> & H2). apply IH in H2. injection H2 as -> ->. reflexivity.
  - cbn [write_parts]. rewrite app_length in Hf.
    pose proof (EscSeq_len _ _ He).
    specialize (IH off (p + blen e) post ltac:(lia)).
    rewrite (Decodes_esc_app e c post t He).
    destruct (write_parts _) as [t' ok] eqn:E.
    split.
    + intros [= <- ->]. exists t'. split; auto. now apply IH.
    + intros (t2 & -> & H2). apply IH in H2. injection H2 as -> ->. reflexivity.
  - cbn [write_parts]. split; [congruence|]. intros H. exfalso.
    eapply Decodes_bad; eauto.
Qed.

Theorem unescape_spec : forall s t, unescape s = (t, true) <-> Decodes true s t.
Proof. intros s t. apply loop_decodes. lia. Qed.

Lemma unescape_off : forall off s,
  write_parts (unescape_parts off s) = write_parts (unescape_parts 0 s).
Proof.
  intros off s. unfold unescape_parts.
  assert (forall fuel p s0, write_parts (unescape_loop fuel off (mkC p s0)) =
                           write_parts (unescape_loop fuel 0 (mkC p s0))) as H; [|auto].
  induction fuel as [|fuel IH]; intros p s0; cbn [unescape_loop]; [reflexivity|].
  assert (match unescape_step off (mkC p s0), unescape_step 0 (mkC p s0) with
          | None, None => True
          | Some (inl x, c), Some (inl y, d) => x = y /\ c = d
          | Some (inr _, c), Some (inr _, d) => c = d
          | _, _ => False end) as Hstep.
  { unfold unescape_step. destruct (advance_to_char 92 (mkC p s0)) as [[f pre] cu1].
    destruct pre; [|auto]. destruct f; cbn [negb]; [|auto].
    destruct (next cu1) as [o cu2]. destruct (next cu2) as [[fc|] cu3]; [|auto].
    destruct (escape_body fc cu3) as [[c|] cu4]; auto. }
  destruct (unescape_step off (mkC p s0)) as [[[x|x] [c cs]]|];
    destruct (unescape_step 0 (mkC p s0)) as [[[y|y] [d ds]]|]; try contradiction; cbn [write_parts].
  - destruct Hstep as [-> [= -> ->]]. now rewrite IH.
  - reflexivity.
  - reflexivity.
Qed.

Lemma errors_iff_write : forall items, escape_errors_of items = [] <-> snd (write_parts items) = true.
Proof.
  induction items as [|[[s|c]|r] items IH]; cbn [escape_errors_of write_parts].
  - cbn. tauto.
  - destruct (write_parts items); cbn in *. exact IH.
  - destruct (write_parts items); cbn in *. exact IH.
  - cbn. split; congruence.
Qed.

Theorem escape_errors_nil : forall s off,
  escape_errors s off = [] <-> exists t, Decodes true s t.
Proof.
  intros s off. unfold escape_errors. rewrite errors_iff_write, unescape_off.
  split.
  - intros H. exists (fst (unescape s)). apply unescape_spec.
    unfold unescape. destruct (write_parts _); cbn in *; congruence.
  - intros [t Ht]. apply unescape_spec in Ht. unfold unescape in Ht. now rewrite Ht.
Qed.

Theorem Decodes_unique : forall s t1 t2, Decodes true s t1 -> Decodes true s t2 -> t1 = t2.
Proof.
  intros s t1 t2 H1 H2. apply unescape_spec in H1, H2. congruence.
Qed.

(** The segmentation found by the scanner (specification in SpecEscape.v). *)
Lemma loop_scan : forall fuel off p s, (length s < fuel)%nat ->
  Scan (off + p) s (escape_errors_of (unescape_loop fuel off (mkC p s))).
Proof.
  induction fuel as [|fuel IH]; intros off p s Hf; [lia|].
  cbn [unescape_loop].
  destruct (unescape_step_spec off p s) as [->|pre post -> Hne Hn|e c post -> He|bad post -> Hbad].
  - constructor.
  - cbn [escape_errors_of]. rewrite app_length in Hf.
    assert (0 < length pre)%nat by (destruct pre; cbn; [congruence|lia]).
    specialize (IH off (p + blen pre) post ltac:(lia)).
    replace (off + (p + blen pre)) with (off + p + blen pre) in IH by lia.
    revert IH. generalize (off + p) as q.
    generalize (escape_errors_of (unescape_loop fuel off (mkC (p + blen pre) post))) as rs.
    clear - Hn. induction pre as [|c pre IHp]; intros rs q H; cbn [app blen] in *.
    + now rewrite N.add_0_r in H.
    + constructor; [intros ->; apply Hn; now left|].
      apply IHp; [intros Hi; apply Hn; now right|].
      now replace (q + utf8_len c + blen pre) with (q + (utf8_len c + blen pre)) by lia.
  - cbn [escape_errors_of]. rewrite app_length in Hf.
    pose proof (EscSeq_len _ _ He).
    specialize (IH off (p + blen e) post ltac:(lia)).
    replace (off + (p + blen e)) with (off + p + blen e) in IH by lia.
    econstructor; eauto.
  - cbn [escape_errors_of]. rewrite app_length in Hf. cbn [length] in Hf.
    specialize (IH off (p + blen (92 :: bad)) post ltac:(lia)).
    replace (off + (p + blen (92 :: bad))) with (off + p + blen (92 :: bad)) in IH by lia.
    apply ScanBad; auto.
Qed.

Theorem escape_errors_scan : forall s off, Scan off s (escape_errors s off).
Proof.
  intros s off. unfold escape_errors, unescape_parts.
  replace off with (off + 0) at 1 by lia. apply loop_scan. lia.
Qed.

(** Consequences of the segmentation alone. *)
Lemma Scan_ordered : forall o s rs, Scan o s rs -> OrderedFrom o rs.
Proof.
  intros o s rs H.
  assert (forall o o' rs, o <= o' -> OrderedFrom o' rs -> OrderedFrom o rs) as Hmono.
  { intros a b l Hab Hl. destruct Hl; constructor; auto. lia. }
  induction H as [o|o c s rs Hc H IH|o e c s rs He H IH|o bad s rs Hb H IH].
  - constructor.
  - eapply Hmono; [|exact IH]. lia.
  - eapply Hmono; [|exact IH]. lia.
  - constructor; cbn [r_start r_end]; auto; [lia|].
    cbn [blen]. pose proof (utf8_len_pos 92). lia.
Qed.

Lemma app_prefix_blen : forall e pre' (x post' : str),
  e ++ x = pre' ++ post' -> blen e <= blen pre' -> exists pre2, pre' = e ++ pre2.
Proof.
  induction e as [|a e IHe]; intros pre' x post' Heq Hle; [now exists pre'|].
  destruct pre' as [|b pre']; cbn [blen] in *; [pose proof (utf8_len_pos a); lia|].
  cbn in Heq. injection Heq as <- Heq.
  destruct (IHe pre' x post' Heq ltac:(lia)) as [p2 ->]. now exists p2.
Qed.

Lemma Scan_inside : forall o s rs, Scan o s rs -> forall r, In r rs ->
  exists pre bad post, s = pre ++ (92 :: bad) ++ post /\
    r_start r = o + blen pre /\ r_end r = o + blen (pre ++ 92 :: bad) /\
    no_escape_at s (r_start r - o).
Proof.
  intros o s rs H.
  induction H as [o|o c s rs Hc H IH|o e c s rs He H IH|o bad s rs Hb H IH]; intros r Hr.
  - destruct Hr.
  - destruct (IH r Hr) as (pre & bad & post & -> & H1 & H2 & H3).
    exists (c :: pre), bad, post. cbn [app blen]. repeat split; try lia.
    intros pre' post' e c' rest Heq Hl He.
    destruct pre' as [|c1 pre']; [cbn in Hl; pose proof (utf8_len_pos c); lia|].
    cbn in Heq. injection Heq as <- Heq. eapply (H3 pre' post'); eauto. cbn [blen] in Hl. lia.
  - destruct (IH r Hr) as (pre & bad & post & -> & H1 & H2 & H3).
    exists (e ++ pre), bad, post. rewrite <- !app_assoc. rewrite !blen_app in *. repeat split; try lia.
    intros pre' post' e' c' rest Heq Hl He'.
    destruct (app_prefix_blen e pre' _ post' Heq ltac:(lia)) as [pre2 ->].
    rewrite <- app_assoc in Heq. apply app_inv_head in Heq.
    rewrite blen_app in Hl. eapply (H3 pre2 post'); eauto. lia.
  - destruct Hr as [<-|Hr].
    + exists [], bad, s. cbn [r_start r_end app blen]. repeat split; try lia.
      intros pre' post' e' c' rest Heq Hl He'.
      replace (o - o) with 0 in Hl by lia. apply blen_nil in Hl. subst pre'.
      cbn in Heq. subst post'. exact (Hb e' c' rest He').
    + destruct (IH r Hr) as (pre & bad' & post & -> & H1 & H2 & H3).
      exists ((92 :: bad) ++ pre), bad', post. rewrite <- !app_assoc. rewrite !blen_app in *.
      repeat split; try lia.
      intros pre' post' e' c' rest Heq Hl He'.
      destruct (app_prefix_blen (92 :: bad) pre' _ post' Heq ltac:(lia)) as [pre2 ->].
      rewrite <- app_assoc in Heq. apply app_inv_head in Heq.
      rewrite blen_app in Hl. eapply (H3 pre2 post'); eauto. lia.
Qed.

Theorem escape_errors_ordered : forall s off, OrderedFrom off (escape_errors s off).
Proof. intros s off. eapply Scan_ordered, escape_errors_scan. Qed.

Theorem escape_errors_inside : forall s off r, In r (escape_errors s off) ->
  exists pre bad post, s = pre ++ (92 :: bad) ++ post /\
    r_start r = off + blen pre /\ r_end r = off + blen (pre ++ 92 :: bad) /\
    no_escape_at s (r_start r - off).
Proof. intros s off r Hr. eapply Scan_inside; [apply escape_errors_scan|exact Hr]. Qed.

(** * Proofs about [trim_multiline] *)
From Coq Require Import ZifyBool ZifyNat ZifyN.
From Verif Require Import Base Escape OutText SpecMarkup P_Base P_OutText.

Definition no_nl (s : str) : Prop := ~ In 10 s.

Lemma rsplit_once_none : forall p s, ~ In p s -> rsplit_once p s = None.
Proof.
  induction s as [|c s IH]; intros H; cbn; [reflexivity|].
  rewrite IH by (intros Hi; apply H; now right).
  destruct (N.eqb_spec c p) as [->|]; [exfalso; apply H; now left|reflexivity].
Qed.

Lemma rsplit_once_app : forall p s last, ~ In p last -> rsplit_once p (s ++ p :: last) = Some (s, last).
Proof.
  induction s as [|c s IH]; intros last H; cbn.
  - rewrite rsplit_once_none by exact H. now rewrite N.eqb_refl.
  - now rewrite IH.
Qed.

Lemma leading_ws_spec : forall prefix rest,
  Forall (fun c => is_whitespace c = true) prefix ->
  (forall c r, rest = c :: r -> is_whitespace c = false) ->
  leading_ws (prefix ++ rest) = prefix.
Proof.
  intros prefix rest H Hr. induction H as [|c p Hc Hp IH]; cbn [app leading_ws].
  - destruct rest as [|c r]; [reflexivity|]. cbn. now rewrite (Hr c r eq_refl).
  - rewrite Hc. now f_equal.
Qed.

Lemma strip_suffix_char_app : forall c s, strip_suffix_char c (s ++ [c]) = s.
Proof.
  intros c. induction s as [|d s IH]; cbn.
  - now rewrite N.eqb_refl.
  - destruct (s ++ [c]) eqn:E; [destruct s; discriminate|]. now f_equal.
Qed.

Lemma strip_suffix_char_id : forall c s, ~ (exists r, s = r ++ [c]) -> strip_suffix_char c s = s.
Proof.
  intros c. induction s as [|d s IH]; intros H; cbn; [reflexivity|].
  destruct s as [|d' s'].
  - destruct (N.eqb_spec c d) as [->|]; [exfalso; apply H; now exists []|reflexivity].
  - f_equal. apply IH. intros [r Hr]. apply H. exists (d :: r). now rewrite Hr.
Qed.

Lemma join_lines_snoc : forall ls l, ls <> [] -> join_lines (ls ++ [l]) = join_lines ls ++ 10 :: l.
Proof.
  induction ls as [|x ls IH]; intros l H; [congruence|].
  destruct ls as [|y ls]; [reflexivity|].
  cbn [app join_lines] in *. rewrite IH by congruence. now rewrite <- app_assoc.
Qed.

Lemma strip_join : forall ls l0 l0', ChopCR l0 l0' ->
  strip_suffix_char 13 (join_lines (ls ++ [l0])) = join_lines (ls ++ [l0']).
Proof.
  intros ls l0 l0' H. destruct ls as [|x ls].
  - cbn [app join_lines]. destruct H as [->|[-> H]].
    + apply strip_suffix_char_app.
    + now apply strip_suffix_char_id.
  - rewrite !join_lines_snoc by congruence. destruct H as [->|[-> H]].
    + rewrite app_comm_cons, app_assoc. apply strip_suffix_char_app.
    + apply strip_suffix_char_id. intros [r Hr]. apply H.
      destruct l0 as [|c l0]; [apply app_inj_tail in Hr as [_ Hr]; discriminate|].
      destruct (@exists_last _ (c :: l0)) as (r' & z & Hz); [congruence|].
      exists r'. rewrite Hz in *. rewrite app_comm_cons, app_assoc in Hr.
      apply app_inj_tail in Hr as [_ ->]. reflexivity.
Qed.

Lemma split_inclusive_line : forall p l s, ~ In p l ->
  split_inclusive p (l ++ p :: s) = (l ++ [p]) :: split_inclusive p s.
Proof.
  induction l as [|c l IH]; intros s H; cbn [app split_inclusive].
  - now rewrite N.eqb_refl.
  - destruct (N.eqb_spec c p) as [->|]; [exfalso; apply H; now left|].
    rewrite IH by (intros Hi; apply H; now right). reflexivity.
Qed.

Lemma split_inclusive_last : forall p l, ~ In p l ->
  split_inclusive p l = match l with [] => [] | _ => [l] end.
Proof.
  induction l as [|c l IH]; intros H; cbn [split_inclusive]; [reflexivity|].
  destruct (N.eqb_spec c p) as [->|]; [exfalso; apply H; now left|].
  rewrite IH by (intros Hi; apply H; now right). now destruct l.
Qed.

Lemma strip_line : forall prefix l l' s, no_nl prefix -> no_nl l -> Unindent prefix l l' ->
  opt_or (strip_prefix prefix (l ++ s)) (l ++ s) = l' ++ s \/ (exists c s', s = c :: s' /\ c <> 10) .
Proof.
  intros prefix l l' s Hp Hl Hu.
  destruct Hu as [->|[-> Hn]].
  - left. rewrite <- app_assoc. replace (strip_prefix prefix (prefix ++ l' ++ s)) with (Some (l' ++ s)).
    + reflexivity.
    + symmetry. now apply strip_prefix_some.
  - destruct (strip_prefix prefix (l ++ s)) as [r|] eqn:E; [|now left].
    apply strip_prefix_some in E.
    destruct s as [|c s]; [|destruct (N.eq_dec c 10) as [->|]; [|right; eauto]].
    + exfalso. rewrite app_nil_r in E. apply Hn. eauto.
    + exfalso. apply Hn. clear Hn. revert l E Hl. induction prefix as [|x p IH]; intros l E Hl.
      * now exists l.
      * destruct l as [|y l]; cbn in E.
        { injection E as <- _. exfalso. apply Hp. now left. }
        injection E as <- E.
        destruct (IH (fun Hi => Hp (or_intror Hi)) l E (fun Hi => Hl (or_intror Hi))) as [r' ->].
        now exists r'.
Qed.

Lemma trim_lines : forall prefix ls outs, no_nl prefix -> Forall no_nl ls ->
  Forall2 (Unindent prefix) ls outs ->
  concat (map (fun l => opt_or (strip_prefix prefix l) l) (split_inclusive 10 (join_lines ls)))
  = join_lines outs.
Proof.
  intros prefix ls outs Hp Hls H. induction H as [|l l' ls outs Hu H IH]; [reflexivity|].
  inversion Hls as [|? ? Hl Hls']; subst. specialize (IH Hls').
  destruct H as [|l2 l2' ls outs Hu2 H2].
  - cbn [join_lines]. rewrite split_inclusive_last by exact Hl.
    destruct (strip_line prefix l l' [] Hp Hl Hu) as [E|(c & s' & E & _)]; [|discriminate].
    rewrite !app_nil_r in E.
    destruct l as [|c l]; cbn [map concat].
    + cbn in E. destruct Hu as [Hu|[-> _]]; [|reflexivity].
      symmetry in Hu. apply app_eq_nil in Hu as [_ ->]. reflexivity.
    + now rewrite E, app_nil_r.
  - change (join_lines (l :: l2 :: ls)) with (l ++ 10 :: join_lines (l2 :: ls)).
    rewrite split_inclusive_line by exact Hl. cbn [map concat]. rewrite IH.
    destruct (strip_line prefix l l' [10] Hp Hl Hu) as [E|(c & s' & E & Hc)];
      [|injection E as <- _; congruence].
    rewrite E. change (join_lines (l' :: l2' :: outs)) with (l' ++ 10 :: join_lines (l2' :: outs)).
    now rewrite <- app_assoc.
Qed.

Theorem trim_multiline_spec : forall first ls l0 l0' prefix rest outs,
  no_nl first -> Forall no_nl ls -> no_nl l0 -> no_nl (prefix ++ rest) ->
  Forall (fun c => is_whitespace c = true) prefix ->
  (forall c r, rest = c :: r -> is_whitespace c = false) ->
  ChopCR l0 l0' ->
  Forall2 (Unindent prefix) (ls ++ [l0']) outs ->
  concat (trim_multiline (first ++ 10 :: join_lines (ls ++ [l0]) ++ 10 :: prefix ++ rest))
  = join_lines outs.
Proof.
  intros first ls l0 l0' prefix rest outs Hf Hls Hl0 Hlast Hp Hr Hc Hu.
  unfold trim_multiline. rewrite split_once_app by exact Hf.
  rewrite rsplit_once_app by exact Hlast.
  rewrite leading_ws_spec by assumption. rewrite (strip_join ls l0 l0' Hc).
  apply trim_lines.
  - intros Hi. apply Hlast, in_app_iff. now left.
  - apply Forall_app. split; [exact Hls|]. constructor; [|constructor].
    destruct Hc as [->|[-> _]]; [|exact Hl0]. intros Hi. apply Hl0, in_app_iff. now left.
  - exact Hu.
Qed.

Theorem trim_multiline_short : forall s, (count_occ N.eq_dec s 10%N < 2)%nat -> trim_multiline s = [].
Proof.
  intros s H. unfold trim_multiline, split_once.
  destruct (split_at_char 10 s) as [[pre post]|] eqn:E; [|reflexivity].
  apply split_at_char_some in E as (-> & _ & post' & ->).
  rewrite count_occ_app in H. cbn in H.
  rewrite rsplit_once_none; [reflexivity|].
  intros Hi. apply (count_occ_In N.eq_dec) in Hi. lia.
Qed.

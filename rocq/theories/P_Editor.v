(** * Rows and columns in the editor: proofs for C75. *)

From Coq Require Import Lia.
From Verif Require Import Base Wasm Editor SpecEditor P_Base P_Wasm.
Local Open Scope nat_scope.

Lemma split_plain : forall l s, one_line l -> split_lines (l ++ s) = match split_lines s with x :: xs => (l ++ x) :: xs | [] => [l] end.
Proof.
  induction l as [|c l IH]; intros s [H1 H2].
  - cbn [app]. assert (split_lines s <> []) as H. { destruct s as [|c r]; [discriminate|]. cbn. destruct (_ =? _)%N; [discriminate|]. destruct (_ =? _)%N; [discriminate|]. destruct (split_lines r); discriminate. }
    destruct (split_lines s); [contradiction|reflexivity].
  - cbn [app split_lines]. destruct (N.eqb_spec c 10) as [->|_]; [exfalso; apply H1; now left|]. destruct (N.eqb_spec c 13) as [->|_]; [exfalso; apply H2; now left|].
    rewrite IH; [|split; intros X; [apply H1|apply H2]; now right]. destruct (split_lines s); reflexivity.
Qed.
Lemma split_text : forall nl rest l, In nl line_ends -> Forall one_line (l :: rest) -> split_lines (text_of nl l rest) = l :: rest.
Proof.
  intros nl rest. unfold text_of. induction rest as [|x rest IH]; intros l Hn Hl; inversion Hl as [|? ? H1 H2]; subst; cbn [flat_map].
  - rewrite split_plain by auto. cbn. now rewrite app_nil_r.
  - rewrite split_plain by auto. specialize (IH x Hn H2).
    assert (split_lines ((nl ++ x) ++ flat_map (fun y => nl ++ y) rest) = [] :: x :: rest) as ->; [|now rewrite app_nil_r].
    rewrite <- app_assoc. set (t := x ++ flat_map (fun y => nl ++ y) rest) in *.
    destruct Hn as [<-|[<-|[<-|[]]]]; cbn [app split_lines N.eqb Pos.eqb]; try (now rewrite IH).
    destruct t as [|d t'] eqn:Et; [now rewrite <- IH|]. destruct (N.eqb_spec d 10) as [->|_]; [|now rewrite IH]. exfalso.
    inversion H2 as [|? ? [G _] _]; subst. destruct x as [|y x]; unfold t in Et.
    + destruct rest as [|z rest]; [discriminate|]. cbn in Et. discriminate.
    + cbn in Et. injection Et as -> _. apply G. now left.
Qed.
Lemma newline_text : forall nl l x rest, In nl line_ends -> Forall one_line (l :: x :: rest) -> newline_length (text_of nl l (x :: rest)) = N.of_nat (length nl).
Proof.
  intros nl l x rest Hn H. inversion H as [|? ? [H1 H2] H3]; subst. inversion H3 as [|? ? [G1 _] _]; subst. unfold text_of. cbn [flat_map]. clear H H3.
  induction l as [|c l IH].
  - cbn [app]. destruct Hn as [<-|[<-|[<-|[]]]]; try reflexivity. cbn [app newline_length N.eqb Pos.eqb].
    destruct x as [|d x]; cbn [app].
    + destruct rest; reflexivity.
    + destruct (N.eqb_spec d 10) as [->|_]; [exfalso; apply G1; now left|reflexivity].
  - cbn [app newline_length]. destruct (N.eqb_spec c 10) as [->|_]; [exfalso; apply H1; now left|]. destruct (N.eqb_spec c 13) as [->|_]; [exfalso; apply H2; now left|].
    apply IH; intros X; [apply H1|apply H2]; now right.
Qed.

Lemma find_row : forall nl rest done l k, In nl line_ends -> Forall one_line (done ++ l :: rest) -> (k <= length (text_of nl l rest)) ->
  row_column (flat_map (fun x => x ++ nl) done ++ text_of nl l rest) (length (flat_map (fun x => x ++ nl) done) + k)
    (find_position (N.of_nat (length nl)) (l :: rest) (N.of_nat (length done)) (N.of_nat k)).
Proof.
  intros nl rest. induction rest as [|x rest IH]; intros done l k Hn Hl Hk.
  - cbn [find_position]. exists nl, done, l, []. repeat split; auto; cbn [snd]; [lia|intros X; now contradiction X|].
    intros _. unfold text_of in Hk. cbn in Hk. rewrite app_nil_r in Hk. lia.
  - cbn [find_position]. destruct (N.ltb_spec (N.of_nat k) (N.of_nat (length l) + N.of_nat (length nl))) as [H|H].
    + exists nl, done, l, (x :: rest). repeat split; auto; cbn [snd]; [lia|intros _; lia|discriminate].
    + pose proof (IH (done ++ [l]) x (k - (length l + length nl)) Hn) as G.
      rewrite <- app_assoc in G. cbn [app] in G. specialize (G Hl).
      assert (length (text_of nl l (x :: rest)) = (length l + length nl) + length (text_of nl x rest)) as E.
      { unfold text_of. cbn [flat_map]. rewrite !app_length. lia. }
      specialize (G ltac:(lia)).
      rewrite flat_map_app in G. cbn [flat_map] in G. rewrite app_nil_r in G.
      replace (flat_map (fun x => x ++ nl) done ++ text_of nl l (x :: rest)) with ((flat_map (fun x => x ++ nl) done ++ l ++ nl) ++ text_of nl x rest)
        by (unfold text_of; cbn [flat_map]; now rewrite <- !app_assoc).
      replace (length (flat_map (fun x => x ++ nl) done) + k) with (length (flat_map (fun x => x ++ nl) done ++ l ++ nl) + (k - (length l + length nl)))
        by (rewrite !app_length; lia).
      replace (N.of_nat (length done) + 1)%N with (N.of_nat (length (done ++ [l]))) by (rewrite app_length; cbn; lia).
      replace (N.of_nat k - (N.of_nat (length l) + N.of_nat (length nl)))%N with (N.of_nat (k - (length l + length nl))) by lia. exact G.
Qed.
Lemma position_right : forall text k, same_line_ends text -> k <= length text -> row_column text k (index_to_position text (N.of_nat k)).
Proof.
  intros text k (nl & l & rest & Hn & Hl & ->) Hk. unfold index_to_position. rewrite split_text by auto. destruct rest as [|x rest].
  - apply (find_row nl [] [] l k Hn Hl Hk).
  - rewrite newline_text by auto. apply (find_row nl (x :: rest) [] l k Hn Hl Hk).
Qed.

(** ASCII characters are units of their own. *)
Lemma from_js_ascii_prefix : forall a b s, Forall (fun c => (c < 128)%N) a -> from_js s = a ++ b -> exists t, s = a ++ t.
Proof.
  induction a as [|c a IH]; intros b s Ha E; [now exists s|]. inversion Ha as [|? ? Hc Ha']; subst.
  cbn beta in Hc. destruct s as [|h s]; [discriminate|]. cbn [from_js app] in E.
  destruct (surrogate_high h) eqn:Eh.
  - exfalso. destruct s as [|l s]; [assert (65533 = c)%N by congruence; lia|]. destruct (surrogate_low l) eqn:El.
    + assert (65536 + (h - 55296) * 1024 + (l - 56320) = c)%N by congruence. lia.
    + assert (65533 = c)%N by congruence. lia.
  - destruct (surrogate_low h); [assert (65533 = c)%N by congruence; lia|]. injection E as -> E. destruct (IH b s Ha' E) as [t ->]. now exists t.
Qed.

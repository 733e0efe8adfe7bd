(** * Lemmas about closing brackets that close nothing (for C62). *)

From Verif Require Import Base Doc Config Ast Errors Build Convert Grammar Parser SpecSource SpecEscape SpecTree SpecInfer SpecMarkup SpecWrite SpecStray
  P_Base P_Unknown P_Parser P_Forward P_WriteSel P_WriteItems.
From Coq Require Import Lia.

Lemma closer_ending : forall c r, closer c -> ending (c ++ r) /\ stops is_whitespace (c ++ r) /\ c <> [].
Proof.
  intros c r H. assert (In c [L "}"; L ")>"; L "/>"; L "#>"; L "_>"; L "~>"; [34; 62]]) as Hc.
  { destruct H as [->|[->|(o & m & H)]]; [cbn; tauto..|]. cbn in H. repeat (destruct H as [H|H]; [injection H as <- <- <-; cbn; tauto|]). destruct H. }
  clear H. cbn in Hc. repeat (destruct Hc as [<-|Hc]; [|]); [..|destruct Hc]; (split; [split|split]); try discriminate;
    try (now intros x y [= <- _]); first [right; left; eexists; reflexivity | right; right; right; eexists _, _; split; [|reflexivity]; cbn; tauto].
Qed.

Lemma stray_document : forall alnum tag s us c r, ascii_ok alnum -> Source tag s us -> closer c -> apart s c ->
  p_document alnum (s ++ c ++ r) = Starved \/ p_document alnum (s ++ c ++ r) = Broken.
Proof.
  intros alnum tag s us c r Hal H Hc Ha. destruct (closer_ending c r Hc) as (HE & HS & Hn).
  destruct H as [w s us g Hw Hso HL Hg]. set (src := (w ++ s ++ g) ++ c ++ r).
  assert (on src (mkP 0 [] src) (w ++ s ++ g ++ c ++ r)) as O0 by (split; [apply at_start|subst src; cbn [p_rest]; now rewrite <- !app_assoc]).
  destruct (written_all src alnum Hal tag) as (_ & _ & _ & _ & _ & HW & _).
  assert (apart s (g ++ c ++ r)) as Ha'.
  { destruct Hg as [|x g Hx Hg].
    - cbn [app] in *. rewrite app_nil_r in Ha. apply apart_app; [|exact Hn]. apply apart_r with w; [|exact Ha].
      apply (begins_ws [] w); [now left|exact Hw].
    - apply apart_start. intros r' E. injection E as -> _. destruct Hx as [Hx _]. discriminate. }
  assert (ends src (p_content (p_node alnum (S (length src))) (skip_ws (mkP 0 [] src))) (c ++ r) (ContentIs src tag true us)) as HC.
  { eapply (content_ends src alnum tag _ true w s g us (c ++ r)); eauto. }
  unfold p_document. cbn zeta. destruct HC as [->|(x & s1 & -> & O1 & _)]; [now left|]. right. cbn [then_].
  assert (on src (skip_ws s1) (c ++ r)) as [_ E] by now apply on_skip_none. rewrite E. destruct c; [now destruct Hn|reflexivity].
Qed.

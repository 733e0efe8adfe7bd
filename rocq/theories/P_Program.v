(** * Proofs about runs in which every source is converted. *)

From Coq Require Import Permutation.
From Verif Require Import Base P_Base Doc Config Errors Reporter Cli SpecCli Args Program P_Run.

Section Good.
Variable fs : io.
Variable cv : str -> config -> str + convert_error.
Variable cvf : str -> config -> str + option str * convert_error.
Variable a : args.

Definition good (text : stream -> str) (j : stream * stream) : Prop :=
  exists src, io_read fs (fst j) = inl src /\ io_write fs (snd j) (text (fst j)) = None /\
    cv src (as_config (g_options a)) = inl (text (fst j)) /\ cvf src (as_config (g_options a)) = inl (text (fst j)).

Lemma good_job : forall text j, good text j -> run_job fs cv cvf a j = mkJob [] [(snd j, text (fst j))] (inl true).
Proof.
  intros text [s d] (src & Hr & Hw & Hc & Hf). cbn [fst snd] in *. unfold run_job, convert_job. rewrite Hr, Hc, Hf.
  destruct (o_forgiving (g_options a)) as [[|]|]; cbn [is_none is_some negb andb]; rewrite Hw; reflexivity.
Qed.
Lemma reduces_true : forall l r, reduces l r -> Forall (fun x => x = inl true) l -> r = inl true.
Proof.
  intros l r H. induction H as [|r|l1 l2 r1 r2 H1 IH1 H2 IH2]; intros Hl; [reflexivity|now inversion Hl|].
  apply Forall_app in Hl. destruct Hl as [A B]. now rewrite (IH1 A), (IH2 B).
Qed.
Lemma all_good : forall text jobs, Forall (good text) jobs ->
  flat_map (fun j => jr_events (run_job fs cv cvf a j)) jobs = [] /\
  flat_map (fun j => jr_writes (run_job fs cv cvf a j)) jobs = map (fun j => (snd j, text (fst j))) jobs /\
  Forall (fun x => x = inl true) (map (fun j => jr_result (run_job fs cv cvf a j)) jobs).
Proof.
  intros text jobs H. induction H as [|j jobs Hj _ (E1 & E2 & E3)]; [repeat split; constructor|].
  cbn [flat_map map]. rewrite (good_job _ _ Hj). cbn [jr_events jr_writes jr_result app]. rewrite E1, E2. repeat split. now constructor.
Qed.

Lemma good_run : forall debug json text p stderr written ok, make_plan fs a = inl p -> Forall (good text) (jobs_of p) ->
  runs fs cv cvf debug json a stderr written ok ->
  stderr = [] /\ Permutation written (map (fun j => (snd j, text (fst j))) (jobs_of p)) /\ ok = true.
Proof.
  intros debug json text p stderr written ok Hp Hg H. inversion H as [evs ws r He E1 E2 E3]. subst ws.
  assert (Hx : evs = [] /\ r = inl true /\ Permutation written (map (fun j => (snd j, text (fst j))) (jobs_of p))).
  { inversion He as [e Hp' | s d Hp' | jobs run order r' Hp' Hpar Hperm]; subst; rewrite Hp in Hp'; [discriminate|injection Hp' as ->..].
    - cbn [jobs_of] in *. inversion Hg as [|? ? Hj _]. rewrite (good_job _ _ Hj). repeat split. apply Permutation_refl.
    - cbn [jobs_of] in *. destruct Hpar as (Hsub & Hrun & Hred). destruct (all_good text jobs Hg) as (_ & _ & HT).
      assert (run = jobs) as ->.
      { destruct Hrun as [E|(j & e & Hj & Hr)]; [exact E|]. exfalso.
        pose proof (sublist_in _ _ _ Hsub _ Hj) as Hi.
        rewrite Forall_forall in Hg. rewrite (good_job _ _ (Hg j Hi)) in Hr. discriminate. }
      assert (Forall (good text) order) as Ho by (rewrite Forall_forall in *; intros j Hj; apply Hg; now apply (Permutation_in _ (Permutation_sym Hperm))).
      destruct (all_good text order Ho) as (-> & -> & _). split; [reflexivity|]. split; [now apply (reduces_true _ _ Hred)|].
      apply Permutation_map. now apply Permutation_sym. }
  destruct Hx as (-> & -> & Hw). destruct (g_error_mode a); auto.
Qed.
End Good.

(** * The web demo (for C64-C66). *)

From Coq Require Import ZArith Lia.
From Verif Require Import Base Display Wasm Demo SpecDemo P_Base.

Section Demo.
Variable conv : list N -> js_result.
Variable place : list N -> N -> N * N.
Variable examples : list str.
Notation happen := (happen conv place examples).
Notation run := (run conv place examples).
Notation update := (update examples).
Notation loaded := (loaded examples).
Notation load_example := (load_example examples).
Notation start := (start examples).

Definition flight (s : demo) : list js_result := w_out s ++ map conv (w_wasm s ++ w_import s ++ w_queue s).
Definition shows (s : demo) (r : js_result) : Prop := forall o, jr_output r = Some o -> d_shown s = Some o.
Definition fresh (s : demo) : Prop :=
  exists l, d_last s = Some l /\ ((flight s = [] /\ shows s (conv l)) \/ exists f, flight s = f ++ [conv l]).
Definition core (s : demo) : Prop :=
  d_worker s = true /\ (w_import s <> [] -> w_ready s = false) /\ (d_sent s <> None -> flight s <> []) /\
  (d_dirty s = true -> flight s <> [] \/ d_timers s <> O) /\ fresh s.
Definition inv (s : demo) : Prop := core s /\ (d_last s = Some (d_text s) \/ d_event s = true \/ d_dirty s = true).

Lemma str_eqb_is : forall a b, str_eqb a b = true -> a = b.
Proof. intros a b H. now apply str_eqb_eq in H. Qed.

Lemma store_same : forall i s, let s' := store_modified examples i s in
  d_text s' = d_text s /\ d_event s' = d_event s /\ d_name s' = d_name s /\ d_select s' = d_select s /\ d_loading s' = d_loading s /\
  d_last s' = d_last s /\ d_sent s' = d_sent s /\ d_dirty s' = d_dirty s /\ d_timers s' = d_timers s /\ d_fetches s' = d_fetches s /\
  d_shown s' = d_shown s /\ d_notes s' = d_notes s /\ d_marks s' = d_marks s /\ d_worker s' = d_worker s /\ w_queue s' = w_queue s /\
  w_import s' = w_import s /\ w_wasm s' = w_wasm s /\ w_ready s' = w_ready s /\ w_out s' = w_out s.
Proof. intros i s. unfold store_modified. destruct (d_loading s) eqn:E; cbn; rewrite ?E; repeat split. Qed.

Lemma post_core : forall now s, d_worker s = true -> (w_import s <> [] -> w_ready s = false) -> d_dirty s = false ->
  core (post examples now s) /\ d_last (post examples now s) = Some (d_text (post examples now s)).
Proof.
  intros now s Hw Hi Hd. pose proof (store_same (d_text s) s) as H. cbn zeta in H. decompose [and] H. clear H. unfold post.
  set (s' := store_modified examples (d_text s) s) in *. split; [|reflexivity].
  assert (flight (mkDemo (d_text s') (d_event s') (d_name s') (d_select s') (d_loading s') (Some (d_text s')) (Some now) (d_dirty s') (d_timers s') (d_fetches s')
    (d_store s') (d_star s') (d_shown s') (d_notes s') (d_marks s') (d_worker s') (w_queue s' ++ [d_text s']) (w_import s') (w_wasm s') (w_ready s') (w_out s')) =
    flight s ++ [conv (d_text s')]) as EF.
  { unfold flight. cbn. rewrite !map_app. cbn. rewrite <- !app_assoc. congruence. }
  assert (forall x, flight s ++ [x] <> []) as Hne by (intros x E; now apply app_eq_nil in E).
  split; [cbn; congruence|]. split; [cbn; intros Hx; replace (w_ready s') with (w_ready s); apply Hi; congruence|]. split; [|split].
  - intros _. rewrite EF. apply Hne.
  - cbn. intros Hx. congruence.
  - exists (d_text s'). split; [reflexivity|]. right. exists (flight s). exact EF.
Qed.
Lemma update_core : forall now s, core s -> core (update now s) /\ (d_last (update now s) = Some (d_text (update now s)) \/ d_dirty (update now s) = true).
Proof.
  intros now s (Hw & Hi & Hs & Hd & Hf). unfold Demo.update. destruct (d_dirty s) eqn:Ed; [split; [|now right]; repeat split; auto; now rewrite Ed|].
  rewrite Hw. cbn [negb].
  destruct (match d_sent s with Some t => _ | None => false end) eqn:Et.
  - split; [|now right]. repeat split; auto. intros _. left. apply Hs. now destruct (d_sent s).
  - destruct (match d_last s with Some l => _ | None => false end) eqn:El.
    + split; [repeat split; auto; now rewrite Ed|]. left. destruct (d_last s); [|discriminate]. apply str_eqb_is in El. congruence.
    + destruct (post_core now s Hw Hi Ed) as [H1 H2]. split; [exact H1|now left].
Qed.
(** The same but for what the invariant does not look at *)
Definition alike (s s' : demo) : Prop :=
  d_worker s' = d_worker s /\ w_import s' = w_import s /\ w_ready s' = w_ready s /\ d_sent s' = d_sent s /\ d_dirty s' = d_dirty s /\
  d_timers s' = d_timers s /\ d_last s' = d_last s /\ d_shown s' = d_shown s /\ flight s' = flight s.
Lemma alike_core : forall s s', alike s s' -> core s -> core s'.
Proof.
  intros s s' (E1 & E2 & E3 & E4 & E5 & E6 & E7 & E8 & E9) (H1 & H2 & H3 & H4 & l & H5 & H6).
  unfold core, fresh, shows. rewrite E1, E2, E3, E4, E5, E6, E7, E8, E9. repeat split; auto. exists l. auto.
Qed.
Lemma update_inv : forall now s, core s -> inv (update now s).
Proof. intros now s H. destruct (update_core now s H) as [H1 H2]. split; [exact H1|tauto]. Qed.
Lemma loaded_inv : forall name text now s, core s -> inv (loaded name text now s).
Proof. intros name text now s H. unfold Demo.loaded. apply update_inv. apply (alike_core s); [repeat split|exact H]. Qed.
Lemma load_inv : forall name now s, inv s -> inv (load_example name now s).
Proof.
  intros name now s [H Ht]. unfold Demo.load_example. cbn [d_store]. destruct (d_store s name) as [t|].
  - apply loaded_inv. apply (alike_core s); [repeat split|exact H].
  - split; [|exact Ht]. apply (alike_core s); [repeat split|exact H].
Qed.
Lemma happen_inv : forall e s s', e <> Fail -> happen e s = Some s' -> inv s -> inv s'.
Proof.
  intros e s s' He E H. pose proof H as [Hc Ht]. destruct e as [text|now|name now|now|i text now|i|now| | | | |]; cbn [Demo.happen] in E.
  - injection E as <-. split; [apply (alike_core s); [repeat split|exact Hc]|]. right. now left.
  - injection E as <-. apply update_inv. apply (alike_core s); [repeat split|exact Hc].
  - injection E as <-. apply load_inv. split; [apply (alike_core s); [repeat split|exact Hc]|exact Ht].
  - injection E as <-. apply load_inv. split; [apply (alike_core s); [repeat split|exact Hc]|exact Ht].
  - destruct (nth_error (d_fetches s) i); [|discriminate]. injection E as <-. apply loaded_inv. apply (alike_core s); [repeat split|exact Hc].
  - destruct (nth_error (d_fetches s) i); [|discriminate]. injection E as <-. split; [apply (alike_core s); [repeat split|exact Hc]|exact Ht].
  - destruct (d_timers s) as [|n]; [discriminate|]. injection E as <-. apply update_inv. destruct Hc as (H1 & H2 & H3 & H4 & H5).
    repeat split; try assumption. discriminate.
  - destruct (w_out s) as [|r out] eqn:Eo; [discriminate|]. injection E as <-. destruct Hc as (H1 & H2 & H3 & H4 & l & H5 & H6).
    assert (flight s = r :: flight (set_worker (w_queue s) (w_import s) (w_wasm s) (w_ready s) out s)) as EF by (unfold flight; cbn; now rewrite Eo).
    split; [|destruct Ht as [Ht|[Ht|Ht]]; auto]. split; [exact H1|]. split; [exact H2|]. split; [cbn; congruence|]. split.
    + cbn. intros Hd. right. rewrite Hd. discriminate.
    + exists l. split; [exact H5|]. destruct H6 as [[H6 _]|[f H6]]; [rewrite EF in H6; discriminate|]. rewrite EF in H6.
      change (flight (on_message place r (set_worker (w_queue s) (w_import s) (w_wasm s) (w_ready s) out s))) with (flight (set_worker (w_queue s) (w_import s) (w_wasm s) (w_ready s) out s)).
      destruct f as [|x f].
      * left. injection H6 as -> H6. split; [exact H6|]. intros o Ho. cbn. now rewrite Ho.
      * right. injection H6 as _ H6. now exists f.
  - destruct (w_queue s) as [|x q] eqn:Eq; [discriminate|]. injection E as <-. pose proof Hc as (_ & Hr & _).
    destruct (w_ready s) eqn:Er.
    + assert (w_import s = []) as Ei by (destruct (w_import s); [reflexivity|]; specialize (Hr ltac:(discriminate)); discriminate).
      split; [|exact Ht]. apply (alike_core s); [|exact Hc]. repeat split; [now symmetry|]. unfold flight. cbn. rewrite Ei, Eq. cbn. now rewrite <- app_assoc.
    + split; [|exact Ht]. destruct Hc as (H1 & H2 & H3 & H4 & H5).
      assert (flight (set_worker q (w_import s ++ [x]) (w_wasm s) false (w_out s) s) = flight s) as EF by (unfold flight; cbn; rewrite Eq, <- app_assoc; reflexivity).
      unfold core, fresh. rewrite EF. repeat split; try assumption.
  - destruct (w_import s) as [|x q] eqn:Eq; [discriminate|]. injection E as <-. split; [|exact Ht]. destruct Hc as (H1 & H2 & H3 & H4 & H5).
    assert (flight (set_worker (w_queue s) [] (w_wasm s ++ x :: q) true (w_out s) s) = flight s) as EF by (unfold flight; cbn; rewrite Eq, <- app_assoc; reflexivity).
    unfold core, fresh. rewrite EF. repeat split; try assumption. cbn. intros F. now destruct F.
  - destruct (w_wasm s) as [|x q] eqn:Eq; [discriminate|]. injection E as <-. split; [|exact Ht]. apply (alike_core s); [|exact Hc]. repeat split.
    unfold flight. cbn. rewrite Eq. cbn. now rewrite <- app_assoc.
  - contradiction.
Qed.
Lemma start_inv : forall text name store now, inv (start text name store now).
Proof.
  intros text name store now. unfold Demo.start.
  assert (exists t sel fs ld nm, load_example name now (mkDemo text false name name true None None false O [] store (fun _ => false) None [] [] false [] [] [] false []) =
    mkDemo t false nm sel ld None None false O fs store (fun _ => false) None [] [] false [] [] [] false []) as (t & sel & fs & ld & nm & ->).
  { unfold Demo.load_example. cbn. destruct (store name) as [x|]; cbn; eauto 10. }
  cbn. unfold Demo.update. cbn. match goal with |- inv (post _ _ ?x) => destruct (post_core now x eq_refl ltac:(intros F; now destruct F) eq_refl) as [H1 H2] end.
  split; [exact H1|now left].
Qed.
Lemma run_app : forall a b s, run (a ++ b) s = match run a s with Some s' => run b s' | None => None end.
Proof. induction a as [|e a IH]; intros b s; [reflexivity|]. cbn. destruct (happen e s); [apply IH|reflexivity]. Qed.
Lemma run_ind : forall (P : demo -> Prop) (Q : event -> Prop), (forall e s s', Q e -> happen e s = Some s' -> P s -> P s') ->
  forall es s s', Forall Q es -> run es s = Some s' -> P s -> P s'.
Proof.
  intros P Q H. induction es as [|e es IH]; intros s s' HQ E HP; [now injection E as <-|]. cbn in E. apply Forall_cons_iff in HQ as [Hq HQ].
  destruct (happen e s) as [s1|] eqn:E1; [|discriminate]. eapply IH; eauto.
Qed.
Lemma run_inv : forall es s s', answers es -> run es s = Some s' -> inv s -> inv s'.
Proof.
  intros es s s' Ha E. apply (run_ind inv (fun e => e <> Fail)) with (es := es); [intros; eapply happen_inv; eauto| |exact E].
  apply Forall_forall. intros e He ->. now apply Ha.
Qed.
Lemma quiet_inv : forall s, inv s -> quiet s -> d_last s = Some (d_text s) /\ d_dirty s = false /\ shows s (conv (d_text s)).
Proof.
  intros s [(H1 & H2 & H3 & H4 & l & H5 & H6) Ht] (Q1 & Q2 & Q3 & Q4 & Q5 & Q6).
  assert (flight s = []) as EF by (unfold flight; now rewrite Q3, Q4, Q5, Q6).
  destruct (d_dirty s) eqn:Ed; [destruct (H4 eq_refl); contradiction|]. destruct Ht as [Ht|[Ht|Ht]]; try congruence.
  rewrite H5 in Ht. injection Ht as ->. split; [exact H5|]. split; [reflexivity|]. destruct H6 as [[_ H6]|[f H6]]; [exact H6|]. rewrite EF in H6. now destruct f.
Qed.

(** ** It comes to an end. *)
Definition behind (s : demo) : nat := if match d_last s with Some l => str_eqb (d_text s) l | None => false end then 0 else 10.
Definition measure (s : demo) : nat :=
  ((if d_event s then 1 else 0) + behind s + d_timers s + 8 * length (w_queue s) + 6 * length (w_import s) + 4 * length (w_wasm s) + 2 * length (w_out s))%nat.
Lemma update_measure : forall now s, (measure (update now s) <= measure s)%nat.
Proof.
  intros now s. unfold Demo.update. destruct (d_dirty s); [lia|]. destruct (negb (d_worker s)); [lia|].
  destruct (match d_sent s with Some t => _ | None => false end); [apply Nat.le_refl|].
  destruct (match d_last s with Some l => _ | None => false end) eqn:E; [lia|].
  unfold measure, behind. rewrite E. pose proof (store_same (d_text s) s) as H. cbn zeta in H. decompose [and] H. clear H. unfold post. cbn.
  set (s' := store_modified examples (d_text s) s) in *. rewrite str_eqb_refl, app_length. cbn [length].
  replace (d_event s') with (d_event s) by congruence. replace (d_timers s') with (d_timers s) by congruence. replace (w_queue s') with (w_queue s) by congruence.
  replace (w_import s') with (w_import s) by congruence. replace (w_wasm s') with (w_wasm s) by congruence. replace (w_out s') with (w_out s) by congruence. lia.
Qed.
Lemma due_measure : forall e s s', due s e -> happen e s = Some s' -> (measure s' < measure s)%nat.
Proof.
  intros e s s' Hd E. destruct e as [text|now|name now|now|i text now|i|now| | | | |]; cbn [Demo.happen due] in *; try contradiction.
  - injection E as <-. eapply Nat.le_lt_trans; [apply update_measure|]. unfold measure, behind. cbn. rewrite Hd. lia.
  - destruct (d_timers s) as [|n] eqn:Et; [discriminate|]. injection E as <-. eapply Nat.le_lt_trans; [apply update_measure|]. unfold measure, behind. cbn. rewrite Et. lia.
  - destruct (w_out s) as [|r out] eqn:Eo; [discriminate|]. injection E as <-. unfold measure, behind. cbn. rewrite Eo. cbn. destruct (d_dirty s); lia.
  - destruct (w_queue s) as [|x q] eqn:Eq; [discriminate|]. injection E as <-. unfold measure, behind. destruct (w_ready s); cbn; rewrite Eq, app_length; cbn; lia.
  - destruct (w_import s) as [|x q] eqn:Eq; [discriminate|]. injection E as <-. unfold measure, behind. cbn. rewrite Eq, app_length; cbn; lia.
  - destruct (w_wasm s) as [|x q] eqn:Eq; [discriminate|]. injection E as <-. unfold measure, behind. cbn. rewrite Eq, app_length; cbn; lia.
Qed.
Lemma goes_short : forall es s s', goes conv place examples es s s' -> (length es + measure s' <= measure s)%nat.
Proof.
  induction 1 as [|e s s' es s'' Hd E H IH]; [cbn; lia|]. pose proof (due_measure e s s' Hd E). cbn [length]. lia.
Qed.
Lemma goes_on : forall s, ~ quiet s -> exists e s', due s e /\ happen e s = Some s'.
Proof.
  intros s H. destruct (d_event s) eqn:E1; [exists (Input 0); eexists; split; [exact E1|reflexivity]|].
  destruct (d_timers s) eqn:E2; [|exists (Timer 0); eexists; split; [exact I|cbn; now rewrite E2]].
  destruct (w_queue s) eqn:E3; [|exists Take; eexists; split; [exact I|cbn; now rewrite E3]].
  destruct (w_import s) eqn:E4; [|exists Import; eexists; split; [exact I|cbn; now rewrite E4]].
  destruct (w_wasm s) eqn:E5; [|exists Convert; eexists; split; [exact I|cbn; now rewrite E5]].
  destruct (w_out s) eqn:E6; [|exists Reply; eexists; split; [exact I|cbn; now rewrite E6]].
  exfalso. apply H. repeat split; assumption.
Qed.
Lemma goes_run : forall es s s', goes conv place examples es s s' -> run es s = Some s' /\ answers es /\ d_text s' = d_text s.
Proof.
  assert (forall now s, d_text (update now s) = d_text s) as HU.
  { intros now s. unfold Demo.update. destruct (d_dirty s); [reflexivity|]. destruct (negb (d_worker s)); [reflexivity|].
    destruct (match d_sent s with Some t => _ | None => false end); [reflexivity|]. destruct (match d_last s with Some l => _ | None => false end); [reflexivity|].
    unfold post. cbn. now destruct (store_same (d_text s) s). }
  induction 1 as [|e s s' es s'' Hd E H (IH1 & IH2 & IH3)]; [repeat split; intros []|]. cbn. rewrite E. repeat split; [exact IH1| |].
  - intros [F|F]; [now subst e|now apply IH2].
  - rewrite IH3. destruct e as [text|now|name now|now|i text now|i|now| | | | |]; cbn [Demo.happen due] in *; try contradiction.
    + injection E as <-. now rewrite HU.
    + destruct (d_timers s); [discriminate|]. injection E as <-. now rewrite HU.
    + destruct (w_out s); [discriminate|]. now injection E as <-.
    + destruct (w_queue s); [discriminate|]. injection E as <-. now destruct (w_ready s).
    + destruct (w_import s); [discriminate|]. now injection E as <-.
    + destruct (w_wasm s); [discriminate|]. now injection E as <-.
Qed.
(** ** Without an answer *)
Definition stuck (s : demo) : Prop :=
  d_dirty s = true /\ d_timers s = O /\ w_queue s = [] /\ w_import s = [] /\ w_wasm s = [] /\ w_out s = [].
Lemma stuck_stays : forall e s s', happen e s = Some s' -> stuck s ->
  stuck s' /\ d_shown s' = d_shown s /\ (d_store s' = d_store s \/ exists n, forall m, d_store s' m = if str_eqb m n then None else d_store s m).
Proof.
  intros e s s' E Hs. pose proof Hs as (H1 & H2 & H3 & H4 & H5 & H6). destruct e as [text|now|name now|now|i text now|i|now| | | | |]; cbn [Demo.happen] in E.
  - injection E as <-. repeat split; auto.
  - injection E as <-. unfold Demo.update. cbn [d_dirty set_page]. rewrite H1. repeat split; auto.
  - injection E as <-. unfold Demo.load_example. cbn [d_store set_page]. destruct (d_store s name); [|repeat split; auto].
    unfold Demo.loaded, Demo.update. cbn [d_dirty set_page]. rewrite H1. repeat split; auto.
  - injection E as <-. unfold Demo.load_example. cbn [d_store clear_modified set_loading d_name]. rewrite str_eqb_refl. repeat split; auto. right. now exists (d_name s).
  - destruct (nth_error (d_fetches s) i); [|discriminate]. injection E as <-. unfold Demo.loaded, Demo.update. cbn [d_dirty set_page]. rewrite H1. repeat split; auto.
  - destruct (nth_error (d_fetches s) i); [|discriminate]. injection E as <-. repeat split; auto.
  - rewrite H2 in E. discriminate.
  - rewrite H6 in E. discriminate.
  - rewrite H3 in E. discriminate.
  - rewrite H4 in E. discriminate.
  - rewrite H5 in E. discriminate.
  - rewrite H4, H5 in E. discriminate.
Qed.

(** ** The local storage *)
Lemma update_store : forall now s n,
  (d_store (update now s) n = d_store s n /\ d_star (update now s) n = d_star s n) \/
  (n = d_name s /\ d_store (update now s) n = Some (d_text s) /\ d_star (update now s) n = existsb (str_eqb n) examples /\ d_loading s = false).
Proof.
  intros now s n. unfold Demo.update. destruct (d_dirty s); [now left|]. destruct (negb (d_worker s)); [now left|].
  destruct (match d_sent s with Some t => _ | None => false end); [now left|]. destruct (match d_last s with Some l => _ | None => false end); [now left|].
  unfold post, store_modified. destruct (d_loading s); [now left|]. cbn. destruct (str_eqb n (d_name s)) eqn:E; [right|now left]. apply str_eqb_is in E. auto.
Qed.
Lemma update_same : forall now s, let s' := update now s in
  d_text s' = d_text s /\ d_name s' = d_name s /\ d_select s' = d_select s /\ d_loading s' = d_loading s /\ d_fetches s' = d_fetches s /\
  d_event s' = d_event s.
Proof.
  intros now s. unfold Demo.update. destruct (d_dirty s); [now repeat split|]. destruct (negb (d_worker s)); [now repeat split|].
  destruct (match d_sent s with Some t => _ | None => false end); [now repeat split|]. destruct (match d_last s with Some l => _ | None => false end); [now repeat split|].
  unfold post. cbn. pose proof (store_same (d_text s) s) as H. cbn zeta in H. tauto.
Qed.
(** How an event changes the storage *)
Definition change (e : event) (s s' : demo) (n : str) : Prop :=
  (d_store s' n = d_store s n /\ d_star s' n = d_star s n) \/
  (n = d_name s' /\ d_store s' n = Some (d_text s') /\ d_star s' n = existsb (str_eqb n) examples) \/
  ((exists now, e = Reset now) /\ n = d_name s /\ d_store s' n = None /\ d_star s' n = false).
Lemma update_change : forall e now s0 s n, d_store s n = d_store s0 n -> d_star s n = d_star s0 n -> change e s0 (update now s) n.
Proof.
  intros e now s0 s n E1 E2. pose proof (update_same now s) as U. cbn zeta in U. destruct U as (U1 & U2 & _).
  destruct (update_store now s n) as [[H H']|(H & H' & H'' & _)]; [left; now rewrite H, H'|right; left]. rewrite U1, U2. auto.
Qed.
Lemma happen_store : forall e s s' n, happen e s = Some s' -> change e s s' n.
Proof.
  intros e s s' n E. destruct e as [text|now|name now|now|i text now|i|now| | | | |]; cbn [Demo.happen] in E.
  - injection E as <-. now left.
  - injection E as <-. now apply update_change.
  - injection E as <-. unfold Demo.load_example. cbn [d_store set_page]. destruct (d_store s name); [|now left]. unfold Demo.loaded. now apply update_change.
  - injection E as <-. unfold Demo.load_example. cbn [d_store clear_modified set_loading d_name]. rewrite str_eqb_refl. unfold change. cbn.
    destruct (str_eqb n (d_name s)) eqn:En; [|now left]. apply str_eqb_is in En. right. right. eauto.
  - destruct (nth_error (d_fetches s) i); [|discriminate]. injection E as <-. unfold Demo.loaded. now apply update_change.
  - destruct (nth_error (d_fetches s) i); [|discriminate]. injection E as <-. now left.
  - destruct (d_timers s); [discriminate|]. injection E as <-. now apply update_change.
  - destruct (w_out s); [discriminate|]. injection E as <-. now left.
  - destruct (w_queue s); [discriminate|]. injection E as <-. destruct (w_ready s); now left.
  - destruct (w_import s); [discriminate|]. injection E as <-. now left.
  - destruct (w_wasm s); [discriminate|]. injection E as <-. now left.
  - destruct (w_wasm s), (w_import s); try discriminate; injection E as <-; now left.
Qed.
Lemma start_store : forall text name store now n,
  d_store (start text name store now) n = store n /\ d_star (start text name store now) n = existsb (str_eqb n) examples && match store n with Some _ => true | None => false end.
Proof.
  intros text name store now n. unfold Demo.start, Demo.load_example. cbn. destruct (store name) as [x|]; cbn;
    unfold Demo.update; cbn; unfold post, store_modified; cbn; now split.
Qed.
Lemma run_store : forall es s0 s n t, run es s0 = Some s -> d_store s n = Some t ->
  d_store s0 n = Some t \/ exists s1, passed conv place examples es s0 s1 /\ d_name s1 = n /\ d_text s1 = t.
Proof.
  induction es as [|e es IH] using rev_ind; intros s0 s n t E H; [injection E as <-; now left|].
  rewrite run_app in E. destruct (run es s0) as [s1|] eqn:E1; [|discriminate]. cbn in E. destruct (happen e s1) as [s2|] eqn:E2; [|discriminate]. injection E as ->.
  destruct (happen_store e s1 s n E2) as [[H' _]|[(H1 & H2 & _)|(_ & _ & H' & _)]]; [| |congruence].
  - rewrite H' in H. destruct (IH s0 s1 n t E1 H) as [F|(s3 & (a & b & -> & F) & F')]; [now left|right]. exists s3. split; [|exact F'].
    exists a, (b ++ [e]). now rewrite app_assoc.
  - right. exists s. split; [|split; [now symmetry|congruence]]. exists (es ++ [e]), []. split; [now rewrite app_nil_r|]. rewrite run_app, E1. cbn. now rewrite E2.
Qed.
Definition starred (s : demo) : Prop := forall n, d_star s n = existsb (str_eqb n) examples && match d_store s n with Some _ => true | None => false end.
Lemma happen_starred : forall e s s', happen e s = Some s' -> starred s -> starred s'.
Proof.
  intros e s s' E H n. destruct (happen_store e s s' n E) as [[H1 H2]|[(_ & H1 & H2)|(_ & _ & H1 & H2)]]; rewrite H2, H1; [apply H|now rewrite andb_true_r|now rewrite andb_false_r].
Qed.

(** ** Edits are kept. *)
Definition keeping (name : str) (t0 : list N) (s : demo) : Prop :=
  inv s /\ d_loading s = false /\ d_fetches s = [] /\ d_name s = name /\
  (d_last s = Some t0 \/ d_store s name = d_last s).
Lemma update_keeping : forall now name t0 s, core s -> d_loading s = false -> d_fetches s = [] -> d_name s = name ->
  (d_last s = Some t0 \/ d_store s name = d_last s) -> keeping name t0 (update now s).
Proof.
  intros now name t0 s Hc Hl Hf Hn H. pose proof (update_same now s) as U. cbn zeta in U. destruct U as (U1 & U2 & U3 & U4 & U5 & U6).
  split; [now apply update_inv|]. rewrite U4, U5, U2. repeat split; auto.
  unfold Demo.update. destruct (d_dirty s); [exact H|]. destruct (negb (d_worker s)); [exact H|].
  destruct (match d_sent s with Some t => _ | None => false end); [exact H|]. destruct (match d_last s with Some l => _ | None => false end); [exact H|].
  right. unfold post, store_modified. rewrite Hl. cbn. now rewrite Hn, str_eqb_refl.
Qed.
Lemma happen_keeping : forall name t0 e s s', e <> Fail /\ stays e -> happen e s = Some s' -> keeping name t0 s -> keeping name t0 s'.
Proof.
  intros name t0 e s s' [He Hst] E H. pose proof H as (Hi & Hl & Hf & Hn & Hk). pose proof (happen_inv e s s' He E Hi) as Hi'.
  destruct e as [text|now|nm now|now|i text now|i|now| | | | |]; cbn [Demo.happen stays] in *; try contradiction.
  - injection E as <-. repeat split; auto; apply Hi'.
  - injection E as <-. apply update_keeping; auto. apply (alike_core s); [repeat split|apply Hi].
  - rewrite Hf in E. now destruct i.
  - rewrite Hf in E. now destruct i.
  - destruct (d_timers s) as [|n]; [discriminate|]. injection E as <-. apply update_keeping; auto. destruct Hi as [(H1 & H2 & H3 & H4 & H5) _].
    repeat split; try assumption. discriminate.
  - destruct (w_out s) as [|r out]; [discriminate|]. injection E as <-. split; [exact Hi'|]. cbn. rewrite Hl. destruct (d_dirty s); auto.
  - destruct (w_queue s) as [|x q]; [discriminate|]. injection E as <-. split; [exact Hi'|]. destruct (w_ready s); auto.
  - destruct (w_import s) as [|x q]; [discriminate|]. injection E as <-. split; [exact Hi'|]. auto.
  - destruct (w_wasm s) as [|x q]; [discriminate|]. injection E as <-. split; [exact Hi'|]. auto.
Qed.

(** ** The example that was chosen *)
Definition chosen (s : demo) : Prop := (d_fetches s = [] /\ d_name s = d_select s) \/ d_fetches s = [d_select s].
Lemma happen_chosen : forall e s s', (forall i, e <> Unfetched i) -> (stays e \/ d_fetches s = []) -> happen e s = Some s' -> chosen s -> chosen s'.
Proof.
  intros e s s' Hu Hs E H.
  assert (forall now x, chosen x -> chosen (update now x)) as HU.
  { intros now x Hx. pose proof (update_same now x) as U. cbn zeta in U. destruct U as (U1 & U2 & U3 & U4 & U5 & U6). unfold chosen. now rewrite U5, U2, U3. }
  assert (forall now name text sel x, d_select x = sel -> name = sel -> d_fetches x = [] -> chosen (loaded name text now x)) as HL.
  { intros now name text sel x E1 E2 E3. unfold Demo.loaded. apply HU. left. cbn. split; congruence. }
  destruct e as [text|now|nm now|now|i text now|i|now| | | | |]; cbn [Demo.happen stays] in *.
  - injection E as <-. exact H.
  - injection E as <-. apply HU. exact H.
  - destruct Hs as [[]|Hs]. injection E as <-. unfold Demo.load_example. cbn [d_store set_page]. destruct (d_store s nm); [now apply (HL now nm _ nm)|].
    right. cbn. now rewrite Hs.
  - destruct Hs as [[]|Hs]. injection E as <-. unfold Demo.load_example. cbn [d_store clear_modified set_loading d_name]. rewrite str_eqb_refl.
    destruct H as [[H H']|H]; [|congruence]. right. cbn. now rewrite Hs, H'.
  - destruct (nth_error (d_fetches s) i) as [nm|] eqn:En; [|discriminate]. injection E as <-. destruct H as [[H H']|H]; rewrite H in En; [now destruct i|].
    destruct i as [|i]; [|now destruct i]. injection En as <-. apply (HL now _ _ (d_select s)); [reflexivity|reflexivity|]. cbn. now rewrite H.
  - now destruct (Hu i).
  - destruct (d_timers s); [discriminate|]. injection E as <-. apply HU. exact H.
  - destruct (w_out s); [discriminate|]. injection E as <-. exact H.
  - destruct (w_queue s); [discriminate|]. injection E as <-. destruct (w_ready s); exact H.
  - destruct (w_import s); [discriminate|]. injection E as <-. exact H.
  - destruct (w_wasm s); [discriminate|]. injection E as <-. exact H.
  - destruct (w_wasm s), (w_import s); try discriminate; injection E as <-; exact H.
Qed.
Lemma start_chosen : forall text name store now, chosen (start text name store now).
Proof.
  intros text name store now. unfold Demo.start, Demo.load_example. cbn. destruct (store name) as [x|]; cbn;
    unfold Demo.update; cbn; unfold post, store_modified, chosen; cbn; auto.
Qed.

(** ** Errors *)
Definition noted (s : demo) : Prop :=
  flight s = [] -> forall l, d_last s = Some l -> map n_text (d_notes s) = map note_text (syntax_errors (conv l)).
Lemma update_noted : forall now s, noted s -> noted (update now s).
Proof.
  intros now s H. unfold Demo.update. destruct (d_dirty s); [exact H|]. destruct (negb (d_worker s)); [exact H|].
  destruct (match d_sent s with Some t => _ | None => false end); [exact H|]. destruct (match d_last s with Some l => _ | None => false end); [exact H|].
  unfold post, noted, flight. cbn. intros E. exfalso. apply app_eq_nil in E as [_ E]. apply map_eq_nil in E. apply app_eq_nil in E as [_ E]. apply app_eq_nil in E as [_ E]. now apply app_eq_nil in E.
Qed.
Hypothesis conv_says : forall t, jr_error (conv t) = None -> jr_output (conv t) <> None.
Lemma happen_noted : forall e s s', e <> Fail -> stays e -> happen e s = Some s' -> inv s -> noted s -> noted s'.
Proof.
  intros e s s' He Hst E Hi H. destruct e as [text|now|nm now|now|i text now|i|now| | | | |]; cbn [Demo.happen stays] in *; try contradiction.
  - injection E as <-. exact H.
  - injection E as <-. apply update_noted. exact H.
  - destruct (nth_error (d_fetches s) i); [|discriminate]. injection E as <-. apply update_noted. exact H.
  - destruct (nth_error (d_fetches s) i); [|discriminate]. injection E as <-. exact H.
  - destruct (d_timers s); [discriminate|]. injection E as <-. apply update_noted. exact H.
  - destruct (w_out s) as [|r out] eqn:Eo; [discriminate|]. injection E as <-. intros EF l El.
    destruct Hi as [(_ & _ & _ & _ & l' & H5 & H6) _]. change (d_last s = Some l) in El. rewrite H5 in El. injection El as ->.
    assert (flight s = r :: flight (set_worker (w_queue s) (w_import s) (w_wasm s) (w_ready s) out s)) as E2 by (unfold flight; cbn; now rewrite Eo).
    change (flight (on_message place r (set_worker (w_queue s) (w_import s) (w_wasm s) (w_ready s) out s))) with (flight (set_worker (w_queue s) (w_import s) (w_wasm s) (w_ready s) out s)) in EF.
    rewrite EF in E2. rewrite E2 in H6. destruct H6 as [[H6 _]|[f H6]]; [discriminate|]. destruct f as [|x f]; [|injection H6 as _ H6; now destruct f]. injection H6 as ->.
    cbn. destruct (jr_error (conv l)) eqn:Ee.
    + unfold notes_of. now rewrite map_map.
    + unfold syntax_errors. rewrite Ee. destruct (jr_output (conv l)) eqn:Eo2; [reflexivity|]. now destruct (conv_says l Ee).
  - destruct (w_queue s) as [|x q] eqn:Eq; [discriminate|]. injection E as <-. intros EF. exfalso. destruct (w_ready s); unfold flight in EF; cbn in EF;
      apply app_eq_nil in EF as [_ EF]; apply map_eq_nil in EF; apply app_eq_nil in EF as [EF EF']; [now apply app_eq_nil in EF|]. apply app_eq_nil in EF' as [EF' _]. now apply app_eq_nil in EF'.
  - destruct (w_import s) as [|x q] eqn:Eq; [discriminate|]. injection E as <-. intros EF. exfalso. unfold flight in EF; cbn in EF.
    apply app_eq_nil in EF as [_ EF]. apply map_eq_nil in EF. apply app_eq_nil in EF as [EF _]. now apply app_eq_nil in EF.
  - destruct (w_wasm s) as [|x q] eqn:Eq; [discriminate|]. injection E as <-. intros EF. exfalso. unfold flight in EF; cbn in EF.
    apply app_eq_nil in EF as [EF _]. now apply app_eq_nil in EF.
Qed.
Lemma start_noted : forall text name store now, noted (start text name store now).
Proof.
  intros text name store now. unfold Demo.start. apply update_noted. intros _ l E. exfalso. cbn in E. revert E. unfold Demo.load_example. cbn.
  destruct (store name); discriminate.
Qed.
End Demo.

Lemma join_rest : forall sep x l, join sep (x :: l) = x ++ flat_map (fun y => sep ++ y) l.
Proof.
  intros sep x l. revert x. induction l as [|y l IH]; intros x; [symmetry; apply app_nil_r|].
  change (join sep (x :: y :: l)) with (x ++ sep ++ join sep (y :: l)). rewrite IH. cbn [flat_map]. now rewrite <- app_assoc.
Qed.
Lemma note_said : forall e, note_text e = said e.
Proof. intros e. unfold note_text, said. destruct (je_expected e) as [[|x l]|]; [reflexivity|now rewrite join_rest|reflexivity]. Qed.

Lemma happen_text : forall conv place examples e s s', Demo.happen conv place examples e s = Some s' ->
  (forall t, puts s e t -> d_text s' = t) /\
  ((forall t, ~ puts s e t) -> d_text s' = d_text s) /\
  (forall name now t, e = Select name now -> d_store s name = Some t -> d_name s' = name) /\
  (forall i t now, e = Fetched i t now -> nth_error (d_fetches s) i = Some (d_name s')) /\
  (forall name now, e = Select name now -> d_store s name = None -> d_fetches s' = d_fetches s ++ [name]) /\
  (forall now, e = Reset now -> d_fetches s' = d_fetches s ++ [d_name s]).
Proof.
  intros conv place examples e s s' E.
  assert (forall now s, let s' := Demo.update examples now s in d_text s' = d_text s /\ d_name s' = d_name s /\ d_fetches s' = d_fetches s) as HU.
  { intros now s0. pose proof (update_same examples now s0) as U. cbn zeta in *. tauto. }
  destruct e as [text|now|name now|now|i text now|i|now| | | | |]; cbn [Demo.happen] in E.
  - injection E as <-. repeat split; try discriminate; [now inversion 1|]. intros H. destruct (H text). constructor.
  - injection E as <-. destruct (HU now (set_page (d_text s) false (d_select s) (d_timers s) (d_fetches s) s)) as (U1 & U2 & U3). cbn zeta in *.
    repeat split; try discriminate; [inversion 1|]. intros _. exact U1.
  - injection E as <-. unfold Demo.load_example. cbn [d_store set_page].
    destruct (d_store s name) as [t|] eqn:Es.
    + unfold Demo.loaded. match goal with |- context [Demo.update _ now ?x] => destruct (HU now x) as (U1 & U2 & U3) end. cbn [d_text d_name] in *.
      repeat split; try discriminate.
      * intros t0 H. inversion H; subst. congruence.
      * intros H. destruct (H t). now constructor.
      * intros n0 w0 t0 [= <- <-] _. exact U2.
      * intros n0 w0 [= <- <-] Hn. congruence.
    + cbn [d_text d_name d_fetches]. repeat split; try discriminate.
      * intros t0 H. inversion H; subst. congruence.
      * intros n0 w0 t0 [= <- <-] Hn. congruence.
      * intros n0 w0 [= <- <-] _. reflexivity.
  - injection E as <-. unfold Demo.load_example, clear_modified, set_loading. cbn [d_store d_name]. rewrite str_eqb_refl. cbn.
    repeat split; try discriminate; try (now inversion 1).
  - destruct (nth_error (d_fetches s) i) as [n|] eqn:En; [|discriminate]. injection E as <-.
    unfold Demo.loaded. match goal with |- context [Demo.update _ now ?x] => destruct (HU now x) as (U1 & U2 & U3) end. cbn [d_text d_name] in *.
    repeat split; try discriminate.
    + inversion 1; subst. exact U1.
    + intros H. destruct (H text). constructor.
    + intros i0 t0 w0 [= <- <- <-]. now rewrite U2.
  - destruct (nth_error _ _); [|discriminate]. injection E as <-. repeat split; try discriminate; inversion 1.
  - destruct (d_timers s); [discriminate|]. injection E as <-.
    match goal with |- context [Demo.update _ now ?x] => destruct (HU now x) as (U1 & U2 & U3) end.
    repeat split; try discriminate; [inversion 1|]. intros _. exact U1.
  - destruct (w_out s); [discriminate|]. injection E as <-. repeat split; try discriminate; inversion 1.
  - destruct (w_queue s); [discriminate|]. injection E as <-. destruct (w_ready s); repeat split; try discriminate; inversion 1.
  - destruct (w_import s); [discriminate|]. injection E as <-. repeat split; try discriminate; inversion 1.
  - destruct (w_wasm s); [discriminate|]. injection E as <-. repeat split; try discriminate; inversion 1.
  - destruct (w_wasm s), (w_import s); try discriminate; injection E as <-; repeat split; try discriminate; inversion 1.
Qed.

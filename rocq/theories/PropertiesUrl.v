(** * Property theorems about opening the web demo again and about links to places in the page: C78, C79. *)

From Coq Require Import ZArith Lia.
From Verif Require Import Base Display Wasm Demo Url SpecDemo SpecUrl P_Url PropertiesDemo.

(** [conv], [place], [examples]: as in PropertiesDemo.v; [has]: any function that tells the ids of a
    page.  Runs begin with the page being opened, with any URL, text in the editor and local
    storage, and at any time. *)

(** ** C78: reloading the page brings back the example and the text that were there.

    [careful], [brings]: SpecUrl.v. *)
Theorem C78_reload_partial : forall conv place examples has served text u store now p,
  careful conv place examples has served (open examples text u store now) p ->
  quiet (p_demo p) -> d_fetches (p_demo p) = [] ->
  forall text' now', brings conv place examples served (p_demo (open examples text' (p_url p) (d_store (p_demo p)) now'))
    (d_name (p_demo p)) (d_text (p_demo p)).
Proof. intros conv place examples has served text u store now p H Hq Hf. now apply (reopened conv place examples has served text u store now p H). Qed.
Print Assumptions C78_reload_partial.

(** The URL names the example that is shown, so that it can be passed on. *)
Theorem C78_url : forall conv place examples has served text u store now p,
  careful conv place examples has served (open examples text u store now) p ->
  quiet (p_demo p) -> d_fetches (p_demo p) = [] -> example_of (p_url p) = d_name (p_demo p).
Proof. intros conv place examples has served text u store now p H Hq Hf. now apply (reopened conv place examples has served text u store now p H). Qed.
Print Assumptions C78_url.

(** Whatever happens, the URL has one value for [example] and keeps its other parameters. *)
Theorem C78_params : forall conv place examples has text u store now es p,
  page_run conv place examples has es (open examples text u store now) = Some p ->
  (exists n, filter (fun x => str_eqb (fst x) (L "example")) (u_params (p_url p)) = [(L "example", n)]) /\
  filter (fun x => negb (str_eqb (fst x) (L "example"))) (u_params (p_url p)) =
    filter (fun x => negb (str_eqb (fst x) (L "example"))) (u_params u).
Proof.
  intros conv place examples has text u store now es p E. destruct (run_params conv place examples has u es _ p E) as (n & H1 & H2).
  - exact (named_params (example_of u) u u (open examples text u store now) eq_refl eq_refl).
  - split; [exists n; exact H1|exact H2].
Qed.
Print Assumptions C78_params.

(** The page is opened with [?x=1&example=a#h], [b] is selected, edited, and a link followed. *)
Definition ex_url : url := mkUrl [(L "x", L "1"); (L "example", L "a")] (L "h").
Definition ex_has (o id : list N) : bool := str_eqb id (L "h").
Definition ex_served (n : str) : list N := L "text of " ++ n.
Definition ex_open : page := open [L "a"; L "b"] [] ex_url (fun _ => None) 0.
Definition ex_wait : list event := [Take; Convert; Reply].
Definition ex_careful : list page_event :=
  map Own ([Take; Fetched 0 (L "text of a") 10; Import; Convert; Reply; Timer 110] ++ ex_wait ++ [Select (L "b") 5000; Fetched 0 (L "text of b") 5100] ++ ex_wait ++
    [Edit (L "y"); Input 9000] ++ ex_wait) ++ [Hash (L "h")].
(** [careful] by computation *)
Definition no {A} (l : list A) : bool := match l with [] => true | _ => false end.
Definition quiet_b (s : demo) : bool :=
  negb (d_event s) && (d_timers s =? 0)%nat && no (w_queue s) && no (w_import s) && no (w_wasm s) && no (w_out s).
Definition waits_b (s : demo) (e : event) : bool :=
  match e with
  | Edit _ => negb (d_loading s) && no (d_fetches s)
  | Select _ _ | Reset _ => quiet_b s && no (d_fetches s)
  | Fetched i t _ => match nth_error (d_fetches s) i with Some n => str_eqb t (ex_served n) | None => true end
  | Unfetched _ | Fail => false
  | _ => true
  end.
Lemma no_nil : forall A (l : list A), no l = true -> l = [].
Proof. intros A [|x l] H; [reflexivity|discriminate]. Qed.
Lemma waits_check : forall s e, waits_b s e = true -> waits ex_served s e.
Proof.
  assert (forall s, quiet_b s = true -> quiet s) as HQ.
  { intros s H. unfold quiet_b in H. repeat (apply andb_true_iff in H as [H ?]). repeat split; try (now apply no_nil); [now destruct (d_event s)|]. now apply Nat.eqb_eq. }
  intros s e H. destruct e; cbn in *; try exact I; try discriminate.
  - apply andb_true_iff in H as [H1 H2]. split; [now destruct (d_loading s)|now apply no_nil].
  - apply andb_true_iff in H as [H1 H2]. split; [auto|now apply no_nil].
  - apply andb_true_iff in H as [H1 H2]. split; [auto|now apply no_nil].
  - intros n E. rewrite E in H. now apply P_Demo.str_eqb_is in H.
Qed.
Fixpoint careful_run (es : list page_event) (p : page) : option page :=
  match es with
  | [] => Some p
  | e :: es' =>
      if match e with Own e => waits_b (p_demo p) e | Hash _ => true end
      then match page_happen toy ex_place [L "a"; L "b"] ex_has e p with Some p' => careful_run es' p' | None => None end
      else None
  end.
Lemma careful_check : forall es p p', careful_run es p = Some p' -> careful toy ex_place [L "a"; L "b"] ex_has ex_served p p'.
Proof.
  induction es as [|[e|h] es IH]; intros p p' E; cbn [careful_run] in E; [injection E as <-; apply CaNil| |].
  - destruct (waits_b (p_demo p) e) eqn:Ew; [|discriminate]. destruct (page_happen toy ex_place [L "a"; L "b"] ex_has (Own e) p) eqn:E1; [|discriminate].
    eapply CaOwn; [apply waits_check; exact Ew|exact E1|]. now apply IH.
  - destruct (page_happen toy ex_place [L "a"; L "b"] ex_has (Hash h) p) eqn:E1; [|discriminate]. eapply CaHash; [exact E1|]. now apply IH.
Qed.
Definition ex_page : page := match careful_run ex_careful ex_open with Some p => p | None => ex_open end.
Example C78_example : exists p, careful toy ex_place [L "a"; L "b"] ex_has ex_served ex_open p /\ quiet (p_demo p) /\ d_fetches (p_demo p) = [] /\
  d_name (p_demo p) = L "b" /\ d_text (p_demo p) = L "y" /\ p_url p = mkUrl [(L "x", L "1"); (L "example", L "b")] (L "h") /\ p_view p = [L "h"].
Proof. exists ex_page. split; [apply (careful_check ex_careful); vm_compute; reflexivity|]. vm_compute. repeat split. Qed.

(** Refuted otherwise: an edit before the first output is lost (C65), *)
Theorem C78_reload_refuted : exists es p, page_run toy ex_place [L "a"; L "b"] ex_has (map Own es) ex_open = Some p /\ answers es /\ Forall stays es /\
  quiet (p_demo p) /\ d_fetches (p_demo p) = [] /\ d_text (p_demo p) = L "xy" /\ d_shown (p_demo p) = Some (L "xy") /\
  forall text now now', exists s, run toy ex_place [L "a"; L "b"] [Fetched 0 (ex_served (L "a")) now']
    (p_demo (open [L "a"; L "b"] text (p_url p) (d_store (p_demo p)) now)) = Some s /\ d_name s = L "a" /\ d_text s = L "text of a".
Proof.
  exists [Take; Fetched 0 (L "text of a") 10; Edit (L "xy"); Input 20; Import; Convert; Reply; Timer 110; Take; Convert; Reply]. eexists.
  split; [vm_compute; reflexivity|]. split; [intros H; cbn in H; intuition discriminate|]. split; [repeat constructor|].
  split; [vm_compute; repeat split|]. split; [vm_compute; reflexivity|]. split; [vm_compute; reflexivity|]. split; [vm_compute; reflexivity|].
  intros text now now'. cbn [p_demo p_url open d_store].
  match goal with |- context [start ?x text ?n ?st now] => pose proof (start_facts toy ex_place x ex_has ex_served text n st now) as HF end. cbv zeta in HF.
  match type of HF with context [start ?x text ?n ?st now] => set (s := start x text n st now) in *; assert (n = L "a") as En by (vm_compute; reflexivity); assert (st n = None) as Es by (vm_compute; reflexivity); rewrite Es, En in HF end.
  destruct HF as (_ & Hn & HF). cbn [run happen]. rewrite HF. cbn [nth_error]. eexists. split; [reflexivity|]. unfold loaded.
  match goal with |- d_name (update ?x now' ?y) = _ /\ _ => pose proof (P_Demo.update_same x now' y) as (E1 & E2 & _) end. rewrite E1, E2. split; reflexivity.
Qed.
Print Assumptions C78_reload_refuted.
(** and after a request that failed the URL names an example that is not shown. *)
Theorem C78_url_refuted : exists es p, page_run toy ex_place [L "a"; L "b"] ex_has (map Own es) ex_open = Some p /\ answers es /\
  quiet (p_demo p) /\ d_fetches (p_demo p) = [] /\ d_name (p_demo p) = L "a" /\ example_of (p_url p) = L "b".
Proof.
  exists ([Take; Fetched 0 (L "text of a") 10; Import; Convert; Reply; Timer 110] ++ ex_wait ++ [Select (L "b") 5000; Unfetched 0]). eexists.
  split; [vm_compute; reflexivity|]. split; [intros H; cbn in H; intuition discriminate|]. vm_compute. repeat split.
Qed.
Print Assumptions C78_url_refuted.

(** ** C79: a link to a place in the page shows this place.

    A link that is followed while the page is open does so, once: as soon as an output is shown that
    has the id, unless the user selects or resets. *)
Theorem C79_link_partial : forall conv place examples has h es p p', h <> [] ->
  page_run conv place examples has (Hash h :: map Own es) p = Some p' -> Forall stays es ->
  (p_view p' = p_view p \/ p_view p' = h :: p_view p) /\
  forall o, d_shown (p_demo p') = Some o -> has o h = true -> p_view p' = h :: p_view p.
Proof. intros conv place examples has. exact (link_followed conv place examples has (fun n => n)). Qed.
Print Assumptions C79_link_partial.
(** And the page is scrolled only to the place that the URL names. *)
Theorem C79_only : forall conv place examples has e p p', page_happen conv place examples has e p = Some p' -> p_view p' <> p_view p ->
  exists o, d_shown (p_demo p') = Some o /\ has o (u_hash (p_url p')) = true /\ p_view p' = u_hash (p_url p') :: p_view p.
Proof. intros conv place examples has. apply view_change. Qed.
Print Assumptions C79_only.
Example C79_example : exists p p', page_run toy ex_place [L "a"; L "b"] ex_has [Own Take] ex_open = Some p /\
  page_run toy ex_place [L "a"; L "b"] ex_has (Hash (L "h") :: map Own [Fetched 0 (L "t") 10; Import; Convert; Reply]) p = Some p' /\
  d_shown (p_demo p') = Some [] /\ ex_has [] (L "h") = true /\ p_view p <> p_view p'.
Proof. eexists _, _. split; [vm_compute; reflexivity|]. split; [vm_compute; reflexivity|]. vm_compute. repeat split. discriminate. Qed.

(** The claim is REFUTED for every link with which the page is opened: [_loadExample] removes the
    place from the URL before anything is shown, so that [_showElementInHash] has nothing to show. *)
Theorem C79_opening_refuted : forall conv place examples has text u store now es p,
  page_run conv place examples has (map Own es) (open examples text u store now) = Some p -> p_view p = [] /\ u_hash (p_url p) = [].
Proof.
  intros conv place examples has text u store now es p E. destruct (never_shown conv place examples has es _ _ E (hash_named _ _) eq_refl) as [H1 H2]. now split.
Qed.
Print Assumptions C79_opening_refuted.
(** Here the output has the id that the link asks for. *)
Example C79_opening_example : exists p, page_run toy ex_place [L "a"; L "b"] ex_has (map Own [Take; Fetched 0 (L "t") 10; Import; Convert; Reply]) ex_open = Some p /\
  u_hash ex_url = L "h" /\ exists o, d_shown (p_demo p) = Some o /\ ex_has o (L "h") = true.
Proof. eexists. split; [vm_compute; reflexivity|]. split; [reflexivity|]. eexists. vm_compute. split; reflexivity. Qed.

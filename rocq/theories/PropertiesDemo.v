(** * Property theorems about the web demo: C64, C65, C66. *)

From Coq Require Import ZArith Lia.
From Verif Require Import Base Doc Config Ast Errors Build Convert Grammar Parser Display Wasm Demo SpecSource SpecErrors SpecHtml SpecInfer SpecTree SpecMarkup SpecWrite SpecWasm SpecDemo
  P_Base P_Wasm P_Parser P_Demo PropertiesWrite PropertiesWasm.

(** [conv]: any converter; [place]: any function that gives rows and columns; [examples]: any
    names.  Runs begin with the page being opened, with any text in the editor, any example
    asked for by the URL, any local storage, and at any time. *)

(** ** C64: the preview catches up. *)

(** Whenever nothing is under way, the output of the text in the editor is shown. *)
Theorem C64_preview : forall conv place examples text name store now es s,
  run conv place examples es (start examples text name store now) = Some s -> answers es -> quiet s ->
  forall o, jr_output (conv (d_text s)) = Some o -> d_shown s = Some o.
Proof.
  intros conv place examples text name store now es s E Ha Hq.
  now apply (quiet_inv conv s (run_inv conv place examples _ _ _ Ha E (start_inv conv examples text name store now))).
Qed.
Print Assumptions C64_preview.

(** And at any time, if the user waits, this state is reached: events that come by
    themselves are finitely many, whatever their order, and there is one unless nothing is
    under way. *)
Theorem C64_catches_up : forall conv place examples text name store now es s,
  run conv place examples es (start examples text name store now) = Some s -> answers es ->
  (exists n, forall es' s', goes conv place examples es' s s' -> (length es' <= n)%nat) /\
  forall es' s', goes conv place examples es' s s' ->
    (~ quiet s' -> exists e s'', due s' e /\ happen conv place examples e s' = Some s'') /\
    (quiet s' -> forall o, jr_output (conv (d_text s)) = Some o -> d_shown s' = Some o).
Proof.
  intros conv place examples text name store now es s E Ha. split.
  - exists (measure s). intros es' s' H. apply goes_short in H. lia.
  - intros es' s' H. split; [intros Hq; now apply goes_on|]. intros Hq. destruct (goes_run _ _ _ _ _ _ H) as (E' & Ha' & Et). rewrite <- Et.
    apply (C64_preview conv place examples text name store now (es ++ es') s'); [|intros Hi; apply in_app_iff in Hi; destruct Hi; auto|exact Hq].
    now rewrite run_app, E.
Qed.
Print Assumptions C64_catches_up.

(** The converter of the demo; [None], which does not occur (C48), is an error here. *)
Definition demo_conv (alnum : chr -> bool) (failure : str -> parse_error) (debug show : str -> str) (src : list N) : js_result :=
  match js_convert_forgiving (parser alnum failure) source_slice debug show demo_options src with Some r => r | None => mkJR false None (Some (JError [])) end.
(** What it is asked to do *)
Definition demo_config : config := mkConfig (Some (L "  ")) None special_default (Some true) None None None.
Lemma demo_requests : requests demo_options demo_config.
Proof. repeat split; try constructor. exact (WIndent 2 eq_refl). Qed.

(** With the converter of the demo: if the text is a source of the described language (C51),
    the page that it stands for is shown. *)
Theorem C64_page : forall alnum failure debug show place examples text name store now es s us,
  ascii_alnum_ok alnum -> run (demo_conv alnum failure debug show) place examples es (start examples text name store now) = Some s -> answers es -> quiet s ->
  Source (names special_default) (from_js (d_text s)) us -> Forall bare_head us ->
  exists o, d_shown s = Some (to_js (L "<!DOCTYPE html>" ++ [10] ++ o)) /\
    Laid (inner (map_pos (pieces false CSection None None false) true (document true None us))) o.
Proof.
  intros alnum failure debug show place examples text name store now es s us Ha E Han Hq HS Hh.
  assert (plain demo_config) as Hp by (repeat split; discriminate).
  assert (all_ws (L "  ")) as Hw by (repeat (apply Forall_cons; [reflexivity|]); apply Forall_nil).
  destruct (C51_source_indented alnum failure (from_js (d_text s)) us demo_config (L "  ") Ha Hp eq_refl Hw HS (fun _ => Hh)) as (o & Eo & Ho).
  exists o. split; [|exact Ho]. apply (C64_preview _ _ _ _ _ _ _ _ _ E Han Hq).
  destruct (C48_results (parser alnum failure) source_slice debug show demo_options demo_config (d_text s) demo_requests) as (r & Er & Hok & _).
  unfold demo_conv. rewrite Er. destruct (Hok _ Eo) as [-> _]. cbn [jr_output doctype complete]. reflexivity.
Qed.
Print Assumptions C64_page.

(** A text that meets the condition *)
Example C64_page_example : exists us, Source (names special_default) (from_js (L "Hi <#you#>")) us /\ Forall bare_head us.
Proof.
  set (you := WElt KOther (Some (L "strong"), []) [WText (L "you")]). set (us := [WText (L "Hi"); WGap [32]; you]).
  exists [WElt KPara (None, []) us]. split; [|constructor; [intros H; discriminate H|constructor]].
  assert (Items (names special_default) true (L "you") [WText (L "you")]) as I0.
  { apply (IsCons _ true true [] (L "you") (WText (L "you")) [] []); [constructor|word|reflexivity|constructor]. }
  assert (Items (names special_default) true (L "Hi <#you#>") us) as I1.
  { apply (IsCons _ true true [] (L "Hi") (WText (L "Hi")) (L " <#you#>") [WGap [32]; you]); [constructor|word|reflexivity|].
    apply (IsCons _ false false [32] (L "<#you#>") you [] []); [repeat constructor| |discriminate|constructor].
    apply (ItSpecial (names special_default) (L "<#") (L "#>") MStrong [] (L "you") [WText (L "you")] []);
      [cbn; auto|constructor|right; solid_text| |constructor|intros a b E; destruct a as [|? [|? [|? [|? ?]]]]; discriminate].
    apply (LsRow _ false false (L "you") [WText (L "you")]); [solid_text|now apply RwItems|discriminate]. }
  change (from_js (L "Hi <#you#>")) with ([] ++ L "Hi <#you#>" ++ []). apply SrcOf; [constructor|right; solid_text| |constructor].
  apply (LsText _ false (L "Hi <#you#>") (WElt KPara (None, []) us)).
  rewrite <- (app_nil_r (L "Hi <#you#>")). rewrite <- (app_nil_r us). apply PgText; [solid_text|now apply RwItems|reflexivity|constructor].
Qed.

(** The state at the end of a run *)
Definition final (conv : list N -> js_result) (place : list N -> N -> N * N) (examples : list str) (es : list event) (s : demo) : demo :=
  match run conv place examples es s with Some s' => s' | None => s end.
Ltac ends := match goal with |- exists s, run ?c ?p ?x ?es ?s0 = Some s /\ _ => exists (final c p x es s0); split; [vm_compute; reflexivity|] end.
Ltac calc := vm_compute; repeat split; try reflexivity; try discriminate.
(** A converter that succeeds *)
Definition toy (t : list N) : js_result := mkJR true (Some t) None.
Definition ex_start (examples : list str) : demo := start examples [] (L "a") (fun _ => None) 0.
Definition ex_conv : list N -> js_result := demo_conv is_ascii_alnum (fun _ => mkPE 0 [] []) (fun s => s) (fun s => s).
Definition ex_place (_ : list N) (i : N) : N * N := (0, i).

(** Refuted: a conversion that is not answered (it throws, or the converter cannot be
    loaded), while the text is edited within three seconds, stops the preview for ever:
    whatever happens after that, nothing is shown or stored any more. *)
Theorem C64_stuck_refuted : exists es s, run toy ex_place [L "a"] es (ex_start [L "a"]) = Some s /\
  ~ In (Unfetched 0) es /\ d_shown s = Some (L "x") /\
  forall es' s', run toy ex_place [L "a"] es' s = Some s' ->
    d_shown s' = Some (L "x") /\ forall n t, d_store s' n = Some t -> d_store s n = Some t.
Proof.
  exists [Take; Import; Convert; Reply; Fetched 0 (L "x") 100; Take; Convert; Reply; Edit (L "xy"); Input 200; Take; Edit (L "xyz"); Input 300; Fail]. ends. split; [intros H; cbn in H; intuition discriminate|]. split; [calc|].
  match goal with |- forall es' s', run ?c ?p ?e es' ?s0 = _ -> _ => set (s := s0) end.
  assert (stuck s /\ d_shown s = Some (L "x") /\ forall n t, d_store s n = Some t -> d_store s n = Some t) as H by (split; [calc|split; [calc|auto]]).
  clearbody s. intros es' s' E.
  refine (proj2 (run_ind _ _ _ (fun s' => stuck s' /\ d_shown s' = Some (L "x") /\ forall n t, d_store s' n = Some t -> d_store s n = Some t) (fun _ => True) _ es' s s' _ E H)).
  - intros e s1 s2 _ E1 (H1 & H2 & H3). destruct (stuck_stays _ _ _ _ _ _ E1 H1) as (H4 & H5 & H6). split; [exact H4|]. split; [congruence|].
    intros n t Hn. apply H3. destruct H6 as [H6|[m H6]]; [congruence|]. rewrite H6 in Hn. destruct (str_eqb n m); [discriminate|exact Hn].
  - apply Forall_forall. auto.
Qed.
Print Assumptions C64_stuck_refuted.

(** The messages of the errors are those of the text in the editor, too, if the user has not
    selected or reset an example. *)
Theorem C64_errors : forall conv place examples text name store now es s,
  (forall t, jr_error (conv t) = None -> jr_output (conv t) <> None) ->
  run conv place examples es (start examples text name store now) = Some s -> answers es -> Forall stays es -> quiet s ->
  map n_text (d_notes s) = map said (entries (conv (d_text s))).
Proof.
  intros conv place examples text name store now es s Hc E Ha Hs Hq.
  replace (map said (entries (conv (d_text s)))) with (map note_text (syntax_errors (conv (d_text s)))) by (apply map_ext; exact note_said).
  assert (inv conv s /\ noted conv s) as [Hi Hn].
  { refine (run_ind conv place examples (fun s => inv conv s /\ noted conv s) (fun e => e <> Fail /\ stays e) _ es _ s _ E _).
    - intros e s1 s2 [H1 H2] E1 [H3 H4]. split; [eapply happen_inv; eauto|eapply happen_noted; eauto].
    - apply Forall_forall. intros e He. split; [intros ->; now apply Ha|]. rewrite Forall_forall in Hs. auto.
    - split; [apply start_inv|apply start_noted]. }
  destruct (quiet_inv conv s Hi Hq) as (El & _). apply Hn; [|exact El]. destruct Hq as (_ & _ & Q1 & Q2 & Q3 & Q4). unfold flight. now rewrite Q1, Q2, Q3, Q4.
Qed.
Print Assumptions C64_errors.

(** Refuted otherwise: resetting an example that is not modified removes the messages, and
    they do not come again. *)
Theorem C64_errors_refuted : exists es s, run ex_conv ex_place [L "a"] es (ex_start [L "a"]) = Some s /\ answers es /\ quiet s /\
  d_fetches s = [] /\ d_text s = L "\q" /\ entries (ex_conv (d_text s)) <> [] /\ d_notes s = [].
Proof.
  exists [Take; Import; Convert; Fetched 0 (L "\q") 10; Reply; Timer 200; Take; Convert; Reply; Reset 1000; Fetched 0 (L "\q") 1010]. ends. split; [intros H; cbn in H; intuition discriminate|]. calc.
Qed.
Print Assumptions C64_errors_refuted.

(** A run of four texts, of which one is never converted; at the end the last is shown. *)
Example C64_example : exists s, run ex_conv ex_place [L "a"; L "b"]
    [Take; Fetched 0 (L "x") 10; Edit (L "xy"); Import; Input 20; Convert; Reply; Timer 120; Edit (L "xyz"); Input 200; Take; Convert; Reply; Timer 400; Take; Convert; Reply]
    (ex_start [L "a"; L "b"]) = Some s /\ quiet s /\ d_text s = L "xyz" /\ jr_output (ex_conv (d_text s)) <> None.
Proof. ends. calc. Qed.

(** ** C65: what is typed is kept. *)

(** Texts are stored under the example they were typed for, and only reset removes them;
    the names with a star are those with a stored text. *)
Theorem C65_own : forall conv place examples text name store now es s,
  run conv place examples es (start examples text name store now) = Some s ->
  (forall n t, d_store s n = Some t ->
     store n = Some t \/ exists s1, passed conv place examples es (start examples text name store now) s1 /\ d_name s1 = n /\ d_text s1 = t) /\
  (forall e s' n, happen conv place examples e s = Some s' -> d_store s n <> None -> d_store s' n = None -> (exists now', e = Reset now') /\ n = d_name s) /\
  (forall n, d_star s n = true <-> In n examples /\ d_store s n <> None).
Proof.
  intros conv place examples text name store now es s E. split; [|split].
  - intros n t H. destruct (run_store _ _ _ _ _ _ _ _ E H) as [F|F]; [left|now right]. now rewrite (proj1 (start_store examples text name store now n)) in F.
  - intros e s' n E1 Hn Hn'. destruct (happen_store _ _ _ _ _ _ n E1) as [[H _]|[(_ & H & _)|(H & H' & _)]]; [congruence|congruence|now split].
  - assert (starred examples s) as HS.
    { refine (run_ind conv place examples (starred examples) (fun _ => True) _ es _ s _ E _); [intros e s1 s2 _; apply happen_starred|apply Forall_forall; auto|].
      intros n. destruct (start_store examples text name store now n) as [H1 H2]. now rewrite H1, H2. }
    intros n. rewrite HS, andb_true_iff. rewrite existsb_exists. split.
    + intros [(x & Hx & Ex) H]. apply str_eqb_is in Ex. subst x. split; [exact Hx|]. destruct (d_store s n); discriminate.
    + intros [H1 H2]. split; [exists n; split; [exact H1|apply str_eqb_refl]|]. now destruct (d_store s n).
Qed.
Print Assumptions C65_own.

(** Once an example is loaded and its output is there, what is typed is stored as soon as
    nothing is under way, as long as the user does not select or reset. *)
Theorem C65_kept : forall conv place examples text name store now es s es' s',
  run conv place examples es (start examples text name store now) = Some s -> answers es -> quiet s -> d_loading s = false -> d_fetches s = [] ->
  run conv place examples es' s = Some s' -> answers es' -> Forall stays es' -> quiet s' ->
  d_name s' = d_name s /\ (d_text s' <> d_text s -> d_store s' (d_name s) = Some (d_text s')).
Proof.
  intros conv place examples text name store now es s es' s' E Ha Hq Hl Hf E' Ha' Hs Hq'.
  pose proof (run_inv conv place examples _ _ _ Ha E (start_inv conv examples text name store now)) as Hi. destruct (quiet_inv conv s Hi Hq) as (El & _).
  assert (keeping conv (d_name s) (d_text s) s') as (Hi' & _ & _ & Hn & Hk).
  { refine (run_ind conv place examples (keeping conv (d_name s) (d_text s)) (fun e => e <> Fail /\ stays e) _ es' s s' _ E' _).
    - intros e s1 s2. apply happen_keeping.
    - apply Forall_forall. intros e He. split; [intros ->; now apply Ha'|]. rewrite Forall_forall in Hs. auto.
    - repeat split; auto; apply Hi. }
  split; [exact Hn|]. intros Hd. destruct (quiet_inv conv s' Hi' Hq') as (El' & _). rewrite El' in Hk. destruct Hk as [Hk|Hk]; [congruence|exact Hk].
Qed.
Print Assumptions C65_kept.
(** A slow typist: the page is opened, the example appears, and then it is edited twice. *)
Example C65_example : exists s, run toy ex_place [L "a"] [Take; Fetched 0 (L "x") 10; Import; Convert; Reply; Timer 110; Take; Convert; Reply] (ex_start [L "a"]) = Some s /\
  quiet s /\ d_loading s = false /\ d_fetches s = [] /\
  exists s', run toy ex_place [L "a"] [Edit (L "xy"); Input 1000; Edit (L "xyz"); Input 1500; Take; Convert; Reply; Timer 1600; Take; Convert; Reply] s = Some s' /\ quiet s' /\ d_text s' <> d_text s.
Proof. ends. split; [calc|]. split; [calc|]. split; [calc|]. ends. calc. Qed.

(** Refuted otherwise.  An edit before the first output of the example is not stored; *)
Theorem C65_early_refuted : exists es s, run toy ex_place [L "a"] es (ex_start [L "a"]) = Some s /\ answers es /\ Forall stays es /\ quiet s /\
  d_fetches s = [] /\ In (Edit (d_text s)) es /\ d_store s (d_name s) = None.
Proof.
  exists [Take; Fetched 0 (L "x") 10; Edit (L "xy"); Input 20; Import; Convert; Reply; Timer 110; Take; Convert; Reply]. ends. split; [intros H; cbn in H; intuition discriminate|]. split; [repeat constructor|]. split; [calc|]. split; [calc|]. split; [vm_compute; tauto|calc].
Qed.
Print Assumptions C65_early_refuted.
(** an edit while the text before is converted is lost when another example is selected; *)
Theorem C65_selected_refuted : exists es s,
  run toy ex_place [L "a"; L "b"] (es ++ [Edit (L "xyz"); Input 300; Select (L "b") 400; Fetched 0 (L "y") 500; Take; Convert; Reply; Timer 600; Take; Convert; Reply])
    (ex_start [L "a"; L "b"]) = Some s /\ answers es /\ quiet s /\ d_store s (L "a") = Some (L "xy").
Proof.
  exists [Take; Fetched 0 (L "x") 10; Import; Convert; Reply; Timer 110; Take; Convert; Reply; Edit (L "xy"); Input 200]. ends. split; [intros H; cbn in H; intuition discriminate|]. calc.
Qed.
Print Assumptions C65_selected_refuted.
(** an edit after resetting an example that is not modified is not stored, either; *)
Theorem C65_reset_refuted : exists es s, run toy ex_place [L "a"] es (ex_start [L "a"]) = Some s /\ answers es /\ quiet s /\
  d_fetches s = [] /\ In (Edit (d_text s)) es /\ d_shown s = Some (d_text s) /\ d_store s (d_name s) = None.
Proof.
  exists [Take; Fetched 0 (L "x") 10; Import; Convert; Reply; Timer 110; Take; Convert; Reply; Reset 1000; Fetched 0 (L "x") 1010; Edit (L "xy"); Input 2000; Take; Convert; Reply].
  ends. split; [intros H; cbn in H; intuition discriminate|]. split; [calc|]. split; [calc|]. split; [vm_compute; tauto|]. calc.
Qed.
Print Assumptions C65_reset_refuted.
(** an example that is fetched late is stored as if the user had changed it. *)
Theorem C65_unchanged_refuted : exists es s, run toy ex_place [L "a"] es (ex_start [L "a"]) = Some s /\ answers es /\ quiet s /\
  (forall t, ~ In (Edit t) es) /\ d_store s (L "a") = Some (L "x") /\ d_star s (L "a") = true.
Proof.
  exists [Take; Import; Convert; Reply; Fetched 0 (L "x") 1000; Take; Convert; Reply]. ends. split; [intros H; cbn in H; intuition discriminate|]. split; [calc|]. split; [intros t H; cbn in H; intuition discriminate|calc].
Qed.
Print Assumptions C65_unchanged_refuted.

(** ** C66: the example chosen last is the one in the editor. *)

(** The user waits with the next choice until the example is there. *)
Inductive patient (conv : list N -> js_result) (place : list N -> N -> N * N) (examples : list str) : list event -> demo -> demo -> Prop :=
| PtNil : forall s, patient conv place examples [] s s
| PtCons : forall e s s' es s'', stays e \/ d_fetches s = [] -> (forall i, e <> Unfetched i) -> happen conv place examples e s = Some s' ->
    patient conv place examples es s' s'' -> patient conv place examples (e :: es) s s''.
Theorem C66_choice : forall conv place examples text name store now es s, patient conv place examples es (start examples text name store now) s ->
  d_fetches s = [] -> d_name s = d_select s.
Proof.
  intros conv place examples text name store now es s H Hf.
  assert (chosen s) as [[_ Hc]|Hc]; [|exact Hc|congruence].
  pose proof (start_chosen examples text name store now) as Hs. revert Hs. induction H as [|e s s' es s'' H1 H2 E H IH]; [tauto|].
  intros Hs. apply IH; [exact Hf|]. eapply happen_chosen; eauto.
Qed.
Print Assumptions C66_choice.
Example C66_example : exists s, patient toy ex_place [L "a"; L "b"] [Fetched 0 (L "x") 10; Select (L "b") 20; Take; Edit (L "y"); Fetched 0 (L "z") 30] (ex_start [L "a"; L "b"]) s /\
  d_fetches s = [] /\ d_name s = L "b" /\ d_text s = L "z".
Proof.
  eexists. split.
  - repeat match goal with |- patient ?c ?p ?x (?e :: _) ?s _ =>
      apply (PtCons c p x e s (final c p x [e] s)); [first [left; exact I|right; vm_compute; reflexivity]|discriminate|vm_compute; reflexivity|] end.
    apply PtNil.
  - calc.
Qed.

(** What the editor holds is what was last put there: typed, or stored for the selected
    example, or fetched. *)
Theorem C66_text : forall conv place examples e s s', happen conv place examples e s = Some s' ->
  (forall t, puts s e t -> d_text s' = t) /\
  ((forall t, ~ puts s e t) -> d_text s' = d_text s) /\
  (forall name now t, e = Select name now -> d_store s name = Some t -> d_name s' = name) /\
  (forall i t now, e = Fetched i t now -> nth_error (d_fetches s) i = Some (d_name s')) /\
  (forall name now, e = Select name now -> d_store s name = None -> d_fetches s' = d_fetches s ++ [name]) /\
  (forall now, e = Reset now -> d_fetches s' = d_fetches s ++ [d_name s]).
Proof. exact happen_text. Qed.
Print Assumptions C66_text.
Example C66_text_example : exists s s', happen toy ex_place [L "a"; L "b"] (Select (L "b") 5000) s = Some s' /\
  puts s (Select (L "b") 5000) (L "w") /\ d_text s = L "x" /\ d_text s' = L "w" /\ d_name s' = L "b".
Proof.
  exists (final toy ex_place [L "a"; L "b"] [Fetched 0 (L "x") 10] (start [L "a"; L "b"] [] (L "a") (fun n => if str_eqb n (L "b") then Some (L "w") else None) 0)).
  eexists. split; [vm_compute; reflexivity|]. split; [constructor; vm_compute; reflexivity|]. calc.
Qed.

(** Refuted otherwise: an example that is fetched slowly replaces the one that was chosen
    after it; then the page says [b] and shows and stores [c]. *)
Theorem C66_choice_refuted : exists es s, run toy ex_place [L "a"; L "b"; L "c"] es (ex_start [L "a"; L "b"; L "c"]) = Some s /\ answers es /\
  (forall i, ~ In (Unfetched i) es) /\ d_fetches s = [] /\ d_select s = L "b" /\ d_name s = L "c".
Proof.
  exists [Fetched 0 (L "x") 10; Select (L "c") 100; Select (L "b") 200; Fetched 1 (L "y") 300; Fetched 0 (L "z") 400]. ends. split; [intros H; cbn in H; intuition discriminate|]. split; [intros i H; cbn in H; intuition discriminate|]. calc.
Qed.
Print Assumptions C66_choice_refuted.

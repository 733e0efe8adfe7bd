(** * Property theorems about the page that the web demo shows: C80. *)

From Coq Require Import ZArith Lia.
From Verif Require Import Base Config Display Wasm Demo Frame SpecDemo P_Base P_Demo P_Url PropertiesDemo.

(** ** C80: the page shown is that of the output shown.

    [conv], [place], [examples]: as in PropertiesDemo.v; [dom_of]: any reader of HTML; [own]: what
    the demo puts into the head of the frame. *)
Section Frame.
Variable conv : list N -> js_result.
Variable place : list N -> N -> N * N.
Variable examples : list str.
Variable elem : Type.
Variable dom_of : list N -> dom elem.

(** The title, links and styles are those of this output, in order, and the body is its body;
    nothing is left of outputs before. *)
Definition shows_page (own : list elem) (o : list N) (f : frame elem) : Prop :=
  exists l, f_head elem f = map (pair false) own ++ map (pair true) l /\
    map snd (filter (fun x => str_eqb (fst x) (L "title") || str_eqb (fst x) (L "link") || str_eqb (fst x) (L "style")) (dom_head elem (dom_of o))) = l /\
    f_main elem f = dom_main elem (dom_of o).

Lemma filter_own : forall own l, filter (fun x : bool * elem => negb (fst x)) (map (pair false) own ++ map (pair true) l) = map (pair false) own.
Proof.
  intros own l. rewrite filter_app. replace (filter _ (map (pair true) l)) with (@nil (bool * elem)) by (induction l; [reflexivity|assumption]). rewrite app_nil_r.
  induction own as [|x own IH]; [reflexivity|]. cbn. now rewrite IH.
Qed.
Lemma updated_page : forall own l o f, f_head elem f = map (pair false) own ++ map (pair true) l -> (exists b, f_main elem f = Body elem b) ->
  shows_page own o (update_doc elem dom_of o f).
Proof.
  intros own l o f H [b Hb]. unfold update_doc. rewrite H, filter_own, Hb. eexists. split; [reflexivity|]. split; [|reflexivity].
  unfold picked. f_equal. apply filter_ext. intros x. cbn. now rewrite orb_false_r, orb_assoc.
Qed.
Lemma frame_step : forall e v v', view_happen conv place examples elem dom_of e v = Some v' ->
  happen conv place examples e (v_demo elem v) = Some (v_demo elem v') /\
  ((d_shown (v_demo elem v') = d_shown (v_demo elem v) /\ v_frame elem v' = v_frame elem v) \/
   exists o, d_shown (v_demo elem v') = Some o /\ v_frame elem v' = update_doc elem dom_of o (v_frame elem v)).
Proof.
  intros e v v' E. unfold view_happen in E. destruct (happen conv place examples e (v_demo elem v)) as [s|] eqn:Es; [|discriminate]. injection E as <-.
  cbn [v_demo v_frame]. split; [reflexivity|]. destruct (happen_shown conv place examples e _ s Es) as [[Hs Hr]|(r & out & o & -> & Ho & Er & Hs)].
  - left. split; [exact Hs|]. destruct e; try reflexivity. destruct (Hr eq_refl) as (r & out & Ho & Er). now rewrite Ho, Er.
  - right. exists o. split; [exact Hs|]. now rewrite Ho, Er.
Qed.

(** As long as no output that was shown is a frameset: *)
Theorem C80_page_partial : forall text name store now own blank es v,
  view_run conv place examples elem dom_of es (view_start examples elem text name store now own blank) = Some v ->
  (forall a b v1 o, es = a ++ b -> view_run conv place examples elem dom_of a (view_start examples elem text name store now own blank) = Some v1 ->
     d_shown (v_demo elem v1) = Some o -> exists x, dom_main elem (dom_of o) = Body elem x) ->
  forall o, d_shown (v_demo elem v) = Some o -> shows_page own o (v_frame elem v).
Proof.
  intros text name store now own blank. set (v0 := view_start examples elem text name store now own blank).
  assert (forall es v, view_run conv place examples elem dom_of es v0 = Some v ->
    (forall a b v1 o, es = a ++ b -> view_run conv place examples elem dom_of a v0 = Some v1 ->
      d_shown (v_demo elem v1) = Some o -> exists x, dom_main elem (dom_of o) = Body elem x) ->
    (exists l, f_head elem (v_frame elem v) = map (pair false) own ++ map (pair true) l) /\ (exists b, f_main elem (v_frame elem v) = Body elem b) /\
    forall o, d_shown (v_demo elem v) = Some o -> shows_page own o (v_frame elem v)) as HI.
  { assert (forall a b v, view_run conv place examples elem dom_of (a ++ b) v = match view_run conv place examples elem dom_of a v with Some v' => view_run conv place examples elem dom_of b v' | None => None end) as HA.
    { induction a as [|e a IH]; intros b v; [reflexivity|]. cbn. destruct (view_happen conv place examples elem dom_of e v); [apply IH|reflexivity]. }
    induction es as [|e es IH] using rev_ind; intros v E HB.
    - injection E as <-. split; [exists []; cbn; now rewrite app_nil_r|]. split; [eexists; reflexivity|]. intros o Ho. exfalso. revert Ho. unfold v0, view_start. cbn [v_demo].
      unfold start. destruct (load_first examples text name store now) as (t & fs & -> & _). rewrite update_shown. discriminate.
    - pose proof E as E'. rewrite HA in E'. destruct (view_run conv place examples elem dom_of es v0) as [v1|] eqn:E1; [|discriminate].
      destruct (IH v1 eq_refl) as ((l & Hl) & Hb & Hs); [intros a b v2 o -> E2; apply (HB a (b ++ [e]) v2 o); [now rewrite app_assoc|exact E2]|].
      cbn [view_run] in E'. destruct (view_happen conv place examples elem dom_of e v1) as [v2|] eqn:E2; [|discriminate]. injection E' as ->.
      destruct (frame_step e v1 v E2) as [_ [[Hd Hf]|(o & Hd & Hf)]].
      + rewrite Hd, Hf. eauto.
      + pose proof (updated_page own l o (v_frame elem v1) Hl Hb) as HP. rewrite Hf. pose proof HP as (l' & Hl' & _ & Hm). split; [eauto|]. split.
        * rewrite Hm. apply (HB (es ++ [e]) [] v o); [now rewrite app_nil_r|exact E|exact Hd].
        * intros o' Ho'. rewrite Hd in Ho'. injection Ho' as <-. exact HP. }
  intros es v E HB. apply (HI es v E HB).
Qed.

(** The head is that of the output shown in every run, and the frame is empty before the first output. *)
Theorem C80_head : forall text name store now own blank es v,
  view_run conv place examples elem dom_of es (view_start examples elem text name store now own blank) = Some v ->
  match d_shown (v_demo elem v) with
  | Some o => f_head elem (v_frame elem v) = map (pair false) own ++
      map (fun x => (true, snd x)) (filter (fun x => str_eqb (fst x) (L "title") || str_eqb (fst x) (L "link") || str_eqb (fst x) (L "style")) (dom_head elem (dom_of o)))
  | None => v_frame elem v = mkFrame elem (map (pair false) own) (Body elem blank)
  end.
Proof.
  intros text name store now own blank.
  set (P := fun v : view elem => (exists l, f_head elem (v_frame elem v) = map (pair false) own ++ map (pair true) l) /\
    match d_shown (v_demo elem v) with
    | Some o => f_head elem (v_frame elem v) = map (pair false) own ++
        map (fun x => (true, snd x)) (filter (fun x => str_eqb (fst x) (L "title") || str_eqb (fst x) (L "link") || str_eqb (fst x) (L "style")) (dom_head elem (dom_of o)))
    | None => v_frame elem v = mkFrame elem (map (pair false) own) (Body elem blank)
    end).
  assert (forall es v v', view_run conv place examples elem dom_of es v = Some v' -> P v -> P v') as HI.
  { induction es as [|e es IH]; intros v v' E HP; [now injection E as <-|]. cbn [view_run] in E.
    destruct (view_happen conv place examples elem dom_of e v) as [v1|] eqn:E1; [|discriminate]. apply (IH v1 v' E). destruct HP as [(l & Hl) HP].
    destruct (frame_step e v v1 E1) as [_ [[Hd Hf]|(o & Hd & Hf)]]; unfold P; rewrite Hd, Hf; [split; [eauto|exact HP]|].
    unfold update_doc. cbn [f_head]. rewrite Hl, filter_own. split; [eauto|]. f_equal. unfold picked. rewrite map_map. f_equal. apply filter_ext. intros x. cbn. now rewrite orb_false_r, orb_assoc. }
  intros es v E. apply (HI es _ v E). unfold view_start. split; [exists []; cbn; now rewrite app_nil_r|]. cbn [v_demo].
  assert (d_shown (start examples text name store now) = None) as -> by (unfold start; destruct (load_first examples text name store now) as (t & fs & -> & _); now rewrite update_shown).
  reflexivity.
Qed.

(** The claim is REFUTED after an output with a frameset: the frame has no body any more, which the
    next output could replace, and shows the frameset for ever. *)
Theorem C80_stuck : forall es v v' x, view_run conv place examples elem dom_of es v = Some v' -> f_main elem (v_frame elem v) = Frameset elem x ->
  f_main elem (v_frame elem v') = Frameset elem x.
Proof.
  induction es as [|e es IH]; intros v v' x E H; [now injection E as <-|]. cbn [view_run] in E.
  destruct (view_happen conv place examples elem dom_of e v) as [v1|] eqn:E1; [|discriminate]. apply (IH v1 v' x E).
  destruct (frame_step e v v1 E1) as [_ [[_ ->]|(o & _ & ->)]]; [exact H|]. unfold update_doc. cbn [f_main]. now rewrite H.
Qed.
End Frame.
Print Assumptions C80_page_partial.
Print Assumptions C80_head.
Print Assumptions C80_stuck.

(** A reader of pages of which the first character is that of the title, and the others the body *)
Definition ex_dom (o : list N) : dom (list N) :=
  match o with
  | 33 :: b => mkDom (list N) [] (Frameset (list N) b)
  | t :: b => mkDom (list N) [(L "title", [t]); (L "meta", [0])] (Body (list N) b)
  | [] => mkDom (list N) [] (Body (list N) [])
  end.
Definition ex_frame_start : view (list N) := view_start [L "a"] (list N) [] (L "a") (fun _ => None) 0 [L "theme"] [].
Definition ex_frame_events (t : list N) : list event :=
  [Take; Fetched 0 t 10; Import; Convert; Reply; Timer 110; Take; Convert; Reply].
Example C80_example : exists v, view_run toy ex_place [L "a"] (list N) ex_dom (ex_frame_events (L "tb") ++ [Edit (L "uc"); Input 5000; Take; Convert; Reply]) ex_frame_start = Some v /\
  d_shown (v_demo (list N) v) = Some (L "uc") /\ v_frame (list N) v = mkFrame (list N) [(false, L "theme"); (true, L "u")] (Body (list N) (L "c")).
Proof. eexists. split; [vm_compute; reflexivity|]. split; vm_compute; reflexivity. Qed.
(** and no output in this run is a frameset, as C80_page_partial asks: every prefix of it is tried. *)
Definition ex_frame_bodies (es : list event) : bool :=
  forallb (fun n => match view_run toy ex_place [L "a"] (list N) ex_dom (firstn n es) ex_frame_start with
                    | Some v => match d_shown (v_demo (list N) v) with
                                | Some o => match dom_main (list N) (ex_dom o) with Body _ _ => true | Frameset _ _ => false end
                                | None => true
                                end
                    | None => true
                    end) (seq 0 (S (length es))).
Lemma ex_frame_bodies_ok : forall es, ex_frame_bodies es = true -> forall a b v o, es = a ++ b ->
  view_run toy ex_place [L "a"] (list N) ex_dom a ex_frame_start = Some v -> d_shown (v_demo (list N) v) = Some o ->
  exists x, dom_main (list N) (ex_dom o) = Body (list N) x.
Proof.
  intros es H a b v o -> E Ho. unfold ex_frame_bodies in H. rewrite forallb_forall in H. specialize (H (length a)).
  rewrite firstn_app, Nat.sub_diag, firstn_all, app_nil_r, E, Ho in H. destruct (dom_main (list N) (ex_dom o)) as [x|x]; [now exists x|].
  discriminate H. apply in_seq. rewrite app_length. lia.
Qed.
Example C80_bodies_example : ex_frame_bodies (ex_frame_events (L "tb") ++ [Edit (L "uc"); Input 5000; Take; Convert; Reply]) = true /\
  ex_frame_bodies (ex_frame_events (L "!f")) = false.
Proof. split; vm_compute; reflexivity. Qed.
Theorem C80_frameset_refuted : exists es v, view_run toy ex_place [L "a"] (list N) ex_dom es ex_frame_start = Some v /\ answers es /\ quiet (v_demo (list N) v) /\
  d_shown (v_demo (list N) v) = Some (L "uc") /\ f_main (list N) (v_frame (list N) v) = Frameset (list N) (L "f") /\
  dom_main (list N) (ex_dom (L "uc")) = Body (list N) (L "c").
Proof.
  exists (ex_frame_events (L "!f") ++ [Edit (L "uc"); Input 5000; Take; Convert; Reply]). eexists. split; [vm_compute; reflexivity|].
  split; [intros H; cbn in H; intuition discriminate|]. vm_compute. repeat split.
Qed.
Print Assumptions C80_frameset_refuted.
(** The converter makes such outputs, also with page completion: the source says [html] itself. *)
Example C80_frameset_example : jr_output (ex_conv (L "html { frameset { } }")) =
  Some (L "<!DOCTYPE html>" ++ [10] ++ L "<html>" ++ [10] ++ L "<frameset>" ++ [10] ++ L "  </frameset>" ++ [10] ++ L "</html>" ++ [10]).
Proof. vm_compute. reflexivity. Qed.

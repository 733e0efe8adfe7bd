(** * The web demo's URL (for C78, C79). *)

From Coq Require Import ZArith Lia.
From Verif Require Import Base Display Wasm Demo Url SpecDemo SpecUrl P_Base P_Demo.

(** ** Parameters *)
Lemma param_get_set : forall key v l, param_get key (param_set key v l) = Some v.
Proof.
  intros key v. induction l as [|[k x] l IH]; cbn; [now rewrite str_eqb_refl|]. destruct (str_eqb k key) eqn:E; cbn; rewrite E; [reflexivity|exact IH].
Qed.
Definition about (key : str) (p : str * list N) : bool := str_eqb (fst p) key.
Lemma param_set_about : forall key v l, filter (about key) (param_set key v l) = [(key, v)].
Proof.
  intros key v. induction l as [|[k x] l IH]; cbn; unfold about; cbn [fst].
  - now rewrite str_eqb_refl.
  - destruct (str_eqb k key) eqn:E; cbn [filter fst]; unfold about; cbn [fst]; rewrite E; [|exact IH]. apply P_Demo.str_eqb_is in E. subst k. f_equal.
    unfold param_delete. clear IH. induction l as [|[k y] l IH]; [reflexivity|]. cbn [filter fst]. destruct (str_eqb k key) eqn:E; cbn [negb filter fst]; [exact IH|].
    rewrite E. exact IH.
Qed.
Lemma param_set_others : forall key v l, filter (fun p => negb (about key p)) (param_set key v l) = filter (fun p => negb (about key p)) l.
Proof.
  intros key v. induction l as [|[k x] l IH]; cbn; unfold about; cbn [fst].
  - now rewrite str_eqb_refl.
  - destruct (str_eqb k key) eqn:E; cbn [filter fst]; rewrite E; cbn [negb]; [|f_equal; exact IH].
    unfold param_delete. clear IH. induction l as [|[k' y] l IH]; [reflexivity|]. cbn [filter fst]. destruct (str_eqb k' key) eqn:E'; cbn [negb filter fst]; [exact IH|].
    rewrite E'. cbn [negb]. now f_equal.
Qed.
Lemma example_named : forall n u, example_of (name_url n u) = n.
Proof. intros n u. unfold example_of, name_url, update_url. cbn [fold_left snd fst u_params]. now rewrite param_get_set. Qed.
Lemma hash_named : forall n u, u_hash (name_url n u) = [].
Proof. reflexivity. Qed.

Section Url.
Variable conv : list N -> js_result.
Variable place : list N -> N -> N * N.
Variable examples : list str.
Variable has : list N -> list N -> bool.
Variable served : str -> list N.
Notation happen := (happen conv place examples).
Notation update := (update examples).
Notation inv := (inv conv).
Notation core := (core conv).

(** ** What is kept *)
Definition kept (s : demo) : list N := match d_store s (d_name s) with Some t => t | None => served (d_name s) end.
(** the example is there *)
Definition here (n : str) (s : demo) : Prop := d_fetches s = [] /\ d_name s = n /\
  ((d_loading s = true /\ d_text s = kept s /\ (d_dirty s = true \/ d_last s = Some (d_text s))) \/
   (d_loading s = false /\ d_last s = Some (kept s))).
(** it is being fetched *)
Definition coming (n : str) (s : demo) : Prop := d_fetches s = [n] /\ d_store s n = None /\
  (d_dirty s = true \/ d_last s = Some (d_text s)) /\ (d_loading s = true \/ d_sent s = None /\ d_dirty s = false).

(** How [update] can end *)
Lemma update_cases : forall now s, d_worker s = true ->
  (update now s = s /\ (d_dirty s = true \/ d_last s = Some (d_text s))) \/
  (update now s = set_dirty true s /\ d_dirty s = false /\ d_sent s <> None) \/
  (update now s = post examples now s /\ d_dirty s = false /\ d_last s <> Some (d_text s)).
Proof.
  intros now s Hw. unfold Demo.update. rewrite Hw. cbn [negb]. destruct (d_dirty s) eqn:Ed; [left; auto|].
  destruct (match d_sent s with Some t => _ | None => false end) eqn:Et; [right; left; repeat split; now destruct (d_sent s)|].
  destruct (match d_last s with Some l => _ | None => false end) eqn:El.
  2: { right. right. split; [reflexivity|]. split; [reflexivity|]. intros F. rewrite F, str_eqb_refl in El. discriminate. }
  left. split; [reflexivity|]. right. destruct (d_last s); [|discriminate]. apply str_eqb_is in El. congruence.
Qed.
Lemma post_facts : forall now s, let s' := post examples now s in
  d_text s' = d_text s /\ d_name s' = d_name s /\ d_loading s' = d_loading s /\ d_fetches s' = d_fetches s /\ d_last s' = Some (d_text s) /\
  (d_loading s = true -> forall n, d_store s' n = d_store s n) /\ (d_loading s = false -> d_store s' (d_name s) = Some (d_text s)).
Proof.
  intros now s. unfold post, store_modified. destruct (d_loading s) eqn:E; cbn; rewrite ?E, ?str_eqb_refl; repeat split; auto; try discriminate.
Qed.
Lemma update_here : forall n now s, d_worker s = true -> here n s -> here n (update now s).
Proof.
  intros n now s Hw (H1 & H2 & H3). destruct (update_cases now s Hw) as [(-> & _)|[(-> & Hd & _)|(-> & Hd & Hne)]].
  - split; auto.
  - split; [exact H1|]. split; [exact H2|]. destruct H3 as [(A & B & C)|(A & B)]; [left|right]; repeat split; auto.
  - pose proof (post_facts now s) as H. cbv zeta in H. destruct H as (E1 & E2 & E3 & E4 & E5 & E6 & E7). unfold here, kept. rewrite E1, E2, E3, E4, E5.
    split; [exact H1|]. split; [exact H2|]. destruct H3 as [(A & B & C)|(A & B)]; [left|right].
    + rewrite (E6 A). repeat split; auto.
    + rewrite (E7 A). auto.
Qed.
(** The text that is loaded becomes that of the page. *)
Lemma update_loaded : forall n now s, d_worker s = true -> d_fetches s = [] -> d_name s = n -> d_text s = kept s ->
  (d_loading s = true \/ d_sent s = None /\ d_dirty s = false) -> here n (update now s).
Proof.
  intros n now s Hw Hf Hn Ht HL. destruct (update_cases now s Hw) as [(-> & H)|[(-> & Hd & Hs)|(-> & Hd & Hne)]].
  - split; [exact Hf|]. split; [exact Hn|]. destruct (d_loading s) eqn:El; [left; auto|right]. split; [reflexivity|].
    destruct HL as [HL|[_ HL]]; [discriminate|]. rewrite <- Ht. destruct H; congruence.
  - split; [exact Hf|]. split; [exact Hn|]. left. destruct HL as [HL|[HL _]]; [|congruence]. repeat split; auto.
  - pose proof (post_facts now s) as H. cbv zeta in H. destruct H as (E1 & E2 & E3 & E4 & E5 & E6 & E7). unfold here, kept. rewrite E1, E2, E3, E4, E5.
    split; [exact Hf|]. split; [exact Hn|]. destruct (d_loading s) eqn:El; [left|right].
    + rewrite (E6 eq_refl). repeat split; auto.
    + rewrite (E7 eq_refl). auto.
Qed.
Lemma update_coming : forall n now s, d_worker s = true -> coming n s -> coming n (update now s).
Proof.
  intros n now s Hw (H1 & H2 & H3 & H4). destruct (update_cases now s Hw) as [(-> & _)|[(-> & Hd & Hs)|(-> & Hd & Hne)]].
  - repeat split; auto.
  - split; [exact H1|]. split; [exact H2|]. split; [now left|]. left. destruct H4 as [H4|[H4 _]]; [exact H4|congruence].
  - pose proof (post_facts now s) as H. cbv zeta in H. destruct H as (E1 & E2 & E3 & E4 & E5 & E6 & E7). unfold coming. rewrite E1, E3, E4, E5.
    destruct (d_loading s) eqn:El; [rewrite (E6 eq_refl); repeat split; auto|].
    exfalso. destruct H3; congruence.
Qed.
Lemma load_named : forall name now s, inv s -> (d_dirty s = true \/ d_last s = Some (d_text s)) -> d_fetches s = [] ->
  here name (load_example examples name now s) \/ coming name (load_example examples name now s).
Proof.
  intros name now s [(Hw & _) _] Hd Hf. unfold load_example. cbn [d_store]. destruct (d_store s name) as [t|] eqn:E.
  - left. unfold loaded. apply update_loaded; cbn; auto. unfold kept. cbn. now rewrite E.
  - right. unfold coming. cbn. rewrite Hf, E. repeat split; auto.
Qed.
Definition good (n : str) (s : demo) : Prop := here n s \/ coming n s.
Definition next_name (e : event) (s : demo) (n : str) : str := match e with Select name _ => name | Reset _ => d_name s | _ => n end.
Lemma happen_good : forall e s s' n, waits served s e -> happen e s = Some s' -> inv s -> good n s -> good (next_name e s n) s'.
Proof.
  intros e s s' n HW E Hi HG. pose proof Hi as [(Hw & _) _].
  assert (forall x, quiet s -> d_fetches s = [] -> d_text x = d_text s -> d_dirty x = d_dirty s -> d_last x = d_last s -> d_dirty x = true \/ d_last x = Some (d_text x)) as HQ.
  { intros x Hq _ E1 E2 E3. destruct (quiet_inv conv s Hi Hq) as (El & _). right. congruence. }
  destruct e as [text|now|name now|now|i text now|i|now| | | | |]; cbn [Demo.happen next_name waits] in *.
  - injection E as <-. destruct HW as [HL HF]. destruct HG as [(H1 & H2 & H3)|(H1 & _)]; [|congruence]. left. split; [exact H1|]. split; [exact H2|].
    destruct H3 as [(A & _)|(A & B)]; [congruence|]. right. split; [exact A|exact B].
  - injection E as <-. destruct HG as [H|H]; [left; apply update_here|right; apply update_coming]; auto.
  - injection E as <-. destruct HW as [Hq Hf]. apply load_named; [split; [apply (alike_core conv s); [repeat split|apply Hi]|apply Hi]|now apply HQ|exact Hf].
  - injection E as <-. destruct HW as [Hq Hf]. apply load_named; [split; [apply (alike_core conv s); [repeat split|apply Hi]|apply Hi]|now apply HQ|exact Hf].
  - destruct (nth_error (d_fetches s) i) as [m|] eqn:En; [|discriminate]. injection E as <-. specialize (HW m eq_refl). subst text.
    destruct HG as [(H1 & _)|(H1 & H2 & H3 & H4)]; [rewrite H1 in En; destruct i; discriminate|]. rewrite H1 in *. destruct i as [|[|i]]; try discriminate. injection En as <-.
    left. unfold loaded. apply update_loaded; cbn; auto. unfold kept. cbn. now rewrite H2.
  - contradiction.
  - destruct (d_timers s) as [|k]; [discriminate|]. injection E as <-. set (x := set_dirty false _).
    destruct HG as [(H1 & H2 & H3)|(H1 & H2 & H3 & H4)].
    + left. destruct H3 as [(A & B & C)|(A & B)]; [apply update_loaded; auto|]. apply update_here; [exact Hw|]. split; [exact H1|]. split; [exact H2|]. now right.
    + right. destruct H4 as [H4|[H4 H5]].
      * destruct (update_cases now x Hw) as [(-> & H)|[(-> & _ & Hs)|(-> & Hd & Hne)]].
        -- unfold x. split; [exact H1|]. split; [exact H2|]. split; [exact H|now left].
        -- unfold x. split; [exact H1|]. split; [exact H2|]. split; [now left|now left].
        -- pose proof (post_facts now x) as H. cbv zeta in H. destruct H as (E1 & E2 & E3 & E4 & E5 & E6 & E7). unfold coming. rewrite E1, E3, E4, E5, (E6 H4).
           split; [exact H1|]. split; [exact H2|]. split; [now right|now left].
      * apply update_coming; [exact Hw|]. split; [exact H1|]. split; [exact H2|]. split; [right; destruct H3; [congruence|assumption]|]. right. split; [exact H4|reflexivity].
  - destruct (w_out s) as [|r out] eqn:Eo; [discriminate|]. injection E as <-. destruct HG as [(H1 & H2 & H3)|(H1 & H2 & H3 & H4)].
    + left. split; [exact H1|]. split; [exact H2|]. unfold kept in *. cbn. destruct H3 as [(A & B & C)|(A & B)].
      * destruct (d_dirty s) eqn:Ed; [left; auto|]. right. split; [reflexivity|]. destruct C; congruence.
      * right. split; [now destruct (d_dirty s)|exact B].
    + right. split; [exact H1|]. split; [exact H2|]. split; [exact H3|]. cbn. destruct (d_dirty s) eqn:Ed; [left; destruct H4 as [H4|[_ H4]]; [exact H4|discriminate]|]. right. auto.
  - destruct (w_queue s) as [|x q]; [discriminate|]. injection E as <-. destruct (w_ready s); exact HG.
  - destruct (w_import s) as [|x q]; [discriminate|]. injection E as <-. exact HG.
  - destruct (w_wasm s) as [|x q]; [discriminate|]. injection E as <-. exact HG.
  - contradiction.
Qed.
Lemma load_first : forall text name store now, exists t fs,
  load_example examples name now (mkDemo text false name name true None None false O [] store (fun _ => false) None [] [] false [] [] [] false []) =
    mkDemo t false name name true None None false O fs store (fun _ => false) None [] [] false [] [] [] false [] /\
  match store name with Some t' => t = t' /\ fs = [] | None => fs = [name] end.
Proof.
  intros text name store now. unfold load_example. cbn [d_store d_text d_event d_name d_select d_loading d_last d_sent d_dirty d_timers d_fetches d_star d_shown d_notes d_marks d_worker w_queue w_import w_wasm w_ready w_out].
  destruct (store name) as [t|]; [|exists text, [name]; split; reflexivity]. exists t, []. split; [|split; reflexivity]. reflexivity.
Qed.
Lemma start_facts : forall text name store now, let s := start examples text name store now in
  d_select s = name /\ d_name s = name /\ match store name with Some t => d_text s = t /\ d_fetches s = [] | None => d_fetches s = [name] end.
Proof.
  intros text name store now. unfold start. destruct (load_first text name store now) as (t & fs & -> & H). cbv zeta.
  match goal with |- d_select (update now ?x) = _ /\ _ => pose proof (update_same examples now x) as (E1 & E2 & E3 & _ & E4 & _) end.
  rewrite E1, E2, E3, E4. split; [reflexivity|]. split; [reflexivity|]. destruct (store name); cbn; intuition congruence.
Qed.
Lemma start_good : forall text name store now, good name (start examples text name store now).
Proof.
  intros text name store now. unfold start. destruct (load_first text name store now) as (t & fs & -> & H). destruct (store name) as [t'|] eqn:E.
  - destruct H as [-> ->]. left. apply update_loaded; try reflexivity; [|left; reflexivity]. unfold kept. cbn [d_store d_name d_text]. now rewrite E.
  - subst fs. right. match goal with |- coming _ (update now ?x) => pose proof (update_cases now x eq_refl) as HC; pose proof (update_same examples now x) as (E1 & E2 & E3 & E5 & E4 & _); pose proof (update_store examples now x name) as HS end.
    split; [rewrite E4; reflexivity|]. split.
    + destruct HS as [[HS _]|(_ & _ & _ & HS)]; [rewrite HS; exact E|discriminate HS].
    + split; [|left; rewrite E5; reflexivity]. destruct HC as [(-> & HC)|[(-> & _)|(-> & _)]]; [exact HC|now left|right].
      match goal with |- d_last (post _ _ ?x) = _ => pose proof (post_facts now x) as HP end. cbv zeta in HP. destruct HP as (-> & _ & _ & _ & HP & _). exact HP.
Qed.
(** The whole page *)
Lemma show_same : forall p, p_demo (show_hash has p) = p_demo p /\ p_url (show_hash has p) = p_url p.
Proof. intros p. unfold show_hash. destruct (u_hash (p_url p)); [now split|]. destruct (match d_shown (p_demo p) with Some _ => _ | None => _ end); now split. Qed.
Lemma page_own : forall e p p', page_happen conv place examples has (Own e) p = Some p' ->
  happen e (p_demo p) = Some (p_demo p') /\
  p_url p' = match e with Select name _ => name_url name (p_url p) | Reset _ => name_url (d_name (p_demo p)) (p_url p) | _ => p_url p end.
Proof.
  intros e p p' E. cbn [page_happen] in E. destruct (happen e (p_demo p)) as [s|] eqn:Es; [|discriminate]. injection E as <-.
  destruct e; try (split; reflexivity). destruct (w_out (p_demo p)) as [|r out]; [split; reflexivity|]. destruct (jr_output r); [|split; reflexivity].
  destruct (p_seek p); [|split; reflexivity]. rewrite (proj1 (show_same _)), (proj2 (show_same _)). split; reflexivity.
Qed.
Lemma careful_good : forall p p', careful conv place examples has served p p' ->
  inv (p_demo p) -> good (example_of (p_url p)) (p_demo p) -> inv (p_demo p') /\ good (example_of (p_url p')) (p_demo p').
Proof.
  intros p p' H. induction H as [p|e p p' p'' HW E H IH|h p p' p'' E H IH]; intros Hi HG; [auto| |].
  - apply page_own in E as [E Eu]. apply IH; [eapply happen_inv; eauto; intros ->; exact HW|].
    pose proof (happen_good _ _ _ _ HW E Hi HG) as HG'. rewrite Eu. destruct e; cbn [next_name] in HG'; rewrite ?example_named; exact HG'.
  - cbn [page_happen] in E. injection E as <-. apply IH; rewrite ?(proj1 (show_same _)), ?(proj2 (show_same _)); assumption.
Qed.
Theorem reopened : forall text u store now p, careful conv place examples has served (open examples text u store now) p ->
  quiet (p_demo p) -> d_fetches (p_demo p) = [] ->
  example_of (p_url p) = d_name (p_demo p) /\
  forall text' now', brings conv place examples served (p_demo (open examples text' (p_url p) (d_store (p_demo p)) now')) (d_name (p_demo p)) (d_text (p_demo p)).
Proof.
  intros text u store now p H Hq Hf.
  destruct (careful_good _ _ H) as [Hi HG']; [apply start_inv|cbn [open p_url p_demo]; rewrite example_named; apply start_good|].
  destruct (quiet_inv conv _ Hi Hq) as (El & Ed & _). destruct HG' as [(_ & En & HG')|(F & _)]; [|congruence]. split; [now symmetry|].
  assert (d_text (p_demo p) = kept (p_demo p)) as ET by (destruct HG' as [(_ & A & _)|(_ & A)]; congruence).
  intros text' now'. rewrite ET. unfold open. cbn [p_demo]. rewrite <- En. unfold kept. set (n := d_name (p_demo p)). set (st := d_store (p_demo p)).
  destruct (start_facts text' n st now') as (HS & Hn & HF). split; [exact HS|]. destruct (st n) as [t|] eqn:Es; [left; tauto|].
  right. split; [exact HF|]. intros now2. cbn [Demo.happen]. rewrite HF. cbn [nth_error]. eexists. split; [reflexivity|]. unfold loaded.
  match goal with |- d_fetches (update now2 ?x) = _ /\ _ => pose proof (update_same examples now2 x) as (E1 & E2 & _ & _ & E3 & _) end.
  rewrite E1, E2, E3. repeat split.
Qed.

(** The other parameters *)
Definition kept_params (u : url) (p : page) : Prop := exists n, filter (about (L "example")) (u_params (p_url p)) = [(L "example", n)] /\
  filter (fun x => negb (about (L "example") x)) (u_params (p_url p)) = filter (fun x => negb (about (L "example") x)) (u_params u).
Lemma named_params : forall n u v p, p_url p = name_url n v ->
  filter (fun x => negb (about (L "example") x)) (u_params v) = filter (fun x => negb (about (L "example") x)) (u_params u) -> kept_params u p.
Proof.
  intros n u v p E H. exists n. rewrite E. unfold name_url, update_url. cbn [fold_left snd fst u_params]. rewrite param_set_about, param_set_others. split; [reflexivity|exact H].
Qed.
Lemma run_params : forall u es p p', page_run conv place examples has es p = Some p' -> kept_params u p -> kept_params u p'.
Proof.
  intros u. induction es as [|e es IH]; intros p p' E H; [now injection E as <-|]. cbn [page_run] in E.
  destruct (page_happen conv place examples has e p) as [p1|] eqn:E1; [|discriminate]. apply (IH p1 p' E). destruct e as [e|h].
  - apply page_own in E1 as [_ Eu]. pose proof H as (n & _ & H2). destruct e; try (unfold kept_params; rewrite Eu; exact H); now apply (named_params _ u (p_url p) p1 Eu).
  - cbn [page_happen] in E1. injection E1 as <-. unfold kept_params. rewrite (proj2 (show_same _)). exact H.
Qed.

(** ** Links to places in the page *)
Lemma update_shown : forall now s, d_shown (update now s) = d_shown s.
Proof.
  intros now s. unfold Demo.update. destruct (d_dirty s); [reflexivity|]. destruct (negb (d_worker s)); [reflexivity|].
  destruct (match d_sent s with Some t => _ | None => false end); [reflexivity|]. destruct (match d_last s with Some l => _ | None => false end); [reflexivity|].
  unfold post. cbn [d_shown]. apply (store_same examples (d_text s) s).
Qed.
Lemma loaded_shown : forall n t now s, d_shown (loaded examples n t now s) = d_shown s.
Proof. intros n t now s. unfold loaded. now rewrite update_shown. Qed.
Lemma load_shown : forall n now s, d_shown (load_example examples n now s) = d_shown s.
Proof. intros n now s. unfold load_example. cbn [d_store]. destruct (d_store s n); [now rewrite loaded_shown|reflexivity]. Qed.
Lemma happen_shown : forall e s s', happen e s = Some s' ->
  (d_shown s' = d_shown s /\ (e = Reply -> exists r out, w_out s = r :: out /\ jr_output r = None)) \/
  (exists r out o, e = Reply /\ w_out s = r :: out /\ jr_output r = Some o /\ d_shown s' = Some o).
Proof.
  intros e s s' E. destruct e as [text|now|name now|now|i text now|i|now| | | | |]; cbn [Demo.happen] in E;
    try (left; split; [|discriminate]);
    try (injection E as <-; rewrite ?update_shown, ?load_shown; reflexivity).
  - destruct (nth_error (d_fetches s) i); [|discriminate]. injection E as <-. now rewrite loaded_shown.
  - destruct (nth_error (d_fetches s) i); [|discriminate]. now injection E as <-.
  - destruct (d_timers s); [discriminate|]. injection E as <-. now rewrite update_shown.
  - destruct (w_out s) as [|r out] eqn:Eo; [discriminate|]. injection E as <-. destruct (jr_output r) as [o|] eqn:Er.
    + right. exists r, out, o. repeat split; auto. cbn. now rewrite Er.
    + left. cbn. rewrite Er. split; [reflexivity|]. intros _. eauto.
  - destruct (w_queue s); [discriminate|]. injection E as <-. now destruct (w_ready s).
  - destruct (w_import s); [discriminate|]. now injection E as <-.
  - destruct (w_wasm s); [discriminate|]. now injection E as <-.
  - destruct (w_wasm s); [destruct (w_import s); [discriminate|]|]; now injection E as <-.
Qed.
(** What one event does to the place *)
Lemma own_view : forall e p p', page_happen conv place examples has (Own e) p = Some p' ->
  (p_view p' = p_view p /\ p_seek p' = p_seek p /\ (d_shown (p_demo p') = d_shown (p_demo p) \/ p_seek p = false)) \/
  (p_seek p = true /\ p_url p' = p_url p /\ exists q, p' = show_hash has q /\ p_url q = p_url p /\ p_view q = p_view p).
Proof.
  intros e p p' E. pose proof (page_own _ _ _ E) as [Ed Eu]. cbn [page_happen] in E. rewrite Ed in E. injection E as E.
  destruct (happen_shown _ _ _ Ed) as [[Hs Hr]|(r & out & o & -> & Ho & Er & Hs)].
  - left. destruct e; try solve [rewrite <- E; cbn; auto]. destruct (Hr eq_refl) as (r & out & Ho & Er). rewrite Ho, Er in E. rewrite <- E. cbn. auto.
  - rewrite Ho, Er in E. destruct (p_seek p) eqn:Ek; [right|left; rewrite <- E; cbn; auto].
    split; [reflexivity|]. split; [exact Eu|]. eexists. split; [symmetry; exact E|]. split; reflexivity.
Qed.
Lemma never_shown : forall es p p', page_run conv place examples has (map Own es) p = Some p' -> u_hash (p_url p) = [] -> p_view p = [] ->
  u_hash (p_url p') = [] /\ p_view p' = [].
Proof.
  induction es as [|e es IH]; intros p p' E Hh Hv; [now injection E as <-|]. cbn [map page_run] in E.
  destruct (page_happen conv place examples has (Own e) p) as [p1|] eqn:E1; [|discriminate].
  assert (u_hash (p_url p1) = []) as Hh1 by (destruct (page_own _ _ _ E1) as [_ ->]; destruct e; auto).
  apply (IH p1 p' E Hh1). destruct (own_view _ _ _ E1) as [(-> & _)|(_ & _ & q & -> & Eq & Ev)]; [exact Hv|].
  rewrite (proj2 (show_same _)) in Hh1. unfold show_hash. rewrite Hh1. cbn. congruence.
Qed.
Definition sought (h : list N) (v : list (list N)) (p : page) : Prop := u_hash (p_url p) = h /\
  (p_view p = h :: v /\ p_seek p = false \/
   p_view p = v /\ p_seek p = true /\ match d_shown (p_demo p) with Some o => has o h | None => false end = false).
Lemma show_sought : forall h p, h <> [] -> u_hash (p_url p) = h -> sought h (p_view p) (show_hash has p).
Proof.
  intros h p Hn E. unfold sought. rewrite (proj1 (show_same _)), (proj2 (show_same _)). split; [exact E|]. unfold show_hash. rewrite E.
  destruct h as [|c h]; [contradiction|]. destruct (match d_shown (p_demo p) with Some o => _ | None => false end); cbn; auto.
Qed.
Lemma followed : forall h v es p p', h <> [] -> page_run conv place examples has (map Own es) p = Some p' -> Forall stays es -> sought h v p -> sought h v p'.
Proof.
  intros h v es. induction es as [|e es IH]; intros p p' Hn E Hs HP; [now injection E as <-|]. cbn [map page_run] in E. apply Forall_cons_iff in Hs as [H1 Hs].
  destruct (page_happen conv place examples has (Own e) p) as [p1|] eqn:E1; [|discriminate]. apply (IH p1 p' Hn E Hs).
  assert (p_url p1 = p_url p) as Eu by (destruct (page_own _ _ _ E1) as [_ ->]; now destruct e).
  destruct HP as [Hh HP]. destruct (own_view _ _ _ E1) as [(Ev & Ek & Es)|(Hk & _ & q & -> & Eq & Ev)].
  - split; [congruence|]. destruct HP as [[HP HK]|(HP & HK & HQ)]; [left; split; congruence|]. right. split; [congruence|]. split; [congruence|].
    destruct Es as [Es|Es]; [now rewrite Es|congruence].
  - destruct HP as [[_ HK]|(HP & _)]; [congruence|]. rewrite <- HP, <- Ev. apply show_sought; [exact Hn|congruence].
Qed.
Theorem link_followed : forall h es p p', h <> [] -> page_run conv place examples has (Hash h :: map Own es) p = Some p' -> Forall stays es ->
  (p_view p' = p_view p \/ p_view p' = h :: p_view p) /\
  forall o, d_shown (p_demo p') = Some o -> has o h = true -> p_view p' = h :: p_view p.
Proof.
  intros h es p p' Hn E Hs. cbn [page_run page_happen] in E.
  match type of E with page_run _ _ _ _ _ (show_hash _ ?q) = _ => destruct (followed h (p_view q) es _ p' Hn E Hs) as [_ H]; [now apply show_sought|] end.
  cbn [p_view] in H. split; [tauto|]. intros o Ho HO. rewrite Ho in H. destruct H as [[H _]|(_ & _ & H)]; [exact H|congruence].
Qed.
Lemma view_change : forall e p p', page_happen conv place examples has e p = Some p' -> p_view p' <> p_view p ->
  exists o, d_shown (p_demo p') = Some o /\ has o (u_hash (p_url p')) = true /\ p_view p' = u_hash (p_url p') :: p_view p.
Proof.
  assert (forall q, p_view (show_hash has q) <> p_view q -> exists o, d_shown (p_demo (show_hash has q)) = Some o /\
    has o (u_hash (p_url (show_hash has q))) = true /\ p_view (show_hash has q) = u_hash (p_url (show_hash has q)) :: p_view q) as HX.
  { intros q. rewrite (proj1 (show_same q)), (proj2 (show_same q)). unfold show_hash. destruct (u_hash (p_url q)) as [|c l]; cbn; [contradiction|].
    destruct (d_shown (p_demo q)) as [o|]; [|contradiction]. destruct (has o (c :: l)) eqn:E; [|contradiction]. intros _. exists o. auto. }
  intros [e|h] p p' E Hv.
  - destruct (own_view _ _ _ E) as [(F & _)|(_ & _ & q & -> & Eq & Ev)]; [contradiction|]. rewrite <- Ev. apply HX. congruence.
  - cbn [page_happen] in E. injection E as <-. exact (HX _ Hv).
Qed.
End Url.

(** * The builder: a property of every element, selector and text of the result. *)

From Verif Require Import Base Escape Doc Ast Config Errors Build SpecTree SpecBuild P_Base P_Build.

Lemma occurs_in : forall l sp s t e, In (sp, ANode s t e) l -> forall n, Occurs (type_items t) n -> Occurs l n.
Proof.
  intros l sp s t e H n Ho. induction Ho as [sp' n Hn|s' t' e' sp' n Ho IH Hn].
  - eapply OcIn; [eapply OcHere; exact H|exact Hn].
  - eapply OcIn; [exact IH|exact Hn].
Qed.
Lemma occurs_incl : forall l l', incl l l' -> forall n, Occurs l n -> Occurs l' n.
Proof.
  intros l l' Hi n Ho. induction Ho as [sp' n Hn|s' t' e' sp' n Ho IH Hn].
  - eapply OcHere. apply Hi. exact Hn.
  - eapply OcIn; eauto.
Qed.

Ltac ff :=
  repeat match goal with
  | |- FF (bind _ _) => apply ff_bind; [|intros]
  | |- FF (ret _) => apply ff_ret
  | |- FF (syntax _) => apply ff_syntax
  | |- FF (mapM _ _) => apply ff_mapM; intros
  | |- FF out_of_fuel => apply ff_fuel
  | |- FF (match ?x with _ => _ end) => destruct x
  | H : _ |- FF _ => apply H
  end.

(** ** Runs without errors *)
Definition Clean {A} (m : M A) (Q : A -> Prop) : Prop := Post false m (fun d v => d = [] -> Q v).

Lemma app_nil : forall A (a b : list A), a ++ b = [] -> a = [] /\ b = [].
Proof. intros A [|x a] [|y b] H; auto; discriminate. Qed.

Lemma ff_grow : forall A (m : M A), FF m -> Post false m (fun _ _ => True).
Proof.
  intros A m H e He. specialize (H e He). destruct (m e) as [e' [v| |]]; auto. destruct H as (d & -> & _). eauto.
Qed.
Lemma clean_ret : forall A (v : A) (Q : A -> Prop), Q v -> Clean (ret v) Q.
Proof. intros. apply post_ret. auto. Qed.
Lemma clean_bind : forall A B (m : M A) (f : A -> M B) Q Q', Clean m Q -> (forall v, FF (f v)) ->
  (forall v, Q v -> Clean (f v) Q') -> Clean (bind m f) Q'.
Proof.
  intros A B m f Q Q' Hm Hf HQ. eapply post_bind; [exact Hm|]. intros d v Hd. destruct d as [|x d].
  - apply HQ. auto.
  - eapply post_impl; [apply ff_grow, Hf|]. intros d' v' _ E. discriminate.
Qed.
Lemma clean_impl : forall A (m : M A) (Q Q' : A -> Prop), Clean m Q -> (forall v, Q v -> Q' v) -> Clean m Q'.
Proof. intros A m Q Q' H HQ. eapply post_impl; [exact H|]. auto. Qed.
Lemma clean_syntax : forall l (Q : unit -> Prop), (l = [] -> Q tt) -> Clean (syntax l) Q.
Proof. intros. apply post_syntax. auto. Qed.
Lemma clean_err : forall A x (m : M A) (Q : A -> Prop), FF m -> Clean (bind (syntax [x]) (fun _ => m)) Q.
Proof.
  intros A x m Q H. eapply clean_bind with (Q := fun _ => False); [apply clean_syntax; discriminate|auto|contradiction].
Qed.
Lemma clean_fuel : forall A (Q : A -> Prop), Clean out_of_fuel Q.
Proof. intros. apply post_fuel. Qed.
Lemma clean_and : forall A (m : M A) (Q Q' : A -> Prop), Clean m Q -> Clean m Q' -> Clean m (fun v => Q v /\ Q' v).
Proof.
  intros A m Q Q' H H' e He. specialize (H e He). specialize (H' e He). destruct (m e) as [e' [v| |]]; auto.
  destruct H as (d & -> & H). destruct H' as (d' & E & H'). exists d. split; [reflexivity|].
  intros ->. split; [now apply H|]. apply H'. unfold add_errs in E. injection E as E. apply app_inv_head in E. now subst.
Qed.

Section All.
Variable slc : lrange -> str.
(** On items of the syntax tree, and on selectors and texts of the document. *)
Variable PI : a_item -> Prop.
Variable PS : selector -> Prop.
Variable PT : textlike -> Prop.
Definition code_ok (e : a_element) : Prop :=
  match e with
  | ASpecialElt (ACode r) => PT (TText (code_text (mkR (r_start r + 2) (r_end r - 2))))
  | _ => True
  end.
Hypothesis PS_empty : forall n, PS (sel_empty n).
Hypothesis PI_kids : forall sp s t e, PI (sp, ANode s t e) -> Forall PI (type_items t).
Hypothesis PI_sel : forall sp b s e, PI (sp, ANode b (ANSelector s) e) -> Clean (build_selector s) PS.
Hypothesis PT_line : PT (TSpace LineEnd).
Hypothesis PT_paragraph : PT (TSpace ParagraphEnd).
Hypothesis PI_space : forall r n, PI (Some r, n) -> PT (TSpace (SInline (Some (FromSource r)))).
Hypothesis PI_text : forall sp b t e, PI (sp, ANode b (ANText t) e) ->
  (forall r, t = ASegment r -> escape_errors (slc r) (r_start r) = []) -> PT (text_leaf t).
Hypothesis PI_multi : forall sp b m e, PI (sp, ANode b (ANMultiline m) e) ->
  (am_kind m = MLEscaped -> escape_errors (slc (mkR (am_start m) (am_end m))) (am_start m) = []) ->
  PT (TText (multiline_text (am_kind m) (mkR (am_start m) (am_end m)))).
Hypothesis PI_code : forall sp b e n, PI (sp, ANode b (ANElement e) n) -> code_ok e.

Definition built_type (e : element) : Prop :=
  match e_type e with
  | Standard _ | Inline (Some _) => True
  | Unknown | Special CodeBlockContainer => False
  | _ => e_selectors e = []
  end.
Definition PE (e : element) : Prop :=
  Forall PS (e_selectors e) /\ e_raw e = false /\ e_format_inline e = false /\ built_type e.
Definition T : node -> Prop := TreeAll PE PT.

Definition G (l : list a_item) : Prop := Forall PI l.
Lemma G_cons : forall i l, G (i :: l) -> G l.
Proof. intros i l H. now inversion H. Qed.
Lemma G_kids : forall sp s t e l, G ((sp, ANode s t e) :: l) -> G (type_items t).
Proof. intros sp s t e l H. inversion H; subst. eapply PI_kids. eassumption. Qed.
Lemma G_app : forall a b, G (a ++ b) -> G a /\ G b.
Proof. intros a b H. now apply Forall_app in H. Qed.

Definition AllR (r : list a_item * list node) : Prop := G (fst r) /\ Forall T (snd r).

Lemma T_txt : forall r t, PT t -> T (NTxt r t). Proof. intros. now constructor. Qed.
Lemma T_elt : forall e, PE e -> Forall T (e_nodes e) -> T (elt_node e). Proof. intros. now constructor. Qed.
Lemma T_inv : forall r e, T (NElt r e) -> PE e /\ Forall T (e_nodes e).
Proof. intros r e H. inversion H; auto. Qed.

Lemma all_comment : forall sp b c e, PI (sp, ANode b (ANText (AComment c)) e) -> Clean (build_comment c) T.
Proof.
  intros sp b c e HI. unfold build_comment, unclosed. eapply clean_bind with (Q := fun _ => True).
  - destruct (ac_close c); [now apply clean_ret|now apply clean_syntax].
  - intros. apply ff_ret.
  - intros. apply clean_ret. apply T_txt. apply (PI_text _ _ _ _ HI). discriminate.
Qed.
Lemma all_text : forall r u eo raw ml,
  ((u = true -> escape_errors (slc r) (r_start r) = []) -> PT (TText (mkText (FromSource r) ml u eo raw))) ->
  Clean (build_text_node slc r u eo raw ml) T.
Proof.
  intros r u eo raw ml H. unfold build_text_node, escapable_slice.
  eapply clean_bind with (Q := fun v => (u = true -> escape_errors (slc r) (r_start r) = []) /\ v = FromSource r).
  - eapply clean_bind with (Q := fun _ => u = true -> escape_errors (slc r) (r_start r) = []).
    + destruct u; [|apply clean_ret; discriminate].
      apply clean_syntax. intros E _. now destruct (escape_errors (slc r) (r_start r)).
    + intros. apply ff_ret.
    + intros v Hd. apply clean_ret. auto.
  - intros. apply ff_ret.
  - intros v [Hd ->]. apply clean_ret. apply T_txt. auto.
Qed.
Lemma all_inline_text : forall sp b t e, PI (sp, ANode b (ANText t) e) -> Clean (build_inline_text slc t) T.
Proof.
  intros sp b t e HI. pose proof (PI_text _ _ _ _ HI) as HT. destruct t as [r|v|c|r]; cbn [build_inline_text].
  - apply all_text. intros H. apply HT. intros r' E. injection E as <-. auto.
  - apply clean_ret. specialize (HT ltac:(discriminate)). unfold build_verbatim.
    cbn [text_leaf] in HT. unfold verbatim_range, verbatim_text in HT.
    destruct (av_tail v), (av_raw v); apply T_txt; exact HT.
  - eapply all_comment. exact HI.
  - apply all_text. intros _. apply HT. discriminate.
Qed.
Lemma all_multiline : forall sp b m e r, PI (sp, ANode b (ANMultiline m) e) -> Clean (build_multiline slc r m) T.
Proof.
  intros sp b m e r HI. unfold build_multiline. eapply clean_bind.
  - apply all_text. intros H. apply (PI_multi _ _ _ _ HI). intros E. apply H. now rewrite E.
  - intros. apply ff_ret.
  - intros n Hn. apply clean_ret. apply T_elt; [|constructor; [exact Hn|constructor]].
    repeat split; try reflexivity. constructor.
Qed.

Lemma T_append : forall out line r le out' line', append_to_previous out line r le = (out', line') ->
  Forall T out -> Forall T line -> Forall T out' /\ Forall T line'.
Proof.
  intros out line r le out' line' H Ho Hl. unfold append_to_previous in H.
  destruct out as [|[ro e|] before]; try (injection H as <- <-; auto).
  inversion Ho as [|? ? He Hb]; subst. apply T_inv in He as [(H1 & H2 & H3 & H4) Hk].
  assert (Forall T (NElt (mkR (r_start ro) (r_end r))
      (with_range (with_nodes e (e_nodes e ++ line_end le (r_start r) :: line)) (mkR (r_start (e_range e)) (r_end r))) :: before)) as Happ.
  { constructor; [|assumption]. constructor; [repeat split; auto|]. cbn. apply Forall_app. split; [assumption|].
    constructor; [apply T_txt, PT_line|assumption]. }
  destruct (e_type e) as [|[]| | | |] eqn:Et; injection H as <- <-; auto.
Qed.
Lemma T_add_line : forall out line r le p, Forall T out -> Forall T line -> Forall T (add_line out line r le p).
Proof.
  intros out line r le p Ho Hl. unfold add_line.
  destruct (if starts_with_element line then (out, line) else append_to_previous out line r le) as [out' line'] eqn:E.
  assert (Forall T out' /\ Forall T line') as [Ho' Hl'].
  { destruct (starts_with_element line); [injection E as <- <-; auto|]. eapply T_append; eauto. }
  destruct line' as [|n0 line']; [assumption|].
  set (o2 := if existsb is_visible out' then _ else _).
  assert (Forall T o2) as Ho2.
  { subst o2. destruct (existsb is_visible out'); [|assumption]. constructor; [|assumption]. apply T_txt, PT_paragraph. }
  destruct (p && _ && _).
  - constructor; [|assumption]. apply T_elt; [|assumption]. repeat split; constructor.
  - apply Forall_app. split; [now apply Forall_rev|assumption].
Qed.
Lemma T_inline_first : forall r line line', inline_first r line = Some line' -> Forall T line -> Forall T line'.
Proof.
  induction line as [|n line IH]; cbn [inline_first]; intros line' H Hl; [discriminate|].
  inversion Hl as [|? ? Hn Hr]; subst. destruct (is_visible n).
  - destruct n as [r0 e|]; [|discriminate]. destruct (e_type e) eqn:Et; try discriminate. injection H as <-.
    apply T_inv in Hn as [(H1 & H2 & H3 & H4) Hk]. constructor; [|assumption]. constructor; [|assumption].
    repeat split; auto.
  - destruct (inline_first r line) as [l'|] eqn:E; [|discriminate]. injection H as <-. constructor; auto.
Qed.

Definition BlockOk (e : element) : Prop :=
  e_selectors e = [] /\ e_raw e = false /\ e_format_inline e = false /\ (exists dl, e_type e = Standard dl) /\
  Forall T (e_nodes e).

Lemma T_block : forall e sels, BlockOk e -> Forall PS sels -> T (elt_node (with_selectors e sels)).
Proof.
  intros e sels (_ & H1 & H2 & (dl & H3) & H4) Hs. apply T_elt; [|exact H4]. repeat split; auto.
  unfold built_type. cbn. now rewrite H3.
Qed.
Lemma clean_true : forall A (m : M A), FF m -> Clean m (fun _ => True).
Proof. intros A m H. eapply post_impl; [apply ff_grow, H|]. auto. Qed.

Theorem build_all : forall f,
  (forall c p, G (content_items c) -> Clean (build_content slc f c p) (Forall T)) /\
  (forall ls le out p, G (flat_map ln_nodes ls) -> Forall T out -> Clean (build_lines slc f ls le out p) (Forall T)) /\
  (forall ns, G ns -> Clean (build_line slc f ns) AllR) /\
  (forall ns, G ns -> Clean (extend_line slc f ns) AllR) /\
  (forall pr ns sels la, G ns -> Forall PS sels -> Clean (post_child slc f pr ns sels la) AllR) /\
  (forall pr ns sels la, G ns -> Forall PS sels -> Clean (post_selector slc f pr ns sels la) AllR) /\
  (forall r b p, G (content_items (bk_content b)) -> Clean (build_block slc f r b p) BlockOk) /\
  (forall r i, G (in_inner i) -> Clean (build_inline slc f r i) (Forall T)) /\
  (forall r s, G (type_items (ANElement (ASpecialElt s))) -> code_ok (ASpecialElt s) -> Clean (build_special slc f r s) (fun e => T (elt_node e))) /\
  (forall r e, G (type_items (ANElement e)) -> code_ok e -> Clean (build_element slc f r e) (Forall T)).
Proof.
  pose proof ff_comment as Fc. pose proof ff_selector as Fs. pose proof ff_validate as Fv. pose proof (ff_text slc) as Ft.
  pose proof (ff_inline_text slc) as Fi. pose proof (ff_multiline slc) as Fm.
  induction f as [|f IH].
  { repeat split; intros; apply clean_fuel. }
  destruct (build_ff slc f) as (Fbc & Fbl & Fln & Fel & Fpc & Fps & Fbb & Fbi & Fbs & Fbe).
  destruct IH as (Ic & Il & Ibl & Iel & Ipc & Ips & Ibb & Ibi & Ibs & Ibe).
  split; [|split; [|split; [|split; [|split; [|split; [|split; [|split; [|split]]]]]]]].
  - intros c p H. cbn [build_content]. eapply clean_bind; [apply Il; [exact H|constructor]|intros; ff|].
    intros v Hv. apply clean_ret. now apply Forall_rev.
  - intros ls le out p H Ho. cbn [build_lines]. destruct ls as [|l ls]; [now apply clean_ret|].
    cbn [flat_map] in H. apply G_app in H as [H1 H2].
    eapply clean_bind with (Q := Forall T); [|intros; ff|intros; apply Il; auto].
    destruct (ln_nodes l) as [|n ns] eqn:E.
    + apply clean_ret. constructor; [apply T_txt, PT_paragraph|assumption].
    + eapply clean_bind; [apply Ibl; exact H1|intros; ff|]. intros [r line] [_ Hl]. apply clean_ret.
      now apply T_add_line.
  - intros ns H. cbn [build_line]. eapply clean_bind; [apply Iel; exact H|intros; unfold validate_line; ff|]. intros [rest out] HR.
    eapply clean_bind; [apply clean_true; apply Fv|intros; ff|]. intros. now apply clean_ret.
  - intros ns H. cbn [extend_line]. destruct ns as [|[sp [s t n]] rest].
    { apply clean_ret. split; [exact H|constructor]. }
    pose proof (G_cons _ _ H) as Hrest. pose proof (G_kids _ _ _ _ _ H) as Hkids.
    set (spn := match sp with Some r => [exact_space r] | None => [] end).
    assert (Hsp : Forall T spn).
    { subst spn. destruct sp; [|constructor]. constructor; [|constructor]. apply T_txt. eapply PI_space. inversion H; subst. eassumption. }
    assert (Hgen : forall m, Clean m AllR ->
      Clean (let* (rest', out) := m in let* (rest'', out') := extend_line slc f rest' in
            ret (rest'', spn ++ out ++ out')) AllR).
    { intros m Hm. eapply clean_bind; [exact Hm|intros; ff|]. intros [r out] [H1 H2].
      eapply clean_bind; [apply Iel; exact H1|intros; ff|]. intros [r2 out2] [H3 H4].
      apply clean_ret. split; [exact H3|]. cbn [snd].
      apply Forall_app. split; [exact Hsp|]. apply Forall_app. now split. }
    destruct t as [m|t|sl|e].
    + apply Hgen. eapply clean_bind; [eapply all_multiline; inversion H; subst; eassumption|intros; ff|]. intros v Hv. apply clean_ret.
      split; [exact Hrest|]. cbn. auto.
    + apply Hgen. eapply clean_bind; [eapply all_inline_text; inversion H; subst; eassumption|intros; ff|]. intros v Hv. apply clean_ret.
      split; [exact Hrest|]. cbn. auto.
    + apply Hgen. eapply clean_bind; [eapply PI_sel; inversion H; subst; eassumption|intros; ff|]. intros v Hv.
      apply Ips; auto.
    + assert (Hel : Clean (let* out := build_element slc f (mkR s n) e in ret (rest, out)) AllR).
      { eapply clean_bind; [apply Ibe; [exact Hkids|inversion H; subst; eapply PI_code; eassumption]|intros; ff|]. intros v Hv. apply clean_ret. now split. }
      destruct e as [c|b|i|sp']; try (apply Hgen; exact Hel).
      eapply clean_bind; [apply Ipc; auto|intros; ff|]. intros [r out] [H1 H2]. apply clean_ret.
      split; [exact H1|]. cbn. apply Forall_app. now split.
  - intros pr ns sels la H Hs. cbn [post_child].
    assert (Hfall : Clean (let* (rest, children) := build_line slc f ns in
        ret (rest, [elt_node (mkElt match rev children with n :: _ => Doc.combine pr (n_range n) | [] => pr end
             sels (mkR (r_end pr) (r_end match rev children with n :: _ => Doc.combine pr (n_range n) | [] => pr end))
             children (Standard (DLine la)) false false)])) AllR).
    { eapply clean_bind; [apply Ibl; exact H|intros; ff|]. intros [r out] [H1 H2]. apply clean_ret.
      split; [exact H1|]. constructor; [|constructor]. apply T_elt; [|exact H2]. repeat split; auto. }
    destruct ns as [|[sp [s t n]] rest]; [exact Hfall|].
    pose proof (G_cons _ _ H) as Hrest. pose proof (G_kids _ _ _ _ _ H) as Hkids.
    destruct t as [m|t|sl|e]; try exact Hfall.
    + eapply clean_bind; [eapply PI_sel; inversion H; subst; eassumption|intros; ff|]. intros v Hv. apply Ips; [exact Hrest|].
      apply Forall_app. auto.
    + destruct e as [c|b|i|sp']; try exact Hfall.
      * apply Ipc; [exact Hrest|]. apply Forall_app. auto.
      * eapply clean_bind; [apply Ibb; exact Hkids|intros; ff|]. intros e (_ & H1 & H2 & H3 & H4). apply clean_ret.
        split; [exact Hrest|]. constructor; [|constructor]. apply T_elt; [|exact H4]. repeat split; auto.
  - intros pr ns sels la H Hs. cbn [post_selector].
    destruct ns as [|[sp [s t n]] rest]; [apply clean_ret; split; [exact H|constructor]|].
    pose proof (G_cons _ _ H) as Hrest. pose proof (G_kids _ _ _ _ _ H) as Hkids.
    destruct t as [m|t|sl|e]; try (apply clean_err; ff).
    + destruct t; try (apply clean_err; ff).
      eapply clean_bind; [eapply all_comment; inversion H; subst; eassumption|intros; ff|]. intros v Hv.
      eapply clean_bind; [apply Ips; auto|intros; ff|]. intros [r out] [H1 H2]. apply clean_ret.
      split; [exact H1|]. constructor; assumption.
    + destruct e as [c|b|i|sp']; try (apply clean_err; ff).
      * apply Ipc; auto.
      * eapply clean_bind; [apply Ibb; exact Hkids|intros; ff|]. intros e He. apply clean_ret.
        split; [exact Hrest|]. constructor; [|constructor]. now apply T_block.
  - intros r b p H. cbn [build_block].
    eapply clean_bind with (Q := fun _ => True); [apply clean_true; unfold unclosed; ff|intros; ff|]. intros _ _.
    eapply clean_bind; [apply Ic; exact H|intros; ff|]. intros v Hv. apply clean_ret.
    repeat split; [eexists; reflexivity|exact Hv].
  - intros r i H. cbn [build_inline].
    eapply clean_bind with (Q := fun _ => True); [apply clean_true; unfold unclosed; ff|intros; unfold validate_line; ff|]. intros _ _.
    eapply clean_bind; [apply Ibl; exact H|intros; unfold validate_line; ff|]. intros [rest line] [_ Hl].
    eapply clean_bind; [apply clean_true; apply Fv|intros; ff|]. intros. apply clean_ret.
    destruct (inline_first r line) as [l'|] eqn:E.
    + eapply T_inline_first; eauto.
    + constructor; [|constructor]. apply T_elt; [|exact Hl]. repeat split; constructor.
  - intros r s H Hc. cbn [build_special]. destruct s as [k o c cl'|code].
    + eapply clean_bind with (Q := fun _ => True); [apply clean_true; unfold unclosed; ff|intros; ff|]. intros _ _.
      eapply clean_bind; [apply Ic; exact H|intros; ff|]. intros v Hv. apply clean_ret.
      apply T_elt; [|exact Hv]. destruct k; repeat split; constructor.
    + eapply clean_bind; [apply all_text; intros _; exact Hc|intros; ff|]. intros v Hv. apply clean_ret.
      apply T_elt; [|constructor; [exact Hv|constructor]]. repeat split; constructor.
  - intros r e H Hc. cbn [build_element]. destruct e as [c|b|i|sp].
    + apply clean_ret. constructor; [|constructor]. apply T_elt; [|constructor]. repeat split; constructor.
    + eapply clean_bind; [apply Ibb; exact H|intros; ff|]. intros v Hv. apply clean_ret. constructor; [|constructor].
      replace v with (with_selectors v []) by (destruct v, Hv as [E _]; cbn in E; now rewrite E).
      apply T_block; [exact Hv|constructor].
    + apply Ibi. exact H.
    + eapply clean_bind; [apply Ibs; [exact H|exact Hc]|intros; ff|]. intros v Hv. apply clean_ret. auto.
Qed.

Theorem from_ast_items : forall c, Forall PI (content_items c) -> Clean (from_ast slc c) (Forall T).
Proof. intros c H. now apply (proj1 (build_all _)). Qed.
End All.

(** The same for what holds of all texts and of all selectors that occur. *)
Section Sels.
Variable slc : lrange -> str.
Variable PA : a_selector -> Prop.
Variable PS : selector -> Prop.
Variable PT : textlike -> Prop.
Hypothesis PS_empty : forall n, PS (sel_empty n).
Hypothesis PS_built : forall s, PA s -> Clean (build_selector s) PS.
Hypothesis PT_space : forall s, PT (TSpace s).
Hypothesis PT_comment : forall r, PT (TComment (FromSource r)).
Hypothesis PT_plain : forall r, escape_errors (slc r) (r_start r) = [] -> PT (TText (plain_text r)).
Hypothesis PT_interp : forall r, PT (TText (interpolation r)).
Hypothesis PT_code : forall r, PT (TText (code_text r)).
Hypothesis PT_verb : forall b r, PT (TText (verbatim_text b r)).
Hypothesis PT_multi : forall k r, (k = MLEscaped -> escape_errors (slc r) (r_start r) = []) -> PT (TText (multiline_text k r)).

Theorem from_ast_all : forall c, (forall b s e, Occurs (content_items c) (ANode b (ANSelector s) e) -> PA s) ->
  Clean (from_ast slc c) (Forall (T PS PT)).
Proof.
  intros c H.
  apply (from_ast_items slc (fun i => forall b s e, Occurs [i] (ANode b (ANSelector s) e) -> PA s) PS PT); auto.
  - intros sp s t e Hi. apply Forall_forall. intros [sp' n] Hn b s' e' Ho. apply (Hi b s' e').
    eapply occurs_in; [left; reflexivity|]. eapply occurs_incl; [|exact Ho]. now intros x [<-|[]].
  - intros sp b s e Hi. apply PS_built. eapply Hi. eapply OcHere. now left.
  - intros sp b t e _ Ht. destruct t; cbn [text_leaf]; auto.
  - intros sp b [r|bl|i|[|]] n _; cbn [code_ok]; auto.
  - apply Forall_forall. intros i Hi b s e Ho. apply (H b s e). eapply occurs_incl; [|exact Ho]. now intros x [<-|[]].
Qed.
End Sels.

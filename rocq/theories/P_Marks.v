(** * The builder keeps texts and selectors: C28, C41. *)

From Verif Require Import Base Escape Doc Ast Config Errors Build SpecTree SpecBuild P_Base P_Build P_BuildAll P_Selector.

Lemma subseq_refl : forall A (l : list A), Subseq l l.
Proof. induction l; constructor; auto. Qed.
Lemma subseq_nil : forall A (l : list A), Subseq [] l.
Proof. induction l; constructor; auto. Qed.
Lemma subseq_app : forall A (a b c d : list A), Subseq a b -> Subseq c d -> Subseq (a ++ c) (b ++ d).
Proof. intros A a b c d H H'. induction H; cbn; try constructor; auto. Qed.
Lemma subseq_trans : forall A (b c : list A), Subseq b c -> forall a, Subseq a b -> Subseq a c.
Proof.
  intros A b c H. induction H as [|x b c H IH|x b c H IH]; intros a Ha; [exact Ha| |constructor; auto].
  inversion Ha; subst; constructor; auto.
Qed.
Lemma subseq_app_l : forall A (a b c : list A), Subseq a b -> Subseq a (b ++ c).
Proof. intros. rewrite <- (app_nil_r a). apply subseq_app; [assumption|apply subseq_nil]. Qed.

(** ** Where a line stops, in a run without errors *)

Definition chain_item (x : a_item) : Prop := is_selector x \/ is_combinator x \/ is_comment x.
Definition Shape (ns rest : list a_item) : Prop :=
  exists mid i, ns = mid ++ i :: rest /\ Forall chain_item mid /\ is_block i.
Definition LineShape (ns rest : list a_item) : Prop :=
  exists cs c mid i, ns = cs ++ c :: mid ++ i :: rest /\ Forall is_comment cs /\ is_combinator c /\
    Forall chain_item mid /\ is_block i.
Lemma line_shape : forall ns rest, LineShape ns rest -> Shape ns rest.
Proof.
  intros ns rest (cs & c & mid & i & -> & H1 & H2 & H3 & H4). exists (cs ++ c :: mid), i. split; [now rewrite <- app_assoc|].
  split; [|exact H4]. apply Forall_app. split; [|constructor; [right; now left|exact H3]].
  eapply Forall_impl; [|exact H1]. intros x Hx. right. now right.
Qed.
Lemma shape_cons : forall x ns rest, chain_item x -> Shape ns rest -> Shape (x :: ns) rest.
Proof. intros x ns rest Hx (mid & i & -> & H1 & H2). exists (x :: mid), i. auto. Qed.
Lemma line_shape_cons : forall x ns rest, is_comment x -> LineShape ns rest -> LineShape (x :: ns) rest.
Proof. intros x ns rest Hx (cs & c & mid & i & -> & H). exists (x :: cs), c, mid, i. split; [reflexivity|]. intuition. Qed.
Lemma line_shape_nil : forall rest, ~ LineShape [] rest.
Proof. intros rest ([|? ?] & c & mid & i & H & _); discriminate. Qed.

Definition alone (n : node) : bool := stands_alone (item_type_of n).
Definition Valid (ns : list node) : Prop :=
  forall a n b m c, ns = a ++ n :: b ++ m :: c -> is_visible n = true -> is_visible m = true -> alone m = false.
Definition std (ns : list node) : Prop := exists r e dl, In (NElt r e) ns /\ e_type e = Standard dl.
Lemma std_in : forall n e dl ns, n = elt_node e -> e_type e = Standard dl -> In n ns -> std ns.
Proof. intros n e dl ns -> H Hi. exists (e_range e), e, dl. auto. Qed.
Lemma std_app : forall a b, std b -> std (a ++ b).
Proof. intros a b (r & e & dl & H & E). exists r, e, dl. split; [apply in_or_app; now right|exact E]. Qed.

Lemma validate_valid : forall ns last, Clean (validate_from last ns)
  (fun _ => Valid ns /\ (last <> None -> forall m, In m ns -> is_visible m = true -> alone m = false)).
Proof.
  induction ns as [|n ns IH]; intros last.
  { apply clean_ret. split; [|contradiction]. intros [|? ?] x b m c E; discriminate. }
  assert (Hskip : is_visible n = false -> validate_from last (n :: ns) = validate_from last ns).
  { cbn [validate_from]. destruct n as [r e|r [t|t|t]]; [discriminate|discriminate|reflexivity|reflexivity]. }
  destruct (is_visible n) eqn:Hv.
  - assert (Hstep : validate_from last (n :: ns) =
      (match last with
       | None => ret tt
       | Some (lt, lr) => if stands_alone lt then misplaced lr (MustNotPrecede lt [item_type_of n])
                          else if stands_alone (item_type_of n) then misplaced (n_range n) (MustNotFollow [lt] (item_type_of n))
                          else ret tt
       end) ;* validate_from (Some (item_type_of n, n_range n)) ns).
    { clear -Hv. cbn [validate_from]. destruct n as [r e|r [t|t|t]]; try discriminate; [|reflexivity].
      cbn [item_type_of]. destruct (e_type e); reflexivity. }
    rewrite Hstep. clear Hstep Hskip.
    eapply clean_bind with (Q := fun _ => last <> None -> alone n = false).
    + destruct last as [[lt lr]|]; [|apply clean_ret; congruence]. unfold misplaced.
      destruct (stands_alone lt); [apply clean_syntax; discriminate|].
      fold (alone n). destruct (alone n) eqn:E; [apply clean_syntax; discriminate|apply clean_ret; auto].
    + intros. apply ff_validate.
    + intros _ Hl. eapply clean_impl; [apply IH|]. intros _ [H1 H2].
      assert (forall m, In m ns -> is_visible m = true -> alone m = false) as H3 by (apply H2; discriminate).
      split.
      * intros a x b m c E Hx Hm. destruct a as [|y a]; injection E as -> E.
        -- apply H3; [|exact Hm]. rewrite E. apply in_or_app. right. now left.
        -- apply (H1 a x b m c); auto.
      * intros Hn m [<-|Hm] Hvm; auto.
  - rewrite Hskip by reflexivity. eapply clean_impl; [apply IH|]. intros _ [H1 H2]. split.
    + intros a x b m c E Hx Hm. destruct a as [|y a]; injection E as -> E; [congruence|]. apply (H1 a x b m c); auto.
    + intros Hn m [<-|Hm] Hvm; [congruence|auto].
Qed.
Lemma valid_app : forall a b, Valid (a ++ b) -> Valid b.
Proof. intros a b H a' n b' m c -> Hn Hm. apply (H (a ++ a') n b' m c); auto. now rewrite <- app_assoc. Qed.
Lemma valid_std : forall a b, Valid (a ++ b) -> (exists n, In n a /\ is_visible n = true) -> ~ std b.
Proof.
  intros a b H (n & Hn & Hv) (r & e & dl & Hi & Ht).
  apply in_split in Hn as (a1 & a2 & ->). apply in_split in Hi as (b1 & b2 & ->).
  assert (alone (NElt r e) = false) as Ha.
  { apply (H a1 n (a2 ++ b1) (NElt r e) b2); auto. now rewrite <- !app_assoc. }
  unfold alone in Ha. cbn in Ha. rewrite Ht in Ha. discriminate.
Qed.

Section Stop.
Variable slc : lrange -> str.

Definition vis (ns : list node) : Prop := exists n, In n ns /\ is_visible n = true.
Lemma inline_first_vis : forall r line line', inline_first r line = Some line' -> vis line'.
Proof.
  induction line as [|n line IH]; cbn [inline_first]; intros line' H; [discriminate|]. destruct (is_visible n).
  - destruct n as [r0 e|]; [|discriminate]. destruct (e_type e); try discriminate. injection H as <-.
    eexists. split; [now left|reflexivity].
  - destruct (inline_first r line) as [l'|]; [|discriminate]. injection H as <-.
    destruct (IH l' eq_refl) as (m & Hm & Hv). exists m. split; [now right|exact Hv].
Qed.
Lemma element_vis : forall f r e, Clean (build_element slc f r e) vis.
Proof.
  intros [|f] r e; [apply clean_fuel|]. destruct (build_ff slc f) as (Fbc & Fbl & Fln & Fel & Fpc & Fps & Fbb & Fbi & Fbs & Fbe).
  cbn [build_element].
  assert (HE : forall x, vis [elt_node x]) by (intros x; eexists; split; [now left|reflexivity]).
  destruct e as [c|b|i|sp].
  - apply clean_ret, HE.
  - eapply clean_bind; [apply clean_true, Fbb|intros; ff|]. intros v _. apply clean_ret, HE.
  - destruct f as [|f]; [apply clean_fuel|]. cbn [build_inline].
    destruct (build_ff slc f) as (_ & _ & Gln & _).
    eapply clean_bind; [apply clean_true; unfold unclosed; ff|intros; ff|]; [apply ff_validate|]. intros _ _.
    eapply clean_bind; [apply clean_true, Gln|intros [? ?]; ff|]; [apply ff_validate|]. intros [rest line] _.
    eapply clean_bind; [apply clean_true, ff_validate|intros; ff|]. intros _ _. apply clean_ret.
    destruct (inline_first r line) as [l'|] eqn:E; [eapply inline_first_vis; exact E|apply HE].
  - eapply clean_bind; [apply clean_true, Fbs|intros; ff|]. intros v _. apply clean_ret, HE.
Qed.
Definition ctext (t : a_text) : Prop := match t with AComment _ => True | _ => False end.
Lemma inline_text_vis : forall t, ~ ctext t -> Clean (build_inline_text slc t) (fun n => is_visible n = true).
Proof.
  intros [r|v|c|r] H; cbn [build_inline_text]; unfold build_text_node, escapable_slice.
  - eapply clean_bind; [apply clean_true; ff|intros; ff|]. intros v _. now apply clean_ret.
  - apply clean_ret. unfold build_verbatim. now destruct (av_tail v).
  - now destruct H.
  - eapply clean_bind; [apply clean_true; ff|intros; ff|]. intros v _. now apply clean_ret.
Qed.
Lemma multiline_vis : forall r m, Clean (build_multiline slc r m) (fun n => is_visible n = true).
Proof.
  intros r m. unfold build_multiline. eapply clean_bind; [apply clean_true, ff_text|intros; ff|]. intros v _. now apply clean_ret.
Qed.

Definition StopR (ns : list a_item) (v : list a_item * list node) : Prop :=
  (fst v = [] \/ Shape ns (fst v)) /\ (fst v = [] \/ std (snd v)).

Theorem build_stop : forall f,
  (forall ns, Clean (build_line slc f ns) (fun v => fst v = [] \/ LineShape ns (fst v))) /\
  (forall ns, Clean (extend_line slc f ns) (fun v => Valid (snd v) -> fst v = [] \/ LineShape ns (fst v) /\ std (snd v))) /\
  (forall pr ns sels la, Clean (post_child slc f pr ns sels la) (StopR ns)) /\
  (forall pr ns sels la, Clean (post_selector slc f pr ns sels la) (StopR ns)).
Proof.
  pose proof ff_comment as Fc. pose proof ff_selector as Fs. pose proof ff_validate as Fv. pose proof (ff_text slc) as Ft.
  pose proof (ff_inline_text slc) as Fi. pose proof (ff_multiline slc) as Fm.
  induction f as [|f IH].
  { repeat split; intros; apply clean_fuel. }
  destruct (build_ff slc f) as (Fbc & Fbl & Fln & Fel & Fpc & Fps & Fbb & Fbi & Fbs & Fbe).
  destruct IH as (Ibl & Iel & Ipc & Ips).
  split; [|split; [|split]].
  - intros ns. cbn [build_line]. eapply clean_bind; [apply Iel|intros; unfold validate_line; ff|]. intros [rest out] H.
    eapply clean_bind; [apply validate_valid|intros; ff|]. intros _ [HV _]. apply clean_ret. cbn [fst snd] in *.
    destruct (H HV) as [->|[H1 _]]; auto.
  - intros ns. cbn [extend_line]. destruct ns as [|[sp [s t n]] rest].
    { apply clean_ret. now left. }
    set (spn := match sp with Some r => [exact_space r] | None => [] end).
    assert (Hgen : forall m, FF m -> Clean m (fun v => vis (snd v) \/ fst v = []) ->
      Clean (let* (rest', out) := m in let* (rest'', out') := extend_line slc f rest' in
            ret (rest'', spn ++ out ++ out')) (fun v => Valid (snd v) -> fst v = [] \/ LineShape ((sp, ANode s t n) :: rest) (fst v) /\ std (snd v))).
    { intros m _ Hm. eapply clean_bind; [exact Hm|intros; ff|]. intros [r out] H1. cbn [fst snd] in H1.
      eapply clean_bind; [apply Iel|intros; ff|]. intros [r2 out2] H2. apply clean_ret. cbn [fst snd] in *. intros HV.
      apply valid_app in HV. destruct (H2 (valid_app _ _ HV)) as [->|[H3 H4]]; [now left|]. exfalso.
      destruct H1 as [H1| ->]; [now apply (valid_std _ _ HV)|now apply line_shape_nil in H3]. }
    destruct t as [m|t|sl|e].
    + apply Hgen; [ff|]. eapply clean_bind; [apply multiline_vis|intros; ff|]. intros v Hv. apply clean_ret. left.
      exists v. split; [now left|exact Hv].
    + assert (ctext t \/ ~ ctext t) as [Ht|Ht] by (destruct t; cbn; auto).
      * destruct t as [| |c|]; try contradiction. eapply clean_bind with (Q := fun v => fst v = rest); [|intros; ff|].
        { eapply clean_bind; [apply clean_true, Fi|intros; ff|]. intros v _. now apply clean_ret. }
        intros [r out] E. cbn [fst] in E. subst r. eapply clean_bind; [apply Iel|intros; ff|]. intros [r2 out2] H2.
        apply clean_ret. cbn [fst snd] in *. intros HV. apply valid_app in HV. destruct (H2 (valid_app _ _ HV)) as [->|[H3 H4]]; [now left|].
        right. split; [apply line_shape_cons; [exact I|exact H3]|]. now apply std_app, std_app.
      * apply Hgen; [ff|]. eapply clean_bind; [apply inline_text_vis; exact Ht|intros; ff|]. intros v Hv. apply clean_ret. left.
        exists v. split; [now left|exact Hv].
    + apply Hgen; [ff|]. eapply clean_bind; [apply clean_true, Fs|intros; ff|]. intros v _.
      eapply clean_impl; [apply Ips|]. intros w [_ [H|H]]; [now right|left].
      destruct H as (r & e & dl & Hi & _). exists (NElt r e). auto.
    + assert (Hel : Clean (let* out := build_element slc f (mkR s n) e in ret (rest, out)) (fun v => vis (snd v) \/ fst v = [])).
      { eapply clean_bind; [apply element_vis|intros; ff|]. intros v Hv. apply clean_ret. now left. }
      destruct e as [c|b|i|sp']; try (apply Hgen; [ff|exact Hel]).
      eapply clean_bind; [apply Ipc|intros; ff|]. intros [r out] [H1 H2]. apply clean_ret. cbn [fst snd] in *. intros _.
      destruct H1 as [->|(mid & i & -> & H3 & H4)]; [now left|]. destruct H2 as [->|H2]; [now left|]. right. split.
      * exists [], (sp, ANode s (ANElement (ALineElt c)) n), mid, i. repeat split; auto.
      * now apply std_app.
  - intros pr ns sels la. cbn [post_child].
    assert (Hfall : Clean (let* (rest, children) := build_line slc f ns in
        ret (rest, [elt_node (mkElt match rev children with n :: _ => Doc.combine pr (n_range n) | [] => pr end
             sels (mkR (r_end pr) (r_end match rev children with n :: _ => Doc.combine pr (n_range n) | [] => pr end))
             children (Standard (DLine la)) false false)])) (StopR ns)).
    { eapply clean_bind; [apply Ibl|intros; ff|]. intros [r out] H1. apply clean_ret. split; cbn [fst snd] in *.
      - destruct H1; [now left|right; now apply line_shape].
      - right. eapply std_in; [reflexivity| |now left]. reflexivity. }
    destruct ns as [|[sp [s t n]] rest]; [exact Hfall|].
    destruct t as [m|t|sl|e]; try exact Hfall.
    + eapply clean_bind; [apply clean_true, Fs|intros; ff|]. intros v _. eapply clean_impl; [apply Ips|].
      intros w [[H1|H1] H2]; (split; [|exact H2]); [now left|right]. apply shape_cons; [now left|exact H1].
    + destruct e as [c|b|i|sp']; try exact Hfall.
      * eapply clean_impl; [apply Ipc|]. intros w [[H1|H1] H2]; (split; [|exact H2]); [now left|right].
        apply shape_cons; [right; now left|exact H1].
      * eapply clean_bind; [apply clean_true, Fbb|intros; ff|]. intros e _. apply clean_ret. split; cbn [fst snd].
        -- right. exists [], (sp, ANode s (ANElement (ABlockElt b)) n). repeat split; auto.
        -- right. eapply std_in; [reflexivity| |now left]. reflexivity.
  - intros pr ns sels la. cbn [post_selector].
    destruct ns as [|[sp [s t n]] rest]; [apply clean_ret; split; now left|].
    destruct t as [m|t|sl|e]; try (apply clean_err; ff).
    + destruct t; try (apply clean_err; ff).
      eapply clean_bind; [apply clean_true, Fc|intros; ff|]. intros v _.
      eapply clean_bind; [apply Ips|intros; ff|]. intros [r out] [H1 H2]. apply clean_ret. cbn [fst snd] in *. split; cbn [fst snd].
      * destruct H1; [now left|right]. apply shape_cons; [right; now right|assumption].
      * destruct H2 as [H2|H2]; [now left|right]. now apply (std_app [v]).
    + destruct e as [c|b|i|sp']; try (apply clean_err; ff).
      * eapply clean_impl; [apply Ipc|]. intros w [[H1|H1] H2]; (split; [|exact H2]); [now left|right].
        apply shape_cons; [right; now left|exact H1].
      * assert (Clean (build_block slc f (mkR (r_start pr) n) b true) (fun e => exists dl, e_type e = Standard dl)) as HB.
        { destruct f as [|f]; [apply clean_fuel|]. cbn [build_block]. destruct (build_ff slc f) as (Gc & _).
          eapply clean_bind; [apply clean_true; unfold unclosed; ff|intros; ff|]. intros _ _.
          eapply clean_bind; [apply clean_true, Gc|intros; ff|]. intros v _. apply clean_ret. eexists. reflexivity. }
        eapply clean_bind; [exact HB|intros; ff|]. intros e (dl & He). apply clean_ret. split; cbn [fst snd].
        -- right. exists [], (sp, ANode s (ANElement (ABlockElt b)) n). repeat split; auto.
        -- right. eapply std_in; [reflexivity| |now left]. exact He.
Qed.
End Stop.

Section Gen.
Variable slc : lrange -> str.
Context {X : Type}.
Variable selA : a_selector -> list X.
Variable selD : selector -> list X.
Variable txt : lrange -> textlike -> list X.
Hypothesis sel_none : forall n, selD (sel_empty n) = [].
Hypothesis txt_space : forall r s, txt r (TSpace s) = [].
Hypothesis swap : forall sels r c, flat_map selD sels ++ txt r (TComment c) = txt r (TComment c) ++ flat_map selD sels.

Notation dm := (doc_marks selD txt).
Notation am := (node_marks selA txt).
Notation ams := (items_marks selA txt).
Notation cms := (content_marks selA txt).
Notation sm := (flat_map selD).
Definition dms (ns : list node) : list X := flat_map dm ns.
Definition lms (ls : list a_line) : list X := flat_map (fun l => ams (ln_nodes l)) ls.

Lemma dms_app : forall a b, dms (a ++ b) = dms a ++ dms b.
Proof. intros. apply flat_map_app. Qed.
Lemma dms_space : forall sp, dms (match sp with Some r => [exact_space r] | None => [] end) = [].
Proof. intros [r|]; [|reflexivity]. cbn. now rewrite txt_space. Qed.
Lemma dm_elt : forall r e, dm (NElt r e) = sm (e_selectors e) ++ dms (e_nodes e).
Proof. reflexivity. Qed.


Lemma append_marks : forall out line r le out' line', append_to_previous out line r le = (out', line') ->
  dms (rev out') ++ dms line' = dms (rev out) ++ dms line.
Proof.
  intros out line r le out' line' H. unfold append_to_previous in H.
  destruct out as [|[ro e|] before]; try (injection H as <- <-; auto).
  assert (dms (rev (NElt (mkR (r_start ro) (r_end r))
      (with_range (with_nodes e (e_nodes e ++ line_end le (r_start r) :: line)) (mkR (r_start (e_range e)) (r_end r))) :: before)) ++ dms []
      = dms (rev (NElt ro e :: before)) ++ dms line) as Happ.
  { cbn [rev]. rewrite !dms_app, <- !app_assoc. f_equal. unfold dms at 1 2 3. cbn [flat_map]. rewrite !dm_elt, !app_nil_r.
    cbn [e_selectors e_nodes with_range with_nodes with_content]. rewrite dms_app, app_assoc. f_equal.
    unfold dms at 1. cbn [flat_map]. change (dm (line_end le (r_start r))) with (txt (mkR le (r_start r)) (TSpace LineEnd)). now rewrite txt_space. }
  destruct (e_type e) as [|[]| | | |]; injection H as <- <-; auto.
Qed.
Lemma add_line_marks : forall out line r le p, dms (rev (add_line out line r le p)) = dms (rev out) ++ dms line.
Proof.
  intros out line r le p. unfold add_line.
  destruct (if starts_with_element line then (out, line) else append_to_previous out line r le) as [out' line'] eqn:E.
  assert (dms (rev out') ++ dms line' = dms (rev out) ++ dms line) as <-.
  { destruct (starts_with_element line); [injection E as <- <-; auto|]. eapply append_marks; eauto. }
  destruct line' as [|n0 l']; [now rewrite app_nil_r|]. set (line' := n0 :: l').
  set (o2 := if existsb is_visible out' then _ else _).
  assert (dms (rev o2) = dms (rev out')) as <-.
  { subst o2. destruct (existsb is_visible out'); [|reflexivity]. cbn [rev]. rewrite dms_app. cbn. rewrite txt_space.
    now rewrite !app_nil_r. }
  destruct (p && _ && _).
  - cbn [rev]. rewrite dms_app. f_equal. unfold dms at 1. cbn [flat_map elt_node with_content new_elt]. now rewrite app_nil_r.
  - rewrite rev_app_distr, rev_involutive, dms_app. reflexivity.
Qed.
Lemma inline_first_marks : forall r line line', inline_first r line = Some line' -> dms line' = dms line.
Proof.
  induction line as [|n line IH]; cbn [inline_first]; intros line' H; [discriminate|].
  destruct (is_visible n).
  - destruct n as [r0 e|]; [|discriminate]. destruct (e_type e); try discriminate. injection H as <-. reflexivity.
  - destruct (inline_first r line) as [l'|] eqn:E; [|discriminate]. injection H as <-. unfold dms. cbn [flat_map].
    f_equal. now apply IH.
Qed.

(** ** Nothing is added, doubled or reordered, whatever the errors *)

Hypothesis sel_sub : forall s, Post false (build_selector s) (fun _ v => Subseq (selD v) (selA s)).
Definition Sub {A} (m : M A) (Q : A -> Prop) : Prop := Post false m (fun _ v => Q v).
Lemma sub_bind : forall A B (m : M A) (f : A -> M B) Q Q', Sub m Q -> (forall v, Q v -> Sub (f v) Q') -> Sub (bind m f) Q'.
Proof. intros A B m f Q Q' Hm H. eapply post_bind; [exact Hm|]. intros d v Hv. exact (H v Hv). Qed.
Lemma sub_ret : forall A (v : A) (Q : A -> Prop), Q v -> Sub (ret v) Q.
Proof. intros. now apply post_ret. Qed.
Lemma sub_any : forall A (m : M A), FF m -> Sub m (fun _ => True).
Proof. intros. now apply ff_grow. Qed.
Lemma sub_syntax : forall A l (m : M A) Q, Sub m Q -> Sub (syntax l ;* m) Q.
Proof. intros A l m Q H. eapply sub_bind with (Q := fun _ => True); [now apply post_syntax|]. auto. Qed.

Lemma sub_text : forall r u eo raw ml, Sub (build_text_node slc r u eo raw ml)
  (fun n => n = NTxt r (TText (mkText (FromSource r) ml u eo raw))).
Proof.
  intros. unfold build_text_node, escapable_slice. eapply sub_bind with (Q := fun v => v = FromSource r).
  - eapply sub_bind; [apply sub_any; ff|]. intros. now apply sub_ret.
  - intros v ->. now apply sub_ret.
Qed.
Lemma sub_comment : forall c, Sub (build_comment c) (fun n => dm n = txt (mkR (ac_start c) (ac_end c)) (TComment (FromSource (ac_inner c)))).
Proof.
  intros c. unfold build_comment, unclosed. eapply sub_bind; [apply sub_any; ff|]. intros. now apply sub_ret.
Qed.
Lemma sub_inline_text : forall t, Sub (build_inline_text slc t) (fun n => dm n = txt (text_range t) (text_leaf t)).
Proof.
  intros [r|v|c|r]; cbn [build_inline_text text_leaf].
  - eapply post_impl; [apply sub_text|]. now intros d v ->.
  - apply sub_ret. unfold build_verbatim. destruct v as [o [raw|] [r|r|r]]; reflexivity.
  - apply sub_comment.
  - eapply post_impl; [apply sub_text|]. now intros d v ->.
Qed.
Lemma sub_multiline : forall r m, Sub (build_multiline slc r m)
  (fun n => dm n = txt (mkR (am_start m) (am_end m)) (TText (multiline_text (am_kind m) (mkR (am_start m) (am_end m))))).
Proof.
  intros r m. unfold build_multiline. eapply sub_bind; [apply sub_text|]. intros v ->. apply sub_ret.
  unfold elt_node. rewrite dm_elt. cbn. now rewrite app_nil_r.
Qed.

Definition SubR (pre : list X) (ns : list a_item) (r : list a_item * list node) : Prop :=
  Subseq (dms (snd r) ++ ams (fst r)) (pre ++ ams ns).

Theorem build_sub : forall f,
  (forall c p, Sub (build_content slc f c p) (fun v => Subseq (dms v) (cms c))) /\
  (forall ls le out p, Sub (build_lines slc f ls le out p) (fun v => Subseq (dms (rev v)) (dms (rev out) ++ lms ls))) /\
  (forall ns, Sub (build_line slc f ns) (SubR [] ns)) /\
  (forall ns, Sub (extend_line slc f ns) (SubR [] ns)) /\
  (forall pr ns sels la, Sub (post_child slc f pr ns sels la) (SubR (sm sels) ns)) /\
  (forall pr ns sels la, Sub (post_selector slc f pr ns sels la) (SubR (sm sels) ns)) /\
  (forall r b p, Sub (build_block slc f r b p) (fun e => e_selectors e = [] /\ Subseq (dms (e_nodes e)) (cms (bk_content b)))) /\
  (forall r i, Sub (build_inline slc f r i) (fun v => Subseq (dms v) (ams (in_inner i)))) /\
  (forall r s, Sub (build_special slc f r s) (fun e => Subseq (dm (elt_node e)) (am (ANode 0 (ANElement (ASpecialElt s)) 0)))) /\
  (forall r e, Sub (build_element slc f r e) (fun v => Subseq (dms v) (am (ANode 0 (ANElement e) 0)))).
Proof.
  pose proof ff_validate as Fv.
  induction f as [|f IH].
  { repeat split; intros; apply post_fuel. }
  destruct IH as (Ic & Il & Ibl & Iel & Ipc & Ips & Ibb & Ibi & Ibs & Ibe).
  split; [|split; [|split; [|split; [|split; [|split; [|split; [|split; [|split]]]]]]]].
  - intros c p. cbn [build_content]. eapply sub_bind; [apply Il|]. intros v Hv. now apply sub_ret.
  - intros ls le out p. cbn [build_lines]. destruct ls as [|l ls].
    { apply sub_ret. cbn. rewrite app_nil_r. apply subseq_refl. }
    eapply sub_bind with (Q := fun v => Subseq (dms (rev v)) (dms (rev out) ++ ams (ln_nodes l))).
    + destruct (ln_nodes l) as [|n ns] eqn:E.
      * apply sub_ret. cbn [rev]. rewrite dms_app. cbn. rewrite txt_space, !app_nil_r. apply subseq_refl.
      * eapply sub_bind; [apply Ibl|]. intros [r line] H. apply sub_ret. rewrite add_line_marks.
        apply subseq_app; [apply subseq_refl|]. unfold SubR in H. cbn [fst snd app] in H. cbn [app] in H.
        eapply subseq_trans; [exact H|]. apply subseq_app_l, subseq_refl.
    + intros v Hv. eapply post_impl; [apply Il|]. intros d w Hw. cbn beta in *. eapply subseq_trans; [|exact Hw].
      unfold lms. cbn [flat_map]. rewrite app_assoc. apply subseq_app; [exact Hv|apply subseq_refl].
  - intros ns. cbn [build_line]. eapply sub_bind; [apply Iel|]. intros [rest out] H.
    eapply sub_bind; [apply sub_any; apply Fv|]. intros _ _. now apply sub_ret.
  - intros ns. cbn [extend_line]. destruct ns as [|[sp [s t n]] rest].
    { apply sub_ret. constructor. }
    set (spn := match sp with Some r => [exact_space r] | None => [] end).
    assert (Hsp : dms spn = []) by apply dms_space.
    assert (Hgen : forall m, Sub m (fun r => Subseq (dms (snd r) ++ ams (fst r)) (am (ANode s t n) ++ ams rest)) ->
      Sub (let* (rest', out) := m in let* (rest'', out') := extend_line slc f rest' in
            ret (rest'', spn ++ out ++ out')) (SubR [] ((sp, ANode s t n) :: rest))).
    { intros m Hm. eapply sub_bind; [exact Hm|]. intros [r out] H1.
      eapply sub_bind; [apply Iel|]. intros [r2 out2] H2. apply sub_ret. unfold SubR in *. cbn [fst snd] in *.
      rewrite !dms_app, Hsp. cbn [app] in *. eapply subseq_trans; [exact H1|]. rewrite <- app_assoc.
      apply subseq_app; [apply subseq_refl|exact H2]. }
    destruct t as [m|t|sl|e].
    + apply Hgen. eapply sub_bind; [apply sub_multiline|]. intros v Hv. apply sub_ret. cbn [fst snd].
      unfold dms. cbn [flat_map]. rewrite Hv, app_nil_r. apply subseq_refl.
    + apply Hgen. eapply sub_bind; [apply sub_inline_text|]. intros v Hv. apply sub_ret. cbn [fst snd].
      unfold dms. cbn [flat_map]. rewrite Hv, app_nil_r. apply subseq_refl.
    + apply Hgen. eapply sub_bind; [apply sel_sub|]. intros v Hv. eapply post_impl; [apply Ips|]. intros d w Hw.
      cbn beta in *. eapply subseq_trans; [|exact Hw]. cbn [flat_map]. rewrite app_nil_r.
      apply subseq_app; [exact Hv|apply subseq_refl].
    + assert (Hel : Sub (let* out := build_element slc f (mkR s n) e in ret (rest, out))
        (fun r => Subseq (dms (snd r) ++ ams (fst r)) (am (ANode s (ANElement e) n) ++ ams rest))).
      { eapply sub_bind; [apply Ibe|]. intros v Hv. apply sub_ret. cbn [fst snd]. apply subseq_app; [exact Hv|apply subseq_refl]. }
      destruct e as [c|b|i|sp']; try (apply Hgen; exact Hel).
      eapply sub_bind; [apply Ipc|]. intros [r out] H1. apply sub_ret. unfold SubR in *. cbn [fst snd] in *.
      rewrite dms_app, Hsp. cbn [app flat_map] in *. rewrite sel_none in H1. exact H1.
  - intros pr ns sels la. cbn [post_child].
    assert (Hfall : Sub (let* (rest, children) := build_line slc f ns in
        ret (rest, [elt_node (mkElt match rev children with n :: _ => Doc.combine pr (n_range n) | [] => pr end
             sels (mkR (r_end pr) (r_end match rev children with n :: _ => Doc.combine pr (n_range n) | [] => pr end))
             children (Standard (DLine la)) false false)])) (SubR (sm sels) ns)).
    { eapply sub_bind; [apply Ibl|]. intros [r out] H1. apply sub_ret. unfold SubR in *. cbn [fst snd app] in *.
      unfold dms at 1. cbn [flat_map]. unfold elt_node. rewrite dm_elt, app_nil_r. cbn [e_selectors e_nodes].
      rewrite <- app_assoc. apply subseq_app; [apply subseq_refl|exact H1]. }
    destruct ns as [|[sp [s t n]] rest]; [exact Hfall|].
    destruct t as [m|t|sl|e]; try exact Hfall.
    + eapply sub_bind; [apply sel_sub|]. intros v Hv. eapply post_impl; [apply Ips|]. intros d w Hw. unfold SubR in *.
      eapply subseq_trans; [|exact Hw]. rewrite flat_map_app, <- app_assoc. apply subseq_app; [apply subseq_refl|].
      cbn [flat_map]. rewrite app_nil_r. apply subseq_app; [exact Hv|apply subseq_refl].
    + destruct e as [c|b|i|sp']; try exact Hfall.
      * eapply post_impl; [apply Ipc|]. intros d w Hw. unfold SubR in *. rewrite flat_map_app in Hw. cbn [flat_map] in Hw.
        rewrite sel_none in Hw. cbn [app] in Hw. rewrite app_nil_r in Hw. exact Hw.
      * eapply sub_bind; [apply Ibb|]. intros e [H1 H2]. apply sub_ret. unfold SubR. cbn [fst snd].
        unfold dms at 1. cbn [flat_map]. unfold elt_node. rewrite dm_elt, app_nil_r. cbn [e_selectors e_nodes with_type with_selectors].
        rewrite <- app_assoc. apply subseq_app; [apply subseq_refl|]. apply subseq_app; [exact H2|apply subseq_refl].
  - intros pr ns sels la. cbn [post_selector].
    assert (Hnone : forall l, SubR (sm sels) l (l, [])).
    { intros l. unfold SubR. cbn. apply (subseq_app _ [] (sm sels)); [apply subseq_nil|apply subseq_refl]. }
    destruct ns as [|[sp [s t n]] rest]; [apply sub_ret; apply Hnone|].
    destruct t as [m|t|sl|e]; try (apply sub_syntax, sub_ret; apply Hnone).
    + destruct t; try (apply sub_syntax, sub_ret; apply Hnone).
      eapply sub_bind; [apply sub_comment|]. intros v Hv.
      eapply sub_bind; [apply Ips|]. intros [r out] H1. apply sub_ret. unfold SubR in *. cbn [fst snd] in *.
      unfold dms at 1. cbn [flat_map]. rewrite Hv. fold (dms out).
      assert (ams ((sp, ANode s (ANText (AComment c)) n) :: rest) = txt (mkR (ac_start c) (ac_end c)) (TComment (FromSource (ac_inner c))) ++ ams rest) as -> by reflexivity.
      rewrite (app_assoc (sm sels)), swap, <- !app_assoc. apply subseq_app; [apply subseq_refl|exact H1].
    + destruct e as [c|b|i|sp']; try (apply sub_syntax, sub_ret; apply Hnone).
      * eapply post_impl; [apply Ipc|]. intros d w Hw. exact Hw.
      * eapply sub_bind; [apply Ibb|]. intros e [H1 H2]. apply sub_ret. unfold SubR. cbn [fst snd].
        unfold dms at 1. cbn [flat_map]. unfold elt_node. rewrite dm_elt, app_nil_r. cbn [e_selectors e_nodes with_type with_selectors].
        rewrite <- app_assoc. apply subseq_app; [apply subseq_refl|]. apply subseq_app; [exact H2|apply subseq_refl].
  - intros r b p. cbn [build_block]. eapply sub_bind; [apply sub_any; unfold unclosed; ff|]. intros _ _.
    eapply sub_bind; [apply Ic|]. intros v Hv. apply sub_ret. split; [reflexivity|exact Hv].
  - intros r i. cbn [build_inline]. eapply sub_bind; [apply sub_any; unfold unclosed; ff|]. intros _ _.
    eapply sub_bind; [apply Ibl|]. intros [rest line] H.
    eapply sub_bind; [apply sub_any; apply Fv|]. intros _ _. apply sub_ret.
    assert (Subseq (dms line) (ams (in_inner i))) as HL.
    { unfold SubR in H. cbn [fst snd app] in H. eapply subseq_trans; [exact H|]. apply subseq_app_l, subseq_refl. }
    destruct (inline_first r line) as [l'|] eqn:E.
    + now rewrite (inline_first_marks _ _ _ E).
    + unfold dms at 1. cbn [flat_map]. unfold elt_node. rewrite dm_elt, app_nil_r. exact HL.
  - intros r s. cbn [build_special]. destruct s as [k o c cl'|code].
    + eapply sub_bind; [apply sub_any; unfold unclosed; ff|]. intros _ _.
      eapply sub_bind; [apply Ic|]. intros v Hv. apply sub_ret. exact Hv.
    + eapply sub_bind; [apply sub_text|]. intros v ->. apply sub_ret. unfold elt_node. rewrite dm_elt. cbn.
      rewrite app_nil_r. apply subseq_refl.
  - intros r e. cbn [build_element]. destruct e as [c|b|i|sp].
    + apply sub_ret. constructor.
    + eapply sub_bind; [apply Ibb|]. intros v [H1 H2]. apply sub_ret. unfold dms at 1. cbn [flat_map]. unfold elt_node.
      rewrite dm_elt, app_nil_r, H1. exact H2.
    + apply Ibi.
    + eapply sub_bind; [apply Ibs|]. intros v Hv. apply sub_ret. unfold dms. cbn [flat_map]. rewrite app_nil_r. exact Hv.
Qed.
Theorem from_ast_sub : forall c, Sub (from_ast slc c) (fun v => Subseq (dms v) (cms c)).
Proof. intros c. apply (proj1 (build_sub _)). Qed.

(** ** Nothing is lost in a run without errors *)

Hypothesis sel_eq : forall s, Clean (build_selector s) (fun v => selD v = selA s).
(** A selector at the end of a line: none there, or not counted. *)
Definition NT (l : list a_item) : Prop := (forall s, selA s = []) \/ selectors_used l.
Definition LP (l : list a_item) : Prop := tidy_line l /\ NT l.
Definition KidsP (l : list a_item) : Prop := forall s t e, Occurs l (ANode s t e) -> Forall LP (lines_of t).

Lemma NT_app : forall a b, NT (a ++ b) -> NT b.
Proof.
  intros a b [H|H]; [now left|right]. intros x i cs -> Hi. apply (H (a ++ x) i cs); [now rewrite <- app_assoc|exact Hi].
Qed.
Lemma NT_sel : forall sp b s e l, NT ((sp, ANode b (ANSelector s) e) :: l) -> Forall is_comment l -> selA s = [].
Proof. intros sp b s e l [H|H] Hl; [apply H|]. exfalso. now apply (H [] _ l eq_refl I). Qed.
Lemma KidsP_app : forall a b, KidsP (a ++ b) -> KidsP a /\ KidsP b.
Proof.
  intros a b H. split; intros s t e Ho; apply (H s t e); (eapply occurs_incl; [|exact Ho]); intros y Hy; apply in_or_app; auto.
Qed.
Lemma KidsP_cons : forall x l, KidsP (x :: l) -> KidsP l.
Proof. intros x l H. now apply (KidsP_app [x] l) in H. Qed.
Lemma KidsP_in : forall sp s t e l, KidsP ((sp, ANode s t e) :: l) -> Forall LP (lines_of t) /\ KidsP (type_items t).
Proof.
  intros sp s t e l H. split; [apply (H s t e); eapply OcHere; now left|].
  intros s' t' e' Ho. apply (H s' t' e'). eapply occurs_in; [now left|exact Ho].
Qed.

Definition EqR (pre : list X) (ns : list a_item) (r : list a_item * list node) : Prop :=
  (exists used, ns = used ++ fst r) /\ dms (snd r) ++ ams (fst r) = pre ++ ams ns.

Lemma line_end_nil : forall ns rest, LP ns -> rest = [] \/ LineShape ns rest -> rest = [].
Proof.
  intros ns rest [HT _] [H|(cs & c & mid & i & E & H1 & H2 & H3 & H4)]; [exact H|]. exact (HT cs c mid i rest E H1 H2 H3 H4).
Qed.

Lemma clean_sub : forall A (m : M A) Q, Sub m Q -> Clean m Q.
Proof. intros A m Q H. eapply post_impl; [exact H|]. auto. Qed.

Theorem build_eq : forall f,
  (forall c p, Forall LP (map ln_nodes (ct_lines c)) -> KidsP (content_items c) -> Clean (build_content slc f c p) (fun v => dms v = cms c)) /\
  (forall ls le out p, Forall LP (map ln_nodes ls) -> KidsP (flat_map ln_nodes ls) ->
     Clean (build_lines slc f ls le out p) (fun v => dms (rev v) = dms (rev out) ++ lms ls)) /\
  (forall ns, NT ns -> KidsP ns -> Clean (build_line slc f ns) (EqR [] ns)) /\
  (forall ns, NT ns -> KidsP ns -> Clean (extend_line slc f ns) (EqR [] ns)) /\
  (forall pr ns sels la, NT ns -> KidsP ns -> ((forall s, selA s = []) -> sm sels = []) ->
     Clean (post_child slc f pr ns sels la) (EqR (sm sels) ns)) /\
  (forall pr ns sels la, NT ns -> KidsP ns -> ((forall s, selA s = []) -> sm sels = []) -> (Forall is_comment ns -> sm sels = []) ->
     Clean (post_selector slc f pr ns sels la) (EqR (sm sels) ns)) /\
  (forall r b p, Forall LP (map ln_nodes (ct_lines (bk_content b))) -> KidsP (content_items (bk_content b)) ->
     Clean (build_block slc f r b p) (fun e => e_selectors e = [] /\ dms (e_nodes e) = cms (bk_content b))) /\
  (forall r i, LP (in_inner i) -> KidsP (in_inner i) -> Clean (build_inline slc f r i) (fun v => dms v = ams (in_inner i))) /\
  (forall r s, Forall LP (lines_of (ANElement (ASpecialElt s))) -> KidsP (type_items (ANElement (ASpecialElt s))) ->
     Clean (build_special slc f r s) (fun e => dm (elt_node e) = am (ANode 0 (ANElement (ASpecialElt s)) 0))) /\
  (forall r e, Forall LP (lines_of (ANElement e)) -> KidsP (type_items (ANElement e)) ->
     Clean (build_element slc f r e) (fun v => dms v = am (ANode 0 (ANElement e) 0))).
Proof.
  pose proof ff_comment as Fc. pose proof ff_selector as Fs. pose proof ff_validate as Fv. pose proof (ff_text slc) as Ft.
  pose proof (ff_inline_text slc) as Fi. pose proof (ff_multiline slc) as Fm.
  induction f as [|f IH].
  { repeat split; intros; apply clean_fuel. }
  destruct (build_ff slc f) as (Fbc & Fbl & Fln & Fel & Fpc & Fps & Fbb & Fbi & Fbs & Fbe).
  destruct IH as (Ic & Il & Ibl & Iel & Ipc & Ips & Ibb & Ibi & Ibs & Ibe).
  pose proof (proj1 (build_stop slc f)) as Hstop.
  split; [|split; [|split; [|split; [|split; [|split; [|split; [|split; [|split]]]]]]]].
  - intros c p H1 H2. cbn [build_content]. eapply clean_bind; [apply Il; [exact H1|exact H2]|intros; ff|]. intros v Hv. now apply clean_ret.
  - intros ls le out p H1 H2. cbn [build_lines]. destruct ls as [|l ls].
    { apply clean_ret. cbn. now rewrite app_nil_r. }
    cbn [map flat_map] in *. inversion H1 as [|? ? Hl Hls]; subst. apply KidsP_app in H2 as [K1 K2].
    eapply clean_bind with (Q := fun v => dms (rev v) = dms (rev out) ++ ams (ln_nodes l)); [|intros; ff|].
    + destruct (ln_nodes l) as [|n ns] eqn:E.
      * apply clean_ret. cbn [rev]. rewrite dms_app. cbn. now rewrite txt_space, !app_nil_r.
      * eapply clean_bind; [apply clean_and; [apply Ibl; [exact (proj2 Hl)|exact K1]|apply Hstop]|intros; ff|].
        intros [r line] [[_ H] HS]. cbn [fst snd] in *. apply (line_end_nil _ _ Hl) in HS. subst r.
        apply clean_ret. rewrite add_line_marks. cbn in H. rewrite app_nil_r in H. now rewrite H.
    + intros v Hv. eapply clean_impl; [apply Il; auto|]. intros w Hw. cbn beta in *. rewrite Hw, Hv.
      unfold lms. cbn [flat_map]. now rewrite app_assoc.
  - intros ns H1 H2. cbn [build_line]. eapply clean_bind; [apply Iel; assumption|intros; unfold validate_line; ff|]. intros [rest out] H.
    eapply clean_bind; [apply clean_true; apply Fv|intros; ff|]. intros _ _. now apply clean_ret.
  - intros ns H1 H2. cbn [extend_line]. destruct ns as [|[sp [s t n]] rest].
    { apply clean_ret. split; [now exists []|reflexivity]. }
    set (spn := match sp with Some r => [exact_space r] | None => [] end).
    assert (Hsp : dms spn = []) by apply dms_space.
    pose proof (NT_app [_] _ H1) as N1. pose proof (KidsP_cons _ _ H2) as K1.
    destruct (KidsP_in _ _ _ _ _ H2) as [L1 K2].
    assert (Hgen : forall m, Clean m (fun r => (exists used, rest = used ++ fst r) /\
        dms (snd r) ++ ams (fst r) = am (ANode s t n) ++ ams rest) ->
      Clean (let* (rest', out) := m in let* (rest'', out') := extend_line slc f rest' in
            ret (rest'', spn ++ out ++ out')) (EqR [] ((sp, ANode s t n) :: rest))).
    { intros m Hm. eapply clean_bind; [exact Hm|intros; ff|]. intros [r out] [(u & Hu) E1]. cbn [fst snd] in *.
      eapply clean_bind; [apply Iel|intros; ff|].
      - apply (NT_app u). now rewrite <- Hu.
      - apply (KidsP_app u). now rewrite <- Hu.
      - intros [r2 out2] [(u2 & Hu2) E2]. apply clean_ret. unfold EqR. cbn [fst snd] in *. split.
        + exists ((sp, ANode s t n) :: u ++ u2). cbn. rewrite <- app_assoc, <- Hu2, <- Hu. reflexivity.
        + rewrite !dms_app, Hsp. cbn [app] in *. rewrite <- app_assoc, E2, E1. reflexivity. }
    destruct t as [m|t|sl|e].
    + apply Hgen. eapply clean_bind; [apply clean_sub, sub_multiline|intros; ff|]. intros v Hv. apply clean_ret. cbn [fst snd].
      split; [now exists []|]. unfold dms. cbn [flat_map]. now rewrite Hv, app_nil_r.
    + apply Hgen. eapply clean_bind; [apply clean_sub, sub_inline_text|intros; ff|]. intros v Hv. apply clean_ret. cbn [fst snd].
      split; [now exists []|]. unfold dms. cbn [flat_map]. now rewrite Hv, app_nil_r.
    + apply Hgen. eapply clean_bind; [apply sel_eq|intros; ff|]. intros v Hv. eapply clean_impl; [apply Ips; auto|].
      * intros Hc. cbn [flat_map]. now rewrite Hv, app_nil_r.
      * intros Hc. cbn [flat_map]. rewrite Hv, app_nil_r. eapply NT_sel; eauto.
      * intros w [Hu E]. split; [exact Hu|]. rewrite E. cbn [flat_map]. now rewrite app_nil_r, Hv.
    + assert (Hel : Clean (let* out := build_element slc f (mkR s n) e in ret (rest, out))
        (fun r => (exists used, rest = used ++ fst r) /\ dms (snd r) ++ ams (fst r) = am (ANode s (ANElement e) n) ++ ams rest)).
      { eapply clean_bind; [apply Ibe; assumption|intros; ff|]. intros v Hv. apply clean_ret. cbn [fst snd].
        split; [now exists []|]. rewrite Hv. reflexivity. }
      destruct e as [c|b|i|sp']; try (apply Hgen; exact Hel).
      eapply clean_bind; [apply Ipc; [assumption|assumption|intros _; cbn; now rewrite sel_none]|intros; ff|]. intros [r out] [(u & Hu) E]. apply clean_ret. unfold EqR in *. cbn [fst snd] in *.
      split; [exists ((sp, ANode s (ANElement (ALineElt c)) n) :: u); now rewrite Hu|].
      rewrite dms_app, Hsp. cbn [app flat_map] in *. rewrite sel_none in E. exact E.
  - intros pr ns sels la H1 H2 HS. cbn [post_child].
    assert (Hfall : Clean (let* (rest, children) := build_line slc f ns in
        ret (rest, [elt_node (mkElt match rev children with n :: _ => Doc.combine pr (n_range n) | [] => pr end
             sels (mkR (r_end pr) (r_end match rev children with n :: _ => Doc.combine pr (n_range n) | [] => pr end))
             children (Standard (DLine la)) false false)])) (EqR (sm sels) ns)).
    { eapply clean_bind; [apply Ibl; assumption|intros; ff|]. intros [r out] [Hu E]. apply clean_ret. unfold EqR in *. cbn [fst snd app] in *.
      split; [exact Hu|]. unfold dms at 1. cbn [flat_map]. unfold elt_node. rewrite dm_elt, app_nil_r. cbn [e_selectors e_nodes].
      now rewrite <- app_assoc, E. }
    destruct ns as [|[sp [s t n]] rest]; [exact Hfall|].
    pose proof (NT_app [_] _ H1) as N1. pose proof (KidsP_cons _ _ H2) as K1.
    destruct (KidsP_in _ _ _ _ _ H2) as [L1 K2].
    assert (Hcons : forall r : list a_item, (exists u, rest = u ++ r) -> exists u, (sp, ANode s t n) :: rest = u ++ r).
    { intros r (u & ->). now exists ((sp, ANode s t n) :: u). }
    assert (Hblock : forall v : element, forall b, dms (e_nodes v) = cms (bk_content b) ->
      forall ty, dms [elt_node (with_type (with_selectors v sels) ty)] ++ ams rest = sm sels ++ cms (bk_content b) ++ ams rest).
    { intros v b E ty. unfold dms at 1. cbn [flat_map]. unfold elt_node. rewrite dm_elt, app_nil_r.
      cbn [e_selectors e_nodes with_type with_selectors]. now rewrite E, <- app_assoc. }
    destruct t as [m|t|sl|e]; try exact Hfall.
    + eapply clean_bind; [apply sel_eq|intros; ff|]. intros v Hv.
      assert (Hsv : (forall s, selA s = []) -> sm (sels ++ [v]) = []).
      { intros Hn. rewrite flat_map_app, (HS Hn). cbn. now rewrite Hv, Hn. }
      eapply clean_impl; [apply Ips; auto|].
      * intros Hc. destruct H1 as [Hn|Hn]; [now apply Hsv|]. exfalso. now apply (Hn [] _ rest eq_refl I).
      * intros w [Hu E]. split; [now apply Hcons|]. rewrite E, flat_map_app, <- app_assoc. cbn [flat_map]. now rewrite app_nil_r, Hv.
    + destruct e as [c|b|i|sp']; try exact Hfall.
      * eapply clean_impl; [apply Ipc; auto|].
        -- intros Hn. rewrite flat_map_app, (HS Hn). cbn. now rewrite sel_none.
        -- intros w [Hu E]. split; [now apply Hcons|]. rewrite E, flat_map_app. cbn [flat_map]. rewrite sel_none. cbn [app].
           now rewrite app_nil_r.
      * eapply clean_bind; [apply Ibb; assumption|intros; ff|]. intros e [_ E]. apply clean_ret. split; cbn [fst snd].
        -- now apply Hcons; exists [].
        -- now apply Hblock.
  - intros pr ns sels la H1 H2 HS HC. cbn [post_selector].
    destruct ns as [|[sp [s t n]] rest].
    { apply clean_ret. split; [now exists []|]. cbn. now rewrite HC. }
    pose proof (NT_app [_] _ H1) as N1. pose proof (KidsP_cons _ _ H2) as K1.
    destruct (KidsP_in _ _ _ _ _ H2) as [L1 K2].
    assert (Hcons : forall r : list a_item, (exists u, rest = u ++ r) -> exists u, (sp, ANode s t n) :: rest = u ++ r).
    { intros r (u & ->). now exists ((sp, ANode s t n) :: u). }
    destruct t as [m|t|sl|e]; try (apply clean_err; ff).
    + destruct t as [| |c|]; try (apply clean_err; ff).
      eapply clean_bind; [apply clean_sub, sub_comment|intros; ff|]. intros v Hv.
      eapply clean_bind; [apply Ips; auto|intros; ff|].
      { intros Hc. apply HC. constructor; [exact I|exact Hc]. }
      intros [r out] [Hu E]. apply clean_ret. cbn [fst snd] in *. split; [now apply Hcons|]. cbn [fst snd].
      unfold dms at 1. cbn [flat_map]. rewrite Hv. fold (dms out).
      assert (ams ((sp, ANode s (ANText (AComment c)) n) :: rest) = txt (mkR (ac_start c) (ac_end c)) (TComment (FromSource (ac_inner c))) ++ ams rest) as -> by reflexivity.
      rewrite (app_assoc (sm sels)), swap, <- !app_assoc. now rewrite E.
    + destruct e as [c|b|i|sp']; try (apply clean_err; ff).
      * eapply clean_impl; [apply Ipc; auto|]. intros w [Hu E]. split; [now apply Hcons|]. rewrite E. reflexivity.
      * eapply clean_bind; [apply Ibb; assumption|intros; ff|]. intros e [_ E]. apply clean_ret. split; cbn [fst snd].
        -- now apply Hcons; exists [].
        -- unfold dms at 1. cbn [flat_map]. unfold elt_node. rewrite dm_elt, app_nil_r. cbn [e_selectors e_nodes with_selectors].
           now rewrite E, <- app_assoc.
  - intros r b p H1 H2. cbn [build_block]. eapply clean_bind; [apply clean_true; unfold unclosed; ff|intros; ff|]. intros _ _.
    eapply clean_bind; [apply Ic; assumption|intros; ff|]. intros v Hv. apply clean_ret. split; [reflexivity|exact Hv].
  - intros r i H1 H2. cbn [build_inline]. eapply clean_bind; [apply clean_true; unfold unclosed; ff|intros; unfold validate_line; ff|]. intros _ _.
    eapply clean_bind; [apply clean_and; [apply Ibl; [exact (proj2 H1)|exact H2]|apply Hstop]|intros; unfold validate_line; ff|].
    intros [rest line] [[_ H] HS]. cbn [fst snd] in *. apply (line_end_nil _ _ H1) in HS. subst rest.
    cbn in H. rewrite app_nil_r in H.
    eapply clean_bind; [apply clean_true; apply Fv|intros; ff|]. intros _ _. apply clean_ret.
    destruct (inline_first r line) as [l'|] eqn:E.
    + now rewrite (inline_first_marks _ _ _ E).
    + unfold dms at 1. cbn [flat_map]. unfold elt_node. rewrite dm_elt, app_nil_r. exact H.
  - intros r s H1 H2. cbn [build_special]. destruct s as [k o c cl'|code].
    + eapply clean_bind; [apply clean_true; unfold unclosed; ff|intros; ff|]. intros _ _.
      eapply clean_bind; [apply Ic; assumption|intros; ff|]. intros v Hv. apply clean_ret. exact Hv.
    + eapply clean_bind; [apply clean_sub, sub_text|intros; ff|]. intros v ->. apply clean_ret. unfold elt_node. rewrite dm_elt. cbn.
      now rewrite app_nil_r.
  - intros r e H1 H2. cbn [build_element]. destruct e as [c|b|i|sp].
    + now apply clean_ret.
    + eapply clean_bind; [apply Ibb; assumption|intros; ff|]. intros v [E1 E2]. apply clean_ret. unfold dms at 1. cbn [flat_map]. unfold elt_node.
      rewrite dm_elt, app_nil_r, E1. exact E2.
    + inversion H1; subst. now apply Ibi.
    + eapply clean_bind; [apply Ibs; assumption|intros; ff|]. intros v Hv. apply clean_ret. unfold dms. cbn [flat_map]. now rewrite app_nil_r.
Qed.
Theorem from_ast_eq : forall c, all_lines LP c -> Clean (from_ast slc c) (fun v => dms v = cms c).
Proof.
  intros c [H1 H2]. apply (proj1 (build_eq _)); [|exact H2]. now apply Forall_map.
Qed.
End Gen.

(** ** The two instances *)

Lemma from_ast_any : forall slc c cfg e ns (Q : list syntax_error -> list node -> Prop),
  Post false (from_ast slc c) Q -> from_ast slc c (errors_new cfg) = (e, Ok ns) -> Q (er_syntax e) ns.
Proof.
  intros slc c cfg e ns Q HQ H. set (e0 := mkErrs false [] [] false).
  specialize (HQ e0 eq_refl). pose proof (from_ast_ff slc c e0 eq_refl) as HF.
  destruct (from_ast slc c e0) as [e1 [v| |]] eqn:E; [|contradiction|].
  - destruct HQ as (d & -> & HQ). destruct HF as (d' & Ed & HF).
    apply (f_equal er_syntax) in Ed. cbn in Ed. subst d'.
    assert (errors_new cfg = e0 \/ errors_new cfg = set_ff e0) as [HE|HE].
    { unfold errors_new. destruct (c_fail_fast cfg) as [[|]|]; auto. }
    + rewrite HE, E in H. injection H as <- <-. exact HQ.
    + rewrite HE in H. destruct HF as [[-> HF]|(d1 & d2 & _ & _ & HF)]; rewrite HF in H; [|discriminate].
      injection H as <- <-. exact HQ.
  - pose proof (from_ast_total slc c e0 eq_refl) as HT. rewrite E in HT. discriminate.
Qed.

Section Kept.
Context {X : Type}.
Variable txt : lrange -> textlike -> list X.
Hypothesis txt_space : forall r s, txt r (TSpace s) = [].
Lemma leaves_kept : forall slc c cfg e ns, from_ast slc c (errors_new cfg) = (e, Ok ns) ->
  Subseq (flat_map (doc_marks (fun _ => []) txt) ns) (content_marks (fun _ => []) txt c) /\
  (er_syntax e = [] -> all_lines tidy_line c -> flat_map (doc_marks (fun _ => []) txt) ns = content_marks (fun _ => []) txt c).
Proof.
  intros slc c cfg e ns H.
  assert (Hn : forall sels : list selector, flat_map (fun _ : selector => @nil X) sels = []).
  { intros sels. induction sels; auto. }
  assert (Hsw : forall sels r c0, flat_map (fun _ : selector => []) sels ++ txt r (TComment c0) = txt r (TComment c0) ++ flat_map (fun _ => []) sels).
  { intros. now rewrite !Hn, app_nil_r. }
  split.
  - apply (from_ast_any slc c cfg e ns (fun _ v => Subseq (flat_map (doc_marks (fun _ => []) txt) v) (content_marks (fun _ => []) txt c))); [|exact H].
    apply (from_ast_sub slc (fun _ => []) (fun _ => []) txt); auto.
    intros s. eapply post_impl; [apply ff_grow, ff_selector|]. constructor.
  - intros He HT. revert He. apply (from_ast_any slc c cfg e ns (fun d v => d = [] -> flat_map (doc_marks (fun _ => []) txt) v = content_marks (fun _ => []) txt c)); [|exact H].
    apply (from_ast_eq slc (fun _ => []) (fun _ => []) txt); auto.
    + intros s. eapply clean_impl; [apply clean_true, ff_selector|]. auto.
    + destruct HT as [H1 H2]. split.
      * eapply Forall_impl; [|exact H1]. intros l Hl. split; [exact Hl|now left].
      * intros s t n Ho. eapply Forall_impl; [|exact (H2 s t n Ho)]. intros l Hl. split; [exact Hl|now left].
Qed.
End Kept.
Theorem texts_kept : forall slc c cfg e ns, from_ast slc c (errors_new cfg) = (e, Ok ns) ->
  Subseq (flat_map doc_leaves ns) (content_leaves c) /\
  (er_syntax e = [] -> all_lines tidy_line c -> flat_map doc_leaves ns = content_leaves c).
Proof. apply (leaves_kept (fun _ => leaf)). reflexivity. Qed.
Theorem places_kept : forall slc c cfg e ns, from_ast slc c (errors_new cfg) = (e, Ok ns) ->
  Subseq (flat_map doc_places ns) (content_places c) /\
  (er_syntax e = [] -> all_lines tidy_line c -> flat_map doc_places ns = content_places c).
Proof. apply (leaves_kept place). reflexivity. Qed.

Theorem selectors_kept : forall slc c cfg e ns, from_ast slc c (errors_new cfg) = (e, Ok ns) ->
  er_syntax e = [] -> all_lines tidy_line c -> all_lines selectors_used c ->
  flat_map doc_selectors ns = content_selectors c.
Proof.
  intros slc c cfg e ns H He [T1 T2] [U1 U2]. revert He.
  apply (from_ast_any slc c cfg e ns (fun d v => d = [] -> flat_map doc_selectors v = content_selectors c)); [|exact H].
  apply (from_ast_eq slc source_selector doc_selector (fun _ _ => [])); auto.
  - intros sels r c0. now rewrite app_nil_r.
  - intros s. eapply clean_impl; [apply selector_built|]. intros v (H1 & H2 & H3). unfold doc_selector, source_selector.
    now rewrite H1, H2, H3.
  - split.
    + rewrite Forall_forall in *. intros l Hl. split; [now apply T1|right; now apply U1].
    + intros s t n Ho. specialize (T2 s t n Ho). specialize (U2 s t n Ho). rewrite Forall_forall in *. intros l Hl.
      split; [now apply T2|right; now apply U2].
Qed.

(** ** Checking the conditions on a concrete tree *)

Definition node_lines_ (F : a_node -> list (list a_item)) (t : a_ntype) : list (list a_item) :=
  lines_of t ++ flat_map (fun i : a_item => F (snd i)) (type_items t).
Fixpoint node_lines (n : a_node) : list (list a_item) :=
  let 'ANode _ t _ := n in
  let items := flat_map (fun i : a_item => node_lines (snd i)) in
  match t with
  | ANElement (ABlockElt b) => lines_of t ++ flat_map (fun l => items (ln_nodes l)) (ct_lines (bk_content b))
  | ANElement (AInlineElt i) => lines_of t ++ items (in_inner i)
  | ANElement (ASpecialElt (ASpecial _ _ c _)) => lines_of t ++ flat_map (fun l => items (ln_nodes l)) (ct_lines c)
  | _ => []
  end.
Lemma flat_flat : forall A B C (f : A -> list B) (g : B -> list C) l,
  flat_map g (flat_map f l) = flat_map (fun x => flat_map g (f x)) l.
Proof. intros. induction l; [reflexivity|]. cbn. now rewrite flat_map_app, IHl. Qed.
Lemma node_lines_eq : forall s t e, node_lines (ANode s t e) = node_lines_ node_lines t.
Proof.
  intros s t e. unfold node_lines_. destruct t as [m|t|sl|[c|b|i|[k o c cl|r]]]; try reflexivity;
  cbn [node_lines type_items element_items]; unfold content_items; now rewrite flat_flat.
Qed.
Lemma lines_occur : forall l s t e, Occurs l (ANode s t e) -> forall x, In x (lines_of t) ->
  In x (flat_map (fun i : a_item => node_lines (snd i)) l).
Proof.
  intros l s t e Ho x Hx.
  assert (forall n, Occurs l n -> incl (node_lines n) (flat_map (fun i : a_item => node_lines (snd i)) l)) as HO.
  { clear. intros n Ho. induction Ho as [sp n Hn|s t e sp n Ho IH Hn].
    - intros y Hy. apply in_flat_map. exists (sp, n). auto.
    - intros y Hy. apply IH. rewrite node_lines_eq. apply in_or_app. right. apply in_flat_map. exists (sp, n). auto. }
  apply (HO _ Ho). rewrite node_lines_eq. apply in_or_app. now left.
Qed.
Definition tree_lines (c : a_content) : list (list a_item) :=
  map ln_nodes (ct_lines c) ++ flat_map (fun i : a_item => node_lines (snd i)) (content_items c).
Lemma all_lines_check : forall (P : list a_item -> Prop) c, Forall P (tree_lines c) -> all_lines P c.
Proof.
  intros P c H. apply Forall_app in H as [H1 H2]. split.
  - rewrite Forall_map in H1. exact H1.
  - intros s t e Ho. rewrite Forall_forall in H2. apply Forall_forall. intros x Hx. apply H2. eapply lines_occur; eauto.
Qed.

Definition commentb (i : a_item) : bool := match an_type (snd i) with ANText (AComment _) => true | _ => false end.
Definition combinatorb (i : a_item) : bool := match an_type (snd i) with ANElement (ALineElt _) => true | _ => false end.
Definition selectorb (i : a_item) : bool := match an_type (snd i) with ANSelector _ => true | _ => false end.
Definition blockb (i : a_item) : bool := match an_type (snd i) with ANElement (ABlockElt _) => true | _ => false end.
Fixpoint after_chain (l : list a_item) : bool :=
  match l with
  | [] => true
  | i :: l' => if commentb i || combinatorb i || selectorb i then after_chain l' else if blockb i then is_nil l' else true
  end.
Fixpoint tidyb (l : list a_item) : bool :=
  match l with
  | [] => true
  | i :: l' => if commentb i then tidyb l' else if combinatorb i then after_chain l' else true
  end.
Lemma tidy_check : forall l, tidyb l = true -> tidy_line l.
Proof.
  intros l H cs c mid i b E Hcs Hc Hmid Hi.
  assert (HA : forall mid, Forall chain_item mid -> forall b, after_chain (mid ++ i :: b) = true -> b = []).
  { clear -Hi. induction 1 as [|x m Hx Hm IH]; intros b H; cbn [app after_chain] in H.
    - destruct i as [sp [s [m|t|sl|[ | | | ]] e]]; cbn in Hi, H; try contradiction. now destruct b.
    - apply IH. destruct x as [sp [s [m'|[]|sl|[ | | | ]] e]]; cbn in H; try exact H; destruct Hx as [Hx|[Hx|Hx]]; contradiction. }
  subst l. induction Hcs as [|x cs Hx Hcs IH]; cbn [app tidyb] in H.
  - destruct c as [sp [s [m|[]|sl|[ | | | ]] e]]; cbn in Hc, H; try contradiction. now apply (HA mid).
  - apply IH. destruct x as [sp [s [m|[]|sl|[ | | | ]] e]]; cbn in Hx, H; try contradiction. exact H.
Qed.
Fixpoint usedb (l : list a_item) : bool :=
  match l with
  | [] => true
  | i :: l' => negb (selectorb i && forallb commentb l') && usedb l'
  end.
Lemma used_check : forall l, usedb l = true -> selectors_used l.
Proof.
  induction l as [|x l IH]; intros H a i cs E Hi Hcs; [destruct a; discriminate|].
  cbn [usedb] in H. apply andb_prop in H as [H1 H2]. destruct a as [|y a]; injection E as -> E.
  - subst cs. destruct i as [sp [s [m|[]|sl|[ | | | ]] e]]; cbn in Hi; try contradiction. cbn in H1.
    assert (forallb commentb l = true) as HF; [|rewrite HF in H1; discriminate].
    apply forallb_forall. rewrite Forall_forall in Hcs. intros z Hz. specialize (Hcs z Hz).
    destruct z as [sp' [s' [m|[]|sl'|[ | | | ]] e']]; cbn in Hcs; try contradiction. reflexivity.
  - now apply (IH H2 a i cs).
Qed.

(** * The faults of the source and the errors of the builder: C47. *)

From Verif Require Import Base Escape Doc Ast Config Errors Build SpecTree SpecBuild SpecFaults
  P_Base P_Build P_BuildAll P_Selector P_Marks.
From Coq Require Import Lia.

(** ** Lines, item by item *)

Lemma comment_inline : forall i, is_comment i -> is_inline i.
Proof. intros [sp [s [m|t|sl|e] n]] H; cbn in *; try contradiction. exact I. Qed.
Lemma comments_inline : forall l, Forall is_comment l -> Forall is_inline l.
Proof. intros l H. eapply Forall_impl; [|exact H]. apply comment_inline. Qed.

Lemma proper_cases : forall x l, proper_line (x :: l) ->
  Forall is_inline (x :: l) \/ (is_comment x /\ proper_line l) \/ (is_own_line x /\ Forall is_comment l) \/
  (is_selector x /\ proper_rest l) \/ (is_combinator x /\ proper_line l).
Proof.
  intros x l H. inversion H as [l0 H1 E|cs i cs' H1 H2 H3 E|cs s l0 H1 H2 H3 E|cs c l0 H1 H2 H3 E]; subst.
  - now left.
  - destruct cs as [|y cs]; injection E as -> <-; [tauto|]. inversion H1; subst. right. left. split; [assumption|now constructor].
  - destruct cs as [|y cs]; injection E as -> <-; [tauto|]. inversion H1; subst. right. left. split; [assumption|now constructor].
  - destruct cs as [|y cs]; injection E as -> <-; [tauto|]. inversion H1; subst. right. left. split; [assumption|now constructor].
Qed.
Lemma rest_cases : forall l, proper_rest l -> exists x l', l = x :: l' /\
  ((is_comment x /\ proper_rest l') \/ (is_block x /\ Forall is_comment l') \/ (is_combinator x /\ proper_line l')).
Proof.
  intros l H. destruct H as [cs b cs' H1 H2 H3|cs c l H1 H2 H3]; destruct cs as [|y cs]; cbn [app].
  - exists b, cs'. tauto.
  - exists y, (cs ++ b :: cs'). split; [reflexivity|]. inversion H1; subst. left. split; [assumption|now constructor].
  - exists c, l. tauto.
  - exists y, (cs ++ c :: l). split; [reflexivity|]. inversion H1; subst. left. split; [assumption|now constructor].
Qed.
Lemma proper_comment : forall x l, is_comment x -> proper_line l -> proper_line (x :: l).
Proof.
  intros x l Hx H. destruct H as [l H1|cs i cs' H1 H2 H3|cs s l H1 H2 H3|cs c l H1 H2 H3].
  - constructor. constructor; [now apply comment_inline|exact H1].
  - apply (PrAlone (x :: cs)); auto.
  - apply (PrElement (x :: cs)); auto.
  - apply (PrUnnamed (x :: cs)); auto.
Qed.
Lemma rest_comment : forall x l, is_comment x -> proper_rest l -> proper_rest (x :: l).
Proof.
  intros x l Hx H. destruct H as [cs b cs' H1 H2 H3|cs c l H1 H2 H3].
  - apply (PrBlock (x :: cs)); auto.
  - apply (PrChild (x :: cs)); auto.
Qed.

(** ** Visible nodes *)

Definition Hidden (ns : list node) : Prop := forall n, In n ns -> is_visible n = false.
Definition Inlines (ns : list node) : Prop := forall n, In n ns -> is_visible n = true -> alone n = false.
Definition One (ns : list node) : Prop := exists a n b, ns = a ++ n :: b /\ Hidden a /\ Hidden b.
Definition Good (ns : list node) : Prop := Inlines ns \/ One ns.

Lemma hidden_app : forall a b, Hidden a -> Hidden b -> Hidden (a ++ b).
Proof. intros a b Ha Hb n Hn. apply in_app_or in Hn as [Hn|Hn]; auto. Qed.
Lemma hidden_nil : Hidden [].
Proof. intros n []. Qed.
Lemma hidden_inlines : forall a, Hidden a -> Inlines a.
Proof. intros a Ha n Hn Hv. rewrite (Ha n Hn) in Hv. discriminate. Qed.
Lemma inlines_app : forall a b, Inlines a -> Inlines b -> Inlines (a ++ b).
Proof. intros a b Ha Hb n Hn. apply in_app_or in Hn as [Hn|Hn]; auto. Qed.
Lemma one_l : forall a b, Hidden a -> One b -> One (a ++ b).
Proof. intros a b Ha (x & n & y & -> & Hx & Hy). exists (a ++ x), n, y. split; [now rewrite app_assoc|]. split; [now apply hidden_app|exact Hy]. Qed.
Lemma one_r : forall a b, One a -> Hidden b -> One (a ++ b).
Proof. intros a b (x & n & y & -> & Hx & Hy) Hb. exists x, n, (y ++ b). split; [now rewrite <- app_assoc|]. split; [exact Hx|now apply hidden_app]. Qed.
Lemma one_sing : forall n, One [n].
Proof. intros n. exists [], n, []. repeat split; apply hidden_nil. Qed.
Lemma good_l : forall a b, Hidden a -> Good b -> Good (a ++ b).
Proof. intros a b Ha [H|H]; [left; apply inlines_app; [now apply hidden_inlines|exact H]|right; now apply one_l]. Qed.

Definition spaces (sp : option lrange) : list node := match sp with Some r => [exact_space r] | None => [] end.
Lemma hidden_space : forall sp, Hidden (spaces sp).
Proof. intros [r|] n H; [destruct H as [<-|[]]; reflexivity|destruct H]. Qed.

Lemma validate_skip : forall n ns last, is_visible n = false -> validate_from last (n :: ns) = validate_from last ns.
Proof. intros n ns last. cbn [validate_from]. destruct n as [r e|r [t|t|t]]; [discriminate|discriminate|reflexivity|reflexivity]. Qed.
Lemma validate_step : forall n ns last, is_visible n = true -> validate_from last (n :: ns) =
      (match last with
       | None => ret tt
       | Some (lt, lr) => if stands_alone lt then misplaced lr (MustNotPrecede lt [item_type_of n])
                          else if stands_alone (item_type_of n) then misplaced (n_range n) (MustNotFollow [lt] (item_type_of n))
                          else ret tt
       end) ;* validate_from (Some (item_type_of n, n_range n)) ns.
Proof.
  intros n ns last Hv. cbn [validate_from]. destruct n as [r e|r [t|t|t]]; try discriminate; [|reflexivity].
  cbn [item_type_of]. destruct (e_type e); reflexivity.
Qed.
Definition silent (m : M unit) : Prop := Post false m (fun d _ => d = []).
Lemma silent_ret : silent (ret tt).
Proof. now apply post_ret. Qed.
Lemma silent_bind : forall m (f : unit -> M unit), silent m -> silent (f tt) -> silent (bind m f).
Proof. intros m f H1 H2. eapply post_bind; [exact H1|]. intros d [] ->. exact H2. Qed.
Lemma validate_hidden : forall ns last, Hidden ns -> silent (validate_from last ns).
Proof.
  induction ns as [|n ns IH]; intros last H; [apply silent_ret|]. rewrite validate_skip by (apply H; now left).
  apply IH. intros m Hm. apply H. now right.
Qed.
Lemma validate_inlines : forall ns last, Inlines ns -> (forall lt lr, last = Some (lt, lr) -> stands_alone lt = false) ->
  silent (validate_from last ns).
Proof.
  induction ns as [|n ns IH]; intros last H HL; [apply silent_ret|].
  assert (H' : Inlines ns) by (intros m Hm; apply H; now right).
  destruct (is_visible n) eqn:Hv; [|rewrite validate_skip by exact Hv; now apply IH].
  rewrite validate_step by exact Hv. specialize (H n (or_introl eq_refl) Hv). unfold alone in H. apply silent_bind.
  - destruct last as [[lt lr]|]; [|apply silent_ret]. rewrite (HL _ _ eq_refl), H. apply silent_ret.
  - apply IH; [exact H'|]. intros lt lr E. injection E as <- _. exact H.
Qed.
Lemma validate_good : forall ns, Good ns -> silent (validate_line ns).
Proof.
  intros ns [H|(a & n & b & -> & Ha & Hb)]; unfold validate_line; [apply validate_inlines; [exact H|discriminate]|].
  induction a as [|x a IH].
  - cbn [app]. destruct (is_visible n) eqn:Hv.
    + rewrite validate_step by exact Hv. apply silent_bind; [apply silent_ret|]. now apply validate_hidden.
    + rewrite validate_skip by exact Hv. now apply validate_hidden.
  - cbn [app]. rewrite validate_skip by (apply Ha; now left). apply IH. intros m Hm. apply Ha. now right.
Qed.

(** ** Children *)
Section Kids.
Variable P : list a_item -> Prop.
Definition Kids (l : list a_item) : Prop := forall s t e, Occurs l (ANode s t e) -> Forall P (lines_of t).
Lemma kids_app : forall a b, Kids (a ++ b) -> Kids a /\ Kids b.
Proof.
  intros a b H. split; intros s t e Ho; apply (H s t e); (eapply occurs_incl; [|exact Ho]); intros y Hy; apply in_or_app; auto.
Qed.
Lemma kids_cons : forall x l, Kids (x :: l) -> Kids l.
Proof. intros x l H. now apply (kids_app [x] l) in H. Qed.
Lemma kids_in : forall sp s t e l, Kids ((sp, ANode s t e) :: l) -> Forall P (lines_of t) /\ Kids (type_items t).
Proof.
  intros sp s t e l H. split; [apply (H s t e); eapply OcHere; now left|].
  intros s' t' e' Ho. apply (H s' t' e'). eapply occurs_in; [now left|exact Ho].
Qed.
Lemma kids_nil : Kids [].
Proof. intros s t e H. exfalso. remember (ANode s t e) as n eqn:E. clear E. induction H as [sp n []|]; auto. Qed.
Lemma kids_made : forall sp s t e l, Forall P (lines_of t) -> Kids (type_items t) -> Kids l -> Kids ((sp, ANode s t e) :: l).
Proof.
  intros sp s t e l H1 H2 H3 s' t' e' Ho.
  assert (forall n, Occurs ((sp, ANode s t e) :: l) n -> n = ANode s t e \/ Occurs (type_items t) n \/ Occurs l n) as H.
  { clear. intros n Ho. induction Ho as [sp' n [Hn|Hn]|s' t' e' sp' n Ho IH Hn].
    - injection Hn as -> ->. now left.
    - right. right. eapply OcHere. exact Hn.
    - destruct IH as [E|[IH|IH]].
      + injection E as -> -> ->. right. left. eapply OcHere. exact Hn.
      + right. left. eapply OcIn; eassumption.
      + right. right. eapply OcIn; eassumption. }
  destruct (H _ Ho) as [E|[Hn|Hn]].
  - injection E as -> -> ->. exact H1.
  - exact (H2 _ _ _ Hn).
  - exact (H3 _ _ _ Hn).
Qed.
Lemma kids_join : forall a b, Kids a -> Kids b -> Kids (a ++ b).
Proof.
  induction a as [|[sp [s t e]] a IH]; intros b Ha Hb; [exact Hb|]. cbn [app].
  destruct (kids_in _ _ _ _ _ Ha) as [H1 H2]. apply kids_made; auto. apply IH; [now apply kids_cons in Ha|exact Hb].
Qed.
End Kids.

Section Faults.
Variable slc : lrange -> str.
Notation nfs := (node_faults escape_errors slc).
Notation ifs := (items_faults escape_errors slc).
Notation cfs := (faults escape_errors slc).

(** ** Single items *)

Definition reports {A} (m : M A) (D : list syntax_error) : Prop := Post false m (fun d _ => d = D).
Lemma reports_ret : forall A (v : A), reports (ret v) [].
Proof. intros. now apply post_ret. Qed.
Lemma reports_bind : forall A B (m : M A) (f : A -> M B) a b, reports m a -> (forall v, reports (f v) b) -> reports (bind m f) (a ++ b).
Proof.
  intros A B m f a b H1 H2. eapply post_bind; [exact H1|]. intros d v ->. eapply post_impl; [apply H2|].
  intros d' v' ->. reflexivity.
Qed.
Lemma reports_eq : forall A (m : M A) a b, reports m a -> a = b -> reports m b.
Proof. now intros A m a b H <-. Qed.
Lemma reports_last : forall A B (m : M A) (f : A -> B) a, reports m a -> reports (let* v := m in ret (f v)) a.
Proof. intros A B m f a H. eapply reports_eq; [apply reports_bind; [exact H|intros; apply reports_ret]|apply app_nil_r]. Qed.
Lemma reports_mapM : forall A B (f : A -> M B) g l, (forall a, reports (f a) (g a)) -> reports (mapM f l) (flat_map g l).
Proof.
  intros A B f g l H. induction l as [|a l IH]; cbn [mapM flat_map]; [apply reports_ret|].
  apply reports_bind; [apply H|]. intros v. now apply (reports_last _ _ (mapM f l) (cons v)).
Qed.
Lemma reports_unclosed : forall cl o k, reports (match cl with None => unclosed o k | Some _ => ret tt end) (not_closed cl o k).
Proof. intros [r|] o k; [apply reports_ret|]. now apply post_syntax. Qed.
Lemma reports_attrs : forall l, reports (build_attribute_list l) (attrs_faults l).
Proof. intros l. unfold build_attribute_list, attrs_faults. apply (reports_last _ _ _ (fun _ => _)). apply reports_unclosed. Qed.
Lemma reports_class : forall c, reports (build_class_like c) (class_faults c).
Proof.
  intros [d i|d i|r]; cbn [build_class_like class_faults]; try apply reports_ret.
  apply (reports_last _ _ _ (fun _ => _)). now apply post_syntax.
Qed.
Lemma reports_classes : forall l, reports (build_class_likes l) (flat_map class_faults l).
Proof. intros l. unfold build_class_likes. apply reports_last. apply reports_mapM. apply reports_class. Qed.
Lemma reports_segment : forall s, reports (build_segment s) (segment_faults s).
Proof. intros [a|cl]; cbn [build_segment segment_faults]; [apply reports_last, reports_attrs|apply reports_classes]. Qed.
Lemma reports_selector : forall s, reports (build_selector s) (selector_faults s).
Proof.
  intros s. unfold build_selector, selector_faults. apply reports_bind.
  - destruct (as_first s) as [a|e cl]; apply reports_last; [apply reports_attrs|apply reports_classes].
  - intros [tg items]. apply reports_last. apply reports_mapM, reports_segment.
Qed.
Lemma reports_text : forall r u eo raw ml, reports (build_text_node slc r u eo raw ml) (if u then escape_faults escape_errors slc r else []).
Proof.
  intros r u eo raw ml. unfold build_text_node, escapable_slice. apply reports_last. apply (reports_last _ _ _ (fun _ => _)).
  destruct u; [now apply post_syntax|apply reports_ret].
Qed.
Lemma reports_comment : forall c, reports (build_comment c) (not_closed (ac_close c) (ac_open c) UComment).
Proof. intros c. unfold build_comment. apply (reports_last _ _ _ (fun _ => _)). apply reports_unclosed. Qed.
Lemma reports_inline_text : forall t, reports (build_inline_text slc t) (text_faults escape_errors slc t).
Proof.
  intros [r|v|c|r]; cbn [build_inline_text text_faults]; [apply (reports_text r true)|apply reports_ret|apply reports_comment|apply (reports_text r false)].
Qed.
Lemma reports_multiline : forall r s m n, reports (build_multiline slc r m) (nfs (ANode s (ANMultiline m) n)).
Proof. intros r s m n. unfold build_multiline. cbn [node_faults]. apply reports_last. destruct (am_kind m); [apply (reports_text _ true)|apply (reports_text _ false)|apply (reports_text _ false)]. Qed.

Lemma post_and : forall A t (m : M A) Q Q', Post t m Q -> Post t m Q' -> Post t m (fun d v => Q d v /\ Q' d v).
Proof.
  intros A t m Q Q' H H' e He. specialize (H e He). specialize (H' e He). destruct (m e) as [e' [v| |]]; auto.
  destruct H as (d & -> & H). destruct H' as (d' & E & H'). exists d. split; [reflexivity|]. split; [exact H|].
  apply (f_equal er_syntax) in E. cbn in E. apply app_inv_head in E. now subst d'.
Qed.

(** ** The induction.  [strict]: the lines are tidy, and the errors are exactly the
       faults; else some faults may be missing. *)
Variable strict : bool.
Definition Rl (d D : list syntax_error) : Prop := if strict then d = D else Subseq d D.
Lemma Rl_refl : forall d, Rl d d.
Proof. intros d. unfold Rl. destruct strict; [reflexivity|apply subseq_refl]. Qed.
Lemma Rl_app : forall a b a' b', Rl a a' -> Rl b b' -> Rl (a ++ b) (a' ++ b').
Proof. intros a b a' b'. unfold Rl. destruct strict; [now intros -> ->|apply subseq_app]. Qed.
Lemma Rl_app_l : forall a b b', Rl b b' -> Rl (a ++ b) (a ++ b').
Proof. intros. apply Rl_app; [apply Rl_refl|assumption]. Qed.
Lemma Rl_trans_drop : forall a b c, strict = false -> Rl a b -> Rl a (b ++ c).
Proof. intros a b c E. unfold Rl. rewrite E. apply subseq_app_l. Qed.

Definition LPr (l : list a_item) : Prop := proper_line l /\ (strict = true -> tidy_line l).
Notation KP := (Kids LPr).

Definition Got (ns : list a_item) (d : list syntax_error) (rest : list a_item) : Prop :=
  Forall is_comment rest /\ exists D, ifs ns = D ++ ifs rest /\ Rl d D.
Lemma got_nil : forall ns d, Got ns d [] -> Rl d (ifs ns).
Proof. intros ns d (_ & D & E & H). rewrite E. cbn. now rewrite app_nil_r. Qed.
Lemma got_sub : forall ns d rest, strict = false -> Got ns d rest -> Rl d (ifs ns).
Proof. intros ns d rest E (_ & D & -> & H). now apply Rl_trans_drop. Qed.
Lemma got_all : forall ns d rest, LPr ns -> Got ns d rest -> rest = [] \/ LineShape ns rest -> Rl d (ifs ns).
Proof.
  intros ns d rest [_ HT] HG [->|HS]; [now apply got_nil|]. destruct strict eqn:E.
  - destruct HS as (cs & c & mid & i & En & H1 & H2 & H3 & H4).
    rewrite (HT eq_refl cs c mid i rest En H1 H2 H3 H4) in HG. now apply got_nil.
  - now apply (got_sub ns d rest).
Qed.
Lemma got_done : forall ns d, Rl d (ifs ns) -> Got ns d [].
Proof. intros ns d H. split; [constructor|]. exists (ifs ns). split; [symmetry; apply app_nil_r|exact H]. Qed.
Lemma ifs_cons : forall sp n l, ifs ((sp, n) :: l) = nfs n ++ ifs l.
Proof. reflexivity. Qed.
Lemma got_cons : forall sp n l d d' rest, Rl d (nfs n) -> Got l d' rest -> Got ((sp, n) :: l) (d ++ d') rest.
Proof.
  intros sp n l d d' rest H (H1 & D & E & H2). split; [exact H1|]. exists (nfs n ++ D). rewrite ifs_cons, E, app_assoc. split; [reflexivity|].
  now apply Rl_app.
Qed.
Lemma got_stop : forall sp n l d, Rl d (nfs n) -> Forall is_comment l -> Got ((sp, n) :: l) d l.
Proof. intros sp n l d H Hl. split; [exact Hl|]. exists (nfs n). now rewrite ifs_cons. Qed.

Definition LineQ ns d (v : list a_item * list node) : Prop :=
  Got ns d (fst v) /\ (fst v = [] \/ LineShape ns (fst v)) /\ Good (snd v).
Definition ChainQ ns d (v : list a_item * list node) : Prop :=
  Got ns d (fst v) /\ (fst v = [] \/ Shape ns (fst v)) /\ One (snd v).

Lemma inline_text_inlines : forall t, Post false (build_inline_text slc t) (fun _ n => Inlines [n] /\ (match t with AComment _ => Hidden [n] | _ => True end)).
Proof.
  intros [r|v|c|r]; cbn [build_inline_text]; unfold build_text_node, escapable_slice, build_comment.
  - eapply post_bind; [apply ff_grow; ff|]. intros d v _. apply post_ret. split; [|exact I]. intros n [<-|[]] _. reflexivity.
  - apply post_ret. split; [|exact I]. intros n [<-|[]] _. unfold build_verbatim. now destruct (av_tail v).
  - eapply post_bind; [apply ff_grow; unfold unclosed; ff|]. intros d v _. apply post_ret.
    assert (Hidden [NTxt (mkR (ac_start c) (ac_end c)) (TComment (FromSource (ac_inner c)))]) as H by (intros n [<-|[]]; reflexivity).
    split; [now apply hidden_inlines|exact H].
  - eapply post_bind; [apply ff_grow; ff|]. intros d v _. apply post_ret. split; [|exact I]. intros n [<-|[]] _. reflexivity.
Qed.
Lemma inline_first_good : forall r line, Good line ->
  match inline_first r line with Some line' => Inlines line' | None => True end.
Proof.
  intros r line [H|(a & n & b & -> & Ha & Hb)].
  - destruct (inline_first r line) as [l'|] eqn:E; [|exact I]. exfalso. revert l' E.
    induction line as [|n line IH]; cbn [inline_first]; intros l' E; [discriminate|].
    destruct (is_visible n) eqn:Hv.
    + specialize (H n (or_introl eq_refl) Hv). destruct n as [r0 e|]; [|discriminate].
      unfold alone in H. cbn [item_type_of] in H. destruct (e_type e); discriminate.
    + destruct (inline_first r line) as [l0|]; [|discriminate]. eapply IH; [|reflexivity]. intros m Hm. apply H. now right.
  - induction a as [|x a IH]; cbn [app inline_first].
    + destruct (is_visible n) eqn:Hv.
      * destruct n as [r0 e|]; [|exact I]. destruct (e_type e); try exact I.
        intros m [<-|Hm] Hvm; [reflexivity|]. rewrite (Hb m Hm) in Hvm. discriminate.
      * assert (forall l, Hidden l -> inline_first r l = None) as HN.
        { induction l as [|y l IHl]; intros Hl; [reflexivity|]. cbn [inline_first]. rewrite (Hl y (or_introl eq_refl)).
          rewrite IHl; [reflexivity|]. intros m Hm. apply Hl. now right. }
        rewrite (HN b Hb). exact I.
    + rewrite (Ha x (or_introl eq_refl)). assert (Hidden a) as Ha' by (intros m Hm; apply Ha; now right).
      specialize (IH Ha'). destruct (inline_first r (a ++ n :: b)); cbn [opt_map]; [|exact I].
      intros m [<-|Hm] Hv; [rewrite (Ha x (or_introl eq_refl)) in Hv; discriminate|]. now apply IH.
Qed.

Theorem build_faults : forall f,
  (forall c p, Forall LPr (map ln_nodes (ct_lines c)) -> KP (content_items c) -> Post false (build_content slc f c p) (fun d _ => Rl d (cfs c))) /\
  (forall ls le out p, Forall LPr (map ln_nodes ls) -> KP (flat_map ln_nodes ls) ->
     Post false (build_lines slc f ls le out p) (fun d _ => Rl d (flat_map (fun l => ifs (ln_nodes l)) ls))) /\
  (forall ns, proper_line ns -> KP ns -> Post false (build_line slc f ns) (LineQ ns)) /\
  (forall ns, Forall is_comment ns -> Post false (extend_line slc f ns) (fun d v => fst v = [] /\ Rl d (ifs ns) /\ Hidden (snd v))) /\
  (forall ns, Forall is_inline ns -> KP ns -> Post false (extend_line slc f ns) (fun d v => fst v = [] /\ Rl d (ifs ns) /\ Inlines (snd v))) /\
  (forall ns, proper_line ns -> KP ns -> Post false (extend_line slc f ns) (LineQ ns)) /\
  (forall pr ns sels la, proper_line ns -> KP ns -> Post false (post_child slc f pr ns sels la) (ChainQ ns)) /\
  (forall pr ns sels la, proper_rest ns -> KP ns -> Post false (post_selector slc f pr ns sels la) (ChainQ ns)) /\
  (forall r b p, Forall LPr (map ln_nodes (ct_lines (bk_content b))) -> KP (content_items (bk_content b)) ->
     Post false (build_block slc f r b p) (fun d _ => Rl d (not_closed (bk_rbrace b) (bk_lbrace b) UBlock ++ cfs (bk_content b)))) /\
  (forall r i, LPr (in_inner i) -> KP (in_inner i) ->
     Post false (build_inline slc f r i) (fun d v => Rl d (not_closed (in_close i) (in_open i) UInline ++ ifs (in_inner i)) /\ Inlines v)) /\
  (forall r s a b, Forall LPr (lines_of (ANElement (ASpecialElt s))) -> KP (type_items (ANElement (ASpecialElt s))) ->
     Post false (build_special slc f r s) (fun d e => Rl d (nfs (ANode a (ANElement (ASpecialElt s)) b)) /\ exists k, e_type e = Special k)) /\
  (forall r e a b, Forall LPr (lines_of (ANElement e)) -> KP (type_items (ANElement e)) -> ~ (exists r, e = ALineElt r) ->
     Post false (build_element slc f r e) (fun d v => Rl d (nfs (ANode a (ANElement e) b)) /\
       (One v \/ Inlines v) /\ (is_inline (None, ANode a (ANElement e) b) -> Inlines v) /\ ((exists b, e = ABlockElt b) -> One v))).
Proof.
  induction f as [|f IH].
  { repeat split; intros; apply post_fuel. }
  destruct IH as (Ic & Il & Ibl & Iec & Iei & Iel & Ipc & Ips & Ibb & Ibi & Ibs & Ibe).
  assert (HC : forall ns, Forall is_comment ns -> Post false (extend_line slc (S f) ns) (fun d v => fst v = [] /\ Rl d (ifs ns) /\ Hidden (snd v))).
  { intros [|[sp [s t n]] rest] H; cbn [extend_line].
    { apply post_ret. split; [reflexivity|]. split; [apply Rl_refl|apply hidden_nil]. }
    inversion H as [|? ? H1 H2]; subst. destruct t as [m|t|sl|e]; try contradiction. destruct t as [| |c|]; try contradiction.
    eapply post_bind with (Q := fun d v => fst v = rest /\ Rl d (nfs (ANode s (ANText (AComment c)) n)) /\ Hidden (snd v)).
    { eapply post_bind; [apply post_and; [apply reports_inline_text|apply inline_text_inlines]|]. intros d v [-> [_ Hh]].
      apply post_ret. rewrite app_nil_r. split; [reflexivity|]. split; [apply Rl_refl|exact Hh]. }
    intros d [r out] (Er & Hd & Hh). cbn [fst snd] in *. subst r.
    eapply post_bind; [apply Iec; exact H2|]. intros d' [r out'] (Er & Hd' & Hh'). cbn [fst snd] in *. subst r. apply post_ret.
    rewrite app_nil_r. split; [reflexivity|]. split; [rewrite ifs_cons; now apply Rl_app|].
    apply hidden_app; [apply (hidden_space sp)|now apply hidden_app]. }
  assert (HI : forall ns, Forall is_inline ns -> KP ns -> Post false (extend_line slc (S f) ns) (fun d v => fst v = [] /\ Rl d (ifs ns) /\ Inlines (snd v))).
  { intros [|[sp [s t n]] rest] H HK; cbn [extend_line].
    { apply post_ret. split; [reflexivity|]. split; [apply Rl_refl|apply hidden_inlines, hidden_nil]. }
    inversion H as [|? ? H1 H2]; subst. pose proof (kids_cons _ _ _ HK) as K1. destruct (kids_in _ _ _ _ _ _ HK) as [L2 K2].
    assert (Hgen : forall m, Post false m (fun d v => fst v = rest /\ Rl d (nfs (ANode s t n)) /\ Inlines (snd v)) ->
      Post false (let* (rest', out) := m in let* (rest'', out') := extend_line slc f rest' in
        ret (rest'', spaces sp ++ out ++ out')) (fun d v => fst v = [] /\ Rl d (ifs ((sp, ANode s t n) :: rest)) /\ Inlines (snd v))).
    { intros m Hm. eapply post_bind; [exact Hm|]. intros d [r out] (Er & Hd & Hh). cbn [fst snd] in *. subst r.
      eapply post_bind; [apply Iei; assumption|]. intros d' [r out'] (Er & Hd' & Hh'). cbn [fst snd] in *. subst r. apply post_ret.
      rewrite app_nil_r. split; [reflexivity|]. split; [rewrite ifs_cons; now apply Rl_app|].
      apply inlines_app; [apply hidden_inlines, (hidden_space sp)|now apply inlines_app]. }
    destruct t as [m|t|sl|e]; try contradiction.
    - apply Hgen. eapply post_bind; [apply post_and; [apply reports_inline_text|apply inline_text_inlines]|]. intros d v [-> [Hh _]].
      apply post_ret. rewrite app_nil_r. split; [reflexivity|]. split; [apply Rl_refl|exact Hh].
    - destruct e as [c|b|i|sp']; try contradiction.
      + apply Hgen. eapply post_bind; [apply (Ibe _ _ s n); try assumption; intros [? E]; discriminate|]. intros d v (Hd & _ & Hh & _). apply post_ret.
        rewrite app_nil_r. split; [reflexivity|]. split; [exact Hd|]. now apply Hh.
      + apply Hgen. eapply post_bind; [apply (Ibe _ _ s n); try assumption; intros [? E]; discriminate|]. intros d v (Hd & _ & Hh & _). apply post_ret.
        rewrite app_nil_r. split; [reflexivity|]. split; [exact Hd|]. now apply Hh. }
  split; [|split; [|split; [|split; [exact HC|split; [exact HI|split; [|split; [|split; [|split; [|split; [|split]]]]]]]]]].
  - intros c p H1 H2. cbn [build_content]. eapply post_bind; [apply Il; [exact H1|exact H2]|]. intros d v Hd. apply post_ret. now rewrite app_nil_r.
  - intros ls le out p H1 H2. cbn [build_lines]. destruct ls as [|l ls].
    { apply post_ret. apply Rl_refl. }
    cbn [map flat_map] in *. inversion H1 as [|? ? Hl Hls]; subst. apply kids_app in H2 as [K1 K2].
    eapply post_bind with (Q := fun d _ => Rl d (ifs (ln_nodes l))).
    + destruct (ln_nodes l) as [|n ns] eqn:E; [apply post_ret; apply Rl_refl|]. rewrite <- E in *. clear E n ns.
      eapply post_bind; [apply Ibl; [apply Hl|exact K1]|]. intros d [r line] (HG & HS & _). apply post_ret. rewrite app_nil_r.
      eapply got_all; eassumption.
    + intros d v Hd. eapply post_impl; [apply Il; assumption|]. intros d' v' Hd'. now apply Rl_app.
  - intros ns H1 H2. cbn [build_line]. eapply post_bind; [apply Iel; assumption|]. intros d [rest out] (HG & HS & HO). cbn [fst snd] in *.
    eapply post_bind; [apply validate_good; exact HO|]. intros d' [] ->. apply post_ret. rewrite !app_nil_r. split; [exact HG|]. now split.
  - intros [|[sp [s t n]] rest] H HK.
    { eapply post_impl; [apply (HI []); [constructor|exact HK]|]. intros d v (E & Hd & Hh). split; [rewrite E; now apply got_done|]. split; [now left|now left]. }
    pose proof (kids_cons _ _ _ HK) as K1. destruct (kids_in _ _ _ _ _ _ HK) as [L2 K2].
    destruct (proper_cases _ _ H) as [H1|[[H1 H2]|[[H1 H2]|[[H1 H2]|[H1 H2]]]]].
    + eapply post_impl; [apply (HI _ H1 HK)|]. intros d v (E & Hd & Hh). split; [rewrite E; now apply got_done|]. split; [now left|now left].
    + destruct t as [m|t|sl|e]; try contradiction. destruct t as [| |c|]; try contradiction. cbn [extend_line].
      eapply post_bind with (Q := fun d v => fst v = rest /\ Rl d (nfs (ANode s (ANText (AComment c)) n)) /\ Hidden (snd v)).
      { eapply post_bind; [apply post_and; [apply reports_inline_text|apply inline_text_inlines]|]. intros d v [-> [_ Hh]].
        apply post_ret. rewrite app_nil_r. split; [reflexivity|]. split; [apply Rl_refl|exact Hh]. }
      intros d [r out] (Er & Hd & Hh). cbn [fst snd] in *. subst r.
      eapply post_bind; [apply Iel; assumption|]. intros d' [r out'] (HG & HS & HO). cbn [fst snd] in *. apply post_ret.
      rewrite app_nil_r. split; [now apply got_cons|]. split.
      * destruct HS; [now left|right]. apply line_shape_cons; [exact I|assumption].
      * apply good_l; [apply (hidden_space sp)|now apply good_l].
    + cbn [extend_line].
      assert (Hgen : forall m, Post false m (fun d v => fst v = rest /\ Rl d (nfs (ANode s t n)) /\ One (snd v)) ->
        Post false (let* (rest', out) := m in let* (rest'', out') := extend_line slc f rest' in
          ret (rest'', spaces sp ++ out ++ out')) (LineQ ((sp, ANode s t n) :: rest))).
      { intros m Hm. eapply post_bind; [exact Hm|]. intros d [r out] (Er & Hd & Hh). cbn [fst snd] in *. subst r.
        eapply post_bind; [apply Iec; assumption|]. intros d' [r out'] (Er & Hd' & Hh'). cbn [fst snd] in *. subst r. apply post_ret.
        rewrite app_nil_r. split; [apply got_done; cbn [fst]; rewrite ifs_cons; now apply Rl_app|]. split; [now left|]. right.
        apply one_l; [apply (hidden_space sp)|now apply one_r]. }
      destruct t as [m|t|sl|e]; try contradiction.
      * apply Hgen. eapply post_bind; [apply (reports_multiline _ s m n)|]. intros d v ->. apply post_ret. rewrite app_nil_r.
        split; [reflexivity|]. split; [apply Rl_refl|apply one_sing].
      * destruct e as [c|b|i|sp']; try contradiction. apply Hgen.
        eapply post_bind; [apply (Ibe _ _ s n); try assumption; intros [? E]; discriminate|]. intros d v (Hd & _ & _ & Ho). apply post_ret.
        rewrite app_nil_r. split; [reflexivity|]. split; [exact Hd|]. apply Ho. eauto.
    + destruct t as [m|t|sl|e]; try contradiction. cbn [extend_line].
      eapply post_bind with (Q := fun d v => Got ((sp, ANode s (ANSelector sl) n) :: rest) d (fst v) /\ One (snd v)).
      { eapply post_bind; [apply reports_selector|]. intros d v ->. eapply post_impl; [apply Ips; assumption|].
        intros d' [r out] (HG & _ & Ho). cbn [fst snd] in *. split; [|exact Ho]. apply got_cons; [apply Rl_refl|exact HG]. }
      intros d [r out] ((Hr & D & E & Hd) & Ho). cbn [fst snd] in *.
      eapply post_bind; [apply Iec; exact Hr|]. intros d' [r' out'] (Er & Hd' & Hh). cbn [fst snd] in *. subst r'. apply post_ret.
      rewrite app_nil_r. split; [apply got_done; cbn [fst]; rewrite E; now apply Rl_app|]. split; [now left|]. right.
      apply one_l; [apply (hidden_space sp)|now apply one_r].
    + destruct t as [m|t|sl|e]; try contradiction. destruct e as [c|b|i|sp']; try contradiction. cbn [extend_line].
      eapply post_bind; [apply Ipc; assumption|]. intros d [r out] (HG & HS & Ho). cbn [fst snd] in *. apply post_ret. rewrite app_nil_r.
      split; [apply (got_cons sp (ANode s (ANElement (ALineElt c)) n) rest [] d); [apply Rl_refl|exact HG]|]. split.
      * destruct HS as [HS|(mid & i & -> & H3 & H4)]; [now left|right]. exists [], (sp, ANode s (ANElement (ALineElt c)) n), mid, i. auto.
      * right. apply one_l; [apply (hidden_space sp)|exact Ho].
  - intros pr ns sels la H HK. cbn [post_child].
    assert (Hfall : Post false (let* (rest, children) := build_line slc f ns in
        ret (rest, [elt_node (mkElt match rev children with n :: _ => Doc.combine pr (n_range n) | [] => pr end
             sels (mkR (r_end pr) (r_end match rev children with n :: _ => Doc.combine pr (n_range n) | [] => pr end))
             children (Standard (DLine la)) false false)])) (ChainQ ns)).
    { eapply post_bind; [apply Ibl; assumption|]. intros d [r out] (HG & HS & _). cbn [fst snd] in *. apply post_ret. rewrite app_nil_r.
      split; [exact HG|]. split; [|apply one_sing]. destruct HS; [now left|right; now apply line_shape]. }
    destruct ns as [|[sp [s t n]] rest]; [exact Hfall|].
    pose proof (kids_cons _ _ _ HK) as K1. destruct (kids_in _ _ _ _ _ _ HK) as [L2 K2].
    destruct t as [m|t|sl|e]; try exact Hfall.
    + destruct (proper_cases _ _ H) as [H1|[[[] _]|[[[] _]|[[_ H2]|[[] _]]]]]; [inversion H1; contradiction|].
      eapply post_bind; [apply reports_selector|]. intros d v ->. eapply post_impl; [apply Ips; assumption|].
      intros d' [r out] (HG & HS & Ho). cbn [fst snd] in *. split; [apply got_cons; [apply Rl_refl|exact HG]|]. split; [|exact Ho].
      destruct HS; [now left|right]. apply shape_cons; [now left|assumption].
    + destruct e as [c|b|i|sp']; try exact Hfall.
      * destruct (proper_cases _ _ H) as [H1|[[[] _]|[[[] _]|[[[] _]|[_ H2]]]]]; [inversion H1; contradiction|].
        eapply post_impl; [apply Ipc; assumption|].
        intros d [r out] (HG & HS & Ho). cbn [fst snd] in *. split; [apply (got_cons sp (ANode s (ANElement (ALineElt c)) n) rest [] d); [apply Rl_refl|exact HG]|].
        split; [|exact Ho]. destruct HS; [now left|right]. apply shape_cons; [right; now left|assumption].
      * destruct (proper_cases _ _ H) as [H1|[[[] _]|[[_ H2]|[[[] _]|[[] _]]]]]; [inversion H1; contradiction|].
        eapply post_bind; [apply Ibb; assumption|]. intros d e Hd. apply post_ret. rewrite app_nil_r. cbn [fst snd].
        split; [now apply got_stop|]. split; [|apply one_sing]. right. exists [], (sp, ANode s (ANElement (ABlockElt b)) n). repeat split; auto.
  - intros pr ns sels la H HK. destruct (rest_cases _ H) as ([sp [s t n]] & rest & -> & HH). cbn [post_selector].
    pose proof (kids_cons _ _ _ HK) as K1. destruct (kids_in _ _ _ _ _ _ HK) as [L2 K2].
    destruct HH as [[H1 H2]|[[H1 H2]|[H1 H2]]]; destruct t as [m|t|sl|e]; try contradiction.
    + destruct t as [| |c|]; try contradiction.
      eapply post_bind; [apply post_and; [apply reports_comment|apply (inline_text_inlines (AComment c))]|]. intros d v [-> [_ Hh]].
      eapply post_bind; [apply Ips; assumption|]. intros d' [r out] (HG & HS & Ho). cbn [fst snd] in *. apply post_ret. rewrite app_nil_r.
      split; [apply got_cons; [apply Rl_refl|exact HG]|]. split; [|apply (one_l [v]); assumption].
      destruct HS; [now left|right]. apply shape_cons; [right; now right|assumption].
    + destruct e as [c|b|i|sp']; try contradiction.
      eapply post_bind; [apply Ibb; assumption|]. intros d e Hd. apply post_ret. rewrite app_nil_r. cbn [fst snd].
      split; [now apply got_stop|]. split; [|apply one_sing]. right. exists [], (sp, ANode s (ANElement (ABlockElt b)) n). repeat split; auto.
    + destruct e as [c|b|i|sp']; try contradiction. eapply post_impl; [apply Ipc; assumption|].
      intros d [r out] (HG & HS & Ho). cbn [fst snd] in *. split; [apply (got_cons sp (ANode s (ANElement (ALineElt c)) n) rest [] d); [apply Rl_refl|exact HG]|].
      split; [|exact Ho]. destruct HS; [now left|right]. apply shape_cons; [right; now left|assumption].
  - intros r b p H1 H2. cbn [build_block]. eapply post_bind; [apply reports_unclosed|]. intros d [] ->.
    eapply post_bind; [apply Ic; assumption|]. intros d v Hd. apply post_ret. rewrite app_nil_r. now apply Rl_app_l.
  - intros r i H1 H2. cbn [build_inline]. eapply post_bind; [apply reports_unclosed|]. intros d [] ->.
    eapply post_bind; [apply Ibl; [apply H1|exact H2]|]. intros d [rest line] (HG & HS & HO). cbn [fst snd] in *.
    eapply post_bind; [apply validate_good; exact HO|]. intros d' [] ->. apply post_ret. rewrite !app_nil_r. split.
    + apply Rl_app_l. eapply got_all; eassumption.
    + pose proof (inline_first_good r line HO) as HF. destruct (inline_first r line); [exact HF|].
      intros n [<-|[]] _. reflexivity.
  - intros r s a b H1 H2. cbn [build_special]. destruct s as [k o c cl|code].
    + eapply post_bind; [apply reports_unclosed|]. intros d [] ->.
      eapply post_bind; [apply Ic; assumption|]. intros d v Hd. apply post_ret. rewrite app_nil_r. split; [|eexists; reflexivity].
      cbn [node_faults]. replace (special_of_kind k) with (special_kind_of k) by (now destruct k). now apply Rl_app_l.
    + eapply post_bind; [apply (reports_text _ false)|]. intros d v ->. apply post_ret. split; [apply Rl_refl|eexists; reflexivity].
  - intros r e a b H1 H2 HN. cbn [build_element]. destruct e as [c|bl|i|sp].
    + exfalso. apply HN. now exists c.
    + eapply post_bind; [apply Ibb; assumption|]. intros d v Hd. apply post_ret. rewrite app_nil_r. split; [exact Hd|].
      split; [left; apply one_sing|]. split; [contradiction|]. intros _. apply one_sing.
    + inversion H1; subst. eapply post_impl; [apply Ibi; assumption|]. intros d v [Hd Hi]. split; [exact Hd|].
      split; [now right|]. split; [auto|]. intros [? E]. discriminate.
    + eapply post_bind; [apply (Ibs _ _ a b); assumption|]. intros d v (Hd & k & Ek). apply post_ret. rewrite app_nil_r. split; [exact Hd|].
      assert (Inlines [elt_node v]) as Hi by (intros n [<-|[]] _; unfold alone; cbn; now rewrite Ek).
      split; [now right|]. split; [auto|]. intros [? E]. discriminate.
Qed.

Theorem from_ast_faults : forall c, all_lines LPr c -> Post false (from_ast slc c) (fun d _ => Rl d (cfs c)).
Proof. intros c [H1 H2]. apply (proj1 (build_faults _)); [|exact H2]. now apply Forall_map. Qed.
End Faults.

(** ** The converse: what a run without errors says about the tree *)

Scheme proper_line_mut := Minimality for proper_line Sort Prop
with proper_rest_mut := Minimality for proper_rest Sort Prop.
Lemma proper_more : forall cs', Forall is_comment cs' ->
  (forall l, proper_line l -> proper_line (l ++ cs')) /\ (forall l, proper_rest l -> proper_rest (l ++ cs')).
Proof.
  intros cs' H.
  assert (forall l, proper_line l -> proper_line (l ++ cs')) as HP.
  { apply (proper_line_mut (fun l => proper_line (l ++ cs')) (fun l => proper_rest (l ++ cs'))).
    - intros l Hl. apply PrText. apply Forall_app. split; [assumption|now apply comments_inline].
    - intros cs i cs1 H1 H2 H3. rewrite <- app_assoc. cbn [app]. apply PrAlone; auto. apply Forall_app. now split.
    - intros cs s l H1 H2 _ H3. rewrite <- app_assoc. cbn [app]. now apply PrElement.
    - intros cs s l H1 H2 _ H3. rewrite <- app_assoc. cbn [app]. now apply PrUnnamed.
    - intros cs i cs1 H1 H2 H3. rewrite <- app_assoc. cbn [app]. apply PrBlock; auto. apply Forall_app. now split.
    - intros cs s l H1 H2 _ H3. rewrite <- app_assoc. cbn [app]. now apply PrChild. }
  split; [exact HP|]. intros l HR. destruct HR; rewrite <- app_assoc; cbn [app].
  - apply PrBlock; auto. apply Forall_app. now split.
  - apply PrChild; auto.
Qed.

Inductive Seq : list a_item -> list bool -> Prop :=
| SqNil : Seq [] []
| SqComment : forall i l k, is_comment i -> Seq l k -> Seq (i :: l) k
| SqInline : forall i l k k', is_inline i -> k <> [] -> Forall (eq false) k -> Seq l k' -> Seq (i :: l) (k ++ k')
| SqOwn : forall i l k, is_own_line i -> Seq l k -> Seq (i :: l) (true :: k)
| SqSel : forall i u l k, is_selector i -> proper_rest u -> Seq l k -> Seq (i :: u ++ l) (true :: k)
| SqComb : forall i u, is_combinator i -> proper_line u -> Seq (i :: u) [true].
Lemma seq_none : forall u k, Seq u k -> k = [] -> Forall is_comment u.
Proof.
  intros u k H. induction H as [|i l k Hi H IH|i l k k' Hi Hk Hf H IH|i l k Hi H IH|i u l k Hi Hu H IH|i u Hi Hu]; intros E; try discriminate.
  - constructor.
  - constructor; auto.
  - apply app_nil in E as [-> _]. contradiction.
Qed.
Lemma seq_false : forall u k, Seq u k -> Forall (eq false) k -> Forall is_inline u.
Proof.
  intros u k H. induction H as [|i l k Hi H IH|i l k k' Hi Hk Hf H IH|i l k Hi H IH|i u l k Hi Hu H IH|i u Hi Hu]; intros E;
    try (inversion E; discriminate).
  - constructor.
  - constructor; [now apply comment_inline|auto].
  - apply Forall_app in E as [_ E]. constructor; auto.
Qed.
Lemma seq_proper : forall u k, Seq u k -> Forall (eq false) k \/ (exists b, k = [b]) -> proper_line u.
Proof.
  intros u k H [E|[b E]]; [constructor; now apply (seq_false u k)|]. destruct b; [|constructor; apply (seq_false u k H); rewrite E; auto].
  revert E. induction H as [|i l k Hi H IH|i l k k' Hi Hk Hf H IH|i l k Hi H IH|i u l k Hi Hu H IH|i u Hi Hu]; intros E; try discriminate.
  - apply proper_comment; auto.
  - exfalso. destruct k as [|x k]; [contradiction|]. injection E as -> _. inversion Hf. discriminate.
  - injection E as ->. apply (PrAlone []); [constructor|exact Hi|now apply (seq_none l [])].
  - injection E as ->. apply (PrElement []); [constructor|exact Hi|]. apply proper_more; [now apply (seq_none l [])|exact Hu].
  - apply (PrUnnamed []); [constructor|exact Hi|exact Hu].
Qed.

Definition flags (ns : list node) : list bool := map alone (filter is_visible ns).
Lemma flags_app : forall a b, flags (a ++ b) = flags a ++ flags b.
Proof. intros a b. unfold flags. now rewrite filter_app, map_app. Qed.
Lemma flags_hidden : forall a, Hidden a -> flags a = [].
Proof.
  unfold flags. induction a as [|n a IH]; intros H; [reflexivity|]. cbn [filter]. rewrite (H n (or_introl eq_refl)). apply IH.
  intros m Hm. apply H. now right.
Qed.
Lemma flags_space : forall sp, flags (spaces sp) = [].
Proof. intros sp. apply flags_hidden, hidden_space. Qed.
Lemma validate_flags : forall ns last, Clean (validate_from last ns)
  (fun _ => match last with
            | None => Forall (eq false) (flags ns) \/ exists b, flags ns = [b]
            | Some (lt, _) => if stands_alone lt then flags ns = [] else Forall (eq false) (flags ns)
            end).
Proof.
  induction ns as [|n ns IH]; intros last.
  { apply clean_ret. destruct last as [[lt lr]|]; [destruct (stands_alone lt); constructor|left; constructor]. }
  destruct (is_visible n) eqn:Hv.
  - rewrite validate_step by exact Hv. assert (flags (n :: ns) = alone n :: flags ns) as -> by (unfold flags; cbn [filter]; now rewrite Hv).
    eapply clean_bind with (Q := fun _ => match last with Some (lt, _) => stands_alone lt = false /\ alone n = false | None => True end).
    + destruct last as [[lt lr]|]; [|now apply clean_ret]. unfold misplaced.
      destruct (stands_alone lt); [apply clean_syntax; discriminate|].
      fold (alone n). destruct (alone n) eqn:E; [apply clean_syntax; discriminate|apply clean_ret; auto].
    + intros. apply ff_validate.
    + intros _ Hl. eapply clean_impl; [apply IH|]. intros [] H. fold (alone n) in H. destruct last as [[lt lr]|].
      * destruct Hl as [E1 E2]. rewrite E1. rewrite E2 in *. constructor; auto.
      * destruct (alone n); [right; rewrite H; eauto|left; constructor; auto].
  - rewrite validate_skip by exact Hv. assert (flags (n :: ns) = flags ns) as -> by (unfold flags; cbn [filter]; now rewrite Hv). apply IH.
Qed.

Section Converse.
Variable slc : lrange -> str.
Notation nfs := (node_faults escape_errors slc).
Notation ifs := (items_faults escape_errors slc).
Notation cfs := (faults escape_errors slc).

Definition TU (l : list a_item) : Prop := tidy_line l /\ selectors_used l.
Notation KT := (Kids TU).
Definition W (l : list a_item) : Prop := ifs l = [] /\ Kids proper_line l.
Lemma W_nil : W [].
Proof. split; [reflexivity|apply kids_nil]. Qed.
Lemma W_app : forall a b, W a -> W b -> W (a ++ b).
Proof.
  intros a b [Ha Ka] [Hb Kb]. split; [|now apply kids_join]. unfold items_faults in *. now rewrite flat_map_app, Ha, Hb.
Qed.
Lemma W_cons : forall sp s t n l, nfs (ANode s t n) = [] -> Forall proper_line (lines_of t) -> Kids proper_line (type_items t) ->
  W l -> W ((sp, ANode s t n) :: l).
Proof.
  intros sp s t n l H1 H2 H3 [Hb Kb]. split; [|now apply kids_made]. unfold items_faults in *. cbn [flat_map snd]. now rewrite H1, Hb.
Qed.
Lemma W_plain : forall sp s t n l, nfs (ANode s t n) = [] -> lines_of t = [] -> type_items t = [] -> W l -> W ((sp, ANode s t n) :: l).
Proof. intros sp s t n l H1 H2 H3 H. apply W_cons; auto; [rewrite H2; constructor|rewrite H3; apply kids_nil]. Qed.
(** The lines of a content *)
Definition WL (ls : list a_line) : Prop := Forall proper_line (map ln_nodes ls) /\ W (flat_map ln_nodes ls).
Lemma WL_faults : forall ls, WL ls -> flat_map (fun l => ifs (ln_nodes l)) ls = [].
Proof.
  intros ls [_ [H _]]. unfold items_faults in *. induction ls as [|l ls IH]; [reflexivity|]. cbn [flat_map] in *.
  rewrite flat_map_app in H. apply app_nil in H as [-> H]. now apply IH.
Qed.
Lemma used_app : forall a b, selectors_used (a ++ b) -> selectors_used b.
Proof. intros a b H x i cs -> Hi. apply (H (a ++ x) i cs); [now rewrite <- app_assoc|exact Hi]. Qed.
Lemma reports_clean : forall A (m : M A) D, reports m D -> Clean m (fun _ => D = []).
Proof. intros A m D H. eapply post_impl; [exact H|]. intros d v -> E. exact E. Qed.
Lemma tidy_stop : forall ns rest, tidy_line ns -> rest = [] \/ LineShape ns rest -> rest = [].
Proof.
  intros ns rest HT [H|(cs & c & mid & i & E & H1 & H2 & H3 & H4)]; [exact H|]. exact (HT cs c mid i rest E H1 H2 H3 H4).
Qed.

Definition LineW (ns : list a_item) (v : list a_item * list node) : Prop := exists u, ns = u ++ fst v /\ W u /\ proper_line u.
Definition ChainW (P : list a_item -> Prop) (ns : list a_item) (v : list a_item * list node) : Prop :=
  exists u, ns = u ++ fst v /\ W u /\ P u /\ flags (snd v) = [true].
Definition ExtW (ns : list a_item) (v : list a_item * list node) : Prop :=
  exists u, ns = u ++ fst v /\ W u /\ Seq u (flags (snd v)).

Lemma text_flag : forall t, Clean (build_inline_text slc t) (fun n => flags [n] = match t with AComment _ => [] | _ => [false] end).
Proof.
  intros [r|v|c|r]; cbn [build_inline_text]; unfold build_text_node, escapable_slice, build_comment.
  - eapply clean_bind; [apply clean_true; ff|intros; ff|]. intros v _. now apply clean_ret.
  - apply clean_ret. unfold build_verbatim. now destruct (av_tail v).
  - eapply clean_bind; [apply clean_true; unfold unclosed; ff|intros; ff|]. intros v _. now apply clean_ret.
  - eapply clean_bind; [apply clean_true; ff|intros; ff|]. intros v _. now apply clean_ret.
Qed.
Lemma multiline_flag : forall r m, Clean (build_multiline slc r m) (fun n => flags [n] = [true]).
Proof. intros r m. unfold build_multiline. eapply clean_bind; [apply clean_true, ff_text|intros; ff|]. intros v _. now apply clean_ret. Qed.
Lemma inline_first_flags : forall r line line', inline_first r line = Some line' ->
  Forall (eq false) (flags line) \/ (exists b, flags line = [b]) -> flags line' = [false].
Proof.
  induction line as [|n line IH]; cbn [inline_first]; intros line' E H; [discriminate|].
  destruct (is_visible n) eqn:Hv.
  - destruct n as [r0 e|]; [|discriminate]. destruct (e_type e) eqn:Et; try discriminate. injection E as <-.
    assert (flags (NElt r0 e :: line) = true :: flags line) as Hf.
    { unfold flags, alone. cbn [filter is_visible map item_type_of]. now rewrite Et. }
    rewrite Hf in H. assert (flags line = []) as Hl. { destruct H as [H|[b H]]; [inversion H; discriminate|now injection H]. }
    unfold flags in *. cbn [filter is_visible map]. now rewrite Hl.
  - assert (flags (n :: line) = flags line) as Hf by (unfold flags; cbn [filter]; now rewrite Hv). rewrite Hf in H.
    destruct (inline_first r line) as [l0|]; [|discriminate]. injection E as <-. unfold flags at 1. cbn [filter]. rewrite Hv. now apply IH.
Qed.

Theorem build_converse : forall f,
  (forall c p, Forall TU (map ln_nodes (ct_lines c)) -> KT (content_items c) -> Clean (build_content slc f c p) (fun _ => WL (ct_lines c))) /\
  (forall ls le out p, Forall TU (map ln_nodes ls) -> KT (flat_map ln_nodes ls) -> Clean (build_lines slc f ls le out p) (fun _ => WL ls)) /\
  (forall ns, selectors_used ns -> KT ns -> Clean (build_line slc f ns) (fun v => LineW ns v /\ (Forall (eq false) (flags (snd v)) \/ exists b, flags (snd v) = [b]))) /\
  (forall ns, selectors_used ns -> KT ns -> Clean (extend_line slc f ns) (ExtW ns)) /\
  (forall pr ns sels la, selectors_used ns -> KT ns -> Clean (post_child slc f pr ns sels la) (ChainW proper_line ns)) /\
  (forall pr ns sels la, selectors_used ns -> KT ns -> ~ Forall is_comment ns -> Clean (post_selector slc f pr ns sels la) (ChainW proper_rest ns)) /\
  (forall r b p, Forall TU (map ln_nodes (ct_lines (bk_content b))) -> KT (content_items (bk_content b)) ->
     Clean (build_block slc f r b p) (fun e => WL (ct_lines (bk_content b)) /\ not_closed (bk_rbrace b) (bk_lbrace b) UBlock = [] /\ exists d, e_type e = Standard d)) /\
  (forall r i, TU (in_inner i) -> KT (in_inner i) ->
     Clean (build_inline slc f r i) (fun v => W (in_inner i) /\ proper_line (in_inner i) /\ not_closed (in_close i) (in_open i) UInline = [] /\ flags v = [false])) /\
  (forall r s a b, Forall TU (lines_of (ANElement (ASpecialElt s))) -> KT (type_items (ANElement (ASpecialElt s))) ->
     Clean (build_special slc f r s) (fun e => W [(None, ANode a (ANElement (ASpecialElt s)) b)] /\ exists k, e_type e = Special k)) /\
  (forall r e a b, Forall TU (lines_of (ANElement e)) -> KT (type_items (ANElement e)) -> ~ (exists r, e = ALineElt r) ->
     Clean (build_element slc f r e) (fun v => W [(None, ANode a (ANElement e) b)] /\
       flags v = match e with ABlockElt _ => [true] | _ => [false] end)).
Proof.
  pose proof ff_comment as Fc. pose proof ff_selector as Fs. pose proof ff_validate as Fv. pose proof (ff_text slc) as Ft.
  pose proof (ff_inline_text slc) as Fi. pose proof (ff_multiline slc) as Fm.
  induction f as [|f IH].
  { repeat split; intros; apply clean_fuel. }
  destruct (build_ff slc f) as (Fbc & Fbl & Fln & Fel & Fpc & Fps & Fbb & Fbi & Fbs & Fbe).
  destruct IH as (Ic & Il & Ibl & Iel & Ipc & Ips & Ibb & Ibi & Ibs & Ibe).
  pose proof (proj1 (build_stop slc f)) as Hstop.
  assert (HWc : forall sp s c n l, not_closed (ac_close c) (ac_open c) UComment = [] -> W l -> W ((sp, ANode s (ANText (AComment c)) n) :: l)).
  { intros. now apply W_plain. }
  split; [|split; [|split; [|split; [|split; [|split; [|split; [|split; [|split]]]]]]]].
  - intros c p H1 H2. cbn [build_content]. eapply clean_bind; [apply Il; [exact H1|exact H2]|intros; ff|]. intros v Hv. now apply clean_ret.
  - intros ls le out p H1 H2. cbn [build_lines]. destruct ls as [|l ls].
    { apply clean_ret. split; [constructor|apply W_nil]. }
    cbn [map flat_map] in *. inversion H1 as [|? ? Hl Hls]; subst. apply kids_app in H2 as [K1 K2].
    eapply clean_bind with (Q := fun _ => proper_line (ln_nodes l) /\ W (ln_nodes l)); [|intros; ff|].
    + destruct (ln_nodes l) as [|n ns] eqn:E; [apply clean_ret; split; [constructor; constructor|apply W_nil]|]. rewrite <- E in *. clear E n ns.
      eapply clean_bind; [apply clean_and; [apply Ibl; [exact (proj2 Hl)|exact K1]|apply Hstop]|intros; ff|].
      intros [r line] [[(u & Eu & HW & HP) _] HS]. cbn [fst snd] in *. apply (tidy_stop _ _ (proj1 Hl)) in HS. subst r.
      rewrite app_nil_r in Eu. subst u. now apply clean_ret.
    + intros v [HP HW]. eapply clean_impl; [apply Il; auto|]. intros w [H3 H4]. split; [constructor; assumption|]. cbn [flat_map]. now apply W_app.
  - intros ns H1 H2. cbn [build_line]. eapply clean_bind; [apply Iel; assumption|intros; unfold validate_line; ff|].
    intros [rest out] (u & E & HW & HS). cbn [fst snd] in *.
    eapply clean_bind; [apply validate_flags|intros; ff|]. intros [] HF. apply clean_ret. split; [|exact HF].
    exists u. split; [exact E|]. split; [exact HW|]. now apply (seq_proper _ _ HS).
  - intros ns H1 H2. cbn [extend_line]. destruct ns as [|[sp [s t n]] rest].
    { apply clean_ret. exists []. split; [reflexivity|]. split; [apply W_nil|constructor]. }
    pose proof (used_app [_] _ H1) as U1. pose proof (kids_cons _ _ _ H2) as K1.
    destruct (kids_in _ _ _ _ _ _ H2) as [L1 K2].
    assert (Hgen : forall m (Q : list a_item * list node -> Prop), Clean m Q ->
      (forall r out, Q (r, out) -> exists w, (sp, ANode s t n) :: rest = w ++ r /\ W w /\ (forall l k, Seq l k -> Seq (w ++ l) (flags out ++ k))) ->
      Clean (let* (rest', out) := m in let* (rest'', out') := extend_line slc f rest' in
            ret (rest'', spaces sp ++ out ++ out')) (ExtW ((sp, ANode s t n) :: rest))).
    { intros m Q Hm HQ. eapply clean_bind; [exact Hm|intros; ff|]. intros [r out] Hv. destruct (HQ _ _ Hv) as (w & E & HW & HS).
      eapply clean_bind; [apply Iel|intros; ff|].
      - rewrite E in H1. now apply used_app in H1.
      - rewrite E in H2. now apply kids_app in H2.
      - intros [r2 out2] (u & E2 & HW2 & HS2). cbn [fst snd] in *. apply clean_ret. exists (w ++ u). cbn [fst snd].
        split; [rewrite E, E2; apply app_assoc|]. split; [now apply W_app|]. rewrite !flags_app, flags_space. now apply HS. }
    destruct t as [m|t|sl|e].
    + eapply Hgen with (Q := fun v => fst v = rest /\ nfs (ANode s (ANMultiline m) n) = [] /\ flags (snd v) = [true]).
      * eapply clean_bind; [apply clean_and; [apply reports_clean, (reports_multiline slc _ s m n)|apply multiline_flag]|intros; ff|].
        intros v [Hf Hv]. now apply clean_ret.
      * intros r out (E & Hf & Ho). cbn [fst snd] in *. subst r. exists [(sp, ANode s (ANMultiline m) n)]. split; [reflexivity|].
        split; [apply W_plain; auto; apply W_nil|]. intros l k Hl. rewrite Ho. cbn [app]. now constructor.
    + eapply Hgen with (Q := fun v => fst v = rest /\ text_faults escape_errors slc t = [] /\ flags (snd v) = match t with AComment _ => [] | _ => [false] end).
      * eapply clean_bind; [apply clean_and; [apply reports_clean, (reports_inline_text slc t)|apply text_flag]|intros; ff|].
        intros v [Hf Hv]. now apply clean_ret.
      * intros r out (E & Hf & Ho). cbn [fst snd] in *. subst r. exists [(sp, ANode s (ANText t) n)]. split; [reflexivity|].
        split; [apply W_plain; auto; apply W_nil|]. intros l k Hl. rewrite Ho. cbn [app].
        destruct t; [apply (SqInline _ _ [false])|apply (SqInline _ _ [false])|apply SqComment|apply (SqInline _ _ [false])];
          try discriminate; try exact I; auto.
    + eapply Hgen with (Q := fun v => exists u, rest = u ++ fst v /\ W ((sp, ANode s (ANSelector sl) n) :: u) /\ proper_rest u /\ flags (snd v) = [true]).
      * eapply clean_bind; [apply reports_clean, reports_selector|intros; ff|]. intros v Hf. eapply clean_impl; [apply Ips; auto|].
        -- exact (H1 [] _ rest eq_refl I).
        -- intros [r out] (u & E & HW & HP & Ho). exists u. split; [exact E|]. split; [|now split]. apply W_plain; auto.
      * intros r out (u & E & HW & HP & Ho). cbn [fst snd] in *. exists ((sp, ANode s (ANSelector sl) n) :: u). split; [cbn [app]; now rewrite E|].
        split; [exact HW|]. intros l k Hl. rewrite Ho. cbn [app]. now constructor.
    + assert (Hel : ~ (exists r, e = ALineElt r) -> Clean (let* out := build_element slc f (mkR s n) e in ret (rest, out))
        (fun v => fst v = rest /\ W [(None, ANode s (ANElement e) n)] /\ flags (snd v) = match e with ABlockElt _ => [true] | _ => [false] end)).
      { intros HN. eapply clean_bind; [apply (Ibe _ _ s n); assumption|intros; ff|]. intros v [HW Hf]. now apply clean_ret. }
      assert (Hsp : forall m, W [(None, m)] -> W [(sp, m)]).
      { intros [s' t' n'] [Hw Kw]. destruct (kids_in _ _ _ _ _ _ Kw) as [A1 A2]. apply W_cons; auto; [|apply W_nil].
        unfold items_faults in Hw. cbn [flat_map snd] in Hw. now rewrite app_nil_r in Hw. }
      destruct e as [c|b|i|sp'].
      * eapply clean_bind; [apply Ipc; assumption|intros; ff|].
        intros [r out] (u & E & HW & HP & Ho). cbn [fst snd] in *. apply clean_ret. exists ((sp, ANode s (ANElement (ALineElt c)) n) :: u). cbn [fst snd].
        split; [cbn [app]; now rewrite E|]. split; [apply W_plain; auto|].
        match goal with |- Seq _ (flags (?x ++ out)) => change x with (spaces sp) end. rewrite flags_app, flags_space, Ho. now constructor.
      * eapply Hgen; [apply Hel; intros [? E]; discriminate|]. intros r out (E & HW & Hf). cbn [fst snd] in *. subst r.
        exists [(sp, ANode s (ANElement (ABlockElt b)) n)]. split; [reflexivity|]. split; [now apply Hsp|]. intros l k Hl. rewrite Hf. now constructor.
      * eapply Hgen; [apply Hel; intros [? E]; discriminate|]. intros r out (E & HW & Hf). cbn [fst snd] in *. subst r.
        exists [(sp, ANode s (ANElement (AInlineElt i)) n)]. split; [reflexivity|]. split; [now apply Hsp|]. intros l k Hl. rewrite Hf.
        apply (SqInline _ _ [false]); [exact I|discriminate|auto|exact Hl].
      * eapply Hgen; [apply Hel; intros [? E]; discriminate|]. intros r out (E & HW & Hf). cbn [fst snd] in *. subst r.
        exists [(sp, ANode s (ANElement (ASpecialElt sp')) n)]. split; [reflexivity|]. split; [now apply Hsp|]. intros l k Hl. rewrite Hf.
        apply (SqInline _ _ [false]); [exact I|discriminate|auto|exact Hl].
  - intros pr ns sels la H1 H2. cbn [post_child].
    assert (Hfall : Clean (let* (rest, children) := build_line slc f ns in
        ret (rest, [elt_node (mkElt match rev children with n :: _ => Doc.combine pr (n_range n) | [] => pr end
             sels (mkR (r_end pr) (r_end match rev children with n :: _ => Doc.combine pr (n_range n) | [] => pr end))
             children (Standard (DLine la)) false false)])) (ChainW proper_line ns)).
    { eapply clean_bind; [apply Ibl; assumption|intros; ff|]. intros [r out] [(u & E & HW & HP) _]. apply clean_ret. exists u. auto. }
    destruct ns as [|[sp [s t n]] rest]; [exact Hfall|].
    pose proof (used_app [_] _ H1) as U1. pose proof (kids_cons _ _ _ H2) as K1.
    destruct (kids_in _ _ _ _ _ _ H2) as [L1 K2].
    destruct t as [m|t|sl|e]; try exact Hfall.
    + eapply clean_bind; [apply reports_clean, reports_selector|intros; ff|]. intros v Hf. eapply clean_impl; [apply Ips; auto|].
      * exact (H1 [] _ rest eq_refl I).
      * intros [r out] (u & E & HW & HP & Ho). exists ((sp, ANode s (ANSelector sl) n) :: u). split; [cbn [app]; now rewrite E|].
        split; [apply W_plain; auto|]. split; [|exact Ho]. apply (PrElement []); [constructor|exact I|exact HP].
    + destruct e as [c|b|i|sp']; try exact Hfall.
      * eapply clean_impl; [apply Ipc; assumption|]. intros [r out] (u & E & HW & HP & Ho). exists ((sp, ANode s (ANElement (ALineElt c)) n) :: u).
        split; [cbn [app]; now rewrite E|]. split; [apply W_plain; auto|]. split; [|exact Ho]. apply (PrUnnamed []); [constructor|exact I|exact HP].
      * eapply clean_bind; [apply Ibb; assumption|intros; ff|]. intros e (HW & Hc & d & Et). apply clean_ret.
        exists [(sp, ANode s (ANElement (ABlockElt b)) n)]. split; [reflexivity|]. split.
        -- apply W_cons; [|apply HW|apply HW|apply W_nil]. cbn [node_faults]. rewrite Hc. exact (WL_faults _ HW).
        -- split; [|reflexivity]. apply (PrAlone [] _ []); [constructor|exact I|constructor].
  - intros pr ns sels la H1 H2 HC. cbn [post_selector].
    destruct ns as [|[sp [s t n]] rest].
    { exfalso. now apply HC. }
    pose proof (used_app [_] _ H1) as U1. pose proof (kids_cons _ _ _ H2) as K1.
    destruct (kids_in _ _ _ _ _ _ H2) as [L1 K2].
    destruct t as [m|t|sl|e]; try (apply clean_err; ff).
    + destruct t as [| |c|]; try (apply clean_err; ff).
      eapply clean_bind; [apply clean_and; [apply reports_clean, reports_comment|apply (text_flag (AComment c))]|intros; ff|]. intros v [Hf Hv].
      eapply clean_bind; [apply Ips; auto|intros; ff|].
      { intros Hc. apply HC. constructor; [exact I|exact Hc]. }
      intros [r out] (u & E & HW & HP & Ho). apply clean_ret. exists ((sp, ANode s (ANText (AComment c)) n) :: u). cbn [fst snd] in *.
      split; [cbn [app]; now rewrite E|]. split; [now apply HWc|]. split; [apply rest_comment; [exact I|exact HP]|].
      change (v :: out) with ([v] ++ out). now rewrite flags_app, Hv, Ho.
    + destruct e as [c|b|i|sp']; try (apply clean_err; ff).
      * eapply clean_impl; [apply Ipc; assumption|]. intros [r out] (u & E & HW & HP & Ho). exists ((sp, ANode s (ANElement (ALineElt c)) n) :: u).
        split; [cbn [app]; now rewrite E|]. split; [apply W_plain; auto|]. split; [|exact Ho]. apply (PrChild []); [constructor|exact I|exact HP].
      * eapply clean_bind; [apply Ibb; assumption|intros; ff|]. intros e (HW & Hc & d & Et). apply clean_ret.
        exists [(sp, ANode s (ANElement (ABlockElt b)) n)]. split; [reflexivity|]. split.
        -- apply W_cons; [|apply HW|apply HW|apply W_nil]. cbn [node_faults]. rewrite Hc. exact (WL_faults _ HW).
        -- split; [apply (PrBlock [] _ []); [constructor|exact I|constructor]|].
           cbn [snd]. unfold flags, alone. cbn. now rewrite Et.
  - intros r b p H1 H2. cbn [build_block]. eapply clean_bind; [apply reports_clean, reports_unclosed|intros; ff|]. intros [] Hc.
    eapply clean_bind; [apply Ic; assumption|intros; ff|]. intros v Hv. apply clean_ret. split; [exact Hv|]. split; [exact Hc|]. eexists. reflexivity.
  - intros r i H1 H2. cbn [build_inline]. eapply clean_bind; [apply reports_clean, reports_unclosed|intros; unfold validate_line; ff|]. intros [] Hc.
    eapply clean_bind; [apply clean_and; [apply Ibl; [exact (proj2 H1)|exact H2]|apply Hstop]|intros; unfold validate_line; ff|].
    intros [rest line] [[(u & E & HW & HP) HF] HS]. cbn [fst snd] in *. apply (tidy_stop _ _ (proj1 H1)) in HS. subst rest.
    rewrite app_nil_r in E. subst u.
    eapply clean_bind; [apply clean_true; apply Fv|intros; ff|]. intros _ _. apply clean_ret. split; [exact HW|]. split; [exact HP|]. split; [exact Hc|].
    destruct (inline_first r line) as [l'|] eqn:E; [now apply (inline_first_flags r line)|reflexivity].
  - intros r s a b H1 H2. cbn [build_special]. destruct s as [k o c cl|code].
    + eapply clean_bind; [apply reports_clean, reports_unclosed|intros; ff|]. intros [] Hc.
      eapply clean_bind; [apply Ic; assumption|intros; ff|]. intros v Hv. apply clean_ret. split; [|eexists; reflexivity].
      apply W_cons; [|apply Hv|apply Hv|apply W_nil]. cbn [node_faults].
      replace (special_of_kind k) with (special_kind_of k) by (now destruct k). rewrite Hc. exact (WL_faults _ Hv).
    + eapply clean_bind; [apply clean_true, Ft|intros; ff|]. intros v _. apply clean_ret. split; [|eexists; reflexivity].
      apply W_plain; auto. apply W_nil.
  - intros r e a b H1 H2 HN. cbn [build_element]. destruct e as [c|bl|i|sp].
    + exfalso. apply HN. now exists c.
    + eapply clean_bind; [apply Ibb; assumption|intros; ff|]. intros v (HW & Hc & d & Et). apply clean_ret. split.
      * apply W_cons; [|apply HW|apply HW|apply W_nil]. cbn [node_faults]. rewrite Hc. exact (WL_faults _ HW).
      * unfold flags, alone. cbn. now rewrite Et.
    + inversion H1; subst. eapply clean_impl; [apply Ibi; assumption|]. intros v (HW & HP & Hc & Hf). split; [|exact Hf].
      apply W_cons; [|constructor; [exact HP|constructor]|apply HW|apply W_nil]. cbn [node_faults]. rewrite Hc. apply HW.
    + eapply clean_bind; [apply (Ibs _ _ a b); assumption|intros; ff|]. intros v (HW & k & Ek). apply clean_ret. split; [exact HW|].
      unfold flags, alone. cbn. now rewrite Ek.
Qed.
Theorem from_ast_converse : forall c, all_lines TU c -> Clean (from_ast slc c) (fun _ => all_lines proper_line c /\ cfs c = []).
Proof.
  intros c [H1 H2]. eapply clean_impl; [apply (proj1 (build_converse _)); [|exact H2]|].
  - now apply Forall_map.
  - intros v HW. split; [|exact (WL_faults _ HW)]. destruct HW as [H3 [_ H4]]. split; [exact (proj1 (Forall_map _ _ _) H3)|exact H4].
Qed.
End Converse.

(** ** Checking a concrete line *)
Definition inlineb (i : a_item) : bool :=
  match an_type (snd i) with ANText _ | ANElement (AInlineElt _) | ANElement (ASpecialElt _) => true | _ => false end.
Definition ownb (i : a_item) : bool :=
  match an_type (snd i) with ANMultiline _ | ANElement (ABlockElt _) => true | _ => false end.
Fixpoint properb (l : list a_item) : bool :=
  match l with
  | [] => true
  | i :: l' =>
      if commentb i then properb l' else if selectorb i then restb l' else if combinatorb i then properb l'
      else if ownb i then forallb commentb l' else inlineb i && forallb inlineb l'
  end
with restb (l : list a_item) : bool :=
  match l with
  | [] => false
  | i :: l' => if commentb i then restb l' else if blockb i then forallb commentb l' else if combinatorb i then properb l' else false
  end.
Lemma all_iff : forall (P : a_item -> Prop) p l, (forall i, p i = true <-> P i) -> forallb p l = true <-> Forall P l.
Proof.
  intros P p l H. rewrite forallb_forall, Forall_forall. split; intros HH x Hx; apply H; auto.
Qed.
Lemma commentb_iff : forall i, commentb i = true <-> is_comment i.
Proof. intros [sp [s [m|[]|sl|[]] n]]; cbn; intuition discriminate. Qed.
Lemma inlineb_iff : forall i, inlineb i = true <-> is_inline i.
Proof. intros [sp [s [m|[]|sl|[]] n]]; cbn; intuition discriminate. Qed.
Lemma proper_iff : forall l, (properb l = true <-> proper_line l) /\ (restb l = true <-> proper_rest l).
Proof.
  induction l as [|i l [IH1 IH2]].
  { split; split; intros H; [constructor; constructor|reflexivity|discriminate|]. destruct (rest_cases _ H) as (x & l' & E & _). discriminate. }
  assert (HC : forallb commentb l = true <-> Forall is_comment l) by (apply all_iff, commentb_iff).
  assert (HI : forallb inlineb l = true <-> Forall is_inline l) by (apply all_iff, inlineb_iff).
  split.
  - split.
    + intros H. destruct i as [sp [s [m|t|sl|[c|b|il|sp']] n]]; cbn [properb commentb selectorb combinatorb ownb inlineb an_type snd andb] in H.
      * apply (PrAlone []); [constructor|exact I|now apply HC].
      * destruct t; cbn in H; try (constructor; constructor; [exact I|now apply HI]). apply proper_comment; [exact I|now apply IH1].
      * apply (PrElement []); [constructor|exact I|now apply IH2].
      * apply (PrUnnamed []); [constructor|exact I|now apply IH1].
      * apply (PrAlone []); [constructor|exact I|now apply HC].
      * constructor; constructor; [exact I|now apply HI].
      * constructor; constructor; [exact I|now apply HI].
    + intros H. destruct (proper_cases _ _ H) as [H1|[[H1 H2]|[[H1 H2]|[[H1 H2]|[H1 H2]]]]];
        [|destruct i as [sp [s [m|t|sl|[c|b|il|sp']] n]]; try contradiction; cbn [properb commentb selectorb combinatorb ownb inlineb an_type snd andb]; cbn [is_comment an_type snd] in H1; auto..];
        try (now apply IH1); try (now apply IH2); try (now apply HC).
      * inversion H1 as [|? ? Ha Hb]; subst. destruct i as [sp [s [m|t|sl|[c|b|il|sp']] n]]; try contradiction;
          cbn [properb commentb selectorb combinatorb ownb inlineb an_type snd andb]; try (now apply HI).
        destruct t; try (now apply HI). apply IH1. now constructor.
      * destruct t; try contradiction. now apply IH1.
  - split.
    + intros H. destruct i as [sp [s [m|t|sl|[c|b|il|sp']] n]]; cbn [restb commentb blockb combinatorb an_type snd] in H; try discriminate.
      * destruct t; try discriminate. apply rest_comment; [exact I|now apply IH2].
      * apply (PrChild []); [constructor|exact I|now apply IH1].
      * apply (PrBlock []); [constructor|exact I|now apply HC].
    + intros H. destruct (rest_cases _ H) as (x & l' & E & HH). injection E as <- <-.
      destruct i as [sp [s [m|t|sl|[c|b|il|sp']] n]]; destruct HH as [[H1 H2]|[[H1 H2]|[H1 H2]]]; try contradiction;
        cbn [restb commentb blockb combinatorb an_type snd]; try (now apply IH1); try (now apply HC).
      destruct t; try contradiction. now apply IH2.
Qed.
Lemma proper_check : forall l, properb l = true -> proper_line l.
Proof. intros l. apply proper_iff. Qed.

(** ** Faults and the places of malformed escapes *)
Lemma app_nil_iff : forall A (a b a' b' : list A), (a = [] <-> a' = []) -> (b = [] <-> b' = []) -> (a ++ b = [] <-> a' ++ b' = []).
Proof. intros A a b a' b' [H1 H2] [H3 H4]. split; intros H; apply app_nil in H as [Ha Hb]; [rewrite H1, H3|rewrite H2, H4]; auto. Qed.
Lemma flat_nil_iff : forall A B (f g : A -> list B) l, Forall (fun a => f a = [] <-> g a = []) l -> (flat_map f l = [] <-> flat_map g l = []).
Proof. intros A B f g l H. induction H; cbn [flat_map]; [tauto|]. now apply app_nil_iff. Qed.
Lemma faults_nil : forall bad bad' slc, (forall s o, bad s o = [] <-> bad' s o = []) ->
  forall c, faults bad slc c = [] <-> faults bad' slc c = [].
Proof.
  intros bad bad' slc H.
  assert (HE : forall r, escape_faults bad slc r = [] <-> escape_faults bad' slc r = []).
  { intros r. unfold escape_faults. specialize (H (slc r) (r_start r)).
    destruct (bad (slc r) (r_start r)), (bad' (slc r) (r_start r)); cbn; intuition discriminate. }
  assert (HN : forall n, node_faults bad slc n = [] <-> node_faults bad' slc n = []).
  { induction n as [s t e IH] using a_node_ind'.
    destruct t as [m|t|sl|[c|b|i|[k o c cl|r]]]; cbn [node_faults]; try tauto.
    - destruct (am_kind m); [apply HE|tauto|tauto].
    - destruct t; cbn [text_faults]; [apply HE|tauto|tauto|tauto].
    - apply app_nil_iff; [tauto|]. rewrite <- !flat_flat. cbn [type_items element_items] in IH. unfold content_items in IH. apply flat_nil_iff. exact IH.
    - apply app_nil_iff; [tauto|]. apply flat_nil_iff. exact IH.
    - apply app_nil_iff; [tauto|]. rewrite <- !flat_flat. cbn [type_items element_items] in IH. unfold content_items in IH. apply flat_nil_iff. exact IH. }
  intros c. unfold faults, items_faults. rewrite <- !flat_flat. apply flat_nil_iff. apply Forall_forall. intros i _. apply HN.
Qed.

(** * The builder: reasoning principles, termination, and fail-fast. *)

From Verif Require Import Base Escape Doc Ast Config Errors Build P_Base.

Definition add_errs (e : errors) (d : list syntax_error) : errors :=
  mkErrs (er_fail_fast e) (er_syntax e ++ d) (er_semantic e) (er_unknown e).

(** What a call does when errors do not stop it: it adds the errors [d] and returns
    [v] with [Q d v].  [t]: fuel does not run out. *)
Definition Post {A} (t : bool) (m : M A) (Q : list syntax_error -> A -> Prop) : Prop :=
  forall e, er_fail_fast e = false ->
  match m e with
  | (e', Ok v) => exists d, e' = add_errs e d /\ Q d v
  | (_, Fail) => False
  | (_, Fuel) => t = false
  end.

Lemma add_errs_nil : forall e, add_errs e [] = e.
Proof. intros [ff s se u]. unfold add_errs. cbn. now rewrite app_nil_r. Qed.
Lemma add_errs_app : forall e a b, add_errs (add_errs e a) b = add_errs e (a ++ b).
Proof. intros [ff s se u] a b. unfold add_errs. cbn. now rewrite app_assoc. Qed.

Lemma post_ret : forall A t (v : A) (Q : list syntax_error -> A -> Prop), Q [] v -> Post t (ret v) Q.
Proof. intros A t v Q H e He. cbn. exists []. now rewrite add_errs_nil. Qed.

Lemma post_bind : forall A B t (m : M A) (f : A -> M B) Q Q',
  Post t m Q -> (forall d v, Q d v -> Post t (f v) (fun d' v' => Q' (d ++ d') v')) ->
  Post t (bind m f) Q'.
Proof.
  intros A B t m f Q Q' Hm Hf e He. unfold bind. specialize (Hm e He).
  destruct (m e) as [e1 [v| |]]; [|contradiction|assumption].
  destruct Hm as (d & -> & HQ). specialize (Hf d v HQ (add_errs e d) He).
  destruct (f v (add_errs e d)) as [e2 [v'| |]]; [|contradiction|assumption].
  destruct Hf as (d' & -> & HQ'). exists (d ++ d'). now rewrite add_errs_app.
Qed.

Lemma post_impl : forall A t (m : M A) (Q Q' : list syntax_error -> A -> Prop),
  Post t m Q -> (forall d v, Q d v -> Q' d v) -> Post t m Q'.
Proof.
  intros A t m Q Q' Hm HQ e He. specialize (Hm e He). destruct (m e) as [e1 [v| |]]; auto.
  destruct Hm as (d & -> & H). eauto.
Qed.

Lemma post_syntax : forall t l (Q : list syntax_error -> unit -> Prop), Q l tt -> Post t (syntax l) Q.
Proof.
  intros t l Q H e He. unfold syntax. rewrite He. cbn. exists l. split; [|assumption].
  unfold add_errs. now rewrite He.
Qed.

Lemma post_fuel : forall A (Q : list syntax_error -> A -> Prop), Post false out_of_fuel Q.
Proof. intros A Q e He. reflexivity. Qed.

Inductive Mapped {A B} (R : A -> list syntax_error -> B -> Prop) : list A -> list syntax_error -> list B -> Prop :=
| MappedNil : Mapped R [] [] []
| MappedCons : forall a l d d' b bs, R a d b -> Mapped R l d' bs -> Mapped R (a :: l) (d ++ d') (b :: bs).


(** ** Termination *)

Notation isize := (items_size a_size).
Notation lsize := (lines_size a_size).

Definition Tot {A} (m : M A) : Prop := Post true m (fun _ _ => True).
Definition TotR (m : M (list a_item * list node)) (n : nat) : Prop :=
  Post true m (fun _ r => (isize (fst r) <= n)%nat).

Lemma tot_bind : forall A B (m : M A) (f : A -> M B), Tot m -> (forall v, Tot (f v)) -> Tot (bind m f).
Proof. intros A B m f H1 H2. eapply post_bind; [exact H1|]. intros d v _. apply H2. Qed.
Lemma tot_ret : forall A (v : A), Tot (ret v).
Proof. intros. now apply post_ret. Qed.
Lemma tot_syntax : forall l, Tot (syntax l).
Proof. intros. now apply post_syntax. Qed.
Lemma tot_mapM : forall A B (f : A -> M B) l, (forall a, Tot (f a)) -> Tot (mapM f l).
Proof. intros A B f l H. induction l; cbn [mapM]; [apply tot_ret|]. apply tot_bind; [apply H|]. intros. apply tot_bind; [exact IHl|]. intros. apply tot_ret. Qed.

Ltac tot :=
  repeat match goal with
  | |- Tot (bind _ _) => apply tot_bind; [|intros]
  | |- Tot (ret _) => apply tot_ret
  | |- Tot (syntax _) => apply tot_syntax
  | |- Tot (mapM _ _) => apply tot_mapM; intros
  | |- Tot (match ?x with _ => _ end) => destruct x
  | |- Tot (if ?x then _ else _) => destruct x
  | H : Tot ?m |- Tot ?m => exact H
  end.

Lemma tot_comment : forall c, Tot (build_comment c).
Proof. intros c. unfold build_comment, unclosed. tot. Qed.
Lemma tot_selector : forall s, Tot (build_selector s).
Proof.
  intros s. unfold build_selector, build_class_likes, build_segment, build_class_likes, build_attribute_list,
    build_class_like, unclosed, invalid. tot.
Qed.
Lemma tot_validate : forall ns last, Tot (validate_from last ns).
Proof.
  induction ns as [|n ns IH]; intros last; cbn [validate_from]; [apply tot_ret|].
  unfold misplaced. destruct (item_type_of n); tot; apply IH.
Qed.

Section Slc.
Variable slc : lrange -> str.

Lemma tot_text : forall r a b c d, Tot (build_text_node slc r a b c d).
Proof. intros. unfold build_text_node, escapable_slice. tot. Qed.
Lemma tot_inline_text : forall t, Tot (build_inline_text slc t).
Proof. intros [ | | | ]; cbn [build_inline_text]; try apply tot_text; try apply tot_ret. apply tot_comment. Qed.
Lemma tot_multiline : forall r m, Tot (build_multiline slc r m).
Proof. intros. unfold build_multiline. apply tot_bind; [apply tot_text|intros; apply tot_ret]. Qed.

Lemma a_size_pos : forall n, (1 <= a_size n)%nat.
Proof. intros [s t e]. cbn. destruct t as [| | |[|[]|[]|[]]]; lia. Qed.

Lemma totR_tot : forall m n, TotR m n -> Tot m.
Proof. intros m n H. eapply post_impl; [exact H|trivial]. Qed.
Lemma totR_bind : forall A (m : M A) f n, Tot m -> (forall v, TotR (f v) n) -> TotR (bind m f) n.
Proof. intros A m f n H1 H2. eapply post_bind; [exact H1|]. intros d v _. apply H2. Qed.
Lemma totR_bindR : forall m f n k, TotR m k ->
  (forall r out, (isize r <= k)%nat -> TotR (f (r, out)) n) -> TotR (bind m f) n.
Proof. intros m f n k H1 H2. eapply post_bind; [exact H1|]. intros d [r out] H. now apply H2. Qed.
Lemma totR_ret : forall r out n, (isize r <= n)%nat -> TotR (ret (r, out)) n.
Proof. intros. now apply post_ret. Qed.
Lemma totR_weak : forall m n k, TotR m n -> (n <= k)%nat -> TotR m k.
Proof. intros m n k H Hn. eapply post_impl; [exact H|]. cbn. lia. Qed.

Theorem build_total : forall f,
  (forall c p, (4 * lsize (ct_lines c) + 2 <= f)%nat -> Tot (build_content slc f c p)) /\
  (forall ls le out p, (4 * lsize ls + 1 <= f)%nat -> Tot (build_lines slc f ls le out p)) /\
  (forall ns, (4 * isize ns + 2 <= f)%nat -> TotR (build_line slc f ns) (isize ns)) /\
  (forall ns, (4 * isize ns + 1 <= f)%nat -> TotR (extend_line slc f ns) (isize ns)) /\
  (forall pr ns sels la, (4 * isize ns + 3 <= f)%nat -> TotR (post_child slc f pr ns sels la) (isize ns)) /\
  (forall pr ns sels la, (4 * isize ns + 2 <= f)%nat -> TotR (post_selector slc f pr ns sels la) (isize ns)) /\
  (forall r b p, (4 * lsize (ct_lines (bk_content b)) + 3 <= f)%nat -> Tot (build_block slc f r b p)) /\
  (forall r i, (4 * isize (in_inner i) + 3 <= f)%nat -> Tot (build_inline slc f r i)) /\
  (forall r s, (match s with ASpecial _ _ c _ => 4 * lsize (ct_lines c) + 3 | ACode _ => 1 end <= f)%nat ->
      Tot (build_special slc f r s)) /\
  (forall s r e n, (4 * a_size (ANode s (ANElement e) n) <= f)%nat -> Tot (build_element slc f r e)).
Proof.
  induction f as [|f IH].
  { repeat split; intros; try lia.
    - destruct s; lia.
    - exfalso. pose proof (a_size_pos (ANode s (ANElement e) n)). lia. }
  destruct IH as (Ic & Il & Ibl & Iel & Ipc & Ips & Ibb & Ibi & Ibs & Ibe).
  assert (Hpos : forall sp s t n rest, (1 <= a_size (ANode s t n))%nat /\
             isize ((sp, ANode s t n) :: rest) = (a_size (ANode s t n) + isize rest)%nat).
  { intros. split; [apply a_size_pos|reflexivity]. }
  split; [|split; [|split; [|split; [|split; [|split; [|split; [|split; [|split]]]]]]]].
  - intros c p H. cbn [build_content]. apply tot_bind; [apply Il; lia|]. intros. apply tot_ret.
  - intros ls le out p H. cbn [build_lines]. destruct ls as [|l ls]; [apply tot_ret|].
    unfold lines_size in H. cbn [map list_sum fold_right] in H. fold (lines_size a_size ls) in H.
    change (list_sum (map (fun l => S (isize (ln_nodes l))) ls)) with (lsize ls) in H.
    assert (H' : (4 * (S (isize (ln_nodes l)) + lsize ls) + 1 <= S f)%nat) by exact H. clear H.
    apply tot_bind; [|intros; apply Il; lia].
    destruct (ln_nodes l) as [|n ns] eqn:E; [apply tot_ret|].
    apply tot_bind; [|intros [? ?]; apply tot_ret].
    eapply totR_tot. apply Ibl. lia.
  - intros ns H. cbn [build_line]. eapply totR_bindR; [apply Iel; lia|]. intros r out Hr.
    apply totR_bind; [apply tot_validate|]. intros _. now apply totR_ret.
  - intros ns H. cbn [extend_line]. destruct ns as [|[sp [s t n]] rest]; [now apply totR_ret|].
    destruct (Hpos sp s t n rest) as [Hp Hs]. rewrite Hs in *. clear Hs.
    assert (Hgen : forall m, TotR m (isize rest) ->
      TotR (let* (rest', out) := m in let* (rest'', out') := extend_line slc f rest' in
            ret (rest'', match sp with Some r => [exact_space r] | None => [] end ++ out ++ out'))
           (a_size (ANode s t n) + isize rest)).
    { intros m Hm. eapply totR_bindR; [exact Hm|]. intros r out Hr.
      eapply totR_bindR; [apply Iel; lia|]. intros r2 out2 Hr2. apply totR_ret. lia. }
    destruct t as [m|t|sl|e].
    + apply Hgen. apply totR_bind; [apply tot_multiline|]. intros. now apply totR_ret.
    + apply Hgen. apply totR_bind; [apply tot_inline_text|]. intros. now apply totR_ret.
    + apply Hgen. apply totR_bind; [apply tot_selector|]. intros. apply Ips. lia.
    + destruct e as [c|b|i|sp'].
      * eapply totR_bindR; [apply Ipc; lia|]. intros r out Hr. apply totR_ret. lia.
      * apply Hgen. apply totR_bind; [apply (Ibe s _ _ n); lia|]. intros. now apply totR_ret.
      * apply Hgen. apply totR_bind; [apply (Ibe s _ _ n); lia|]. intros. now apply totR_ret.
      * apply Hgen. apply totR_bind; [apply (Ibe s _ _ n); lia|]. intros. now apply totR_ret.
  - intros pr ns sels la H. cbn [post_child].
    assert (Hfall : TotR (let* (rest, children) := build_line slc f ns in
        ret (rest, [elt_node (mkElt match rev children with n :: _ => Doc.combine pr (n_range n) | [] => pr end
             sels (mkR (r_end pr) (r_end match rev children with n :: _ => Doc.combine pr (n_range n) | [] => pr end))
             children (Standard (DLine la)) false false)])) (isize ns)).
    { eapply totR_bindR; [apply Ibl; lia|]. intros r out Hr. now apply totR_ret. }
    destruct ns as [|[sp [s t n]] rest]; [exact Hfall|].
    destruct (Hpos sp s t n rest) as [Hp Hs]. rewrite Hs in *. clear Hs.
    destruct t as [m|t|sl|e]; try exact Hfall.
    + apply totR_bind; [apply tot_selector|]. intros. eapply totR_weak; [apply Ips; lia|lia].
    + destruct e as [c|b|i|sp']; try exact Hfall.
      * eapply totR_weak; [apply Ipc; lia|lia].
      * apply totR_bind; [apply Ibb|]; [|intros; apply totR_ret; lia].
        cbn [a_size] in *. lia.
  - intros pr ns sels la H. cbn [post_selector].
    destruct ns as [|[sp [s t n]] rest]; [now apply totR_ret|].
    destruct (Hpos sp s t n rest) as [Hp Hs]. rewrite Hs in H |- *.
    assert (Hmis : forall r k, TotR (misplaced r k ;* ret ((sp, ANode s t n) :: rest, []))
                                    (a_size (ANode s t n) + isize rest)).
    { intros. apply totR_bind; [apply tot_syntax|]. intros. apply totR_ret. rewrite Hs. lia. }
    destruct t as [m|t|sl|e]; try apply Hmis.
    + destruct t; try apply Hmis. apply totR_bind; [apply tot_comment|]. intros.
      eapply totR_bindR; [apply Ips; lia|]. intros r out Hr. apply totR_ret. lia.
    + destruct e as [c|b|i|sp']; try apply Hmis.
      * eapply totR_weak; [apply Ipc; lia|lia].
      * apply totR_bind; [apply Ibb|]; [|intros; apply totR_ret; lia].
        cbn [a_size] in *. lia.
  - intros r b p H. cbn [build_block]. apply tot_bind; [unfold unclosed; tot|]. intros.
    apply tot_bind; [apply Ic; lia|]. intros. apply tot_ret.
  - intros r i H. cbn [build_inline]. apply tot_bind; [unfold unclosed; tot|]. intros.
    apply tot_bind; [eapply totR_tot; apply Ibl; lia|]. intros [? ?].
    apply tot_bind; [apply tot_validate|]. intros. apply tot_ret.
  - intros r s H. cbn [build_special]. destruct s as [k o c cl|code].
    + apply tot_bind; [unfold unclosed; tot|]. intros. apply tot_bind; [apply Ic; lia|]. intros. apply tot_ret.
    + apply tot_bind; [apply tot_text|]. intros. apply tot_ret.
  - intros s r e n H. cbn [build_element]. cbn [a_size] in H. destruct e as [c|b|i|sp].
    + apply tot_ret.
    + apply tot_bind; [apply Ibb; lia|]. intros. apply tot_ret.
    + apply Ibi; lia.
    + apply tot_bind; [apply Ibs; destruct sp; lia|]. intros. apply tot_ret.
Qed.

Theorem from_ast_total : forall c, Tot (from_ast slc c).
Proof. intros c. apply (proj1 (build_total _)). unfold build_fuel. lia. Qed.

(** ** Fail-fast *)

Definition set_ff (e : errors) : errors := mkErrs true (er_syntax e) (er_semantic e) (er_unknown e).

(** With fail-fast the call either does the same, without errors, or stops after a
    non-empty initial part of the errors. *)
Definition FF {A} (m : M A) : Prop :=
  forall e, er_fail_fast e = false ->
  match m e with
  | (e', Ok v) => exists d, e' = add_errs e d /\
      ((d = [] /\ m (set_ff e) = (set_ff e, Ok v)) \/
       (exists d1 d2, d = d1 ++ d2 /\ d1 <> [] /\ m (set_ff e) = (set_ff (add_errs e d1), Fail)))
  | (_, Fail) => False
  | (_, Fuel) => True
  end.

Lemma ff_ret : forall A (v : A), FF (ret v).
Proof. intros A v e He. cbn. exists []. rewrite add_errs_nil. auto. Qed.
Lemma ff_fuel : forall A, FF (@out_of_fuel A).
Proof. intros A e He. exact I. Qed.
Lemma ff_syntax : forall l, FF (syntax l).
Proof.
  intros l e He. unfold syntax. rewrite He. cbn [andb]. exists l. split; [unfold add_errs; now rewrite He|].
  destruct l as [|x l].
  - left. split; [reflexivity|]. unfold set_ff. cbn [er_fail_fast er_syntax er_semantic er_unknown andb]. rewrite app_nil_r, Nat.ltb_irrefl. reflexivity.
  - right. exists (x :: l), []. rewrite app_nil_r. repeat split; [discriminate|].
    unfold set_ff, add_errs. cbn [er_fail_fast er_syntax er_semantic er_unknown andb].
    replace (_ <? _)%nat with true; [reflexivity|]. symmetry. apply Nat.ltb_lt. rewrite app_length. cbn. lia.
Qed.
Lemma ff_bind : forall A B (m : M A) (f : A -> M B), FF m -> (forall v, FF (f v)) -> FF (bind m f).
Proof.
  intros A B m f Hm Hf e He. unfold bind. specialize (Hm e He).
  destruct (m e) as [e1 [v| |]] eqn:E1; [|contradiction|exact I].
  destruct Hm as (d & -> & Hd). specialize (Hf v (add_errs e d) He).
  destruct (f v (add_errs e d)) as [e2 [v'| |]] eqn:E2; [|contradiction|exact I].
  destruct Hf as (d' & -> & Hd'). exists (d ++ d'). split; [apply add_errs_app|].
  destruct Hd as [[-> Hs]|(d1 & d2 & -> & Hn & Hs)]; rewrite Hs.
  - rewrite add_errs_nil in *. destruct Hd' as [[-> Hs']|(d1 & d2 & -> & Hn & Hs')]; rewrite Hs'.
    + left. now split.
    + right. exists d1, d2. auto.
  - right. exists d1, (d2 ++ d'). now rewrite app_assoc.
Qed.
Lemma ff_mapM : forall A B (f : A -> M B) l, (forall a, FF (f a)) -> FF (mapM f l).
Proof.
  intros A B f l H. induction l; cbn [mapM]; [apply ff_ret|]. apply ff_bind; [apply H|]. intros.
  apply ff_bind; [exact IHl|]. intros. apply ff_ret.
Qed.

Ltac ff :=
  repeat match goal with
  | |- FF (bind _ _) => apply ff_bind; [|intros]
  | |- FF (ret _) => apply ff_ret
  | |- FF (syntax _) => apply ff_syntax
  | |- FF (mapM _ _) => apply ff_mapM; intros
  | |- FF out_of_fuel => apply ff_fuel
  | |- FF (match ?x with _ => _ end) => destruct x
  | H : _ |- FF _ => apply H
  end.

Lemma ff_comment : forall c, FF (build_comment c).
Proof. intros c. unfold build_comment, unclosed. ff. Qed.
Lemma ff_selector : forall s, FF (build_selector s).
Proof.
  intros s. unfold build_selector, build_class_likes, build_segment, build_class_likes, build_attribute_list,
    build_class_like, unclosed, invalid. ff.
Qed.
Lemma ff_validate : forall ns last, FF (validate_from last ns).
Proof.
  induction ns as [|n ns IH]; intros last; cbn [validate_from]; [apply ff_ret|].
  unfold misplaced. destruct (item_type_of n); ff.
Qed.
Lemma ff_text : forall r a b c d, FF (build_text_node slc r a b c d).
Proof. intros. unfold build_text_node, escapable_slice. ff. Qed.
Lemma ff_inline_text : forall t, FF (build_inline_text slc t).
Proof. intros [ | | | ]; cbn [build_inline_text]; try apply ff_text; try apply ff_ret. apply ff_comment. Qed.
Lemma ff_multiline : forall r m, FF (build_multiline slc r m).
Proof. intros. unfold build_multiline. apply ff_bind; [apply ff_text|intros; apply ff_ret]. Qed.

Theorem build_ff : forall f,
  (forall c p, FF (build_content slc f c p)) /\
  (forall ls le out p, FF (build_lines slc f ls le out p)) /\
  (forall ns, FF (build_line slc f ns)) /\
  (forall ns, FF (extend_line slc f ns)) /\
  (forall pr ns sels la, FF (post_child slc f pr ns sels la)) /\
  (forall pr ns sels la, FF (post_selector slc f pr ns sels la)) /\
  (forall r b p, FF (build_block slc f r b p)) /\
  (forall r i, FF (build_inline slc f r i)) /\
  (forall r s, FF (build_special slc f r s)) /\
  (forall r e, FF (build_element slc f r e)).
Proof.
  pose proof ff_comment. pose proof ff_selector. pose proof ff_validate. pose proof ff_text.
  pose proof ff_inline_text. pose proof ff_multiline.
  induction f as [|f IH].
  { repeat split; intros; apply ff_fuel. }
  destruct IH as (Ic & Il & Ibl & Iel & Ipc & Ips & Ibb & Ibi & Ibs & Ibe).
  repeat split; intros;
    cbn [build_content build_lines build_line extend_line post_child post_selector build_block
         build_inline build_special build_element]; unfold unclosed, misplaced, validate_line; ff.
Qed.

Theorem from_ast_ff : forall c, FF (from_ast slc c).
Proof. intros c. apply (proj1 (build_ff _)). Qed.
End Slc.

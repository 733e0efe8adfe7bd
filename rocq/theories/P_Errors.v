(** * Errors: which kinds the builder reports, where those of a conversion point, and how
      they are written. *)

From Verif Require Import Base Escape Doc Ast Config Errors Build Output Convert Display Grammar SpecSource SpecErrors
  P_Base P_Build P_Convert P_Grammar.
From Coq Require Import Lia.

(** ** Kinds *)
(** A list in an error of the builder has one item. *)
Definition single (e : syntax_error) : Prop :=
  match sy_kind e with
  | KMisplaced (MustPrecede _ l) | KMisplaced (MustNotPrecede _ l) | KMisplaced (MustFollow l _)
  | KMisplaced (MustNotFollow l _) => length l = 1%nat
  | _ => True
  end.
Definition Er {A} (m : M A) : Prop := Post false m (fun d _ => Forall single d).
Lemma sg_ret : forall A (v : A), Er (ret v).
Proof. intros. apply post_ret. constructor. Qed.
Lemma sg_fuel : forall A, Er (@out_of_fuel A).
Proof. intros. apply post_fuel. Qed.
Lemma sg_syntax : forall l, Forall single l -> Er (syntax l).
Proof. intros. now apply post_syntax. Qed.
Lemma sg_bind : forall A B (m : M A) (f : A -> M B), Er m -> (forall v, Er (f v)) -> Er (bind m f).
Proof.
  intros A B m f Hm Hf. eapply post_bind; [exact Hm|]. intros d v Hd. eapply post_impl; [apply Hf|].
  intros d' v' Hd'. apply Forall_app. now split.
Qed.
Lemma sg_mapM : forall A B (f : A -> M B) l, (forall a, Er (f a)) -> Er (mapM f l).
Proof.
  intros A B f l H. induction l; cbn [mapM]; [apply sg_ret|]. apply sg_bind; [apply H|]. intros.
  apply sg_bind; [exact IHl|]. intros. apply sg_ret.
Qed.
Ltac er :=
  repeat match goal with
  | |- Er (bind _ _) => apply sg_bind; [|intros]
  | |- Er (ret _) => apply sg_ret
  | |- Er (syntax [_]) => apply sg_syntax; constructor; [|constructor]; cbn; try exact I; try reflexivity
  | |- Er (mapM _ _) => apply sg_mapM; intros
  | |- Er out_of_fuel => apply sg_fuel
  | |- Er (match ?x with _ => _ end) => destruct x
  | H : _ |- Er _ => apply H
  end.

Section Slc.
Variable slc : lrange -> str.
Lemma sg_comment : forall c, Er (build_comment c).
Proof. intros c. unfold build_comment, unclosed. er. Qed.
Lemma sg_selector : forall s, Er (build_selector s).
Proof.
  intros s. unfold build_selector, build_class_likes, build_segment, build_class_likes, build_attribute_list,
    build_class_like, unclosed, invalid. er.
Qed.
Lemma sg_validate : forall ns last, Er (validate_from last ns).
Proof.
  induction ns as [|n ns IH]; intros last; cbn [validate_from]; [apply sg_ret|].
  unfold misplaced. destruct (item_type_of n); er.
Qed.
Lemma sg_text : forall r a b c d, Er (build_text_node slc r a b c d).
Proof.
  intros. unfold build_text_node, escapable_slice. er. apply sg_syntax. apply Forall_map, Forall_forall. intros x _. exact I.
Qed.
Lemma sg_inline_text : forall t, Er (build_inline_text slc t).
Proof. intros [ | | | ]; cbn [build_inline_text]; try apply sg_text; try apply sg_ret. apply sg_comment. Qed.
Lemma sg_multiline : forall r m, Er (build_multiline slc r m).
Proof. intros. unfold build_multiline. apply sg_bind; [apply sg_text|intros; apply sg_ret]. Qed.

Theorem build_er : forall f,
  (forall c p, Er (build_content slc f c p)) /\
  (forall ls le out p, Er (build_lines slc f ls le out p)) /\
  (forall ns, Er (build_line slc f ns)) /\
  (forall ns, Er (extend_line slc f ns)) /\
  (forall pr ns sels la, Er (post_child slc f pr ns sels la)) /\
  (forall pr ns sels la, Er (post_selector slc f pr ns sels la)) /\
  (forall r b p, Er (build_block slc f r b p)) /\
  (forall r i, Er (build_inline slc f r i)) /\
  (forall r s, Er (build_special slc f r s)) /\
  (forall r e, Er (build_element slc f r e)).
Proof.
  pose proof sg_comment. pose proof sg_selector. pose proof sg_validate. pose proof sg_text.
  pose proof sg_inline_text. pose proof sg_multiline.
  induction f as [|f IH].
  { repeat split; intros; apply sg_fuel. }
  destruct IH as (Ic & Il & Ibl & Iel & Ipc & Ips & Ibb & Ibi & Ibs & Ibe).
  repeat split; intros;
    cbn [build_content build_lines build_line extend_line post_child post_selector build_block
         build_inline build_special build_element]; unfold unclosed, misplaced, validate_line; er.
Qed.
End Slc.

(** ** The errors of a conversion *)
Section Conv.
Variable parse : str -> a_content + parse_error.
Variable slice : str -> lrange -> str.
Variable src : str.
Variable P : syntax_error -> Prop.
Hypothesis Hp : match parse src with
                | inl c => Post false (from_ast (slice src) c) (fun d _ => Forall P d)
                | inr e => P (parse_failed e)
                end.
Lemma prepare_errors : forall cfg e r, prepare parse slice src cfg (errors_new cfg) = (e, r) -> Forall P (er_syntax e).
Proof.
  intros cfg e r H. set (e0 := mkErrs false [] [] false).
  assert (errors_new cfg = e0 \/ errors_new cfg = set_ff e0) as HE.
  { unfold errors_new. destruct (c_fail_fast cfg) as [[|]|]; auto. }
  destruct (prepare_cases parse slice src cfg e0 eq_refl) as [(c & d & ns0 & ns & Ep & Ef & _ & E1 & E2)|(p & Ep & E1 & E2)];
    rewrite Ep in Hp.
  - specialize (Hp e0 eq_refl). rewrite Ef in Hp. destruct Hp as (d' & Ed & Hd).
    assert (d' = d) by (unfold add_errs in Ed; cbn in Ed; congruence). subst d'.
    destruct HE as [HE|HE]; rewrite HE in H.
    + rewrite E1 in H. injection H as <- _. exact Hd.
    + destruct E2 as [[_ E2]|(d1 & d2 & -> & _ & E2)]; rewrite E2 in H; injection H as <- _; [constructor|].
      cbn. now apply Forall_app in Hd as [Hd _].
  - destruct HE as [HE|HE]; rewrite HE in H; rewrite ?E1, ?E2 in H; injection H as <- _; cbn; auto.
Qed.
Lemma convert_to_errors : forall cfg out err, convert_to parse slice src cfg = Some (out, Some err) ->
  err = CEUnknown \/ exists l, err = CESyntax l /\ l <> [] /\ Forall P l.
Proof.
  intros cfg out err H. unfold convert_to, convert_to_internal in H.
  destruct (prepare parse slice src cfg (errors_new cfg)) as [e r] eqn:E.
  pose proof (prepare_errors _ _ _ E) as HP. destruct (prepare_syntax_only _ _ _ _ _ _ E) as [Hs Hu].
  assert (forall e', er_semantic e' = [] -> er_syntax e' = er_syntax e -> to_convert_error e' = Some err ->
    err = CEUnknown \/ exists l, err = CESyntax l /\ l <> [] /\ Forall P l) as HA.
  { intros [ff s se u] H1 H2 H3. cbn in H1, H2. subst s se. unfold to_convert_error in H3. cbn in H3.
    destruct (er_syntax e) as [|x s]; destruct u; try discriminate; injection H3 as <-; auto;
      right; exists (x :: s); (split; [reflexivity|split; [discriminate|assumption]]). }
  destruct r as [ns| |]; [|injection H as _ H; eapply HA; eauto|discriminate].
  rewrite orb_true_r in H. destruct (output_html _ _ _) as [o ok]. injection H as _ H.
  eapply HA; [| |exact H]; destruct ok; auto.
Qed.
End Conv.

Theorem errors_located : forall parse alnum src cfg out err, reads alnum parse src ->
  convert_to parse source_slice src cfg = Some (out, Some err) ->
  err = CEUnknown \/ exists l, err = CESyntax l /\ l <> [] /\ Forall (points_at src) l.
Proof.
  intros parse alnum src cfg out err H. apply convert_to_errors. unfold reads in H. destruct (parse src) as [c|e].
  - eapply post_impl; [apply (from_ast_sound src alnum); exact H|]. intros d v [Hd _]. exact Hd.
  - exists (pe_actual e). split; [exact H|exact I].
Qed.
Theorem errors_single : forall parse slice src cfg out err,
  convert_to parse slice src cfg = Some (out, Some err) ->
  err = CEUnknown \/ exists l, err = CESyntax l /\ l <> [] /\ Forall single l.
Proof.
  intros parse slice src cfg out err. apply convert_to_errors. destruct (parse src) as [c|e].
  - apply (proj1 (build_er (slice src) _)).
  - exact I.
Qed.

(** ** Messages *)
Lemma slice_take : forall src r m, SliceOf src r m -> blen (take_bytes (r_start r) src) = r_start r.
Proof. intros src r m (a & b & -> & <- & _). now rewrite take_bytes_app. Qed.
Lemma str_get_ok : forall src r m, SliceOf src r m -> str_get src r = Some m.
Proof.
  intros src r m H. unfold str_get. rewrite (slice_take _ _ _ H), N.eqb_refl, (slice_of _ _ _ H).
  destruct H as (a & b & _ & <- & <-). now rewrite N.eqb_refl.
Qed.
Lemma slice_inside : forall src r m, SliceOf src r m -> m <> [] -> r_start r < blen src.
Proof.
  intros src r m (a & b & -> & <- & _) Hm. rewrite !blen_app. pose proof (blen_pos m Hm). lia.
Qed.
Lemma sample_ok : forall debug src r m, SliceOf src r m -> m <> [] -> sample debug src r = debug m.
Proof.
  intros debug src r m H Hm. unfold sample. pose proof (slice_inside _ _ _ H Hm).
  replace (blen src <=? r_start r) with false by (symmetry; apply N.leb_gt; lia). now rewrite (str_get_ok _ _ _ H).
Qed.

(** The list of a message as English has it. *)
Lemma conj_items : forall conj l prev, (2 <= prev)%nat -> l <> [] ->
  conjunction_items conj prev l = flat_map (fun i => L ", " ++ i) (removelast l) ++ L ", " ++ conj ++ L " " ++ last l [].
Proof.
  intros conj. induction l as [|i l IH]; intros prev Hp Hl; [congruence|]. destruct prev as [|[|prev]]; try lia.
  cbn [conjunction_items]. destruct l as [|j l].
  - cbn [is_nil conjunction_items removelast last flat_map]. now rewrite app_nil_r.
  - cbn [is_nil]. rewrite IH by (lia || discriminate). change (removelast (i :: j :: l)) with (i :: removelast (j :: l)).
    change (last (i :: j :: l) []) with (last (j :: l) ([] : str)). cbn [flat_map]. now rewrite <- !app_assoc.
Qed.

Lemma separated_cons : forall sep (x : str) l, separated sep (x :: l) = x ++ flat_map (fun i => sep ++ i) l.
Proof.
  intros sep x l. revert x. induction l as [|y l IH]; intros x; [cbn; now rewrite app_nil_r|].
  change (separated sep (x :: y :: l)) with (x ++ sep ++ separated sep (y :: l)). rewrite IH. cbn [flat_map]. now rewrite <- !app_assoc.
Qed.
Theorem conjunction_english : forall conj l, length l <> 2%nat -> display_conjunction_list conj l = english conj l.
Proof.
  intros conj [|a [|b [|c l]]] H; unfold display_conjunction_list; cbn [is_nil]; [reflexivity| |cbn in H; lia|].
  - cbn. now rewrite app_nil_r.
  - change (conjunction_items conj 0 (a :: b :: c :: l)) with (a ++ (L ", " ++ b) ++ conjunction_items conj 2 (c :: l)).
    rewrite conj_items by (lia || discriminate). unfold english.
    change (removelast (a :: b :: c :: l)) with (a :: b :: removelast (c :: l)).
    change (last (a :: b :: c :: l) []) with (last (c :: l) ([] : str)).
    rewrite separated_cons. cbn [flat_map]. now rewrite <- !app_assoc.
Qed.
Theorem message_ok : forall debug src e m, points_at src e -> single e -> SliceOf src (sy_range e) m ->
  describe debug src e = message debug src e m.
Proof.
  intros debug src e m (m' & Hm' & Hk) Hs Hm.
  assert (m' = m) as -> by (apply slice_of in Hm, Hm'; congruence).
  assert (forall l, length l = 1%nat -> display_conjunction_list (L "or") (map show_item l) = english (L "or") (map item_name l)) as HL.
  { intros l Hl. rewrite conjunction_english; [reflexivity|]. rewrite map_length, Hl. discriminate. }
  unfold describe, message. destruct (sy_kind e) as [| |ex|d|i|[t l|t l|l t|l t]] eqn:Ek; unfold show_misplaced;
    try (unfold single in Hs; rewrite Ek in Hs; rewrite (HL _ Hs)); try reflexivity.
  - destruct Hk as ((bad & ->) & _). now rewrite (sample_ok _ _ _ _ Hm).
  - assert (sample debug src (sy_range e) = (if r_start (sy_range e) =? blen src then L "end-of-file" else debug m)) as ->;
      [|reflexivity].
    unfold sample. destruct (r_start (sy_range e) =? blen src) eqn:E.
    + apply N.eqb_eq in E. rewrite E, N.leb_refl. reflexivity.
    + rewrite (str_get_ok _ _ _ Hm). destruct Hm as (a & b & -> & Ha & _). rewrite <- Ha in *. apply N.eqb_neq in E.
      rewrite !blen_app in *. replace (_ <=? _) with false; [reflexivity|]. symmetry. apply N.leb_gt. lia.
  - subst m. rewrite (sample_ok _ _ _ _ Hm); [reflexivity|]. destruct d as [| |[]| |]; discriminate.
Qed.

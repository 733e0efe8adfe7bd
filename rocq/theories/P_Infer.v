(** * The inference engine computes the table-driven resolution of SpecInfer.v. *)

From Verif Require Import Base Doc Infer SpecInfer P_Base.
From Coq Require Import Lia.

Definition ctx_of (m : meth) : context :=
  match m with
  | MStandard => CSection | MPhrasing => CParagraph | MRaw => CRaw | MRoot => CRoot
  | MList => CList | MDescriptionList => CDescription | MOptGroup => CDataList | MSelect => CSelect
  | MMap => CMap | MDetails => CDetails | MLabel => CLabel | MFieldSet => CFieldSet
  | MPicture => CPicture | MTable => CTable | MRow => CRow | MColGroup => CColGroup
  end.

Section P.
Variable slc : lrange -> str.

(** ** Predicates at an element *)
Definition here (c : ictx) : option node := nth_error (cx_nodes c) (cx_index c).
Definition kind_here (c : ictx) : kind :=
  match here c with Some (NElt _ e) => kind_of (e_type e) | _ => KOther end.
Definition name_here (c : ictx) : option str :=
  match here c with Some (NElt _ e) => first_name slc (e_selectors e) | _ => None end.
Definition parent_name (p : option ictx) : option str :=
  match p with Some c => name_here c | None => None end.
Definition grand_name (p : option ictx) : option str :=
  match p with Some c => parent_name (cx_parent c) | None => None end.

Lemma w_line_ok : forall c, w_line c = Some (match kind_here c with KLine => true | _ => false end).
Proof.
  intros c. unfold w_line, element_where, match_this_element, match_this_node, kind_here, here.
  destruct (nth_error _ _) as [[r e|r t]|]; try reflexivity.
  destruct (e_type e) as [|[| |]|[[| |]|]| | |]; reflexivity.
Qed.
Lemma w_block_ok : forall c, w_block c = Some (match kind_here c with KBlock => true | _ => false end).
Proof.
  intros c. unfold w_block, element_where, match_this_element, match_this_node, kind_here, here.
  destruct (nth_error _ _) as [[r e|r t]|]; try reflexivity.
  destruct (e_type e) as [|[| |]|[[| |]|]| | |]; reflexivity.
Qed.
Lemma w_paragraph_ok : forall c, w_paragraph c = Some (match kind_here c with KPara => true | _ => false end).
Proof.
  intros c. unfold w_paragraph, element_where, match_this_element, match_this_node, kind_here, here.
  destruct (nth_error _ _) as [[r e|r t]|]; try reflexivity.
  destruct (e_type e) as [|[| |]|[[| |]|]| | |]; reflexivity.
Qed.
Lemma w_default_ok : forall c, w_default c = Some (match kind_here c with KOther => false | _ => true end).
Proof.
  intros c. unfold w_default, w_or. rewrite w_line_ok, w_block_ok, w_paragraph_ok.
  destruct (kind_here c); reflexivity.
Qed.
Lemma w_first_ok : forall c, w_first c = Some (cx_index c =? 0)%nat.
Proof.
  intros c. unfold w_first, w_not, w_after. destruct (cx_index c) as [|i]; reflexivity.
Qed.
Lemma w_last_ok : forall c, (cx_index c < length (cx_nodes c))%nat ->
  w_last c = Some (S (cx_index c) =? length (cx_nodes c))%nat.
Proof.
  intros c H. unfold w_last, w_not, w_before.
  destruct (length (cx_nodes c) - S (cx_index c))%nat as [|k] eqn:E; cbn [seq w_some w_any option_map negb].
  - symmetry. f_equal. apply Nat.eqb_eq. lia.
  - symmetry. f_equal. apply Nat.eqb_neq. lia.
Qed.

Lemma tag_where_ok : forall f c,
  match tag_where slc f c with
  | Some b => b = match name_here c with Some t => f t | None => false end
  | None => name_here c = None
  end.
Proof.
  intros f c. unfold tag_where, match_this_element, match_this_node, name_here, here.
  destruct (nth_error _ _) as [[r e|r t]|]; try reflexivity.
  destruct (e_selectors e) as [|s ss]; [reflexivity|]. cbn [first_name]. unfold sel_name.
  destruct (s_tag s); reflexivity.
Qed.

Lemma w_tag_val : forall t c,
  match w_tag slc t c with Some b => b | None => false end =
  match name_here c with Some n => str_eqb n t | None => false end.
Proof.
  intros t c. unfold w_tag. pose proof (tag_where_ok (fun s => str_eqb s t) c) as H.
  destruct (tag_where _ _ _); [exact H|]. now rewrite H.
Qed.

Lemma thead_ok : forall ns i p,
  w_child_of (w_child_of (w_tag slc (L "thead"))) (ICtx ns i p) =
  Some (match grand_name p with Some g => str_eqb g (L "thead") | None => false end).
Proof.
  intros ns i p. unfold w_child_of. cbn [cx_parent]. f_equal.
  destruct p as [c|]; [|reflexivity]. cbn [grand_name]. unfold parent_name.
  destruct (cx_parent c) as [c'|]; [|reflexivity]. apply w_tag_val.
Qed.

Lemma w_lp_ok : forall c, w_or w_line w_paragraph c =
  Some (match kind_here c with KLine | KPara => true | _ => false end).
Proof. intros c. unfold w_or. rewrite w_line_ok, w_paragraph_ok. destruct (kind_here c); reflexivity. Qed.
Lemma w_fp_ok : forall c, w_and w_first w_paragraph c =
  Some ((cx_index c =? 0)%nat && match kind_here c with KPara => true | _ => false end).
Proof.
  intros c. unfold w_and. rewrite w_first_ok, w_paragraph_ok.
  destruct (cx_index c =? 0)%nat; [|reflexivity]. destruct (kind_here c); reflexivity.
Qed.
Lemma w_ll_ok : forall c, (cx_index c < length (cx_nodes c))%nat -> w_and w_line w_last c =
  Some (match kind_here c with KLine => true | _ => false end && (S (cx_index c) =? length (cx_nodes c))%nat).
Proof.
  intros c H. unfold w_and. rewrite w_line_ok, (w_last_ok c H).
  destruct (kind_here c); try reflexivity. destruct (S (cx_index c) =? _)%nat; reflexivity.
Qed.

(** ** Choosing the tag *)
Definition naming_tag (n : naming) : option str :=
  match n with Named t => Some t | Plain => Some [] | Unnamed => None end.

Lemma tags_ok : forall m ns i p, (i < length ns)%nat ->
  test_defs (define_tags slc m) (ICtx ns i p) 0 0 =
  inl (naming_tag (name_for (ctx_of m) (grand_name p) (i =? 0)%nat (S i =? length ns)%nat
                            (kind_here (ICtx ns i p)))).
Proof.
  intros m ns i p Hi.
  pose proof (w_first_ok (ICtx ns i p)) as Hf.
  pose proof (w_fp_ok (ICtx ns i p)) as Hfp.
  pose proof (w_ll_ok (ICtx ns i p) Hi) as Hl.
  pose proof (thead_ok ns i p) as Ht.
  pose proof (w_line_ok (ICtx ns i p)) as Hli.
  pose proof (w_block_ok (ICtx ns i p)) as Hb.
  pose proof (w_paragraph_ok (ICtx ns i p)) as Hp.
  pose proof (w_default_ok (ICtx ns i p)) as Hd.
  pose proof (w_lp_ok (ICtx ns i p)) as Hlp.
  cbn [cx_index cx_nodes] in *.
  destruct m; unfold define_tags, standard_tags; cbn [ctx_of test_defs Nat.leb name_for];
    rewrite ?Hf, ?Hfp, ?Hl, ?Ht, ?Hli, ?Hb, ?Hp, ?Hd, ?Hlp;
    destruct (kind_here (ICtx ns i p));
    try (destruct (i =? 0)%nat; reflexivity);
    try (destruct (S i =? length ns)%nat; reflexivity);
    try (destruct (grand_name p) as [g|]; [destruct (str_eqb g (L "thead"))|]; reflexivity);
    reflexivity.
Qed.

(** ** Naming the nodes of one level *)
Definition name_node (c : context) (grand : option str) (first last : bool) (n : node) : node :=
  match n with
  | NTxt r t => NTxt r t
  | NElt r e => NElt r (with_selectors e
      (name_sels slc (r_start (e_range e)) (e_selectors e)
                 (name_for c grand first last (kind_of (e_type e)))))
  end.

Lemma eta_elt : forall e : element, with_selectors e (e_selectors e) = e.
Proof. now intros []. Qed.

Lemma apply_tags_ok : forall r e nm t,
  first_name slc (e_selectors e) = None -> naming_tag nm = Some t ->
  (forall t', nm = Named t' -> t' <> []) ->
  apply_tag_fn t (NElt r e) = NElt r (with_selectors e (name_sels slc (r_start (e_range e)) (e_selectors e) nm)).
Proof.
  intros r e nm t Hn Ht Hne. unfold name_sels. rewrite Hn.
  destruct nm as [t'| |]; cbn in Ht; [| |discriminate]; injection Ht as <-; cbn [apply_tag_fn]; f_equal.
  - unfold apply_tags. cbn [filter slice_is_empty].
    destruct t' as [|c t']; [exfalso; now apply (Hne []) |]. cbn [str_empty negb].
    destruct (e_selectors e) as [|s ss]; cbn [map app]; reflexivity.
Qed.

Lemma name_for_ne : forall c g f l k t, name_for c g f l k = Named t -> t <> [].
Proof.
  intros c g f l k t H ->. destruct c, k, f, l; vm_compute in H; try discriminate;
    destruct g as [g|]; try discriminate;
    match type of H with (if ?b then _ else _) = _ => destruct b; discriminate end.
Qed.

Lemma set_nth_app : forall A (a b : list A) x y, set_nth (length a) y (a ++ x :: b) = a ++ y :: b.
Proof. induction a as [|z a IH]; intros b x y; cbn; [reflexivity|]. now rewrite IH. Qed.
Lemma nth_app_mid : forall A (a b : list A) x, nth_error (a ++ x :: b) (length a) = Some x.
Proof. induction a as [|z a IH]; intros b x; cbn; [reflexivity|]. apply IH. Qed.

Lemma has_tag_name : forall r e, has_tag (NElt r e) = false -> first_name slc (e_selectors e) = None.
Proof.
  intros r e H. cbn in H. unfold first_name, sel_name. destruct (e_selectors e) as [|s ss]; [reflexivity|].
  destruct (s_tag s); cbn in H; [discriminate|reflexivity..].
Qed.
Lemma has_tag_some : forall r e, has_tag (NElt r e) = true -> exists t, first_name slc (e_selectors e) = Some t.
Proof.
  intros r e H. cbn in H. unfold first_name, sel_name. destruct (e_selectors e) as [|s ss]; [discriminate|].
  destruct (s_tag s); cbn in H; [eauto|discriminate..].
Qed.

Lemma name_step : forall m p done n rest sd sr, length sd = length done ->
  infer_tag_node (define_tags slc m) p (length done) (done ++ n :: rest) (sd ++ Some 0%nat :: sr) =
  (done ++ name_node (ctx_of m) (grand_name p) (length done =? 0)%nat
                     (match rest with [] => true | _ => false end) n :: rest,
   sd ++ None :: sr, true).
Proof.
  intros m p done n rest sd sr Hs. unfold infer_tag_node.
  assert (nth_error (sd ++ Some 0%nat :: sr) (length done) = Some (Some 0%nat)) as E1
    by (rewrite <- Hs; apply nth_app_mid).
  assert (forall st, set_nth (length done) st (sd ++ Some 0%nat :: sr) = sd ++ st :: sr) as E2
    by (intros st; rewrite <- Hs; apply set_nth_app).
  rewrite E1, nth_app_mid, !E2.
  assert ((length done < length (done ++ n :: rest))%nat) as Hi by (rewrite app_length; cbn; lia).
  rewrite (tags_ok m _ _ p Hi).
  assert ((S (length done) =? length (done ++ n :: rest))%nat = match rest with [] => true | _ => false end) as El.
  { rewrite app_length. destruct rest; cbn [length]; [apply Nat.eqb_eq|apply Nat.eqb_neq]; lia. }
  rewrite El. unfold kind_here, here. cbn [cx_nodes cx_index]. rewrite nth_app_mid.
  destruct n as [r e|r t].
  - destruct (has_tag (NElt r e)) eqn:Ht.
    + destruct (has_tag_some _ _ Ht) as [t Hn]. unfold name_node, name_sels. rewrite Hn. now rewrite eta_elt.
    + apply has_tag_name in Ht. cbn [name_node].
      destruct (name_for _ _ _ _ _) as [t| |] eqn:En; cbn [naming_tag].
      * rewrite (apply_tags_ok r e (Named t) t Ht eq_refl), set_nth_app; [reflexivity|].
        intros t' E. injection E as <-. eapply name_for_ne; eauto.
      * rewrite (apply_tags_ok r e Plain [] Ht eq_refl), set_nth_app; [reflexivity|discriminate].
      * unfold name_sels. rewrite Ht. now rewrite eta_elt.
  - cbn [has_tag name_node apply_tag_fn]. rewrite !set_nth_app.
    destruct (naming_tag _); reflexivity.
Qed.

Lemma pass_ok : forall m p rest done sd,
  length sd = length done ->
  infer_pass (define_tags slc m) p (seq (length done) (length rest)) (done ++ rest)
             (sd ++ repeat (Some 0%nat) (length rest)) =
  (done ++ map_pos (name_node (ctx_of m) (grand_name p)) (length done =? 0)%nat rest,
   sd ++ repeat None (length rest), length rest).
Proof.
  induction rest as [|n rest IH]; intros done sd Hs; [reflexivity|].
  cbn [length seq repeat infer_pass map_pos]. rewrite (name_step m p done n rest sd _ Hs).
  set (n' := name_node _ _ _ _ n).
  specialize (IH (done ++ [n']) (sd ++ [None])). rewrite !app_length in IH. cbn [length] in IH.
  rewrite !Nat.add_1_r, <- !app_assoc in IH. cbn [app] in IH.
  rewrite IH by lia. reflexivity.
Qed.

Lemma infer_tag_nodes_ok : forall m p ns,
  infer_tag_nodes (define_tags slc m) p ns = Some (map_pos (name_node (ctx_of m) (grand_name p)) true ns).
Proof.
  intros m p ns. unfold infer_tag_nodes. cbn [infer_loop].
  pose proof (pass_ok m p ns [] [] eq_refl) as E. cbn [length app] in E. rewrite E.
  assert (forall f b l, length (@map_pos node node f b l) = length l) as EL
    by (intros f b l; revert b; induction l; cbn; auto).
  cbn [Nat.eqb Nat.add]. rewrite EL, Nat.eqb_refl. reflexivity.
Qed.

(** ** Choosing the method *)
(** [Ok] or [Incomplete]: all that matters is whether the predicate says yes. *)
Definition yes (o : option bool) : bool := match o with Some b => b | None => false end.

Fixpoint first_yes (defs : list (pred * meth)) (c : ictx) : option meth :=
  match defs with
  | [] => None
  | (p, m) :: rest => if yes (p c) then Some m else first_yes rest c
  end.

Lemma test_from : forall (defs : list (pred * meth)) c index start, (index <= start)%nat ->
  test_defs defs c index start = test_defs (skipn (start - index) defs) c start start.
Proof.
  induction defs as [|[p m] defs IH]; intros c index start H.
  - now rewrite skipn_nil.
  - destruct (Nat.eq_dec index start) as [->|Hne].
    + now rewrite Nat.sub_diag.
    + cbn [test_defs]. destruct (start <=? index)%nat eqn:E; [apply Nat.leb_le in E; lia|].
      replace (start - index)%nat with (S (start - S index)) by lia. cbn [skipn]. apply IH. lia.
Qed.

Lemma test_yes : forall (defs : list (pred * meth)) c start,
  match test_defs defs c start start with
  | inl r => r = first_yes defs c
  | inr i => (start <= i < start + length defs)%nat /\
             first_yes defs c = first_yes (skipn (S i - start) defs) c
  end.
Proof.
  assert (forall (defs : list (pred * meth)) c start i0, (start <= i0)%nat ->
    match test_defs defs c i0 start with
    | inl r => r = first_yes defs c
    | inr i => (i0 <= i < i0 + length defs)%nat /\ first_yes defs c = first_yes (skipn (S i - i0) defs) c
    end) as G; [|intros; apply G; lia].
  induction defs as [|[p m] defs IH]; intros c start i0 H; [reflexivity|].
  cbn [test_defs first_yes]. assert ((start <=? i0)%nat = true) as -> by (apply Nat.leb_le; lia).
  destruct (p c) as [[|]|] eqn:E; cbn [yes]; [reflexivity| |].
  - specialize (IH c start (S i0) ltac:(lia)). destruct (test_defs defs c (S i0) start) as [r|i]; [exact IH|].
    destruct IH as [H1 H2]. cbn [length]. split; [lia|].
    replace (S i - i0)%nat with (S (S i - S i0)) by lia. cbn [skipn]. exact H2.
  - cbn [length]. split; [lia|]. replace (S i0 - i0)%nat with 1%nat by lia. reflexivity.
Qed.

Lemma skipn_add : forall A (l : list A) a b, skipn a (skipn b l) = skipn (b + a) l.
Proof.
  induction l as [|x l IH]; intros a b; [now rewrite !skipn_nil|].
  destruct b; [reflexivity|]. cbn. apply IH.
Qed.

Lemma find_method_ok : forall defs c,
  find_method defs c = Some (match first_yes defs c with Some m => m | None => MStandard end).
Proof.
  intros defs c. unfold find_method.
  assert (forall fuel index, (index <= length defs)%nat -> (length defs - index < fuel)%nat ->
    first_yes defs c = first_yes (skipn index defs) c ->
    find_method_loop fuel defs c index = Some (match first_yes defs c with Some m => m | None => MStandard end)) as G.
  { induction fuel as [|fuel IH]; intros index Hi Hf E; [lia|]. cbn [find_method_loop].
    rewrite (test_from defs c 0 index ltac:(lia)), Nat.sub_0_r.
    pose proof (test_yes (skipn index defs) c index) as H. rewrite skipn_length in H.
    destruct (test_defs _ _ _ _) as [r|i].
    - rewrite E, <- H. destruct r; reflexivity.
    - destruct H as [H1 H2]. apply IH; [lia|lia|].
      rewrite E, H2, skipn_add. f_equal. f_equal. lia. }
  apply G; [lia|lia|reflexivity].
Qed.

Lemma yes_tag : forall f c, yes (tag_where slc f c) = match name_here c with Some t => f t | None => false end.
Proof.
  intros f c. pose proof (tag_where_ok f c) as H. destruct (tag_where _ _ _); cbn [yes]; [exact H|].
  now rewrite H.
Qed.
Lemma yes_or : forall p q c, yes (w_or p q c) = yes (p c) || yes (q c).
Proof.
  intros p q c. unfold w_or. destruct (p c) as [[|]|], (q c) as [[|]|]; reflexivity.
Qed.

(** The sixteen name tables are disjoint, so the order of the rules is irrelevant
    and [named_context] finds the same table. *)
Lemma existsb_in : forall t l, existsb (str_eqb t) l = true <-> In t l.
Proof.
  intros t l. rewrite existsb_exists. split.
  - intros (x & Hx & E). apply str_eqb_eq in E. now subst.
  - intros H. exists t. split; [exact H|]. now apply str_eqb_eq.
Qed.

Lemma existsb_same : forall t a b, (forall x, In x a <-> In x b) -> existsb (str_eqb t) a = existsb (str_eqb t) b.
Proof.
  intros t a b H. destruct (existsb (str_eqb t) b) eqn:E.
  - apply existsb_in, H, existsb_in in E. exact E.
  - destruct (existsb (str_eqb t) a) eqn:E'; [|reflexivity].
    apply existsb_in, H, existsb_in in E'. congruence.
Qed.
Lemma incl_Forall_in : forall (l m : list str), Forall (fun x => In x m) l -> forall x, In x l -> In x m.
Proof. intros l m H. now apply Forall_forall. Qed.

Definition all_names : list (str * context) :=
  flat_map (fun c => map (fun t => (t, c)) (names_of c)) all_contexts.

Fixpoint lookup (t : str) (l : list (str * context)) : option context :=
  match l with
  | [] => None
  | (x, c) :: r => if str_eqb t x then Some c else lookup t r
  end.
Lemma lookup_app : forall t a b, lookup t (a ++ b) = match lookup t a with Some c => Some c | None => lookup t b end.
Proof.
  intros t a b. induction a as [|[x c] a IH]; cbn; [reflexivity|]. destruct (str_eqb t x); [reflexivity|exact IH].
Qed.
Lemma lookup_names : forall t c l, lookup t (map (fun x => (x, c)) l) = if existsb (str_eqb t) l then Some c else None.
Proof. intros t c l. induction l as [|x l IH]; cbn; [reflexivity|]. destruct (str_eqb t x); [reflexivity|exact IH]. Qed.

Lemma named_lookup : forall t, named_context t = lookup t all_names.
Proof.
  intros t. unfold named_context, all_names. induction all_contexts as [|c cs IH]; [reflexivity|].
  cbn [find flat_map]. rewrite lookup_app, lookup_names. destruct (existsb _ _); [reflexivity|exact IH].
Qed.

(** The rules as an association list, in the order of the engine. *)
Definition rule_names : list (str * context) :=
  flat_map (fun c => map (fun t => (t, c)) (names_of c))
    [CParagraph; CRoot; CSection; CList; CTable; CRow; CColGroup; CDescription; CDataList; CSelect;
     CMap; CDetails; CLabel; CFieldSet; CPicture; CRaw].

Lemma lookup_none : forall t l, lookup t l = None <-> ~ In t (map fst l).
Proof.
  intros t l. induction l as [|[x c] l IH]; cbn; [tauto|].
  destruct (str_eqb t x) eqn:E.
  - apply str_eqb_eq in E. subst. split; [discriminate|tauto].
  - rewrite IH. assert (x <> t) by (intros ->; rewrite (proj2 (str_eqb_eq t t) eq_refl) in E; discriminate). tauto.
Qed.
Lemma lookup_in : forall t l c, NoDup (map fst l) -> In (t, c) l -> lookup t l = Some c.
Proof.
  intros t l c. induction l as [|[x d] l IH]; cbn; [tauto|]. intros Hd [E|H]; inversion Hd; subst.
  - injection E as -> ->. now rewrite (proj2 (str_eqb_eq t t) eq_refl).
  - destruct (str_eqb t x) eqn:E; [|now apply IH]. apply str_eqb_eq in E. subst.
    exfalso. apply H2. apply in_map_iff. now exists (x, c).
Qed.
Lemma lookup_some : forall t l c, lookup t l = Some c -> In (t, c) l.
Proof.
  intros t l c. induction l as [|[x d] l IH]; cbn; [discriminate|].
  destruct (str_eqb t x) eqn:E; [|auto]. apply str_eqb_eq in E. intros H. injection H as ->. left. now subst.
Qed.

Fixpoint nodupb (l : list str) : bool :=
  match l with [] => true | x :: r => negb (existsb (str_eqb x) r) && nodupb r end.
Lemma nodupb_ok : forall l, nodupb l = true -> NoDup l.
Proof.
  induction l as [|x l IH]; cbn; intros H; [constructor|]. apply andb_prop in H as [H1 H2].
  constructor; [|auto]. intros Hin. apply existsb_in in Hin. rewrite Hin in H1. discriminate.
Qed.

Lemma rule_lookup : forall t, lookup t rule_names = lookup t all_names.
Proof.
  intros t.
  assert (NoDup (map fst all_names)) as ND by (apply nodupb_ok; vm_compute; reflexivity).
  assert (forall x, In x rule_names -> In x all_names) as I1.
  { intros x H. unfold rule_names, all_names in *. rewrite in_flat_map in H |- *. destruct H as (c & Hc & H).
    exists c. split; [destruct c; cbn; tauto|exact H]. }
  assert (forall x, In x all_names -> In x rule_names) as I2.
  { intros x H. unfold rule_names, all_names in *. rewrite in_flat_map in H |- *. destruct H as (c & Hc & H).
    exists c. split; [destruct c; cbn; tauto|exact H]. }
  destruct (lookup t rule_names) as [c|] eqn:E.
  - apply lookup_some, I1 in E. symmetry. now apply lookup_in.
  - apply lookup_none in E. symmetry. apply lookup_none. intros H. apply E.
    apply in_map_iff in H as ([x c] & <- & H). apply in_map_iff. exists (x, c). auto.
Qed.

Definition meth_of (c : context) : meth :=
  match c with
  | CSection => MStandard | CParagraph => MPhrasing | CRaw => MRaw | CRoot => MRoot
  | CList => MList | CDescription => MDescriptionList | CDataList => MOptGroup | CSelect => MSelect
  | CMap => MMap | CDetails => MDetails | CLabel => MLabel | CFieldSet => MFieldSet
  | CPicture => MPicture | CTable => MTable | CRow => MRow | CColGroup => MColGroup
  end.

Lemma first_yes_app : forall a b c, first_yes (a ++ b) c = match first_yes a c with Some m => Some m | None => first_yes b c end.
Proof.
  intros a b c. induction a as [|[p m] a IH]; cbn; [reflexivity|]. destruct (yes (p c)); [reflexivity|exact IH].
Qed.

Lemma common_none : forall c, name_here c = None -> first_yes (common_methods slc) c = None.
Proof.
  intros c H. unfold common_methods. cbn [first_yes]. unfold w_tag, w_tag_in.
  rewrite !yes_or, !yes_tag, H. reflexivity.
Qed.
Lemma one_name : forall n t, existsb (str_eqb t) [n] = str_eqb t n.
Proof. intros. cbn. apply orb_false_r. Qed.
Lemma common_some : forall c t, name_here c = Some t ->
  first_yes (common_methods slc) c = option_map meth_of (named_context t).
Proof.
  intros c t H. rewrite named_lookup, <- rule_lookup.
  unfold rule_names. cbn [flat_map]. repeat (rewrite lookup_app, lookup_names). cbn [lookup].
  unfold common_methods. cbn [first_yes]. unfold w_tag, w_tag_in.
  rewrite !yes_or, !yes_tag, H.
  replace (contains_phrasing t || infer_is_void t) with (existsb (str_eqb t) (names_of CParagraph))
    by (unfold contains_phrasing, infer_is_void; rewrite <- existsb_app; reflexivity).
  replace (contains_blocks t) with (existsb (str_eqb t) (names_of CSection))
    by (apply existsb_same; intros x; cbn; tauto).
  replace (existsb (fun x => str_eqb t x) [L "optgroup"; L "datalist"])
    with (existsb (str_eqb t) (names_of CDataList)) by (apply existsb_same; intros x; cbn; tauto).
  replace (existsb (fun x => str_eqb t x) [L "style"; L "script"])
    with (existsb (str_eqb t) (names_of CRaw)) by (apply existsb_same; intros x; cbn; tauto).
  rewrite <- !one_name.
  change (existsb (fun x => str_eqb t x) [L "ul"; L "ol"; L "menu"]) with (existsb (str_eqb t) (names_of CList)).
  change (existsb (fun x => str_eqb t x) [L "table"; L "thead"; L "tbody"; L "tfoot"])
    with (existsb (str_eqb t) (names_of CTable)).
  repeat match goal with
  | |- (if existsb ?f (names_of ?c) then _ else _) = _ => destruct (existsb f (names_of c)); [reflexivity|]
  | |- (if existsb ?f ?l then _ else _) = option_map _ (match (if ?b then _ else _) with _ => _ end) =>
      change b with (existsb f l); destruct (existsb f l); [reflexivity|]
  end; reflexivity.
Qed.

Lemma method_ok : forall m c,
  find_method (define_methods slc m) c = Some (meth_of (inside (name_here c) (kind_here c))).
Proof.
  intros m c. rewrite find_method_ok. f_equal.
  assert (forall rest, first_yes rest c = (match kind_here c with KLine | KPara => Some MPhrasing
             | KBlock => Some MStandard | KOther => None end) ->
    match first_yes (common_methods slc ++ rest) c with Some m0 => m0 | None => MStandard end =
    meth_of (inside (name_here c) (kind_here c))) as G.
  { intros rest Hr. rewrite first_yes_app, Hr. unfold inside. destruct (name_here c) as [t|] eqn:En.
    - rewrite (common_some c t En). destruct (named_context t); cbn; [reflexivity|].
      destruct (kind_here c); reflexivity.
    - rewrite (common_none c En). destruct (kind_here c); reflexivity. }
  assert (first_yes [(w_or w_line w_paragraph, MPhrasing); (w_default, MStandard)] c =
          match kind_here c with KLine | KPara => Some MPhrasing | KBlock => Some MStandard | KOther => None end) as H1.
  { cbn [first_yes]. rewrite yes_or, w_line_ok, w_paragraph_ok, w_default_ok. destruct (kind_here c); reflexivity. }
  destruct m; try (apply G; exact H1).
  cbn [define_methods].
  change (common_methods slc ++ _) with (common_methods slc ++ ([(w_or (tag_where slc contains_phrasing) (tag_where slc contains_blocks), MPhrasing)] ++ [(w_block, MStandard); (w_default, MPhrasing)])).
  rewrite first_yes_app.
  destruct (first_yes (common_methods slc) c) as [m|] eqn:Ec.
  - unfold inside. destruct (name_here c) as [t|] eqn:En; [|rewrite (common_none c En) in Ec; discriminate].
    rewrite (common_some c t En) in Ec. destruct (named_context t); [|discriminate]. now injection Ec as <-.
  - assert (first_yes [(w_block, MStandard); (w_default, MPhrasing)] c =
          match kind_here c with KLine | KPara => Some MPhrasing | KBlock => Some MStandard | KOther => None end) as H2
      by (cbn [first_yes]; rewrite w_block_ok, w_default_ok; destruct (kind_here c); reflexivity).
    rewrite first_yes_app, H2.
    assert (first_yes [(w_or (tag_where slc contains_phrasing) (tag_where slc contains_blocks), MPhrasing)] c =
            if match name_here c with Some t => contains_phrasing t || contains_blocks t | None => false end
            then Some MPhrasing else None) as ->.
    { cbn [first_yes]. rewrite yes_or, !yes_tag. destruct (name_here c); reflexivity. }
    unfold inside. destruct (name_here c) as [t|] eqn:En.
    + rewrite (common_some c t En) in Ec.
      assert (named_context t = None) as Hnc by (destruct (named_context t); [discriminate|reflexivity]).
      rewrite Hnc.
      assert (contains_phrasing t || contains_blocks t = false) as ->.
      { destruct (contains_phrasing t || contains_blocks t) eqn:E; [|reflexivity]. exfalso.
        rewrite named_lookup in Hnc. apply lookup_none in Hnc. apply Hnc.
        unfold contains_phrasing, contains_blocks in E. rewrite <- existsb_app in E. apply existsb_in in E.
        revert E. generalize t. apply incl_Forall_in. vm_compute. repeat (constructor; [tauto|]). constructor. }
      destruct (kind_here c); reflexivity.
    + destruct (kind_here c); reflexivity.
Qed.

(** ** The recursion *)
Fixpoint need (n : node) : nat :=
  match n with
  | NElt _ e => (Nat.max 1 (length (e_selectors e)) + list_max (map need (e_nodes e)))%nat
  | NTxt _ _ => 0
  end.
Definition needs (ns : list node) : nat := list_max (map need ns).

Lemma name_sels_length : forall st sels n, (length (name_sels slc st sels n) <= Nat.max 1 (length sels))%nat.
Proof.
  intros st sels n. unfold name_sels. destruct (first_name slc sels); [lia|].
  destruct n; [destruct sels; cbn; lia| |lia]. destruct sels; cbn; lia.
Qed.

Lemma chain_fuel : forall k1 k2 sels c g p fi la r er cr ty f raw kids,
  (length sels <= length k1)%nat -> (length sels <= length k2)%nat ->
  chain slc k1 c g p fi la r er sels cr ty f raw kids = chain slc k2 c g p fi la r er sels cr ty f raw kids.
Proof.
  induction k1 as [|x k1 IH]; intros k2 sels c g p fi la r er cr ty f raw kids H1 H2.
  - destruct sels; [|cbn in H1; lia]. destruct k2; cbn [chain]; [reflexivity|].
    pose proof (name_sels_length (r_start er) [] (name_for c g fi la (kind_of ty))) as HL. cbn [length Nat.max] in HL.
    destruct (name_sels _ _ _ _) as [|s0 [|s1 rest]]; [reflexivity|reflexivity|cbn in HL; lia].
  - destruct k2 as [|y k2].
    + destruct sels; [|cbn in H2; lia]. cbn [chain].
      pose proof (name_sels_length (r_start er) [] (name_for c g fi la (kind_of ty))) as HL. cbn [length Nat.max] in HL.
      destruct (name_sels _ _ _ _) as [|s0 [|s1 rest]]; [reflexivity|reflexivity|cbn in HL; lia].
    + cbn [chain].
      pose proof (name_sels_length (r_start er) sels (name_for c g fi la (kind_of ty))) as HL.
      destruct (name_sels _ _ _ _) as [|s0 [|s1 rest]]; [reflexivity|reflexivity|].
      cbn [length] in *. rewrite (IH k2) by (cbn [length]; lia). reflexivity.
Qed.

(** The rest of the work on an element whose selectors are named. *)
Definition fin (parent : option str) (n : node) : node :=
  match n with
  | NTxt r t => NTxt r t
  | NElt r e =>
      let e1 := split_first e in
      let name := first_name slc (e_selectors e1) in
      let c := inside name (kind_of (e_type e)) in
      NElt r (put_back e1 (resolve_all slc c parent name (e_nodes e1)) (root_is_raw (meth_of c)))
  end.

Lemma fin_resolve : forall c g p fi la n, fin p (name_node c g fi la n) = resolve slc c g p fi la n.
Proof.
  intros c g p fi la [r e|r t]; [|reflexivity]. cbn [name_node resolve].
  pose proof (name_sels_length (r_start (e_range e)) (e_selectors e) (name_for c g fi la (kind_of (e_type e)))) as HL.
  destruct (e_selectors e) as [|x xs] eqn:Es.
  - cbn [chain]. destruct (name_sels _ _ _ _) as [|s0 [|s1 rest]] eqn:En; [| |cbn in HL; lia];
      cbn [fin split_first with_selectors e_selectors first_name e_type]; unfold split_first, put_back, with_raw, with_nodes, with_content;
      cbn [with_selectors e_selectors e_range e_crange e_nodes e_type e_format_inline e_raw]; do 2 f_equal;
      destruct (inside _ _); reflexivity.
  - cbn [chain]. destruct (name_sels _ _ _ _) as [|s0 [|s1 rest]] eqn:En;
      cbn [fin]; unfold split_first, put_back, with_raw, with_nodes, with_content;
      cbn [with_selectors e_selectors e_range e_crange e_nodes e_type e_format_inline e_raw].
    + do 2 f_equal. destruct (inside _ _); reflexivity.
    + do 2 f_equal. destruct (inside _ _); reflexivity.
    + unfold resolve_all. cbn [map_pos first_name elt_node]. do 2 f_equal; [|destruct (inside _ _); reflexivity].
      f_equal. unfold elt_node. cbn [resolve e_selectors e_range e_crange e_nodes e_type e_format_inline e_raw].
      apply chain_fuel; cbn [length] in *; lia.
Qed.

Lemma levels_ok : forall rec m p rest done,
  (forall n e m' q, In n rest -> as_element n = Some e ->
     rec m' q (e_nodes (split_first e)) =
     Some (resolve_all slc (ctx_of m') (grand_name q) (parent_name q) (e_nodes (split_first e)))) ->
  levels rec (define_methods slc m) p done rest = Some (done ++ map (fin (parent_name p)) rest).
Proof.
  intros rec m p. induction rest as [|n rest IH]; intros done H; [now rewrite app_nil_r|].
  assert (forall d, levels rec (define_methods slc m) p d rest = Some (d ++ map (fin (parent_name p)) rest)) as IH'.
  { intros d. apply IH. intros n' e m' q Hin. apply H. now right. }
  destruct n as [r e|r t]; cbn [levels map fin].
  - rewrite method_ok. unfold name_here, kind_here, here. cbn [cx_nodes cx_index]. rewrite nth_app_mid.
    assert (e_selectors (with_nodes (split_first e) []) = e_selectors (split_first e)) as -> by reflexivity.
    assert (e_type (with_nodes (split_first e) []) = e_type e) as ->
      by (unfold split_first; destruct (e_selectors e) as [|? [|? ?]]; reflexivity).
    set (c := inside _ _).
    rewrite (H (NElt r e) e) by (try reflexivity; now left).
    rewrite IH', <- app_assoc. cbn [app]. do 4 f_equal. f_equal.
    assert (ctx_of (meth_of c) = c) as -> by (destruct c; reflexivity).
    unfold parent_name at 1, name_here, here. cbn [cx_nodes cx_index grand_name cx_parent].
    rewrite nth_app_mid. reflexivity.
  - rewrite IH', <- app_assoc. reflexivity.
Qed.

Lemma needs_in : forall n ns, In n ns -> (need n <= needs ns)%nat.
Proof.
  intros n ns. unfold needs. induction ns as [|m ns IH]; [intros []|].
  cbn [map list_max fold_right]. intros [->|H]; [apply Nat.le_max_l|]. etransitivity; [now apply IH|]. apply Nat.le_max_r.
Qed.

Lemma need_split : forall r e, (needs (e_nodes (split_first e)) < need (NElt r e))%nat.
Proof.
  intros r e. unfold split_first. destruct (e_selectors e) as [|s0 [|s1 rest]] eqn:E.
  - cbn [need]. rewrite E. cbn [length]. unfold needs. lia.
  - cbn [need]. rewrite E. cbn [length]. unfold needs. lia.
  - unfold elt_node. cbn [e_nodes]. unfold needs. cbn [map need e_selectors e_nodes]. rewrite E.
    cbn [list_max fold_right length]. lia.
Qed.

Lemma need_name : forall c g fi la n, (need (name_node c g fi la n) <= need n)%nat.
Proof.
  intros c g fi la [r e|r t]; [|cbn; lia]. cbn [name_node need with_selectors e_selectors e_nodes].
  pose proof (name_sels_length (r_start (e_range e)) (e_selectors e) (name_for c g fi la (kind_of (e_type e)))). lia.
Qed.

Lemma map_pos_in : forall A B (f : bool -> bool -> A -> B) l first y,
  In y (map_pos f first l) -> exists a b x, In x l /\ y = f a b x.
Proof.
  intros A B f. induction l as [|x l IH]; intros first y H; [destruct H|].
  cbn in H. destruct H as [<-|H].
  - do 3 eexists. split; [now left|reflexivity].
  - destruct (IH _ _ H) as (a & b & z & Hz & ->). do 3 eexists. split; [right; eassumption|reflexivity].
Qed.
Lemma map_map_pos : forall A B C (f : bool -> bool -> A -> B) (g : B -> C) l first,
  map g (map_pos f first l) = map_pos (fun a b x => g (f a b x)) first l.
Proof. intros A B C f g. induction l as [|x l IH]; intros first; [reflexivity|]. cbn. now rewrite IH. Qed.
Lemma map_pos_ext : forall A B (f g : bool -> bool -> A -> B), (forall a b x, f a b x = g a b x) ->
  forall l first, map_pos f first l = map_pos g first l.
Proof. intros A B f g H. induction l as [|x l IH]; intros first; [reflexivity|]. cbn. now rewrite IH, H. Qed.

Theorem use_method_ok : forall fuel m p ns, (needs ns < fuel)%nat ->
  use_method slc fuel m p ns = Some (resolve_all slc (ctx_of m) (grand_name p) (parent_name p) ns).
Proof.
  induction fuel as [|fuel IH]; intros m p ns Hf; [lia|].
  cbn [use_method]. rewrite infer_tag_nodes_ok, levels_ok.
  - cbn [app]. rewrite map_map_pos. f_equal. apply map_pos_ext. intros a b x. apply fin_resolve.
  - intros n e m' q Hin He. apply IH.
    apply map_pos_in in Hin as (a & b & x & Hx & ->).
    destruct (name_node (ctx_of m) (grand_name p) a b x) as [r e'|] eqn:En; [|discriminate].
    cbn in He. injection He as ->.
    pose proof (need_split r e). pose proof (need_name (ctx_of m) (grand_name p) a b x) as H1. rewrite En in H1.
    pose proof (needs_in _ _ Hx). lia.
Qed.

Lemma need_depth : forall n, (need n <= infer_depth n)%nat.
Proof.
  induction n as [r e IH|r t] using node_ind'; [|cbn; lia]. cbn [need infer_depth].
  assert (list_max (map need (e_nodes e)) <= list_max (map infer_depth (e_nodes e)))%nat as H.
  { induction IH as [|n ns Hn _ IHns]; [cbn; lia|]. cbn [map list_max fold_right]. unfold list_max in *. lia. }
  lia.
Qed.

Theorem infer_resolves : forall ns, infer slc ns = Some (resolve_all slc CSection None None ns).
Proof.
  intros ns. unfold infer. apply (use_method_ok _ MStandard None).
  unfold needs. assert (list_max (map need ns) <= list_max (map infer_depth ns))%nat; [|lia].
  induction ns as [|n ns IH]; [cbn; lia|]. cbn [map list_max fold_right]. unfold list_max in *.
  pose proof (need_depth n). lia.
Qed.

End P.

(** * The document is nested as its source says: C46. *)

From Verif Require Import Base Escape Doc Ast Config Errors Build Infer Transform Output SpecTree SpecInfer SpecTransform SpecBuild SpecSource SpecWhole SpecAttrs
  SpecShape P_Base P_Build P_BuildAll P_Selector P_Marks P_Infer P_InferProps P_Transform P_Meta P_Trees P_Source P_Attrs.
From Coq Require Import Lia.

Section Shape.
Variable slc : lrange -> str.
Variable xml : bool.

Notation sh := (map (shape_of slc xml)).
Notation shape_of := (shape_of slc xml).
Notation labels := (map (doc_label slc xml)).
Notation Line := (Line slc xml).
Notation After := (After slc xml).
Notation Below := (Below slc xml).
Notation Says := (Says slc xml).
Notation Means := (Means slc xml).
Notation source_label := (source_label slc xml).

(** ** The relation is a function *)
Lemma placed_unique : forall p out m a, Placed p out m a -> forall b, Placed p out m b -> a = b.
Proof.
  intros p out m a H b H'. inversion H; subst; inversion H'; subst; try congruence.
  - match goal with E : _ ++ [_] = _ ++ [_] |- _ => apply app_inj_tail in E as [-> E]; injection E as -> -> -> end. reflexivity.
  - match goal with G : forall _ _ _ _, _ -> goes_on _ = false |- _ => specialize (G _ _ _ _ eq_refl) end. congruence.
  - match goal with G : forall _ _ _ _, _ -> goes_on _ = false |- _ => specialize (G _ _ _ _ eq_refl) end. congruence.
  - match goal with G : forall _ _ _ _, _ -> goes_on _ = false |- _ => specialize (G _ _ _ _ eq_refl) end. congruence.
  - match goal with G : forall _ _ _ _, _ -> goes_on _ = false |- _ => specialize (G _ _ _ _ eq_refl) end. congruence.
Qed.
Lemma arranged_unique : forall p out ms a, Arranged p out ms a -> forall b, Arranged p out ms b -> a = b.
Proof.
  induction 1 as [out|out m ms o1 o2 HP HA IH]; intros b Hb; inversion Hb; subst; [reflexivity|].
  apply IH. match goal with P : Placed p out m ?x |- _ => now rewrite (placed_unique _ _ _ _ HP _ P) end.
Qed.
Lemma find_first : forall l before f path kids after, l = before ++ ShElt f path kids :: after ->
  Forall (fun s => visible s = false) before -> find visible l = Some (ShElt f path kids).
Proof.
  intros l before f path kids after -> H. induction H as [|x l Hx Hl IH]; cbn [app find]; [reflexivity|]. now rewrite Hx.
Qed.
Lemma first_unique : forall b1 f1 p1 k1 a1 b2 f2 p2 k2 a2,
  b1 ++ ShElt f1 p1 k1 :: a1 = b2 ++ ShElt f2 p2 k2 :: a2 ->
  Forall (fun s => visible s = false) b1 -> Forall (fun s => visible s = false) b2 ->
  b1 = b2 /\ ShElt f1 p1 k1 = ShElt f2 p2 k2 /\ a1 = a2.
Proof.
  induction b1 as [|x b1 IH]; intros f1 p1 k1 a1 [|y b2] f2 p2 k2 a2 E H1 H2; cbn [app] in E.
  - injection E as -> -> -> ->. auto.
  - injection E as <- E. inversion H2. discriminate.
  - injection E as -> E. inversion H1. discriminate.
  - injection E as -> E. inversion H1; inversion H2; subst. destruct (IH _ _ _ _ _ _ _ _ _ E) as (-> & -> & ->); auto.
Qed.
Lemma inlined_unique : forall l a, Inlined l a -> forall b, Inlined l b -> a = b.
Proof.
  intros l a H b H'. inversion H; subst; inversion H'; subst; try reflexivity.
  - match goal with E : _ ++ _ = _ ++ _ |- _ => apply first_unique in E as (-> & E & ->); [|assumption|assumption]; injection E as -> -> -> end.
    reflexivity.
  - match goal with G : forall _ _ _ _ _, _ -> _ -> standard _ = false |- _ => specialize (G _ _ _ _ _ eq_refl ltac:(eassumption)) end. congruence.
  - match goal with G : forall _ _ _ _ _, _ -> _ -> standard _ = false |- _ => specialize (G _ _ _ _ _ eq_refl ltac:(eassumption)) end. congruence.
Qed.

Scheme Line_mut := Induction for SpecShape.Line Sort Prop
with After_mut := Induction for SpecShape.After Sort Prop
with Below_mut := Induction for SpecShape.Below Sort Prop
with Says_mut := Induction for SpecShape.Says Sort Prop
with Means_mut := Induction for SpecShape.Means Sort Prop.
Combined Scheme shape_ind from Line_mut, After_mut, Below_mut, Says_mut, Means_mut.

Theorem shape_unique :
  (forall items l, Line items l -> forall l', Line items l' -> l = l') /\
  (forall items cs path f kids rest, After items cs path f kids rest -> forall cs' path' f' kids' rest',
     After items cs' path' f' kids' rest' -> cs = cs' /\ path = path' /\ f = f' /\ kids = kids' /\ rest = rest') /\
  (forall items cs path f kids rest, Below items cs path f kids rest -> forall cs' path' f' kids' rest',
     Below items cs' path' f' kids' rest' -> cs = cs' /\ path = path' /\ f = f' /\ kids = kids' /\ rest = rest') /\
  (forall p c l, Says p c l -> forall l', Says p c l' -> l = l') /\
  (forall ls ms, Means ls ms -> forall ms', Means ls ms' -> ms = ms').
Proof.
  apply (shape_ind slc xml).
  - intros l' H. now inversion H.
  - intros sp b t e items out _ IH l' H. inversion H; subst. now rewrite (IH _ ltac:(eassumption)).
  - intros sp b m e items out _ IH l' H. inversion H; subst. now rewrite (IH _ ltac:(eassumption)).
  - intros sp b k e items kids out _ IH1 _ IH2 l' H. inversion H; subst.
    now rewrite (IH1 _ ltac:(eassumption)), (IH2 _ ltac:(eassumption)).
  - intros sp b i e items l l1 out _ IH1 HI _ IH2 l' H. inversion H; subst.
    match goal with L : Line (in_inner i) ?x |- _ => apply IH1 in L; subst x end.
    match goal with I : Inlined l ?x |- _ => rewrite (inlined_unique _ _ HI _ I) end.
    now rewrite (IH2 _ ltac:(eassumption)).
  - intros sp b r e items out _ IH l' H. inversion H; subst. now rewrite (IH _ ltac:(eassumption)).
  - intros sp b k o c cl e items kids out _ IH1 _ IH2 l' H. inversion H; subst.
    now rewrite (IH1 _ ltac:(eassumption)), (IH2 _ ltac:(eassumption)).
  - intros sp b s e items cs path f kids rest out _ IH1 _ IH2 l' H. inversion H; subst.
    match goal with A : After items _ _ _ _ _ |- _ => apply IH1 in A as (-> & -> & -> & -> & ->) end.
    now rewrite (IH2 _ ltac:(eassumption)).
  - intros sp b s e items cs path f kids rest out _ IH1 _ IH2 l' H. inversion H; subst.
    match goal with A : Below items _ _ _ _ _ |- _ => apply IH1 in A as (-> & -> & -> & -> & ->) end.
    now rewrite (IH2 _ ltac:(eassumption)).
  - intros sp b c e items cs path f kids rest _ IH cs' path' f' kids' rest' H. inversion H; subst.
    match goal with A : After items _ _ _ _ _ |- _ => apply IH in A as (-> & -> & -> & -> & ->) end. auto.
  - intros sp b k e kids rest _ IH cs' path' f' kids' rest' H. inversion H; subst.
    rewrite (IH _ ltac:(eassumption)). auto.
  - intros sp b c e items cs path f kids rest _ IH cs' path' f' kids' rest' H. inversion H; subst.
    match goal with A : Below items _ _ _ _ _ |- _ => apply IH in A as (-> & -> & -> & -> & ->) end. auto.
  - intros sp b s e items cs path f kids rest _ IH cs' path' f' kids' rest' H.
    inversion H as [? ? ? ? ? ? ? ? ? ? H0| | |? ? H0]; subst; [|cbn in H0; contradiction].
    apply IH in H0 as (-> & -> & -> & -> & ->). auto.
  - intros sp b s e items cs path f kids rest _ IH cs' path' f' kids' rest' H.
    inversion H as [|? ? ? ? ? ? ? ? ? ? H0| |? ? H0]; subst; [|cbn in H0; contradiction].
    apply IH in H0 as (-> & -> & -> & -> & ->). auto.
  - intros sp b k e kids rest _ IH cs' path' f' kids' rest' H.
    inversion H as [| |? ? ? ? ? ? H0|? ? H0]; subst; [|cbn in H0; contradiction].
    apply IH in H0 as ->. auto.
  - intros items kids HB _ IH cs' path' f' kids' rest' H.
    inversion H as [| | |? ? H0 H1]; subst; try (cbn in HB; contradiction). apply IH in H1 as ->. auto.
  - intros p c ms out _ IH HA l' H. inversion H; subst.
    match goal with M : Means _ ?x |- _ => apply IH in M; subst x end.
    eapply arranged_unique; eauto.
  - intros ms' H. now inversion H.
  - intros b e ls ms _ IH ms' H. inversion H; subst. now rewrite (IH _ ltac:(eassumption)).
  - intros b i items e ls l ms _ IH1 _ IH2 ms' H. inversion H; subst.
    now rewrite (IH1 _ ltac:(eassumption)), (IH2 _ ltac:(eassumption)).
Qed.

(** ** Pieces of the builder *)
Lemma visible_shape : forall n, visible (shape_of n) = is_visible n.
Proof. intros [r e|r [t|t|t]]; reflexivity. Qed.
Lemma exists_visible : forall l, existsb visible (sh l) = existsb is_visible l.
Proof. induction l as [|n l IH]; [reflexivity|]. cbn [map existsb]. now rewrite visible_shape, IH. Qed.
Lemma find_visible : forall l, find visible (sh l) = opt_map shape_of (find is_visible l).
Proof.
  induction l as [|n l IH]; [reflexivity|]. cbn [map find]. rewrite visible_shape. destruct (is_visible n); [reflexivity|exact IH].
Qed.
Lemma own_line_shape : forall l, own_line (sh l) = starts_with_element l.
Proof.
  intros l. unfold own_line, starts_with_element. rewrite find_visible. destruct (find is_visible l) as [[r e|r t]|]; [|reflexivity|reflexivity].
  cbn [opt_map shape_of]. destruct (e_type e) as [|[]|[[]|]| |[]|]; reflexivity.
Qed.

Lemma add_line_shape : forall out line r le p, line <> [] ->
  Placed p (sh (rev out)) (Some (sh line)) (sh (rev (add_line out line r le p))).
Proof.
  intros out line r le p HL. unfold add_line.
  assert (HS : sh (rev (if existsb is_visible out then paragraph_end le (r_start r) :: out else out)) = sh (rev out) ++ separator (sh (rev out))).
  { unfold separator. rewrite exists_visible.
    assert (existsb is_visible (rev out) = existsb is_visible out) as ->.
    { clear. induction out as [|x l IH]; [reflexivity|]. cbn [rev existsb]. rewrite existsb_app, IH. cbn [existsb].
      rewrite orb_false_r. apply orb_comm. }
    destruct (existsb is_visible out); [|now rewrite app_nil_r]. cbn [rev]. now rewrite map_app. }
  destruct (starts_with_element line) eqn:ES.
  - destruct line as [|n0 l']; [congruence|]. set (line := n0 :: l') in *. rewrite andb_false_r. cbn [andb].
    rewrite rev_app_distr, rev_involutive, map_app, HS, <- app_assoc. apply PlOwn. now rewrite own_line_shape.
  - destruct (append_to_previous out line r le) as [out' line'] eqn:EA.
    unfold append_to_previous in EA.
    assert (Hopen : forall (ro : lrange) e before, out = NElt ro e :: before -> goes_on (form_of (e_type e)) = true ->
      Placed p (sh (rev out)) (Some (sh line)) (sh (rev (NElt (mkR (r_start ro) (r_end r))
         (with_range (with_nodes e (e_nodes e ++ line_end le (r_start r) :: line)) (mkR (r_start (e_range e)) (r_end r))) :: before)))).
    { intros ro e before -> HG. cbn [rev]. rewrite !map_app. cbn [map shape_of with_range with_nodes with_content e_type e_selectors e_nodes].
      rewrite map_app. cbn [map]. change (shape_of (line_end le (r_start r))) with (ShLeaf (TSpace LineEnd)).
      eapply PlGoesOn; [now rewrite own_line_shape|reflexivity|exact HG]. }
    assert (Hnew : (forall (ro : lrange) e before, out = NElt ro e :: before -> goes_on (form_of (e_type e)) = false) ->
      Placed p (sh (rev out)) (Some (sh line)) (sh (rev (match line with
        | [] => out
        | _ => let out := if existsb is_visible out then paragraph_end le (r_start r) :: out else out in
            if p && negb false && existsb is_visible line
            then elt_node (with_content (new_elt r Paragraph) r line) :: out
            else rev line ++ out
        end)))).
    { intros HG. destruct line as [|n0 l']; [congruence|]. set (line := n0 :: l') in *. cbv zeta.
      assert (HG' : forall before f path kids, sh (rev out) = before ++ [ShElt f path kids] -> goes_on f = false).
      { intros before f path kids E. destruct out as [|[ro e|ro t] o].
        - destruct before; discriminate.
        - cbn [rev] in E. rewrite map_app in E. cbn [map shape_of] in E. apply app_inj_tail in E as [_ E]. injection E as <- _ _.
          now apply (HG ro e o).
        - cbn [rev] in E. rewrite map_app in E. cbn [map shape_of] in E. apply app_inj_tail in E as [_ E]. discriminate. }
      rewrite <- own_line_shape in ES. destruct (existsb is_visible line) eqn:EV; pose proof EV as EV'; rewrite <- exists_visible in EV.
      - rewrite andb_true_r, andb_true_r.
        replace (sh (rev (if p then elt_node (with_content (new_elt r Paragraph) r line) :: (if existsb is_visible out then paragraph_end le (r_start r) :: out else out)
           else rev line ++ (if existsb is_visible out then paragraph_end le (r_start r) :: out else out))))
          with (sh (rev out) ++ separator (sh (rev out)) ++ if p then [ShElt FParagraph [] (sh line)] else sh line).
        + now apply PlParagraph.
        + destruct p; [cbn [rev]; rewrite map_app|rewrite rev_app_distr, rev_involutive, map_app]; rewrite HS, <- app_assoc; reflexivity.
      - rewrite andb_false_r. rewrite rev_app_distr, rev_involutive, map_app, HS, <- app_assoc. now apply PlComment. }
    destruct out as [|[ro e|ro t] before].
    + injection EA as <- <-. apply Hnew. discriminate.
    + destruct (e_type e) as [|[]|d| | |] eqn:ET; injection EA as <- <-;
        try (apply Hnew; intros ? ? ? [= <- <- <-]; rewrite ET; try reflexivity; destruct d as [[]|]; reflexivity);
        (eapply Hopen; [reflexivity|now rewrite ET]).
    + injection EA as <- <-. apply Hnew. discriminate.
Qed.

Lemma inline_first_shape : forall r line line', inline_first r line = Some line' -> Inlined (sh line) (sh line').
Proof.
  intros r line line' H.
  assert (exists before f path kids after, sh line = before ++ ShElt f path kids :: after /\
    sh line' = before ++ ShElt (FInline (Some f)) path kids :: after /\
    Forall (fun s => visible s = false) before /\ standard f = true) as (be & f & path & kids & af & -> & -> & H1 & H2).
  { revert line' H. induction line as [|n line IH]; cbn [inline_first]; intros line' H; [discriminate|].
    destruct (is_visible n) eqn:Ev.
    - destruct n as [r0 e|]; [|discriminate]. destruct (e_type e) as [|d| | | |] eqn:E; try discriminate. injection H as <-.
      exists [], (form_of (Standard d)), (labels (e_selectors e)), (sh (e_nodes e)), (sh line).
      cbn [map shape_of app with_range with_type e_type e_selectors e_nodes]. rewrite E. destruct d; repeat split; auto.
    - destruct (inline_first r line) as [l'|] eqn:E; [|discriminate]. injection H as <-.
      destruct (IH l' eq_refl) as (be & f & path & kids & af & E1 & E2 & H1 & H2).
      exists (shape_of n :: be), f, path, kids, af. cbn [map app]. rewrite E1, E2. repeat split; auto.
      constructor; [now rewrite visible_shape|exact H1]. }
  now constructor.
Qed.
Lemma inline_none_shape : forall r line, inline_first r line = None ->
  Inlined (sh line) [ShElt (FInline None) [] (sh line)].
Proof.
  intros r line H. apply InOther. intros be f path kids af E HB.
  pose proof (find_first _ _ _ _ _ _ E HB) as HF. rewrite find_visible in HF. clear E HB be af.
  induction line as [|n line IH]; [discriminate|]. cbn [inline_first find] in *. destruct (is_visible n).
  - injection HF as HF. destruct n as [r0 e|]; [|discriminate]. cbn [shape_of] in HF. injection HF as <- <- <-.
    destruct (e_type e) as [|d| | | |]; try discriminate; try reflexivity. now destruct d as [[]|].
  - destruct (inline_first r line); [discriminate|]. now apply IH.
Qed.

(** ** The induction *)

Definition SQ (l : list a_item) : Prop := tidy_below l /\ selectors_used l.
Definition KidsQ (l : list a_item) : Prop := forall s t e, Occurs l (ANode s t e) -> Forall orderly (lines_of t).
Lemma SQ_app : forall a b, SQ (a ++ b) -> SQ b.
Proof.
  intros a b [H1 H2]. split.
  - intros x c i y -> Hc Hi. apply (H1 (a ++ x) c i y); auto. now rewrite <- app_assoc.
  - intros x i cs -> Hi. apply (H2 (a ++ x) i cs); [now rewrite <- app_assoc|exact Hi].
Qed.
Lemma SQ_sel : forall sp b s e l, SQ ((sp, ANode b (ANSelector s) e) :: l) -> ~ Forall is_comment l.
Proof. intros sp b s e l [_ H]. exact (H [] _ l eq_refl I). Qed.
Lemma KidsQ_app : forall a b, KidsQ (a ++ b) -> KidsQ a /\ KidsQ b.
Proof.
  intros a b H. split; intros s t e Ho; apply (H s t e); (eapply occurs_incl; [|exact Ho]); intros y Hy; apply in_or_app; auto.
Qed.
Lemma KidsQ_cons : forall x l, KidsQ (x :: l) -> KidsQ l.
Proof. intros x l H. now apply (KidsQ_app [x] l) in H. Qed.
Lemma KidsQ_in : forall sp s t e l, KidsQ ((sp, ANode s t e) :: l) -> Forall orderly (lines_of t) /\ KidsQ (type_items t).
Proof.
  intros sp s t e l H. split; [apply (H s t e); eapply OcHere; now left|].
  intros s' t' e' Ho. apply (H s' t' e'). eapply occurs_in; [now left|exact Ho].
Qed.
Definition TC (l : list a_item) : Prop := forall i b, l = i :: b -> is_comment i -> tidy_line l.
Lemma SQ_comb : forall sp b r e l, SQ ((sp, ANode b (ANElement (ALineElt r)) e) :: l) -> TC l.
Proof. intros sp b r e l [H _] i y -> Hi. exact (H [] _ i y eq_refl I Hi). Qed.
Lemma tidy_nil : forall ns rest, tidy_line ns -> rest = [] \/ LineShape ns rest -> rest = [].
Proof.
  intros ns rest HT [H|(cs & c & mid & i & E & H1 & H2 & H3 & H4)]; [exact H|]. exact (HT cs c mid i rest E H1 H2 H3 H4).
Qed.
Lemma tidy_start : forall ns, ~ begins_element ns -> TC ns -> tidy_line ns.
Proof.
  intros ns HB HT. destruct ns as [|i ns]; [intros [|? ?] c mid j b E; discriminate|].
  destruct i as [sp [s [m|t|sl|e] n]].
  2: destruct t as [| |c|]; [| |now apply (HT _ _ eq_refl)|].
  all: intros [|x cs] c' mid j b E Hcs Hc; injection E as <- E; try (now destruct Hc); try (inversion Hcs as [|? ? Hx]; now destruct Hx).
  destruct e; try (now destruct Hc). exfalso. apply HB. exact I.
Qed.

Definition used_of (ns rest : list a_item) : Prop := exists u, ns = u ++ rest.
Lemma used_refl : forall ns, used_of ns ns.
Proof. now exists []. Qed.
Lemma used_cons : forall x ns rest, used_of ns rest -> used_of (x :: ns) rest.
Proof. intros x ns rest (u & ->). now exists (x :: u). Qed.
Lemma used_trans : forall a b c, used_of a b -> used_of b c -> used_of a c.
Proof. intros a b c (u & ->) (v & ->). exists (u ++ v). now rewrite app_assoc. Qed.

Definition LineR (ns : list a_item) (r : list a_item * list node) : Prop :=
  used_of ns (fst r) /\ (fst r = [] -> Line ns (sh (snd r))).
Definition ChainR (P : list a_item -> list shape -> list label -> form -> list shape -> list a_item -> Prop)
    (sels : list selector) (ns : list a_item) (r : list a_item * list node) : Prop :=
  used_of ns (fst r) /\
  exists cs path fm kids, sh (snd r) = cs ++ [ShElt fm (labels sels ++ path) kids] /\ P ns cs path fm kids (fst r).
Definition Adds (t : a_ntype) (v : list node) : Prop := forall sp b e rest out, Line rest out ->
  Line ((sp, ANode b t e) :: rest) (space_between sp ++ sh v ++ out).

Lemma space_shape : forall sp, sh match sp with Some r => [exact_space r] | None => [] end = space_between sp.
Proof. now intros [r|]. Qed.
Lemma text_shape : forall t, Clean (build_inline_text slc t) (fun n => shape_of n = ShLeaf (text_leaf t)).
Proof.
  intros [r|v|c|r]; cbn [build_inline_text text_leaf].
  - eapply clean_impl; [apply clean_sub, sub_text|]. now intros n ->.
  - apply clean_ret. unfold build_verbatim. destruct v as [o [raw|] [r|r|r]]; reflexivity.
  - unfold build_comment. eapply clean_bind; [apply clean_true; unfold unclosed; ff|intros; ff|]. intros _ _. now apply clean_ret.
  - eapply clean_impl; [apply clean_sub, sub_text|]. now intros n ->.
Qed.
Lemma multiline_shape : forall r m, Clean (build_multiline slc r m) (fun n => shape_of n = ShElt (FMultiline (am_kind m)) [] [multiline_leaf m]).
Proof.
  intros r m. unfold build_multiline. eapply clean_bind; [apply clean_sub, sub_text|intros; ff|]. intros n ->. apply clean_ret.
  unfold elt_node, multiline_leaf, multiline_text. now destruct (am_kind m).
Qed.
Lemma selector_label : forall s, Clean (build_selector s) (fun v => doc_label slc xml v = source_label s).
Proof.
  intros s. eapply clean_impl; [apply clean_and; [apply selector_built|apply selector_written_built]|]. intros v ((_ & H1 & _) & H2).
  unfold SpecShape.source_label, doc_label, sel_name. now rewrite H1, (built_attrs _ _ _ _ H2).
Qed.

Lemma line_nonempty : forall i items l, Line (i :: items) l -> l <> [].
Proof.
  intros i items l H ->.
  inversion H; subst; match goal with E : _ ++ _ = [] |- _ => apply app_eq_nil in E as [_ E]; try discriminate E; apply app_eq_nil in E as [? E]; try discriminate E end.
  subst. match goal with I : Inlined _ [] |- _ => inversion I end. match goal with E : ?x ++ _ :: _ = [] |- _ => now destruct x end.
Qed.

Theorem build_shape : forall f,
  (forall c p, Forall orderly (map ln_nodes (ct_lines c)) -> KidsQ (content_items c) -> Clean (build_content slc f c p) (fun v => Says p c (sh v))) /\
  (forall ls le out p, Forall orderly (map ln_nodes ls) -> KidsQ (flat_map ln_nodes ls) ->
     Clean (build_lines slc f ls le out p) (fun v => exists ms, Means ls ms /\ Arranged p (sh (rev out)) ms (sh (rev v)))) /\
  (forall ns, SQ ns -> KidsQ ns -> Clean (build_line slc f ns) (LineR ns)) /\
  (forall ns, SQ ns -> KidsQ ns -> Clean (extend_line slc f ns) (LineR ns)) /\
  (forall pr ns sels la, SQ ns -> KidsQ ns -> TC ns -> Clean (post_child slc f pr ns sels la) (ChainR Below sels ns)) /\
  (forall pr ns sels la, SQ ns -> KidsQ ns -> ~ Forall is_comment ns -> Clean (post_selector slc f pr ns sels la) (ChainR After sels ns)) /\
  (forall r b p, Forall orderly (map ln_nodes (ct_lines (bk_content b))) -> KidsQ (content_items (bk_content b)) ->
     Clean (build_block slc f r b p) (fun e => e_selectors e = [] /\ form_of (e_type e) = FBlock /\ Says p (bk_content b) (sh (e_nodes e)))) /\
  (forall r i, orderly (in_inner i) -> KidsQ (in_inner i) ->
     Clean (build_inline slc f r i) (fun v => exists l, Line (in_inner i) l /\ Inlined l (sh v))) /\
  (forall r s, Forall orderly (lines_of (ANElement (ASpecialElt s))) -> KidsQ (type_items (ANElement (ASpecialElt s))) ->
     Clean (build_special slc f r s) (fun e => Adds (ANElement (ASpecialElt s)) [elt_node e])) /\
  (forall r e, Forall orderly (lines_of (ANElement e)) -> KidsQ (type_items (ANElement e)) -> ~ (exists r, e = ALineElt r) ->
     Clean (build_element slc f r e) (Adds (ANElement e))).
Proof.
  pose proof ff_comment as Fc. pose proof ff_selector as Fs. pose proof ff_validate as Fv. pose proof (ff_text slc) as Ft.
  pose proof (ff_inline_text slc) as Fi. pose proof (ff_multiline slc) as Fm.
  induction f as [|f IH].
  { repeat split; intros; apply clean_fuel. }
  destruct (build_ff slc f) as (Fbc & Fbl & Fln & Fel & Fpc & Fps & Fbb & Fbi & Fbs & Fbe).
  destruct IH as (Ic & Il & Ibl & Iel & Ipc & Ips & Ibb & Ibi & Ibs & Ibe).
  pose proof (proj1 (build_stop slc f)) as Hstop.
  split; [|split; [|split; [|split; [|split; [|split; [|split; [|split; [|split]]]]]]]].
  - intros c p H1 H2. cbn [build_content]. eapply clean_bind; [apply Il; [exact H1|exact H2]|intros; ff|].
    intros v (ms & Hm & Ha). apply clean_ret. econstructor; eassumption.
  - intros ls le out p H1 H2. cbn [build_lines]. destruct ls as [|l ls].
    { apply clean_ret. exists []. split; constructor. }
    cbn [map flat_map] in *. inversion H1 as [|? ? Hl Hls]; subst. apply KidsQ_app in H2 as [K1 K2].
    eapply clean_bind with (Q := fun v => exists m, (forall ls ms, Means ls ms -> Means (l :: ls) (m :: ms)) /\ Placed p (sh (rev out)) m (sh (rev v))); [|intros; ff|].
    + destruct l as [lb [|n ns] lend]; cbn [ln_nodes ln_end ln_start] in *.
      * apply clean_ret. exists None. split; [intros; now constructor|]. cbn [rev]. rewrite map_app. constructor.
      * eapply clean_bind; [apply clean_and; [apply Ibl; [exact (proj2 Hl)|exact K1]|apply Hstop]|intros; ff|].
        intros [r line] [[_ H] HS]. cbn [fst snd] in *. apply (tidy_nil _ _ (proj1 Hl)) in HS. subst r. specialize (H eq_refl).
        apply clean_ret. exists (Some (sh line)). split; [intros; now constructor|]. apply add_line_shape.
        intros ->. now apply (line_nonempty _ _ _ H).
    + intros v (m & Hm & Hp). eapply clean_impl; [apply Il; auto|]. intros w (ms & Hms & Ha). cbn beta in *. exists (m :: ms).
      split; [now apply Hm|]. econstructor; eassumption.
  - intros ns H1 H2. cbn [build_line]. eapply clean_bind; [apply Iel; assumption|intros; unfold validate_line; ff|]. intros [rest out] H.
    eapply clean_bind; [apply clean_true; apply Fv|intros; ff|]. intros _ _. now apply clean_ret.
  - intros ns H1 H2. cbn [extend_line]. destruct ns as [|[sp [s t n]] rest].
    { apply clean_ret. split; [apply used_refl|intros _; constructor]. }
    set (spn := match sp with Some r => [exact_space r] | None => [] end).
    assert (Hsp : sh spn = space_between sp) by apply space_shape.
    pose proof (SQ_app [_] _ H1) as N1. pose proof (KidsQ_cons _ _ H2) as K1.
    destruct (KidsQ_in _ _ _ _ _ H2) as [L1 K2].
    assert (Hgen : forall m, Clean m (fun r => used_of rest (fst r) /\
        forall out, Line (fst r) out -> Line ((sp, ANode s t n) :: rest) (space_between sp ++ sh (snd r) ++ out)) ->
      Clean (let* (rest', out) := m in let* (rest'', out') := extend_line slc f rest' in
            ret (rest'', spn ++ out ++ out')) (LineR ((sp, ANode s t n) :: rest))).
    { intros m Hm. eapply clean_bind; [exact Hm|intros; ff|]. intros [r out] [[u Hu] E1]. cbn [fst snd] in *.
      eapply clean_bind; [apply Iel|intros; ff|].
      - apply (SQ_app u). now rewrite <- Hu.
      - apply (KidsQ_app u). now rewrite <- Hu.
      - intros [r2 out2] [Hu2 E2]. apply clean_ret. unfold LineR. cbn [fst snd] in *. split.
        + apply used_cons. apply (used_trans _ r); [now exists u|exact Hu2].
        + intros E. rewrite !map_app, Hsp. auto. }
    assert (Hadd : forall m, Clean m (fun v => Adds t v) -> Clean (let* v := m in ret (rest, v))
       (fun r => used_of rest (fst r) /\
          forall out, Line (fst r) out -> Line ((sp, ANode s t n) :: rest) (space_between sp ++ sh (snd r) ++ out))).
    { intros m Hm. eapply clean_bind; [exact Hm|intros; ff|]. intros v Hv. apply clean_ret. cbn [fst snd]. split; [apply used_refl|].
      intros out Ho. now apply Hv. }
    destruct t as [m|t|sl|e].
    + apply Hgen. eapply clean_bind; [apply multiline_shape|intros; ff|]. intros v Hv. apply clean_ret. cbn [fst snd].
      split; [apply used_refl|]. intros out Ho. cbn [map]. rewrite Hv. now constructor.
    + apply Hgen. eapply clean_bind; [apply text_shape|intros; ff|]. intros v Hv. apply clean_ret. cbn [fst snd].
      split; [apply used_refl|]. intros out Ho. cbn [map]. rewrite Hv. now constructor.
    + apply Hgen. eapply clean_bind; [apply selector_label|intros; ff|]. intros v Hv. eapply clean_impl; [apply Ips; auto|].
      * eapply SQ_sel; eauto.
      * intros [r out] [Hu (cs & path & fm & kids & E & HA)]. cbn [fst snd] in *. split; [exact Hu|]. intros o Ho.
        rewrite E, <- app_assoc. cbn [map app]. rewrite Hv. eapply LnSelector; eassumption.
    + destruct e as [c|b|i|sp']; try (apply Hgen, Hadd, Ibe; [assumption|assumption|intros [? E]; discriminate]).
      eapply clean_bind; [apply Ipc; [assumption|assumption|eapply SQ_comb; eauto]|intros; ff|].
      intros [r out] [Hu (cs & path & fm & kids & E & HA)]. apply clean_ret. split; cbn [fst snd] in *; [now apply used_cons|].
      intros ->. rewrite map_app, Hsp, E. cbn [map app]. eapply LnCombinator; [eassumption|constructor].
  - intros pr ns sels la H1 H2 HT. cbn [post_child].
    assert (Hfall : ~ begins_element ns -> Clean (let* (rest, children) := build_line slc f ns in
        ret (rest, [elt_node (mkElt match rev children with n :: _ => Doc.combine pr (n_range n) | [] => pr end
             sels (mkR (r_end pr) (r_end match rev children with n :: _ => Doc.combine pr (n_range n) | [] => pr end))
             children (Standard (DLine la)) false false)])) (ChainR Below sels ns)).
    { intros HB. eapply clean_bind; [apply clean_and; [apply Ibl; assumption|apply Hstop]|intros; ff|].
      intros [r out] [[Hu E] HS]. cbn [fst snd] in *.
      apply (tidy_nil _ _ (tidy_start _ HB HT)) in HS. subst r. apply clean_ret. split; cbn [fst snd]; [exact Hu|].
      exists [], [], FLine, (sh out). cbn [map shape_of elt_node]. unfold elt_node. cbn [map shape_of e_type e_selectors e_nodes form_of].
      rewrite app_nil_r. split; [reflexivity|]. constructor; auto. }
    destruct ns as [|[sp [s t n]] rest]; [apply Hfall; intros []|].
    pose proof (SQ_app [_] _ H1) as N1. pose proof (KidsQ_cons _ _ H2) as K1.
    destruct (KidsQ_in _ _ _ _ _ H2) as [L1 K2].
    destruct t as [m|t|sl|e]; try (apply Hfall; intros []).
    + eapply clean_bind; [apply selector_label|intros; ff|]. intros v Hv.
      eapply clean_impl; [apply Ips; auto; eapply SQ_sel; eauto|].
      intros [r out] [Hu (cs & path & fm & kids & E & HA)]. split; cbn [fst snd] in *; [now apply used_cons|].
      exists cs, (source_label sl :: path), fm, kids. rewrite E, map_app. cbn [map]. rewrite Hv, <- app_assoc.
      split; [reflexivity|now constructor].
    + destruct e as [c|b|i|sp']; try (apply Hfall; intros []).
      * eapply clean_impl; [apply Ipc; auto; eapply SQ_comb; eauto|].
        intros [r out] [Hu (cs & path & fm & kids & E & HA)]. split; cbn [fst snd] in *; [now apply used_cons|].
        exists cs, (no_label :: path), fm, kids. rewrite E, map_app. cbn [map]. rewrite <- app_assoc.
        split; [reflexivity|now constructor].
      * eapply clean_bind; [apply Ibb; assumption|intros; ff|]. intros e (_ & _ & E). apply clean_ret. split; cbn [fst snd].
        -- apply used_cons, used_refl.
        -- exists [], [], FLineBlock, (sh (e_nodes e)). rewrite app_nil_r. split; [reflexivity|now constructor].
  - intros pr ns sels la H1 H2 HC. cbn [post_selector].
    destruct ns as [|[sp [s t n]] rest].
    { exfalso. now apply HC. }
    pose proof (SQ_app [_] _ H1) as N1. pose proof (KidsQ_cons _ _ H2) as K1.
    destruct (KidsQ_in _ _ _ _ _ H2) as [L1 K2].
    destruct t as [m|t|sl|e]; try (apply clean_err; ff).
    + destruct t as [| |c|]; try (apply clean_err; ff).
      eapply clean_bind; [apply (text_shape (AComment c))|intros; ff|]. intros v Hv.
      eapply clean_bind; [apply Ips; auto|intros; ff|].
      { intros Hc. apply HC. constructor; [exact I|exact Hc]. }
      intros [r out] [Hu (cs & path & fm & kids & E & HA)]. apply clean_ret. split; cbn [fst snd] in *; [now apply used_cons|].
      exists (ShLeaf (text_leaf (AComment c)) :: cs), path, fm, kids. cbn [map]. rewrite Hv, E. split; [reflexivity|now constructor].
    + destruct e as [c|b|i|sp']; try (apply clean_err; ff).
      * eapply clean_impl; [apply Ipc; auto; eapply SQ_comb; eauto|].
        intros [r out] [Hu (cs & path & fm & kids & E & HA)]. split; cbn [fst snd] in *; [now apply used_cons|].
        exists cs, path, fm, kids. split; [exact E|now constructor].
      * eapply clean_bind; [apply Ibb; assumption|intros; ff|]. intros e (E1 & E2 & E). apply clean_ret. split; cbn [fst snd].
        -- apply used_cons, used_refl.
        -- exists [], [], FBlock, (sh (e_nodes e)). rewrite app_nil_r. split; [|now constructor].
           unfold elt_node. cbn [map shape_of with_selectors e_type e_selectors e_nodes app]. now rewrite E2.
  - intros r b p H1 H2. cbn [build_block]. eapply clean_bind; [apply clean_true; unfold unclosed; ff|intros; ff|]. intros _ _.
    eapply clean_bind; [apply Ic; assumption|intros; ff|]. intros v Hv. apply clean_ret. split; [reflexivity|]. split; [reflexivity|exact Hv].
  - intros r i H1 H2. cbn [build_inline]. eapply clean_bind; [apply clean_true; unfold unclosed; ff|intros; unfold validate_line; ff|]. intros _ _.
    eapply clean_bind; [apply clean_and; [apply Ibl; [exact (proj2 H1)|exact H2]|apply Hstop]|intros; unfold validate_line; ff|].
    intros [rest line] [[_ H] HS]. cbn [fst snd] in *. apply (tidy_nil _ _ (proj1 H1)) in HS. subst rest. specialize (H eq_refl).
    eapply clean_bind; [apply clean_true; apply Fv|intros; ff|]. intros _ _. apply clean_ret. exists (sh line). split; [exact H|].
    destruct (inline_first r line) as [l'|] eqn:E.
    + eapply inline_first_shape; eassumption.
    + eapply inline_none_shape; eassumption.
  - intros r s H1 H2. cbn [build_special]. destruct s as [k o c cl'|code].
    + eapply clean_bind; [apply clean_true; unfold unclosed; ff|intros; ff|]. intros _ _.
      eapply clean_bind; [apply Ic; assumption|intros; ff|]. intros v Hv. apply clean_ret. intros sp b e rest out Ho.
      assert (special_kind_of k = special_of k) as E by (now destruct k).
      unfold elt_node. cbn [map shape_of with_content new_elt e_type e_selectors e_nodes form_of app]. rewrite E. now constructor.
    + eapply clean_bind; [apply clean_sub, sub_text|intros; ff|]. intros v ->. apply clean_ret. intros sp b e rest out Ho.
      unfold elt_node. cbn [map shape_of with_content new_elt e_type e_selectors e_nodes form_of app]. now apply LnCode.
  - intros r e H1 H2 HN. cbn [build_element]. destruct e as [c|b|i|sp].
    + exfalso. apply HN. now exists c.
    + eapply clean_bind; [apply Ibb; assumption|intros; ff|]. intros v (E1 & E2 & E3). apply clean_ret. intros sp b' e rest out Ho.
      unfold elt_node. cbn [map shape_of app]. rewrite E1, E2. now constructor.
    + inversion H1; subst. eapply clean_impl; [now apply Ibi|]. intros v (l & HL & HI) sp b' e rest out Ho. econstructor; eassumption.
    + eapply clean_bind; [apply Ibs; assumption|intros; ff|]. intros v Hv. apply clean_ret. exact Hv.
Qed.
Theorem from_ast_shape : forall c, all_lines orderly c -> Clean (from_ast slc c) (fun v => Says true c (sh v)).
Proof.
  intros c [H1 H2]. apply (proj1 (build_shape _)); [|exact H2]. now apply Forall_map.
Qed.

(** ** From the document to the page *)
Notation page_tree_of := (page_tree_of slc xml).
Fixpoint as_page (t : tree) : page_tree :=
  match t with
  | TLeaf t => PLeaf t
  | TElt n i kids => PElt (n, sel_attrs slc xml (mkSel (mkR 0 0) Implicit i)) (map as_page kids)
  end.
Lemma nest_page : forall sels kids, nest_labels (labels sels) (map as_page kids) = as_page (nest slc sels kids).
Proof.
  induction sels as [|s sels IH]; intros kids; [reflexivity|]. destruct sels as [|s1 sels]; [reflexivity|].
  change (nest_labels (labels (s :: s1 :: sels)) (map as_page kids)) with (PElt (doc_label slc xml s) [nest_labels (labels (s1 :: sels)) (map as_page kids)]).
  rewrite IH. reflexivity.
Qed.
Lemma page_tree_as : forall n, page_tree_of n = as_page (tree_of slc n).
Proof.
  induction n as [r e IH|r t] using node_ind'; [|reflexivity]. cbn [SpecShape.page_tree_of tree_of].
  rewrite <- nest_page, map_map. f_equal. apply map_ext_in. intros n Hn. rewrite Forall_forall in IH. auto.
Qed.
Section TreeInd.
  Variable P : tree -> Prop.
  Hypothesis HE : forall n i ks, Forall P ks -> P (TElt n i ks).
  Hypothesis HL : forall t, P (TLeaf t).
  Fixpoint tree_ind2 (t : tree) : P t :=
    match t with
    | TElt n i ks => HE n i ks ((fix go (l : list tree) : Forall P l :=
        match l with [] => Forall_nil P | x :: r => Forall_cons x (tree_ind2 x) (go r) end) ks)
    | TLeaf t => HL t
    end.
End TreeInd.
Lemma extends_completed : forall t t', Extends t t' -> Completed (as_page t) (as_page t').
Proof.
  induction t as [n i ks IH|t] using tree_ind2; intros t' H; inversion H; subst; [|constructor].
  cbn [as_page]. constructor; [assumption|].
  match goal with F : Forall2 Extends _ _ |- _ => induction F as [|x y l l' Hx F IHF] end; [constructor|].
  inversion IH; subst. cbn [map]. constructor; [auto|]. apply IHF; [assumption|constructor; auto].
Qed.
Lemma only_names_tags : forall e l, e_selectors e = [] -> labels (e_selectors (apply_tags e (map Provided l))) = only_names l.
Proof.
  intros e l H. unfold apply_tags, only_names. rewrite H.
  assert (filter (fun t => negb (slice_is_empty t)) (map Provided l) = map Provided (filter (fun t => negb (str_empty t)) l)) as ->.
  { induction l as [|x l IH]; [reflexivity|]. cbn [map filter slice_is_empty]. rewrite IH. now destruct (negb (str_empty x)). }
  destruct (filter _ l) as [|x r]; [reflexivity|]. cbn [map with_selectors e_selectors tl]. f_equal. rewrite !map_map. reflexivity.
Qed.
Lemma formatting_name : forall tags k, special_tag_name tags k = formatting tags k.
Proof. intros tags k. destruct k; reflexivity. Qed.
Lemma special_path : forall tags e, special_bare e ->
  labels (e_selectors (special_element tags e)) = path_of tags (form_of (e_type e)) (labels (e_selectors e)).
Proof.
  intros tags e Hb. unfold special_bare, special_element, path_of in *. destruct (e_type e) as [|[]|[[]|]|k|k|]; try reflexivity.
  - cbn [form_of]. rewrite <- (formatting_name tags k). now apply (only_names_tags e [special_tag_name tags k]).
  - destruct k; try reflexivity. cbn [form_of]. rewrite <- !formatting_name.
    now apply (only_names_tags e [special_tag_name tags CodeBlockContainer; special_tag_name tags Code]).
Qed.
Lemma special_page : forall tags n, TreeAll special_bare (fun _ => True) n ->
  page_tree_of (special_node tags n) = planned tags (shape_of n).
Proof.
  intros tags. induction n as [r e IH|r t] using node_ind'; intros H; [|reflexivity].
  inversion H as [? ? Hb Hk|]; subst. cbn [special_node SpecShape.page_tree_of SpecShape.shape_of planned with_nodes with_content e_selectors e_nodes].
  f_equal; [now apply special_path|].
  rewrite !map_map. apply map_ext_in. intros n Hn. rewrite Forall_forall in IH, Hk. auto.
Qed.
Lemma special_paragraph : forall tags n, TreeAll bare_paragraph (fun _ => True) n -> TreeAll bare_paragraph (fun _ => True) (special_node tags n).
Proof.
  intros tags. induction n as [r e IH|r t] using node_ind'; intros H; [|constructor; exact I].
  inversion H as [? ? Hb Hk|]; subst. cbn [special_node]. constructor.
  - unfold bare_paragraph, special_element in *. cbn [with_nodes with_content e_type e_selectors].
    destruct (e_type e) as [| | |k|[]|] eqn:E; cbn; rewrite ?E; try discriminate; auto.
    + unfold apply_tags. now destruct (filter _ _), (e_selectors e); cbn; rewrite ?E.
    + unfold apply_tags. now destruct (filter _ _), (e_selectors e); cbn; rewrite ?E.
  - cbn [with_nodes with_content e_nodes]. apply Forall_map. rewrite Forall_forall in *. intros x Hx. apply IH; auto.
Qed.

(** ** Options *)
Lemma root_written : forall names n, root_called names (page_tree_of n) = written_as slc names n.
Proof.
  intros names [r e|r t]; [|reflexivity]. cbn [SpecShape.page_tree_of written_as]. unfold first_name.
  destruct (e_selectors e) as [|s [|s1 sels]]; reflexivity.
Qed.
Lemma root_existsb : forall names ns, existsb (root_called names) (map page_tree_of ns) = existsb (written_as slc names) ns.
Proof. intros names. induction ns as [|n ns IH]; [reflexivity|]. cbn [map existsb]. now rewrite root_written, IH. Qed.
Lemma plain_page : forall t ns n, plain_elt slc t ns n -> page_tree_of n = only_named t (map page_tree_of ns).
Proof.
  intros t ns n (r & e & s & -> & Es & En & Ei & <- & _). cbn [SpecShape.page_tree_of]. rewrite Es. cbn [map nest_labels].
  unfold doc_label, only_named. rewrite En. unfold sel_attrs, ids_in, classes_in, attrs_in. now rewrite Ei.
Qed.
Definition headed (n : node) : Prop := written_as slc [L "head"] n = true -> exists l kids, page_tree_of n = PElt l kids /\ kids = map page_tree_of (children n).
Lemma complete_page_tree : forall cr ns, Forall headed ns ->
  map page_tree_of (complete_page slc cr ns) = completed_page (map page_tree_of ns).
Proof.
  intros cr ns H. unfold completed_page. rewrite !root_existsb.
  destruct (existsb (written_as slc [L "html"]) ns) eqn:E1; [now rewrite page_html|].
  destruct (existsb (written_as slc [L "body"]) ns) eqn:E2.
  - destruct (page_body slc cr ns E1 E2) as (n & -> & Hn). cbn [map]. now rewrite (plain_page _ _ _ Hn).
  - destruct (page_split slc cr ns E1 E2) as (h & hd & bd & r & -> & H1 & H2 & H3). cbn [map].
    rewrite (plain_page _ _ _ H1). cbn [map]. rewrite (plain_page _ _ _ H2), (plain_page _ _ _ H3). cbn [SpecShape.page_tree_of].
    assert (map page_tree_of (flat_map (to_head slc) ns) = flat_map for_head (map page_tree_of ns)) as ->.
    { clear -H. induction H as [|n ns Hn _ IH]; [reflexivity|]. cbn [flat_map map]. rewrite map_app, IH. f_equal.
      unfold to_head, for_head. rewrite !root_written. destruct (written_as slc [L "head"] n) eqn:E.
      - destruct (Hn E) as (l & kids & -> & ->). reflexivity.
      - now destruct (written_as slc head_only n). }
    assert (map page_tree_of (filter (to_body slc) ns) = filter for_body (map page_tree_of ns)) as ->; [|reflexivity].
    clear. induction ns as [|n ns IH]; [reflexivity|]. cbn [filter map].
    assert (for_body (page_tree_of n) = to_body slc n) as -> by (unfold for_body, to_body; now rewrite !root_written).
    destruct (to_body slc n); cbn [map]; now rewrite IH.
Qed.
Lemma alone_headed : forall tags n, TreeAll special_bare (fun _ => True) n -> head_alone tags (shape_of n) -> headed (special_node tags n).
Proof.
  intros tags [r e|r t] HT HA Hw; [|discriminate]. inversion HT as [? ? Hb Hk|]; subst.
  cbn [special_node SpecShape.page_tree_of children SpecShape.shape_of head_alone with_nodes with_content e_selectors e_nodes] in *.
  rewrite <- (special_path tags e Hb) in HA. unfold written_as, first_name in Hw. cbn [special_node with_nodes with_content e_selectors] in Hw.
  destruct (e_selectors (special_element tags e)) as [|s sels]; [discriminate|]. cbn [map] in *.
  destruct (sel_name slc s) as [nm|] eqn:En; [|discriminate]. unfold doc_label at 1 in HA. rewrite En in HA.
  cbn [existsb] in Hw. rewrite orb_false_r in Hw. apply str_eqb_eq in Hw. destruct (HA Hw) as [_ Hm].
  destruct sels; [|discriminate]. cbn [map nest_labels]. eauto.
Qed.

Lemma complete_all : forall (PE : element -> Prop) cr ns, (forall t c l, PE (page_element t c l)) ->
  Forall (TreeAll PE (fun _ => True)) ns -> Forall (TreeAll PE (fun _ => True)) (complete_page slc cr ns).
Proof.
  intros PE cr ns HP H. unfold complete_page. destruct (existsb (has_tag_in slc [L "html"]) ns); [exact H|].
  assert (forall t c l, e_nodes (page_element t c l) = l) as EN by reflexivity.
  destruct (existsb (has_tag_in slc [L "body"]) ns).
  - constructor; [|constructor]. constructor; [apply HP|]. now rewrite EN.
  - rewrite split_page_ok. constructor; [|constructor]. constructor; [apply HP|]. rewrite EN.
    constructor; [|constructor; [constructor; exact I|constructor; [|constructor]]]; (constructor; [apply HP|]); rewrite EN.
    + apply Forall_flat_map. eapply Forall_impl; [|exact H]. intros n Hn. unfold to_head.
      destruct (written_as slc [L "head"] n); [|destruct (written_as slc head_only n); auto].
      inversion Hn; subst; cbn [children]; auto.
    + rewrite Forall_forall in *. intros n Hn. apply filter_In in Hn. now apply H.
Qed.
Lemma completed_Forall2 : forall ns ns', Forall2 Extends (map (tree_of slc) ns) (map (tree_of slc) ns') ->
  Forall2 Completed (map page_tree_of ns) (map page_tree_of ns').
Proof.
  induction ns as [|n ns IH]; intros [|m ns'] H; inversion H; subst; cbn [map]; constructor; auto.
  rewrite !page_tree_as. now apply extends_completed.
Qed.

Lemma attrs_added : forall s t loc l,
  sel_attrs slc xml (mkSel (s_range s) t (s_items s ++ [SAttrs (mkR loc loc) l])) =
  sel_attrs slc xml s ++ map (fun a => (decoded slc (Doc.a_name a), match Doc.a_value a with Some v => Some (decoded slc v) | None => if xml then Some [] else None end)) l.
Proof.
  intros s t loc l. unfold sel_attrs, ids_in, classes_in, attrs_in. cbn [s_items].
  rewrite !flat_map_app. cbn [flat_map]. rewrite !app_nil_r, map_app. rewrite <- !app_assoc. reflexivity.
Qed.
Lemma add_attrs_label : forall s loc l, Forall (fun a => exists n v, Doc.a_name a = Provided n /\ In n mty_names /\ Doc.a_value a = Some (Provided v)) l ->
  exists more, doc_label slc xml (add_attrs s loc l) = (sel_name slc s, sel_attrs slc xml s ++ more) /\ mty_attrs more.
Proof.
  intros s loc l H. unfold add_attrs. destruct l as [|a l]; [exists []; split; [unfold doc_label; now rewrite app_nil_r|constructor]|].
  eexists. unfold doc_label. rewrite attrs_added. split; [reflexivity|]. apply Forall_map. eapply Forall_impl; [|exact H].
  intros x (n & v & En & Hn & _). cbn [fst]. rewrite En. replace (decoded slc (Provided n)) with n; [exact Hn|].
  unfold mty_names, meta_names in Hn. cbn [app In] in Hn. repeat (destruct Hn as [<-|Hn]; [vm_compute; reflexivity|]). contradiction.
Qed.
Lemma all_attrs_mty : forall loc root raw r cr,
  Forall (fun a => exists n v, Doc.a_name a = Provided n /\ In n mty_names /\ Doc.a_value a = Some (Provided v)) (all_attrs loc root raw r cr).
Proof.
  intros. destruct (all_attrs_ok loc root raw r cr) as [H _]. eapply Forall_impl; [|exact H].
  intros a (n & v & H1 & H2 & H3). exists n, v. split; [exact H1|]. split; [|exact H2]. unfold mty_names. apply in_or_app. left.
  destruct H3 as [[-> _]|[[-> _]|[H3 _]]]; [now left|cbn; tauto|]. cbn in H3 |- *. tauto.
Qed.

Lemma meta_page : forall el n root, TreeAll one_sel (fun _ => True) n -> Annotated (Some el) (page_tree_of n) (page_tree_of (meta_node el root n)).
Proof.
  intros el. induction n as [r e IH|r t] using node_ind'; intros root H.
  - inversion H as [? ? He Hk|]; subst. cbn [meta_node SpecShape.page_tree_of with_nodes with_content e_selectors e_nodes].
    assert (Forall2 (Annotated (Some el)) (map page_tree_of (e_nodes e)) (map page_tree_of (map (meta_node el false) (e_nodes e)))) as HK.
    { clear -IH Hk. induction IH as [|n l Hn _ IHl]; [constructor|]. inversion Hk; subst. cbn [map]. constructor; auto. }
    unfold one_sel in He. destruct (e_selectors e) as [|s [|]] eqn:E; [| |cbn in He; lia].
    + destruct el.
      * rewrite handle_el_nil by exact E. cbn [with_selectors e_selectors map nest_labels].
        destruct (add_attrs_label (mkSel (mkR (r_start r) (r_start r)) (Explicit (Provided (L "mty:element"))) []) (r_start r) _ (all_attrs_mty (r_start r) root (e_raw e) r (e_crange e))) as (more & -> & Hm).
        apply (AnElt _ None (Some (L "mty:element")) [] more); auto; [discriminate|intros [|]; discriminate].
      * rewrite handle_nil by exact E. rewrite E. cbn [map nest_labels]. apply (AnElt _ None None [] []); auto; [discriminate|constructor].
    + cbn [map nest_labels]. destruct (uninferred s) eqn:U.
      * assert (sel_name slc s = None) as EN by (unfold sel_name, uninferred in *; destruct (s_tag s); [discriminate|reflexivity|reflexivity]).
        destruct el.
        -- rewrite (handle_el_unnamed r e root s E U). cbn [with_selectors e_selectors map nest_labels].
           destruct (add_attrs_label (mkSel (s_range s) (Explicit (Provided (L "mty:element"))) (s_items s)) (r_end (s_range s)) _ (all_attrs_mty (r_end (s_range s)) root (e_raw e) r (e_crange e))) as (more & -> & Hm).
           unfold doc_label. rewrite EN.
           apply (AnElt _ None (Some (L "mty:element")) (sel_attrs slc xml s) more); auto; [discriminate|intros [|]; discriminate].
        -- rewrite (handle_unnamed r e root s E U), E. cbn [map nest_labels]. unfold doc_label. rewrite EN.
           pose proof (AnElt (Some false) None None (sel_attrs slc xml s) [] _ _ (or_introl eq_refl) ltac:(discriminate) (Forall_nil _) (fun _ => eq_refl) HK) as HA.
           now rewrite app_nil_r in HA.
      * rewrite (handle_named el r e root s E U). cbn [with_selectors e_selectors map nest_labels].
        destruct (add_attrs_label s (r_end (s_range s)) _ (all_attrs_mty (r_end (s_range s)) root (e_raw e) r (e_crange e))) as (more & -> & Hm).
        assert (sel_name slc s <> None) as EN by (unfold sel_name, uninferred in *; destruct (s_tag s); discriminate).
        apply (AnElt _ (sel_name slc s) (sel_name slc s) (sel_attrs slc xml s) more); auto. intros [|]; [discriminate|contradiction].
  - destruct t as [t|s|s]; cbn [meta_node].
    + destruct el; cbn [andb].
      * destruct (t_raw t) eqn:R; cbn [negb]; [apply AnLeaf; auto|].
        unfold text_element. set (l := add_true _ _ _ ++ _).
        set (s0 := add_attrs _ _ l).
        assert (uninferred s0 = false) as U by (unfold s0, add_attrs; destruct l; reflexivity).
        match goal with |- context [handle_element true r ?x root] => rewrite (handle_named true r x root s0 eq_refl U) end. unfold elt_node. cbn [with_selectors SpecShape.page_tree_of e_selectors e_nodes map nest_labels e_raw e_crange].
        destruct (add_attrs_label s0 (r_end (s_range s0)) _ (all_attrs_mty (r_end (s_range s0)) root (t_escape_out t) r invalid_range)) as (more & -> & Hm).
        assert (Forall (fun a => exists n v, Doc.a_name a = Provided n /\ In n mty_names /\ Doc.a_value a = Some (Provided v)) l) as HL.
        { unfold l, add_true. apply Forall_app. split; [destruct (negb _)|destruct (t_multiline t)]; repeat constructor;
            (eexists _, _; split; [reflexivity|split; [cbn; tauto|reflexivity]]). }
        destruct (add_attrs_label (sel_with_tag (sel_empty (r_start r)) (Provided (L "mty:text"))) (r_start r) l HL) as (m0 & E0 & H0).
        unfold doc_label in E0. fold s0 in E0. injection E0 as E1 E2. rewrite E1, E2. cbn [app].
        apply AnText; auto. apply Forall_app. auto.
      * apply AnLeaf. discriminate.
    + destruct el; [|apply AnLeaf; discriminate].
      unfold comment_element. set (e := apply_tags _ _).
      assert (exists s0, e_selectors e = [s0] /\ s_tag s0 = Explicit (Provided (L "mty:comment")) /\ s_items s0 = []) as (s0 & E0 & Et & Ei) by (eexists; split; [reflexivity|split; reflexivity]).
      assert (uninferred s0 = false) as U by (unfold uninferred; now rewrite Et).
      match goal with |- context [handle_element true r ?x root] => rewrite (handle_named true r x root s0 E0 U) end. unfold elt_node. cbn [with_selectors SpecShape.page_tree_of e_selectors e_nodes map nest_labels e_raw e_crange].
      destruct (add_attrs_label s0 (r_end (s_range s0)) _ (all_attrs_mty (r_end (s_range s0)) root false r (e_crange e))) as (more & -> & Hm).
      unfold sel_name. rewrite Et. replace (sel_attrs slc xml s0) with (@nil (str * option str)) by (unfold sel_attrs, ids_in, classes_in, attrs_in; now rewrite Ei).
      apply AnComment; auto.
    + apply AnLeaf. auto.
Qed.
Lemma unchanged_page : forall t, Annotated None t t.
Proof.
  fix IH 1. intros [[name attrs] kids|t]; [|apply AnLeaf; discriminate].
  rewrite <- (app_nil_r attrs) at 2. apply AnElt; auto; [discriminate|constructor|].
  induction kids as [|k kids IHk]; constructor; auto.
Qed.
Lemma lang_page : forall lang n, TreeAll one_sel (fun _ => True) n ->
  page_tree_of (lang_node lang n) = given_language slc (Some lang) (page_tree_of n).
Proof.
  intros lang [r e|r t] H; [|reflexivity]. inversion H as [? ? He Hk|]; subst. cbn [lang_node SpecShape.page_tree_of with_selectors e_selectors e_nodes].
  unfold one_sel in He. destruct (e_selectors e) as [|s [|]]; [reflexivity| |cbn in He; lia].
  cbn [lang_sels map nest_labels]. unfold doc_label. destruct (uninferred s) eqn:U.
  - assert (sel_name slc s = None) as EN by (unfold sel_name, uninferred in *; destruct (s_tag s); [discriminate|reflexivity|reflexivity]).
    cbn [map nest_labels given_language]. unfold doc_label. now rewrite EN.
  - cbn [map nest_labels given_language]. unfold doc_label. rewrite (lang_items slc xml s lang _ eq_refl).
    unfold sel_name, uninferred in *. cbn [s_tag]. destruct (s_tag s); [reflexivity|discriminate|discriminate].
Qed.
Lemma meta_one : forall el n root, TreeAll one_sel (fun _ => True) n -> TreeAll one_sel (fun _ => True) (meta_node el root n).
Proof.
  intros el. induction n as [r e IH|r t] using node_ind'; intros root H.
  - inversion H as [? ? He Hk|]; subst. cbn [meta_node]. constructor.
    + unfold one_sel in *. cbn [with_nodes with_content e_selectors]. unfold handle_element. destruct (_ && _); [exact He|].
      cbn [with_selectors e_selectors].
      assert (forall sels i j, length (fst (meta_sels el r e root i j sels)) = length sels) as HL.
      { induction sels as [|s sels IHs]; intros i j; [reflexivity|]. cbn [meta_sels]. specialize (IHs i (S j)).
        destruct (meta_sels el r e root i (S j) sels) as [rest' cr']. cbn [fst] in IHs. destruct (uninferred s && negb el); cbn [fst length]; now rewrite IHs. }
      rewrite HL. destruct (e_selectors e) as [|s sels]; [|exact He]. destruct (negb _); cbn; lia.
    + cbn [with_nodes with_content e_nodes]. apply Forall_map. rewrite Forall_forall in *. auto.
  - destruct t as [t|s|s]; cbn [meta_node]; [|destruct el; [|constructor; exact I]|constructor; exact I].
    + destruct (el && negb (t_raw t)); [|constructor; exact I]. unfold elt_node. constructor.
      * unfold one_sel, handle_element, text_element. cbn [e_selectors]. set (s0 := add_attrs _ _ _).
        destruct (_ && _); cbn; [lia|]. destruct (uninferred s0 && negb el); cbn; lia.
      * unfold handle_element, text_element. destruct (_ && _); cbn; repeat constructor.
    + unfold elt_node. constructor.
      * unfold one_sel, handle_element, comment_element. cbn. lia.
      * unfold handle_element, comment_element. cbn. repeat constructor.
Qed.
End Shape.

Theorem document_shape : forall E (parse : str -> a_content + E) src cfg ns c, parse src = inl c ->
  document_of parse src cfg [] ns -> all_lines orderly c ->
  exists shapes, Says (source_slice src) (is_xml cfg) true c shapes /\
    ((c_complete_page cfg = Some true -> Forall (head_alone (c_special cfg)) shapes) ->
     exists named annotated,
       Forall2 Completed
         (let page := map (planned (c_special cfg)) shapes in
          match c_complete_page cfg with Some true => completed_page page | _ => page end) named /\
       Forall2 (Annotated (c_metadata cfg)) named annotated /\
       map (page_tree_of (source_slice src) (is_xml cfg)) ns = map (given_language (source_slice src) (c_lang cfg)) annotated).
Proof.
  intros E parse src cfg ns c HP HD HO.
  apply (document_built _ parse src cfg ns (fun v => Says (source_slice src) (is_xml cfg) true c (map (shape_of (source_slice src) (is_xml cfg)) v) /\
     Forall (TreeAll (PE (fun _ => True)) (fun _ => True)) v)) in HD as (c' & tree & HP' & [HC HB] & HT).
  2:{ intros c' HP'. rewrite HP in HP'. injection HP' as <-. apply clean_and; [now apply from_ast_shape|].
      apply (from_ast_items (source_slice src) (fun _ => True) (fun _ => True) (fun _ => True)); try (intros; exact I).
      - intros. apply Forall_forall. auto.
      - intros. apply clean_true. apply ff_selector.
      - intros sp b e n. destruct e as [r|bk|il|[k o cc cl|r]]; intros; exact I.
      - apply Forall_forall. auto. }
  exists (map (shape_of (source_slice src) (is_xml cfg)) tree). split; [exact HC|]. intros HH.
  set (slc := source_slice src) in *. set (xml := is_xml cfg) in *.
  assert (Forall (TreeAll special_bare (fun _ => True)) tree) as HS.
  { apply built_bare in HB. eapply Forall_impl; [|exact HB]. intros n Hn. eapply TreeAll_impl; [| |exact Hn]; [|auto]. now intros e [_ He]. }
  assert (map (page_tree_of slc xml) (map (special_node (c_special cfg)) tree) = map (planned (c_special cfg)) (map (shape_of slc xml) tree)) as HPl.
  { rewrite !map_map. apply map_ext_in. intros n Hn. rewrite Forall_forall in HS. apply special_page. auto. }
  unfold transform_document in HT. cbv zeta in HT. set (ns1 := map (special_node (c_special cfg)) tree) in *.
  set (ns2 := match c_complete_page cfg with Some true => complete_page slc _ ns1 | _ => ns1 end) in HT.
  assert (map (page_tree_of slc xml) ns2 = let page := map (planned (c_special cfg)) (map (shape_of slc xml) tree) in
          match c_complete_page cfg with Some true => completed_page page | _ => page end) as H2.
  { unfold ns2. cbv zeta. destruct (c_complete_page cfg) as [[]|]; [|exact HPl|exact HPl]. rewrite complete_page_tree; [now rewrite HPl|].
    specialize (HH eq_refl). unfold ns1. apply Forall_map. rewrite Forall_map in HH. rewrite Forall_forall in *. intros n Hn. apply alone_headed; auto. }
  assert (Forall (TreeAll bare_paragraph (fun _ => True)) ns2) as HQ.
  { assert (Forall (TreeAll bare_paragraph (fun _ => True)) ns1) as HQ1.
    { unfold ns1. apply Forall_map. eapply Forall_impl; [|exact HB]. intros n Hn. apply special_paragraph.
      eapply TreeAll_impl; [| |exact Hn]; [|auto]. intros e (_ & _ & _ & Ht) Ep. unfold built_type in Ht. now rewrite Ep in Ht. }
    unfold ns2. destruct (c_complete_page cfg) as [[]|]; auto. apply complete_all; [|exact HQ1]. intros t0 c0 l0 Ep.
    unfold page_element, apply_tags in Ep. destruct (filter _ _); discriminate. }
  destruct (infer slc ns2) as [ns3|] eqn:EI; [|discriminate]. injection HT as <-.
  pose proof (infer_single slc _ _ EI) as H1. apply infer_extends in EI; [|exact HQ].
  apply (completed_Forall2 slc xml) in EI. rewrite H2 in EI.
  set (ns4 := match c_metadata cfg with Some el => map (meta_node el true) ns3 | None => ns3 end).
  exists (map (page_tree_of slc xml) ns3), (map (page_tree_of slc xml) ns4). split; [exact EI|]. split.
  - unfold ns4. destruct (c_metadata cfg) as [el|].
    + clear -H1. induction H1 as [|n l Hn _ IH]; cbn [map]; constructor; [now apply meta_page|exact IH].
    + clear. induction ns3; cbn [map]; constructor; [apply unchanged_page|assumption].
  - assert (Forall (TreeAll one_sel (fun _ => True)) ns4) as H4.
    { unfold ns4. destruct (c_metadata cfg) as [el|]; [|exact H1]. apply Forall_map. eapply Forall_impl; [|exact H1]. intros. now apply meta_one. }
    unfold apply_lang. destruct (c_lang cfg) as [lang|].
    + rewrite !map_map. apply map_ext_in. intros n Hn. rewrite Forall_forall in H4. apply lang_page. auto.
    + rewrite map_map. apply map_ext_in. intros n Hn. cbn [given_language]. now destruct (page_tree_of slc xml n) as [[[?|] ?] ?|].
Qed.

(** ** Orderly lines, by computation *)
Fixpoint belowb (l : list a_item) : bool :=
  match l with
  | [] => true
  | c :: rest => (if combinatorb c then match rest with i :: _ => if commentb i then tidyb rest else true | [] => true end else true) && belowb rest
  end.
Lemma orderly_check : forall l, tidyb l && belowb l && usedb l = true -> orderly l.
Proof.
  intros l H. apply andb_prop in H as [H H3]. apply andb_prop in H as [H1 H2].
  split; [now apply tidy_check|]. split; [|now apply used_check].
  clear H1 H3. intros a. revert l H2. induction a as [|x a IH]; intros [|y l] H c i b E; try discriminate; cbn [belowb app] in *;
    apply andb_prop in H as [H H']; injection E as -> ->; [|now apply (IH _ H' c i b)].
  intros Hc Hi. apply tidy_check.
  assert (combinatorb c = true) as E1 by (unfold is_combinator, combinatorb in *; destruct (an_type (snd c)) as [| | |[]]; easy).
  assert (commentb i = true) as E2 by (unfold is_comment, commentb in *; destruct (an_type (snd i)) as [|[]| |]; easy).
  now rewrite E1, E2 in H.
Qed.

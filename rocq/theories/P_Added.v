(** * Output with metadata attributes (C24). *)

From Verif Require Import Base Escape OutText Doc Config Infer Transform Output Errors Build Convert
  SpecMarkup SpecTree SpecTransform SpecAdded P_Base P_OutText P_Output P_Meta P_Read P_Ordinary.
From Coq Require Import Lia.

Lemma ins_refl : forall s, Inserted s s.
Proof. induction s; constructor; auto. Qed.
Lemma ins_app : forall a b a' b', Inserted a b -> Inserted a' b' -> Inserted (a ++ a') (b ++ b').
Proof.
  intros a b a' b' H H'. induction H as [|c a b H IH|t x m y e a b Hx Hm Hy He H IH]; [exact H'|now constructor|].
  rewrite <- !app_assoc. now apply InTag.
Qed.

(** Writing actions that do the same but for metadata attributes *)
Definition ins (w w' : W) : Prop := forall fs,
  let '(o, f, ok) := w fs in let '(o', f', ok') := w' fs in ok = ok' /\ (ok = true -> f = f' /\ Inserted o o').
Lemma insw_refl : forall w, ins w w.
Proof. intros w fs. destruct (w fs) as [[o f] ok]. repeat split. apply ins_refl. Qed.
Lemma insw_seq : forall a b a' b', ins a b -> ins a' b' -> ins (a ;; a') (b ;; b').
Proof.
  intros a b a' b' H H' fs. specialize (H fs). unfold andthen. destruct (a fs) as [[o f] ok], (b fs) as [[p g] ok']. destruct H as [<- H].
  destruct ok; [|split; [reflexivity|discriminate]]. destruct (H eq_refl) as [<- Ho]. specialize (H' f).
  destruct (a' f) as [[o1 f1] ok1], (b' f) as [[o2 f2] ok2]. destruct H' as [<- H']. split; [reflexivity|]. intros E. destruct (H' E) as [<- Ho'].
  split; [reflexivity|now apply ins_app].
Qed.
Lemma insw_all : forall l l', Forall2 ins l l' -> ins (seqW l) (seqW l').
Proof. induction 1; [apply insw_refl|]. cbn [seqW]. now apply insw_seq. Qed.

Section Writer.
Variable slc : lrange -> str.
Variable cfg : config.
Notation xml := (is_xml cfg).

(** Whether a writing action succeeds *)
Definition okis (w : W) (b : bool) : Prop := forall fs, snd (w fs) = b.
Lemma okis_seq : forall a b x y, okis a x -> okis b y -> okis (a ;; b) (x && y).
Proof.
  intros a b x y Ha Hb fs. unfold andthen. specialize (Ha fs). destruct (a fs) as [[o f] ok]. cbn [snd] in Ha. subst ok.
  destruct x; [|reflexivity]. specialize (Hb f). now destruct (b f) as [[o' f'] ok'].
Qed.
Lemma okis_map : forall A (g : A -> W) p l, (forall a, okis (g a) (p a)) -> okis (seqW (map g l)) (forallb p l).
Proof. intros A g p l H. induction l as [|a l IH]; [now intros fs|]. cbn [map seqW forallb]. now apply okis_seq. Qed.
Lemma okis_any : forall w, (exists b, okis w b) -> okis w (snd (w true)).
Proof. intros w [b H] fs. now rewrite !H. Qed.
Lemma okis_emit : forall s, okis (emit s) true.
Proof. now intros s fs. Qed.
Lemma okis_res : forall r, okis (emit_res r) (snd r).
Proof. now intros r fs. Qed.
Definition attr_ok (a : tslice * option tslice) : bool := snd (write_attribute slc cfg a true).
Lemma attr_okis : forall a, okis (write_attribute slc cfg a) (attr_ok a).
Proof.
  intros a. apply okis_any. unfold write_attribute. eexists. apply okis_seq; [apply okis_emit|]. apply okis_seq; [apply okis_res|].
  instantiate (1 := match snd a with Some v => true && (snd (escape_unescape xml true (as_str slc v)) && true) | None => true end).
  destruct (snd a) as [v|]; [|now destruct xml]. apply okis_seq; [apply okis_emit|]. apply okis_seq; [apply okis_res|apply okis_emit].
Qed.
Lemma open_ok : forall t s s' sc, sel_id s' = sel_id s -> class_names s' = class_names s -> forallb attr_ok (attributes s') = forallb attr_ok (attributes s) ->
  exists b, okis (write_open_tag slc cfg t s sc) b /\ okis (write_open_tag slc cfg t s' sc) b.
Proof.
  intros t s s' sc E1 E2 E3. unfold write_open_tag. rewrite E1, E2.
  set (i := match sel_id s with Some _ => _ | None => _ end). set (c := write_classes slc cfg (class_names s)).
  set (e := (if sc then emit (L "/") else nop) ;; emit (L ">") ;; set_fs false).
  assert (exists b, okis i b) as [b1 H1].
  { unfold i. destruct (sel_id s) as [x|]; [|now exists true]. eexists. apply okis_seq; [apply okis_emit|]. apply okis_seq; [apply okis_res|apply okis_emit]. }
  assert (exists b, okis c b) as [b2 H2].
  { unfold c, write_classes. destruct (class_names s) as [|x l]; [now exists true|]. eexists. apply okis_seq; [apply okis_emit|]. apply okis_seq; [apply okis_res|].
    apply okis_seq; [|apply okis_emit]. apply (okis_map _ _ (fun c => true && snd (escape_unescape xml true (as_str slc c)))).
    intros y. apply okis_seq; [apply okis_emit|apply okis_res]. }
  assert (okis e true) as H3 by (intros fs; unfold e; now destruct sc).
  assert (forall s0, okis (seqW (map (write_attribute slc cfg) (attributes s0))) (forallb attr_ok (attributes s0))) as H4
    by (intros s0; apply okis_map; apply attr_okis).
  eexists. split; (apply okis_seq; [apply okis_emit|]; apply okis_seq; [exact H1|]; apply okis_seq; [exact H2|]; apply okis_seq; [|exact H3]); [apply H4|].
  rewrite <- E3. apply H4.
Qed.

(** Opening tags *)
Lemma meta_plain : forall n v, meta_value n v ->
  unescape n = (n, true) /\ unescape v = (v, true) /\ flat_map (esc_char xml true) v = v.
Proof.
  intros n v [[-> ->]|[[-> ->]|[Hn Hv]]].
  - repeat split; try (apply plain_decode; cbn; intuition discriminate). now destruct xml.
  - repeat split; try (apply plain_decode; cbn; intuition discriminate). now destruct xml.
  - split; [|split].
    + apply plain_decode. destruct Hn as [<-|[<-|[<-|[<-|[]]]]]; cbn; intuition discriminate.
    + apply plain_decode. intros Hi. rewrite Forall_forall in Hv. specialize (Hv _ Hi). lia.
    + induction Hv as [|c v Hc Hv IH]; [reflexivity|]. cbn [flat_map]. rewrite IH.
      assert (In c [48; 49; 50; 51; 52; 53; 54; 55; 56; 57]) as H by (cbn; lia).
      destruct xml; cbn in H; repeat (destruct H as [<-|H]; [reflexivity|]); destruct H.
Qed.
Lemma attr_out_text : forall a, attr_text (attr_out cfg a).
Proof.
  intros [n [v|]]; exists n; [right|left]; unfold attr_out; cbn [fst snd]; [|now rewrite app_nil_r].
  exists (flat_map (esc_char xml true) v). split; [apply esc_no_quote|reflexivity].
Qed.
Definition seen_attr (a : attribute) : str * option str :=
  (decoded slc (a_name a), match a_value a with Some v => Some (decoded slc v) | None => if xml then Some [] else None end).
Lemma attrs_in_app : forall s a b, s_items s = a ++ b ->
  attrs_in s = flat_map (fun i => match i with SAttrs _ l => l | _ => [] end) a ++ flat_map (fun i => match i with SAttrs _ l => l | _ => [] end) b.
Proof. intros s a b E. unfold attrs_in. now rewrite E, flat_map_app. Qed.
Definition is_meta (a : attribute) : Prop := exists n v, a_name a = Provided n /\ a_value a = Some (Provided v) /\ meta_value n v.
Lemma open_ins : forall t s a b l lr sc, s_items s = a ++ b -> Forall is_meta l ->
  ins (write_open_tag slc cfg t s sc) (write_open_tag slc cfg t (mkSel (s_range s) (s_tag s) (a ++ SAttrs lr l :: b)) sc).
Proof.
  intros t s a b l lr sc E Hl fs. set (s' := mkSel _ _ _).
  assert (Ei : ids_in s' = ids_in s) by (unfold ids_in, s'; cbn [s_items]; now rewrite E, !flat_map_app).
  assert (Ec : classes_in s' = classes_in s) by (unfold classes_in, s'; cbn [s_items]; now rewrite E, !flat_map_app).
  set (at_ := flat_map (fun i => match i with SAttrs _ l => l | _ => [] end)).
  assert (Ea : attrs_in s = at_ a ++ at_ b) by now apply attrs_in_app.
  assert (Ea' : attrs_in s' = at_ a ++ l ++ at_ b) by (unfold s'; now rewrite (attrs_in_app _ a (SAttrs lr l :: b))).
  destruct (open_ok t s s' sc) as (ok & H1 & H2).
  - rewrite !sel_id_eq. now rewrite Ei.
  - rewrite !class_names_eq. now rewrite Ec.
  - rewrite !attributes_eq, Ea, Ea', !map_app, !forallb_app. f_equal.
    replace (forallb attr_ok (map (fun x => (a_name x, a_value x)) l)) with true; [reflexivity|].
    symmetry. rewrite forallb_forall. intros x Hx. apply in_map_iff in Hx as (y & <- & Hy). rewrite Forall_forall in Hl. destruct (Hl y Hy) as (n & v & En & Ev & Hm).
    destruct (meta_plain n v Hm) as (P1 & P2 & _). unfold attr_ok, write_attribute. cbn [fst snd]. rewrite En, Ev. cbn [as_str].
    unfold andthen, emit, emit_res. rewrite P1, escape_unescape_spec, P2. reflexivity.
  - specialize (H1 fs). specialize (H2 fs). destruct (write_open_tag slc cfg t s sc fs) as [[o f] ok1] eqn:E1. destruct (write_open_tag slc cfg t s' sc fs) as [[o' f'] ok2] eqn:E2.
    cbn [snd] in H1, H2. subst ok1 ok2. split; [reflexivity|]. intros ->. apply open_tag_out in E1 as [-> ->]. apply open_tag_out in E2 as [-> ->]. split; [reflexivity|].
    unfold sel_attrs. rewrite Ei, Ec. set (i := match ids_in s with [] => _ | _ => _ end). set (c := match classes_in s with [] => _ | _ => _ end).
    fold seen_attr. rewrite Ea, Ea', !map_app, !flat_map_app, <- !app_assoc.
    pose proof (InTag t (map (attr_out cfg) (i ++ c ++ map seen_attr (at_ a))) (map (attr_out cfg) (map seen_attr l)) (map (attr_out cfg) (map seen_attr (at_ b))) (tag_end sc) [] []) as T.
    rewrite !map_app, !concat_app, <- !flat_map_concat_map, <- !app_assoc, app_nil_r in T. apply T.
    + repeat (apply Forall_app; split); apply Forall_map, Forall_forall; intros; apply attr_out_text.
    + rewrite map_map. apply Forall_map. eapply Forall_impl; [|exact Hl]. intros x (n & v & En & Ev & Hm). exists n, v. split; [exact Hm|].
      destruct (meta_plain n v Hm) as (P1 & P2 & P3). unfold attr_out, seen_attr. rewrite En, Ev. unfold decoded. cbn [as_str fst snd]. rewrite P1, P2. cbn [fst]. now rewrite P3.
    + apply Forall_map, Forall_forall. intros. apply attr_out_text.
    + destruct sc; cbn; auto.
    + constructor.
Qed.

(** Nodes *)
Lemma drop_two : forall (R : node -> node -> Prop) l l', (forall n n', R n n' -> is_space n' = is_space n) -> Forall2 R l l' ->
  Forall2 R (drop_while is_space l) (drop_while is_space l').
Proof. intros R l l' HR H. induction H as [|n n' l l' Hn H IH]; [constructor|]. cbn [drop_while]. rewrite (HR n n' Hn). destruct (is_space n); [exact IH|now constructor]. Qed.
Lemma rev_two : forall A (R : A -> A -> Prop) l l', Forall2 R l l' -> Forall2 R (rev l) (rev l').
Proof. intros A R l l' H. induction H; [constructor|]. cbn [rev]. apply Forall2_app; [assumption|now repeat constructor]. Qed.
Lemma trim_two : forall (R : node -> node -> Prop) l l', (forall n n', R n n' -> is_space n' = is_space n) -> Forall2 R l l' ->
  Forall2 R (trim_by is_space l) (trim_by is_space l').
Proof. intros R l l' HR H. unfold trim_by. now apply rev_two, drop_two, rev_two, drop_two. Qed.
Lemma added_space : forall root n n', MetaAdded root n n' -> is_space n' = is_space n.
Proof. now intros root n n' []. Qed.
Lemma content_ins : forall root v ns ns', Forall (fun n => forall root v n', MetaAdded root n n' -> ins (process_node slc cfg v n) (process_node slc cfg v n')) ns ->
  Forall2 (MetaAdded root) ns ns' -> ins (process_content slc cfg v ns) (process_content slc cfg v ns').
Proof.
  intros root v ns ns' IH H. unfold process_content. apply trim_Forall in IH. apply (trim_two _ _ _ (added_space root)) in H. apply insw_all.
  revert IH. generalize dependent (trim_by is_space ns'). generalize dependent (trim_by is_space ns). clear. intros l l' H. induction H as [|n n' l l' Hn H IHl]; intros IH; [constructor|].
  inversion IH; subst. cbn [map]. constructor; eauto.
Qed.
Lemma process_ins : forall n root v n', MetaAdded root n n' -> ins (process_node slc cfg v n) (process_node slc cfg v n').
Proof.
  induction n as [r e IH|r t] using node_ind'; intros root v n' H; inversion H as [|? ? ns Hu Hk|? ? ns s a b l lr Es U Ei Ha Hk]; subst; try apply insw_refl.
  - rewrite !process_node_elt. unfold process_element. change (e_selectors (with_nodes e ns)) with (e_selectors e). change (e_nodes (with_nodes e ns)) with ns.
    change (enter v (with_nodes e ns)) with (enter v e).
    assert (is_nil ns = is_nil (e_nodes e)) as -> by (now destruct Hk).
    destruct (valid_tags slc (e_selectors e)); [now apply (content_ins false)|]. cbv zeta. apply insw_seq; [apply insw_refl|]. apply insw_seq; [|apply insw_refl].
    destruct (is_nil (e_nodes e)); [apply insw_refl|]. apply insw_seq; [apply insw_refl|]. apply insw_seq; [now apply (content_ins false)|apply insw_refl].
  - rewrite !process_node_elt. unfold process_element. set (s' := match l with [] => s | _ :: _ => _ end). rewrite Es.
    change (e_selectors (with_nodes (with_selectors e [s']) ns)) with [s']. change (e_nodes (with_nodes (with_selectors e [s']) ns)) with ns.
    change (enter v (with_nodes (with_selectors e [s']) ns)) with (enter v e).
    assert (is_nil ns = is_nil (e_nodes e)) as -> by (now destruct Hk). cbn [valid_tags].
    assert (s_tag s' = s_tag s) as -> by (unfold s'; now destruct l).
    destruct (tag_name (s_tag s)) as [t|]; [|now apply (content_ins false)].
    cbv zeta. unfold last_is_root, close_tags. cbn [rev app open_tags]. 
    set (sc := is_nil (e_nodes e) && xml).
    apply insw_seq; [|apply insw_seq].
    + unfold s'. destruct l as [|x l]; [apply insw_refl|]. apply open_ins; [exact Ei|]. apply Ha.
    + destruct (is_nil (e_nodes e)); [apply insw_refl|]. apply insw_seq; [apply insw_refl|]. apply insw_seq; [now apply (content_ins false)|apply insw_refl].
    + destruct sc; apply insw_refl.
Qed.
Lemma output_ins : forall ns ns', Forall2 (MetaAdded true) ns ns' ->
  snd (output_html slc cfg ns') = snd (output_html slc cfg ns) /\
  (snd (output_html slc cfg ns) = true -> Inserted (fst (output_html slc cfg ns)) (fst (output_html slc cfg ns'))).
Proof.
  intros ns ns' H. unfold output_html. set (d := match c_complete_page cfg with Some true => _ | _ => _ end). set (v := mkEnv 0 false false).
  assert (ins (d ;; process_content slc cfg v ns ;; line cfg v) (d ;; process_content slc cfg v ns' ;; line cfg v)) as HI.
  { apply insw_seq; [apply insw_refl|]. apply insw_seq; [|apply insw_refl]. apply (content_ins true); [|exact H]. apply Forall_forall. intros n _ root v' n'. apply process_ins. }
  specialize (HI true). destruct ((d ;; process_content slc cfg v ns ;; line cfg v) true) as [[o f] ok]. destruct ((d ;; process_content slc cfg v ns' ;; line cfg v) true) as [[o' f'] ok'].
  cbn [fst snd]. destruct HI as [<- HI]. split; [reflexivity|]. intros E. now apply HI.
Qed.
End Writer.

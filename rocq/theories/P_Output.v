(** * The writer's output as a sequence of readable tokens. *)
From Coq Require Import ZifyBool ZifyNat ZifyN.
From Verif Require Import Base Escape OutText Doc Config Output SpecMarkup SpecHtml SpecTree
  P_Base P_OutText P_Read.

Lemma bool_cases : forall b, b = true \/ b = false.
Proof. intros [|]; auto. Qed.

(** ** Sequencing *)
Lemma andthen_ok : forall a b fs o f, (a ;; b) fs = (o, f, true) ->
  exists o1 f1 o2, a fs = (o1, f1, true) /\ b f1 = (o2, f, true) /\ o = o1 ++ o2.
Proof.
  intros a b fs o f. unfold andthen. destruct (a fs) as [[o1 f1] [|]] eqn:Ea; [|discriminate].
  destruct (b f1) as [[o2 f2] ok2] eqn:Eb. intros H. injection H as <- <- ->. eauto 7.
Qed.

Lemma emit_ok : forall s fs o f, emit s fs = (o, f, true) -> o = s /\ f = fs.
Proof. unfold emit. intros s fs o f H. now injection H as <- <-. Qed.
Lemma emit_res_ok : forall r fs o f, emit_res r fs = (o, f, true) -> o = fst r /\ snd r = true /\ f = fs.
Proof. unfold emit_res. intros r fs o f H. now injection H as <- <- ->. Qed.
Lemma set_fs_ok : forall b fs o f, set_fs b fs = (o, f, true) -> o = [] /\ f = b.
Proof. unfold set_fs. intros b fs o f H. now injection H as <- <-. Qed.
Lemma nop_ok : forall fs o f, nop fs = (o, f, true) -> o = [] /\ f = fs.
Proof. unfold nop. intros fs o f H. now injection H as <- <-. Qed.

Ltac inv_andthen H :=
  let o1 := fresh "o" in let f1 := fresh "f" in let o2 := fresh "o" in
  let H1 := fresh "H" in let H2 := fresh "H" in
  apply andthen_ok in H as (o1 & f1 & o2 & H1 & H2 & ->).
Ltac wsteps := repeat
  match goal with
  | H : (_ ;; _) _ = (_, _, true) |- _ => inv_andthen H
  | H : emit _ _ = (_, _, true) |- _ => apply emit_ok in H as [-> ->]
  | H : emit_res _ _ = (_, _, true) |- _ => apply emit_res_ok in H as (-> & ? & ->)
  | H : set_fs _ _ = (_, _, true) |- _ => apply set_fs_ok in H as [-> ->]
  | H : nop _ = (_, _, true) |- _ => apply nop_ok in H as [-> ->]
  end.

Lemma seqW_cons_ok : forall a l fs o f, seqW (a :: l) fs = (o, f, true) ->
  exists o1 f1 o2, a fs = (o1, f1, true) /\ seqW l f1 = (o2, f, true) /\ o = o1 ++ o2.
Proof. intros a l fs o f H. now apply andthen_ok in H. Qed.

(** ** Trimming *)
Lemma drop_while_map : forall A B (f : A -> B) p l,
  drop_while p (map f l) = map f (drop_while (fun a => p (f a)) l).
Proof.
  induction l as [|a l IH]; cbn; [reflexivity|]. destruct (p (f a)); [exact IH|reflexivity].
Qed.
Lemma trim_by_map : forall A B (f : A -> B) p l,
  trim_by p (map f l) = map f (trim_by (fun a => p (f a)) l).
Proof.
  intros. unfold trim_by. now rewrite drop_while_map, <- !map_rev, drop_while_map, <- map_rev.
Qed.

Lemma drop_while_split : forall A p (l : list A),
  exists a, l = a ++ drop_while p l /\ Forall (fun x => p x = true) a.
Proof.
  induction l as [|x l [a [E H]]]; cbn; [now exists []|].
  destruct (p x) eqn:Ep.
  - exists (x :: a). cbn. rewrite <- E. auto.
  - now exists [].
Qed.
Lemma trim_by_split : forall A p (l : list A),
  exists a b, l = a ++ trim_by p l ++ b /\ Forall (fun x => p x = true) a /\ Forall (fun x => p x = true) b.
Proof.
  intros A p l. destruct (drop_while_split A p l) as (a & Ea & Ha).
  destruct (drop_while_split A p (rev (drop_while p l))) as (b & Eb & Hb).
  exists a, (rev b). unfold trim_by. repeat split; auto.
  - rewrite Ea at 1. f_equal. rewrite <- rev_app_distr, <- Eb. now rewrite rev_involutive.
  - apply Forall_forall. intros x Hx. apply in_rev in Hx. rewrite Forall_forall in Hb. auto.
Qed.

Lemma process_node_elt : forall slc cfg v r e,
  process_node slc cfg v (NElt r e) =
  process_element slc cfg v e (fun v' => process_content slc cfg v' (e_nodes e)).
Proof.
  intros. cbn [process_node]. unfold process_element.
  assert (forall v', seqW (map snd (trim_by fst (map (fun m => (is_space m, process_node slc cfg v' m)) (e_nodes e))))
    = process_content slc cfg v' (e_nodes e)) as E.
  { intros v'. unfold process_content. rewrite trim_by_map, map_map. reflexivity. }
  destruct (valid_tags slc (e_selectors e)); now rewrite E.
Qed.

(** ** Shows *)
Lemma Shows_app : forall lay e1 i1 e2 i2, Shows lay e1 i1 -> Shows lay e2 i2 ->
  Shows lay (e1 ++ e2) (i1 ++ i2).
Proof. intros lay e1 i1 e2 i2 H H2. induction H; cbn [app]; [exact H2|constructor; assumption..]. Qed.

Lemma Shows_gaps : forall lay slc xml a, Forall (fun x => is_space x = true) a ->
  Shows lay (flat_map (tree_items slc xml) a) [].
Proof.
  intros lay slc xml a H. induction H as [|x a Hx H IH]; cbn [flat_map]; [constructor|].
  destruct x as [r e|r [t|s|s]]; try discriminate. cbn. now constructor.
Qed.

(** ** Tags *)
Lemma valid_tags_single : forall slc e, single_tag e ->
  valid_tags slc (e_selectors e) = match elt_tag slc (e_selectors e) with Some x => [x] | None => [] end.
Proof.
  unfold single_tag. intros slc e. generalize (e_selectors e) as l.
  assert (forall l, filter (fun s => is_some (tag_name (s_tag s))) l = [] -> valid_tags slc l = []) as H0.
  { induction l as [|s l IH]; cbn; [reflexivity|]. destruct (tag_name (s_tag s)); [discriminate|exact IH]. }
  induction l as [|s l IH]; cbn; [reflexivity|].
  destruct (tag_name (s_tag s)) as [t|]; cbn.
  - intros H. rewrite H0; [reflexivity|]. destruct (filter _ l); [reflexivity|cbn in H; lia].
  - exact IH.
Qed.

Section W.
Variable slc : lrange -> str.
Variable cfg : config.
Let xml := is_xml cfg.
Let ref := ref_of xml.
Let lay := is_some (c_indent cfg).
Hypothesis indent_ws : forall ind, c_indent cfg = Some ind -> all_ws ind.

Lemma esc_join : forall cs,
  flat_map (esc_char xml true) (join_with [32] cs) = join_with [32] (map (flat_map (esc_char xml true)) cs).
Proof.
  assert (flat_map (esc_char xml true) [32] = [32]) as E32 by (destruct xml; reflexivity).
  induction cs as [|c cs IH]; [reflexivity|]. destruct cs as [|d cs]; [reflexivity|].
  change (join_with [32] (c :: d :: cs)) with (c ++ [32] ++ join_with [32] (d :: cs)).
  rewrite !flat_map_app, IH, E32. reflexivity.
Qed.

Lemma classes_out : forall cs fs o f, write_classes slc cfg cs fs = (o, f, true) ->
  o = match cs with
      | [] => []
      | _ => L " class=""" ++ flat_map (esc_char xml true) (join_with [32] (map (decoded slc) cs)) ++ [34]
      end.
Proof.
  intros [|c cs] fs o f H; cbn [write_classes] in H; wsteps; [reflexivity|].
  f_equal. rewrite esc_join. change (L """") with [34].
  match goal with H : seqW _ _ = _ |- _ => rename H into Hs end.
  match goal with H : seqW _ _ = (?o', _, _) |- _ => rename o' into os end.
  rewrite escape_unescape_spec. cbn [fst map]. fold xml.
  assert (forall cs' fs' o' f', seqW (map (fun c0 => emit (L " ") ;;
      emit_res (escape_unescape (is_xml cfg) true (as_str slc c0))) cs') fs' = (o', f', true) ->
      forall x, x ++ o' = join_with [32] (x :: map (flat_map (esc_char xml true)) (map (decoded slc) cs'))) as Hj.
  { induction cs' as [|d cs' IH]; intros fs' o' f' Hs' x.
    - cbn [map seqW] in Hs'. wsteps. cbn. apply app_nil_r.
    - cbn [map] in Hs'. apply seqW_cons_ok in Hs' as (o1 & f1 & o2 & H1 & H2 & ->). wsteps.
      rewrite escape_unescape_spec. cbn [fst].
      rewrite <- app_assoc, (IH _ _ _ H2).
      cbn [map]. reflexivity. }
  rewrite app_assoc, (Hj _ _ _ _ Hs). reflexivity.
Qed.

Lemma esc_no_quote : forall s, ~ In 34 (flat_map (esc_char xml true) s).
Proof. intros s H. apply flat_inert in H as (_ & _ & H). now apply H. Qed.

Lemma AttrStr_val : forall n v, good_attr n -> Forall (fun c => readable xml c = true) v ->
  AttrStr ref (n, Some v) (32 :: n ++ 61 :: 34 :: flat_map (esc_char xml true) v ++ [34]).
Proof.
  intros n v Hn Hv. constructor; auto using esc_no_quote. now apply Refs_flat.
Qed.

Lemma attribute_out : forall a fs o f, write_attribute slc cfg a fs = (o, f, true) ->
  let n := decoded slc (fst a) in
  let v := match snd a with
           | Some v => Some (decoded slc v)
           | None => if xml then Some [] else None
           end in
  o = 32 :: n ++ match v with
                 | Some v => 61 :: 34 :: flat_map (esc_char xml true) v ++ [34]
                 | None => []
                 end.
Proof.
  intros [n [v|]] fs o f H; cbn [write_attribute fst snd] in *; unfold write_attribute in H; cbn [fst snd] in H.
  - wsteps. cbn zeta. rewrite escape_unescape_spec. cbn [fst]. reflexivity.
  - fold xml in H. destruct xml eqn:Ex; cbn zeta.
    + wsteps. reflexivity.
    + wsteps. reflexivity.
Qed.

Definition attr_out (a : str * option str) : str :=
  32 :: fst a ++ match snd a with
                 | Some v => 61 :: 34 :: flat_map (esc_char xml true) v ++ [34]
                 | None => []
                 end.

Lemma attributes_out : forall l fs o f, seqW (map (write_attribute slc cfg) l) fs = (o, f, true) ->
  o = flat_map attr_out
        (map (fun a : tslice * option tslice =>
            (decoded slc (fst a),
             match snd a with
             | Some v => Some (decoded slc v)
             | None => if xml then Some [] else None
             end)) l).
Proof.
  induction l as [|a l IH]; intros fs o f H; cbn [map] in H.
  - cbn in H. wsteps. reflexivity.
  - apply seqW_cons_ok in H as (o1 & f1 & o2 & H1 & H2 & ->).
    apply attribute_out in H1. apply IH in H2. cbn [map flat_map]. rewrite H2.
    f_equal. exact H1.
Qed.

Lemma sel_id_eq : forall s, sel_id s = hd_error (ids_in s).
Proof.
  intros s. unfold sel_id, ids_in. induction (s_items s) as [|[h v|d v|r l] items IH]; cbn; auto.
Qed.
Lemma class_names_eq : forall s, class_names s = classes_in s.
Proof.
  intros s. unfold class_names, classes_in. induction (s_items s) as [|[h v|d v|r l] items IH]; cbn; auto.
  now f_equal.
Qed.
Lemma attributes_eq : forall s, attributes s = map (fun a => (a_name a, a_value a)) (attrs_in s).
Proof.
  intros s. unfold attributes, attrs_in. induction (s_items s) as [|[h v|d v|r l] items IH]; cbn; auto.
  rewrite map_app. now rewrite IH.
Qed.

(** C27: the text of an opening tag. *)
Lemma open_tag_out : forall t s sc fs o f, write_open_tag slc cfg t s sc fs = (o, f, true) ->
  o = L "<" ++ t ++ flat_map attr_out (sel_attrs slc xml s) ++ tag_end sc /\ f = false.
Proof.
  intros t s sc fs o f H. unfold write_open_tag in H.
  apply andthen_ok in H as (o1 & f1 & k1 & H1 & H & ->).
  apply andthen_ok in H as (o2 & f2 & k2 & H2 & H & ->).
  apply andthen_ok in H as (o3 & f3 & k3 & H3 & H & ->).
  apply andthen_ok in H as (o4 & f4 & k4 & H4 & H & ->).
  apply andthen_ok in H as (o5 & f5 & k5 & H5 & H & ->).
  apply andthen_ok in H as (o6 & f6 & k6 & H6 & H & ->).
  apply emit_ok in H1 as [-> ->]. apply emit_ok in H6 as [-> ->]. apply set_fs_ok in H as [-> ->].
  split; [|reflexivity].
  apply classes_out in H3. apply attributes_out in H4.
  rewrite sel_id_eq in H2. rewrite class_names_eq in H3. rewrite attributes_eq, map_map in H4. cbn [fst snd] in H4.
  unfold sel_attrs. rewrite !flat_map_app, <- H4.
  assert (o2 = flat_map attr_out match ids_in s with
              | i :: _ => [(L "id", Some (decoded slc i))] | [] => [] end) as <-.
  { destruct (ids_in s) as [|i ids]; cbn [hd_error] in H2; wsteps; [reflexivity|].
    rewrite escape_unescape_spec. cbn [flat_map fst]. rewrite app_nil_r. reflexivity. }
  assert (o3 = flat_map attr_out match classes_in s with
      | [] => []
      | c :: cs => [(L "class", Some (join_with [32] (map (decoded slc) (c :: cs))))] end) as <-.
  { rewrite H3. destruct (classes_in s); [reflexivity|]. cbn [flat_map]. rewrite app_nil_r. reflexivity. }
  assert (o5 = if sc then L "/" else []) as ->.
  { destruct sc; wsteps; reflexivity. }
  rewrite <- !app_assoc. do 5 f_equal. destruct sc; reflexivity.
Qed.

Lemma attr_out_good : forall l,
  Forall (fun a : str * option str =>
            good_attr (fst a) /\
            match snd a with Some v => Forall (fun c => readable xml c = true) v | None => True end) l ->
  Forall2 (AttrStr ref) l (map attr_out l).
Proof.
  intros l H. induction H as [|[n [v|]] l [H1 H2] H IH]; cbn [map]; constructor; auto; cbn [fst snd] in *.
  - now apply AttrStr_val.
  - unfold attr_out. cbn [fst snd]. rewrite app_nil_r. now constructor.
Qed.

Lemma open_tag_mark : forall t s sc fs o f, write_open_tag slc cfg t s sc fs = (o, f, true) ->
  good_tag t -> good_selector slc xml s ->
  MarkOf ref (IOpen t (sel_attrs slc xml s) sc) o.
Proof.
  intros t s sc fs o f H Ht Hs. apply open_tag_out in H as [-> _].
  rewrite flat_map_concat_map. apply MarkOf_open; [exact Ht|]. now apply attr_out_good.
Qed.

Lemma close_tag_mark : forall t fs o f, write_close_tag t fs = (o, f, true) ->
  o = L "</" ++ t ++ L ">" /\ f = false.
Proof. intros t fs o f H. unfold write_close_tag in H. wsteps. now rewrite app_nil_r. Qed.

Lemma void_names_ok : forall t, tag_is_void cfg t = negb xml && html_void_name t.
Proof. intros t. reflexivity. Qed.

(** ** Layout *)
Definition ws_tok (w : str) : list tok := [(IText w, w)].

Lemma all_ws_plain : forall w, all_ws w -> ~ In 60 w /\ ~ In 38 w.
Proof.
  intros w H. unfold all_ws in H. rewrite Forall_forall in H.
  split; intros Hi; apply H in Hi; discriminate.
Qed.

Lemma TextOf_plain : forall r w, ~ In 60 w -> ~ In 38 w -> TextOf r (IText w, w).
Proof. intros r w H1 H2. exists w. cbn. auto using Refs_plain. Qed.

Lemma line_out_ws : forall v fs o f, line_ cfg v fs = (o, f, true) ->
  (lay = true /\ all_ws o /\ f = true) \/ (lay = false /\ o = [] /\ f = fs).
Proof.
  intros v fs o f H. unfold line_ in H. unfold lay. destruct (c_indent cfg) as [ind|] eqn:E.
  - left. wsteps. rewrite app_nil_r. repeat split. constructor; [reflexivity|].
    induction (v_level v) as [|k IH]; cbn; [constructor|]. apply Forall_app. split; [|exact IH].
    now apply indent_ws.
  - right. wsteps. auto.
Qed.

(** Layout white space as tokens. *)
Definition LayToks (o : str) (l : list tok) : Prop :=
  o = toks_str l /\ GoodToks (negb xml) ref l /\ Forall RawOf l /\ Forall (TextOf ref) l /\
  forall es is, Shows lay es is -> Shows lay es (map fst l ++ is).

Lemma line_toks : forall v fs o f, line cfg v fs = (o, f, true) -> exists l, LayToks o l.
Proof.
  intros v fs o f H. unfold line in H.
  assert (LayToks [] []) as H0 by (repeat split; auto; constructor).
  destruct (fs || v_inline v); [wsteps; eauto|].
  apply line_out_ws in H as [(Hl & Hw & _)|(_ & -> & _)]; [|eauto].
  exists (ws_tok o). destruct (all_ws_plain _ Hw) as [W1 W2].
  repeat split; cbn.
  - now rewrite app_nil_r.
  - apply GText; [now apply TextOf_plain|constructor].
  - constructor; [reflexivity|constructor].
  - constructor; [now apply TextOf_plain|constructor].
  - intros es is Hs. apply ShLayout; assumption.
Qed.

(** A space node. *)
Lemma space_toks : forall v s fs o f, (write_space slc cfg v s ;; set_fs true) fs = (o, f, true) ->
  plain_space slc s ->
  exists l, o = toks_str l /\ GoodToks (negb xml) ref l /\ Forall RawOf l /\ Forall (TextOf ref) l /\
    Forall (fun k => ~ In 60 (snd k)) l /\
    Shows lay [XGap (space_value slc s)] (map fst l).
Proof.
  intros v s fs o f H [P1 P2]. apply andthen_ok in H as (o1 & f1 & o2 & H & H2 & ->).
  apply set_fs_ok in H2 as [-> ->]. rewrite app_nil_r. unfold write_space in H.
  destruct fs.
  { wsteps. exists []. repeat split; try constructor. constructor. }
  apply andthen_ok in H as (o2 & f2 & o3 & H & H3 & ->). apply set_fs_ok in H3 as [-> ->].
  rewrite app_nil_r.
  assert (o2 = space_value slc s \/ (lay = true /\ all_ws o2)) as Ho.
  { destruct s as [| |[t|]]; try (wsteps; auto; fail);
      (destruct (negb (v_inline v) && is_some (c_indent cfg)) eqn:E; [|wsteps; auto]);
      apply andb_true_iff in E as [_ E];
      (apply line_out_ws in H as [(Hl & Hw & _)|(Hl & _)]; [auto|unfold lay in Hl; congruence]). }
  assert (~ In 60 o2 /\ ~ In 38 o2) as [Q1 Q2].
  { destruct Ho as [->|[_ Hw]]; [auto|now apply all_ws_plain]. }
  exists (ws_tok o2). repeat split; cbn.
  - now rewrite app_nil_r.
  - apply GText; [now apply TextOf_plain|constructor].
  - constructor; [reflexivity|constructor].
  - constructor; [now apply TextOf_plain|constructor].
  - constructor; [exact Q1|constructor].
  - apply ShGap; [exact Ho|constructor].
Qed.

(** ** Text *)
Lemma piece_out : forall un raw s fs o f, write_piece cfg un raw s fs = (o, f, true) ->
  let t := if un then fst (unescape s) else s in
  o = (if raw then t else flat_map (esc_char xml false) t) /\ f = fs.
Proof.
  intros [|] [|] s fs o f H; cbn [write_piece] in H; wsteps; cbn zeta iota; split; auto.
  - now rewrite escape_unescape_spec.
  - fold xml. now rewrite esc_str_flat.
Qed.

Lemma pieces_out : forall un raw l fs o f, seqW (map (write_piece cfg un raw) l) fs = (o, f, true) ->
  let t := flat_map (fun p => if un then fst (unescape p) else p) l in
  o = (if raw then t else flat_map (esc_char xml false) t).
Proof.
  induction l as [|p l IH]; intros fs o f H; cbn [map] in H.
  - cbn in H. wsteps. destruct raw; reflexivity.
  - apply seqW_cons_ok in H as (o1 & f1 & o2 & H1 & H2 & ->).
    apply piece_out in H1 as [-> ->]. apply IH in H2. cbn zeta in *. cbn [flat_map].
    rewrite H2. destruct raw; [reflexivity|]. now rewrite flat_map_app.
Qed.

Definition text_raw (v : env) (t : text) : bool :=
  t_raw t || (negb xml && (negb (t_escape_out t) || v_raw v)).

Lemma text_out : forall v t fs o f, write_text slc cfg v t fs = (o, f, true) ->
  o = if text_raw v t then text_value slc t else flat_map (esc_char xml false) (text_value slc t).
Proof.
  intros v t fs o f H. unfold write_text in H. unfold text_value, text_pieces.
  destruct (slice_is_empty (t_slice t)).
  - wsteps. destruct (text_raw v t); reflexivity.
  - cbn zeta in H. fold xml in H. fold (text_raw v t) in H.
    destruct (t_multiline t).
    + apply andthen_ok in H as (o1 & f1 & o2 & H & H2 & ->). apply set_fs_ok in H2 as [-> ->].
      apply pieces_out in H. rewrite app_nil_r. exact H.
    + apply andthen_ok in H as (o1 & f1 & o2 & H & H2 & ->). apply set_fs_ok in H2 as [-> ->].
      apply piece_out in H as [-> _]. rewrite app_nil_r. cbn [flat_map]. now rewrite app_nil_r.
Qed.

Lemma escaped_text_tok : forall v t fs o f, write_text slc cfg v t fs = (o, f, true) ->
  v_raw v = false \/ xml = true -> escaped_text slc xml t ->
  TextOf ref (IText (text_value slc t), o).
Proof.
  intros v t fs o f H Hv (H1 & H2 & H3). apply text_out in H.
  assert (text_raw v t = false) as E.
  { unfold text_raw. rewrite H1. destruct xml; [reflexivity|]. rewrite H2 by reflexivity.
    destruct Hv as [->|]; [reflexivity|discriminate]. }
  rewrite E in H. exists (text_value slc t). cbn. repeat split.
  - intros Hi. rewrite H in Hi. apply flat_inert in Hi as (Hi & _). auto.
  - rewrite H. now apply Refs_flat.
Qed.

(** ** Content *)
Definition NodeToks (n : node) (o : str) : Prop :=
  exists l, o = toks_str l /\ Shows lay (tree_items slc xml n) (map fst l) /\
            GoodToks (negb xml) ref l.
Definition NodesToks (ns : list node) (o : str) : Prop :=
  exists l, o = toks_str l /\ Shows lay (flat_map (tree_items slc xml) ns) (map fst l) /\
            GoodToks (negb xml) ref l.

Lemma Shows_trim : forall ns is, Shows lay (flat_map (tree_items slc xml) (trim_by is_space ns)) is ->
  Shows lay (flat_map (tree_items slc xml) ns) is.
Proof.
  intros ns is H. destruct (trim_by_split node is_space ns) as (a & b & E & Ha & Hb).
  rewrite E, !flat_map_app. change is with ([] ++ is). apply Shows_app.
  - now apply Shows_gaps.
  - rewrite <- (app_nil_r is). apply Shows_app; [exact H|]. now apply Shows_gaps.
Qed.

Lemma trim_Forall : forall (P : node -> Prop) ns, Forall P ns -> Forall P (trim_by is_space ns).
Proof.
  intros P ns H. destruct (trim_by_split node is_space ns) as (a & b & E & _ & _).
  rewrite E in H. apply Forall_app in H as [_ H]. now apply Forall_app in H as [H _].
Qed.

Lemma content_toks : forall v ns fs o f,
  Forall (fun n => forall fs o f, process_node slc cfg v n fs = (o, f, true) -> NodeToks n o) ns ->
  process_content slc cfg v ns fs = (o, f, true) -> NodesToks ns o.
Proof.
  intros v ns fs o f H. apply trim_Forall in H. unfold process_content. intros Hp.
  assert (NodesToks (trim_by is_space ns) o) as (l & E & Hs & Hg).
  { revert fs o f H Hp. generalize (trim_by is_space ns) as ms. clear ns.
    induction ms as [|m ms IH]; intros fs o f H Hp; cbn [map] in Hp.
    - cbn in Hp. wsteps. exists []. repeat split; constructor.
    - apply seqW_cons_ok in Hp as (o1 & f1 & o2 & H1 & H2 & ->). inversion H as [|? ? Hm Hms]; subst.
      destruct (Hm _ _ _ H1) as (l1 & -> & S1 & G1). destruct (IH _ _ _ Hms H2) as (l2 & -> & S2 & G2).
      exists (l1 ++ l2). rewrite toks_str_app, map_app. cbn [flat_map].
      auto using Shows_app, GoodToks_app. }
  exists l. auto using Shows_trim.
Qed.

(** Content of elements whose content is text only. *)
Lemma text_children_toks : forall v ns fs o f, v_raw v = false \/ xml = true ->
  Forall (text_child slc xml) ns -> process_content slc cfg v ns fs = (o, f, true) ->
  exists l, o = toks_str l /\ Shows lay (flat_map (tree_items slc xml) ns) (map fst l) /\
            Forall (TextOf ref) l.
Proof.
  intros v ns fs o f Hv H Hp. apply trim_Forall in H. unfold process_content in Hp.
  assert (exists l, o = toks_str l /\
            Shows lay (flat_map (tree_items slc xml) (trim_by is_space ns)) (map fst l) /\
            Forall (TextOf ref) l) as (l & E & Hs & Hg).
  { revert fs o f H Hp. generalize (trim_by is_space ns) as ms. clear ns.
    induction ms as [|m ms IH]; intros fs o f H Hp; cbn [map] in Hp.
    - cbn in Hp. wsteps. exists []. repeat split; constructor.
    - apply seqW_cons_ok in Hp as (o1 & f1 & o2 & H1 & H2 & ->). inversion H as [|? ? Hm Hms]; subst.
      destruct (IH _ _ _ Hms H2) as (l2 & -> & S2 & G2).
      destruct m as [r e|r [t|s|s]]; cbn in Hm; try contradiction.
      + cbn [process_node] in H1. exists ((IText (text_value slc t), o1) :: l2).
        repeat split.
        * cbn. now constructor.
        * constructor; [|exact G2]. eapply escaped_text_tok; eauto.
      + cbn [process_node] in H1.
        apply space_toks in H1 as (l1 & -> & _ & _ & T1 & _ & S1); [|exact Hm].
        exists (l1 ++ l2). rewrite toks_str_app, map_app. cbn [flat_map].
        repeat split; [now apply Shows_app|apply Forall_app; auto]. }
  exists l. auto using Shows_trim.
Qed.

Lemma raw_concat : forall l,
  Forall (fun k : tok => ~ occurs (L "</") (snd k) /\ ~ (exists r, snd k = r ++ [60])) l ->
  ~ occurs (L "</") (toks_str l).
Proof.
  intros l H. induction H as [|[i s] l [H1 H2] H IH]; cbn [toks_str flat_map snd].
  - intros (p & q & E). destruct p; discriminate.
  - cbn [snd] in *. intros (p & q & E).
    change (flat_map snd l) with (toks_str l) in E.
    assert (exists a, (s = p ++ a /\ L "</" ++ q = a ++ toks_str l) \/
                      (p = s ++ a /\ toks_str l = a ++ L "</" ++ q)) as [a [[E1 E2]|[E1 E2]]].
    { clear -E. revert p E. induction s as [|c s IHs]; intros p E.
      - exists p. right. auto.
      - destruct p as [|d p].
        + exists (c :: s). left. auto.
        + cbn in E. injection E as -> E. destruct (IHs p E) as [a [[-> Ea]|[-> Ea]]].
          * exists a. left. auto.
          * exists a. right. auto. }
    + destruct a as [|c [|d a]].
      * apply IH. exists [], q. symmetry. exact E2.
      * cbn in E2. injection E2 as <- E2. apply H2. exists p. exact E1.
      * cbn in E2. injection E2 as <- <- E2. apply H1. exists p, a. exact E1.
    + apply IH. exists a, q. exact E2.
Qed.

Lemma raw_children_toks : forall v ns fs o f, v_raw v = true -> xml = false ->
  Forall (raw_child slc) ns -> process_content slc cfg v ns fs = (o, f, true) ->
  exists l, o = toks_str l /\ Shows lay (flat_map (tree_items slc xml) ns) (map fst l) /\
            Forall RawOf l /\
            Forall (fun k : tok => ~ occurs (L "</") (snd k) /\ ~ (exists r, snd k = r ++ [60])) l.
Proof.
  intros v ns fs o f Hv Hx H Hp. apply trim_Forall in H. unfold process_content in Hp.
  assert (exists l, o = toks_str l /\
            Shows lay (flat_map (tree_items slc xml) (trim_by is_space ns)) (map fst l) /\
            Forall RawOf l /\
            Forall (fun k : tok => ~ occurs (L "</") (snd k) /\ ~ (exists r, snd k = r ++ [60])) l)
    as (l & E & Hs & Hg & Hc).
  { revert fs o f H Hp. generalize (trim_by is_space ns) as ms. clear ns.
    induction ms as [|m ms IH]; intros fs o f H Hp; cbn [map] in Hp.
    - cbn in Hp. wsteps. exists []. repeat split; constructor.
    - apply seqW_cons_ok in Hp as (o1 & f1 & o2 & H1 & H2 & ->). inversion H as [|? ? Hm Hms]; subst.
      destruct (IH _ _ _ Hms H2) as (l2 & -> & S2 & G2 & C2).
      destruct m as [r e|r [t|s|s]]; cbn in Hm; try contradiction.
      + cbn [process_node] in H1. exists ((IText (text_value slc t), o1) :: l2).
        apply text_out in H1.
        assert (text_raw v t = true) as E.
        { unfold text_raw. rewrite Hx, Hv. cbn. rewrite !orb_true_r. reflexivity. }
        rewrite E in H1. subst o1. repeat split.
        * cbn. now constructor.
        * constructor; [reflexivity|exact G2].
        * constructor; [exact Hm|exact C2].
      + cbn [process_node] in H1.
        apply space_toks in H1 as (l1 & -> & _ & R1 & _ & N1 & S1); [|exact Hm].
        exists (l1 ++ l2). rewrite toks_str_app, map_app. cbn [flat_map].
        repeat split; [now apply Shows_app|apply Forall_app; auto|].
        apply Forall_app. split; [|exact C2]. eapply Forall_impl; [|exact N1].
        intros k Hk. split; [now apply not_occurs_no_lt|].
        intros [r' Er]. apply Hk. rewrite Er. rewrite in_app_iff. right. now left. }
  exists l. auto using Shows_trim.
Qed.

(** ** Elements *)

Lemma html_void_kind : forall t, html_void_name t = true -> content_kind_of t = KMarkup.
Proof.
  intros t H. unfold html_void_name in H. apply existsb_exists in H as (x & Hx & E).
  unfold eq_ignore_case in E. apply str_eqb_eq in E. unfold content_kind_of. rewrite E.
  cbn in Hx. repeat (destruct Hx as [<-|Hx]; [reflexivity|]). destruct Hx.
Qed.

(** A named element: opening tag, layout, content, layout, closing tag. *)
Lemma element_shape : forall v e content t s fs o f,
  single_tag e -> elt_tag slc (e_selectors e) = Some (t, s) ->
  process_element slc cfg v e content fs = (o, f, true) ->
  (e_nodes e = [] /\ xml = true /\
     exists o1 fs1 f1, write_open_tag slc cfg t s true fs1 = (o1, f1, true) /\ o = o1) \/
  ((e_nodes e <> [] \/ xml = false) /\
   exists o1 fs1 f1 o2, write_open_tag slc cfg t s false fs1 = (o1, f1, true) /\
     o = o1 ++ o2 ++ (if negb xml && html_void_name t then [] else L "</" ++ t ++ L ">") /\
     ((e_nodes e = [] /\ o2 = []) \/
      exists b1 b2 b3 v' fs2 f2 l1 l3, o2 = b1 ++ b2 ++ b3 /\ LayToks b1 l1 /\ LayToks b3 l3 /\
        content v' fs2 = (b2, f2, true) /\ v_raw v' = v_raw v || e_raw e)).
Proof.
  intros v e content t s fs o f Hst Htag H. unfold process_element in H.
  rewrite (valid_tags_single slc e Hst), Htag in H. cbn zeta in H.
  apply andthen_ok in H as (o1 & f1 & k1 & H1 & H & ->).
  apply andthen_ok in H as (o2 & f2 & o3 & H2 & H & ->).
  cbn [open_tags] in H1. fold xml in H1, H2, H.
  assert (is_nil (e_nodes e) && xml = false ->
          o3 = if negb xml && html_void_name t then [] else L "</" ++ t ++ L ">") as Hclose.
  { intros E. rewrite E in H. unfold close_tags in H. cbn [rev skipn app map fst negb andb] in H.
    rewrite void_names_ok in H. apply seqW_cons_ok in H as (a & fa & b & Ha & Hb & ->).
    cbn in Hb. apply nop_ok in Hb as [-> ->]. rewrite app_nil_r.
    destruct (negb xml && html_void_name t); cbn [negb] in Ha.
    - wsteps. reflexivity.
    - now apply close_tag_mark in Ha as [-> _]. }
  destruct (e_nodes e) as [|n0 ns0] eqn:En; cbn [is_nil andb] in *.
  - wsteps. destruct (bool_cases xml) as [Ex|Ex]; rewrite Ex in *.
    + left. split; [reflexivity|]. split; [first [exact Ex|reflexivity]|]. cbn in H. wsteps. rewrite app_nil_r. eauto 8.
    + right. split; [auto|]. exists o1, fs, f1, []. repeat split; auto.
      rewrite Hclose by reflexivity. reflexivity.
  - right. split; [left; congruence|].
    apply andthen_ok in H2 as (b1 & g1 & c1 & L1 & H2 & ->).
    apply andthen_ok in H2 as (b2 & g2 & b3 & C & L3 & ->).
    apply line_toks in L1 as [l1 L1]. apply line_toks in L3 as [l3 L3].
    exists o1, fs, f1, (b1 ++ b2 ++ b3). repeat split; auto.
    + rewrite Hclose by reflexivity. reflexivity.
    + right. eexists b1, b2, b3, _, _, _, l1, l3. repeat split; [apply L1|apply L1|apply L1|apply L1|apply L1|apply L3|apply L3|apply L3|apply L3|apply L3|exact C|].
      unfold indented, enter. cbn [v_inline v_level v_raw].
      destruct (negb (format_inline e) && is_some (c_indent cfg)); reflexivity.
Qed.

Lemma LayToks_sandwich : forall b1 l1 b3 l3 es l, LayToks b1 l1 -> LayToks b3 l3 ->
  Shows lay es (map fst l) -> Shows lay es (map fst (l1 ++ l ++ l3)).
Proof.
  intros b1 l1 b3 l3 es l L1 L3 H. rewrite !map_app. apply L1.
  rewrite <- (app_nil_r es). apply Shows_app; [exact H|].
  rewrite <- (app_nil_r (map fst l3)). apply L3. constructor.
Qed.

Lemma node_toks : forall n v raw fs o f, Readable slc xml raw n ->
  v_raw v = raw \/ xml = true ->
  process_node slc cfg v n fs = (o, f, true) -> NodeToks n o.
Proof.
  induction n as [r e IHe|r t] using node_ind'; intros v raw fs o f HR Hv Hp.
  - rewrite process_node_elt in Hp.
    inversion HR as [? ? Hst Hraw Hall Htag| |? ? t s Hst Hraw Hx Et Ht Hs Hk Hc|? ? t s Hst Hraw Hx Et Ht Hs Hk Hc]; subst.
    + destruct (elt_tag slc (e_selectors e)) as [[t s]|] eqn:Et.
      * destruct (Htag t s eq_refl) as (Ht & Hs & Hk).
        assert (kind_in (negb xml) (IOpen t (sel_attrs slc xml s) false) = KMarkup /\
                kind_in (negb xml) (IOpen t (sel_attrs slc xml s) true) = KMarkup) as [K1 K2].
        { cbn. destruct (bool_cases xml) as [Ex|Ex]; rewrite Ex in *; [split; reflexivity|]. cbn. rewrite Hk by reflexivity. split; reflexivity. }
        destruct (element_shape _ _ _ _ _ _ _ _ Hst Et Hp)
          as [(En & Hx & o1 & fs1 & f1 & H1 & ->)|(Hne & o1 & fs1 & f1 & o2 & H1 & -> & Hc)].
        -- exists [(IOpen t (sel_attrs slc xml s) true, o1)]. repeat split.
           ++ cbn. now rewrite app_nil_r.
           ++ cbn [tree_items]. rewrite Et, En, Hx. cbn. constructor. constructor.
           ++ apply GMark; [eapply open_tag_mark; eauto|exact K2|constructor].
        -- assert (NodesToks (e_nodes e) o2) as (l & -> & Sl & Gl).
           { destruct Hc as [[En ->]|(b1 & b2 & b3 & v' & fs2 & f2 & l1 & l3 & -> & L1 & L3 & C & Hv')].
             - rewrite En. exists []. repeat split; constructor.
             - apply content_toks in C as (l & -> & Sl & Gl).
               + exists (l1 ++ l ++ l3). rewrite !toks_str_app. destruct L1 as (E1 & G1 & R1 & T1 & S1).
                 destruct L3 as (E3 & G3 & R3 & T3 & S3). rewrite <- E1, <- E3.
                 repeat split; [|now repeat apply GoodToks_app].
                 eapply LayToks_sandwich; eauto; repeat split; eauto.
               + rewrite Forall_forall in IHe, Hall |- *. intros n Hn fs' o' f'.
                 apply (IHe n Hn v' raw); [now apply Hall|].
                 rewrite Hv'. destruct Hraw as [Hraw|Hraw]; [|now right].
                 destruct Hv as [->|]; [|now right]. left. rewrite Hraw.
                 now apply orb_false_iff in Hraw as [-> _]. }
           exists ((IOpen t (sel_attrs slc xml s) false, o1) :: l ++
                    if negb xml && html_void_name t then [] else [(IClose t, L "</" ++ t ++ L ">")]).
           repeat split.
           ++ cbn [toks_str flat_map snd]. f_equal. change (flat_map snd ?x) with (toks_str x).
              rewrite toks_str_app. f_equal. destruct (negb xml && html_void_name t); [reflexivity|].
              cbn [toks_str flat_map snd]. now rewrite app_nil_r.
           ++ cbn [tree_items]. rewrite Et.
              assert (xml && is_nil (e_nodes e) = false) as ->.
              { destruct Hne as [Hne|Hxf]; [|now rewrite Hxf]. destruct (e_nodes e); [congruence|]. apply andb_false_r. }
              cbn [map fst]. constructor. rewrite map_app. apply Shows_app; [exact Sl|].
              destruct (negb xml && html_void_name t); cbn; repeat constructor.
           ++ apply GMark; [eapply open_tag_mark; eauto|exact K1|].
              apply GoodToks_app; [exact Gl|].
              destruct (negb xml && html_void_name t); [constructor|].
              apply GMark; [now apply MarkOf_close|reflexivity|constructor].
      * unfold process_element in Hp. rewrite (valid_tags_single slc e Hst), Et in Hp.
        apply content_toks in Hp as (l & -> & Sl & Gl).
        -- exists l. cbn [tree_items]. rewrite Et. auto.
        -- rewrite Forall_forall in IHe, Hall |- *. intros n Hn fs' o' f'.
           apply (IHe n Hn _ raw); [now apply Hall|].
           cbn. destruct Hraw as [Hraw|Hraw]; [|now right].
           destruct Hv as [->|]; [|now right]. left. rewrite Hraw.
           now apply orb_false_iff in Hraw as [-> _].
    + destruct (element_shape _ _ _ _ _ _ _ _ Hst Et Hp)
          as [(En & Hx' & _)|(Hne & o1 & fs1 & f1 & o2 & H1 & -> & Hc')]; [congruence|].
      assert (html_void_name t = false) as Hvoid.
      { destruct (html_void_name t) eqn:E; [|reflexivity]. apply html_void_kind in E. congruence. }
      rewrite Hvoid, andb_false_r.
      assert (exists l, o2 = toks_str l /\ Shows lay (flat_map (tree_items slc xml) (e_nodes e)) (map fst l) /\
                Forall (TextOf ref) l) as (l & -> & Sl & Tl).
      { destruct Hc' as [[En ->]|(b1 & b2 & b3 & v' & fs2 & f2 & l1 & l3 & -> & L1 & L3 & C & Hv')].
        - rewrite En. exists []. repeat split; constructor.
        - apply text_children_toks in C as (l & -> & Sl & Tl); auto.
          + exists (l1 ++ l ++ l3). rewrite !toks_str_app.
            split; [destruct L1 as (-> & _), L3 as (-> & _); reflexivity|].
            split; [eapply LayToks_sandwich; eauto|].
            destruct L1 as (_ & _ & _ & T1 & _), L3 as (_ & _ & _ & T3 & _).
            repeat (apply Forall_app; split; auto).
          + rewrite Hv'. destruct Hv as [->|]; [left; exact Hraw|now right]. }
      exists ((IOpen t (sel_attrs slc xml s) false, o1) :: l ++ [(IClose t, L "</" ++ t ++ L ">")]).
      repeat split.
      * cbn [toks_str flat_map snd]. f_equal. change (flat_map snd ?x) with (toks_str x).
        rewrite toks_str_app. f_equal. cbn [toks_str flat_map snd]. now rewrite app_nil_r.
      * cbn [tree_items]. rewrite Et, Hx, Hvoid. cbn [andb negb map fst]. constructor.
        rewrite map_app. rewrite Hx in Sl. apply Shows_app; [exact Sl|]. cbn. repeat constructor.
      * apply GRcdata; auto; [now rewrite Hx|eapply open_tag_mark; eauto|constructor].
    + destruct (element_shape _ _ _ _ _ _ _ _ Hst Et Hp)
          as [(En & Hx' & _)|(Hne & o1 & fs1 & f1 & o2 & H1 & -> & Hc')]; [congruence|].
      assert (html_void_name t = false) as Hvoid.
      { destruct (html_void_name t) eqn:E; [|reflexivity]. apply html_void_kind in E. congruence. }
      rewrite Hvoid, andb_false_r.
      assert (exists l, o2 = toks_str l /\ Shows lay (flat_map (tree_items slc xml) (e_nodes e)) (map fst l) /\
                Forall RawOf l /\ ~ occurs (L "</") (toks_str l)) as (l & -> & Sl & Tl & Nl).
      { destruct Hc' as [[En ->]|(b1 & b2 & b3 & v' & fs2 & f2 & l1 & l3 & -> & L1 & L3 & C & Hv')].
        - rewrite En. exists []. repeat split; try constructor. intros (p & q & E). destruct p; discriminate.
        - apply raw_children_toks in C as (l & -> & Sl & Tl & Nl); auto.
          + exists (l1 ++ l ++ l3). rewrite <- ?app_assoc.
            split; [rewrite !toks_str_app; destruct L1 as (-> & _), L3 as (-> & _); reflexivity|].
            split; [eapply LayToks_sandwich; eauto|].
            destruct L1 as (_ & _ & R1 & T1 & _), L3 as (_ & _ & R3 & T3 & _).
            split; [repeat (apply Forall_app; split; auto)|].
            apply raw_concat.
            assert (forall k, TextOf ref k -> ~ occurs (L "</") (snd k) /\ ~ (exists r0, snd k = r0 ++ [60])) as HT.
            { intros k (tt & _ & Hn & _). split; [now apply not_occurs_no_lt|].
              intros [r' Er]. apply Hn. rewrite Er. rewrite in_app_iff. right. now left. }
            repeat (apply Forall_app; split; auto); (eapply Forall_impl; [exact HT|assumption]).
          + rewrite Hv'. destruct Hv as [->|]; [exact Hraw|congruence]. }
      exists ((IOpen t (sel_attrs slc xml s) false, o1) :: l ++ [(IClose t, L "</" ++ t ++ L ">")]).
      repeat split.
      * cbn [toks_str flat_map snd]. f_equal. change (flat_map snd ?x) with (toks_str x).
        rewrite toks_str_app. f_equal. cbn [toks_str flat_map snd]. now rewrite app_nil_r.
      * cbn [tree_items]. rewrite Et, Hx, Hvoid. cbn [andb negb map fst]. constructor.
        rewrite map_app. rewrite Hx in Sl. apply Shows_app; [exact Sl|]. cbn. repeat constructor.
      * apply GRaw; auto; [now rewrite Hx|eapply open_tag_mark; eauto|constructor].
  - inversion HR as [|? ? Hraw Hg| |]; subst. destruct t as [t|c|s]; cbn [process_node] in Hp; cbn in Hg.
    + exists [(IText (text_value slc t), o)]. repeat split.
      * cbn. now rewrite app_nil_r.
      * cbn. repeat constructor.
      * apply GText; [|constructor]. eapply escaped_text_tok; eauto.
        destruct Hv as [->|]; auto.
    + unfold write_comment in Hp. wsteps. rewrite app_nil_r.
      destruct (comment_body_ok (as_str slc c)) as [[C1 _ _ C4] _].
      exists [(IComment (comment_body (as_str slc c)), L "<!--" ++ comment_body (as_str slc c) ++ L "-->")].
      repeat split.
      * cbn [toks_str flat_map snd]. now rewrite app_nil_r.
      * cbn. repeat constructor.
      * apply GMark; [now apply MarkOf_comment|reflexivity|constructor].
    + apply space_toks in Hp as (l & -> & G & _ & _ & _ & S); [|exact Hg].
      exists l. auto.
Qed.

(** ** The whole output *)
Theorem output_toks : forall ns o, Forall (Readable slc xml false) ns ->
  output_html slc cfg ns = (o, true) ->
  exists l, o = toks_str l /\ GoodToks (negb xml) ref l /\
    Shows lay (doc_items slc xml (match c_complete_page cfg with Some b => b | None => false end) ns)
          (map fst l).
Proof.
  intros ns o HR H. unfold output_html in H. cbn zeta in H.
  match type of H with match ?x with _ => _ end = _ => destruct x as [[o' f'] ok] eqn:E end.
  injection H as -> ->.
  apply andthen_ok in E as (o1 & f1 & k & H1 & E & ->).
  apply andthen_ok in E as (o2 & f2 & o3 & H2 & H3 & ->).
  apply line_toks in H3 as [l3 L3].
  apply content_toks in H2 as (l2 & -> & S2 & G2).
  2:{ apply Forall_forall. intros n Hn fs o f. apply node_toks with (raw := false); [|now left].
      rewrite Forall_forall in HR. auto. }
  assert (exists l1, o1 = toks_str l1 /\ GoodToks (negb xml) ref l1 /\
    Shows lay (if match c_complete_page cfg with Some b => b | None => false end
               then [XItem IDoctype; XGap [10]] else []) (map fst l1)) as (l1 & -> & G1 & S1).
  { destruct (c_complete_page cfg) as [[|]|]; wsteps.
    - exists [(IDoctype, L "<!DOCTYPE html>"); (IText [10], [10])]. repeat split.
      + apply GMark; [apply MarkOf_doctype|reflexivity|].
        apply GText; [apply TextOf_plain; cbn; intuition discriminate|constructor].
      + cbn. constructor. apply ShGap; [now left|constructor].
    - exists []. repeat split; constructor.
    - exists []. repeat split; constructor. }
  destruct L3 as (-> & G3 & _ & _ & S3).
  exists (l1 ++ l2 ++ l3). rewrite !toks_str_app. split; [reflexivity|]. split.
  - now repeat apply GoodToks_app.
  - unfold doc_items. rewrite !map_app. apply Shows_app; [exact S1|].
    rewrite <- (app_nil_r (flat_map (tree_items slc xml) ns)). apply Shows_app; [exact S2|].
    pose proof (S3 [] [] (ShNil _)) as S3'. rewrite app_nil_r in S3'. exact S3'.
Qed.

Theorem output_reads_back : forall ns o, Forall (Readable slc xml false) ns ->
  output_html slc cfg ns = (o, true) ->
  exists is, read_markup xml o = Some (merge_text is) /\
    Shows lay (doc_items slc xml (match c_complete_page cfg with Some b => b | None => false end) ns) is.
Proof.
  intros ns o HR H. destruct (output_toks ns o HR H) as (l & -> & G & S).
  exists (map fst l). split; [|exact S]. unfold read_markup, merge_text.
  apply (read_toks _ _ l G [] []); [constructor|cbn; tauto|]. cbn. lia.
Qed.

End W.

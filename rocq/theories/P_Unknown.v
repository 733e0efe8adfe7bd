(** * When the writer fails: only on a malformed escape in a name, a class, an id, a
      value or the language. *)

From Verif Require Import Base Escape OutText Doc Ast Config Errors Build Output Infer Transform Convert
  SpecEscape SpecTree SpecInfer SpecBuild P_Base P_Escape P_OutText P_Build P_BuildAll P_Selector P_Infer P_Convert.

(** ** Texts: if the whole decodes, so do the lines *)

Definition D (s : str) : Prop := exists t, Decodes true s t.

Lemma D_unescape : forall s, D s <-> snd (unescape s) = true.
Proof.
  intros s. split.
  - intros [t H]. apply unescape_spec in H. now rewrite H.
  - intros H. destruct (unescape s) as [t b] eqn:E. cbn in H. subst b. exists t. now apply unescape_spec.
Qed.
Lemma D_errors : forall s off, escape_errors s off = [] -> D s.
Proof. intros s off H. apply escape_errors_nil in H. exact H. Qed.

Lemma esc_chars : forall e c, EscSeq true e c -> forall x, In x e -> x <> 10 /\ x <> 13.
Proof.
  intros e c H x Hx. destruct H as [| | |c H|ds v Hl Hd Hv|ds v Hl Hd Hv].
  - cbn in Hx. intuition (subst; discriminate).
  - cbn in Hx. intuition (subst; discriminate).
  - cbn in Hx. intuition (subst; discriminate).
  - cbn in Hx. destruct Hx as [<-|[<-|[]]]; [split; discriminate|].
    destruct H as [H| ->]; [|split; discriminate]. cbn in H. intuition (subst; discriminate).
  - apply in_app_or in Hx as [Hx|Hx]; [cbn in Hx; intuition (subst; discriminate)|].
    pose proof (SignedHexNum_chars _ _ _ Hd x Hx). lia.
  - apply in_app_or in Hx as [Hx|Hx]; [cbn in Hx; intuition (subst; discriminate)|].
    apply in_app_or in Hx as [Hx|Hx]; [|cbn in Hx; intuition (subst; discriminate)].
    pose proof (SignedHexNum_chars _ _ _ Hd x Hx). lia.
Qed.

Lemma decodes_split : forall s t, Decodes true s t -> forall a c b, s = a ++ c :: b -> c = 10 \/ c = 13 -> D a /\ D b.
Proof.
  intros s t H. induction H as [|x s t Hx H IH|e x s t He H IH]; intros a c b E Hc.
  - destruct a; discriminate.
  - destruct a as [|y a]; injection E as -> ->.
    + split; [exists []; constructor|exists t; exact H].
    + destruct (IH a c b eq_refl Hc) as [[u Hu] Hb]. split; [|exact Hb]. exists (y :: u). now constructor.
  - destruct (app_eq_app _ _ _ _ E) as (l & [[E1 E2]|[E1 E2]]).
    + destruct l as [|y l].
      * rewrite app_nil_r in E1. subst e. cbn in E2. destruct (IH [] c b (eq_sym E2) Hc) as [_ Hb].
        split; [|exact Hb]. exists [x]. rewrite <- (app_nil_r a). constructor; [exact He|constructor].
      * injection E2 as -> E2. exfalso. destruct (esc_chars _ _ He y) as [H1 H2]; [|destruct Hc; contradiction].
        subst e. apply in_or_app. right. now left.
    + destruct (IH l c b E2 Hc) as [[u Hu] Hb]. split; [|exact Hb]. subst a. exists (x :: u). now constructor.
Qed.
Lemma D_split : forall a c b, c = 10 \/ c = 13 -> D (a ++ c :: b) -> D a /\ D b.
Proof. intros a c b Hc [t H]. eapply decodes_split; eauto. Qed.
Lemma D_tail : forall c s, c <> 92 -> D (c :: s) -> D s.
Proof.
  intros c s Hc [t H]. inversion H as [|? ? t' ? H'|e x s' t' He H' E]; subst.
  - exists t'. exact H'.
  - destruct (EscSeq_head _ _ He) as [e' ->]. cbn in E. injection E as E _. congruence.
Qed.
Lemma D_cons : forall c s, c <> 92 -> D s -> D (c :: s).
Proof. intros c s Hc [t H]. exists (c :: t). now constructor. Qed.

Lemma split_once_app_inv : forall p s a b, split_once p s = Some (a, b) -> s = a ++ p :: b.
Proof.
  intros p. unfold split_once. induction s as [|c s IH]; cbn [split_at_char]; intros a b H; [discriminate|].
  destruct (N.eqb_spec c p) as [->|Hc].
  - injection H as <- <-. reflexivity.
  - destruct (split_at_char p s) as [[pre post]|]; [|discriminate]. destruct post as [|x post]; [discriminate|].
    injection H as <- <-. cbn. f_equal. apply IH. reflexivity.
Qed.
Lemma rsplit_once_inv : forall p s a b, rsplit_once p s = Some (a, b) -> s = a ++ p :: b.
Proof.
  intros p. induction s as [|c s IH]; cbn [rsplit_once]; intros a b H; [discriminate|].
  destruct (rsplit_once p s) as [[pre post]|].
  - injection H as <- <-. cbn. f_equal. now apply IH.
  - destruct (N.eqb_spec c p) as [->|]; [|discriminate]. now injection H as <- <-.
Qed.
Lemma strip_suffix_cases : forall c s, strip_suffix_char c s = s \/ s = strip_suffix_char c s ++ [c].
Proof.
  intros c. induction s as [|d s IH]; cbn [strip_suffix_char]; [now left|]. destruct s as [|d' s].
  - destruct (N.eqb_spec c d) as [->|]; [now right|now left].
  - destruct IH as [IH|IH]; [left; now rewrite IH|right; cbn [app]; now f_equal].
Qed.
Lemma D_strip_cr : forall s, D s -> D (strip_suffix_char 13 s).
Proof.
  intros s H. destruct (strip_suffix_cases 13 s) as [E|E]; [now rewrite E|]. rewrite E in H.
  now apply D_split in H as [H _]; [|now right].
Qed.

(** Each line with its line end. *)
Lemma split_inclusive_D : forall s, D s -> Forall D (split_inclusive 10 s).
Proof.
  intros s. remember (length s) as n eqn:En. assert (length s <= n)%nat as Hn by lia. clear En.
  revert s Hn. induction n as [|n IH]; intros s Hn H; [destruct s; [constructor|cbn in Hn; lia]|].
  destruct (split_at_char 10 s) as [[a b]|] eqn:E.
  - assert (exists b', b = 10 :: b' /\ s = a ++ 10 :: b' /\ ~ In 10 a /\ split_inclusive 10 s = (a ++ [10]) :: split_inclusive 10 b')
      as (b' & -> & Es & Ha & Ei).
    { clear -E. revert a b E. induction s as [|c s IHs]; cbn [split_at_char]; intros a b E; [discriminate|].
      destruct (N.eqb_spec c 10) as [->|Hc].
      - injection E as <- <-. exists s. repeat split; auto.
      - destruct (split_at_char 10 s) as [[pre post]|]; [|discriminate]. injection E as <- <-.
        destruct (IHs pre post eq_refl) as (b' & -> & -> & Ha & Ei). exists b'. repeat split.
        + intros [H|H]; [now apply Hc|now apply Ha].
        + cbn [split_inclusive]. rewrite (proj2 (N.eqb_neq _ _) Hc), Ei. reflexivity. }
    rewrite Ei. rewrite Es in H. apply D_split in H as [H1 H2]; [|now left]. constructor.
    + clear -H1. destruct H1 as [t H]. exists (t ++ [10]). revert H. induction 1.
      * cbn. constructor; [discriminate|constructor].
      * cbn. now constructor.
      * rewrite <- app_assoc. cbn. now constructor.
    + apply IH; [|exact H2]. rewrite Es, app_length in Hn. cbn in Hn. lia.
  - assert (split_inclusive 10 s = match s with [] => [] | _ => [s] end) as ->.
    { clear -E. induction s as [|c s IHs]; cbn [split_at_char split_inclusive] in *; [reflexivity|].
      destruct (c =? 10); [discriminate|]. destruct (split_at_char 10 s) as [[? ?]|]; [discriminate|].
      rewrite IHs by reflexivity. destruct s; reflexivity. }
    destruct s; constructor; [exact H|constructor].
Qed.
Lemma strip_ws_D : forall p s s', Forall (fun c => is_whitespace c = true) p -> strip_prefix p s = Some s' -> D s -> D s'.
Proof.
  intros p. induction p as [|c p IH]; intros s s' Hp H Hs; [cbn in H; now injection H as <-|].
  destruct s as [|d s]; cbn [strip_prefix] in H; [discriminate|]. destruct (N.eqb_spec c d) as [->|]; [|discriminate].
  inversion Hp as [|? ? Hd Hp']; subst. eapply IH; [exact Hp'|exact H|]. eapply D_tail; [|exact Hs]. intros ->. discriminate.
Qed.
Lemma leading_ws_all : forall s, Forall (fun c => is_whitespace c = true) (leading_ws s).
Proof.
  induction s as [|c s IH]; cbn [leading_ws]; [constructor|]. destruct (is_whitespace c) eqn:E; constructor; auto.
Qed.
Theorem trim_D : forall s, D s -> Forall D (trim_multiline s).
Proof.
  intros s H. unfold trim_multiline. destruct (split_once 10 s) as [[a s1]|] eqn:E1; [|constructor].
  apply split_once_app_inv in E1. subst s. apply D_split in H as [_ H]; [|now left].
  destruct (rsplit_once 10 s1) as [[s2 last]|] eqn:E2; [|constructor].
  apply rsplit_once_inv in E2. subst s1. apply D_split in H as [H _]; [|now left].
  apply D_strip_cr in H. apply split_inclusive_D in H. apply Forall_map. eapply Forall_impl; [|exact H].
  cbn. intros l Hl. destruct (strip_prefix (leading_ws last) l) as [l'|] eqn:E; cbn; [|exact Hl].
  eapply strip_ws_D; [apply leading_ws_all|exact E|exact Hl].
Qed.

(** ** The writer *)

Section Slc.
Variable slc : lrange -> str.
Notation okstr := (fun t : tslice => D (as_str slc t)).
Definition oksel (s : selector) : Prop := Forall okstr (sel_strings s).
Definition okelt (e : element) : Prop := Forall oksel (e_selectors e).
Definition oktxt (t : textlike) : Prop :=
  match t with
  | TText t => t_unescape_in t = true -> Forall D (text_pieces slc t)
  | _ => True
  end.
Definition oknode : node -> Prop := TreeAll okelt oktxt.

Definition okW (w : W) : Prop := forall fs, snd (w fs) = true.
Lemma ok_emit : forall s, okW (emit s). Proof. intros s fs. reflexivity. Qed.
Lemma ok_nop : okW nop. Proof. intros fs. reflexivity. Qed.
Lemma ok_fs : forall b, okW (set_fs b). Proof. intros b fs. reflexivity. Qed.
Lemma ok_then : forall a b, okW a -> okW b -> okW (a ;; b).
Proof.
  intros a b Ha Hb fs. unfold andthen. specialize (Ha fs). destruct (a fs) as [[o1 f1] k1]. cbn in Ha. subst k1.
  specialize (Hb f1). destruct (b f1) as [[o2 f2] k2]. exact Hb.
Qed.
Lemma ok_seq : forall l, Forall okW l -> okW (seqW l).
Proof. intros l H. induction H; cbn [seqW]; [apply ok_nop|now apply ok_then]. Qed.
Lemma ok_res : forall r, snd r = true -> okW (emit_res r).
Proof. intros r H fs. exact H. Qed.
Lemma ok_esc : forall xml q s, D s -> snd (escape_unescape xml q s) = true.
Proof.
  intros xml q s H. rewrite escape_unescape_spec. apply D_unescape in H. destruct (unescape s). exact H.
Qed.

Variable cfg : config.
Ltac okw := repeat match goal with
  | |- okW (_ ;; _) => apply ok_then
  | |- okW (emit _) => apply ok_emit
  | |- okW nop => apply ok_nop
  | |- okW (set_fs _) => apply ok_fs
  | |- okW (match ?x with _ => _ end) => destruct x
  | |- okW (if ?x then _ else _) => destruct x
  end.

Lemma strings_items : forall s, oksel s -> Forall (fun i => Forall okstr (item_strings i)) (s_items s).
Proof.
  intros s H. unfold oksel, sel_strings in H. induction (s_items s) as [|i l IH]; [constructor|].
  cbn [flat_map] in H. apply Forall_app in H as [H1 H2]. constructor; auto.
Qed.
Lemma ok_id : forall s i, oksel s -> sel_id s = Some i -> okstr i.
Proof.
  intros s i H. apply strings_items in H. unfold sel_id. induction H as [|x l Hx H IH]; cbn [id_of]; intros E; [discriminate|].
  destruct x; try (now apply IH). injection E as <-. now inversion Hx.
Qed.
Lemma ok_classes : forall s, oksel s -> Forall okstr (class_names s).
Proof.
  intros s H. apply strings_items in H. unfold class_names. induction H as [|x l Hx H IH]; cbn [class_names_of]; [constructor|].
  destruct x; auto. constructor; [now inversion Hx|assumption].
Qed.
Lemma ok_attributes : forall s, oksel s ->
  Forall (fun a => okstr (fst a) /\ match snd a with Some v => okstr v | None => True end) (attributes s).
Proof.
  intros s H. apply strings_items in H. unfold attributes. induction H as [|x l Hx H IH]; cbn [flat_map]; [constructor|].
  apply Forall_app. split; [|assumption]. destruct x as [| |r la]; try constructor. cbn [item_strings] in Hx.
  clear -Hx. induction la as [|a la IHa]; cbn [map flat_map] in *; [constructor|].
  cbn [app] in Hx. inversion Hx as [|? ? Hn Hr]; subst. apply Forall_app in Hr as [Hv Hr]. constructor; [|auto].
  cbn. split; [exact Hn|]. destruct (Doc.a_value a); [now inversion Hv|exact I].
Qed.

Lemma ok_open : forall t s sc, oksel s -> okW (write_open_tag slc cfg t s sc).
Proof.
  intros t s sc H. unfold write_open_tag. apply ok_then; [okw|]. apply ok_then.
  { destruct (sel_id s) as [i|] eqn:E; [|okw]. okw. apply ok_res, ok_esc. now apply (ok_id s). }
  apply ok_then.
  { unfold write_classes. pose proof (ok_classes s H) as Hc. destruct (class_names s) as [|c0 cs]; [okw|].
    inversion Hc as [|? ? H0 Hc']; subst. okw; [now apply ok_res, ok_esc|]. apply ok_seq. apply Forall_map.
    eapply Forall_impl; [|exact Hc']. intros c Hc0. okw. now apply ok_res, ok_esc. }
  apply ok_then; [|okw]. apply ok_seq. apply Forall_map. eapply Forall_impl; [|apply ok_attributes; exact H].
  intros [n v] [H1 H2]. unfold write_attribute. cbn [fst snd] in *. okw; try (apply ok_res; now apply D_unescape).
  now apply ok_res, ok_esc.
Qed.
Lemma ok_opens : forall sels sc, Forall oksel sels -> okW (open_tags slc cfg sc (valid_tags slc sels)).
Proof.
  intros sels sc H. assert (Forall (fun ts => oksel (snd ts)) (valid_tags slc sels)) as HV.
  { induction H as [|s l Hs H IH]; cbn [valid_tags]; [constructor|]. destruct (tag_name (s_tag s)); [constructor|]; auto. }
  induction HV as [|[t s] l Hs HV IH]; cbn [open_tags]; [okw|]. destruct l; [now apply ok_open|].
  apply ok_then; [now apply ok_open|exact IH].
Qed.
Lemma ok_line : forall v, okW (line cfg v).
Proof.
  intros v fs. unfold line. destruct (fs || v_inline v); [apply ok_nop|]. unfold line_.
  destruct (c_indent cfg); [|apply ok_nop]. apply ok_then; okw.
Qed.
Lemma ok_space : forall v s, okW (write_space slc cfg v s).
Proof.
  intros v s fs. unfold write_space. destruct fs; [apply ok_nop|]. apply ok_then; [|apply ok_fs].
  destruct s as [| |[t|]]; okw; unfold line_; okw.
Qed.
Lemma ok_text : forall v t, oktxt (TText t) -> okW (write_text slc cfg v t).
Proof.
  intros v t H. unfold write_text. cbn [oktxt] in H. unfold text_pieces in H.
  destruct (slice_is_empty (t_slice t)); [okw|].
  assert (HP : forall raw p, (t_unescape_in t = true -> D p) -> okW (write_piece cfg (t_unescape_in t) raw p)).
  { intros raw p Hp. unfold write_piece. destruct (t_unescape_in t), raw; okw; try (apply ok_res).
    - apply D_unescape. auto.
    - apply ok_esc. auto. }
  destruct (t_multiline t).
  - apply ok_then; [|okw]. apply ok_seq. apply Forall_map. apply Forall_forall. intros p Hp. apply HP. intros E.
    specialize (H E). rewrite Forall_forall in H. auto.
  - apply ok_then; [|okw]. apply HP. intros E. specialize (H E). now inversion H.
Qed.

Lemma drop_while_incl : forall A (p : A -> bool) l, incl (drop_while p l) l.
Proof.
  intros A p l. induction l as [|a l IH]; cbn [drop_while]; [apply incl_refl|].
  destruct (p a); [intros x Hx; right; now apply IH|apply incl_refl].
Qed.
Lemma trim_by_incl : forall A (p : A -> bool) l, incl (trim_by p l) l.
Proof.
  intros A p l x Hx. unfold trim_by in Hx. apply in_rev in Hx. apply drop_while_incl in Hx. apply in_rev in Hx.
  now apply drop_while_incl in Hx.
Qed.

Theorem ok_node : forall n, oknode n -> forall v, okW (process_node slc cfg v n).
Proof.
  induction n as [r e IH|r t] using node_ind'; intros H v.
  - cbn [process_node]. inversion H as [? ? He Hk|]; subst. unfold process_element.
    assert (HC : forall v', okW (seqW (map snd (trim_by fst (map (fun m => (is_space m, process_node slc cfg v' m)) (e_nodes e)))))).
    { intros v'. apply ok_seq. apply Forall_forall. intros w Hw. apply in_map_iff in Hw as ((b & w') & <- & Hw).
      apply trim_by_incl in Hw. apply in_map_iff in Hw as (m & Hm & Hi). injection Hm as <- <-.
      rewrite Forall_forall in IH, Hk. cbn. apply IH; [exact Hi|now apply Hk]. }
    pose proof (ok_opens (e_selectors e) (is_nil (e_nodes e) && is_xml cfg) He) as HO.
    destruct (valid_tags slc (e_selectors e)) as [|ts tags]; [apply HC|].
    apply ok_then; [exact HO|]. apply ok_then.
    + destruct (is_nil (e_nodes e)); [okw|]. repeat apply ok_then; try apply ok_line. apply HC.
    + unfold close_tags. apply ok_seq. apply Forall_map. apply Forall_forall. intros x _. unfold write_close_tag. okw.
  - cbn [process_node]. inversion H as [|? ? Ht]; subst. destruct t; [now apply ok_text|unfold write_comment; okw|].
    apply ok_then; [apply ok_space|okw].
Qed.
Theorem ok_output : forall ns, Forall oknode ns -> snd (output_html slc cfg ns) = true.
Proof.
  intros ns H. unfold output_html.
  set (w := _ ;; _). assert (okW w) as Hw.
  { subst w. repeat apply ok_then; [okw| |apply ok_line]. unfold process_content. apply ok_seq. apply Forall_map.
    apply Forall_forall. intros n Hn. apply ok_node. apply trim_by_incl in Hn. rewrite Forall_forall in H. auto. }
  specialize (Hw true). destruct (w true) as [[o f] k]. exact Hw.
Qed.

(** ** The transforms keep the strings of the source *)

Lemma oksel_empty : forall n t, oksel (sel_with_tag (sel_empty n) t).
Proof. intros. constructor. Qed.
Lemma ok_apply_tags : forall e tags, okelt e -> okelt (apply_tags e tags).
Proof.
  intros e tags H. unfold apply_tags, okelt in *. destruct (filter _ tags) as [|t0 ts].
  - cbn. destruct (e_selectors e); [constructor|]. now inversion H.
  - assert (HM : forall k, Forall oksel (map (fun t => sel_with_tag (sel_empty k) t) ts)).
    { intros k. apply Forall_map. apply Forall_forall. intros. apply oksel_empty. }
    destruct (e_selectors e) as [|s l]; cbn [with_selectors e_selectors].
    + constructor; [apply oksel_empty|apply HM].
    + inversion H; subst. constructor; [assumption|]. apply Forall_app. auto.
Qed.
Lemma ok_special : forall st n, oknode n -> oknode (special_node st n).
Proof.
  intros st n. induction n as [r e IH|r t] using node_ind'; intros H; [|exact H].
  inversion H as [? ? He Hk|]; subst. cbn [special_node]. constructor.
  - change (okelt (special_element st e)). unfold special_element.
    destruct (e_type e) as [|d|d|k|k|]; try exact He; try (now apply ok_apply_tags).
    destruct k; try exact He. now apply ok_apply_tags.
  - cbn. apply Forall_map. rewrite Forall_forall in *. intros x Hx. apply IH; [exact Hx|now apply Hk].
Qed.
Lemma oknode_txt : forall r t, oktxt t -> oknode (NTxt r t). Proof. intros. now constructor. Qed.
Lemma ok_page_element : forall t cr ns, Forall oknode ns -> oknode (elt_node (page_element t cr ns)).
Proof. intros t cr ns H. constructor; [|exact H]. apply (ok_apply_tags (new_elt invalid_range Unknown)). constructor. Qed.
Lemma ok_page : forall cr ns, Forall oknode ns -> Forall oknode (complete_page slc cr ns).
Proof.
  intros cr ns H. unfold complete_page. destruct (existsb _ ns); [exact H|]. destruct (existsb _ ns).
  { constructor; [now apply ok_page_element|constructor]. }
  assert (Forall oknode (fst (split_page slc ns)) /\ Forall oknode (snd (split_page slc ns))) as [H1 H2].
  { induction H as [|n l Hn H [IH1 IH2]]; cbn [split_page]; [split; constructor|].
    destruct (split_page slc l) as [hd bd]. cbn [fst snd] in *.
    destruct (element_with_tag_in slc [L "head"] n) as [e|] eqn:E.
    - cbn. split; [|assumption]. apply Forall_app. split; [|assumption].
      destruct n as [r e'|]; cbn [element_with_tag_in] in E; [|discriminate].
      destruct (e_selectors e') as [|s ?]; [discriminate|]. destruct (tag_name (s_tag s)); [|discriminate].
      destruct (existsb _ _); [|discriminate]. injection E as <-. now inversion Hn.
    - destruct (has_tag_in slc metadata_tags n); cbn; split; auto. }
  destruct (split_page slc ns) as [hd bd]. cbn [fst snd] in *.
  constructor; [|constructor]. apply ok_page_element. constructor; [now apply ok_page_element|].
  constructor; [apply oknode_txt; exact I|]. constructor; [now apply ok_page_element|constructor].
Qed.

Lemma ok_name_sels : forall st sels n, Forall oksel sels -> Forall oksel (name_sels slc st sels n).
Proof.
  intros st sels n H. unfold name_sels. destruct (first_name slc sels); [exact H|]. destruct n.
  - destruct H; constructor; auto; constructor.
  - destruct H; [constructor|assumption].
  - exact H.
Qed.
Lemma ok_chain : forall k sels c g p fi la r er cr ty f raw kids, Forall oksel sels ->
  (forall c g p, Forall oknode (kids c g p)) ->
  oknode (chain slc k c g p fi la r er sels cr ty f raw kids).
Proof.
  induction k as [|x k IH]; intros sels c g p fi la r er cr ty f raw kids Hs Hk; cbn [chain];
    set (sels1 := name_sels _ _ _ _); assert (Forall oksel sels1) as H1 by (subst sels1; now apply ok_name_sels);
    destruct sels1 as [|s0 [|s1 rest]]; try (constructor; [exact H1|apply Hk]).
  inversion H1 as [|? ? H2 H3]; subst. constructor; [now repeat constructor|]. cbn. constructor; [|constructor]. now apply IH.
Qed.
Lemma map_pos_forall : forall A B (f : bool -> bool -> A -> B) (P : B -> Prop) l b,
  Forall (fun x => forall f1 f2, P (f f1 f2 x)) l -> Forall P (map_pos f b l).
Proof. intros A B f P l b H. revert b. induction H; intros b; cbn [map_pos]; constructor; auto. Qed.
Lemma ok_resolve : forall n, oknode n -> forall c g p fi la, oknode (resolve slc c g p fi la n).
Proof.
  induction n as [r e IH|r t] using node_ind'; intros H c g p fi la; [|exact H].
  inversion H as [? ? He Hk|]; subst. cbn [resolve]. apply ok_chain; [exact He|]. intros c' g' p'.
  apply map_pos_forall. rewrite Forall_forall in *. intros x Hx f1 f2. apply IH; [exact Hx|now apply Hk].
Qed.

Lemma no_backslash_D : forall s, ~ In 92 s -> D s.
Proof.
  induction s as [|c s IH]; intros H; [exists []; constructor|]. apply D_cons; [intros ->; apply H; now left|].
  apply IH. intros Hi. apply H. now right.
Qed.
Lemma dec_D : forall n, D (dec n).
Proof.
  intros n. apply no_backslash_D. intros H. pose proof (dec_digit_chars n) as HD. rewrite Forall_forall in HD.
  specialize (HD _ H). lia.
Qed.
Ltac lit := apply no_backslash_D; vm_compute; intuition discriminate.
Definition okattrs (l : list attribute) : Prop := forall r, Forall okstr (item_strings (SAttrs r l)).
Lemma okattrs_app : forall a b, okattrs a -> okattrs b -> okattrs (a ++ b).
Proof. intros a b Ha Hb r. cbn. rewrite flat_map_app. apply Forall_app. split; [apply (Ha r)|apply (Hb r)]. Qed.
Lemma okattrs_one : forall loc n v, D n -> D v -> okattrs [meta_attr loc n v].
Proof. intros loc n v H1 H2 r. cbn. repeat constructor; assumption. Qed.
Lemma okattrs_nil : okattrs []. Proof. intros r. constructor. Qed.
Lemma okattrs_range : forall loc a b r, D a -> D b -> okattrs (add_range loc a b r).
Proof.
  intros loc a b r Ha Hb. unfold add_range. destruct (_ <=? _); [|apply okattrs_nil].
  apply (okattrs_app [_] [_]); apply okattrs_one; auto; apply dec_D.
Qed.
Lemma okattrs_true : forall loc n v, D n -> okattrs (add_true loc n v).
Proof. intros loc n v H. unfold add_true. destruct v; [|apply okattrs_nil]. apply okattrs_one; [exact H|lit]. Qed.
Lemma oksel_add : forall s loc l, oksel s -> okattrs l -> oksel (add_attrs s loc l).
Proof.
  intros s loc l Hs Hl. unfold add_attrs. destruct l as [|a l]; [exact Hs|]. unfold oksel, sel_strings in *. cbn [s_items].
  rewrite flat_map_app. apply Forall_app. split; [exact Hs|]. cbn [flat_map]. rewrite app_nil_r. apply Hl.
Qed.
Lemma ok_meta_sels : forall el outer e root oi sels i, Forall oksel sels ->
  Forall oksel (fst (meta_sels el outer e root oi i sels)).
Proof.
  intros el outer e root oi sels i H. revert i. induction H as [|s l Hs H IH]; intros i; cbn [meta_sels]; [constructor|].
  specialize (IH (S i)). destruct (meta_sels el outer e root oi (S i) l) as [rest cr]. cbn [fst] in IH.
  destruct (uninferred s && negb el); [constructor; assumption|]. cbn [fst]. constructor; [|exact IH].
  apply oksel_add; [destruct (uninferred s); exact Hs|].
  repeat apply okattrs_app; try (apply okattrs_range; lit).
  destruct (i =? oi)%nat; [|apply okattrs_nil]. apply okattrs_app; [|apply okattrs_true; lit].
  destruct root; [|apply okattrs_nil]. apply okattrs_one; lit.
Qed.
Lemma ok_handle : forall el r e root, okelt e -> okelt (handle_element el r e root).
Proof.
  intros el r e root H. unfold handle_element. destruct (_ && _); [exact H|]. unfold okelt. cbn [with_selectors e_selectors].
  apply ok_meta_sels. destruct (e_selectors e) eqn:E.
  - destruct (negb _); [|constructor]. constructor; constructor.
  - unfold okelt in H. now rewrite E in H.
Qed.
Lemma handle_nodes : forall el r e root, e_nodes (handle_element el r e root) = e_nodes e.
Proof. intros. unfold handle_element. now destruct (_ && _). Qed.
Lemma ok_meta : forall el n root, oknode n -> oknode (meta_node el root n).
Proof.
  intros el n. induction n as [r e IH|r t] using node_ind'; intros root H.
  - inversion H as [? ? He Hk|]; subst. cbn [meta_node]. constructor.
    + apply (ok_handle el r e root) in He. exact He.
    + cbn. apply Forall_map. rewrite Forall_forall in *. intros x Hx. apply IH; [exact Hx|now apply Hk].
  - inversion H as [|? ? Ht]; subst. cbn [meta_node]. destruct t as [t|s|s]; [|destruct el|]; try exact H.
    + destruct (el && negb (t_raw t)); [|exact H]. constructor.
      * apply ok_handle. constructor; [|constructor]. apply oksel_add; [apply oksel_empty|].
        apply okattrs_app; apply okattrs_true; lit.
      * rewrite handle_nodes. constructor; [exact H|constructor].
    + constructor.
      * apply ok_handle. constructor; constructor.
      * rewrite handle_nodes. constructor; [|constructor]. apply oknode_txt. cbn. discriminate.
Qed.
Lemma ok_lang : forall l n, D l -> oknode n -> oknode (lang_node l n).
Proof.
  intros l n Hl H. destruct n as [r e|r t]; [|exact H]. inversion H as [? ? He Hk|]; subst. cbn [lang_node].
  constructor; [|exact Hk]. unfold okelt in *. cbn. induction He as [|s ss Hs He IH]; cbn [lang_sels]; [constructor|].
  destruct (uninferred s); constructor; auto. unfold oksel, sel_strings in *. cbn [s_items]. rewrite flat_map_app.
  apply Forall_app. split; [exact Hs|]. cbn. repeat constructor; [lit|exact Hl].
Qed.

Theorem ok_transform : forall cr ns out, (forall l, c_lang cfg = Some l -> D l) -> Forall oknode ns ->
  transform_document slc cfg cr ns = Some out -> Forall oknode out.
Proof.
  intros cr ns out Hl H E. unfold transform_document in E.
  set (ns1 := match c_complete_page cfg with Some true => _ | _ => _ end) in E.
  assert (Forall oknode ns1) as H1.
  { assert (Forall oknode (map (special_node (c_special cfg)) ns)) as H0.
    { apply Forall_map. eapply Forall_impl; [|exact H]. intros n. apply ok_special. }
    subst ns1. destruct (c_complete_page cfg) as [[|]|]; auto. now apply ok_page. }
  rewrite infer_resolves in E. injection E as <-.
  assert (Forall oknode (resolve_all slc CSection None None ns1)) as H2.
  { apply map_pos_forall. eapply Forall_impl; [|exact H1]. intros n Hn f1 f2. now apply ok_resolve. }
  assert (forall ns2, Forall oknode ns2 -> Forall oknode (apply_lang (c_lang cfg) ns2)) as H3.
  { intros ns2 Hn. unfold apply_lang. destruct (c_lang cfg) as [l|] eqn:EL; [|exact Hn]. apply Forall_map.
    eapply Forall_impl; [|exact Hn]. intros n. apply ok_lang. now apply Hl. }
  apply H3. destruct (c_metadata cfg) as [el|]; [|exact H2]. apply Forall_map. eapply Forall_impl; [|exact H2].
  intros n. apply ok_meta.
Qed.
End Slc.

(** ** The builder *)

Section B.
Variable slc : lrange -> str.
Definition good_sel (s : a_selector) : Prop := forall r, In r (selector_strings s) -> D (slc r).

Lemma good_built : forall s, good_sel s -> Clean (build_selector s) (oksel slc).
Proof.
  intros s H. eapply clean_impl; [apply selector_built|]. intros v (_ & _ & Hv). unfold oksel. rewrite Hv.
  apply Forall_map. apply Forall_forall. intros r Hr. now apply H.
Qed.
Lemma TreeAll_impl : forall (PE PE' : element -> Prop) (PT PT' : textlike -> Prop), (forall e, PE e -> PE' e) -> (forall t, PT t -> PT' t) ->
  forall n, TreeAll PE PT n -> TreeAll PE' PT' n.
Proof.
  intros PE PE' PT PT' HE HT. induction n as [r e IH|r t] using node_ind'; intros H; inversion H as [? ? He Hk|? ? Ht]; subst; constructor; auto.
  rewrite Forall_forall in *. auto.
Qed.
Theorem from_ast_ok : forall c, (forall b s e, Occurs (content_items c) (ANode b (ANSelector s) e) -> good_sel s) ->
  Clean (from_ast slc c) (Forall (oknode slc)).
Proof.
  intros c H. eapply clean_impl.
  - apply (from_ast_all slc good_sel (oksel slc) (oktxt slc)).
    + intros n. constructor.
    + apply good_built.
    + intros s. exact I.
    + intros r. exact I.
    + intros r Hr _. unfold text_pieces. cbn [plain_text t_slice t_multiline]. destruct (slice_is_empty _); constructor; [|constructor].
      eapply D_errors. exact Hr.
    + intros r E. discriminate.
    + intros r E. discriminate.
    + intros b r E. discriminate.
    + intros k r Hr E. destruct k; try discriminate. unfold text_pieces. cbn [multiline_text t_slice t_multiline].
      destruct (slice_is_empty _); [constructor|]. apply trim_D. eapply D_errors. now apply Hr.
    + exact H.
  - intros ns Hn. eapply Forall_impl; [|exact Hn]. intros n Hx. unfold oknode, T in *. revert Hx. apply TreeAll_impl.
    + intros e He. exact (proj1 He).
    + auto.
Qed.

(** Either some string is malformed, or none is. *)
Definition bad_in (l : list a_item) : Prop := exists b s e r,
  Occurs l (ANode b (ANSelector s) e) /\ In r (selector_strings s) /\ ~ D (slc r).
Definition good_in (l : list a_item) : Prop :=
  forall b s e, Occurs l (ANode b (ANSelector s) e) -> good_sel s.
Lemma D_dec : forall s, D s \/ ~ D s.
Proof.
  intros s. destruct (snd (unescape s)) eqn:E; [left; now apply D_unescape|right]. intros H. apply D_unescape in H. congruence.
Qed.
Lemma occurs_cons : forall i l n, Occurs (i :: l) n -> Occurs [i] n \/ Occurs l n.
Proof.
  intros i l n H. induction H as [sp n Hn|s t e sp n Ho IH Hn].
  - destruct Hn as [->|Hn]; [left; eapply OcHere; now left|right; eapply OcHere; exact Hn].
  - destruct IH; [left|right]; eapply OcIn; eauto.
Qed.
Lemma occurs_one : forall sp s t e n, Occurs [(sp, ANode s t e)] n -> n = ANode s t e \/ Occurs (type_items t) n.
Proof.
  intros sp s t e n H. induction H as [sp' n [Hn|[]]|s' t' e' sp' n Ho IH Hn].
  - injection Hn as _ <-. now left.
  - right. destruct IH as [E|IH]; [injection E as -> -> ->; eapply OcHere; exact Hn|eapply OcIn; eauto].
Qed.
Lemma bad_or_good_list : forall l, Forall (fun i => bad_in [i] \/ good_in [i]) l -> bad_in l \/ good_in l.
Proof.
  intros l H. induction H as [|i l [Hi|Hi] H IH].
  - right. intros b s e Ho. exfalso. remember (ANode b (ANSelector s) e) as n eqn:E. clear E. induction Ho; contradiction.
  - left. destruct Hi as (b & s & e & r & Ho & Hr). exists b, s, e, r. split; [|exact Hr]. eapply occurs_incl; [|exact Ho].
    intros x [<-|[]]. now left.
  - destruct IH as [IH|IH].
    + left. destruct IH as (b & s & e & r & Ho & Hr). exists b, s, e, r. split; [|exact Hr]. eapply occurs_incl; [|exact Ho].
      intros x Hx. now right.
    + right. intros b s e Ho. apply occurs_cons in Ho as [Ho|Ho]; eauto.
Qed.
Lemma sel_bad_or_good : forall s, (exists r, In r (selector_strings s) /\ ~ D (slc r)) \/ good_sel s.
Proof.
  intros s. unfold good_sel. induction (selector_strings s) as [|r l IH]; [right; contradiction|].
  destruct (D_dec (slc r)) as [Hr|Hr]; [|left; exists r; split; [now left|exact Hr]].
  destruct IH as [(x & Hx & HD)|IH]; [left; exists x; split; [now right|exact HD]|right].
  intros x [<-|Hx]; auto.
Qed.
Lemma bad_or_good : forall l, bad_in l \/ good_in l.
Proof.
  assert (HN : forall n sp, bad_in [(sp, n)] \/ good_in [(sp, n)]).
  { induction n as [s t e IH] using a_node_ind'. intros sp.
    assert (bad_in (type_items t) \/ good_in (type_items t)) as [Hb|Hg].
    { apply bad_or_good_list. eapply Forall_impl; [|exact IH]. intros [sp' n'] Hn. apply Hn. }
    - left. destruct Hb as (b & s' & e' & r & Ho & Hr). exists b, s', e', r. split; [|exact Hr].
      eapply occurs_in; [now left|exact Ho].
    - assert ((exists s', t = ANSelector s') \/ (forall s', t <> ANSelector s')) as [(s' & ->)|Ht].
      { destruct t; [right; discriminate|right; discriminate|left; eauto|right; discriminate]. }
      + destruct (sel_bad_or_good s') as [(r & Hr & HD)|Hs].
        * left. exists s, s', e, r. split; [eapply OcHere; now left|auto].
        * right. intros b s0 e0 Ho. apply occurs_one in Ho as [Ho|Ho]; [injection Ho as -> -> ->; exact Hs|eauto].
      + right. intros b s0 e0 Ho. apply occurs_one in Ho as [Ho|Ho]; [|eauto]. injection Ho as _ Ho _. now destruct (Ht s0). }
  intros l. apply bad_or_good_list. apply Forall_forall. intros [sp n] _. apply HN.
Qed.
End B.

(** ** The entry point *)
Theorem unknown_cause : forall parse slice src cfg, convert parse slice src cfg = Some (inr CEUnknown) ->
  (exists c, parse src = inl c /\ bad_in (slice src) (content_items c)) \/
  (exists l, c_lang cfg = Some l /\ ~ D l).
Proof.
  intros parse slice src cfg H. set (e0 := mkErrs false [] [] false).
  assert (errors_new cfg = e0 \/ errors_new cfg = set_ff e0) as HE.
  { unfold errors_new. destruct (c_fail_fast cfg) as [[|]|]; auto. }
  destruct (prepare_cases parse slice src cfg e0 eq_refl) as [(c & d & ns0 & ns & Hp & HA & HT & E1 & E2)|(p & Hp & E1 & E2)].
  - assert (d = [] /\ snd (output_html (slice src) cfg ns) = false) as [-> Hout].
    { unfold convert, convert_to_internal in H. destruct HE as [HE|HE]; rewrite HE in H.
      - rewrite E1 in H. destruct d as [|x d]; [|discriminate]. split; [reflexivity|]. rewrite add_errs_nil in H.
        subst e0. cbn [errors_empty er_syntax er_semantic er_unknown is_nil negb andb orb] in H.
        destruct (output_html (slice src) cfg ns) as [o [|]]; [discriminate|reflexivity].
      - destruct E2 as [[-> E2]|(d1 & d2 & _ & Hn & E2)]; rewrite E2 in H.
        + split; [reflexivity|]. subst e0. cbn [errors_empty er_syntax er_semantic er_unknown is_nil negb andb orb set_ff] in H.
          destruct (output_html (slice src) cfg ns) as [o [|]]; [discriminate|reflexivity].
        + destruct d1; [congruence|discriminate]. }
    destruct (bad_or_good (slice src) (content_items c)) as [Hb|Hg]; [left; eauto|].
    destruct (c_lang cfg) as [l|] eqn:EL.
    + destruct (D_dec l) as [Hl|Hl]; [|right; eauto]. exfalso.
      assert (snd (output_html (slice src) cfg ns) = true); [|congruence].
      apply ok_output. eapply ok_transform; [|  |exact HT]; [intros l' E; rewrite EL in E; now injection E as <-|].
      pose proof (from_ast_ok (slice src) c Hg e0 eq_refl) as HC. rewrite HA in HC.
      destruct HC as (d & Hd & HC). apply HC. destruct d; [reflexivity|]. now apply (f_equal er_syntax) in Hd.
    + exfalso. assert (snd (output_html (slice src) cfg ns) = true); [|congruence].
      apply ok_output. eapply ok_transform; [| |exact HT]; [intros l' E; congruence|].
      pose proof (from_ast_ok (slice src) c Hg e0 eq_refl) as HC. rewrite HA in HC.
      destruct HC as (d & Hd & HC). apply HC. destruct d; [reflexivity|]. now apply (f_equal er_syntax) in Hd.
  - exfalso. unfold convert, convert_to_internal in H. destruct HE as [HE|HE]; rewrite HE in H; rewrite ?E1, ?E2 in H; discriminate.
Qed.

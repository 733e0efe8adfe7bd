(** * The size of the output for every configuration (for C69). *)

From Verif Require Import Base Escape OutText Doc Config Ast Errors Build Infer Transform Output Convert Grammar SpecHtml SpecTree SpecInfer SpecBuild SpecSource SpecTransform SpecErrors SpecWhole SpecLayout
  P_Base P_OutText P_Build P_Grammar P_Infer P_InferProps P_Inside P_Typeset P_Source P_Size P_Size2 P_Size3 PropertiesLayout.
From Coq Require Import Lia.

Local Open Scope nat_scope.
Local Ltac lia := cbn beta in *; Lia.lia.

(** ** Numbers *)
Lemma dec_aux_size : forall k f n acc, (n < 10 ^ N.of_nat k)%N -> length (dec_aux f n acc) <= Nat.max 1 k + length acc.
Proof.
  induction k as [|k IH]; intros f n acc H; (destruct f as [|f]; cbn [dec_aux]; [Lia.lia|]).
  - change (10 ^ N.of_nat 0)%N with 1%N in H. destruct (N.ltb_spec n 10); [cbn [length]; Lia.lia|Lia.lia].
  - destruct (N.ltb_spec n 10); [cbn [length]; Lia.lia|]. rewrite Nat2N.inj_succ, N.pow_succ_r' in H.
    assert (n / 10 < 10 ^ N.of_nat k)%N as Hd by (apply N.div_lt_upper_bound; Lia.lia).
    destruct k as [|k]; [change (10 ^ N.of_nat 0)%N with 1%N in Hd; assert (1 <= n / 10)%N by (apply N.div_le_lower_bound; Lia.lia); Lia.lia|].
    specialize (IH f (n / 10)%N ((48 + n mod 10)%N :: acc) Hd). cbn [length] in IH. Lia.lia.
Qed.
Lemma dec_size : forall n, (n < loc_max)%N -> length (dec n) <= 20.
Proof.
  intros n H. unfold dec. etransitivity; [apply (dec_aux_size 20)|cbn; Lia.lia].
  assert (loc_max < 10 ^ N.of_nat 20)%N by (vm_compute; reflexivity). Lia.lia.
Qed.

Section Meta.
Variable src : str.
Hypothesis src_size : (blen src < loc_max)%N.
Variable slc : lrange -> str.

Lemma located_small : forall r, sliceable src r -> (r_start r < loc_max)%N /\ (r_end r < loc_max)%N.
Proof. intros r (H1 & H2 & _). apply (B_le src src_size) in H1, H2. Lia.lia. Qed.
Lemma meta_attr_size : forall a b loc n v, asz slc a b (meta_attr loc n v) = a + b * (length n + length v).
Proof. reflexivity. Qed.
Lemma range_size : forall a b loc n m r, length n <= 17 -> length m <= 17 -> (valid_range r -> sliceable src r) ->
  list_sum (map (asz slc a b) (add_range loc n m r)) <= 2 * a + 74 * b.
Proof.
  intros a b loc n m r Hn Hm H. unfold add_range. destruct (N.leb_spec (r_start r) (r_end r)) as [HV|]; [|cbn; Lia.lia].
  apply H, located_small in HV as [H1 H2]. apply dec_size in H1, H2. cbn [map]. rewrite !sum_cons, !meta_attr_size. change (list_sum []) with 0. Lia.nia.
Qed.
Lemma true_size : forall a b loc n v, length n <= 17 -> list_sum (map (asz slc a b) (add_true loc n v)) <= a + 21 * b.
Proof.
  intros a b loc n [] Hn; unfold add_true; [|cbn; Lia.lia]. cbn [map]. rewrite sum_cons, meta_attr_size. change (list_sum []) with 0. change (length (L "true")) with 4. Lia.nia.
Qed.
Lemma add_attrs_size : forall a b s loc l, ssz slc a b (add_attrs s loc l) = ssz slc a b s + list_sum (map (asz slc a b) l).
Proof.
  intros a b s loc [|x l]; unfold add_attrs; [cbn; Lia.lia|]. unfold ssz. cbn [s_tag s_items]. unfold issz. rewrite map_app, sum_app. cbn [map isz]. rewrite !sum_cons.
  change (list_sum []) with 0. Lia.lia.
Qed.
(** One selector: at most xmlns, raw, and four positions. *)
Lemma handle_size : forall a b el r e root, length (e_selectors e) <= 1 -> (valid_range r -> sliceable src r) -> (valid_range (e_crange e) -> sliceable src (e_crange e)) ->
  sssz slc a b (e_selectors (handle_element el r e root)) <= sssz slc a b (e_selectors e) + 7 * a + 234 * b /\ e_nodes (handle_element el r e root) = e_nodes e.
Proof.
  intros a b el r e root H1 Hr Hc. unfold handle_element. destruct (_ && _) eqn:EB; [split; [Lia.lia|reflexivity]|]. split; [|reflexivity].
  cbn [e_selectors with_selectors].
  set (sels := match e_selectors e with [] => _ | _ => _ end).
  assert (length sels <= 1 /\ sssz slc a b sels <= sssz slc a b (e_selectors e) + a) as [HL HS].
  { subst sels. destruct (e_selectors e) as [|s l]; [|split; [exact H1|Lia.lia]]. cbn [existsb negb]. split; [cbn; Lia.lia|].
    unfold sssz. cbn [map]. rewrite sum_cons. change (list_sum []) with 0. unfold ssz. cbn [sel_empty s_tag s_items tag_name olen]. cbn. Lia.lia. }
  set (oi := if el then 0 else _).
  assert (oi = 0 \/ sels = []) as HO.
  { subst oi. destruct el; [now left|]. destruct sels as [|s [|? ?]]; [now right| |cbn in HL; Lia.lia]. left. cbn [first_inferred]. destruct (uninferred s); reflexivity. }
  destruct sels as [|s [|? ?]]; [cbn; Lia.lia| |cbn in HL; Lia.lia]. destruct HO as [HO|]; [|discriminate]. rewrite HO.
  cbn [meta_sels]. destruct (uninferred s && negb el); cbn [fst]; [Lia.lia|]. cbn [Nat.eqb].
  set (s' := if uninferred s then _ else s).
  assert (ssz slc a b s' <= ssz slc a b s + 11 * b).
  { subst s'. destruct (uninferred s); [|Lia.lia]. unfold ssz. cbn [s_tag s_items tag_name olen]. unfold slen. cbn [as_str]. change (length (L "mty:element")) with 11. Lia.lia. }
  rewrite sssz_cons, add_attrs_size, !map_app, !sum_app. change (sssz slc a b []) with 0.
  rewrite sssz_cons in HS. change (sssz slc a b []) with 0 in HS.
  pose proof (true_size a b (r_end (s_range s')) a_rawname (e_raw e) ltac:(vm_compute; Lia.lia)).
  pose proof (range_size a b (r_end (s_range s')) a_start a_end r ltac:(vm_compute; Lia.lia) ltac:(vm_compute; Lia.lia) Hr).
  pose proof (range_size a b (r_end (s_range s')) a_content_start a_content_end (e_crange e) ltac:(vm_compute; Lia.lia) ltac:(vm_compute; Lia.lia) Hc).
  assert (list_sum (map (asz slc a b) (if root then [meta_attr (r_end (s_range s')) a_xmlns xmlns_uri] else [])) <= a + 53 * b).
  { destruct root; [|cbn; Lia.lia]. cbn [map]. rewrite sum_cons, meta_attr_size. change (list_sum []) with 0. change (length a_xmlns) with 9. change (length xmlns_uri) with 44. Lia.lia. }
  Lia.lia.
Qed.
Lemma meta_size : forall a b el n root, TreeAll one_sel (fun _ => True) n -> Located src n -> nsz slc a b (meta_node el root n) <= nsz slc (12 * a + 300 * b) b n.
Proof.
  intros a b el. induction n as [r e IH|r t] using node_ind'; intros root HT HL; cbn [meta_node].
  - inversion HT as [r' e' T1 T2|]; subst. inversion HL as [|r' e' L1 L2 L3]; subst. destruct (handle_size a b el r e root T1 L1 L2) as [H1 H2].
    rewrite !nsz_elt. cbn [e_selectors e_nodes with_nodes with_content].
    assert (nssz slc a b (map (meta_node el false) (e_nodes e)) <= nssz slc (12 * a + 300 * b) b (e_nodes e)).
    { unfold nssz. rewrite map_map. apply sum_le. rewrite Forall_forall in *. auto. }
    pose proof (sssz_mono slc a (12 * a + 300 * b) b (e_selectors e) ltac:(Lia.lia)). Lia.lia.
  - assert (nsz slc a b (NTxt r t) <= nsz slc (12 * a + 300 * b) b (NTxt r t)) as HM by (apply nsz_mono; Lia.lia).
    inversion HL as [r' t' L1|]; subst. destruct t as [t|s|s]; [| |exact HM].
    + destruct (el && negb (t_raw t)); [|exact HM]. unfold elt_node. rewrite nsz_elt.
      destruct (handle_size a b el r (text_element r t) root) as [H1 ->]; [cbn; Lia.lia|exact L1|intros HV; now apply P_Meta.not_valid_invalid in HV|].
      cbn [text_element e_nodes]. rewrite nssz_cons. change (nssz slc a b []) with 0. cbn [nsz tsz].
      assert (sssz slc a b (e_selectors (text_element r t)) <= 3 * a + 50 * b); [|Lia.lia].
      cbn [text_element e_selectors]. rewrite sssz_cons, add_attrs_size, map_app, sum_app. change (sssz slc a b []) with 0.
      pose proof (true_size a b (r_start r) a_verbatim (negb (t_unescape_in t)) ltac:(vm_compute; Lia.lia)).
      pose proof (true_size a b (r_start r) a_multiline (t_multiline t) ltac:(vm_compute; Lia.lia)).
      change (ssz slc a b (sel_with_tag (sel_empty (r_start r)) (Provided (L "mty:text")))) with (a + b * 8 + 0). Lia.lia.
    + destruct el; [|exact HM]. unfold elt_node. rewrite nsz_elt.
      destruct (handle_size a b true r (comment_element r s) root) as [H1 ->]; [cbn; Lia.lia|exact L1|exact L1|].
      cbn [comment_element e_nodes]. rewrite nssz_cons. change (nssz slc a b []) with 0. cbn [nsz tsz t_slice comment_text].
      change (sssz slc a b (e_selectors (comment_element r s))) with (a + b * 11 + 0 + 0) in H1. Lia.lia.
Qed.

(** ** The text, with or without indentation *)
Variable xml : bool.
Definition ilen (o : option str) : nat := match o with Some i => length i | None => 0 end.
Definition msz (i : nat) (m : mark) : nat := match m with Ink s _ => length s | SpecLayout.Space w => length w | Break d | Edge d => 1 + i * d end.
Lemma repeat_size : forall (i : str) d, length (concat (repeat i d)) = length i * d.
Proof. intros i. induction d as [|d IH]; cbn [repeat concat]; [cbn; Lia.lia|]. rewrite app_length, IH. Lia.lia. Qed.
Lemma typeset_size : forall ind ms b, length (typeset ind b ms) <= list_sum (map (msz (ilen ind)) ms).
Proof.
  induction ms as [|[s k|w|d|d] ms IH]; intros b; cbn [typeset map]; [cbn; Lia.lia|..]; rewrite sum_cons; cbn [msz].
  - rewrite app_length. specialize (IH k). Lia.lia.
  - specialize (IH true). rewrite app_length. destruct b; cbn [length]; Lia.lia.
  - specialize (IH true). rewrite app_length. destruct b; [cbn [length]; Lia.lia|]. destruct ind as [i|]; cbn [ilen] in *; [rewrite app_length, repeat_size|]; cbn [length]; Lia.lia.
  - destruct ind as [i|]; [|specialize (IH b); cbn [ilen] in *; Lia.lia]. specialize (IH true). rewrite app_length. destruct b; [cbn [length]; Lia.lia|].
    cbn [ilen] in *. rewrite app_length, repeat_size. cbn [length]. Lia.lia.
Qed.
Lemma marks_size : forall i D,
  (forall d own raw n ms, Marks slc xml d own raw n ms -> d + nsz slc 1 0 n <= D -> list_sum (map (msz i) ms) <= nsz slc (21 + 2 * (i * D)) 9 n) /\
  (forall d own raw ns ms, MarksL slc xml d own raw ns ms -> d + nssz slc 1 0 ns <= D -> list_sum (map (msz i) ms) <= nssz slc (21 + 2 * (i * D)) 9 ns).
Proof.
  intros i D. set (A := 21 + 2 * (i * D)).
  assert (forall d, d <= D -> i * d <= i * D) as HD by (intros d Hd; Lia.nia).
  assert (forall sels t s, elt_tag slc sels = Some (t, s) ->
    2 * length t + list_sum (map (fun x => length (attr_text xml x)) (sel_attrs slc xml s)) <= sssz slc A 9 sels) as HT.
  { intros sels t s H. pose proof (elt_tag_size slc xml _ _ _ H). pose proof (sssz_mono slc 19 A 9 sels ltac:(unfold A; Lia.lia)). Lia.lia. }
  apply Marks_both.
  - intros d own raw r t _ _. cbn [map msz]. rewrite sum_cons. change (list_sum []) with 0. cbn [nsz tsz]. pose proof (text_size slc t).
    destruct (written_raw xml raw t); [Lia.lia|]. pose proof (esc_size xml false (text_value slc t)). Lia.lia.
  - intros. cbn [map]. change (list_sum []) with 0. Lia.lia.
  - intros d own raw r s _. cbn [map msz]. rewrite sum_cons. change (list_sum []) with 0. cbn [nsz tsz]. rewrite !app_length.
    change (length (L "<!--")) with 4. change (length (L "-->")) with 3. pose proof (comment_size (as_str slc s)). unfold slen, A. Lia.lia.
  - intros d own raw r s _. cbn [map msz]. rewrite sum_cons. change (list_sum []) with 0. cbn [nsz tsz]. destruct s as [s|]; cbn [space_value length]; unfold slen, A; Lia.lia.
  - intros d own raw r s Hs Hd. assert (nsz slc A 9 (NTxt r (TSpace s)) = A) as -> by (destruct Hs as [-> | ->]; reflexivity).
    cbn [map]. rewrite sum_cons. change (list_sum []) with 0. specialize (HD d ltac:(Lia.lia)). destruct own; cbn [msz length]; unfold A; Lia.lia.
  - intros d own raw r e ms _ _ IH Hd. rewrite nsz_elt in Hd |- *. pose proof (trim_size slc A 9 (e_nodes e)). pose proof (trim_size slc 1 0 (e_nodes e)). specialize (IH ltac:(Lia.lia)). Lia.lia.
  - intros d own raw r e t s Ht _ _ Hd. rewrite nsz_elt. cbn [map msz]. rewrite sum_cons. change (list_sum []) with 0. apply HT in Ht. pose proof (open_size slc xml t s true). unfold A in *. Lia.lia.
  - intros d own raw r e t s ms Ht _ _ _ IH Hd. rewrite nsz_elt in Hd |- *. cbn [map msz]. rewrite sum_cons, map_app, sum_app. apply HT in Ht. pose proof (open_size slc xml t s false).
    pose proof (trim_size slc A 9 (e_nodes e)). pose proof (trim_size slc 1 0 (e_nodes e)). specialize (IH ltac:(Lia.lia)).
    destruct (negb xml && html_void_name t); cbn [map]; [change (list_sum []) with 0|rewrite sum_cons; change (list_sum []) with 0; cbn [msz]; rewrite close_size]; unfold A in *; Lia.lia.
  - intros d own raw r e t s ms Ht _ _ _ IH Hd. rewrite nsz_elt in Hd |- *. cbn [map]. rewrite !sum_cons, map_app, sum_app. cbn [map]. rewrite sum_cons. cbn [msz]. apply HT in Ht. pose proof (open_size slc xml t s false).
    pose proof (trim_size slc A 9 (e_nodes e)). pose proof (trim_size slc 1 0 (e_nodes e)).
    assert (deeper t d <= S d) as Hdp by (unfold deeper; destruct (str_eqb _ _); Lia.lia).
    specialize (IH ltac:(Lia.lia)). pose proof (HD d ltac:(Lia.lia)). pose proof (HD (deeper t d) ltac:(Lia.lia)).
    destruct (negb xml && html_void_name t); cbn [map]; [change (list_sum []) with 0|rewrite sum_cons; change (list_sum []) with 0; cbn [msz]; rewrite close_size]; unfold A in *; Lia.lia.
  - intros. cbn [map]. change (list_sum []) with 0. Lia.lia.
  - intros d own raw n ns ms ms' _ IH1 _ IH2 Hd. rewrite nssz_cons in Hd |- *. rewrite map_app, sum_app. specialize (IH1 ltac:(Lia.lia)). specialize (IH2 ltac:(Lia.lia)). Lia.lia.
Qed.

(** ** All transforms *)
Definition name_len (o : option str) : nat := match o with Some s => length s | None => 0 end.
Definition names_len (sp : special_tags) : nat :=
  name_len (st_emphasis sp) + name_len (st_strong sp) + name_len (st_underline sp) + name_len (st_strike sp) + name_len (st_quote sp) + name_len (st_code sp) + name_len (st_code_block_container sp).
Lemma special_name_len : forall sp k, length (special_tag_name sp k) <= 6 + names_len sp.
Proof.
  intros sp k. unfold names_len. destruct k; cbn [special_tag_name]; unfold or_name;
    match goal with |- context [match ?o with Some _ => _ | None => _ end] => destruct o end; cbn [name_len];
    match goal with |- context [L ?x] => change (length (L x)) with (length (L x)); let n := eval vm_compute in (length (L x)) in change (length (L x)) with n; Lia.lia | _ => Lia.lia end.
Qed.
Lemma transform_size : forall a b cfg cr ns out, (forall ns', transform_document slc (mkConfig None None (c_special cfg) (c_complete_page cfg) None None None) cr ns = Some ns' ->
    Forall (Located src) ns') ->
  transform_document slc cfg cr ns = Some out ->
  let l := lang_len (c_lang cfg) in let M := 6 + names_len (c_special cfg) in
  let a1 := 2 * a + b * (4 + l) in let a2 := 12 * a1 + 300 * b in let a3 := 2 * a2 + 8 * b in let a4 := 3 * a3 + 2 * (b * M) in
  nssz slc a b out <= nssz slc a4 b ns + 7 * a3 + 12 * b.
Proof.
  intros a b cfg cr ns out HL H l M a1 a2 a3 a4. unfold transform_document in *. cbn [c_special c_complete_page c_metadata c_lang] in HL.
  set (ns1 := map (special_node (c_special cfg)) ns) in *. set (ns2 := match c_complete_page cfg with Some true => complete_page slc cr ns1 | _ => ns1 end) in *.
  destruct (infer slc ns2) as [ns3|] eqn:EI; [|discriminate]. specialize (HL _ eq_refl). cbn [apply_lang] in HL. injection H as <-.
  pose proof (infer_single slc _ _ EI) as HS.
  etransitivity; [apply lang_size|]. fold l a1.
  assert (nssz slc a1 b match c_metadata cfg with Some el => map (meta_node el true) ns3 | None => ns3 end <= nssz slc a2 b ns3) as H1.
  { destruct (c_metadata cfg) as [el|]; [|apply nssz_mono; unfold a2; Lia.lia]. unfold nssz. rewrite map_map. apply sum_le. intros n Hn. rewrite Forall_forall in HL, HS. apply meta_size; auto. }
  pose proof (infer_size slc a2 b _ _ EI) as H2. fold a3 in H2.
  assert (nssz slc a3 b ns2 <= nssz slc a3 b ns1 + 7 * a3 + 12 * b) as H3.
  { unfold ns2. destruct (c_complete_page cfg) as [[]|]; [apply page_size|Lia.lia|Lia.lia]. }
  pose proof (specials_size slc a3 b M (c_special cfg) ns (special_name_len _)) as H4. fold ns1 a4 in H4. Lia.lia.
Qed.
End Meta.

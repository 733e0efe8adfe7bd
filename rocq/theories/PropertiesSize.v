(** * Property theorems about the size of the output: C69. *)

From Verif Require Import Base Doc Config Ast Errors Build Transform Convert Output Parser SpecMarkup SpecHtml SpecTree SpecSource SpecWhole SpecLayout SpecErrors SpecTransform SpecSize Grammar
  P_Base P_Layout P_Typeset P_Inside P_Size P_Size2 P_Size3 P_Size4 PropertiesLayout PropertiesParser.
From Coq Require Import Lia.

Lemma length_blen : forall s : str, (length s <= N.to_nat (blen s) <= 4 * length s)%nat.
Proof.
  induction s as [|c s IH]; [cbn; lia|]. change (c :: s) with ([c] ++ s). rewrite blen_app, app_length.
  assert (1 <= blen [c] <= 4)%N; [|cbn [length]; lia].
  unfold blen. cbn [fold_right map]. unfold utf8_len. repeat destruct (_ <? _)%N; repeat destruct (_ <=? _)%N; lia.
Qed.
Lemma opt_len : forall o, (match o with Some s => length s | None => 0 end <= N.to_nat (opt_size o))%nat.
Proof. intros [s|]; cbn [opt_size]; [apply length_blen|lia]. Qed.

(** ** C69: the size of the output is bounded by the size of the source and of the options. *)
Theorem C69_size : forall alnum parse src cfg out, reads alnum parse src -> blen src < loc_max ->
  convert parse source_slice src cfg = Some (inl out) ->
  blen out <= (600000 * (1 + names_size cfg) + 6000000 * opt_size (c_indent cfg) * (1 + blen src)) * (1 + blen src).
Proof.
  intros alnum parse src cfg out HR HB H. pose proof H as H0. apply C67_layout in H0 as (ns & ms & HD & HM & HO).
  specialize (HO (c_indent cfg)). replace (with_indent cfg (c_indent cfg)) with cfg in HO by (destruct cfg; reflexivity).
  match type of HO with _ = Some (inl ?x) => assert (out = x) as -> by (rewrite HO in H; now injection H) end. clear H HO.
  destruct HD as (c & tree & EP & EB & ET).
  assert (forall ns', transform_document (source_slice src) (mkConfig None None (c_special cfg) (c_complete_page cfg) None None None) (mkR (ct_start c) (ct_end c)) tree = Some ns' ->
    Forall (Located src) ns') as HL.
  { intros ns' E. eapply (document_located alnum parse src _ [] ns' HB HR). exists c, tree. split; [exact EP|]. split; [exact EB|exact E]. }
  pose proof (transform_size src HB (source_slice src) 1 0 cfg _ _ _ HL ET) as HD. cbv zeta in HD.
  set (i := ilen (c_indent cfg)). set (D := nssz (source_slice src) 1 0 (trim_spaces ns)).
  pose proof (proj2 (marks_size src HB (source_slice src) (is_xml cfg) i D) _ _ _ _ _ HM (le_n _)) as HS.
  pose proof (transform_size src HB (source_slice src) (21 + 2 * (i * D)) 9 cfg _ _ _ HL ET) as HT. cbv zeta in HT.
  pose proof (trim_size (source_slice src) (21 + 2 * (i * D)) 9 ns) as HS1. pose proof (trim_size (source_slice src) 1 0 ns) as HS2. fold D in HS2.
  unfold reads in HR. rewrite EP in HR. pose proof (document_w src alnum c HR) as HW.
  pose proof (tree_size (source_slice src) (slice_wd src alnum) _ _ _ EB) as HTS.
  pose proof (typeset_size src HB (c_indent cfg) (ms ++ [Edge 0]) true) as HY. rewrite map_app, sum_app in HY. fold i in HY.
  change (list_sum (map (msz i) [Edge 0])) with (1 + i * 0 + 0)%nat in HY.
  set (o := (if match c_complete_page cfg with Some b => b | None => false end then L "<!DOCTYPE html>" ++ [10] else [])).
  assert (length o <= 16)%nat as Ho by (subst o; destruct (c_complete_page cfg) as [[]|]; vm_compute; lia).
  pose proof (length_blen (o ++ typeset (c_indent cfg) true (ms ++ [Edge 0]))) as [_ Hout]. rewrite app_length in Hout.
  assert (lang_len (c_lang cfg) + names_len (c_special cfg) <= N.to_nat (names_size cfg))%nat as HN.
  { unfold names_size, names_len, lang_len, name_len. pose proof (opt_len (c_lang cfg)). pose proof (opt_len (st_emphasis (c_special cfg))).
    pose proof (opt_len (st_strong (c_special cfg))). pose proof (opt_len (st_underline (c_special cfg))). pose proof (opt_len (st_strike (c_special cfg))).
    pose proof (opt_len (st_quote (c_special cfg))). pose proof (opt_len (st_code (c_special cfg))). pose proof (opt_len (st_code_block_container (c_special cfg))). lia. }
  assert (i <= N.to_nat (opt_size (c_indent cfg)))%nat as Hi by apply opt_len.
  assert (forall a, (9 <= a -> nssz (source_slice src) a 9 tree <= a * nssz (source_slice src) 1 1 tree)%nat) as HA.
  { intros a Ha. unfold nssz. clear - Ha. induction tree as [|n l IH]; [cbn; lia|]. cbn [map]. rewrite !sum_cons. pose proof (scale (source_slice src) a 9 Ha n). lia. }
  assert (forall a, (nssz (source_slice src) a 0 tree <= a * nssz (source_slice src) 1 1 tree)%nat) as HA0.
  { intros a. unfold nssz. clear. induction tree as [|n l IH]; [cbn; lia|]. cbn [map]. rewrite !sum_cons. pose proof (scale (source_slice src) a 0 ltac:(lia) n). lia. }
  pose proof (HA0 144%nat) as HD1. set (T := nssz (source_slice src) 1 1 tree) in *. set (B := N.to_nat (blen src)) in *.
  set (l := lang_len (c_lang cfg)) in *. set (nm := names_len (c_special cfg)) in *.
  assert (D <= 864 * (1 + B))%nat as HDD.
  { etransitivity; [exact HS2|]. etransitivity; [exact HD|]. etransitivity; [apply Nat.add_le_mono_r, Nat.add_le_mono_r; eapply Nat.le_trans; [|exact HD1]; apply nssz_mono; lia|]. lia. }
  set (X := (i * D)%nat) in *. set (a4 := (144 * (21 + 2 * X) + 4 * 4779 + 648 * l + 18 * nm)%nat).
  assert (nssz (source_slice src) (21 + 2 * X) 9 ns <= a4 * (T + 3))%nat as HF.
  { etransitivity; [exact HT|]. specialize (HA a4 ltac:(unfold a4; lia)).
    match goal with |- (nssz _ ?z 9 tree + _ + _ <= _)%nat => replace z with a4 by (unfold a4; lia) end. unfold a4 in *. lia. }
  assert (a4 * (T + 3) <= a4 * (6 * (1 + B)))%nat as HG by (apply Nat.mul_le_mono_l; lia).
  assert (X <= i * (864 * (1 + B)))%nat as HX by (apply Nat.mul_le_mono_l; exact HDD).
  assert (N.to_nat (blen (o ++ typeset (c_indent cfg) true (ms ++ [Edge 0]))) <= 4 * (17 + a4 * (6 * (1 + B))))%nat as HZ by lia.
  apply (N.le_trans _ (4 * (17 + N.of_nat a4 * (6 * (1 + blen src))))%N); [unfold B in HZ; lia|].
  assert (N.of_nat a4 <= 144 * (21 + 2 * (opt_size (c_indent cfg) * (864 * (1 + blen src)))) + 19116 + 648 * names_size cfg)%N as HQ.
  { unfold a4. assert (N.of_nat X <= opt_size (c_indent cfg) * (864 * (1 + blen src)))%N; [|lia].
    apply (N.le_trans _ (N.of_nat i * (864 * (1 + blen src)))%N); [unfold B in HX; lia|]. apply N.mul_le_mono_r. lia. }
  clearbody a4. clear - HQ. generalize dependent (N.of_nat a4). generalize (opt_size (c_indent cfg)) (names_size cfg) (blen src). intros i l b a HQ.
  apply (N.mul_le_mono_r _ _ (1 + b)) in HQ.
  replace ((144 * (21 + 2 * (i * (864 * (1 + b)))) + 19116 + 648 * l) * (1 + b))%N with (22140 * (1 + b) + 248832 * (i * (1 + b) * (1 + b)) + 648 * (l * (1 + b)))%N in HQ by lia.
  replace ((600000 * (1 + l) + 6000000 * i * (1 + b)) * (1 + b))%N with (600000 * (1 + b) + 600000 * (l * (1 + b)) + 6000000 * (i * (1 + b) * (1 + b)))%N by lia.
  lia.
Qed.
Print Assumptions C69_size.

(** Sixteen bytes become eighty-three: every [>] starts an element of its own, and names, language
    and indentation are copied from the options. *)
Example C69_example :
  let cfg := mkConfig (Some (L "    ")) None (mkSpecial (Some (L "emphasis")) None None None None None None) None (Some (L "en")) None None in
  let parse := parser is_ascii_alnum (fun _ => mkPE 0 [] []) in
  let src := L "a {" ++ [10] ++ L "b>>> </&/>" ++ [10] ++ L "}" in
  let out := L "<a lang=""en"">" ++ [10] ++ L "    <b><span><span><emphasis>&amp;</emphasis></span></span></b>" ++ [10] ++ L "</a>" ++ [10] in
  reads is_ascii_alnum parse src /\ blen src < loc_max /\ convert parse source_slice src cfg = Some (inl out) /\
  blen src = 16 /\ blen out = 83.
Proof. split; [apply C50_readings; exists [], (L "a {" ++ [10] ++ L "b>>> </&/>" ++ [10] ++ L "}"); repeat split|]. repeat split; vm_compute; reflexivity. Qed.

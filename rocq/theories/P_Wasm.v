(** * The JavaScript package: proofs. *)

From Coq Require Import ZArith Lia.
From Verif Require Import Base Doc Config Ast Errors Convert Display SpecSource SpecErrors Wasm SpecWasm P_Convert P_Errors PropertiesConvert PropertiesError.

(** ** Strings *)
Lemma from_js_ascii : forall s, Forall (fun c => c < 128) s -> from_js s = s.
Proof.
  induction 1 as [|c s Hc _ IH]; [reflexivity|]. cbn [from_js]. unfold surrogate_high, surrogate_low.
  rewrite (proj2 (N.leb_gt 55296 c)), (proj2 (N.leb_gt 56320 c)) by lia. cbn [andb]. now rewrite IH.
Qed.
Lemma from_to_js : forall s, Forall (fun c => is_scalar c = true) s -> from_js (to_js s) = s.
Proof.
  induction 1 as [|c s Hc _ IH]; [reflexivity|]. change (to_js (c :: s)) with (to_units c ++ to_js s).
  remember (to_js s) as rest. unfold to_units. clear Heqrest. unfold is_scalar in Hc. destruct (c <? 65536) eqn:E.
  - apply N.ltb_lt in E. cbn [app from_js]. rewrite IH. unfold surrogate_high, surrogate_low.
    destruct (55296 <=? c) eqn:E1, (c <=? 56319) eqn:E2, (56320 <=? c) eqn:E3, (c <=? 57343) eqn:E4; cbn [andb]; try reflexivity;
      exfalso; rewrite ?N.leb_le, ?N.leb_gt in *; rewrite ?Bool.orb_true_iff, ?Bool.andb_true_iff, ?N.leb_le, ?N.ltb_lt in Hc; lia.
  - apply N.ltb_ge in E.
    assert (Hm : c <= 1114111) by (rewrite ?Bool.orb_true_iff, ?Bool.andb_true_iff, ?N.leb_le, ?N.ltb_lt in Hc; lia).
    assert (Hd : (c - 65536) / 1024 < 1024) by (apply N.div_lt_upper_bound; lia).
    assert (Hr : (c - 65536) mod 1024 < 1024) by (apply N.mod_lt; lia).
    pose proof (N.div_mod (c - 65536) 1024 ltac:(lia)) as Hdm.
    remember ((c - 65536) / 1024) as h. remember ((c - 65536) mod 1024) as l.
    cbn [app from_js]. unfold surrogate_high, surrogate_low.
    rewrite !(proj2 (N.leb_le _ _)) by lia. cbn [andb]. rewrite IH. f_equal. lia.
Qed.

(** ** Options *)
Lemma indent_ok : forall n, (Z.of_nat n < 2147483648)%Z -> to_i32 (Finite (Z.of_nat n) 1) = Z.of_nat n.
Proof.
  intros n H. unfold to_i32. rewrite Z.quot_1_r. rewrite Z.mod_small by lia. now rewrite (proj2 (Z.ltb_lt _ _) H).
Qed.
Lemma name_ok : forall v n, wants_name v n -> exists x, v = inl x /\ as_string x = n.
Proof. intros v n []; eauto. Qed.
Lemma tags_ok : forall v t cfg, wants_tags v t ->
  get_special_tags (mkConfig None (c_xml cfg) special_default (c_complete_page cfg) None None (c_fail_fast cfg)) v
  = inl (mkConfig None (c_xml cfg) t (c_complete_page cfg) None None (c_fail_fast cfg)).
Proof.
  intros v t cfg [|get [? ? ? ? ? ? ?] H1 H2 H3 H4 H5 H6 H7]; [reflexivity|]. cbn [Config.st_emphasis Config.st_strong Config.st_underline Config.st_strike Config.st_quote Config.st_code Config.st_code_block_container] in *.
  apply name_ok in H1, H2, H3, H4, H5, H6, H7. unfold get_special_tags.
  destruct H1 as (? & -> & ->), H2 as (? & -> & ->), H3 as (? & -> & ->), H4 as (? & -> & ->), H5 as (? & -> & ->), H6 as (? & -> & ->), H7 as (? & -> & ->).
  reflexivity.
Qed.
Definition js_indent (o : js_options) : js_number := match jo_indent o with Some n => n | None => Finite (-1) 1 end.
Lemma config_ok : forall o cfg, requests o cfg ->
  wasm_config (jo_xml o) (to_i32 (js_indent o)) (jo_complete_page o) (jo_special_tags o) (jo_metadata o) (jo_fail_fast o) = inl cfg.
Proof.
  intros o [ind xml sp page lang meta ff] (H1 & H2 & H3 & H4 & H5 & H6 & H7). cbn [c_indent c_xml c_special c_complete_page c_lang c_metadata c_fail_fast] in *.
  subst. unfold wasm_config. pose proof (tags_ok _ _ (mkConfig None (jo_xml o) sp (jo_complete_page o) None None (jo_fail_fast o)) H2) as E.
  cbn [c_xml c_complete_page c_fail_fast] in E. rewrite E. cbn [c_indent c_xml c_special c_complete_page c_lang c_metadata c_fail_fast].
  assert (EI : (if (0 <=? to_i32 (js_indent o))%Z then Some (repeat 32 (Z.to_nat (to_i32 (js_indent o)))) else None) = ind).
  { unfold js_indent. destruct H1 as [|n Hn]; [reflexivity|]. rewrite (indent_ok n Hn). rewrite (proj2 (Z.leb_le _ _)) by lia. now rewrite Nat2Z.id. }
  rewrite EI. destruct H3 as [| |get b Hb]; cbn [is_truthy]; try reflexivity. now rewrite Hb.
Qed.

(** ** Results *)
Section Results.
Variable parse : str -> a_content + parse_error.
Variable slice : str -> lrange -> str.
Variable debug show : str -> str.

Lemma result_ok : forall o cfg source, requests o cfg ->
  wasm_convert parse slice debug show source (jo_xml o) (js_indent o) (jo_complete_page o) (jo_special_tags o) (jo_metadata o) (jo_fail_fast o)
  = match convert_forgiving parse slice (from_js source) cfg with
    | Some (inl out) => Some (mkJR true (Some (to_js out)) None)
    | Some (inr (out, e)) => Some (mkJR false (opt_map to_js out) (Some (to_js_error slice debug show (from_js source) e)))
    | None => None
    end.
Proof. intros o cfg source H. unfold wasm_convert. now rewrite (config_ok _ _ H). Qed.

Lemma forgiving_ok : forall o cfg source, requests o cfg ->
  js_convert_forgiving parse slice debug show o source
  = match convert_forgiving parse slice (from_js source) cfg with
    | Some (inl out) => Some (mkJR true (Some (to_js out)) None)
    | Some (inr (out, e)) => Some (mkJR false (opt_map to_js out)
         (Some (match to_js_error slice debug show (from_js source) e with
                | JErrors _ l => JErrors (Some (join [10] (map unexpected l))) l
                | x => x end)))
    | None => None
    end.
Proof.
  intros o cfg source H. unfold js_convert_forgiving. fold (js_indent o). rewrite (result_ok _ _ _ H).
  destruct (convert_forgiving _ _ _ _) as [[out|[out e]]|]; try reflexivity.
  now destruct (to_js_error _ _ _ _ e).
Qed.
End Results.

Lemma ascii_blen : forall s, Forall (fun c => c < 128) s -> blen s = N.of_nat (length s).
Proof.
  induction 1 as [|c s Hc _ IH]; [reflexivity|]. cbn [blen length]. rewrite IH. unfold utf8_len. rewrite (proj2 (N.ltb_lt c 128) Hc). lia.
Qed.
Lemma js_slice_ascii : forall s r m, Forall (fun c => c < 128) s -> SliceOf s r m -> js_slice s (r_start r) (r_end r) = m.
Proof.
  intros s r m H (a & b & -> & Ha & Hb). apply Forall_app in H. destruct H as [H1 H2]. apply Forall_app in H2. destruct H2 as [H2 _].
  apply ascii_blen in H1, H2. unfold js_slice. replace (N.to_nat (r_start r)) with (length a) by lia.
  replace (N.to_nat (r_end r - r_start r)) with (length m) by lia.
  rewrite skipn_app, skipn_all, Nat.sub_diag. cbn [skipn app]. rewrite firstn_app, firstn_all, Nat.sub_diag. cbn [firstn]. apply app_nil_r.
Qed.

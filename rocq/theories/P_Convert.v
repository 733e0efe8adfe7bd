(** * The entry points: totality, strict against forgiving, fail-fast. *)

From Verif Require Import Base Doc Config Ast Errors Build Infer Transform Output Convert P_Base P_Build P_Infer P_Meta.

Definition with_fail_fast (c : config) (b : option bool) : config :=
  mkConfig (c_indent c) (c_xml c) (c_special c) (c_complete_page c) (c_lang c) (c_metadata c) b.

Section P.
Variable parse : str -> a_content + parse_error.
Variable slice : str -> lrange -> str.

Lemma transform_some : forall slc cfg cr ns, exists out, transform_document slc cfg cr ns = Some out.
Proof.
  intros slc cfg cr ns. unfold transform_document.
  set (ns0 := match c_complete_page cfg with Some true => _ | _ => _ end).
  assert (exists ns1, infer slc ns0 = Some ns1) as (ns1 & ->) by (eexists; apply infer_resolves). eauto.
Qed.

Lemma prepare_cases : forall src cfg e, er_fail_fast e = false ->
  (exists c d ns0 ns, parse src = inl c /\
     from_ast (slice src) c e = (add_errs e d, Ok ns0) /\
     transform_document (slice src) cfg (mkR (ct_start c) (ct_end c)) ns0 = Some ns /\
     prepare parse slice src cfg e = (add_errs e d, Ok ns) /\
     ((d = [] /\ prepare parse slice src cfg (set_ff e) = (set_ff e, Ok ns)) \/
      (exists d1 d2, d = d1 ++ d2 /\ d1 <> [] /\
         prepare parse slice src cfg (set_ff e) = (set_ff (add_errs e d1), Fail)))) \/
  (exists p, parse src = inr p /\
     prepare parse slice src cfg e = (add_errs e [parse_failed p], Fail) /\
     prepare parse slice src cfg (set_ff e) = (set_ff (add_errs e [parse_failed p]), Fail)).
Proof.
  intros src cfg e He. unfold prepare, document_parse. destruct (parse src) as [c|p].
  - left. pose proof (from_ast_total (slice src) c e He) as HT. pose proof (from_ast_ff (slice src) c e He) as HF.
    destruct (from_ast (slice src) c e) as [e1 [ns0| |]] eqn:E; [|contradiction|discriminate].
    destruct HF as (d & -> & HF). clear HT.
    destruct (transform_some (slice src) cfg (mkR (ct_start c) (ct_end c)) ns0) as (ns & ET).
    exists c, d, ns0, ns. split; [reflexivity|]. split; [exact E|]. split; [exact ET|].
    unfold bind. rewrite E. unfold ret. rewrite ET. split; [reflexivity|].
    destruct HF as [[-> HF]|(d1 & d2 & -> & Hn & HF)]; rewrite HF.
    + left. split; [reflexivity|]. now rewrite ET.
    + right. eauto.
  - right. exists p. split; [reflexivity|]. unfold bind, syntax. rewrite He. cbn [andb].
    split; [unfold add_errs; now rewrite He|]. unfold set_ff. cbn [er_fail_fast er_syntax er_semantic er_unknown andb].
    now destruct (_ <? _)%nat.
Qed.

Lemma internal_total : forall src cfg forgive, convert_to_internal parse slice src cfg forgive <> None.
Proof.
  intros src cfg forgive. unfold convert_to_internal.
  set (e0 := mkErrs false [] [] false).
  assert (errors_new cfg = e0 \/ errors_new cfg = set_ff e0) as HE.
  { unfold errors_new. destruct (c_fail_fast cfg) as [[|]|]; auto. }
  destruct (prepare_cases src cfg e0 eq_refl) as [(c & d & ns0 & ns & _ & _ & _ & E1 & E2)|(p & _ & E1 & E2)].
  - destruct HE as [-> | ->].
    + rewrite E1. destruct (_ || _); [|discriminate]. destruct (output_html _ _ _). discriminate.
    + destruct E2 as [[_ ->]|(d1 & d2 & _ & _ & ->)]; [|discriminate].
      destruct (_ || _); [|discriminate]. destruct (output_html _ _ _). discriminate.
  - destruct HE as [-> | ->]; rewrite ?E1, ?E2; discriminate.
Qed.

Lemma convert_error_unknown : forall e, errors_empty e = false ->
  er_semantic e = [] -> er_unknown e = false ->
  exists l, to_convert_error e = Some (CESyntax l) /\ to_convert_error (fst (unknown e)) = Some (CESyntax l).
Proof.
  intros [ff s se u] H Hs Hu. cbn in Hs, Hu. subst se u. unfold errors_empty in H. cbn in H.
  destruct s as [|x s]; [discriminate|]. exists (x :: s). split; reflexivity.
Qed.

(** The errors of [prepare] are syntax errors only. *)
Lemma prepare_syntax_only : forall src cfg e r, prepare parse slice src cfg (errors_new cfg) = (e, r) ->
  er_semantic e = [] /\ er_unknown e = false.
Proof.
  intros src cfg e r H. set (e0 := mkErrs false [] [] false).
  assert (errors_new cfg = e0 \/ errors_new cfg = set_ff e0) as HE.
  { unfold errors_new. destruct (c_fail_fast cfg) as [[|]|]; auto. }
  destruct (prepare_cases src cfg e0 eq_refl) as [(c & d & ns0 & ns & _ & _ & _ & E1 & E2)|(p & _ & E1 & E2)].
  - destruct HE as [HE|HE]; rewrite HE in H.
    + rewrite E1 in H. injection H as <- _. split; reflexivity.
    + destruct E2 as [[_ E2]|(d1 & d2 & _ & _ & E2)]; rewrite E2 in H; injection H as <- _; split; reflexivity.
  - destruct HE as [HE|HE]; rewrite HE in H; rewrite ?E1, ?E2 in H; injection H as <- _; split; reflexivity.
Qed.

Theorem strict_forgiving : forall src cfg,
  exists out werr, convert_to parse slice src cfg = Some (out, werr) /\
  match convert parse slice src cfg with
  | Some (inl t) => t = out /\ werr = None
  | Some (inr err) => werr = Some err
  | None => False
  end /\
  convert_forgiving parse slice src cfg =
    Some (match werr with
          | None => inl out
          | Some err => inr (if is_nil out then None else Some out, err)
          end).
Proof.
  intros src cfg. unfold convert_to, convert, convert_forgiving, convert_to_internal.
  pose proof (internal_total src cfg true) as HT. unfold convert_to_internal in HT.
  destruct (prepare parse slice src cfg (errors_new cfg)) as [e r] eqn:E.
  destruct (prepare_syntax_only _ _ _ _ E) as [Hs Hu].
  destruct r as [ns| |].
  - rewrite orb_true_r, orb_false_r. destruct (output_html (slice src) cfg ns) as [o ok] eqn:EO.
    exists o, (to_convert_error (if ok then e else fst (unknown e))). split; [reflexivity|].
    destruct (errors_empty e) eqn:EE.
    + split; [destruct (to_convert_error _); auto|]. destruct (to_convert_error _), o; reflexivity.
    + destruct (convert_error_unknown e EE Hs Hu) as (l & E1 & E2). rewrite E1.
      assert (to_convert_error (if ok then e else fst (unknown e)) = Some (CESyntax l)) as ->
        by (destruct ok; assumption).
      split; [reflexivity|]. destruct o; reflexivity.
  - exists [], (to_convert_error e). split; [reflexivity|]. split; destruct (to_convert_error e); auto.
  - exfalso. now apply HT.
Qed.

(** Errors in one list, for comparison. *)
Inductive err_prefix : convert_error -> convert_error -> Prop :=
| EpSyntax : forall l d, l <> [] -> err_prefix (CESyntax l) (CESyntax (l ++ d))
| EpUnknown : err_prefix CEUnknown CEUnknown.

Lemma prepare_ff : forall src cfg b e, prepare parse slice src (with_fail_fast cfg b) e = prepare parse slice src cfg e.
Proof. reflexivity. Qed.
Lemma output_ff : forall slc cfg b ns, output_html slc (with_fail_fast cfg b) ns = output_html slc cfg ns.
Proof. reflexivity. Qed.

Theorem fail_fast_strict : forall src cfg b, b <> Some true ->
  match convert parse slice src (with_fail_fast cfg (Some true)), convert parse slice src (with_fail_fast cfg b) with
  | Some (inl t), Some (inl t') => t = t'
  | Some (inr e), Some (inr e') => err_prefix e e'
  | _, _ => False
  end.
Proof.
  intros src cfg b Hb. unfold convert, convert_to_internal. rewrite !prepare_ff.
  assert (errors_new (with_fail_fast cfg b) = mkErrs false [] [] false) as ->.
  { unfold errors_new. cbn [with_fail_fast c_fail_fast]. destruct b as [[|]|]; congruence. }
  assert (errors_new (with_fail_fast cfg (Some true)) = set_ff (mkErrs false [] [] false)) as -> by reflexivity.
  set (e0 := mkErrs false [] [] false).
  destruct (prepare_cases src cfg e0 eq_refl) as [(c & d & ns0 & ns & _ & _ & _ & E1 & E2)|(p & _ & E1 & E2)].
  - rewrite E1. destruct E2 as [[-> E2]|(d1 & d2 & -> & Hn & E2)]; rewrite E2.
    + rewrite add_errs_nil. subst e0. cbn [errors_empty er_syntax er_semantic er_unknown is_nil negb andb orb set_ff].
      destruct (output_html (slice src) cfg ns) as [o ok] eqn:EO.
      rewrite !output_ff, EO. destruct ok; cbn; [reflexivity|constructor].
    + subst e0. destruct d1 as [|x d1]; [congruence|]. cbn. now apply (EpSyntax (x :: d1) d2).
  - rewrite E1, E2. cbn. now apply (EpSyntax [parse_failed p] []).
Qed.
End P.

Theorem strict_forgiving_all : forall parse slice src cfg,
  (forall t, convert parse slice src cfg = Some (inl t) <-> convert_forgiving parse slice src cfg = Some (inl t)) /\
  (forall err, convert parse slice src cfg = Some (inr err) <->
     exists o, convert_forgiving parse slice src cfg = Some (inr (o, err))) /\
  convert parse slice src cfg <> None /\
  (forall t, convert parse slice src cfg = Some (inl t) -> convert_to parse slice src cfg = Some (t, None)) /\
  (forall o err, convert_forgiving parse slice src cfg = Some (inr (o, err)) ->
     exists written, convert_to parse slice src cfg = Some (written, Some err) /\
       match o with None => written = [] | Some t => t = written /\ written <> [] end).
Proof.
  intros parse slice src cfg. destruct (strict_forgiving parse slice src cfg) as (out & werr & E1 & E2 & ->).
  rewrite E1. destruct (convert parse slice src cfg) as [[t|err]|] eqn:EC; [| |contradiction].
  - destruct E2 as [-> ->]. repeat split; try discriminate.
    + intros H. injection H as ->. reflexivity.
    + intros H. injection H as ->. reflexivity.
    + intros (o & H). discriminate.
    + intros t H. injection H as ->. reflexivity.
  - subst werr. repeat split; try discriminate.
    + intros H. injection H as ->. eauto.
    + intros (o & H). injection H as _ ->. reflexivity.
    + intros o err' H. exists out. injection H as <- <-. split; [reflexivity|].
      destruct out; cbn; [reflexivity|split; [reflexivity|discriminate]].
Qed.

Theorem fail_fast_all : forall parse slice src cfg b, b <> Some true ->
  let fast := convert parse slice src (with_fail_fast cfg (Some true)) in
  let slow := convert parse slice src (with_fail_fast cfg b) in
  (forall t, fast = Some (inl t) <-> slow = Some (inl t)) /\
  (forall err, fast = Some (inr err) -> exists err', slow = Some (inr err') /\
     ((exists l more, l <> [] /\ err = CESyntax l /\ err' = CESyntax (l ++ more)) \/
      (err = CEUnknown /\ err' = CEUnknown))) /\
  (forall err', slow = Some (inr err') -> exists err, fast = Some (inr err)).
Proof.
  intros parse slice src cfg b Hb fast slow. pose proof (fail_fast_strict parse slice src cfg b Hb) as H.
  fold fast slow in H. destruct fast as [[t|err]|], slow as [[t'|err']|]; try contradiction.
  - subst t'. repeat split; try discriminate; auto.
  - repeat split; try discriminate; eauto. intros x Hx. injection Hx as <-. exists err'. split; [reflexivity|].
    destruct H as [l d Hl|]; [left; exists l, d; auto|right; auto].
Qed.

(** * Proofs about OutText.v against SpecMarkup.v *)
From Coq Require Import ZifyBool ZifyNat ZifyN.
From Verif Require Import Base Escape OutText SpecMarkup P_Base.

(** ** Decimal numbers *)
Lemma dec_digits_spec : forall s v,
  Forall (fun c => 48 <= c <= 57) s ->
  dec_digits v s = Some (fold_left (fun a c => 10 * a + (c - 48)) s v).
Proof.
  induction s as [|c s IH]; intros v H; cbn [dec_digits fold_left]; [reflexivity|].
  inversion H; subst. replace ((48 <=? c) && (c <=? 57)) with true by lia. auto.
Qed.

Lemma dec_aux_spec : forall f n acc, n < 10 ^ N.of_nat f ->
  (Forall (fun c => 48 <= c <= 57) acc -> Forall (fun c => 48 <= c <= 57) (dec_aux f n acc)) /\
  fold_left (fun a c => 10 * a + (c - 48)) (dec_aux f n acc) 0 =
  fold_left (fun a c => 10 * a + (c - 48)) acc n.
Proof.
  induction f as [|f IH]; intros n acc Hn.
  - cbn [dec_aux]. change (10 ^ N.of_nat 0) with 1 in Hn. split; [auto|].
    now replace n with 0 by lia.
  - cbn [dec_aux].
    assert (n mod 10 < 10) as Hm by (apply N.mod_lt; lia).
    destruct (N.ltb_spec n 10) as [Hl|Hl].
    + split.
      * intros H. constructor; [|exact H]. lia.
      * cbn [fold_left]. f_equal. rewrite N.mod_small by lia. lia.
    + assert (n / 10 < 10 ^ N.of_nat f) as Hd.
      { apply N.div_lt_upper_bound; [lia|].
        replace (10 * 10 ^ N.of_nat f) with (10 ^ N.of_nat (S f)); [exact Hn|].
        rewrite Nat2N.inj_succ, N.pow_succ_r'. reflexivity. }
      destruct (IH (n / 10) ((48 + n mod 10) :: acc) Hd) as [IH1 IH2].
      split.
      * intros H. apply IH1. constructor; [lia|exact H].
      * rewrite IH2. cbn [fold_left]. f_equal.
        pose proof (N.div_mod n 10 ltac:(lia)). lia.
Qed.

Lemma dec_fuel_enough : forall n, n < 10 ^ N.of_nat (S (N.to_nat (N.size n))).
Proof.
  intros n. rewrite Nat2N.inj_succ, N2Nat.id.
  assert (n < 2 ^ N.size n) as H1 by apply N.size_gt.
  assert (2 ^ N.size n <= 10 ^ N.size n) as H2 by (apply N.pow_le_mono_l; lia).
  rewrite N.pow_succ_r'. lia.
Qed.

Lemma dec_digit_chars : forall n, Forall (fun c => 48 <= c <= 57) (dec n).
Proof. intros n. unfold dec. apply dec_aux_spec; [apply dec_fuel_enough|constructor]. Qed.

Lemma dec_aux_ne : forall f n acc, acc <> [] -> dec_aux f n acc <> [].
Proof.
  induction f as [|f IH]; intros n acc H; cbn [dec_aux]; [exact H|].
  destruct (n <? 10); [congruence|]. apply IH. congruence.
Qed.
Lemma dec_ne : forall n, dec n <> [].
Proof.
  intros n. unfold dec. cbn [dec_aux]. destruct (n <? 10); [congruence|].
  apply dec_aux_ne. congruence.
Qed.

Lemma parse_dec_dec : forall n, parse_dec (dec n) = Some n.
Proof.
  intros n. unfold parse_dec. pose proof (dec_ne n) as Hne.
  destruct (dec n) as [|c s] eqn:E; [congruence|]. rewrite <- E.
  rewrite dec_digits_spec by apply dec_digit_chars.
  f_equal. unfold dec. destruct (dec_aux_spec _ n [] (dec_fuel_enough n)) as [_ ->]. reflexivity.
Qed.

(** ** Escaping *)
Lemma esc_str_flat : forall xml q s, esc_str xml q s = flat_map (esc_char xml q) s.
Proof.
  intros xml q s. unfold esc_str.
  assert (forall p, esc_str_loop xml q p s = rev p ++ flat_map (esc_char xml q) s) as H.
  2:{ rewrite H. reflexivity. }
  induction s as [|c s IH]; intros p; cbn [esc_str_loop flat_map].
  - now rewrite app_nil_r.
  - unfold esc_char at 1. destruct (get_escape xml q c).
    + rewrite IH. reflexivity.
    + rewrite IH. cbn [rev]. now rewrite <- app_assoc.
Qed.

Lemma write_parts_esc_flat : forall xml q items,
  write_parts_esc xml q items =
  (flat_map (esc_char xml q) (fst (write_parts items)), snd (write_parts items)).
Proof.
  induction items as [|[[s|c]|r] items IH]; cbn [write_parts_esc write_parts].
  - reflexivity.
  - rewrite IH. destruct (write_parts items) as [t ok]. cbn [fst snd].
    now rewrite esc_str_flat, flat_map_app.
  - rewrite IH. destruct (write_parts items) as [t ok]. reflexivity.
  - reflexivity.
Qed.

Lemma escape_unescape_spec : forall xml q s,
  escape_unescape xml q s =
  (flat_map (esc_char xml q) (fst (unescape s)), snd (unescape s)).
Proof. intros. apply write_parts_esc_flat. Qed.

(** The form of an escaped character: itself, or a reference that the reader
    resolves to it. *)
Lemma In_app_dec_semicolon : forall n, ~ In 59 (dec n).
Proof.
  intros n Hi. pose proof (dec_digit_chars n) as H. rewrite Forall_forall in H.
  specialize (H _ Hi). lia.
Qed.

Lemma split_once_app : forall p pre post, ~ In p pre -> split_once p (pre ++ p :: post) = Some (pre, post).
Proof. intros. unfold split_once. now rewrite split_at_char_app. Qed.

Inductive esc_form (ref : str -> option chr) (q : bool) (c : chr) : str -> Prop :=
| EFself : c <> 38 -> c <> 60 -> c <> 62 -> (q = true -> c <> 34) -> esc_form ref q c [c]
| EFref : forall name, ref name = Some c -> ~ In 59 name ->
    (forall x, In x name -> x <> 60 /\ x <> 62 /\ x <> 34 /\ x <> 38) ->
    esc_form ref q c (38 :: name ++ [59]).

Lemma numeric_form : forall (ref : str -> option chr) q c,
  ref (35 :: dec c) = Some c -> esc_form ref q c (write_escape_kind (Number c)).
Proof.
  intros ref q c H. cbn [write_escape_kind].
  change (L "&#" ++ dec c ++ L ";") with (38 :: (35 :: dec c) ++ [59]).
  apply EFref; [exact H| |].
  - intros [|Hi]; [lia|]. eapply In_app_dec_semicolon; eauto.
  - intros x [<-|Hx]; [lia|]. pose proof (dec_digit_chars c) as Hd. rewrite Forall_forall in Hd.
    specialize (Hd _ Hx). lia.
Qed.

Ltac named n := apply (EFref _ _ _ n); [reflexivity|cbn; intuition discriminate|
   cbn; intros x Hx; repeat (destruct Hx as [<-|Hx]; [lia|]); destruct Hx].

Lemma html_esc_form : forall q c, is_scalar c = true -> html_ok c = true ->
  esc_form html_ref q c (esc_char false q c).
Proof.
  intros q c Hs Hok. unfold esc_char, get_escape, html_get_escape.
  destruct (N.eqb_spec c 38) as [->|H1]; [named (L "amp")|].
  destruct (N.eqb_spec c 60) as [->|H2]; [named (L "lt")|].
  destruct (N.eqb_spec c 62) as [->|H3]; [named (L "gt")|].
  destruct (N.eqb_spec c 9) as [->|H4]; [named (L "Tab")|].
  destruct (N.eqb_spec c 10) as [->|H5]; [named (L "NewLine")|].
  destruct (q && (c =? 34)) eqn:H6.
  { apply andb_true_iff in H6 as [-> H6]. apply N.eqb_eq in H6. subst c. named (L "quot"). }
  destruct (is_control c) eqn:H7.
  - apply numeric_form. unfold html_ref. cbn [N.eqb Pos.eqb]. rewrite parse_dec_dec.
    cbn [opt_map]. unfold html_numeric. rewrite Hs. cbn [negb].
    unfold html_ok in Hok. apply andb_true_iff in Hok as [Hz Ha].
    destruct (c =? 0); [discriminate|].
    destruct (assoc c win1252); [discriminate|reflexivity].
  - apply EFself; auto. intros ->. cbn in H6. lia.
Qed.

Lemma xml_esc_form : forall q c, xml_char c = true -> esc_form xml_ref q c (esc_char true q c).
Proof.
  intros q c Hok. unfold esc_char, get_escape, xml_get_escape.
  destruct (N.eqb_spec c 38) as [->|H1]; [named (L "amp")|].
  destruct (N.eqb_spec c 60) as [->|H2]; [named (L "lt")|].
  destruct (N.eqb_spec c 62) as [->|H3]; [named (L "gt")|].
  destruct (q && (c =? 34)) eqn:H6.
  { apply andb_true_iff in H6 as [-> H6]. apply N.eqb_eq in H6. subst c. named (L "quot"). }
  destruct (is_control c) eqn:H7.
  - apply numeric_form. unfold xml_ref. cbn [N.eqb Pos.eqb]. rewrite parse_dec_dec, Hok. reflexivity.
  - apply EFself; auto. intros ->. cbn in H6. lia.
Qed.

Lemma esc_form_read : forall ref q c e, esc_form ref q c e -> forall f rest,
  (length (e ++ rest) < f)%nat ->
  exists f', (length rest < f')%nat /\
  read_refs ref f (e ++ rest) = opt_map (cons c) (read_refs ref f' rest).
Proof.
  intros ref q c e H f rest Hf. destruct f as [|f]; [lia|]. exists f.
  destruct H as [H1 H2 H3 H4|name Hr Hn Hx].
  - cbn [app length] in *. split; [lia|]. cbn [read_refs].
    destruct (N.eqb_spec c 38); [congruence|reflexivity].
  - cbn [app length] in Hf. rewrite !app_length in Hf. split; [lia|].
    cbn [app read_refs N.eqb Pos.eqb].
    rewrite <- app_assoc. cbn [app]. rewrite split_once_app by exact Hn. now rewrite Hr.
Qed.


Lemma read_refs_flat : forall ref q (esc : chr -> str) s,
  (forall c, In c s -> esc_form ref q c (esc c)) ->
  forall f, (length (flat_map esc s) < f)%nat ->
  read_refs ref f (flat_map esc s) = Some s.
Proof.
  intros ref q esc. induction s as [|c s IH]; intros H f Hf; cbn [flat_map] in *.
  - destruct f as [|f]; [cbn in Hf; lia|]. reflexivity.
  - destruct (esc_form_read _ _ _ _ (H c (or_introl eq_refl)) f _ Hf) as (f' & Hf' & ->).
    rewrite IH; auto. intros; apply H; now right.
Qed.

Lemma html_inert : forall q s x, In x (esc_str false q s) ->
  x <> 60 /\ x <> 62 /\ (q = true -> x <> 34).
Proof.
  intros q s x. rewrite esc_str_flat, in_flat_map. intros (c & _ & Hx).
  unfold esc_char, get_escape, html_get_escape in Hx.
  repeat match type of Hx with
         | context [if ?b then _ else _] => destruct b eqn:?
         end;
  try (cbn in Hx; repeat (destruct Hx as [<-|Hx]; [repeat split; lia|]); destruct Hx).
  - cbn [write_escape_kind] in Hx. apply in_app_iff in Hx as [Hx|Hx].
    + cbn in Hx. repeat (destruct Hx as [<-|Hx]; [repeat split; lia|]). destruct Hx.
    + apply in_app_iff in Hx as [Hx|Hx].
      * pose proof (dec_digit_chars c) as Hd. rewrite Forall_forall in Hd.
        specialize (Hd _ Hx). repeat split; lia.
      * cbn in Hx. destruct Hx as [<-|[]]. repeat split; lia.
Qed.

Lemma xml_inert : forall q s x, In x (esc_str true q s) ->
  x <> 60 /\ x <> 62 /\ (q = true -> x <> 34).
Proof.
  intros q s x. rewrite esc_str_flat, in_flat_map. intros (c & _ & Hx).
  unfold esc_char, get_escape, xml_get_escape in Hx.
  repeat match type of Hx with
         | context [if ?b then _ else _] => destruct b eqn:?
         end;
  try (cbn in Hx; repeat (destruct Hx as [<-|Hx]; [repeat split; lia|]); destruct Hx).
  - cbn [write_escape_kind] in Hx. apply in_app_iff in Hx as [Hx|Hx].
    + cbn in Hx. repeat (destruct Hx as [<-|Hx]; [repeat split; lia|]). destruct Hx.
    + apply in_app_iff in Hx as [Hx|Hx].
      * pose proof (dec_digit_chars c) as Hd. rewrite Forall_forall in Hd.
        specialize (Hd _ Hx). repeat split; lia.
      * cbn in Hx. destruct Hx as [<-|[]]. repeat split; lia.
Qed.

Lemma dec_shown : forall c x, In x (dec c) -> is_control x = false.
Proof.
  intros c x Hx. pose proof (dec_digit_chars c) as Hd. rewrite Forall_forall in Hd.
  specialize (Hd _ Hx). unfold is_control. lia.
Qed.
Lemma esc_no_control : forall xml q s x, In x (esc_str xml q s) -> is_control x = false.
Proof.
  intros xml q s x. rewrite esc_str_flat, in_flat_map. intros (c & _ & Hx).
  unfold esc_char, get_escape, html_get_escape, xml_get_escape in Hx.
  repeat match type of Hx with
         | context [if ?b then _ else _] => destruct b eqn:?
         end;
  try (cbn in Hx; repeat (destruct Hx as [<-|Hx]; [reflexivity|]); destruct Hx; fail);
  try (cbn [write_escape_kind] in Hx; apply in_app_iff in Hx as [Hx|Hx];
    [cbn in Hx; repeat (destruct Hx as [<-|Hx]; [reflexivity|]); destruct Hx|
     apply in_app_iff in Hx as [Hx|Hx]; [now apply dec_shown in Hx|
     cbn in Hx; repeat (destruct Hx as [<-|Hx]; [reflexivity|]); destruct Hx]]; fail);
  destruct Hx as [<-|[]]; assumption.
Qed.
Lemma shown_xml : forall xml q s x, In x (esc_str xml q s) -> Forall (fun c => xml_char c = true) s -> xml_char x = true.
Proof.
  intros xml q s x. rewrite esc_str_flat, in_flat_map. intros (c & Hin & Hx) HF. rewrite Forall_forall in HF. specialize (HF _ Hin).
  unfold esc_char, get_escape, html_get_escape, xml_get_escape in Hx.
  repeat match type of Hx with
         | context [if ?b then _ else _] => destruct b eqn:?
         end;
  try (cbn in Hx; repeat (destruct Hx as [<-|Hx]; [reflexivity|]); destruct Hx; fail);
  try (cbn [write_escape_kind] in Hx; apply in_app_iff in Hx as [Hx|Hx];
    [cbn in Hx; repeat (destruct Hx as [<-|Hx]; [reflexivity|]); destruct Hx|
     apply in_app_iff in Hx as [Hx|Hx]; [pose proof (dec_digit_chars c) as Hd; rewrite Forall_forall in Hd; specialize (Hd _ Hx); unfold xml_char; lia|
     cbn in Hx; repeat (destruct Hx as [<-|Hx]; [reflexivity|]); destruct Hx]]; fail);
  destruct Hx as [<-|[]]; assumption.
Qed.
Lemma newlines_id : forall s, (forall x, In x s -> is_control x = false) -> newlines s = s.
Proof.
  induction s as [|c s IH]; intros H; [reflexivity|]. cbn [newlines].
  pose proof (H c (or_introl eq_refl)) as Hc. destruct (N.eqb_spec c 13) as [->|_]; [discriminate|].
  f_equal. apply IH. intros x Hx. apply H. now right.
Qed.
Lemma attr_spaces_id : forall s, (forall x, In x s -> is_control x = false) -> attr_spaces s = s.
Proof.
  intros s H. unfold attr_spaces. rewrite <- (map_id s) at 2. apply map_ext_in. intros c Hc. specialize (H c Hc).
  destruct ((c =? 9) || (c =? 10) || (c =? 13)) eqn:E; [|reflexivity]. unfold is_control in H. lia.
Qed.

Theorem html_roundtrip : forall q s,
  Forall (fun c => is_scalar c = true /\ html_ok c = true) s ->
  read_html (esc_str false q s) = Some s.
Proof.
  intros q s H. unfold read_html. rewrite newlines_id by (apply esc_no_control). cbv zeta. rewrite esc_str_flat.
  apply (read_refs_flat _ q); [|lia].
  intros c Hc. rewrite Forall_forall in H. destruct (H c Hc). now apply html_esc_form.
Qed.

Theorem xml_roundtrip : forall q s,
  Forall (fun c => xml_char c = true) s ->
  read_xml (esc_str true q s) = Some s /\ read_xml_attr (esc_str true q s) = Some s.
Proof.
  intros q s H. unfold read_xml, read_xml_attr.
  replace (forallb xml_char (esc_str true q s)) with true
    by (symmetry; apply forallb_forall; intros x Hx; eapply shown_xml; eauto).
  rewrite newlines_id by (apply esc_no_control). rewrite attr_spaces_id by (apply esc_no_control).
  cbv zeta. rewrite esc_str_flat.
  split; (apply (read_refs_flat _ q); [|lia]);
  intros c Hc; rewrite Forall_forall in H; now apply xml_esc_form, H.
Qed.

(** ** Comments *)
Lemma split_dashes_some : forall s chunk rest, split_dashes s = Some (chunk, rest) ->
  exists pre rest', chunk = pre ++ [45] /\ rest = 45 :: rest' /\ s = pre ++ 45 :: 45 :: rest' /\
    ~ occurs (L "--") (pre ++ [45]).
Proof.
  induction s as [|c s IH]; intros chunk rest; cbn [split_dashes]; [congruence|].
  destruct (starts_with (L "--") (c :: s)) eqn:E.
  - intros [= <- <-]. apply starts_with_spec in E as [r Hr]. cbn in Hr. injection Hr as -> ->.
    exists [], r. repeat split. cbn [app].
    intros (pre & post & Ho). apply (f_equal (@length N)) in Ho.
    rewrite !app_length in Ho. cbn in Ho. lia.
  - destruct (split_dashes s) as [[ch r]|] eqn:Es; [|congruence].
    intros [= <- <-]. destruct (IH _ _ eq_refl) as (pre & rest' & -> & -> & -> & Hn).
    exists (c :: pre), rest'. repeat split.
    intros (a & b & Ho). destruct a as [|a0 a].
    + cbn in Ho. injection Ho as -> Ho.
      assert (starts_with (L "--") (45 :: pre ++ 45 :: 45 :: rest') = true).
      { apply starts_with_spec. destruct pre as [|p0 pre].
        - now exists (45 :: rest').
        - cbn in Ho. injection Ho as -> _. now eexists. }
      congruence.
    + cbn in Ho. injection Ho as -> Ho. apply Hn. now exists a, b.
Qed.

Lemma split_dashes_none : forall s, split_dashes s = None -> ~ occurs (L "--") s.
Proof.
  induction s as [|c s IH]; cbn [split_dashes].
  - intros _ (a & b & Ho). destruct a; discriminate.
  - destruct (starts_with (L "--") (c :: s)) eqn:E; [congruence|].
    destruct (split_dashes s) as [[ch r]|] eqn:Es; [congruence|].
    intros _ (a & b & Ho). destruct a as [|a0 a].
    + assert (starts_with (L "--") (c :: s) = true) by (apply starts_with_spec; exists b; exact Ho).
      congruence.
    + cbn in Ho. injection Ho as -> Ho. apply (IH eq_refl). now exists a, b.
Qed.

Lemma occurs_dashes_app : forall pre c post, c <> 45 ->
  occurs (L "--") (pre ++ c :: post) -> occurs (L "--") pre \/ occurs (L "--") post.
Proof.
  induction pre as [|x pre IH]; intros c post Hc (a & b & Ho).
  - right. cbn [app] in Ho. destruct a as [|a0 a]; cbn in Ho; injection Ho as -> Ho.
    + congruence.
    + now exists a, b.
  - destruct a as [|a0 a].
    + cbn in Ho. injection Ho as -> Ho. destruct pre as [|y pre]; cbn in Ho; injection Ho as -> Ho.
      * congruence.
      * left. now exists [], pre.
    + cbn in Ho. injection Ho as -> Ho.
      destruct (IH c post Hc) as [(a' & b' & ->)|H].
      { now exists a, b. }
      { left. now exists (a0 :: a'), b'. }
      { now right. }
Qed.

(** Fuel-independent description of the loop. *)
Inductive CommentLoop : str -> str -> Prop :=
| CLend : forall s, ~ occurs (L "--") s ->
    CommentLoop s (s ++ (if ends_with_char 45 s then [32] else []))
| CLstep : forall pre rest b, ~ occurs (L "--") (pre ++ [45]) ->
    CommentLoop (45 :: rest) b -> CommentLoop (pre ++ 45 :: 45 :: rest) (pre ++ 45 :: 32 :: b).

Lemma comment_loop_fuel : forall f s, (length s < f)%nat -> CommentLoop s (comment_loop f s).
Proof.
  induction f as [|f IH]; intros s Hf; [lia|]. cbn [comment_loop].
  destruct (split_dashes s) as [[chunk rest]|] eqn:E.
  - apply split_dashes_some in E as (pre & rest' & -> & -> & -> & Hn).
    rewrite <- app_assoc. cbn [app]. constructor; auto. apply IH.
    rewrite app_length in Hf. cbn [length] in *. lia.
  - constructor. now apply split_dashes_none.
Qed.

Lemma CommentLoop_ok : forall s b, CommentLoop s b ->
  ~ occurs (L "--") b /\ ~ (exists r, b = r ++ L "-") /\ Padded s b /\
  (forall c r, s = c :: r -> exists r', b = c :: r') /\ (s = [] -> b = []) /\
  (forall c r, b = c :: r -> exists r', s = c :: r').
Proof.
  assert (forall s, Padded s s) as Prefl by (induction s; constructor; auto).
  assert (forall p s b, Padded s b -> Padded (p ++ s) (p ++ b)) as Papp
    by (induction p; intros; [auto|constructor; auto]).
  intros s b H. induction H as [s Hs|pre rest b Hpre H IH].
  - destruct (ends_with_char 45 s) eqn:E.
    + split; [|split; [|split; [|split; [|split]]]].
      * intros Ho. apply occurs_dashes_app in Ho as [Ho|(a & c & Ho)]; [auto| |lia].
        destruct a; discriminate.
      * intros [r Hr]. apply app_inj_tail in Hr as [_ Hr]. cbn in Hr; discriminate.
      * rewrite <- (app_nil_r s) at 1. apply Papp. repeat constructor.
      * intros c r ->. now eexists.
      * intros ->. discriminate.
      * intros c r Hr. destruct s as [|x s]; [discriminate|]. cbn in Hr. injection Hr as -> _. eauto.
    + rewrite app_nil_r. split; [auto|split; [|split; [|split; [|split]]]]; auto.
      * intros [r Hr]. assert (ends_with_char 45 s = true); [|congruence].
        apply ends_with_char_spec. eauto.
      * intros c r ->. eauto.
      * eauto.
  - destruct IH as (I1 & I2 & I3 & I4 & I5 & I6).
    destruct (I4 _ _ eq_refl) as [b' ->].
    split; [|split; [|split; [|split; [|split]]]].
    + intros Ho.
      replace (pre ++ 45 :: 32 :: 45 :: b') with ((pre ++ [45]) ++ 32 :: 45 :: b') in Ho
        by (rewrite <- app_assoc; reflexivity).
      apply occurs_dashes_app in Ho as [Ho|Ho]; auto. lia.
    + intros [r Hr]. apply I2. 
      destruct (@exists_last _ (45 :: b')) as (r' & x & Hx); [congruence|].
      exists r'. rewrite Hx in *.
      replace (pre ++ 45 :: 32 :: r' ++ [x]) with ((pre ++ 45 :: 32 :: r') ++ [x]) in Hr
        by (rewrite <- app_assoc; reflexivity).
      apply app_inj_tail in Hr as [_ ->]. reflexivity.
    + apply Papp. constructor. constructor. exact I3.
    + intros c r Hr. destruct pre as [|x pre]; cbn in *; injection Hr as -> _; eauto.
    + intros Hr. destruct pre; discriminate.
    + intros c r Hr. destruct pre as [|x pre]; cbn in *; injection Hr as -> _; eauto.
Qed.

Lemma CommentLoop_second : forall s b, CommentLoop s b ->
  (exists r, b = L "->" ++ r) -> exists r, s = L "->" ++ r.
Proof.
  intros s b H. destruct H as [s Hs|pre rest b Hpre H]; intros [r Hr].
  - destruct (ends_with_char 45 s); destruct s as [|x [|y s]]; cbn in Hr; try discriminate;
      injection Hr as -> -> _; now exists s.
  - destruct pre as [|x [|y pre]]; cbn in Hr; try discriminate.
    injection Hr as -> -> _. now eexists.
Qed.

Theorem comment_body_ok : forall s, comment_ok (comment_body s) /\ Padded s (comment_body s).
Proof.
  intros s. unfold comment_body.
  pose proof (comment_loop_fuel (S (length s)) s ltac:(lia)) as H.
  remember (comment_loop (S (length s)) s) as b eqn:Eb. clear Eb.
  pose proof (CommentLoop_ok _ _ H) as (I1 & I2 & I3 & I4 & I5 & I6).
  pose proof (CommentLoop_second _ _ H) as I7.
  destruct (starts_with (L ">") s || starts_with (L "->") s) eqn:E.
  - split; [split|].
    + cbn [app]. intros (a & c & Ho). destruct a as [|a0 a]; cbn in Ho; injection Ho as Ha Ho; [discriminate|].
      apply I1. now exists a, c.
    + intros [r Hr]. cbn in Hr. injection Hr as Hr _. discriminate.
    + intros [r Hr]. cbn in Hr. injection Hr as Hr _. discriminate.
    + intros [r Hr]. apply I2. destruct b as [|b0 b].
      * destruct r as [|r0 [|]]; cbn in Hr; try discriminate.
      * destruct r as [|r0 r]; cbn in Hr; [discriminate|]. injection Hr as _ Hr. eauto.
    + cbn [app]. now constructor.
  - apply orb_false_iff in E as [E1 E2]. cbn [app]. split; [split|]; auto.
    + intros [r Hr]. cbn in Hr. destruct (I6 _ _ Hr) as [r' ->].
      assert (starts_with (L ">") (62 :: r') = true) by (apply starts_with_spec; now exists r').
      congruence.
    + intros Hr. apply I7 in Hr as [r' ->].
      assert (starts_with (L "->") (L "->" ++ r') = true) by (apply starts_with_spec; now exists r').
      congruence.
Qed.

Lemma until_close_ok : forall b rest, ~ occurs (L "--") b -> ~ (exists r, b = r ++ L "-") ->
  until_close (b ++ L "-->" ++ rest) = Some (b, rest).
Proof.
  induction b as [|c b IH]; intros rest H1 H2.
  - reflexivity.
  - cbn [app until_close].
    destruct (strip_prefix (L "-->") _) as [r|] eqn:E.
    + exfalso. apply strip_prefix_some in E. cbn in E. injection E as -> E.
      destruct b as [|c' b]; cbn in E.
      * apply H2. now exists [].
      * injection E as -> E. apply H1. now exists [], b.
    + change (b ++ 45 :: 45 :: 62 :: rest) with (b ++ L "-->" ++ rest).
      rewrite IH; auto.
      * intros (x & y & ->). apply H1. now exists (c :: x), y.
      * intros [r ->]. apply H2. now exists (c :: r).
Qed.

Theorem comment_reads_back : forall s rest,
  until_close (comment_body s ++ L "-->" ++ rest) = Some (comment_body s, rest).
Proof.
  intros s rest. destruct (comment_body_ok s) as [[H1 _ _ H4] _]. now apply until_close_ok.
Qed.

(** A text that already is acceptable is written unchanged. *)
Theorem comment_body_id : forall s, comment_ok s -> comment_body s = s.
Proof.
  intros s [H1 H2 H3 H4]. unfold comment_body.
  destruct (starts_with (L ">") s) eqn:E1.
  { exfalso. apply starts_with_spec in E1. auto. }
  destruct (starts_with (L "->") s) eqn:E2.
  { exfalso. apply starts_with_spec in E2. auto. }
  cbn [orb app comment_loop].
  destruct (split_dashes s) as [[ch r]|] eqn:E.
  { exfalso. apply split_dashes_some in E as (pre & rest & _ & _ & -> & _).
    apply H1. now exists pre, rest. }
  destruct (ends_with_char 45 s) eqn:E3.
  { exfalso. apply ends_with_char_spec in E3. auto. }
  now rewrite app_nil_r.
Qed.

Theorem html_not_lossless : exists s,
  Forall (fun c => is_scalar c = true) s /\ read_html (esc_str false false s) <> Some s.
Proof. exists [0x80]. split; [repeat constructor|vm_compute; discriminate]. Qed.

Theorem xml_not_lossless : exists s,
  Forall (fun c => is_scalar c = true) s /\ read_xml (esc_str true false s) <> Some s.
Proof. exists [1]. split; [repeat constructor|vm_compute; discriminate]. Qed.

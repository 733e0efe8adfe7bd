(** * Proofs about JSON. *)

From Coq Require Import Lia.
From Verif Require Import Base P_Base Doc Errors Display Reporter Cli SpecCli Json SpecJson P_OutText.


Lemma hex_low : forall n, n < 16 -> hex_value (low_hex n) = Some n.
Proof.
  intros n H. unfold hex_value, low_hex. destruct (N.ltb_spec n 10) as [H'|H'].
  - replace ((48 <=? 48 + n) && (48 + n <=? 57)) with true; [f_equal; lia|].
    symmetry. apply andb_true_iff. split; apply N.leb_le; lia.
  - replace ((48 <=? 87 + n) && (87 + n <=? 57)) with false; [|symmetry; apply andb_false_iff; right; apply N.leb_gt; lia].
    replace ((97 <=? 87 + n) && (87 + n <=? 102)) with true; [f_equal; lia|].
    symmetry. apply andb_true_iff. split; apply N.leb_le; lia.
Qed.

Lemma characters_char : forall c r, characters (json_char c ++ r) = first (cons c) (characters r).
Proof.
  intros c r. unfold json_char.
  destruct (N.eqb_spec c 34) as [->|H1]; [reflexivity|].
  destruct (N.eqb_spec c 92) as [->|H2]; [reflexivity|].
  destruct (N.eqb_spec c 8) as [->|H3]; [reflexivity|].
  destruct (N.eqb_spec c 9) as [->|H4]; [reflexivity|].
  destruct (N.eqb_spec c 10) as [->|H5]; [reflexivity|].
  destruct (N.eqb_spec c 12) as [->|H6]; [reflexivity|].
  destruct (N.eqb_spec c 13) as [->|H7]; [reflexivity|].
  destruct (N.ltb_spec c 32) as [H8|H8].
  - cbn [app characters]. rewrite !N.eqb_refl.
    change (92 =? 34) with false. cbv iota. change (hex_value 48) with (Some 0). cbv iota.
    assert (Hd : c / 16 < 16) by (apply N.div_lt_upper_bound; lia).
    assert (Hm : c mod 16 < 16) by (apply N.mod_lt; lia).
    rewrite (hex_low _ Hd), (hex_low _ Hm). cbv zeta.
    replace (((0 * 16 + 0) * 16 + c / 16) * 16 + c mod 16) with c by (pose proof (N.div_mod' c 16); lia).
    replace (55296 <=? c) with false; [reflexivity|]. symmetry. apply N.leb_gt. lia.
  - cbn [app characters]. rewrite (proj2 (N.eqb_neq c 34) H1), (proj2 (N.eqb_neq c 92) H2), (proj2 (N.ltb_ge c 32) H8). reflexivity.
Qed.
Lemma characters_string : forall s r, characters (flat_map json_char s ++ 34 :: r) = Some (s, r).
Proof.
  induction s as [|c s IH]; intros r; [reflexivity|]. cbn [flat_map]. rewrite <- app_assoc, characters_char, IH. reflexivity.
Qed.

(** Compact JSON. *)
Fixpoint show (v : value) : str :=
  match v with
  | VNull => L "null"
  | VBool b => if b then L "true" else L "false"
  | VNumber n => dec n
  | VString s => json_string s
  | VArray l => [91] ++ commas (map show l) ++ [93]
  | VObject l => json_struct (map (fun m => json_field (fst m) (show (snd m))) l)
  end.

Section Values.
Variable P : value -> Prop.
Hypothesis Hnull : P VNull.
Hypothesis Hbool : forall b, P (VBool b).
Hypothesis Hnum : forall n, P (VNumber n).
Hypothesis Hstr : forall s, P (VString s).
Hypothesis Harr : forall l, Forall P l -> P (VArray l).
Hypothesis Hobj : forall l, Forall (fun m => P (snd m)) l -> P (VObject l).
Fixpoint value_rect' (v : value) : P v :=
  match v with
  | VNull => Hnull
  | VBool b => Hbool b
  | VNumber n => Hnum n
  | VString s => Hstr s
  | VArray l => Harr l ((fix go l := match l return Forall P l with [] => Forall_nil _ | x :: l => Forall_cons _ (value_rect' x) (go l) end) l)
  | VObject l => Hobj l ((fix go l := match l return Forall (fun m => P (snd m)) l with [] => Forall_nil _ | x :: l => Forall_cons _ (value_rect' (snd x)) (go l) end) l)
  end.
End Values.

(** What may follow a number. *)
Definition stop (r : str) : Prop := match r with c :: _ => (c <? 48) || (57 <? c) = true | [] => True end.

Lemma digits_all : forall s n r, Forall (fun c => 48 <= c <= 57) s -> stop r -> SpecJson.digits n (s ++ r) = (fold_left (fun a c => 10 * a + (c - 48)) s n, r).
Proof.
  induction s as [|c s IH]; intros n r Hs Hr.
  - cbn [app fold_left]. destruct r as [|c r]; [reflexivity|]. cbn [SpecJson.digits stop] in *.
    apply orb_true_iff in Hr. rewrite !N.ltb_lt in Hr.
    replace ((48 <=? c) && (c <=? 57)) with false; [reflexivity|]. symmetry. apply andb_false_iff. rewrite !N.leb_gt. lia.
  - inversion Hs as [|? ? Hc Hs']; subst. cbn [app SpecJson.digits fold_left].
    replace ((48 <=? c) && (c <=? 57)) with true; [now apply IH|]. symmetry. apply andb_true_iff. rewrite !N.leb_le. lia.
Qed.

Lemma dec_head : forall f n acc, n < 10 ^ N.of_nat f -> 0 < n -> exists c s, dec_aux f n acc = c :: s /\ 49 <= c <= 57.
Proof.
  induction f as [|f IH]; intros n acc Hn Hp; [cbn in Hn; lia|]. cbn [dec_aux].
  destruct (N.ltb_spec n 10) as [H|H].
  - eexists _, _. split; [reflexivity|]. rewrite N.mod_small by lia. lia.
  - apply IH.
    + apply N.div_lt_upper_bound; [lia|]. rewrite Nat2N.inj_succ, N.pow_succ_r' in Hn. exact Hn.
    + apply N.div_str_pos. lia.
Qed.
Lemma read_number : forall n r depth, stop r -> read_value (S depth) (dec n ++ r) = Some (VNumber n, r).
Proof.
  intros n r depth Hr. destruct (N.eq_dec n 0) as [->|Hn]; [reflexivity|].
  destruct (dec_head _ n [] (dec_fuel_enough n) ltac:(lia)) as (c & s & E & Hc). fold (dec n) in E.
  pose proof (dec_digit_chars n) as Hd. rewrite E in Hd. inversion Hd as [|? ? _ Hs]; subst.
  assert (Hv : fold_left (fun a c => 10 * a + (c - 48)) s (c - 48) = n).
  { destruct (dec_aux_spec _ n [] (dec_fuel_enough n)) as [_ Hv]. fold (dec n) in Hv. rewrite E in Hv. cbn [fold_left] in Hv.
    replace (10 * 0 + (c - 48)) with (c - 48) in Hv by lia. exact Hv. }
  rewrite E. cbn [app read_value skip].
  assert (Hsp : space c = false).
  { unfold space. rewrite !(proj2 (N.eqb_neq _ _)) by lia. reflexivity. }
  rewrite Hsp. rewrite (proj2 (N.eqb_neq c 34)), (proj2 (N.eqb_neq c 48)) by lia.
  replace ((49 <=? c) && (c <=? 57)) with true by (symmetry; apply andb_true_iff; rewrite !N.leb_le; lia).
  rewrite digits_all by assumption. rewrite Hv. reflexivity.
Qed.

(** The first character of a value is not a space and does not end an array. *)
Lemma show_head : forall v, exists c s, show v = c :: s /\ space c = false /\ (c =? 93) = false /\ (c =? 125) = false.
Proof.
  intros [|[]|n|s|l|l]; try (eexists _, _; split; [reflexivity|repeat split; reflexivity]).
  cbn [show]. pose proof (dec_digit_chars n) as Hd. pose proof (dec_ne n) as Hne. destruct (dec n) as [|c s]; [congruence|].
  inversion Hd as [|? ? Hc _]; subst. exists c, s. split; [reflexivity|]. unfold space. rewrite !(proj2 (N.eqb_neq _ _)) by lia. auto.
Qed.
Lemma skip_head : forall c s, space c = false -> skip (c :: s) = c :: s.
Proof. intros c s H. cbn [skip]. now rewrite H. Qed.

Definition ok (v : value) : Prop := forall r depth, (length (show v) <= depth)%nat -> stop r -> read_value depth (show v ++ r) = Some (v, r).

Lemma read_elements_ok : forall l v, Forall ok (v :: l) -> forall r depth, (length (commas (map show (v :: l))) < depth)%nat ->
  read_elements depth (commas (map show (v :: l)) ++ 93 :: r) = Some (v :: l, r).
Proof.
  induction l as [|w l IH]; intros v Hl r depth Hd; inversion Hl as [|? ? Hv Hl']; subst; (destruct depth as [|depth]; [lia|]).
  - cbn [map commas] in *. cbn [read_elements]. rewrite Hv by (cbn [stop]; auto; lia). rewrite skip_head by reflexivity. reflexivity.
  - change (commas (map show (v :: w :: l))) with (show v ++ [44] ++ commas (map show (w :: l))) in *.
    rewrite !app_length in Hd. cbn [length] in Hd. rewrite <- !app_assoc. cbn [read_elements]. rewrite Hv by (cbn [stop app]; auto; lia).
    cbn [app]. rewrite skip_head by reflexivity. change (44 =? 44) with true. cbv iota.
    rewrite (IH w Hl') by lia. reflexivity.
Qed.
Definition member (m : str * value) : str := json_field (fst m) (show (snd m)).
Lemma read_members_ok : forall l m, Forall (fun m => ok (snd m)) (m :: l) -> forall r depth, (length (commas (map member (m :: l))) < depth)%nat ->
  read_members depth (commas (map member (m :: l)) ++ 125 :: r) = Some (m :: l, r).
Proof.
  induction l as [|w l IH]; intros [name v] Hl r depth Hd; inversion Hl as [|? ? Hv Hl']; subst; cbn [snd] in Hv; (destruct depth as [|depth]; [lia|]).
  - cbn [map commas] in *. unfold member, json_field, json_string in *. cbn [fst snd] in *. rewrite !app_length in Hd. cbn [length] in Hd.
    rewrite <- !app_assoc. cbn [app read_members]. rewrite skip_head by reflexivity. change (34 =? 34) with true. cbv iota.
    rewrite characters_string. rewrite skip_head by reflexivity. change (58 =? 58) with true. cbv iota.
    rewrite Hv by (cbn [stop]; auto; lia). rewrite skip_head by reflexivity. reflexivity.
  - change (commas (map member ((name, v) :: w :: l))) with (member (name, v) ++ [44] ++ commas (map member (w :: l))) in *.
    unfold member at 1 in Hd. unfold member at 1. unfold json_field, json_string in *. cbn [fst snd] in *. rewrite !app_length in Hd. cbn [length] in Hd.
    rewrite <- !app_assoc. cbn [app read_members]. rewrite skip_head by reflexivity. change (34 =? 34) with true. cbv iota.
    rewrite characters_string. rewrite skip_head by reflexivity. change (58 =? 58) with true. cbv iota.
    rewrite Hv by (cbn [stop]; auto; lia). rewrite skip_head by reflexivity. change (44 =? 44) with true. cbv iota.
    rewrite (IH w Hl') by lia. reflexivity.
Qed.

Lemma read_show : forall v, ok v.
Proof.
  apply value_rect'.
  - intros r [|depth] Hd Hr; [cbn in Hd; lia|]. reflexivity.
  - intros [] r [|depth] Hd Hr; cbn in Hd; try lia; reflexivity.
  - intros n r [|depth] Hd Hr.
    + cbn [show] in Hd. pose proof (dec_ne n). destruct (dec n); [congruence|]. cbn in Hd. lia.
    + now apply read_number.
  - intros s r [|depth] Hd Hr; [cbn in Hd; lia|]. cbn [show]. unfold json_string. rewrite <- !app_assoc. cbn [app read_value].
    rewrite skip_head by reflexivity. change (34 =? 34) with true. cbv iota. now rewrite characters_string.
  - intros l Hl r depth Hd Hr. cbn [show] in *. rewrite !app_length in Hd. cbn [length] in Hd.
    destruct depth as [|depth]; [lia|]. rewrite <- !app_assoc. cbn [app read_value]. rewrite skip_head by reflexivity.
    change (91 =? 34) with false. change (91 =? 48) with false. change ((49 <=? 91) && (91 <=? 57)) with false. change (91 =? 91) with true. cbv iota.
    destruct l as [|v l]; [reflexivity|].
    assert (Hh : exists c s, commas (map show (v :: l)) ++ 93 :: r = c :: s /\ space c = false /\ (c =? 93) = false).
    { destruct (show_head v) as (c & s & E & H1 & H2 & _). cbn [map commas]. rewrite E. destruct l; cbn [map app]; eauto. }
    destruct Hh as (c & s & E & H1 & H2). pose proof (read_elements_ok l v Hl r depth ltac:(lia)) as HE. rewrite E in *.
    rewrite skip_head by exact H1. rewrite H2, HE. reflexivity.
  - intros l Hl r depth Hd Hr. cbn [show] in *. unfold json_struct in *. fold member in *. change (fun m : str * value => json_field (fst m) (show (snd m))) with member in *. rewrite !app_length in Hd. cbn [length] in Hd.
    destruct depth as [|depth]; [lia|]. rewrite <- !app_assoc. cbn [app read_value]. rewrite skip_head by reflexivity.
    change (123 =? 34) with false. change (123 =? 48) with false. change ((49 <=? 123) && (123 <=? 57)) with false. change (123 =? 91) with false. change (123 =? 123) with true. cbv iota.
    destruct l as [|v l]; [reflexivity|].
    assert (Hh : exists s, commas (map member (v :: l)) ++ 125 :: r = 34 :: s).
    { cbn [map commas]. destruct l; cbn [map app]; eexists; reflexivity. }
    destruct Hh as (s & E). pose proof (read_members_ok l v Hl r depth ltac:(lia)) as HE. rewrite E in *.
    rewrite skip_head by reflexivity. change (34 =? 125) with false. cbv iota. rewrite HE. reflexivity.
Qed.
Lemma read_json_show : forall v, read_json (show v) = Some v.
Proof.
  intros v. unfold read_json. pose proof (read_show v [] (S (length (show v))) ltac:(lia) I) as H. rewrite app_nil_r in H. now rewrite H.
Qed.

(** No line feeds. *)
Lemma char_line : forall c, ~ In 10 (json_char c).
Proof.
  intros c. unfold json_char.
  repeat match goal with |- context [if ?b then _ else _] => destruct b eqn:? end; cbn [In]; try (intros H; decompose [or] H; try discriminate; contradiction).
  - intros H. assert (Hlow : forall n, low_hex n <> 10) by (intros n; unfold low_hex; destruct (n <? 10); lia).
    repeat (destruct H as [H|H]; [try discriminate H; try (now apply Hlow in H)|]); contradiction.
  - intros [->|[]]. discriminate.
Qed.
Lemma string_line : forall s, ~ In 10 (json_string s).
Proof.
  intros s H. unfold json_string in H. rewrite !in_app_iff in H. destruct H as [[H|[]]|[H|[H|[]]]]; try discriminate.
  apply in_flat_map in H. destruct H as (c & _ & H). now apply char_line in H.
Qed.
Lemma commas_line : forall l, (forall x, In x l -> ~ In 10 x) -> ~ In 10 (commas l).
Proof.
  induction l as [|x l IH]; intros Hl H; [destruct H|]. destruct l as [|y l]; [cbn in H; now apply (Hl x); [left|]|].
  change (commas (x :: y :: l)) with (x ++ [44] ++ commas (y :: l)) in H. rewrite !in_app_iff in H.
  destruct H as [H|[[H|[]]|H]]; [now apply (Hl x); [left|]|discriminate|]. apply IH in H; [exact H|]. intros z Hz. apply Hl. now right.
Qed.
Lemma show_line : forall v, ~ In 10 (show v).
Proof.
  apply value_rect'.
  - cbn. intros H. decompose [or] H; try discriminate; contradiction.
  - intros []; cbn; intros H; decompose [or] H; try discriminate; contradiction.
  - intros n H. cbn [show] in H. pose proof (dec_digit_chars n) as Hd. rewrite Forall_forall in Hd. apply Hd in H. lia.
  - apply string_line.
  - intros l Hl H. cbn [show] in H. rewrite !in_app_iff in H. destruct H as [[H|[]]|[H|[H|[]]]]; try discriminate.
    apply commas_line in H; [exact H|]. intros x Hx. apply in_map_iff in Hx. destruct Hx as (v & <- & Hv). rewrite Forall_forall in Hl. now apply Hl.
  - intros l Hl H. cbn [show] in H. unfold json_struct in H. rewrite !in_app_iff in H. destruct H as [[H|[]]|[H|[H|[]]]]; try discriminate.
    apply commas_line in H; [exact H|]. intros x Hx. apply in_map_iff in Hx. destruct Hx as ([n v] & <- & Hv). cbn [fst snd]. unfold json_field.
    rewrite !in_app_iff. intros [Hi|[[Hi|[]]|Hi]]; [now apply string_line in Hi|discriminate|]. rewrite Forall_forall in Hl. now apply (Hl (n, v) Hv).
Qed.

(** ** Entries *)

Definition of_entry (e : entry) : value :=
  VObject ([(L "category", category_value (en_category e))] ++
    (match en_source e with Some s => [(L "sourceName", stream_value s)] | None => [] end) ++
    (match en_location e with Some r => [(L "location", location_value r)] | None => [] end) ++
    (match en_expected e with Some l => [(L "expected", VArray (map VString l))] | None => [] end) ++
    [(L "message", match en_message e with Some m => VString m | None => VNull end)]).
Lemma json_show : forall e, json_entry e = show (of_entry e).
Proof.
  intros [c s l x m]. unfold json_entry, of_entry. cbn [show en_category en_source en_location en_expected en_message]. unfold json_struct. do 2 f_equal.
  rewrite !map_app. f_equal.
  assert (Hc : json_category c = show (category_value c)) by (destruct c; reflexivity).
  destruct s as [[p|]|], l as [r|], x as [x|], m as [m|]; cbn [map app fst snd]; rewrite Hc; repeat f_equal;
    unfold json_expected; cbn [show]; now rewrite map_map.
Qed.

Lemma json_lines : forall debug cs, exists ls,
  flat_map (printed debug json_entry MJson) cs = flat_map (fun l => l ++ [10]) ls /\
  (forall l, In l ls -> ~ In 10 l) /\
  map read_json ls = map Some (flat_map (as_json debug) cs).
Proof.
  intros debug. induction cs as [|c cs (ls & E & Hl & Hr)].
  - exists []. split; [reflexivity|]. split; [intros l []|reflexivity].
  - assert (Hone : (printed debug json_entry MJson c = [] /\ as_json debug c = []) \/
      exists e, printed debug json_entry MJson c = json_entry e ++ [10] /\ as_json debug c = [of_entry e]).
    { destruct c as [name src e|name src e|[[[]|] s m]]; cbn [printed json_line as_json ce_category ce_source ce_message]; try (now left); right;
        eexists; (split; [reflexivity|]); unfold of_entry; cbn [en_category en_source en_location en_expected en_message app]; try reflexivity;
        destruct (sy_kind e); reflexivity. }
    destruct Hone as [[E1 E2]|(e & E1 & E2)].
    + exists ls. cbn [flat_map]. rewrite E1, E2. auto.
    + exists (json_entry e :: ls). cbn [flat_map]. rewrite E1, E2, E. split; [reflexivity|]. split.
      * intros l [<-|H]; [rewrite json_show; apply show_line|now apply Hl].
      * cbn [map app]. rewrite Hr, json_show, read_json_show. reflexivity.
Qed.

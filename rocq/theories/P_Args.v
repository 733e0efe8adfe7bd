(** * Proofs about the command line. *)

From Coq Require Import Lia.
From Verif Require Import Base P_Base Doc Config Errors Reporter Cli Args SpecArgs.

(** ** Values *)

Lemma digits_spec : forall s acc n,
  digits acc s = Some n <-> Forall digit s /\ n = fold_left (fun n d => 10 * n + (d - 48)) s acc.
Proof.
  induction s as [| c s IH]; intros acc n; cbn [digits fold_left].
  - split; [intros [= ->]; auto | intros [_ ->]; reflexivity].
  - destruct (N.leb_spec 48 c); destruct (N.leb_spec c 57); cbn [andb].
    + rewrite IH. split.
      * intros [H1 ->]. split; [constructor; [unfold digit; lia | exact H1] | reflexivity].
      * intros [H1 ->]. inversion H1; subst. auto.
    + split; [discriminate |]. intros [H1 _]. inversion H1; subst. unfold digit in *. lia.
    + split; [discriminate |]. intros [H1 _]. inversion H1; subst. unfold digit in *. lia.
    + split; [discriminate |]. intros [H1 _]. inversion H1; subst. unfold digit in *. lia.
Qed.

Lemma read_number_spec max s n : read_number max s = Some n <-> Numeral max s n.
Proof.
  unfold read_number, Numeral.
  assert (Hd : forall ds, (match ds with [] => None | _ :: _ =>
                 match digits 0 ds with Some n => if (n <=? max) then Some n else None | None => None end end) = Some n
               <-> ds <> [] /\ Forall digit ds /\ n = decimal ds /\ n <= max).
  { intros ds. destruct ds as [| d ds]; [split; [discriminate | intros [H _]; congruence] |].
    destruct (digits 0 (d :: ds)) as [m |] eqn:E.
    - apply digits_spec in E. destruct E as [E1 ->]. fold (decimal (d :: ds)).
      destruct (N.leb_spec (decimal (d :: ds)) max).
      + split; [intros [= <-]; repeat split; auto; discriminate | intros (_ & _ & -> & _); reflexivity].
      + split; [discriminate |]. intros (_ & _ & -> & H'). lia.
    - split; [discriminate |]. intros (_ & H & _). exfalso.
      assert (digits 0 (d :: ds) = Some (decimal (d :: ds))) by (apply digits_spec; auto). congruence. }
  destruct s as [| c s].
  - split; [discriminate |]. intros (ds & [<- | [H | [H _]]] & H1 & _); [congruence | discriminate | discriminate].
  - destruct (N.eqb_spec c 43) as [-> | H43].
    + cbn [negb orb]. split.
      * intros H. exists s. split; [auto |]. apply Hd. destruct s; [exact H |]. destruct (digits 0 (n0 :: s)); [| exact H].
        now rewrite Bool.andb_true_r in H.
      * intros (ds & Hs & H). destruct Hs as [Hs | [Hs | [Hs _]]]; [subst ds | injection Hs as -> | discriminate].
        { destruct H as (_ & H & _). inversion H as [| ? ? Hc]. unfold digit in Hc. lia. }
        apply Hd in H. destruct ds; [exact H |]. destruct (digits 0 (n0 :: ds)); [| exact H].
        now rewrite Bool.andb_true_r.
    + destruct (N.eqb_spec c 45) as [-> | H45].
      * cbn [negb orb]. split.
        { intros H. exists s.
          assert (Hn : n = 0 /\ match s with [] => None | _ :: _ =>
                 match digits 0 s with Some n => if (n <=? max) then Some n else None | None => None end end = Some n).
          { destruct s; [discriminate |]. destruct (digits 0 (n0 :: s)); [| discriminate].
            destruct (N.leb_spec n1 max); [| discriminate]. destruct (N.eqb_spec n1 0); [| discriminate].
            injection H as <-. auto. }
          destruct Hn as [-> Hn]. apply Hd in Hn. auto. }
        { intros (ds & Hs & H). destruct Hs as [Hs | [Hs | [Hs ->]]]; [subst ds | discriminate | injection Hs as ->].
          { destruct H as (_ & H & _). inversion H as [| ? ? Hc]. unfold digit in Hc. lia. }
          apply Hd in H. destruct ds; [exact H |]. destruct (digits 0 (n :: ds)); [| exact H].
          destruct (N.leb_spec n0 max); [| discriminate]. injection H as ->. reflexivity. }
      * cbn [negb orb]. split.
        { intros H. exists (c :: s). split; [auto |]. apply Hd. destruct (digits 0 (c :: s)); [| exact H].
          now rewrite Bool.andb_true_r in H. }
        { intros (ds & Hs & H). destruct Hs as [Hs | [Hs | [Hs _]]]; [subst ds | injection Hs as Hc _; congruence | injection Hs as Hc _; congruence].
          apply Hd in H. destruct (digits 0 (c :: s)); [| exact H]. now rewrite Bool.andb_true_r. }
Qed.

Ltac eqb_cases :=
  repeat match goal with
         | |- context [str_eqb ?a ?b] => destruct (str_eqb a b) eqn:?E
         | H : str_eqb _ _ = true |- _ => apply str_eqb_eq in H; subst
         end.

Lemma read_bool_spec s b : read_bool s = Some b <-> Truth s b.
Proof.
  unfold read_bool. split.
  - destruct (str_eqb s (L "true")) eqn:E1; [intros [= <-]; apply str_eqb_eq in E1; subst; constructor |].
    destruct (str_eqb s (L "false")) eqn:E2; [intros [= <-]; apply str_eqb_eq in E2; subst; constructor | discriminate].
  - now intros [].
Qed.

Lemma read_fail_fast_spec s f : read_fail_fast s = Some f <-> Fast s f.
Proof.
  unfold read_fail_fast. split.
  - destruct (str_eqb s (L "false")) eqn:E1; [intros [= <-]; apply str_eqb_eq in E1; subst; constructor |].
    destruct (str_eqb s (L "true")) eqn:E2; [intros [= <-]; apply str_eqb_eq in E2; subst; constructor |].
    destruct (str_eqb s (L "file")) eqn:E3; [intros [= <-]; apply str_eqb_eq in E3; subst; constructor | discriminate].
  - now intros [].
Qed.

Lemma read_mode_spec s f : read_mode s = Some f <-> Mode s f.
Proof.
  unfold read_mode. split.
  - destruct (str_eqb s (L "default")) eqn:E1; [intros [= <-]; apply str_eqb_eq in E1; subst; constructor |].
    destruct (str_eqb s (L "json")) eqn:E2; [intros [= <-]; apply str_eqb_eq in E2; subst; constructor |].
    destruct (str_eqb s (L "silent")) eqn:E3; [intros [= <-]; apply str_eqb_eq in E3; subst; constructor | discriminate].
  - now intros [].
Qed.

Lemma read_kind_spec s k : read_kind s = Some k <-> Kind s k.
Proof.
  unfold read_kind. split.
  - intros H. apply find_some in H. destruct H as [_ H]. apply str_eqb_eq in H. subst. destruct k; constructor.
  - now intros [].
Qed.

Lemma kind_plain s k : Kind s k -> ~ In 61 s /\ ~ In 44 s.
Proof. intros []; cbn; split; intros H; repeat (destruct H as [H | H]; [discriminate |]); exact H. Qed.

Lemma split_at_char_none p s : split_at_char p s = None <-> ~ In p s.
Proof.
  induction s as [| c s IH]; cbn [split_at_char]; [split; [intros _ [] | reflexivity] |].
  destruct (N.eqb_spec c p) as [-> | Hc]; [split; [discriminate | intros H; exfalso; apply H; now left] |].
  destruct (split_at_char p s) as [[a b] |].
  - split; [discriminate |]. intros H. destruct IH as [_ IH]. discriminate IH. intros Hin. apply H. now right.
  - split; [| reflexivity]. intros _ [-> | H]; [congruence |]. now apply IH.
Qed.

Lemma split_once_some p s a b : split_once p s = Some (a, b) <-> s = a ++ p :: b /\ ~ In p a.
Proof.
  unfold split_once. revert a b. induction s as [| c s IH]; intros a b; cbn [split_at_char].
  - split; [discriminate |]. intros [H _]. destruct a; discriminate.
  - destruct (N.eqb_spec c p) as [-> | Hc].
    + split.
      * intros [= <- <-]. split; [reflexivity | intros []].
      * intros [H Hn]. destruct a as [| x a]; [now injection H as -> |]. injection H as -> _.
        exfalso. apply Hn. now left.
    + destruct (split_at_char p s) as [[a0 b0] |] eqn:E.
      * split.
        { destruct b0 as [| y b0]; [discriminate |]. intros [= <- <-].
          destruct (IH a0 b0) as [IH1 _]. destruct (IH1 eq_refl) as [-> Hn].
          split; [reflexivity |]. intros [H | H]; [congruence | now apply Hn]. }
        { intros [H Hn]. destruct a as [| x a]; [injection H as H _; congruence |].
          injection H as -> H. destruct (IH a b) as [_ IH2].
          specialize (IH2 (conj H (fun Hi => Hn (or_intror Hi)))).
          destruct b0; [discriminate |]. now injection IH2 as -> ->. }
      * split; [discriminate |]. intros [H Hn]. apply split_at_char_none in E.
        destruct a as [| x a]; [injection H as H _; congruence |]. injection H as -> ->.
        exfalso. apply E, in_or_app. right. now left.
Qed.

Lemma split_once_none p s : split_once p s = None <-> ~ In p s.
Proof.
  split.
  - intros H Hin. apply in_split in Hin.
    destruct (split_at_char p s) as [[a b] |] eqn:E.
    + unfold split_once in H. rewrite E in H. destruct b as [| c b]; [| discriminate].
      clear H Hin. revert a E. induction s as [| c s IH]; intros a E; [discriminate |]. cbn [split_at_char] in E.
      destruct (c =? p); [discriminate |]. destruct (split_at_char p s) as [[x y] |]; [| discriminate].
      injection E as _ ->. eapply IH. reflexivity.
    + apply split_at_char_none in E. destruct Hin as (a & b & ->). apply E, in_or_app. right. now left.
  - intros H. apply split_at_char_none in H. unfold split_once. now rewrite H.
Qed.

Lemma read_tag_spec s k v : read_tag s = Some (k, v) <-> exists key, Kind key k /\ s = key ++ L "=" ++ v.
Proof.
  unfold read_tag. split.
  - destruct (split_once 61 s) as [[key w] |] eqn:E; [| discriminate].
    apply split_once_some in E. destruct E as [-> _].
    destruct (read_kind key) as [k' |] eqn:Ek; [| discriminate]. intros [= -> ->].
    exists key. split; [now apply read_kind_spec | reflexivity].
  - intros (key & Hk & ->).
    assert (split_once 61 (key ++ L "=" ++ v) = Some (key, v)) as ->
      by (apply split_once_some; split; [reflexivity | apply (kind_plain key k Hk)]).
    apply read_kind_spec in Hk. now rewrite Hk.
Qed.

Lemma split_char_no p s : ~ In p s -> split_char p s = [s].
Proof.
  induction s as [| c s IH]; intros H; [reflexivity |]. cbn [split_char].
  destruct (N.eqb_spec c p) as [-> | _]; [exfalso; apply H; now left |].
  rewrite IH; [reflexivity |]. intros Hi. apply H. now right.
Qed.

Lemma split_char_app p a b : ~ In p a -> split_char p (a ++ p :: b) = a :: split_char p b.
Proof.
  induction a as [| c a IH]; intros H; cbn [app split_char].
  - now rewrite N.eqb_refl.
  - destruct (N.eqb_spec c p) as [-> | _]; [exfalso; apply H; now left |].
    rewrite IH; [reflexivity |]. intros Hi. apply H. now right.
Qed.

Lemma kind_not_comma k kind v : Kind k kind -> ~ In 44 v -> ~ In 44 (k ++ L "=" ++ v).
Proof.
  intros Hk Hv Hi. apply in_app_or in Hi. destruct Hi as [Hi | [Hi | Hi]].
  - now apply (kind_plain k kind Hk).
  - discriminate.
  - now apply Hv.
Qed.

Lemma read_tags_spec s l : read_tags s = Some l <-> Tags s l.
Proof.
  unfold read_tags. split.
  - remember (length s) as n eqn:En. assert (Hn : (length s <= n)%nat) by lia. clear En.
    revert s l Hn. induction n as [| n IH]; intros s l Hn.
    + destruct s; [discriminate | cbn in Hn; lia].
    + destruct (split_once 44 s) as [[a b] |] eqn:E.
      * apply split_once_some in E. destruct E as [-> Ha]. rewrite split_char_app by exact Ha.
        cbn [map collect]. destruct (read_tag a) as [[k v] |] eqn:Et; [| discriminate].
        destruct (collect (map read_tag (split_char 44 b))) as [l' |] eqn:Ec; [| discriminate].
        intros [= <-]. apply read_tag_spec in Et. destruct Et as (key & Hk & ->).
        apply IH in Ec; [| rewrite app_length in Hn; cbn in Hn; lia].
        rewrite <- !app_assoc. apply tags_more; [exact Hk | | exact Ec].
        intros Hi. apply Ha, in_or_app. right. apply in_or_app. now right.
      * apply split_once_none in E. rewrite split_char_no by exact E. cbn [map collect].
        destruct (read_tag s) as [[k v] |] eqn:Et; [| discriminate]. intros [= <-].
        apply read_tag_spec in Et. destruct Et as (key & Hk & ->). apply tags_one; [exact Hk |].
        intros Hi. apply E, in_or_app. right. now right.
  - intros H. induction H as [k kind v Hk Hv | k kind v s l Hk Hv H IH].
    + rewrite split_char_no by now apply kind_not_comma with kind. cbn [map collect].
      assert (read_tag (k ++ L "=" ++ v) = Some (kind, v)) as -> by (apply read_tag_spec; eauto). reflexivity.
    + replace (k ++ L "=" ++ v ++ L "," ++ s) with ((k ++ L "=" ++ v) ++ 44 :: s) by (rewrite <- !app_assoc; reflexivity).
      rewrite split_char_app by now apply kind_not_comma with kind. cbn [map collect].
      assert (read_tag (k ++ L "=" ++ v) = Some (kind, v)) as -> by (apply read_tag_spec; eauto).
      now rewrite IH.
Qed.

(** ** Uses *)

Lemma got_some {A} (o : option A) a : got o = Got a <-> o = Some a.
Proof. destruct o; cbn; split; congruence. Qed.

Lemma opt_map_some {A B} (f : A -> B) o b : opt_map f o = Some b <-> exists a, o = Some a /\ f a = b.
Proof.
  destruct o; cbn; split; try discriminate.
  - intros [= <-]. eauto.
  - intros (a' & [= ->] & ->). reflexivity.
  - intros (a' & [=] & _).
Qed.

Lemma read_path_spec s p : read_path s = Some p <-> p <> [] /\ s = p.
Proof.
  unfold read_path. destruct s; cbn; split; try discriminate.
  - intros [H <-]. congruence.
  - intros [= <-]. split; [discriminate | reflexivity].
  - intros [_ ->]. reflexivity.
Qed.

Lemma take_value o v u : take o (Some v) = Got u <-> Valued (long_name o) v u.
Proof.
  destruct o; cbn [take long_name]; (split; [| intros H; inversion H; subst]); try discriminate;
    try (intros H; apply got_some, opt_map_some in H; destruct H as (x & H & <-));
    try (rewrite got_some, opt_map_some).
  - apply read_path_spec in H. destruct H as [H ->]. now constructor.
  - exists v. split; [now apply read_path_spec | reflexivity].
  - apply opt_map_some in H. destruct H as (n & H & <-). constructor. apply read_number_spec. exact H.
  - exists (Some n). split; [| reflexivity]. apply opt_map_some. exists n. split; [| reflexivity].
    apply read_number_spec. exact H0.
  - apply read_path_spec in H. destruct H as [H ->]. now constructor.
  - exists v. split; [now apply read_path_spec | reflexivity].
  - constructor. now apply read_number_spec.
  - exists n. split; [now apply read_number_spec | reflexivity].
  - constructor. now apply read_bool_spec.
  - exists b. split; [now apply read_bool_spec | reflexivity].
  - constructor. now apply read_tags_spec.
  - exists l. split; [now apply read_tags_spec | reflexivity].
  - constructor. now apply read_bool_spec.
  - exists b. split; [now apply read_bool_spec | reflexivity].
  - constructor. now apply read_fail_fast_spec.
  - exists f. split; [now apply read_fail_fast_spec | reflexivity].
  - constructor. now apply read_bool_spec.
  - exists b. split; [now apply read_bool_spec | reflexivity].
  - constructor. now apply read_bool_spec.
  - exists b. split; [now apply read_bool_spec | reflexivity].
  - constructor. now apply read_mode_spec.
  - exists m. split; [now apply read_mode_spec | reflexivity].
Qed.

Lemma take_bare o u : take o None = Got u <-> Bare (long_name o) u.
Proof.
  destruct o; cbn [take long_name]; (split; [intros H; try discriminate; injection H as <-; constructor |
    intros H; inversion H; reflexivity]).
Qed.

Lemma find_long_name o : find_long (long_name o) = Some o.
Proof. destruct o; reflexivity. Qed.

Lemma find_long_some s o : find_long s = Some o <-> s = long_name o.
Proof.
  split; [| intros ->; apply find_long_name].
  intros H. apply find_some in H. destruct H as [_ H]. now apply str_eqb_eq in H.
Qed.

Lemma find_short_some c o : find_short c = Some o <-> short_name o = Some c.
Proof.
  split.
  - intros H. apply find_some in H. destruct H as [_ H]. destruct (short_name o); [| discriminate].
    apply N.eqb_eq in H. congruence.
  - destruct o; try discriminate; intros [= <-]; reflexivity.
Qed.

Lemma bare_name n u : Bare n u -> exists o, n = long_name o /\ take o None = Got u.
Proof.
  intros H. assert (exists o, n = long_name o) as [o ->].
  { destruct H; [exists OStdin | exists ORecurse | exists OStdout | exists OXml | exists OPretty | exists OCompletePage
      | exists OFragment | exists OForgiving | exists OFailFast | exists OMetadata | exists OMetadataElements]; reflexivity. }
  exists o. split; [reflexivity |]. now apply take_bare.
Qed.

Lemma valued_name n v u : Valued n v u -> exists o, n = long_name o /\ take o (Some v) = Got u.
Proof.
  intros H. assert (exists o, n = long_name o) as [o ->].
  { destruct H; [exists ODir | exists ORecurse | exists OOut | exists OIndent | exists OCompletePage | exists OSpecialTag
      | exists OForgiving | exists OFailFast | exists OMetadata | exists OMetadataElements | exists OErrorMode]; reflexivity. }
  exists o. split; [reflexivity |]. now apply take_value.
Qed.

Lemma name_plain o : ~ In 61 (long_name o) /\ long_name o <> [].
Proof. destruct o; cbn; split; try discriminate; intros H; repeat (destruct H as [H | H]; [discriminate |]); exact H. Qed.

Lemma separable_arity o : Separable (long_name o) <-> arity_of o = AOne \/ arity_of o = AMaybe.
Proof.
  unfold Separable. split.
  - destruct o; cbn [arity_of]; auto; intros H; exfalso; cbn in H;
      repeat (destruct H as [H | H]; [discriminate |]); exact H.
  - destruct o; cbn [arity_of]; intros [H | H]; try discriminate; cbn; tauto.
Qed.

(** ** Words *)

Definition hyphened (w : str) : bool := match w with c :: _ :: _ => c =? 45 | _ => false end.

Lemma hyphened_spec w : hyphened w = true <-> Hyphened w.
Proof.
  unfold Hyphened. destruct w as [| a [| b w]]; cbn [hyphened].
  - split; [discriminate | intros (c & s & H); discriminate].
  - split; [discriminate | intros (c & s & H); discriminate].
  - split; [intros H; apply N.eqb_eq in H; subst; eauto | intros (c & s & [= -> _ _]); reflexivity].
Qed.

Lemma word_other w : word_of w = WOther <-> ~ Hyphened w.
Proof.
  rewrite <- hyphened_spec. destruct w as [| a [| b w]]; cbn [word_of hyphened]; try (split; [discriminate | reflexivity]).
  destruct (a =? 45); [| split; [discriminate | reflexivity]].
  split; [| congruence]. destruct (b =? 45); [destruct (is_nil w) |]; discriminate.
Qed.

Lemma word_escape w : word_of w = WEscape -> w = L "--".
Proof.
  destruct w as [| a [| b w]]; try discriminate. cbn [word_of]. destruct (N.eqb_spec a 45) as [-> |]; [| discriminate].
  destruct (N.eqb_spec b 45) as [-> |]; [| discriminate]. destruct w; [reflexivity | discriminate].
Qed.

Lemma word_long w s : word_of w = WLong s <-> w = L "--" ++ s /\ s <> [].
Proof.
  split.
  - destruct w as [| a [| b w]]; try discriminate. cbn [word_of]. destruct (N.eqb_spec a 45) as [-> |]; [| discriminate].
    destruct (N.eqb_spec b 45) as [-> |]; [| discriminate]. destruct w; [discriminate |]. intros [= <-]. split; [reflexivity | discriminate].
  - intros [-> H]. destruct s; [congruence | reflexivity].
Qed.

Lemma word_short w s : word_of w = WShort s <-> w = L "-" ++ s /\ s <> [] /\ hd 0 s <> 45.
Proof.
  split.
  - destruct w as [| a [| b w]]; try discriminate. cbn [word_of]. destruct (N.eqb_spec a 45) as [-> |]; [| discriminate].
    destruct (N.eqb_spec b 45) as [-> | Hb]; [destruct (is_nil w); discriminate |]. intros [= <-].
    split; [reflexivity | split; [discriminate | exact Hb]].
  - intros (-> & H & Hh). destruct s as [| c s]; [congruence |]. cbn in Hh. cbn.
    destruct (N.eqb_spec c 45); [congruence | reflexivity].
Qed.

(** An argument that may still get a value. *)
Lemma read_pending o ws :
  read (Some o) ws =
  match ws with
  | w :: rest => if hyphened w then cons_o (take o None) (read None ws) else cons_o (take o (Some w)) (read None rest)
  | [] => cons_o (take o None) (Got [])
  end.
Proof.
  destruct ws as [| w rest]; [reflexivity |]. cbn [read finish]. destruct (hyphened w) eqn:E.
  - destruct (word_of w) eqn:Ew; try reflexivity. apply word_other in Ew. exfalso. apply Ew. now apply hyphened_spec.
  - assert (Ho : ~ Hyphened w) by (rewrite <- hyphened_spec; congruence). apply word_other in Ho. now rewrite Ho.
Qed.

Lemma cons_o_got {A} (u : outcome A) us l : cons_o u us = Got l <-> exists x xs, u = Got x /\ us = Got xs /\ l = x :: xs.
Proof.
  unfold cons_o, bind_o. split.
  - destruct u; try discriminate. destruct us; try discriminate. intros [= <-]. eauto.
  - intros (x & xs & H1 & H2 & ->). now rewrite H1, H2.
Qed.

Lemma files_spec ws us : files ws = Got us <-> Forall (fun f => f <> []) ws /\ us = map UFile ws.
Proof.
  revert us. induction ws as [| w ws IH]; intros us; cbn [files].
  - split; [intros [= <-]; auto | intros [_ ->]; reflexivity].
  - rewrite cons_o_got. split.
    + intros (x & xs & Hx & Hxs & ->). apply IH in Hxs. destruct Hxs as [H1 ->].
      unfold file in Hx. apply got_some, opt_map_some in Hx. destruct Hx as (p & Hp & <-).
      apply read_path_spec in Hp. destruct Hp as [Hp ->]. auto.
    + intros [H ->]. inversion H; subst. exists (UFile w), (map UFile ws). split; [| split; [| reflexivity]].
      * unfold file. rewrite got_some, opt_map_some. exists w. split; [now apply read_path_spec | reflexivity].
      * now apply IH.
Qed.

(** The letters of a word: flags, then perhaps one with a value. *)
Inductive Shorts : str -> list use -> option opt -> Prop :=
| sh_flags cs fs : Flags cs fs -> Shorts cs fs None
| sh_pending cs fs c o : Flags cs fs -> short_name o = Some c -> arity_of o <> ANone -> Shorts (cs ++ [c]) fs (Some o)
| sh_value cs fs c o v u :
    Flags cs fs -> short_name o = Some c -> arity_of o <> ANone -> v <> [] -> hd 0 v <> 61 -> take o (Some v) = Got u ->
    Shorts (cs ++ c :: v) (fs ++ [u]) None
| sh_equals cs fs c o v u :
    Flags cs fs -> short_name o = Some c -> arity_of o <> ANone -> take o (Some v) = Got u ->
    Shorts (cs ++ c :: 61 :: v) (fs ++ [u]) None.

Lemma flag_take o c u : short_name o = Some c -> arity_of o = ANone -> take o None = Got u -> Flag c u.
Proof. destruct o; try discriminate; intros [= <-] _; cbn; try discriminate; intros [= <-]; constructor. Qed.

Lemma shorts_spec cs : forall us p, shorts cs = Got (us, p) <-> Shorts cs us p.
Proof.
  intros us p. split.
  - revert us p. induction cs as [| c cs IH]; intros us p; cbn [shorts].
    + intros [= <- <-]. apply sh_flags. constructor.
    + destruct (find_short c) as [o |] eqn:Eo; [| discriminate]. apply find_short_some in Eo.
      assert (Hval : arity_of o <> ANone ->
        (match cs with
         | [] => Got ([], Some o)
         | d :: v => bind_o (take o (Some (if d =? 61 then v else cs))) (fun u => Got ([u], None))
         end) = Got (us, p) -> Shorts (c :: cs) us p).
      { intros Ha. destruct cs as [| d v].
        - intros [= <- <-]. apply (sh_pending [] [] c o); auto. constructor.
        - destruct (N.eqb_spec d 61) as [-> | Hd].
          + destruct (take o (Some v)) as [u | |] eqn:Et; try discriminate. intros [= <- <-].
            apply (sh_equals [] [] c o v u); auto. constructor.
          + destruct (take o (Some (d :: v))) as [u | |] eqn:Et; try discriminate. intros [= <- <-].
            apply (sh_value [] [] c o (d :: v) u); auto; [constructor | discriminate]. }
      destruct (arity_of o) eqn:Ea; [| apply Hval; discriminate | apply Hval; discriminate | apply Hval; discriminate].
      clear Hval. destruct (take o None) as [u | |] eqn:Et; try discriminate.
      destruct (shorts cs) as [[us' p'] | |] eqn:Es; try discriminate. intros [= <- <-].
      assert (Hf : Flag c u) by now apply flag_take with o.
      specialize (IH us' p' eq_refl). inversion IH; subst.
      * apply sh_flags. now constructor.
      * apply (sh_pending (c :: cs0) (u :: us')); auto. now constructor.
      * apply (sh_value (c :: cs0) (u :: fs) c0 o0 v u0); auto. now constructor.
      * apply (sh_equals (c :: cs0) (u :: fs) c0 o0 v u0); auto. now constructor.
  - assert (Hf : forall cs1 fs rest, Flags cs1 fs ->
               forall us p, shorts rest = Got (us, p) -> shorts (cs1 ++ rest) = Got (fs ++ us, p)).
    { intros cs1 fs rest H. induction H as [| c u cs1 fs Hc H IH]; intros us' p' Hr; [exact Hr |].
      specialize (IH us' p' Hr). cbn [app shorts].
      destruct Hc; cbn [find_short find all_opts short_name N.eqb Pos.eqb arity_of take bind_o]; rewrite IH; reflexivity. }
    assert (Hlast : forall c o rest, short_name o = Some c -> arity_of o <> ANone ->
              shorts (c :: rest) = match rest with
                | [] => Got ([], Some o)
                | d :: v => bind_o (take o (Some (if d =? 61 then v else rest))) (fun u => Got ([u], None))
                end).
    { intros c o rest Ho Ha. cbn [shorts]. apply find_short_some in Ho. rewrite Ho.
      destruct (arity_of o); [congruence | reflexivity..]. }
    intros []; subst.
    + pose proof (Hf cs0 fs [] H [] None eq_refl) as H'. now rewrite !app_nil_r in H'.
    + rewrite (Hf cs0 fs [c] H [] (Some o)); [now rewrite app_nil_r |]. now rewrite (Hlast c o []).
    + apply (Hf cs0 fs (c :: v) H [u] None). rewrite (Hlast c o v) by assumption.
      destruct v as [| d v]; [congruence |]. cbn in H3. destruct (N.eqb_spec d 61); [congruence |]. now rewrite H4.
    + apply (Hf cs0 fs (c :: 61 :: v) H [u] None). rewrite (Hlast c o) by assumption. rewrite N.eqb_refl. now rewrite H2.
Qed.

Lemma letter_name c n : Letter c n <-> exists o, n = long_name o /\ short_name o = Some c /\ arity_of o <> ANone.
Proof.
  split.
  - intros []; [exists ODir | exists ORecurse | exists OOut]; repeat split; discriminate.
  - intros (o & -> & Hs & Ha). destruct o; try discriminate; injection Hs as <-; try constructor; now destruct Ha.
Qed.

(** What [long] gives. *)
Inductive Long : str -> list use -> option opt -> Prop :=
| lo_bare o u : arity_of o = ANone \/ arity_of o = AEquals -> take o None = Got u -> Long (long_name o) [u] None
| lo_pending o : arity_of o = AOne \/ arity_of o = AMaybe -> Long (long_name o) [] (Some o)
| lo_value o v u : take o (Some v) = Got u -> Long (long_name o ++ L "=" ++ v) [u] None.

Lemma long_spec s us p : long s = Got (us, p) <-> Long s us p.
Proof.
  unfold long. split.
  - destruct (split_once 61 s) as [[n v] |] eqn:E.
    + apply split_once_some in E. destruct E as [-> _].
      destruct (find_long n) as [o |] eqn:Eo; [| discriminate]. apply find_long_some in Eo. subst.
      intros H. assert (H' : bind_o (take o (Some v)) (fun u => Got ([u], None)) = Got (us, p)) by (destruct (arity_of o); exact H).
      clear H. destruct (take o (Some v)) as [u | |] eqn:Et; try discriminate. injection H' as <- <-. now apply lo_value.
    + destruct (find_long s) as [o |] eqn:Eo; [| discriminate]. apply find_long_some in Eo. subst.
      destruct (arity_of o) eqn:Ea.
      * destruct (take o None) as [u | |] eqn:Et; try discriminate. intros [= <- <-]. apply lo_bare; auto.
      * intros [= <- <-]. apply lo_pending. auto.
      * intros [= <- <-]. apply lo_pending. auto.
      * destruct (take o None) as [u | |] eqn:Et; try discriminate. intros [= <- <-]. apply lo_bare; auto.
  - intros [o u Ha Ht | o Ha | o v u Ht].
    + assert (split_once 61 (long_name o) = None) as -> by (apply split_once_none, name_plain).
      rewrite find_long_name. destruct Ha as [Ha | Ha]; rewrite Ha, Ht; reflexivity.
    + assert (split_once 61 (long_name o) = None) as -> by (apply split_once_none, name_plain).
      rewrite find_long_name. destruct Ha as [Ha | Ha]; rewrite Ha; reflexivity.
    + assert (split_once 61 (long_name o ++ L "=" ++ v) = Some (long_name o, v)) as ->
        by (apply split_once_some; split; [reflexivity | apply name_plain]).
      rewrite find_long_name, Ht. destruct (arity_of o); reflexivity.
Qed.

(** The value is the next word, or there is none. *)
Lemma pending_got o ws us :
  read (Some o) ws = Got us ->
  exists u us', us = u :: us' /\
    ((NoValue ws /\ take o None = Got u /\ read None ws = Got us') \/
     (exists v rest, ws = v :: rest /\ ~ Hyphened v /\ take o (Some v) = Got u /\ read None rest = Got us')).
Proof.
  rewrite read_pending. destruct ws as [| w rest].
  - intros H. apply cons_o_got in H. destruct H as (u & us' & H1 & H2 & ->). injection H2 as <-.
    exists u, []. split; [reflexivity |]. left. split; [exact I |]. split; [exact H1 | reflexivity].
  - destruct (hyphened w) eqn:E; intros H; apply cons_o_got in H; destruct H as (u & us' & H1 & H2 & ->);
      exists u, us'; (split; [reflexivity |]).
    + left. split; [now apply hyphened_spec |]. auto.
    + right. exists w, rest. split; [reflexivity |]. split; [rewrite <- hyphened_spec; congruence |]. auto.
Qed.

Lemma pending_bare o ws u us :
  NoValue ws -> take o None = Got u -> read None ws = Got us -> read (Some o) ws = Got (u :: us).
Proof.
  intros Hn Ht Hr. rewrite read_pending. destruct ws as [| w rest].
  - cbn in Hr. injection Hr as <-. rewrite Ht. reflexivity.
  - apply hyphened_spec in Hn. rewrite Hn, Ht, Hr. reflexivity.
Qed.

Lemma pending_value o v ws u us :
  ~ Hyphened v -> take o (Some v) = Got u -> read None ws = Got us -> read (Some o) (v :: ws) = Got (u :: us).
Proof.
  intros Hn Ht Hr. rewrite read_pending. rewrite <- hyphened_spec in Hn.
  destruct (hyphened v); [congruence |]. rewrite Ht, Hr. reflexivity.
Qed.

Lemma read_spelled ws us : read None ws = Got us -> Spelled ws us.
Proof.
  remember (length ws) as n eqn:En. assert (Hn : (length ws <= n)%nat) by lia. clear En.
  revert ws us Hn. induction n as [| n IH]; intros ws us Hn.
  { destruct ws; [| cbn in Hn; lia]. intros [= <-]. constructor. }
  destruct ws as [| w ws]; [intros [= <-]; constructor |]. cbn [length] in Hn.
  cbn [read finish]. destruct (word_of w) as [| s | s |] eqn:Ew.
  - apply word_escape in Ew. subst w. intros H. apply files_spec in H. destruct H as [H ->]. now apply sp_rest.
  - apply word_long in Ew. destruct Ew as [-> Hs].
    destruct (long s) as [[us1 p] | |] eqn:El; try discriminate. cbn [bind_o].
    destruct (read p ws) as [vs | |] eqn:Er; try discriminate. intros [= <-].
    apply long_spec in El. destruct El as [o u Ha Ht | o Ha | o v u Ht].
    + apply take_bare in Ht. apply sp_bare; [exact Ht | | apply IH; [lia | exact Er]].
      intros Ho. destruct o; cbn in Ha; destruct Ha; discriminate.
    + apply pending_got in Er. destruct Er as (u & us' & -> & [(Hv & Ht & Hr) | (v & rest & -> & Hv & Ht & Hr)]).
      * cbn [app]. apply sp_bare; [now apply take_bare | intros _; exact Hv | apply IH; [lia | exact Hr]].
      * cbn [app]. apply sp_next; [now apply take_value | now apply separable_arity | exact Hv |].
        apply IH; [cbn in Hn; lia | exact Hr].
    + cbn [app]. apply sp_equals; [now apply take_value | apply IH; [lia | exact Er]].
  - apply word_short in Ew. destruct Ew as (-> & Hs & Hh).
    destruct (shorts s) as [[us1 p] | |] eqn:El; try discriminate. cbn [bind_o].
    destruct (read p ws) as [vs | |] eqn:Er; try discriminate. intros [= <-].
    apply shorts_spec in El. destruct El as [cs fs Hf | cs fs c o Hf Ho Ha | cs fs c o v u Hf Ho Ha Hv0 Hv Ht | cs fs c o v u Hf Ho Ha Ht].
    + apply sp_flags; [exact Hs | exact Hf | apply IH; [lia | exact Er]].
    + apply pending_got in Er.
      assert (HL : Letter c (long_name o)) by (apply letter_name; eauto).
      destruct Er as (u & us' & -> & [(Hv & Ht & Hr) | (v & rest & -> & Hv & Ht & Hr)]).
      * apply (sp_letter cs fs c (long_name o)); auto; [now apply take_bare | apply IH; [lia | exact Hr]].
      * apply (sp_letter_next cs fs c (long_name o)); auto; [now apply take_value | apply IH; [cbn in Hn; lia | exact Hr]].
    + assert (HL : Letter c (long_name o)) by (apply letter_name; eauto).
      rewrite <- app_assoc. apply (sp_letter_value cs fs c (long_name o)); auto;
        [now apply take_value | apply IH; [lia | exact Er]].
    + assert (HL : Letter c (long_name o)) by (apply letter_name; eauto).
      rewrite <- app_assoc. apply (sp_letter_equals cs fs c (long_name o)); auto;
        [now apply take_value | apply IH; [lia | exact Er]].
  - apply word_other in Ew. intros H. apply cons_o_got in H. destruct H as (u & us' & H1 & H2 & ->).
    unfold file in H1. apply got_some, opt_map_some in H1. destruct H1 as (p & Hp & <-).
    apply read_path_spec in Hp. destruct Hp as [Hp ->].
    apply sp_file; [exact Hp | exact Ew | apply IH; [lia | exact H2]].
Qed.

Lemma short_word cs c v fs : Flags cs fs -> c <> 45 -> word_of (L "-" ++ cs ++ c :: v) = WShort (cs ++ c :: v).
Proof.
  intros Hf Hc. apply word_short. split; [reflexivity |]. destruct Hf as [| ? ? ? ? [] ?]; cbn; split; try discriminate.
  exact Hc.
Qed.

Lemma read_long s us1 p ws us :
  s <> [] -> Long s us1 p -> read p ws = Got us -> read None ((L "--" ++ s) :: ws) = Got (us1 ++ us).
Proof.
  intros Hs Hl Hr. cbn [read]. assert (word_of (L "--" ++ s) = WLong s) as -> by (apply word_long; auto).
  apply long_spec in Hl. rewrite Hl. cbn [finish bind_o]. now rewrite Hr.
Qed.

Lemma read_short s us1 p ws us w :
  word_of w = WShort s -> Shorts s us1 p -> read p ws = Got us -> read None (w :: ws) = Got (us1 ++ us).
Proof.
  intros Hs Hl Hr. cbn [read]. rewrite Hs.
  apply shorts_spec in Hl. rewrite Hl. cbn [finish bind_o]. now rewrite Hr.
Qed.

Lemma letter_code c n : Letter c n -> c <> 45.
Proof. intros []; discriminate. Qed.

Lemma spelled_read ws us : Spelled ws us -> read None ws = Got us.
Proof.
  intros H. induction H as [| fs Hf | w ws us Hw Hh H IH | n u ws us Hb Hn H IH | n v u ws us Hv H IH
    | n v u ws us Hv Hn Hh H IH | cs fs ws us Hc Hf H IH | cs fs c n u ws us Hf Hl Hb Hn H IH
    | cs fs c n v u ws us Hf Hl Hv Hv0 Hv1 H IH | cs fs c n v u ws us Hf Hl Hv H IH | cs fs c n v u ws us Hf Hl Hv Hh H IH].
  - reflexivity.
  - cbn [read]. change (word_of (L "--")) with WEscape. cbn [finish]. now apply files_spec.
  - cbn [read]. apply word_other in Hh. rewrite Hh. apply cons_o_got. exists (UFile w), us.
    split; [| auto]. unfold file. rewrite got_some, opt_map_some. exists w. split; [now apply read_path_spec | reflexivity].
  - apply bare_name in Hb. destruct Hb as (o & -> & Ht). pose proof (name_plain o) as [_ Hne].
    assert (Hcase : (arity_of o = ANone \/ arity_of o = AEquals) \/ o = ORecurse).
    { destruct o; cbn in Ht |- *; auto; discriminate. }
    destruct Hcase as [Ha | ->].
    + apply (read_long (long_name o) [u] None); [exact Hne | now apply lo_bare | exact IH].
    + apply (read_long (long_name ORecurse) [] (Some ORecurse)); [exact Hne | apply lo_pending; now right |].
      apply pending_bare; auto.
  - apply valued_name in Hv. destruct Hv as (o & -> & Ht). pose proof (name_plain o) as [_ Hne].
    apply (read_long (long_name o ++ L "=" ++ v) [u] None); [| now apply lo_value | exact IH].
    destruct (long_name o); [congruence | discriminate].
  - apply valued_name in Hv. destruct Hv as (o & -> & Ht). pose proof (name_plain o) as [_ Hne].
    apply (read_long (long_name o) [] (Some o)); [exact Hne | apply lo_pending; now apply separable_arity |].
    now apply pending_value.
  - apply (read_short cs fs None); [| now apply sh_flags | exact IH].
    apply word_short. split; [reflexivity |]. split; [exact Hc |].
    destruct Hf as [| ? ? ? ? [] ?]; [congruence | discriminate | discriminate].
  - pose proof (letter_code c n Hl) as Hc. apply letter_name in Hl. destruct Hl as (o & -> & Ho & Ha).
    apply take_bare in Hb. apply (read_short (cs ++ [c]) fs (Some o)); [now apply short_word with fs | now apply sh_pending |].
    now apply pending_bare.
  - pose proof (letter_code c n Hl) as Hc. apply letter_name in Hl. destruct Hl as (o & -> & Ho & Ha).
    apply take_value in Hv. replace (fs ++ u :: us) with ((fs ++ [u]) ++ us) by (rewrite <- app_assoc; reflexivity).
    apply (read_short (cs ++ c :: v) (fs ++ [u]) None); [now apply short_word with fs | now apply sh_value with o | exact IH].
  - pose proof (letter_code c n Hl) as Hc. apply letter_name in Hl. destruct Hl as (o & -> & Ho & Ha).
    apply take_value in Hv. replace (fs ++ u :: us) with ((fs ++ [u]) ++ us) by (rewrite <- app_assoc; reflexivity).
    apply (read_short (cs ++ c :: 61 :: v) (fs ++ [u]) None); [now apply short_word with fs | now apply sh_equals with o | exact IH].
  - pose proof (letter_code c n Hl) as Hc. apply letter_name in Hl. destruct Hl as (o & -> & Ho & Ha).
    apply take_value in Hv. apply (read_short (cs ++ [c]) fs (Some o)); [now apply short_word with fs | now apply sh_pending |].
    now apply pending_value.
Qed.

Theorem read_iff ws us : read None ws = Got us <-> Spelled ws us.
Proof. split; [apply read_spelled | apply spelled_read]. Qed.

(** ** What the uses say together *)

Lemma matches_snoc us u : matches (us ++ [u]) = filter (fun e => negb (overrides u e)) (matches us) ++ [u].
Proof. unfold matches. rewrite fold_left_app. reflexivity. Qed.

Lemma values_app {A} (f : use -> option A) a b : values f (a ++ b) = values f a ++ values f b.
Proof. unfold values. apply flat_map_app. Qed.

Lemma last_use_snoc P us u v :
  Last_use P (us ++ [u]) v <-> (P u /\ v = u) \/ (~ P u /\ Last_use P us v).
Proof.
  split.
  - intros (b & c & E & Hv & Hc). induction c as [| x c _] using rev_ind.
    + apply app_inj_tail in E. destruct E as [-> ->]. auto.
    + rewrite app_comm_cons, app_assoc in E. apply app_inj_tail in E. destruct E as [-> ->]. right.
      split; [apply Hc, in_or_app; right; now left |]. exists b, c. split; [reflexivity |]. split; [exact Hv |].
      intros y Hy. apply Hc, in_or_app. now left.
  - intros [[Hp ->] | [Hp (b & c & -> & Hv & Hc)]].
    + exists us, []. split; [reflexivity |]. split; [exact Hp | intros y []].
    + exists b, (c ++ [u]). split; [now rewrite <- app_assoc |]. split; [exact Hv |].
      intros y Hy. apply in_app_or in Hy. destruct Hy as [Hy | [<- | []]]; [now apply Hc | exact Hp].
Qed.

Section Option.
Context {A : Type} (f : use -> option A) (P : use -> Prop) (p : use -> bool).
Hypothesis Hp : forall u, p u = true <-> P u.
Hypothesis Hf : forall u a, f u = Some a -> P u.

(* a use of it replaces those before it *)
Hypothesis Hown : forall u e, P u -> overrides u e = p e.
Hypothesis Hother : forall u e, ~ P u -> P e -> overrides u e = false.

Lemma values_none m : (forall u, In u m -> ~ P u) -> values f m = [].
Proof.
  induction m as [| u m IH]; intros H; [reflexivity |]. unfold values in *. cbn [flat_map].
  rewrite IH by (intros v Hv; apply H; now right).
  destruct (f u) as [a |] eqn:E; [| reflexivity]. exfalso. apply (H u); [now left | now apply Hf with a].
Qed.

Lemma values_filter q m : (forall u, In u m -> P u -> q u = true) -> values f (filter q m) = values f m.
Proof.
  induction m as [| u m IH]; intros H; [reflexivity |]. cbn [filter].
  assert (IH' := IH (fun v Hv => H v (or_intror Hv))). unfold values in *. destruct (q u) eqn:E; cbn [flat_map].
  - now rewrite IH'.
  - destruct (f u) as [a |] eqn:Ef; [| exact IH']. exfalso. apply Hf in Ef. apply H in Ef; [congruence | now left].
Qed.

Lemma values_matches us a : values f (matches us) = [a] <-> exists u, Last_use P us u /\ f u = Some a.
Proof.
  revert a. induction us as [| u us IH] using rev_ind; intros a.
  - split; [discriminate |]. intros (u & (b & c & E & _) & _). destruct b; discriminate.
  - rewrite matches_snoc, values_app.
    destruct (p u) eqn:Ep.
    + apply Hp in Ep. rewrite values_none.
      2:{ intros v Hv. apply filter_In in Hv. destruct Hv as [_ Hv]. rewrite Hown in Hv by exact Ep.
          rewrite <- Hp. intros Hpv. rewrite Hpv in Hv. discriminate. }
      cbn [app]. unfold values. cbn [flat_map]. rewrite app_nil_r. split.
      * destruct (f u) as [b |] eqn:Ef; [| discriminate]. intros [= ->]. exists u. split; [| exact Ef].
        apply last_use_snoc. auto.
      * intros (v & Hv & Hfv). apply last_use_snoc in Hv. destruct Hv as [[_ ->] | [H _]]; [| contradiction]. now rewrite Hfv.
    + assert (HP : ~ P u) by (rewrite <- Hp; congruence). rewrite values_filter.
      2:{ intros v _ Hv. now rewrite Hother. }
      assert (values f [u] = []) as -> by (apply values_none; intros v [<- | []]; exact HP).
      rewrite app_nil_r, IH. split; intros (v & Hv & Hfv); exists v; (split; [| exact Hfv]).
      * apply last_use_snoc. auto.
      * apply last_use_snoc in Hv. tauto.
Qed.

Lemma values_short us : values f (matches us) = [] \/ exists a, values f (matches us) = [a].
Proof.
  induction us as [| u us IH] using rev_ind; [now left |].
  rewrite matches_snoc, values_app. destruct (p u) eqn:Ep.
  - apply Hp in Ep. rewrite values_none.
    2:{ intros v Hv. apply filter_In in Hv. destruct Hv as [_ Hv]. rewrite Hown in Hv by exact Ep.
        rewrite <- Hp. intros Hpv. rewrite Hpv in Hv. discriminate. }
    unfold values. cbn [flat_map app]. destruct (f u) as [b |]; [right; exists b; reflexivity | left; reflexivity].
  - assert (HP : ~ P u) by (rewrite <- Hp; congruence). rewrite values_filter.
    2:{ intros v _ Hv. now rewrite Hother. }
    assert (values f [u] = []) as -> by (apply values_none; intros v [<- | []]; exact HP).
    rewrite app_nil_r. exact IH.
Qed.

Lemma value_matches us a : value f (matches us) = Some a <-> exists u, Last_use P us u /\ f u = Some a.
Proof.
  rewrite <- values_matches. unfold value. destruct (values_short us) as [-> | [b ->]]; split; congruence.
Qed.

Lemma last_use_exists us : Some_use P us -> exists u, Last_use P us u.
Proof.
  induction us as [| u us IH] using rev_ind.
  - intros (u & [] & _).
  - intros (v & Hv & HP). destruct (p u) eqn:Ep.
    + exists u. apply last_use_snoc. left. split; [now apply Hp | reflexivity].
    + assert (Hn : ~ P u) by (rewrite <- Hp; congruence).
      apply in_app_or in Hv. destruct Hv as [Hv | [<- | []]]; [| contradiction].
      destruct IH as [w Hw]; [now exists v |]. exists w. apply last_use_snoc. auto.
Qed.

Lemma last_use_some us u : Last_use P us u -> Some_use P us.
Proof. intros (b & c & -> & H & _). exists u. split; [apply in_or_app; right; now left | exact H]. Qed.

Hypothesis Hall : forall u, P u -> exists a, f u = Some a.

Lemma value_some us : is_some (value f (matches us)) = true <-> Some_use P us.
Proof.
  split.
  - destruct (value f (matches us)) as [a |] eqn:E; [| discriminate]. intros _.
    apply value_matches in E. destruct E as (u & Hu & _). now apply last_use_some with u.
  - intros H. apply last_use_exists in H. destruct H as [u Hu].
    assert (P u) as HP by (destruct Hu as (b & c & _ & H & _); exact H).
    destruct (Hall u HP) as [a Ha]. assert (value f (matches us) = Some a) as -> by (apply value_matches; eauto). reflexivity.
Qed.
End Option.

(* one that keeps what was there *)
Lemma values_append {A} (f : use -> option A) us :
  (forall u e a, f e = Some a -> overrides u e = false) -> values f (matches us) = values f us.
Proof.
  intros H. induction us as [| u us IH] using rev_ind; [reflexivity |].
  rewrite matches_snoc, !values_app, <- IH. f_equal.
  apply (values_filter f (fun e => exists a, f e = Some a)); [eauto |].
  intros v _ [a Ha]. now rewrite (H u v a).
Qed.

Ltac option_hyps :=
  match goal with
  | |- forall u, _ = true <-> _ => intros []; cbn; (split; [intros H; first [discriminate H | eexists; reflexivity] | intros [? H]; first [discriminate H | reflexivity]])
  | |- forall u a, _ = Some a -> _ => intros [] ? H; cbn in H; first [discriminate H | eexists; reflexivity]
  | |- forall u e, _ u -> overrides u e = _ => intros u e [x Hu]; subst u; destruct e; reflexivity
  | |- forall u e, ~ _ -> _ e -> overrides u e = false => intros u e Hn [x He]; subst e; destruct u; try reflexivity; exfalso; apply Hn; eexists; reflexivity
  | |- forall u, _ u -> exists a, _ => intros u [x Hu]; subst u; cbn; eexists; reflexivity
  end.

Lemma last_inj {A} (f : use -> option A) (P : use -> Prop) (inj : A -> use) us a :
  (forall u b, f u = Some b -> u = inj b) -> f (inj a) = Some a ->
  ((exists u, Last_use P us u /\ f u = Some a) <-> Last_use P us (inj a)).
Proof.
  intros H1 H2. split.
  - intros (u & Hu & Hf). apply H1 in Hf. now subst.
  - intros H. exists (inj a). auto.
Qed.

Ltac inj_hyps := intros [] ? H; cbn in H; try discriminate H; injection H as <-; reflexivity.

Section Fields.
Variable us : list use.
Let m := matches us.

Lemma v_dir p : value f_dir m = Some p <-> Last_use is_dir_use us (UDir p).
Proof.
  rewrite <- (last_inj f_dir is_dir_use UDir us p); [| inj_hyps | reflexivity].
  apply (value_matches f_dir is_dir_use (fun u => is_some (f_dir u))); option_hyps.
Qed.
Lemma s_dir : is_some (value f_dir m) = true <-> Some_use is_dir_use us.
Proof. apply (value_some f_dir is_dir_use (fun u => is_some (f_dir u))); option_hyps. Qed.

Lemma v_recurse p : value f_recurse m = Some p <-> Last_use is_recurse_use us (URecurse p).
Proof.
  rewrite <- (last_inj f_recurse is_recurse_use URecurse us p); [| inj_hyps | reflexivity].
  apply (value_matches f_recurse is_recurse_use (fun u => is_some (f_recurse u))); option_hyps.
Qed.
Lemma s_recurse : is_some (value f_recurse m) = true <-> Some_use is_recurse_use us.
Proof. apply (value_some f_recurse is_recurse_use (fun u => is_some (f_recurse u))); option_hyps. Qed.

Lemma v_out p : value f_out m = Some p <-> Last_use is_out_use us (UOut p).
Proof.
  rewrite <- (last_inj f_out is_out_use UOut us p); [| inj_hyps | reflexivity].
  apply (value_matches f_out is_out_use (fun u => is_some (f_out u))); option_hyps.
Qed.
Lemma s_out : is_some (value f_out m) = true <-> Some_use is_out_use us.
Proof. apply (value_some f_out is_out_use (fun u => is_some (f_out u))); option_hyps. Qed.

Lemma v_indent p : value f_indent m = Some p <-> Last_use is_indent_use us (UIndent p).
Proof.
  rewrite <- (last_inj f_indent is_indent_use UIndent us p); [| inj_hyps | reflexivity].
  apply (value_matches f_indent is_indent_use (fun u => is_some (f_indent u))); option_hyps.
Qed.
Lemma s_indent : is_some (value f_indent m) = true <-> Some_use is_indent_use us.
Proof. apply (value_some f_indent is_indent_use (fun u => is_some (f_indent u))); option_hyps. Qed.

Lemma v_complete_page p : value f_complete_page m = Some p <-> Last_use is_complete_page_use us (UCompletePage p).
Proof.
  rewrite <- (last_inj f_complete_page is_complete_page_use UCompletePage us p); [| inj_hyps | reflexivity].
  apply (value_matches f_complete_page is_complete_page_use (fun u => is_some (f_complete_page u))); option_hyps.
Qed.
Lemma s_complete_page : is_some (value f_complete_page m) = true <-> Some_use is_complete_page_use us.
Proof. apply (value_some f_complete_page is_complete_page_use (fun u => is_some (f_complete_page u))); option_hyps. Qed.

Lemma v_forgiving p : value f_forgiving m = Some p <-> Last_use is_forgiving_use us (UForgiving p).
Proof.
  rewrite <- (last_inj f_forgiving is_forgiving_use UForgiving us p); [| inj_hyps | reflexivity].
  apply (value_matches f_forgiving is_forgiving_use (fun u => is_some (f_forgiving u))); option_hyps.
Qed.
Lemma s_forgiving : is_some (value f_forgiving m) = true <-> Some_use is_forgiving_use us.
Proof. apply (value_some f_forgiving is_forgiving_use (fun u => is_some (f_forgiving u))); option_hyps. Qed.

Lemma v_fail_fast p : value f_fail_fast m = Some p <-> Last_use is_fail_fast_use us (UFailFast p).
Proof.
  rewrite <- (last_inj f_fail_fast is_fail_fast_use UFailFast us p); [| inj_hyps | reflexivity].
  apply (value_matches f_fail_fast is_fail_fast_use (fun u => is_some (f_fail_fast u))); option_hyps.
Qed.
Lemma s_fail_fast : is_some (value f_fail_fast m) = true <-> Some_use is_fail_fast_use us.
Proof. apply (value_some f_fail_fast is_fail_fast_use (fun u => is_some (f_fail_fast u))); option_hyps. Qed.

Lemma v_error_mode p : value f_error_mode m = Some p <-> Last_use is_error_mode_use us (UErrorMode p).
Proof.
  rewrite <- (last_inj f_error_mode is_error_mode_use UErrorMode us p); [| inj_hyps | reflexivity].
  apply (value_matches f_error_mode is_error_mode_use (fun u => is_some (f_error_mode u))); option_hyps.
Qed.
Lemma s_error_mode : is_some (value f_error_mode m) = true <-> Some_use is_error_mode_use us.
Proof. apply (value_some f_error_mode is_error_mode_use (fun u => is_some (f_error_mode u))); option_hyps. Qed.

Definition metadata_use (u : use) : bool := is_some (f_metadata u) || is_some (f_metadata_elements u).

Lemma metadata_use_spec u : metadata_use u = true <-> is_metadata_use u.
Proof.
  unfold is_metadata_use. destruct u; cbn; split; try discriminate; eauto;
    intros [x [H | H]]; discriminate.
Qed.

Lemma v_metadata p : value f_metadata m = Some p <-> Last_use is_metadata_use us (UMetadata p).
Proof.
  rewrite <- (last_inj f_metadata is_metadata_use UMetadata us p); [| inj_hyps | reflexivity].
  apply (value_matches f_metadata is_metadata_use metadata_use).
  - apply metadata_use_spec.
  - intros [] ? H; cbn in H; try discriminate H. exists b. auto.
  - intros u e [x [-> | ->]]; destruct e; reflexivity.
  - intros u e Hn [x [-> | ->]]; destruct u; try reflexivity; exfalso; apply Hn; eexists; eauto.
Qed.
Lemma v_metadata_elements p : value f_metadata_elements m = Some p <-> Last_use is_metadata_use us (UMetadataElements p).
Proof.
  rewrite <- (last_inj f_metadata_elements is_metadata_use UMetadataElements us p); [| inj_hyps | reflexivity].
  apply (value_matches f_metadata_elements is_metadata_use metadata_use).
  - apply metadata_use_spec.
  - intros [] ? H; cbn in H; try discriminate H. exists b. auto.
  - intros u e [x [-> | ->]]; destruct e; reflexivity.
  - intros u e Hn [x [-> | ->]]; destruct u; try reflexivity; exfalso; apply Hn; eexists; eauto.
Qed.

(* flags *)
Lemma flag_present (f : use -> option unit) (flag : use) :
  f flag = Some tt -> (forall u a, f u = Some a -> u = flag) ->
  (forall u e, u = flag -> overrides u e = is_some (f e)) ->
  (forall u, u <> flag -> overrides u flag = false) ->
  present f m = true <-> In flag us.
Proof.
  intros H1 H2 H3 H4. unfold present, m.
  rewrite (value_some f (fun u => u = flag) (fun u => is_some (f u))).
  - split; [intros (u & Hu & ->); exact Hu | intros H; exists flag; auto].
  - intros u. split; [| intros ->; now rewrite H1]. destruct (f u) as [a |] eqn:E; [| discriminate]. intros _. now apply H2 with a.
  - exact H2.
  - exact H3.
  - intros u e Hu ->. now apply H4.
  - intros u ->. eauto.
Qed.

Ltac flag_hyps :=
  apply flag_present; [reflexivity | intros [] ? H; cbn in H; try discriminate H; reflexivity
    | intros u e ->; destruct e; reflexivity | intros [] H; try reflexivity; exfalso; now apply H].

Lemma p_stdin : present f_stdin m = true <-> In UStdin us.
Proof. flag_hyps. Qed.
Lemma p_stdout : present f_stdout m = true <-> In UStdout us.
Proof. flag_hyps. Qed.
Lemma p_xml : present f_xml m = true <-> In UXml us.
Proof. flag_hyps. Qed.
Lemma p_pretty : present f_pretty m = true <-> In UPretty us.
Proof. flag_hyps. Qed.
Lemma p_fragment : present f_fragment m = true <-> In UFragment us.
Proof. flag_hyps. Qed.

Lemma v_files : values f_file m = flat_map (fun u => match u with UFile p => [p] | _ => [] end) us.
Proof.
  unfold m. rewrite (values_append f_file us) by (intros u [] a H; try discriminate H; destruct u; reflexivity).
  unfold values. apply flat_map_ext. intros []; reflexivity.
Qed.
Lemma v_special_tag : concat (values f_special_tag m) = flat_map (fun u => match u with USpecialTag l => l | _ => [] end) us.
Proof.
  unfold m. rewrite (values_append f_special_tag us) by (intros u [] a H; try discriminate H; destruct u; reflexivity).
  unfold values. induction us as [| u l IH]; [reflexivity |]. cbn [flat_map]. rewrite concat_app, IH. f_equal.
  destruct u; try reflexivity. apply app_nil_r.
Qed.
Lemma s_files : is_some (value f_file m) = true <-> Some_use is_file_use us.
Proof.
  unfold value. rewrite v_files. clear m. induction us as [| u l IH].
  - split; [discriminate | intros (u & [] & _)].
  - split.
    + intros H. destruct u; cbn [flat_map app] in H;
        try (apply IH in H; destruct H as (v & Hv & HP); exists v; split; [now right | exact HP]).
      exists (UFile p). split; [now left | eexists; reflexivity].
    + intros (v & [<- | Hv] & HP).
      * destruct HP as [p ->]. reflexivity.
      * destruct u; cbn [flat_map app]; try reflexivity; apply IH; exists v; auto.
Qed.
Lemma n_files : values f_file m = [] <-> ~ Some_use is_file_use us.
Proof.
  rewrite <- s_files. unfold value. destruct (values f_file m); split; intros H; try discriminate; try congruence.
  exfalso. now apply H.
Qed.
End Fields.

Lemma opt_ext {A} (x y : option A) : (forall a, x = Some a <-> y = Some a) -> x = y.
Proof.
  intros H. destruct x as [a |]; [symmetry; now apply H |]. destruct y as [b |]; [| reflexivity].
  now apply H.
Qed.


Lemma valid_iff us : valid (matches us) = true <-> Coherent us.
Proof.
  pose proof (p_stdin us) as H1. pose proof (s_dir us) as H2. pose proof (s_files us) as H3.
  pose proof (s_out us) as H4. pose proof (p_stdout us) as H5. pose proof (s_recurse us) as H6.
  pose proof (p_fragment us) as H7. pose proof (s_complete_page us) as H8. pose proof (s_fail_fast us) as H9.
  pose proof (s_forgiving us) as H10. pose proof (s_indent us) as H11. pose proof (p_pretty us) as H12.
  assert (D1 : In UStdin us \/ ~ In UStdin us).
  { rewrite <- H1. destruct (present f_stdin (matches us)); [now left | now right]. }
  assert (D2 : Some_use is_indent_use us \/ ~ Some_use is_indent_use us).
  { rewrite <- H11. destruct (is_some (value f_indent (matches us))); [now left | now right]. }
  assert (E : forall b, negb b = true <-> ~ b = true) by (intros []; cbn; intuition congruence).
  unfold valid. cbn zeta.
  rewrite !Bool.andb_true_iff, !Bool.orb_true_iff, !E, !Bool.andb_true_iff, !Bool.orb_true_iff.
  rewrite H1, H2, H3, H4, H5, H6, H7, H8, H9, H10, H11, H12.
  clear - D1 D2. split; [intros H; constructor; tauto | intros []; tauto].
Qed.

Theorem convert_iff us a :
  (valid (matches us) = true /\ build (matches us) = a) <-> (Coherent us /\ Means us a).
Proof.
  rewrite valid_iff. split; intros [Hc Ha]; (split; [exact Hc |]).
  - subst a. constructor; cbn [build g_stdin g_src_dir g_src_files g_recurse g_out g_stdout g_options g_error_mode
      o_xml o_pretty o_indent o_complete_page o_fragment o_special_tag o_forgiving o_fail_fast o_metadata o_metadata_elements].
    + apply p_stdin.
    + apply v_dir.
    + rewrite <- (n_files us). destruct (values f_file (matches us)); split; congruence.
    + intros fs. rewrite <- v_files. destruct (values f_file (matches us)); [discriminate | congruence].
    + apply v_recurse.
    + apply v_out.
    + apply p_stdout.
    + apply p_xml.
    + apply p_pretty.
    + intros n H. apply v_indent in H. now rewrite H.
    + rewrite <- s_indent. destruct (value f_indent (matches us)); [intros H; exfalso; now apply H | reflexivity].
    + apply v_complete_page.
    + apply p_fragment.
    + apply v_special_tag.
    + apply v_forgiving.
    + apply v_fail_fast.
    + apply v_metadata.
    + apply v_metadata_elements.
    + intros n H. apply v_error_mode in H. now rewrite H.
    + rewrite <- s_error_mode. destruct (value f_error_mode (matches us)); [intros H; exfalso; now apply H | reflexivity].
  - destruct a as [a1 a2 a3 a4 a5 a6 [o1 o2 o3 o4 o5 o6 o7 o8 o9 o10] a8]. destruct Ha as [me_stdin me_dir me_no_files me_files me_recurse me_out me_stdout me_xml me_pretty me_indent me_no_indent me_complete_page me_fragment me_special_tag me_forgiving me_fail_fast me_metadata me_metadata_elements me_error_mode me_no_error_mode].
    cbn [g_stdin g_src_dir g_src_files g_recurse g_out g_stdout g_options g_error_mode
      o_xml o_pretty o_indent o_complete_page o_fragment o_special_tag o_forgiving o_fail_fast o_metadata o_metadata_elements] in *.
    assert (B : forall x y P, (x = true <-> P) -> (y = true <-> P) -> x = y) by (intros [] [] P; intuition congruence).
    unfold build. f_equal; [..| f_equal |].
    + eapply B; [apply p_stdin | exact me_stdin].
    + apply opt_ext. intros p. rewrite me_dir. apply v_dir.
    + pose proof (n_files us) as Hn. pose proof (v_files us) as Hv. destruct a3 as [fs |].
      * pose proof (me_files fs eq_refl) as Hfs. rewrite <- Hv in Hfs. clear me_files. subst fs.
        destruct (values f_file (matches us)); [| reflexivity].
        exfalso. assert (Some (@nil (list N)) = None) by (apply me_no_files, Hn; reflexivity). discriminate.
      * assert (values f_file (matches us) = []) as -> by (apply Hn, me_no_files; reflexivity). reflexivity.
    + apply opt_ext. intros p. rewrite me_recurse. apply v_recurse.
    + apply opt_ext. intros p. rewrite me_out. apply v_out.
    + eapply B; [apply p_stdout | exact me_stdout].
    + eapply B; [apply p_xml | exact me_xml].
    + eapply B; [apply p_pretty | exact me_pretty].
    + destruct (value f_indent (matches us)) as [n |] eqn:E.
      * apply v_indent in E. symmetry. now apply me_indent.
      * symmetry. apply me_no_indent. rewrite <- s_indent, E. discriminate.
    + apply opt_ext. intros p. rewrite me_complete_page. apply v_complete_page.
    + eapply B; [apply p_fragment | exact me_fragment].
    + rewrite me_special_tag. apply v_special_tag.
    + apply opt_ext. intros p. rewrite me_forgiving. apply v_forgiving.
    + apply opt_ext. intros p. rewrite me_fail_fast. apply v_fail_fast.
    + apply opt_ext. intros p. rewrite me_metadata. apply v_metadata.
    + apply opt_ext. intros p. rewrite me_metadata_elements. apply v_metadata_elements.
    + destruct (value f_error_mode (matches us)) as [n |] eqn:E.
      * apply v_error_mode in E. symmetry. now apply me_error_mode.
      * symmetry. apply me_no_error_mode. rewrite <- s_error_mode, E. discriminate.
Qed.

Theorem read_convert_iff ws a :
  read_convert ws = Got a <-> exists us, Spelled ws us /\ Coherent us /\ Means us a.
Proof.
  unfold read_convert. split.
  - destruct (read None ws) as [us | |] eqn:E; try discriminate. cbn [bind_o].
    destruct (valid (matches us)) eqn:Ev; [| discriminate]. intros [= H].
    exists us. split; [now apply read_iff |]. now apply convert_iff.
  - intros (us & Hs & H). apply read_iff in Hs. rewrite Hs. cbn [bind_o].
    apply convert_iff in H. destruct H as [-> ->]. reflexivity.
Qed.

Lemma read_command_iff ws a :
  read_command ws = Got a <-> exists rest, ws = L "convert" :: rest /\ read_convert rest = Got a.
Proof.
  destruct ws as [| w ws]; cbn [read_command].
  - split; [discriminate | intros (rest & H & _); discriminate].
  - destruct (str_eqb w (L "convert")) eqn:E.
    + apply str_eqb_eq in E. subst w. split; [eauto | intros (rest & [= ->] & H); exact H].
    + split.
      * destruct (starts_with (L "-h") w || str_eqb w (L "--help")); [discriminate |].
        destruct (str_eqb w (L "help")); [| discriminate]. destruct ws as [| c [|]]; try discriminate.
        destruct (str_eqb c (L "convert") || str_eqb c (L "help")); discriminate.
      * intros (rest & [= -> _] & _). discriminate.
Qed.

(** * What the lexers of Parser.v take, for texts written as in SpecWrite.v. *)

From Verif Require Import Base Doc Ast Grammar Parser SpecEscape SpecWrite P_Base P_Lexer.
From Coq Require Import Lia.

Definition takes (a : lexer) (m post : str) : Prop := forall back, a back (m ++ post) = Some (m, post).
Definition refuses (a : lexer) (r : str) : Prop := forall back, a back r = None.

Lemma takes_exactly : forall s post, takes (x_exactly s) s post.
Proof. intros s post back. unfold x_exactly. now rewrite (proj2 (strip_prefix_some s (s ++ post) post) eq_refl). Qed.
Lemma takes_one : forall f c post, f c = true -> takes (x_one f) [c] post.
Proof. intros f c post H back. cbn [app x_one]. now rewrite H. Qed.
Lemma refuses_one : forall f r, (forall c r', r = c :: r' -> f c = false) -> refuses (x_one f) r.
Proof. intros f [|c r] H back; cbn [x_one]; [reflexivity|]. now rewrite (H c r eq_refl). Qed.
Lemma refuses_exactly : forall c s r, (forall d r', r = d :: r' -> d <> c) -> refuses (x_exactly (c :: s)) r.
Proof.
  intros c s [|d r] H back; unfold x_exactly; cbn [strip_prefix]; [reflexivity|].
  destruct (N.eqb_spec c d) as [<-|_]; [|reflexivity]. exfalso. now apply (H c r eq_refl).
Qed.
Lemma takes_seq : forall a b m1 m2 post, takes a m1 (m2 ++ post) -> takes b m2 post -> takes (x_seq a b) (m1 ++ m2) post.
Proof. intros a b m1 m2 post Ha Hb back. unfold x_seq. now rewrite <- app_assoc, Ha, Hb. Qed.
Lemma refuses_seq_l : forall a b r, refuses a r -> refuses (x_seq a b) r.
Proof. intros a b r H back. unfold x_seq. now rewrite H. Qed.
Lemma refuses_seq_r : forall a b m post, takes a m post -> refuses b post -> refuses (x_seq a b) (m ++ post).
Proof. intros a b m post Ha Hb back. unfold x_seq. now rewrite Ha, Hb. Qed.
Lemma takes_alt_l : forall a b m post, takes a m post -> takes (x_alt a b) m post.
Proof. intros a b m post H back. unfold x_alt. now rewrite H. Qed.
Lemma takes_alt_r : forall a b m post, refuses a (m ++ post) -> takes b m post -> takes (x_alt a b) m post.
Proof. intros a b m post H H' back. unfold x_alt. now rewrite H, H'. Qed.
Lemma refuses_alt : forall a b r, refuses a r -> refuses b r -> refuses (x_alt a b) r.
Proof. intros a b r H H' back. unfold x_alt. now rewrite H, H'. Qed.
Lemma takes_not_precedes : forall a r, refuses a r -> takes (x_not_precedes a) [] r.
Proof. intros a r H back. unfold x_not_precedes. cbn [app]. now rewrite H. Qed.
Lemma refuses_not_precedes : forall a m post, takes a m post -> refuses (x_not_precedes a) (m ++ post).
Proof. intros a m post H back. unfold x_not_precedes. now rewrite H. Qed.
Lemma takes_precedes : forall a m post, takes a m post -> takes (x_precedes a) [] (m ++ post).
Proof. intros a m post H back. unfold x_precedes. cbn [app]. now rewrite H. Qed.
Lemma takes_seq_nil : forall a b m post, takes a m post -> takes b [] post -> takes (x_seq a b) m post.
Proof. intros a b m post Ha Hb. rewrite <- (app_nil_r m). apply takes_seq; [exact Ha|exact Hb]. Qed.

(** Repetition *)
Inductive Runs (a : lexer) (post : str) : str -> Prop :=
| RuNil : refuses a post -> Runs a post []
| RuCons : forall m1 m2, m1 <> [] -> takes a m1 (m2 ++ post) -> Runs a post m2 -> Runs a post (m1 ++ m2).
Lemma many_runs : forall a post m, Runs a post m -> forall fuel back, (length (m ++ post) <= fuel)%nat ->
  many_ a fuel back (m ++ post) = (m, post).
Proof.
  intros a post m H. induction H as [H|m1 m2 Hn H1 H2 IH]; intros fuel back Hf.
  - destruct fuel; cbn [many_ app]; [reflexivity|]. now rewrite H.
  - destruct m1 as [|c m1]; [now destruct Hn|]. destruct fuel as [|fuel]; [cbn in Hf; lia|].
    cbn [many_]. rewrite <- app_assoc, H1. cbn [app] in Hf |- *. cbn [length] in Hf. rewrite IH; [reflexivity|].
    rewrite <- app_assoc, app_length in Hf. lia.
Qed.
Lemma takes_many : forall a m post, Runs a post m -> takes (x_many a) m post.
Proof. intros a m post H back. unfold x_many. f_equal. now apply many_runs. Qed.
Lemma takes_many1 : forall a m post, m <> [] -> Runs a post m -> takes (x_many1 a) m post.
Proof.
  intros a m post Hm H. destruct H as [H|m1 m2 Hn H1 H2]; [now destruct Hm|].
  apply takes_seq; [exact H1|now apply takes_many].
Qed.
Lemma refuses_many1 : forall a r, refuses a r -> refuses (x_many1 a) r.
Proof. intros a r H. now apply refuses_seq_l. Qed.

Definition stops (f : chr -> bool) (r : str) : Prop := forall c r', r = c :: r' -> f c = false.
Lemma runs_one : forall f m post, Forall (fun c => f c = true) m -> stops f post -> Runs (x_one f) post m.
Proof.
  intros f m post H Hp. induction H as [|c m Hc H IH]; [constructor; now apply refuses_one|].
  apply (RuCons _ _ [c] m); [discriminate|now apply takes_one|exact IH].
Qed.
Lemma skip_runs : forall f m post s, Forall (fun c => f c = true) m -> stops f post -> p_rest s = m ++ post ->
  skip f s = advance s m post.
Proof.
  intros f m post s H Hp E. unfold skip. rewrite E, (many_runs _ post m); [reflexivity|now apply runs_one|lia].
Qed.

Lemma up_to_suffix : forall close c t, up_to close (c :: t) -> up_to close t.
Proof. intros close c t H a b E. apply (H (c :: a) b). cbn [app]. now f_equal. Qed.
Lemma lazy_takes : forall close t post, close <> [] -> up_to close t -> forall back,
  lazy_ (x_exactly close) 0 back (t ++ close ++ post) = Some (t ++ close, post).
Proof.
  intros close t post Hc. induction t as [|c t IH]; intros Hu back.
  - assert (x_exactly close back (close ++ post) = Some (close, post)) as E by apply takes_exactly.
    cbn [app]. destruct (close ++ post); cbn [lazy_]; now rewrite E.
  - cbn [app lazy_ pred].
    assert (x_exactly close back (c :: t ++ close ++ post) = None) as ->.
    { unfold x_exactly. destruct (strip_prefix close (c :: t ++ close ++ post)) as [r|] eqn:E; [|reflexivity]. exfalso.
      apply strip_prefix_some in E.
      assert (exists b, (c :: t) ++ close = close ++ b /\ b <> []) as (b & Eb & Hb).
      { exists (skipn (length close) ((c :: t) ++ close)). split.
        - rewrite <- (firstn_skipn (length close) ((c :: t) ++ close)) at 1. f_equal.
          transitivity (firstn (length close) (((c :: t) ++ close) ++ post)).
          + rewrite (firstn_app (length close) ((c :: t) ++ close) post). replace (length close - length ((c :: t) ++ close))%nat with 0%nat; [cbn [firstn]; now rewrite app_nil_r|].
            rewrite app_length. lia.
          + rewrite <- app_assoc. cbn [app]. rewrite E. rewrite firstn_app, Nat.sub_diag, firstn_all. cbn [firstn]. apply app_nil_r.
        - intros Hn. apply (f_equal (@length N)) in Hn. rewrite skipn_length, app_length in Hn. cbn [length] in Hn. lia. }
      apply Hb. now apply (Hu [] b). }
    rewrite IH; [reflexivity|]. now apply up_to_suffix in Hu.
Qed.
Lemma takes_lazy : forall close t post, close <> [] -> up_to close t -> takes (x_lazy 0 (x_exactly close)) (t ++ close) post.
Proof. intros close t post H Hu back. rewrite <- app_assoc. now apply lazy_takes. Qed.

(** ** Characters *)
Lemma is_alnum_spec : forall c, is_ascii_alnum c = true <-> ascii_alnum c.
Proof. intros c. unfold is_ascii_alnum, is_digit, ascii_alnum. rewrite !Bool.orb_true_iff, !Bool.andb_true_iff, !N.leb_le. tauto. Qed.
Lemma mem_spec : forall s c, mem s c = true <-> In c s.
Proof.
  intros s c. unfold mem. rewrite existsb_exists. split.
  - intros (x & Hx & E). apply N.eqb_eq in E. now subst.
  - intros H. exists c. split; [exact H|apply N.eqb_refl].
Qed.
Lemma mem_false : forall s c, mem s c = false <-> ~ In c s.
Proof. intros s c. rewrite <- mem_spec. destruct (mem s c); intuition congruence. Qed.
Lemma hex_alnum : forall c d, HexDigit c d -> ascii_alnum c.
Proof. intros c d [d' H|d' H|d' H]; unfold ascii_alnum; lia. Qed.
Lemma hexnum_alnum : forall s v, HexNum s v -> Forall ascii_alnum s /\ s <> [].
Proof.
  intros s v H. induction H as [c d H|s v c d H [IH1 IH2] Hc].
  - split; [|discriminate]. constructor; [now apply hex_alnum in H|constructor].
  - split; [|now destruct s]. apply Forall_app. split; [exact IH1|]. constructor; [now apply hex_alnum in Hc|constructor].
Qed.
Lemma signed_alnum : forall s v, SignedHexNum false s v -> Forall ascii_alnum s /\ s <> [].
Proof. intros s v [s' v' H|s' v' H _]; [now apply hexnum_alnum in H|discriminate]. Qed.

(** ** Escapes *)
Lemma takes_escape_char : forall c post, c <> 117 -> takes x_escape [92; c] post.
Proof.
  intros c post H. apply takes_alt_r.
  - apply refuses_seq_l. intros back. unfold x_exactly. change (L "\u{") with [92; 117; 123].
    cbn [app strip_prefix]. rewrite N.eqb_refl. destruct (N.eqb_spec 117 c); [congruence|reflexivity].
  - apply (takes_seq (x_exactly (L "\")) _ [92] [c]); [apply takes_exactly|now apply takes_one].
Qed.
Lemma takes_escape_uni : forall ds post, Forall ascii_alnum ds -> takes x_escape (L "\u{" ++ ds ++ L "}") post.
Proof.
  intros ds post H. apply takes_alt_l, takes_seq; [apply takes_exactly|]. apply takes_seq; [|apply takes_exactly].
  apply takes_many, runs_one.
  - eapply Forall_impl; [|exact H]. cbn. intros c Hc. unfold not_. apply Bool.negb_true_iff, mem_false. cbn.
    unfold ascii_alnum in Hc. lia.
  - intros c r' [= <- _]. reflexivity.
Qed.

Section Spelled.
Variables (a : lexer) (plain : chr -> Prop) (G : str -> Prop).
Hypothesis Hesc : forall back r, a back (92 :: r) = x_escape back (92 :: r).
Hypothesis Hplain : forall c r, plain c -> G r -> takes a [c] r.
Hypothesis Halnum : forall c, ascii_alnum c -> plain c.
Hypothesis HG : forall c r, plain c \/ c = 92 -> G (c :: r).

Lemma spelled_next : forall s t post, Spelled plain s t -> G post -> G (s ++ post).
Proof.
  intros s t post H Hp. destruct H as [|c s t Hc H|e c s t He H]; [exact Hp|apply HG; now left|].
  assert (exists e', e = 92 :: e') as [e' ->]; [|apply HG; now right].
  destruct He; eexists; reflexivity.
Qed.
Lemma alnums_run : forall ds post m, Forall ascii_alnum ds -> G (m ++ post) -> Runs a post m -> Runs a post (ds ++ m).
Proof.
  intros ds post m H Hg Hm. induction H as [|d ds Hd H IH]; [exact Hm|].
  apply (RuCons _ _ [d]); [discriminate| |exact IH]. apply Hplain; [now apply Halnum|].
  destruct ds as [|d' ds]; [exact Hg|]. inversion H; subst. apply HG. left. now apply Halnum.
Qed.
Lemma spelled_runs : forall s t post, Spelled plain s t -> G post -> refuses a post -> Runs a post s.
Proof.
  intros s t post H Hp Hr. induction H as [|c s t Hc H IH|e c s t He H IH]; [now constructor| |].
  - apply (RuCons _ _ [c]); [discriminate| |exact IH]. apply Hplain; [exact Hc|now apply spelled_next with t].
  - assert (forall c0, c0 <> 117 -> Runs a post ([92; c0] ++ s)) as H1.
    { intros c0 Hc0. apply RuCons; [discriminate| |exact IH]. intros back. cbn [app]. rewrite Hesc. now apply takes_escape_char. }
    destruct He as [| | |c Hc|ds v Hl Hd Hv|ds v Hl Hd Hv].
    + now apply H1.
    + now apply H1.
    + now apply H1.
    + apply H1. cbn in Hc. intuition (subst; discriminate).
    + apply signed_alnum in Hd as [Hd Hne]. rewrite <- app_assoc. apply (RuCons _ _ (L "\x")); [discriminate| |].
      * intros back. change (L "\x") with [92; 120]. cbn [app]. rewrite Hesc. apply (takes_escape_char 120). discriminate.
      * apply alnums_run; [exact Hd|now apply spelled_next with t|exact IH].
    + apply signed_alnum in Hd as [Hd Hne]. apply RuCons; [discriminate| |exact IH].
      intros back. pose proof (takes_escape_uni ds (s ++ post) Hd back) as E.
      change ((L "\u{" ++ ds ++ L "}") ++ s ++ post) with (92 :: (L "u{" ++ ds ++ L "}") ++ s ++ post) in E.
      rewrite <- Hesc in E. exact E.
Qed.
End Spelled.

Lemma spelled_decodes : forall plain s t, ~ plain 92 -> Spelled plain s t -> Decodes true s t.
Proof.
  intros plain s t Hp H. induction H as [|c s t Hc H IH|e c s t He H IH]; [constructor| |].
  - constructor; [|exact IH]. intros ->. contradiction.
  - constructor; [|exact IH]. destruct He as [| | |c Hc|ds v Hl Hd Hv|ds v Hl Hd Hv].
    + constructor.
    + constructor.
    + constructor.
    + now constructor.
    + constructor; auto. destruct Hd; [now constructor|discriminate].
    + constructor; auto. destruct Hd; [now constructor|discriminate].
Qed.

(** ** Words *)
Section Alnum.
Variable alnum : chr -> bool.
(** [char::is_alphanumeric] on ASCII *)
Definition ascii_ok : Prop := (forall c, c < 128 -> alnum c = is_ascii_alnum c) /\ (forall c, is_whitespace c = true -> alnum c = false).
Hypothesis Hal : ascii_ok.

Lemma word_plain_spec : forall c, word_plain c -> word_char c = true.
Proof.
  intros c [H1 H2]. unfold word_char. rewrite H2. cbn [negb]. rewrite Bool.andb_true_r. apply Bool.negb_true_iff, mem_false.
  intros H. apply in_app_or in H as [H|H].
  - apply H1. unfold one_of. cbn in H |- *. intuition (subst; auto; discriminate).
  - cbn in H. intuition (subst; discriminate).
Qed.
(** What is not followed by a greater sign *)
Definition not_gt (r : str) : Prop := forall c r', r = c :: r' -> c <> 62.
Lemma takes_word_char : forall f c r, word_plain c -> not_gt r -> takes (x_word_item f) [c] r.
Proof.
  intros f c r Hc Hr. apply takes_alt_l, takes_seq_nil; [apply takes_one; now apply word_plain_spec|].
  apply takes_not_precedes, refuses_exactly, Hr.
Qed.
Lemma alnum_ascii : forall c, ascii_alnum c -> alnum c = true.
Proof. intros c H. rewrite (proj1 Hal); [now apply is_alnum_spec|unfold ascii_alnum in H; lia]. Qed.
Lemma takes_word_alnum : forall f c r, (forall c, alnum c = true -> f c = true) -> ascii_alnum c -> takes (x_word_item f) [c] r.
Proof.
  intros f c r Hf Hc.
  destruct r as [|d r]; [apply takes_word_char; [|discriminate]|destruct (N.eq_dec d 62) as [->|Hd]; [|apply takes_word_char]].
  2: { apply takes_alt_r; [|apply takes_alt_l, takes_one, Hf; now apply alnum_ascii].
       intros back. unfold x_seq. cbn [app x_one]. destruct (word_char c); reflexivity. }
  3: { intros x r' [= <- _]. exact Hd. }
  all: split; [unfold one_of; cbn; unfold ascii_alnum in Hc; lia|].
  all: unfold is_whitespace; unfold ascii_alnum in Hc.
  all: repeat match goal with |- context [?x =? ?y] => destruct (N.eqb_spec x y); [lia|] | |- context [?x <=? ?y] => destruct (N.leb_spec x y); try lia end; try reflexivity.
Qed.

(** ** Where a word, a text or a line may end *)

Lemma gap_blanks : forall g, gap g -> blanks g.
Proof.
  intros g H. eapply Forall_impl; [|exact H]. intros c Hc. unfold one_of in Hc. cbn in Hc.
  destruct Hc as [<-|[<-|[]]]; split; (reflexivity || discriminate).
Qed.
Lemma blank_space : forall c, blank_char c -> not_newline_space c = true.
Proof.
  intros c [H Hn]. unfold not_newline_space, and_, not_. rewrite H. cbn. apply N.eqb_neq in Hn. now rewrite Hn.
Qed.
Lemma space_ws : forall c, not_newline_space c = true -> is_whitespace c = true.
Proof. intros c H. unfold not_newline_space, and_ in H. now apply Bool.andb_true_iff in H. Qed.

(** The end of a line, of a block, of an inline element *)
Definition closing (p : str) : Prop :=
  p = [] \/ (exists r, p = 125 :: r) \/ (exists r, p = 10 :: r) \/
  (exists c r, In c [41; 47; 35; 95; 126; 34] /\ p = c :: 62 :: r).
(** What may come after a text, white space left out *)
Definition after_text (p : str) : Prop :=
  closing p \/ (exists r, p = 60 :: r) \/ (exists r, p = 123 :: 37 :: r).

Ltac cases_in H := cbn in H; repeat (destruct H as [H|H]; [subst|]); [..|try contradiction].

Lemma closing_space : forall p, closing p -> stops not_newline_space p.
Proof.
  intros p H c r ->. destruct H as [H|[[r' H]|[[r' H]|(d & r' & Hd & H)]]]; try discriminate; injection H as -> ->; try reflexivity.
  cases_in Hd; reflexivity.
Qed.
Lemma after_text_space : forall p, after_text p -> stops not_newline_space p.
Proof.
  intros p [H|[[r H]|[r H]]]; [now apply closing_space| |]; intros c r' ->; injection H as -> ->; reflexivity.
Qed.
Lemma refuses_word : forall f c r, word_char c = false -> f c = false -> c <> 92 -> refuses (x_word_item f) (c :: r).
Proof.
  intros f c r H1 H2 H3. apply refuses_alt; [|apply refuses_alt; [|apply refuses_alt]].
  - apply refuses_seq_l, refuses_one. now intros d r' [= <- _].
  - apply refuses_one. now intros d r' [= <- _].
  - apply refuses_seq_l. apply refuses_exactly. now intros d r' [= <- _].
  - apply refuses_seq_l. apply refuses_exactly. now intros d r' [= <- _].
Qed.
Lemma refuses_word_gt : forall f c r, f c = false -> c <> 92 -> refuses (x_word_item f) (c :: 62 :: r).
Proof.
  intros f c r H2 H3. apply refuses_alt; [|apply refuses_alt; [|apply refuses_alt]].
  - intros back. unfold x_seq, x_one. destruct (word_char c); reflexivity.
  - apply refuses_one. now intros d r' [= <- _].
  - apply refuses_seq_l. apply refuses_exactly. now intros d r' [= <- _].
  - apply refuses_seq_l. apply refuses_exactly. now intros d r' [= <- _].
Qed.
Lemma refuses_word_nil : forall f, refuses (x_word_item f) [].
Proof. intros f back. reflexivity. Qed.

Definition no_word (f : chr -> bool) : Prop :=
  forall c, In c [32; 9; 13; 125; 10; 41; 47; 35; 95; 126; 34; 60; 123; 62; 91] \/ is_whitespace c = true -> f c = false.
Lemma no_word_alnum : no_word alnum.
Proof. intros c [H|H]; [|now apply Hal]. rewrite (proj1 Hal); cases_in H; reflexivity. Qed.
Lemma no_word_star : no_word (or_ alnum (mem (L "*"))).
Proof.
  intros c H. unfold or_. rewrite (no_word_alnum c H). cbn [orb]. apply mem_false. intros [<-|[]].
  destruct H as [H|H]; [cbn in H; repeat (destruct H as [H|H]; [discriminate|]); exact H|discriminate].
Qed.
Ltac inl := cbn; tauto.
Lemma after_text_word : forall f p, no_word f -> after_text p -> refuses (x_word_item f) p.
Proof.
  intros f p Hf [H|[[r ->]|[r ->]]].
  - destruct H as [->|[[r ->]|[[r ->]|(d & r & Hd & ->)]]]; [apply refuses_word_nil| | |].
    + apply refuses_word; [reflexivity|apply Hf; inl|discriminate].
    + apply refuses_word; [reflexivity|apply Hf; inl|discriminate].
    + apply refuses_word_gt; [apply Hf; cbn in Hd |- *; tauto|]. intros ->. cases_in Hd; discriminate.
  - apply refuses_word; [reflexivity|apply Hf; inl|discriminate].
  - apply refuses_word; [reflexivity|apply Hf; inl|discriminate].
Qed.
Lemma refuses_word_blank : forall f c r, no_word f -> blank_char c -> refuses (x_word_item f) (c :: r).
Proof.
  intros f c r Hf [H _]. apply refuses_word; [unfold word_char; rewrite H; apply Bool.andb_false_r|apply Hf; now right|].
  intros ->. discriminate.
Qed.
Lemma blanks_after_text_word : forall f b p, no_word f -> blanks b -> after_text p -> refuses (x_word_item f) (b ++ p).
Proof.
  intros f [|c b] p Hf Hb Hp; [now apply after_text_word|]. inversion Hb; subst. now apply refuses_word_blank.
Qed.

(** No selector ends here. *)
Definition no_chain_head (p : str) : Prop :=
  forall c r, p = c :: r -> c <> 62 /\ c <> 91 /\ mem [32; 9] c = false /\ (c = 123 -> exists d r', r = d :: r' /\ is_whitespace d = false /\ d <> 125).
Lemma no_chain : forall b p, blanks b -> no_chain_head p -> refuses x_post_selector_chain (b ++ p).
Proof.
  intros b p Hb Hp.
  assert (exists m r, b ++ p = m ++ r /\ Forall (fun c => mem [32; 9] c = true) m /\ no_chain_head r) as (m & r & E & Hm & Hr).
  { clear -Hb Hp. induction Hb as [|c b Hc Hb IH]; [exists [], p; auto|].
    destruct (mem [32; 9] c) eqn:Hn.
    2: { exists [], (c :: b ++ p). split; [reflexivity|]. split; [constructor|]. intros d r [= <- <-]. destruct Hc as [Hc _].
         repeat split; try (intros ->; discriminate). exact Hn. }
    - destruct IH as (m & r & E & Hm & Hr). exists (c :: m), r. cbn [app]. rewrite E. split; [reflexivity|]. split; [|exact Hr].
      now constructor. }
  apply refuses_alt.
  - rewrite E. apply refuses_seq_r.
    + apply takes_many, runs_one; [exact Hm|]. intros c r' ->. destruct (Hr c r' eq_refl) as (_ & _ & H & _). exact H.
    + apply refuses_alt.
      * apply refuses_exactly. intros d r' ->. now destruct (Hr d r' eq_refl).
      * destruct r as [|c r]; [intros back; reflexivity|]. destruct (N.eq_dec c 123) as [->|Hc].
        -- destruct (Hr 123 r eq_refl) as (_ & _ & _ & H). destruct (H eq_refl) as (d & r' & -> & H1 & H2).
           apply (refuses_seq_r _ _ [123] (d :: r')); [apply takes_exactly|].
           apply (refuses_not_precedes _ [d] r'). apply takes_one. unfold not_, or_. rewrite H1. cbn [orb].
           apply Bool.negb_true_iff, mem_false. cbn. intuition congruence.
        -- apply refuses_seq_l, refuses_exactly. intros d r' [= <- _]. exact Hc.
  - apply refuses_exactly. intros d r' E2. destruct b as [|c b].
    + cbn in E2. subst p. now destruct (Hp d r' eq_refl) as (_ & H & _).
    + injection E2 as -> _. inversion Hb as [|? ? [H _]]; subst. intros ->; discriminate.
Qed.
Lemma after_text_head : forall p, after_text p -> no_chain_head p.
Proof.
  intros p H c r ->. destruct H as [[H|[[r' H]|[[r' H]|(d & r' & Hd & H)]]]|[[r' H]|[r' H]]]; try discriminate; injection H as -> ->.
  - repeat split; discriminate.
  - repeat split; discriminate.
  - cases_in Hd; repeat split; discriminate.
  - repeat split; discriminate.
  - repeat split; try discriminate. intros _. exists 37, r'. repeat split; discriminate.
Qed.
Lemma word_head : forall s t post, s <> [] -> Spelled word_plain s t -> no_chain_head (s ++ post).
Proof.
  intros s t post Hs H. destruct H as [|c s t [Hc Hw] H|e c s t He H]; [now destruct Hs| |].
  - intros d r [= <- <-]. unfold one_of in Hc. cbn in Hc. repeat split.
    + intros ->. tauto.
    + intros ->. tauto.
    + apply mem_false. cbn. intros [<-|[<-|[]]]; discriminate.
    + intros ->. tauto.
  - intros d r E. assert (d = 92) as ->; [|repeat split; discriminate]. destruct He; injection E as <- _; reflexivity.
Qed.

Lemma plain_92 : ~ word_plain 92. Proof. intros [H _]. apply H. cbn. tauto. Qed.
Lemma word_escape : forall f, (forall c, f c = true -> c <> 92) -> forall back r, x_word_item f back (92 :: r) = x_escape back (92 :: r).
Proof.
  intros f Hf back r. unfold x_word_item, x_alt, x_seq, x_one. change (word_char 92) with false. cbn iota.
  destruct (f 92) eqn:E; [now destruct (Hf 92 E)|]. reflexivity.
Qed.
Lemma alnum_plain : forall c, ascii_alnum c -> word_plain c.
Proof.
  intros c H. unfold ascii_alnum in H. split; [unfold one_of; cbn; lia|]. unfold is_whitespace.
  repeat match goal with |- context [?x =? ?y] => destruct (N.eqb_spec x y); [lia|] | |- context [?x <=? ?y] => destruct (N.leb_spec x y); try lia end; try reflexivity.
Qed.
Lemma not_gt_plain : forall c r, word_plain c \/ c = 92 -> not_gt (c :: r).
Proof.
  intros c r H d r' [= <- _] ->. destruct H as [[H _]|H]; [|discriminate]. apply H. cbn. tauto.
Qed.
Lemma not_gt_after : forall b p, blanks b -> no_chain_head p -> not_gt (b ++ p).
Proof.
  intros [|c b] p Hb Hp d r E.
  - cbn in E. now destruct (Hp d r E).
  - injection E as <- _. inversion Hb as [|? ? [H _]]; subst. intros ->; discriminate.
Qed.

Lemma alnum_92 : forall c, alnum c = true -> c <> 92.
Proof. intros c H ->. rewrite (proj1 Hal) in H; [discriminate|reflexivity]. Qed.
(** A word, followed by what is no part of it *)
Lemma takes_word : forall s t b p, s <> [] -> Spelled word_plain s t -> blanks b -> no_chain_head p ->
  refuses (x_word_item alnum) (b ++ p) -> takes (x_text_word alnum) s (b ++ p).
Proof.
  intros s t b p Hs H Hb Hp Hr. apply takes_seq_nil; [|now apply takes_not_precedes, no_chain].
  apply takes_many1; [exact Hs|].
  apply (spelled_runs _ word_plain not_gt (word_escape alnum alnum_92)) with t; auto.
  - intros c r Hc Hg. now apply takes_word_char.
  - apply alnum_plain.
  - apply not_gt_plain.
  - now apply not_gt_after.
Qed.
Lemma refuses_text_word : forall p, after_text p -> refuses (x_text_word alnum) p.
Proof. intros p H. apply refuses_seq_l, refuses_many1, after_text_word; [apply no_word_alnum|exact H]. Qed.
Lemma takes_space : forall b p, b <> [] -> blanks b -> stops not_newline_space p -> takes x_space b p.
Proof.
  intros b p Hn Hb Hp. apply takes_many1; [exact Hn|]. apply runs_one; [|exact Hp].
  eapply Forall_impl; [|exact Hb]. apply blank_space.
Qed.
Lemma refuses_space : forall p, stops not_newline_space p -> refuses x_space p.
Proof. intros p H. now apply refuses_many1, refuses_one. Qed.

Lemma words_first : forall s t (post : str), Words s t -> exists s1 t1 r, s = s1 ++ r /\ s1 <> [] /\ Spelled word_plain s1 t1.
Proof. intros s t post H. destruct H; [exists s, t, []; now rewrite app_nil_r|exists s, t, (g ++ s'); auto]. Qed.
Lemma words_ne : forall s t, Words s t -> s <> [].
Proof. intros s t H. destruct H; [assumption|]. now destruct s. Qed.
Lemma words_head : forall s t post, Words s t -> no_chain_head (s ++ post).
Proof.
  intros s t post H. destruct (words_first s t post H) as (s1 & t1 & r & -> & Hn & H1). rewrite <- app_assoc. now apply word_head with t1.
Qed.
Lemma words_space : forall s t post, Words s t -> stops not_newline_space (s ++ post).
Proof.
  intros s t post H. destruct (words_first s t post H) as (s1 & t1 & r & -> & Hn & H1). rewrite <- app_assoc.
  destruct H1 as [|c s t1 [Hc Hw] H1|e c s t1 He H1]; [now destruct Hn| |]; intros d r' E.
  - injection E as <- _. destruct (not_newline_space c) eqn:E; [|reflexivity]. apply space_ws in E. congruence.
  - assert (d = 92) as ->; [destruct He; injection E as <- _; reflexivity|reflexivity].
Qed.
Lemma takes_segment : forall s t b p, Words s t -> blanks b -> after_text p -> takes (x_text_segment alnum) s (b ++ p).
Proof.
  intros s t b p H Hb Hp.
  assert (refuses (x_seq x_space (x_text_word alnum)) (b ++ p)) as Hr.
  { destruct b as [|c b]; [apply refuses_seq_l, refuses_space, after_text_space, Hp|].
    apply refuses_seq_r; [|now apply refuses_text_word]. apply takes_space; [discriminate|exact Hb|now apply after_text_space]. }
  assert (refuses (x_word_item alnum) (b ++ p)) as Hw by (apply blanks_after_text_word; auto; apply no_word_alnum).
  apply after_text_head in Hp.
  assert (exists s1 r, s = s1 ++ r /\ takes (x_text_word alnum) s1 (r ++ b ++ p) /\ Runs (x_seq x_space (x_text_word alnum)) (b ++ p) r)
    as (s1 & r & -> & H1 & H2); [|apply takes_seq; [exact H1|now apply takes_many]].
  induction H as [s t Hs H|s t g s' t' Hs H Hg Hgg H' IH].
  - exists s, []. rewrite app_nil_r. split; [reflexivity|]. split; [now apply (takes_word s t b p)|now constructor].
  - destruct IH as (s1 & r & E & H1 & H2). exists s, (g ++ s'). split; [reflexivity|]. split.
    + rewrite <- app_assoc. apply takes_word with t; auto; [now apply words_head with t'|].
      destruct g as [|c g]; [now destruct Hg|]. apply refuses_word_blank; [apply no_word_alnum|].
      now inversion Hgg.
    + rewrite E. rewrite app_assoc. apply RuCons; [now destruct g| |exact H2]. apply takes_seq; [|exact H1].
      apply takes_space; [exact Hg|exact Hgg|]. rewrite app_assoc, <- E. now apply words_space with t'.
Qed.

(** ** Selectors *)

(** What ends a selector: a greater sign or the brace of a block, or attributes *)
Definition sel_end (p : str) : Prop :=
  (exists r, p = 62 :: r) \/ (exists r, p = 123 :: r /\ forall c r', r = c :: r' -> is_whitespace c = true \/ c = 125).
Definition chain_end (p : str) : Prop := (exists g q, p = g ++ q /\ gap g /\ sel_end q) \/ (exists r, p = 91 :: r).
Lemma chain_end_word : forall f p, no_word f -> chain_end p -> refuses (x_word_item f) p.
Proof.
  intros f p Hf [(g & q & -> & Hg & Hq)|[r ->]]; [|apply refuses_word; [reflexivity|apply Hf; inl|discriminate]].
  destruct g as [|c g]; [|apply refuses_word_blank; [exact Hf|]; apply gap_blanks in Hg; now inversion Hg].
  destruct Hq as [[r ->]|(r & -> & _)]; (apply refuses_word; [reflexivity|apply Hf; inl|discriminate]).
Qed.
Lemma takes_post_chain : forall p, chain_end p -> exists m r, p = m ++ r /\ takes x_post_selector_chain m r.
Proof.
  intros p [(g & q & -> & Hg & Hq)|[r ->]].
  - assert (Forall (fun c => mem [32; 9] c = true) g) as Hg'.
    { eapply Forall_impl; [|exact Hg]. intros c Hc. apply mem_spec. exact Hc. }
    destruct Hq as [[r ->]|(r & -> & Hr)].
    + exists (g ++ [62]), r. split; [now rewrite <- app_assoc|]. apply takes_alt_l, takes_seq.
      * apply takes_many, runs_one; [exact Hg'|]. now intros c r' [= <- _].
      * apply takes_alt_l. apply (takes_exactly (L ">")).
    + exists (g ++ [123]), r. split; [now rewrite <- app_assoc|]. apply takes_alt_l, takes_seq.
      * apply takes_many, runs_one; [exact Hg'|]. now intros c r' [= <- _].
      * apply takes_alt_r; [apply refuses_exactly; now intros d r' [= <- _]|].
        apply takes_seq_nil; [apply (takes_exactly (L "{"))|]. apply takes_not_precedes, refuses_one.
        intros c r' ->. unfold not_, or_. destruct (Hr c r' eq_refl) as [-> | ->]; [reflexivity|apply Bool.andb_false_r || reflexivity].
  - exists [91], r. split; [reflexivity|]. apply takes_alt_r; [|apply (takes_exactly (L "["))].
    apply (refuses_seq_r _ _ [] (91 :: r)); [|].
    + apply takes_many, runs_one; [constructor|]. now intros c r' [= <- _].
    + apply refuses_alt; [|apply refuses_seq_l]; apply refuses_exactly; now intros d r' [= <- _].
Qed.

Definition sel_last (m : str) : Prop := exists r c, m = r ++ [c] /\ (ascii_alnum c \/ c = 42).
Notation sel_f := (or_ alnum (mem (L "*"))).
Lemma takes_sel_last : forall c r, ascii_alnum c \/ c = 42 -> takes (x_word_item sel_f) [c] r.
Proof.
  intros c r [H|H].
  - apply takes_word_alnum; [|exact H]. intros d Hd. unfold or_. now rewrite Hd.
  - subst c. intros back. cbn [app].
    assert (x_one sel_f back (42 :: r) = Some ([42], r)) as E.
    { apply takes_one. unfold or_. apply Bool.orb_true_r. }
    unfold x_word_item, x_alt. unfold x_seq at 1. cbn [x_one]. change (word_char 42) with true. cbn iota.
    unfold x_not_precedes. destruct (x_exactly (L ">") (rev_append [42] back) r) as [x|]; [|reflexivity]. exact (f_equal (fun o => match o with Some x => Some x | None => x_escape back (42 :: r) end) E).
Qed.
Lemma takes_chain : forall m p, Forall word_plain m -> sel_last m -> chain_end p -> takes (x_selector_chain alnum) m p.
Proof.
  intros m p Hm Hl Hp. apply takes_seq_nil.
  - destruct Hl as (r & c & -> & Hc). apply takes_many1; [now destruct r|].
    apply Forall_app in Hm as [Hr _].
    induction Hr as [|d r Hd Hr IH].
    + apply (RuCons _ _ [c] []); [discriminate|now apply takes_sel_last|]. constructor. now apply chain_end_word; [apply no_word_star|].
    + apply (RuCons _ _ [d]); [discriminate| |exact IH]. apply takes_word_char; [exact Hd|].
      destruct r as [|e r].
      * intros x r' [= <- _]. destruct Hc as [Hc| ->]; [unfold ascii_alnum in Hc; lia|discriminate].
      * cbn [app]. inversion Hr; subst. apply not_gt_plain. now left.
  - destruct (takes_post_chain p Hp) as (x & y & -> & H). now apply takes_precedes.
Qed.

Lemma name_char_plain : forall c, name_char c -> word_plain c.
Proof. intros c [H|H]; [now apply alnum_plain|]. cases_in H; (split; [unfold one_of; cbn; lia|reflexivity]). Qed.
Lemma class_char_plain : forall c, class_char c -> word_plain c.
Proof.
  intros c [H1 H2]. split; [|exact H2]. intros H. apply H1. unfold one_of in *. cbn in *. intuition (subst; auto 40).
Qed.
Lemma takes_element_name : forall n p, Forall name_char n -> n <> [] -> (forall c r, n = c :: r -> ~ 48 <= c <= 57) ->
  (forall c r, p = c :: r -> c = 46 \/ c = 35) -> takes x_element_name n p.
Proof.
  intros n p Hn Hne Hd Hp. apply (takes_seq _ _ [] n).
  - apply takes_not_precedes, refuses_one. intros c r E. destruct n as [|d n]; [now destruct Hne|]. injection E as <- _.
    specialize (Hd d n eq_refl). unfold is_digit. destruct (N.leb_spec 48 d); [|reflexivity]. destruct (N.leb_spec d 57); [lia|reflexivity].
  - apply takes_many1; [exact Hne|].
    assert (refuses x_identifier_char p) as Hr.
    { destruct p as [|c p]; [intros back; reflexivity|]. destruct (Hp c p eq_refl) as [-> | ->]; intros back; reflexivity. }
    clear -Hn Hr. induction Hn as [|c n Hc Hn IH]; [now constructor|].
    apply (RuCons _ _ [c]); [discriminate| |exact IH]. apply takes_alt_l, takes_one. unfold or_.
    destruct Hc as [Hc|Hc]; [apply is_alnum_spec in Hc; now rewrite Hc|]. rewrite (proj2 (mem_spec _ _) Hc). apply Bool.orb_true_r.
Qed.
Lemma takes_class_name : forall n p, Forall class_char n -> n <> [] -> (forall c r, p = c :: r -> c = 46 \/ c = 35) ->
  takes x_class_name n p.
Proof.
  intros n p Hn Hne Hp. apply takes_many1; [exact Hne|]. apply runs_one.
  - eapply Forall_impl; [|exact Hn]. cbn. intros c [H1 H2]. unfold not_, or_. rewrite H2, Bool.orb_false_r.
    apply Bool.negb_true_iff, mem_false. intros H. apply H1.
    change (In c (L "\{}[]()<>`~!@#$%^&*+=,./?""'|;" ++ [32; 9; 13; 10])) in H. apply in_app_or in H as [H|H]; [exact H|].
    cbn in H. intuition (subst; discriminate).
  - intros c r ->. destruct (Hp c r eq_refl) as [-> | ->]; reflexivity.
Qed.

(** ** Attributes *)
Lemma refuses_space_item : forall f c r, is_whitespace c = true -> refuses (x_alt (x_one (not_ (or_ f is_whitespace))) x_escape) (c :: r).
Proof.
  intros f c r H. assert (c <> 92) by (intros ->; discriminate).
  assert (forall d r', c :: r = d :: r' -> d <> 92) by (now intros d r' [= <- _]).
  apply refuses_alt; [|apply refuses_alt; apply refuses_seq_l; now apply refuses_exactly].
  apply refuses_one. intros d r' [= <- _]. unfold not_, or_. now rewrite H, Bool.orb_true_r.
Qed.
Lemma takes_attr_name : forall s t p, s <> [] -> Spelled attr_plain s t ->
  (forall c r, p = c :: r -> c = 61 \/ c = 93 \/ is_whitespace c = true) -> takes x_attribute_name s p.
Proof.
  intros s t p Hs H Hp. apply takes_many1; [exact Hs|].
  apply (spelled_runs _ attr_plain (fun _ => True)) with t; auto.
  - intros c r [H1 H2] _. apply takes_alt_l, takes_one. unfold not_, or_. rewrite H2, Bool.orb_false_r.
    apply Bool.negb_true_iff, mem_false. exact H1.
  - intros c Hc. destruct (alnum_plain c Hc) as [_ Hw]. split; [|exact Hw]. unfold one_of, ascii_alnum in *. cbn. lia.
  - destruct p as [|c p]; [intros back; reflexivity|]. specialize (Hp c p eq_refl).
    repeat (destruct Hp as [->|Hp]; [intros back; reflexivity|]). apply refuses_space_item; exact Hp.
Qed.
Lemma takes_unquoted : forall s t p, s <> [] -> Spelled value_plain s t ->
  (forall c r, p = c :: r -> c = 93 \/ is_whitespace c = true) -> takes x_unquoted_value s p.
Proof.
  intros s t p Hs H Hp. apply takes_many1; [exact Hs|].
  apply (spelled_runs _ value_plain (fun _ => True)) with t; auto.
  - intros c r [H1 H2] _. apply takes_alt_l, takes_one. unfold not_, or_. rewrite H2, Bool.orb_false_r.
    apply Bool.negb_true_iff, mem_false. exact H1.
  - intros c Hc. destruct (alnum_plain c Hc) as [_ Hw]. split; [|exact Hw]. unfold one_of, ascii_alnum in *. cbn. lia.
  - destruct p as [|c p]; [intros back; reflexivity|]. specialize (Hp c p eq_refl).
    repeat (destruct Hp as [->|Hp]; [intros back; reflexivity|]). apply refuses_space_item; exact Hp.
Qed.
Lemma takes_quoted_with : forall q s t p, q = 34 \/ q = 39 -> Spelled (fun c => c <> q /\ c <> 92) s t ->
  takes (x_quoted_with q) (q :: s ++ [q]) p.
Proof.
  intros q s t p Hq H. apply (takes_seq _ _ [q]); [apply takes_exactly|]. apply takes_seq; [|apply takes_exactly].
  apply takes_many.
  apply (spelled_runs _ (fun c => c <> q /\ c <> 92) (fun _ => True)) with t; auto.
  - intros c r [H1 H2] _. apply takes_alt_l, takes_one. unfold not_. apply Bool.negb_true_iff, mem_false. cbn.
    intuition congruence.
  - intros c Hc. unfold ascii_alnum in Hc. destruct Hq; subst; split; lia.
  - apply refuses_alt.
    + apply refuses_one. intros c r [= <- _]. unfold not_. apply Bool.negb_false_iff, mem_spec. cbn. tauto.
    + destruct Hq; subst; intros back; reflexivity.
Qed.
Lemma takes_quoted : forall q s t p, q = 34 \/ q = 39 -> Spelled (fun c => c <> q /\ c <> 92) s t ->
  takes x_quoted_string (q :: s ++ [q]) p.
Proof.
  intros q s t p Hq H. destruct Hq as [-> | ->].
  - apply takes_alt_l. apply takes_quoted_with with t; auto.
  - apply takes_alt_r; [apply refuses_seq_l, refuses_exactly; now intros c r [= <- _]|]. apply takes_quoted_with with t; auto.
Qed.

(** ** Lines *)
Lemma takes_new_line : forall a b p, blanks a -> blanks b -> stops not_newline_space p -> takes x_new_line (a ++ [10] ++ b) p.
Proof.
  intros a b p Ha Hb Hp. apply takes_seq.
  - apply takes_many, runs_one; [|now intros c r [= <- _]]. eapply Forall_impl; [|exact Ha]. apply blank_space.
  - apply takes_seq; [apply takes_exactly|]. apply takes_many, runs_one; [|exact Hp]. eapply Forall_impl; [|exact Hb]. apply blank_space.
Qed.
Lemma refuses_new_line : forall b p, blanks b -> closing p -> (forall r, p <> 10 :: r) -> refuses x_new_line (b ++ p).
Proof.
  intros b p Hb Hp Hn. apply refuses_seq_r.
  - apply takes_many, runs_one; [|now apply closing_space]. eapply Forall_impl; [|exact Hb]. apply blank_space.
  - apply refuses_seq_l, refuses_exactly. intros d r -> ->. now apply (Hn r).
Qed.

End Alnum.

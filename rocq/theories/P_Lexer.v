(** * The lexers of Parser.v match the patterns of Grammar.v. *)

From Verif Require Import Base Doc Ast Grammar Parser P_Base.
From Coq Require Import Lia.

(** What a lexer takes is matched; a lexer takes something if there is a match. *)
Definition Lex (a : lexer) (p : pat) : Prop :=
  forall back r m r', a back r = Some (m, r') -> r = m ++ r' /\ p (rev back) m r'.
Definition Ref (a : lexer) (p : pat) : Prop :=
  forall back r, a back r = None -> forall m r', r = m ++ r' -> ~ p (rev back) m r'.
(** At most one match at a place. *)
Definition Det (p : pat) : Prop :=
  forall pre m1 r1 m2 r2, m1 ++ r1 = m2 ++ r2 -> p pre m1 r1 -> p pre m2 r2 -> m1 = m2.
(** What a lexer takes is not empty. *)
Definition Eats (a : lexer) : Prop := forall back r m r', a back r = Some (m, r') -> m <> [].

Lemma rev_back : forall m back : str, rev (rev_append m back) = rev back ++ m.
Proof. intros m back. now rewrite rev_append_rev, rev_app_distr, rev_involutive. Qed.

Lemma lex_exactly : forall s, Lex (x_exactly s) (exactly s).
Proof.
  intros s back r m r'. unfold x_exactly, exactly. destruct (strip_prefix s r) as [t|] eqn:E; [|discriminate].
  intros [= <- <-]. apply strip_prefix_some in E. auto.
Qed.
Lemma ref_exactly : forall s, Ref (x_exactly s) (exactly s).
Proof.
  intros s back r. unfold x_exactly, exactly. destruct (strip_prefix s r) as [t|] eqn:E; [discriminate|].
  intros _ m r' -> ->. assert (strip_prefix s (s ++ r') = Some r') by now apply strip_prefix_some. congruence.
Qed.
Lemma det_exactly : forall s, Det (exactly s).
Proof. intros s pre m1 r1 m2 r2 _ -> ->. reflexivity. Qed.
Lemma eats_exactly : forall s, s <> [] -> Eats (x_exactly s).
Proof.
  intros s Hs back r m r'. unfold x_exactly. destruct (strip_prefix s r); [|discriminate]. now intros [= <- <-].
Qed.

Lemma lex_one : forall f, Lex (x_one f) (one f).
Proof.
  intros f back [|c r] m r'; cbn [x_one]; [discriminate|]. destruct (f c) eqn:E; [|discriminate].
  intros [= <- <-]. split; [reflexivity|]. exists c. auto.
Qed.
Lemma ref_one : forall f, Ref (x_one f) (one f).
Proof.
  intros f back [|c r]; cbn [x_one].
  - intros _ m r' E (d & -> & _). discriminate.
  - destruct (f c) eqn:E; [discriminate|]. intros _ m r' H (d & -> & Hd). injection H as <- _. congruence.
Qed.
Lemma det_one : forall f, Det (one f).
Proof. intros f pre m1 r1 m2 r2 H (c & -> & _) (d & -> & _). injection H as -> _. reflexivity. Qed.
Lemma eats_one : forall f, Eats (x_one f).
Proof.
  intros f back [|c r] m r'; cbn [x_one]; [discriminate|]. destruct (f c); [|discriminate]. now intros [= <- <-].
Qed.

Lemma lex_seq : forall a b p q, Lex a p -> Lex b q -> Lex (x_seq a b) (pseq p q).
Proof.
  intros a b p q Ha Hb back r m r'. unfold x_seq. destruct (a back r) as [[m1 r1]|] eqn:E1; [|discriminate].
  destruct (b (rev_append m1 back) r1) as [[m2 r2]|] eqn:E2; [|discriminate]. intros [= <- <-].
  apply Ha in E1 as [-> H1]. apply Hb in E2 as [-> H2]. rewrite rev_back in H2.
  split; [now rewrite app_assoc|]. exists m1, m2. auto.
Qed.
Lemma ref_seq : forall a b p q, Lex a p -> Ref a p -> Det p -> Ref b q -> Ref (x_seq a b) (pseq p q).
Proof.
  intros a b p q Ha Ra Da Rb back r. unfold x_seq. destruct (a back r) as [[m1 r1]|] eqn:E1.
  - destruct (b (rev_append m1 back) r1) as [[m2 r2]|] eqn:E2; [discriminate|].
    intros _ m r' E (n1 & n2 & -> & H1 & H2). apply Ha in E1 as [-> H1'].
    rewrite <- app_assoc in E. assert (m1 = n1) as <- by (eapply Da; eauto).
    apply app_inv_head in E. eapply (Rb _ _ E2); [exact E|]. now rewrite rev_back.
  - intros _ m r' -> (n1 & n2 & -> & H1 & _). eapply (Ra _ _ E1); [|exact H1]. now rewrite app_assoc.
Qed.
Lemma det_seq : forall p q, Det p -> Det q -> Det (pseq p q).
Proof.
  intros p q Hp Hq pre m1 r1 m2 r2 E (a1 & a2 & -> & A1 & A2) (b1 & b2 & -> & B1 & B2).
  rewrite <- !app_assoc in E. assert (a1 = b1) as <- by (eapply Hp; [exact E|exact A1|exact B1]).
  apply app_inv_head in E. f_equal. eapply Hq; eauto.
Qed.
Lemma eats_seq_l : forall a b, Eats a -> Eats (x_seq a b).
Proof.
  intros a b Ha back r m r'. unfold x_seq. destruct (a back r) as [[m1 r1]|] eqn:E1; [|discriminate].
  destruct (b _ r1) as [[m2 r2]|]; [|discriminate]. intros [= <- <-]. apply Ha in E1. destruct m1; [easy|discriminate].
Qed.
Lemma lex_alt : forall a b p q, Lex a p -> Lex b q -> Lex (x_alt a b) (palt p q).
Proof.
  intros a b p q Ha Hb back r m r'. unfold x_alt, palt. destruct (a back r) as [x|] eqn:E; intros H.
  - injection H as ->. apply Ha in E as [-> H]. auto.
  - apply Hb in H as [-> H]. auto.
Qed.
Lemma ref_alt : forall a b p q, Ref a p -> Ref b q -> Ref (x_alt a b) (palt p q).
Proof.
  intros a b p q Ha Hb back r. unfold x_alt, palt. destruct (a back r) as [x|] eqn:E; [discriminate|].
  intros H m r' Hr [H1|H1]; [eapply Ha|eapply Hb]; eauto.
Qed.
Lemma eats_alt : forall a b, Eats a -> Eats b -> Eats (x_alt a b).
Proof.
  intros a b Ha Hb back r m r'. unfold x_alt. destruct (a back r) as [x|] eqn:E; intros H; [injection H as ->; eauto|eauto].
Qed.

Lemma many_sound : forall a p, Lex a p -> forall fuel back r m r', many_ a fuel back r = (m, r') ->
  r = m ++ r' /\ many p (rev back) m r'.
Proof.
  intros a p Ha. induction fuel as [|fuel IH]; intros back r m r'; cbn [many_].
  - intros [= <- <-]. split; [reflexivity|constructor].
  - destruct (a back r) as [[[|c m1] r1]|] eqn:E.
    + intros [= <- <-]. split; [reflexivity|constructor].
    + destruct (many_ a fuel (rev_append (c :: m1) back) r1) as [m2 r2] eqn:E2. intros [= <- <-].
      apply IH in E2 as [-> H2]. apply Ha in E as [-> H1]. rewrite rev_back in H2.
      split; [cbn; now rewrite <- app_assoc|]. change (c :: m1 ++ m2) with ((c :: m1) ++ m2). now constructor.
    + intros [= <- <-]. split; [reflexivity|constructor].
Qed.
Lemma lex_many : forall a p, Lex a p -> Lex (x_many a) (many p).
Proof. intros a p Ha back r m r'. unfold x_many. intros [= H]. eapply many_sound; eauto. Qed.
Lemma lex_many1 : forall a p, Lex a p -> Lex (x_many1 a) (many1 p).
Proof. intros a p Ha. apply lex_seq; [exact Ha|now apply lex_many]. Qed.

Lemma lex_precedes : forall a p, Lex a p -> Lex (x_precedes a) (precedes p).
Proof.
  intros a p Ha back r m r'. unfold x_precedes, precedes. destruct (a back r) as [[x y]|] eqn:E; [|discriminate].
  intros [= <- <-]. apply Ha in E as [-> H]. split; [reflexivity|]. split; [reflexivity|]. eauto.
Qed.
Lemma lex_not_precedes : forall a p, Ref a p -> Lex (x_not_precedes a) (not_precedes p).
Proof.
  intros a p Ha back r m r'. unfold x_not_precedes, not_precedes. destruct (a back r) as [[x y]|] eqn:E; [discriminate|].
  intros [= <- <-]. split; [reflexivity|]. split; [reflexivity|]. intros x rest ->. eapply Ha; eauto.
Qed.
Lemma ref_not_precedes : forall a p, Lex a p -> Ref (x_not_precedes a) (not_precedes p).
Proof.
  intros a p Ha back r. unfold x_not_precedes, not_precedes. destruct (a back r) as [[x y]|] eqn:E; [|discriminate].
  intros _ m r' Hr [-> H]. apply Ha in E as [E H1]. cbn in Hr. subst r'. eapply H; eauto.
Qed.
Lemma det_not_precedes : forall p, Det (not_precedes p).
Proof. intros p pre m1 r1 m2 r2 _ [-> _] [-> _]. reflexivity. Qed.
Lemma lex_not_follows : forall f, Lex (x_not_follows f) (not_follows (one f)).
Proof.
  intros f back r m r'. unfold x_not_follows, not_follows. destruct back as [|c back].
  - intros [= <- <-]. split; [reflexivity|]. split; [reflexivity|]. intros b x E (d & -> & _).
    cbn in E. destruct b; discriminate.
  - destruct (f c) eqn:E; [discriminate|]. intros [= <- <-]. split; [reflexivity|]. split; [reflexivity|].
    intros b x Hx (d & -> & Hd). cbn in Hx. apply app_inj_tail in Hx as [_ ->]. congruence.
Qed.
Lemma ref_not_follows : forall f, Ref (x_not_follows f) (not_follows (one f)).
Proof.
  intros f back r. unfold x_not_follows, not_follows. destruct back as [|c back]; [discriminate|].
  destruct (f c) eqn:E; [|discriminate]. intros _ m r' -> [-> H]. apply (H (rev back) [c] eq_refl). exists c. auto.
Qed.
Lemma det_not_follows : forall p, Det (not_follows p).
Proof. intros p pre m1 r1 m2 r2 _ [-> _] [-> _]. reflexivity. Qed.

Lemma lazy_sound : forall a p, Lex a p -> Ref a p -> forall r n back m r', lazy_ a n back r = Some (m, r') ->
  r = m ++ r' /\ lazily n p (rev back) m r'.
Proof.
  intros a p Ha Ra. induction r as [|c r IH]; intros n back m r'.
  - cbn [lazy_]. destruct n; [|discriminate]. destruct (a back []) as [[x y]|] eqn:E; [|discriminate].
    intros [= <- <-]. apply Ha in E as [E H]. split; [exact E|].
    exists [], x. cbn [app length]. rewrite app_nil_r. split; [reflexivity|]. split; [lia|]. split; [exact H|]. lia.
  - cbn [lazy_]. destruct (match n with O => a back (c :: r) | S _ => None end) as [[x y]|] eqn:E.
    + destruct n; [|discriminate]. intros [= <- <-]. apply Ha in E as [E H]. split; [exact E|].
      exists [], x. cbn [app length]. rewrite app_nil_r. split; [reflexivity|]. split; [lia|]. split; [exact H|]. lia.
    + destruct (lazy_ a (pred n) (c :: back) r) as [[x y]|] eqn:E2; [|discriminate]. intros [= <- <-].
      apply IH in E2 as [-> (u & v & -> & Hn & Hv & Hno)]. split; [reflexivity|].
      exists (c :: u), v. cbn [app length]. cbn [rev] in Hv, Hno. rewrite <- app_assoc in Hv. cbn in Hv.
      split; [reflexivity|]. split; [destruct n; cbn in Hn; lia|]. split; [exact Hv|].
      intros u' v' rest Hs Hl Hm. destruct u' as [|d u'].
      * cbn [length] in Hl. destruct n; [|lia]. cbn [app] in Hs. rewrite app_nil_r in Hm.
        rewrite <- app_assoc in E. eapply (Ra _ _ E v' rest); [exact Hs|exact Hm].
      * cbn [length app] in *. injection Hs as <- Hs. apply (Hno u' v' rest).
        { exact Hs. }
        { destruct n; cbn; lia. }
        { rewrite <- app_assoc. exact Hm. }
Qed.
Lemma lex_lazy : forall n a p, Lex a p -> Ref a p -> Lex (x_lazy n a) (lazily n p).
Proof. intros n a p Ha Ra back r m r' H. eapply lazy_sound; eauto. Qed.
Lemma lex_line_end : Lex x_line_end line_end_.
Proof.
  intros back r m r'. unfold x_line_end, line_end_. destruct r as [|c r]; [intros [= <- <-]; auto|].
  destruct (c =? 10); [|discriminate]. intros [= <- <-]. auto.
Qed.

(** ** Tokens *)
Ltac lx := repeat first
  [ apply lex_seq | apply lex_alt | apply lex_many1 | apply lex_many | apply lex_exactly | apply lex_one
  | apply lex_lazy | apply lex_not_follows | apply lex_not_precedes | apply lex_line_end
  | apply ref_exactly | apply ref_one | apply ref_not_follows | apply ref_seq | apply ref_not_precedes
  | apply det_exactly | apply det_one | apply det_not_follows | apply det_not_precedes | apply det_seq ].

Lemma lex_unicode_escape : Lex x_unicode_escape unicode_escape. Proof. unfold x_unicode_escape, unicode_escape. lx. Qed.
Lemma lex_escape : Lex x_escape escape.
Proof. apply lex_alt; [apply lex_unicode_escape|lx]. Qed.
Lemma lex_space : Lex x_space space_pat. Proof. unfold x_space, space_pat. lx. Qed.
Lemma lex_new_line : Lex x_new_line new_line. Proof. unfold x_new_line, new_line. lx. Qed.
Lemma lex_quoted_string : Lex x_quoted_string quoted_string.
Proof. unfold x_quoted_string, quoted_string, x_quoted_with, quoted_with. lx; try apply lex_escape. Qed.
Lemma lex_any_chars : Lex x_any_chars any_chars. Proof. unfold x_any_chars, any_chars. lx. Qed.
Lemma lex_identifier_char : Lex x_identifier_char identifier_char.
Proof. unfold x_identifier_char, identifier_char. lx; try apply lex_escape. Qed.
Lemma lex_class_name : Lex x_class_name class_name. Proof. unfold x_class_name, class_name. lx. Qed.
Lemma lex_element_name : Lex x_element_name element_name.
Proof. unfold x_element_name, element_name. lx; try apply lex_identifier_char. Qed.
Lemma lex_attribute_name : Lex x_attribute_name attribute_name.
Proof. unfold x_attribute_name, attribute_name. lx; try apply lex_escape. Qed.
Lemma lex_unquoted_value : Lex x_unquoted_value unquoted_value.
Proof. unfold x_unquoted_value, unquoted_value. lx; try apply lex_escape. Qed.
Lemma lex_word_item : forall alnum, Lex (x_word_item alnum) (word_item alnum).
Proof. intros alnum. unfold x_word_item, word_item. lx; try apply lex_escape. Qed.
Lemma lex_interpolation : Lex x_interpolation interpolation_pat.
Proof. unfold x_interpolation, interpolation_pat. lx. Qed.
Lemma lex_verbatim_tail : forall h, Lex (x_verbatim_tail h) (verbatim_tail h).
Proof. intros h. unfold x_verbatim_tail, verbatim_tail. lx. Qed.
Lemma lex_inline_code : Lex x_inline_code inline_code. Proof. unfold x_inline_code, inline_code. lx. Qed.
Lemma lex_comment_text : Lex x_comment_text comment_text_pat. Proof. unfold x_comment_text, comment_text_pat. lx. Qed.
Lemma lex_multiline_open : forall q, Lex (x_multiline_open q) (multiline_open q).
Proof. intros q. unfold x_multiline_open, multiline_open. lx. Qed.
Lemma lex_multiline_close : forall q, Lex (x_multiline_close q) (multiline_close q).
Proof. intros q. unfold x_multiline_close, multiline_close. lx. Qed.

(** [post_selector_chain] *)
Lemma many_one : forall f pre m post, many (one f) pre m post <-> forallb f m = true.
Proof.
  intros f pre m post. split.
  - induction 1 as [|pre m1 m2 post (c & -> & H) _ IH]; [reflexivity|]. cbn. now rewrite H, IH.
  - revert pre. induction m as [|c m IH]; intros pre H; [constructor|]. cbn in H. apply andb_true_iff in H as [H1 H2].
    change (c :: m) with ([c] ++ m). constructor; [exists c; auto|auto].
Qed.
Lemma many_one_all : forall f fuel back r m r', many_ (x_one f) fuel back r = (m, r') -> (length r <= fuel)%nat ->
  r = m ++ r' /\ forallb f m = true /\ match r' with c :: _ => f c = false | [] => True end.
Proof.
  intros f. induction fuel as [|fuel IH]; intros back r m r'; cbn [many_].
  - intros [= <- <-] H. destruct r; [auto|cbn in H; lia].
  - intros H Hl. destruct r as [|c r]; cbn [x_one] in H; [injection H as <- <-; auto|].
    destruct (f c) eqn:E.
    + destruct (many_ (x_one f) fuel _ r) as [m2 r2] eqn:E2. injection H as <- <-.
      apply IH in E2 as (-> & H1 & H2); [|cbn in Hl; lia]. cbn. rewrite E. auto.
    + injection H as <- <-. auto.
Qed.
Lemma max_run : forall f (a b x y : str), a ++ x = b ++ y -> forallb f a = true -> forallb f b = true ->
  match x with c :: _ => f c = false | [] => True end -> match y with c :: _ => f c = false | [] => True end -> a = b.
Proof.
  intros f. induction a as [|c a IH]; intros [|d b] x y E Ha Hb Hx Hy; cbn in *; auto.
  - subst x. apply andb_true_iff in Hb as [Hb _]. congruence.
  - subst y. apply andb_true_iff in Ha as [Ha _]. congruence.
  - injection E as -> E. apply andb_true_iff in Ha as [_ Ha], Hb as [_ Hb]. f_equal. eapply IH; eauto.
Qed.
Definition psc_end : pat := palt (exactly (L ">"))
  (pseq (exactly (L "{")) (not_precedes (one (not_ (or_ is_whitespace (mem (L "}"))))))).
Lemma psc_end_first : forall pre m post, psc_end pre m post -> match m ++ post with c :: _ => mem [32; 9] c = false | [] => True end.
Proof.
  intros pre m post [->|(m1 & m2 & -> & -> & _)]; reflexivity.
Qed.
Lemma ref_psc_end : Ref (x_alt (x_exactly (L ">")) (x_seq (x_exactly (L "{")) (x_not_precedes (x_one (not_ (or_ is_whitespace (mem (L "}")))))))) psc_end.
Proof. unfold psc_end. apply ref_alt; lx. Qed.
Lemma lex_post_selector_chain : Lex x_post_selector_chain post_selector_chain.
Proof. unfold x_post_selector_chain, post_selector_chain. lx. Qed.
Lemma ref_post_selector_chain : Ref x_post_selector_chain post_selector_chain.
Proof.
  unfold x_post_selector_chain, post_selector_chain. apply ref_alt; [|lx].
  intros back r. unfold x_seq at 1, x_many.
  destruct (many_ (x_one (mem [32; 9])) (length r) back r) as [m1 r1] eqn:E1.
  match goal with |- (match ?a with _ => _ end) = None -> _ => destruct a as [[m2 r2]|] eqn:E2 end; [discriminate|].
  intros _ m r' Hr (n1 & n2 & -> & H1 & H2). apply many_one in H1.
  destruct (many_one_all _ _ _ _ _ _ E1) as (-> & F1 & F2); [lia|].
  rewrite <- app_assoc in Hr. pose proof (psc_end_first _ _ _ H2) as F3.
  assert (m1 = n1) as <- by (eapply max_run; eauto). apply app_inv_head in Hr.
  eapply (ref_psc_end _ _ E2); [exact Hr|]. now rewrite rev_back.
Qed.

Lemma lex_selector_chain : forall alnum, Lex (x_selector_chain alnum) (selector_chain alnum).
Proof.
  intros alnum. unfold x_selector_chain, selector_chain. apply lex_seq; [apply lex_many1, lex_word_item|].
  apply lex_precedes, lex_post_selector_chain.
Qed.
Lemma lex_text_word : forall alnum, Lex (x_text_word alnum) (text_word alnum).
Proof.
  intros alnum. unfold x_text_word, text_word. apply lex_seq; [apply lex_many1, lex_word_item|].
  apply lex_not_precedes, ref_post_selector_chain.
Qed.
Lemma lex_text_segment : forall alnum, Lex (x_text_segment alnum) (text_segment alnum).
Proof.
  intros alnum. unfold x_text_segment, text_segment. apply lex_seq; [apply lex_text_word|].
  apply lex_many, lex_seq; [apply lex_space|apply lex_text_word].
Qed.

(** [multiline_body] *)
Lemma blank_before_ok : forall back, blank_before back = true <->
  exists before x, rev back = before ++ x /\ pseq line_start (many (one (mem [9; 32]))) before x [].
Proof.
  intros back. split.
  - induction back as [|c back IH]; intros H.
    + exists [], []. split; [reflexivity|]. exists [], []. split; [reflexivity|]. split; [|constructor].
      split; [reflexivity|]. now left.
    + cbn [blank_before] in H. destruct (c =? 10) eqn:E.
      * apply N.eqb_eq in E. subst c. exists (rev (10 :: back)), []. split; [now rewrite app_nil_r|].
        exists [], []. split; [reflexivity|]. split; [|constructor]. split; [reflexivity|]. right. exists (rev back). reflexivity.
      * destruct (mem [9; 32] c) eqn:E2; [|discriminate]. apply IH in H as (b & x & Hb & m1 & m2 & -> & [-> H1] & H2).
        exists b, (m2 ++ [c]). cbn [rev]. rewrite Hb. cbn [app]. split; [now rewrite app_assoc|].
        exists [], (m2 ++ [c]). split; [reflexivity|]. split; [split; [reflexivity|exact H1]|].
        apply many_one in H2. apply many_one. rewrite forallb_app, H2. cbn [forallb]. now rewrite E2.
  - intros (b & x & Hb & m1 & m2 & -> & [-> H1] & H2). cbn [app] in Hb. apply many_one in H2.
    revert b m2 Hb H1 H2. induction back as [|c back IH]; intros b m2 Hb H1 H2; [reflexivity|].
    cbn [blank_before]. destruct (c =? 10) eqn:E; [reflexivity|].
    destruct m2 as [|d m2] using rev_ind.
    + rewrite app_nil_r in Hb. destruct H1 as [->|[a ->]]; [cbn [rev] in Hb; destruct (rev back); discriminate|].
      cbn [rev] in Hb. apply app_inj_tail in Hb as [_ ->]. discriminate.
    + clear IHm2. rewrite app_assoc in Hb. cbn [rev] in Hb. apply app_inj_tail in Hb as [Hb ->].
      rewrite forallb_app in H2. apply andb_true_iff in H2 as [H2 H3]. cbn [forallb] in H3.
      apply andb_true_iff in H3 as [-> _]. eapply IH; eauto.
Qed.
Definition body_end (q : str) : pat := palt src_end
  (pseq (precedes (exactly q)) (follows (pseq line_start (many (one (mem [9; 32])))))).
Lemma blank_pat_post : forall b x r r', pseq line_start (many (one (mem [9; 32]))) b x r -> pseq line_start (many (one (mem [9; 32]))) b x r'.
Proof.
  intros b x r r' (m1 & m2 & -> & [-> H1] & H2). exists [], m2. split; [reflexivity|]. split; [split; auto|].
  apply many_one in H2. now apply many_one.
Qed.
Lemma lex_body_end : forall q, Lex (x_body_end q) (body_end q).
Proof.
  intros q back r m r'. unfold x_body_end, body_end, palt. destruct r as [|c r].
  - intros [= <- <-]. split; [reflexivity|]. left. split; reflexivity.
  - destruct (starts_with q (c :: r)) eqn:E; [|discriminate]. destruct (blank_before back) eqn:E2; [|discriminate].
    intros [= <- <-]. split; [reflexivity|]. right. exists [], []. split; [reflexivity|].
    apply starts_with_spec in E as [t E]. split; [split; [reflexivity|]; exists q, t; split; [exact E|reflexivity]|].
    split; [reflexivity|]. rewrite app_nil_r. apply blank_before_ok in E2 as (b & x & Hb & H).
    exists b, x. split; [exact Hb|]. eapply blank_pat_post, H.
Qed.
Lemma ref_body_end : forall q, Ref (x_body_end q) (body_end q).
Proof.
  intros q back r. unfold x_body_end, body_end, palt. destruct r as [|c r]; [discriminate|]. intros H m r' Hr [[-> ->]|Hm].
  - discriminate.
  - destruct Hm as (m1 & m2 & -> & [-> (x & rest & Hp & Hx)] & [-> (b & y & Hb & Hy)]). unfold exactly in Hx. subst x.
    cbn [app] in *. rewrite Hr in H. rewrite Hp in H.
    assert (starts_with q (q ++ rest) = true) as E by (apply starts_with_spec; eauto). rewrite E in H.
    assert (blank_before back = true) as E2.
    { apply blank_before_ok. exists b, y. rewrite app_nil_r in Hb. split; [exact Hb|]. eapply blank_pat_post, Hy. }
    rewrite E2 in H. discriminate.
Qed.
Lemma lex_multiline_body : forall q, Lex (x_multiline_body q) (multiline_body q).
Proof. intros q. apply lex_lazy; [apply lex_body_end|apply ref_body_end]. Qed.

(** The parts of a comment *)
Lemma parts_sound : forall fuel back r m r', parts_ fuel back r = Some (m, r') ->
  r = m ++ r' /\ comment_parts (rev back) m r'.
Proof.
  induction fuel as [|fuel IH]; intros back r m r'; cbn [parts_]; [discriminate|].
  destruct (x_comment_text back r) as [[m1 r1]|] eqn:E1.
  - destruct (parts_ fuel (rev_append m1 back) r1) as [[m2 r2]|] eqn:E2; [|discriminate]. intros [= <- <-].
    apply lex_comment_text in E1 as [-> H1]. apply IH in E2 as [-> H2]. rewrite rev_back in H2.
    split; [now rewrite app_assoc|]. now apply CpText.
  - clear E1. destruct (strip_prefix (L "<!") r) as [r1|] eqn:E1; [|intros [= <- <-]; split; [reflexivity|constructor]].
    apply strip_prefix_some in E1. subst r.
    destruct (parts_ fuel (rev_append (L "<!") back) r1) as [[m1 r2]|] eqn:E2; [|discriminate].
    apply IH in E2 as [-> H1].
    set (cr := match strip_prefix (L "!>") r2 with Some r3 => (L "!>", r3) | None => ([], r2) end).
    assert (exists close r3, cr = (close, r3) /\ r2 = close ++ r3 /\ (close = L "!>" \/ close = [])) as (close & r3 & E & -> & Hc).
    { subst cr. destruct (strip_prefix (L "!>") r2) as [r3|] eqn:E; [|exists [], r2; auto].
      apply strip_prefix_some in E. exists (L "!>"), r3. auto. }
    rewrite E. destruct (parts_ fuel _ r3) as [[m2 r4]|] eqn:E3; [|discriminate]. intros [= <- <-].
    apply IH in E3 as [-> H2]. rewrite !rev_back in *.
    change (60 :: 33 :: m1 ++ close ++ m2) with (L "<!" ++ m1 ++ close ++ m2).
    split; [rewrite <- !app_assoc; reflexivity|].
    apply CpNested; auto; rewrite <- ?app_assoc in *; auto.
Qed.

(** * The parser of Parser.v: its trees are readings of the source, and its fuel is enough. *)

From Verif Require Import Base Doc Ast Convert Grammar Parser SpecSource SpecErrors P_Base P_Escape P_Grammar P_Lexer.
From Coq Require Import Lia.

Lemma then_got : forall A B (o : outcome A) (f : A -> pstate -> outcome B) b s, then_ o f = Got b s ->
  exists a s1, o = Got a s1 /\ f a s1 = Got b s.
Proof. intros A B [a s1| | |] f b s H; try discriminate. eauto. Qed.
Lemma or_else_got : forall A (o o' : outcome A) a s, or_else o o' = Got a s -> o = Got a s \/ o' = Got a s.
Proof. intros A [x s1| | |] o' a s H; cbn in H; auto; discriminate. Qed.
Lemma taken_got : forall A (o : outcome A) a s, taken o = Got a s -> o = Got a s.
Proof. intros A [x s1| | |] a s H; cbn in H; auto; discriminate. Qed.
Lemma then_starved : forall A B (o : outcome A) (f : A -> pstate -> outcome B), then_ o f = Starved ->
  o = Starved \/ exists a s1, o = Got a s1 /\ f a s1 = Starved.
Proof. intros A B [a s1| | |] f H; try discriminate; eauto. Qed.
Lemma or_else_starved : forall A (o o' : outcome A), or_else o o' = Starved -> o = Starved \/ o' = Starved.
Proof. intros A [x s1| | |] o' H; cbn in H; auto. Qed.
Lemma taken_starved : forall A (o : outcome A), taken o = Starved -> o = Starved.
Proof. intros A [x s1| | |] H; cbn in H; auto; discriminate. Qed.
Lemma maybe_starved : forall A s (o : outcome A), maybe s o = Starved -> o = Starved.
Proof. intros A s [x s1| | |] H; cbn in H; auto; discriminate. Qed.

Section At.
Variable src : str.

(** The state is a place in the source. *)
Definition At (s : pstate) : Prop := src = rev (p_back s) ++ p_rest s /\ p_at s = blen (rev (p_back s)).
Definition Sound {A} (f : pstate -> outcome A) (R : N -> N -> A -> Prop) : Prop :=
  forall s a s', At s -> f s = Got a s' -> At s' /\ R (p_at s) (p_at s') a.

Lemma at_advance : forall s m r, At s -> p_rest s = m ++ r -> At (advance s m r).
Proof.
  intros [p b rest] m r [H1 H2] H. unfold At, advance in *. cbn [p_at p_back p_rest] in *. rewrite rev_back.
  split; [rewrite H1, H; now rewrite app_assoc|]. rewrite blen_app. lia.
Qed.
Lemma tok_at : forall a p s m r, At s -> Lex a p -> a (p_back s) (p_rest s) = Some (m, r) ->
  At (advance s m r) /\ Tok src p (p_at s) (p_at s + blen m).
Proof.
  intros a p s m r Hs Ha E. apply Ha in E as [E H]. split; [now apply at_advance|].
  destruct Hs as [H1 H2]. exists (rev (p_back s)), m, r. rewrite H1, E, <- H2. auto.
Qed.
Lemma tok_sound : forall a p, Lex a p -> Sound (tok a) (Token src p).
Proof.
  intros a p Ha s x s' Hs. unfold tok. destruct (a (p_back s) (p_rest s)) as [[m r]|] eqn:E; [|discriminate].
  intros [= <- <-]. destruct (tok_at a p s m r Hs Ha E) as [H1 H2]. split; [exact H1|]. split; [reflexivity|]. exact H2.
Qed.
Lemma text_sound : forall t, Sound (text_tok t) (Token src (exactly t)).
Proof. intros t. apply tok_sound, lex_exactly. Qed.
Lemma skip_sound : forall f s, At s -> At (skip f s) /\ Tok src (many (one f)) (p_at s) (p_at (skip f s)).
Proof.
  intros f s Hs. unfold skip. destruct (many_ (x_one f) _ _ (p_rest s)) as [m r] eqn:E.
  assert (x_many (x_one f) (p_back s) (p_rest s) = Some (m, r)) as E' by (unfold x_many; now rewrite E).
  exact (tok_at _ _ s m r Hs (lex_many _ _ (lex_one f)) E').
Qed.
Lemma skip_ws_sound : forall s, At s -> At (skip_ws s) /\ Gap src (p_at s) (p_at (skip_ws s)).
Proof. apply skip_sound. Qed.
Lemma skip_space_sound : forall s, At s -> At (skip_space s) /\ SpaceGap src (p_at s) (p_at (skip_space s)).
Proof. apply skip_sound. Qed.
Lemma gap_none : forall f s, At s -> Tok src (many (one f)) (p_at s) (p_at s).
Proof.
  intros f s [H1 H2]. exists (rev (p_back s)), [], (p_rest s). cbn [blen app]. repeat split; auto; [lia|constructor].
Qed.
Lemma maybe_sound : forall A (f : pstate -> outcome A) R s o s', Sound f R -> At s -> maybe s (f s) = Got o s' ->
  At s' /\ Maybe R (p_at s) (p_at s') o.
Proof.
  intros A f R s o s' Hf Hs. destruct (f s) as [a s1| | |] eqn:E; try discriminate; intros [= <- <-]; [|split; auto; reflexivity].
  apply Hf; auto.
Qed.
Lemma vec_sound_ : forall A (f : pstate -> outcome A) R, Sound f R -> forall fuel, Sound (vec_ f fuel) (Tiles R).
Proof.
  intros A f R Hf. induction fuel as [|fuel IH]; intros s l s' Hs; cbn [vec_]; [discriminate|].
  destruct (f s) as [a s1| | |] eqn:E; try discriminate.
  - intros H. apply then_got in H as (l' & s2 & H1 & [= <- <-]). apply Hf in E as [A1 R1]; [|exact Hs].
    apply IH in H1 as [A2 R2]; [|exact A1]. split; [exact A2|]. exists (p_at s1). auto.
  - intros [= <- <-]. split; [exact Hs|reflexivity].
Qed.
Lemma vec_sound : forall A (f : pstate -> outcome A) R, Sound f R -> Sound (vec f) (Tiles R).
Proof. intros A f R Hf s l s'. apply vec_sound_, Hf. Qed.

(** Positions and lengths *)
Lemma at_rest : forall s s', At s -> At s' -> p_at s <= p_at s' -> exists m, p_rest s = m ++ p_rest s' /\ p_at s' = p_at s + blen m.
Proof.
  intros s s' [H1 H2] [H3 H4] H. rewrite H2, H4 in H. rewrite H1 in H3.
  destruct (app_prefix_blen _ _ _ _ H3 H) as [m E]. rewrite E, <- app_assoc in H3. apply app_inv_head in H3.
  exists m. split; [exact H3|]. rewrite H4, H2, E, blen_app. reflexivity.
Qed.
Lemma at_shorter : forall s s', At s -> At s' -> p_at s < p_at s' -> (length (p_rest s') < length (p_rest s))%nat.
Proof.
  intros s s' A1 A2 H. destruct (at_rest s s' A1 A2) as (m & E1 & E2); [lia|]. rewrite E1, app_length.
  destruct m; [cbn in E2; lia|cbn; lia].
Qed.
Lemma at_not_longer : forall s s', At s -> At s' -> p_at s <= p_at s' -> (length (p_rest s') <= length (p_rest s))%nat.
Proof.
  intros s s' A1 A2 H. destruct (at_rest s s' A1 A2) as (m & E1 & E2); [lia|]. rewrite E1, app_length. lia.
Qed.

(** Enough fuel for the states with less than [n] characters left. *)
Definition Live {A} (n : nat) (f : pstate -> outcome A) : Prop :=
  forall s, At s -> (length (p_rest s) < n)%nat -> f s <> Starved.
Lemma tok_live : forall a s, tok a s <> Starved.
Proof. intros a s. unfold tok. destruct (a (p_back s) (p_rest s)) as [[m r]|]; discriminate. Qed.
Lemma vec_live_ : forall A (f : pstate -> outcome A) R n, Sound f R -> (forall p q a, R p q a -> p < q) -> Live n f ->
  forall fuel s, At s -> (length (p_rest s) < n)%nat -> (length (p_rest s) < fuel)%nat -> vec_ f fuel s <> Starved.
Proof.
  intros A f R n Hf HR Hn. induction fuel as [|fuel IH]; intros s Hs Hl Hfu; [lia|]. cbn [vec_].
  pose proof (Hn s Hs Hl) as Hne. destruct (f s) as [a s1| | |] eqn:E; try discriminate; [|congruence].
  destruct (Hf _ _ _ Hs E) as [A1 R1]. apply HR in R1. pose proof (at_shorter _ _ Hs A1 R1).
  intros Hst. apply then_starved in Hst as [Hst|(l & s2 & _ & Hst)]; [|discriminate]. eapply (IH s1); auto; lia.
Qed.
Lemma vec_live : forall A (f : pstate -> outcome A) R n, Sound f R -> (forall p q a, R p q a -> p < q) -> Live n f -> Live n (vec f).
Proof. intros A f R n H1 H2 H3 s Hs Hl. eapply vec_live_; eauto. Qed.
End At.

(** ** Selectors *)

(** Patterns that do not depend on what comes after *)
Definition Free (p : pat) : Prop := forall pre m post post', p pre m post -> p pre m post'.
Lemma free_exactly : forall s, Free (exactly s). Proof. intros s pre m post post' H. exact H. Qed.
Lemma free_one : forall f, Free (one f). Proof. intros s pre m post post' H. exact H. Qed.
Lemma free_seq : forall p q, Free p -> Free q -> Free (pseq p q).
Proof. intros p q Hp Hq pre m post post' (m1 & m2 & -> & H1 & H2). exists m1, m2. eauto. Qed.
Lemma free_alt : forall p q, Free p -> Free q -> Free (palt p q).
Proof. intros p q Hp Hq pre m post post' [H|H]; [left|right]; eauto. Qed.
Lemma free_many : forall p, Free p -> Free (many p).
Proof. intros p Hp pre m post post' H. induction H; constructor; eauto. Qed.
Ltac fr := repeat first [apply free_seq | apply free_alt | apply free_many | apply free_exactly | apply free_one].
Lemma free_escape : Free escape. Proof. unfold escape, unicode_escape. fr. Qed.
Lemma free_any : Free any_chars. Proof. unfold any_chars, many1. fr. Qed.
Lemma free_class : Free class_name. Proof. unfold class_name, many1. fr. Qed.
Lemma free_ident : Free identifier_char. Proof. unfold identifier_char. fr; apply free_escape. Qed.
Lemma free_element_name : Free element_name.
Proof.
  intros pre m post post' (m1 & m2 & -> & [-> Hn] & H). exists [], m2. split; [reflexivity|].
  split; [|eapply free_seq; [apply free_ident|apply free_many, free_ident|exact H]].
  split; [reflexivity|]. intros x rest E (c & -> & Hc).
  destruct m2 as [|d m2].
  - destruct H as (a & b & E2 & H & _). symmetry in E2. apply app_eq_nil in E2 as [-> ->].
    destruct H as [(c' & E3 & _)|H]; [discriminate|]. now apply (ne_escape _ _ _) in H.
  - cbn in E. injection E as <- <-. apply (Hn [d] (m2 ++ post) eq_refl). exists d. auto.
Qed.
Lemma tok_more : forall src t p a b, Free p -> Tok src p a b -> Tok (src ++ t) p a b.
Proof.
  intros src t p a b Hp (pre & m & post & -> & H1 & H2 & H3). exists pre, m, (post ++ t).
  rewrite <- !app_assoc. repeat split; auto. eapply Hp, H3.
Qed.
Lemma token_more : forall src t p a b r, Free p -> Token src p a b r -> Token (src ++ t) p a b r.
Proof. intros src t p a b r Hp [H1 H2]. split; [exact H1|now apply tok_more]. Qed.
Lemma class_like_more : forall src t p q c, class_like_ok src p q c -> class_like_ok (src ++ t) p q c.
Proof.
  intros src t p q [d i|h i|r]; cbn [class_like_ok].
  - intros (x & H1 & H2). exists x. split; apply token_more; auto using free_exactly, free_class.
  - intros (x & H1 & H2). exists x. split; apply token_more; auto using free_exactly, free_class.
  - apply token_more, free_any.
Qed.
Lemma elt_sel_more : forall src t p q c, elt_sel_ok src p q c -> elt_sel_ok (src ++ t) p q c.
Proof. intros src t p q [r|r]; cbn [elt_sel_ok]; apply token_more; auto using free_exactly, free_element_name. Qed.
Lemma tiles_more : forall A (R R' : N -> N -> A -> Prop), (forall p q a, R p q a -> R' p q a) ->
  forall l p q, Tiles R p q l -> Tiles R' p q l.
Proof. intros A R R' H. induction l as [|a l IH]; intros p q; cbn [Tiles]; auto. intros (m & H1 & H2). eauto. Qed.

Section Rules.
Variable alnum : chr -> bool.

Section Src.
Variable src : str.
Notation At := (At src). Notation Sound := (Sound src). Notation Live := (Live src).

Lemma s_value : Sound p_value (value_ok src).
Proof.
  intros s a s' Hs H. unfold p_value in H. apply or_else_got in H as [H|H]; apply then_got in H as (r & s1 & H & [= <- <-]).
  - exact (tok_sound src _ _ lex_unquoted_value _ _ _ Hs H).
  - exact (tok_sound src _ _ lex_quoted_string _ _ _ Hs H).
Qed.
Lemma s_assign : Sound p_assign (assign_ok src).
Proof.
  intros s a s' Hs H. unfold p_assign in H. apply then_got in H as (eq & s1 & H & H2). apply then_got in H2 as (v & s2 & H2 & [= <- <-]).
  destruct (skip_ws_sound src s Hs) as [A0 G0]. destruct (text_sound src _ _ _ _ A0 H) as [A1 R1].
  destruct (skip_ws_sound src s1 A1) as [A2 G2]. destruct (s_value _ _ _ A2 H2) as [A3 R3].
  split; [exact A3|]. exists (p_at (skip_ws s)), (p_at s1), (p_at (skip_ws s1)). auto.
Qed.
Lemma s_attr : Sound p_attr (attr_ok src).
Proof.
  intros s a s' Hs H. unfold p_attr in H. apply then_got in H as (name & s1 & H & H2).
  apply then_got in H2 as (asg & s2 & H2 & [= <- <-]).
  destruct (skip_ws_sound src s Hs) as [A0 G0]. destruct (tok_sound src _ _ lex_attribute_name _ _ _ A0 H) as [A1 R1].
  destruct (maybe_sound src _ _ _ _ _ _ s_assign A1 H2) as [A2 R2].
  split; [exact A2|]. exists (p_at (skip_ws s)), (p_at s1). cbn [aa_start aa_name aa_assign aa_end].
  split; [exact G0|]. split; [apply gap_none; exact A0|]. auto.
Qed.
Lemma s_attrs : Sound p_attrs (attrs_ok src).
Proof.
  intros s a s' Hs H. unfold p_attrs in H. apply then_got in H as (l & s1 & H & H2).
  apply then_got in H2 as (parts & s2 & H2 & H3). apply then_got in H3 as (r & s4 & H3 & [= <- <-]).
  destruct (text_sound src _ _ _ _ Hs H) as [A1 R1]. destruct (vec_sound src _ _ _ s_attr _ _ _ A1 H2) as [A2 R2].
  destruct (skip_ws_sound src s2 A2) as [A3 G3].
  destruct (maybe_sound src _ _ _ _ _ _ (text_sound src (L "]")) A3 H3) as [A4 R4].
  split; [exact A4|]. exists (p_at s1), (p_at s2), (p_at (skip_ws s2)). cbn. repeat split; auto; apply R1.
Qed.
Lemma s_class_like : Sound p_class_like (class_like_ok src).
Proof.
  intros s a s' Hs H. unfold p_class_like in H. apply or_else_got in H as [H|H].
  - apply then_got in H as (d & s1 & H & H2). apply then_got in H2 as (i & s2 & H2 & [= <- <-]).
    destruct (text_sound src _ _ _ _ Hs H) as [A1 R1]. destruct (tok_sound src _ _ lex_class_name _ _ _ A1 H2) as [A2 R2].
    split; [exact A2|]. exists (p_at s1). auto.
  - apply or_else_got in H as [H|H].
    + apply then_got in H as (d & s1 & H & H2). apply then_got in H2 as (i & s2 & H2 & [= <- <-]).
      destruct (text_sound src _ _ _ _ Hs H) as [A1 R1]. destruct (tok_sound src _ _ lex_class_name _ _ _ A1 H2) as [A2 R2].
      split; [exact A2|]. exists (p_at s1). auto.
    + apply then_got in H as (r & s1 & H & [= <- <-]). exact (tok_sound src _ _ lex_any_chars _ _ _ Hs H).
Qed.
Lemma s_elt_sel : Sound p_elt_sel (elt_sel_ok src).
Proof.
  intros s a s' Hs H. unfold p_elt_sel in H. apply or_else_got in H as [H|H]; apply then_got in H as (r & s1 & H & [= <- <-]).
  - exact (tok_sound src _ _ lex_element_name _ _ _ Hs H).
  - exact (text_sound src _ _ _ _ Hs H).
Qed.
Lemma class_like_lt : forall p q c, class_like_ok src p q c -> p < q.
Proof.
  intros p q [d i|h i|r]; cbn [class_like_ok].
  - intros (x & [_ H1] & [_ H2]). apply tok_ne in H1; [|now apply ne_exactly]. apply tok_pos in H2 as (_ & _ & H2). lia.
  - intros (x & [_ H1] & [_ H2]). apply tok_ne in H1; [|now apply ne_exactly]. apply tok_pos in H2 as (_ & _ & H2). lia.
  - intros [_ H]. eapply tok_ne; [|exact H]. apply ne_any.
Qed.
Lemma class_like_live : forall n, Live n p_class_like.
Proof.
  intros n s Hs Hl H. unfold p_class_like in H.
  repeat match goal with
  | H : or_else _ _ = Starved |- _ => apply or_else_starved in H as [H|H]
  | H : then_ _ _ = Starved |- _ => apply then_starved in H as [H|(? & ? & _ & H)]
  | H : tok _ _ = Starved |- _ => now apply tok_live in H
  | H : text_tok _ _ = Starved |- _ => now apply tok_live in H
  | H : Got _ _ = Starved |- _ => discriminate
  end.
Qed.
Lemma attr_lt : forall p q a, attr_ok src p q a -> p < q.
Proof.
  intros p q a (x & y & H1 & H2 & [_ H3] & H4 & H5).
  apply gap_pos in H1 as (_ & _ & H1). apply gap_pos in H2 as (_ & _ & H2).
  assert (x < y). { eapply tok_ne; [|exact H3]. apply ne_seql, ne_alt; [apply ne_one|apply ne_escape]. }
  assert (y <= q).
  { apply (fwd_maybe src alnum _ _ (fwd_assign src alnum)) in H4 as [_ H4]; [exact H4|]. now apply tok_pos in H3. }
  lia.
Qed.
Ltac live := repeat match goal with
  | H : or_else _ _ = Starved |- _ => apply or_else_starved in H as [H|H]
  | H : then_ _ _ = Starved |- _ => apply then_starved in H as [H|(? & ? & ? & H)]
  | H : tok _ _ = Starved |- _ => now apply tok_live in H
  | H : text_tok _ _ = Starved |- _ => now apply tok_live in H
  | H : maybe _ _ = Starved |- _ => apply maybe_starved in H
  | H : taken _ = Starved |- _ => apply taken_starved in H
  | H : Got _ _ = Starved |- _ => discriminate
  end.
Lemma attr_live : forall n, Live n p_attr.
Proof. intros n s Hs Hl H. unfold p_attr, p_assign, p_value in H. live. Qed.
Lemma attrs_live : forall n, Live n p_attrs.
Proof.
  intros n s Hs Hl H. unfold p_attrs in H. live.
  destruct (text_sound src _ _ _ _ Hs H0) as [A1 [_ R1]].
  eapply (vec_live src _ p_attr (attr_ok src) (S (length (p_rest x0)))); eauto using s_attr, attr_lt, attr_live.
Qed.
End Src.

Section Src2.
Variable src : str.
Notation At := (At src). Notation Sound := (Sound src). Notation Live := (Live src).
Ltac live := repeat match goal with
  | H : or_else _ _ = Starved |- _ => apply or_else_starved in H as [H|H]
  | H : then_ _ _ = Starved |- _ => apply then_starved in H as [H|(? & ? & ? & H)]
  | H : tok _ _ = Starved |- _ => now apply tok_live in H
  | H : text_tok _ _ = Starved |- _ => now apply tok_live in H
  | H : maybe _ _ = Starved |- _ => apply maybe_starved in H
  | H : taken _ = Starved |- _ => apply taken_starved in H
  | H : Got _ _ = Starved |- _ => discriminate
  end.

(** The state in a chain is a place in the source up to the end of the chain. *)
Lemma in_chain_got : forall A (f : pstate -> outcome A) s a s', At s -> in_chain alnum f s = Got a s' ->
  exists m r src', src = src' ++ r /\ At s' /\ Tok src (selector_chain alnum) (p_at s) (p_at s') /\
    P_Parser.At src' (mkP (p_at s) (p_back s) m) /\
    exists s1, f (mkP (p_at s) (p_back s) m) = Got a s1 /\ forall (H : P_Parser.At src' s1), p_at s1 = p_at s'.
Proof.
  intros A f s a s' Hs. unfold in_chain. destruct (x_selector_chain alnum (p_back s) (p_rest s)) as [[m r]|] eqn:E; [|discriminate].
  destruct (f (mkP (p_at s) (p_back s) m)) as [a1 [p1 b1 [|]]| | |] eqn:Ef; try discriminate. intros [= <- <-].
  destruct (tok_at src _ _ s m r Hs (lex_selector_chain alnum) E) as [A1 T1].
  apply lex_selector_chain in E as [E _]. destruct Hs as [H1 H2].
  exists m, r, (rev (p_back s) ++ m). rewrite H1, E in *. split; [now rewrite app_assoc|]. split; [exact A1|].
  split; [exact T1|]. split; [split; [reflexivity|exact H2]|].
  eexists. split; [exact Ef|]. intros [H3 H4]. cbn [p_at p_back p_rest] in *. rewrite app_nil_r in H3.
  rewrite H4, <- H3, blen_app. unfold advance. cbn [p_at]. lia.
Qed.
Lemma s_sel_start : Sound (p_sel_start alnum) (sel_start_ok src alnum).
Proof.
  intros s a s' Hs H. unfold p_sel_start in H. apply or_else_got in H as [H|H].
  - apply then_got in H as (x & s1 & H & [= <- <-]). exact (s_attrs src _ _ _ Hs H).
  - apply in_chain_got in H as (m & r & src' & E & A1 & T1 & A0 & s1 & H & H1); [|exact Hs].
    apply then_got in H as (e & s2 & H & H2). apply then_got in H2 as (cl & s3 & H2 & [= <- <-]).
    destruct (maybe_sound src' _ _ _ _ _ _ (s_elt_sel src') A0 H) as [A2 R2].
    destruct (vec_sound src' _ _ _ (s_class_like src') _ _ _ A2 H2) as [A3 R3].
    split; [exact A1|]. cbn [sel_start_ok]. split; [exact T1|]. rewrite <- (H1 A3). exists (p_at s2). subst src.
    split.
    + destruct e; cbn [Maybe] in *; [|exact R2]. now apply elt_sel_more.
    + eapply tiles_more; [|exact R3]. intros. now apply class_like_more.
Qed.
Lemma s_segment : Sound (p_segment alnum) (segment_ok src alnum).
Proof.
  intros s a s' Hs H. unfold p_segment in H. apply or_else_got in H as [H|H].
  - apply then_got in H as (x & s1 & H & [= <- <-]). exact (s_attrs src _ _ _ Hs H).
  - apply in_chain_got in H as (m & r & src' & E & A1 & T1 & A0 & s1 & H & H1); [|exact Hs].
    apply then_got in H as (cl & s3 & H2 & [= <- <-]).
    destruct (vec_sound src' _ _ _ (s_class_like src') _ _ _ A0 H2) as [A3 R3].
    split; [exact A1|]. cbn [segment_ok]. split; [exact T1|]. rewrite <- (H1 A3). subst src.
    eapply tiles_more; [|exact R3]. intros. now apply class_like_more.
Qed.
Lemma s_selector : Sound (p_selector alnum) (selector_ok src alnum).
Proof.
  intros s a s' Hs H. unfold p_selector in H. apply then_got in H as (first & s1 & H & H2).
  apply then_got in H2 as (segs & s2 & H2 & [= <- <-]).
  destruct (s_sel_start _ _ _ Hs H) as [A1 R1]. destruct (vec_sound src _ _ _ s_segment _ _ _ A1 H2) as [A2 R2].
  split; [exact A2|]. split; [reflexivity|]. split; [|reflexivity]. exists (p_at s1). auto.
Qed.
Lemma chain_live : forall A (f : pstate -> outcome A), (forall src', forall n, P_Parser.Live src' n f) -> forall n, Live n (in_chain alnum f).
Proof.
  intros A f Hf n s Hs Hl. unfold in_chain. destruct (x_selector_chain alnum (p_back s) (p_rest s)) as [[m r]|] eqn:E; [|discriminate].
  assert (P_Parser.At (rev (p_back s) ++ m) (mkP (p_at s) (p_back s) m)) as A0.
  { split; [reflexivity|apply Hs]. }
  pose proof (Hf _ (S (length m)) _ A0 (Nat.lt_succ_diag_r _)) as Hne.
  destruct (f (mkP (p_at s) (p_back s) m)) as [a1 [p1 b1 [|]]| | |] eqn:Ef; try discriminate. congruence.
Qed.
Lemma classes_live : forall src' n, P_Parser.Live src' n (vec p_class_like).
Proof. intros src' n. eapply vec_live; [apply s_class_like|apply class_like_lt|apply class_like_live]. Qed.
Lemma sel_start_live : forall n, Live n (p_sel_start alnum).
Proof.
  intros n s Hs Hl H. unfold p_sel_start in H. live.
  - eapply attrs_live; eauto.
  - revert H. eapply chain_live; [|exact Hs|exact Hl]. intros src' k s0 Hs0 Hl0 H. live.
    + unfold p_elt_sel in H. live.
    + destruct (maybe_sound src' _ _ _ _ _ _ (s_elt_sel src') Hs0 H0) as [A2 R2].
      eapply (classes_live src' (S (length (p_rest x0)))); eauto.
Qed.
Lemma segment_live : forall n, Live n (p_segment alnum).
Proof.
  intros n s Hs Hl H. unfold p_segment in H. live.
  - eapply attrs_live; eauto.
  - revert H. eapply chain_live; [|exact Hs|exact Hl]. intros src' k s0 Hs0 Hl0 H. live. eapply classes_live; eauto.
Qed.
Lemma attrs_lt : forall p q a, attrs_ok src p q a -> p < q.
Proof.
  intros p q a (x & y & z & H1 & [_ H2] & H3 & H4 & H5 & H6).
  pose proof (tok_pos _ _ _ _ H2) as (_ & B2 & _). apply tok_ne in H2; [|now apply ne_exactly].
  apply gap_pos in H4 as (_ & _ & H4).
  destruct (fwd_tiles src alnum _ _ (fwd_attr src alnum) _ _ _ B2 H3) as [_ H7].
  assert (z <= q). { destruct (al_rbracket a); cbn in H5; [|lia]. apply (fwd_token src alnum) in H5 as (_ & _ & H5). exact H5. }
  lia.
Qed.
Lemma segment_lt : forall p q a, segment_ok src alnum p q a -> p < q.
Proof.
  intros p q [a|cl]; cbn [segment_ok]; [apply attrs_lt|]. intros [H _]. eapply tok_ne; [|exact H]. apply ne_chain.
Qed.
Lemma selector_live : forall n, Live n (p_selector alnum).
Proof.
  intros n s Hs Hl H. unfold p_selector in H. live; [now apply (sel_start_live n s Hs Hl)|].
  destruct (s_sel_start _ _ _ Hs H0) as [A1 R1].
  eapply (vec_live src _ (p_segment alnum) _ (S (length (p_rest x0))) s_segment segment_lt (segment_live _)); eauto.
Qed.

(** ** Text *)
Lemma s_tail : Sound p_tail (tail_ok src).
Proof.
  intros s a s' Hs H. unfold p_tail in H.
  repeat (apply or_else_got in H as [H|H]); apply then_got in H as (r & s1 & H & [= <- <-]);
    exact (tok_sound src _ _ (lex_verbatim_tail _) _ _ _ Hs H).
Qed.
Lemma s_verbatim : Sound p_verbatim (verbatim_ok src).
Proof.
  intros s a s' Hs H. unfold p_verbatim in H. apply then_got in H as (o & s1 & H & H2).
  apply then_got in H2 as (raw & s2 & H2 & H3). apply then_got in H3 as (t & s3 & H3 & [= <- <-]).
  destruct (text_sound src _ _ _ _ Hs H) as [A1 R1].
  destruct (maybe_sound src _ _ _ _ _ _ (text_sound src (L "raw")) A1 H2) as [A2 R2].
  assert (p_tail s2 = Got t s3) as H4 by (destruct raw; [now apply taken_got|exact H3]).
  destruct (s_tail _ _ _ A2 H4) as [A3 R3]. split; [exact A3|]. exists (p_at s1), (p_at s2). auto.
Qed.
Lemma s_comment : Sound p_comment (comment_ok src).
Proof.
  intros s a s' Hs H. unfold p_comment in H. apply then_got in H as (o & s1 & H & H2).
  destruct (parts_ (S (length (p_rest s1))) (p_back s1) (p_rest s1)) as [[m r]|] eqn:E; [|discriminate].
  apply then_got in H2 as (c & s3 & H2 & [= <- <-]).
  destruct (text_sound src _ _ _ _ Hs H) as [A1 R1].
  apply parts_sound in E as [E R2]. assert (At (advance s1 m r)) as A2 by now apply at_advance.
  destruct (maybe_sound src _ _ _ _ _ _ (text_sound src (L "!>")) A2 H2) as [A3 R3].
  split; [exact A3|]. exists (p_at s1), (p_at (advance s1 m r)). cbn [ac_start ac_open ac_inner ac_close ac_end].
  repeat split; auto; try apply R1. destruct A1 as [B1 B2]. exists (rev (p_back s1)), m, r. rewrite B1, E, <- B2. auto.
Qed.
Lemma s_text : Sound (p_text alnum) (text_ok src alnum).
Proof.
  intros s a s' Hs H. unfold p_text in H.
  apply or_else_got in H as [H|H]; [|apply or_else_got in H as [H|H]; [|apply or_else_got in H as [H|H]]];
    apply then_got in H as (r & s1 & H & [= <- <-]).
  - exact (tok_sound src _ _ (lex_text_segment alnum) _ _ _ Hs H).
  - exact (s_verbatim _ _ _ Hs H).
  - exact (s_comment _ _ _ Hs H).
  - exact (tok_sound src _ _ lex_interpolation _ _ _ Hs H).
Qed.
Lemma s_multiline : Sound p_multiline (multiline_ok src).
Proof.
  assert (forall k, Sound (p_multiline_kind k) (multiline_ok src)) as Hk.
  { intros k s a s' Hs H. unfold p_multiline_kind in H. apply then_got in H as (o & s1 & H & H2).
    apply then_got in H2 as (b & s2 & H2 & H3). apply then_got in H3 as (c & s3 & H3 & [= <- <-]). apply taken_got in H3.
    destruct (tok_sound src _ _ (lex_multiline_open _) _ _ _ Hs H) as [A1 R1].
    destruct (tok_sound src _ _ (lex_multiline_body _) _ _ _ A1 H2) as [A2 R2].
    destruct (tok_sound src _ _ (lex_multiline_close _) _ _ _ A2 H3) as [A3 R3].
    split; [exact A3|]. exists (p_at s1), (p_at s2). cbn [am_kind am_open am_start am_body am_end am_close]. auto. }
  intros s a s' Hs H. unfold p_multiline in H. repeat (apply or_else_got in H as [H|H]); eapply Hk; eauto.
Qed.
Lemma parts_live : forall fuel back r, (length r < fuel)%nat -> parts_ fuel back r <> None.
Proof.
  induction fuel as [|fuel IH]; intros back r Hl; [lia|]. cbn [parts_].
  destruct (x_comment_text back r) as [[m1 r1]|] eqn:E1.
  - assert (length r1 < fuel)%nat as Hl1.
    { pose proof (lex_comment_text _ _ _ _ E1) as [E _].
      assert (m1 <> []) as Hm.
      { revert E1. apply eats_alt; [apply eats_one|apply eats_alt; apply eats_seq_l, eats_exactly; discriminate]. }
      subst r. rewrite app_length in Hl. destruct m1; [easy|]. cbn in Hl. lia. }
    pose proof (IH (rev_append m1 back) r1 Hl1) as H. destruct (parts_ fuel (rev_append m1 back) r1) as [[? ?]|]; [discriminate|easy].
  - destruct (strip_prefix (L "<!") r) as [r1|] eqn:E2; [|discriminate]. apply strip_prefix_some in E2. subst r.
    rewrite app_length in Hl. cbn in Hl.
    assert (length r1 < fuel)%nat as Hl1 by lia. pose proof (IH (rev_append (L "<!") back) r1 Hl1) as H.
    destruct (parts_ fuel (rev_append (L "<!") back) r1) as [[m1 r2]|] eqn:E3; [|easy].
    apply parts_sound in E3 as [E3 _].
    destruct (strip_prefix (L "!>") r2) as [r3|] eqn:E4.
    + apply strip_prefix_some in E4. assert (length r3 < fuel)%nat as Hl3.
      { rewrite E3, E4, !app_length in Hl1. cbn in Hl1. lia. }
      match goal with |- match parts_ fuel ?b r3 with _ => _ end <> None => pose proof (IH b r3 Hl3) as H3; destruct (parts_ fuel b r3) as [[? ?]|] end; [discriminate|easy].
    + assert (length r2 < fuel)%nat as Hl3.
      { rewrite E3, !app_length in Hl1. lia. }
      match goal with |- match parts_ fuel ?b r2 with _ => _ end <> None => pose proof (IH b r2 Hl3) as H3; destruct (parts_ fuel b r2) as [[? ?]|] end; [discriminate|easy].
Qed.
Lemma text_live : forall s, p_text alnum s <> Starved.
Proof.
  intros s H. unfold p_text, p_verbatim, p_tail, p_comment in H. live.
  - match goal with H : match ?o with Some _ => _ | None => _ end = Starved |- _ => destruct o end; live.
  - destruct (parts_ _ (p_back x0) (p_rest x0)) as [[m r]|] eqn:E; [live|].
    revert E. apply parts_live. lia.
Qed.
Lemma multiline_live : forall s, p_multiline s <> Starved.
Proof. intros s H. unfold p_multiline, p_multiline_kind in H. live. Qed.

(** ** Nodes *)
Section Nodes.
Variable node : pstate -> outcome a_node.
Hypothesis Hnode : Sound node (node_ok src alnum).
Notation nok := (node_ok src alnum).

Lemma s_item : Sound (p_item node) (item_ok src nok).
Proof.
  intros s a s' Hs H. unfold p_item in H. apply then_got in H as (sp & s1 & H & H2). apply then_got in H2 as (n & s2 & H2 & [= <- <-]).
  destruct (maybe_sound src _ _ _ _ _ _ (tok_sound src _ _ lex_space) Hs H) as [A1 R1].
  destruct (Hnode _ _ _ A1 H2) as [A2 R2]. split; [exact A2|]. exists (p_at s), (p_at s1).
  split; [apply gap_none, Hs|]. auto.
Qed.
Lemma s_line : Sound (p_line node) (Grammar.line_ok src nok).
Proof.
  intros s a s' Hs H. unfold p_line in H. apply then_got in H as (l & s1 & H & [= <- <-]).
  destruct (skip_space_sound src s Hs) as [A0 G0]. destruct (vec_sound src _ _ _ s_item _ _ _ A0 H) as [A1 R1].
  destruct (skip_space_sound src s1 A1) as [A2 G2]. split; [exact A2|].
  exists (p_at (skip_space s)), (p_at s1). cbn [ln_start ln_nodes ln_end].
  split; [apply gap_none, Hs|]. split; [exact G0|]. split; [exact R1|]. split; [exact G2|]. apply gap_none, A2.
Qed.
Lemma s_lines : forall fuel, Sound (lines_ node fuel) (lines_ok src nok).
Proof.
  induction fuel as [|fuel IH]; intros s ls s' Hs H; cbn [lines_] in H; [discriminate|].
  apply then_got in H as (l & s1 & H & H2). destruct (s_line _ _ _ Hs H) as [A1 R1].
  destruct (tok x_new_line s1) as [r s2| | |] eqn:E.
  - apply then_got in H2 as (ls' & s3 & H2 & [= <- <-]).
    destruct (tok_sound src _ _ lex_new_line _ _ _ A1 E) as [A2 [_ R2]]. destruct (IH _ _ _ A2 H2) as [A3 R3].
    split; [exact A3|]. destruct ls' as [|l2 ls'].
    + exfalso. clear - H2. destruct fuel; cbn [lines_] in H2; [discriminate|]. apply then_got in H2 as (l & s1 & _ & H2).
      destruct (tok x_new_line s1) as [r s2'| | |]; try discriminate. apply then_got in H2 as (? & ? & _ & H2). discriminate.
    + cbn [lines_ok]. exists (p_at s1), (p_at s2). auto.
  - injection H2 as <- <-. auto.
  - injection H2 as <- <-. auto.
  - injection H2 as <- <-. auto.
Qed.
Lemma s_content : Sound (p_content node) (content_ok src nok).
Proof.
  intros s c s' Hs H. unfold p_content in H. apply then_got in H as (ls & s2 & H & [= <- <-]).
  destruct (skip_ws_sound src s Hs) as [A1 G1]. destruct (s_lines _ _ _ _ A1 H) as [A2 R2].
  destruct (skip_ws_sound src s2 A2) as [A3 G3]. split; [exact A3|].
  exists (p_at (skip_ws s)), (p_at s2). cbn [ct_start ct_lines ct_end].
  split; [apply gap_none, Hs|]. split; [exact G1|]. split; [exact R2|]. split; [apply gap_none, A2|exact G3].
Qed.
Lemma gap_trans : forall p q r, Gap src p q -> Gap src q r -> Gap src p r.
Proof.
  intros p q r (a & m & b & E1 & -> & -> & H1) (a' & m' & b' & E2 & E3 & -> & H2).
  assert (a' = a ++ m /\ b = m' ++ b') as [-> ->].
  { rewrite <- blen_app in E3. rewrite E1 in E2. rewrite app_assoc in E2. clear - E2 E3. revert a' E2 E3.
    generalize (a ++ m) as u. induction u as [|c u IH]; intros a' E2 E3.
    - cbn in *. symmetry in E3. apply blen_nil in E3. subst a'. auto.
    - destruct a' as [|d a']; [cbn in E3; pose proof (utf8_len_pos c); lia|]. cbn in E2. injection E2 as <- E2.
      cbn in E3. destruct (IH a') as [-> ->]; auto; lia. }
  exists a, (m ++ m'), b'. rewrite E1, <- !app_assoc, !blen_app. repeat split; auto; [lia|].
  apply many_one in H1. apply many_one in H2. apply many_one. now rewrite forallb_app, H1, H2.
Qed.
Lemma content_before : forall p q r c, Gap src p q -> content_ok src nok q r c -> content_ok src nok p r c.
Proof.
  intros p q r c H (x & y & H1 & H2). exists x, y. split; [eapply gap_trans; eauto|exact H2].
Qed.
Lemma s_block : Sound (p_block node) (block_ok src nok).
Proof.
  intros s b s' Hs H. unfold p_block in H. apply then_got in H as (l & s1 & H & H2).
  apply then_got in H2 as (c & s2 & H2 & H3). apply then_got in H3 as (r & s4 & H3 & [= <- <-]).
  destruct (text_sound src _ _ _ _ Hs H) as [A1 R1]. destruct (skip_ws_sound src s1 A1) as [A1' G1].
  destruct (s_content _ _ _ A1' H2) as [A2 R2]. destruct (skip_ws_sound src s2 A2) as [A3 G3].
  destruct (maybe_sound src _ _ _ _ _ _ (text_sound src (L "}")) A3 H3) as [A4 R4].
  split; [exact A4|]. exists (p_at s1), (p_at s2), (p_at (skip_ws s2)). cbn [bk_lbrace bk_content bk_rbrace].
  split; [exact R1|]. split; [eapply content_before; eauto|]. auto.
Qed.
Lemma s_inline : Sound (p_inline node) (inline_ok src nok).
Proof.
  intros s b s' Hs H. unfold p_inline in H. apply then_got in H as (l & s1 & H & H2).
  apply then_got in H2 as (c & s2 & H2 & H3). apply then_got in H3 as (r & s4 & H3 & [= <- <-]).
  destruct (text_sound src _ _ _ _ Hs H) as [A1 R1]. destruct (skip_ws_sound src s1 A1) as [A1' G1].
  destruct (vec_sound src _ _ _ s_item _ _ _ A1' H2) as [A2 R2]. destruct (skip_ws_sound src s2 A2) as [A3 G3].
  destruct (maybe_sound src _ _ _ _ _ _ (text_sound src (L ")>")) A3 H3) as [A4 R4].
  split; [exact A4|]. exists (p_at s1), (p_at (skip_ws s1)), (p_at s2), (p_at (skip_ws s2)). cbn [in_open in_inner in_close]. auto.
Qed.
Lemma s_special : Sound (p_special node) (special_ok src nok).
Proof.
  assert (forall k, Sound (p_special_kind node k) (special_ok src nok)) as Hk.
  { intros k s b s' Hs H. unfold p_special_kind in H. apply then_got in H as (l & s1 & H & H2).
    apply then_got in H2 as (c & s2 & H2 & H3). apply then_got in H3 as (r & s4 & H3 & [= <- <-]).
    destruct (text_sound src _ _ _ _ Hs H) as [A1 R1]. destruct (s_content _ _ _ A1 H2) as [A2 R2].
    destruct (maybe_sound src _ _ _ _ _ _ (text_sound src (special_close k)) A2 H3) as [A4 R4].
    split; [exact A4|]. cbn [special_ok]. exists (p_at s1), (p_at s2). auto. }
  intros s a s' Hs H. unfold p_special in H. do 5 (apply or_else_got in H as [H|H]; [eapply Hk; eauto|]).
  apply then_got in H as (r & s1 & H & [= <- <-]). exact (tok_sound src _ _ lex_inline_code _ _ _ Hs H).
Qed.
Lemma s_element : Sound (p_element node) (element_ok src nok).
Proof.
  intros s a s' Hs H. unfold p_element in H.
  apply or_else_got in H as [H|H]; [|apply or_else_got in H as [H|H]; [|apply or_else_got in H as [H|H]]];
    apply then_got in H as (r & s1 & H & [= <- <-]).
  - exact (text_sound src _ _ _ _ Hs H).
  - exact (s_block _ _ _ Hs H).
  - exact (s_inline _ _ _ Hs H).
  - exact (s_special _ _ _ Hs H).
Qed.
Lemma s_ntype : Sound (p_ntype alnum node) (ntype_ok src alnum nok).
Proof.
  intros s a s' Hs H. unfold p_ntype in H.
  apply or_else_got in H as [H|H]; [|apply or_else_got in H as [H|H]; [|apply or_else_got in H as [H|H]]];
    apply then_got in H as (r & s1 & H & [= <- <-]).
  - exact (s_multiline _ _ _ Hs H).
  - exact (s_text _ _ _ Hs H).
  - exact (s_selector _ _ _ Hs H).
  - exact (s_element _ _ _ Hs H).
Qed.

(** Enough fuel *)
Variable n : nat.
Hypothesis Hlive : Live n node.
Lemma item_lt : forall p q i, item_ok src nok p q i -> p < q.
Proof.
  intros p q i (x & y & H1 & H2 & H3). apply spacegap_pos in H1 as (_ & _ & H1). apply node_nonempty in H3.
  assert (x <= y). { destruct (fst i); cbn in H2; [|lia]. apply (fwd_token src alnum) in H2 as (_ & _ & H2). exact H2. }
  lia.
Qed.
Lemma item_live : Live n (p_item node).
Proof.
  intros s Hs Hl H. unfold p_item in H. live.
  destruct (maybe_sound src _ _ _ _ _ _ (tok_sound src _ _ lex_space) Hs H0) as [A1 R1].
  eapply Hlive; [exact A1| |exact H].
  assert (p_at s <= p_at x0). { destruct x; cbn in R1; [|lia]. apply (fwd_token src alnum) in R1 as (_ & _ & R1). exact R1. }
  pose proof (at_not_longer src _ _ Hs A1 H1). lia.
Qed.
Lemma items_live : Live n (vec (p_item node)).
Proof. eapply vec_live; [apply s_item|apply item_lt|apply item_live]. Qed.
Lemma skip_len : forall f s, At s -> (length (p_rest (skip f s)) <= length (p_rest s))%nat.
Proof.
  intros f s Hs. destruct (skip_sound src f s Hs) as [A1 T1]. apply tok_pos in T1 as (_ & _ & H).
  exact (at_not_longer src _ _ Hs A1 H).
Qed.
Lemma line_live : Live n (p_line node).
Proof.
  intros s Hs Hl H. unfold p_line in H. live.
  destruct (skip_space_sound src s Hs) as [A0 G0]. eapply items_live; [exact A0| |exact H].
  pose proof (skip_len not_newline_space s Hs). unfold skip_space. lia.
Qed.
Lemma lines_live : forall fuel s, At s -> (length (p_rest s) < n)%nat -> (length (p_rest s) < fuel)%nat -> lines_ node fuel s <> Starved.
Proof.
  induction fuel as [|fuel IH]; intros s Hs Hl Hf H; [lia|]. cbn [lines_] in H.
  apply then_starved in H as [H|(l & s1 & H1 & H)]; [now apply (line_live s Hs Hl)|].
  destruct (s_line _ _ _ Hs H1) as [A1 R1]. apply (fwd_line src alnum) in R1 as (_ & _ & R1). pose proof (at_not_longer src _ _ Hs A1 R1).
  destruct (tok x_new_line s1) as [r s2| | |] eqn:E; try discriminate.
  destruct (tok_sound src _ _ lex_new_line _ _ _ A1 E) as [A2 [_ R2]].
  assert (p_at s1 < p_at s2). { eapply tok_ne; [|exact R2]. apply ne_seqr, ne_seql, ne_exactly. discriminate. }
  pose proof (at_shorter src _ _ A1 A2 H2). live. eapply (IH s2); auto; lia.
Qed.
Lemma content_live : Live n (p_content node).
Proof.
  intros s Hs Hl H. unfold p_content in H. live.
  destruct (skip_ws_sound src s Hs) as [A1 G1]. pose proof (skip_len is_whitespace s Hs).
  eapply (lines_live (S (length (p_rest (skip_ws s)))) (skip_ws s)); auto. unfold skip_ws in *. lia.
Qed.
Lemma text_shorter : forall t s r s', At s -> t <> [] -> text_tok t s = Got r s' -> At s' /\ (length (p_rest s') < length (p_rest s))%nat.
Proof.
  intros t s r s' Hs Ht H. destruct (text_sound src _ _ _ _ Hs H) as [A1 [_ R1]]. split; [exact A1|].
  eapply at_shorter; eauto. eapply tok_ne; [|exact R1]. now apply ne_exactly.
Qed.
Lemma ntype_live : Live (S n) (p_ntype alnum node).
Proof.
  intros s Hs Hl H. unfold p_ntype in H. live.
  - now apply multiline_live in H.
  - now apply text_live in H.
  - now apply (selector_live (S n) s Hs Hl) in H.
  - unfold p_element in H. live.
    + unfold p_block in H. live. apply text_shorter in H0 as [A1 L1]; [|exact Hs|discriminate].
      destruct (skip_ws_sound src x0 A1) as [A2 _]. pose proof (skip_len is_whitespace x0 A1).
      eapply content_live; [exact A2| |exact H]. unfold skip_ws. lia.
    + unfold p_inline in H. live. apply text_shorter in H0 as [A1 L1]; [|exact Hs|discriminate].
      destruct (skip_ws_sound src x0 A1) as [A2 _]. pose proof (skip_len is_whitespace x0 A1).
      eapply items_live; [exact A2| |exact H]. unfold skip_ws. lia.
    + unfold p_special, p_special_kind in H. live.
      all: apply text_shorter in H0 as [A1 L1]; [|exact Hs|discriminate]; eapply content_live; [exact A1| |exact H]; lia.
Qed.
End Nodes.

Lemma s_node : forall fuel, Sound (p_node alnum fuel) (node_ok src alnum).
Proof.
  induction fuel as [|fuel IH]; intros s a s' Hs H; cbn [p_node] in H; [discriminate|].
  apply then_got in H as (t & s1 & H & [= <- <-]). destruct (s_ntype _ IH _ _ _ Hs H) as [A1 R1].
  split; [exact A1|]. cbn [node_ok]. auto.
Qed.
Lemma node_live : forall n, Live n (p_node alnum n).
Proof.
  induction n as [|n IH]; intros s Hs Hl H; [lia|]. cbn [p_node] in H. live.
  eapply (ntype_live (p_node alnum n) (s_node n) n IH); eauto.
Qed.
End Src2.

(** ** The document *)
Lemma at_start : forall src, At src (mkP 0 [] src).
Proof. intros src. split; reflexivity. Qed.
Theorem document_sound : forall src c s, p_document alnum src = Got c s -> document_ok src alnum c.
Proof.
  intros src c s H. unfold p_document in H. apply then_got in H as (c1 & s1 & H & H2).
  destruct (skip_ws_sound src _ (at_start src)) as [A0 G0].
  destruct (s_content src _ (s_node src _) _ _ _ A0 H) as [A1 R1]. destruct (skip_ws_sound src s1 A1) as [A2 G2].
  destruct (p_rest (skip_ws s1)) eqn:E; [|discriminate]. injection H2 as <- <-.
  exists (p_at (skip_ws (mkP 0 [] src))), (p_at s1). split; [exact G0|]. split; [exact R1|].
  destruct A2 as [H1 H2]. rewrite E, app_nil_r in H1.
  replace (blen src) with (p_at (skip_ws s1)) by (rewrite H2, <- H1; reflexivity). exact G2.
Qed.
Theorem document_live : forall src, p_document alnum src <> Starved.
Proof.
  intros src H. unfold p_document in H. apply then_starved in H as [H|(c & s1 & _ & H)].
  - destruct (skip_ws_sound src _ (at_start src)) as [A0 G0]. pose proof (skip_len src is_whitespace _ (at_start src)) as Hl.
    eapply (content_live src _ (s_node src _) (S (length src)) (node_live src _)); [exact A0| |exact H].
    cbn [p_rest] in Hl. unfold skip_ws. lia.
  - destruct (p_rest (skip_ws s1)); discriminate.
Qed.
Theorem parser_reads : forall failure src,
  SliceOf src (mkR (pe_location (failure src)) (pe_location (failure src) + blen (pe_actual (failure src)))) (pe_actual (failure src)) ->
  reads alnum (parser alnum failure) src.
Proof.
  intros failure src Hf. unfold reads, parser. destruct (p_document alnum src) as [c s| | |] eqn:E; auto.
  eapply document_sound, E.
Qed.
End Rules.

(** * Comments and texts of several lines: what the lexers take, and what is written. *)

From Coq Require Import Lia ZifyBool ZifyNat ZifyN.
From Verif Require Import Base Escape Doc Ast Grammar Parser OutText SpecEscape SpecMarkup SpecWrite P_Base P_Lexer P_OutText P_Trim P_Forward.

(** ** Comments *)
Lemma parts_comment : forall t, Comment t -> forall post fuel back, (length t < fuel)%nat ->
  parts_ fuel back (t ++ L "!>" ++ post) = Some (t, L "!>" ++ post).
Proof.
  change (L "!>") with [33; 62]. intros t H. induction H as [|c s H1 H2 H IH|t s Ht IHt Hs IHs]; intros post [|fuel] back Hf; try (cbn in Hf; lia).
  - reflexivity.
  - cbn [length] in Hf. assert (x_comment_text back ((c :: s) ++ [33; 62] ++ post) = Some ([c], s ++ [33; 62] ++ post)) as E.
    { assert (takes x_comment_text [c] (s ++ [33; 62] ++ post)) as HT; [|apply HT]. destruct (N.eqb_spec c 60) as [->|N1].
      - apply takes_alt_r; [apply refuses_one; intros d r' [= <- _]; reflexivity|]. apply takes_alt_l, takes_seq_nil; [apply takes_exactly|].
        apply takes_not_precedes, refuses_exactly. intros d r E ->. apply H1. destruct s as [|d' s]; [exists [62]; reflexivity|]. cbn in E. injection E as -> _. eexists. reflexivity.
      - destruct (N.eqb_spec c 33) as [->|N2].
        + apply takes_alt_r; [apply refuses_one; intros d r' [= <- _]; reflexivity|]. apply takes_alt_r; [apply refuses_seq_l, refuses_exactly; now intros d r' [= <- _]|].
          apply takes_seq_nil; [apply takes_exactly|].
          apply takes_not_precedes, refuses_exactly. intros d r E ->. apply H2. destruct s as [|d' s]; [discriminate|]. cbn in E. injection E as -> _. eexists. reflexivity.
        + apply takes_alt_l, takes_one. unfold not_. apply Bool.negb_true_iff, mem_false. intros Hi. cbn in Hi. intuition congruence. }
    cbn [parts_]. rewrite E. rewrite IH by lia. reflexivity.
  - change (L "<!") with [60; 33] in *. change (L "!>") with [33; 62] in *. cbn [app length] in Hf. rewrite app_length in Hf. cbn [app length] in Hf. rewrite <- !app_assoc.
    assert (forall x, x_comment_text back ([60; 33] ++ x) = None) as E by (intros x; reflexivity).
    cbn [parts_]. rewrite E. change (L "<!") with [60; 33]. cbn [app strip_prefix]. rewrite !N.eqb_refl.
    match goal with |- context [parts_ fuel ?b (t ++ _)] => pose proof (IHt (s ++ [33; 62] ++ post) fuel b ltac:(lia)) as E1 end. cbn [app] in E1. rewrite E1.
    change (L "!>") with [33; 62]. cbn [strip_prefix]. rewrite !N.eqb_refl.
    match goal with |- context [parts_ fuel ?b (s ++ _)] => pose proof (IHs post fuel b ltac:(lia)) as E2 end. cbn [app] in E2. rewrite E2. reflexivity.
Qed.

Lemma hyphens_loop : forall f s, (length s < f)%nat -> comment_loop f s = hyphens s.
Proof.
  assert (forall s, split_dashes s = None -> s ++ (if ends_with_char 45 s then [32] else []) = hyphens s) as H0.
  { induction s as [|c s IH]; intros H; [reflexivity|]. cbn [split_dashes] in H. destruct (starts_with (L "--") (c :: s)) eqn:E; [discriminate|].
    destruct (split_dashes s) as [[? ?]|] eqn:Es; [discriminate|]. cbn [hyphens]. destruct s as [|d s].
    - unfold ends_with_char. cbn [last_char app hyphens]. rewrite Bool.andb_true_r, (N.eqb_sym c). now destruct (45 =? c).
    - specialize (IH eq_refl). change (L "--") with [45; 45] in E. unfold starts_with in E. cbn [strip_prefix] in E. 
      assert ((c =? 45) && (d =? 45) = false) as ->.
      { destruct (N.eqb_spec 45 c); destruct (N.eqb_spec 45 d); subst; [discriminate| | |]; lia. }
      cbn [app]. f_equal. exact IH. }
  assert (forall s chunk rest, split_dashes s = Some (chunk, rest) -> hyphens s = chunk ++ 32 :: hyphens rest /\ (length rest < length s)%nat) as H1.
  { induction s as [|c s IH]; intros chunk rest H; [discriminate|]. cbn [split_dashes] in H. destruct (starts_with (L "--") (c :: s)) eqn:E.
    - injection H as <- <-. change (L "--") with [45; 45] in E. unfold starts_with in E. cbn [strip_prefix] in E.
      destruct (N.eqb_spec 45 c) as [<-|]; [|discriminate]. destruct s as [|d s]; [discriminate|]. destruct (N.eqb_spec 45 d) as [<-|]; [|discriminate].
      split; [reflexivity|cbn; lia].
    - destruct (split_dashes s) as [[ch re]|] eqn:Es; [|discriminate]. injection H as <- <-. destruct (IH ch re eq_refl) as [IH1 IH2].
      split; [|cbn; lia]. destruct s as [|d s]; [discriminate|].
      change (L "--") with [45; 45] in E. unfold starts_with in E. cbn [strip_prefix] in E.
      assert ((c =? 45) && (d =? 45) = false) as Ef.
      { destruct (N.eqb_spec 45 c); destruct (N.eqb_spec 45 d); subst; [discriminate| | |]; lia. }
      change (hyphens (c :: d :: s)) with (c :: (if (c =? 45) && (d =? 45) then [32] else []) ++ hyphens (d :: s)). rewrite Ef, IH1. reflexivity. }
  induction f as [|f IH]; intros s Hf; [lia|]. cbn [comment_loop]. destruct (split_dashes s) as [[chunk rest]|] eqn:E; [|now apply H0].
  destruct (H1 _ _ _ E) as [-> Hl]. rewrite IH by lia. reflexivity.
Qed.
Lemma comment_html_ok : forall t, L "<!--" ++ comment_body t ++ L "-->" = comment_html t.
Proof. intros t. unfold comment_body, comment_html. rewrite hyphens_loop by lia. now rewrite <- app_assoc. Qed.

(** ** Texts of several lines *)
Definition quotes : list str := [[34; 34; 34]; [39; 39; 39]; L "```"].
Lemma quotes_char : forall q, In q quotes -> exists x, q = [x; x; x] /\ In x [34; 39; 96].
Proof. intros q H. unfold quotes in H. cbn [In] in H. destruct H as [<-|[<-|[<-|[]]]]; eexists; (split; [reflexivity|cbn; tauto]). Qed.

Lemma takes_open : forall q info post, Forall (fun c => ~ one_of [10; 96] c) info -> takes (x_multiline_open q) (q ++ info) (10 :: post).
Proof.
  intros q info post H. apply takes_seq; [apply takes_exactly|]. apply takes_seq_nil; [|intros back; reflexivity].
  apply takes_many, runs_one.
  - eapply Forall_impl; [|exact H]. intros c Hc. unfold not_. apply Bool.negb_true_iff, mem_false. exact Hc.
  - intros c r' [= <- _]. reflexivity.
Qed.

Lemma lazy_step : forall a n c r back m r', (n = O -> a back (c :: r) = None) -> lazy_ a (pred n) (c :: back) r = Some (m, r') ->
  lazy_ a n back (c :: r) = Some (c :: m, r').
Proof. intros a n c r back m r' H E. cbn [lazy_]. destruct n as [|n]; [rewrite (H eq_refl)|]; now rewrite E. Qed.
Lemma blank_before_gap : forall a back, ~ In 10 a -> blank_before (rev a ++ 10 :: back) = true -> gap a.
Proof.
  intros a back. unfold gap. rewrite <- (rev_involutive a). generalize (rev a). clear a. intros a H E. rewrite rev_involutive in E.
  apply Forall_rev. assert (~ In 10 a) as Hn by (intros Hi; now apply H, in_rev; rewrite rev_involutive). clear H. induction a as [|c a IH]; [constructor|].
  cbn [app blank_before] in E. destruct (N.eqb_spec c 10) as [->|_]; [exfalso; apply Hn; now left|].
  destruct (mem [9; 32] c) eqn:Em; [|discriminate]. constructor; [|apply IH; [exact E|intros Hi; apply Hn; now right]].
  apply mem_spec in Em. cbn in Em |- *. tauto.
Qed.
Lemma gap_blank_before : forall a back, gap a -> blank_before (rev a ++ 10 :: back) = true.
Proof.
  intros a back H. apply Forall_rev in H. induction H as [|c b Hc H IH]; [reflexivity|]. cbn [app blank_before]. destruct (c =? 10); [reflexivity|].
  replace (mem [9; 32] c) with true; [exact IH|]. symmetry. apply mem_spec. cbn in Hc |- *. tauto.
Qed.
Lemma starts_with_app : forall q r, starts_with q r = true -> exists t, r = q ++ t.
Proof. intros q r H. unfold starts_with in H. destruct (strip_prefix q r) as [t|] eqn:E; [|discriminate]. exists t. now apply strip_prefix_some in E. Qed.

Lemma join_cons : forall l ls, ls <> [] -> join_lines (l :: ls) = l ++ 10 :: join_lines ls.
Proof. intros l [|x ls] H; [contradiction|reflexivity]. Qed.
Section Quote.
Variable q : str.
Hypothesis Hq : In q quotes.
Let line (l : str) : Prop := ~ In 10 l /\ forall g, gap g -> ~ starts (g ++ q) l.

Lemma line_inside : forall b a back r m r', line (a ++ b) ->
  lazy_ (x_body_end q) 0 (10 :: rev b ++ rev a ++ 10 :: back) r = Some (m, r') ->
  lazy_ (x_body_end q) 0 (rev a ++ 10 :: back) (b ++ 10 :: r) = Some (b ++ 10 :: m, r').
Proof.
  destruct (quotes_char q Hq) as (x & Eq & Hx). 
  induction b as [|c b IH]; intros a back r m r' Hl H; cbn [app].
  - apply lazy_step; [|exact H]. intros _. unfold x_body_end. rewrite Eq. unfold starts_with. cbn [strip_prefix].
    destruct (N.eqb_spec x 10) as [->|]; [cbn in Hx; intuition discriminate|]. reflexivity.
  - apply lazy_step.
    + intros _. unfold x_body_end. destruct (starts_with q (c :: b ++ 10 :: r)) eqn:E; [|reflexivity].
      destruct (blank_before (rev a ++ 10 :: back)) eqn:E2; [|reflexivity]. exfalso.
      destruct Hl as [Hn Hl]. apply (Hl a).
      * apply blank_before_gap with back; [|exact E2]. intros Hi. apply Hn. apply in_or_app. now left.
      * apply starts_with_app in E as [t E]. assert (exists t', c :: b = q ++ t') as [t' Et].
        { assert (~ In 10 (c :: b)) as Hn2 by (intros Hi; apply Hn, in_or_app; now right). assert (x <> 10) as Hx10 by (intros ->; cbn in Hx; intuition discriminate).
          rewrite Eq in E |- *. cbn [app] in E. injection E as -> E. destruct b as [|d b]; cbn in E; [injection E as E _; congruence|]. injection E as -> E.
          destruct b as [|d b]; cbn in E; [injection E as E _; congruence|]. injection E as -> E. now exists b. }
        exists t'. rewrite Et. now rewrite app_assoc.
    + cbn [pred]. pose proof (IH (a ++ [c]) back r m r') as IH'. rewrite <- app_assoc in IH'. cbn [app] in IH'. rewrite !rev_app_distr in IH'. cbn [rev app] in IH'.
      apply IH'; [exact Hl|]. cbn [rev] in H. rewrite <- app_assoc in H. exact H.
Qed.
Lemma indent_inside : forall b a back post, gap (a ++ b) ->
  lazy_ (x_body_end q) 0 (rev a ++ 10 :: back) (b ++ q ++ post) = Some (b, q ++ post).
Proof.
  destruct (quotes_char q Hq) as (x & Eq & Hx).
  induction b as [|c b IH]; intros a back post Hg.
  - cbn [app]. assert (x_body_end q (rev a ++ 10 :: back) (q ++ post) = Some ([], q ++ post)) as E.
    { unfold x_body_end, starts_with. rewrite app_nil_r in Hg. rewrite (gap_blank_before a back Hg).
      rewrite (proj2 (strip_prefix_some q (q ++ post) post) eq_refl). rewrite Eq. reflexivity. }
    rewrite Eq in *. cbn [app] in *. cbn [lazy_]. now rewrite E.
  - cbn [app]. apply lazy_step.
    + intros _. unfold x_body_end, starts_with. rewrite Eq. cbn [strip_prefix]. unfold gap in Hg. apply Forall_app in Hg as [_ Hg]. inversion Hg as [|? ? Hc ?]; subst.
      destruct (N.eqb_spec x c) as [->|]; [|reflexivity]. cbn in Hc, Hx. intuition congruence.
    + cbn [pred]. pose proof (IH (a ++ [c]) back post) as IH'. rewrite <- app_assoc in IH'. rewrite rev_app_distr in IH'. cbn [app rev] in IH'. now apply IH'.
Qed.
Lemma lines_inside : forall ls l0 back r m r', Forall line (ls ++ [l0]) ->
  (forall back', lazy_ (x_body_end q) 0 (10 :: back') r = Some (m, r')) ->
  lazy_ (x_body_end q) 0 (10 :: back) (join_lines (ls ++ [l0]) ++ 10 :: r) = Some (join_lines (ls ++ [l0]) ++ 10 :: m, r').
Proof.
  induction ls as [|l ls IH]; intros l0 back r m r' Hl H; cbn [app] in *.
  - inversion Hl; subst. cbn [join_lines]. apply (line_inside l0 [] back); [assumption|apply H].
  - inversion Hl; subst. assert (exists x xs, ls ++ [l0] = x :: xs) as (x & xs & E) by (destruct ls; eexists _, _; reflexivity).
    rewrite (join_cons l (ls ++ [l0])) by (now destruct ls). rewrite <- !app_assoc. cbn [app]. apply (line_inside l [] back); [assumption|]. now apply IH.
Qed.
Lemma takes_body : forall ls l0 indent post, Forall line (ls ++ [l0]) -> gap indent ->
  takes (x_multiline_body q) (10 :: join_lines (ls ++ [l0]) ++ 10 :: indent) (q ++ post).
Proof.
  intros ls l0 indent post Hl Hg back. unfold x_multiline_body, x_lazy. cbn [app]. rewrite <- app_assoc. cbn [app]. apply lazy_step; [discriminate|]. cbn [pred].
  apply lines_inside; [exact Hl|]. intros back'. now apply (indent_inside indent []).
Qed.
Lemma takes_close : forall post, (forall r x, q = [x; x; x] -> post <> x :: r) -> takes (x_multiline_close q) q post.
Proof.
  intros post H. destruct (quotes_char q Hq) as (x & Eq & Hx). apply takes_seq_nil; [apply takes_exactly|]. apply takes_not_precedes.
  rewrite Eq. cbn [firstn]. apply refuses_exactly. intros d r' -> ->. now apply (H r' x).
Qed.
End Quote.

(** *** The lines *)
Lemma spelled_app : forall plain s t s' t', Spelled plain s t -> Spelled plain s' t' -> Spelled plain (s ++ s') (t ++ t').
Proof. intros plain s t s' t' H H'. induction H; [exact H'|now constructor|]. rewrite <- app_assoc. now constructor. Qed.
Lemma spelled_nil : forall plain t, Spelled plain [] t -> t = [].
Proof.
  intros plain t H. remember [] as s eqn:E. destruct H as [|c s t _ _|e c s t He _]; [reflexivity|discriminate|].
  apply app_eq_nil in E as [-> _]. inversion He.
Qed.
Lemma last_char_app : forall a b : str, b <> [] -> last_char (a ++ b) = last_char b.
Proof.
  induction a as [|c a IH]; intros b Hb; [reflexivity|]. cbn [app last_char]. rewrite (IH b Hb).
  destruct (a ++ b) as [|d r] eqn:E; [|reflexivity]. apply app_eq_nil in E as [_ E]. contradiction.
Qed.
Lemma ends_blank_app : forall a b, b <> [] -> ends_blank (a ++ b) = ends_blank b.
Proof. intros a b Hb. unfold ends_blank, ends_with_char. now rewrite (last_char_app a b Hb). Qed.
Lemma ends_blank_nl : forall a, ends_blank (a ++ [10]) = false.
Proof. intros a. rewrite ends_blank_app by discriminate. reflexivity. Qed.
Lemma last_map_cons : forall A (x : A) l d, l <> [] -> last (x :: l) d = last l d.
Proof. intros A x l d H. destruct l; [contradiction|reflexivity]. Qed.
Lemma strip_whole : forall prefix l l', Unindent prefix l l' -> opt_or (strip_prefix prefix l) l = l'.
Proof.
  intros prefix l l' [->|[-> Hn]]; [now rewrite (proj2 (strip_prefix_some prefix (prefix ++ l') l') eq_refl)|].
  destruct (strip_prefix prefix l) as [r|] eqn:E; [|reflexivity]. apply strip_prefix_some in E. exfalso. eauto.
Qed.
Lemma strip_ended : forall prefix l l', no_nl prefix -> no_nl l -> Unindent prefix l l' -> opt_or (strip_prefix prefix (l ++ [10])) (l ++ [10]) = l' ++ [10].
Proof.
  intros prefix l l' Hp Hl Hu. destruct (strip_line prefix l l' [10] Hp Hl Hu) as [E|(c & s' & E & Hc)]; [exact E|]. injection E as <- _. congruence.
Qed.

(** The pieces of the lines [outs]: each with its line feed *)
Inductive Split : list str -> list str -> Prop :=
| SpEmpty : Split [[]] []
| SpLast : forall l, Split [l] [l]
| SpMore : forall l ls ps, ls <> [] -> Split ls ps -> Split (l :: ls) ((l ++ [10]) :: ps).
Lemma trim_split : forall prefix ls outs, no_nl prefix -> Forall no_nl ls -> Forall2 (Unindent prefix) ls outs -> ls <> [] ->
  Split outs (map (fun l => opt_or (strip_prefix prefix l) l) (split_inclusive 10 (join_lines ls))).
Proof.
  intros prefix ls outs Hp Hls H Hne. induction H as [|l l' ls outs Hu H IH]; [contradiction|]. inversion Hls as [|? ? Hl Hls']; subst.
  destruct H as [|l2 l2' ls outs Hu2 H2].
  - cbn [join_lines]. rewrite split_inclusive_last by exact Hl. destruct l as [|c l].
    + assert (l' = []) as -> by (destruct Hu as [Hu|[-> _]]; [symmetry in Hu; now apply app_eq_nil in Hu|reflexivity]). constructor.
    + cbn [map]. rewrite (strip_whole _ _ _ Hu). constructor.
  - change (join_lines (l :: l2 :: ls)) with (l ++ 10 :: join_lines (l2 :: ls)). rewrite split_inclusive_line by exact Hl. cbn [map].
    rewrite (strip_ended _ _ _ Hp Hl Hu). constructor; [discriminate|]. apply IH; [exact Hls'|discriminate].
Qed.
Lemma split_concat : forall ls ps, Split ls ps -> concat ps = join_lines ls.
Proof.
  intros ls ps H. induction H as [|l|l ls ps Hn H IH]; [reflexivity|cbn; apply app_nil_r|]. rewrite join_cons by exact Hn. cbn [concat]. rewrite IH, <- app_assoc. reflexivity.
Qed.
Lemma split_blank : forall ls ps, Split ls ps -> ps <> [] -> forall d, ends_blank (last ps d) = ends_blank (join_lines ls).
Proof.
  intros ls ps H. induction H as [|l|l ls ps Hn H IH]; intros Hps d; [contradiction|reflexivity|]. rewrite join_cons by exact Hn.
  pose proof (split_concat _ _ H) as Ec. destruct ps as [|p ps].
  - cbn in Ec. rewrite <- Ec. cbn [last]. reflexivity.
  - rewrite last_map_cons by discriminate. rewrite IH by discriminate. destruct (join_lines ls) as [|c j] eqn:Ej.
    + rewrite ends_blank_nl. reflexivity.
    + change (10 :: c :: j) with ([10] ++ c :: j). rewrite app_assoc. symmetry. apply ends_blank_app. discriminate.
Qed.
Lemma split_spelled : forall ls ps, Split ls ps -> forall ts, Forall2 (Spelled (fun c => c <> 92)) ls ts ->
  exists ds, Forall2 (Decodes true) ps ds /\ concat ds = join_lines ts.
Proof.
  assert (forall s t, Spelled (fun c => c <> 92) s t -> Decodes true s t) as HD by (intros s t; apply spelled_decodes; congruence).
  intros ls ps H. induction H as [|l|l ls ps Hn H IH]; intros ts HT; inversion HT as [|? t ? ts' H1 H2]; subst.
  - inversion H2; subst. exists []. split; [constructor|]. cbn. symmetry. now apply spelled_nil in H1.
  - inversion H2; subst. exists [t]. split; [constructor; [now apply HD|constructor]|cbn; apply app_nil_r].
  - destruct (IH ts' H2) as (ds & H3 & Ed). exists ((t ++ [10]) :: ds). split.
    + constructor; [|exact H3]. apply HD. apply spelled_app; [exact H1|]. repeat constructor. discriminate.
    + cbn [concat]. rewrite Ed, join_cons, <- app_assoc; [reflexivity|]. intros ->. inversion H2; subst. contradiction.
Qed.

(** The text between the two [q] *)
Definition body_text (ls : list str) (l0 indent : str) : str := 10 :: join_lines (ls ++ [l0]) ++ 10 :: indent.
Lemma trim_body : forall ls l0 l0' indent outs, Forall (fun l => ~ In 10 l) (ls ++ [l0]) -> gap indent -> ChopCR l0 l0' ->
  Forall2 (Unindent indent) (ls ++ [l0']) outs -> Split outs (trim_multiline (body_text ls l0 indent)).
Proof.
  intros ls l0 l0' indent outs Hl Hg Hc Hu. assert (no_nl indent) as Hi.
  { intros Hi. unfold gap in Hg. rewrite Forall_forall in Hg. specialize (Hg _ Hi). cbn in Hg. intuition discriminate. }
  unfold trim_multiline, body_text. change (10 :: join_lines (ls ++ [l0]) ++ 10 :: indent) with ([] ++ 10 :: join_lines (ls ++ [l0]) ++ 10 :: indent).
  rewrite split_once_app by (intros []). rewrite rsplit_once_app by exact Hi.
  pose proof (leading_ws_spec indent []) as E. rewrite app_nil_r in E. rewrite E.
  - rewrite (strip_join ls l0 l0' Hc). apply trim_split; [exact Hi| |exact Hu|now destruct ls]. apply Forall_app in Hl as [H1 H2]. apply Forall_app. split; [exact H1|].
    inversion H2; subst. constructor; [|constructor]. destruct Hc as [->|[-> _]]; [|assumption]. intros Hi'. apply H3, in_or_app. now left.
  - eapply Forall_impl; [|exact Hg]. intros c Hc'. cbn in Hc'. destruct Hc' as [<-|[<-|[]]]; reflexivity.
  - discriminate.
Qed.
Lemma plain_spelled : forall s, ~ In 92 s -> Spelled (fun c => c <> 92) s s.
Proof. induction s as [|c s IH]; intros H; constructor; [intros ->; apply H; now left|]. apply IH. intros Hi. apply H. now right. Qed.
Lemma body_decodes : forall ls l0 l0' indent outs ts, gap indent -> ChopCR l0 l0' -> Forall2 (Unindent indent) (ls ++ [l0']) outs ->
  Forall2 (Spelled (fun c => c <> 92)) outs ts -> exists t, Decodes true (body_text ls l0 indent) t.
Proof.
  intros ls l0 l0' indent outs ts Hg Hc Hu Ht.
  set (Sp := Spelled (fun c => c <> 92)).
  assert (Sp indent indent) as Hi.
  { apply plain_spelled. intros Hi. unfold gap in Hg. rewrite Forall_forall in Hg. specialize (Hg _ Hi). cbn in Hg. intuition discriminate. }
  assert (Forall (fun l => exists t, Sp l t) (ls ++ [l0'])) as HL.
  { clear Hc. revert ts Ht. induction Hu as [|l o ls0 outs H1 H2 IH]; intros ts Ht; [constructor|]. inversion Ht; subst. constructor; [|eapply IH; eassumption].
    destruct H1 as [->|[-> _]]; eexists; [apply spelled_app; [exact Hi|eassumption]|eassumption]. }
  assert (Forall (fun l => exists t, Sp l t) (ls ++ [l0])) as HL'.
  { apply Forall_app in HL as [H1 H2]. apply Forall_app. split; [exact H1|]. inversion H2 as [|? ? [t H3] _]; subst. constructor; [|constructor].
    destruct Hc as [->|[<- _]]; [|eauto]. eexists. apply spelled_app; [exact H3|]. apply (SpPlain _ 13 [] []); [discriminate|constructor]. }
  assert (exists t, Sp (join_lines (ls ++ [l0])) t) as [t Hj].
  { induction HL' as [|l xs [t H1] H2 [t2 IH]]; [exists []; constructor|]. destruct xs as [|x xs]; [eauto|].
    exists (t ++ 10 :: t2). change (join_lines (l :: x :: xs)) with (l ++ 10 :: join_lines (x :: xs)). apply spelled_app; [exact H1|]. constructor; [discriminate|exact IH]. }
  exists (10 :: t ++ 10 :: indent). apply (spelled_decodes (fun c => c <> 92)); [congruence|]. unfold body_text. constructor; [discriminate|]. apply spelled_app; [exact Hj|].
  constructor; [discriminate|exact Hi].
Qed.

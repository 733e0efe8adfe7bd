(** * Plain text is a source whose paragraphs are its groups of lines (for C54). *)

From Verif Require Import Base SpecInfer SpecTree SpecMarkup SpecWrite SpecPlain P_Base.
From Coq Require Import Lia.

(** ** Lines *)
Definition after_line (ls : list str) : str := flat_map (fun l => 10 :: l) ls.
Lemma lines_ne : forall s, lines_of s <> [].
Proof. intros [|c s]; cbn [lines_of]; [discriminate|]. destruct (c =? 10); [discriminate|]. destruct (lines_of s); discriminate. Qed.
Lemma lines_join : forall s l ls, lines_of s = l :: ls -> s = l ++ after_line ls.
Proof.
  induction s as [|c s IH]; intros l ls E; cbn [lines_of] in E.
  - injection E as <- <-. reflexivity.
  - destruct (c =? 10) eqn:Ec.
    + injection E as <- <-. apply N.eqb_eq in Ec as ->. destruct (lines_of s) as [|l0 ls0] eqn:E0; [now apply lines_ne in E0|].
      cbn. f_equal. now apply IH.
    + destruct (lines_of s) as [|l0 ls0] eqn:E0; [now apply lines_ne in E0|]. injection E as <- <-. cbn. f_equal. now apply IH.
Qed.
Lemma lines_no_feed : forall s, Forall (fun l => ~ In 10 l) (lines_of s).
Proof.
  induction s as [|c s IH]; cbn [lines_of]; [constructor; [easy|constructor]|].
  destruct (c =? 10) eqn:Ec; [constructor; [easy|exact IH]|]. apply N.eqb_neq in Ec.
  destruct (lines_of s) as [|l ls]; [constructor; [intros [|[]]; congruence|constructor]|].
  inversion IH; subst. constructor; [|assumption]. intros [|H]; [congruence|contradiction].
Qed.
Lemma lines_chars : forall (P : chr -> Prop) s, Forall P s -> Forall (Forall P) (lines_of s).
Proof.
  intros P s H. induction H as [|c s Hc H IH]; cbn [lines_of]; [constructor; constructor|].
  destruct (c =? 10); [constructor; [constructor|exact IH]|].
  destruct (lines_of s) as [|l ls]; [repeat constructor; exact Hc|]. inversion IH; subst. constructor; [now constructor|assumption].
Qed.

Lemma drop_white_split : forall s, exists a, s = a ++ drop_white s /\ ws a /\ (drop_white s = [] \/ solid (drop_white s)).
Proof.
  induction s as [|c s (a & E & Ha & H)]; [exists []; repeat split; [constructor|now left]|]. cbn [drop_white].
  destruct (is_whitespace c) eqn:Ec.
  - exists (c :: a). split; [cbn; f_equal; exact E|]. split; [now constructor|exact H].
  - exists []. split; [reflexivity|]. split; [constructor|]. right. now exists c, s.
Qed.
Lemma trimmed_split : forall l, exists a b, l = a ++ trimmed l ++ b /\ ws a /\ ws b /\
  (trimmed l = [] \/ solid (trimmed l) /\ forall t c, trimmed l = t ++ [c] -> is_whitespace c = false).
Proof.
  intros l. destruct (drop_white_split l) as (a & E & Ha & H). destruct (drop_white_split (rev (drop_white l))) as (b & E' & Hb & H').
  exists a, (rev b). fold (trimmed l) in *. unfold trimmed at 1.
  assert (drop_white l = trimmed l ++ rev b) as Ed by (unfold trimmed; rewrite <- rev_app_distr, <- E'; now rewrite rev_involutive).
  split; [rewrite E at 1; f_equal; exact Ed|]. split; [exact Ha|]. split; [now apply Forall_rev|].
  destruct H' as [H'|(c & r & H' & Hc)]; [left; unfold trimmed; now rewrite H'|]. right. split.
  - assert (trimmed l <> []) as Hn by (unfold trimmed; rewrite H'; cbn; now destruct (rev r)).
    destruct H as [H|(d & s & H & Hd)]; [rewrite H in Ed; destruct (trimmed l); [now destruct Hn|discriminate]|].
    rewrite H in Ed. destruct (trimmed l) as [|e t]; [now destruct Hn|]. injection Ed as -> _. now exists e, t.
  - intros t d Et. unfold trimmed in Et. rewrite H' in Et. cbn [rev] in Et. apply app_inj_tail in Et as [_ ->]. exact Hc.
Qed.

(** ** Words *)
Lemma Forall_one : forall (P : chr -> Prop) c, P c -> Forall P [c].
Proof. intros P c H. constructor; [exact H|constructor]. Qed.
Lemma spelled_self : forall (P : chr -> Prop) s, Forall P s -> Spelled P s s.
Proof. intros P s H. induction H; constructor; auto. Qed.
Lemma words_self : forall t w g, w <> [] -> Forall word_plain w -> blanks g -> Forall (fun c => word_plain c \/ blank_char c) t ->
  (g <> [] -> t <> []) -> (forall t' c, t = t' ++ [c] -> word_plain c) -> Words (w ++ g ++ t) (w ++ g ++ t).
Proof.
  induction t as [|c t IH]; intros w g Hn Hw Hg Ht Hgt Hl.
  - destruct g; [|now destruct Hgt]. cbn [app]. rewrite app_nil_r. apply WdOne; [exact Hn|now apply spelled_self].
  - inversion Ht as [|? ? [Hc|Hc] Ht']; subst.
    + assert (forall t' d, t = t' ++ [d] -> word_plain d) as Hl' by (intros t' d ->; now apply (Hl (c :: t'))).
      destruct g as [|d g].
      * replace (w ++ [] ++ c :: t) with ((w ++ [c]) ++ [] ++ t) by (now rewrite <- app_assoc).
        apply IH; [now destruct w|apply Forall_app; split; [exact Hw|apply Forall_one; assumption]|constructor|exact Ht'|easy|exact Hl'].
      * apply WdMore; [exact Hn|now apply spelled_self|discriminate|exact Hg|].
        apply (IH [c] []); [discriminate|apply Forall_one; assumption|constructor|exact Ht'|easy|exact Hl'].
    + replace (w ++ g ++ c :: t) with (w ++ (g ++ [c]) ++ t) by (now rewrite <- app_assoc).
      assert (t <> []) as Htn. { intros ->. destruct (Hl [] c eq_refl) as [_ E]. destruct Hc as [E' _]. congruence. }
      apply IH; [exact Hn|exact Hw|apply Forall_app; split; [exact Hg|apply Forall_one; assumption]|exact Ht'|auto|].
      intros t' d ->. now apply (Hl (c :: t')).
Qed.

Definition plain_line (l : str) : Prop :=
  ~ In 10 l /\ Forall (fun c => ~ one_of (L "\[]{}<>") c) l /\ forall c, one_of (L "'""`") c -> ~ starts [c; c; c] (trimmed l).
Lemma ws_blanks : forall s, ws s -> ~ In 10 s -> blanks s.
Proof.
  intros s H Hn. apply Forall_forall. intros c Hc. unfold ws in H. rewrite Forall_forall in H. split; [auto|]. now intros ->.
Qed.
Lemma line_cases : forall l, plain_line l -> (trimmed l = [] /\ blanks l) \/
  exists a b, l = a ++ trimmed l ++ b /\ blanks a /\ blanks b /\ Text (trimmed l) (trimmed l) /\ solid (trimmed l).
Proof.
  intros l (Hf & Hc & Hq). destruct (trimmed_split l) as (a & b & E & Ha & Hb & H).
  assert (~ In 10 a /\ ~ In 10 (trimmed l) /\ ~ In 10 b) as (Fa & Ft & Fb). { rewrite E in Hf. rewrite !in_app_iff in Hf. tauto. }
  destruct H as [H|[Hs Hl]].
  - left. split; [exact H|]. rewrite H in E. cbn [app] in E. rewrite E. apply Forall_app. split; now apply ws_blanks.
  - right. exists a, b. split; [exact E|]. split; [now apply ws_blanks|]. split; [now apply ws_blanks|]. split; [|exact Hs]. split; [|exact Hq].
    assert (Forall (fun c => word_plain c \/ blank_char c) (trimmed l)) as Hp.
    { apply Forall_forall. intros c Hi. rewrite E in Hc. rewrite !Forall_app in Hc. destruct Hc as (_ & Hc & _). rewrite Forall_forall in Hc.
      destruct (is_whitespace c) eqn:Ew; [right; split; [exact Ew|now intros ->]|left; split; [now apply Hc|exact Ew]]. }
    destruct Hs as (c & t & Et & Hw). rewrite Et in *. inversion Hp as [|? ? [P1|[P1 _]] Hp']; subst; [|congruence].
    apply (words_self t [c] []); [discriminate|apply Forall_one; assumption|constructor|exact Hp'|easy|].
    intros t' d ->. specialize (Hl (c :: t') d eq_refl). apply Forall_app in Hp' as [_ Hp']. inversion Hp' as [|? ? [P|[P _]] _]; subst; [exact P|congruence].
Qed.

(** ** The document *)
Definition further (ts : list str) : list written := flat_map (fun t => [WBreak; WText t]) ts.
Definition paragraph (t : str) (ts : list str) : written := WElt KPara (None, []) (WText t :: further ts).
Inductive Paragraphs : list written -> list (list str) -> Prop :=
| PsNil : Paragraphs [] []
| PsBreak : forall us ps, Paragraphs us ps -> Paragraphs (WBreak :: us) ps
| PsText : forall t ts us ps, us = [] \/ (exists us', us = WBreak :: us') -> Paragraphs us ps -> Paragraphs (paragraph t ts :: us) ((t :: ts) :: ps).

Lemma text_row : forall t tag, Text t t -> Row tag false t [WText t].
Proof.
  intros t tag H. apply RwItems. rewrite <- (app_nil_r t) at 1. apply (IsCons tag true true [] t (WText t) [] []); [constructor|now apply ItText|reflexivity|constructor].
Qed.
Lemma text_paragraph : forall t m ts tag, Text t t -> solid t -> More tag m (further ts) -> Paragraph_ tag (t ++ m) (paragraph t ts).
Proof. intros t m ts tag Ht Hs Hm. apply (PgText tag t [WText t] m (further ts)); [exact Hs|now apply text_row|reflexivity|exact Hm]. Qed.

Definition AtBlank (ls : list str) : Prop := forall seen open, exists s g us,
  after_line ls = s ++ g /\ blanks g /\ (forall tag, Lines tag true seen open s (WBreak :: us)) /\ Paragraphs us (grouped [] (map trimmed ls)).
Definition AtText (ls : list str) : Prop := forall b, blanks b -> exists m ts,
  (forall tag, More tag m (further ts)) /\
  ((exists g, b ++ after_line ls = m ++ g /\ blanks g /\ forall c cur, grouped (c :: cur) (map trimmed ls) = [c :: cur ++ ts]) \/
   (exists nl s g us ps, b ++ after_line ls = m ++ nl ++ s ++ g /\ Newline nl /\ blanks g /\ (forall tag, Lines tag true true true s (WBreak :: us)) /\ Paragraphs us ps /\
      forall c cur, grouped (c :: cur) (map trimmed ls) = (c :: cur ++ ts) :: ps)).
Lemma grouped_text : forall cur t ls, t <> [] -> grouped cur (t :: ls) = grouped (cur ++ [t]) ls.
Proof. now intros cur [|c t] ls H. Qed.

Ltac assoc := repeat first [rewrite <- app_assoc | progress cbn [app]].
Lemma all_lines : forall ls, Forall plain_line ls -> AtBlank ls /\ AtText ls.
Proof.
  intros ls H. induction H as [|l ls Hl H [IA IT]].
  - split.
    + intros seen open. exists [], [], []. split; [reflexivity|]. split; [constructor|]. split; [intros tag; constructor|constructor].
    + intros b Hb. exists [], []. split; [intros tag; constructor|]. left. exists b. split; [now rewrite app_nil_r|]. split; [exact Hb|].
      intros c cur. cbn. now rewrite app_nil_r.
  - destruct (line_cases l Hl) as [[El Hb0]|(a & b0 & El & Ha & Hb0 & Ht & Hs)].
    + split.
      * intros seen open. destruct (IA seen false) as (s & g & us & E & Hg & HL & HP). exists ([10] ++ l ++ s), g, (WBreak :: us).
        cbn [after_line flat_map]. fold (after_line ls). split; [rewrite E; cbn; now rewrite <- app_assoc|]. split; [exact Hg|].
        split; [intros tag; now apply LsBlank|]. cbn [map]. rewrite El. cbn [grouped app]. now constructor.
      * intros b Hb. destruct (IA true true) as (s & g & us & E & Hg & HL & HP). exists [], []. split; [intros tag; constructor|]. right.
        exists (b ++ [10] ++ l), s, g, us, (grouped [] (map trimmed ls)). cbn [after_line flat_map]. fold (after_line ls).
        split; [rewrite E; cbn; now rewrite <- !app_assoc|]. split; [now exists b, l|]. split; [exact Hg|]. split; [exact HL|]. split; [exact HP|].
        intros c cur. cbn [map]. rewrite El. cbn [grouped app]. now rewrite app_nil_r.
    + destruct (IT b0 Hb0) as (m & ts & Hm & HR). assert (trimmed l <> []) as Hn by (destruct Hs as (c & r & -> & _); discriminate).
      set (t := trimmed l) in *. split.
      * intros seen open. cbn [after_line flat_map]. fold (after_line ls). cbn [map]. fold t. rewrite (grouped_text _ _ _ Hn). cbn [app].
        destruct HR as [(g & E & Hg & HG)|(nl & s & g & us & ps & E & Hnl & Hg & HL & HP & HG)]; rewrite HG.
        -- exists ([10] ++ a ++ (t ++ m)), g, (break seen ++ [paragraph t ts]).
           split; [rewrite El; assoc; rewrite E; reflexivity|]. split; [exact Hg|]. split.
           ++ intros tag. apply LsBlank; [exact Ha|]. apply LsText. now apply text_paragraph.
           ++ destruct seen; cbn [break app]; [constructor|]; (apply PsText; [now left|constructor]).
        -- exists ([10] ++ a ++ (t ++ m) ++ nl ++ s), g, (break seen ++ paragraph t ts :: WBreak :: us).
           split; [rewrite El; assoc; rewrite E; reflexivity|]. split; [exact Hg|]. split.
           ++ intros tag. apply LsBlank; [exact Ha|]. apply LsTexts; [now apply text_paragraph|exact Hnl|apply HL].
           ++ destruct seen; cbn [break app]; [constructor|]; (apply PsText; [right; eauto|now constructor]).
      * intros b Hb. exists ((b ++ [10] ++ a) ++ t ++ m), (t :: ts). split.
        { intros tag. apply (MoCons tag (b ++ [10] ++ a) t [WText t] m (further ts)); [now exists b, a|exact Hs|now apply text_row|apply Hm]. }
        cbn [after_line flat_map]. fold (after_line ls). cbn [map]. fold t.
        destruct HR as [(g & E & Hg & HG)|(nl & s & g & us & ps & E & Hnl & Hg & HL & HP & HG)]; [left; exists g|right; exists nl, s, g, us, ps].
        -- split; [rewrite El; assoc; rewrite E; reflexivity|]. split; [exact Hg|].
           intros c cur. rewrite (grouped_text _ _ _ Hn). cbn [app]. rewrite HG. now rewrite <- app_assoc.
        -- split; [rewrite El; assoc; rewrite E; reflexivity|].
           split; [exact Hnl|]. split; [exact Hg|]. split; [exact HL|]. split; [exact HP|].
           intros c cur. rewrite (grouped_text _ _ _ Hn). cbn [app]. rewrite HG. now rewrite <- app_assoc.
Qed.

Lemma first_lines : forall ls l w, Forall plain_line (l :: ls) -> ws w -> exists us,
  (forall tag, Source tag (w ++ l ++ after_line ls) us) /\ Paragraphs us (grouped [] (map trimmed (l :: ls))) /\ us <> [].
Proof.
  induction ls as [|l' ls IH]; intros l w H Hw; inversion H as [|? ? Hl H']; subst.
  all: destruct (line_cases l Hl) as [[El Hb0]|(a & b0 & El & Ha & Hb0 & Ht & Hs)].
  - exists [WBreak]. cbn [after_line flat_map map]. rewrite El. split.
    + replace (w ++ l ++ []) with ((w ++ l) ++ [] ++ []) by (rewrite !app_nil_r; reflexivity).
      intros tag. apply SrcOf; [|now left|constructor|constructor]. apply Forall_app. split; [exact Hw|]. eapply Forall_impl; [|exact Hb0]. now intros c [].
    + split; [repeat constructor|discriminate].
  - set (t := trimmed l) in *. assert (t <> []) as Hn by (destruct Hs as (c & r & -> & _); discriminate).
    exists (break false ++ [paragraph t []]). split.
    + replace (w ++ l ++ after_line []) with ((w ++ a) ++ (t ++ []) ++ b0) by (rewrite El; cbn [after_line flat_map]; now rewrite !app_nil_r, <- !app_assoc).
      intros tag. apply SrcOf; [|right|apply LsText, text_paragraph; [exact Ht|exact Hs|constructor]|exact Hb0].
      * apply Forall_app. split; [exact Hw|]. eapply Forall_impl; [|exact Ha]. now intros c [].
      * now rewrite app_nil_r.
    + cbn [map]. fold t. rewrite (grouped_text _ _ _ Hn). cbn. split; [apply PsText; [now left|constructor]|discriminate].
  - destruct (IH l' (w ++ l ++ [10]) H') as (us & HS & HP & HN).
    + apply Forall_app. split; [exact Hw|]. apply Forall_app. split; [|apply Forall_one; reflexivity]. eapply Forall_impl; [|exact Hb0]. now intros c [].
    + exists us. split.
      * replace (w ++ l ++ after_line (l' :: ls)) with ((w ++ l ++ [10]) ++ l' ++ after_line ls); [exact HS|]. cbn. now rewrite <- !app_assoc.
      * cbn [map]. rewrite El. now split.
  - clear IH. destruct (all_lines _ H') as [_ IT]. destruct (IT b0 Hb0) as (m & ts & Hm & HR). set (ls' := l' :: ls) in *.
    set (t := trimmed l) in *. assert (t <> []) as Hn by (destruct Hs as (c & r & -> & _); discriminate).
    assert (ws (w ++ a)) as Hwa. { apply Forall_app. split; [exact Hw|]. eapply Forall_impl; [|exact Ha]. now intros c []. }
    assert (forall x, solid (t ++ x)) as Hst by (destruct Hs as (c & r & -> & Hc); intros x; now exists c, (r ++ x)).
    change (map trimmed (l :: ls')) with (t :: map trimmed ls'). rewrite (grouped_text _ _ _ Hn). cbn [app].
    destruct HR as [(g & E & Hg & HG)|(nl & s & g & us & ps & E & Hnl & Hg & HL & HP & HG)]; rewrite HG.
    + exists (break false ++ [paragraph t ts]). split; [|split; [apply PsText; [now left|constructor]|discriminate]].
      replace (w ++ l ++ after_line ls') with ((w ++ a) ++ (t ++ m) ++ g) by (rewrite El, <- !app_assoc, <- E; reflexivity).
      intros tag. apply SrcOf; [exact Hwa|right; apply Hst|apply LsText; now apply text_paragraph|exact Hg].
    + exists (break false ++ paragraph t ts :: WBreak :: us). split; [|split; [apply PsText; [right; eauto|now constructor]|discriminate]].
      replace (w ++ l ++ after_line ls') with ((w ++ a) ++ ((t ++ m) ++ nl ++ s) ++ g) by (rewrite El, <- !app_assoc, <- E; reflexivity).
      intros tag. apply SrcOf; [exact Hwa|right; rewrite <- app_assoc; apply Hst|apply LsTexts; [now apply text_paragraph|exact Hnl|apply HL]|exact Hg].
Qed.
Theorem plain_source : forall s, plain_text s -> exists us, (forall tag, Source tag s us) /\ Paragraphs us (paragraphs s) /\ us <> [].
Proof.
  intros s [Hc Hq]. unfold paragraphs. destruct (lines_of s) as [|l ls] eqn:E; [now apply lines_ne in E|].
  rewrite (lines_join s l ls E). apply (first_lines ls l []); [|constructor]. rewrite <- E. apply Forall_forall. intros x Hx.
  pose proof (lines_no_feed s) as H1. pose proof (lines_chars _ _ Hc) as H2. rewrite <- ?E in Hq. rewrite Forall_forall in H1, H2, Hq.
  split; [now apply H1|]. split; [now apply H2|now apply Hq].
Qed.

(** ** Its page *)
(** Units that are written as [hs], and line breaks, one at least between two units *)
Section Units.
Variable f : bool -> bool -> written -> bool * list piece.
Hypothesis f_break : forall fi la, f fi la WBreak = (true, [Gap [32]]).
Definition Unit (x : bool * list piece) (h : str) : Prop :=
  fst x = false /\ forall b rest, spaced b (snd x ++ rest) = h ++ spaced false rest.
Inductive Units : list written -> list str -> Prop :=
| UnNil : Units [] []
| UnBreak : forall us hs, Units us hs -> Units (WBreak :: us) hs
| UnUnit : forall u us h hs, (forall fi la, Unit (f fi la u) h) -> us = [] \/ (exists us', us = WBreak :: us') -> Units us hs -> Units (u :: us) (h :: hs).

Fixpoint drop_end (l : list (bool * list piece)) : list (bool * list piece) :=
  match l with
  | [] => []
  | x :: l' => match drop_end l' with [] => if fst x then [] else [x] | r => x :: r end
  end.
Lemma drop_true_app : forall a b, drop_true (a ++ b) = match drop_true a with [] => drop_true b | r => r ++ b end.
Proof. induction a as [|[[|] ps] a IH]; intros b; cbn [app drop_true]; [reflexivity|apply IH|reflexivity]. Qed.
Lemma drop_end_is : forall l, rev (drop_true (rev l)) = drop_end l.
Proof.
  induction l as [|[c ps] l IH]; [reflexivity|]. cbn [rev drop_end fst]. rewrite drop_true_app, <- IH.
  destruct (drop_true (rev l)) as [|y r] eqn:E; cbn [rev app]; [now destruct c|].
  rewrite !rev_app_distr. cbn [rev app]. destruct (rev r ++ [y]) eqn:E2; [now destruct (rev r)|reflexivity].
Qed.
Lemma units_end : forall us hs, Units us hs -> forall first,
  (hs = [] -> drop_end (map_pos f first us) = []) /\
  (hs <> [] -> drop_end (map_pos f first us) <> [] /\ forall b rest,
     spaced b (flat_map snd (drop_end (map_pos f first us)) ++ rest) =
       match us with WBreak :: _ => if b then [] else [32] | _ => [] end ++ join_with [32] hs ++ spaced false rest).
Proof.
  intros us hs H. induction H as [|us hs H IH|u us h hs Hu Hn H IH]; intros first; cbn [map_pos drop_end].
  - split; [reflexivity|now intros []].
  - rewrite f_break. cbn [fst]. destruct (IH false) as [I1 I2]. split.
    + intros E. now rewrite (I1 E).
    + intros E. destruct (I2 E) as [I3 I4]. destruct (drop_end (map_pos f false us)) as [|x r]; [now destruct I3|]. split; [discriminate|].
      intros b rest. specialize (I4 true rest). set (l := x :: r) in *. cbn [flat_map snd app spaced]. rewrite I4.
      assert (match us with WBreak :: _ => [] | _ => [] end = @nil chr) as -> by (destruct us as [|[]]; reflexivity). now destruct b.
  - split; [discriminate|]. intros _. set (la := match us with [] => true | _ => false end).
    destruct (Hu first la) as [U1 U2]. destruct (IH false) as [I1 I2].
    assert (match u with WBreak => False | _ => True end) as Hub. { destruct u; try exact I. rewrite f_break in U1. discriminate. }
    destruct hs as [|h' hs].
    + rewrite (I1 eq_refl), U1. split; [discriminate|]. intros b rest. cbn [flat_map]. rewrite app_nil_r, U2. cbn [join_with]. now destruct u.
    + destruct (I2 ltac:(discriminate)) as [I3 I4]. destruct (drop_end (map_pos f false us)) as [|x r]; [now destruct I3|]. split; [discriminate|].
      intros b rest. set (l := x :: r) in *. cbn [flat_map]. rewrite <- app_assoc, U2, I4. destruct Hn as [->|[us' ->]]; [inversion H|].
      cbn [join_with]. rewrite <- !app_assoc. now destruct u.
Qed.
Lemma units_page : forall us hs, Units us hs -> forall first b rest,
  spaced b (inner (map_pos f first us) ++ rest) = join_with [32] hs ++ spaced (match hs with [] => b | _ => false end) rest.
Proof.
  intros us hs H. assert (forall first, exists us' first', drop_true (map_pos f first us) = map_pos f first' us' /\ Units us' hs /\ forall r, us' <> WBreak :: r) as HD.
  { induction H as [|us hs H IH|u us h hs Hu Hn H IH]; intros first.
    - exists [], true. repeat split; [constructor|discriminate].
    - cbn [map_pos]. rewrite f_break. cbn [drop_true]. apply IH.
    - exists (u :: us), first. cbn [map_pos]. set (la := match us with [] => true | _ => false end). destruct (Hu first la) as [U1 _].
      destruct (f first la u) as [c ps] eqn:Ef. cbn [fst] in U1. subst c. split; [reflexivity|]. split; [now constructor|].
      intros r E. injection E as -> _. rewrite f_break in Ef. discriminate. }
  intros first b rest. destruct (HD first) as (us' & first' & E & H' & Hn). unfold inner. rewrite E, drop_end_is.
  destruct (units_end us' hs H' first') as [I1 I2]. destruct hs as [|h hs].
  - rewrite (I1 eq_refl). reflexivity.
  - destruct (I2 ltac:(discriminate)) as [_ I3]. rewrite I3. destruct us' as [|[] us']; try reflexivity. now destruct (Hn us').
Qed.
End Units.

Section Page.
Variable xml : bool.
Lemma pieces_break : forall c grand parent raw fi la, pieces xml c grand parent raw fi la WBreak = (true, [Gap [32]]).
Proof. reflexivity. Qed.
Lemma texts_units : forall c grand parent t ts, Units (pieces xml c grand parent false) (WText t :: further ts) (map (text_html xml) (t :: ts)).
Proof.
  assert (forall c grand parent t fi la, Unit (pieces xml c grand parent false fi la (WText t)) (text_html xml t)) as HT.
  { intros c grand parent t fi la. split; [reflexivity|]. intros b rest. cbn [pieces snd app spaced]. now rewrite andb_false_r. }
  intros c grand parent t ts. revert t. induction ts as [|t' ts IH]; intros t; cbn [further flat_map app map].
  - apply UnUnit; [apply HT|now left|constructor].
  - apply UnUnit; [apply HT|right; eauto|]. apply UnBreak, IH.
Qed.
Definition open_tag (attrs : list (str * option str)) : str := tag_html xml (L "p") attrs (L ">").
Lemma paragraph_unit : forall grand parent attrs t ts fi la,
  Unit (pieces xml CSection grand parent false fi la (WElt KPara (None, attrs) (WText t :: further ts))) (paragraph_html xml (open_tag attrs) (t :: ts)).
Proof.
  intros grand parent attrs t ts fi la. split; [reflexivity|]. intros b rest.
  pose proof (units_page _ (pieces_break (inside (Some (L "p")) KPara) parent (Some (L "p")) false) _ _ (texts_units (inside (Some (L "p")) KPara) parent (Some (L "p")) t ts) true) as HU.
  set (kids := WText t :: further ts) in *. cbn [pieces name_for in_section].
  replace (xml && is_nil kids) with false by (symmetry; apply andb_false_r).
  replace (negb xml && html_void_name (L "p")) with false by (symmetry; apply andb_false_r).
  cbn [orb inside]. cbn [snd app spaced]. rewrite <- app_assoc. unfold paragraph_html, open_tag. rewrite <- !app_assoc. f_equal.
  etransitivity; [apply HU|]. reflexivity.
Qed.
Lemma plain_units : forall grand parent lang us ps, Paragraphs us ps ->
  Units (pieces xml CSection grand parent false) (map (in_language lang) us)
    (map (paragraph_html xml (open_tag match lang with Some l => [(L "lang", Some l)] | None => [] end)) ps).
Proof.
  intros grand parent lang us ps H. induction H as [|us ps H IH|t ts us ps Hn H IH]; cbn [map].
  - constructor.
  - replace (in_language lang WBreak) with WBreak by (now destruct lang). now constructor.
  - unfold paragraph at 1. apply UnUnit; [|destruct Hn as [->|[us' ->]]; [now left|right; cbn [map]; eexists; destruct lang; reflexivity]|exact IH].
    intros fi la. destruct lang; cbn [in_language app]; apply paragraph_unit.
Qed.
Lemma plain_page : forall lang us ps, Paragraphs us ps ->
  page xml (document false lang us) = join_with [32] (map (paragraph_html xml (open_tag match lang with Some l => [(L "lang", Some l)] | None => [] end)) ps).
Proof.
  intros lang us ps H. unfold page, document. rewrite <- (app_nil_r (inner _)).
  rewrite (units_page _ (pieces_break CSection None None false) _ _ (plain_units None None lang us ps H) true). apply app_nil_r.
Qed.

(** A complete page *)
Lemma paragraphs_names : forall us ps names, Paragraphs us ps -> Forall (fun u => is_named names u = false) us.
Proof. intros us ps names H. induction H; constructor; auto. Qed.
Lemma existsb_none : forall A (p : A -> bool) l, Forall (fun x => p x = false) l -> existsb p l = false.
Proof. intros A p l H. induction H as [|x l H _ IH]; [reflexivity|]. cbn. now rewrite H, IH. Qed.
Lemma plain_completed : forall us ps, Paragraphs us ps ->
  completed us = [wrapped (L "html") [wrapped (L "head") []; WBreak; wrapped (L "body") us]].
Proof.
  intros us ps H. unfold completed. rewrite !existsb_none by (eapply paragraphs_names; exact H).
  assert (flat_map head_part us = []) as ->. { induction H; auto. }
  assert (filter (fun u => negb (is_named (L "head" :: in_head) u)) us = us) as ->; [|reflexivity].
  pose proof (paragraphs_names us ps (L "head" :: in_head) H) as HN. clear H. induction HN as [|u us E _ IH]; [reflexivity|]. cbn [filter]. rewrite E. cbn [negb]. now rewrite IH.
Qed.
Lemma plain_bare : forall us ps, Paragraphs us ps -> Forall bare_head us.
Proof. intros us ps H. pose proof (paragraphs_names us ps [L "head"] H) as HN. eapply Forall_impl; [|exact HN]. intros u E E'. cbn beta in E. congruence. Qed.
Lemma plain_whole : forall lang us ps, Paragraphs us ps -> us <> [] ->
  page xml (document true lang us) =
    tag_html xml (L "html") match lang with Some l => [(L "lang", Some l)] | None => [] end (L ">") ++
    (if xml then L "<head/>" else L "<head></head>") ++ L " <body>" ++
    join_with [32] (map (paragraph_html xml (L "<p>")) ps) ++ L "</body></html>".
Proof.
  intros lang us ps H Hn. unfold page, document. rewrite (plain_completed us ps H).
  pose proof (units_page _ (pieces_break CSection (Some (L "html")) (Some (L "body")) false) _ _ (plain_units (Some (L "html")) (Some (L "body")) None us ps H) true) as HU.
  rewrite (map_ext (in_language None) (fun u => u)), map_id in HU by (now intros []).
  destruct us as [|u us]; [now destruct Hn|]. set (kids := u :: us) in *.
  assert (forall fi la, Unit (pieces xml (inside (Some (L "html")) KOther) None (Some (L "html")) false fi la (wrapped (L "head") [])) (if xml then L "<head/>" else L "<head></head>")) as HH.
  { intros fi la. split; [reflexivity|]. intros b rest. destruct xml; reflexivity. }
  assert (forall fi la, Unit (pieces xml (inside (Some (L "html")) KOther) None (Some (L "html")) false fi la (wrapped (L "body") kids))
    (L "<body>" ++ join_with [32] (map (paragraph_html xml (L "<p>")) ps) ++ L "</body>")) as HB.
  { intros fi la. split; [reflexivity|]. intros b rest. unfold wrapped. cbn [pieces].
    replace (xml && is_nil kids) with false by (symmetry; apply andb_false_r).
    replace (negb xml && html_void_name (L "body")) with false by (symmetry; apply andb_false_r).
    change (inside (Some (L "body")) KOther) with CSection. cbn [orb snd app spaced]. rewrite <- !app_assoc. f_equal. etransitivity; [apply HU|]. reflexivity. }
  set (attrs := match lang with Some l => [(L "lang", Some l)] | None => [] end).
  replace (map (in_language lang) [wrapped (L "html") [wrapped (L "head") []; WBreak; wrapped (L "body") kids]])
    with [WElt KOther (Some (L "html"), attrs) [wrapped (L "head") []; WBreak; wrapped (L "body") kids]] by (now destruct lang).
  assert (Units (pieces xml (inside (Some (L "html")) KOther) None (Some (L "html")) false) [wrapped (L "head") []; WBreak; wrapped (L "body") kids]
    [if xml then L "<head/>" else L "<head></head>"; L "<body>" ++ join_with [32] (map (paragraph_html xml (L "<p>")) ps) ++ L "</body>"]) as HK.
  { apply UnUnit; [exact HH|right; eauto|]. apply UnBreak. apply UnUnit; [exact HB|now left|constructor]. }
  pose proof (units_page _ (pieces_break (inside (Some (L "html")) KOther) None (Some (L "html")) false) _ _ HK true) as HW. clear HH HB HK HU.
  set (inside_html := [wrapped (L "head") []; WBreak; wrapped (L "body") kids]) in *. cbn [map_pos pieces].
  replace (xml && is_nil inside_html) with false by (symmetry; apply andb_false_r).
  replace (negb xml && html_void_name (L "html")) with false by (symmetry; apply andb_false_r).
  match goal with |- context [false || ?x] => change (false || x) with false end.
  match goal with |- context [inner [(false, ?x)]] => change (inner [(false, x)]) with (x ++ []) end. rewrite app_nil_r. cbn [spaced]. f_equal.
  etransitivity; [apply HW|]. cbn [join_with app spaced]. rewrite <- !app_assoc. cbn [app]. rewrite <- !app_assoc. reflexivity.
Qed.
End Page.

(** ** Nothing is lost *)
Definition shown (s : str) : str := filter (fun c => negb (is_whitespace c)) s.
Lemma shown_app : forall a b, shown (a ++ b) = shown a ++ shown b.
Proof. intros a b. apply filter_app. Qed.
Lemma shown_ws : forall s, ws s -> shown s = [].
Proof. intros s H. induction H as [|c s Hc _ IH]; [reflexivity|]. cbn. now rewrite Hc. Qed.
Lemma shown_trimmed : forall l, shown (trimmed l) = shown l.
Proof.
  intros l. destruct (trimmed_split l) as (a & b & E & Ha & Hb & _). rewrite E at 2. rewrite !shown_app, (shown_ws a Ha), (shown_ws b Hb). cbn. now rewrite app_nil_r.
Qed.
Lemma grouped_concat : forall ls cur, concat (concat (grouped cur ls)) = concat cur ++ concat ls.
Proof.
  induction ls as [|l ls IH]; intros cur; cbn [grouped concat].
  - destruct cur; cbn; now rewrite ?app_nil_r.
  - destruct l as [|c l].
    + rewrite concat_app, concat_app, IH. destruct cur; cbn; now rewrite ?app_nil_r.
    + rewrite IH, concat_app. cbn [concat]. now rewrite app_nil_r, <- app_assoc.
Qed.
Theorem plain_characters : forall s, shown (concat (concat (paragraphs s))) = shown s.
Proof.
  intros s. unfold paragraphs. rewrite grouped_concat. cbn [concat app].
  assert (forall ls, shown (concat (map trimmed ls)) = shown (after_line ls)) as H.
  { induction ls as [|l ls IH]; [reflexivity|]. cbn [map concat after_line flat_map app]. fold (after_line ls).
    change (10 :: l ++ after_line ls) with ([10] ++ l ++ after_line ls). rewrite !shown_app, shown_trimmed, IH. reflexivity. }
  rewrite H. destruct (lines_of s) as [|l ls] eqn:E; [now apply lines_ne in E|]. rewrite (lines_join s l ls E). reflexivity.
Qed.

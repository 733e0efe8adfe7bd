(** * Sources written as in SpecWrite.v: what the parser and the builder make of them. *)

From Verif Require Import Base Escape Doc Ast Errors Build Convert Grammar OutText Parser SpecSource SpecEscape SpecMarkup SpecTree SpecInfer SpecBuild SpecWrite
  P_Base P_Escape P_Grammar P_Lexer P_Parser P_Unknown P_Forward P_WriteSel P_WriteText.
From Coq Require Import Lia.

Section Src.
Variable src : str.
Notation on := (on src).
Notation slc := (source_slice src).

Definition ends {A} (o : outcome A) (post : str) (P : A -> Prop) : Prop :=
  o = Starved \/ exists a s, o = Got a s /\ on s post /\ P a.

Lemma ends_fwd : forall A (f : pstate -> outcome A) m post P s, Fwd src f m post P -> on s (m ++ post) -> ends (f s) post P.
Proof. intros A f m post P s H Hs. destruct (H s Hs) as (a & s' & [-> | ->] & O & HP); [right; eauto|now left]. Qed.
Lemma ends_then : forall A B (o : outcome A) (f : A -> pstate -> outcome B) post P post' Q, ends o post P ->
  (forall a s, on s post -> P a -> ends (f a s) post' Q) -> ends (then_ o f) post' Q.
Proof. intros A B o f post P post' Q [-> | (a & s & -> & O & HP)] H; [now left|]. now apply H. Qed.
Lemma ends_ret : forall A (a : A) s post (P : A -> Prop), on s post -> P a -> ends (Got a s) post P.
Proof. intros. right. eauto. Qed.
Lemma ends_impl : forall A (o : outcome A) post (P Q : A -> Prop), ends o post P -> (forall a, P a -> Q a) -> ends o post Q.
Proof. intros A o post P Q [-> | (a & s & -> & O & HP)] H; [now left|right; eauto 6]. Qed.
Lemma ends_or_l : forall A (o o' : outcome A) post P, ends o post P -> ends (or_else o o') post P.
Proof. intros A o o' post P [-> | (a & s & -> & O & HP)]; [now left|right; exists a, s; auto]. Qed.
Lemma ends_or_r : forall A (o o' : outcome A) post P, misses o -> ends o' post P -> ends (or_else o o') post P.
Proof. intros A o o' post P [-> | ->] H; [exact H|now left]. Qed.
Lemma ends_maybe : forall A s (o : outcome A) post (P : A -> Prop), ends o post P -> ends (maybe s o) post (fun x => exists a, x = Some a /\ P a).
Proof. intros A s o post P [-> | (a & s' & -> & O & HP)]; [now left|right; exists (Some a), s'; eauto]. Qed.
Lemma ends_none : forall A s (o : outcome A) post, misses o -> on s post -> ends (maybe s o) post (fun x => x = None).
Proof. intros A s o post [-> | ->] H; [right; exists None, s; auto|now left]. Qed.
Lemma ends_taken : forall A (o : outcome A) post P, ends o post P -> ends (taken o) post P.
Proof. intros A o post P [-> | (a & s' & -> & O & HP)]; [now left|right; exists a, s'; auto]. Qed.

(** Repetition *)
Definition Reads {A} (f : pstate -> outcome A) (m post : str) (P : list A -> Prop) : Prop :=
  forall fuel s, on s (m ++ post) -> ends (vec_ f fuel s) post P.
Lemma reads_nil : forall A (f : pstate -> outcome A) post (P : list A -> Prop), Mis src f post -> P [] -> Reads f [] post P.
Proof.
  intros A f post P H HP [|fuel] s Hs; [now left|]. cbn [vec_]. destruct (H s Hs) as [-> | ->]; [right; eauto|now left].
Qed.
Lemma reads_cons : forall A (f : pstate -> outcome A) m m' post P Q, (forall s, on s (m ++ m' ++ post) -> ends (f s) (m' ++ post) P) ->
  Reads f m' post Q -> Reads f (m ++ m') post (fun l => exists a l', l = a :: l' /\ P a /\ Q l').
Proof.
  intros A f m m' post P Q H HR [|fuel] s Hs; [now left|]. rewrite <- app_assoc in Hs. cbn [vec_].
  destruct (H s Hs) as [-> | (a & s1 & -> & O & HP)]; [now left|].
  eapply ends_then; [now apply HR|]. cbn beta. intros l s2 O2 HQ. apply ends_ret; [exact O2|eauto].
Qed.
Lemma reads_impl : forall A (f : pstate -> outcome A) m post (P Q : list A -> Prop), Reads f m post P -> (forall l, P l -> Q l) -> Reads f m post Q.
Proof. intros A f m post P Q H HI fuel s Hs. eapply ends_impl; [now apply H|exact HI]. Qed.
Lemma ends_vec : forall A (f : pstate -> outcome A) m post P s, Reads f m post P -> on s (m ++ post) -> ends (vec f s) post P.
Proof. intros A f m post P s H Hs. now apply H. Qed.

(** ** Where no node begins *)
Variable alnum : chr -> bool.
Hypothesis Hal : ascii_ok alnum.

Definition no_prefix (t r : str) : Prop := forall r', r <> t ++ r'.
Lemma refuses_no_prefix : forall t r, no_prefix t r -> refuses (x_exactly t) r.
Proof.
  intros t r H back. unfold x_exactly. destruct (strip_prefix t r) as [r'|] eqn:E; [|reflexivity].
  apply strip_prefix_some in E. now destruct (H r').
Qed.
Lemma mis_prefix : forall t r, no_prefix t r -> Mis src (text_tok t) r.
Proof. intros t r H. now apply mis_tok, refuses_no_prefix. Qed.
Definition heads : list str := [[34; 34; 34]; L "'''"; L "```"].
Definition opens : list str :=
  [L "<["; L "<!"; L "{{"; L "{%"; L "<%"; L "<?"; L "<("; L "</"; L "<#"; L "<_"; L "<~"; [60; 34]; L "<`"].

Lemma mis_multiline : forall r, Forall (fun t => no_prefix t r) heads -> Mis src p_multiline r.
Proof.
  intros r H s Hs. unfold heads in H. rewrite !Forall_cons_iff in H. destruct H as (H1 & H2 & H3 & _).
  assert (forall k, no_prefix (multiline_quote k) r -> misses (p_multiline_kind k s)) as HK.
  { intros k Hk. apply misses_then. revert Hs. apply mis_tok, refuses_seq_l. now apply refuses_no_prefix. }
  apply misses_or; [now apply HK|]. apply misses_or; now apply HK.
Qed.
Lemma mis_verbatim : forall r, no_prefix (L "<[") r -> Mis src p_verbatim r.
Proof. intros r H s Hs. apply misses_then. revert Hs. now apply mis_prefix. Qed.
Lemma mis_comment : forall r, no_prefix (L "<!") r -> Mis src p_comment r.
Proof. intros r H s Hs. apply misses_then. revert Hs. now apply mis_prefix. Qed.
Lemma refuses_interpolation : forall r, no_prefix (L "{{") r -> no_prefix (L "{%") r -> no_prefix (L "<%") r -> no_prefix (L "<?") r ->
  refuses x_interpolation r.
Proof.
  intros r H1 H2 H3 H4. apply refuses_alt.
  - intros back. unfold x_seq at 1, x_not_follows. destruct back as [|c back].
    + assert (refuses (x_seq (x_exactly (L "{{")) (x_seq (x_not_precedes (x_exactly (L "{")))
               (x_lazy 0 (x_seq (x_not_follows (mem (L "\}")))
                         (x_seq (x_exactly (L "}}")) (x_not_precedes (x_exactly (L "}")))))))) r) as HR by (now apply refuses_seq_l, refuses_no_prefix).
      unfold x_not_follows in HR. now rewrite HR.
    + destruct (mem _ c); [reflexivity|].
      assert (refuses (x_seq (x_exactly (L "{{")) (x_seq (x_not_precedes (x_exactly (L "{")))
               (x_lazy 0 (x_seq (x_not_follows (mem (L "\}")))
                         (x_seq (x_exactly (L "}}")) (x_not_precedes (x_exactly (L "}")))))))) r) as HR by (now apply refuses_seq_l, refuses_no_prefix).
      unfold x_not_follows in HR. now rewrite HR.
  - apply refuses_alt; [|apply refuses_alt]; now apply refuses_seq_l, refuses_no_prefix.
Qed.
Lemma mis_text_rule : forall r, refuses (x_text_segment alnum) r -> no_prefix (L "<[") r -> no_prefix (L "<!") r -> refuses x_interpolation r ->
  Mis src (p_text alnum) r.
Proof.
  intros r H1 H2 H3 H4 s Hs. apply misses_or; [|apply misses_or; [|apply misses_or]]; apply misses_then.
  - revert Hs. now apply mis_tok.
  - revert Hs. now apply mis_verbatim.
  - revert Hs. now apply mis_comment.
  - revert Hs. now apply mis_tok.
Qed.
Lemma mis_selector : forall r, (forall c r', r = c :: r' -> c <> 91) -> refuses (x_word_item (or_ alnum (mem (L "*")))) r -> Mis src (p_selector alnum) r.
Proof.
  intros r H1 H2 s Hs. apply misses_then. apply misses_or.
  - apply misses_then. revert Hs. now apply mis_attrs.
  - left. destruct Hs as [_ E]. unfold in_chain. rewrite E.
    assert (refuses (x_selector_chain alnum) r) as Hr; [|now rewrite Hr]. now apply refuses_seq_l, refuses_many1.
Qed.
Section Node.
Variable p_node : pstate -> outcome a_node.
Lemma mis_specials : forall r k, no_prefix (special_open k) r -> Mis src (p_special_kind p_node k) r.
Proof. intros r k H s Hs. apply misses_then. revert Hs. now apply mis_prefix. Qed.
Lemma mis_element : forall r, no_prefix (L ">") r -> no_prefix (L "{") r -> Forall (fun t => no_prefix t r) opens -> Mis src (p_element p_node) r.
Proof.
  intros r H1 H2 H s Hs. unfold opens in H. rewrite !Forall_cons_iff in H.
  destruct H as (_ & _ & _ & _ & _ & _ & H3 & H4 & H5 & H6 & H7 & H8 & H9 & _).
  apply misses_or; [|apply misses_or; [|apply misses_or]]; apply misses_then.
  - revert Hs. now apply mis_prefix.
  - apply misses_then. revert Hs. now apply mis_prefix.
  - apply misses_then. revert Hs. now apply mis_prefix.
  - repeat apply misses_or; try (revert Hs; now apply mis_specials). apply misses_then. revert Hs. apply mis_tok.
    now apply refuses_seq_l, refuses_no_prefix.
Qed.
Lemma mis_ntype : forall r, Forall (fun t => no_prefix t r) heads -> refuses (x_text_segment alnum) r -> Forall (fun t => no_prefix t r) opens ->
  (forall c r', r = c :: r' -> c <> 91) -> refuses (x_word_item (or_ alnum (mem (L "*")))) r -> no_prefix (L ">") r -> no_prefix (L "{") r ->
  Mis src (p_ntype alnum p_node) r.
Proof.
  intros r H1 H2 H3 H4 H5 H6 H7 s Hs. apply misses_or; [|apply misses_or; [|apply misses_or]]; apply misses_then.
  - revert Hs. now apply mis_multiline.
  - revert Hs. unfold opens in H3. rewrite !Forall_cons_iff in H3. destruct H3 as (G1 & G2 & G3 & G4 & G5 & G6 & _).
    apply mis_text_rule; auto. now apply refuses_interpolation.
  - revert Hs. now apply mis_selector.
  - revert Hs. now apply mis_element.
Qed.
End Node.
Lemma no_prefix_head : forall c t d r, c <> d -> no_prefix (c :: t) (d :: r).
Proof. intros c t d r H r' E. injection E as E _. congruence. Qed.
Lemma no_prefix_second : forall a b t d e r, b <> e -> no_prefix (a :: b :: t) (d :: e :: r).
Proof. intros a b t d e r H r' E. injection E as _ E _. congruence. Qed.
Lemma no_prefix_nil : forall c t, no_prefix (c :: t) [].
Proof. intros c t r' E. discriminate. Qed.
Ltac npfx := repeat constructor;
  (first [apply no_prefix_nil | apply no_prefix_head; discriminate | apply no_prefix_second; discriminate]).

Lemma closing_node : forall fuel p, closing p -> Mis src (p_node alnum fuel) p.
Proof.
  intros [|fuel] p Hp s Hs; [now right|]. cbn [p_node]. apply misses_then. revert Hs. apply mis_ntype.
  - destruct Hp as [->|[[r ->]|[[r ->]|(d & r & Hd & ->)]]]; unfold heads; try (npfx);
    (cbn in Hd; intuition (subst; npfx)).
  - apply refuses_seq_l, refuses_text_word; [exact Hal|now left].
  - destruct Hp as [->|[[r ->]|[[r ->]|(d & r & Hd & ->)]]]; unfold opens; try (npfx);
    (cbn in Hd; intuition (subst; npfx)).
  - intros c r' ->. destruct Hp as [H|[[r H]|[[r H]|(d & r & Hd & H)]]]; try discriminate; injection H as -> _; try discriminate.
    cbn in Hd. intuition (subst; discriminate).
  - apply after_text_word; [now apply no_word_star|now left].
  - destruct Hp as [->|[[r ->]|[[r ->]|(d & r & Hd & ->)]]]; try npfx; (cbn in Hd; intuition (subst; npfx)).
  - destruct Hp as [->|[[r ->]|[[r ->]|(d & r & Hd & ->)]]]; try npfx; (cbn in Hd; intuition (subst; npfx)).
Qed.
Lemma closing_item : forall fuel b p, blanks b -> closing p -> Mis src (p_item (p_node alnum fuel)) (b ++ p).
Proof.
  intros fuel b p Hb Hp s Hs. unfold p_item. destruct b as [|c b].
  - cbn [app] in Hs. eapply misses_then_r; [apply misses_maybe|].
    + revert Hs. apply mis_tok, refuses_space. now apply closing_space.
    + apply misses_then. revert Hs. now apply closing_node.
  - destruct (fwd_tok src x_space (c :: b) p (takes_space (c :: b) p ltac:(discriminate) Hb (closing_space p Hp)) s Hs) as (r & s1 & G & O & _).
    eapply misses_then_r; [apply gets_maybe; exact G|]. apply misses_then. revert O. now apply closing_node.
Qed.

(** ** Nodes *)
Variable tag : mark -> str.
Definition mark_of (k : special_kind) : mark :=
  match k with
  | Emphasis => MEmphasis | Strong => MStrong | Underline => MUnderline | Strike => MStrike | Quote => MQuote
  | Code => MCode | CodeBlockContainer => MCodeBlock
  end.
Definition ordinary (t : element_type) : Prop :=
  match t with Doc.Special _ | Multiline MLCode | Unknown => False | _ => True end.
(** The text of a node of several lines, whose source is [body] *)
Definition LinesOf (esc : bool) (body t : str) (blank : bool) : Prop :=
  trim_multiline body <> [] /\ (forall d, ends_blank (last (trim_multiline body) d) = blank) /\
  exists ds, concat ds = t /\ if esc then Forall2 (Decodes true) (trim_multiline body) ds else ds = trim_multiline body.
Inductive Is : written -> node -> Prop :=
| IsElt : forall path us r e, ordinary (e_type e) -> Forall2 (Sel src) (e_selectors e) path ->
    match e_type e with Paragraph | Multiline _ => path = [] | _ => True end ->
    e_raw e = false -> Forall2 Is us (e_nodes e) -> Is (nested (kind_of (e_type e)) path us) (NElt r e)
| IsSpecial : forall k us r e, e_type e = Doc.Special k -> e_selectors e = [] -> e_raw e = false -> Forall2 Is us (e_nodes e) ->
    Is (nested KOther (named tag (mark_of k)) us) (NElt r e)
| IsCodeBlock : forall us r e, e_type e = Multiline MLCode -> e_selectors e = [] -> e_raw e = false -> Forall2 Is us (e_nodes e) ->
    Is (nested KOther (named tag MCodeBlock ++ named tag MCode) us) (NElt r e)
| IsText : forall s t r, Words s t -> SliceOf src r s -> Is (WText t) (NTxt r (TText (mkText (FromSource r) false true true false)))
| IsVerbatim : forall t r r', SliceOf src r' t -> Is (WVerbatim t) (NTxt r (TText (mkText (FromSource r') false false true false)))
| IsLines : forall esc body t blank r, SliceOf src r body -> LinesOf esc body t blank ->
    Is (WLines t blank) (NTxt r (TText (mkText (FromSource r) true esc true false)))
| IsMarkup : forall t r r', SliceOf src r' t -> Is (WMarkup t) (NTxt r (TText (mkText (FromSource r') false false false false)))
| IsCode : forall t r r', SliceOf src r' t -> Is (WCode t) (NTxt r (TText (mkText (FromSource r') false false false true)))
| IsComment : forall t r r', SliceOf src r' t -> Is (WComment t) (NTxt r (TComment (FromSource r')))
| IsGap : forall g r, SliceOf src r g -> Is (WGap g) (NTxt r (TSpace (SInline (Some (FromSource r)))))
| IsBreak : forall r s, s = LineEnd \/ s = ParagraphEnd -> Is WBreak (NTxt r (TSpace s)).
Lemma shown_nested : forall k path us, shown (nested k path us) = true.
Proof. now intros k [|l [|l' path]] us. Qed.
Lemma is_shown : forall u n, Is u n -> is_visible n = shown u.
Proof. intros u n []; rewrite ?shown_nested; reflexivity. Qed.
Lemma are_shown : forall us ns, Forall2 Is us ns -> existsb is_visible ns = some_shown us.
Proof. intros us ns H. induction H as [|u n us ns Hu H IH]; [reflexivity|]. cbn [existsb some_shown]. now rewrite (is_shown _ _ Hu), IH. Qed.

(** In a line *)
Definition plain_node (n : node) : Prop :=
  match n with
  | NElt _ e => match e_type e with Inline _ | Doc.Special _ => True | _ => False end
  | NTxt _ _ => True
  end.
Definition Line (us : list written) (ns : list node) : Prop := Forall2 Is us ns /\ Forall plain_node ns.

(** Running the builder *)
Definition runs {A} (m : M A) (P : A -> Prop) : Prop :=
  forall st, (exists v, m st = (st, Ok v) /\ P v) \/ exists st', m st = (st', Fuel).
Lemma runs_ret : forall A (v : A) (P : A -> Prop), P v -> runs (ret v) P.
Proof. intros A v P H st. left. exists v. auto. Qed.
Lemma runs_bind : forall A B (m : M A) (f : A -> M B) P Q, runs m P -> (forall v, P v -> runs (f v) Q) -> runs (bind m f) Q.
Proof.
  intros A B m f P Q H1 H2 st. unfold bind. destruct (H1 st) as [(v & -> & HP)|(st' & ->)]; [now apply H2|right; eauto].
Qed.
Lemma runs_fuel : forall A (P : A -> Prop), runs out_of_fuel P.
Proof. intros A P st. right. now exists st. Qed.
Lemma runs_yields : forall A (m : M A) v (P : A -> Prop), yields m v -> P v -> runs m P.
Proof. intros A m v P H HP st. left. exists v. auto. Qed.
Lemma runs_impl : forall A (m : M A) (P Q : A -> Prop), runs m P -> (forall v, P v -> Q v) -> runs m Q.
Proof. intros A m P Q H HI st. destruct (H st) as [(v & E & HP)|H']; [left; eauto|now right]. Qed.

Definition plain_item (t : a_ntype) : Prop :=
  match t with ANText _ | ANElement (AInlineElt _) | ANElement (ASpecialElt _) => True | _ => False end.
Definition build_one (f : nat) (an : a_node) : M (list node) :=
  match an_type an with
  | ANText t => let* n := build_inline_text slc t in ret [n]
  | ANElement e => build_element slc f (an_range an) e
  | _ => out_of_fuel
  end.
Definition NodeIs (u : written) (an : a_node) : Prop :=
  plain_item (an_type an) /\
  forall f, runs (build_one f an) (fun out => exists n, out = [n] /\ Is u n /\ plain_node n).
Definition plain_head (items : list a_item) : Prop := match items with [] => True | i :: _ => plain_item (an_type (snd i)) end.
Definition ItemsAre (us : list written) (items : list a_item) : Prop :=
  plain_head items /\ (us <> [] -> items <> []) /\
  forall f, runs (extend_line slc f items) (fun x => fst x = [] /\ Line us (snd x)).

Lemma items_nil : ItemsAre [] [].
Proof.
  split; [exact I|]. split; [auto|]. intros [|f]; [apply runs_fuel|]. apply runs_ret. repeat split; constructor.
Qed.
Definition GapIs (g : str) (sp : option lrange) : Prop :=
  match sp with None => g = [] | Some r => g <> [] /\ SliceOf src r g end.
Lemma runs_unret : forall A B (m : M A) (g : A -> B) P, runs (let* n := m in ret (g n)) P -> runs m (fun n => P (g n)).
Proof.
  intros A B m g P H st. specialize (H st). unfold bind, ret in H. destruct (m st) as [st' [v| |]].
  - destruct H as [(v' & E & HP)|[? E]]; [|discriminate]. injection E as -> <-. left. eauto.
  - destruct H as [(v' & E & HP)|[? E]]; discriminate.
  - right. eauto.
Qed.
Lemma gap_nodes : forall g sp, GapIs g sp -> exists ns, match sp with Some r => [exact_space r] | None => [] end = ns /\
  Forall2 Is (space g) ns /\ Forall plain_node ns.
Proof.
  intros g [r|] H; eexists; (split; [reflexivity|]).
  - destruct H as [Hg H]. destruct g; [now destruct Hg|]. split; [|constructor; [exact I|constructor]].
    constructor; [|constructor]. now apply IsGap.
  - cbn in H. subst g. split; constructor.
Qed.
Lemma items_cons : forall g sp u an us rest, GapIs g sp -> NodeIs u an -> ItemsAre us rest -> ItemsAre (space g ++ u :: us) ((sp, an) :: rest).
Proof.
  intros g sp u an us rest Hg [Hp Hb] (_ & _ & Hr). split; [exact Hp|]. split; [discriminate|].
  intros [|f]; [apply runs_fuel|]. destruct an as [a ty b]. cbn [extend_line]. cbn [an_type snd] in Hp.
  assert (forall m : M (list a_item * list Doc.node),
    runs m (fun x => fst x = rest /\ exists n, snd x = [n] /\ Is u n /\ plain_node n) ->
    runs (let* (rest', out) := m in let* (rest'', out') := extend_line slc f rest' in
          ret (rest'', match sp with Some r => [exact_space r] | None => [] end ++ out ++ out'))
      (fun x => fst x = [] /\ Line (space g ++ u :: us) (snd x))) as HM.
  { intros m Hm. eapply runs_bind; [exact Hm|]. intros [rest' out] [Er (n & Eo & Hn & Hpl)]. cbn [fst snd] in Er, Eo. subst rest' out.
    eapply runs_bind; [apply Hr|]. intros [rest'' out'] [E (H1 & H2)]. cbn [fst snd] in E, H1, H2. subst rest''.
    apply runs_ret. cbn [fst snd]. split; [reflexivity|]. destruct (gap_nodes g sp Hg) as (ns & -> & G1 & G2). split.
    - apply Forall2_app; [exact G1|]. constructor; [exact Hn|exact H1].
    - apply Forall_app. split; [exact G2|]. constructor; [exact Hpl|exact H2]. }
  destruct ty as [m|t|x|e]; try contradiction.
  - apply HM. specialize (Hb f). unfold build_one in Hb. cbn [an_type] in Hb. apply runs_unret in Hb.
    eapply runs_bind; [exact Hb|]. intros n (n' & E & H). injection E as <-. apply runs_ret. cbn [fst snd]. eauto.
  - specialize (Hb f). unfold build_one in Hb. cbn [an_type an_range] in Hb.
    destruct e as [c|bl|i|sp']; try contradiction; (apply HM; eapply runs_bind; [exact Hb|]; intros out Ho; apply runs_ret; cbn [fst snd]; auto).
Qed.

(** ** Items *)
Notation node fuel := (p_node alnum fuel).
Notation item fuel := (p_item (p_node alnum fuel)).

Lemma item_ends : forall fuel g s post P st, gap g -> (forall st, on st (s ++ post) -> ends (node fuel st) post P) ->
  stops not_newline_space (s ++ post) -> on st (g ++ s ++ post) ->
  ends (item fuel st) post (fun it => GapIs g (fst it) /\ P (snd it)).
Proof.
  intros fuel g s post P st Hg H Hp Hs. unfold p_item. destruct g as [|c g].
  - eapply ends_then; [apply ends_none; [|exact Hs]|].
    + revert Hs. apply mis_tok. now apply refuses_space.
    + cbn beta. intros x s1 O ->. eapply ends_then; [now apply H|]. cbn beta. intros n s2 O2 HP. apply ends_ret; [exact O2|]. split; [reflexivity|exact HP].
  - eapply ends_then; [apply ends_maybe; eapply ends_fwd; [apply fwd_tok|exact Hs]|].
    + apply takes_space; [discriminate|now apply gap_blanks|exact Hp].
    + cbn beta. intros x s1 O (r & -> & Hr). eapply ends_then; [now apply H|]. cbn beta. intros n s2 O2 HP. apply ends_ret; [exact O2|].
      cbn [fst snd]. split; [|exact HP]. split; [discriminate|exact Hr].
Qed.
Lemma ends_node : forall fuel st post (P : a_node -> Prop), (forall fuel', fuel = S fuel' -> ends (p_ntype alnum (node fuel') st) post (fun t => forall a b, P (ANode a t b))) ->
  ends (node fuel st) post P.
Proof.
  intros [|fuel] st post P H; [now left|]. cbn [p_node]. eapply ends_then; [now apply H|]. cbn beta. intros t s O HP. now apply ends_ret.
Qed.

(** Texts *)
Lemma after_text_quote : forall b p x, blanks b -> after_text p -> In x [39; 96] -> forall r, b ++ p <> x :: r.
Proof.
  intros b p x Hb Hp Hx r E. destruct Hb as [|d b [Hd _] Hb].
  - cbn [app] in E. subst p. destruct Hp as [[H|[[r' H]|[[r' H]|(d & r' & Hd & H)]]]|[[r' H]|[r' H]]]; try discriminate; injection H as -> _; cbn in *; lia.
  - injection E as -> _. cbn in Hx. destruct Hx as [<-|[<-|[]]]; discriminate.
Qed.
Lemma after_text_quotes : forall b p x, blanks b -> after_text p -> In x [34; 39; 96] -> forall r, b ++ p <> x :: x :: r.
Proof.
  intros b p x Hb Hp [<-|Hx] r E; [|now apply (after_text_quote b p x Hb Hp Hx (x :: r))].
  destruct Hb as [|d b [Hd _] Hb]; [|injection E as -> _; discriminate].
  cbn [app] in E. subst p. destruct Hp as [[H|[[r' H]|[[r' H]|(d & r' & Hd & H)]]]|[[r' H]|[r' H]]]; discriminate.
Qed.
Lemma text_multiline : forall s t b p, Text s t -> blanks b -> after_text p -> apart s (b ++ p) -> Forall (fun q => no_prefix q (s ++ b ++ p)) heads.
Proof.
  intros s t b p [Hw Hq] Hb Hp Ha. pose proof (words_ne _ _ Hw) as Hn.
  assert (forall q, In q [34; 39; 96] -> no_prefix [q; q; q] (s ++ b ++ p)) as H.
  { intros q Hi r E. destruct s as [|c1 [|c2 [|c3 s]]]; [now destruct Hn| | |].
    - injection E as -> E. now apply (after_text_quotes b p q Hb Hp Hi r).
    - injection E as -> -> E. destruct Hi as [<-|Hi]; [|now apply (after_text_quote b p q Hb Hp Hi r)].
      destruct (Ha [] r E) as [_ H]. apply H; [now left|reflexivity].
    - injection E as -> -> -> E. apply (Hq q); [cbn in *; tauto|]. now exists s. }
  unfold heads. apply Forall_cons; [apply (H 34); cbn; tauto|]. apply Forall_cons; [apply (H 39); cbn; tauto|].
  apply Forall_cons; [apply (H 96); cbn; tauto|]. apply Forall_nil.
Qed.
Lemma words_decodes : forall s t, Words s t -> Decodes true s t.
Proof.
  assert (forall g s t, blanks g -> Decodes true s t -> Decodes true (g ++ s) (g ++ t)) as HG.
  { intros g s t Hg H. induction Hg as [|c g [Hc _] Hg IH]; [exact H|]. cbn [app]. constructor; [|exact IH]. intros ->. discriminate. }
  assert (forall s t s' t', Decodes true s t -> Decodes true s' t' -> Decodes true (s ++ s') (t ++ t')) as HA.
  { intros s t s' t' H H'. induction H; [exact H'|now constructor|]. rewrite <- app_assoc. now constructor. }
  intros s t H. induction H as [s t Hn H|s t g s' t' Hn H Hg Hgap H' IH].
  - apply spelled_decodes with (2 := H). apply plain_92.
  - apply HA; [apply spelled_decodes with (2 := H); apply plain_92|]. now apply HG.
Qed.
Lemma text_ends : forall fuel s t b p st, Text s t -> blanks b -> after_text p -> apart s (b ++ p) -> on st (s ++ b ++ p) ->
  ends (node fuel st) (b ++ p) (NodeIs (WText t)).
Proof.
  intros fuel s t b p st Ht Hb Hp Ha Hs. apply ends_node. intros fuel' _. unfold p_ntype.
  apply ends_or_r; [apply misses_then; revert Hs; apply mis_multiline; now apply text_multiline with t|].
  apply ends_or_l. apply (ends_then _ _ _ _ (b ++ p) (fun x => exists r, x = ASegment r /\ SliceOf src r s)).
  - apply ends_or_l. eapply ends_then; [eapply ends_fwd; [apply fwd_tok|exact Hs]|].
    + apply takes_segment with t; [exact Hal|apply Ht|exact Hb|exact Hp].
    + cbn beta. intros r s1 O Hr. apply ends_ret; [exact O|]. eauto.
  - cbn beta. intros x s1 O (r & -> & Hr). apply ends_ret; [exact O|]. intros a e. split; [exact I|].
    intros f. unfold build_one. cbn [an_type build_inline_text]. destruct Ht as [Hw _].
    eapply runs_yields.
    + unfold build_text_node, escapable_slice. rewrite (slice_of _ _ _ Hr).
      rewrite (proj2 (escape_errors_nil s (r_start r)) (ex_intro _ _ (words_decodes _ _ Hw))).
      eapply yields_bind; [|apply yields_ret]. eapply yields_bind; [|apply yields_ret].
      eapply yields_bind; [apply yields_syntax|apply yields_ret].
    + eexists. split; [reflexivity|]. split; [now apply IsText with s|]. exact I.
Qed.
Lemma lt_text : forall r, refuses (x_text_segment alnum) (60 :: r).
Proof. intros r. apply refuses_seq_l, refuses_text_word; [exact Hal|]. right. left. eauto. Qed.
Lemma lt_heads : forall r, Forall (fun q => no_prefix q (60 :: r)) heads.
Proof. intros r. unfold heads. npfx. Qed.

(** Verbatim texts *)
Lemma tail_ends : forall h t post st, In h [[]; L "#"; L "##"] -> up_to (L "]" ++ h ++ L "]>") t ->
  on st (h ++ L "[" ++ t ++ L "]" ++ h ++ L "]>" ++ post) ->
  ends (p_tail st) post (fun x => forall o raw, exists r r', build_verbatim (mkAVerb o raw x) = NTxt r (TText (mkText (FromSource r') false false (is_none raw) false)) /\ SliceOf src r' t).
Proof.
  intros h t post st Hh Hu Hs.
  assert (takes (x_verbatim_tail h) (h ++ L "[" ++ t ++ L "]" ++ h ++ L "]>") post) as HT.
  { rewrite app_assoc. apply takes_seq; [apply takes_exactly|]. apply takes_lazy; [destruct h; discriminate|exact Hu]. }
  rewrite (app_assoc _ (L "]>")) in Hs. rewrite (app_assoc (L "]")) in Hs. rewrite (app_assoc t), (app_assoc (L "[")), (app_assoc h) in Hs.
  assert (forall r, SliceOf src r (h ++ L "[" ++ t ++ L "]" ++ h ++ L "]>") -> SliceOf src (inset r (blen h + 1) (blen h + 3)) t) as HI.
  { intros r Hr. rewrite app_assoc in Hr. apply slice_inset in Hr. rewrite !blen_app in Hr.
    change (blen (L "[")) with 1 in Hr. change (blen (L "]")) with 1 in Hr. change (blen (L "]>")) with 2 in Hr.
    now replace (1 + (blen h + 2)) with (blen h + 3) in Hr by lia. }
  unfold p_tail. cbn in Hh. destruct Hh as [<-|[<-|[<-|[]]]].
  - apply ends_or_l. eapply ends_then; [eapply ends_fwd; [apply fwd_tok; exact HT|exact Hs]|].
    cbn beta. intros r s O Hr. apply ends_ret; [exact O|]. intros o raw. eexists _, _. split; [reflexivity|]. exact (HI _ Hr).
  - apply ends_or_r; [apply misses_then; revert Hs; apply mis_tok, refuses_seq_l, refuses_exactly; now intros d r' [= <- _]|].
    apply ends_or_l. eapply ends_then; [eapply ends_fwd; [apply fwd_tok; exact HT|exact Hs]|].
    cbn beta. intros r s O Hr. apply ends_ret; [exact O|]. intros o raw. eexists _, _. split; [reflexivity|]. exact (HI _ Hr).
  - apply ends_or_r; [apply misses_then; revert Hs; apply mis_tok, refuses_seq_l, refuses_exactly; now intros d r' [= <- _]|].
    apply ends_or_r; [apply misses_then; revert Hs; apply mis_tok, refuses_seq_l, refuses_no_prefix; intros r' E; discriminate|].
    eapply ends_then; [eapply ends_fwd; [apply fwd_tok; exact HT|exact Hs]|].
    cbn beta. intros r s O Hr. apply ends_ret; [exact O|]. intros o raw. eexists _, _. split; [reflexivity|]. exact (HI _ Hr).
Qed.
Lemma verbatim_node : forall fuel st post u, (exists r, p_rest st = 60 :: r) -> on st (p_rest st) ->
  ends (p_verbatim st) post (fun v => Is u (build_verbatim v)) -> ends (node fuel st) post (NodeIs u).
Proof.
  intros fuel st post u [r Er] Hs H. rewrite Er in Hs. apply ends_node. intros fuel' _. unfold p_ntype.
  apply ends_or_r; [apply misses_then; revert Hs; apply mis_multiline, lt_heads|].
  apply ends_or_l. apply (ends_then _ _ _ _ post (fun x => exists v, x = AVerbatim v /\ Is u (build_verbatim v))).
  - apply ends_or_r; [apply misses_then; revert Hs; apply mis_tok, lt_text|]. apply ends_or_l.
    eapply ends_then; [exact H|]. cbn beta. intros v s1 O Hv. apply ends_ret; eauto.
  - cbn beta. intros x s1 O (v & -> & Hv). apply ends_ret; [exact O|]. intros a e. split; [exact I|].
    intros f. unfold build_one. cbn [an_type build_inline_text].
    eapply runs_yields; [eapply yields_bind; [apply yields_ret|apply yields_ret]|].
    eexists. split; [reflexivity|]. split; [exact Hv|]. unfold build_verbatim. destruct v as [o rw [r0|r0|r0]]; exact I.
Qed.
Lemma verbatim_ends : forall fuel h t post st, In h [[]; L "#"; L "##"] -> up_to (L "]" ++ h ++ L "]>") t ->
  on st (L "<[" ++ h ++ L "[" ++ t ++ L "]" ++ h ++ L "]>" ++ post) -> ends (node fuel st) post (NodeIs (WVerbatim t)).
Proof.
  intros fuel h t post st Hh Hu Hs. apply verbatim_node; [destruct Hs as [_ ->]; eexists; reflexivity|split; [apply Hs|reflexivity]|].
  unfold p_verbatim. eapply ends_then; [eapply ends_fwd; [apply fwd_text|exact Hs]|]. cbn beta. intros o s1 O _.
  eapply ends_then; [apply ends_none; [|exact O]|].
  - revert O. apply mis_text. intros c r E. cbn in Hh. destruct Hh as [<-|[<-|[<-|[]]]]; injection E as <- _; discriminate.
  - cbn beta. intros x s2 O2 ->. eapply ends_then; [now apply (tail_ends h t post)|]. cbn beta. intros v s3 O3 HV.
    apply ends_ret; [exact O3|]. destruct (HV o None) as (r & r' & -> & Hr). now apply IsVerbatim.
Qed.
Lemma raw_ends : forall fuel h t post st, In h [[]; L "#"; L "##"] -> up_to (L "]" ++ h ++ L "]>") t ->
  on st (L "<[raw" ++ h ++ L "[" ++ t ++ L "]" ++ h ++ L "]>" ++ post) -> ends (node fuel st) post (NodeIs (WMarkup t)).
Proof.
  intros fuel h t post st Hh Hu Hs. apply verbatim_node; [destruct Hs as [_ ->]; eexists; reflexivity|split; [apply Hs|reflexivity]|].
  change (L "<[raw") with (L "<[" ++ L "raw") in Hs. rewrite <- app_assoc in Hs.
  unfold p_verbatim. eapply ends_then; [eapply ends_fwd; [apply fwd_text|exact Hs]|]. cbn beta. intros o s1 O _.
  eapply ends_then; [apply ends_maybe; eapply ends_fwd; [apply fwd_text|exact O]|].
  cbn beta. intros x s2 O2 (raw & -> & _). eapply ends_then; [apply ends_taken; now apply (tail_ends h t post)|]. cbn beta. intros v s3 O3 HV.
  apply ends_ret; [exact O3|]. destruct (HV o (Some raw)) as (r & r' & -> & Hr). now apply IsMarkup.
Qed.
(** Interpolations *)
Lemma interpolation_ends : forall fuel o c t post st, In (o, c) [(L "<?", L "?>"); (L "<%", L "%>"); (L "{%", L "%}")] -> up_to c t ->
  on st (o ++ t ++ c ++ post) -> ends (node fuel st) post (NodeIs (WCode (o ++ t ++ c))).
Proof.
  intros fuel o c t post st Hin Hu Hs.
  assert (Forall (fun q => no_prefix q (o ++ t ++ c ++ post)) heads /\ refuses (x_text_segment alnum) (o ++ t ++ c ++ post) /\
    no_prefix (L "<[") (o ++ t ++ c ++ post) /\ no_prefix (L "<!") (o ++ t ++ c ++ post) /\
    takes x_interpolation (o ++ t ++ c) post) as (H1 & H2 & H3 & H4 & H5).
  { assert (takes (x_seq (x_exactly o) (x_lazy 0 (x_exactly c))) (o ++ t ++ c) post) as HT.
    { apply takes_seq; [apply takes_exactly|]. apply takes_lazy; [|exact Hu]. cbn in Hin. intuition (congruence || (injection H as <- <-; discriminate)). }
    assert (forall r, no_prefix (L "{{") ((o ++ t ++ c) ++ r)) as HB.
    { intros r. cbn in Hin. destruct Hin as [H|[H|[H|[]]]]; injection H as <- <-; npfx. }
    assert (forall x, refuses (x_seq (x_not_follows x)
        (x_seq (x_exactly (L "{{"))
        (x_seq (x_not_precedes (x_exactly (L "{")))
               (x_lazy 0 (x_seq (x_not_follows (mem (L "\}")))
                         (x_seq (x_exactly (L "}}")) (x_not_precedes (x_exactly (L "}"))))))))) ((o ++ t ++ c) ++ post)) as HF.
    { intros x back. set (y := x_seq (x_exactly (L "{{")) _). assert (refuses y ((o ++ t ++ c) ++ post)) as Hy.
      { now apply refuses_seq_l, refuses_no_prefix. }
      clearbody y. unfold x_seq, x_not_follows. destruct back as [|b back]; [|destruct (x b); [reflexivity|]]; cbn [rev_append]; now rewrite Hy. }
    cbn in Hin. destruct Hin as [H|[H|[H|[]]]]; injection H as <- <-; (split; [apply lt_heads || (unfold heads; npfx)|]).
    - split; [apply lt_text|]. split; [npfx|]. split; [npfx|]. apply takes_alt_r; [apply HF|].
      apply takes_alt_r; [apply refuses_seq_l, refuses_no_prefix; npfx|].
      apply takes_alt_r; [apply refuses_seq_l, refuses_no_prefix; npfx|exact HT].
    - split; [apply lt_text|]. split; [npfx|]. split; [npfx|]. apply takes_alt_r; [apply HF|].
      apply takes_alt_r; [apply refuses_seq_l, refuses_no_prefix; npfx|]. now apply takes_alt_l.
    - split; [apply refuses_seq_l, refuses_text_word; [exact Hal|]; right; right; eexists; reflexivity|]. split; [npfx|]. split; [npfx|].
      apply takes_alt_r; [apply HF|]. now apply takes_alt_l. }
  apply ends_node. intros fuel' _. unfold p_ntype.
  apply ends_or_r; [apply misses_then; revert Hs; now apply mis_multiline|].
  apply ends_or_l. apply (ends_then _ _ _ _ post (fun x => exists r, x = AInterpolation r /\ SliceOf src r (o ++ t ++ c))).
  - apply ends_or_r; [apply misses_then; revert Hs; now apply mis_tok|].
    apply ends_or_r; [apply misses_then; revert Hs; now apply mis_verbatim|].
    apply ends_or_r; [apply misses_then; revert Hs; now apply mis_comment|].
    rewrite (app_assoc t), (app_assoc o) in Hs.
    eapply ends_then; [eapply ends_fwd; [apply fwd_tok; exact H5|exact Hs]|]. cbn beta. intros r s1 O Hr. apply ends_ret; eauto.
  - cbn beta. intros x s1 O (r & -> & Hr). apply ends_ret; [exact O|]. intros a e. split; [exact I|].
    intros f. unfold build_one. cbn [an_type build_inline_text]. eapply runs_yields.
    + unfold build_text_node, escapable_slice. eapply yields_bind; [|apply yields_ret]. eapply yields_bind; [|apply yields_ret].
      eapply yields_bind; [apply yields_ret|apply yields_ret].
    + eexists. split; [reflexivity|]. split; [now apply IsCode|]. exact I.
Qed.

(** Comments *)
Lemma comment_ends : forall fuel t post st, Comment t -> on st (L "<!" ++ t ++ L "!>" ++ post) -> ends (node fuel st) post (NodeIs (WComment t)).
Proof.
  intros fuel t post st Ht Hs. apply ends_node. intros fuel' _. unfold p_ntype.
  apply ends_or_r; [apply misses_then; revert Hs; apply mis_multiline, lt_heads|].
  apply ends_or_l. apply (ends_then _ _ _ _ post (fun x => exists c, x = AComment c /\ ac_close c <> None /\ SliceOf src (ac_inner c) t)).
  - apply ends_or_r; [apply misses_then; revert Hs; apply mis_tok, lt_text|].
    apply ends_or_r; [apply misses_then; revert Hs; apply mis_verbatim; npfx|]. apply ends_or_l.
    eapply ends_then with (P := fun c => ac_close c <> None /\ SliceOf src (ac_inner c) t); [|cbn beta; intros c s1 O Hc; apply ends_ret; eauto].
    unfold p_comment. eapply ends_then; [eapply ends_fwd; [apply fwd_text|exact Hs]|]. cbn beta. intros o s1 O1 _.
    pose proof O1 as [HA E]. rewrite E. rewrite parts_comment; [|exact Ht|rewrite app_length; lia]. cbn zeta.
    assert (on (advance s1 t (L "!>" ++ post)) (L "!>" ++ post)) as O2 by now apply on_advance.
    eapply ends_then; [apply ends_maybe; eapply ends_fwd; [apply fwd_text|exact O2]|]. cbn beta. intros x s3 O3 (cl & -> & _).
    apply ends_ret; [exact O3|]. cbn [ac_close ac_inner]. split; [discriminate|]. eapply slice_between; [exact O1|exact O2].
  - cbn beta. intros x s1 O (c & -> & Hc & Hr). apply ends_ret; [exact O|]. intros a e. split; [exact I|].
    intros f. unfold build_one. cbn [an_type build_inline_text]. unfold build_comment. destruct (ac_close c); [|now destruct Hc]. eapply runs_yields.
    + eapply yields_bind; [|apply yields_ret]. eapply yields_bind; [apply yields_ret|apply yields_ret].
    + eexists. split; [reflexivity|]. split; [now apply IsComment|exact I].
Qed.

(** Elements that begin with a less sign *)
Lemma lt_element : forall fuel st r post (P : a_node -> Prop), on st (60 :: r) -> (forall c r', r = c :: r' -> ~ In c (L "[!%?")) ->
  (forall fuel', fuel = S fuel' -> ends (p_element (node fuel') st) post (fun e => forall a b, P (ANode a (ANElement e) b))) ->
  ends (node fuel st) post P.
Proof.
  intros fuel st r post P Hs Hr H. apply ends_node. intros fuel' E. unfold p_ntype.
  assert (forall c, In c (L "[!%?") -> no_prefix [60; c] (60 :: r)) as HN.
  { intros c Hc r' Er. injection Er as Er. apply (Hr c r' Er Hc). }
  apply ends_or_r; [apply misses_then; revert Hs; apply mis_multiline, lt_heads|].
  apply ends_or_r; [apply misses_then; revert Hs; apply mis_text_rule|].
  - apply lt_text.
  - apply HN. cbn. tauto.
  - apply HN. cbn. tauto.
  - apply refuses_interpolation; try npfx; apply HN; cbn; tauto.
  - apply ends_or_r; [apply misses_then; revert Hs; apply mis_selector; [now intros c r' [= <- _]|]|].
    + apply after_text_word; [now apply no_word_star|]. right. left. eauto.
    + eapply ends_then; [now apply H|]. cbn beta. intros e s1 O He. apply ends_ret; [exact O|]. intros a b. apply He.
Qed.
Lemma code_ends : forall fuel t post st, up_to (L "`>") t -> on st (L "<`" ++ t ++ L "`>" ++ post) ->
  ends (node fuel st) post (NodeIs (nested KOther (named tag MCode) [WVerbatim t])).
Proof.
  intros fuel t post st Hu Hs. eapply lt_element; [exact Hs|intros c r' [= <- _]; cbn; intuition discriminate|]. intros fuel' _.
  assert (forall k, misses (p_special_kind (node fuel') k st)) as HK.
  { intros k. revert Hs. apply mis_specials. destruct k; npfx. }
  rewrite (app_assoc t), (app_assoc (L "<`")) in Hs.
  apply ends_or_r; [apply misses_then; revert Hs; apply mis_prefix; npfx|].
  apply ends_or_r; [apply misses_then, misses_then; revert Hs; apply mis_prefix; npfx|].
  apply ends_or_r; [apply misses_then, misses_then; revert Hs; apply mis_prefix; npfx|].
  apply (ends_then _ _ _ _ post (fun x => exists r, x = ACode r /\ SliceOf src r (L "<`" ++ t ++ L "`>"))).
  - do 5 (apply ends_or_r; [apply HK|]). eapply ends_then; [eapply ends_fwd; [apply fwd_tok|exact Hs]|].
    + apply takes_seq; [apply takes_exactly|]. apply takes_lazy; [discriminate|exact Hu].
    + cbn beta. intros r s1 O Hr. apply ends_ret; eauto.
  - cbn beta. intros x s1 O (r & -> & Hr). apply ends_ret; [exact O|]. intros a b. split; [exact I|].
    apply slice_inset in Hr. change (blen (L "<`")) with 2 in Hr. change (blen (L "`>")) with 2 in Hr.
    intros [|[|f]]; try apply runs_fuel. eapply runs_yields.
    + unfold build_one. cbn [an_type build_element build_special]. unfold build_text_node, escapable_slice.
      eapply yields_bind; [|apply yields_ret]. eapply yields_bind; [|apply yields_ret]. eapply yields_bind; [|apply yields_ret].
      eapply yields_bind; [apply yields_ret|apply yields_ret].
    + eexists. split; [reflexivity|]. split; [|exact I]. apply (IsSpecial Code); try reflexivity.
      constructor; [now apply IsVerbatim|constructor].
Qed.

(** ** Lines *)
Lemma validate_plain : forall ns last, Forall plain_node ns -> match last with None => True | Some (lt, _) => stands_alone lt = false end ->
  yields (validate_from last ns) tt.
Proof.
  induction ns as [|n ns IH]; intros last H Hl; [apply yields_ret|]. inversion H as [|? ? Hn H']; subst. cbn [validate_from].
  assert (stands_alone (item_type_of n) = false) as Hs.
  { destruct n as [r e|r [t|c|s]]; cbn in *; try reflexivity. destruct (e_type e); try contradiction; reflexivity. }
  assert (yields ((match last with
           | None => ret tt
           | Some (lt, lr) =>
               if stands_alone lt then misplaced lr (MustNotPrecede lt [item_type_of n])
               else if stands_alone (item_type_of n) then misplaced (n_range n) (MustNotFollow [lt] (item_type_of n))
               else ret tt
           end) ;* validate_from (Some (item_type_of n, n_range n)) ns) tt) as HY.
  { eapply yields_bind; [|apply IH; [exact H'|exact Hs]]. destruct last as [[lt lr]|]; [|apply yields_ret]. rewrite Hl, Hs. apply yields_ret. }
  destruct (item_type_of n); try exact HY; now apply IH.
Qed.
Lemma find_plain : forall ns, Forall plain_node ns -> starts_with_element ns = false.
Proof.
  intros ns H. unfold starts_with_element. destruct (find is_visible ns) as [n|] eqn:E; [|reflexivity].
  apply find_some in E as [E _]. rewrite Forall_forall in H. specialize (H n E). destruct n as [r e|r t]; [|reflexivity].
  cbn in H. destruct (e_type e); try contradiction; reflexivity.
Qed.
Lemma inline_first_plain : forall range ns, Forall plain_node ns -> inline_first range ns = None.
Proof.
  intros range ns H. induction H as [|n ns Hn H IH]; [reflexivity|]. cbn [inline_first]. rewrite IH.
  destruct (is_visible n); [|reflexivity]. destruct n as [r e|r t]; [|reflexivity]. cbn in Hn. destruct (e_type e); try contradiction; reflexivity.
Qed.
Lemma line_ends : forall fuel s b q L st, Reads (item fuel) s (b ++ q) L -> blanks b -> closing q -> on (skip_space st) (s ++ b ++ q) ->
  ends (p_line (node fuel) st) q (fun l => L (ln_nodes l)).
Proof.
  intros fuel s b q L st H Hb Hq Hs. unfold p_line. eapply ends_then; [eapply ends_vec; [exact H|exact Hs]|]. cbn beta zeta.
  intros l s1 O HL. apply ends_ret; [|exact HL]. apply (on_skip_space src b); [exact Hb|now apply closing_space|exact O].
Qed.

(** ** Rows: the items of a line, or a text of several lines *)
Definition appendable (n : Doc.node) : Prop :=
  match n with NElt _ e => match e_type e with Standard (DLine _) | Paragraph => True | _ => False end | _ => False end.
Definition RowIs (code : bool) (us : list written) (ns : list Doc.node) : Prop :=
  Forall2 Is us ns /\ yields (validate_line ns) tt /\ (forall range, inline_first range ns = None) /\
  (code = false -> starts_with_element ns = false) /\ Forall (fun n => ~ appendable n) ns.
Definition follower (t : a_ntype) : Prop :=
  match t with ANSelector _ | ANElement (ALineElt _) | ANElement (ABlockElt _) => False | _ => True end.
Definition RowAre (code : bool) (us : list written) (items : list a_item) : Prop :=
  match items with [] => True | i :: _ => follower (an_type (snd i)) end /\ (us <> [] -> items <> []) /\
  forall f, runs (build_line slc f items) (fun x => fst x = [] /\ RowIs code us (snd x)).

Lemma items_row : forall code us items, ItemsAre us items -> RowAre code us items.
Proof.
  intros code us items (Hh & Hn & H). split; [|split; [exact Hn|]].
  { destruct items as [|i items]; [exact I|]. cbn in Hh. destruct (an_type (snd i)) as [| | |[]]; try contradiction; exact I. }
  intros [|f]; [apply runs_fuel|]. cbn [build_line]. eapply runs_bind; [apply H|].
  intros [rest out] [E [H1 H2]]. cbn [fst snd] in E, H1, H2. subst rest.
  assert (yields (validate_line out) tt) as HV by now apply validate_plain. eapply runs_bind.
  - apply (runs_yields _ _ tt (fun _ => True)); [exact HV|exact I].
  - intros _ _. apply runs_ret. cbn [fst snd]. split; [reflexivity|]. split; [exact H1|]. split; [exact HV|].
    split; [intros range; now apply inline_first_plain|]. split; [intros _; now apply find_plain|].
    eapply Forall_impl; [|exact H2]. intros [r e|r t] Hp; cbn in *; [|auto]. destruct (e_type e); auto.
Qed.
Definition MultiIs (code : bool) (u : written) (an : a_node) : Prop := exists a m b, an = ANode a (ANMultiline m) b /\
  (code = false -> am_kind m <> MLCode) /\
  forall range, runs (build_multiline slc range m) (fun n => exists e, n = elt_node e /\ Is u n /\ e_type e = Multiline (am_kind m)).
Lemma multi_row : forall code g sp u an, GapIs g sp -> MultiIs code u an -> RowAre code (space g ++ [u]) [(sp, an)].
Proof.
  intros code g sp u an Hg (a & m & b & -> & Hc & H). split; [exact I|]. split; [discriminate|].
  intros [|[|f]]; try apply runs_fuel. cbn [build_line extend_line].
  eapply runs_bind with (P := fun x => fst x = [] /\ exists e ns, snd x = ns ++ [elt_node e] /\ Forall2 Is (space g) ns /\ Forall plain_node ns /\
    match sp with Some r => [exact_space r] | None => [] end = ns /\ Is u (elt_node e) /\ e_type e = Multiline (am_kind m)).
  - eapply runs_bind with (P := fun x => fst x = [] /\ exists e, snd x = [elt_node e] /\ Is u (elt_node e) /\ e_type e = Multiline (am_kind m)).
    + eapply runs_bind; [apply H|]. cbn beta. intros n (e & -> & Hn & He). apply runs_ret. cbn [fst snd]. eauto.
    + intros [rest out] [E (e & Eo & Hn & He)]. cbn [fst snd] in E, Eo. subst rest out. destruct f as [|f]; [apply runs_fuel|]. cbn [extend_line].
      eapply runs_bind; [apply runs_ret; exact (eq_refl ([], []))|]. intros v <-. apply runs_ret. cbn [fst snd]. split; [reflexivity|].
      destruct (gap_nodes g sp Hg) as (ns & E & G1 & G2). rewrite E. exists e, ns. cbn [app]. auto 8.
  - intros [rest out] [E (e & ns & Eo & G1 & G2 & Ens & Hn & He)]. cbn [fst snd] in E, Eo. subst rest out.
    assert (item_type_of (elt_node e) = ITMultiline) as Hit by (cbn; now rewrite He).
    assert (yields (validate_line (ns ++ [elt_node e])) tt) as HV.
    { unfold validate_line. destruct sp; subst ns; cbn [app validate_from exact_space item_type_of]; rewrite Hit;
      (eapply yields_bind; [apply yields_ret|apply yields_ret]). }
    eapply runs_bind; [apply (runs_yields _ _ tt (fun _ => True)); [exact HV|exact I]|]. intros _ _. apply runs_ret. cbn [fst snd].
    split; [reflexivity|]. split; [apply Forall2_app; [exact G1|constructor; [exact Hn|constructor]]|]. split; [exact HV|]. split; [|split].
    + intros range. destruct sp; subst ns; cbn [app inline_first exact_space is_visible elt_node]; rewrite He; reflexivity.
    + intros Hf. specialize (Hc Hf). unfold starts_with_element.
      destruct sp; subst ns; cbn [app find exact_space is_visible elt_node]; rewrite He; destruct (am_kind m); congruence || reflexivity.
    + apply Forall_app. split; [|constructor; [cbn; rewrite He; auto|constructor]].
      eapply Forall_impl; [|exact G2]. intros [r e'|r t] Hp; cbn in *; [|auto]. destruct (e_type e'); auto.
Qed.

(** Texts of several lines *)
Definition MlIs (k : ml_kind) (outs : list str) (m : a_multiline) : Prop := am_kind m = k /\ join_lines outs <> [] /\
  exists body, SliceOf src (mkR (am_start m) (am_end m)) body /\ Split outs (trim_multiline body) /\
    forall ts, Forall2 (Spelled (fun c => c <> 92)) outs ts -> exists t, Decodes true body t.
Lemma quote_in : forall k, In (multiline_quote k) quotes.
Proof. intros []; cbn; tauto. Qed.
Lemma kind_ends : forall k s outs post st, Body (multiline_quote k) s outs -> (forall x r, multiline_quote k = [x; x; x] -> post <> x :: r) ->
  on st (s ++ post) -> ends (p_multiline_kind k st) post (MlIs k outs).
Proof.
  intros k s outs post st H Hp Hs. destruct H as [info ls l0 l0' indent outs Hi Hl Hg Hc Hu Hj]. unfold p_multiline_kind. cbn zeta.
  set (q := multiline_quote k) in *.
  assert (on st ((q ++ info) ++ body_text ls l0 indent ++ q ++ post)) as Hs0.
  { unfold body_text. rewrite <- !app_assoc in *. cbn [app] in *. rewrite <- !app_assoc in *. exact Hs. }
  eapply ends_then; [eapply ends_fwd; [apply fwd_tok|exact Hs0]|]; [unfold body_text; cbn [app]; now apply takes_open|].
  cbn beta. intros o s1 O1 _.
  eapply ends_then; [eapply ends_fwd; [apply fwd_tok|exact O1]|]; [apply takes_body; [apply quote_in|exact Hl|exact Hg]|].
  cbn beta. intros b s2 O2 _.
  eapply ends_then; [apply ends_taken; eapply ends_fwd; [apply fwd_tok|exact O2]|]; [apply takes_close; [apply quote_in|intros r x E; now apply Hp]|].
  cbn beta. intros c s3 O3 _. apply ends_ret; [exact O3|]. split; [reflexivity|]. split; [exact Hj|].
  exists (body_text ls l0 indent). cbn [am_start am_end]. split; [eapply slice_between; [exact O1|exact O2]|]. split.
  - eapply trim_body; [|exact Hg|exact Hc|exact Hu]. eapply Forall_impl; [|exact Hl]. intros l [Hn _]. exact Hn.
  - intros ts Ht. eapply body_decodes; eassumption.
Qed.
Lemma body_first : forall k s outs post, Body (multiline_quote k) s outs -> exists r, s ++ post = multiline_quote k ++ r.
Proof. intros k s outs post [info ls l0 l0' indent outs' _ _ _ _ _ _]. eexists. rewrite <- app_assoc. reflexivity. Qed.
Lemma multiline_ends : forall k s outs post st, Body (multiline_quote k) s outs -> (forall x r, multiline_quote k = [x; x; x] -> post <> x :: r) ->
  on st (s ++ post) -> ends (p_multiline st) post (MlIs k outs).
Proof.
  intros k s outs post st H Hp Hs. pose proof (kind_ends k s outs post st H Hp Hs) as HE. destruct (body_first k s outs post H) as [r E].
  assert (forall k', k' <> k -> misses (p_multiline_kind k' st)) as HK.
  { intros k' Hk. apply misses_then. revert Hs. rewrite E. apply mis_tok, refuses_seq_l, refuses_no_prefix. intros r' Er. destruct k, k'; try discriminate; congruence. }
  unfold p_multiline. destruct k; repeat first [apply ends_or_l; exact HE | exact HE | apply ends_or_r; [apply HK; discriminate|]].
Qed.
Lemma ml_build : forall k outs m range ts, MlIs k outs m -> (if match k with MLEscaped => true | _ => false end then Forall2 (Spelled (fun c => c <> 92)) outs ts else ts = outs) ->
  runs (build_multiline slc range m) (fun n => exists e, n = elt_node e /\ e_type e = Multiline k /\ e_selectors e = [] /\ e_raw e = false /\
    Forall2 Is [WLines (join_lines ts) (ends_blank (join_lines outs))] (e_nodes e)).
Proof.
  intros k outs m range ts (Ek & Hj & body & Hb & Hsp & Hd) Ht. unfold build_multiline. rewrite Ek. cbn zeta.
  set (inner := mkR (am_start m) (am_end m)) in *. set (esc := match k with MLEscaped => true | MLUnescaped | MLCode => false end) in *.
  assert (trim_multiline body <> []) as Hne.
  { intros E. pose proof (split_concat _ _ Hsp) as Ec. rewrite E in Ec. apply Hj. now rewrite <- Ec. }
  assert (LinesOf esc body (join_lines ts) (ends_blank (join_lines outs))) as HL.
  { split; [exact Hne|]. split; [intros d; now apply split_blank|]. destruct k; subst esc; cbn iota in Ht.
    - destruct (split_spelled _ _ Hsp ts Ht) as (ds & H1 & H2). exists ds. auto.
    - subst ts. exists (trim_multiline body). split; [now apply split_concat|reflexivity].
    - subst ts. exists (trim_multiline body). split; [now apply split_concat|reflexivity]. }
  eapply runs_bind with (P := fun n => n = NTxt inner (TText (mkText (FromSource inner) true esc true false))).
  - unfold build_text_node, escapable_slice. eapply runs_yields; [|reflexivity]. eapply yields_bind; [|apply yields_ret].
    eapply yields_bind; [|apply yields_ret]. destruct k; subst esc; cbn iota; try apply yields_ret. rewrite (slice_of _ _ _ Hb).
    destruct (Hd ts Ht) as [t HD]. rewrite (proj2 (escape_errors_nil body (r_start inner)) (ex_intro _ _ HD)). apply yields_syntax.
  - intros n ->. apply runs_ret. eexists. split; [reflexivity|]. cbn. repeat (split; [reflexivity|]). constructor; [|constructor]. now apply IsLines with body.
Qed.
Lemma multi_ends : forall fuel code s u post st, Multi tag code s u -> (forall x r, In x [34; 39; 96] -> (x = 34 -> exists a, s = a ++ [34; 34; 34]) -> post <> x :: r) ->
  on st (s ++ post) -> ends (node fuel st) post (MultiIs code u).
Proof.
  intros fuel code s u post st H Hp Hs.
  assert (forall k outs, Body (multiline_quote k) s outs -> (forall m, MlIs k outs m -> forall a b, MultiIs code u (ANode a (ANMultiline m) b)) ->
    ends (node fuel st) post (MultiIs code u)) as HK.
  { intros k outs HB HM. apply ends_node. intros fuel' _. unfold p_ntype. apply ends_or_l.
    eapply ends_then; [apply (multiline_ends k s outs); [exact HB| |exact Hs]|].
    - intros x r E. apply Hp.
      + destruct (quotes_char _ (quote_in k)) as (y & E' & Hy). rewrite E in E'. injection E' as <-. exact Hy.
      + intros ->. destruct HB as [info ls l0 l0' indent outs' _ _ _ _ _ _]. exists ([34; 34; 34] ++ info ++ [10] ++ join_lines (ls ++ [l0]) ++ [10] ++ indent).
        rewrite E. now rewrite <- !app_assoc.
    - cbn beta. intros m s1 O Hm. apply ends_ret; [exact O|]. intros a b. now apply HM. }
  destruct H as [code s ls ts HB Ht|code s ls HB|s ls HB].
  - apply (HK MLEscaped ls HB). intros m Hm a b. exists a, m, b. split; [reflexivity|]. split; [destruct Hm as [-> _]; discriminate|].
    intros range. eapply runs_impl; [apply (ml_build MLEscaped ls m range ts Hm Ht)|]. cbn beta. intros n (e & -> & E1 & E2 & E3 & E4). exists e.
    split; [reflexivity|]. destruct Hm as [-> _]. split; [|exact E1]. match type of E4 with Forall2 _ ?us _ => pose proof (IsElt [] us (e_range e) e) as HI end. rewrite E1, E2 in HI. cbn in HI. unfold elt_node. apply HI; auto.
  - apply (HK MLUnescaped ls HB). intros m Hm a b. exists a, m, b. split; [reflexivity|]. split; [destruct Hm as [-> _]; discriminate|].
    intros range. eapply runs_impl; [apply (ml_build MLUnescaped ls m range ls Hm eq_refl)|]. cbn beta. intros n (e & -> & E1 & E2 & E3 & E4). exists e.
    split; [reflexivity|]. destruct Hm as [-> _]. split; [|exact E1]. match type of E4 with Forall2 _ ?us _ => pose proof (IsElt [] us (e_range e) e) as HI end. rewrite E1, E2 in HI. cbn in HI. unfold elt_node. apply HI; auto.
  - apply (HK MLCode ls HB). intros m Hm a b. exists a, m, b. split; [reflexivity|]. split; [discriminate|].
    intros range. eapply runs_impl; [apply (ml_build MLCode ls m range ls Hm eq_refl)|]. cbn beta. intros n (e & -> & E1 & E2 & E3 & E4). exists e.
    split; [reflexivity|]. destruct Hm as [-> _]. split; [|exact E1]. now apply IsCodeBlock.
Qed.

(** Special elements *)
Lemma special_kinds : forall o c m, In (o, c, m) special -> exists k, o = special_open k /\ c = special_close k /\ m = mark_of (special_kind_of k).
Proof.
  intros o c m H. cbn in H. destruct H as [H|[H|[H|[H|[H|[]]]]]]; injection H as <- <- <-;
    [exists AEmphasis|exists AStrong|exists AUnderline|exists AStrike|exists AQuote]; auto.
Qed.
Lemma special_closing : forall k r, closing (special_close k ++ r).
Proof. intros k r. right. right. right. destruct k; eexists _, r; (split; [|reflexivity]); cbn; tauto. Qed.
Lemma solid_stops : forall s r, solid s -> stops is_whitespace (s ++ r).
Proof. intros s r (c & s' & -> & H). now apply stops_cons. Qed.
Lemma stops_space : forall r, stops is_whitespace r -> stops not_newline_space r.
Proof. intros r H c r' E. specialize (H c r' E). destruct (not_newline_space c) eqn:N; [|reflexivity]. apply space_ws in N. congruence. Qed.
Lemma on_skip_none : forall f st r, stops f r -> on st r -> on (skip f st) r.
Proof. intros f st r H Hs. apply (on_skip src f []); [constructor|exact H|exact Hs]. Qed.
(** ** Selectors and greater signs *)
Definition comb (it : a_item) : Prop := exists sp a c b, it = (sp, ANode a (ANElement (ALineElt c)) b).
Definition sels (l : label) (it : a_item) : Prop := exists sp a x b, it = (sp, ANode a (ANSelector x) b) /\ SelectorIs src x l.
(** The boolean: the first one is a greater sign. *)
Definition arrow (s : str) : bool := match s with c :: _ => c =? 62 | [] => false end.
Inductive StepItems : bool -> label -> list a_item -> Prop :=
| SiSel : forall l i j, sels l i -> comb j -> StepItems false l [i; j]
| SiNone : forall j, comb j -> StepItems true (None, []) [j].
Inductive PathItems : bool -> list label -> list a_item -> Prop :=
| PiOne : forall a l its, StepItems a l its -> PathItems a [l] its
| PiMore : forall a l its a' path its', StepItems a l its -> PathItems a' path its' -> PathItems a (l :: path) (its ++ its').

Lemma refuses_selector_text : forall m p, Forall word_plain m -> ends_alnum m \/ m = L "*" -> chain_end p -> refuses (x_text_segment alnum) (m ++ p).
Proof.
  intros m p Hm Hl Hp. apply refuses_seq_l.
  assert (forall q, chain_end q -> refuses (x_not_precedes x_post_selector_chain) q) as HN.
  { intros q Hq. destruct (takes_post_chain q Hq) as (m' & r & -> & HT). now apply refuses_not_precedes. }
  assert (refuses (x_word_item alnum) p) as Hr by (apply chain_end_word; [now apply no_word_alnum|exact Hp]).
  destruct Hl as [(r & c & -> & Hc)| ->].
  - apply refuses_seq_r; [|now apply HN]. apply takes_many1; [now destruct r|]. apply Forall_app in Hm as [Hm _].
    induction Hm as [|x r Hx Hm IH].
    + apply (RuCons _ _ [c]); [discriminate| |now constructor]. apply (takes_word_alnum alnum); [exact Hal|auto|exact Hc].
    + apply (RuCons _ _ [x]); [discriminate| |exact IH]. apply takes_word_char; [exact Hx|].
      destruct r as [|y r]; cbn [app]; apply not_gt_plain; left; [now apply alnum_plain|now inversion Hm].
  - destruct Hp as [([|x g] & q & -> & Hg & Hq)|[r ->]].
    + destruct Hq as [[r ->]|(r & -> & Hq)]; cbn [app].
      * apply refuses_seq_l, refuses_many1, refuses_word_gt; [|discriminate]. rewrite (proj1 Hal); reflexivity.
      * change (42 :: 123 :: r) with (L "*" ++ 123 :: r). apply refuses_seq_r; [|apply HN; left; exists [], (123 :: r); repeat split; [constructor|]; right; eauto].
        apply takes_many1; [discriminate|]. apply (RuCons _ _ [42] []); [discriminate| |now constructor].
        apply takes_word_char; [now inversion Hm|]. now intros d r' [= <- _].
    + apply refuses_seq_r; [|apply HN; left; exists (x :: g), q; auto].
      apply takes_many1; [discriminate|]. apply (RuCons _ _ [42] []); [discriminate| |now constructor].
      apply takes_word_char; [now inversion Hm|]. intros d r' [= <- _]. inversion Hg as [|? ? Hx]; subst. cbn in Hx. intuition (subst; discriminate).
    + apply refuses_seq_r; [|apply HN; right; eauto].
      apply takes_many1; [discriminate|]. apply (RuCons _ _ [42] []); [discriminate| |now constructor].
      apply takes_word_char; [now inversion Hm|]. now intros d r' [= <- _].
Qed.
Lemma ends_alnum_app : forall a b, ends_alnum b -> ends_alnum (a ++ b).
Proof. intros a b (r & c & -> & H). exists (a ++ r), c. now rewrite <- app_assoc. Qed.
Lemma marks_alnum : forall s ids classes, Marks s ids classes -> s <> [] -> ends_alnum s.
Proof.
  intros s ids classes H. induction H as [|c s ids classes Hc He H IH|c s ids classes Hc He H IH]; intros Hn; [now destruct Hn| |];
  apply ends_alnum_app; (destruct s as [|x s]; [rewrite app_nil_r; exact He|apply ends_alnum_app; now apply IH]).
Qed.
Lemma selector_text : forall s l post, Selector s l -> sel_post post -> refuses (x_text_segment alnum) (s ++ post).
Proof.
  intros s l post [tg name mk ids classes al l' Ht Hm Ha Hn] Hp. rewrite (app_assoc tg), <- app_assoc.
  assert (chain_end (al ++ post)) as Hc.
  { destruct Ha; [now left|]. right. rewrite <- app_assoc. eexists. reflexivity. }
  assert (tg ++ mk <> [] \/ tg ++ mk = []) as [E|E] by (destruct (tg ++ mk); [now right|now left]).
  - apply refuses_selector_text; [apply Forall_app; eauto using tag_plain, marks_plain| |exact Hc].
    destruct mk as [|c mk]; [|left; eapply ends_alnum_app, marks_alnum; [exact Hm|discriminate]].
    rewrite app_nil_r in *. destruct Ht as [n H He Hd| |]; [now left|now right|now destruct E].
  - rewrite E. cbn [app]. apply app_eq_nil in E as [-> ->]. destruct Ha as [|w s0 l' w' Hw H Hw']; [now destruct Hn|].
    rewrite <- app_assoc. apply refuses_seq_l, refuses_seq_l, refuses_many1, refuses_word; [reflexivity| |discriminate].
    apply (no_word_alnum alnum Hal). cbn. tauto.
Qed.
Lemma selector_head : forall s l, Selector s l -> exists c r, s = c :: r /\ is_whitespace c = false /\ ~ In c (L "<{}'`>" ++ [34]).
Proof.
  intros s l [tg name mk ids classes al l' Ht Hm Ha Hn]. destruct Ht as [n H He Hd| |].
  - destruct n as [|c n]; [now apply last_ne in He|]. inversion H as [|? ? Hc]; subst. exists c. eexists. split; [reflexivity|].
    split; [now apply name_char_plain in Hc as [_ Hc]|]. intros Hin. cbn in Hin. unfold name_char, ascii_alnum, one_of in Hc. cbn in Hc. lia.
  - exists 42. eexists. split; [reflexivity|]. split; [reflexivity|]. cbn. lia.
  - cbn [app] in *. destruct Hm as [|c s0 ids classes Hc He H|c s0 ids classes Hc He H].
    + cbn [app] in *. destruct Ha as [|w s1 l0 w' Hw H Hw']; [now destruct Hn|]. exists 91. eexists. split; [reflexivity|]. split; [reflexivity|]. cbn. lia.
    + exists 46. eexists. split; [reflexivity|]. split; [reflexivity|]. cbn. lia.
    + exists 35. eexists. split; [reflexivity|]. split; [reflexivity|]. cbn. lia.
Qed.
Lemma selector_ends : forall fuel s l post st, Selector s l -> sel_post post -> on st (s ++ post) ->
  ends (node fuel st) post (fun n => exists a x b, n = ANode a (ANSelector x) b /\ SelectorIs src x l).
Proof.
  intros fuel s l post st H Hp Hs. apply ends_node. intros fuel' _. unfold p_ntype.
  assert (forall t d t', t = d :: t' -> In d (L "<{}'`>" ++ [34]) -> no_prefix t (s ++ post)) as HN.
  { intros t d t' -> Hd. destruct (selector_head _ _ H) as (c & r & -> & _ & Hc). cbn [app]. apply no_prefix_head. intros <-. contradiction. }
  apply ends_or_r; [apply misses_then; revert Hs; apply mis_multiline; unfold heads; repeat constructor; (eapply HN; [reflexivity|]; cbn; tauto)|].
  apply ends_or_r; [apply misses_then; revert Hs; apply mis_text_rule|].
  - now apply selector_text with l.
  - eapply HN; [reflexivity|]; cbn; tauto.
  - eapply HN; [reflexivity|]; cbn; tauto.
  - apply refuses_interpolation; (eapply HN; [reflexivity|]; cbn; tauto).
  - apply ends_or_l. eapply ends_then; [eapply ends_fwd; [apply selector_fwd; [exact Hal|exact H|exact Hp]|exact Hs]|].
    cbn beta. intros x s1 O Hx. apply ends_ret; eauto 6.
Qed.
Lemma comb_ends : forall fuel post st, on st (L ">" ++ post) ->
  ends (node fuel st) post (fun n => exists a c b, n = ANode a (ANElement (ALineElt c)) b).
Proof.
  intros fuel post st Hs. apply ends_node. intros fuel' _. unfold p_ntype.
  assert (forall f, no_word f -> refuses (x_word_item f) (L ">" ++ post)) as HW.
  { intros f Hf. apply refuses_word; [reflexivity|apply Hf; cbn; tauto|discriminate]. }
  apply ends_or_r; [apply misses_then; revert Hs; apply mis_multiline; unfold heads; npfx|].
  apply ends_or_r; [apply misses_then; revert Hs; apply mis_text_rule|].
  - apply refuses_seq_l, refuses_seq_l, refuses_many1, HW. now apply no_word_alnum.
  - npfx.
  - npfx.
  - apply refuses_interpolation; npfx.
  - apply ends_or_r; [apply misses_then; revert Hs; apply mis_selector; [now intros d r [= <- _]|apply HW; now apply no_word_star]|].
    eapply ends_then with (P := fun x => exists c, x = ALineElt c).
    + apply ends_or_l. eapply ends_then; [eapply ends_fwd; [apply fwd_text|exact Hs]|]. cbn beta. intros c s1 O _. apply ends_ret; eauto.
    + cbn beta. intros x s1 O (c & ->). apply ends_ret; eauto.
Qed.
Lemma step_solid : forall s l, Step s l -> solid s.
Proof.
  intros s l [s' l' g H Hg|].
  - destruct (selector_head _ _ H) as (c & r & -> & Hc & _). exists c, (r ++ g ++ L ">"). auto.
  - exists 62, []. auto.
Qed.
Lemma path_solid : forall s l, Path s l -> solid s.
Proof.
  intros s l [s' l' H|s' l' g s'' path H Hg H']; [now apply step_solid in H|]. apply step_solid in H as (c & r & -> & Hc). exists c, (r ++ g ++ s''). auto.
Qed.
Definition gap_first (g : str) (x : list a_item) : Prop := match x with it :: _ => GapIs g (fst it) | [] => False end.
Lemma comb_item : forall fuel g post st, gap g -> on st (g ++ L ">" ++ post) -> ends (item fuel st) post (fun it => GapIs g (fst it) /\ comb it).
Proof.
  intros fuel g post st Hg Hs. eapply ends_impl; [apply (item_ends fuel g (L ">") post _ st Hg (comb_ends fuel post))|].
  - now apply stops_cons.
  - exact Hs.
  - cbn beta. intros [sp n] [HG (a & c & b & E)]. cbn [fst snd] in *. subst n. split; [exact HG|]. exists sp, a, c, b. reflexivity.
Qed.
Lemma selector_item : forall fuel g s l post st, gap g -> Selector s l -> sel_post post -> on st (g ++ s ++ post) ->
  ends (item fuel st) post (fun it => GapIs g (fst it) /\ sels l it).
Proof.
  intros fuel g s l post st Hg H Hp Hs.
  eapply ends_impl; [apply (item_ends fuel g s post _ st Hg (fun st => selector_ends fuel s l post st H Hp))|].
  - destruct (selector_head _ _ H) as (c & r & -> & Hc & _). now apply stops_space, stops_cons.
  - exact Hs.
  - cbn beta. intros [sp n] [HG (a & x & b & E & Hx)]. cbn [fst snd] in *. subst n. split; [exact HG|]. exists sp, a, x, b. auto.
Qed.
Lemma arrow_selector : forall s l r, Selector s l -> arrow (s ++ r) = false.
Proof. intros s l r H. destruct (selector_head s l H) as (c & r' & -> & _ & Hc). cbn. apply N.eqb_neq. intros ->. apply Hc. cbn. tauto. Qed.
Lemma arrow_solid : forall s r, solid s -> arrow (s ++ r) = arrow s.
Proof. now intros s r (c & r' & -> & _). Qed.
Lemma step_reads : forall fuel g s l m post Q, gap g -> Step s l -> Reads (item fuel) m post Q ->
  Reads (item fuel) (g ++ s ++ m) post (fun x => gap_first g x /\ exists its rest, x = its ++ rest /\ StepItems (arrow s) l its /\ Q rest).
Proof.
  intros fuel g s l m post Q Hg H HR. destruct H as [s l g' H Hg'|].
  - assert (HR1 : Reads (item fuel) (g' ++ L ">" ++ m) post (fun x => exists j rest, x = j :: rest /\ comb j /\ Q rest)).
    { rewrite app_assoc. apply reads_cons; [|exact HR]. intros st Hs. rewrite <- app_assoc in Hs.
      eapply ends_impl; [apply (comb_item fuel g' (m ++ post) st Hg' Hs)|]. cbn beta. tauto. }
    rewrite <- !app_assoc, (app_assoc g). eapply reads_impl; [apply reads_cons with (P := fun it => GapIs g (fst it) /\ sels l it); [|exact HR1]|].
    + intros st Hs. rewrite <- !app_assoc in Hs. rewrite <- !app_assoc. apply selector_item with s; [exact Hg|exact H| |exact Hs].
      exists g', (L ">" ++ m ++ post). repeat split; [exact Hg'|left; eexists; reflexivity].
    + cbn beta. intros x (i & x' & -> & (HG & Hi) & j & rest & -> & Hj & HQ). split; [exact HG|]. exists [i; j], rest. split; [reflexivity|]. split; [rewrite (arrow_selector s l _ H); now constructor|exact HQ].
  - rewrite app_assoc. eapply reads_impl; [apply reads_cons with (P := fun it => GapIs g (fst it) /\ comb it); [|exact HR]|].
    + intros st Hs. rewrite <- app_assoc in Hs. now apply comb_item.
    + cbn beta. intros x (j & rest & -> & (HG & Hj) & HQ). split; [exact HG|]. exists [j], rest. split; [reflexivity|]. split; [now constructor|exact HQ].
Qed.
Lemma path_reads : forall fuel s path, Path s path -> forall g m post Q, gap g -> Reads (item fuel) m post Q ->
  Reads (item fuel) (g ++ s ++ m) post (fun x => gap_first g x /\ exists its rest, x = its ++ rest /\ PathItems (arrow s) path its /\ Q rest).
Proof.
  intros fuel s path H. induction H as [s l H|s l g' s' path H Hg' H' IH]; intros g m post Q Hg HR.
  - eapply reads_impl; [apply step_reads; eassumption|]. cbn beta. intros x (HG & its & rest & -> & Hi & HQ). split; [exact HG|]. exists its, rest. split; [reflexivity|]. split; [now constructor|exact HQ].
  - rewrite <- !app_assoc. eapply reads_impl; [apply step_reads; [exact Hg|exact H|apply IH; [exact Hg'|exact HR]]|].
    cbn beta. intros x (HG & its & x' & -> & Hi & _ & its' & rest & -> & Hi' & HQ). split; [exact HG|]. exists (its ++ its'), rest. split; [now rewrite <- app_assoc|].
    split; [|exact HQ]. rewrite (arrow_solid s) by now apply step_solid in H. econstructor; eassumption.
Qed.

(** The element they make *)
Definition LineElt (path : list label) (us : list written) (x : list a_item * list Doc.node) : Prop :=
  fst x = [] /\ exists e, snd x = [elt_node e] /\ (exists c, e_type e = Standard (DLine c)) /\
    Forall2 (Sel src) (e_selectors e) path /\ e_raw e = false /\ RowIs true us (e_nodes e).
Lemma sel_empty_is : forall n, Sel src (sel_empty n) (None, []).
Proof. intros n. split; [reflexivity|constructor]. Qed.
Lemma post_child_plain : forall f prefix items us ss path last, RowAre true us items -> Forall2 (Sel src) ss path ->
  runs (post_child slc f prefix items ss last) (LineElt path us).
Proof.
  intros [|f] prefix items us ss path last H Hss; [apply runs_fuel|].
  assert (runs (let* (rest, children) := build_line slc f items in
    let range := match rev children with n :: _ => combine prefix (n_range n) | [] => prefix end in
    ret (rest, [elt_node (mkElt range ss (mkR (r_end prefix) (r_end range)) children (Standard (DLine last)) false false)])) (LineElt path us)) as HF.
  { eapply runs_bind; [apply H|]. intros [rest ch] [E HL]. cbn [fst snd] in E, HL. subst rest.
    apply runs_ret. split; [reflexivity|]. eexists. cbn [snd]. split; [reflexivity|]. cbn. split; [eexists; reflexivity|]. auto. }
  destruct items as [|[sp [a ty b]] items]; [exact HF|]. destruct H as [Hh _]. cbn in Hh.
  destruct ty as [m|t|x|e]; try exact HF; [contradiction|]. destruct e as [c|bl|i|s']; try exact HF; contradiction.
Qed.
Lemma step_child : forall a l its, StepItems a l its -> forall (Q : list a_item * list Doc.node -> Prop) rest ss,
  (forall f prefix s last, Sel src s l -> runs (post_child slc f prefix rest (ss ++ [s]) last) Q) ->
  forall f prefix last, runs (post_child slc f prefix (its ++ rest) ss last) Q.
Proof.
  intros a0 l its H Q rest ss HQ f prefix last. destruct f as [|f]; [apply runs_fuel|].
  destruct H as [l i j (sp & a & x & b & -> & s & Hy & Hsel) (sp' & a' & c & b' & ->)|j (sp' & a' & c & b' & ->)].
  - cbn [app post_child]. eapply runs_bind; [eapply runs_yields; [exact Hy|exact (eq_refl s)]|]. intros s' <-.
    destruct f as [|f]; [apply runs_fuel|]. cbn [post_selector]. now apply HQ.
  - cbn [app post_child]. apply HQ. apply sel_empty_is.
Qed.
Lemma post_child_path : forall a path its, PathItems a path its -> forall f prefix items us ss path0 last, RowAre true us items -> Forall2 (Sel src) ss path0 ->
  runs (post_child slc f prefix (its ++ items) ss last) (LineElt (path0 ++ path) us).
Proof.
  intros a path its H. induction H as [a l its H|a l its a' path its' H H' IH]; intros f prefix items us ss path0 last Hi Hss.
  - eapply step_child; [exact H|]. intros f' prefix' s last' Hs. apply post_child_plain; [exact Hi|]. apply Forall2_app; [exact Hss|]. constructor; [exact Hs|constructor].
  - rewrite <- app_assoc. eapply step_child; [exact H|]. intros f' prefix' s last' Hs.
    replace (path0 ++ l :: path) with ((path0 ++ [l]) ++ path) by now rewrite <- app_assoc.
    apply IH; [exact Hi|]. apply Forall2_app; [exact Hss|]. constructor; [exact Hs|constructor].
Qed.
Definition no_gap (its : list a_item) : Prop := match its with (None, _) :: _ => True | _ => False end.
Lemma gap_first_nil : forall x, gap_first [] x -> no_gap x.
Proof. intros [|[[r|] n] x] H; cbn in *; [exact H|now destruct H|exact I]. Qed.
Lemma validate_one : forall n, yields (validate_line [n]) tt.
Proof.
  intros n. unfold validate_line. cbn [validate_from]. destruct (item_type_of n); first [apply yields_ret|eapply yields_bind; [apply yields_ret|apply yields_ret]].
Qed.
Definition alone (Q : list a_item * list Doc.node -> Prop) : Prop := forall x, Q x -> fst x = [] /\ exists n, snd x = [n].
Lemma line_alone : forall Q items f, alone Q -> (forall f, runs (extend_line slc f items) Q) -> runs (build_line slc f items) Q.
Proof.
  intros Q items [|f] HA H; [apply runs_fuel|]. cbn [build_line]. eapply runs_bind; [apply H|]. intros [rest out] HQ.
  destruct (HA _ HQ) as (E & n & E'). cbn [fst snd] in *. subst. eapply runs_bind with (P := fun _ => True); [|intros _ _; now apply runs_ret].
  eapply runs_yields; [apply validate_one|exact I].
Qed.
Lemma first_alone : forall (Q : list a_item * list Doc.node -> Prop) f (m : M (list a_item * list Doc.node)), alone Q -> runs m Q ->
  runs (let* (rest', out) := m in let* (rest'', out') := extend_line slc f rest' in ret (rest'', [] ++ out ++ out')) Q.
Proof.
  intros Q f m HA H. eapply runs_bind; [exact H|]. intros [rest out] HQ. destruct (HA _ HQ) as (E & n & E'). cbn [fst snd] in *. subst.
  destruct f as [|f]; [apply runs_fuel|]. cbn [extend_line]. eapply runs_bind; [apply runs_ret; exact (eq_refl ([], []))|].
  intros v <-. now apply runs_ret.
Qed.
Lemma step_line : forall a l its, StepItems a l its -> forall (Q : list a_item * list Doc.node -> Prop) rest, alone Q -> no_gap (its ++ rest) ->
  (forall f prefix s last, Sel src s l -> runs (post_child slc f prefix rest [s] last) Q) -> forall f, runs (extend_line slc f (its ++ rest)) Q.
Proof.
  intros a0 l its H Q rest HA Hg HQ [|f]; [apply runs_fuel|].
  destruct H as [l i j (sp & a & x & b & -> & s & Hy & Hsel) (sp' & a' & c & b' & ->)|j (sp' & a' & c & b' & ->)].
  - destruct sp; [contradiction|]. cbn [app extend_line]. apply first_alone; [exact HA|].
    eapply runs_bind; [eapply runs_yields; [exact Hy|exact (eq_refl s)]|]. intros s' <-.
    destruct f as [|f]; [apply runs_fuel|]. cbn [post_selector]. now apply HQ.
  - destruct sp'; [contradiction|]. cbn [app extend_line]. eapply runs_bind; [apply HQ, sel_empty_is|].
    intros [rest' out] HP. now apply runs_ret.
Qed.
Lemma line_elt_alone : forall path us, alone (LineElt path us).
Proof. intros path us x (E & e & E' & _). eauto. Qed.
Lemma path_line : forall a path its items us, PathItems a path its -> no_gap (its ++ items) -> RowAre true us items ->
  forall f, runs (extend_line slc f (its ++ items)) (LineElt path us).
Proof.
  intros a path its items us H Hg Hi f.
  destruct H as [a l its H|a l its a' path its' H H'].
  - eapply step_line; [exact H|apply line_elt_alone|exact Hg|]. intros f' prefix s last Hs. apply post_child_plain; [exact Hi|]. constructor; [exact Hs|constructor].
  - rewrite <- app_assoc in Hg |- *. eapply step_line; [exact H|apply line_elt_alone|exact Hg|]. intros f' prefix s last Hs.
    apply (post_child_path a' path its' H' f' prefix items us [s] [l]); [exact Hi|]. constructor; [exact Hs|constructor].
Qed.

(** ** Inline elements *)
Lemma ws_split : forall w, ws w -> exists b q, w = b ++ q /\ blanks b /\ (q = [] \/ exists r, q = 10 :: r).
Proof.
  intros w H. induction H as [|c w Hc H IH]; [exists [], []; repeat split; [constructor|now left]|].
  destruct IH as (b & q & -> & Hb & Hq). destruct (N.eq_dec c 10) as [->|Hn].
  - exists [], (10 :: b ++ q). repeat split; [constructor|right; eauto].
  - exists (c :: b), q. repeat split; [constructor; [now split|exact Hb]|exact Hq].
Qed.
Lemma inline_ends : forall fuel w m w' post st u (Q : list a_item -> Prop), ws w -> ws w' -> m = [] \/ solid m ->
  (forall fuel b p, blanks b -> closing p -> (forall r, p <> 34 :: r) -> Reads (item fuel) m (b ++ p) Q) ->
  (forall its, Q its -> forall f, runs (build_line slc f its) (fun x => forall range,
     yields (validate_line (snd x)) tt /\
     forall inner, exists n, match inline_first range (snd x) with Some l => l | None => [elt_node (with_content (new_elt range (Inline None)) inner (snd x))] end = [n] /\
       Is u n /\ plain_node n)) ->
  on st (L "<(" ++ w ++ m ++ w' ++ L ")>" ++ post) -> ends (node fuel st) post (NodeIs u).
Proof.
  intros fuel w m w' post st u Q Hw Hw' Hm HR HB Hs.
  assert (stops is_whitespace (L ")>" ++ post)) as Hc by now apply stops_cons.
  eapply lt_element; [exact Hs|intros x r' [= <- _]; cbn; lia|]. intros fuel' _.
  apply ends_or_r; [apply misses_then; revert Hs; apply mis_prefix; npfx|].
  apply ends_or_r; [apply misses_then, misses_then; revert Hs; apply mis_prefix; npfx|]. apply ends_or_l.
  eapply ends_then with (post := post) (P := fun i => Q (in_inner i) /\ in_close i <> None).
  - unfold p_inline. eapply ends_then; [eapply ends_fwd; [apply fwd_text|exact Hs]|]. cbn beta. intros o s1 O1 _.
    assert (exists w2, ws w2 /\ ends (vec (item fuel') (skip_ws s1)) (w2 ++ L ")>" ++ post) Q) as (w2 & Hw2 & HE).
    { destruct Hm as [->|Hm].
      - exists []. split; [constructor|]. eapply ends_vec; [apply (HR fuel' []); [constructor| |discriminate]|].
        + right. right. right. exists 41, post. split; [cbn; tauto|reflexivity].
        + cbn [app]. apply (on_skip_ws src (w ++ w')); [apply Forall_app; auto|exact Hc|]. rewrite <- app_assoc. exact O1.
      - exists w'. split; [exact Hw'|]. destruct (ws_split w' Hw') as (b & q & -> & Hb & Hq). rewrite <- app_assoc.
        eapply ends_vec; [apply HR; [exact Hb| |]|].
        + destruct Hq as [->|[r ->]]; [right; right; right; exists 41, post; split; [cbn; tauto|reflexivity]|right; right; left; eexists; reflexivity].
        + destruct Hq as [->|[r ->]]; discriminate.
        + apply (on_skip_ws src w); [exact Hw|now apply solid_stops|]. rewrite <- app_assoc in O1. exact O1. }
    eapply ends_then; [exact HE|]. cbn beta zeta. intros its s2 O2 HQ.
    assert (on (skip_ws s2) (L ")>" ++ post)) as O3 by (apply (on_skip_ws src w2); assumption).
    eapply ends_then; [apply ends_maybe; eapply ends_fwd; [apply fwd_text|exact O3]|]. cbn beta. intros x s4 O4 (cl & -> & _).
    apply ends_ret; [exact O4|]. cbn. split; [exact HQ|discriminate].
  - cbn beta. intros [o its [cl|]] s1 O [HQ Hcl]; [|now destruct Hcl]. apply ends_ret; [exact O|]. intros a b. split; [exact I|].
    intros [|[|f]]; try apply runs_fuel. unfold build_one. cbn [an_type an_range build_element build_inline in_open in_close in_inner].
    eapply runs_bind with (P := fun _ => True); [now apply runs_ret|]. intros _ _. cbn in HQ.
    eapply runs_bind; [apply HB; exact HQ|]. cbn beta. intros [rest line] Hl. cbn [snd] in Hl.
    eapply runs_bind with (P := fun _ => True); [eapply runs_yields; [apply (Hl (mkR a b))|exact I]|]. intros _ _. apply runs_ret. apply Hl.
Qed.
Lemma inline_plain_ends : forall fuel w m w' us post st, ws w -> ws w' -> m = [] \/ solid m ->
  (forall fuel b p, blanks b -> closing p -> (forall r, p <> 34 :: r) -> Reads (item fuel) m (b ++ p) (RowAre true us)) ->
  on st (L "<(" ++ w ++ m ++ w' ++ L ")>" ++ post) -> ends (node fuel st) post (NodeIs (WElt KLine (None, []) us)).
Proof.
  intros fuel w m w' us post st Hw Hw' Hm HR Hs. eapply inline_ends; [exact Hw|exact Hw'|exact Hm|exact HR| |exact Hs].
  intros its (_ & _ & H) f. eapply runs_impl; [apply H|]. cbn beta. intros x (E & H1 & H2 & H3 & _) range. split; [exact H2|].
  intros inner. rewrite H3. eexists. split; [reflexivity|]. split; [|exact I].
  match goal with |- Is _ (elt_node ?e) => apply (IsElt [] us (e_range e) e) end; cbn; auto.
Qed.
Lemma inline_path_ends : forall fuel w pa path m w' us post st, ws w -> ws w' -> Path pa path ->
  (forall fuel b p, blanks b -> closing p -> (forall r, p <> 34 :: r) -> Reads (item fuel) m (b ++ p) (RowAre true us)) ->
  on st (L "<(" ++ w ++ pa ++ m ++ w' ++ L ")>" ++ post) -> ends (node fuel st) post (NodeIs (nested KLine path us)).
Proof.
  intros fuel w pa path m w' us post st Hw Hw' Hp HR Hs. rewrite (app_assoc pa) in Hs.
  eapply inline_ends; [exact Hw|exact Hw'| | | |exact Hs].
  - right. destruct (path_solid _ _ Hp) as (c & r & -> & Hc). exists c, (r ++ m). auto.
  - intros fuel' b p Hb Hcl Hq. apply (path_reads fuel' pa path Hp [] m (b ++ p) (RowAre true us)); [constructor|now apply HR].
  - cbn beta. intros its (HG & pre & rest & -> & HP & HI) f. eapply runs_impl; [apply line_alone; [apply line_elt_alone|eapply path_line; [exact HP|now apply gap_first_nil|exact HI]]|].
    intros [rest' out] (E1 & e & E2 & (c & Et) & Hsel & Hraw & H1) range. cbn [fst snd] in *. subst. split; [apply validate_one|].
    intros inner. cbn [inline_first elt_node is_visible]. rewrite Et. eexists. split; [reflexivity|]. split; [|exact I].
    match goal with |- Is _ (NElt ?r ?e) => apply (IsElt path us r e) end; cbn; auto. apply H1.
Qed.

(** ** Blocks *)
Inductive HeadItems : bool -> list label -> list a_item -> Prop :=
| HiOne : forall l i, sels l i -> HeadItems false [l] [i]
| HiMore : forall a l its a' path its', StepItems a l its -> HeadItems a' path its' -> HeadItems a (l :: path) (its ++ its').
Lemma head_reads : forall fuel h path, Head h path -> path <> [] -> forall g m post Q, gap g -> sel_end (m ++ post) ->
  (forall g', gap g' -> Reads (item fuel) (g' ++ m) post Q) ->
  Reads (item fuel) (g ++ h ++ m) post (fun x => gap_first g x /\ exists its rest, x = its ++ rest /\ HeadItems (arrow h) path its /\ Q rest).
Proof.
  intros fuel h path H. induction H as [|s l g' H Hg'|s l g' s' l' path H Hg' H' IH]; intros Hne g m post Q Hg Hm HR; [now destruct Hne| |].
  - rewrite <- app_assoc, (app_assoc g). eapply reads_impl; [apply reads_cons with (P := fun it => GapIs g (fst it) /\ sels l it); [|now apply HR]|].
    + intros st Hs. rewrite <- !app_assoc in *. apply selector_item with s; [exact Hg|exact H| |exact Hs].
      exists g', (m ++ post). auto.
    + cbn beta. intros x (i & rest & -> & (HG & Hi) & HQ). split; [exact HG|]. exists [i], rest. split; [reflexivity|]. split; [rewrite (arrow_selector s l _ H); now constructor|exact HQ].
  - rewrite <- !app_assoc. eapply reads_impl; [apply step_reads; [exact Hg|exact H|apply IH; [discriminate|exact Hg'|exact Hm|exact HR]]|].
    cbn beta. intros x (HG & its & x' & -> & Hi & _ & its' & rest & -> & Hi' & HQ). split; [exact HG|]. exists (its ++ its'), rest. split; [now rewrite <- app_assoc|].
    split; [|exact HQ]. rewrite (arrow_solid s) by now apply step_solid in H. econstructor; eassumption.
Qed.
Definition ContentIs (para : bool) (us : list written) (ct : a_content) : Prop := forall f, runs (build_content slc f ct para) (Forall2 Is us).
Definition BlockIs (para : bool) (us : list written) (bl : a_block) : Prop := forall f range,
  runs (build_block slc f range bl para) (fun e => e_type e = Standard (DBlock range) /\ e_raw e = false /\ e_selectors e = [] /\ Forall2 Is us (e_nodes e)).
Definition BlockIn (line : bool) (path : list label) (us : list written) (e : Doc.element) : Prop :=
  exists d, e_type e = Standard d /\
    match d with DBlock _ => line = false | DLineBlock _ _ => line = true | _ => False end /\
    Forall2 (Sel src) (e_selectors e) path /\ e_raw e = false /\ Forall2 Is us (e_nodes e).
Definition BlockElt (rest : list a_item) (line : bool) (path : list label) (us : list written) (x : list a_item * list Doc.node) : Prop :=
  fst x = rest /\ exists e, snd x = [elt_node e] /\ BlockIn line path us e.
(** An element, and what follows it in its line *)
Definition Then (E : Doc.element -> Prop) (us' : list written) (x : list a_item * list Doc.node) : Prop :=
  fst x = [] /\ exists e ns, snd x = elt_node e :: ns /\ E e /\ Line us' ns.
Definition blk (para : bool) (us : list written) (it : a_item) : Prop := exists sp a bl b, it = (sp, ANode a (ANElement (ABlockElt bl)) b) /\ BlockIs para us bl.
Lemma then_alone : forall E, alone (Then E []).
Proof. intros E x (H1 & e & ns & H2 & _ & HL & _). inversion HL; subst. eauto. Qed.
Definition Tail (us : list written) (items : list a_item) : Prop := forall f, runs (extend_line slc f items) (fun x => fst x = [] /\ Line us (snd x)).
Lemma tail_nil : Tail [] [].
Proof. destruct items_nil as (_ & _ & H). exact H. Qed.
Lemma block_then : forall rest us' line path us f (m : M (list a_item * list Doc.node)), Tail us' rest -> runs m (BlockElt rest line path us) ->
  runs (let* (rest', out) := m in let* (rest'', out') := extend_line slc f rest' in ret (rest'', [] ++ out ++ out')) (Then (BlockIn line path us) us').
Proof.
  intros rest us' line path us f m HR H. eapply runs_bind; [exact H|]. intros [rest' out] (E1 & e & E2 & HB). cbn [fst snd] in *. subst.
  eapply runs_bind; [apply HR|]. intros [rest'' out'] [E HL]. cbn [fst snd] in *. subst. apply runs_ret. split; [reflexivity|]. exists e, out'. auto.
Qed.
Lemma post_selector_block : forall us it f prefix ss path last rest, blk true us it -> Forall2 (Sel src) ss path ->
  runs (post_selector slc f prefix (it :: rest) ss last) (BlockElt rest false path us).
Proof.
  intros us it [|f] prefix ss path last rest (sp & a & bl & b & -> & H) Hs; [apply runs_fuel|]. cbn [post_selector].
  eapply runs_bind; [apply H|]. cbn beta. intros e (E1 & E2 & E3 & E4). apply runs_ret. split; [reflexivity|]. eexists. cbn [snd]. split; [reflexivity|].
  eexists. cbn. rewrite E1. split; [reflexivity|]. auto.
Qed.
Lemma post_child_head : forall a path its, HeadItems a path its -> forall us it f prefix ss path0 last rest, blk true us it -> Forall2 (Sel src) ss path0 ->
  runs (post_child slc f prefix (its ++ it :: rest) ss last) (BlockElt rest false (path0 ++ path) us).
Proof.
  intros a0 path its H. induction H as [l i H|a0 l its a' path its' H H' IH]; intros us it f prefix ss path0 last rest Hb Hss.
  - destruct H as (sp & a & x & b & -> & s & Hy & Hsel). destruct f as [|f]; [apply runs_fuel|]. cbn [app post_child].
    eapply runs_bind; [eapply runs_yields; [exact Hy|exact (eq_refl s)]|]. intros s' <-. apply post_selector_block; [exact Hb|].
    apply Forall2_app; [exact Hss|]. constructor; [exact Hsel|constructor].
  - rewrite <- app_assoc. eapply step_child; [exact H|]. intros f' prefix' s last' Hs.
    replace (path0 ++ l :: path) with ((path0 ++ [l]) ++ path) by now rewrite <- app_assoc.
    apply IH; [exact Hb|]. apply Forall2_app; [exact Hss|]. constructor; [exact Hs|constructor].
Qed.
Lemma post_child_block : forall us it f prefix ss path last rest, blk false us it -> Forall2 (Sel src) ss path ->
  runs (post_child slc f prefix (it :: rest) ss last) (BlockElt rest true path us).
Proof.
  intros us it [|f] prefix ss path last rest (sp & a & bl & b & -> & H) Hs; [apply runs_fuel|]. cbn [post_child].
  eapply runs_bind; [apply H|]. cbn beta. intros e (E1 & E2 & E3 & E4). apply runs_ret. split; [reflexivity|]. eexists. cbn [snd]. split; [reflexivity|].
  eexists. cbn. split; [reflexivity|]. auto.
Qed.
Lemma post_child_arrow : forall a path its, PathItems a path its -> forall us it f prefix ss path0 last rest, blk false us it -> Forall2 (Sel src) ss path0 ->
  runs (post_child slc f prefix (its ++ it :: rest) ss last) (BlockElt rest true (path0 ++ path) us).
Proof.
  intros a path its H. induction H as [a l its H|a l its a' path its' H H' IH]; intros us it f prefix ss path0 last rest Hb Hss.
  - eapply step_child; [exact H|]. intros f' prefix' s last' Hs. apply post_child_block; [exact Hb|]. apply Forall2_app; [exact Hss|]. constructor; [exact Hs|constructor].
  - rewrite <- app_assoc. eapply step_child; [exact H|]. intros f' prefix' s last' Hs.
    replace (path0 ++ l :: path) with ((path0 ++ [l]) ++ path) by now rewrite <- app_assoc.
    apply IH; [exact Hb|]. apply Forall2_app; [exact Hss|]. constructor; [exact Hs|constructor].
Qed.
Lemma step_block : forall a l its, StepItems a l its -> forall line path us us' more rest, Tail us' rest -> (a = true -> us' = [] /\ rest = []) -> no_gap (its ++ more) ->
  (forall f prefix s last, Sel src s l -> runs (post_child slc f prefix more [s] last) (BlockElt rest line path us)) ->
  forall f, runs (extend_line slc f (its ++ more)) (Then (BlockIn line path us) us').
Proof.
  intros a0 l its H line path us us' more rest HR Ha Hg HQ [|f]; [apply runs_fuel|].
  destruct H as [l i j (sp & a & x & b & -> & s & Hy & Hsel) (sp' & a' & c & b' & ->)|j (sp' & a' & c & b' & ->)].
  - destruct sp; [contradiction|]. cbn [app extend_line]. apply block_then with rest; [exact HR|].
    eapply runs_bind; [eapply runs_yields; [exact Hy|exact (eq_refl s)]|]. intros s' <-.
    destruct f as [|f]; [apply runs_fuel|]. cbn [post_selector]. now apply HQ.
  - destruct sp'; [contradiction|]. cbn [app extend_line]. eapply runs_bind; [apply HQ, sel_empty_is|].
    intros [rest' out] (E & e & Eo & HB). destruct (Ha eq_refl) as [-> ->]. cbn [fst snd] in *. subst. apply runs_ret. split; [reflexivity|]. exists e, []. cbn. repeat split; auto; constructor.
Qed.
Definition BlockItems (a line : bool) (path : list label) (us : list written) (x : list a_item) : Prop :=
  x <> [] /\ (no_gap x -> forall us' rest, Tail us' rest -> (a = true -> us' = [] /\ rest = []) ->
    forall f, runs (extend_line slc f (x ++ rest)) (Then (BlockIn line path us) us')).
Lemma no_gap_app : forall x y, no_gap x -> no_gap (x ++ y).
Proof. now intros [|[[|] n] x] y. Qed.
Lemma head_line : forall a path its us it, HeadItems a path its -> blk true us it -> BlockItems a false path us (its ++ [it]).
Proof.
  intros a path its us it H Hb. split; [now destruct its|]. intros Hg us' rest HR Ha f. apply (no_gap_app _ rest) in Hg. rewrite <- app_assoc in Hg |- *. cbn [app] in *.
  destruct H as [l i H|a l its a' path its' H H'].
  - destruct f as [|f]; [apply runs_fuel|]. destruct H as (sp & a & x & b & -> & s & Hy & Hsel). destruct sp; [contradiction|]. cbn [app extend_line].
    apply block_then with rest; [exact HR|]. eapply runs_bind; [eapply runs_yields; [exact Hy|exact (eq_refl s)]|]. intros s' <-.
    apply post_selector_block; [exact Hb|]. constructor; [exact Hsel|constructor].
  - rewrite <- app_assoc in Hg |- *. eapply step_block; [exact H|exact HR|exact Ha|exact Hg|]. intros f' prefix s last Hs.
    apply (post_child_head a' path its' H' us it f' prefix [s] [l]); [exact Hb|]. constructor; [exact Hs|constructor].
Qed.
Lemma arrow_line : forall a path its us it, PathItems a path its -> blk false us it -> BlockItems a true path us (its ++ [it]).
Proof.
  intros a path its us it H Hb. split; [now destruct its|]. intros Hg us' rest HR Ha f. apply (no_gap_app _ rest) in Hg. rewrite <- app_assoc in Hg |- *. cbn [app] in *.
  destruct H as [a l its H|a l its a' path its' H H'].
  - eapply step_block; [exact H|exact HR|exact Ha|exact Hg|]. intros f' prefix s last Hs. apply post_child_block; [exact Hb|]. constructor; [exact Hs|constructor].
  - rewrite <- app_assoc in Hg |- *. eapply step_block; [exact H|exact HR|exact Ha|exact Hg|]. intros f' prefix s last Hs.
    apply (post_child_arrow a' path its' H' us it f' prefix [s] [l]); [exact Hb|]. constructor; [exact Hs|constructor].
Qed.
Lemma block_line : forall us it, blk true us it -> BlockItems false false [] us [it].
Proof.
  intros us it (sp & a & bl & b & -> & H). split; [discriminate|]. intros Hg us' rest HR _ [|f]; [apply runs_fuel|]. destruct sp; [contradiction|].
  cbn [app extend_line]. apply block_then with rest; [exact HR|]. destruct f as [|f]; [apply runs_fuel|]. cbn [build_element].
  eapply runs_bind with (P := fun out => BlockElt rest false [] us (rest, out)); [|intros out Ho; now apply runs_ret].
  eapply runs_bind; [apply H|]. cbn beta. intros e (E1 & E2 & E3 & E4). apply runs_ret. split; [reflexivity|]. exists e. cbn [snd]. split; [reflexivity|].
  eexists. rewrite E1, E3. split; [reflexivity|]. auto.
Qed.
Lemma inline_block_ends : forall fuel w m w' a line path us post st, ws w -> ws w' -> solid m ->
  (forall fuel b p, blanks b -> closing p -> Reads (item fuel) m (b ++ p) (fun x => gap_first [] x /\ BlockItems a line path us x)) ->
  on st (L "<(" ++ w ++ m ++ w' ++ L ")>" ++ post) -> ends (node fuel st) post (NodeIs (nested (if line then KLine else KOther) path us)).
Proof.
  intros fuel w m w' a line path us post st Hw Hw' Hm HR Hs.
  eapply inline_ends; [exact Hw|exact Hw'|right; exact Hm|intros fuel' b p Hb Hp _; now apply HR| |exact Hs].
  cbn beta. intros its [HG [_ H]] f. apply gap_first_nil in HG. eapply runs_impl; [apply line_alone with (Q := Then (BlockIn line path us) []); [apply then_alone|]|].
  - intros f'. rewrite <- (app_nil_r its). apply H; [exact HG|apply tail_nil|auto].
  - intros [rest' out] (E1 & e & ns & E2 & (d & Et & Hd & Hsel & Hraw & H1) & HL & _) range. cbn [fst snd] in *. inversion HL; subst. split; [apply validate_one|].
    intros inner. cbn [inline_first elt_node is_visible]. rewrite Et. eexists. split; [reflexivity|]. split; [|exact I].
    replace (if line then KLine else KOther) with (kind_of (Inline (Some d))) by (destruct d; try contradiction; subst line; reflexivity).
    match goal with |- Is _ (NElt ?r ?e) => apply (IsElt path us r e) end; cbn; auto.
Qed.

(** ** Comments around an element *)
Definition silent (n : Doc.node) : Prop := is_visible n = false /\ ~ appendable n.
Lemma line_silent : forall us ns, Line us ns -> some_shown us = false -> Forall silent ns.
Proof.
  intros us ns [H Hp] Hs. rewrite <- (are_shown _ _ H) in Hs. clear H. induction Hp as [|n ns Hn Hp IH]; [constructor|]. cbn [existsb] in Hs. apply orb_false_elim in Hs as [H1 H2].
  constructor; [|now apply IH]. split; [exact H1|]. destruct n as [r e|r t]; cbn in *; [discriminate|auto].
Qed.
Lemma silent_type : forall n, silent n -> item_type_of n = ITComment \/ item_type_of n = ITSpace.
Proof. intros [r e|r [t|c|s]] [H _]; cbn in *; try discriminate; auto. Qed.
Lemma validate_silent : forall a last b, Forall silent a -> validate_from last (a ++ b) = validate_from last b.
Proof. intros a last b H. induction H as [|n a Hn H IH]; [reflexivity|]. cbn [app validate_from]. now destruct (silent_type n Hn) as [-> | ->]. Qed.
Lemma validate_around : forall a n b, Forall silent a -> Forall silent b -> yields (validate_line (a ++ n :: b)) tt.
Proof.
  intros a n b Ha Hb. unfold validate_line. rewrite (validate_silent a None _ Ha). cbn [validate_from].
  assert (forall last, yields (validate_from last b) tt) as HB.
  { intros last. rewrite <- (app_nil_r b), (validate_silent b last [] Hb). apply yields_ret. }
  destruct (item_type_of n); first [apply HB|eapply yields_bind; [apply yields_ret|apply HB]].
Qed.
Lemma find_around : forall a e b, Forall silent a -> starts_with_element (a ++ elt_node e :: b) = starts_with_element [elt_node e].
Proof. intros a e b H. unfold starts_with_element. induction H as [|n a [Hn _] H IH]; [reflexivity|]. cbn [app find]. now rewrite Hn. Qed.
Lemma comments_shown : forall s us, Comments s us -> some_shown us = false.
Proof. intros s us H. induction H as [|g t s us Hg Ht H IH]; [reflexivity|]. destruct g; cbn; exact IH. Qed.
Lemma margin_shown : forall s us, Margin s us -> some_shown us = false.
Proof. intros s us [|s' us' g Hs Hc Hg]; [reflexivity|]. unfold some_shown. rewrite existsb_app. apply comments_shown in Hc. unfold some_shown in Hc. rewrite Hc. now destruct g. Qed.
(** [x] is [z] with something before it *)
Definition Ahead (us : list written) (x z : list a_item) : Prop := forall R, (forall f, runs (extend_line slc f z) R) ->
  forall f, runs (extend_line slc f x) (fun y => exists ns y', y = (fst y', ns ++ snd y') /\ Line us ns /\ R y').
Lemma ahead_nil : forall z, Ahead [] z z.
Proof. intros z R H f. eapply runs_impl; [apply H|]. intros [a b] HR. exists [], (a, b). repeat split; auto; constructor. Qed.
Lemma ahead_trans : forall us us' x y z, Ahead us x y -> Ahead us' y z -> Ahead (us ++ us') x z.
Proof.
  intros us us' x y z H1 H2 R HR f. eapply runs_impl; [apply (H1 _ (H2 R HR))|]. cbn beta. intros v (ns & v' & -> & [A1 A2] & ns' & v'' & -> & [B1 B2] & Hv).
  cbn [fst snd]. exists (ns ++ ns'), v''. rewrite app_assoc. repeat split; [now apply Forall2_app|now apply Forall_app|exact Hv].
Qed.
Definition ungap (x : list a_item) : list a_item := match x with (_, n) :: x' => (None, n) :: x' | [] => [] end.
Lemma runs_ext : forall A (m m' : M A) P, (forall st, m st = m' st) -> runs m' P -> runs m P.
Proof. intros A m m' P E H st. rewrite E. apply H. Qed.
Lemma ahead_gap : forall g x, gap_first g x -> Ahead (space g) x (ungap x).
Proof.
  intros g [|[sp [a ty b]] x] HG; [contradiction|]. cbn in HG. cbn [ungap]. intros R HR f. specialize (HR f).
  destruct (gap_nodes g sp HG) as (ns & En & Hn). destruct f as [|f]; [apply runs_fuel|].
  eapply runs_ext with (m' := let* (r, o) := extend_line slc (S f) ((None, ANode a ty b) :: x) in ret (r, ns ++ o)).
  - intros st. cbn [extend_line]. rewrite En. unfold bind, ret.
    repeat match goal with |- context [match ?t with _ => _ end] => destruct t; try reflexivity end.
  - eapply runs_bind; [exact HR|]. intros [r o] H. apply runs_ret. exists ns, (r, o). auto.
Qed.
Lemma ahead_node : forall g sp u an rest, GapIs g sp -> NodeIs u an -> Ahead (space g ++ [u]) ((sp, an) :: rest) rest.
Proof.
  intros g sp u an rest Hg [Hp Hb] R HR [|f]; [apply runs_fuel|]. destruct an as [a ty b]. cbn [extend_line]. cbn [an_type snd] in Hp.
  assert (forall m : M (list a_item * list Doc.node),
    runs m (fun x => fst x = rest /\ exists n, snd x = [n] /\ Is u n /\ plain_node n) ->
    runs (let* (rest', out) := m in let* (rest'', out') := extend_line slc f rest' in
          ret (rest'', match sp with Some r => [exact_space r] | None => [] end ++ out ++ out'))
      (fun y => exists ns y', y = (fst y', ns ++ snd y') /\ Line (space g ++ [u]) ns /\ R y')) as HM.
  { intros m Hm. eapply runs_bind; [exact Hm|]. intros [rest' out] [Er (n & Eo & Hn & Hpl)]. cbn [fst snd] in Er, Eo. subst rest' out.
    eapply runs_bind; [apply HR|]. intros [rest'' out'] Hy. apply runs_ret. destruct (gap_nodes g sp Hg) as (ns & -> & G1 & G2).
    exists (ns ++ [n]), (rest'', out'). cbn [fst snd]. rewrite <- app_assoc. split; [reflexivity|]. split; [|exact Hy]. split.
    - apply Forall2_app; [exact G1|]. constructor; [exact Hn|constructor].
    - apply Forall_app. split; [exact G2|]. constructor; [exact Hpl|constructor]. }
  destruct ty as [m|t|x|e]; try contradiction.
  - apply HM. specialize (Hb f). unfold build_one in Hb. cbn [an_type] in Hb. apply runs_unret in Hb.
    eapply runs_bind; [exact Hb|]. intros n (n' & E & H). injection E as <-. apply runs_ret. cbn [fst snd]. eauto.
  - specialize (Hb f). unfold build_one in Hb. cbn [an_type an_range] in Hb.
    destruct e as [c|bl|i|sp']; try contradiction; (apply HM; eapply runs_bind; [exact Hb|]; intros out Ho; apply runs_ret; cbn [fst snd]; auto).
Qed.
Lemma comments_read : forall fuel s us, Comments s us -> forall m post Q, Reads (item fuel) m post Q ->
  Reads (item fuel) (s ++ m) post (fun x => exists x2, (x2 <> [] -> x <> []) /\ Ahead us x x2 /\ Q x2).
Proof.
  intros fuel s us H. induction H as [|g t s us Hg Ht H IH]; intros m post Q HR.
  - eapply reads_impl; [exact HR|]. intros x HQ. exists x. split; [auto|]. split; [apply ahead_nil|exact HQ].
  - replace ((g ++ L "<!" ++ t ++ L "!>" ++ s) ++ m) with ((g ++ L "<!" ++ t ++ L "!>") ++ s ++ m) by now rewrite <- !app_assoc.
    eapply reads_impl; [apply reads_cons with (P := fun it => GapIs g (fst it) /\ NodeIs (WComment t) (snd it)); [|apply IH; exact HR]|].
    + intros st Hs. rewrite <- !app_assoc in Hs. rewrite <- !app_assoc.
      apply (item_ends fuel g (L "<!" ++ t ++ L "!>")); [exact Hg| |now apply stops_cons|rewrite <- !app_assoc; exact Hs].
      intros st' Hs'. rewrite <- !app_assoc in Hs'. now apply comment_ends.
    + cbn beta. intros x ([sp an] & x' & -> & [HG HN] & x2 & _ & HA & HQ). exists x2. split; [discriminate|]. split; [|exact HQ].
      replace (space g ++ WComment t :: us) with ((space g ++ [WComment t]) ++ us) by now rewrite <- app_assoc.
      eapply ahead_trans; [now apply ahead_node|exact HA].
Qed.
Lemma comments_tail : forall fuel s us post, Comments s us -> Mis src (item fuel) post -> Reads (item fuel) s post (Tail us).
Proof.
  intros fuel s us post H HM. rewrite <- (app_nil_r s).
  eapply reads_impl; [apply (comments_read fuel s us H [] post (fun x => x = [])); now apply reads_nil|]. cbn beta. intros x (x2 & _ & HA & ->) f.
  eapply runs_impl; [apply (HA _ tail_nil)|]. cbn beta. intros y (ns & y' & -> & HL & E & HN). cbn [fst snd]. split; [exact E|].
  inversion HN as [HN' _]. inversion HN' as [E'|]. now rewrite app_nil_r.
Qed.
Lemma ungap_nil : forall x, gap_first [] x -> ungap x = x.
Proof. intros [|[[r|] n] x] H; cbn in *; [reflexivity|now destruct H|reflexivity]. Qed.
Lemma gap_ne : forall g x, gap_first g x -> x <> [] /\ no_gap (ungap x).
Proof. intros g [|[sp n] x] H; [contradiction|]. split; [discriminate|exact I]. Qed.
Lemma margin_reads : forall fuel s us m post Q, Margin s us ->
  (forall g, gap g -> Reads (item fuel) (g ++ m) post (fun x => gap_first g x /\ Q (ungap x))) ->
  Reads (item fuel) (s ++ m) post (fun x => x <> [] /\ exists z, Ahead us x z /\ no_gap z /\ Q z).
Proof.
  intros fuel s us m post Q [|s' us' g Hs Hc Hg] HR.
  - eapply reads_impl; [apply (HR []); constructor|]. cbn beta. intros x [HG HQ]. split; [now apply gap_ne in HG|].
    exists (ungap x). split; [rewrite (ungap_nil x HG); apply ahead_nil|]. split; [now apply gap_ne in HG|exact HQ].
  - rewrite <- app_assoc. eapply reads_impl; [apply (comments_read fuel s' us' Hc); apply HR; exact Hg|]. cbn beta. intros x (x2 & Hn & HA & HG & HQ).
    destruct (gap_ne g x2 HG) as [H1 H2]. split; [now apply Hn|]. exists (ungap x2). split; [|now split].
    eapply ahead_trans; [exact HA|now apply ahead_gap].
Qed.

(** ** The lines of a block *)
Definition LinesFrom (r p : str) (Q : list a_line -> Prop) : Prop :=
  forall fuel fl st, on (skip_space st) r -> ends (lines_ (node fuel) fl st) p Q.
Definition more_lines (fuel fl : nat) (s1 : pstate) : outcome (list a_line) :=
  match tok x_new_line s1 with Got _ s2 => lines_ (node fuel) fl s2 | _ => Got [] s1 end.
Definition Rest (r p : str) (Q : list a_line -> Prop) : Prop :=
  exists b q, r = b ++ q /\ blanks b /\ closing q /\ forall fuel fl st, on st q -> ends (more_lines fuel fl st) p Q.
Lemma lines_step : forall s r p (L : list a_item -> Prop) Q, (forall fuel b q, r = b ++ q -> blanks b -> closing q -> Reads (item fuel) s (b ++ q) L) -> Rest r p Q ->
  LinesFrom (s ++ r) p (fun ls => exists l rest, ls = l :: rest /\ L (ln_nodes l) /\ Q rest).
Proof.
  intros s r p L Q HL (b & q & -> & Hb & Hq & HR) fuel [|fl] st Hs; [now left|]. cbn [lines_].
  eapply ends_then; [eapply line_ends; [apply HL; [reflexivity|exact Hb|exact Hq]|exact Hb|exact Hq|exact Hs]|]. cbn beta. intros l s1 O Hl.
  specialize (HR fuel fl s1 O). unfold more_lines in HR. destruct (tok x_new_line s1) as [x s2| | |].
  - eapply ends_then; [exact HR|]. cbn beta. intros ls s3 O3 HQ. apply ends_ret; eauto.
  - destruct HR as [E|(a & s3 & E & O3 & HQ)]; [discriminate|]. injection E as <- <-. apply ends_ret; eauto.
  - destruct HR as [E|(a & s3 & E & O3 & HQ)]; [discriminate|]. injection E as <- <-. apply ends_ret; eauto.
  - destruct HR as [E|(a & s3 & E & O3 & HQ)]; [discriminate|]. injection E as <- <-. apply ends_ret; eauto.
Qed.
Lemma lines_impl : forall r p (Q Q' : list a_line -> Prop), LinesFrom r p Q -> (forall ls, Q ls -> Q' ls) -> LinesFrom r p Q'.
Proof. intros r p Q Q' H HI fuel fl st Hs. eapply ends_impl; [now apply H|exact HI]. Qed.
Definition ending (p : str) : Prop := closing p /\ forall r, p <> 10 :: r.
Lemma rest_end : forall g p (Q : list a_line -> Prop), blanks g -> ending p -> Q [] -> Rest (g ++ p) p Q.
Proof.
  intros g p Q Hg [Hp Hn] HQ. exists g, p. repeat split; [exact Hg|exact Hp|]. intros fuel fl st Hs. unfold more_lines, tok.
  assert (refuses x_new_line p) as Hr by (apply (refuses_new_line []); [constructor|exact Hp|exact Hn]).
  destruct Hs as [Hs E]. rewrite E, Hr. apply ends_ret; [|exact HQ]. split; assumption.
Qed.
Lemma rest_nl : forall nl r p Q, Newline nl -> stops not_newline_space r -> LinesFrom r p Q -> Rest (nl ++ r) p Q.
Proof.
  intros nl r p Q (a & b & -> & Ha & Hb) Hr H. exists a, ([10] ++ b ++ r). rewrite <- !app_assoc. repeat split; [exact Ha|right; right; left; eexists; reflexivity|].
  intros fuel fl st Hs. unfold more_lines.
  destruct (fwd_tok src x_new_line ([] ++ [10] ++ b) r (takes_new_line [] b r ltac:(constructor) Hb Hr) st) as (x & s2 & [E|E] & O & _).
  - rewrite <- app_assoc. exact Hs.
  - rewrite E. apply H. now apply on_skip_none.
  - exfalso. unfold tok in E. destruct (x_new_line (p_back st) (p_rest st)) as [[]|]; discriminate.
Qed.

(** Texts that go on *)
Inductive TextLines : list written -> list a_line -> Prop :=
| TlNil : TextLines [] []
| TlCons : forall us l us' ls, RowAre false us (ln_nodes l) -> us <> [] -> TextLines us' ls -> TextLines (WBreak :: us ++ us') (l :: ls).

Definition BL (para : bool) (ls : list a_line) (last : N) (out : list Doc.node) (P : list Doc.node -> Prop) : Prop :=
  forall f, runs (build_lines slc f ls last out para) P.
Inductive Open (k : kind) (path : list label) (us : list written) : Doc.node -> Prop :=
| OpenOf : forall r e, appendable (NElt r e) -> kind_of (e_type e) = k -> Forall2 (Sel src) (e_selectors e) path -> (e_type e = Paragraph -> path = []) ->
    e_raw e = false -> Forall2 Is us (e_nodes e) -> Open k path us (NElt r e).
Lemma open_is : forall k path us n, Open k path us n -> Is (nested k path us) n.
Proof.
  intros k path us n [r e Ha <- H1 H2 H3 H4]. cbn in Ha. apply IsElt; auto; revert Ha H2; clear; destruct (e_type e) as [|[]| | | |]; cbn; intros; auto; contradiction.
Qed.
Lemma build_more : forall para us' a, TextLines us' a -> forall b k path us n before P,
  Open k path us n -> (forall last n', Open k path (us ++ us') n' -> BL para b last (n' :: before) P) -> forall last, BL para (a ++ b) last (n :: before) P.
Proof.
  intros para us' a H. induction H as [|us1 l us' ls Hl Hu H IH]; intros b k path us n before P HO HB last.
  - cbn [app]. apply HB. now rewrite app_nil_r.
  - cbn [app]. intros [|f]; [apply runs_fuel|]. cbn [build_lines].
    eapply runs_bind with (P := fun out => exists n', out = n' :: before /\ Open k path (us ++ WBreak :: us1) n').
    + destruct Hl as (_ & Hn & Hl). specialize (Hn Hu). destruct (ln_nodes l) as [|i items] eqn:E; [now destruct Hn|]. rewrite <- E in *.
      eapply runs_bind; [apply Hl|]. intros [rest line] [_ (H1 & H2 & H3 & H4 & H5)]. cbn [snd] in *. apply runs_ret.
      unfold add_line. rewrite (H4 eq_refl). destruct HO as [r e Ha <- G1 G2 G3 G4]. cbn [append_to_previous]. cbn in Ha.
      assert (Forall2 Is (us ++ WBreak :: us1) (e_nodes e ++ line_end last (r_start (mkR (ln_start l) (ln_end l))) :: line)) as HF.
      { apply Forall2_app; [exact G4|]. constructor; [|exact H1]. apply IsBreak. now left. }
      destruct (e_type e) as [|[d|d| ]|d|d|d|] eqn:Et; try contradiction; (eexists; split; [reflexivity|]; constructor; cbn; rewrite ?Et; auto).
    + cbn beta. intros out (n' & -> & HO'). eapply IH; [exact HO'|]. intros last' n'' HO''. apply HB.
      replace (us ++ WBreak :: us1 ++ us') with ((us ++ WBreak :: us1) ++ us') by now rewrite <- app_assoc. exact HO''.
Qed.

Definition Out (seen open : bool) (out : list Doc.node) : Prop :=
  existsb is_visible out = seen /\ (open = false -> match out with n :: _ => ~ appendable n | [] => True end).
Definition EL (para closed go : bool) (us : list written) (Q : list a_line -> Prop) (ls : list a_line) : Prop :=
  forall seen open out last P, Out seen open out -> (closed = true -> open = false) ->
    (forall rest last' ns brk, Q rest -> Forall2 Is us ns -> some_shown us = true ->
       (go = false -> match rev ns with n :: _ => ~ appendable n | [] => False end) -> Forall2 Is (break seen) brk ->
       BL para rest last' (rev ns ++ brk ++ out) P) -> BL para ls last out P.
Definition LB (para seen open : bool) (us : list written) (ls : list a_line) : Prop :=
  forall last out, Out seen open out -> BL para ls last out (fun out' => exists ns, out' = rev ns ++ out /\ Forall2 Is us ns).
Lemma lb_nil : forall para seen open, LB para seen open [] [].
Proof. intros para seen open last out _ [|f]; [apply runs_fuel|]. apply runs_ret. exists []. split; [reflexivity|constructor]. Qed.
Lemma break_rev : forall seen brk, Forall2 Is (break seen) brk -> rev brk = brk.
Proof. intros [] brk H; [inversion H as [|? ? ? ? _ H']; subst; inversion H'; reflexivity|now inversion H]. Qed.
Lemma break_unseen : forall seen brk, Forall2 Is (break seen) brk -> existsb is_visible brk = false.
Proof. intros seen brk H. rewrite (are_shown _ _ H). now destruct seen. Qed.
Lemma seen_rev : forall ns, existsb is_visible (rev ns) = existsb is_visible ns.
Proof. induction ns as [|n ns IH]; [reflexivity|]. cbn [rev existsb]. rewrite existsb_app, IH. cbn [existsb]. now rewrite Bool.orb_false_r, Bool.orb_comm. Qed.
Lemma el_lb : forall para closed go us Q ls seen open us', EL para closed go us Q ls -> (closed = true -> open = false) ->
  (forall rest, Q rest -> LB para true go us' rest) -> LB para seen open (break seen ++ us ++ us') ls.
Proof.
  intros para closed go us Q ls seen open us' H Hc HQ last out HO. eapply H; [exact HO|exact Hc|]. intros rest last' ns brk Hr Hn Hv Hg Hb f.
  eapply runs_impl; [apply (HQ rest Hr)|].
  - split; [now rewrite existsb_app, seen_rev, (are_shown _ _ Hn), Hv|]. intros Eg. specialize (Hg Eg). destruct (rev ns); [contradiction|exact Hg].
  - cbn beta. intros out' (ns' & -> & Hns). exists (brk ++ ns ++ ns'). split.
    + rewrite !rev_app_distr, (break_rev seen brk Hb), <- !app_assoc. reflexivity.
    + apply Forall2_app; [exact Hb|]. now apply Forall2_app.
Qed.
Lemma brk_is : forall seen (out : list Doc.node) a b, existsb is_visible out = seen -> exists brk,
  (if existsb is_visible out then paragraph_end a b :: out else out) = brk ++ out /\ Forall2 Is (break seen) brk.
Proof.
  intros seen out a b <-. destruct (existsb is_visible out).
  - exists [paragraph_end a b]. split; [reflexivity|]. constructor; [|constructor]. apply IsBreak. now right.
  - exists []. split; [reflexivity|constructor].
Qed.
Lemma not_appended : forall out line range last, match out with n :: _ => ~ appendable n | [] => True end ->
  append_to_previous out line range last = (out, line).
Proof.
  intros [|[r0 e0|r0 t0] out] line range last H; try reflexivity. cbn [append_to_previous]. cbn in H. destruct (e_type e0) as [|[d|d|d1 d2]|d|d|d|]; tauto || reflexivity.
Qed.
(** One line that is an element, with comments *)
Lemma build_alone : forall para items z rest last out seen cs cs' (E : Doc.element -> Prop) P, items <> [] -> existsb is_visible out = seen ->
  Ahead cs items z -> some_shown cs = false -> some_shown cs' = false ->
  (forall f, runs (extend_line slc f z) (Then E cs')) -> (forall e, E e -> starts_with_element [elt_node e] = true) ->
  (forall e a b brk last', E e -> Line cs a -> Line cs' b -> Forall2 Is (break seen) brk -> BL para rest last' (rev b ++ elt_node e :: rev a ++ brk ++ out) P) ->
  forall l, ln_nodes l = items -> BL para (l :: rest) last out P.
Proof.
  intros para items z rest last out seen cs cs' E P Hi HO HA Hcs Hcs' H HE HB l <- [|f]; [apply runs_fuel|]. cbn [build_lines].
  eapply runs_bind with (P := fun out' => forall last' f, runs (build_lines slc f rest last' out' para) P); [|cbn beta; intros out' Ho; apply Ho].
  destruct (ln_nodes l) as [|i items] eqn:El; [now destruct Hi|]. rewrite <- El in *.
  eapply runs_bind with (P := fun x => exists e a b, snd x = a ++ elt_node e :: b /\ E e /\ Line cs a /\ Line cs' b).
  - destruct f as [|f]; [apply runs_fuel|]. cbn [build_line]. eapply runs_bind; [apply (HA _ H)|]. cbn beta.
    intros y (a & [y1 y2] & -> & La & E1 & e & b & E2 & He & Lb). cbn [fst snd] in *. subst y1 y2.
    eapply runs_bind with (P := fun _ => True); [eapply runs_yields; [apply validate_around; eapply line_silent; eassumption|exact I]|]. intros _ _. apply runs_ret. exists e, a, b. auto.
  - cbn beta. intros [x line] (e & a & b & E2 & He & La & Lb). cbn [snd] in E2. subst line. apply runs_ret.
    unfold add_line. rewrite (find_around a e b) by (eapply line_silent; eassumption). rewrite (HE e He).
    destruct (a ++ elt_node e :: b) as [|n0 l0] eqn:En; [destruct a; discriminate|]. rewrite <- En. cbn [negb andb]. rewrite Bool.andb_false_r. cbn [andb].
    destruct (brk_is seen out last (r_start (mkR (ln_start l) (ln_end l))) HO) as (brk & -> & Hb). intros last' f'.
    rewrite rev_app_distr. cbn [rev]. rewrite <- !app_assoc. now apply HB.
Qed.
(** A row that is not in an element *)
Lemma row_lb : forall para l rest us us' seen, RowAre false us (ln_nodes l) -> us <> [] -> (para = true -> some_shown us = false) ->
  LB para (seen || some_shown us) false us' rest -> LB para seen false (break seen ++ us ++ us') (l :: rest).
Proof.
  intros para l rest us us' seen (_ & Hn & Hl) Hu Hp HB last out [HO Hopen] [|f]; [apply runs_fuel|]. cbn [build_lines]. specialize (Hn Hu).
  eapply runs_bind with (P := fun out' => exists line brk, out' = rev line ++ brk ++ out /\ Forall2 Is us line /\ Forall2 Is (break seen) brk /\ Forall (fun n => ~ appendable n) line).
  - destruct (ln_nodes l) as [|i items] eqn:E; [now destruct Hn|]. rewrite <- E in *.
    eapply runs_bind; [apply Hl|]. cbn beta. intros [x line] [_ (H1 & H2 & H3 & H4 & H5)]. cbn [snd] in *. apply runs_ret.
    unfold add_line. rewrite (H4 eq_refl), (not_appended out line _ _ (Hopen eq_refl)). rewrite (are_shown _ _ H1).
    destruct line as [|n line]; [inversion H1; congruence|].
    destruct (brk_is seen out last (r_start (mkR (ln_start l) (ln_end l))) HO) as (brk & -> & Hb).
    assert (para && negb false && some_shown us = false) as -> by (destruct para; [now rewrite Hp|reflexivity]).
    exists (n :: line), brk. auto.
  - cbn beta. intros out' (line & brk & -> & H1 & Hb & H5). eapply runs_impl; [apply HB|].
    + split.
      * rewrite !existsb_app, (break_unseen _ _ Hb), HO. cbn [orb]. rewrite Bool.orb_comm. f_equal. rewrite <- (are_shown _ _ H1).
        clear. induction line as [|n line IH]; [reflexivity|]. cbn [rev existsb]. rewrite existsb_app, IH. cbn [existsb]. now rewrite Bool.orb_false_r, Bool.orb_comm.
      * intros _. destruct (rev line) as [|n line'] eqn:E.
        { exfalso. apply Hu. assert (line = []) as -> by (rewrite <- (rev_involutive line), E; reflexivity). now inversion H1. }
        cbn [app]. rewrite Forall_forall in H5. apply H5, in_rev. rewrite E. now left.
    + cbn beta. intros out'' (ns & -> & Hns). exists (brk ++ line ++ ns). split.
      * rewrite !rev_app_distr, (break_rev seen brk Hb), <- !app_assoc. reflexivity.
      * apply Forall2_app; [exact Hb|]. now apply Forall2_app.
Qed.

(** ** The end of a text in quotation marks *)
Lemma apart_start : forall s r, (forall r', r <> 34 :: r') -> apart s r.
Proof. intros s r H a b E. now apply H in E. Qed.
Lemma begins_app : forall a x, begins a -> begins x -> begins (a ++ x).
Proof.
  intros a x Ha [->|(x' & c & -> & Hc)]; [now rewrite app_nil_r|]. right. exists (a ++ x'), c. now rewrite <- app_assoc.
Qed.
Lemma begins_last : forall a c, is_whitespace c = true \/ one_of (L ">}") c -> begins (a ++ [c]).
Proof. intros a c H. right. exists a, c. auto. Qed.
Lemma begins_ws : forall a s, begins a -> Forall (fun c => is_whitespace c = true) s -> begins (a ++ s).
Proof.
  intros a s Ha Hs. destruct s as [|c s]; [now rewrite app_nil_r|]. right. destruct (exists_last (l := c :: s) ltac:(discriminate)) as (s' & d & E).
  rewrite E in *. exists (a ++ s'), d. rewrite <- app_assoc. split; [reflexivity|]. left. apply Forall_app in Hs as [_ Hs]. now inversion Hs.
Qed.
Lemma blanks_ws : forall g, blanks g -> ws g.
Proof. intros g. apply Forall_impl. now intros c [H _]. Qed.
Lemma begins_newline : forall a nl, Newline nl -> begins (a ++ nl).
Proof.
  intros a nl (x & y & -> & _ & Hy). rewrite !app_assoc. apply begins_ws; [|now apply blanks_ws]. apply begins_last. now left.
Qed.
Lemma begins_gap : forall g, gap g -> begins g.
Proof. intros g H. apply (begins_ws []); [now left|]. now apply blanks_ws, gap_blanks. Qed.
Lemma apart_r : forall a b r, begins a -> apart (a ++ b) r -> apart b r.
Proof.
  intros a b r Hb H x y E. destruct (H (a ++ x) y E) as [H1 H2]. split.
  - intros ->. apply H1. now rewrite <- app_assoc.
  - intros Hx ->. apply H2; [now apply begins_app|now rewrite <- app_assoc].
Qed.
Lemma apart_rest : forall a b r, (forall r', b <> 34 :: r') -> apart (a ++ b) r -> apart b r.
Proof.
  intros a b r Hn H x y E. destruct (H (a ++ x) y E) as [H1 H2]. split.
  - intros ->. apply H1. now rewrite <- app_assoc.
  - intros Hx ->. destruct Hx as [->|(x' & c & -> & Hc)]; [now apply (Hn [34])|].
    apply H2; [rewrite app_assoc; now apply begins_last|now rewrite <- !app_assoc].
Qed.
Lemma blanks_not : forall g p c, blanks g -> is_whitespace c = false -> (forall r, p <> c :: r) -> forall r, g ++ p <> c :: r.
Proof.
  intros g p c Hg Hc Hp r E. destruct Hg as [|d g [Hd _] Hg]; [now apply (Hp r)|]. injection E as -> _. congruence.
Qed.
Lemma newline_not : forall nl r c, Newline nl -> is_whitespace c = false -> forall r', nl ++ r <> c :: r'.
Proof.
  intros nl r c (a & b & -> & Ha & Hb) Hc. rewrite <- app_assoc. apply blanks_not; [exact Ha|exact Hc|]. intros r' E. injection E as <- _. discriminate.
Qed.
Lemma newline_apart : forall nl s r, Newline nl -> apart s (nl ++ r).
Proof. intros nl s r H. apply apart_start, newline_not; [exact H|reflexivity]. Qed.
Lemma apart_app : forall s x y, apart s x -> x <> [] -> apart s (x ++ y).
Proof. intros s [|c x] y H Hn a b E; [now destruct Hn|]. injection E as -> _. now apply (H a x). Qed.
Lemma closing_quote : forall b p x, blanks b -> closing p -> In x [39; 96] -> forall r, b ++ p <> x :: r.
Proof.
  intros b p x Hb Hp Hx. apply blanks_not; [exact Hb|cbn in Hx; destruct Hx as [<-|[<-|[]]]; reflexivity|]. intros r ->. destruct Hp as [H|[[r' H]|[[r' H]|(d & r' & Hd & H)]]]; try discriminate; injection H as -> _; cbn in *; lia.
Qed.
Lemma more_apart : forall x s us r, More tag s us -> apart (x ++ s) r -> apart x (s ++ r).
Proof.
  intros x s us r [|nl s0 us0 s' us' Hnl _ _ _] H; [now rewrite app_nil_r in H|]. rewrite <- app_assoc. now apply newline_apart.
Qed.
Lemma more_rest : forall x s us r, More tag s us -> apart (x ++ s) r -> apart s r.
Proof.
  intros x s us r Hm. apply apart_rest. destruct Hm as [|nl s0 us0 s' us' Hnl _ _ _]; [discriminate|]. now apply newline_not.
Qed.

(** ** The elements of a block *)
Lemma step_ungap : forall a l its, StepItems a l its -> StepItems a l (ungap its).
Proof.
  intros a l its [l' i j (sp & x & y & b & -> & H) Hj|j (sp & x & c & b & ->)]; cbn [ungap].
  - constructor; [exists None, x, y, b; auto|exact Hj].
  - constructor. exists None, x, c, b. auto.
Qed.
Lemma ungap_app : forall x y, x <> [] -> ungap (x ++ y) = ungap x ++ y.
Proof. now intros [|[sp n] x] y H. Qed.
Lemma step_ne : forall a l its, StepItems a l its -> its <> [].
Proof. now intros a l its []. Qed.
Lemma path_ungap : forall a path its, PathItems a path its -> its <> [] /\ PathItems a path (ungap its).
Proof.
  intros a path its [a' l its' H|a' l its' a'' path' its'' H H'].
  - split; [now apply step_ne in H|]. constructor. now apply step_ungap.
  - pose proof (step_ne _ _ _ H) as Hn. split; [now destruct its'|]. rewrite ungap_app by exact Hn. econstructor; [now apply step_ungap|exact H'].
Qed.
Lemma head_ungap : forall a path its, HeadItems a path its -> its <> [] /\ HeadItems a path (ungap its).
Proof.
  intros a path its [l i (sp & x & y & b & -> & H)|a' l its' a'' path' its'' H H'].
  - split; [discriminate|]. constructor. exists None, x, y, b. auto.
  - pose proof (step_ne _ _ _ H) as Hn. split; [now destruct its'|]. rewrite ungap_app by exact Hn. econstructor; [now apply step_ungap|exact H'].
Qed.
Lemma around_last : forall (a : list Doc.node) e b cs', Line cs' b -> some_shown cs' = false -> ~ appendable (elt_node e) ->
  match rev (a ++ elt_node e :: b) with n :: _ => ~ appendable n | [] => False end.
Proof.
  intros a e b cs' Hb Hs He. rewrite rev_app_distr. cbn [rev]. pose proof (line_silent _ _ Hb Hs) as H. rewrite Forall_forall in H.
  destruct (rev b) as [|n b'] eqn:E; [exact He|]. cbn. apply H, in_rev. rewrite E. now left.
Qed.
Lemma some_shown_mid : forall cs u cs', shown u = true -> some_shown (cs ++ u :: cs') = true.
Proof. intros cs u cs' H. unfold some_shown. rewrite existsb_app. cbn [existsb]. rewrite H. apply Bool.orb_true_r. Qed.
Definition LineIn (path : list label) (us : list written) (e : Doc.element) : Prop :=
  (exists c, e_type e = Standard (DLine c)) /\ Forall2 (Sel src) (e_selectors e) path /\ e_raw e = false /\ RowIs true us (e_nodes e).
Lemma line_element : forall para c cs pa path s us s' us' r p Q, Margin c cs -> Path pa path ->
  (forall fuel b q, s' ++ r = b ++ q -> blanks b -> closing q -> Reads (item fuel) s (b ++ q) (RowAre true us)) ->
  Rest (s' ++ r) p (fun ls => exists a b, ls = a ++ b /\ TextLines us' a /\ Q b) ->
  LinesFrom ((c ++ pa ++ s ++ s') ++ r) p (EL para false true (cs ++ [nested KLine path (us ++ us')]) Q).
Proof.
  intros para c cs pa path s us s' us' r p Q Hc Hp Hi HR. pose proof (margin_shown _ _ Hc) as Hcs. rewrite <- !app_assoc, (app_assoc pa), (app_assoc c).
  eapply lines_impl; [apply lines_step with (L := fun x => x <> [] /\ exists z, Ahead cs x z /\ no_gap z /\ exists its rest, z = its ++ rest /\ PathItems (arrow pa) path its /\ RowAre true us rest)|].
  - intros fuel b q E Hb Hq. apply (margin_reads fuel c cs (pa ++ s) (b ++ q) (fun z => exists its rest, z = its ++ rest /\ PathItems (arrow pa) path its /\ RowAre true us rest) Hc).
    intros g Hg. eapply reads_impl; [apply (path_reads fuel pa path Hp g s (b ++ q) (RowAre true us)); [exact Hg|now apply Hi]|].
    cbn beta. intros x (HG & its & rest & -> & HP & HI). split; [exact HG|]. apply path_ungap in HP as [Hn HP]. exists (ungap its), rest. now rewrite ungap_app.
  - exact HR.
  - cbn beta. intros ls (l & rest0 & -> & (Hn & z & HA & HG & its & items & Ez & HP & HI) & a & b & -> & HT & HQ) seen open out last P [HO _] _ HB.
    eapply build_alone with (E := LineIn path us) (cs' := []) (items := ln_nodes l); [exact Hn|exact HO|exact HA|exact Hcs|reflexivity| | | |reflexivity].
    + intros f. subst z. eapply runs_impl; [eapply path_line; [exact HP|exact HG|exact HI]|].
      intros x (E1 & e & E2 & H). split; [exact E1|]. exists e, []. split; [exact E2|]. split; [exact H|]. split; constructor.
    + intros e ((c0 & Et) & _). unfold starts_with_element. cbn. now rewrite Et.
    + intros e a0 b0 brk last' ((c0 & Et) & Hsel & Hraw & HL) La [Lb _] Hb. inversion Lb; subst b0. cbn [rev app].
      eapply build_more; [exact HT| |].
      * apply (OpenOf KLine path us); [cbn; now rewrite Et|now rewrite Et|exact Hsel|rewrite Et; discriminate|exact Hraw|apply HL].
      * intros last'' n' HO'. pose proof (open_is _ _ _ _ HO') as H1.
        replace (n' :: rev a0 ++ brk ++ out) with (rev (a0 ++ [n']) ++ brk ++ out) by (rewrite rev_app_distr; reflexivity).
        apply HB; auto; [apply Forall2_app; [apply La|constructor; [exact H1|constructor]]|apply some_shown_mid, shown_nested|discriminate].
Qed.
Lemma paragraph_element : forall s us s' us' r p Q, us <> [] -> some_shown us = true ->
  (forall fuel b q, s' ++ r = b ++ q -> blanks b -> closing q -> Reads (item fuel) s (b ++ q) (RowAre false us)) ->
  Rest (s' ++ r) p (fun ls => exists a b, ls = a ++ b /\ TextLines us' a /\ Q b) ->
  LinesFrom ((s ++ s') ++ r) p (EL true true true [WElt KPara (None, []) (us ++ us')] Q).
Proof.
  intros s us s' us' r p Q Hu Hsh Hi HR. rewrite <- !app_assoc.
  eapply lines_impl; [apply lines_step with (L := RowAre false us); [exact Hi|exact HR]|].
  cbn beta. intros ls (l & rest0 & -> & HI & a & b & -> & HT & HQ) seen open out last P [HO Hopen] Hc HB [|f]; [apply runs_fuel|]. cbn [build_lines].
  specialize (Hopen (Hc eq_refl)). destruct HI as (_ & Hn & HI). specialize (Hn Hu).
  eapply runs_bind with (P := fun out' => forall last' f, runs (build_lines slc f (a ++ b) last' out' true) P); [|cbn beta; intros out' Ho; apply Ho].
  destruct (ln_nodes l) as [|i items] eqn:E; [now destruct Hn|]. rewrite <- E in *.
  eapply runs_bind; [apply HI|]. cbn beta. intros [x line] [_ (H1 & H2 & H3 & H4 & H5)]. cbn [snd] in *. apply runs_ret.
  unfold add_line. rewrite (H4 eq_refl), (are_shown _ _ H1), Hsh, (not_appended out line _ _ Hopen).
  destruct line as [|n line]; [inversion H1; congruence|].
  destruct (brk_is seen out last (r_start (mkR (ln_start l) (ln_end l))) HO) as (brk & -> & Hb). cbn [andb negb]. intros last' f'.
  eapply build_more; [exact HT| |].
  - apply (OpenOf KPara [] us); cbn; auto.
  - intros last'' n' HO'. pose proof (open_is _ _ _ _ HO') as G1. apply (HB b last'' [n'] brk); auto; first [discriminate|constructor; [exact G1|constructor]].
Qed.
(** What takes no lines of text *)
Lemma shut_element : forall para c cs m c' cs' u r p Q (E : Doc.element -> Prop) (I : list a_item -> Prop), Margin c cs -> Comments c' cs' ->
  (forall fuel g m' post T, gap g -> (forall r', m' ++ post <> 96 :: r') -> Reads (item fuel) m' post T ->
     Reads (item fuel) (g ++ m ++ m') post (fun x => gap_first g x /\ exists x1 x2, x = x1 ++ x2 /\ x1 <> [] /\ I (ungap x1) /\ T x2)) ->
  (forall x rest, I x -> no_gap x -> Tail cs' rest -> (c' = [] -> rest = []) -> forall f, runs (extend_line slc f (x ++ rest)) (Then E cs')) ->
  (forall e, E e -> starts_with_element [elt_node e] = true /\ Is u (elt_node e) /\ ~ appendable (elt_node e)) -> shown u = true ->
  Rest r p Q -> LinesFrom ((c ++ m ++ c') ++ r) p (EL para false false (cs ++ u :: cs') Q).
Proof.
  intros para c cs m c' cs' u r p Q E I Hc Hc' Hm HI HE Hu HR. pose proof (margin_shown _ _ Hc) as Hcs. pose proof (comments_shown _ _ Hc') as Hcs'.
  eapply lines_impl; [apply lines_step with (L := fun x => x <> [] /\ exists z, Ahead cs x z /\ no_gap z /\ exists x1 x2, z = x1 ++ x2 /\ no_gap x1 /\ I x1 /\ Tail cs' x2 /\ (c' = [] -> x2 = [])); [|exact HR]|].
  - intros fuel b q _ Hb Hq.
    apply (margin_reads fuel c cs (m ++ c') (b ++ q) (fun z => exists x1 x2, z = x1 ++ x2 /\ no_gap x1 /\ I x1 /\ Tail cs' x2 /\ (c' = [] -> x2 = [])) Hc).
    intros g Hg. eapply reads_impl; [apply (Hm fuel g c' (b ++ q) (fun x => Tail cs' x /\ (c' = [] -> x = []))); [exact Hg| |]|].
    + assert (forall r', b ++ q <> 96 :: r') as HN by (apply closing_quote; [exact Hb|exact Hq|cbn; tauto]).
      intros r'. destruct Hc' as [|g' t s0 us0 Hg' Ht H0]; [apply HN|]. rewrite <- !app_assoc. destruct Hg' as [|x g' [<-|[<-|[]]] Hg']; discriminate.
    + destruct Hc' as [|g' t s0 us0 Hg' Ht H0].
      * apply reads_nil; [now apply closing_item|]. split; [apply tail_nil|auto].
      * eapply reads_impl; [apply comments_tail; [eapply CsCons; eassumption|now apply closing_item]|]. cbn beta. intros x H. split; [exact H|]. intros E'. destruct g'; discriminate.
    + cbn beta. intros x (HG & x1 & x2 & -> & Hn & H1 & H2). split; [exact HG|]. exists (ungap x1), x2. rewrite ungap_app by exact Hn. split; [reflexivity|]. split; [|auto].
      now destruct x1 as [|[sp n] x1].
  - cbn beta. intros ls (l & rest & -> & (Hn & z & HA & HG & x1 & x2 & -> & HG1 & H1 & H2) & HQ) seen open out last P [HO _] _ HB.
    eapply build_alone with (E := E) (cs' := cs') (items := ln_nodes l); [exact Hn|exact HO|exact HA|exact Hcs|exact Hcs'|now apply HI|intros e He; now apply HE| |reflexivity].
    intros e a b brk last' He La Lb Hb. destruct (HE e He) as (_ & H4 & H5).
    replace (rev b ++ elt_node e :: rev a ++ brk ++ out) with (rev (a ++ elt_node e :: b) ++ brk ++ out) by (rewrite rev_app_distr; cbn [rev]; rewrite <- !app_assoc; reflexivity).
    apply HB; auto; [apply Forall2_app; [apply La|constructor; [exact H4|apply Lb]]|now apply some_shown_mid|].
    intros _. eapply around_last; eassumption.
Qed.
Lemma block_element : forall para c cs m c' cs' line path us r p Q, Margin c cs -> Comments c' cs' -> (starts (L ">") m -> c' = []) ->
  (forall fuel g m' post T, gap g -> Reads (item fuel) m' post T ->
     Reads (item fuel) (g ++ m ++ m') post (fun x => gap_first g x /\ exists x1 x2, x = x1 ++ x2 /\ BlockItems (arrow m) line path us (ungap x1) /\ T x2)) ->
  Rest r p Q -> LinesFrom ((c ++ m ++ c') ++ r) p (EL para false false (cs ++ nested (if line then KLine else KBlock) path us :: cs') Q).
Proof.
  intros para c cs m c' cs' line path us r p Q Hc Hc' Ha Hm HR.
  apply shut_element with (E := BlockIn line path us) (I := BlockItems (arrow m) line path us); [exact Hc|exact Hc'| | | |apply shown_nested|exact HR].
  - intros fuel g m' post T Hg _ HT. eapply reads_impl; [apply Hm; [exact Hg|exact HT]|]. cbn beta. intros x (HG & x1 & x2 & -> & H1 & H2). split; [exact HG|].
    exists x1, x2. repeat split; auto; try apply H1. intros ->. now destruct H1.
  - intros x rest [_ H] Hg HT Hrest f. apply H; [exact Hg|exact HT|]. intros E. assert (c' = []) as ->; [|inversion Hc'; subst; auto].
    + apply Ha. destruct m as [|x0 m]; [discriminate|]. cbn in E. apply N.eqb_eq in E as ->. exists m. reflexivity.
    + destruct g; discriminate.
  - intros e (d & Et & Hd & Hsel & Hraw & HN). split; [unfold starts_with_element; cbn; now rewrite Et|]. split.
    + replace (if line then KLine else KBlock) with (kind_of (e_type e)) by (rewrite Et; destruct d; try contradiction; subst line; reflexivity).
      apply IsElt; auto; rewrite Et; exact I.
    + cbn. rewrite Et. destruct d; auto.
Qed.
Definition CodeItems (u : written) (x : list a_item) : Prop := exists a m b, x = [(None, ANode a (ANMultiline m) b)] /\
  forall range, runs (build_multiline slc range m) (fun n => exists e, n = elt_node e /\ Is u n /\ e_type e = Multiline MLCode).
Lemma code_element : forall para c cs s ls c' cs' r p Q, Margin c cs -> Comments c' cs' -> Body (L "```") s ls -> Rest r p Q ->
  LinesFrom ((c ++ s ++ c') ++ r) p
    (EL para false false (cs ++ nested KOther (named tag MCodeBlock ++ named tag MCode) [WLines (join_lines ls) (ends_blank (join_lines ls))] :: cs') Q).
Proof.
  intros para c cs s outs c' cs' r p Q Hc Hc' HB HR. set (u := nested KOther _ _).
  apply shut_element with (E := fun e => Is u (elt_node e) /\ e_type e = Multiline MLCode)
    (I := CodeItems u); [exact Hc|exact Hc'| | | |apply shown_nested|exact HR].
  - intros fuel g m' post T Hg Hq HT. rewrite app_assoc.
    eapply reads_impl; [apply reads_cons with (P := fun it => GapIs g (fst it) /\ exists a m b, snd it = ANode a (ANMultiline m) b /\
      forall range, runs (build_multiline slc range m) (fun n => exists e, n = elt_node e /\ Is u n /\ e_type e = Multiline MLCode)); [|exact HT]|].
    + intros st Hs. rewrite <- app_assoc in Hs. destruct (body_first MLCode s outs (m' ++ post) HB) as [r' E].
      apply (item_ends fuel g s (m' ++ post) (fun n => exists a m b, n = ANode a (ANMultiline m) b /\
        forall range, runs (build_multiline slc range m) (fun n => exists e, n = elt_node e /\ Is u n /\ e_type e = Multiline MLCode)) st); [exact Hg| | |exact Hs].
      * intros st' Hs'. apply ends_node. intros fuel' _. unfold p_ntype. apply ends_or_l.
        eapply ends_then; [apply (multiline_ends MLCode s outs); [exact HB| |exact Hs']|].
        -- intros x r'' Ex. injection Ex as <-. apply Hq.
        -- cbn beta. intros m s1 O Hm. apply ends_ret; [exact O|]. intros a b0. exists a, m, b0. split; [reflexivity|]. intros range.
           eapply runs_impl; [apply (ml_build MLCode outs m range outs Hm eq_refl)|]. cbn beta. intros n (e & -> & E1 & E2 & E3 & E4). exists e.
           split; [reflexivity|]. split; [now apply IsCodeBlock|exact E1].
      * rewrite E. now apply stops_cons.
    + cbn beta. intros x ([sp n] & rest & -> & [HG (a & m & b0 & E' & H)] & HT'). cbn [fst snd] in *. subst n. split; [exact HG|].
      exists [(sp, ANode a (ANMultiline m) b0)], rest. split; [reflexivity|]. split; [discriminate|]. split; [|exact HT']. exists a, m, b0. auto.
  - intros x rest (a & m & b & -> & HM) _ HT _ [|f]; [apply runs_fuel|]. cbn [app extend_line].
    eapply runs_bind with (P := fun x => exists e, x = (rest, [elt_node e]) /\ Is u (elt_node e) /\ e_type e = Multiline MLCode).
    + eapply runs_bind; [apply HM|]. cbn beta. intros n (e & -> & H1 & H2). apply runs_ret. eauto.
    + intros [rest' out'] (e & E & H1 & H2). injection E as -> ->. eapply runs_bind; [apply HT|]. intros [r1 r2] [E1 E2]. cbn [fst snd] in *. subst r1.
      apply runs_ret. split; [reflexivity|]. exists e, r2. cbn [snd app]. auto.
  - intros e [H1 H2]. split; [unfold starts_with_element; cbn; now rewrite H2|]. split; [exact H1|]. cbn. rewrite H2. auto.
Qed.

(** ** Contents *)
Definition lead (s g p : str) : str := match s with [] => p | _ => s ++ g ++ p end.
Lemma lead_solid : forall s g p, solid s -> lead s g p = s ++ g ++ p.
Proof. now intros s g p (c & r & -> & _). Qed.
Lemma content_ends : forall fuel para w s g us p st, ws w -> s = [] \/ solid s -> blanks g -> ending p -> stops is_whitespace p ->
  LinesFrom (lead s g p) p (LB para false false us) -> on st (w ++ s ++ g ++ p) ->
  ends (p_content (node fuel) st) p (ContentIs para us) /\ ends (p_content (node fuel) (skip_ws st)) p (ContentIs para us).
Proof.
  intros fuel para w s g us p st Hw Hso Hg HE Hb HL O1.
  assert (on (skip_ws st) (lead s g p) /\ stops is_whitespace (lead s g p)) as [O2 Hst].
  { destruct Hso as [->|Hso].
    - split; [|exact Hb]. apply (on_skip_ws src (w ++ g)); [apply Forall_app; split; [exact Hw|now apply blanks_ws]|exact Hb|]. rewrite <- app_assoc. exact O1.
    - rewrite (lead_solid _ _ _ Hso). split; [|now apply solid_stops]. apply (on_skip_ws src w); [exact Hw|now apply solid_stops|exact O1]. }
  split; (unfold p_content; cbn zeta; eapply ends_then; [apply HL; apply on_skip_none; [now apply stops_space|]; try exact O2; now apply on_skip_none|];
    intros ls s2 O3 H; apply ends_ret; [now apply on_skip_none|];
    intros [|f]; [apply runs_fuel|]; cbn [build_content ct_lines]; eapply runs_bind; [apply H; split; [reflexivity|auto]|];
    cbn beta; intros out (ns & -> & Hns); apply runs_ret; now rewrite app_nil_r, rev_involutive).
Qed.
Lemma brace_head : forall w s g p, ws w -> (s <> [] -> w <> []) -> blanks g ->
  exists c r, w ++ s ++ g ++ L "}" ++ p = c :: r /\ (is_whitespace c = true \/ c = 125).
Proof.
  intros w s g p Hw Hs Hg. destruct Hw as [|c w Hc Hw]; [|exists c; eexists; split; [reflexivity|left; exact Hc]].
  destruct s as [|x s]; [|exfalso; now apply Hs]. destruct Hg as [|c g Hc Hg]; [exists 125; eexists; split; [reflexivity|now right]|].
  exists c. eexists. split; [reflexivity|]. left. now apply space_ws, blank_space.
Qed.
Lemma brace_ending : forall post, ending (L "}" ++ post).
Proof. intros post. split; [right; left; eexists; reflexivity|discriminate]. Qed.
Lemma block_ends : forall fuel para w s g us post st, ws w -> s = [] \/ solid s -> (s <> [] -> w <> []) -> blanks g ->
  LinesFrom (lead s g (L "}" ++ post)) (L "}" ++ post) (LB para false false us) -> on st (L "{" ++ w ++ s ++ g ++ L "}" ++ post) ->
  ends (node fuel st) post (fun n => exists a bl b, n = ANode a (ANElement (ABlockElt bl)) b /\ BlockIs para us bl).
Proof.
  intros fuel para w s g us post st Hw Hso Hne Hg HL Hs.
  assert (stops is_whitespace (L "}" ++ post)) as Hb by now apply stops_cons.
  destruct (brace_head w s g post Hw Hne Hg) as (c & r & Ec & Hc).
  assert (forall t d t', t = 123 :: d :: t' -> d = 123 \/ d = 37 -> no_prefix t (L "{" ++ w ++ s ++ g ++ L "}" ++ post)) as HN.
  { intros t d t' -> Hd r' E. rewrite Ec in E. injection E as -> _. destruct Hd as [-> | ->]; destruct Hc as [Hc|Hc]; discriminate. }
  apply ends_node. intros fuel' _. unfold p_ntype.
  apply ends_or_r; [apply misses_then; revert Hs; apply mis_multiline; unfold heads; npfx|].
  apply ends_or_r; [apply misses_then; revert Hs; apply mis_text_rule|].
  - apply refuses_seq_l, refuses_seq_l, refuses_many1, refuses_word; [reflexivity|apply (no_word_alnum alnum Hal); cbn; tauto|discriminate].
  - npfx.
  - npfx.
  - apply refuses_interpolation; try npfx; (eapply HN; [reflexivity|]; auto).
  - apply ends_or_r; [apply misses_then; revert Hs; apply mis_selector; [now intros d r' [= <- _]|]|].
    { apply refuses_word; [reflexivity|apply (no_word_star alnum Hal); cbn; tauto|discriminate]. }
    eapply ends_then with (P := fun x => exists bl, x = ABlockElt bl /\ BlockIs para us bl); [|cbn beta; intros x s1 O (bl & -> & H); apply ends_ret; eauto 6].
    apply ends_or_r; [apply misses_then; revert Hs; apply mis_prefix; npfx|]. apply ends_or_l.
    eapply ends_then with (P := BlockIs para us); [|cbn beta; intros bl s1 O H; apply ends_ret; eauto].
    unfold p_block. eapply ends_then; [eapply ends_fwd; [apply fwd_text|exact Hs]|]. cbn beta. intros o s1 O1 _.
    eapply ends_then; [apply (content_ends _ para w s g us (L "}" ++ post)); [exact Hw|exact Hso|exact Hg|apply brace_ending|exact Hb|exact HL|exact O1]|].
    cbn beta zeta. intros ct s2 O3 H. eapply ends_then; [apply ends_maybe; eapply ends_fwd; [apply fwd_text|]|].
    + apply on_skip_none; [exact Hb|exact O3].
    + cbn beta. intros x s4 O4 (cl & -> & _). apply ends_ret; [exact O4|]. intros [|f] range; [apply runs_fuel|]. cbn [build_block bk_rbrace bk_content bk_lbrace].
      eapply runs_bind with (P := fun _ => True); [now apply runs_ret|]. intros _ _.
      eapply runs_bind with (P := Forall2 Is us); [apply H|intros ns Hns; apply runs_ret; cbn; auto].
Qed.
Lemma block_reads : forall fuel para w s g us g' m' post T, ws w -> s = [] \/ solid s -> (s <> [] -> w <> []) -> blanks g ->
  (forall p, ending p -> (forall r, p <> 34 :: r) -> LinesFrom (lead s g p) p (LB para false false us)) -> gap g' -> Reads (item fuel) m' post T ->
  Reads (item fuel) (g' ++ (L "{" ++ w ++ s ++ g ++ L "}") ++ m') post (fun x => gap_first g' x /\ exists it rest, x = it :: rest /\ blk para us it /\ T rest).
Proof.
  intros fuel para w s g us g' m' post T Hw Hso Hne Hg HL Hg' HT. set (m := L "{" ++ w ++ s ++ g ++ L "}"). rewrite app_assoc.
  eapply reads_impl; [apply reads_cons with (P := fun it => GapIs g' (fst it) /\ blk para us it); [|exact HT]|].
  - intros st Hs. rewrite <- app_assoc in Hs. eapply ends_impl; [apply (item_ends fuel g' m (m' ++ post) (fun n => exists a bl b, n = ANode a (ANElement (ABlockElt bl)) b /\ BlockIs para us bl)); [exact Hg'| |now apply stops_cons|exact Hs]|].
    + intros st' Hs'. subst m. rewrite <- !app_assoc in Hs'. apply block_ends with w s g; auto. apply HL; [apply brace_ending|discriminate].
    + cbn beta. intros [sp n] [HG (a & bl & b' & E & H)]. cbn [fst snd] in *. subst n. split; [exact HG|]. exists sp, a, bl, b'. auto.
  - cbn beta. intros x (it & rest & -> & [HG H] & HR). split; [exact HG|]. eauto.
Qed.
Lemma special_ends : forall fuel o c mk w s us g post st, In (o, c, mk) special -> ws w -> s = [] \/ solid s -> blanks g -> 
  (ending (c ++ post) -> LinesFrom (lead s g (c ++ post)) (c ++ post) (LB false false false us)) -> on st (o ++ w ++ s ++ g ++ c ++ post) ->
  ends (node fuel st) post (NodeIs (nested KOther (named tag mk) us)).
Proof.
  intros fuel o c mk w s us g post st Hin Hw Hso Hg HL Hs. apply special_kinds in Hin as (k & -> & -> & ->).
  assert (ending (special_close k ++ post)) as HE by (split; [apply special_closing|destruct k; discriminate]). specialize (HL HE).
  assert (stops is_whitespace (special_close k ++ post)) as Hb by (intros x r' E; destruct k; injection E as <- _; reflexivity).
  set (rest := w ++ s ++ g ++ special_close k ++ post) in *.
  assert (exists d, special_open k = [60; d] /\ In d (L "/#_~" ++ [34])) as (d & Ed & Hd) by (destruct k; eexists; (split; [reflexivity|]); cbn; tauto).
  eapply lt_element; [rewrite Ed in Hs; exact Hs|intros x r' [= <- _]; cbn in Hd |- *; intuition (subst; discriminate)|]. intros fuel' _.
  assert (forall t, (forall r', t ++ r' <> special_open k ++ rest) -> Mis src (text_tok t) (special_open k ++ rest)) as HM.
  { intros t Ht. apply mis_prefix. intros r' E. now apply (Ht r'). }
  assert (forall k', k' <> k -> misses (p_special_kind (node fuel') k' st)) as HK.
  { intros k' Hk. apply misses_then. revert Hs. apply HM. intros r' E. destruct k, k'; try discriminate; congruence. }
  apply ends_or_r; [apply misses_then; revert Hs; apply HM; intros r' E; destruct k; discriminate|].
  apply ends_or_r; [apply misses_then, misses_then; revert Hs; apply HM; intros r' E; destruct k; discriminate|].
  apply ends_or_r; [apply misses_then, misses_then; revert Hs; apply HM; intros r' E; destruct k; discriminate|].
  apply (ends_then _ _ _ _ post (fun x => exists op ct cl, x = ASpecial k op ct (Some cl) /\ ContentIs false us ct)).
  - assert (ends (p_special_kind (node fuel') k st) post (fun x => exists op ct cl, x = ASpecial k op ct (Some cl) /\ ContentIs false us ct)) as HE'.
    { unfold p_special_kind. eapply ends_then; [eapply ends_fwd; [apply fwd_text|exact Hs]|]. cbn beta. intros op s1 O1 _.
      eapply ends_then; [apply (content_ends _ false w s g us (special_close k ++ post)); [exact Hw|exact Hso|exact Hg|exact HE|exact Hb|exact HL|exact O1]|].
      cbn beta. intros ct s3 O3 H. eapply ends_then; [apply ends_maybe; eapply ends_fwd; [apply fwd_text|exact O3]|].
      cbn beta. intros x s4 O4 (cl & -> & _). apply ends_ret; [exact O4|]. eauto 6. }
    unfold p_special. destruct k;
      repeat first [apply ends_or_l; exact HE' | apply ends_or_r; [apply HK; discriminate|]].
  - cbn beta. intros x s1 O (op & ct & cl & -> & Hl). apply ends_ret; [exact O|]. intros a' b'. split; [exact I|].
    intros [|[|f]]; try apply runs_fuel. unfold build_one. cbn [an_type an_range build_element build_special].
    eapply runs_bind with (P := fun e => e_type e = Doc.Special (special_kind_of k) /\ e_selectors e = [] /\ e_raw e = false /\ Forall2 Is us (e_nodes e)).
    + eapply runs_bind with (P := fun _ => True); [now apply runs_ret|]. intros _ _.
      eapply runs_bind; [apply Hl|]. cbn beta. intros ns Hns. apply runs_ret. cbn. auto.
    + intros e (E1 & E2 & E3 & E4). apply runs_ret. eexists. split; [reflexivity|]. split; [now apply IsSpecial|].
      cbn. now rewrite E1.
Qed.

(** ** All together *)
Lemma solid_ne : forall s, solid s -> s <> [].
Proof. now intros s (c & r & -> & _). Qed.
Lemma solid_app : forall s r, solid s -> solid (s ++ r).
Proof. intros s r (c & s' & -> & Hc). exists c, (s' ++ r). auto. Qed.
Lemma item_open : forall s u r, Item tag false s u -> (exists r', s ++ r = 60 :: r') \/ (exists r', s ++ r = 123 :: 37 :: r').
Proof.
  intros s u r H. inversion H as [| | |o c t Hin| | |o c n w s' us g Hin| | |]; subst; try (left; eexists; reflexivity).
  - cbn in Hin. destruct Hin as [E|[E|[E|[]]]]; injection E as <- <-; [left|left|right]; eexists; reflexivity.
  - cbn in Hin. destruct Hin as [E|[E|[E|[E|[E|[]]]]]]; injection E as <- <- <-; left; eexists; reflexivity.
Qed.
Lemma item_after : forall s u r, Item tag false s u -> after_text (s ++ r).
Proof. intros s u r H. right. now apply item_open with u. Qed.
Lemma item_space : forall txt s u r, Item tag txt s u -> stops not_newline_space (s ++ r).
Proof.
  intros [] s u r H; [|now apply after_text_space, (item_after _ u)]. inversion H as [s' t [Hw _]| | | | | | | | |]; subst. now apply words_space with t.
Qed.
Lemma items_after : forall s us b p, Items tag false s us -> blanks b -> closing p -> exists b' q, s ++ b ++ p = b' ++ q /\ blanks b' /\ after_text q.
Proof.
  intros s us b p H Hb Hp. inversion H as [|free txt g s1 u s' us' Hg Hi Ht]; subst.
  - exists b, p. repeat split; [exact Hb|now left].
  - destruct txt; [now specialize (Ht eq_refl)|]. exists g, (s1 ++ s' ++ b ++ p). rewrite <- !app_assoc. repeat split; [now apply gap_blanks|]. now apply item_after with u.
Qed.
Definition closed (s : str) : Prop := exists a c, s = a ++ [c] /\ one_of (L ">}") c.
Lemma closed_app : forall a x, closed x -> closed (a ++ x).
Proof. intros a x (x' & c & -> & Hc). exists (a ++ x'), c. now rewrite app_assoc. Qed.
Lemma closed_begins : forall s, closed s -> begins s.
Proof. intros s (a & c & -> & Hc). apply begins_last. auto. Qed.
Lemma closed_path : forall s l, Path s l -> closed s.
Proof.
  assert (forall s l, Step s l -> closed s) as HS.
  { intros s l [s' l' g H Hg|]; repeat apply closed_app; exists [], 62; (split; [reflexivity|now left]). }
  intros s l H. induction H as [s l H|s l g s' path H Hg H' IH]; [now apply HS in H|]. now repeat apply closed_app.
Qed.
Lemma item_end : forall s u, Item tag false s u -> begins s.
Proof.
  intros s u H. apply closed_begins.
  inversion H as [|h t Hh|h t Hh|o c t Hin| | |o c n w s' us g Hin| | |]; subst; repeat apply closed_app;
    try (first [exists [], 62; split; [reflexivity|now left] | exists (L "]"), 62; split; [reflexivity|now left] | exists (L "!"), 62; split; [reflexivity|now left]
      | exists (L "`"), 62; split; [reflexivity|now left] | exists (L ")"), 62; split; [reflexivity|now left]]).
  - cbn in Hin. destruct Hin as [E|[E|[E|[]]]]; injection E as <- <-; [exists (L "?"), 62|exists (L "%"), 62|exists (L "%"), 125]; (split; [reflexivity|cbn; tauto]).
  - cbn in Hin. destruct Hin as [E|[E|[E|[E|[E|[]]]]]]; injection E as <- <- <-;
    [exists (L "/"), 62|exists (L "#"), 62|exists (L "_"), 62|exists (L "~"), 62|exists [34], 62]; (split; [reflexivity|cbn; tauto]).
Qed.
Lemma items_quote : forall s us, Items tag false s us -> forall r, s <> 34 :: r.
Proof.
  intros s us H. inversion H as [|free txt g s1 u s' us' Hg Hi Ht]; subst; [discriminate|]. destruct txt; [now specialize (Ht eq_refl)|].
  apply blanks_not; [now apply gap_blanks|reflexivity|]. intros r E. destruct (item_open _ _ s' Hi) as [[r' E']|[r' E']]; congruence.
Qed.
Lemma items_rest : forall txt s u s' us r, Item tag txt s u -> Items tag (negb txt) s' us -> apart (s ++ s') r -> apart s' r.
Proof.
  intros [] s u s' us r Hi His; [apply apart_rest; now apply items_quote with us|apply apart_r; now apply item_end with u].
Qed.
Lemma items_apart : forall s s' us r, Items tag false s' us -> apart (s ++ s') r -> apart s (s' ++ r).
Proof.
  intros s s' us r His H. destruct s' as [|c s']; [now rewrite app_nil_r in H|]. apply apart_start. intros r' E. injection E as -> _.
  now apply (items_quote _ _ His s').
Qed.
Lemma row_ne : forall code s us, Row tag code s us -> s <> [] -> us <> [].
Proof.
  intros code s us [code' s' us' H|code' g s' u Hg H] Hs; [|now destruct g].
  destruct H as [|free txt g s1 u s2 us2 Hg Hi Ht]; [now destruct Hs|]. now destruct g.
Qed.
Lemma body_solid : forall k s outs, Body (multiline_quote k) s outs -> solid s.
Proof. intros k s outs [info ls l0 l0' indent outs' _ _ _ _ _ _]. destruct k; eexists _, _; (split; [reflexivity|reflexivity]). Qed.
Lemma multi_solid : forall code s u, Multi tag code s u -> solid s.
Proof.
  intros code s u [code' s' ls ts H _|code' s' ls H|s' ls H]; [exact (body_solid MLEscaped _ _ H)|exact (body_solid MLUnescaped _ _ H)|exact (body_solid MLCode _ _ H)].
Qed.
Lemma head_solid : forall h path x, Head h path -> solid x -> solid (h ++ x).
Proof.
  intros h path x [|s2 l g' H Hg|s2 l g' s' l' path' H Hg H'] Hx; [exact Hx| |]; rewrite <- !app_assoc.
  - destruct (selector_head _ _ H) as (c & r & -> & Hc & _). apply solid_app. exists c, r. auto.
  - apply solid_app. now apply step_solid in H.
Qed.
Lemma block_solid : forall line s path us, Block tag line s path us -> solid s.
Proof.
  intros line s path us [h path' w s' us' g H _ _ _ _ _|p path' g' w s' us' g H _ _ _ _ _ _].
  - eapply head_solid; [exact H|]. exists 123. eexists. split; reflexivity.
  - apply solid_app. now apply path_solid in H.
Qed.
Lemma paragraph_solid : forall s u, Paragraph_ tag s u -> solid s.
Proof. intros s u [s1 us s' us' H _ _ _]. now apply solid_app. Qed.
Lemma margin_solid : forall c cs s, Margin c cs -> solid s -> solid (c ++ s).
Proof. intros c cs s [|s' us' g H _ _] Hs; [exact Hs|]. rewrite <- app_assoc. now apply solid_app. Qed.
Lemma element_solid : forall go s us, Element tag go s us -> solid s.
Proof.
  intros go s us' [c cs pa path s1 us s' us0 Hc H _ _|c cs line s1 path us c' cs' Hc H _ _|c cs s1 ls c' cs' Hc H _]; (eapply margin_solid; [exact Hc|]; apply solid_app).
  - now apply path_solid in H.
  - now apply block_solid in H.
  - exact (body_solid MLCode _ _ H).
Qed.
Lemma lead_stops : forall para seen open s us g p, Lines tag para seen open s us -> ending p -> stops not_newline_space (lead s g p).
Proof.
  intros para seen open s us g p H [Hp _].
  assert (s = [] \/ stops not_newline_space (s ++ g ++ p)) as [->|Hs]; [|now apply closing_space|destruct s; [now apply closing_space|exact Hs]].
  assert (forall x y, solid x -> stops not_newline_space (x ++ y)) as HS by (intros x y Hx; now apply stops_space, solid_stops).
  destruct H as [|para seen open b s us Hb H|para seen open go s u H|para seen open go s u nl s' us H Hnl H'|seen s u H|seen s u nl s' us H Hnl H'
    |para seen s us H|para seen s us nl s' us' H]; [now left|right..].
  - now apply stops_cons.
  - apply HS. now apply element_solid in H.
  - rewrite <- app_assoc. apply HS. now apply element_solid in H.
  - apply HS. now apply paragraph_solid in H.
  - rewrite <- app_assoc. apply HS. now apply paragraph_solid in H.
  - now apply HS.
  - rewrite <- app_assoc. now apply HS.
Qed.
Lemma rest_lead : forall para seen open s us nl g p Q, Lines tag para seen open s us -> Newline nl -> blanks g -> ending p ->
  LinesFrom (lead s g p) p Q -> Rest (nl ++ s ++ g ++ p) p Q.
Proof.
  intros para seen open s us nl g p Q H Hnl Hg Hp HL. pose proof (lead_stops _ _ _ _ _ g p H Hp) as Hst. destruct s as [|c s].
  - cbn [app]. rewrite app_assoc. apply rest_nl; [|exact Hst|exact HL].
    destruct Hnl as (a & b & -> & Ha & Hb). exists a, (b ++ g). rewrite <- !app_assoc. split; [reflexivity|]. split; [exact Ha|]. now apply Forall_app.
  - apply rest_nl; assumption.
Qed.

Lemma empty_line : forall r p (Q : list a_line -> Prop), Rest r p Q -> LinesFrom r p (fun ls => exists l rest, ls = l :: rest /\ ln_nodes l = [] /\ Q rest).
Proof.
  intros r p Q HR. apply (lines_step [] r p (fun x => x = []) Q); [|exact HR]. intros fuel b q _ Hb Hq. apply reads_nil; [now apply closing_item|reflexivity].
Qed.
Lemma empty_lb : forall para l rest us seen open, ln_nodes l = [] -> LB para seen false us rest -> LB para seen open (WBreak :: us) (l :: rest).
Proof.
  intros para l rest us seen open E H last out [HO _] [|f]; [apply runs_fuel|]. cbn [build_lines]. rewrite E.
  eapply runs_bind; [apply runs_ret; exact (eq_refl (paragraph_end last (ln_end l) :: out))|]. intros out' <-.
  eapply runs_impl; [apply H; split; [exact HO|intros _ []]|]. cbn beta. intros out' (ns & -> & Hns).
  exists (paragraph_end last (ln_end l) :: ns). cbn [rev]. rewrite <- app_assoc. split; [reflexivity|]. constructor; [|exact Hns]. apply IsBreak. now right.
Qed.

Scheme Item_min := Minimality for Item Sort Prop with Items_min := Minimality for Items Sort Prop with Row_min := Minimality for Row Sort Prop
  with More_min := Minimality for More Sort Prop with Block_min := Minimality for Block Sort Prop with Lines_min := Minimality for Lines Sort Prop
  with Paragraph_min := Minimality for Paragraph_ Sort Prop with Element_min := Minimality for Element Sort Prop.
Combined Scheme written_ind from Item_min, Items_min, Row_min, More_min, Block_min, Lines_min, Paragraph_min, Element_min.

Lemma written_all :
  (forall txt s u, Item tag txt s u -> forall fuel post st, (txt = true -> (exists b q, post = b ++ q /\ blanks b /\ after_text q) /\ apart s post) ->
     on st (s ++ post) -> ends (node fuel st) post (NodeIs u)) /\
  (forall free s us, Items tag free s us -> forall fuel b p, blanks b -> closing p -> apart s (b ++ p) -> Reads (item fuel) s (b ++ p) (ItemsAre us)) /\
  (forall code s us, Row tag code s us -> forall fuel b p, blanks b -> closing p -> apart s (b ++ p) -> Reads (item fuel) s (b ++ p) (RowAre code us)) /\
  (forall s us, More tag s us -> forall r p Q, Rest r p Q -> apart s r -> Rest (s ++ r) p (fun ls => exists a b, ls = a ++ b /\ TextLines us a /\ Q b)) /\
  (forall line s path us, Block tag line s path us -> forall fuel g m' post T, gap g -> Reads (item fuel) m' post T ->
     Reads (item fuel) (g ++ s ++ m') post (fun x => gap_first g x /\ exists x1 x2, x = x1 ++ x2 /\ BlockItems (arrow s) line path us (ungap x1) /\ T x2)) /\
  (forall para seen open s us, Lines tag para seen open s us -> forall g p, blanks g -> ending p -> apart s (g ++ p) -> LinesFrom (lead s g p) p (LB para seen open us)) /\
  (forall s u, Paragraph_ tag s u -> forall r p Q, Rest r p Q -> apart s r -> LinesFrom (s ++ r) p (EL true true true [u] Q)) /\
  (forall go s us, Element tag go s us -> forall para r p Q, Rest r p Q -> apart s r -> LinesFrom (s ++ r) p (EL para false go us Q)).
Proof.
  apply written_ind.
  - intros s t H fuel post st Hp Hs. destruct (Hp eq_refl) as [(b & q & -> & Hb & Hq) Ha]. now apply text_ends with s.
  - intros h t Hh Hu fuel post st _ Hs. rewrite <- !app_assoc in Hs. now apply verbatim_ends with h.
  - intros h t Hh Hu fuel post st _ Hs. rewrite <- !app_assoc in Hs. now apply raw_ends with h.
  - intros o c t Hin Hu fuel post st _ Hs. rewrite <- !app_assoc in Hs. now apply interpolation_ends.
  - intros t H fuel post st _ Hs. rewrite <- !app_assoc in Hs. now apply comment_ends.
  - intros t Hu fuel post st _ Hs. rewrite <- !app_assoc in Hs. now apply code_ends.
  - intros o c m w s us g Hin Hw Hso Hl IH Hg Ha fuel post st _ Hs. rewrite <- !app_assoc in Hs. eapply special_ends; [exact Hin|exact Hw|exact Hso|exact Hg| |exact Hs].
    intros HE. apply IH; [exact Hg|exact HE|]. rewrite app_assoc. apply apart_app; [exact Ha|].
    apply special_kinds in Hin as (k & _ & -> & _). intros E. apply app_eq_nil in E as [_ E]. now destruct k.
  - intros w s us w' Hw Hso Hi IH Hw' fuel post st _ Hs. rewrite <- !app_assoc in Hs. apply inline_plain_ends with w s w'; auto.
    intros fuel' b p Hb Hp Hq. apply IH; auto. apply apart_start, blanks_not; [exact Hb|cbn; lia|exact Hq].
  - intros w p path s us w' Hw Hp Hi IH Hw' fuel post st _ Hs. rewrite <- !app_assoc in Hs. apply inline_path_ends with w p s w'; auto.
    intros fuel' b q Hb Hc Hq. apply IH; auto. apply apart_start, blanks_not; [exact Hb|cbn; lia|exact Hq].
  - intros w line s path us w' Hw Hb IH Hw' fuel post st _ Hs. rewrite <- !app_assoc in Hs. apply inline_block_ends with w s w' (arrow s); auto; [now apply block_solid in Hb|].
    intros fuel' b p Hb' Hp. rewrite <- (app_nil_r s) at 1. eapply reads_impl; [apply (IH fuel' [] [] (b ++ p) (fun x => x = [])); [constructor|apply reads_nil; [now apply closing_item|reflexivity]]|].
    cbn beta. intros x (HG & x1 & x2 & -> & HI & ->). rewrite app_nil_r in *. split; [exact HG|]. now rewrite (ungap_nil x1 HG) in HI.
  - intros free fuel b p Hb Hp _. apply reads_nil; [now apply closing_item|apply items_nil].
  - intros free txt g s u s' us Hg Hi IHi Ht His IHs fuel b p Hb Hp Ha. apply apart_r in Ha; [|now apply begins_gap]. rewrite app_assoc.
    eapply reads_impl; [apply reads_cons with (P := fun it => GapIs g (fst it) /\ NodeIs u (snd it)); [|apply IHs; [exact Hb|exact Hp|eapply items_rest; eauto]]|].
    + intros st Hs. rewrite <- !app_assoc in Hs. apply (item_ends fuel g s); [exact Hg| |now apply item_space with txt u|exact Hs].
      intros st' Hs'. apply IHi; [|exact Hs']. intros ->. split; [now apply items_after with us|]. eapply items_apart; eauto.
    + cbn beta. intros l ([sp an] & rest & -> & [HG HN] & HI). now apply items_cons.
  - intros code s us H IH fuel b p Hb Hp Ha. eapply reads_impl; [now apply IH|]. intros l. apply items_row.
  - intros code g s u Hg H fuel b p Hb Hp Ha.
    eapply reads_impl; [rewrite <- (app_nil_r (g ++ s)); apply reads_cons with (P := fun it => GapIs g (fst it) /\ MultiIs code u (snd it))|].
    + cbn [app]. intros st Hs. rewrite <- app_assoc in Hs. apply (item_ends fuel g s); [exact Hg| |apply stops_space, solid_stops; now apply multi_solid in H|exact Hs].
      intros st' Hs'. apply multi_ends with s; [exact H| |exact Hs']. intros x r Hx He. apply apart_r in Ha; [|now apply begins_gap]. cbn in Hx.
      destruct Hx as [<-|Hx]; [|apply closing_quote; [exact Hb|exact Hp|exact Hx]]. destruct (He eq_refl) as [a E]. intros E'. now destruct (Ha a r E') as [H' _].
    + apply reads_nil with (P := fun x => x = []); [now apply closing_item|reflexivity].
    + cbn beta. intros l ([sp an] & rest & -> & [HG HN] & ->). now apply multi_row.
  - intros r p Q HR _. cbn [app]. destruct HR as (b & q & -> & Hb & Hq & HR). exists b, q. repeat split; [exact Hb|exact Hq|]. intros fuel fl st O.
    eapply ends_impl; [now apply HR|]. intros ls HQ. exists [], ls. split; [reflexivity|]. split; [constructor|exact HQ].
  - intros nl s us s' us' Hnl Hs Hr IHr Hm IHm r p Q HR Ha. rewrite <- !app_assoc. apply apart_r in Ha; [|now apply (begins_newline [])].
    apply rest_nl; [exact Hnl|now apply stops_space, solid_stops|].
    eapply lines_impl; [apply lines_step with (L := RowAre false us); [|apply IHm; [exact HR|eapply more_rest; [exact Hm|exact Ha]]]|].
    + intros fuel b q E Hb Hq. apply IHr; [exact Hb|exact Hq|]. rewrite <- E. eapply more_apart; [exact Hm|exact Ha].
    + cbn beta. intros ls (l & rest & -> & HL & a & b & -> & HT & HQ). exists (l :: a), b. split; [reflexivity|]. split; [|exact HQ].
      constructor; [exact HL|apply (row_ne false s); [exact Hr|now apply solid_ne]|exact HT].
  - intros h path w s us g Hh Hw Hso Hl IH Hg Hne fuel g0 m' post T Hg0 HT.
    assert (forall p, ending p -> (forall r, p <> 34 :: r) -> LinesFrom (lead s g p) p (LB true false false us)) as HL.
    { intros p Hp Hn. apply IH; [exact Hg|exact Hp|]. apply apart_start, blanks_not; [exact Hg|cbn; lia|exact Hn]. }
    destruct path as [|l path].
    + inversion Hh; subst h. cbn [app]. eapply reads_impl; [apply (block_reads fuel true w s g us g0 m' post T); auto|].
      cbn beta. intros x (HG & it & rest & -> & H & HT'). split; [exact HG|]. exists [it], rest. split; [reflexivity|]. split; [|exact HT'].
      destruct H as (sp & a & bl & b & -> & H). apply block_line. exists None, a, bl, b. auto.
    + set (m := L "{" ++ w ++ s ++ g ++ L "}").
      assert (solid m) as Hm by (exists 123; eexists; split; reflexivity).
      assert (arrow (h ++ m) = arrow h) as ->.
      { destruct Hh as [|s0 l0 g1 H0 _|s0 l0 g1 s1 l1 path1 H0 _ _]; [reflexivity|rewrite <- app_assoc, !(arrow_selector s0 l0); auto|]. rewrite <- app_assoc, !(arrow_solid s0); [reflexivity|now apply step_solid in H0..]. }
      rewrite <- (app_assoc h).
      eapply reads_impl; [apply (head_reads fuel h (l :: path) Hh ltac:(discriminate) g0 (m ++ m') post (fun x => exists it rest, x = it :: rest /\ blk true us it /\ T rest))|].
      * exact Hg0.
      * right. subst m. rewrite <- !app_assoc. eexists. split; [reflexivity|]. intros c r' E.
        destruct (brace_head w s g (m' ++ post) Hw Hne Hg) as (c' & r'' & Ec & Hc). rewrite Ec in E. now injection E as -> _.
      * intros g' Hg'. eapply reads_impl; [apply (block_reads fuel true w s g us g' m' post T); auto|]. cbn beta. tauto.
      * cbn beta. intros x (HG & its & rest & -> & HH & it & rest' & -> & H & HT'). split; [exact HG|]. exists (its ++ [it]), rest'. split; [now rewrite <- app_assoc|]. split; [|exact HT'].
        apply head_ungap in HH as [Hn HH]. rewrite ungap_app by exact Hn. now apply head_line.
  - intros pa path g' w s us g Hp Hg' Hw Hso Hl IH Hg Hne fuel g0 m' post T Hg0 HT.
    assert (forall p, ending p -> (forall r, p <> 34 :: r) -> LinesFrom (lead s g p) p (LB false false false us)) as HL.
    { intros p Hp' Hn. apply IH; [exact Hg|exact Hp'|]. apply apart_start, blanks_not; [exact Hg|cbn; lia|exact Hn]. }
    set (m := L "{" ++ w ++ s ++ g ++ L "}"). rewrite (arrow_solid pa) by now apply path_solid in Hp. rewrite <- (app_assoc pa), <- (app_assoc g').
    eapply reads_impl; [apply (path_reads fuel pa path Hp g0 (g' ++ m ++ m') post (fun x => exists it rest, x = it :: rest /\ blk false us it /\ T rest)); [exact Hg0|]|].
    + eapply reads_impl; [apply (block_reads fuel false w s g us g' m' post T); auto|]. cbn beta. tauto.
    + cbn beta. intros x (HG & its & rest & -> & HP & it & rest' & -> & H & HT'). split; [exact HG|]. exists (its ++ [it]), rest'. split; [now rewrite <- app_assoc|]. split; [|exact HT'].
      apply path_ungap in HP as [Hn HP]. rewrite ungap_app by exact Hn. now apply arrow_line.
  - intros para seen open g p Hg Hp _. cbn [lead]. eapply lines_impl; [apply (empty_line p p (fun ls => ls = [])); apply (rest_end []); [constructor|exact Hp|reflexivity]|].
    cbn beta. intros ls (l & rest & -> & E & ->). apply empty_lb; [exact E|apply lb_nil].
  - intros para seen open b s us Hb H IH g p Hg Hp Ha. change (lead ([10] ++ b ++ s) g p) with (([10] ++ b ++ s) ++ g ++ p). rewrite <- !app_assoc.
    rewrite app_assoc in Ha. apply apart_r in Ha; [|apply begins_ws; [now apply (begins_last []); left|now apply blanks_ws]].
    eapply lines_impl; [apply empty_line; rewrite (app_assoc [10]); eapply rest_lead; [exact H| |exact Hg|exact Hp|now apply IH]|].
    + exists [], b. repeat split; [constructor|exact Hb].
    + cbn beta. intros ls (l & rest & -> & E & HQ). now apply empty_lb.
  - intros para seen open go s us H IH g p Hg Hp Ha. rewrite lead_solid by now apply element_solid in H.
    eapply lines_impl; [apply IH; [apply (rest_end g p (fun ls => ls = [])); auto|exact Ha]|]. intros ls HE.
    rewrite <- (app_nil_r us). apply (el_lb para false go us (fun ls => ls = [])); [exact HE|discriminate|]. intros rest ->. apply lb_nil.
  - intros para seen open go s us nl s' us' H IH Hnl H' IH' g p Hg Hp Ha. rewrite lead_solid by (apply solid_app; now apply element_solid in H).
    rewrite app_assoc in Ha. apply apart_r in Ha; [|now apply begins_newline].
    rewrite <- !app_assoc. eapply lines_impl; [apply IH; [eapply rest_lead; [exact H'|exact Hnl|exact Hg|exact Hp|now apply IH']|now apply newline_apart]|].
    intros ls HE. eapply el_lb; [exact HE|discriminate|]. auto.
  - intros seen s u H IH g p Hg Hp Ha. rewrite lead_solid by now apply paragraph_solid in H.
    eapply lines_impl; [apply IH; [apply (rest_end g p (fun ls => ls = [])); auto|exact Ha]|]. intros ls HE.
    apply (el_lb true true true [u] (fun ls => ls = []) ls seen false []); [exact HE|auto|]. intros rest ->. apply lb_nil.
  - intros seen s u nl s' us H IH Hnl H' IH' g p Hg Hp Ha. rewrite lead_solid by (apply solid_app; now apply paragraph_solid in H).
    rewrite app_assoc in Ha. apply apart_r in Ha; [|now apply begins_newline].
    rewrite <- !app_assoc. eapply lines_impl; [apply IH; [eapply rest_lead; [exact H'|exact Hnl|exact Hg|exact Hp|now apply IH']|now apply newline_apart]|].
    intros ls HE. apply (el_lb true true true [u] (LB true true true us) ls seen false us); [exact HE|auto|]. auto.
  - intros para seen s us Hs H IH Hpa g p Hg Hp Ha. rewrite lead_solid by exact Hs.
    eapply lines_impl; [apply lines_step with (L := RowAre false us); [|apply (rest_end g p (fun ls => ls = [])); auto]|].
    + intros fuel b q E Hb Hq. apply IH; [exact Hb|exact Hq|]. now rewrite <- E.
    + cbn beta. intros ls (l & rest & -> & HL & ->). rewrite <- (app_nil_r us). apply row_lb; [exact HL| |exact Hpa|apply lb_nil].
      apply (row_ne false s); [exact H|now apply solid_ne].
  - intros para seen s us nl s' us' Hs H IH Hpa Hnl H' IH' g p Hg Hp Ha. rewrite lead_solid by now apply solid_app.
    rewrite app_assoc in Ha. apply apart_r in Ha; [|now apply begins_newline]. rewrite <- !app_assoc.
    eapply lines_impl; [apply lines_step with (L := RowAre false us); [|eapply rest_lead; [exact H'|exact Hnl|exact Hg|exact Hp|now apply IH']]|].
    + intros fuel b q E Hb Hq. apply IH; [exact Hb|exact Hq|]. rewrite <- E. now apply newline_apart.
    + cbn beta. intros ls (l & rest & -> & HL & HQ). apply row_lb; [exact HL| |exact Hpa|exact HQ].
      apply (row_ne false s); [exact H|now apply solid_ne].
  - intros s us s' us' Hs Hr IHr Hsh Hm IHm r p Q HR Ha. apply paragraph_element; [apply (row_ne false s); [exact Hr|now apply solid_ne]|exact Hsh| |].
    + intros fuel b q E Hb Hq. apply IHr; [exact Hb|exact Hq|]. rewrite <- E. eapply more_apart; [exact Hm|exact Ha].
    + apply IHm; [exact HR|eapply more_rest; [exact Hm|exact Ha]].
  - intros c cs pa path s us s' us' Hc Hp Hr IHr Hm IHm para r p Q HR Ha. rewrite app_assoc in Ha.
    apply apart_r in Ha; [|apply closed_begins, closed_app; now apply closed_path in Hp]. apply line_element; [exact Hc|exact Hp| |].
    + intros fuel b q E Hb Hq. apply IHr; [exact Hb|exact Hq|]. rewrite <- E. eapply more_apart; [exact Hm|exact Ha].
    + apply IHm; [exact HR|eapply more_rest; [exact Hm|exact Ha]].
  - intros c cs line s path us c' cs' Hc H IH Hc' Hs para r p Q HR _. now apply block_element.
  - intros c cs s ls c' cs' Hc H Hc' para r p Q HR _. now apply code_element.
Qed.

(** ** The document *)
Theorem source_document : forall us, Source tag src us ->
  p_document alnum src = Starved \/ exists c st, p_document alnum src = Got c st /\ forall f, runs (build_content slc f c true) (Forall2 Is us).
Proof.
  intros us H. inversion H as [w s us' g Hw Hso HL Hg Es]; subst us'.
  assert (ending []) as HE by (split; [now left|discriminate]).
  assert (on (mkP 0 [] src) (w ++ s ++ g ++ [])) as O0 by (rewrite app_nil_r, Es; split; [apply at_start|reflexivity]).
  assert (stops is_whitespace []) as Hb by (intros c r' E; discriminate).
  destruct written_all as (_ & _ & _ & _ & _ & HW & _).
  assert (ends (p_content (node (S (length src))) (skip_ws (mkP 0 [] src))) [] (ContentIs true us)) as HC.
  { apply (content_ends _ true w s g us []); auto. apply HW; auto. apply apart_start, blanks_not; [exact Hg|cbn; lia|discriminate]. }
  rewrite Es. unfold p_document. cbn zeta. destruct HC as [->|(c & s1 & -> & O1 & HB)]; [now left|]. right. cbn [then_].
  assert (on (skip_ws s1) []) as [_ E] by now apply on_skip_none. rewrite E. eexists _, _. split; [reflexivity|]. exact HB.
Qed.
End Src.

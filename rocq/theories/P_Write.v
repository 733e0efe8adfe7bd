(** * Sources written as in SpecWrite.v: the HTML they are converted to. *)

From Verif Require Import Base Escape Doc Config Ast Errors Build Infer Transform OutText Output Convert Grammar Parser
  SpecSource SpecEscape SpecHtml SpecTree SpecInfer SpecTransform SpecBuild SpecMarkup SpecWrite
  P_Base P_Escape P_OutText P_Output P_Layout P_Build P_Infer P_InferProps P_Transform P_Grammar P_Lexer P_Parser P_Unknown P_Forward P_WriteSel P_WriteText P_WriteItems.
From Verif Require P_Source.
From Coq Require Import Lia.

(** ** Characters *)
Lemma char_html_ok : forall xml q c, esc_char xml q c = char_html xml q c.
Proof.
  intros xml q c. unfold esc_char, get_escape, xml_get_escape, html_get_escape, char_html, is_control.
  destruct (c =? 38); [now destruct xml|]. destruct (c =? 60); [now destruct xml|]. destruct (c =? 62); [now destruct xml|].
  destruct xml; cbn [negb andb].
  - destruct (q && (c =? 34)); [reflexivity|]. now destruct ((c <=? 31) || ((127 <=? c) && (c <=? 159))).
  - destruct (c =? 9); [reflexivity|]. destruct (c =? 10); [reflexivity|].
    destruct (q && (c =? 34)); [reflexivity|]. now destruct ((c <=? 31) || ((127 <=? c) && (c <=? 159))).
Qed.
Lemma esc_html : forall xml q s, esc_str xml q s = flat_map (char_html xml q) s.
Proof. intros xml q s. rewrite esc_str_flat. apply flat_map_ext. intros c. apply char_html_ok. Qed.

Definition nonblank (c : chr) : Prop := c <> 32 /\ c <> 9.
Lemma blank_char : forall a c, nonblank c -> ends_blank (a ++ [c]) = false.
Proof.
  intros a c [H1 H2]. rewrite ends_blank_app by discriminate. unfold ends_blank, ends_with_char. cbn [last_char].
  apply Bool.orb_false_iff. split; apply N.eqb_neq; auto.
Qed.
Lemma hex_solid : forall c d, HexDigit c d -> nonblank c.
Proof. intros c d H. destruct H; split; lia. Qed.
Lemma hex_last : forall s v, HexNum s v -> exists a c, s = a ++ [c] /\ nonblank c.
Proof. intros s v H. destruct H as [c d H|s v c d _ H]; [exists [], c|exists s, c]; (split; [reflexivity|eapply hex_solid; eauto]). Qed.
Lemma esc_last : forall b e c, EscSeq b e c -> exists a d, e = a ++ [d] /\ nonblank d.
Proof.
  intros b e c H. assert (forall x y : chr, nonblank y -> exists a d, [x; y] = a ++ [d] /\ nonblank d) as H2 by (intros x y Hy; exists [x], y; auto).
  destruct H as [| | |c [Hc| ->]|ds v _ H _|ds v _ H _].
  - apply H2. split; discriminate.
  - apply H2. split; discriminate.
  - apply H2. split; discriminate.
  - apply H2. cbn in Hc. split; intros ->; intuition discriminate.
  - apply H2. split; discriminate.
  - assert (exists s' v', HexNum s' v' /\ exists q, ds = q ++ s') as (s' & v' & Hn & q & ->)
      by (destruct H as [s v H|s v _ H]; [exists s, v|exists s, v]; (split; [exact H|]); [exists []|exists [43]]; reflexivity).
    destruct (hex_last _ _ Hn) as (a & d & -> & Hd). exists (L "\x" ++ q ++ a), d. rewrite <- !app_assoc. auto.
  - exists (L "\u{" ++ ds), 125. rewrite <- app_assoc. split; [reflexivity|split; discriminate].
Qed.
Lemma spelled_last : forall s t, Spelled word_plain s t -> s <> [] -> exists a c, s = a ++ [c] /\ nonblank c.
Proof.
  intros s t H. induction H as [|c s t Hc H IH|e c s t He H IH]; intros Hn; [contradiction| |].
  - destruct s as [|d s]; [exists [], c; split; [reflexivity|]|destruct (IH ltac:(discriminate)) as (a & d' & E & Hd); exists (c :: a), d'; rewrite E; auto].
    destruct Hc as [_ Hc]. split; intros ->; discriminate.
  - destruct s as [|d s]; [rewrite app_nil_r; eapply esc_last; eauto|].
    destruct (IH ltac:(discriminate)) as (a & d' & E & Hd). exists (e ++ a), d'. rewrite E, app_assoc. auto.
Qed.
Lemma words_last : forall s t, Words s t -> exists a c, s = a ++ [c] /\ nonblank c.
Proof.
  intros s t H. induction H as [s t Hn H|s t g s' t' _ _ _ _ _ (a & c & -> & Hc)]; [eapply spelled_last; eauto|].
  exists (s ++ g ++ a), c. rewrite <- !app_assoc. auto.
Qed.
Lemma words_blank : forall s t, Words s t -> ends_blank s = false.
Proof. intros s t H. destruct (words_last _ _ H) as (a & c & -> & Hc). now apply blank_char. Qed.

(** ** Content *)
Section Src.
Variable src : str.
Notation slc := (source_slice src).
Variable xml : bool.

Lemma slice_empty : forall r s, SliceOf src r s -> slice_is_empty (FromSource r) = is_nil s.
Proof.
  intros r s (a & b & _ & E1 & E2). cbn [slice_is_empty]. rewrite <- E1, <- E2. destruct s as [|c s]; cbn [is_nil].
  - apply N.leb_le. cbn. lia.
  - apply N.leb_gt. pose proof (utf8_len_pos c). cbn [blen]. lia.
Qed.

Definition Matches (raw : bool) (x : bool * list piece) (n : node) : Prop := fst x = is_space n /\ Pieces slc xml raw n (snd x).
Lemma matches_drop : forall raw l ns, Forall2 (Matches raw) l ns -> Forall2 (Matches raw) (drop_true l) (drop_spaces ns).
Proof.
  intros raw l ns H. induction H as [|x n l ns Hx H IH]; [constructor|]. destruct x as [b ps]. pose proof Hx as [E _]. cbn [fst] in E. subst b.
  destruct n as [r e|r [t|s|s]]; cbn [is_space drop_true drop_spaces] in *; try (constructor; [exact Hx|exact H]). exact IH.
Qed.
Lemma forall2_reverse : forall A B (R : A -> B -> Prop) l m, Forall2 R l m -> Forall2 R (rev l) (rev m).
Proof. intros A B R l m H. induction H; [constructor|]. cbn [rev]. apply Forall2_app; [assumption|]. constructor; [assumption|constructor]. Qed.
Lemma matches_all : forall raw l ns, Forall2 (Matches raw) l ns -> PiecesL slc xml raw ns (flat_map snd l).
Proof. intros raw l ns H. induction H as [|x n l ns [_ Hx] H IH]; cbn [flat_map]; constructor; auto. Qed.
Lemma matches_inner : forall raw l ns, Forall2 (Matches raw) l ns -> PiecesL slc xml raw (trim_spaces ns) (inner l).
Proof.
  intros raw l ns H. unfold inner, trim_spaces. apply matches_all, forall2_reverse, matches_drop, forall2_reverse, matches_drop. exact H.
Qed.

(** ** Tags *)
Lemma tag_ok : forall t s nm attrs sc, sel_label src s = (nm, attrs) ->
  open_text slc xml t s sc = tag_html xml t attrs (if sc then L "/>" else L ">").
Proof.
  intros t s nm attrs sc H. unfold open_text, tag_html. do 2 f_equal. f_equal. unfold sel_label in H. injection H as _ <-.
  unfold sel_attrs, attributes_of. rewrite !flat_map_app. f_equal; [|f_equal].
  - destruct (ids_in s) as [|i l]; [reflexivity|]. cbn [map flat_map]. unfold attr_text, attr_html. cbn [fst snd]. now rewrite esc_html.
  - destruct (classes_in s) as [|i l]; [reflexivity|]. cbn [map flat_map]. unfold attr_text, attr_html. cbn [fst snd]. now rewrite esc_html.
  - induction (attrs_in s) as [|a l IH]; [reflexivity|]. cbn [map flat_map]. f_equal; [|exact IH].
    unfold attr_pair, attr_text, attr_html. cbn [fst snd]. f_equal. f_equal. destruct (Doc.a_value a) as [v|]; [now rewrite esc_html|].
    destruct xml; reflexivity.
Qed.

(** ** Elements *)
Definition labelled (sels : list selector) (l : label) : Prop :=
  match sels with [] => l = (None, []) | [s] => Sel src s l | _ => False end.
Lemma named_elt : forall raw r er cr ns ty f raw0 sels t s nm attrs ps b, elt_tag slc sels = Some (t, s) -> sel_label src s = (nm, attrs) ->
  PiecesL slc xml (raw || raw0) (trim_spaces ns) ps -> is_nil ns = b ->
  Pieces slc xml raw (NElt r (mkElt er sels cr ns ty f raw0))
    (if xml && b then [Solid (tag_html xml t attrs (L "/>")) false]
     else Solid (tag_html xml t attrs (L ">")) false :: ps ++ (if negb xml && html_void_name t then [] else [Solid (L "</" ++ t ++ L ">") false])).
Proof.
  intros raw r er cr ns ty f raw0 sels t s nm attrs ps b He Hs Hp <-. destruct (xml && is_nil ns) eqn:E.
  - apply Bool.andb_true_iff in E as [E1 E2]. destruct ns; [|discriminate].
    rewrite <- (tag_ok t s nm attrs true Hs). now apply (PcSelfClosed slc xml raw r _ t s).
  - rewrite <- (tag_ok t s nm attrs false Hs). apply (PcNamed slc xml raw r _ t s); cbn [e_selectors e_nodes e_raw]; auto.
    destruct xml; [|now left]. right. intros ->. discriminate.
Qed.

(** The language *)
Definition speaks (lang : option str) : Prop := match lang with Some l => ~ In 92 l | None => True end.
Definition lang_of (lang : option str) (n : node) : node := match lang with Some l => lang_node l n | None => n end.
Definition with_lang (l : str) (s : selector) : selector := mkSel (s_range s) (s_tag s) (s_items s ++ [lang_attr (r_end (s_range s)) l]).
Lemma no_backslash : forall l, ~ In 92 l -> Decodes true l l.
Proof.
  induction l as [|c l IH]; intros H; [constructor|]. constructor; [intros ->; apply H; now left|]. apply IH. intros Hin. apply H. now right.
Qed.
Lemma lang_label : forall l s nm attrs, ~ In 92 l -> sel_label src s = (nm, attrs) ->
  sel_label src (with_lang l s) = (nm, attrs ++ [(L "lang", Some l)]).
Proof.
  intros l s nm attrs Hl H. unfold sel_label in *. injection H as Hn Ha. f_equal; [exact Hn|]. rewrite <- Ha.
  unfold with_lang, ids_in, classes_in, attrs_in. cbn [s_items]. rewrite !flat_map_app. cbn [flat_map lang_attr]. rewrite !app_nil_r, map_app.
  unfold attributes_of. rewrite <- !app_assoc. do 3 f_equal. cbn [map]. unfold attr_pair. cbn [Doc.a_name Doc.a_value].
  unfold decoded. cbn [as_str]. rewrite (proj2 (unescape_spec _ _) (no_backslash l Hl)). reflexivity.
Qed.
Lemma lang_some : forall l sels t s, elt_tag slc sels = Some (t, s) -> elt_tag slc (lang_sels l sels) = Some (t, with_lang l s).
Proof.
  intros l sels t s. induction sels as [|s0 sels IH]; intros H; [discriminate|]. cbn [elt_tag lang_sels] in *. unfold uninferred.
  destruct (s_tag s0) eqn:E; cbn [tag_name] in H; [| |].
  all: try (injection H as <- <-; unfold with_lang; rewrite E; reflexivity).
  all: cbn [elt_tag]; rewrite E; cbn [tag_name]; now apply IH.
Qed.
Lemma lang_none : forall l sels, elt_tag slc sels = None -> lang_sels l sels = sels.
Proof.
  intros l sels. induction sels as [|s0 sels IH]; intros H; [reflexivity|]. cbn [elt_tag lang_sels] in *. unfold uninferred.
  destruct (s_tag s0); cbn [tag_name] in H; try discriminate; now rewrite IH.
Qed.

Lemma one_elt : forall sels l k c g p raw fi la r er cr ns ty f st kids, labelled sels l -> (k = KPara -> sels = []) ->
  let sels1 := name_sels slc st sels (name_for c g fi la k) in
  let name := first_name slc sels1 in
  let c' := inside name k in
  let raw' := match c' with CRaw => true | _ => false end in
  Forall2 (Matches (raw || raw')) (map_pos (pieces xml c' p name (raw || raw')) true kids) ns -> forall lang, speaks lang ->
  Matches raw (pieces xml c g p raw fi la (in_language lang (WElt k l kids))) (lang_of lang (NElt r (mkElt er sels1 cr ns ty f raw'))).
Proof.
  intros sels l k c g p raw fi la r er cr ns ty f st kids Hl Hk sels1 name c' raw' HK lang Hlang.
  assert (is_nil ns = is_nil kids) as Hn.
  { destruct kids as [|u kids]; cbn [map_pos] in HK; inversion HK; reflexivity. }
  destruct l as [given attrs].
  assert (name = match given with Some _ => given | None => match name_for c g fi la k with Named t => Some t | _ => None end end /\
          match name with Some t => exists s nm, elt_tag slc sels1 = Some (t, s) /\ sel_label src s = (nm, attrs) | None => elt_tag slc sels1 = None end) as [HN HE].
  { subst name sels1. destruct sels as [|s [|s' sels]]; [| |contradiction].
    - injection Hl as -> ->. unfold name_sels. cbn [first_name]. destruct (name_for c g fi la k) as [t| |]; cbn [first_name sel_name s_tag as_str tl elt_tag tag_name];
        (split; [reflexivity|]); [|reflexivity|reflexivity]. eexists _, _. split; reflexivity.
    - destruct Hl as [Hl _]. unfold name_sels. cbn [first_name]. pose proof Hl as Hl'. unfold sel_label in Hl'. injection Hl' as Hg Ha.
      destruct (sel_name slc s) as [t|] eqn:Es.
      + rewrite <- Hg. cbn [first_name]. rewrite Es. split; [reflexivity|]. exists s, given. split; [|exact Hl].
        unfold sel_name in Es. cbn [elt_tag]. destruct (s_tag s); try discriminate. injection Es as <-. reflexivity.
      + subst given. destruct (name_for c g fi la k) as [t| |] eqn:En.
        * cbn [first_name sel_name s_tag as_str elt_tag tag_name]. split; [reflexivity|]. eexists _, _. split; [reflexivity|].
          unfold sel_label. cbn [sel_name s_tag as_str]. f_equal. exact Ha.
        * exfalso. apply name_for_plain in En. discriminate (Hk En).
        * cbn [first_name]. rewrite Es. split; [reflexivity|]. unfold sel_name in Es. cbn [elt_tag]. destruct (s_tag s); try discriminate; reflexivity. }
  apply matches_inner in HK. destruct lang as [l|]; cbn [in_language lang_of lang_node with_selectors e_selectors e_range e_crange e_nodes e_type e_format_inline e_raw];
    cbn [pieces]; rewrite <- HN; fold c'; fold raw'; (split; [reflexivity|]); cbn [snd].
  - destruct name as [t|].
    + destruct HE as (s & nm & HE & Hs). eapply named_elt; eauto using lang_some, lang_label.
    + rewrite (lang_none l sels1 HE). apply PcUnnamed; assumption.
  - destruct name as [t|].
    + destruct HE as (s & nm & HE & Hs). eapply named_elt; eauto.
    + apply PcUnnamed; assumption.
Qed.

Lemma one_elt' : forall sels sels1 l k c g p raw fi la r er cr ns ty f st kids, labelled sels l -> (k = KPara -> sels = []) ->
  name_sels slc st sels (name_for c g fi la k) = sels1 ->
  let name := first_name slc sels1 in
  let c' := inside name k in
  let raw' := match c' with CRaw => true | _ => false end in
  Forall2 (Matches (raw || raw')) (map_pos (pieces xml c' p name (raw || raw')) true kids) ns -> forall lang, speaks lang ->
  Matches raw (pieces xml c g p raw fi la (in_language lang (WElt k l kids))) (lang_of lang (NElt r (mkElt er sels1 cr ns ty f raw'))).
Proof. intros sels sels1 l k c g p raw fi la r er cr ns ty f st kids H1 H2 <-. cbn zeta. now apply one_elt. Qed.

Lemma chain_elt : forall us kids, (forall c g p raw, Forall2 (Matches raw) (map_pos (pieces xml c g p raw) true us) (kids c g p)) ->
  forall sels path sels' ty c g p raw fi la r er cr f, Forall2 (Sel src) sels path -> length sels' = length sels -> (kind_of ty = KPara -> sels = []) ->
  forall lang, speaks lang ->
  Matches raw (pieces xml c g p raw fi la (in_language lang (nested (kind_of ty) path us))) (lang_of lang (chain slc sels' c g p fi la r er sels cr ty f false kids)).
Proof.
  intros us kids HK sels. induction sels as [|s sels IH]; intros path sels' ty c g p raw fi la r er cr f HS HL Hp lang Hlang.
  - inversion HS; subst. destruct sels'; [|discriminate].
    replace (chain _ _ _ _ _ _ _ _ _ _ _ _ _ _ _) with (NElt r (mkElt er (name_sels slc (r_start er) [] (name_for c g fi la (kind_of ty))) cr
        (kids (inside (first_name slc (name_sels slc (r_start er) [] (name_for c g fi la (kind_of ty)))) (kind_of ty)) p
              (first_name slc (name_sels slc (r_start er) [] (name_for c g fi la (kind_of ty))))) ty f
        (match inside (first_name slc (name_sels slc (r_start er) [] (name_for c g fi la (kind_of ty)))) (kind_of ty) with CRaw => true | _ => false end)))
      by (cbn [chain orb]; destruct (name_sels slc (r_start er) [] (name_for c g fi la (kind_of ty))) as [|? [|? ?]]; reflexivity).
    cbn [nested]. apply one_elt; [reflexivity|auto| |exact Hlang]. apply HK.
  - inversion HS as [|? l ? path' Hs HS']; subst. destruct sels' as [|x sels']; [discriminate|].
    assert (name_for c g fi la (kind_of ty) <> Plain) as Hpl by (intros E; apply name_for_plain in E; discriminate (Hp E)).
    destruct sels as [|s1 sels].
    + inversion HS'; subst. destruct sels'; [|discriminate]. cbn [nested].
      assert (exists s0, name_sels slc (r_start er) [s] (name_for c g fi la (kind_of ty)) = [s0]) as [s0 E].
      { unfold name_sels. cbn [first_name]. destruct (sel_name slc s); [eauto|]. destruct (name_for c g fi la (kind_of ty)); [eauto|contradiction|eauto]. }
      assert (Sel src s l -> labelled [s] l) as Hlab by (intros H; exact H).
      pose proof (one_elt [s] l (kind_of ty) c g p raw fi la r er cr
        (kids (inside (first_name slc (name_sels slc (r_start er) [s] (name_for c g fi la (kind_of ty)))) (kind_of ty)) p
              (first_name slc (name_sels slc (r_start er) [s] (name_for c g fi la (kind_of ty))))) ty f (r_start er) us (Hlab Hs) Hp (HK _ _ _ _) lang Hlang) as H1.
      cbn [chain orb]. rewrite E in *. exact H1.
    + assert (path' <> []) as Hne by (intros ->; inversion HS').
      destruct path' as [|l' path']; [contradiction|].
      change (nested (kind_of ty) (l :: l' :: path') us) with (WElt (kind_of ty) l [nested (kind_of ty) (l' :: path') us]).
      assert (exists s0, name_sels slc (r_start er) [s] (name_for c g fi la (kind_of ty)) = [s0] /\
                name_sels slc (r_start er) (s :: s1 :: sels) (name_for c g fi la (kind_of ty)) = s0 :: s1 :: sels) as (s0 & E & E').
      { unfold name_sels. cbn [first_name]. destruct (sel_name slc s); [eauto|]. destruct (name_for c g fi la (kind_of ty)); [eauto|contradiction|eauto]. }
      cbn [chain orb]. rewrite E'.
      assert (kind_of ty = KPara -> [s] = []) as Hp' by (intros H; discriminate (Hp H)).
      apply (one_elt' [s] [s0] l (kind_of ty) c g p raw fi la r er _ _ _ _ (r_start er)); [exact Hs|exact Hp'|exact E| |exact Hlang]. cbn [map_pos first_name]. constructor; [|constructor].
      refine (IH _ _ _ _ _ _ _ _ _ _ _ _ _ HS' _ _ None I); [cbn in HL; injection HL as HL; exact HL|intros H; discriminate (Hp H)].
Qed.

Lemma map_pos_map : forall A B C (f : bool -> bool -> B -> C) (g : A -> B) l first, map_pos f first (map g l) = map_pos (fun a b x => f a b (g x)) first l.
Proof.
  intros A B C f g l. induction l as [|x l IH]; intros first; [reflexivity|]. cbn [map map_pos]. rewrite IH. f_equal. now destruct l.
Qed.
Lemma Forall2_pos : forall A B C D (R : C -> D -> Prop) (f : bool -> bool -> A -> C) (h : bool -> bool -> B -> D) l m,
  Forall2 (fun x y => forall a b, R (f a b x) (h a b y)) l m -> forall first, Forall2 R (map_pos f first l) (map_pos h first m).
Proof.
  intros A B C D R f h l m H. induction H as [|x y l m Hx H IH]; intros first; [constructor|]. cbn [map_pos].
  replace (match m with [] => true | _ => false end) with (match l with [] => true | _ => false end) by (inversion H; reflexivity).
  constructor; auto.
Qed.

(** ** Texts *)
Lemma bare_text : forall raw r r' t0 e w, SliceOf src r' t0 ->
  Pieces slc xml raw (NTxt r (TText (mkText (FromSource r') false false e w)))
    (text_piece t0 (if w || (negb xml && (negb e || raw)) then t0 else text_html xml t0)).
Proof.
  intros raw r r' t0 e w Hs. set (t := mkText (FromSource r') false false e w). pose proof (slice_empty _ _ Hs) as E0.
  destruct t0 as [|c0 t0]; [now apply PcEmpty|]. cbn [is_nil] in E0. cbn [text_piece].
  assert (text_pieces slc t = [c0 :: t0]) as E1.
  { unfold text_pieces. cbn [t t_slice t_multiline]. rewrite E0. cbn [as_str]. now rewrite (slice_of _ _ _ Hs). }
  pose proof (PcText slc xml raw r t E0) as H.
  assert (text_value slc t = c0 :: t0) as E2 by (unfold text_value; rewrite E1; cbn [flat_map t t_unescape_in]; now rewrite app_nil_r).
  assert (text_blank slc t = ends_blank (c0 :: t0)) as E3 by (unfold text_blank; rewrite E1; reflexivity).
  rewrite E2, E3, esc_html in H. exact H.
Qed.

Lemma kids_value : forall (l : list str) (ds : list str), Forall2 (Decodes true) l ds -> flat_map (fun p => fst (unescape p)) l = concat ds.
Proof.
  intros l ds H. induction H as [|p d l ds Hp H IH]; [reflexivity|]. cbn [flat_map concat]. now rewrite IH, (proj2 (unescape_spec p d) Hp).
Qed.
Lemma lines_text : forall raw r esc body t blank, SliceOf src r body -> LinesOf esc body t blank ->
  Pieces slc xml raw (NTxt r (TText (mkText (FromSource r) true esc true false)))
    [Solid (if negb xml && raw then t else text_html xml t) blank].
Proof.
  intros raw r esc body t blank Hs (Hne & Hb & ds & <- & Hd). set (x := mkText (FromSource r) true esc true false).
  assert (slice_is_empty (t_slice x) = false) as E0.
  { cbn [t_slice x]. rewrite (slice_empty _ _ Hs). destruct body; [|reflexivity]. exfalso. apply Hne. reflexivity. }
  assert (text_pieces slc x = trim_multiline body) as E1 by (unfold text_pieces; rewrite E0; cbn [t_multiline x as_str t_slice]; now rewrite (slice_of _ _ _ Hs)).
  assert (text_value slc x = concat ds) as E2.
  { unfold text_value. rewrite E1. cbn [x t_unescape_in]. destruct esc; [now apply kids_value|]. subst ds.
    generalize (trim_multiline body). intros l. induction l as [|y l IH]; [reflexivity|]. cbn [flat_map concat]. now rewrite IH. }
  assert (text_blank slc x = blank) as E3 by (unfold text_blank; rewrite E1; apply Hb).
  pose proof (PcText slc xml raw r x E0) as H. rewrite E2, E3, esc_html in H. unfold written_raw in H. cbn [x t_raw t_escape_out negb orb andb] in H. exact H.
Qed.

Variable tag : mark -> str.
Variable st : special_tags.
Hypothesis Htag : forall k, tag (mark_of k) = special_tag_name st k.
Lemma apply_named : forall e ms, e_selectors e = [] -> e_raw e = false ->
  let e' := apply_tags e (map (fun m => Provided (tag m)) ms) in
  e_type e' = e_type e /\ e_raw e' = false /\ Forall2 (Sel src) (e_selectors e') (flat_map (named tag) ms).
Proof.
  intros e ms Hs Hr. cbn zeta.
  assert (forall loc, Forall2 (Sel src) (map (fun t => sel_with_tag (sel_empty loc) t) (filter (fun t => negb (slice_is_empty t)) (map (fun m => Provided (tag m)) ms)))
    (flat_map (named tag) ms)) as H.
  { intros loc. induction ms as [|m ms IH]; [constructor|]. cbn [map filter flat_map]. unfold named at 1. cbn [slice_is_empty].
    destruct (tag m) as [|c n]; cbn [is_nil negb app]; [exact IH|]. cbn [map]. constructor; [|exact IH]. split; [reflexivity|constructor]. }
  unfold apply_tags. destruct (filter _ _) as [|x l] eqn:E.
  - specialize (H 0). rewrite Hs. cbn [e_selectors with_selectors e_type e_raw tl]. auto.
  - rewrite Hs. specialize (H (r_start (e_range e))). cbn [e_selectors with_selectors e_type e_raw]. auto.
Qed.

(** [Good u n]: inference makes of [n] what [u] stands for. *)
Definition Good (u : written) (n : node) : Prop := forall c g p raw fi la lang, speaks lang ->
  Matches raw (pieces xml c g p raw fi la (in_language lang u)) (lang_of lang (resolve slc c g p fi la n)).
Lemma good_kids : forall us ns, Forall2 Good us ns -> forall c g p raw,
  Forall2 (Matches raw) (map_pos (pieces xml c g p raw) true us) (map_pos (resolve slc c g p) true ns).
Proof.
  intros us ns H c g p raw. apply Forall2_pos. induction H as [|u n us ns Hn H IH]; constructor; [|exact IH]. intros a b. exact (Hn c g p raw a b None I).
Qed.
Lemma node_pieces : forall n u, Is src tag u n -> Good u (special_node st n).
Proof.
  induction n as [r e IH|r t] using node_ind'; intros u HI c g p raw fi la lang Hlang.
  - assert (forall us, Forall2 (Is src tag) us (e_nodes e) -> forall c g p raw,
      Forall2 (Matches raw) (map_pos (pieces xml c g p raw) true us) (map_pos (resolve slc c g p) true (map (special_node st) (e_nodes e)))) as HK.
    { intros us HU c1 g1 p1 raw1. apply good_kids. revert IH. induction HU as [|u1 n1 us ns H1 HU IH2]; intros HF; [constructor|].
      inversion HF; subst. constructor; auto. }
    cbn [special_node resolve]. unfold with_nodes, with_content. cbn [e_selectors e_range e_crange e_type e_format_inline e_raw e_nodes].
    inversion HI as [path us r0 e0 Ho HS Hp Hr HU|k us r0 e0 Hk HS Hr HU|us r0 e0 Hk HS Hr HU| | | | | | | |]; subst.
    + assert (special_element st e = e) as ->.
      { unfold special_element. destruct (e_type e) as [| | |k|[]|]; try contradiction; reflexivity. }
      rewrite Hr. apply chain_elt; [intros; now apply HK|exact HS|reflexivity| |exact Hlang].
      intros H. apply kind_para in H. rewrite H in Hp. subst path. inversion HS. reflexivity.
    + unfold special_element. rewrite Hk. rewrite <- Htag. destruct (apply_named e [mark_of k] HS Hr) as (E1 & E2 & E3). cbn [map flat_map] in E1, E2, E3. rewrite app_nil_r in E3.
      rewrite E1, E2. rewrite Hk. change KOther with (kind_of (Doc.Special k)).
      apply chain_elt; [intros; now apply HK|exact E3|reflexivity|discriminate|exact Hlang].
    + unfold special_element. rewrite Hk. rewrite <- !Htag. cbn [mark_of].
      destruct (apply_named e [MCodeBlock; MCode] HS Hr) as (E1 & E2 & E3). cbn [map flat_map] in E1, E2, E3. rewrite app_nil_r in E3.
      rewrite E1, E2. rewrite Hk. change KOther with (kind_of (Multiline MLCode)).
      apply chain_elt; [intros; now apply HK|exact E3|reflexivity|discriminate|exact Hlang].
  - assert (lang_of lang (resolve slc c g p fi la (special_node st (NTxt r t))) = NTxt r t) as -> by now destruct lang.
    inversion HI as [| | |s t0 r0 Hw Hs|t0 r0 r' Hs|esc body t0 blank r0 Hs HL|t0 r0 r' Hs|t0 r0 r' Hs|t0 r0 r' Hs|g0 r0 Hs|r0 s Hs]; subst;
      (match goal with |- context [in_language lang ?x] => replace (in_language lang x) with x by now destruct lang end);
      cbn [pieces]; (split; [reflexivity|]); cbn [snd].
    + set (t := mkText (FromSource r) false true true false).
      assert (slice_is_empty (t_slice t) = false) as E0.
      { cbn [t_slice t]. rewrite (slice_empty _ _ Hs). pose proof (words_ne _ _ Hw). now destruct s. }
      assert (text_pieces slc t = [s]) as E1 by (unfold text_pieces; rewrite E0; cbn [t_multiline t as_str t_slice]; now rewrite (slice_of _ _ _ Hs)).
      assert (text_value slc t = t0) as E2.
      { unfold text_value. rewrite E1. cbn [flat_map t t_unescape_in]. rewrite app_nil_r.
        rewrite (proj2 (unescape_spec s t0) (words_decodes _ _ Hw)). reflexivity. }
      assert (text_blank slc t = false) as E3 by (unfold text_blank; rewrite E1; cbn [last]; now apply (words_blank s t0)).
      pose proof (PcText slc xml raw r t E0) as H. rewrite E2, E3, esc_html in H. unfold written_raw in H. cbn [t t_raw t_escape_out negb orb andb] in H. exact H.
    + apply (bare_text raw r r' t0 true false Hs).
    + now apply (lines_text raw r esc body).
    + pose proof (bare_text raw r r' t0 false false Hs) as H. cbn [negb orb] in H. rewrite Bool.andb_true_r in H. now destruct xml.
    + apply (bare_text raw r r' t0 false true Hs).
    + rewrite <- comment_html_ok. pose proof (PcComment slc xml raw r (FromSource r')) as H. cbn [as_str] in H. rewrite (slice_of _ _ _ Hs) in H. exact H.
    + pose proof (PcSpace slc xml raw r (SInline (Some (FromSource r)))) as H. cbn [space_value as_str] in H. now rewrite (slice_of _ _ _ Hs) in H.
    + destruct Hs as [->| ->]; apply (PcSpace slc xml raw r).
Qed.

(** *** A complete page *)
Lemma good_wrapped : forall name us ns crange, Forall2 Good us ns -> ~ In 92 name -> name <> [] ->
  Good (wrapped name us) (elt_node (page_element name crange ns)).
Proof.
  intros name us ns crange H Hn Hne c g p raw fi la lang Hlang. unfold elt_node, page_element, apply_tags, new_elt, with_content.
  cbn [filter slice_is_empty]. destruct name as [|c0 name]; [contradiction|]. cbn [is_nil negb e_selectors with_selectors e_range e_crange e_nodes e_type e_format_inline e_raw map resolve].
  change (wrapped (c0 :: name) us) with (nested (kind_of Unknown) [(Some (c0 :: name), [])] us).
  apply chain_elt; [now apply good_kids|constructor; [|constructor]|reflexivity|discriminate|exact Hlang].
  split; [reflexivity|constructor].
Qed.
Lemma top_name : forall u n, Is src tag u n -> forall names, written_as slc names (special_node st n) = is_named names u.
Proof.
  intros u n HI names.
  assert (forall sels path k us, Forall2 (Sel src) sels path ->
    match first_name slc sels with Some t => existsb (str_eqb (lower t)) names | None => false end = is_named names (nested k path us)) as H.
  { intros sels path k us H. destruct H as [|s [name attrs] sels path [Hs _] H]; [reflexivity|]. cbn [first_name]. unfold sel_label in Hs. injection Hs as Hs _.
    rewrite Hs. destruct path; reflexivity. }
  inversion HI as [path us r e Ho HS Hp Hr HU|k us r e Hk HS Hr HU|us r e Hk HS Hr HU| | | | | | | |]; subst; try reflexivity;
    cbn [special_node written_as]; unfold with_nodes, with_content; cbn [e_selectors].
  - replace (special_element st e) with e; [now apply H|]. unfold special_element. destruct (e_type e) as [| | |k|[]|]; try contradiction; reflexivity.
  - apply H. unfold special_element. rewrite Hk, <- Htag. destruct (apply_named e [mark_of k] HS Hr) as (_ & _ & E). cbn [map flat_map] in E. now rewrite app_nil_r in E.
  - apply H. unfold special_element. rewrite Hk, <- !Htag. destruct (apply_named e [MCodeBlock; MCode] HS Hr) as (_ & _ & E). cbn [map flat_map] in E. now rewrite app_nil_r in E.
Qed.
Lemma good_all : forall us ns, Forall2 (Is src tag) us ns -> Forall2 Good us (map (special_node st) ns).
Proof. intros us ns H. induction H; constructor; auto using node_pieces. Qed.
Lemma nested_not : forall k l l' path us, nested k (l :: l' :: path) us = WElt k l [nested k (l' :: path) us].
Proof. reflexivity. Qed.
Lemma head_kids : forall u n, Is src tag u n -> bare_head u -> is_named [L "head"] u = true ->
  exists e, element_with_tag_in slc [L "head"] (special_node st n) = Some e /\ Forall2 Good (contents u) (e_nodes e).
Proof.
  intros u n HI Hb Hh. destruct (Hb Hh) as (k & name & kids & -> & Hk).
  pose proof (top_name _ _ HI [L "head"]) as Ht. rewrite Hh in Ht. rewrite <- has_tag_written in Ht by (repeat constructor).
  unfold has_tag_in in Ht. destruct (element_with_tag_in slc [L "head"] (special_node st n)) as [e|] eqn:E; [|discriminate]. exists e. split; [reflexivity|].
  assert (forall path us k', nested k' path us = WElt k (name, []) kids -> kids = us) as H.
  { intros [|l [|l' path]] us k' E'; [injection E' as _ _ E'; now symmetry|injection E' as _ _ E'; now symmetry|].
    rewrite nested_not in E'. injection E' as <- _ <-. destruct path; destruct (Hk _ _ eq_refl). }
  cbn [contents].
  inversion HI as [path us r e0 Ho HS Hp Hr HU Eu|k1 us r e0 Hk1 HS Hr HU Eu|us r e0 Hk1 HS Hr HU Eu| | | | | | | |]; subst;
    apply H in Eu; subst kids; cbn [special_node element_with_tag_in] in E; unfold with_nodes, with_content in E; cbn [e_selectors] in E;
    destruct (e_selectors _) as [|s ss] in E; try discriminate; destruct (tag_name (s_tag s)) in E; try discriminate; destruct (existsb _ _) in E; try discriminate;
    injection E as <-; cbn [e_nodes]; now apply good_all.
Qed.
Lemma is_named_or : forall a names u, is_named (a :: names) u = is_named [a] u || is_named names u.
Proof. intros a names [k [[n|] attrs] kids| | | | | | | |]; try reflexivity. cbn [is_named existsb]. now rewrite Bool.orb_false_r. Qed.
Lemma good_split : forall us ns, Forall2 (Is src tag) us ns -> Forall bare_head us ->
  Forall2 Good (flat_map head_part us) (fst (split_page slc (map (special_node st) ns))) /\
  Forall2 Good (filter (fun u => negb (is_named (L "head" :: in_head) u)) us) (snd (split_page slc (map (special_node st) ns))).
Proof.
  intros us ns H. induction H as [|u n us ns Hu H IH]; intros HB; [repeat constructor|]. inversion HB as [|? ? B1 B2]; subst. destruct (IH B2) as [I1 I2].
  cbn [map split_page flat_map filter]. destruct (split_page slc (map (special_node st) ns)) as [hd bd]. cbn [fst snd] in I1, I2.
  unfold head_part at 1. rewrite (is_named_or (L "head") in_head u). destruct (is_named [L "head"] u) eqn:Eh.
  - destruct (head_kids u n Hu B1 Eh) as (e & -> & He). cbn [orb negb fst snd]. split; [|exact I2]. apply Forall2_app; assumption.
  - assert (element_with_tag_in slc [L "head"] (special_node st n) = None) as ->.
    { pose proof (top_name _ _ Hu [L "head"]) as Ht. rewrite Eh in Ht. rewrite <- has_tag_written in Ht by (repeat constructor).
      unfold has_tag_in in Ht. destruct (element_with_tag_in _ _ _); [discriminate|reflexivity]. }
    replace (has_tag_in slc metadata_tags (special_node st n)) with (is_named in_head u).
    2:{ rewrite <- (top_name _ _ Hu in_head). rewrite has_tag_written by (repeat constructor). reflexivity. }
    cbn [orb]. destruct (is_named in_head u); cbn [negb fst snd]; split; try assumption; cbn [app]; try constructor; auto using node_pieces.
Qed.
Lemma good_completed : forall us ns crange, Forall2 (Is src tag) us ns -> Forall bare_head us ->
  Forall2 Good (completed us) (complete_page slc crange (map (special_node st) ns)).
Proof.
  intros us ns crange H HB.
  assert (forall names, Forall (fun t => lower t = t) names -> existsb (has_tag_in slc names) (map (special_node st) ns) = existsb (is_named names) us) as E.
  { intros names Hn. clear HB. induction H as [|u n us ns Hu H IH]; [reflexivity|]. cbn [map existsb]. rewrite IH, has_tag_written by exact Hn. now rewrite (top_name _ _ Hu). }
  unfold completed, complete_page. rewrite !E by (repeat constructor). pose proof (good_all _ _ H) as HG.
  destruct (existsb (is_named [L "html"]) us); [exact HG|].
  destruct (existsb (is_named [L "body"]) us).
  - constructor; [|constructor]. apply good_wrapped; [exact HG|cbn; intuition discriminate|discriminate].
  - destruct (good_split us ns H HB) as [H1 H2]. destruct (split_page slc (map (special_node st) ns)) as [hd bd]. cbn [fst snd] in H1, H2.
    constructor; [|constructor]. apply good_wrapped; [|cbn; intuition discriminate|discriminate].
    constructor; [|constructor; [|constructor; [|constructor]]].
    + apply good_wrapped; [exact H1|cbn; intuition discriminate|discriminate].
    + intros c g p raw fi la lang _. replace (lang_of lang _) with (NTxt invalid_range (TSpace ParagraphEnd)) by now destruct lang.
      replace (in_language lang WBreak) with WBreak by now destruct lang. split; [reflexivity|]. apply (PcSpace slc xml raw).
    + apply good_wrapped; [exact H2|cbn; intuition discriminate|discriminate].
Qed.
End Src.

(** ** Conversion *)
Section Src2.
Variable src : str.
Notation slc := (source_slice src).

Variable tag : mark -> str.
Lemma is_ok : forall n u, Is src tag u n -> oknode slc n.
Proof.
  induction n as [r e IH|r t] using node_ind'; intros u HI.
  - assert (forall us, Forall2 (Is src tag) us (e_nodes e) -> Forall (oknode slc) (e_nodes e)) as HK.
    { intros us HU. revert IH. induction HU; intros HF; [constructor|]. inversion HF; subst. constructor; eauto. }
    inversion HI as [path us r0 e0 Ho HS Hp Hr HU|k us r0 e0 Hk HS Hr HU|us r0 e0 Hk HS Hr HU| | | | | | | |]; subst; constructor; try now apply (HK us).
    + unfold okelt. clear - HS. induction HS as [|s l ss ls [_ Hs] HS IH]; constructor; auto.
    + unfold okelt. rewrite HS. constructor.
    + unfold okelt. rewrite HS. constructor.
  - constructor. inversion HI as [| | |s t0 r0 Hw Hs|t0 r0 r' Hs|esc body t0 blank r0 Hs HL|t0 r0 r' Hs|t0 r0 r' Hs|t0 r0 r' Hs|g0 r0 Hs|r0 s Hs]; subst; try exact I;
      cbn [oktxt t_unescape_in]; try discriminate.
    + intros _. unfold text_pieces. destruct (slice_is_empty _); [constructor|]. cbn [t_multiline t_slice as_str].
      rewrite (slice_of _ _ _ Hs). constructor; [|constructor]. exists t0. now apply words_decodes.
    + intros ->. unfold text_pieces. destruct (slice_is_empty _); [constructor|]. cbn [t_multiline t_slice as_str].
      rewrite (slice_of _ _ _ Hs). destruct HL as (_ & _ & ds & _ & HF). clear - HF. induction HF as [|x y l l' H HF IH]; constructor; [exists y; exact H|exact IH].
Qed.

(** Documents that are built without an error, in either mode *)
Definition completes (cfg : config) : bool := match c_complete_page cfg with Some b => b | None => false end.
Definition plain_config (cfg : config) : Prop :=
  (forall k, tag (mark_of k) = special_tag_name (c_special cfg) k) /\ c_metadata cfg = None /\ speaks (c_lang cfg).

Variable alnum : chr -> bool.
Hypothesis Hal : ascii_ok alnum.
Variable failure : str -> parse_error.

Lemma runs_total : forall A (m : M A) (P : A -> Prop), runs m P -> Tot m -> FF m -> forall cfg, exists v, m (errors_new cfg) = (errors_new cfg, Ok v) /\ P v.
Proof.
  intros A m P HR HT HF cfg. set (e := mkErrs false [] [] false).
  assert (exists v, m e = (e, Ok v) /\ P v) as (v & E & HP).
  { destruct (HR e) as [H|(st & H)]; [exact H|]. specialize (HT e eq_refl). rewrite H in HT. discriminate. }
  assert (errors_new cfg = e \/ errors_new cfg = set_ff e) as [->| ->].
  { unfold errors_new. destruct (c_fail_fast cfg) as [[|]|]; auto. }
  - eauto.
  - specialize (HF e eq_refl). rewrite E in HF. destruct HF as (d & Ed & [[-> HF]|(d1 & d2 & -> & Hd & _)]); [eauto|].
    exfalso. unfold add_errs in Ed. apply (f_equal er_syntax) in Ed. cbn in Ed. destruct d1; [contradiction|discriminate].
Qed.

Theorem source_converts : forall us, Source tag src us -> forall cfg, plain_config cfg -> (completes cfg = true -> Forall bare_head us) ->
  exists ns o, convert (parser alnum failure) source_slice src cfg = Some (inl o) /\ Forall Single ns /\
    output_html slc cfg ns = (o, true) /\
    PiecesL slc (is_xml cfg) false (trim_spaces ns)
      (inner (map_pos (pieces (is_xml cfg) CSection None None false) true (document (completes cfg) (c_lang cfg) us))).
Proof.
  intros us HS cfg (Hsp & Hmd & Hlg) HB.
  destruct (source_document src alnum Hal tag us HS) as [E|(c & st & E & HC)]; [now apply document_live in E|].
  destruct (runs_total _ _ _ (HC (build_fuel c)) (from_ast_total slc c) (from_ast_ff slc c) cfg) as (ns & En & HI).
  fold (from_ast slc c) in En.
  set (cr := mkR (ct_start c) (ct_end c)).
  set (ns0 := if completes cfg then complete_page slc cr (map (special_node (c_special cfg)) ns) else map (special_node (c_special cfg)) ns).
  set (ns1 := resolve_all slc CSection None None ns0).
  assert (infer slc ns0 = Some ns1) as Einf by apply infer_resolves.
  assert (transform_document slc cfg cr ns = Some (apply_lang (c_lang cfg) ns1)) as Et.
  { unfold transform_document. rewrite Hmd.
    replace (match c_complete_page cfg with Some true => _ | _ => _ end) with ns0 by (unfold ns0, completes; destruct (c_complete_page cfg) as [[|]|]; reflexivity).
    rewrite Einf. reflexivity. }
  assert (Forall (oknode slc) (apply_lang (c_lang cfg) ns1)) as Hok.
  { apply (ok_transform slc cfg _ ns) in Et; [exact Et| |].
    - intros l El. rewrite El in Hlg. exists l. now apply no_backslash.
    - clear - HI. induction HI; constructor; auto. eapply is_ok; eauto. }
  pose proof (ok_output slc cfg _ Hok) as Ho. destruct (output_html slc cfg (apply_lang (c_lang cfg) ns1)) as [o b] eqn:Eo. cbn [snd] in Ho. subst b.
  exists (apply_lang (c_lang cfg) ns1), o. split; [|split; [|split; [exact Eo|]]].
  - unfold convert, convert_to_internal, prepare, document_parse, parser. rewrite E. unfold bind. rewrite En. cbn [ret]. fold cr.
    rewrite Et. cbn [ret]. replace (errors_empty (errors_new cfg)) with true by reflexivity. cbn [orb]. rewrite Eo.
    reflexivity.
  - apply P_Source.one_single. eapply P_Source.transform_single; exact Et.
  - apply matches_inner. unfold document. rewrite map_pos_map.
    assert (Forall2 (Good src (is_xml cfg)) (if completes cfg then completed us else us) ns0) as HG.
    { unfold ns0. destruct (completes cfg); [apply (good_completed src _ tag (c_special cfg) Hsp); auto|now apply (good_all src _ tag (c_special cfg) Hsp)]. }
    replace (apply_lang (c_lang cfg) ns1) with (map_pos (fun a b n => lang_of (c_lang cfg) (resolve slc CSection None None a b n)) true ns0).
    + apply Forall2_pos. clear - HG Hlg. induction HG as [|u n vs ms Hu HG IH]; constructor; auto.
    + unfold ns1, resolve_all, apply_lang, lang_of. destruct (c_lang cfg) as [l|]; [|reflexivity].
      generalize true ns0. clear. intros b ms. revert b. induction ms as [|n ms IH]; intros b; [reflexivity|]. cbn [map_pos map]. now rewrite IH.
Qed.

(** *** Without indentation *)
Theorem source_page : forall us, Source tag src us -> forall cfg, plain_config cfg -> (completes cfg = true -> Forall bare_head us) -> c_indent cfg = None ->
  convert (parser alnum failure) source_slice src cfg =
    Some (inl (doctype (completes cfg) ++ page (is_xml cfg) (document (completes cfg) (c_lang cfg) us))).
Proof.
  intros us HS cfg HC HB Hi. destruct (source_converts us HS cfg HC HB) as (ns & o & -> & Hns & Ho & Hps). do 2 f_equal.
  rewrite (output_pieces slc cfg Hi ns o _ Hns Hps Ho). unfold doctype, completes.
  destruct (c_complete_page cfg) as [[|]|]; reflexivity.
Qed.
(** *** With indentation *)
Theorem source_laid : forall us, Source tag src us -> forall cfg i, plain_config cfg -> (completes cfg = true -> Forall bare_head us) ->
  c_indent cfg = Some i -> all_ws i ->
  exists o, convert (parser alnum failure) source_slice src cfg = Some (inl (doctype (completes cfg) ++ o)) /\
    Laid (inner (map_pos (pieces (is_xml cfg) CSection None None false) true (document (completes cfg) (c_lang cfg) us))) o.
Proof.
  intros us HS cfg i HC HB Hi Hw. destruct (source_converts us HS cfg HC HB) as (ns & o & -> & Hns & Ho & Hps).
  destruct (output_laid slc cfg ltac:(intros j Hj; congruence) ns o _ Hns Hps Ho) as (o' & -> & HL). exists o'. split; [|exact HL].
  unfold doctype, completes. destruct (c_complete_page cfg) as [[|]|]; reflexivity.
Qed.
End Src2.

(** * Every HTML tree has a source. *)

From Verif Require Import Base Doc Config Errors Convert Parser SpecEscape SpecTree SpecInfer SpecWrite SpecExpress
  P_Base P_InferProps P_Forward P_Write.
From Coq Require Import Lia.

(** ** Spelling with escapes *)
Lemma hex_digit : forall d, d < 16 -> exists c, HexDigit c d.
Proof.
  intros d H. destruct (N.ltb_spec d 10) as [H1|H1]; [exists (48 + d)|exists (87 + d)]; constructor; lia.
Qed.
Lemma hex_num : forall n v, v < 16 ^ (N.of_nat (S n)) -> exists ds, HexNum ds v /\ length ds = S n.
Proof.
  induction n as [|n IH]; intros v H.
  - destruct (hex_digit v) as [c Hc]; [exact H|]. exists [c]. split; [now constructor|reflexivity].
  - rewrite Nat2N.inj_succ, N.pow_succ_r' in H.
    destruct (IH (v / 16)) as (ds & Hd & Hl); [apply N.div_lt_upper_bound; lia|].
    destruct (hex_digit (v mod 16)) as [c Hc]; [apply N.mod_upper_bound; discriminate|].
    exists (ds ++ [c]). split.
    + rewrite (N.div_mod v 16) at 1 by discriminate. now constructor.
    + rewrite app_length, Hl. cbn. lia.
Qed.
Lemma scalar_bound : forall v, is_scalar v = true -> v < 16 ^ (N.of_nat 6).
Proof. intros v H. unfold is_scalar in H. cbn. lia. Qed.
Lemma escape_char : forall c, is_scalar c = true -> exists e, EscSeq false e c /\ exists r, e = 92 :: r.
Proof.
  intros c H. destruct (hex_num 5 c (scalar_bound c H)) as (ds & Hd & Hl). exists (L "\u{" ++ ds ++ L "}"). split; [|eexists; reflexivity].
  apply EscUni; [lia|now constructor|exact H].
Qed.
Lemma spell : forall t, scalars t -> exists s, (forall p, Spelled p s t) /\ (t = [] -> s = []) /\ (t <> [] -> exists r, s = 92 :: r).
Proof.
  intros t H. induction H as [|c t Hc H (s & Hs & _)]; [exists []; repeat split; [intros; constructor|contradiction]|].
  destruct (escape_char c Hc) as (e & He & r & Er). exists (e ++ s). repeat split; [intros p; now constructor|discriminate|].
  intros _. rewrite Er. eexists. reflexivity.
Qed.

(** ** Attributes *)
Definition good_attr (a : str * option str) : Prop := fst a <> [] /\ scalars (fst a) /\ match snd a with Some v => scalars v | None => True end.
Lemma attr_source : forall a, good_attr a -> exists s, Attr s a.
Proof.
  intros [n v] (Hn & Hs & Hv). cbn [fst snd] in *. destruct (spell n Hs) as (s & Sp & _ & Ne). destruct (Ne Hn) as [r Er].
  destruct v as [v|].
  - destruct (spell v Hv) as (w & Sw & _). exists (s ++ L "=" ++ (34 :: w ++ [34])). apply AtValue; [subst s; discriminate|apply Sp|apply VaDouble, Sw].
  - exists s. apply AtName; [subst s; discriminate|apply Sp].
Qed.
Lemma attrs_source : forall l, Forall good_attr l -> exists s, Attrs s l.
Proof.
  intros l H. induction H as [|a l Ha H (s & Hs)]; [exists []; constructor|]. destruct (attr_source a Ha) as [x Hx].
  exists (x ++ [32] ++ s). apply AsMore; [exact Hx|discriminate|constructor; [reflexivity|constructor]|exact Hs].
Qed.
Lemma attr_list_source : forall l, Forall good_attr l -> exists s, AttrList s l.
Proof.
  intros l H. destruct (attrs_source l H) as [s Hs]. exists (L "[" ++ [] ++ s ++ [] ++ L "]"). apply AlSome; [constructor|exact Hs|constructor].
Qed.
Lemma word_ws : forall c, 33 <= c < 128 -> is_whitespace c = false.
Proof. intros c H. unfold is_whitespace. lia. Qed.
Lemma step_source : forall name attrs, Forall name_char name -> ends_alnum name -> (forall c r, name = c :: r -> ~ 48 <= c <= 57) ->
  Forall good_attr attrs -> exists s, Path s [(Some name, attrs)] /\ solid s.
Proof.
  intros name attrs H1 H2 H3 H4. destruct (attr_list_source attrs H4) as [al Hal].
  exists ((name ++ [] ++ al) ++ [] ++ L ">"). assert (name <> []) as Hne by (destruct H2 as (r & c & -> & _); destruct r; discriminate).
  split.
  - apply PaOne, StSelector; [|constructor]. change attrs with (attributes_of [] [] attrs). apply SelOf; [now apply TgName|constructor|exact Hal|].
    destruct name; [contradiction|discriminate].
  - destruct name as [|c name]; [contradiction|]. exists c. eexists. split; [reflexivity|].
    inversion H1 as [|? ? Hc _]; subst. unfold name_char, ascii_alnum in Hc. apply word_ws. destruct Hc as [Hc|Hc]; [lia|].
    cbn in Hc. lia.
Qed.

(** ** Trees *)
Fixpoint as_written (h : html) : written :=
  match h with
  | HElt name attrs kids => WElt KLine (Some name, attrs) (map as_written kids)
  | HText t => WText t
  | HComment t => WComment t
  end.
Section html_ind.
  Variable P : html -> Prop.
  Hypothesis H1 : forall name attrs kids, Forall P kids -> P (HElt name attrs kids).
  Hypothesis H2 : forall t, P (HText t).
  Hypothesis H3 : forall t, P (HComment t).
  Fixpoint html_ind' (h : html) : P h :=
    match h with
    | HElt name attrs kids =>
        H1 name attrs kids ((fix all l : Forall P l := match l with [] => Forall_nil P | x :: l => Forall_cons x (html_ind' x) (all l) end) kids)
    | HText t => H2 t
    | HComment t => H3 t
    end.
End html_ind.

Definition texty (h : html) : bool := match h with HText _ => true | _ => false end.
Lemma items_source : forall kids, Forall (fun h => exists s, forall tag, Item tag (texty h) s (as_written h)) kids ->
  forall free, (free = true \/ forall x r, kids = x :: r -> ~ is_text x) -> (forall a x y b, kids = a ++ x :: y :: b -> ~ (is_text x /\ is_text y)) ->
  exists s, forall tag, Items tag free s (map as_written kids).
Proof.
  intros kids H. induction H as [|h kids (s & Hs) H IH]; intros free Hf Hn; [exists []; constructor|].
  destruct (IH (negb (texty h))) as [s' Hs'].
  - destruct h as [name attrs ks|t|t]; [now left| |now left]. right. intros x r -> Hx. apply (Hn [] (HText t) x r eq_refl). split; [exact I|exact Hx].
  - intros a x y b ->. apply (Hn (h :: a) x y b). reflexivity.
  - exists ([] ++ s ++ s'). intros tag. apply (IsCons tag free (texty h) [] s (as_written h) s' (map as_written kids)); [constructor|apply Hs| |apply Hs'].
    intros E. destruct Hf as [->|Hf]; [reflexivity|]. destruct h; try discriminate. exfalso. now apply (Hf _ _ eq_refl).
Qed.
Lemma item_source : forall h, Fine h -> exists s, forall tag, Item tag (texty h) s (as_written h).
Proof.
  induction h as [name attrs kids IH|t|t] using html_ind'; intros HF; inversion HF as [? ? ? F1 F2 F3 F4 F5 F6 F7|? Hne Hsc|? C1 C2 C3 C4 C5]; subst.
  - destruct (step_source name attrs F1 F2 F3 F4) as (p & Hp & _).
    assert (Forall (fun h => exists s, forall tag, Item tag (texty h) s (as_written h)) kids) as HK by (rewrite Forall_forall in *; auto).
    destruct (items_source kids HK true) as [s Hs]; [now left|exact F7|].
    exists (L "<(" ++ [] ++ p ++ s ++ [] ++ L ")>"). intros tag.
    apply (ItElement tag [] p [(Some name, attrs)] s _ []); [constructor|exact Hp|apply RwItems, Hs|constructor].
  - destruct (spell t Hsc) as (s & Sp & _ & Ne). destruct (Ne Hne) as [r Er]. exists s. intros tag. apply ItText. split.
    + constructor; [subst s; discriminate|apply Sp].
    + intros c Hc [r' E]. rewrite Er in E. injection E as <- _. cbn in Hc. intuition discriminate.
  - exists (L "<!" ++ t ++ L "!>"). intros tag. now apply ItComment.
Qed.

Lemma element_source : forall h, Fine h -> is_element h -> exists s, (forall tag, Element tag true s [as_written h]) /\ solid s.
Proof.
  intros [name attrs kids|t|t] HF He; try contradiction. inversion HF as [? ? ? F1 F2 F3 F4 F5 F6 F7| |]; subst.
  destruct (step_source name attrs F1 F2 F3 F4) as (p & Hp & c & r & -> & Hc).
  destruct (items_source kids ltac:(eapply Forall_impl; [|exact F6]; apply item_source) true (or_introl eq_refl) F7) as [s Hs].
  exists ((c :: r) ++ s ++ []). split; [|exists c; eexists; split; [reflexivity|exact Hc]]. intros tag.
  replace (as_written _) with (nested KLine [(Some name, attrs)] (map as_written kids ++ [])) by (cbn [nested as_written]; now rewrite app_nil_r).
  apply (ElLine tag [] [] (c :: r) [(Some name, attrs)] s (map as_written kids) [] []); [constructor|exact Hp|apply RwItems, Hs|constructor].
Qed.

(** Elements in lines of their own *)
Fixpoint spread (seen : bool) (us : list written) : list written :=
  match us with
  | [] => []
  | u :: us' => break seen ++ u :: spread true us'
  end.
Lemma lines_source : forall hs h para seen open, Forall Fine (h :: hs) -> Forall is_element (h :: hs) ->
  exists s, (forall tag, Lines tag para seen open s (spread seen (map as_written (h :: hs)))) /\ solid s.
Proof.
  induction hs as [|h' hs IH]; intros h para seen open HF HE.
  - inversion HF; inversion HE; subst. destruct (element_source h) as (s & Hs & So); auto.
    exists s. split; [intros tag; now apply (LsElement tag para seen open true)|exact So].
  - inversion HF as [|? ? F1 F2]; inversion HE as [|? ? E1 E2]; subst. destruct (element_source h) as (s & Hs & So); auto.
    destruct (IH h' para true true F2 E2) as (s' & Hs' & _).
    exists (s ++ [10] ++ s'). split.
    + intros tag. apply (LsElements tag para seen open true s [as_written h] [10] s' (spread true (map as_written (h' :: hs)))); [apply Hs| |apply Hs'].
      exists [], []. repeat split; constructor.
    + destruct So as (c & r & -> & Hc). exists c. eexists. split; [reflexivity|exact Hc].
Qed.
Lemma forest_source : forall hs, Forall Fine hs -> Forall is_element hs ->
  exists src, forall tag, Source tag src match hs with [] => [WBreak] | _ => spread false (map as_written hs) end.
Proof.
  intros [|h hs] HF HE.
  - exists ([] ++ [] ++ []). intros tag. apply SrcOf; try constructor. reflexivity.
  - destruct (lines_source hs h true false false HF HE) as (s & Hs & So). exists ([] ++ s ++ []). intros tag. apply SrcOf; [constructor|now right|apply Hs|constructor].
Qed.

(** ** Their HTML *)
Section Out.
Variable xml : bool.
Lemma drop_true_none : forall l, Forall (fun x => fst x = false) l -> drop_true l = l.
Proof. intros l H. destruct H as [|[b ps] l Hb H]; [reflexivity|]. cbn in Hb. subst b. reflexivity. Qed.
Lemma inner_none : forall l, Forall (fun x => fst x = false) l -> inner l = flat_map snd l.
Proof.
  intros l H. unfold inner. rewrite (drop_true_none l H). rewrite drop_true_none by now apply Forall_rev. now rewrite rev_involutive.
Qed.
Definition text_of (ps : list piece) : str := flat_map (fun p => match p with Solid s _ => s | Gap w => w end) ps.
Definition all_solid (ps : list piece) : Prop := Forall (fun p => match p with Solid _ b => b = false | Gap _ => False end) ps.
Lemma spaced_solid : forall ps b qs, all_solid ps -> ps <> [] -> spaced b (ps ++ qs) = text_of ps ++ spaced false qs.
Proof.
  intros ps. induction ps as [|p ps IH]; intros b qs H Hn; [contradiction|]. inversion H as [|? ? Hp H']; subst. destruct p as [s b'|w]; [|contradiction]. subst b'.
  cbn [app spaced text_of flat_map]. destruct ps as [|p ps]; [now rewrite app_nil_r|]. rewrite IH; [|exact H'|discriminate]. now rewrite <- app_assoc.
Qed.

Definition Shows (raw : bool) (x : bool * list piece) (h : html) : Prop :=
  fst x = false /\ all_solid (snd x) /\ snd x <> [] /\ text_of (snd x) = serial xml raw h.
Lemma shows_all : forall raw l hs, Forall2 (Shows raw) l hs -> Forall (fun x => fst x = false) l /\
  all_solid (flat_map snd l) /\ text_of (flat_map snd l) = flat_map (serial xml raw) hs.
Proof.
  intros raw l hs H. induction H as [|x h l hs (H1 & H2 & _ & H3) H (I1 & I2 & I3)]; [repeat constructor|]. repeat split.
  - now constructor.
  - cbn [flat_map]. apply Forall_app. split; assumption.
  - cbn [flat_map]. unfold text_of in *. rewrite flat_map_app, H3, I3. reflexivity.
Qed.
Lemma raw_inside : forall name k, match inside (Some name) k with CRaw => true | _ => false end = raw_text name.
Proof.
  intros name k. unfold raw_text. pose proof (inside_raw (Some name) k) as H. destruct (match inside (Some name) k with CRaw => true | _ => false end).
  - destruct (proj1 H eq_refl) as [E|E]; injection E as ->; reflexivity.
  - symmetry. apply Bool.orb_false_iff. split; destruct (str_eqb name _) eqn:E; try reflexivity; apply str_eqb_eq in E; subst name;
      discriminate (proj2 H ltac:(auto)).
Qed.
Lemma hyphens_same : forall t, (forall a b, t <> a ++ L "--" ++ b) -> (forall a, t <> a ++ L "-") -> hyphens t = t.
Proof.
  induction t as [|c t IH]; intros H1 H2; [reflexivity|]. cbn [hyphens]. rewrite IH.
  - destruct (N.eqb_spec c 45) as [->|]; [|reflexivity]. destruct t as [|d t]; [destruct (H2 [] eq_refl)|].
    destruct (N.eqb_spec d 45) as [->|]; [destruct (H1 [] t eq_refl)|reflexivity].
  - intros a b ->. now apply (H1 (c :: a) b).
  - intros a ->. now apply (H2 (c :: a)).
Qed.
Lemma starts_not : forall p t, ~ starts p t -> starts_with p t = false.
Proof.
  intros p t H. destruct (starts_with p t) eqn:E; [|reflexivity]. destruct H. apply starts_with_spec in E as [r ->]. now exists r.
Qed.
Lemma comment_same : forall t, ~ starts (L ">") t -> ~ starts (L "->") t -> (forall a b, t <> a ++ L "--" ++ b) -> (forall a, t <> a ++ L "-") ->
  comment_html t = L "<!--" ++ t ++ L "-->".
Proof. intros t H1 H2 H3 H4. unfold comment_html. now rewrite (hyphens_same t H3 H4), (starts_not _ _ H1), (starts_not _ _ H2). Qed.
Lemma shows : forall h, Fine h -> forall c g p raw fi la, Shows raw (pieces xml c g p raw fi la (as_written h)) h.
Proof.
  induction h as [name attrs kids IH|t|t] using html_ind'; intros HF c g p raw fi la; inversion HF as [? ? ? F1 F2 F3 F4 F5 F6 F7|? Hne Hsc|? C1 C2 C3 C4 C5]; subst.
  - cbn [as_written pieces serial]. rewrite raw_inside. set (c' := inside (Some name) KLine). set (raw' := raw || raw_text name).
    assert (forall first, Forall2 (Shows raw') (map_pos (pieces xml c' p (Some name) raw') first (map as_written kids)) kids) as HK.
    { clear F5 F7 HF. induction kids as [|h kids IHk]; intros first; [constructor|]. cbn [map map_pos]. inversion IH; inversion F6; subst. constructor; auto. }
    destruct (shows_all _ _ _ (HK true)) as (K1 & K2 & K3). rewrite (inner_none _ K1).
    replace (is_nil (map as_written kids)) with (is_nil kids) by now destruct kids.
    unfold Shows. cbn [fst snd serial]. fold raw'. split; [reflexivity|]. unfold tag_html. destruct (xml && is_nil kids) eqn:Ex.
    + split; [repeat constructor|]. split; [discriminate|]. cbn [text_of flat_map]. now rewrite app_nil_r.
    + destruct (negb xml && html_void_name name) eqn:Ev.
      * apply Bool.andb_true_iff in Ev as [_ Ev]. specialize (F5 Ev). subst kids.
        split; [repeat constructor|]. split; [discriminate|]. cbn [map map_pos flat_map app text_of]. now rewrite app_nil_r.
      * split; [constructor; [reflexivity|apply Forall_app; split; [exact K2|repeat constructor]]|]. split; [discriminate|].
        cbn [text_of flat_map]. unfold text_of in *. rewrite flat_map_app, K3. cbn [flat_map]. rewrite app_nil_r, <- !app_assoc. reflexivity.
  - cbn [as_written pieces serial]. unfold Shows. cbn [fst snd serial]. split; [reflexivity|]. split; [repeat constructor|]. split; [discriminate|].
    cbn [text_of flat_map]. apply app_nil_r.
  - cbn [as_written pieces serial]. unfold Shows. cbn [fst snd serial]. split; [reflexivity|]. split; [repeat constructor|]. split; [discriminate|].
    cbn [text_of flat_map]. rewrite app_nil_r. now apply comment_same.
Qed.

Lemma page_forest : forall hs, Forall Fine hs ->
  page xml match hs with [] => [WBreak] | _ => spread false (map as_written hs) end = join_with [32] (map (serial xml false) hs).
Proof.
  intros hs HF. destruct hs as [|h hs]; [reflexivity|].
  assert (forall h hs, Forall Fine (h :: hs) -> forall first seen,
    exists b0 x rest, map_pos (pieces xml CSection None None false) first (spread seen (map as_written (h :: hs))) = b0 ++ x :: rest /\
      fst x = false /\ fst (List.last (x :: rest) (true, [])) = false /\
      (b0 = if seen then [(true, [Gap [32]])] else []) /\
      forall b, spaced b (flat_map snd (x :: rest)) = join_with [32] (map (serial xml false) (h :: hs))) as H.
  { clear h hs HF. intros h hs. revert h. induction hs as [|h' hs IH]; intros h HF first seen; inversion HF as [|? ? F1 F2]; subst.
    - exists (if seen then [(true, [Gap [32]])] else []), (pieces xml CSection None None false (if seen then false else first) true (as_written h)), [].
      destruct (shows h F1 CSection None None false (if seen then false else first) true) as (S1 & S2 & S3 & S4).
      assert (forall b, spaced b (flat_map snd [pieces xml CSection None None false (if seen then false else first) true (as_written h)]) = serial xml false h) as E.
      { intros b. cbn [flat_map]. rewrite (spaced_solid _ b [] S2 S3), S4. cbn [spaced]. apply app_nil_r. }
      split; [destruct seen; reflexivity|]. auto.
    - destruct (IH h' F2 false true) as (b0 & x & rest & E & X1 & X2 & X3 & X4). rewrite X3 in E. clear X3 b0.
      set (la := false). set (fi := if seen then false else first).
      destruct (shows h F1 CSection None None false fi la) as (S1 & S2 & S3 & S4).
      exists (if seen then [(true, [Gap [32]])] else []), (pieces xml CSection None None false fi la (as_written h)), ((true, [Gap [32]]) :: x :: rest).
      assert (forall b, spaced b (flat_map snd (pieces xml CSection None None false fi la (as_written h) :: (true, [Gap [32]]) :: x :: rest)) =
                join_with [32] (map (serial xml false) (h :: h' :: hs))) as E'.
      { intros b. cbn [flat_map snd]. rewrite (spaced_solid _ b _ S2 S3), S4. cbn [app spaced].
        change (snd x ++ flat_map snd rest) with (flat_map snd (x :: rest)). rewrite X4. reflexivity. }
      split; [|auto]. cbn [map spread]. cbn [map spread break app] in E.
      destruct seen; cbn [break app map_pos] in *; unfold fi, la; rewrite E; reflexivity. }
  destruct (H h hs HF true false) as (b0 & x & rest & E & X1 & X2 & X3 & X4). unfold page. rewrite E, X3. cbn [app].
  assert (inner (x :: rest) = flat_map snd (x :: rest)) as ->; [|apply X4].
  unfold inner. rewrite (surjective_pairing x) at 1. rewrite X1. cbn [drop_true].
  assert (drop_true (rev ((false, snd x) :: rest)) = rev ((false, snd x) :: rest)) as ->.
  { destruct (@exists_last _ ((false, snd x) :: rest) ltac:(discriminate)) as (l & y & El). rewrite El, rev_app_distr. cbn [rev app].
    replace (fst y) with false; [|]. 2:{ rewrite <- X2. rewrite (surjective_pairing x), X1, El. now rewrite last_last. }
    destruct y as [[|] ps]; [|reflexivity]. exfalso. rewrite (surjective_pairing x), X1, El, last_last in X2. discriminate. }
  now rewrite rev_involutive, (surjective_pairing x), X1.
Qed.
End Out.

Theorem forest : forall alnum failure, ascii_ok alnum -> forall hs, Forall Fine hs -> Forall is_element hs ->
  exists src, forall tag cfg, plain_config tag cfg -> completes cfg = false -> c_lang cfg = None -> c_indent cfg = None ->
    convert (parser alnum failure) SpecSource.source_slice src cfg = Some (inl (join_with [32] (map (serial (is_xml cfg) false) hs))).
Proof.
  intros alnum failure Hal hs HF HE. destruct (forest_source hs HF HE) as [src HS]. exists src. intros tag cfg HC Hc Hl Hi.
  rewrite (source_page src tag alnum Hal failure _ (HS tag) cfg HC ltac:(congruence) Hi). rewrite Hc, Hl. unfold document, doctype.
  rewrite (map_ext _ (fun u => u)), map_id by (now intros []). now rewrite page_forest.
Qed.

(** * The reader on well-formed pieces. *)
From Coq Require Import ZifyBool ZifyNat ZifyN.
From Verif Require Import Base OutText SpecMarkup SpecHtml P_Base P_OutText.

(** ** Character references, compositionally *)
Inductive Refs (ref : str -> option chr) : str -> str -> Prop :=
| RfNil : Refs ref [] []
| RfPlain : forall c s t, c <> 38 -> Refs ref s t -> Refs ref (c :: s) (c :: t)
| RfRef : forall name x s t, ~ In 59 name -> ref name = Some x -> Refs ref s t ->
    Refs ref (38 :: name ++ 59 :: s) (x :: t).

Lemma Refs_app : forall ref a x b y, Refs ref a x -> Refs ref b y -> Refs ref (a ++ b) (x ++ y).
Proof.
  intros ref a x b y H Hb. induction H as [|c s t Hc H IH|name z s t Hn Hr H IH]; cbn [app].
  - exact Hb.
  - now constructor.
  - rewrite <- app_assoc. cbn [app]. now constructor.
Qed.

Lemma Refs_read : forall ref s t, Refs ref s t -> forall f, (length s < f)%nat ->
  read_refs ref f s = Some t.
Proof.
  intros ref s t H. induction H as [|c s t Hc H IH|name z s t Hn Hr H IH]; intros f Hf.
  - destruct f; [lia|]. reflexivity.
  - destruct f; [lia|]. cbn [read_refs length] in *. destruct (N.eqb_spec c 38); [congruence|].
    now rewrite IH by lia.
  - destruct f; [lia|]. cbn [read_refs length] in *. rewrite app_length in Hf. cbn [length] in Hf.
    change (38 =? 38) with true. cbn iota. rewrite split_once_app by exact Hn. rewrite Hr.
    now rewrite IH by lia.
Qed.

Lemma Refs_esc_form : forall ref q c e, esc_form ref q c e -> Refs ref e [c].
Proof.
  intros ref q c e H. destruct H as [H1 H2 H3 H4|name Hr Hn Hi].
  - repeat constructor. exact H1.
  - apply RfRef; auto. constructor.
Qed.

Lemma Refs_plain : forall ref s, ~ In 38 s -> Refs ref s s.
Proof.
  induction s as [|c s IH]; intros H; constructor; [intros ->; apply H; now left|].
  apply IH. intros Hi. apply H. now right.
Qed.

Lemma readable_esc_form : forall xml q c, readable xml c = true ->
  esc_form (ref_of xml) q c (esc_char xml q c).
Proof.
  intros [|] q c H; unfold readable in H; cbn [ref_of].
  - now apply xml_esc_form.
  - apply andb_true_iff in H as [H1 H2]. now apply html_esc_form.
Qed.

Lemma Refs_flat : forall xml q s, Forall (fun c => readable xml c = true) s ->
  Refs (ref_of xml) (flat_map (esc_char xml q) s) s.
Proof.
  intros xml q s H. induction H as [|c s Hc H IH]; cbn [flat_map]; [constructor|].
  change (c :: s) with ([c] ++ s). apply Refs_app; [|exact IH].
  apply (Refs_esc_form _ q). now apply readable_esc_form.
Qed.

Lemma flat_inert : forall xml q s x, In x (flat_map (esc_char xml q) s) ->
  x <> 60 /\ x <> 62 /\ (q = true -> x <> 34).
Proof.
  intros xml q s x. rewrite <- esc_str_flat. destruct xml; [apply xml_inert|apply html_inert].
Qed.

(** ** take_while *)
Lemma take_while_app : forall p a b, Forall (fun c => p c = true) a ->
  (forall c r, b = c :: r -> p c = false) -> take_while p (a ++ b) = (a, b).
Proof.
  intros p a b H Hb. induction H as [|c a Hc H IH]; cbn [app take_while].
  - destruct b as [|c b]; [reflexivity|]. cbn. now rewrite (Hb c b eq_refl).
  - now rewrite Hc, IH.
Qed.

(** ** Attributes *)
Inductive AttrStr (ref : str -> option chr) : str * option str -> str -> Prop :=
| ASbare : forall n, good_attr n -> AttrStr ref (n, None) (32 :: n)
| ASval : forall n raw v, good_attr n -> ~ In 34 raw -> Refs ref raw v ->
    AttrStr ref (n, Some v) (32 :: n ++ 61 :: 34 :: raw ++ [34]).

Definition tag_end (sc : bool) : str := if sc then L "/>" else L ">".

Lemma attr_name_not : forall c, attr_name_char c = true ->
  html_ws c = false /\ c <> 47 /\ c <> 62 /\ c <> 61 /\ c <> 34.
Proof.
  intros c. unfold attr_name_char. rewrite negb_true_iff, !orb_false_iff. intros H.
  repeat split; first [lia|tauto].
Qed.

Lemma attr_follow : forall ref attrs ss, Forall2 (AttrStr ref) attrs ss -> forall sc rest,
  exists c r, concat ss ++ tag_end sc ++ rest = c :: r /\ (c = 32 \/ c = 47 \/ c = 62).
Proof.
  intros ref attrs ss H sc rest. destruct H as [|a s attrs ss Ha H].
  - destruct sc; cbn; do 2 eexists; (split; [reflexivity|]); auto.
  - destruct Ha; cbn; do 2 eexists; (split; [reflexivity|]); auto.
Qed.

Lemma read_attrs_ok : forall ref attrs ss, Forall2 (AttrStr ref) attrs ss ->
  forall sc rest f, (length attrs < f)%nat ->
  read_attrs ref f (concat ss ++ tag_end sc ++ rest) = Some (attrs, sc, rest).
Proof.
  intros ref attrs ss H. induction H as [|a s attrs ss Ha H IH]; intros sc rest f Hf.
  - destruct f; [lia|]. destruct sc; reflexivity.
  - destruct f; [lia|]. cbn [length] in Hf.
    destruct (attr_follow _ _ _ H sc rest) as (c & r & Hcr & Hc).
    specialize (IH sc rest f ltac:(lia)).
    cbn [concat]. rewrite <- app_assoc.
    set (k := concat ss ++ tag_end sc ++ rest) in *.
    assert (exists n tl, s ++ k = 32 :: n ++ tl /\ good_attr n /\ n = fst a /\
      (forall c' r', tl = c' :: r' -> attr_name_char c' = false) /\
      ((tl = k /\ snd a = None) \/ exists raw v, snd a = Some v /\ ~ In 34 raw /\ Refs ref raw v /\
          tl = 61 :: 34 :: raw ++ 34 :: k)) as (n & tl & E & Hn & En & Htl & Hcase).
    { destruct Ha as [n Hn|n raw v Hn Hr Hv].
      - exists n, k. cbn. repeat split; auto; try apply Hn.
        intros c' r' E. rewrite Hcr in E. injection E as <- _.
        destruct Hc as [->|[-> | ->]]; reflexivity.
      - exists n, (61 :: 34 :: raw ++ 34 :: k). cbn. repeat split; auto; try apply Hn.
        + rewrite <- !app_assoc. cbn. rewrite <- app_assoc. reflexivity.
        + intros c' r' E. injection E as <- _. reflexivity.
        + right. exists raw, v. auto. }
    rewrite E. destruct Hn as [Hne Hall]. destruct n as [|c0 n0]; [congruence|].
    assert (attr_name_char c0 = true) as Hc0 by (inversion Hall; auto).
    pose proof (attr_name_not _ Hc0) as (W1 & W2 & W3 & W4 & W5).
    cbn [read_attrs].
    assert (take_while html_ws (32 :: (c0 :: n0) ++ tl) = ([32], (c0 :: n0) ++ tl)) as Ew.
    { change (32 :: (c0 :: n0) ++ tl) with ([32] ++ (c0 :: n0) ++ tl). apply take_while_app.
      - repeat constructor.
      - cbn. intros c' r' E'. injection E' as <- _. exact W1. }
    rewrite Ew. cbn [app].
    destruct (N.eqb_spec c0 62); [congruence|]. destruct (N.eqb_spec c0 47); [congruence|].
    cbn [is_nil]. change (c0 :: n0 ++ tl) with ((c0 :: n0) ++ tl).
    rewrite take_while_app by (auto).
    cbn [is_nil]. destruct a as [an av]. cbn [fst snd] in *. subst an.
    destruct Hcase as [[-> ->]|(raw & v & -> & Hr & Hv & ->)].
    + rewrite IH. rewrite Hcr. destruct Hc as [->|[-> | ->]]; reflexivity.
    + rewrite split_once_app by exact Hr. rewrite (Refs_read _ _ _ Hv) by lia. now rewrite IH.
Qed.

(** ** Marks *)

(** [MarkOf ref i s]: [s] is read as the mark [i], whatever follows. *)
Definition MarkOf (ref : str -> option chr) (i : item) (s : str) : Prop :=
  (exists r, s = 60 :: r) /\
  (match i with IText _ => False | _ => True end) /\
  forall f rest, (length s <= f)%nat -> read_mark ref f (s ++ rest) = Some (i, rest).

Lemma MarkOf_comment : forall ref b, ~ occurs (L "--") b -> ~ (exists r, b = r ++ L "-") ->
  MarkOf ref (IComment b) (L "<!--" ++ b ++ L "-->").
Proof.
  intros ref b H1 H2. split; [eexists; reflexivity|]. split; [exact I|]. intros f rest _.
  unfold read_mark. rewrite <- app_assoc.
  assert (strip_prefix (L "<!--") (L "<!--" ++ (b ++ L "-->") ++ rest) = Some ((b ++ L "-->") ++ rest))
    as -> by (now apply strip_prefix_some).
  rewrite <- app_assoc. rewrite until_close_ok by assumption. reflexivity.
Qed.

Lemma MarkOf_doctype : forall ref, MarkOf ref IDoctype (L "<!DOCTYPE html>").
Proof.
  intros ref. split; [eexists; reflexivity|]. split; [exact I|]. intros f rest _. reflexivity.
Qed.

Lemma letter_not : forall c, ascii_letter c = true -> c <> 33 /\ c <> 47.
Proof. intros c. unfold ascii_letter. lia. Qed.

Lemma MarkOf_close : forall ref t, good_tag t -> MarkOf ref (IClose t) (L "</" ++ t ++ L ">").
Proof.
  intros ref t [(c & r & -> & Hc) Hall]. split; [eexists; reflexivity|]. split; [exact I|].
  intros f rest _. unfold read_mark. rewrite <- app_assoc.
  change (strip_prefix (L "<!--") (L "</" ++ ((c :: r) ++ L ">") ++ rest)) with (@None (list N)).
  change (strip_prefix (L "<!DOCTYPE html>") (L "</" ++ ((c :: r) ++ L ">") ++ rest)) with (@None (list N)).
  assert (strip_prefix (L "</") (L "</" ++ ((c :: r) ++ L ">") ++ rest) = Some (((c :: r) ++ L ">") ++ rest))
    as -> by (now apply strip_prefix_some).
  cbn iota beta. rewrite <- app_assoc. rewrite take_while_app; [|exact Hall|].
  - cbn. now rewrite Hc.
  - cbn. intros c' r' E. injection E as <- _. reflexivity.
Qed.

Lemma strip_second : forall x p c s, x <> c -> strip_prefix (60 :: x :: p) (60 :: c :: s) = None.
Proof.
  intros x p c s H. cbn [strip_prefix]. rewrite N.eqb_refl. destruct (N.eqb_spec x c); congruence.
Qed.

Lemma MarkOf_open : forall ref t attrs ss sc, good_tag t -> Forall2 (AttrStr ref) attrs ss ->
  MarkOf ref (IOpen t attrs sc) (L "<" ++ t ++ concat ss ++ tag_end sc).
Proof.
  intros ref t attrs ss sc [(c & r & -> & Hc) Hall] H. split; [eexists; reflexivity|]. split; [exact I|].
  intros f rest Hf. unfold read_mark. rewrite <- !app_assoc.
  destruct (letter_not c Hc) as [N1 N2].
  assert (strip_prefix (L "<!--") (L "<" ++ (c :: r) ++ concat ss ++ tag_end sc ++ rest) = None) as ->.
  { apply (strip_second 33). congruence. }
  assert (strip_prefix (L "<!DOCTYPE html>") (L "<" ++ (c :: r) ++ concat ss ++ tag_end sc ++ rest) = None) as ->.
  { apply (strip_second 33). congruence. }
  assert (strip_prefix (L "</") (L "<" ++ (c :: r) ++ concat ss ++ tag_end sc ++ rest) = None) as ->.
  { apply (strip_second 47). congruence. }
  assert (strip_prefix (L "<") (L "<" ++ (c :: r) ++ concat ss ++ tag_end sc ++ rest)
          = Some ((c :: r) ++ concat ss ++ tag_end sc ++ rest)) as -> by (now apply strip_prefix_some).
  rewrite take_while_app; [|exact Hall|].
  - cbn iota. rewrite Hc. rewrite (read_attrs_ok _ _ _ H).
    + reflexivity.
    + assert (length attrs <= length (concat ss))%nat as Hl.
      { clear Hf. induction H as [|a s attrs ss Ha H IH]; cbn; [lia|]. rewrite app_length.
        assert (1 <= length s)%nat by (destruct Ha; cbn; lia). lia. }
      rewrite !app_length in Hf. change (length (L "<")) with 1%nat in Hf. cbn [length] in Hf. lia.
  - intros c' r' E. destruct (attr_follow _ _ _ H sc rest) as (d & r'' & Hd & Hcase).
    rewrite E in Hd. injection Hd as -> _. destruct Hcase as [->|[-> | ->]]; reflexivity.
Qed.

(** ** Token sequences *)
Definition tok := (item * str)%type.

(** Text token: written without "<", and read as the text. *)
Definition TextOf (ref : str -> option chr) (k : tok) : Prop :=
  exists t, fst k = IText t /\ ~ In 60 (snd k) /\ Refs ref (snd k) t.

(** Raw text token. *)
Definition RawOf (k : tok) : Prop := fst k = IText (snd k).

Definition kind_in (html : bool) (i : item) : content_kind :=
  match i with
  | IOpen name _ _ => if html then content_kind_of name else KMarkup
  | _ => KMarkup
  end.

Definition toks_str (l : list tok) : str := flat_map snd l.

Inductive GoodToks (html : bool) (ref : str -> option chr) : list tok -> Prop :=
| GNil : GoodToks html ref []
| GMark : forall i s l, MarkOf ref i s -> kind_in html i = KMarkup ->
    GoodToks html ref l -> GoodToks html ref ((i, s) :: l)
| GText : forall k l, TextOf ref k -> GoodToks html ref l -> GoodToks html ref (k :: l)
| GRcdata : forall t attrs sc s body l, html = true ->
    good_tag t -> MarkOf ref (IOpen t attrs sc) s -> content_kind_of t = KRcdata ->
    Forall (TextOf ref) body ->
    GoodToks html ref l ->
    GoodToks html ref ((IOpen t attrs sc, s) :: body ++ (IClose t, L "</" ++ t ++ L ">") :: l)
| GRaw : forall t attrs sc s body l, html = true ->
    good_tag t -> MarkOf ref (IOpen t attrs sc) s -> content_kind_of t = KRawText ->
    Forall RawOf body -> ~ occurs (L "</") (toks_str body) ->
    GoodToks html ref l ->
    GoodToks html ref ((IOpen t attrs sc, s) :: body ++ (IClose t, L "</" ++ t ++ L ">") :: l).

Lemma GoodToks_app : forall html ref a b, GoodToks html ref a -> GoodToks html ref b ->
  GoodToks html ref (a ++ b).
Proof.
  intros html ref a b Ha Hb. induction Ha; cbn [app]; rewrite <- ?app_assoc; cbn [app];
    try (constructor; assumption).
  exact Hb.
Qed.

Lemma toks_str_app : forall a b, toks_str (a ++ b) = toks_str a ++ toks_str b.
Proof. intros. unfold toks_str. apply flat_map_app. Qed.

(** Concatenated text of text items. *)
Definition item_text (i : item) : str := match i with IText t => t | _ => [] end.
Definition toks_text (l : list tok) : str := flat_map (fun k => item_text (fst k)) l.

Lemma merge_texts : forall (l : list tok) acc rest,
  Forall (fun k => exists t, fst k = IText t) l ->
  merge_from acc (map fst l ++ rest) = merge_from (acc ++ toks_text l) rest.
Proof.
  induction l as [|[i s] l IH]; intros acc rest H; cbn.
  - now rewrite app_nil_r.
  - inversion H as [|? ? [t Ht] H']; subst. cbn in Ht. subst i. cbn.
    rewrite IH by exact H'. f_equal. now rewrite <- app_assoc.
Qed.

Lemma Refs_nil_l : forall ref t, Refs ref [] t -> t = [].
Proof. intros ref t H. inversion H; reflexivity. Qed.
Lemma Refs_nil_r : forall ref s, Refs ref s [] -> s = [].
Proof. intros ref s H. inversion H; reflexivity. Qed.

Lemma flush_refs : forall ref s t, Refs ref s t -> flush t = match s with [] => [] | _ => [IText t] end.
Proof.
  intros ref s t H. destruct s as [|c s].
  - now apply Refs_nil_l in H as ->.
  - destruct t; [apply Refs_nil_r in H; discriminate|reflexivity].
Qed.

(** A pending run of text before a mark (or the end). *)
Lemma read_run : forall html ref f run t s, Refs ref run t -> ~ In 60 run ->
  (s = [] \/ exists r, s = 60 :: r) ->
  run <> [] ->
  read_loop html ref (S f) (run ++ s) =
  match read_loop html ref f s with Some l => Some (IText t :: l) | None => None end.
Proof.
  intros html ref f run t s H Hn Hs Hne. destruct run as [|c run]; [congruence|].
  cbn [read_loop app]. destruct (N.eqb_spec c 60) as [->|Hc]; [exfalso; apply Hn; now left|].
  change (c :: run ++ s) with ((c :: run) ++ s).
  rewrite take_while_app.
  - now rewrite (Refs_read _ _ _ H) by lia.
  - apply Forall_forall. intros x Hx. apply negb_true_iff, N.eqb_neq. intros ->. auto.
  - intros c' r' E. destruct Hs as [->|[r ->]]; [discriminate|]. injection E as <- _. reflexivity.
Qed.

Lemma at_end_tag_ok : forall t rest, good_tag t -> at_end_tag t (L "</" ++ t ++ L ">" ++ rest) = true.
Proof.
  intros t rest [_ Hall]. unfold at_end_tag.
  assert (strip_prefix (L "</") (L "</" ++ t ++ L ">" ++ rest) = Some (t ++ L ">" ++ rest)) as ->
    by (now apply strip_prefix_some).
  rewrite take_while_app; [|exact Hall|].
  - unfold eq_ignore_case. now rewrite str_eqb_refl.
  - cbn. intros c' r' E. injection E as <- _. reflexivity.
Qed.

Lemma until_end_tag_ok : forall t rest body, good_tag t -> ~ occurs (L "</") body ->
  until_end_tag t (body ++ L "</" ++ t ++ L ">" ++ rest) = Some (body, L "</" ++ t ++ L ">" ++ rest).
Proof.
  intros t rest body Ht. set (k := L "</" ++ t ++ L ">" ++ rest).
  assert (exists r, k = 60 :: 47 :: r) as [kr Hk] by (eexists; reflexivity).
  pose proof (at_end_tag_ok t rest Ht) as Hend. fold k in Hend.
  induction body as [|c body IH]; intros Hn.
  - cbn [app]. rewrite Hk in *. cbn [until_end_tag]. now rewrite Hend.
  - cbn [app until_end_tag].
    assert (at_end_tag t (c :: body ++ k) = false) as ->.
    { unfold at_end_tag. destruct (strip_prefix (L "</") (c :: body ++ k)) as [r|] eqn:E; [|reflexivity].
      exfalso. apply strip_prefix_some in E. rewrite Hk in E. cbn in E. injection E as -> E.
      destruct body as [|d body].
      - discriminate.
      - cbn in E. injection E as -> E. apply Hn. exists [], body. reflexivity. }
    rewrite IH.
    + reflexivity.
    + intros (p & q & E). apply Hn. exists (c :: p), q. cbn. now rewrite E.
Qed.


Lemma Forall_TextOf_refs : forall ref l, Forall (TextOf ref) l ->
  ~ In 60 (toks_str l) /\ Refs ref (toks_str l) (toks_text l).
Proof.
  intros ref l H. induction H as [|[i s] l (t & E & Hn & Hr) H [IH1 IH2]]; cbn in *.
  - split; [tauto|constructor].
  - subst i. split.
    + rewrite in_app_iff. tauto.
    + now apply Refs_app.
Qed.

Lemma Forall_RawOf_text : forall l, Forall RawOf l -> toks_text l = toks_str l.
Proof.
  intros l H. induction H as [|[i s] l E H IH]; cbn in *; [reflexivity|].
  unfold RawOf in E. cbn in E. subst i. cbn. f_equal. exact IH.
Qed.

Lemma not_occurs_no_lt : forall s, ~ In 60 s -> ~ occurs (L "</") s.
Proof.
  intros s H (p & q & ->). apply H. rewrite in_app_iff. right. now left.
Qed.

Lemma read_toks : forall html ref l, GoodToks html ref l ->
  forall run t f, Refs ref run t -> ~ In 60 run ->
  (length (run ++ toks_str l) < f)%nat ->
  read_loop html ref f (run ++ toks_str l) = Some (merge_from t (map fst l)).
Proof.
  intros html ref l H.
  (* A mark after a pending run. *)
  assert (forall i s tl sl run t f l',
    MarkOf ref i s ->
    read_special html ref i tl = Some (sl, l') ->
    forall its, (forall f', (length l' < f')%nat -> read_loop html ref f' l' = Some its) ->
    (length l' <= length tl)%nat ->
    Refs ref run t -> ~ In 60 run -> (length (run ++ s ++ tl) < f)%nat ->
    read_loop html ref f (run ++ s ++ tl) = Some (flush t ++ i :: sl ++ its)) as Hmark.
  { intros i s tl sl run t f l' HM Hsp its Hits Hlen Hr Hn Hf.
    destruct HM as ([r Es] & Hi & HM).
    assert (forall g, (length (s ++ tl) < g)%nat ->
              read_loop html ref g (s ++ tl) = Some (i :: sl ++ its)) as Hg.
    { intros g Hg. destruct g; [lia|]. cbn [read_loop].
      destruct (s ++ tl) as [|c0 s0] eqn:E0.
      { subst s. discriminate. }
      assert (c0 = 60) as -> by (subst s; injection E0 as <- _; reflexivity).
      change (60 =? 60) with true. cbn iota. rewrite <- E0.
      assert (length (s ++ tl) <= g)%nat as Hlg by (rewrite E0; cbn [length] in *; lia).
      rewrite app_length in Hlg.
      rewrite HM by lia. rewrite Hsp.
      rewrite Hits; [reflexivity|]. assert (1 <= length s)%nat by (subst s; cbn; lia). lia. }
    destruct run as [|c run].
    - cbn [app] in *. apply Refs_nil_l in Hr as ->. cbn [flush app]. apply Hg. exact Hf.
    - destruct f; [lia|]. rewrite (read_run html ref f (c :: run) t); auto; [|right; exists (r ++ tl); subst s; reflexivity|congruence].
      rewrite Hg by (rewrite (app_length (c :: run)) in Hf; cbn [length] in Hf; lia).
      rewrite (flush_refs _ _ _ Hr). reflexivity. }
  induction H as [|i s l HM Hk H IH|k l (t0 & E & Hn0 & Hr0) H IH
                 |t0 attrs sc s body l Hh Ht HM Hk Hb H IH|t0 attrs sc s body l Hh Ht HM Hk Hb Hno H IH];
    intros run t f Hr Hn Hf.
  - cbn [toks_str flat_map map merge_from] in *. rewrite app_nil_r in *.
    destruct run as [|c run].
    + apply Refs_nil_l in Hr as ->. destruct f; [cbn in Hf; lia|]. reflexivity.
    + destruct f; [lia|]. pose proof (read_run html ref f (c :: run) t [] Hr Hn ltac:(auto) ltac:(congruence)) as R.
      rewrite app_nil_r in R. rewrite R. destruct f; [cbn in Hf; lia|]. cbn [read_loop].
      now rewrite (flush_refs _ _ _ Hr).
  - change (toks_str ((i, s) :: l)) with (s ++ toks_str l) in *.
    rewrite (Hmark i s (toks_str l) [] run t f (toks_str l)) with (its := merge_from [] (map fst l)).
    + cbn [map fst]. destruct HM as (_ & Hi & _). destruct i; try reflexivity; contradiction.
    + exact HM.
    + unfold read_special. unfold kind_in in Hk. destruct i; try reflexivity. now rewrite Hk.
    + intros f' Hf'. apply (IH [] []); auto; [constructor].
    + lia.
    + exact Hr.
    + exact Hn.
    + exact Hf.
  - destruct k as [i s]. cbn [fst snd] in *. subst i.
    change (toks_str ((IText t0, s) :: l)) with (s ++ toks_str l) in *. cbn [map fst merge_from].
    rewrite app_assoc in *. apply IH.
    + now apply Refs_app.
    + rewrite in_app_iff. tauto.
    + exact Hf.
  - destruct (Forall_TextOf_refs _ _ Hb) as [Hb1 Hb2].
    set (k := (IClose t0, L "</" ++ t0 ++ L ">") :: l) in *.
    change (toks_str ((IOpen t0 attrs sc, s) :: body ++ k)) with (s ++ toks_str (body ++ k)) in *.
    cbn [map fst merge_from]. rewrite map_app, merge_texts
      by (eapply Forall_impl; [|exact Hb]; intros ? (? & ? & _); eauto).
    cbn [app]. unfold k at 2. cbn [map fst merge_from].
    assert (toks_str (body ++ k) = toks_str body ++ L "</" ++ t0 ++ L ">" ++ toks_str l) as Ek.
    { rewrite toks_str_app. unfold k. cbn [toks_str flat_map snd]. now rewrite <- !app_assoc. }
    rewrite (Hmark (IOpen t0 attrs sc) s _ (flush (toks_text body)) run t f (L "</" ++ t0 ++ L ">" ++ toks_str l))
      with (its := IClose t0 :: merge_from [] (map fst l)); auto.
    + rewrite Ek. unfold read_special. rewrite Hh, Hk.
      rewrite until_end_tag_ok by (auto using not_occurs_no_lt).
      now rewrite (Refs_read _ _ _ Hb2) by lia.
    + intros f' Hf'. pose proof (MarkOf_close ref t0 Ht) as HC.
      pose proof (Hmark _ _ (toks_str l) [] [] [] f' (toks_str l) HC) as HH.
      rewrite <- !app_assoc in HH. cbn [app] in HH.
      apply HH; auto; try constructor.
      * intros f'' Hf''. apply (IH [] []); auto. constructor.
    + rewrite Ek. rewrite (app_length (toks_str body)). lia.
  - pose proof (Forall_RawOf_text _ Hb) as Eb.
    set (k := (IClose t0, L "</" ++ t0 ++ L ">") :: l) in *.
    change (toks_str ((IOpen t0 attrs sc, s) :: body ++ k)) with (s ++ toks_str (body ++ k)) in *.
    cbn [map fst merge_from]. rewrite map_app, merge_texts
      by (eapply Forall_impl; [|exact Hb]; intros ? Ho; unfold RawOf in Ho; eauto).
    cbn [app]. unfold k at 2. cbn [map fst merge_from].
    assert (toks_str (body ++ k) = toks_str body ++ L "</" ++ t0 ++ L ">" ++ toks_str l) as Ek.
    { rewrite toks_str_app. unfold k. cbn [toks_str flat_map snd]. now rewrite <- !app_assoc. }
    rewrite (Hmark (IOpen t0 attrs sc) s _ (flush (toks_text body)) run t f (L "</" ++ t0 ++ L ">" ++ toks_str l))
      with (its := IClose t0 :: merge_from [] (map fst l)); auto.
    + rewrite Ek. unfold read_special. rewrite Hh, Hk.
      rewrite until_end_tag_ok by auto. now rewrite Eb.
    + intros f' Hf'. pose proof (MarkOf_close ref t0 Ht) as HC.
      pose proof (Hmark _ _ (toks_str l) [] [] [] f' (toks_str l) HC) as HH.
      rewrite <- !app_assoc in HH. cbn [app] in HH.
      apply HH; auto; try constructor.
      * intros f'' Hf''. apply (IH [] []); auto. constructor.
    + rewrite Ek. rewrite (app_length (toks_str body)). lia.
Qed.

(** * Sources with other line ends (for C56). *)

From Verif Require Import Base SpecEscape SpecInfer SpecTree SpecMarkup SpecWrite SpecPlain SpecLineEnds P_Base P_EscapeDoc P_Unknown P_WriteItems P_Plain P_Parts.
From Coq Require Import Lia.

Lemma crlf_app : forall a b, crlf (a ++ b) = crlf a ++ crlf b.
Proof. intros a b. unfold crlf. apply flat_map_app. Qed.
Lemma crlf_id : forall s, ~ In 10 s -> crlf s = s.
Proof.
  induction s as [|c s IH]; intros H; [reflexivity|]. unfold crlf. cbn [flat_map]. fold (crlf s).
  destruct (c =? 10) eqn:E; [apply N.eqb_eq in E; subst c; exfalso; apply H; now left|]. rewrite IH by (intros Hi; apply H; now right). reflexivity.
Qed.
Lemma crlf_nil : forall s, crlf s = [] -> s = [].
Proof. intros [|c s] H; [reflexivity|]. unfold crlf in H. cbn [flat_map] in H. now destruct (c =? 10). Qed.
Lemma crlf_ws : forall s, ws s -> ws (crlf s).
Proof.
  intros s H. apply Forall_forall. intros c Hc. unfold crlf in Hc. apply in_flat_map in Hc as (d & Hd & Hc). unfold ws in H. rewrite Forall_forall in H.
  specialize (H d Hd). destruct (d =? 10) eqn:E; [|destruct Hc as [<-|[]]; exact H]. destruct Hc as [<-|[<-|[]]]; reflexivity.
Qed.
Lemma crlf_solid : forall s, solid s -> solid (crlf s).
Proof.
  intros s (c & r & -> & Hc). exists c, (crlf r). split; [|exact Hc]. unfold crlf. cbn [flat_map].
  destruct (c =? 10) eqn:E; [apply N.eqb_eq in E; subst c; discriminate|reflexivity].
Qed.
Lemma crlf_solids : forall s, s = [] \/ solid s -> crlf s = [] \/ solid (crlf s).
Proof. intros s [->|H]; [now left|right; now apply crlf_solid]. Qed.
Lemma blanks_no : forall s, blanks s -> ~ In 10 s.
Proof. intros s H Hi. unfold blanks in H. rewrite Forall_forall in H. now destruct (H _ Hi). Qed.
Lemma crlf_blanks : forall s, blanks s -> crlf s = s.
Proof. intros s H. now apply crlf_id, blanks_no. Qed.
Lemma gap_no : forall s, gap s -> ~ In 10 s.
Proof. intros s H Hi. unfold gap in H. rewrite Forall_forall in H. specialize (H _ Hi). cbn in H. intuition discriminate. Qed.
Lemma crlf_gap : forall s, gap s -> crlf s = s.
Proof. intros s H. now apply crlf_id, gap_no. Qed.
Lemma crlf_newline : forall s, Newline s -> Newline (crlf s).
Proof.
  intros s (a & b & -> & Ha & Hb). exists (a ++ [13]), b. rewrite !crlf_app, (crlf_blanks a Ha), (crlf_blanks b Hb). split; [|split; [|exact Hb]].
  - change (crlf [10]) with [13; 10]. now rewrite <- !app_assoc.
  - apply Forall_app. split; [exact Ha|]. repeat constructor. discriminate.
Qed.
(** A line feed, and a carriage return after it *)
Lemma newline_more : forall s cr, Newline s -> cr = [] \/ cr = [13] -> Newline (s ++ cr).
Proof.
  intros s cr (a & b & -> & Ha & Hb) Hcr. exists a, (b ++ cr). split; [now rewrite <- !app_assoc|]. split; [exact Ha|]. apply Forall_app. split; [exact Hb|].
  destruct Hcr as [->| ->]; repeat constructor. discriminate.
Qed.

(** ** Text *)
Lemma spelled_no : forall plain s t, Spelled plain s t -> (forall c, plain c -> c <> 10 \/ ~ In 10 t) -> ~ In 10 s.
Proof.
  induction 1 as [|c s t Hc H IH|e c s t He H IH]; intros Hp Hi; [exact Hi| |].
  - destruct Hi as [->|Hi]; [destruct (Hp 10 Hc) as [|Hn]; [contradiction|apply Hn; now left]|].
    apply IH; [|exact Hi]. intros d Hd. destruct (Hp d Hd) as [|Hn]; [now left|right]. intros Hj. apply Hn. now right.
  - apply in_app_iff in Hi as [Hi|Hi]; [now destruct (esc_chars e c (EscSeq_weaken e c He) 10 Hi)|].
    apply IH; [|exact Hi]. intros d Hd. destruct (Hp d Hd) as [|Hn]; [now left|right]. intros Hj. apply Hn. now right.
Qed.
Lemma spelled_solid : forall (plain : chr -> Prop) s t, (forall c, plain c -> is_whitespace c = false) -> Spelled plain s t -> ~ In 10 s.
Proof. intros plain s t Hp H. apply (spelled_no _ _ _ H). intros c Hc. left. specialize (Hp c Hc). intros ->. discriminate. Qed.
Lemma words_no : forall s t, Words s t -> ~ In 10 s.
Proof.
  induction 1 as [s t _ H|s t g s' t' _ H _ Hg _ IH]; [apply (spelled_solid _ _ _ (fun c => @proj2 _ _) H)|].
  rewrite !in_app_iff. pose proof (spelled_solid _ _ _ (fun c => @proj2 _ _) H). pose proof (blanks_no g Hg). tauto.
Qed.

(** ** Selectors *)
Lemma tag_no : forall s n, Tag s n -> ~ In 10 s.
Proof.
  intros s n [m H _ _| |]; cbn; [|intuition discriminate|tauto]. intros Hi. rewrite Forall_forall in H. specialize (H _ Hi).
  destruct H as [H|H]; [unfold ascii_alnum in H; lia|cbn in H; intuition discriminate].
Qed.
Lemma class_no : forall c, Forall class_char c -> ~ In 10 c.
Proof. intros c H Hi. rewrite Forall_forall in H. now destruct (H _ Hi). Qed.
Lemma marks_no : forall s ids classes, Marks s ids classes -> ~ In 10 s.
Proof.
  induction 1 as [|c s ids classes Hc _ _ IH|c s ids classes Hc _ _ IH]; [tauto| |]; rewrite !in_app_iff;
    pose proof (class_no c Hc); cbn; intuition discriminate.
Qed.
Lemma value_crlf : forall s t, Value s t -> ~ In 10 t -> ~ In 10 s.
Proof.
  intros s t [s' t' H|s' t' H|s' t' _ H] Hn; cbn [In]; rewrite ?in_app_iff.
  - pose proof (spelled_no _ _ _ H (fun _ _ => or_intror Hn)). cbn; intuition discriminate.
  - pose proof (spelled_no _ _ _ H (fun _ _ => or_intror Hn)). cbn; intuition discriminate.
  - apply (spelled_solid _ _ _ (fun c => @proj2 _ _) H).
Qed.
Lemma attr_crlf : forall s a, Attr s a -> steady_attr a -> ~ In 10 s.
Proof.
  intros s a [s' t _ H|s' t v w _ H Hv] Ha; pose proof (spelled_solid _ _ _ (fun c => @proj2 _ _) H) as Hs; [exact Hs|].
  rewrite !in_app_iff. pose proof (value_crlf v w Hv Ha). cbn; intuition discriminate.
Qed.
Lemma attrs_crlf : forall s l, Attrs s l -> Forall steady_attr l -> Attrs (crlf s) l.
Proof.
  induction 1 as [|s a H|s a w s' l H Hw Hw' H' IH]; intros Hl; [constructor| |].
  - apply Forall_inv in Hl. rewrite crlf_id by now apply (attr_crlf s a). now constructor.
  - rewrite !crlf_app, (crlf_id s) by (apply Forall_inv in Hl; now apply (attr_crlf s a)). apply AsMore; [exact H| |now apply crlf_ws|apply IH; now apply Forall_inv_tail in Hl].
    intros E. now apply crlf_nil in E.
Qed.
Lemma attr_list_crlf : forall s l, AttrList s l -> Forall steady_attr l -> AttrList (crlf s) l.
Proof.
  intros s l [|w s' l' w' Hw H Hw'] Hl; [constructor|]. rewrite !crlf_app. change (crlf (L "[")) with (L "["). change (crlf (L "]")) with (L "]").
  apply AlSome; [now apply crlf_ws|now apply attrs_crlf|now apply crlf_ws].
Qed.
Lemma selector_crlf : forall s l, Selector s l -> steady_label l -> Selector (crlf s) l.
Proof.
  intros s l [tg name mk ids classes al l' Ht Hm Hl Hn] H. rewrite !crlf_app, (crlf_id tg), (crlf_id mk) by eauto using tag_no, marks_no.
  apply SelOf; [exact Ht|exact Hm| |].
  - apply attr_list_crlf; [exact Hl|]. unfold steady_label, attributes_of in H. cbn [snd] in H. apply Forall_app in H as [_ H]. now apply Forall_app in H as [_ H].
  - intros E. apply Hn. apply app_eq_nil in E as [-> E]. apply app_eq_nil in E as [-> E]. apply crlf_nil in E. now subst.
Qed.
Lemma step_crlf : forall s l, Step s l -> steady_label l -> Step (crlf s) l.
Proof.
  intros s l [s' l' g Hs Hg|] H; [|exact StNone]. rewrite !crlf_app, (crlf_gap g Hg). change (crlf (L ">")) with (L ">"). apply StSelector; [now apply selector_crlf|exact Hg].
Qed.
Lemma path_crlf : forall s path, Path s path -> Forall steady_label path -> Path (crlf s) path.
Proof.
  induction 1 as [s l Hs|s l g s' path Hs Hg H IH]; intros Hl.
  - apply PaOne. apply step_crlf; [exact Hs|now apply Forall_inv in Hl].
  - rewrite !crlf_app, (crlf_gap g Hg). apply PaMore; [apply step_crlf; [exact Hs|now apply Forall_inv in Hl]|exact Hg|apply IH; now apply Forall_inv_tail in Hl].
Qed.
Lemma head_crlf : forall s path, Head s path -> Forall steady_label path -> Head (crlf s) path.
Proof.
  induction 1 as [|s l g Hs Hg|s l g s' l' path Hs Hg H IH]; intros Hl; [constructor| |].
  - rewrite !crlf_app, (crlf_gap g Hg). apply HdOne; [apply selector_crlf; [exact Hs|now apply Forall_inv in Hl]|exact Hg].
  - rewrite !crlf_app, (crlf_gap g Hg). apply HdMore; [apply step_crlf; [exact Hs|now apply Forall_inv in Hl]|exact Hg|apply IH; now apply Forall_inv_tail in Hl].
Qed.

(** ** Documents *)
Lemma steady_all : forall us, (fix all l := match l with [] => True | x :: l' => steady x /\ all l' end) us <-> Forall steady us.
Proof.
  induction us as [|u us IH]; [split; constructor|]. split.
  - intros [H H']. constructor; [exact H|now apply IH].
  - intros H. split; [now apply Forall_inv in H|apply IH; now apply Forall_inv_tail in H].
Qed.
Lemma steady_elt : forall k l kids, steady (WElt k l kids) -> steady_label l /\ Forall steady kids.
Proof. intros k l kids [H H']. split; [exact H|now apply steady_all]. Qed.
Lemma steady_nested : forall k path kids, steady (nested k path kids) -> Forall steady_label path /\ Forall steady kids.
Proof.
  induction path as [|l path IH]; intros kids H.
  - apply steady_elt in H as [_ H]. split; [constructor|exact H].
  - destruct path as [|l' path].
    + apply steady_elt in H as [H H']. split; [now repeat constructor|exact H'].
    + change (steady (WElt k l [nested k (l' :: path) kids])) in H. apply steady_elt in H as [H H']. apply Forall_inv in H'.
      apply IH in H' as [Hp Hk]. split; [now constructor|exact Hk].
Qed.
Lemma steady_multi : forall tag code s u, Multi tag code s u -> steady u -> False.
Proof.
  intros tag code s u [c s' ls ts _ _|c s' ls _|s' ls _] H;
    [apply steady_elt in H as [_ H]|apply steady_elt in H as [_ H]|apply steady_nested in H as [_ H]]; apply Forall_inv in H; exact H.
Qed.
Lemma crlf_suffix : forall q s a, ~ In 10 q -> ~ In 13 q -> crlf s = a ++ q -> exists b, s = b ++ q /\ a = crlf b.
Proof.
  intros q s. revert q. induction s as [|c s IH] using rev_ind; intros q a Hq Hr E.
  - symmetry in E. apply app_eq_nil in E as [-> ->]. now exists [].
  - destruct q as [|d q _] using rev_ind; [exists (s ++ [c]); rewrite app_nil_r in *; auto|].
    rewrite crlf_app in E. rewrite !app_assoc in E.
    assert (~ In 10 q /\ 10 <> d) as [Hq1 Hq2] by (rewrite in_app_iff in Hq; cbn in Hq; split; [tauto|intros <-; tauto]).
    assert (~ In 13 q) as Hr1 by (rewrite in_app_iff in Hr; tauto).
    unfold crlf at 2 in E. cbn [flat_map] in E. destruct (c =? 10) eqn:Ec; rewrite app_nil_r in E.
    + change [13; 10] with ([13] ++ [10]) in E. rewrite app_assoc in E. apply app_inj_tail in E as [_ E]. contradiction.
    + apply app_inj_tail in E as [E ->]. destruct (IH q a Hq1 Hr1 E) as (b & -> & ->). exists b. now rewrite app_assoc.
Qed.
Lemma begins_crlf : forall b, begins (crlf b) -> begins b.
Proof.
  intros b [H|(a & c & E & H)]; [left; now apply crlf_nil|]. destruct b as [|d b _] using rev_ind; [now left|]. right. exists b, d. split; [reflexivity|].
  rewrite crlf_app in E. unfold crlf at 2 in E. cbn [flat_map] in E. destruct (d =? 10) eqn:Ed; rewrite app_nil_r in E.
  - apply N.eqb_eq in Ed. subst d. now left.
  - apply app_inj_tail in E as [_ <-]. exact H.
Qed.
Lemma apart_crlf : forall s r, apart s r -> apart (crlf s) r.
Proof.
  intros s r H a b E. split.
  - intros F. destruct (crlf_suffix [34; 34; 34] s a) as (s' & Hs & Ha); [cbn; intuition discriminate|cbn; intuition discriminate|exact F|].
    exact (proj1 (H s' b E) Hs).
  - intros Hb F. destruct (crlf_suffix [34; 34] s a) as (s' & Hs & Ha); [cbn; intuition discriminate|cbn; intuition discriminate|exact F|].
    refine (proj2 (H s' b E) _ Hs). apply begins_crlf. now subst a.
Qed.
Lemma steady_app : forall a b, Forall steady (a ++ b) -> Forall steady a /\ Forall steady b.
Proof. intros a b. apply Forall_app. Qed.
Lemma special_ends : forall o c m, In (o, c, m) special -> crlf o = o /\ crlf c = c.
Proof. intros o c m H. cbn in H. decompose [or] H; try contradiction; injection H0 as <- <- <- || injection H1 as <- <- <-; now split. Qed.

Section Tag.
Variable tag : mark -> str.

Definition lines_crlf (para seen open : bool) (s : str) (us : list written) : Prop :=
  exists cr s', crlf s = cr ++ s' /\ (cr = [] \/ cr = [13]) /\ Lines tag para seen open s' us.
Lemma lines_solid : forall para seen open s us, s = [] \/ solid s -> lines_crlf para seen open s us -> Lines tag para seen open (crlf s) us.
Proof.
  intros para seen open s us Hs (cr & s' & E & [->| ->] & H); [now rewrite E|]. exfalso. destruct Hs as [->|Hs]; [discriminate|].
  apply crlf_solid in Hs as (c & r & E' & Hc). rewrite E' in E. injection E as -> _. discriminate.
Qed.
Lemma lines_here : forall para seen open s us, Lines tag para seen open (crlf s) us -> lines_crlf para seen open s us.
Proof. intros para seen open s us H. exists [], (crlf s). auto. Qed.
Lemma comments_crlf : forall s us, Comments s us -> Forall steady us -> Comments (crlf s) us.
Proof.
  intros s us H. induction H as [|g t s us Hg Ht H IH]; intros Hs; [constructor|]. apply steady_app in Hs as [_ Hs]. apply Forall_cons_iff in Hs as [Hs Hs'].
  cbn [steady] in Hs. rewrite !crlf_app, (crlf_gap g Hg), (crlf_id t Hs). change (crlf (L "<!")) with (L "<!"). change (crlf (L "!>")) with (L "!>").
  constructor; auto.
Qed.
Lemma margin_crlf : forall s us, Margin s us -> Forall steady us -> Margin (crlf s) us.
Proof.
  intros s us [|s1 us1 g Hs Hc Hg] H; [constructor|]. apply steady_app in H as [H _]. rewrite crlf_app, (crlf_gap g Hg).
  constructor; [now apply crlf_solid|now apply comments_crlf|exact Hg].
Qed.
Lemma starts_crlf : forall s, starts (L ">") (crlf s) -> starts (L ">") s.
Proof.
  intros [|c s] [r E]; [discriminate|]. change (c :: s) with ([c] ++ s) in E. rewrite crlf_app in E. unfold crlf at 1 in E. cbn [flat_map] in E.
  destruct (N.eqb_spec c 10) as [->|Hc]; [discriminate|]. injection E as -> _. now exists s.
Qed.
Lemma item_crlf :
  (forall txt s u, Item tag txt s u -> steady u -> Item tag txt (crlf s) u) /\
  (forall free s us, Items tag free s us -> Forall steady us -> Items tag free (crlf s) us) /\
  (forall code s us, Row tag code s us -> Forall steady us -> Row tag code (crlf s) us) /\
  (forall s us, More tag s us -> Forall steady us -> More tag (crlf s) us) /\
  (forall line s path us, Block tag line s path us -> Forall steady_label path -> Forall steady us -> Block tag line (crlf s) path us) /\
  (forall para seen open s us, Lines tag para seen open s us -> Forall steady us -> lines_crlf para seen open s us) /\
  (forall s u, Paragraph_ tag s u -> steady u -> Paragraph_ tag (crlf s) u) /\
  (forall go s us, Element tag go s us -> Forall steady us -> Element tag go (crlf s) us).
Proof.
  apply (written_ind tag
    (fun txt s u => steady u -> Item tag txt (crlf s) u)
    (fun free s us => Forall steady us -> Items tag free (crlf s) us)
    (fun code s us => Forall steady us -> Row tag code (crlf s) us)
    (fun s us => Forall steady us -> More tag (crlf s) us)
    (fun line s path us => Forall steady_label path -> Forall steady us -> Block tag line (crlf s) path us)
    (fun para seen open s us => Forall steady us -> lines_crlf para seen open s us)
    (fun s u => steady u -> Paragraph_ tag (crlf s) u)
    (fun go s us => Forall steady us -> Element tag go (crlf s) us)).
  - intros s t [H H'] _. rewrite crlf_id by now apply (words_no s t). now apply ItText.
  - intros h t Hh Ht Hs. rewrite crlf_id; [now apply ItVerbatim|]. cbn in Hh. intros Hi. rewrite !in_app_iff in Hi. cbn [steady] in Hs. unfold steady_text in Hs.
    destruct Hh as [<-|[<-|[<-|[]]]]; cbn in Hi; intuition discriminate.
  - intros h t Hh Ht Hs. rewrite crlf_id; [now apply ItRaw|]. cbn in Hh. intros Hi. rewrite !in_app_iff in Hi. cbn [steady] in Hs. unfold steady_text in Hs.
    destruct Hh as [<-|[<-|[<-|[]]]]; cbn in Hi; intuition discriminate.
  - intros o c t Hi Ht Hs. cbn [steady] in Hs. rewrite crlf_id by exact Hs. now apply ItInterpolation.
  - intros t Ht Hs. cbn [steady] in Hs. rewrite crlf_id; [now apply ItComment|]. rewrite !in_app_iff. cbn. unfold steady_text in Hs. intuition discriminate.
  - intros t Ht Hs. apply steady_nested in Hs as [_ Hs]. apply Forall_inv in Hs. cbn [steady] in Hs. rewrite crlf_id; [now apply ItCode|].
    rewrite !in_app_iff. cbn. unfold steady_text in Hs. intuition discriminate.
  - intros o c m w s us g Hm Hw Hs HL IH Hg Hap H. apply steady_nested in H as [_ H]. destruct (special_ends o c m Hm) as [Eo Ec].
    rewrite !crlf_app, Eo, Ec, (crlf_blanks g Hg). apply ItSpecial; [exact Hm|now apply crlf_ws|now apply crlf_solids|apply lines_solid; auto|exact Hg|now apply apart_crlf].
  - intros w s us w' Hw Hs HR IH Hw' H. apply steady_elt in H as [_ H]. rewrite !crlf_app. change (crlf (L "<(")) with (L "<("). change (crlf (L ")>")) with (L ")>").
    apply ItInline; [now apply crlf_ws|now apply crlf_solids|auto|now apply crlf_ws].
  - intros w p path s us w' Hw Hp HR IH Hw' H. apply steady_nested in H as [H H']. rewrite !crlf_app. change (crlf (L "<(")) with (L "<("). change (crlf (L ")>")) with (L ")>").
    apply ItElement; [now apply crlf_ws|now apply path_crlf|auto|now apply crlf_ws].
  - intros w line s path us w' Hw HB IH Hw' H. apply steady_nested in H as [H H']. rewrite !crlf_app. change (crlf (L "<(")) with (L "<("). change (crlf (L ")>")) with (L ")>").
    apply ItBlock; [now apply crlf_ws|auto|now apply crlf_ws].
  - intros free _. constructor.
  - intros free txt g s u s' us Hg HI IH Hf HIs IHs H. apply steady_app in H as [_ H]. rewrite !crlf_app, (crlf_gap g Hg).
    apply (IsCons tag free txt); [exact Hg|apply IH; now apply Forall_inv in H|exact Hf|apply IHs; now apply Forall_inv_tail in H].
  - intros code s us HI IH H. apply RwItems. auto.
  - intros code g s u Hg HM H. exfalso. apply steady_app in H as [_ H]. apply Forall_inv in H. now apply (steady_multi tag code s u).
  - intros _. constructor.
  - intros nl s us s' us' Hn Hs HR IH HM IHm H. apply Forall_inv_tail in H. apply steady_app in H as [H H']. rewrite !crlf_app.
    apply MoCons; [now apply crlf_newline|now apply crlf_solid|auto|auto].
  - intros h path w s us g Hh Hw Hs HL IH Hg Hn Hp H. rewrite !crlf_app, (crlf_blanks g Hg). change (crlf (L "{")) with (L "{"). change (crlf (L "}")) with (L "}").
    apply BkBlock; [now apply head_crlf|now apply crlf_ws|now apply crlf_solids|apply lines_solid; auto|exact Hg|].
    intros Hx E. apply crlf_nil in E. apply Hn; [intros ->; now apply Hx|exact E].
  - intros p path g' w s us g Hh Hg' Hw Hs HL IH Hg Hn Hp H. rewrite !crlf_app, (crlf_blanks g Hg), (crlf_gap g' Hg'). change (crlf (L "{")) with (L "{"). change (crlf (L "}")) with (L "}").
    apply BkLine; [now apply path_crlf|exact Hg'|now apply crlf_ws|now apply crlf_solids|apply lines_solid; auto|exact Hg|].
    intros Hx E. apply crlf_nil in E. apply Hn; [intros ->; now apply Hx|exact E].
  - intros para seen open _. apply lines_here. constructor.
  - intros para seen open b s us Hb HL IH H. apply Forall_inv_tail in H. destruct (IH H) as (cr & s' & E & Hcr & HL').
    exists [13], ([10] ++ (b ++ cr) ++ s'). split; [|split; [now right|]].
    + rewrite !crlf_app, (crlf_blanks b Hb), E. change (crlf [10]) with [13; 10]. now rewrite <- !app_assoc.
    + apply LsBlank; [|exact HL']. apply Forall_app. split; [exact Hb|]. destruct Hcr as [->| ->]; repeat constructor. discriminate.
  - intros para seen open go s us HE IH H. apply lines_here. apply steady_app in H as [_ H]. apply (LsElement tag para seen open go). auto.
  - intros para seen open go s us nl s' us' HE IH Hn HL IHl H. apply steady_app in H as [_ H]. apply steady_app in H as [H H'].
    destruct (IHl H') as (cr & s2 & E & Hcr & HL').
    exists [], (crlf s ++ (crlf nl ++ cr) ++ s2). split; [now rewrite !crlf_app, E, <- !app_assoc|]. split; [now left|].
    apply (LsElements tag para seen open go); [auto|now apply newline_more; [apply crlf_newline|]|exact HL'].
  - intros seen s u HP IH H. apply lines_here. apply steady_app in H as [_ H]. apply Forall_inv in H. apply LsText. auto.
  - intros seen s u nl s' us HP IH Hn HL IHl H. apply steady_app in H as [_ H].
    destruct (IHl (Forall_inv_tail H)) as (cr & s2 & E & Hcr & HL').
    exists [], (crlf s ++ (crlf nl ++ cr) ++ s2). split; [now rewrite !crlf_app, E, <- !app_assoc|]. split; [now left|].
    apply LsTexts; [apply IH; now apply Forall_inv in H|now apply newline_more; [apply crlf_newline|]|exact HL'].
  - intros para seen s us Hs HR IH Hsh H. apply lines_here. apply steady_app in H as [_ H]. apply LsRow; [now apply crlf_solid|auto|exact Hsh].
  - intros para seen s us nl s' us' Hs HR IH Hsh Hn HL IHl H. apply steady_app in H as [_ H]. apply steady_app in H as [H H'].
    destruct (IHl H') as (cr & s2 & E & Hcr & HL').
    exists [], (crlf s ++ (crlf nl ++ cr) ++ s2). split; [now rewrite !crlf_app, E, <- !app_assoc|]. split; [now left|].
    apply LsRows; [now apply crlf_solid|auto|exact Hsh|now apply newline_more; [apply crlf_newline|]|exact HL'].
  - intros s us s' us' Hs HR IH Hsh HM IHm H. apply steady_elt in H as [_ H]. apply steady_app in H as [H H']. rewrite crlf_app.
    apply PgText; [now apply crlf_solid|auto|exact Hsh|auto].
  - intros c cs p path s us s' us' Hc Hp HR IH HM IHm H. apply steady_app in H as [Hcs H]. apply Forall_inv in H.
    apply steady_nested in H as [Hl H]. apply steady_app in H as [H H']. rewrite !crlf_app.
    apply ElLine; [now apply margin_crlf|now apply path_crlf|auto|auto].
  - intros c cs line s path us c' cs' Hc HB IH Hc' Hx H. apply steady_app in H as [Hcs H]. apply Forall_cons_iff in H as [H Hcs'].
    apply steady_nested in H as [H H']. rewrite !crlf_app. apply ElBlock; [now apply margin_crlf|auto|now apply comments_crlf|].
    intros Hg. rewrite (Hx (starts_crlf _ Hg)); reflexivity.
  - intros c cs s ls c' cs' Hc HB Hc' H. exfalso. apply steady_app in H as [_ H]. apply Forall_inv in H. apply steady_nested in H as [_ H]. now apply Forall_inv in H.
Qed.
Lemma source_crlf : forall s us, Source tag s us -> Forall steady us -> Source tag (crlf s) us.
Proof.
  intros s us [w s' us' g Hw Hs HL Hg] H. rewrite !crlf_app, (crlf_blanks g Hg). apply SrcOf; [now apply crlf_ws|now apply crlf_solids| |exact Hg].
  apply lines_solid; [exact Hs|]. now apply item_crlf.
Qed.
End Tag.

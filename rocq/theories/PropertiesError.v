(** * Property theorems about errors: C29, C30.

    [points_at], [message], [english], [reads]: SpecErrors.v. Which trees are readings
    of a source: Grammar.v. *)

From Verif Require Import Base Doc Config Ast Errors Build Convert Display Grammar SpecSource SpecErrors
  P_Build P_Convert P_Grammar P_Match P_Errors PropertiesConvert.

(** ** C29: located errors point at the right piece of the source.

    Every error of a conversion except the one without location ([CEUnknown], C14) is
    a list of syntax errors, each of which points at the source: at the opening
    delimiter that is not closed, at the malformed escape, or at some text. *)
Theorem C29_errors_in_source : forall parse alnum src cfg, reads alnum parse src ->
  (forall out err, convert_to parse source_slice src cfg = Some (out, Some err) ->
     err = CEUnknown \/ exists l, err = CESyntax l /\ l <> [] /\ Forall (points_at src) l) /\
  (forall err, convert parse source_slice src cfg = Some (inr err) ->
     err = CEUnknown \/ exists l, err = CESyntax l /\ l <> [] /\ Forall (points_at src) l).
Proof.
  intros parse alnum src cfg H. split; [intros out err; now apply errors_located with (alnum := alnum)|].
  intros err He. destruct (strict_forgiving parse source_slice src cfg) as (out & werr & E & Hc & _). rewrite He in Hc. subst werr.
  now apply errors_located with (alnum := alnum) in E.
Qed.
Print Assumptions C29_errors_in_source.

(** So the message about it quotes that piece of the source, and its location is the
    range of that piece (in bytes, although the message says "character"). *)
Theorem C29_messages : forall parse alnum src cfg out l, reads alnum parse src ->
  convert_to parse source_slice src cfg = Some (out, Some (CESyntax l)) ->
  forall e, In e l -> exists before m after, src = before ++ m ++ after /\
    forall debug loc, display_with_src debug src loc e = message debug src e m ++
      if loc then L " at character " ++ dec (blen before) ++
                  (if is_nil m then [] else L "..<" ++ dec (blen before + blen m))
      else [].
Proof.
  intros parse alnum src cfg out l H Hc e He.
  destruct (errors_located _ _ _ _ _ _ H Hc) as [F|(l1 & El & _ & Hp)]; [discriminate|]. injection El as <-.
  destruct (errors_single _ _ _ _ _ _ Hc) as [F|(l2 & El & _ & Hs)]; [discriminate|]. injection El as <-.
  rewrite Forall_forall in Hp, Hs. pose proof (Hp e He) as (m & Hm & _). pose proof Hm as (a & b & Es & Ha & Hb).
  exists a, m, b. split; [exact Es|]. intros debug loc. unfold display_with_src.
  rewrite (message_ok debug src e m (Hp e He) (Hs e He) Hm), <- Hb, <- Ha.
  destruct m as [|c m]; cbn [is_nil].
  - cbn [blen]. replace (_ <? _) with false by (symmetry; apply N.ltb_ge; lia). reflexivity.
  - pose proof (blen_pos (c :: m) ltac:(discriminate)). replace (_ <? _) with true by (symmetry; apply N.ltb_lt; lia). reflexivity.
Qed.
Print Assumptions C29_messages.

(** The document built from a reading of the source has ranges of the source only. *)
Theorem C29_document_ranges : forall alnum src c e e' ns, document_ok src alnum c -> er_fail_fast e = false ->
  from_ast (source_slice src) c e = (e', Ok ns) -> Forall (sliceable src) (flat_map node_ranges ns).
Proof.
  intros alnum src c e e' ns H He Hr. pose proof (from_ast_sound src alnum c H e He) as HS. rewrite Hr in HS.
  now destruct HS as (d & _ & _ & HS).
Qed.
Print Assumptions C29_document_ranges.

(** [a \q <#b]: a bad escape and an unclosed delimiter. *)
Definition ex_src4 : str := L "a \q <#b".
Definition ex_tree4 : a_content :=
  ex_content [ex_item 0 4 (ANText (ASegment (R 0 4)));
              (Some (R 4 5), ANode 5 (ANElement (ASpecialElt (ASpecial AStrong (R 5 7)
                 (mkACont 7 [mkALine 7 [ex_item 7 8 (ANText (ASegment (R 7 8)))] 8] 8) None))) 8)] 8.
Example C29_example :
  reads is_ascii_alnum (ex_parse ex_tree) ex_src /\
  reads is_ascii_alnum (ex_parse ex_tree4) ex_src4 /\
  convert_to (ex_parse ex_tree4) source_slice ex_src4 ex_cfg
    = Some (L "<p>a ", Some (CESyntax [ex_bad 2 4; mkSyn (R 5 7) (KUnclosed (USpecial Strong))])) /\
  map (display_with_src (fun s => s) ex_src4 true) [ex_bad 2 4; mkSyn (R 5 7) (KUnclosed (USpecial Strong))]
    = [L "Invalid escape sequence \q. at character 2..<4"; L "Unclosed delimiter <# at character 5..<7"].
Proof.
  split; [apply document_b_ok; vm_compute; reflexivity|]. split; [apply document_b_ok; vm_compute; reflexivity|].
  split; vm_compute; reflexivity.
Qed.

(** A parser that fails at the end of the source. *)
Definition ex_failed : str -> a_content + parse_error := fun src => inr (mkPE (blen src) [] [L "word"; L "space"]).
Example C29_example_parse_error : forall src,
  reads is_ascii_alnum ex_failed src /\
  display_with_src (fun s => s) (L "p>") true (parse_failed (mkPE 2 [] [L "word"; L "space"]))
    = L "Unexpected end-of-file. Expected word | space at character 2".
Proof.
  intros src. split; [|vm_compute; reflexivity]. exists src, []. cbn. rewrite app_nil_r. auto.
Qed.

(** ** C30: lists in messages.

    For any list whose length is not two; ... *)
Theorem C30_lists_partial : forall conj l, length l <> 2%nat -> display_conjunction_list conj l = english conj l.
Proof. exact conjunction_english. Qed.
Print Assumptions C30_lists_partial.
(** ... for two items the claim is REFUTED: no space before the conjunction. *)
Theorem C30_two_items_refuted :
  display_conjunction_list (L "or") [L "text"; L "space"] = L "textor space" /\
  (forall conj a b, display_conjunction_list conj [a; b] <> english conj [a; b]).
Proof.
  split; [vm_compute; reflexivity|]. intros conj a b H. unfold display_conjunction_list in H. cbn [is_nil conjunction_items english] in H.
  apply (f_equal (@length N)) in H. rewrite app_nil_r, !app_length in H. change (length (L " ")) with 1%nat in H. lia.
Qed.
Print Assumptions C30_two_items_refuted.
(** The converter itself reports only errors with one item, so that its messages read
    well. *)
Theorem C30_reported_lists : forall parse slice src cfg out l,
  convert_to parse slice src cfg = Some (out, Some (CESyntax l)) ->
  forall e t i, In e l ->
    sy_kind e = KMisplaced (MustPrecede t i) \/ sy_kind e = KMisplaced (MustNotPrecede t i) \/
    sy_kind e = KMisplaced (MustFollow i t) \/ sy_kind e = KMisplaced (MustNotFollow i t) ->
    length i = 1%nat.
Proof.
  intros parse slice src cfg out l H e t i He Hk. destruct (errors_single _ _ _ _ _ _ H) as [F|(l2 & El & _ & Hs)]; [discriminate|].
  injection El as <-. rewrite Forall_forall in Hs. specialize (Hs e He). unfold single in Hs.
  destruct Hk as [E|[E|[E|E]]]; rewrite E in Hs; exact Hs.
Qed.
Print Assumptions C30_reported_lists.


Example C30_example :
  display_conjunction_list (L "or") [L "a"; L "b"; L "c"; L "d"] = L "a, b, c, or d" /\
  display_conjunction_list (L "or") [L "a"] = L "a" /\
  display_with_src (fun s => s) [] false (mkSyn (R 0 1) (KMisplaced (MustPrecede ITSelector [ITElement])))
    = L "selector must be followed by element".
Proof. repeat split; vm_compute; reflexivity. Qed.

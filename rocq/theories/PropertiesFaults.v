(** * Which sources are converted: C47. *)

From Verif Require Import Base Doc Config Ast Errors Escape Convert Grammar SpecEscape SpecSource SpecErrors SpecTree SpecBuild SpecFaults
  P_Match P_Marks P_Faults P_Accept PropertiesConvert PropertiesBuild.

(** ** C47: a source is converted exactly if it has no faults, and else its faults are reported.

    [faults bad slc c] (SpecFaults.v) lists the delimiters that are not closed, the invalid
    parts of selectors and the malformed escapes, in the order of the source;
    [proper_line] says how the items of a line may follow each other.  [bad] is any
    function that finds the malformed escapes of a text. *)

(** Sources without faults are converted.  The last two provisos are C14. *)
Theorem C47_accepts : forall bad parse slice src cfg c,
  (forall s o, bad s o = [] <-> exists t, Decodes true s t) -> parse src = inl c ->
  faults bad (slice src) c = [] -> all_lines proper_line c ->
  (forall b s e r, Occurs (content_items c) (ANode b (ANSelector s) e) -> In r (selector_strings s) -> exists t, Decodes true (slice src r) t) ->
  (forall l, c_lang cfg = Some l -> exists t, Decodes true l t) ->
  exists t, convert parse slice src cfg = Some (inl t).
Proof. intros bad parse slice src cfg c H. now apply accepts. Qed.
Print Assumptions C47_accepts.

(** Only sources without faults are converted, if lines are as for C41. *)
Theorem C47_refuses_partial : forall bad parse slice src cfg c t,
  (forall s o, bad s o = [] <-> exists t, Decodes true s t) -> parse src = inl c ->
  all_lines tidy_line c -> all_lines selectors_used c ->
  convert parse slice src cfg = Some (inl t) ->
  faults bad (slice src) c = [] /\ all_lines proper_line c.
Proof. intros bad parse slice src cfg c t H Hc HT HU HE. now apply (refuses parse slice bad H src cfg c t). Qed.
Print Assumptions C47_refuses_partial.

(** The errors are the faults, all of them, each once and in the order of the source; with
    fail-fast an initial part.  [escape_errors] is the search for malformed escapes (C02). *)
Theorem C47_reported_partial : forall parse slice src cfg c, parse src = inl c ->
  all_lines proper_line c -> all_lines tidy_line c -> faults escape_errors (slice src) c <> [] ->
  (c_fail_fast cfg <> Some true -> convert parse slice src cfg = Some (inr (CESyntax (faults escape_errors (slice src) c)))) /\
  exists l more, l <> [] /\ faults escape_errors (slice src) c = l ++ more /\ convert parse slice src cfg = Some (inr (CESyntax l)).
Proof. exact reported. Qed.
Print Assumptions C47_reported_partial.

(** [> { x } <! c]: the comment is not closed. *)
Definition ex_hidden_src : str := L "> { x } <! c".
Definition ex_hidden_tree : a_content :=
  ex_content [ex_item 0 1 (ANElement (ALineElt (R 0 1))); ex_drop_block;
              (Some (R 7 8), ANode 8 (ANText (AComment (mkACom 8 (R 8 10) (R 10 12) None 12))) 12)] 12.
(** The full claim is REFUTED: what follows [> { ... }] is not looked at, so that a comment
    that is not closed, and text where none may be, are accepted. *)
Theorem C47_accepted_refuted :
  (reads is_ascii_alnum (ex_parse ex_hidden_tree) ex_hidden_src /\
   convert (ex_parse ex_hidden_tree) source_slice ex_hidden_src ex_cfg = Some (inl (L "<p>x</p>")) /\
   forall bad, faults bad (source_slice ex_hidden_src) ex_hidden_tree = map (fun x => mkSyn x KInvalidEscape) (bad (L "x") 4) ++ [mkSyn (R 8 10) (KUnclosed UComment)]) /\
  (reads is_ascii_alnum (ex_parse ex_drop_tree) ex_drop_src /\
   convert (ex_parse ex_drop_tree) source_slice ex_drop_src ex_cfg = Some (inl (L "<p>x</p>")) /\
   ~ all_lines proper_line ex_drop_tree).
Proof.
  split.
  - split; [apply document_b_ok; vm_compute; reflexivity|]. split; [vm_compute; reflexivity|]. intros bad.
    unfold faults, items_faults, ex_hidden_tree, ex_content, ex_drop_block. cbn [ct_lines flat_map ln_nodes snd node_faults ex_item an_type text_faults not_closed ac_close ac_open bk_rbrace bk_lbrace bk_content app].
    unfold escape_faults. change (source_slice ex_hidden_src (R 4 5)) with (L "x"). cbn [r_start R]. now rewrite !app_nil_r.
  - split; [apply document_b_ok; vm_compute; reflexivity|]. split; [vm_compute; reflexivity|]. intros [H _].
    inversion H as [|? ? HP _]; subst. apply proper_iff in HP. discriminate.
Qed.
Print Assumptions C47_accepted_refuted.

(** [ul> <! c !> li# { a <(b\q]: four faults on a proper line; and a source without faults. *)
Definition ex_src14 : str := L "ul> <! c !> li# { a <(b\q".
Definition ex_inner14 : a_item := (Some (R 19 20), ANode 20 (ANElement (AInlineElt (mkAInl (R 20 22) [ex_item 22 25 (ANText (ASegment (R 22 25)))] None))) 25).
Definition ex_tree14 : a_content :=
  ex_content [ex_item 0 2 (ANSelector (mkASel 0 (AStartTag (Some (AName (R 0 2))) []) [] 2));
              ex_item 2 3 (ANElement (ALineElt (R 2 3)));
              (Some (R 3 4), ANode 4 (ANText (AComment (mkACom 4 (R 4 6) (R 6 9) (Some (R 9 11)) 11))) 11);
              (Some (R 11 12), ANode 12 (ANSelector (mkASel 12 (AStartTag (Some (AName (R 12 14))) [AInvalid (R 14 15)]) [] 15)) 15);
              (Some (R 15 16), ANode 16 (ANElement (ABlockElt (mkABlock (R 16 17)
                 (mkACont 18 [mkALine 18 [ex_item 18 19 (ANText (ASegment (R 18 19))); ex_inner14] 25] 25) None))) 25)] 25.
Example C47_example :
  reads is_ascii_alnum (ex_parse ex_tree14) ex_src14 /\
  all_lines proper_line ex_tree14 /\ all_lines tidy_line ex_tree14 /\ all_lines selectors_used ex_tree14 /\
  convert (ex_parse ex_tree14) source_slice ex_src14 ex_cfg =
    Some (inr (CESyntax [mkSyn (R 14 15) (KInvalidItem ITSelector); mkSyn (R 16 17) (KUnclosed UBlock);
                         mkSyn (R 20 22) (KUnclosed UInline); mkSyn (R 23 25) KInvalidEscape])) /\
  all_lines proper_line ex_kept_tree /\ faults escape_errors (source_slice (L "p { x } <! c !>")) ex_kept_tree = [] /\
  convert (ex_parse ex_kept_tree) source_slice (L "p { x } <! c !>") ex_cfg = Some (inl (L "<p>x</p> <!-- c -->")).
Proof.
  split; [apply document_b_ok; vm_compute; reflexivity|]. split; [|split; [|split; [|split; [|split; [|split]]]]].
  - apply all_lines_check. repeat (constructor; [apply proper_check; reflexivity|]). constructor.
  - apply all_lines_check. repeat (constructor; [apply tidy_check; reflexivity|]). constructor.
  - apply all_lines_check. repeat (constructor; [apply used_check; reflexivity|]). constructor.
  - vm_compute. reflexivity.
  - apply all_lines_check. repeat (constructor; [apply proper_check; reflexivity|]). constructor.
  - vm_compute. reflexivity.
  - vm_compute. reflexivity.
Qed.

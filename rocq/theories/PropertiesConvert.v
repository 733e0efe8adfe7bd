(** * Property theorems about the entry points: C12, C13, C14.

    [convert parse slice src cfg], [convert_forgiving ...] and [convert_to ...] are the
    functions of lib.rs.  [parse] is the parser (any function from sources to syntax
    trees or parse errors); [slice src r] is the text of the source at a range (any
    function). *)

From Verif Require Import Base Doc Config Ast Errors Convert SpecEscape SpecSource SpecBuild P_Convert P_Unknown.

(** ** C12: strict and forgiving conversion agree.

    Same success with the same text; same failure with the same error; neither runs
    out of steps; text comes with a failure exactly when something was written, and
    is then what was written. *)
Theorem C12_strict_forgiving : forall parse slice src cfg,
  (forall t, convert parse slice src cfg = Some (inl t) <-> convert_forgiving parse slice src cfg = Some (inl t)) /\
  (forall err, convert parse slice src cfg = Some (inr err) <->
     exists o, convert_forgiving parse slice src cfg = Some (inr (o, err))) /\
  convert parse slice src cfg <> None /\
  (forall t, convert parse slice src cfg = Some (inl t) -> convert_to parse slice src cfg = Some (t, None)) /\
  (forall o err, convert_forgiving parse slice src cfg = Some (inr (o, err)) ->
     exists written, convert_to parse slice src cfg = Some (written, Some err) /\
       match o with None => written = [] | Some t => t = written /\ written <> [] end).
Proof. exact strict_forgiving_all. Qed.
Print Assumptions C12_strict_forgiving.

(** ** C13: fail-fast changes only how many errors are listed. *)
Theorem C13_fail_fast : forall parse slice src cfg b, b <> Some true ->
  let fast := convert parse slice src (with_fail_fast cfg (Some true)) in
  let slow := convert parse slice src (with_fail_fast cfg b) in
  (forall t, fast = Some (inl t) <-> slow = Some (inl t)) /\
  (forall err, fast = Some (inr err) -> exists err', slow = Some (inr err') /\
     ((exists l more, l <> [] /\ err = CESyntax l /\ err' = CESyntax (l ++ more)) \/
      (err = CEUnknown /\ err' = CEUnknown))) /\
  (forall err', slow = Some (inr err') -> exists err, fast = Some (inr err)).
Proof. exact fail_fast_all. Qed.
Print Assumptions C13_fail_fast.

(** ** C14: an error without a location only for a name, value, class, id or language
      with a malformed escape. *)
Theorem C14_unknown_error : forall parse slice src cfg,
  convert parse slice src cfg = Some (inr CEUnknown) ->
  (exists c b s e r, parse src = inl c /\
     Occurs (content_items c) (ANode b (ANSelector s) e) /\ In r (selector_strings s) /\
     ~ exists t, Decodes true (slice src r) t) \/
  (exists l, c_lang cfg = Some l /\ ~ exists t, Decodes true l t).
Proof.
  intros parse slice src cfg H. destruct (unknown_cause _ _ _ _ H) as [(c & Hp & b & s & e & r & H1 & H2 & H3)|H1].
  - left. exists c, b, s, e, r. auto.
  - now right.
Qed.
Print Assumptions C14_unknown_error.

(** ** Examples.  The trees are those of the sources shown. *)
Definition R (a b : N) : lrange := mkR a b.
Definition ex_content (l : list a_item) (e : N) : a_content := mkACont 0 [mkALine 0 l e] e.
Definition ex_item (a b : N) (t : a_ntype) : a_item := (None, ANode a t b).
Definition ex_cfg : config := mkConfig None None (mkSpecial None None None None None None None) None None None None.
Definition ex_parse (c : a_content) : str -> a_content + parse_error := fun _ => inl c.

(** [p> hi] *)
Definition ex_src : str := L "p> hi".
Definition ex_tree : a_content :=
  ex_content [ex_item 0 1 (ANSelector (mkASel 0 (AStartTag (Some (AName (R 0 1))) []) [] 1));
              ex_item 1 2 (ANElement (ALineElt (R 1 2)));
              (Some (R 2 3), ANode 3 (ANText (ASegment (R 3 5))) 5)] 5.
Example C12_example :
  convert (ex_parse ex_tree) source_slice ex_src ex_cfg = Some (inl (L "<p>hi</p>")) /\
  convert_forgiving (ex_parse ex_tree) source_slice ex_src ex_cfg = Some (inl (L "<p>hi</p>")).
Proof. split; vm_compute; reflexivity. Qed.

(** [a \q \z], two invalid escapes: errors in order; fail-fast reports the errors of the
    first text only; forgiving conversion keeps what was written before. *)
Definition ex_src2 : str := L "a \q[\z".
Definition ex_tree2 : a_content :=
  ex_content [ex_item 0 4 (ANText (ASegment (R 0 4)));
              ex_item 5 7 (ANText (ASegment (R 5 7)))] 7.
Definition ex_bad (a b : N) : syntax_error := mkSyn (R a b) KInvalidEscape.
Example C12_example_error :
  convert (ex_parse ex_tree2) source_slice ex_src2 ex_cfg = Some (inr (CESyntax [ex_bad 2 4; ex_bad 5 7])) /\
  convert_forgiving (ex_parse ex_tree2) source_slice ex_src2 ex_cfg
    = Some (inr (Some (L "<p>a "), CESyntax [ex_bad 2 4; ex_bad 5 7])).
Proof. split; vm_compute; reflexivity. Qed.
Example C13_example :
  convert (ex_parse ex_tree2) source_slice ex_src2 (with_fail_fast ex_cfg (Some true)) = Some (inr (CESyntax [ex_bad 2 4])) /\
  convert (ex_parse ex_tree2) source_slice ex_src2 (with_fail_fast ex_cfg None) = Some (inr (CESyntax [ex_bad 2 4; ex_bad 5 7])).
Proof. split; vm_compute; reflexivity. Qed.

(** [[a=\q]> hi] *)
Definition ex_src3 : str := L "[a=\q]> hi".
Definition ex_sel3 : a_selector :=
  mkASel 0 (AStartAttrs (mkAAttrs 0 (R 0 1) [mkAAttr 1 (R 1 2) (Some (R 2 3, AUnquoted (R 3 5))) 5] (Some (R 5 6)) 6)) [] 6.
Definition ex_tree3 : a_content :=
  ex_content [ex_item 0 6 (ANSelector ex_sel3); ex_item 6 7 (ANElement (ALineElt (R 6 7)));
              (Some (R 7 8), ANode 8 (ANText (ASegment (R 8 10))) 10)] 10.
Example C14_example :
  convert (ex_parse ex_tree3) source_slice ex_src3 ex_cfg = Some (inr CEUnknown) /\
  In (R 3 5) (selector_strings ex_sel3) /\ source_slice ex_src3 (R 3 5) = L "\q" /\
  convert (ex_parse ex_tree) source_slice ex_src
    (mkConfig None None (c_special ex_cfg) None (Some (L "\")) None None) = Some (inr CEUnknown).
Proof. repeat split; vm_compute; try reflexivity. auto. Qed.

(** * Property theorems about the layout of the output: C67. *)

From Verif Require Import Base Doc Config Ast Errors Convert Output Parser SpecMarkup SpecHtml SpecTree SpecSource SpecWhole SpecLayout
  P_Base P_Layout P_Inside P_Source P_Typeset PropertiesOutput SpecErrors Grammar.

(** ** C67: indented output shows how elements are nested.

    One list of marks, made from the tree of the document alone, gives the output for every
    indentation ([None]: none).  The tree is that of C10 ([document_of]). *)
Theorem C67_layout : forall parse src cfg o, convert parse source_slice src cfg = Some (inl o) ->
  exists ns ms, document_of parse src cfg [] ns /\ MarksL (source_slice src) (is_xml cfg) 0 true false (trim_spaces ns) ms /\
  forall indent, convert parse source_slice src (with_indent cfg indent) =
    Some (inl ((if match c_complete_page cfg with Some b => b | None => false end then L "<!DOCTYPE html>" ++ [10] else [])
               ++ typeset indent true (ms ++ [Edge 0]))).
Proof.
  intros parse src cfg o H. unfold convert, convert_to_internal in *.
  destruct (prepare parse source_slice src cfg (errors_new cfg)) as [e [ns| |]] eqn:EP; [| |discriminate].
  2:{ apply prepare_fail in EP. destruct (to_convert_error e); [discriminate|congruence]. }
  pose proof EP as EP'. apply prepare_document in EP as (E1 & E2 & E3). rewrite !orb_false_r in *.
  destruct e as [ff s se u]. cbn [er_syntax er_semantic er_unknown] in *. subst se u.
  destruct s as [|x s]; [|discriminate]. cbn [errors_empty er_syntax er_semantic er_unknown is_nil andb negb] in H.
  pose proof (one_single _ (document_single _ _ _ _ _ _ E1)) as HS.
  destruct (marksL_exist (source_slice src) (is_xml cfg) (trim_spaces ns) 0 true false) as [ms Hms].
  exists ns, ms. split; [exact E1|]. split; [exact Hms|]. intros indent.
  change (errors_new (with_indent cfg indent)) with (errors_new cfg).
  change (prepare parse source_slice src (with_indent cfg indent)) with (prepare parse source_slice src cfg). rewrite EP'.
  rewrite orb_false_r. cbn [errors_empty er_syntax er_semantic er_unknown is_nil andb negb].
  pose proof (output_ok_indep (source_slice src) cfg (with_indent cfg indent) eq_refl eq_refl ns) as HE.
  destruct (output_html (source_slice src) cfg ns) as [o1 ok1] eqn:Eo. destruct ok1; [|discriminate].
  destruct (output_html (source_slice src) (with_indent cfg indent) ns) as [o2 ok2] eqn:Eo2. cbn [snd] in HE. subst ok2.
  pose proof (output_typeset (source_slice src) (with_indent cfg indent) ns o2 ms HS Hms Eo2) as ->. reflexivity.
Qed.
Print Assumptions C67_layout.

(** The marks are determined by the tree. *)
Theorem C67_marks : forall slc xml d own raw ns ms ms', MarksL slc xml d own raw ns ms -> MarksL slc xml d own raw ns ms' -> ms = ms'.
Proof. intros slc xml d own raw ns ms ms' H H'. exact (proj2 (marks_unique slc xml) d own raw ns ms H ms' H'). Qed.
Print Assumptions C67_marks.

(** A page with a chain, a block, a paragraph and an element in a line *)
Definition c67_source : str :=
  L "title> T" ++ [10] ++ L "main> div.a {" ++ [10] ++ L "x" ++ [10] ++ L "y" ++ [10] ++ [10] ++ L "b {" ++ [10] ++ L "z <(i> q)>" ++ [10] ++ L "}" ++ [10] ++ L "}".
Example C67_example :
  let cfg i := mkConfig i None special_default (Some true) None None None in
  let parse := parser is_ascii_alnum (fun _ => mkPE 0 [] []) in
  convert parse source_slice c67_source (cfg None) = Some (inl
    (L "<!DOCTYPE html>" ++ [10] ++ L "<html><head><title>T</title></head> <body><main><div class=""a""><p>x y</p> <b>z <i>q</i></b></div></main></body></html>")) /\
  convert parse source_slice c67_source (cfg (Some (L "  "))) = Some (inl (flat_map (fun l => l ++ [10])
    [L "<!DOCTYPE html>"; L "<html>"; L "<head>"; L "  <title>T</title>"; L "</head>"; L "<body>"; L "  <main><div class=""a"">";
     L "    <p>x y</p>"; L "    <b>"; L "      z <i>q</i>"; L "    </b>"; L "  </div></main>"; L "</body>"; L "</html>"])).
Proof. split; vm_compute; reflexivity. Qed.

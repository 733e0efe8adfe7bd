(** * Property theorems about where the web demo marks errors: C75.

    [happen ... Reply s]: in the state [s] of the demo, the worker's response reaches the page.
    [row_column text k rc]: position [k] of the text is at this row and column (SpecEditor.v). *)

From Coq Require Import ZArith Lia.
From Verif Require Import Base Doc Config Ast Errors Convert Grammar Parser Display Wasm Demo Editor SpecSource SpecErrors SpecWasm SpecDemo SpecEditor
  P_Base P_Build P_Match P_Convert P_Errors P_Wasm P_Parser P_Demo P_Editor PropertiesConvert PropertiesError PropertiesParser PropertiesWasm PropertiesDemo.

(** ** C75: errors are marked where they are.

    If the text in the editor is the one that was converted: there is one mark and one note for each
    error of the library, in its order; errors other than those of the parser are explained by their
    message; and marks begin and end at the rows and columns of what the errors point at, if
    there are only ASCII characters up to there. *)
Theorem C75_marks_partial : forall alnum failure debug show examples s s' rest l,
  let src := from_js (d_text s) in
  quotes src (failure src) -> same_line_ends (d_text s) ->
  w_out s = demo_conv alnum failure debug show (d_text s) :: rest ->
  happen (demo_conv alnum failure debug show) index_to_position examples Reply s = Some s' ->
  convert (parser alnum failure) source_slice src demo_config = Some (inr (CESyntax l)) ->
  d_marks s' = map (fun n => (n_start n, n_end n)) (d_notes s') /\
  Forall2 (fun e n => exists before m after, src = before ++ m ++ after /\ sy_range e = mkR (blen before) (blen before + blen m) /\
     ((forall expected, sy_kind e <> KParseFailed expected) -> n_text n = to_js (message debug src e m)) /\
     (Forall (fun c => c < 128) (before ++ m) ->
        row_column (d_text s) (length before) (n_start n) /\ row_column (d_text s) (length (before ++ m)) (n_end n)))
    l (d_notes s').
Proof.
  intros alnum failure debug show examples s s' rest l src Hq Hl Hw E EC.
  cbn [happen] in E. rewrite Hw in E. injection E as <-.
  pose proof (parser_reads alnum failure src Hq) as HR.
  destruct (C12_strict_forgiving (parser alnum failure) source_slice src demo_config) as (_ & Herr & _ & _ & Hto).
  destruct (proj1 (Herr _) EC) as [out EF]. destruct (Hto out _ EF) as (w & Ew & _).
  assert (exists r, demo_conv alnum failure debug show (d_text s) = r /\ exists msg, jr_error r = Some (JErrors msg (map (to_js_syntax_error source_slice debug show src) l))) as (r & Er & msg & Ej).
  { eexists. split; [reflexivity|]. unfold demo_conv. rewrite (forgiving_ok _ _ _ _ _ _ _ demo_requests). fold src. rewrite EF. cbn. eauto. }
  rewrite Er. unfold on_message. rewrite Ej. cbn [d_marks d_notes set_worker d_text]. unfold notes_of, syntax_errors. rewrite Ej.
  split; [reflexivity|]. rewrite map_map.
  destruct (errors_located _ _ _ _ _ _ HR Ew) as [F|(l1 & El & _ & Hp)]; [discriminate|]. injection El as <-.
  destruct (errors_single _ _ _ _ _ _ Ew) as [F|(l2 & El & _ & Hs)]; [discriminate|]. injection El as <-.
  clear - Hl Hp Hs. induction l as [|e l IH]; [constructor|]. inversion_clear Hp as [|? ? Hpe Hp']. inversion_clear Hs as [|? ? Hse Hs'].
  cbn [map]. constructor; [|now apply IH]. pose proof Hpe as (m & Hm & Hk). pose proof Hm as (a & b & Es & Ha & Hb). exists a, m, b.
  assert (Hmsg : display_with_src debug src false e = message debug src e m).
  { unfold display_with_src. rewrite app_nil_r. now apply message_ok. }
  assert (Js : je_start (to_js_syntax_error source_slice debug show src e) = r_start (sy_range e)) by (unfold to_js_syntax_error; now destruct (sy_kind e)).
  assert (Je : je_end (to_js_syntax_error source_slice debug show src e) = r_end (sy_range e)) by (unfold to_js_syntax_error; now destruct (sy_kind e)).
  split; [exact Es|]. split; [destruct (sy_range e); cbn in *; congruence|]. cbn [n_text n_start n_end]. split.
  - intros Hn. unfold note_text, to_js_syntax_error. rewrite Hmsg. destruct (sy_kind e); try reflexivity. now destruct (Hn expected).
  - intros Has. rewrite Js, Je, <- Ha, <- Hb.
    destruct (from_js_ascii_prefix (a ++ m) b (d_text s) Has) as [t Et]; [now rewrite <- app_assoc|].
    pose proof Has as Has'. apply Forall_app in Has' as [Ga Gm]. apply ascii_blen in Ga, Gm. rewrite Ga, Gm.
    replace (N.of_nat (length a) + N.of_nat (length m)) with (N.of_nat (length (a ++ m))) by (rewrite app_length; lia).
    split; apply position_right; auto; rewrite Et, !app_length; lia.
Qed.
Print Assumptions C75_marks_partial.

(** The claim is REFUTED for other texts: in three letters e with accent, [\q], line feed, [x], the
    error is marked in the second line, where the text [\q] is not. *)
Definition ex_marks_text : list N := [233; 233; 233] ++ L "\q" ++ [10] ++ L "x".
Definition ex_marks_conv : list N -> js_result := demo_conv (fun c => is_ascii_alnum c || (c =? 233)) c50_failure (fun s => s) (fun s => s).
Definition ex_marks_demo (conv : list N -> js_result) (text : list N) : demo :=
  mkDemo text false (L "a") (L "a") false (Some text) None false O [] (fun _ => None) (fun _ => false) None [] [] true [] [] [] true [conv text].
Theorem C75_marks_refuted : exists s' n,
  happen ex_marks_conv index_to_position [L "a"] Reply (ex_marks_demo ex_marks_conv ex_marks_text) = Some s' /\
  d_notes s' = [n] /\ n_text n = L "Invalid escape sequence \q." /\ n_start n = (1, 0) /\
  row_column ex_marks_text 3 (0, 3) /\ js_slice ex_marks_text 3 5 = L "\q".
Proof.
  eexists _, _. split; [vm_compute; reflexivity|]. split; [vm_compute; reflexivity|]. split; [vm_compute; reflexivity|]. split; [vm_compute; reflexivity|].
  split; [|vm_compute; reflexivity]. exists [10], [], ([233; 233; 233] ++ L "\q"), [L "x"].
  split; [now left|]. split; [repeat constructor; intros H; vm_compute in H; repeat (destruct H as [H|H]; [discriminate|]); contradiction|].
  split; [reflexivity|]. split; [reflexivity|]. split; [reflexivity|]. split; [intros _; reflexivity|discriminate].
Qed.
Print Assumptions C75_marks_refuted.

(** [a], CR LF, [b \q c], CR LF, a letter with accent: the error is in the second line. *)
Definition ex_marks_lines : list N := L "a" ++ [13; 10] ++ L "b \q c" ++ [13; 10; 233].
Example C75_example :
  same_line_ends ex_marks_lines /\ quotes (from_js ex_marks_lines) (c50_failure (from_js ex_marks_lines)) /\
  (exists l, convert (parser (fun c => is_ascii_alnum c || (c =? 233)) c50_failure) source_slice (from_js ex_marks_lines) demo_config = Some (inr (CESyntax l))) /\
  exists s', happen ex_marks_conv index_to_position [L "a"] Reply (ex_marks_demo ex_marks_conv ex_marks_lines) = Some s' /\
    map (fun n => (n_start n, n_end n)) (d_notes s') = [((1, 2), (1, 4))].
Proof.
  split; [|split; [|split]].
  - exists [13; 10], (L "a"), [L "b \q c"; [233]]. split; [right; right; now left|].
    split; [repeat constructor; intros H; vm_compute in H; repeat (destruct H as [H|H]; [discriminate|]); contradiction|reflexivity].
  - exists (from_js ex_marks_lines), []. repeat split.
  - eexists. vm_compute. reflexivity.
  - eexists. split; [vm_compute; reflexivity|]. vm_compute. reflexivity.
Qed.

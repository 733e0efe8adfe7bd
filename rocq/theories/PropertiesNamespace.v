(** * The namespace of metadata (C68).

    [mty_known] and [roots] are in SpecNamespace.v: reading the output as XML, is the
    prefix [mty:] declared wherever it is used, and which attributes do the elements have
    that are in no other element?  The conditions on the source are those of C38: names
    are names of XML, so that the output can be read. *)

From Verif Require Import Base Escape Doc Config Ast Errors Build Transform Output Convert Grammar SpecMarkup SpecHtml SpecTree SpecBuild SpecSource
  SpecTransform SpecErrors SpecWhole SpecOrdinary SpecAttrs SpecNamespace P_Match P_Ordinary P_Namespace PropertiesConvert PropertiesWhole PropertiesSource.

Theorem C68_namespace : forall alnum parse src cfg out c elements, indent_ok cfg -> reads alnum parse src ->
  parse src = inl c -> is_xml cfg = true -> c_metadata cfg = Some elements ->
  plain_source (source_slice src) true c -> plain_options (source_slice src) true cfg ->
  ordinary_source (source_slice src) true c -> ordinary_options true cfg ->
  documented_option (c_special cfg) Code <> Some [] ->
  convert parse source_slice src cfg = Some (inl out) ->
  exists items, read_markup true out = Some items /\ mty_known [] items = true /\
    Forall (fun attrs => declares_mty attrs = true) (roots 0 items).
Proof.
  intros alnum parse src cfg out c el Hi HR HP HX HM S1 O1 S2 O2 HN HC.
  assert (HA : forall Q : a_content -> Prop, Q c -> forall c', parse src = inl c' -> Q c').
  { intros Q Hq c' E. rewrite HP in E. now injection E as <-. }
  rewrite <- HX in S1, O1, S2, O2.
  destruct (C07_source_reads_back alnum parse src cfg out Hi HR (HA _ S1) O1) as (ns & is & HD & H1 & H2 & _); auto.
  { intros ns HD. eapply document_fits; [exact (HA _ S2)|exact O2|exact HD|reflexivity]. }
  rewrite HX in H1, H2. exists (merge_text is). split; [exact H1|]. eapply items_roots; [|exact H2].
  eapply document_roots; [exact HM| |exact HD]. intros _. exact HN.
Qed.
Print Assumptions C68_namespace.

(** [p#i.c[x=1]> a]; with metadata elements the text has an element as well. *)
Definition ex_config68 : config := mkConfig None (Some true) special_default None None (Some true) None.
Example C68_example :
  reads is_ascii_alnum (ex_parse ex_tree6) ex_src6 /\
  plain_source (source_slice ex_src6) true ex_tree6 /\ plain_options (source_slice ex_src6) true ex_config68 /\
  ordinary_source (source_slice ex_src6) true ex_tree6 /\ ordinary_options true ex_config68 /\
  convert (ex_parse ex_tree6) source_slice ex_src6 ex_config68 = Some (inl
    (L "<p id=""i"" class=""c"" x=""1"" xmlns:mty=""tag:youngspe.github.io,2024:mintyml/metadata"" mty:start=""0"" mty:end=""13"" mty:content-start=""11"" mty:content-end=""13""><mty:text mty:raw=""true"" mty:start=""12"" mty:end=""13"">a</mty:text></p>")).
Proof.
  split; [apply document_b_ok; vm_compute; reflexivity|]. split; [|split; [|split; [|split]]].
  - split.
    + intros b s e H. each_selector H. split; [|split].
      * intros r E. vm_compute in E. injection E as <-. split; [exists 112, []; split; vm_compute; reflexivity|].
        intros Hi. vm_compute in Hi. intuition discriminate.
      * intros r Hr. vm_compute in Hr. destruct Hr as [<-|[]]. split; intros Hi; vm_compute in Hi; intuition discriminate.
      * intros r Hr. vm_compute in Hr. repeat (destruct Hr as [<-|Hr]; [apply readable_b; vm_compute; reflexivity|]). destruct Hr.
    + apply Forall_forall. intros t H. vm_compute in H. destruct H as [<-|[]]. apply readable_b. vm_compute. reflexivity.
  - split; [intros k t E; destruct k; discriminate|]. split; [discriminate|reflexivity].
  - split.
    + intros b s e r H E. each_selector H. vm_compute in E. injection E as <-. intros _. split; [reflexivity|vm_compute; discriminate].
    + intros t H. vm_compute in H. destruct H as [H|[]]. injection H as <-. split; [reflexivity|auto].
  - split; [intros k t E; destruct k; discriminate|discriminate].
  - vm_compute. reflexivity.
Qed.

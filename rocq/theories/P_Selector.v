(** * The builder: what a selector becomes. *)

From Verif Require Import Base Doc Ast Errors Build SpecBuild P_Base P_Build P_BuildAll.

Definition eq_strings (s : a_selector) (v : selector) : Prop :=
  s_range v = mkR (as_start s) (as_end s) /\ s_tag v = source_tag s /\ sel_strings v = map FromSource (selector_strings s).

Lemma clean_mapM : forall A B (f : A -> M B) (P : A -> B -> Prop) l, (forall x, FF (f x)) ->
  (forall x, Clean (f x) (P x)) -> Clean (mapM f l) (Forall2 P l).
Proof.
  intros A B f P l Hf H. induction l as [|x l IH]; cbn [mapM]; [apply clean_ret; constructor|].
  eapply clean_bind; [apply H| |].
  - intros v. apply ff_bind; [apply ff_mapM; auto|]. intros. apply ff_ret.
  - intros v Hv. cbn beta. eapply clean_bind; [exact IH|intros; apply ff_ret|]. intros vs Hvs. apply clean_ret. now constructor.
Qed.
Lemma attr_built : forall a, (a_name (build_attribute a) :: match Doc.a_value (build_attribute a) with Some v => [v] | None => [] end)
  = map FromSource (attr_strings a).
Proof. intros [s n [[eq [r|r]]|] e]; reflexivity. Qed.
Lemma attrs_built : forall l, Clean (build_attribute_list l) (fun i => item_strings i = map FromSource (attrs_strings l)).
Proof.
  intros l. unfold build_attribute_list. eapply clean_bind with (Q := fun _ => True).
  - destruct (al_rbracket l); [now apply clean_ret|unfold unclosed; now apply clean_syntax].
  - intros. apply ff_ret.
  - intros _ _. apply clean_ret. cbn [item_strings]. unfold attrs_strings. rewrite !flat_map_concat_map, map_map.
    rewrite <- flat_map_concat_map. induction (al_parts l) as [|a la IH]; [reflexivity|].
    cbn [map concat flat_map]. rewrite map_app, IH. f_equal. apply attr_built.
Qed.
Lemma class_built : forall c, Clean (build_class_like c)
  (fun o => flat_map item_strings (opt_list o) = map FromSource (classlike_strings c)).
Proof.
  intros [d i|h i|r]; cbn [build_class_like]; [now apply clean_ret|now apply clean_ret|].
  unfold invalid. apply clean_err. apply ff_ret.
Qed.
Lemma ff_class : forall c, FF (build_class_like c).
Proof. intros [? ?|? ?|?]; cbn [build_class_like]; unfold invalid; ff. Qed.
Lemma flat_opt : forall (l : list (option sel_item)) cl,
  Forall2 (fun c o => flat_map item_strings (opt_list o) = map FromSource (classlike_strings c)) cl l ->
  flat_map item_strings (flat_map opt_list l) = map FromSource (flat_map classlike_strings cl).
Proof.
  intros l cl H. induction H as [|c o cl l Ho H IH]; [reflexivity|]. cbn [flat_map]. now rewrite flat_map_app, map_app, Ho, IH.
Qed.
Lemma classes_built : forall cl, Clean (build_class_likes cl)
  (fun l => flat_map item_strings l = map FromSource (flat_map classlike_strings cl)).
Proof.
  intros cl. unfold build_class_likes. eapply clean_bind; [apply clean_mapM; [apply ff_class|apply class_built]|intros; apply ff_ret|].
  intros v Hv. apply clean_ret. now apply flat_opt.
Qed.
Lemma ff_attrs : forall l, FF (build_attribute_list l).
Proof. intros l. unfold build_attribute_list, unclosed. ff. Qed.
Lemma ff_classes : forall l, FF (build_class_likes l).
Proof. intros l. unfold build_class_likes. ff. apply ff_class. Qed.
Lemma ff_segment : forall s, FF (build_segment s).
Proof. intros [a|cl]; cbn [build_segment]; ff; [apply ff_attrs|apply ff_classes]. Qed.
Lemma segment_built : forall s, Clean (build_segment s) (fun l => flat_map item_strings l = map FromSource (segment_strings s)).
Proof.
  intros [a|cl]; cbn [build_segment]; [|apply classes_built].
  eapply clean_bind; [apply attrs_built|intros; apply ff_ret|]. intros i Hi. apply clean_ret. cbn [flat_map].
  now rewrite app_nil_r.
Qed.
Lemma selector_built : forall s, Clean (build_selector s) (eq_strings s).
Proof.
  intros s. unfold build_selector. eapply clean_bind with
    (Q := fun v : tag * list sel_item => fst v = source_tag s /\ flat_map item_strings (snd v) = map FromSource
       match as_first s with AStartAttrs a => attrs_strings a | AStartTag _ cl => flat_map classlike_strings cl end).
  - unfold source_tag. destruct (as_first s) as [a|e cl].
    + eapply clean_bind; [apply attrs_built|intros; apply ff_ret|]. intros i Hi. apply clean_ret. cbn [fst snd flat_map].
      split; [reflexivity|]. now rewrite app_nil_r.
    + eapply clean_bind; [apply classes_built|intros; apply ff_ret|]. intros i Hi. apply clean_ret. split; [|exact Hi].
      destruct e as [[r|r]|]; reflexivity.
  - intros [tg items]. ff. apply ff_segment.
  - intros [tg items] [Ht Hi]. cbn [fst snd] in Ht, Hi. eapply clean_bind; [apply clean_mapM; [apply ff_segment|apply segment_built]|intros; apply ff_ret|].
    intros more Hm. apply clean_ret. unfold eq_strings, sel_strings, selector_strings. cbn [s_items s_range s_tag].
    split; [reflexivity|]. split; [exact Ht|].
    rewrite flat_map_app, map_app, Hi. f_equal. clear -Hm. induction Hm as [|x y l l' Hx Hm IH]; [reflexivity|].
    cbn [concat flat_map]. now rewrite flat_map_app, map_app, Hx, IH.
Qed.


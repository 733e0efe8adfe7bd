(** * The size of the output (for C69). *)

From Verif Require Import Base Escape OutText Doc Config Ast Errors Build Infer Transform Output Convert Grammar SpecMarkup SpecHtml SpecTree SpecBuild SpecInfer SpecTransform SpecWhole SpecSource SpecErrors
  P_Base P_Escape P_OutText P_Build P_BuildAll P_Grammar P_InferProps P_Infer P_Marks P_Source P_Args.
From Coq Require Import Lia.

Local Open Scope nat_scope.

(** ** Strings *)
Lemma dec_control : forall c, is_control c = true -> length (dec c) <= 3.
Proof.
  intros c H. assert (In c (map N.of_nat (seq 0 160))) as Hin.
  { rewrite <- (N2Nat.id c). apply in_map, in_seq. unfold is_control in H. apply orb_true_iff in H as [H|H]; [|apply andb_true_iff in H as [_ H]]; apply N.leb_le in H; lia. }
  assert (forallb (fun c => length (dec c) <=? 3) (map N.of_nat (seq 0 160)) = true) as HA by (vm_compute; reflexivity).
  rewrite forallb_forall in HA. apply HA in Hin. now apply Nat.leb_le.
Qed.
Lemma esc_char_size : forall xml q c, length (esc_char xml q c) <= 9.
Proof.
  intros xml q c. unfold esc_char, get_escape, xml_get_escape, html_get_escape.
  assert (is_control c = true -> length (write_escape_kind (Number c)) <= 9) as HN.
  { intros H. apply dec_control in H. cbn [write_escape_kind]. rewrite !app_length. change (length (L "&#")) with 2. change (length (L ";")) with 1. lia. }
  destruct xml; repeat match goal with |- context [if ?b then _ else _] => destruct b eqn:? end; try (apply HN; first [assumption|reflexivity]); cbn; lia.
Qed.
Lemma esc_size : forall xml q s, length (esc_str xml q s) <= 9 * length s.
Proof.
  intros xml q s. rewrite esc_str_flat. induction s as [|c s IH]; [cbn; lia|]. cbn [flat_map length]. rewrite app_length.
  pose proof (esc_char_size xml q c). lia.
Qed.
Lemma split_at_size : forall p s a b, split_at_char p s = Some (a, b) -> s = a ++ b.
Proof.
  induction s as [|c s IH]; intros a b H; cbn in H; [discriminate|]. destruct (c =? p)%N; [injection H as <- <-; reflexivity|].
  destruct (split_at_char p s) as [[x y]|]; [|discriminate]. injection H as <- <-. cbn. f_equal. now apply IH.
Qed.
Definition part_size (i : part + lrange) : nat := match i with inl (PSlice s) => length s | inl (PChar _) => 1 | inr _ => 0 end.
Lemma advance_size : forall p cu f a cu', advance_to_char p cu = (f, a, cu') -> length (cu_post cu) = length a + length (cu_post cu').
Proof.
  intros p cu f a cu' H. unfold advance_to_char in H. destruct (split_at_char p (cu_post cu)) as [[x y]|] eqn:E; injection H as <- <- <-; cbn.
  - now rewrite (split_at_size _ _ _ _ E), app_length.
  - lia.
Qed.
Lemma next_size : forall cu o cu', next cu = (o, cu') -> length (cu_post cu) = (match o with Some _ => 1 | None => 0 end) + length (cu_post cu').
Proof. intros [p [|c s]] o cu' H; cbn in H; injection H as <- <-; reflexivity. Qed.
Lemma body_size : forall c cu o cu', escape_body c cu = (o, cu') -> length (cu_post cu') <= length (cu_post cu).
Proof.
  intros c cu o cu' H. unfold escape_body in H.
  repeat match type of H with (if ?b then _ else _) = _ => destruct b; [try (injection H as _ <-; lia)|] end; try (injection H as _ <-; lia).
  - unfold escape_x, advance_by in H. cbv beta iota zeta in H. apply (f_equal snd) in H. cbn [snd] in H. subst cu'. cbn [cu_post]. rewrite skipn_length. lia.
  - unfold escape_u in H. destruct (match peek cu with Some c0 => (c0 =? 123)%N | None => false end); [|injection H as _ <-; lia].
    destruct (next cu) as [o1 cu1] eqn:E1. apply next_size in E1. destruct (advance_to_char 125 cu1) as [[fd ds] cu2] eqn:E2. apply advance_size in E2.
    destruct (fd && _).
    + destruct (next cu2) as [o3 cu3] eqn:E3. apply next_size in E3. injection H as _ <-. lia.
    + injection H as _ <-. lia.
Qed.
Lemma loop_size : forall f off cu, list_sum (map part_size (unescape_loop f off cu)) <= length (cu_post cu).
Proof.
  induction f as [|f IH]; intros off cu; cbn [unescape_loop]; [cbn; lia|]. destruct (unescape_step off cu) as [[it cu']|] eqn:E; [|cbn; lia].
  cbn [map]. change (list_sum (?a :: ?b)) with (a + list_sum b).
  specialize (IH off cu').
  assert (part_size it + length (cu_post cu') <= length (cu_post cu)); [|lia].
  unfold unescape_step in E. destruct (advance_to_char 92 cu) as [[fd pre] cu1] eqn:E1. apply advance_size in E1. destruct pre as [|x pre].
  - destruct fd; cbn [negb] in E; [|discriminate]. destruct (next cu1) as [o2 cu2] eqn:E2. apply next_size in E2.
    destruct (next cu2) as [[c|] cu3] eqn:E3; apply next_size in E3.
    + destruct (escape_body c cu3) as [[o|] cu4] eqn:E4; apply body_size in E4; injection E as <- <-; cbn [part_size length] in *; lia.
    + injection E as <- <-. cbn [part_size length] in *. lia.
  - injection E as <- <-. cbn [part_size]. lia.
Qed.
Lemma decoded_size : forall s, length (fst (unescape s)) <= length s.
Proof.
  intros s. unfold unescape, unescape_parts. etransitivity; [|apply (loop_size (S (length s)) 0%N (mkC 0 s))].
  generalize (unescape_loop (S (length s)) 0 (mkC 0 s)) as l. induction l as [|[[p|c]|r] l IH]; cbn [write_parts map]; [cbn; lia|..].
  - destruct (write_parts l) as [t ok]. cbn [fst part_size] in *. rewrite app_length. change (list_sum (?a :: ?b)) with (a + list_sum b). cbn [part_size]. lia.
  - destruct (write_parts l) as [t ok]. change (list_sum (?a :: ?b)) with (a + list_sum b). cbn [fst part_size length] in *. lia.
  - cbn. lia.
Qed.
Lemma dashes_size : forall s a b, split_dashes s = Some (a, b) -> length s = length a + length b /\ 0 < length a.
Proof.
  induction s as [|c s IH]; intros a b H; cbn [split_dashes] in H; [discriminate|]. destruct (starts_with (L "--") (c :: s)).
  - injection H as <- <-. cbn. lia.
  - destruct (split_dashes s) as [[x y]|]; [|discriminate]. injection H as <- <-. destruct (IH _ _ eq_refl). cbn [length]. lia.
Qed.
Lemma comment_size : forall s, length (comment_body s) <= 2 * length s + 2.
Proof.
  intros s. unfold comment_body. rewrite app_length.
  assert (forall f s, length (comment_loop f s) <= 2 * length s + 1) as H.
  { clear. induction f as [|f IH]; intros s; cbn [comment_loop]; [cbn; lia|]. destruct (split_dashes s) as [[a b]|] eqn:E.
    - apply dashes_size in E. rewrite app_length. cbn [length]. specialize (IH b). lia.
    - rewrite app_length. destruct (ends_with_char 45 s); cbn; lia. }
  specialize (H (S (length s)) s). destruct (_ || _); cbn [length]; lia.
Qed.
Lemma rsplit_size : forall p s a b, rsplit_once p s = Some (a, b) -> length a <= length s.
Proof.
  induction s as [|c s IH]; intros a b H; cbn in H; [discriminate|]. destruct (rsplit_once p s) as [[x y]|].
  - injection H as <- <-. cbn. specialize (IH _ _ eq_refl). lia.
  - destruct (c =? p)%N; [|discriminate]. injection H as <- <-. cbn. lia.
Qed.
Lemma inclusive_size : forall p s, list_sum (map (@length N) (split_inclusive p s)) = length s.
Proof.
  induction s as [|c s IH]; [reflexivity|]. cbn [split_inclusive]. destruct (c =? p)%N.
  - cbn [map list_sum fold_right length] in *. unfold list_sum in IH. lia.
  - destruct (split_inclusive p s) as [|l ls]; cbn [map list_sum fold_right length] in *; unfold list_sum in *; cbn in *; lia.
Qed.
Lemma suffix_size : forall c s, length (strip_suffix_char c s) <= length s.
Proof.
  intros c. induction s as [|d s IH]; [cbn; lia|]. cbn [strip_suffix_char]. destruct s as [|e s]; [destruct (c =? d)%N; cbn; lia|]. cbn [length] in *. lia.
Qed.
Lemma prefix_size : forall p s, length (opt_or (strip_prefix p s) s) <= length s.
Proof.
  intros p s. destruct (strip_prefix p s) as [r|] eqn:E; [|cbn; lia]. cbn.
  revert s E. induction p as [|c p IH]; intros s E; cbn in E; [injection E as ->; lia|]. destruct s as [|d s]; [discriminate|]. destruct (c =? d)%N; [|discriminate].
  apply IH in E. cbn. lia.
Qed.
Lemma lines_size : forall s, list_sum (map (@length N) (trim_multiline s)) <= length s.
Proof.
  intros s. unfold trim_multiline. destruct (split_once 10 s) as [[a s1]|] eqn:E1; [|cbn; lia].
  destruct (rsplit_once 10 s1) as [[s2 l]|] eqn:E2; [|cbn; lia]. apply rsplit_size in E2. apply split_once_some in E1 as [E1 _].
  pose proof (suffix_size 13 s2) as H3. pose proof (inclusive_size 10 (strip_suffix_char 13 s2)) as H4.
  assert (length s1 <= length s) by (rewrite E1, !app_length; cbn; lia).
  rewrite map_map. transitivity (length s2); [|lia]. transitivity (length (strip_suffix_char 13 s2)); [|lia]. rewrite <- H4.
  generalize (split_inclusive 10 (strip_suffix_char 13 s2)) as ls. induction ls as [|x ls IH]; [cbn; lia|].
  cbn [map]. change (list_sum (?a :: ?b)) with (a + list_sum b). pose proof (prefix_size (leading_ws l) x). lia.
Qed.

(** ** Trees: [a] for each element, selector, item and text, [b] for each character *)
Lemma sum_app : forall l m, list_sum (l ++ m) = list_sum l + list_sum m.
Proof. induction l as [|x l IH]; intros m; cbn [app]; [reflexivity|]. change (list_sum (?a :: ?b)) with (a + list_sum b). rewrite IH. lia. Qed.
Lemma sum_rev : forall l, list_sum (rev l) = list_sum l.
Proof. induction l as [|x l IH]; [reflexivity|]. cbn [rev]. rewrite sum_app, IH. change (list_sum (?a :: ?b)) with (a + list_sum b). cbn. lia. Qed.
Lemma sum_le : forall A (f g : A -> nat) l, (forall x, In x l -> f x <= g x) -> list_sum (map f l) <= list_sum (map g l).
Proof.
  induction l as [|x l IH]; intros H; [cbn; lia|]. cbn [map]. change (list_sum (?a :: ?b)) with (a + list_sum b).
  pose proof (H x (or_introl eq_refl)). specialize (IH (fun y Hy => H y (or_intror Hy))). lia.
Qed.
Lemma sum_cons : forall x l, list_sum (x :: l) = x + list_sum l.
Proof. reflexivity. Qed.
Lemma flat_size : forall A (f : A -> str) l, length (flat_map f l) = list_sum (map (fun x => length (f x)) l).
Proof. induction l as [|x l IH]; [reflexivity|]. cbn [flat_map map]. rewrite app_length, sum_cons, IH. reflexivity. Qed.

Section Tree.
Variable slc : lrange -> str.
Definition slen (t : tslice) : nat := length (as_str slc t).
Definition olen (o : option tslice) : nat := match o with Some t => slen t | None => 0 end.
Definition asz (a b : nat) (x : attribute) : nat := a + b * (slen (a_name x) + olen (Doc.a_value x)).
Definition isz (a b : nat) (i : sel_item) : nat :=
  match i with SId _ v | SClass _ v => a + b * slen v | SAttrs _ l => list_sum (map (asz a b) l) end.
Definition issz (a b : nat) (l : list sel_item) : nat := list_sum (map (isz a b) l).
Definition ssz (a b : nat) (s : selector) : nat := a + b * olen (tag_name (s_tag s)) + issz a b (s_items s).
Definition sssz (a b : nat) (l : list selector) : nat := list_sum (map (ssz a b) l).
Definition tsz (a b : nat) (t : textlike) : nat :=
  match t with
  | TText t => a + b * slen (t_slice t)
  | TComment s => a + b * slen s
  | TSpace (SInline (Some s)) => a + b * slen s
  | TSpace _ => a
  end.
Fixpoint nsz (a b : nat) (n : node) : nat :=
  match n with
  | NElt _ e => a + sssz a b (e_selectors e) + list_sum (map (nsz a b) (e_nodes e))
  | NTxt _ t => tsz a b t
  end.
Definition nssz (a b : nat) (l : list node) : nat := list_sum (map (nsz a b) l).
Lemma nsz_elt : forall a b r e, nsz a b (NElt r e) = a + sssz a b (e_selectors e) + nssz a b (e_nodes e).
Proof. reflexivity. Qed.
Lemma nssz_cons : forall a b n l, nssz a b (n :: l) = nsz a b n + nssz a b l.
Proof. reflexivity. Qed.
Lemma nssz_app : forall a b l m, nssz a b (l ++ m) = nssz a b l + nssz a b m.
Proof. intros. unfold nssz. rewrite map_app. apply sum_app. Qed.
Lemma nssz_rev : forall a b l, nssz a b (rev l) = nssz a b l.
Proof. intros. unfold nssz. rewrite map_rev. apply sum_rev. Qed.
Lemma sssz_cons : forall a b n l, sssz a b (n :: l) = ssz a b n + sssz a b l.
Proof. reflexivity. Qed.
Lemma sssz_app : forall a b l m, sssz a b (l ++ m) = sssz a b l + sssz a b m.
Proof. intros. unfold sssz. rewrite map_app. apply sum_app. Qed.

(** Greater weights give greater sizes. *)
Lemma isz_mono : forall a a' b i, a <= a' -> isz a b i <= isz a' b i.
Proof. intros a a' b [h v|h v|r l] H; cbn [isz]; try lia. apply sum_le. intros x _. unfold asz. lia. Qed.
Lemma issz_mono : forall a a' b l, a <= a' -> issz a b l <= issz a' b l.
Proof. intros. apply sum_le. intros. now apply isz_mono. Qed.
Lemma ssz_mono : forall a a' b s, a <= a' -> ssz a b s <= ssz a' b s.
Proof. intros a a' b s H. unfold ssz. pose proof (issz_mono a a' b (s_items s) H). lia. Qed.
Lemma sssz_mono : forall a a' b s, a <= a' -> sssz a b s <= sssz a' b s.
Proof. intros. apply sum_le. intros. now apply ssz_mono. Qed.
Lemma nsz_mono : forall a a' b n, a <= a' -> nsz a b n <= nsz a' b n.
Proof.
  intros a a' b n H. induction n as [r e IH|r t] using node_ind'.
  - rewrite !nsz_elt. pose proof (sssz_mono a a' b (e_selectors e) H).
    assert (nssz a b (e_nodes e) <= nssz a' b (e_nodes e)); [|lia]. apply sum_le. rewrite Forall_forall in IH. exact IH.
  - cbn [nsz]. destruct t as [t|s|[| |[s|]]]; cbn [tsz]; lia.
Qed.
Lemma nssz_mono : forall a a' b s, a <= a' -> nssz a b s <= nssz a' b s.
Proof. intros. apply sum_le. intros. now apply nsz_mono. Qed.

(** All weights at most [a]. *)
Lemma scale : forall a b, b <= a -> forall n, nsz a b n <= a * nsz 1 1 n.
Proof.
  intros a b H.
  assert (forall A (f g : A -> nat) l, (forall x, In x l -> f x <= a * g x) -> list_sum (map f l) <= a * list_sum (map g l)) as HS.
  { induction l as [|x l IH]; intros HF; [cbn; lia|]. cbn [map]. rewrite !sum_cons. pose proof (HF x (or_introl eq_refl)).
    specialize (IH (fun y Hy => HF y (or_intror Hy))). nia. }
  assert (forall x, asz a b x <= a * asz 1 1 x) as HA by (intros; unfold asz; nia).
  assert (forall i, isz a b i <= a * isz 1 1 i) as HI.
  { intros [h v|h v|r l]; cbn [isz]; try nia. apply HS. auto. }
  assert (forall s, ssz a b s <= a * ssz 1 1 s) as HT.
  { intros s. unfold ssz. pose proof (HS _ (isz a b) (isz 1 1) (s_items s) (fun i _ => HI i)). unfold issz. nia. }
  induction n as [r e IH|r t] using node_ind'.
  - rewrite !nsz_elt. pose proof (HS _ (ssz a b) (ssz 1 1) (e_selectors e) (fun i _ => HT i)).
    rewrite Forall_forall in IH. pose proof (HS _ (nsz a b) (nsz 1 1) (e_nodes e) IH). unfold sssz, nssz. nia.
  - cbn [nsz]. destruct t as [t|s|[| |[s|]]]; cbn [tsz]; nia.
Qed.

(** ** The text of a tree *)
Variable xml : bool.
Definition psz (p : piece) : nat := match p with Solid s _ => length s | SpecTree.Gap w => length w end.
Definition pssz (l : list piece) : nat := list_sum (map psz l).
Lemma spaced_size : forall ps b, length (spaced b ps) <= pssz ps.
Proof.
  induction ps as [|[s k|w] ps IH]; intros b; cbn [spaced]; [cbn; lia| |]; unfold pssz; cbn [map]; rewrite sum_cons; fold (pssz ps); cbn [psz].
  - rewrite app_length. specialize (IH k). lia.
  - specialize (IH true). destruct b; [lia|]. rewrite app_length. lia.
Qed.
Lemma drop_size : forall a b ns, nssz a b (drop_spaces ns) <= nssz a b ns.
Proof.
  induction ns as [|[r e|r [t|s|s]] ns IH]; cbn [drop_spaces]; try lia. rewrite nssz_cons. lia.
Qed.
Lemma trim_size : forall a b ns, nssz a b (trim_spaces ns) <= nssz a b ns.
Proof.
  intros a b ns. unfold trim_spaces. rewrite nssz_rev. pose proof (drop_size a b (rev (drop_spaces ns))). rewrite nssz_rev in H.
  pose proof (drop_size a b ns). lia.
Qed.
Lemma value_size : forall t, length (decoded slc t) <= slen t.
Proof. intros t. apply decoded_size. Qed.
Lemma text_size : forall t, length (text_value slc t) <= slen (t_slice t).
Proof.
  intros t. unfold text_value. rewrite flat_size. transitivity (list_sum (map (@length N) (text_pieces slc t))).
  - apply sum_le. intros p _. destruct (t_unescape_in t); [apply decoded_size|lia].
  - unfold text_pieces, slen. destruct (slice_is_empty (t_slice t)); [cbn; lia|]. destruct (t_multiline t); [apply lines_size|cbn; lia].
Qed.
Lemma join_size : forall l, length (join_with [32%N] l) <= list_sum (map (fun x => 1 + length x) l).
Proof.
  induction l as [|x [|y l] IH]; [cbn; lia|cbn; lia|]. cbn [join_with map] in *. rewrite !app_length. cbn [length].
  rewrite !sum_cons in *. lia.
Qed.
Lemma attr_size : forall n v, length (attr_text xml (n, v)) <= 4 + 9 * (length n + match v with Some v => length v | None => 0 end).
Proof.
  intros n v. unfold attr_text. cbn [fst snd]. rewrite app_length. change (length (L " ")) with 1. rewrite app_length. destruct v as [v|]; [|cbn; lia].
  rewrite !app_length. change (length (L "=""")) with 2. change (length (L """")) with 1. pose proof (esc_size xml true v). lia.
Qed.
Lemma sel_attrs_size : forall s, list_sum (map (fun x => length (attr_text xml x)) (sel_attrs slc xml s)) <= issz 19 9 (s_items s).
Proof.
  intros s. unfold sel_attrs. rewrite !map_app, !sum_app.
  assert (forall l, list_sum (map (fun v => 10 + 9 * slen v) (flat_map (fun i => match i with SId _ v => [v] | _ => [] end) l)) +
     list_sum (map (fun v => 19 + 9 * slen v) (flat_map (fun i => match i with SClass _ v => [v] | _ => [] end) l)) +
     list_sum (map (asz 19 9) (flat_map (fun i => match i with SAttrs _ l => l | _ => [] end) l)) <= issz 19 9 l) as H.
  { induction l as [|[h v|h v|r l'] l IH]; [cbn; lia|..]; unfold issz in *; cbn [flat_map map isz]; rewrite ?map_app, ?sum_app, !sum_cons; cbn [map]; rewrite ?sum_cons.
    - change (list_sum (map ?f ([] ++ ?l))) with (list_sum (map f l)). cbn [app map list_sum fold_right] in *. unfold list_sum in *. cbn [fold_right] in *. lia.
    - unfold list_sum in *. cbn [fold_right app map] in *. lia.
    - unfold list_sum in *. cbn [fold_right app map] in *. lia. }
  specialize (H (s_items s)). fold (ids_in s) (classes_in s) (attrs_in s) in H.
  assert (list_sum (map (fun x => length (attr_text xml x)) (match ids_in s with i :: _ => [(L "id", Some (decoded slc i))] | [] => [] end))
    <= list_sum (map (fun v => 10 + 9 * slen v) (ids_in s))) as H1.
  { destruct (ids_in s) as [|i l]; [cbn; lia|]. cbn [map]. rewrite !sum_cons. change (list_sum []) with 0.
    unfold attr_text. cbn [fst snd]. rewrite !app_length. change (length (L " ")) with 1. change (length (L "id")) with 2. change (length (L "=""")) with 2. change (length (L """")) with 1.
    pose proof (esc_size xml true (decoded slc i)). pose proof (value_size i). lia. }
  assert (list_sum (map (fun x => length (attr_text xml x)) (match classes_in s with [] => [] | cs => [(L "class", Some (join_with [32%N] (map (decoded slc) cs)))] end))
    <= list_sum (map (fun v => 19 + 9 * slen v) (classes_in s))) as H2.
  { destruct (classes_in s) as [|i l] eqn:E; [cbn; lia|]. set (cs := i :: l). cbn [map]. rewrite !sum_cons. change (list_sum []) with 0.
    unfold attr_text. cbn [fst snd]. rewrite !app_length. change (length (L " ")) with 1. change (length (L "class")) with 5. change (length (L "=""")) with 2. change (length (L """")) with 1.
    pose proof (esc_size xml true (join_with [32%N] (map (decoded slc) cs))) as HE. pose proof (join_size (map (decoded slc) cs)) as HJ. rewrite map_map in HJ.
    assert (list_sum (map (fun x => 1 + length (decoded slc x)) cs) <= list_sum (map (fun x => 1 + slen x) cs)) as HL by (apply sum_le; intros x _; pose proof (value_size x); lia).
    assert (9 + 9 * list_sum (map (fun x => 1 + slen x) cs) <= 9 + list_sum (map (fun v => 9 + 9 * slen v) cs)) as HM.
    { clear. induction cs as [|x cs IH]; [cbn; lia|]. cbn [map]. rewrite !sum_cons. lia. }
    assert (9 + list_sum (map (fun v => 9 + 9 * slen v) cs) <= list_sum (map (fun v => 19 + 9 * slen v) cs)) as HN.
    { subst cs. cbn [map]. rewrite !sum_cons. pose proof (sum_le _ (fun v => 9 + 9 * slen v) (fun v => 19 + 9 * slen v) l ltac:(intros; cbv beta; lia)). lia. }
    lia. }
  assert (list_sum (map (fun x => length (attr_text xml x)) (map (fun a => (decoded slc (a_name a),
                    match Doc.a_value a with Some v => Some (decoded slc v) | None => if xml then Some [] else None end)) (attrs_in s)))
    <= list_sum (map (asz 19 9) (attrs_in s))) as H3.
  { rewrite map_map. apply sum_le. intros x _. etransitivity; [apply attr_size|]. unfold asz, olen. pose proof (value_size (a_name x)).
    destruct (Doc.a_value x) as [v|]; [pose proof (value_size v); lia|]. destruct xml; cbn [length]; lia. }
  lia.
Qed.
Lemma elt_tag_size : forall sels t s, elt_tag slc sels = Some (t, s) ->
  2 * length t + list_sum (map (fun x => length (attr_text xml x)) (sel_attrs slc xml s)) <= sssz 19 9 sels.
Proof.
  induction sels as [|x sels IH]; intros t s H; cbn [elt_tag] in H; [discriminate|]. rewrite sssz_cons.
  destruct (tag_name (s_tag x)) as [v|] eqn:E.
  - injection H as <- <-. unfold ssz. rewrite E. pose proof (sel_attrs_size x). cbn [olen]. unfold slen. lia.
  - apply IH in H. lia.
Qed.
Lemma open_size : forall t s b, length (open_text slc xml t s b) <= 3 + length t + list_sum (map (fun x => length (attr_text xml x)) (sel_attrs slc xml s)).
Proof.
  intros t s b. unfold open_text. rewrite !app_length, flat_size. change (length (L "<")) with 1. 
  destruct b; [change (length (L "/>")) with 2|change (length (L ">")) with 1]; lia.
Qed.

Lemma close_size : forall t, length (close_text t) = 3 + length t.
Proof. intros t. unfold close_text. rewrite !app_length. change (length (L "</")) with 2. change (length (L ">")) with 1. lia. Qed.
Lemma pssz_app : forall l m, pssz (l ++ m) = pssz l + pssz m.
Proof. intros. unfold pssz. rewrite map_app. apply sum_app. Qed.
Lemma pssz_cons : forall p l, pssz (p :: l) = psz p + pssz l.
Proof. reflexivity. Qed.

Scheme Pieces_mut := Induction for Pieces Sort Prop with PiecesL_mut := Induction for PiecesL Sort Prop.
Lemma pieces_size : (forall raw n ps, Pieces slc xml raw n ps -> pssz ps <= nsz 19 9 n) /\
  (forall raw ns ps, PiecesL slc xml raw ns ps -> pssz ps <= nssz 19 9 ns).
Proof.
  assert (forall raw n ps (H : Pieces slc xml raw n ps), pssz ps <= nsz 19 9 n) as H1.
  { apply (Pieces_mut slc xml (fun raw n ps _ => pssz ps <= nsz 19 9 n) (fun raw ns ps _ => pssz ps <= nssz 19 9 ns)).
    - intros raw r t _. rewrite pssz_cons. change (pssz []) with 0. cbn [psz nsz tsz]. pose proof (text_size t).
      destruct (written_raw xml raw t); [lia|]. pose proof (esc_size xml false (text_value slc t)). lia.
    - intros. change (pssz []) with 0. lia.
    - intros raw r s. rewrite pssz_cons. change (pssz []) with 0. cbn [psz nsz tsz]. rewrite !app_length.
      change (length (L "<!--")) with 4. change (length (L "-->")) with 3. pose proof (comment_size (as_str slc s)). unfold slen. lia.
    - intros raw r s. rewrite pssz_cons. change (pssz []) with 0. cbn [psz nsz tsz]. destruct s as [| |[s|]]; cbn [space_value length]; unfold slen; lia.
    - intros raw r e ps _ _ IH. rewrite nsz_elt. pose proof (trim_size 19 9 (e_nodes e)). lia.
    - intros raw r e t s HT _ _. rewrite nsz_elt, pssz_cons. change (pssz []) with 0. cbn [psz]. apply elt_tag_size in HT. pose proof (open_size t s true). lia.
    - intros raw r e t s ps HT _ _ IH. rewrite nsz_elt, pssz_cons, pssz_app. cbn [psz]. apply elt_tag_size in HT. pose proof (open_size t s false).
      pose proof (trim_size 19 9 (e_nodes e)).
      destruct (negb xml && html_void_name t); [change (pssz []) with 0; lia|]. rewrite pssz_cons. change (pssz []) with 0. cbn [psz]. rewrite close_size. lia.
    - intros. cbn. lia.
    - intros raw n ns ps qs _ IH1 _ IH2. rewrite pssz_app, nssz_cons. lia. }
  split; [exact H1|]. intros raw ns ps H. induction H as [|raw n ns ps qs H _ IH]; [cbn; lia|]. rewrite pssz_app, nssz_cons. specialize (H1 _ _ _ H). lia.
Qed.

(** ** The transforms *)
Lemma lang_sels_size : forall a b l sels, sssz a b (lang_sels l sels) <= sssz a b sels + a + b * (4 + length l).
Proof.
  induction sels as [|s sels IH]; cbn [lang_sels]; [lia|]. destruct (uninferred s); rewrite !sssz_cons; [lia|].
  unfold ssz. cbn [s_tag s_items]. unfold issz. rewrite map_app, sum_app. cbn [map lang_attr isz]. rewrite !sum_cons. change (list_sum []) with 0.
  unfold asz. cbn [a_name Doc.a_value olen]. unfold slen. cbn [as_str]. change (length (L "lang")) with 4. lia.
Qed.
Definition lang_len (o : option str) : nat := match o with Some l => length l | None => 0 end.
Lemma lang_size : forall a b o ns, nssz a b (apply_lang o ns) <= nssz (2 * a + b * (4 + lang_len o)) b ns.
Proof.
  intros a b [l|] ns; cbn [apply_lang lang_len]; [|apply nssz_mono; lia].
  unfold nssz. rewrite map_map. apply sum_le. intros [r e|r t] _; cbn [lang_node].
  - rewrite !nsz_elt. cbn [e_selectors e_nodes with_selectors]. pose proof (lang_sels_size a b l (e_selectors e)).
    pose proof (sssz_mono a (2 * a + b * (4 + length l)) b (e_selectors e) ltac:(lia)).
    pose proof (nssz_mono a (2 * a + b * (4 + length l)) b (e_nodes e) ltac:(lia)). lia.
  - apply nsz_mono. lia.
Qed.

Lemma naming_size : forall c g f l k t, name_for c g f l k = Named t -> length t <= 8.
Proof.
  intros c g f l k t H. destruct c, k; cbn [name_for in_section always] in H;
    repeat match type of H with context [match ?x with _ => _ end] => is_var x; destruct x end;
    repeat match type of H with context [if ?x then _ else _] => destruct x end; try discriminate; injection H as <-; vm_compute; lia.
Qed.
Lemma chain_size : forall a b a' K k sels c g p fi la r er cr ty f raw kids, 2 * a + 8 * b <= a' ->
  (forall c g p, nssz a b (kids c g p) <= K) ->
  nsz a b (chain slc k c g p fi la r er sels cr ty f raw kids) <= a' + sssz a' b sels + K.
Proof.
  intros a b a' K. induction k as [|s k IH]; intros sels c g p fi la r er cr ty f raw kids Ha HK; cbn [chain]; cbv zeta.
  - set (sels1 := name_sels slc (r_start er) sels (name_for c g fi la (kind_of ty))).
    assert (sssz a b sels1 <= a + 8 * b + sssz a' b sels) as H1.
    { pose proof (sssz_mono a a' b sels ltac:(lia)) as HM. unfold sels1, name_sels. destruct (first_name slc sels); [lia|].
      destruct (name_for c g fi la (kind_of ty)) as [t| |] eqn:E; [|destruct sels as [|x sels]; [cbn; lia|cbn [tl]; rewrite sssz_cons in HM |- *; pose proof (sssz_mono a a' b sels ltac:(lia)); lia]|lia].
      apply naming_size in E. destruct sels as [|x sels].
      - unfold sssz, ssz. cbn [map s_tag tag_name olen s_items]. rewrite sum_cons. unfold issz, slen. cbn [map as_str list_sum fold_right]. nia.
      - rewrite !sssz_cons in *. unfold ssz in *. cbn [s_tag tag_name olen s_items]. unfold slen. cbn [as_str].
        pose proof (issz_mono a a' b (s_items x) ltac:(lia)). pose proof (sssz_mono a a' b sels ltac:(lia)). nia. }
    assert (nsz a b (NElt r (mkElt er sels1 cr (kids (inside (first_name slc sels1) (kind_of ty)) p (first_name slc sels1)) ty f
       (raw || match inside (first_name slc sels1) (kind_of ty) with CRaw => true | _ => false end))) <= a' + sssz a' b sels + K) as HL.
    { rewrite nsz_elt. cbn [e_selectors e_nodes]. specialize (HK (inside (first_name slc sels1) (kind_of ty)) p (first_name slc sels1)). lia. }
    destruct sels1 as [|x [|y l]]; exact HL.
  - set (sels1 := name_sels slc (r_start er) sels (name_for c g fi la (kind_of ty))).
    assert (sssz a b sels1 <= a + 8 * b + sssz a' b sels) as H1.
    { pose proof (sssz_mono a a' b sels ltac:(lia)) as HM. unfold sels1, name_sels. destruct (first_name slc sels); [lia|].
      destruct (name_for c g fi la (kind_of ty)) as [t| |] eqn:E; [|destruct sels as [|x sels]; [cbn; lia|cbn [tl]; rewrite sssz_cons in HM |- *; pose proof (sssz_mono a a' b sels ltac:(lia)); lia]|lia].
      apply naming_size in E. destruct sels as [|x sels].
      - unfold sssz, ssz. cbn [map s_tag tag_name olen s_items]. rewrite sum_cons. unfold issz, slen. cbn [map as_str list_sum fold_right]. nia.
      - rewrite !sssz_cons in *. unfold ssz in *. cbn [s_tag tag_name olen s_items]. unfold slen. cbn [as_str].
        pose proof (issz_mono a a' b (s_items x) ltac:(lia)). pose proof (sssz_mono a a' b sels ltac:(lia)). nia. }
    assert (forall x y l, sels1 = x :: y :: l -> a + ssz a b x + sssz a' b (y :: l) <= sssz a' b sels) as H2.
    { intros x y l E. unfold sels1, name_sels in E.
      assert (forall z, a + ssz a b z <= ssz a' b z) as HZ. { intros z. unfold ssz. pose proof (issz_mono a a' b (s_items z) ltac:(lia)). lia. }
      destruct (first_name slc sels) eqn:EF; [rewrite E, (sssz_cons a' b x); specialize (HZ x); lia|].
      destruct (name_for c g fi la (kind_of ty)) as [t| |] eqn:EN.
      - apply naming_size in EN. destruct sels as [|z sels]; [discriminate|]. injection E as <- ->. rewrite (sssz_cons a' b z).
        unfold ssz at 1 2. cbn [s_tag tag_name olen s_items]. unfold slen at 1. cbn [as_str].
        pose proof (issz_mono a a' b (s_items z) ltac:(lia)). nia.
      - destruct sels as [|z sels]; [discriminate|]. cbn [tl] in E. rewrite E, (sssz_cons a' b z), (sssz_cons a' b x). specialize (HZ x). lia.
      - rewrite E, (sssz_cons a' b x). specialize (HZ x). lia. }
    assert (nsz a b (NElt r (mkElt er sels1 cr (kids (inside (first_name slc sels1) (kind_of ty)) p (first_name slc sels1)) ty f
       (raw || match inside (first_name slc sels1) (kind_of ty) with CRaw => true | _ => false end))) <= a' + sssz a' b sels + K) as HL.
    { rewrite nsz_elt. cbn [e_selectors e_nodes]. specialize (HK (inside (first_name slc sels1) (kind_of ty)) p (first_name slc sels1)). lia. }
    destruct sels1 as [|x [|y l]]; [exact HL|exact HL|].
    rewrite nsz_elt. cbn [e_selectors e_nodes]. rewrite nssz_cons. specialize (H2 x y l eq_refl).
    match goal with |- context [chain slc k ?c' ?g' ?p' ?fi' ?la' ?r' ?er' ?s' ?cr' ?ty' ?f' ?raw' kids] =>
      pose proof (IH s' c' g' p' fi' la' r' er' cr' ty' f' raw' kids Ha HK) as HI end.
    change (nssz a b []) with 0. change (sssz a b [x]) with (ssz a b x + 0). lia.
Qed.
Lemma pos_size : forall a b a' (F : bool -> bool -> node -> node) l first, (forall x f l', In x l -> nsz a b (F f l' x) <= nsz a' b x) ->
  nssz a b (map_pos F first l) <= nssz a' b l.
Proof.
  induction l as [|x l IH]; intros first H; [cbn; lia|]. cbn [map_pos]. rewrite !nssz_cons.
  pose proof (H x first match l with [] => true | _ => false end (or_introl eq_refl)). specialize (IH false (fun y f l' Hy => H y f l' (or_intror Hy))). lia.
Qed.
Lemma resolve_size : forall a b n c g p f l, nsz a b (resolve slc c g p f l n) <= nsz (2 * a + 8 * b) b n.
Proof.
  intros a b. induction n as [r e IH|r t] using node_ind'; intros c g p f l; cbn [resolve].
  - rewrite (nsz_elt (2 * a + 8 * b)). apply chain_size; [lia|]. intros c' g' p'. apply pos_size. intros x f' l' Hx. rewrite Forall_forall in IH. now apply IH.
  - apply nsz_mono. lia.
Qed.
Lemma infer_size : forall a b ns ns', infer slc ns = Some ns' -> nssz a b ns' <= nssz (2 * a + 8 * b) b ns.
Proof. intros a b ns ns' H. rewrite infer_resolves in H. injection H as <-. apply pos_size. intros. apply resolve_size. Qed.

Lemma page_elt_size : forall a b t cr ns, length t <= 4 -> nsz a b (elt_node (page_element t cr ns)) <= 2 * a + 4 * b + nssz a b ns.
Proof.
  intros a b t cr ns H. unfold elt_node. rewrite nsz_elt. unfold page_element, apply_tags. cbn [filter slice_is_empty].
  destruct (negb (str_empty t)).
  - cbn [e_selectors new_elt with_selectors with_content map e_nodes]. unfold sssz. cbn [map]. rewrite sum_cons. unfold ssz. cbn [sel_with_tag s_tag tag_name olen s_items sel_empty].
    unfold issz, slen. cbn [as_str map list_sum fold_right]. nia.
  - cbn [e_selectors new_elt with_selectors with_content tl e_nodes]. change (sssz a b []) with 0. lia.
Qed.
Lemma split_size : forall a b ns, nssz a b (fst (split_page slc ns)) + nssz a b (snd (split_page slc ns)) <= nssz a b ns.
Proof.
  induction ns as [|n ns IH]; [cbn; lia|]. cbn [split_page]. destruct (split_page slc ns) as [h bd]. cbn [fst snd] in IH. rewrite (nssz_cons a b n).
  destruct (element_with_tag_in slc [L "head"] n) as [e|] eqn:E.
  - cbn [fst snd]. rewrite nssz_app. assert (nssz a b (e_nodes e) <= nsz a b n); [|lia].
    destruct n as [r e'|]; [|discriminate]. cbn [element_with_tag_in] in E. destruct (e_selectors e') as [|s l]; [discriminate|].
    destruct (tag_name (s_tag s)); [|discriminate]. destruct (existsb _ _); [|discriminate]. injection E as <-. rewrite nsz_elt. lia.
  - destruct (has_tag_in slc metadata_tags n); cbn [fst snd]; rewrite nssz_cons; lia.
Qed.
Lemma page_size : forall a b cr ns, nssz a b (complete_page slc cr ns) <= nssz a b ns + 7 * a + 12 * b.
Proof.
  intros a b cr ns. unfold complete_page. destruct (existsb (has_tag_in slc [L "html"]) ns); [lia|]. destruct (existsb (has_tag_in slc [L "body"]) ns).
  - rewrite nssz_cons. change (nssz a b []) with 0. pose proof (page_elt_size a b (L "html") cr ns ltac:(vm_compute; lia)). lia.
  - pose proof (split_size a b ns). destruct (split_page slc ns) as [h bd]. cbn [fst snd] in H. rewrite nssz_cons. change (nssz a b []) with 0.
    match goal with |- context [page_element (L "html") cr ?l] => pose proof (page_elt_size a b (L "html") cr l ltac:(vm_compute; lia)) as H0; rewrite !nssz_cons in H0 end.
    change (nssz a b []) with 0 in H0.
    pose proof (page_elt_size a b (L "head") invalid_range h ltac:(vm_compute; lia)). pose proof (page_elt_size a b (L "body") invalid_range bd ltac:(vm_compute; lia)).
    change (nsz a b (NTxt invalid_range (TSpace ParagraphEnd))) with a in H0. lia.
Qed.

Lemma apply_size : forall a b M e tags, length tags <= 2 -> Forall (fun t => slen t <= M) tags ->
  sssz a b (e_selectors (apply_tags e tags)) <= sssz a b (e_selectors e) + 2 * a + 2 * (b * M) /\ e_nodes (apply_tags e tags) = e_nodes e.
Proof.
  intros a b M e tags HL HF. unfold apply_tags.
  assert (length (filter (fun t => negb (slice_is_empty t)) tags) <= 2 /\ Forall (fun t => slen t <= M) (filter (fun t => negb (slice_is_empty t)) tags)) as [H1 H2].
  { clear - HL HF. split; [transitivity (length tags); [|exact HL]; clear; induction tags as [|x l IH]; cbn; [lia|]; destruct (negb _); cbn; lia|]. apply Forall_forall. intros t Ht. apply filter_In in Ht. rewrite Forall_forall in HF. now apply HF. }
  destruct (filter (fun t => negb (slice_is_empty t)) tags) as [|t ts].
  - split; [|reflexivity]. cbn [e_selectors with_selectors]. destruct (e_selectors e) as [|s l]; cbn [tl]; [lia|]. rewrite sssz_cons. lia.
  - inversion H2 as [|? ? Ht Hts]; subst.
    assert (forall n, sssz a b (map (fun t => sel_with_tag (sel_empty n) t) ts) <= a + b * M) as HM.
    { intros n. destruct ts as [|u [|v us]]; [cbn; lia| |cbn [length] in H1; lia]. inversion Hts; subst. unfold sssz. cbn [map]. rewrite sum_cons. unfold ssz.
      cbn [sel_with_tag s_tag tag_name olen s_items sel_empty]. unfold issz. cbn [map list_sum fold_right]. nia. }
    destruct (e_selectors e) as [|s l].
    + split; [|reflexivity]. cbn [e_selectors with_selectors]. rewrite sssz_cons. specialize (HM (r_start (e_range e))). unfold ssz at 1.
      cbn [sel_with_tag s_tag tag_name olen s_items sel_empty]. unfold issz. cbn [map list_sum fold_right]. change (sssz a b []) with 0. nia.
    + split; [|reflexivity]. cbn [e_selectors with_selectors]. rewrite !sssz_cons, sssz_app. specialize (HM (r_end (s_range s))). unfold ssz at 1 2. cbn [s_tag tag_name olen s_items]. nia.
Qed.
Lemma special_size : forall a b M sp n, (forall k, length (special_tag_name sp k) <= M) -> nsz a b (special_node sp n) <= nsz (3 * a + 2 * (b * M)) b n.
Proof.
  intros a b M sp n HM. induction n as [r e IH|r t] using node_ind'; cbn [special_node]; [|apply nsz_mono; lia].
  rewrite !nsz_elt.
  assert (sssz a b (e_selectors (special_element sp e)) <= sssz a b (e_selectors e) + 2 * a + 2 * (b * M)) as H1.
  { unfold special_element. destruct (e_type e) as [| | |k|[]|]; try lia; apply apply_size; cbn [length]; try lia; repeat constructor; unfold slen; cbn [as_str]; apply HM. }
  pose proof (sssz_mono a (3 * a + 2 * (b * M)) b (e_selectors e) ltac:(lia)).
  cbn [e_selectors e_nodes with_nodes with_content].
  assert (nssz a b (map (special_node sp) (e_nodes e)) <= nssz (3 * a + 2 * (b * M)) b (e_nodes e)).
  { unfold nssz. rewrite map_map. apply sum_le. rewrite Forall_forall in IH. exact IH. }
  lia.
Qed.
Lemma specials_size : forall a b M sp ns, (forall k, length (special_tag_name sp k) <= M) -> nssz a b (map (special_node sp) ns) <= nssz (3 * a + 2 * (b * M)) b ns.
Proof. intros a b M sp ns HM. unfold nssz. rewrite map_map. apply sum_le. intros. now apply special_size. Qed.
End Tree.

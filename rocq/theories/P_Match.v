(** * A checker for [document_ok]: patterns and rules on concrete sources are decided by
      computation. Used for examples. *)

From Verif Require Import Base Doc Ast Grammar SpecSource P_Base P_Escape P_Grammar.
From Coq Require Import Lia.

(** ** Patterns as data *)
Inductive rx :=
| RExactly (s : str) | ROne (f : chr -> bool) | RSeq (a b : rx) | RAlt (a b : rx) | RMany (a : rx)
| RPrec (a : rx) | RNPrec (a : rx) | RFol (a : rx) | RNFol (a : rx) | RLazy (n : nat) (a : rx)
| RSrcEnd | RLineStart | RLineEnd.

Fixpoint denote (r : rx) : pat :=
  match r with
  | RExactly s => exactly s
  | ROne f => one f
  | RSeq a b => pseq (denote a) (denote b)
  | RAlt a b => palt (denote a) (denote b)
  | RMany a => many (denote a)
  | RPrec a => precedes (denote a)
  | RNPrec a => not_precedes (denote a)
  | RFol a => follows (denote a)
  | RNFol a => not_follows (denote a)
  | RLazy n a => lazily n (denote a)
  | RSrcEnd => src_end
  | RLineStart => line_start
  | RLineEnd => line_end_
  end.

(** Whether [f] holds of a number from [k] to [k + n]. *)
Fixpoint some_from (n k : nat) (f : nat -> bool) : bool :=
  if f k then true else match n with O => false | S n => some_from n (S k) f end.
Lemma some_from_iff : forall n k f, some_from n k f = true <-> exists i, (k <= i <= k + n)%nat /\ f i = true.
Proof.
  induction n as [|n IH]; intros k f; cbn [some_from]; destruct (f k) eqn:E.
  - split; [intros _; exists k; split; [lia|auto]|auto].
  - split; [discriminate|]. intros (i & H & Hi). replace i with k in Hi by lia. congruence.
  - split; [intros _; exists k; split; [lia|auto]|auto].
  - rewrite IH. split; intros (i & H & Hi).
    + exists i. split; [lia|auto].
    + destruct (Nat.eq_dec i k) as [->|]; [congruence|]. exists i. split; [lia|auto].
Qed.
Definition some_to (n : nat) (f : nat -> bool) : bool := some_from n 0 f.
Lemma some_to_iff : forall n f, some_to n f = true <-> exists i, (i <= n)%nat /\ f i = true.
Proof.
  intros n f. unfold some_to. rewrite some_from_iff. split; intros (i & H & Hi); exists i; split; auto; lia.
Qed.

Fixpoint many_b (f : str -> str -> str -> bool) (fuel : nat) (pre m post : str) : bool :=
  match m with
  | [] => true
  | _ => match fuel with
         | O => false
         | S fuel => some_from (length m - 1) 1 (fun k =>
             if f pre (firstn k m) (skipn k m ++ post) then many_b f fuel (pre ++ firstn k m) (skipn k m) post else false)
         end
  end.

Fixpoint decide (r : rx) (pre m post : str) {struct r} : bool :=
  match r with
  | RExactly s => str_eqb m s
  | ROne f => match m with [c] => f c | _ => false end
  | RSeq a b => some_to (length m) (fun k =>
      if decide a pre (firstn k m) (skipn k m ++ post) then decide b (pre ++ firstn k m) (skipn k m) post else false)
  | RAlt a b => if decide a pre m post then true else decide b pre m post
  | RMany a => many_b (decide a) (length m) pre m post
  | RPrec a => match m with
               | [] => some_to (length post) (fun k => decide a pre (firstn k post) (skipn k post))
               | _ => false
               end
  | RNPrec a => match m with
               | [] => negb (some_to (length post) (fun k => decide a pre (firstn k post) (skipn k post)))
               | _ => false
               end
  | RFol a => match m with
               | [] => some_to (length pre) (fun k => decide a (firstn k pre) (skipn k pre) post)
               | _ => false
               end
  | RNFol a => match m with
               | [] => negb (some_to (length pre) (fun k => decide a (firstn k pre) (skipn k pre) post))
               | _ => false
               end
  | RLazy n a => some_to (length m) (fun k =>
      if (n <=? k)%nat then if decide a (pre ++ firstn k m) (skipn k m) post then
        negb (some_to k (fun k' => if (n <=? k')%nat then if (k' <? k)%nat then
            some_to (length (m ++ post)) (fun j =>
              decide a (pre ++ firstn k' (m ++ post)) (firstn j (skipn k' (m ++ post))) (skipn j (skipn k' (m ++ post))))
          else false else false))
      else false else false)
  | RSrcEnd => match m, post with [], [] => true | _, _ => false end
  | RLineStart => match m with
                  | [] => match rev pre with [] => true | c :: _ => c =? 10 end
                  | _ => false
                  end
  | RLineEnd => if str_eqb m [] then true else if str_eqb m [10] then true else str_eqb m [13; 10]
  end.

Lemma if_true : forall a b : bool, (if a then b else false) = true <-> a = true /\ b = true.
Proof. intros [] []; intuition congruence. Qed.
Lemma split_firstn : forall (m m1 m2 : str), m = m1 ++ m2 -> firstn (length m1) m = m1 /\ skipn (length m1) m = m2.
Proof. intros m m1 m2 ->. induction m1 as [|c m1 [IH1 IH2]]; cbn; [now split|]. now rewrite IH1. Qed.

Definition Dec (a : pat) (f : str -> str -> str -> bool) : Prop := forall pre m post, f pre m post = true <-> a pre m post.

Lemma many_b_ok : forall a f, Dec a f -> forall fuel pre m post, (length m <= fuel)%nat ->
  (many_b f fuel pre m post = true <-> many a pre m post).
Proof.
  intros a f Hf. induction fuel as [|fuel IH]; intros pre m post Hl.
  - destruct m; [|cbn in Hl; lia]. split; [intros _; constructor|reflexivity].
  - destruct m as [|c m]; [split; [intros _; constructor|reflexivity]|].
    cbn [many_b]. set (w := c :: m) in *. rewrite some_from_iff. split.
    + intros (k & Hk & H). apply if_true in H as [H1 H2]. apply Hf in H1. apply IH in H2.
      2: { rewrite skipn_length. cbn in Hl. subst w. cbn [length]. lia. }
      rewrite <- (firstn_skipn k w). now constructor.
    + intros H. remember w as w0 eqn:Ew. assert (w0 <> []) as Hne by (subst; discriminate). clear Ew. clear w c m. revert Hl Hne.
      induction H as [|pre m1 m2 post H1 H2 IH2]; intros Hl Hne; [congruence|].
      destruct m1 as [|c m1].
      * cbn [app] in *. rewrite app_nil_r in IH2. apply IH2; auto.
      * exists (length (c :: m1)). destruct (split_firstn _ (c :: m1) m2 eq_refl) as [E1 E2].
        rewrite app_length in *. cbn [length] in *. split; [lia|]. rewrite E1, E2. apply if_true.
        split; [now apply Hf|]. apply IH; [lia|assumption].
Qed.

Theorem decide_ok : forall r, Dec (denote r) (decide r).
Proof.
  induction r as [s|f|a IHa b IHb|a IHa b IHb|a IH|a IH|a IH|a IH|a IH|n a IH| | |]; intros pre m post; cbn [denote decide].
  - unfold exactly. apply str_eqb_eq.
  - unfold one. split.
    + destruct m as [|c [|]]; try discriminate. eauto.
    + intros (c & -> & H). exact H.
  - rewrite some_to_iff. unfold pseq. split.
    + intros (k & Hk & H). apply if_true in H as [H1 H2]. apply IHa in H1. apply IHb in H2.
      exists (firstn k m), (skipn k m). rewrite firstn_skipn. auto.
    + intros (m1 & m2 & E & H1 & H2). destruct (split_firstn _ _ _ E) as [E1 E2]. exists (length m1).
      split; [subst; rewrite app_length; lia|]. rewrite E1, E2. apply if_true. split; [now apply IHa|now apply IHb].
  - unfold palt. specialize (IHa pre m post). specialize (IHb pre m post). destruct (decide a pre m post); [tauto|]. rewrite <- IHb, <- IHa. intuition congruence.
  - apply many_b_ok; auto.
  - unfold precedes. split.
    + destruct m; [|discriminate]. intros H. apply some_to_iff in H as (k & Hk & H). split; [reflexivity|].
      exists (firstn k post), (skipn k post). rewrite firstn_skipn. split; [reflexivity|]. now apply IH.
    + intros (-> & x & rest & E & H). apply some_to_iff. destruct (split_firstn _ _ _ E) as [E1 E2]. exists (length x).
      split; [subst; rewrite app_length; lia|]. rewrite E1, E2. now apply IH.
  - unfold not_precedes. split.
    + destruct m; [|discriminate]. intros H. split; [reflexivity|]. intros x rest E Hx. apply negb_true_iff in H.
      enough (some_to (length post) (fun k => decide a pre (firstn k post) (skipn k post)) = true) by congruence.
      apply some_to_iff. destruct (split_firstn _ _ _ E) as [E1 E2]. exists (length x).
      split; [subst; rewrite app_length; lia|]. rewrite E1, E2. now apply IH.
    + intros (-> & H). apply negb_true_iff. destruct (some_to _ _) eqn:E; [|reflexivity]. exfalso.
      apply some_to_iff in E as (k & Hk & E). apply IH in E. eapply H; [|exact E]. now rewrite firstn_skipn.
  - unfold follows. split.
    + destruct m; [|discriminate]. intros H. apply some_to_iff in H as (k & Hk & H). split; [reflexivity|].
      exists (firstn k pre), (skipn k pre). rewrite firstn_skipn. split; [reflexivity|]. now apply IH.
    + intros (-> & x & rest & E & H). apply some_to_iff. destruct (split_firstn _ _ _ E) as [E1 E2]. exists (length x).
      split; [subst; rewrite app_length; lia|]. rewrite E1, E2. now apply IH.
  - unfold not_follows. split.
    + destruct m; [|discriminate]. intros H. split; [reflexivity|]. intros x rest E Hx. apply negb_true_iff in H.
      enough (some_to (length pre) (fun k => decide a (firstn k pre) (skipn k pre) post) = true) by congruence.
      apply some_to_iff. destruct (split_firstn _ _ _ E) as [E1 E2]. exists (length x).
      split; [subst; rewrite app_length; lia|]. rewrite E1, E2. now apply IH.
    + intros (-> & H). apply negb_true_iff. destruct (some_to _ _) eqn:E; [|reflexivity]. exfalso.
      apply some_to_iff in E as (k & Hk & E). apply IH in E. eapply H; [|exact E]. now rewrite firstn_skipn.
  - unfold lazily. rewrite some_to_iff. split.
    + intros (k & Hk & H). apply if_true in H as [Hn H]. apply if_true in H as [H H3]. apply IH in H. apply Nat.leb_le in Hn.
      apply negb_true_iff in H3. exists (firstn k m), (skipn k m). rewrite firstn_skipn. split; [reflexivity|].
      rewrite firstn_length_le by lia. split; [lia|]. split; [assumption|]. intros x' y' rest E [Hx1 Hx2] Ha.
      rewrite (app_assoc (firstn k m)), firstn_skipn in E.
      match type of H3 with ?t = false => enough (t = true) by congruence end. apply some_to_iff. exists (length x').
      split; [lia|]. replace (n <=? length x')%nat with true by (symmetry; now apply Nat.leb_le).
      replace (length x' <? k)%nat with true by (symmetry; now apply Nat.ltb_lt). apply some_to_iff.
      destruct (split_firstn _ _ _ E) as [E1 E2]. rewrite E1, E2. exists (length y').
      split; [rewrite E, !app_length; lia|]. destruct (split_firstn _ y' rest eq_refl) as [E3 E4]. rewrite E3, E4. now apply IH.
    + intros (x & y & E & Hn & Ha & Hmin). exists (length x). destruct (split_firstn _ _ _ E) as [E1 E2].
      split; [subst; rewrite app_length; lia|]. rewrite E1, E2. apply if_true. split; [now apply Nat.leb_le|].
      apply if_true. split; [now apply IH|]. apply negb_true_iff. destruct (some_to _ _) eqn:F; [|reflexivity]. exfalso.
      apply some_to_iff in F as (k & Hk & F). apply if_true in F as [F1 F]. apply if_true in F as [F2 F].
      apply some_to_iff in F as (j & Hj & F). apply IH in F. apply Nat.leb_le in F1. apply Nat.ltb_lt in F2.
      eapply Hmin; [| |exact F].
      * rewrite !firstn_skipn. subst m. now rewrite <- app_assoc.
      * rewrite firstn_length_le; [lia|]. subst m. rewrite !app_length. lia.
  - unfold src_end. destruct m, post; intuition congruence.
  - unfold line_start. destruct m; [|split; [discriminate|intros [? _]; discriminate]].
    destruct (rev pre) as [|c l] eqn:E.
    + apply (f_equal (@rev N)) in E. rewrite rev_involutive in E. cbn in E. subst. split; auto.
    + apply (f_equal (@rev N)) in E. rewrite rev_involutive in E. cbn in E. subst pre. rewrite N.eqb_eq. split.
      * intros ->. split; [reflexivity|]. right. exists (rev l). reflexivity.
      * intros [_ [H|[a H]]]; [now destruct (rev l)|]. apply app_inj_tail in H as [_ H]. exact H.
  - unfold line_end_. split.
    + destruct (str_eqb m []) eqn:E1; [apply str_eqb_eq in E1; auto|].
      destruct (str_eqb m [10]) eqn:E2; [apply str_eqb_eq in E2; auto|]. intros H. apply str_eqb_eq in H; auto.
    + intros [-> | [-> | ->]]; reflexivity.
Qed.

(** ** The tokens *)
Definition RMany1 (a : rx) : rx := RSeq a (RMany a).
Definition x_unicode : rx := RSeq (RExactly (L "\u{")) (RSeq (RMany (ROne (not_ (mem (10 :: L "{}"))))) (RExactly (L "}"))).
Definition x_escape : rx := RAlt x_unicode (RSeq (RExactly (L "\")) (ROne any_char)).
Definition x_space : rx := RMany1 (ROne not_newline_space).
Definition x_new_line : rx := RSeq (RMany (ROne not_newline_space)) (RSeq (RExactly [10]) (RMany (ROne not_newline_space))).
Definition x_quoted_with (q : chr) : rx :=
  RSeq (RExactly [q]) (RSeq (RMany (RAlt (ROne (not_ (mem [92; q]))) x_escape)) (RExactly [q])).
Definition x_quoted : rx := RAlt (x_quoted_with 34) (x_quoted_with 39).
Definition x_any : rx := RMany1 (ROne any_char).
Definition x_ident : rx := RAlt (ROne (or_ is_ascii_alnum (mem (L "-:")))) x_escape.
Definition x_class : rx := RMany1 (ROne (not_ (or_ (mem class_name_excluded) is_whitespace))).
Definition x_element : rx := RSeq (RNPrec (ROne is_digit)) (RMany1 x_ident).
Definition x_post : rx :=
  RAlt (RSeq (RMany (ROne (mem [32; 9])))
             (RAlt (RExactly (L ">"))
                   (RSeq (RExactly (L "{")) (RNPrec (ROne (not_ (or_ is_whitespace (mem (L "}")))))))))
       (RExactly (L "[")).
Definition x_attr_name : rx := RMany1 (RAlt (ROne (not_ (or_ (mem (L "=>'""/[]\")) is_whitespace))) x_escape).
Definition x_unquoted : rx := RMany1 (RAlt (ROne (not_ (or_ (mem (L "[]\""'")) is_whitespace))) x_escape).
Definition x_word (alnum : chr -> bool) : rx :=
  RAlt (RSeq (ROne word_char) (RNPrec (RExactly (L ">")))) (RAlt (ROne alnum) x_escape).
Definition x_interpolation : rx :=
  RAlt (RSeq (RNFol (ROne (mem (L "\{"))))
       (RSeq (RExactly (L "{{"))
       (RSeq (RNPrec (RExactly (L "{")))
             (RLazy 0 (RSeq (RNFol (ROne (mem (L "\}"))))
                       (RSeq (RExactly (L "}}")) (RNPrec (RExactly (L "}")))))))))
 (RAlt (RSeq (RExactly (L "{%")) (RLazy 0 (RExactly (L "%}"))))
 (RAlt (RSeq (RExactly (L "<%")) (RLazy 0 (RExactly (L "%>"))))
       (RSeq (RExactly (L "<?")) (RLazy 0 (RExactly (L "?>")))))).
Definition x_verbatim (h : str) : rx := RSeq (RExactly (h ++ L "[")) (RLazy 0 (RExactly (L "]" ++ h ++ L "]>"))).
Definition x_ml_open (q : str) : rx := RSeq (RExactly q) (RSeq (RMany (ROne (not_ (mem [10; 96])))) RLineEnd).
Definition x_ml_body (q : str) : rx :=
  RLazy 1 (RAlt RSrcEnd (RSeq (RPrec (RExactly q)) (RFol (RSeq RLineStart (RMany (ROne (mem [9; 32]))))))).
Definition x_ml_close (q : str) : rx := RSeq (RExactly q) (RNPrec (RExactly (firstn 1 q))).
Definition x_comment_text : rx :=
  RAlt (ROne (not_ (mem (L "<!"))))
 (RAlt (RSeq (RExactly (L "<")) (RNPrec (RExactly (L "!"))))
       (RSeq (RExactly (L "!")) (RNPrec (RExactly (L ">"))))).
Definition x_code : rx := RSeq (RExactly (L "<`")) (RLazy 0 (RExactly (L "`>"))).
Definition x_chain (alnum : chr -> bool) : rx := RSeq (RMany1 (x_word (or_ alnum (mem (L "*"))))) (RPrec x_post).
Definition x_text_word (alnum : chr -> bool) : rx := RSeq (RMany1 (x_word alnum)) (RNPrec x_post).
Definition x_text (alnum : chr -> bool) : rx := RSeq (x_text_word alnum) (RMany (RSeq x_space (x_text_word alnum))).

Fixpoint comment_b (fuel : nat) (pre m post : str) : bool :=
  match m with
  | [] => true
  | _ => match fuel with
         | O => false
         | S fuel =>
             if if decide x_comment_text pre (firstn 1 m) (skipn 1 m ++ post)
                then comment_b fuel (pre ++ firstn 1 m) (skipn 1 m) post else false
             then true
             else if str_eqb (firstn 2 m) (L "<!") then
               let m' := skipn 2 m in
               some_to (length m') (fun k =>
                 let m1 := firstn k m' in let r := skipn k m' in
                 if if comment_b fuel (pre ++ L "<!") m1 (r ++ post)
                    then comment_b fuel (pre ++ L "<!" ++ m1) r post else false then true
                 else if str_eqb (firstn 2 r) (L "!>")
                 then if comment_b fuel (pre ++ L "<!") m1 (r ++ post)
                      then comment_b fuel (pre ++ L "<!" ++ m1 ++ L "!>") (skipn 2 r) post else false
                 else false)
             else false
         end
  end.
Lemma comment_b_ok : forall fuel pre m post, comment_b fuel pre m post = true -> comment_parts pre m post.
Proof.
  induction fuel as [|fuel IH]; intros pre m post H.
  - destruct m; [constructor|discriminate].
  - destruct m as [|c m]; [constructor|]. cbn [comment_b] in H. set (w := c :: m) in *.
    destruct (if decide x_comment_text pre (firstn 1 w) (skipn 1 w ++ post) then _ else false) eqn:E.
    + apply if_true in E as [E1 E2]. apply (decide_ok x_comment_text) in E1. apply IH in E2.
      rewrite <- (firstn_skipn 1 w). now apply CpText.
    + clear E. apply if_true in H as [H1 H]. apply str_eqb_eq in H1. apply some_to_iff in H as (k & _ & H).
      rewrite <- (firstn_skipn 2 w), H1. clear H1. clearbody w. set (m' := skipn 2 w) in *. clearbody m'.
      rewrite <- (firstn_skipn k m'). set (m1 := firstn k m') in *. set (r := skipn k m') in *. clearbody m1 r.
      destruct (if comment_b fuel (pre ++ L "<!") m1 (r ++ post) then _ else false) eqn:E.
      * apply if_true in E as [E1 E2]. change (m1 ++ r) with (m1 ++ [] ++ r). apply CpNested; auto.
        rewrite app_nil_r. auto.
      * apply if_true in H as [H1 H]. apply if_true in H as [H2 H3]. apply str_eqb_eq in H1.
        assert (Er : r = L "!>" ++ skipn 2 r) by (rewrite <- H1; symmetry; apply firstn_skipn).
        apply IH in H2, H3. rewrite Er in H2 |- *. apply CpNested; auto.
Qed.

Lemma app_blen_inj : forall a a' b b' : str, a ++ b = a' ++ b' -> a' = a \/ blen a' <> blen a.
Proof.
  intros a a' b b' E. destruct (N.eq_dec (blen a') (blen a)) as [H|H]; [left|now right].
  destruct (app_prefix_blen a a' b b' E ltac:(lia)) as [m ->]. rewrite blen_app in H.
  destruct m as [|c m]; [now rewrite app_nil_r|]. cbn [blen] in H. pose proof (utf8_len_pos c). lia.
Qed.

(** ** The rules.  The positions left open by the rules are taken next to the tokens. *)
Section Check.
Variable src : str.
Variable alnum : chr -> bool.

Lemma take_skip : forall s n, take_bytes n s ++ skip_bytes n s = s.
Proof.
  induction s as [|c s IH]; intros n; cbn; [reflexivity|]. destruct (n =? 0); [reflexivity|]. cbn. now rewrite IH.
Qed.
Definition tok_b (f : str -> str -> str -> bool) (p q : N) : bool :=
  let pre := take_bytes p src in
  let rest := skip_bytes p src in
  let m := take_bytes (q - p) rest in
  let post := skip_bytes (q - p) rest in
  if blen pre =? p then if blen pre + blen m =? q then f pre m post else false else false.
Lemma tok_b_ok : forall (a : pat) f p q, (forall pre m post, f pre m post = true -> a pre m post) -> tok_b f p q = true -> Tok src a p q.
Proof.
  intros a f p q Hf H. unfold tok_b in H. apply if_true in H as [H1 H]. apply if_true in H as [H2 H].
  apply N.eqb_eq in H1, H2. do 3 eexists. split; [|split; [symmetry; exact H1|split; [symmetry; exact H2|apply Hf; exact H]]].
  now rewrite take_skip, take_skip.
Qed.
Definition tokr (r : rx) (p q : N) : bool := tok_b (decide r) p q.
Lemma tokr_ok : forall r p q, tokr r p q = true -> Tok src (denote r) p q.
Proof. intros r p q. apply tok_b_ok. intros pre m post H. now apply decide_ok. Qed.
Definition rngb (r : lrange) (p q : N) : bool := if r_start r =? p then r_end r =? q else false.
Lemma rngb_ok : forall r p q, rngb r p q = true -> r = mkR p q.
Proof. intros [a b] p q H. apply if_true in H as [H1 H2]. apply N.eqb_eq in H1, H2. cbn in *. now subst. Qed.
Definition gapb (p q : N) : bool := tokr (RMany (ROne is_whitespace)) p q.
Definition spaceb (p q : N) : bool := tokr (RMany (ROne not_newline_space)) p q.
(** A token at its own range. *)
Definition tkb (r : rx) (t : lrange) : bool := tokr r (r_start t) (r_end t).
Lemma tkb_ok : forall r t, tkb r t = true -> Token src (denote r) (r_start t) (r_end t) t.
Proof. intros r [a b] H. split; [reflexivity|]. now apply tokr_ok. Qed.

(** Rules whose end is known from the tree: the checker takes the start and gives
    the end. *)
Definition nxt : Type := option N.
Definition at_ (p : N) (r : rx) (t : lrange) : nxt :=
  if r_start t =? p then if tkb r t then Some (r_end t) else None else None.
Lemma at_ok : forall p r t q, at_ p r t = Some q -> Token src (denote r) p q t.
Proof.
  unfold at_. intros p r t q H. destruct (r_start t =? p) eqn:E; [|discriminate]. apply N.eqb_eq in E. subst p.
  destruct (tkb r t) eqn:E; [|discriminate]. injection H as <-. now apply tkb_ok.
Qed.
(** Skip with [g] up to [q]. *)
Definition skip_ (g : N -> N -> bool) (p q : N) : nxt := if g p q then Some q else None.
Notation "x <- a ;; b" := (match a with Some x => b | None => None end) (at level 61, a at next level, right associativity).
Fixpoint tilesb {A} (f : N -> A -> nxt) (p : N) (l : list A) : nxt :=
  match l with [] => Some p | a :: l' => m <- f p a ;; tilesb f m l' end.
Definition maybeb {A} (f : N -> A -> nxt) (p : N) (o : option A) : nxt :=
  match o with Some a => f p a | None => Some p end.
Definition Chk {A} (f : N -> A -> nxt) (R : N -> N -> A -> Prop) : Prop := forall p a q, f p a = Some q -> R p q a.
Lemma tilesb_ok : forall A (f : N -> A -> nxt) R, Chk f R -> Chk (tilesb f) (Tiles R).
Proof.
  intros A f R H p l. revert p. induction l as [|a l IH]; intros p q E; cbn in *; [congruence|].
  destruct (f p a) as [m|] eqn:Ea; [|discriminate]. exists m. auto.
Qed.
Lemma maybeb_ok : forall A (f : N -> A -> nxt) R, Chk f R -> Chk (maybeb f) (Maybe R).
Proof. intros A f R H p [a|] q E; cbn in *; [auto|congruence]. Qed.

Lemma at_pat : forall r, Chk (fun p t => at_ p r t) (Token src (denote r)).
Proof. intros r p t q H. now apply at_ok in H. Qed.

Definition same (p q : N) : nxt := if p =? q then Some p else None.
Lemma same_ok : forall p q x, same p q = Some x -> q = p /\ x = p.
Proof. unfold same. intros p q x H. destruct (p =? q) eqn:E; [|discriminate]. apply N.eqb_eq in E. split; congruence. Qed.

Ltac use lem := match goal with H : _ |- _ => apply lem in H end.
Ltac chk :=
  repeat match goal with
  | H : (match ?a with Some _ => _ | None => None end) = Some _ |- _ => destruct a as [?|] eqn:?; [|discriminate H]
  | H : (if ?a then _ else None) = Some _ |- _ => destruct a eqn:?; [|discriminate H]
  | H : Some _ = Some _ |- _ => injection H as H
  | H : skip_ _ _ _ = Some _ |- _ => unfold skip_ in H
  | H : at_ _ _ _ = Some _ |- _ => apply at_ok in H
  | H : same _ _ = Some _ |- _ => apply same_ok in H as [? ?]
  | H : (_ =? _) = true |- _ => apply N.eqb_eq in H
  | H : gapb _ _ = true |- _ => apply tokr_ok in H
  | H : spaceb _ _ = true |- _ => apply tokr_ok in H
  end.

Definition value_b (p : N) (v : a_value) : nxt :=
  match v with AUnquoted r => at_ p x_unquoted r | AQuoted r => at_ p x_quoted r end.
Definition assign_b (p : N) (a : lrange * a_value) : nxt :=
  x <- skip_ gapb p (r_start (fst a)) ;;
  y <- at_ x (RExactly (L "=")) (fst a) ;;
  z <- skip_ gapb y (match snd a with AUnquoted r => r_start r | AQuoted r => r_start r end) ;;
  value_b z (snd a).
Definition attr_b (p : N) (a : a_attr) : nxt :=
  x <- skip_ gapb p (aa_start a) ;;
  x <- skip_ gapb x (r_start (aa_name a)) ;;
  y <- at_ x x_attr_name (aa_name a) ;;
  z <- maybeb assign_b y (aa_assign a) ;;
  same z (aa_end a).
Definition attrs_b (p : N) (l : a_attrs) : nxt :=
  p <- same p (al_start l) ;;
  x <- at_ p (RExactly (L "[")) (al_lbracket l) ;;
  y <- tilesb attr_b x (al_parts l) ;;
  z <- skip_ gapb y (match al_rbracket l with Some r => r_start r | None => al_end l end) ;;
  w <- maybeb (fun p r => at_ p (RExactly (L "]")) r) z (al_rbracket l) ;;
  same w (al_end l).
Definition class_like_b (p : N) (c : a_classlike) : nxt :=
  match c with
  | AClass dot ident => x <- at_ p (RExactly (L ".")) dot ;; at_ x x_class ident
  | AId hash ident => x <- at_ p (RExactly (L "#")) hash ;; at_ x x_class ident
  | AInvalid r => at_ p x_any r
  end.
Definition elt_sel_b (p : N) (e : a_eltsel) : nxt :=
  match e with AName r => at_ p x_element r | AStar r => at_ p (RExactly (L "*")) r end.
Definition sel_start_b (p : N) (s : a_selstart) : nxt :=
  match s with
  | AStartAttrs a => attrs_b p a
  | AStartTag e cl => x <- maybeb elt_sel_b p e ;; q <- tilesb class_like_b x cl ;;
                      if tokr (x_chain alnum) p q then Some q else None
  end.
Definition segment_b (p : N) (s : a_segment) : nxt :=
  match s with
  | ASegAttrs a => attrs_b p a
  | ASegClass cl => q <- tilesb class_like_b p cl ;; if tokr (x_chain alnum) p q then Some q else None
  end.
Definition selector_b (p : N) (s : a_selector) : nxt :=
  p <- same p (as_start s) ;; x <- sel_start_b p (as_first s) ;; q <- tilesb segment_b x (as_segments s) ;; same q (as_end s).

Lemma value_b_ok : Chk value_b (value_ok src).
Proof. intros p [r|r] q H; cbn in *; chk; assumption. Qed.
Lemma assign_b_ok : Chk assign_b (assign_ok src).
Proof.
  intros p [e v] q H. unfold assign_b in H. chk. cbn [fst snd] in *. apply value_b_ok in H. subst. do 3 eexists. eauto.
Qed.
Lemma attr_b_ok : Chk attr_b (attr_ok src).
Proof.
  intros p a q H. unfold attr_b in H. chk. use (maybeb_ok _ _ _ assign_b_ok).
  subst. do 2 eexists. eauto 8.
Qed.
Lemma attrs_b_ok : Chk attrs_b (attrs_ok src).
Proof.
  intros p a q H. unfold attrs_b in H. chk.
  use (tilesb_ok _ _ _ attr_b_ok). use (maybeb_ok _ _ (Token src (exactly (L "]"))) (at_pat (RExactly _))).
  subst. do 3 eexists. eauto 10.
Qed.
Lemma class_like_b_ok : Chk class_like_b (class_like_ok src).
Proof. intros p [d i|d i|r] q H; cbn in *; chk; eauto. Qed.
Lemma elt_sel_b_ok : Chk elt_sel_b (elt_sel_ok src).
Proof. intros p [r|r] q H; cbn in *; chk; eauto. Qed.
Lemma sel_start_b_ok : Chk sel_start_b (sel_start_ok src alnum).
Proof.
  intros p [a|e cl] q H; cbn in *; [now apply attrs_b_ok|]. chk. subst.
  use (maybeb_ok _ _ _ elt_sel_b_ok). use (tilesb_ok _ _ _ class_like_b_ok). use tokr_ok.
  split; [exact Heqb|]. eauto.
Qed.
Lemma segment_b_ok : Chk segment_b (segment_ok src alnum).
Proof.
  intros p [a|cl] q H; cbn in *; [now apply attrs_b_ok|]. chk. subst.
  use (tilesb_ok _ _ _ class_like_b_ok). use tokr_ok. split; eassumption.
Qed.
Lemma selector_b_ok : Chk selector_b (selector_ok src alnum).
Proof.
  intros p s q H. unfold selector_b in H. chk.
  use sel_start_b_ok. use (tilesb_ok _ _ _ segment_b_ok). subst. split; [auto|]. split; [eexists; split; eassumption|auto].
Qed.

Definition tail_b (p : N) (t : a_vtail) : nxt :=
  match t with
  | AVerbatim0 r => at_ p (x_verbatim []) r
  | AVerbatim1 r => at_ p (x_verbatim (L "#")) r
  | AVerbatim2 r => at_ p (x_verbatim (L "##")) r
  end.
Definition verbatim_b (p : N) (v : a_verbatim) : nxt :=
  x <- at_ p (RExactly (L "<[")) (av_open v) ;;
  y <- maybeb (fun p r => at_ p (RExactly (L "raw")) r) x (av_raw v) ;;
  tail_b y (av_tail v).
Definition comment_b_ (p : N) (c : a_comment) : nxt :=
  p <- same p (ac_start c) ;;
  x <- at_ p (RExactly (L "<!")) (ac_open c) ;;
  y <- (if rngb (ac_inner c) x (r_end (ac_inner c)) then
        if tok_b (fun pre m post => comment_b (length m) pre m post) x (r_end (ac_inner c)) then Some (r_end (ac_inner c)) else None else None) ;;
  z <- maybeb (fun p r => at_ p (RExactly (L "!>")) r) y (ac_close c) ;;
  same z (ac_end c).
Definition text_b (p : N) (t : a_text) : nxt :=
  match t with
  | ASegment r => at_ p (x_text alnum) r
  | AVerbatim v => verbatim_b p v
  | AComment c => comment_b_ p c
  | AInterpolation r => at_ p x_interpolation r
  end.
Definition multiline_b (p : N) (m : a_multiline) : nxt :=
  let quote := multiline_quote (am_kind m) in
  x <- at_ p (x_ml_open quote) (am_open m) ;;
  x <- same x (am_start m) ;;
  y <- at_ x (x_ml_body quote) (am_body m) ;;
  y <- same y (am_end m) ;;
  at_ y (x_ml_close quote) (am_close m).
Lemma verbatim_b_ok : Chk verbatim_b (verbatim_ok src).
Proof.
  intros p v q H. unfold verbatim_b in H. chk. use (maybeb_ok _ _ (Token src (exactly (L "raw"))) (at_pat (RExactly _))).
  do 2 eexists. split; [eassumption|]. split; [eassumption|]. destruct (av_tail v); cbn in *; chk; exact H.
Qed.
Lemma comment_b__ok : Chk comment_b_ (comment_ok src).
Proof.
  intros p c q H. unfold comment_b_ in H. chk.
  use (maybeb_ok _ _ (Token src (exactly (L "!>"))) (at_pat (RExactly _))).
  match goal with H : tok_b _ _ _ = true |- _ => apply (tok_b_ok comment_parts) in H end.
  2: { intros pre m post. apply comment_b_ok. }
  use rngb_ok. subst. do 2 eexists. split; [reflexivity|]. split; [eassumption|].
  split; [split; eassumption|]. split; [eassumption|auto].
Qed.
Lemma text_b_ok : Chk text_b (text_ok src alnum).
Proof.
  intros p [r|v|c|r] q H; cbn in *; chk; auto using verbatim_b_ok, comment_b__ok.
Qed.
Lemma multiline_b_ok : Chk multiline_b (multiline_ok src).
Proof.
  intros p m q H. unfold multiline_b in H. chk.
  subst. do 2 eexists. repeat (split; [eassumption || reflexivity|]). assumption.
Qed.

Section Nodes.
Variable node_b : N -> a_node -> nxt.
Definition item_b (p : N) (i : a_item) : nxt :=
  x <- skip_ spaceb p (match fst i with Some r => r_start r | None => let 'ANode s _ _ := snd i in s end) ;;
  y <- maybeb (fun p r => at_ p x_space r) x (fst i) ;;
  node_b y (snd i).
Definition line_b (p : N) (l : a_line) : nxt :=
  x <- skip_ spaceb p (ln_start l) ;;
  y <- tilesb item_b x (ln_nodes l) ;;
  skip_ spaceb y (ln_end l).
Fixpoint lines_b (p : N) (ls : list a_line) : nxt :=
  match ls with
  | [] => Some p
  | [l] => line_b p l
  | l :: (l' :: _) as ls' => x <- line_b p l ;; y <- skip_ (tokr x_new_line) x (ln_start l') ;; lines_b y ls'
  end.
Definition content_b (p : N) (c : a_content) : nxt :=
  x <- skip_ gapb p (ct_start c) ;;
  x <- skip_ gapb x (match ct_lines c with l :: _ => ln_start l | [] => x end) ;;
  y <- lines_b x (ct_lines c) ;;
  skip_ gapb y (ct_end c).
Definition block_b (p : N) (b : a_block) (e : N) : nxt :=
  x <- at_ p (RExactly (L "{")) (bk_lbrace b) ;;
  y <- content_b x (bk_content b) ;;
  z <- skip_ gapb y (match bk_rbrace b with Some r => r_start r | None => e end) ;;
  maybeb (fun p r => at_ p (RExactly (L "}")) r) z (bk_rbrace b).
Definition inline_b (p : N) (i : a_inline) (e : N) : nxt :=
  w <- at_ p (RExactly (L "<(")) (in_open i) ;;
  x <- skip_ gapb w (match in_inner i with (Some r, _) :: _ => r_start r | (None, ANode s _ _) :: _ => s | [] => w end) ;;
  y <- tilesb item_b x (in_inner i) ;;
  z <- skip_ gapb y (match in_close i with Some r => r_start r | None => e end) ;;
  maybeb (fun p r => at_ p (RExactly (L ")>")) r) z (in_close i).
Definition special_b (p : N) (s : a_special) (e : N) : nxt :=
  match s with
  | ASpecial k open inner close =>
      x <- at_ p (RExactly (special_open k)) open ;;
      y <- content_b x inner ;;
      y <- skip_ gapb y (match close with Some r => r_start r | None => e end) ;;
      maybeb (fun p r => at_ p (RExactly (special_close k)) r) y close
  | ACode code => at_ p x_code code
  end.
Definition element_b (p : N) (el : a_element) (e : N) : nxt :=
  match el with
  | ALineElt r => at_ p (RExactly (L ">")) r
  | ABlockElt b => block_b p b e
  | AInlineElt i => inline_b p i e
  | ASpecialElt s => special_b p s e
  end.
Definition ntype_b (p : N) (t : a_ntype) (e : N) : nxt :=
  match t with
  | ANMultiline m => multiline_b p m
  | ANText t => text_b p t
  | ANSelector s => selector_b p s
  | ANElement el => element_b p el e
  end.
End Nodes.
Fixpoint node_b (fuel : nat) (p : N) (n : a_node) : nxt :=
  match fuel with
  | O => None
  | S fuel => let 'ANode s t e := n in
      p <- same p s ;; q <- ntype_b (node_b fuel) p t e ;; same q e
  end.
Definition document_b (c : a_content) : bool :=
  match content_b (node_b 100) 0 c with
  | Some y => gapb y (blen src)
  | None => false
  end.

Section NodesOk.
Variable nb : N -> a_node -> nxt.
Hypothesis Hnb : Chk nb (node_ok src alnum).
Lemma gap_app : forall f p q r, Tok src (many (one f)) p q -> Tok src (many (one f)) q r -> Tok src (many (one f)) p r.
Proof.
  intros f p q r (pre & m & post & E & -> & -> & H) (pre' & m' & post' & E' & Eq & -> & H').
  assert (Hpre : pre' = pre ++ m /\ post = m' ++ post').
  { rewrite E in E'. rewrite app_assoc in E'. rewrite <- blen_app in Eq.
    destruct (app_blen_inj _ _ _ _ E') as [-> | Hn]; [|congruence]. apply app_inv_head in E'. auto. }
  destruct Hpre as [-> ->]. exists pre, (m ++ m'), post'. split; [now rewrite <- app_assoc|]. split; [reflexivity|].
  rewrite !blen_app. split; [lia|]. clear -H H'.
  remember (m' ++ post') as tl eqn:Et. induction H as [pre post|pre m1 m2 post H1 H2 IH]; subst.
  - now rewrite app_nil_r in H'.
  - rewrite <- app_assoc. constructor.
    + unfold one in *. exact H1.
    + apply IH; [reflexivity|]. now rewrite <- app_assoc.
Qed.
Lemma tok_refl : forall f p q, Tok src (many (one f)) p q -> Tok src (many (one f)) q q.
Proof.
  intros f p q (pre & m & post & E & -> & -> & H). exists (pre ++ m), [], post. cbn [blen]. rewrite blen_app.
  split; [now rewrite <- app_assoc|]. split; [reflexivity|]. split; [lia|]. constructor.
Qed.
Lemma tok_refl_start : forall f p q, Tok src (many (one f)) p q -> Tok src (many (one f)) p p.
Proof.
  intros f p q (pre & m & post & E & -> & -> & H). exists pre, [], (m ++ post). cbn [blen].
  split; [auto|]. split; [reflexivity|]. split; [lia|]. constructor.
Qed.
Lemma item_b_ok : Chk (item_b nb) (item_ok src (node_ok src alnum)).
Proof.
  intros p i q H. unfold item_b in H. chk. apply Hnb in H. use (maybeb_ok _ _ (Token src space_pat) (at_pat x_space)).
  subst. do 2 eexists. eauto.
Qed.
Lemma line_b_ok : Chk (line_b nb) (line_ok src (node_ok src alnum)).
Proof.
  intros p l q H. unfold line_b in H. chk. use (tilesb_ok _ _ _ item_b_ok). subst.
  exists (ln_start l), n0. split; [assumption|]. split; [eapply tok_refl; eauto|]. split; [auto|]. split; [assumption|].
  eapply tok_refl; eauto.
Qed.
Lemma lines_b_ok : Chk (lines_b nb) (lines_ok src (node_ok src alnum)).
Proof.
  intros p ls. revert p. induction ls as [|l ls IH]; intros p q H; [cbn in *; congruence|].
  destruct ls as [|l' ls]; [now apply line_b_ok|]. cbn [lines_b] in H.
  destruct (line_b nb p l) as [x|] eqn:E1; [|discriminate]. destruct (skip_ _ x _) as [y|] eqn:E2; [|discriminate].
  unfold skip_ in E2. chk. subst. use tokr_ok. apply IH in H. apply line_b_ok in E1. exists x, (ln_start l'). auto.
Qed.
Lemma content_b_ok : Chk (content_b nb) (content_ok src (node_ok src alnum)).
Proof.
  intros p c q H. unfold content_b in H. chk. use lines_b_ok. subst.
  do 2 eexists. split; [eassumption|]. split; [eassumption|]. split; [eassumption|]. split; [eassumption|]. eapply tok_refl; eauto.
Qed.
Lemma content_gap : forall p q r c, content_ok src (node_ok src alnum) p q c -> Gap src q r -> content_ok src (node_ok src alnum) p r c.
Proof.
  intros p q r c (x & y & H1 & H2 & H3 & H4 & H5) H. exists x, y. repeat (split; [assumption|]).
  eapply gap_app; eauto.
Qed.
Lemma block_b_ok : forall p b e q, block_b nb p b e = Some q -> block_ok src (node_ok src alnum) p q b.
Proof.
  intros p b e q H. unfold block_b in H. chk. use content_b_ok. use (maybeb_ok _ _ (Token src (exactly (L "}"))) (at_pat (RExactly _))).
  subst. do 3 eexists. eauto.
Qed.
Lemma inline_b_ok : forall p b e q, inline_b nb p b e = Some q -> inline_ok src (node_ok src alnum) p q b.
Proof.
  intros p b e q H. unfold inline_b in H. chk. use (tilesb_ok _ _ _ item_b_ok).
  use (maybeb_ok _ _ (Token src (exactly (L ")>"))) (at_pat (RExactly _))).
  subst. do 4 eexists. split; [eassumption|]. split; [eassumption|]. split; [eassumption|]. split; eassumption.
Qed.
Lemma special_b_ok : forall p s e q, special_b nb p s e = Some q -> special_ok src (node_ok src alnum) p q s.
Proof.
  intros p [k o c cl|code] e q H; cbn in *; [|now apply at_ok in H]. chk. use content_b_ok.
  use (maybeb_ok _ _ (Token src (exactly (special_close k))) (at_pat (RExactly _))).
  subst. do 2 eexists. split; [eassumption|]. split; [|eassumption]. eapply content_gap; eauto.
Qed.
End NodesOk.
Theorem node_b_ok : forall fuel, Chk (node_b fuel) (node_ok src alnum).
Proof.
  induction fuel as [|fuel IH]; intros p [s t e] q H; cbn [node_b] in H; [discriminate|]. chk.
  subst. cbn. split; [reflexivity|]. split; [|reflexivity].
  match goal with H : ntype_b _ _ _ _ = Some _ |- _ => rename H into Hn end.
  destruct t as [m|t|sl|[r|b|i|sp]]; cbn in *.
  - now apply multiline_b_ok.
  - now apply text_b_ok.
  - now apply selector_b_ok.
  - now apply at_ok in Hn.
  - eapply block_b_ok; eauto.
  - eapply inline_b_ok; eauto.
  - eapply special_b_ok; eauto.
Qed.
Theorem document_b_ok : forall c, document_b c = true -> document_ok src alnum c.
Proof.
  intros c H. unfold document_b in H. destruct (content_b _ 0 c) as [y|] eqn:E; [|discriminate].
  pose proof (content_b_ok _ (node_b_ok 100) _ _ _ E) as Hc. apply tokr_ok in H. exists 0, y.
  split; [|split; [exact Hc|exact H]]. unfold Gap. destruct Hc as (x' & y' & G & _). eapply tok_refl_start. exact G.
Qed.
End Check.

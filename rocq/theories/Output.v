(** * mintyml/src/output/mod.rs: the writer.

    The Rust [OutputContext] holds the writer plus [indent_level], [element],
    [is_raw] (all restored on leaving the scope that set them, so they are
    passed down here as an environment) and [follows_space] (threaded as state).
    The output sink is a [String], which never fails; the only error is a
    malformed escape in [write_unescaped], after which nothing more is written. *)

From Verif Require Import Base Escape OutText Doc Config.

(** A writing action: from [follows_space] to (text written, new [follows_space],
    success). *)
(* [OutputResult] of output/mod.rs:505 with [&mut self] *)
Definition W := bool -> str * bool * bool.

(* [out.write_str], output/mod.rs:260-420 *)
Definition emit (s : str) : W := fun fs => (s, fs, true).
(* output/mod.rs:152-157 *)
Definition emit_res (r : str * bool) : W := fun fs => (fst r, fs, snd r).
(* assignments to [follows_space], output/mod.rs:260-475 *)
Definition set_fs (b : bool) : W := fun _ => ([], b, true).
(* [Ok(())] *)
Definition nop : W := fun fs => ([], fs, true).

(** [a?; b] *)
(* [?], output/mod.rs:260-490 *)
Definition andthen (a b : W) : W := fun fs =>
  let '(o1, f1, ok1) := a fs in
  if ok1 then let '(o2, f2, ok2) := b f1 in (o1 ++ o2, f2, ok2) else (o1, f1, false).
Infix ";;" := andthen (at level 61, right associativity).

(** [iter.try_for_each(...)] *)
(* output/mod.rs:487-489 *)
Fixpoint seqW (l : list W) : W :=
  match l with [] => nop | a :: l' => a ;; seqW l' end.

(** output/mod.rs:21-27 [is_void] *)
Definition void_names : list str :=
  [L "area"; L "base"; L "br"; L "col"; L "embed"; L "hr"; L "img"; L "input"; L "link";
   L "meta"; L "param"; L "source"; L "track"; L "wbr"].
(* output/mod.rs:21-27 (as above) *)
Definition is_void (t : str) : bool := existsb (str_eqb t) void_names.

(** The part of [OutputContext] that is scoped. *)
(* output/mod.rs:35-49 *)
Record env := mkEnv {
  v_level : nat;          (* indent_level *)
  v_inline : bool;        (* format_inline(): of the enclosing element, or false *)
  v_raw : bool;           (* is_raw *)
}.

(** Trim leading and trailing items satisfying [p]. *)
(* output/mod.rs:480-485 *)
Fixpoint drop_while {A} (p : A -> bool) (l : list A) : list A :=
  match l with [] => [] | a :: l' => if p a then drop_while p l' else l end.
(* output/mod.rs:480-485 *)
Definition trim_by {A} (p : A -> bool) (l : list A) : list A :=
  rev (drop_while p (rev (drop_while p l))).

Section Writer.
Variable slc : lrange -> str.
Variable cfg : config.

Let xml := is_xml cfg.

(** output/mod.rs:29-33 [TagInfo], 253-258 [get_info] *)
Definition tag_is_root (t : str) : bool := eq_ignore_case t (L "html").
(* output/mod.rs:29-33 (as above) *)
Definition tag_is_void (t : str) : bool := negb xml && is_void (lower t).

(** output/mod.rs:260-270 [_line] *)
Definition line_ (v : env) : W :=
  match c_indent cfg with
  | Some ind => emit (10 :: concat (repeat ind (v_level v))) ;; set_fs true
  | None => nop
  end.

(** output/mod.rs:272-278 [line] *)
Definition line (v : env) : W := fun fs =>
  if fs || v_inline v then nop fs else line_ v fs.

(** output/mod.rs:280-296 [space] *)
Definition write_space (v : env) (s : space) : W := fun fs =>
  if fs then nop fs
  else ((match s with
         | SInline (Some t) => emit (as_str slc t)
         | LineEnd | ParagraphEnd =>
             if negb (v_inline v) && is_some (c_indent cfg) then line_ v else emit (L " ")
         | SInline None => emit (L " ")
         end) ;; set_fs true) fs.

(** output/mod.rs:346-357: the class attribute. *)
Definition write_classes (cs : list tslice) : W :=
  match cs with
  | [] => nop
  | first :: rest =>
      emit (L " class=""") ;;
      emit_res (escape_unescape xml true (as_str slc first)) ;;
      seqW (map (fun c => emit (L " ") ;; emit_res (escape_unescape xml true (as_str slc c))) rest) ;;
      emit (L """")
  end.

(** output/mod.rs:360-371: one attribute. *)
Definition write_attribute (a : tslice * option tslice) : W :=
  emit (L " ") ;;
  emit_res (unescape (as_str slc (fst a))) ;;
  match snd a with
  | Some v => emit (L "=""") ;; emit_res (escape_unescape xml true (as_str slc v)) ;; emit (L """")
  | None => if xml then emit (L "=""""") else nop
  end.

(** output/mod.rs:332-378 [write_open_tag] *)
Definition write_open_tag (t : str) (s : selector) (self_close : bool) : W :=
  emit (L "<" ++ t) ;;
  (match sel_id s with
   | Some i => emit (L " id=""") ;; emit_res (escape_unescape xml true (as_str slc i)) ;; emit (L """")
   | None => nop
   end) ;;
  write_classes (class_names s) ;;
  seqW (map write_attribute (attributes s)) ;;
  (if self_close then emit (L "/") else nop) ;;
  emit (L ">") ;;
  set_fs false.

(** output/mod.rs:380-384 [write_close_tag] *)
Definition write_close_tag (t : str) : W :=
  emit (L "</" ++ t ++ L ">") ;; set_fs false.

(** output/mod.rs:387-388 [get_valid_tags] *)
Fixpoint valid_tags (sels : list selector) : list (str * selector) :=
  match sels with
  | [] => []
  | s :: rest =>
      match tag_name (s_tag s) with
      | Some t => (as_str slc t, s) :: valid_tags rest
      | None => valid_tags rest
      end
  end.

(** output/mod.rs:399-407: the opening tags; the last one may be self-closed. *)
Fixpoint open_tags (self_close_last : bool) (tags : list (str * selector)) : W :=
  match tags with
  | [] => nop
  | [(t, s)] => write_open_tag t s self_close_last
  | (t, s) :: rest => write_open_tag t s false ;; open_tags self_close_last rest
  end.

(** output/mod.rs:418-427: the closing tags, in reverse order. *)
Definition close_tags (self_close_last : bool) (tags : list (str * selector)) : W :=
  seqW (map (fun ts : str * selector =>
               if negb self_close_last && negb (tag_is_void (fst ts))
               then write_close_tag (fst ts) else nop)
            (skipn (if self_close_last then 1 else 0) (rev tags))).

(** Last tag of the list ([last_tag_info], output/mod.rs:397-405). *)
Definition last_is_root (tags : list (str * selector)) : bool :=
  match rev tags with (t, _) :: _ => tag_is_root t | [] => false end.

(** output/mod.rs:317-330 [in_content]: environment inside element [e]. *)
Definition enter (v : env) (e : element) : env :=
  mkEnv (v_level v) (format_inline e) (v_raw v || e_raw e).

(** output/mod.rs:298-315 [indent] *)
Definition indented (v : env) (by_ : nat) : env :=
  if negb (v_inline v) && is_some (c_indent cfg)
  then mkEnv (v_level v + by_) (v_inline v) (v_raw v) else v.

(** output/mod.rs:386-429 [process_element]; [content v'] is
    [process_content(&element.content)] in environment [v']. *)
Definition process_element (v : env) (e : element) (content : env -> W) : W :=
  match valid_tags (e_selectors e) with
  | [] => content (enter v e)
  | tags =>
      let self_close_last := is_nil (e_nodes e) && xml in
      let v1 := enter v e in
      let v2 := indented v1 (if last_is_root tags then 0 else 1) in
      open_tags self_close_last tags ;;
      (if is_nil (e_nodes e) then nop else line v2 ;; content v2 ;; line v1) ;;
      close_tags self_close_last tags
  end.

(** output/mod.rs:440-445: how a piece of text is written. *)
Definition write_piece (unescape_in is_raw : bool) (s : str) : W :=
  match unescape_in, is_raw with
  | true, true => emit_res (unescape s)
  | true, false => emit_res (escape_unescape xml false s)
  | false, true => emit s
  | false, false => emit (esc_str xml false s)
  end.

(** output/mod.rs:457 [last_line.ends_with([' ', '\t'])] *)
Definition ends_with_blank (s : str) : bool := ends_with_char 32 s || ends_with_char 9 s.

(** output/mod.rs:435-458: a text node. *)
Definition write_text (v : env) (t : text) : W :=
  if slice_is_empty (t_slice t) then nop
  else
    let raw := t_raw t || (negb xml && (negb (t_escape_out t) || v_raw v)) in
    let slice := as_str slc (t_slice t) in
    let write := write_piece (t_unescape_in t) raw in
    if t_multiline t then
      let pieces := trim_multiline slice in
      seqW (map write pieces) ;; set_fs (ends_with_blank (last pieces slice))
    else write slice ;; set_fs (ends_with_blank slice).

(** output/mod.rs:459-466: a comment. *)
Definition write_comment (s : tslice) : W :=
  emit (L "<!--") ;; emit (comment_body (as_str slc s)) ;; emit (L "-->") ;; set_fs false.

(** output/mod.rs:431-476 [process_node] and 478-490 [process_content] (the
    children are turned into actions first, then leading and trailing space is
    trimmed, which is the same). *)
Fixpoint process_node (v : env) (n : node) {struct n} : W :=
  match n with
  | NElt _ e =>
      process_element v e (fun v' =>
        seqW (map snd (trim_by fst (map (fun m => (is_space m, process_node v' m)) (e_nodes e)))))
  | NTxt _ (TText t) => write_text v t
  | NTxt _ (TComment s) => write_comment s
  | NTxt _ (TSpace s) => write_space v s ;; set_fs true
  end.

(* output/mod.rs:478-490 [process_content] *)
Definition process_content (v : env) (ns : list node) : W :=
  seqW (map (process_node v) (trim_by is_space ns)).

(** output/mod.rs:507-534 [output_html_to]: text written and success. *)
Definition output_html (ns : list node) : str * bool :=
  let v := mkEnv 0 false false in
  let w := (match c_complete_page cfg with
            | Some true => emit (L "<!DOCTYPE html>" ++ [10])
            | _ => nop
            end) ;; process_content v ns ;; line v in
  let '(o, _, ok) := w true in (o, ok).

End Writer.

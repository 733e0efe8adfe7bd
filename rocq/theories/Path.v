(** * Paths on Unix: std::path (Rust's standard library), as far as minty-cli uses it.

    A path is its text, an OS string; strings with bytes that are not UTF-8 are not
    distinguished from others ([chr] stands for any unit). *)

From Verif Require Import Base.

(* std::path *)
Definition slash : chr := 47.
(* std::path *)
Definition dot : chr := 46.

(** [split(is_sep_byte)] *)
(* std::path *)
Fixpoint split_slash (s : str) : list str :=
  match s with
  | [] => [[]]
  | c :: s' =>
      if c =? slash then [] :: split_slash s'
      else match split_slash s' with
           | [] => [[c]]
           | p :: ps => (c :: p) :: ps
           end
  end.
(* std::path *)
Fixpoint join_slash (l : list str) : str :=
  match l with
  | [] => []
  | [p] => p
  | p :: l' => p ++ slash :: join_slash l'
  end.

(** [std::path::Component] *)
Inductive component := RootDir | CurDir | ParentDir | Normal (s : str).

(** [Components::parse_single_component] *)
(* std::path *)
Definition part_component (p : str) : list component :=
  if str_empty p || str_eqb p (L ".") then []
  else if str_eqb p (L "..") then [ParentDir]
  else [Normal p].

(* std::path *)
Definition is_absolute (p : str) : bool := match p with c :: _ => c =? slash | [] => false end.

(** [Path::components]: repeated separators and inner dots are skipped; a leading dot is
    kept. *)
(* std::path *)
Definition components (p : str) : list component :=
  let parts := split_slash p in
  (if is_absolute p then [RootDir]
   else match parts with first :: _ => if str_eqb first (L ".") then [CurDir] else [] | [] => [] end)
  ++ flat_map part_component parts.

(** The last element. *)
(* std::path *)
Fixpoint last_opt {A} (l : list A) : option A :=
  match l with [] => None | [x] => Some x | _ :: l' => last_opt l' end.

(** [Path::file_name] *)
(* std::path, used in convert.rs:345-372 *)
Definition file_name (p : str) : option str :=
  match last_opt (components p) with Some (Normal n) => Some n | _ => None end.

(** [rsplit_file_at_dot], then [Path::file_stem] and [Path::extension] *)
(* std::path *)
Definition name_stem (n : str) : str :=
  match rsplit_once dot n with
  | Some ([], _) | None => n
  | Some (before, _) => before
  end.
(* std::path *)
Definition name_extension (n : str) : option str :=
  match rsplit_once dot n with
  | Some ([], _) | None => None
  | Some (_, after) => Some after
  end.
(* std::path, used in convert.rs:531-537 *)
Definition extension (p : str) : option str :=
  match file_name p with Some n => name_extension n | None => None end.

(** The parts of a path without those at the end that are skipped by [components], last
    part first.  The first part is kept ([Components::trim_right]). *)
(* std::path *)
Fixpoint trim_parts (rev_parts : list str) : list str :=
  match rev_parts with
  | p :: ((_ :: _) as before) => if str_empty p || str_eqb p (L ".") then trim_parts before else rev_parts
  | _ => rev_parts
  end.
(* std::path *)
Definition parts_path (absolute : bool) (rev_parts : list str) : str :=
  match rev_parts with
  | [[]] => if absolute then [slash] else []
  | _ => join_slash (rev rev_parts)
  end.

(** [Path::parent], [PathBuf::pop] (which leaves a path without parent alone) *)
(* std::path, used in io_helper.rs:26-30 *)
Definition parent (p : str) : option str :=
  match last_opt (components p) with
  | Some (Normal _) | Some CurDir | Some ParentDir =>
      match trim_parts (rev (split_slash p)) with
      | _ :: before => Some (parts_path (is_absolute p) (trim_parts before))
      | [] => None
      end
  | _ => None
  end.
(* std::path *)
Definition pop (p : str) : str := match parent p with Some q => q | None => p end.

(** [PathBuf::set_extension("")]: cut the text after the stem of the file name. *)
(* std::path *)
Definition remove_extension (p : str) : str :=
  match file_name p with
  | Some n =>
      match trim_parts (rev (split_slash p)) with
      | _ :: before => join_slash (rev (name_stem n :: before))
      | [] => p
      end
  | None => p
  end.

(** [PathBuf::push], [Path::join] *)
(* std::path, used in convert.rs:184-207 *)
Definition push (base rel : str) : str :=
  if is_absolute rel then rel
  else match last_char base with
       | Some c => if c =? slash then base ++ rel else base ++ slash :: rel
       | None => rel
       end.

(** [Path::ends_with]: the components of [child] are the last ones of [p]. *)
(* std::path *)
Definition comp_eqb (a b : component) : bool :=
  match a, b with
  | RootDir, RootDir | CurDir, CurDir | ParentDir, ParentDir => true
  | Normal x, Normal y => str_eqb x y
  | _, _ => false
  end.
(* std::path *)
Fixpoint comps_prefix (a b : list component) : bool :=
  match a, b with
  | [], _ => true
  | x :: a', y :: b' => comp_eqb x y && comps_prefix a' b'
  | _ :: _, [] => false
  end.
(* std::path *)
Definition path_ends_with (p child : str) : bool :=
  comps_prefix (rev (components child)) (rev (components p)).

(** ** minty-cli *)

(** utils.rs:158-161 [has_trailing_slash]; on Unix both tests are the same. *)
Definition has_trailing_slash (p : str) : bool :=
  path_ends_with p (L "/") || path_ends_with p (L "/").

(** convert.rs:531-537 [has_minty_extension] *)
Definition has_minty_extension (p : str) : bool :=
  match extension p with
  | Some e => existsb (eq_ignore_case e) [L "mty"; L "minty"]
  | None => false
  end.

(** convert.rs:523-529 [change_extension] *)
Definition change_extension (xml : bool) (p : str) : str :=
  (if has_minty_extension p then remove_extension p else p)
  ++ (if xml then L ".xhtml" else L ".html").


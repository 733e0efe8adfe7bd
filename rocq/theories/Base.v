(** * Base: characters, strings and the std string functions the code uses.

    This file stands for parts of Rust's [core]/[alloc] (not in /repo) as used
    by mintyml/src/**; each definition names the std function it stands for. *)

From Coq Require Export List NArith Bool Arith Lia.
From Coq Require Import Ascii String.
Export ListNotations.
Export Coq.Strings.String.StringSyntax.
Open Scope N_scope.
Open Scope list_scope.

(** A Rust [char]: its Unicode scalar value. *)
Notation chr := N (only parsing).

(** A Rust [str]: the list of its characters. *)
Notation str := (list N) (only parsing).

(** Literal text in the model ([L "foo"] is the Rust literal "foo"). *)
Definition L (s : string) : str := List.map N_of_ascii (list_ascii_of_string s).

(** Unicode scalar values: what Rust's [char] type can hold ([char::from_u32]
    returns [Some] exactly for these). *)
Definition is_scalar (c : N) : bool :=
  (c <=? 0x10FFFF) && negb ((0xD800 <=? c) && (c <=? 0xDFFF)).

(** [char::len_utf8] *)
(* used in mintyml/src/utils.rs:57, 89, output/mod.rs:133 *)
Definition utf8_len (c : chr) : N :=
  if c <? 0x80 then 1 else if c <? 0x800 then 2 else if c <? 0x10000 then 3 else 4.

(** [str::len]: length in bytes. *)
(* used in mintyml/src/utils.rs:42, 81, document/mod.rs:271 *)
Fixpoint blen (s : str) : N :=
  match s with [] => 0 | c :: s' => utf8_len c + blen s' end.

(** [str ==] *)
(* used in inference/engine/when.rs:124-132, output/mod.rs:21-27 *)
Fixpoint str_eqb (a b : str) : bool :=
  match a, b with
  | [], [] => true
  | x :: a', y :: b' => (x =? y) && str_eqb a' b'
  | _, _ => false
  end.

(** [str::is_empty] *)
(* used in document/text.rs:66 *)
Definition str_empty (s : str) : bool := match s with [] => true | _ => false end.

(** [str::find(ch)] with the split at the match: [Some (pre, post)] where [post]
    starts with [p]. *)
(* used in mintyml/src/utils.rs:73-85 *)
Fixpoint split_at_char (p : chr) (s : str) : option (str * str) :=
  match s with
  | [] => None
  | c :: s' =>
      if c =? p then Some ([], s)
      else match split_at_char p s' with
           | Some (pre, post) => Some (c :: pre, post)
           | None => None
           end
  end.

(** [str::split_once(ch)] *)
(* used in output/utils.rs:2 *)
Definition split_once (p : chr) (s : str) : option (str * str) :=
  match split_at_char p s with
  | Some (pre, _ :: post) => Some (pre, post)
  | _ => None
  end.

(** [str::rsplit_once(ch)]: split at the last occurrence. *)
(* used in output/utils.rs:3 *)
Fixpoint rsplit_once (p : chr) (s : str) : option (str * str) :=
  match s with
  | [] => None
  | c :: s' =>
      match rsplit_once p s' with
      | Some (pre, post) => Some (c :: pre, post)
      | None => if c =? p then Some ([], s') else None
      end
  end.

(** [str::strip_prefix(&str)] *)
(* used in output/utils.rs:13 *)
Fixpoint strip_prefix (p s : str) : option str :=
  match p, s with
  | [], _ => Some s
  | x :: p', y :: s' => if x =? y then strip_prefix p' s' else None
  | _ :: _, [] => None
  end.

(** [str::starts_with(&str)] *)
(* used in output/mod.rs:224 *)
Definition starts_with (p s : str) : bool :=
  match strip_prefix p s with Some _ => true | None => false end.

(** Last character, [str::chars().last()]. *)
(* used in output/mod.rs:243, 458 *)
Fixpoint last_char (s : str) : option chr :=
  match s with [] => None | [c] => Some c | _ :: s' => last_char s' end.

(** [str::ends_with(char)] *)
(* used in output/mod.rs:243, 458 *)
Definition ends_with_char (c : chr) (s : str) : bool :=
  match last_char s with Some d => c =? d | None => false end.

(** [str::strip_suffix(char)], or the string unchanged
    ([.strip_suffix(c).unwrap_or(s)]). *)
(* used in output/utils.rs:10 *)
Fixpoint strip_suffix_char (c : chr) (s : str) : str :=
  match s with
  | [] => []
  | [d] => if c =? d then [] else [d]
  | d :: s' => d :: strip_suffix_char c s'
  end.

(** [str::split_inclusive(char)] *)
(* used in output/utils.rs:12 *)
Fixpoint split_inclusive (p : chr) (s : str) : list str :=
  match s with
  | [] => []
  | c :: s' =>
      if c =? p then [c] :: split_inclusive p s'
      else match split_inclusive p s' with
           | [] => [[c]]
           | l :: ls => (c :: l) :: ls
           end
  end.

(** [char::is_whitespace] (Unicode White_Space). *)
(* used in output/utils.rs:6 and the patterns of ast/*.rs *)
Definition is_whitespace (c : chr) : bool :=
  ((9 <=? c) && (c <=? 13)) || (c =? 32) || (c =? 0x85) || (c =? 0xA0) || (c =? 0x1680)
  || ((0x2000 <=? c) && (c <=? 0x200A)) || (c =? 0x2028) || (c =? 0x2029)
  || (c =? 0x202F) || (c =? 0x205F) || (c =? 0x3000).

(** [u8::to_ascii_lowercase] lifted to characters. *)
(* used in transform/complete_page.rs:30, output/mod.rs:254 *)
Definition ascii_lower (c : chr) : chr :=
  if (0x41 <=? c) && (c <=? 0x5A) then c + 32 else c.

(** [str::make_ascii_lowercase]; also mintyml/src/utils.rs:193-201 [to_lowercase],
    whose early return (all characters already lower case letters) gives the same
    string. *)
Definition lower (s : str) : str := List.map ascii_lower s.

(** [str::eq_ignore_ascii_case] *)
(* used in transform/complete_page.rs:30, output/mod.rs:254, minty-cli/src/convert.rs:536 *)
Definition eq_ignore_case (a b : str) : bool := str_eqb (lower a) (lower b).

(** Positions. gramma's [Location] is a byte offset; [LocationRange] a pair. *)
Record lrange := mkR { r_start : N; r_end : N }.

(** Decimal rendering of a number ([Display] of unsigned integers).  Fuel is the
    binary length of the number, always enough (lemma [dec_fuel_enough]). *)
(* used in transform/metadata.rs:83, output/mod.rs:73-78 *)
Fixpoint dec_aux (fuel : nat) (n : N) (acc : str) : str :=
  match fuel with
  | O => acc
  | S f =>
      let acc' := (48 + n mod 10) :: acc in
      if n <? 10 then acc' else dec_aux f (n / 10) acc'
  end.
(* used in transform/metadata.rs:83, output/mod.rs:73-78 *)
Definition dec (n : N) : str := dec_aux (S (N.to_nat (N.size n))) n [].

(** [list] helpers for [Option]/[Vec] idioms. *)
(* std's [Option::unwrap_or], used in output/utils.rs:8 *)
Definition opt_or {A} (o : option A) (d : A) : A := match o with Some x => x | None => d end.
(* std's [Option::is_some], used in minty-cli/src/convert.rs:59 *)
Definition is_some {A} (o : option A) : bool := match o with Some _ => true | None => false end.
(* std's [Option::is_none], used in minty-cli/src/convert.rs:59 *)
Definition is_none {A} (o : option A) : bool := negb (is_some o).
(* std's [Vec::is_empty], used in document/mod.rs:180 *)
Definition is_nil {A} (l : list A) : bool := match l with [] => true | _ => false end.
(* std's [Option::map], used in document/selectors.rs:133-163 *)
Definition opt_map {A B} (f : A -> B) (o : option A) : option B :=
  match o with Some x => Some (f x) | None => None end.

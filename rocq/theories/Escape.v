(** * mintyml/src/escape.rs and the cursor of mintyml/src/utils.rs. *)

From Verif Require Import Base.

(** escape.rs:11-14 [UnescapePart] *)
Inductive part := PSlice (s : str) | PChar (c : chr).

(** A [StrCursor] (utils.rs:9-13) is represented by its byte position and the
    text after it ([post()], utils.rs:36-38); the text before it is never read. *)
Record cursor := mkC { cu_pos : N; cu_post : str }.

(** utils.rs:73-85 [advance_to_char]; the boolean says [Ok] (found). *)
Definition advance_to_char (p : chr) (cu : cursor) : bool * str * cursor :=
  match split_at_char p (cu_post cu) with
  | Some (pre, post) => (true, pre, mkC (cu_pos cu + blen pre) post)
  | None => (false, cu_post cu, mkC (cu_pos cu + blen (cu_post cu)) [])
  end.

(** utils.rs:87-91 [next] *)
Definition next (cu : cursor) : option chr * cursor :=
  match cu_post cu with
  | [] => (None, cu)
  | c :: post => (Some c, mkC (cu_pos cu + utf8_len c) post)
  end.

(** utils.rs:46-71 [advance_by]: up to [num] characters; [Ok] if exactly [num]
    were there, [Ok ""] if there were none at all, [Err] otherwise. *)
Definition advance_by (num : nat) (cu : cursor) : bool * str * cursor :=
  let slice := firstn num (cu_post cu) in
  (orb (Nat.eqb (List.length slice) num) (str_empty slice), slice,
   mkC (cu_pos cu + blen slice) (skipn num (cu_post cu))).

(** utils.rs:93-95 [peek(0)] *)
Definition peek (cu : cursor) : option chr :=
  match cu_post cu with [] => None | c :: _ => Some c end.

(** std: value of a hexadecimal digit ([char::to_digit(16)]). *)
Definition hex_digit (c : chr) : option N :=
  if (48 <=? c) && (c <=? 57) then Some (c - 48)
  else if (97 <=? c) && (c <=? 102) then Some (c - 87)
  else if (65 <=? c) && (c <=? 70) then Some (c - 55)
  else None.

(** std: the digit loop of [from_str_radix(_, 16)].  Overflow is not modelled:
    the callers pass at most two digits for [u8] and six for [u32]. *)
Fixpoint hex_digits (acc : N) (s : str) : option N :=
  match s with
  | [] => Some acc
  | c :: s' => match hex_digit c with
               | Some d => hex_digits (acc * 16 + d) s'
               | None => None
               end
  end.

(** std: unsigned [from_str_radix(s, 16)]: empty is an error, a lone sign is an
    error, one leading '+' is skipped, '-' is not a digit. *)
Definition from_str_radix16 (s : str) : option N :=
  match s with
  | [] => None
  | c :: s' =>
      if c =? 43 (* + *) then
        match s' with [] => None | _ :: _ => hex_digits 0 s' end
      else hex_digits 0 s
  end.

(** escape.rs:49-54, arm 'x' *)
Definition escape_x (cu : cursor) : option chr * cursor :=
  let '(ok, digits, cu') := advance_by 2 cu in
  ((if ok then
      match from_str_radix16 digits with
      | Some x => if x <=? 0x7f then Some x else None
      | None => None
      end
    else None), cu').

(** escape.rs:55-70, arm 'u' *)
Definition escape_u (cu : cursor) : option chr * cursor :=
  if match peek cu with Some c => c =? 123 (* { *) | None => false end then
    let '(_, cu1) := next cu in
    let '(found, digits, cu2) := advance_to_char 125 (* } *) cu1 in
    if found && ((1 <=? blen digits) && (blen digits <=? 6)) then
      let '(_, cu3) := next cu2 in
      ((match from_str_radix16 digits with
        | Some x => if is_scalar x then Some x else None
        | None => None
        end), cu3)
    else (None, cu2)
  else (None, cu).

(** escape.rs:45-73: the match on the character after the backslash; returns the
    decoded character or [None] for [Err(())], and the cursor afterwards. *)
Definition escape_body (first_char : chr) (cu : cursor) : option chr * cursor :=
  if first_char =? 116 (* t *) then (Some 9, cu)
  else if first_char =? 110 (* n *) then (Some 10, cu)
  else if first_char =? 114 (* r *) then (Some 13, cu)
  else if first_char =? 120 (* x *) then escape_x cu
  else if first_char =? 117 (* u *) then escape_u cu
  else if existsb (N.eqb first_char) [60; 62; 123; 125; 34; 39; 92; 91; 93]
         (* less, greater, braces, both quotes, backslash, brackets *)
  then (Some first_char, cu)
  else (None, cu).

(** escape.rs:25-81: one call of the iterator closure. *)
Definition unescape_step (off : N) (cu : cursor) : option ((part + lrange) * cursor) :=
  let '(found, pre, cu1) := advance_to_char 92 (* \ *) cu in
  match pre with
  | _ :: _ => Some (inl (PSlice pre), cu1)
  | [] =>
      if negb found then None
      else
        let start := off + cu_pos cu1 in
        let '(_, cu2) := next cu1 in
        let '(fc, cu3) := next cu2 in
        match fc with
        | None => Some (inr (mkR start (off + cu_pos cu3)), cu3)
        | Some first_char =>
            let '(out, cu4) := escape_body first_char cu3 in
            match out with
            | Some c => Some (inl (PChar c), cu4)
            | None => Some (inr (mkR start (off + cu_pos cu4)), cu4)
            end
        end
  end.

(** The whole iterator (escape.rs:18-82).  Each call consumes at least one
    character, so the length of the text plus one is enough fuel (lemma
    [unescape_fuel_irrel] in P_Escape.v). *)
Fixpoint unescape_loop (fuel : nat) (off : N) (cu : cursor) : list (part + lrange) :=
  match fuel with
  | O => []
  | S f =>
      match unescape_step off cu with
      | None => []
      | Some (item, cu') => item :: unescape_loop f off cu'
      end
  end.

(* escape.rs:18-82 [unescape_parts] *)
Definition unescape_parts (off : N) (s : str) : list (part + lrange) :=
  unescape_loop (S (List.length s)) off (mkC 0 s).

(** escape.rs:84-89 [escape_errors] *)
Fixpoint escape_errors_of (items : list (part + lrange)) : list lrange :=
  match items with
  | [] => []
  | inl _ :: rest => escape_errors_of rest
  | inr r :: rest => r :: escape_errors_of rest
  end.
(* escape.rs:84-89 *)
Definition escape_errors (s : str) (off : N) : list lrange :=
  escape_errors_of (unescape_parts off s).

(** output/mod.rs:152-157 [write_unescaped] into a plain string: the text written
    before the first error, and whether there was none. *)
Fixpoint write_parts (items : list (part + lrange)) : str * bool :=
  match items with
  | [] => ([], true)
  | inl (PSlice s) :: rest => let '(t, ok) := write_parts rest in (s ++ t, ok)
  | inl (PChar c) :: rest => let '(t, ok) := write_parts rest in (c :: t, ok)
  | inr _ :: _ => ([], false)
  end.
(* output/mod.rs:152-157 *)
Definition unescape (s : str) : str * bool := write_parts (unescape_parts 0 s).

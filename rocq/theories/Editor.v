(** * The editor of the web demo: rows and columns of positions.

    web-demo/src/index.ts 257-258 calls [indexToPosition(index, 0)] of ace's [Document], which is not
    part of the repository; this is what ace documents and does. *)

From Verif Require Import Base Wasm.

(** ace's [$split]: lines, ended by CR LF, CR or LF *)
(* the document behind session.getDocument(), index.ts:255 *)
Fixpoint split_lines (s : js_str) : list js_str :=
  match s with
  | [] => [[]]
  | c :: r =>
      if c =? 10 then [] :: split_lines r
      else if c =? 13 then [] :: match r with d :: r' => if d =? 10 then split_lines r' else split_lines r | [] => [[]] end
      else match split_lines r with l :: ls => (c :: l) :: ls | [] => [[c]] end
  end.
(** ace's [$detectNewLine] and [getNewLineCharacter]: the length of the first line end *)
(* the document behind session.getDocument(), index.ts:255 *)
Fixpoint newline_length (s : js_str) : N :=
  match s with
  | [] => 1
  | c :: r =>
      if c =? 10 then 1
      else if c =? 13 then match r with d :: _ => if d =? 10 then 2 else 1 | [] => 1 end
      else newline_length r
  end.
(** ace's [indexToPosition]: a line's end counts as part of the line; an index behind the end is in
    the last line. *)
(* index.ts:257-258 *)
Fixpoint find_position (nl : N) (lines : list js_str) (row index : N) : N * N :=
  match lines with
  | l :: ((_ :: _) as rest) =>
      if index <? N.of_nat (length l) + nl then (row, index) else find_position nl rest (row + 1) (index - (N.of_nat (length l) + nl))
  | _ => (row, index)
  end.
(* index.ts:257-258 *)
Definition index_to_position (text : js_str) (index : N) : N * N :=
  find_position (newline_length text) (split_lines text) 0 index.

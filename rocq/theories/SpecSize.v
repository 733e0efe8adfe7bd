(** * The specification used by C69: the size of the options whose text is copied to the output. *)

From Verif Require Import Base Doc Config.

Definition opt_size (o : option str) : N := match o with Some s => blen s | None => 0 end.
(** The language and the seven names of special elements *)
Definition names_size (cfg : config) : N :=
  let sp := c_special cfg in
  opt_size (c_lang cfg) + opt_size (st_emphasis sp) + opt_size (st_strong sp) + opt_size (st_underline sp) + opt_size (st_strike sp)
  + opt_size (st_quote sp) + opt_size (st_code sp) + opt_size (st_code_block_container sp).

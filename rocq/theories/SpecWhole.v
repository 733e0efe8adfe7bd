(** * The document behind a conversion. *)

From Verif Require Import Base Doc Config Ast Errors Build Transform SpecSource.

(** The builder, never stopped by errors, makes [tree] of [c] and reports [d]. *)
Definition builds (slc : lrange -> str) (c : a_content) (d : list syntax_error) (tree : list node) : Prop :=
  from_ast slc c (mkErrs false [] [] false) = (mkErrs false d [] false, Ok tree).

(** [ns] is the document written for [src]; [d] are the errors found in it. *)
Definition document_of {E} (parse : str -> a_content + E) (src : str) (cfg : config)
    (d : list syntax_error) (ns : list node) : Prop :=
  exists c tree, parse src = inl c /\ builds (source_slice src) c d tree /\
    transform_document (source_slice src) cfg (mkR (ct_start c) (ct_end c)) tree = Some ns.

(** * C63: the indentation of the source does not matter. *)

From Verif Require Import Base Doc Config Ast Errors Build Convert Grammar Parser SpecSource SpecEscape SpecTree SpecInfer SpecMarkup SpecWrite SpecPlain SpecLineEnds SpecReindent
  P_Base P_Forward P_WriteItems P_Parser P_Reindent PropertiesWrite PropertiesParts.
From Coq Require Import Lia.

(** A source of the described language (C51), and any text that is the same but for the white
    space at the begin of its lines: they are converted to the same output.  [steady]: apart
    from texts of several lines, and line feeds in what is kept as it is or in the value of an
    attribute, where indentation is part of the text. *)
Theorem C63_indentation : forall alnum failure src src' us cfg, ascii_alnum_ok alnum -> plain cfg -> c_indent cfg = None ->
  Source (names (c_special cfg)) src us -> (complete cfg = true -> Forall bare_head us) -> Forall steady us ->
  same_but_indented src src' ->
  convert (parser alnum failure) source_slice src' cfg = convert (parser alnum failure) source_slice src cfg.
Proof.
  intros alnum failure src src' us cfg Ha Hp Hi Hs Hh Ht E.
  rewrite (C51_source_converts alnum failure src us cfg), (C51_source_converts alnum failure src' us cfg); eauto using source_indented.
Qed.
Print Assumptions C63_indentation.
(** The source of C56, each line further to the right, with tabulators and spaces *)
Definition c63_source : str :=
  L " div[" ++ [10] ++ [9] ++ L "title=x] {" ++ [10] ++ [9; 9] ++ L "a" ++ [10] ++ L "b" ++ [10; 9; 32; 10] ++ L "h1> c" ++ [10] ++ L "      }".
Example C63_example : Source usual c56_source c56_document /\ Forall steady c56_document /\ same_but_indented c56_source c63_source /\ c56_source <> c63_source.
Proof. split; [apply C56_source_example|]. split; [apply C56_source_example|]. split; [reflexivity|discriminate]. Qed.

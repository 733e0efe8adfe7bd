(** * mintyml/src/error.rs: error values, the error collector [Errors], and the
      result of the functions that use it. *)

From Verif Require Import Base Doc Config.

(** error.rs:163-193 [ItemType] *)
Inductive item_type :=
| ITSelector | ITElement | ITParagraph | ITText | ITInlineElement | ITMultiline
| ITComment | ITSpace | ITUnknown.

(** error.rs:140-162 [UnclosedDelimiterKind] *)
Inductive unclosed_kind :=
| UBlock | UInline | USpecial (k : special_kind) | UComment | UAttributeList.

(** error.rs:243-286 [MisplacedKind] *)
Inductive misplaced_kind :=
| MustPrecede (target : item_type) (post : list item_type)
| MustNotPrecede (target : item_type) (post : list item_type)
| MustFollow (pre : list item_type) (target : item_type)
| MustNotFollow (pre : list item_type) (target : item_type).

(** error.rs:89-116 [SyntaxErrorKind]; an expected token is its name. *)
Inductive syntax_kind :=
| KUnknown
| KInvalidEscape
| KParseFailed (expected : list str)
| KUnclosed (d : unclosed_kind)
| KInvalidItem (i : item_type)
| KMisplaced (k : misplaced_kind).

(** error.rs:19-31 [SyntaxError] *)
Record syntax_error := mkSyn { sy_range : lrange; sy_kind : syntax_kind }.

(** error.rs:350-370 [SemanticError]; its kind has one value, [Unknown]. *)
Record semantic_error := mkSem { se_range : lrange }.

(** error.rs:287-312 [ConvertError]; the source kept in it is left out. *)
Inductive convert_error :=
| CESyntax (l : list syntax_error)
| CESemantic (l : list semantic_error)
| CEUnknown.

(** error.rs:394-400 [Errors] *)
Record errors := mkErrs {
  er_fail_fast : bool;
  er_syntax : list syntax_error;
  er_semantic : list semantic_error;
  er_unknown : bool;
}.

(** error.rs:403-411 [Errors::new] *)
Definition errors_new (c : config) : errors :=
  mkErrs (match c_fail_fast c with Some b => b | None => false end) [] [] false.

(** error.rs:412-418 [count], [is_empty] *)
Definition errors_empty (e : errors) : bool :=
  is_nil (er_syntax e) && is_nil (er_semantic e) && negb (er_unknown e).

(** error.rs:420-444 [to_convert_error]; [None] is [Ok(())]. *)
Definition to_convert_error (e : errors) : option convert_error :=
  match er_syntax e, er_semantic e, er_unknown e with
  | [], [], false => None
  | _ :: _, _, _ => Some (CESyntax (er_syntax e))
  | _, _ :: _, _ => Some (CESemantic (er_semantic e))
  | _, _, true => Some CEUnknown
  end.

(** error.rs:390-392 [InternalResult], for functions that take [&mut Errors].
    [Fuel] is not an outcome of the code: it marks that the recursion bound of the
    model was too small, which is proved not to happen. *)
Inductive res (A : Type) := Ok (v : A) | Fail | Fuel.
Arguments Ok {A}. Arguments Fail {A}. Arguments Fuel {A}.
(* error.rs:390-392 with [&mut Errors] (error.rs:395-478) *)
Definition M (A : Type) : Type := errors -> errors * res A.

(* [Ok(v)] of error.rs:390-392 *)
Definition ret {A} (v : A) : M A := fun e => (e, Ok v).
(* plumbing of the model, stands for no code *)
Definition out_of_fuel {A} : M A := fun e => (e, Fuel).
(** The operator "?" *)
(* [?] on error.rs:390-392 *)
Definition bind {A B} (m : M A) (f : A -> M B) : M B := fun e =>
  match m e with
  | (e', Ok v) => f v e'
  | (e', Fail) => (e', Fail)
  | (e', Fuel) => (e', Fuel)
  end.
Notation "'let*' x ':=' m 'in' f" := (bind m (fun x => f)) (at level 61, x pattern, right associativity).
Notation "m ';*' f" := (bind m (fun _ => f)) (at level 61, right associativity).

(** error.rs:446-457 [Errors::syntax] *)
Definition syntax (l : list syntax_error) : M unit := fun e =>
  (mkErrs (er_fail_fast e) (er_syntax e ++ l) (er_semantic e) (er_unknown e),
   if er_fail_fast e && (length (er_syntax e) <? length (er_syntax e ++ l))%nat then Fail else Ok tt).

(** error.rs:472-478 [Errors::unknown] *)
Definition unknown : M unit := fun e =>
  (mkErrs (er_fail_fast e) (er_syntax e) (er_semantic e) true,
   if er_fail_fast e then Fail else Ok tt).

(** [for]/[map] with "?" over a list. *)
(* loops as in document/mod.rs:159-200 *)
Fixpoint mapM {A B} (f : A -> M B) (l : list A) : M (list B) :=
  match l with
  | [] => ret []
  | a :: l' => let* b := f a in let* bs := mapM f l' in ret (b :: bs)
  end.

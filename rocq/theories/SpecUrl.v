(** * What users of the web demo may expect when they open it again, and of links (C78, C79). *)

From Verif Require Import Base Wasm Demo Url SpecDemo.

(** The user waits: edits when the example and its output are there, and selects or resets when
    nothing is under way.  Requests succeed; [served] are the texts of the examples. *)
Definition waits (served : str -> list N) (s : demo) (e : event) : Prop :=
  match e with
  | Edit _ => d_loading s = false /\ d_fetches s = []
  | Select _ _ | Reset _ => quiet s /\ d_fetches s = []
  | Fetched i t _ => forall n, nth_error (d_fetches s) i = Some n -> t = served n
  | Unfetched _ | Fail => False
  | _ => True
  end.
Inductive careful (conv : list N -> js_result) (place : list N -> N -> N * N) (examples : list str) (has : list N -> list N -> bool)
  (served : str -> list N) : page -> page -> Prop :=
| CaNil : forall p, careful conv place examples has served p p
| CaOwn : forall e p p' p'', waits served (p_demo p) e -> page_happen conv place examples has (Own e) p = Some p' ->
    careful conv place examples has served p' p'' -> careful conv place examples has served p p''
| CaHash : forall h p p' p'', page_happen conv place examples has (Hash h) p = Some p' ->
    careful conv place examples has served p' p'' -> careful conv place examples has served p p''.

(** The page was opened again, and has the text [t] of the example [name], or will have it when
    the example has been fetched, whenever this is. *)
Definition brings (conv : list N -> js_result) (place : list N -> N -> N * N) (examples : list str) (served : str -> list N)
  (s : demo) (name : str) (t : list N) : Prop :=
  d_select s = name /\
  ((d_fetches s = [] /\ d_name s = name /\ d_text s = t) \/
   (d_fetches s = [name] /\ forall now, exists s', happen conv place examples (Fetched 0 (served name) now) s = Some s' /\
      d_fetches s' = [] /\ d_name s' = name /\ d_text s' = t)).

(** * What users of the web demo may expect (C64-C66). *)

From Verif Require Import Base Wasm SpecWasm Demo.

(** Nothing is under way, but examples that are being fetched *)
Definition quiet (s : demo) : Prop :=
  d_event s = false /\ d_timers s = O /\ w_queue s = [] /\ w_import s = [] /\ w_wasm s = [] /\ w_out s = [].

(** The worker answers every request. *)
Definition answers (es : list event) : Prop := ~ In Fail es.

(** Events that come without the user and the network *)
Definition due (s : demo) (e : event) : Prop :=
  match e with
  | Input _ => d_event s = true
  | Timer _ | Reply | Take | Import | Convert => True
  | _ => False
  end.
(** [es] are such events *)
Inductive goes (conv : list N -> js_result) (place : list N -> N -> N * N) (examples : list str) : list event -> demo -> demo -> Prop :=
| GoNil : forall s, goes conv place examples [] s s
| GoCons : forall e s s' es s'', due s e -> happen conv place examples e s = Some s' -> goes conv place examples es s' s'' ->
    goes conv place examples (e :: es) s s''.

(** [s] was at some time during the run *)
Definition passed (conv : list N -> js_result) (place : list N -> N -> N * N) (examples : list str) (es : list event) (s0 s : demo) : Prop :=
  exists a b, es = a ++ b /\ run conv place examples a s0 = Some s.

(** The user neither selects nor resets. *)
Definition stays (e : event) : Prop := match e with Select _ _ | Reset _ => False | _ => True end.

(** What is said about an error: what was expected, if the error tells it, or else its message *)
Definition said (e : js_syntax_error) : list N :=
  match je_expected e with
  | Some (x :: l) => L "Expected " ++ x ++ flat_map (fun y => L " | " ++ y) l
  | Some [] => L "Expected "
  | None => je_message e
  end.

(** The text that an event puts into the editor *)
Inductive puts (s : demo) : event -> list N -> Prop :=
| PutEdit : forall t, puts s (Edit t) t
| PutSelect : forall name now t, d_store s name = Some t -> puts s (Select name now) t
| PutFetched : forall i t now, puts s (Fetched i t now) t.

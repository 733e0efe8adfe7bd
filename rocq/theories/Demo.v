(** * The web demo: an editor with live preview (web-demo/src/index.ts, worker.ts).

    JavaScript runs one task at a time to its end, so a run of the demo is a sequence of
    events; an event is what happens in one task.  Assumed of the browser: messages to and
    from a worker arrive in the order in which they are posted; functions that await the
    same promise continue in the order in which they began to wait; times and delays are
    arbitrary ([now] may be any number, a timer or a request may take any time).
    Assumed of the editor (ace): [getValue] returns what was last typed or set; after the
    user changed the text, the event [input] comes later; it may also come at any other time.
    Not modelled: themes, the URL, the frame that shows the output as a page (it is set
    together with the text output), where in the text a position is ([place]), [deinit]
    (which nothing calls), other windows that change the same local storage. *)

From Coq Require Import ZArith.
From Verif Require Import Base Config Display Wasm.

Section Demo.
(** The conversion that the worker does *)
Variable conv : js_str -> js_result.
(** [indexToPosition]: row and column of an index *)
Variable place : js_str -> N -> N * N.
(** The names that the page offers (index.ts:354-362) *)
Variable examples : list str.

(** A marked error: where it is shown, and its text (index.ts:256-274) *)
Record note := mkNote { n_start : N * N; n_end : N * N; n_text : js_str }.

(* index.ts:56-67, 224: the fields of [Demo]; and what the browser keeps *)
Record demo := mkDemo {
  d_text : js_str;                  (* the text in the editor *)
  d_event : bool;                   (* the editor owes an event [input] *)
  d_name : str;                     (* _exampleName *)
  d_select : str;                   (* the name that is selected *)
  d_loading : bool;                 (* _isLoadingExample *)
  d_last : option js_str;           (* _lastInput *)
  d_sent : option Z;                (* _sent *)
  d_dirty : bool;                   (* _dirty *)
  d_timers : nat;                   (* timers set by [onmessage] that have not fired *)
  d_fetches : list str;             (* examples that are being fetched *)
  d_store : str -> option js_str;   (* the local storage *)
  d_star : str -> bool;             (* names that are shown with a star *)
  d_shown : option js_str;          (* the text output *)
  d_notes : list note;              (* the annotations of the editor *)
  d_marks : list ((N * N) * (N * N));   (* _markers *)
  d_worker : bool;                  (* _worker is set *)
  w_queue : list js_str;            (* requests that have not reached the worker *)
  w_import : list js_str;           (* calls that wait for [import('mintyml')], worker.ts:8-9 *)
  w_wasm : list js_str;             (* calls that wait for the conversion, worker.ts:11 *)
  w_ready : bool;                   (* [converter] is set *)
  w_out : list js_result;           (* responses that have not reached the page *)
}.

(* index.ts:322-327 [_storeModified] *)
Definition store_modified (input : js_str) (s : demo) : demo :=
  if d_loading s then s
  else mkDemo (d_text s) (d_event s) (d_name s) (d_select s) (d_loading s) (d_last s) (d_sent s) (d_dirty s) (d_timers s) (d_fetches s)
    (fun n => if str_eqb n (d_name s) then Some input else d_store s n)
    (fun n => if str_eqb n (d_name s) then existsb (str_eqb n) examples else d_star s n)
    (d_shown s) (d_notes s) (d_marks s) (d_worker s) (w_queue s) (w_import s) (w_wasm s) (w_ready s) (w_out s).

(* index.ts:329-333 [_clearModified] *)
Definition clear_modified (s : demo) : demo :=
  mkDemo (d_text s) (d_event s) (d_name s) (d_select s) (d_loading s) (d_last s) (d_sent s) (d_dirty s) (d_timers s) (d_fetches s)
    (fun n => if str_eqb n (d_name s) then None else d_store s n)
    (fun n => if str_eqb n (d_name s) then false else d_star s n)
    (d_shown s) (d_notes s) (d_marks s) (d_worker s) (w_queue s) (w_import s) (w_wasm s) (w_ready s) (w_out s).

(* index.ts:313-319: [_lastInput], [_sent], [_storeModified] and [postMessage] *)
Definition post (now : Z) (s : demo) : demo :=
  let s := store_modified (d_text s) s in
  mkDemo (d_text s) (d_event s) (d_name s) (d_select s) (d_loading s) (Some (d_text s)) (Some now) (d_dirty s) (d_timers s) (d_fetches s)
    (d_store s) (d_star s) (d_shown s) (d_notes s) (d_marks s) (d_worker s) (w_queue s ++ [d_text s]) (w_import s) (w_wasm s) (w_ready s) (w_out s).

(* an assignment to the field *)
Definition set_dirty (b : bool) (s : demo) : demo :=
  mkDemo (d_text s) (d_event s) (d_name s) (d_select s) (d_loading s) (d_last s) (d_sent s) b (d_timers s) (d_fetches s)
    (d_store s) (d_star s) (d_shown s) (d_notes s) (d_marks s) (d_worker s) (w_queue s) (w_import s) (w_wasm s) (w_ready s) (w_out s).

(* index.ts:51 [POST_SEND_DELAY] *)
Definition post_send_delay : Z := 3000%Z.

(* index.ts:300-320 [_update] *)
Definition update (now : Z) (s : demo) : demo :=
  if d_dirty s then s
  else if negb (d_worker s) then s
  else if match d_sent s with Some t => (now - t <? post_send_delay)%Z | None => false end then set_dirty true s
  else if match d_last s with Some l => str_eqb (d_text s) l | None => false end then s
  else post now s.

(* index.ts:189-192: the end of [_loadExample] *)
Definition loaded (name : str) (text : js_str) (now : Z) (s : demo) : demo :=
  update now (mkDemo text (d_event s) name (d_select s) (d_loading s) (d_last s) (d_sent s) (d_dirty s) (d_timers s) (d_fetches s)
    (d_store s) (d_star s) (d_shown s) (d_notes s) (d_marks s) (d_worker s) (w_queue s) (w_import s) (w_wasm s) (w_ready s) (w_out s)).

(* index.ts:182-193 [_loadExample]; it goes on at once if the text is stored, and otherwise when it is fetched. *)
Definition load_example (name : str) (now : Z) (s : demo) : demo :=
  let s := mkDemo (d_text s) (d_event s) (d_name s) (d_select s) true (d_last s) (d_sent s) (d_dirty s) (d_timers s) (d_fetches s)
    (d_store s) (d_star s) (d_shown s) [] (d_marks s) (d_worker s) (w_queue s) (w_import s) (w_wasm s) (w_ready s) (w_out s) in
  match d_store s name with
  | Some text => loaded name text now s
  | None =>
      mkDemo (d_text s) (d_event s) (d_name s) (d_select s) (d_loading s) (d_last s) (d_sent s) (d_dirty s) (d_timers s) (d_fetches s ++ [name])
        (d_store s) (d_star s) (d_shown s) (d_notes s) (d_marks s) (d_worker s) (w_queue s) (w_import s) (w_wasm s) (w_ready s) (w_out s)
  end.

(* index.ts:252-275: the errors of a response, in the text that is in the editor now *)
Definition syntax_errors (r : js_result) : list js_syntax_error :=
  match jr_error r with Some (JErrors _ l) => l | _ => [] end.
(* index.ts:264-265 *)
Definition note_text (e : js_syntax_error) : js_str :=
  match je_expected e with Some l => L "Expected " ++ join (L " | ") l | None => je_message e end.
(* index.ts:256-274 *)
Definition notes_of (text : js_str) (r : js_result) : list note :=
  map (fun e => mkNote (place text (je_start e)) (place text (je_end e)) (note_text e)) (syntax_errors r).

(* index.ts:238-286 [onmessage]; [jr_error] is set if there is an error. *)
Definition on_message (r : js_result) (s : demo) : demo :=
  let notes := match jr_error r with
               | Some _ => notes_of (d_text s) r
               | None => match jr_output r with Some _ => [] | None => d_notes s end
               end in
  let marks := match jr_error r with Some _ => map (fun n => (n_start n, n_end n)) (notes_of (d_text s) r) | None => [] end in
  mkDemo (d_text s) (d_event s) (d_name s) (d_select s)
    (if d_dirty s then d_loading s else false) (d_last s) None (d_dirty s)
    (if d_dirty s then S (d_timers s) else d_timers s) (d_fetches s)
    (d_store s) (d_star s) (match jr_output r with Some o => Some o | None => d_shown s end) notes marks
    (d_worker s) (w_queue s) (w_import s) (w_wasm s) (w_ready s) (w_out s).

(* index.ts:69-132, 226-237: the constructor and [init], with the text that the editor has at first, the names and texts in the local storage.
   [_updateExampleNames] (134-146) sets the stars and selects the name. *)
Definition start (text : js_str) (name : str) (store : str -> option js_str) (now : Z) : demo :=
  let s := load_example name now (mkDemo text false name name true None None false O [] store (fun _ => false) None [] [] false [] [] [] false []) in
  update now (mkDemo (d_text s) (d_event s) (d_name s) (d_select s) (d_loading s) (d_last s) (d_sent s) (d_dirty s) (d_timers s) (d_fetches s)
    (d_store s) (fun n => existsb (str_eqb n) examples && match store n with Some _ => true | None => false end)
    (d_shown s) (d_notes s) (d_marks s) true (w_queue s) (w_import s) (w_wasm s) (w_ready s) (w_out s)).

(** What may happen next *)
(* index.ts, worker.ts: the callers of the functions above *)
Inductive event :=
| Edit (text : js_str)                     (* the user changes the text *)
| Input (now : Z)                          (* the editor's event, index.ts:235 *)
| Select (name : str) (now : Z)            (* index.ts:195-197 *)
| Reset (now : Z)                          (* index.ts:199-203 *)
| Fetched (i : nat) (text : js_str) (now : Z)   (* index.ts:44-49, 188 *)
| Unfetched (i : nat)                      (* the request fails: [_loadExample] ends *)
| Timer (now : Z)                          (* index.ts:279-282 *)
| Reply                                    (* a response reaches the page *)
| Take                                     (* a request reaches the worker, worker.ts:7 *)
| Import                                   (* [import('mintyml')] is there, worker.ts:8-9 *)
| Convert                                  (* worker.ts:11-12 *)
| Fail.                                    (* the conversion throws, or the import failed: no response *)

(* a list without its element i *)
Fixpoint without {A} (i : nat) (l : list A) : list A :=
  match l, i with [], _ => [] | _ :: l', O => l' | x :: l', S i' => x :: without i' l' end.
(* an assignment to the lists of the worker *)
Definition set_worker (queue import wasm : list js_str) (ready : bool) (out : list js_result) (s : demo) : demo :=
  mkDemo (d_text s) (d_event s) (d_name s) (d_select s) (d_loading s) (d_last s) (d_sent s) (d_dirty s) (d_timers s) (d_fetches s)
    (d_store s) (d_star s) (d_shown s) (d_notes s) (d_marks s) (d_worker s) queue import wasm ready out.
(* an assignment to what the browser keeps *)
Definition set_page (text : js_str) (event : bool) (select : str) (timers : nat) (fetches : list str) (s : demo) : demo :=
  mkDemo text event (d_name s) select (d_loading s) (d_last s) (d_sent s) (d_dirty s) timers fetches
    (d_store s) (d_star s) (d_shown s) (d_notes s) (d_marks s) (d_worker s) (w_queue s) (w_import s) (w_wasm s) (w_ready s) (w_out s).
(* index.ts:200 *)
Definition set_loading (s : demo) : demo :=
  mkDemo (d_text s) (d_event s) (d_name s) (d_select s) true (d_last s) (d_sent s) (d_dirty s) (d_timers s) (d_fetches s)
    (d_store s) (d_star s) (d_shown s) (d_notes s) (d_marks s) (d_worker s) (w_queue s) (w_import s) (w_wasm s) (w_ready s) (w_out s).

(* the events, as their comments say; [None]: it cannot happen now *)
Definition happen (e : event) (s : demo) : option demo :=
  match e with
  | Edit text => Some (set_page text true (d_select s) (d_timers s) (d_fetches s) s)
  | Input now => Some (update now (set_page (d_text s) false (d_select s) (d_timers s) (d_fetches s) s))
  | Select name now => Some (load_example name now (set_page (d_text s) (d_event s) name (d_timers s) (d_fetches s) s))
  | Reset now => Some (load_example (d_name s) now (clear_modified (set_loading s)))
  | Fetched i text now =>
      match nth_error (d_fetches s) i with
      | Some name => Some (loaded name text now (set_page (d_text s) (d_event s) (d_select s) (d_timers s) (without i (d_fetches s)) s))
      | None => None
      end
  | Unfetched i =>
      match nth_error (d_fetches s) i with
      | Some _ => Some (set_page (d_text s) (d_event s) (d_select s) (d_timers s) (without i (d_fetches s)) s)
      | None => None
      end
  | Timer now =>
      match d_timers s with
      | O => None
      | S n => Some (update now (set_dirty false (set_page (d_text s) (d_event s) (d_select s) n (d_fetches s) s)))
      end
  | Reply => match w_out s with r :: out => Some (on_message r (set_worker (w_queue s) (w_import s) (w_wasm s) (w_ready s) out s)) | [] => None end
  | Take =>
      match w_queue s with
      | x :: q => Some (if w_ready s then set_worker q (w_import s) (w_wasm s ++ [x]) true (w_out s) s
                        else set_worker q (w_import s ++ [x]) (w_wasm s) false (w_out s) s)
      | [] => None
      end
  | Import => match w_import s with [] => None | l => Some (set_worker (w_queue s) [] (w_wasm s ++ l) true (w_out s) s) end
  | Convert => match w_wasm s with x :: l => Some (set_worker (w_queue s) (w_import s) l (w_ready s) (w_out s ++ [conv x]) s) | [] => None end
  | Fail =>
      match w_wasm s, w_import s with
      | _ :: l, i => Some (set_worker (w_queue s) i l (w_ready s) (w_out s) s)
      | [], _ :: i => Some (set_worker (w_queue s) i [] (w_ready s) (w_out s) s)
      | [], [] => None
      end
  end.

(* a run: any sequence of events *)
Fixpoint run (es : list event) (s : demo) : option demo :=
  match es with
  | [] => Some s
  | e :: es' => match happen e s with Some s' => run es' s' | None => None end
  end.
End Demo.

(* worker.ts:9: the options of the converter *)
Definition demo_options : js_options :=
  mkJO None (Some (Finite 2 1)) (Some true) (JPrimitive false) (JPrimitive false) None.

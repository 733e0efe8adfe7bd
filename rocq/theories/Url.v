(** * The web demo's URL: the example it names and the place in the page it points to
      (web-demo/src/index.ts), around the model of the demo itself (Demo.v).

    Assumed of the browser: what [searchParams.set] puts into a URL, [searchParams.get] reads
    from it again, also after the page is loaded anew; [replaceState] raises no [hashchange].
    Simplified: the rest of the URL; a fragment is kept as it is given (browsers encode some
    characters); scrolling is recorded as the ids scrolled to, the last one first. *)

From Coq Require Import ZArith.
From Verif Require Import Base Config Display Wasm Demo.

(* index.ts:18: of [URL], the parameters and the fragment, without its sign *)
Record url := mkUrl { u_params : list (str * js_str); u_hash : js_str }.

(* index.ts:352: [URLSearchParams.get], the first value *)
Fixpoint param_get (key : str) (l : list (str * js_str)) : option js_str :=
  match l with
  | [] => None
  | (k, v) :: l' => if str_eqb k key then Some v else param_get key l'
  end.
(* index.ts:22: [URLSearchParams.delete], all values *)
Definition param_delete (key : str) (l : list (str * js_str)) : list (str * js_str) :=
  filter (fun p => negb (str_eqb (fst p) key)) l.
(* index.ts:24: [URLSearchParams.set]: the first is replaced and others are removed; if there is none, it is added. *)
Fixpoint param_set (key : str) (value : js_str) (l : list (str * js_str)) : list (str * js_str) :=
  match l with
  | [] => [(key, value)]
  | (k, v) :: l' => if str_eqb k key then (k, value) :: param_delete key l' else (k, v) :: param_set key value l'
  end.

(* index.ts:13-42 [updateURL]; [push] is not used by its callers, and whether an entry is added to the history is not modelled. *)
Definition update_url (params : list (str * option js_str)) (hash : option (option js_str)) (u : url) : url :=
  let ps := fold_left (fun l p => match snd p with None => param_delete (fst p) l | Some v => param_set (fst p) v l end) params (u_params u) in
  mkUrl ps (match hash with None => u_hash u | Some None => [] | Some (Some h) => h end).

(* index.ts:350-352 *)
Definition example_of (u : url) : str := match param_get (L "example") (u_params u) with Some n => n | None => L "intro" end.

Section Url.
Variable conv : js_str -> js_result.
Variable place : js_str -> N -> N * N.
Variable examples : list str.
(** Whether the page that an output is has an element with an id *)
Variable has : js_str -> js_str -> bool.

(* index.ts:205: the demo, the URL, [_shouldShowElementInHash], and the ids scrolled to *)
Record page := mkPage { p_demo : demo; p_url : url; p_seek : bool; p_view : list js_str }.

(* index.ts:207-222 [_showElementInHash]; the frame shows the text output as a page (149-176). *)
Definition show_hash (p : page) : page :=
  match u_hash (p_url p) with
  | [] => mkPage (p_demo p) (p_url p) false (p_view p)
  | id =>
      if match d_shown (p_demo p) with Some o => has o id | None => false end
      then mkPage (p_demo p) (p_url p) false (id :: p_view p)
      else mkPage (p_demo p) (p_url p) true (p_view p)
  end.

(* index.ts:183: the example is put into the URL, the fragment is removed. *)
Definition name_url (name : str) (u : url) : url := update_url [(L "example", Some name)] (Some None) u.

(* index.ts:350-362, 226-237: the page is opened with a URL. *)
Definition open (text : js_str) (u : url) (store : str -> option js_str) (now : Z) : page :=
  mkPage (start examples text (example_of u) store now) (name_url (example_of u) u) true [].

(* index.ts, what may happen: an event of the demo, or the user follows a link to a place in the page (232). *)
Inductive page_event := Own (e : event) | Hash (h : js_str).

(* index.ts:182-203: the events that load an example change the URL; 248, 173-175: an output is shown, and the place looked for. *)
Definition page_happen (e : page_event) (p : page) : option page :=
  match e with
  | Hash h => Some (show_hash (mkPage (p_demo p) (mkUrl (u_params (p_url p)) h) (p_seek p) (p_view p)))
  | Own e =>
      match happen conv place examples e (p_demo p) with
      | None => None
      | Some s =>
          let u := match e with
                   | Select name _ => name_url name (p_url p)
                   | Reset _ => name_url (d_name (p_demo p)) (p_url p)
                   | _ => p_url p
                   end in
          let p' := mkPage s u (p_seek p) (p_view p) in
          Some (match e, w_out (p_demo p) with
                | Reply, r :: _ => match jr_output r with Some _ => if p_seek p then show_hash p' else p' | None => p' end
                | _, _ => p'
                end)
      end
  end.
(* a run: any sequence of events *)
Fixpoint page_run (es : list page_event) (p : page) : option page :=
  match es with
  | [] => Some p
  | e :: es' => match page_happen e p with Some p' => page_run es' p' | None => None end
  end.
End Url.

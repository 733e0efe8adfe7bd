(** * The frame in which the web demo shows an output as a page (web-demo/src/index.ts), around
      the model of the demo itself (Demo.v).

    Assumed of the browser: how it reads an output as a document is a parameter ([dom_of]); a
    document has a body or, if the output has one in its place, a frameset, and [document.body]
    is either.  Simplified: that the frame has a document ([contentDocument] is not null), the
    address of links ([base], 155-158), attributes of [html] and [head] (which are not copied). *)

From Coq Require Import ZArith.
From Verif Require Import Base Config Display Wasm Demo.

Section Frame.
Variable conv : js_str -> js_result.
Variable place : js_str -> N -> N * N.
Variable examples : list str.
(** An element, with all that is in it *)
Variable elem : Type.

(* index.ts:151: a document as [DOMParser] reads it: the elements in its head with their names, and what [document.body] is *)
Inductive dom_body := Body (e : elem) | Frameset (e : elem).
Record dom := mkDom { dom_head : list (str * elem); dom_main : dom_body }.
Variable dom_of : js_str -> dom.

(* index.ts:75-98, 148-176: the document of the frame; elements of the head with or without the class [-user-provided] *)
Record frame := mkFrame { f_head : list (bool * elem); f_main : dom_body }.

(* index.ts:164: [querySelectorAll('title,link,style')] *)
Definition picked (d : dom) : list elem :=
  map snd (filter (fun x => existsb (str_eqb (fst x)) [L "title"; L "link"; L "style"]) (dom_head d)).

(* index.ts:148-176 [_updateDoc]; [querySelector('body')] finds a body, not a frameset. *)
Definition update_doc (o : js_str) (f : frame) : frame :=
  mkFrame (filter (fun x => negb (fst x)) (f_head f) ++ map (pair true) (picked (dom_of o)))
    (match f_main f with Body _ => dom_main (dom_of o) | Frameset _ => f_main f end).

(* index.ts:56-61: the demo and its frame *)
Record view := mkView { v_demo : demo; v_frame : frame }.
(* index.ts:75-98: the frame at first, with the elements that the constructor puts there *)
Definition view_start (text : js_str) (name : str) (store : str -> option js_str) (now : Z) (own : list elem) (blank : elem) : view :=
  mkView (start examples text name store now) (mkFrame (map (pair false) own) (Body blank)).
(* index.ts:244-249: an output is put into the frame. *)
Definition view_happen (e : event) (v : view) : option view :=
  match happen conv place examples e (v_demo v) with
  | None => None
  | Some s => Some (mkView s (match e, w_out (v_demo v) with
                              | Reply, r :: _ => match jr_output r with Some o => update_doc o (v_frame v) | None => v_frame v end
                              | _, _ => v_frame v
                              end))
  end.
(* a run: any sequence of events *)
Fixpoint view_run (es : list event) (v : view) : option view :=
  match es with
  | [] => Some v
  | e :: es' => match view_happen e v with Some v' => view_run es' v' | None => None end
  end.
End Frame.

(** * Specification: reading JSON (RFC 8259), and what is to be read. *)

From Verif Require Import Base Doc Errors Display Reporter Cli SpecCli.

(** ** A reader

    Numbers other than natural ones and characters written as two escapes are not read. *)
Inductive value :=
| VNull
| VBool (b : bool)
| VNumber (n : N)
| VString (s : str)
| VArray (l : list value)
| VObject (l : list (str * value)).

Definition space (c : chr) : bool := (c =? 32) || (c =? 9) || (c =? 10) || (c =? 13).
Fixpoint skip (s : str) : str :=
  match s with
  | c :: r => if space c then skip r else s
  | [] => []
  end.

Definition hex_value (c : chr) : option N :=
  if (48 <=? c) && (c <=? 57) then Some (c - 48)
  else if (97 <=? c) && (c <=? 102) then Some (c - 87)
  else if (65 <=? c) && (c <=? 70) then Some (c - 55)
  else None.

(** backslash and the letter *)
Definition escaped (c : chr) : option chr :=
  if c =? 34 then Some 34
  else if c =? 92 then Some 92
  else if c =? 47 then Some 47
  else if c =? 98 then Some 8
  else if c =? 102 then Some 12
  else if c =? 110 then Some 10
  else if c =? 114 then Some 13
  else if c =? 116 then Some 9
  else None.

Definition first {A B} (f : A -> A) (o : option (A * B)) : option (A * B) :=
  match o with Some (a, b) => Some (f a, b) | None => None end.

(** The characters up to the closing quotation mark, and what follows it. *)
Fixpoint characters (s : str) : option (str * str) :=
  match s with
  | [] => None
  | c :: r =>
      if c =? 34 then Some ([], r)
      else if c =? 92 then
        match r with
        | [] => None
        | d :: r =>
            if d =? 117 then
              match r with
              | w :: x :: y :: z :: r =>
                  match hex_value w, hex_value x, hex_value y, hex_value z with
                  | Some w, Some x, Some y, Some z =>
                      let n := ((w * 16 + x) * 16 + y) * 16 + z in
                      if (55296 <=? n) && (n <? 57344) then None else first (cons n) (characters r)
                  | _, _, _, _ => None
                  end
              | _ => None
              end
            else
              match escaped d with
              | Some e => first (cons e) (characters r)
              | None => None
              end
        end
      else if c <? 32 then None
      else first (cons c) (characters r)
  end.

Fixpoint digits (n : N) (s : str) : N * str :=
  match s with
  | c :: r => if (48 <=? c) && (c <=? 57) then digits (10 * n + (c - 48)) r else (n, s)
  | [] => (n, [])
  end.

Fixpoint after (word s : str) : option str :=
  match word, s with
  | [], _ => Some s
  | a :: w, c :: r => if a =? c then after w r else None
  | _, [] => None
  end.

(** A value, the elements of an array or the members of an object at the beginning of
    the text, and what follows.  The number bounds the depth. *)
Fixpoint read_value (depth : nat) (s : str) : option (value * str) :=
  match depth with
  | O => None
  | S depth =>
      match skip s with
      | [] => None
      | c :: r =>
          if c =? 34 then match characters r with Some (s, r) => Some (VString s, r) | None => None end
          else if c =? 48 then Some (VNumber 0, r)
          else if (49 <=? c) && (c <=? 57) then let '(n, r) := digits (c - 48) r in Some (VNumber n, r)
          else if c =? 91 then
            match skip r with
            | d :: r' =>
                if d =? 93 then Some (VArray [], r')
                else match read_elements depth r with Some (l, r) => Some (VArray l, r) | None => None end
            | [] => None
            end
          else if c =? 123 then
            match skip r with
            | d :: r' =>
                if d =? 125 then Some (VObject [], r')
                else match read_members depth r with Some (l, r) => Some (VObject l, r) | None => None end
            | [] => None
            end
          else match after (L "null") (c :: r), after (L "true") (c :: r), after (L "false") (c :: r) with
               | Some r, _, _ => Some (VNull, r)
               | _, Some r, _ => Some (VBool true, r)
               | _, _, Some r => Some (VBool false, r)
               | _, _, _ => None
               end
      end
  end
with read_elements (depth : nat) (s : str) : option (list value * str) :=
  match depth with
  | O => None
  | S depth =>
      match read_value depth s with
      | None => None
      | Some (v, r) =>
          match skip r with
          | c :: r =>
              if c =? 44 then first (cons v) (read_elements depth r)
              else if c =? 93 then Some ([v], r)
              else None
          | [] => None
          end
      end
  end
with read_members (depth : nat) (s : str) : option (list (str * value) * str) :=
  match depth with
  | O => None
  | S depth =>
      match skip s with
      | q :: r =>
          if q =? 34 then
            match characters r with
            | None => None
            | Some (name, r) =>
                match skip r with
                | c :: r =>
                    if c =? 58 then
                      match read_value depth r with
                      | None => None
                      | Some (v, r) =>
                          match skip r with
                          | c :: r =>
                              if c =? 44 then first (cons (name, v)) (read_members depth r)
                              else if c =? 125 then Some ([(name, v)], r)
                              else None
                          | [] => None
                          end
                      end
                    else None
                | [] => None
                end
            end
          else None
      | [] => None
      end
  end.

(** The value that a text is. *)
Definition read_json (s : str) : option value :=
  match read_value (S (length s)) s with
  | Some (v, r) => match skip r with [] => Some v | _ => None end
  | None => None
  end.

(** ** What a complaint is as JSON; hidden ones are not written. *)
Definition category_value (c : category) : value :=
  VString (match c with
           | CatSyntax => L "syntax"
           | CatSemantic => L "semantic"
           | CatInternal => L "internal"
           | CatArgument => L "argument"
           | CatHidden => L "hidden"
           end).
Definition stream_value (s : stream) : value :=
  match s with SFile p => VObject [(L "file", VString p)] | Stdio => VString (L "stdio") end.
Definition location_value (r : lrange) : value :=
  VObject [(L "start", VNumber (r_start r)); (L "end", VNumber (r_end r))].

Definition as_json (debug : str -> str) (c : complaint) : list value :=
  match c with
  | CoSyntax name src e =>
      [VObject ([(L "category", category_value CatSyntax); (L "sourceName", stream_value name);
                 (L "location", location_value (sy_range e))] ++
                (match sy_kind e with KParseFailed x => [(L "expected", VArray (map VString x))] | _ => [] end) ++
                [(L "message", VString (display_with_src debug src false e))])]
  | CoSemantic name src e =>
      [VObject [(L "category", category_value CatSemantic); (L "sourceName", stream_value name);
                (L "location", location_value (se_range e)); (L "message", VString (L "Unknown"))]]
  | CoOther e =>
      match ce_category e with
      | Some CatHidden => []
      | k =>
          [VObject ([(L "category", category_value (match k with Some c => c | None => CatInternal end))] ++
                    (match ce_source e with Some s => [(L "sourceName", stream_value s)] | None => [] end) ++
                    [(L "message", VString (ce_message e))])]
      end
  end.

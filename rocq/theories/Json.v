(** * minty-cli/src/error_reporter.rs: errors as JSON.

    error_reporter.rs:21-90, 247-255 derive [Serialize]; what serde and serde_json
    (1.0, its compact form) make of that is modelled here. *)

From Verif Require Import Base Doc Errors Reporter.

(* serde_json, [format_escaped_str]: a hexadecimal digit *)
Definition low_hex (n : N) : chr := if n <? 10 then 48 + n else 87 + n.

(* serde_json, [format_escaped_str] *)
Definition json_char (c : chr) : str :=
  if c =? 34 then [92; 34]
  else if c =? 92 then [92; 92]
  else if c =? 8 then [92; 98]
  else if c =? 9 then [92; 116]
  else if c =? 10 then [92; 110]
  else if c =? 12 then [92; 102]
  else if c =? 13 then [92; 114]
  else if c <? 32 then [92; 117; 48; 48; low_hex (c / 16); low_hex (c mod 16)]
  else [c].

(* serde_json, [serialize_str]; error_reporter.rs:68-76 [collect_str] gives the same *)
Definition json_string (s : str) : str := [34] ++ flat_map json_char s ++ [34].

(* serde_json, [serialize_seq], [serialize_struct]: with commas *)
Fixpoint commas (l : list str) : str :=
  match l with
  | [] => []
  | [x] => x
  | x :: rest => x ++ [44] ++ commas rest
  end.

(* serde_json, [serialize_field] *)
Definition json_field (name : str) (value : str) : str := json_string name ++ [58] ++ value.

(* serde_json, [serialize_struct] *)
Definition json_struct (fields : list str) : str := [123] ++ commas fields ++ [125].

(** error_reporter.rs:247-255, [rename_all = "camelCase"] *)
Definition json_category (c : category) : str :=
  json_string (match c with
               | CatSyntax => L "syntax"
               | CatSemantic => L "semantic"
               | CatInternal => L "internal"
               | CatArgument => L "argument"
               | CatHidden => L "hidden"
               end).

(** error_reporter.rs:78-83 *)
Definition json_stream (s : stream) : str :=
  match s with
  | SFile p => json_struct [json_field (L "file") (json_string p)]
  | Stdio => json_string (L "stdio")
  end.

(** error_reporter.rs:50-64 *)
Definition json_location (r : lrange) : str :=
  json_struct [json_field (L "start") (dec (r_start r)); json_field (L "end") (dec (r_end r))].

(** error_reporter.rs:40-48 *)
Definition json_expected (l : list str) : str := [91] ++ commas (map json_string l) ++ [93].

(** error_reporter.rs:21-34 *)
Definition json_entry (e : entry) : str :=
  json_struct
    ([json_field (L "category") (json_category (en_category e))] ++
     (match en_source e with Some s => [json_field (L "sourceName") (json_stream s)] | None => [] end) ++
     (match en_location e with Some r => [json_field (L "location") (json_location r)] | None => [] end) ++
     (match en_expected e with Some l => [json_field (L "expected") (json_expected l)] | None => [] end) ++
     [json_field (L "message") (match en_message e with Some m => json_string m | None => L "null" end)]).

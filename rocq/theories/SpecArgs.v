(** * What is said about the command line of [convert]. *)

From Verif Require Import Base Doc Config Errors Reporter Cli Args.

(** ** Values *)

(** A number in decimal digits, at most [max]; a sign is allowed. *)
Definition digit (c : chr) : Prop := 48 <= c <= 57.
Definition decimal (ds : str) : N := fold_left (fun n d => 10 * n + (d - 48)) ds 0.
Definition Numeral (max : N) (s : str) (n : N) : Prop :=
  exists ds, (s = ds \/ s = L "+" ++ ds \/ s = L "-" ++ ds /\ n = 0) /\
             ds <> [] /\ Forall digit ds /\ n = decimal ds /\ n <= max.

Inductive Truth : str -> bool -> Prop :=
| truth_true : Truth (L "true") true
| truth_false : Truth (L "false") false.

Inductive Fast : str -> fail_fast -> Prop :=
| fast_false : Fast (L "false") FFFalse
| fast_true : Fast (L "true") FFTrue
| fast_file : Fast (L "file") FFFile.

Inductive Mode : str -> error_mode -> Prop :=
| mode_default : Mode (L "default") MDefault
| mode_json : Mode (L "json") MJson
| mode_silent : Mode (L "silent") MSilent.

Inductive Kind : str -> special_kind -> Prop :=
| kind_strong : Kind (L "strong") Strong
| kind_emphasis : Kind (L "emphasis") Emphasis
| kind_underline : Kind (L "underline") Underline
| kind_strike : Kind (L "strike") Strike
| kind_quote : Kind (L "quote") Quote
| kind_code : Kind (L "code") Code
| kind_code_block : Kind (L "code-block-container") CodeBlockContainer.

(** [key=value,key=value]; no value has a comma. *)
Inductive Tags : str -> list (special_kind * str) -> Prop :=
| tags_one k kind v : Kind k kind -> ~ In 44 v -> Tags (k ++ L "=" ++ v) [(kind, v)]
| tags_more k kind v s l :
    Kind k kind -> ~ In 44 v -> Tags s l -> Tags (k ++ L "=" ++ v ++ L "," ++ s) ((kind, v) :: l).

(** ** Options *)

(** What the option of a name says without a value, *)
Inductive Bare : str -> use -> Prop :=
| bare_stdin : Bare (L "stdin") UStdin
| bare_recurse : Bare (L "recurse") (URecurse None)
| bare_stdout : Bare (L "stdout") UStdout
| bare_xml : Bare (L "xml") UXml
| bare_pretty : Bare (L "pretty") UPretty
| bare_complete_page : Bare (L "complete-page") (UCompletePage true)
| bare_fragment : Bare (L "fragment") UFragment
| bare_forgiving : Bare (L "forgiving") (UForgiving true)
| bare_fail_fast : Bare (L "fail-fast") (UFailFast FFTrue)
| bare_metadata : Bare (L "metadata") (UMetadata true)
| bare_metadata_elements : Bare (L "metadata-elements") (UMetadataElements true).

(** and with one. *)
Inductive Valued : str -> str -> use -> Prop :=
| val_dir p : p <> [] -> Valued (L "dir") p (UDir p)
| val_recurse s n : Numeral (2 ^ 32 - 1) s n -> Valued (L "recurse") s (URecurse (Some n))
| val_out p : p <> [] -> Valued (L "out") p (UOut p)
| val_indent s n : Numeral 16 s n -> Valued (L "indent") s (UIndent n)
| val_complete_page s b : Truth s b -> Valued (L "complete-page") s (UCompletePage b)
| val_special_tag s l : Tags s l -> Valued (L "special-tag") s (USpecialTag l)
| val_forgiving s b : Truth s b -> Valued (L "forgiving") s (UForgiving b)
| val_fail_fast s f : Fast s f -> Valued (L "fail-fast") s (UFailFast f)
| val_metadata s b : Truth s b -> Valued (L "metadata") s (UMetadata b)
| val_metadata_elements s b : Truth s b -> Valued (L "metadata-elements") s (UMetadataElements b)
| val_error_mode s m : Mode s m -> Valued (L "error-mode") s (UErrorMode m).

(** The value may be a word of its own. *)
Definition Separable (n : str) : Prop :=
  In n [L "dir"; L "recurse"; L "out"; L "indent"; L "special-tag"; L "error-mode"].

(** One letter for a name: flags, and options that have a value or may have one. *)
Inductive Flag : chr -> use -> Prop :=
| flag_x : Flag 120 UXml
| flag_p : Flag 112 UPretty.
Inductive Letter : chr -> str -> Prop :=
| letter_d : Letter 100 (L "dir")
| letter_r : Letter 114 (L "recurse")
| letter_o : Letter 111 (L "out").
Definition Flags : str -> list use -> Prop := Forall2 Flag.

(** ** Words *)

(** A hyphen with something after it. *)
Definition Hyphened (w : str) : Prop := exists c s, w = 45 :: c :: s.

(** What comes next is no value. *)
Definition NoValue (ws : list str) : Prop := match ws with [] => True | w :: _ => Hyphened w end.

(** The words use options and files so. *)
Inductive Spelled : list str -> list use -> Prop :=
| sp_end : Spelled [] []
| sp_rest fs : Forall (fun f => f <> []) fs -> Spelled (L "--" :: fs) (map UFile fs)
| sp_file w ws us : w <> [] -> ~ Hyphened w -> Spelled ws us -> Spelled (w :: ws) (UFile w :: us)
(* [--name] *)
| sp_bare n u ws us :
    Bare n u -> (n = L "recurse" -> NoValue ws) -> Spelled ws us ->
    Spelled ((L "--" ++ n) :: ws) (u :: us)
(* [--name=value] *)
| sp_equals n v u ws us :
    Valued n v u -> Spelled ws us -> Spelled ((L "--" ++ n ++ L "=" ++ v) :: ws) (u :: us)
(* [--name value] *)
| sp_next n v u ws us :
    Valued n v u -> Separable n -> ~ Hyphened v -> Spelled ws us ->
    Spelled ((L "--" ++ n) :: v :: ws) (u :: us)
(* [-xp] *)
| sp_flags cs fs ws us :
    cs <> [] -> Flags cs fs -> Spelled ws us -> Spelled ((L "-" ++ cs) :: ws) (fs ++ us)
(* [-xpr] *)
| sp_letter cs fs c n u ws us :
    Flags cs fs -> Letter c n -> Bare n u -> NoValue ws -> Spelled ws us ->
    Spelled ((L "-" ++ cs ++ [c]) :: ws) (fs ++ u :: us)
(* [-xpovalue] *)
| sp_letter_value cs fs c n v u ws us :
    Flags cs fs -> Letter c n -> Valued n v u -> v <> [] -> hd 0 v <> 61 -> Spelled ws us ->
    Spelled ((L "-" ++ cs ++ c :: v) :: ws) (fs ++ u :: us)
(* [-xpo=value] *)
| sp_letter_equals cs fs c n v u ws us :
    Flags cs fs -> Letter c n -> Valued n v u -> Spelled ws us ->
    Spelled ((L "-" ++ cs ++ c :: L "=" ++ v) :: ws) (fs ++ u :: us)
(* [-xpo value] *)
| sp_letter_next cs fs c n v u ws us :
    Flags cs fs -> Letter c n -> Valued n v u -> ~ Hyphened v -> Spelled ws us ->
    Spelled ((L "-" ++ cs ++ [c]) :: v :: ws) (fs ++ u :: us).

(** ** What they say together *)

(** There is a use among them, *)
Definition Some_use (P : use -> Prop) (us : list use) : Prop := exists u, In u us /\ P u.
(** and [u] is the last one. *)
Definition Last_use (P : use -> Prop) (us : list use) (u : use) : Prop :=
  exists before after, us = before ++ u :: after /\ P u /\ forall v, In v after -> ~ P v.

Definition is_dir_use (u : use) := exists p, u = UDir p.
Definition is_recurse_use (u : use) := exists d, u = URecurse d.
Definition is_out_use (u : use) := exists p, u = UOut p.
Definition is_indent_use (u : use) := exists n, u = UIndent n.
Definition is_complete_page_use (u : use) := exists b, u = UCompletePage b.
Definition is_forgiving_use (u : use) := exists b, u = UForgiving b.
Definition is_fail_fast_use (u : use) := exists f, u = UFailFast f.
Definition is_error_mode_use (u : use) := exists m, u = UErrorMode m.
Definition is_file_use (u : use) := exists p, u = UFile p.
(** [--metadata] and [--metadata-elements] replace each other. *)
Definition is_metadata_use (u : use) := exists b, u = UMetadata b \/ u = UMetadataElements b.

(** The uses go together. *)
Record Coherent (us : list use) : Prop := {
  (* no source twice, none missing *)
  co_stdin : In UStdin us -> ~ Some_use is_dir_use us /\ ~ Some_use is_file_use us;
  co_source : In UStdin us \/ Some_use is_dir_use us \/ Some_use is_file_use us;
  co_recurse : Some_use is_recurse_use us -> ~ Some_use is_file_use us;
  (* one destination; one for stdin *)
  co_stdout : In UStdout us -> ~ Some_use is_out_use us /\ ~ Some_use is_dir_use us;
  co_dest : In UStdin us -> In UStdout us \/ Some_use is_out_use us;
  co_fragment : In UFragment us -> ~ Some_use is_complete_page_use us;
  co_fail_fast : Some_use is_fail_fast_use us -> ~ Some_use is_forgiving_use us;
  co_indent : Some_use is_indent_use us -> In UPretty us;
}.

(** They say this: of several uses of an option the last counts; all files and all
    special tags count, in order. *)
Record Means (us : list use) (a : args) : Prop := {
  me_stdin : g_stdin a = true <-> In UStdin us;
  me_dir : forall p, g_src_dir a = Some p <-> Last_use is_dir_use us (UDir p);
  me_no_files : g_src_files a = None <-> ~ Some_use is_file_use us;
  me_files : forall fs, g_src_files a = Some fs ->
    fs = flat_map (fun u => match u with UFile p => [p] | _ => [] end) us;
  me_recurse : forall d, g_recurse a = Some d <-> Last_use is_recurse_use us (URecurse d);
  me_out : forall p, g_out a = Some p <-> Last_use is_out_use us (UOut p);
  me_stdout : g_stdout a = true <-> In UStdout us;
  me_xml : o_xml (g_options a) = true <-> In UXml us;
  me_pretty : o_pretty (g_options a) = true <-> In UPretty us;
  me_indent : forall n, Last_use is_indent_use us (UIndent n) -> o_indent (g_options a) = N.to_nat n;
  me_no_indent : ~ Some_use is_indent_use us -> o_indent (g_options a) = 2%nat;
  me_complete_page : forall b, o_complete_page (g_options a) = Some b <->
    Last_use is_complete_page_use us (UCompletePage b);
  me_fragment : o_fragment (g_options a) = true <-> In UFragment us;
  me_special_tag : o_special_tag (g_options a) =
    flat_map (fun u => match u with USpecialTag l => l | _ => [] end) us;
  me_forgiving : forall b, o_forgiving (g_options a) = Some b <-> Last_use is_forgiving_use us (UForgiving b);
  me_fail_fast : forall f, o_fail_fast (g_options a) = Some f <-> Last_use is_fail_fast_use us (UFailFast f);
  me_metadata : forall b, o_metadata (g_options a) = Some b <-> Last_use is_metadata_use us (UMetadata b);
  me_metadata_elements : forall b, o_metadata_elements (g_options a) = Some b <->
    Last_use is_metadata_use us (UMetadataElements b);
  me_error_mode : forall m, Last_use is_error_mode_use us (UErrorMode m) -> g_error_mode a = m;
  me_no_error_mode : ~ Some_use is_error_mode_use us -> g_error_mode a = MDefault;
}.

(** ** Commands *)

(** The commands that can be given. *)
Record Allowed (a : args) : Prop := {
  al_source : g_stdin a = true \/ g_src_dir a <> None \/ g_src_files a <> None;
  al_stdin : g_stdin a = true -> g_src_dir a = None /\ g_src_files a = None;
  al_dest : g_stdin a = true -> g_stdout a = true \/ g_out a <> None;
  al_stdout : g_stdout a = true -> g_out a = None /\ g_src_dir a = None;
  al_recurse : g_recurse a <> None -> g_src_files a = None;
  al_depth : forall d, g_recurse a = Some (Some d) -> d <= 2 ^ 32 - 1;
  al_dir : g_src_dir a <> Some [];
  al_out : g_out a <> Some [];
  al_files : forall fs, g_src_files a = Some fs -> fs <> [] /\ ~ In [] fs;
  al_fragment : o_fragment (g_options a) = true -> o_complete_page (g_options a) = None;
  al_fail_fast : o_fail_fast (g_options a) <> None -> o_forgiving (g_options a) = None;
  al_indent : (o_indent (g_options a) <= 16)%nat;
  al_pretty : o_pretty (g_options a) = false -> o_indent (g_options a) = 2%nat;
  al_metadata : o_metadata (g_options a) = None \/ o_metadata_elements (g_options a) = None;
  al_special_tag : forall k v, In (k, v) (o_special_tag (g_options a)) -> ~ In 44 v;
}.

(** ** Order *)

(** The options of which the last use counts; files and special tags add up. *)
Definition family (u : use) : option str :=
  match u with
  | UStdin => Some (L "stdin")
  | UDir _ => Some (L "dir")
  | URecurse _ => Some (L "recurse")
  | UOut _ => Some (L "out")
  | UStdout => Some (L "stdout")
  | UXml => Some (L "xml")
  | UPretty => Some (L "pretty")
  | UIndent _ => Some (L "indent")
  | UCompletePage _ => Some (L "complete-page")
  | UFragment => Some (L "fragment")
  | UForgiving _ => Some (L "forgiving")
  | UFailFast _ => Some (L "fail-fast")
  | UMetadata _ | UMetadataElements _ => Some (L "metadata")
  | UErrorMode _ => Some (L "error-mode")
  | USpecialTag _ | UFile _ => None
  end.

(** None of them is used twice. *)
Definition Once (us : list use) : Prop :=
  NoDup (flat_map (fun u => match family u with Some n => [n] | None => [] end) us).

(** The same files and special tags in the same order. *)
Definition SameFiles (us us' : list use) : Prop :=
  filter (fun u => is_none (family u)) us = filter (fun u => is_none (family u)) us'.

(** ** The start of the program *)

(** The words are [--error-mode] and a mode, and nothing else (but [--]). *)
Inductive OnlyMode : list str -> error_mode -> Prop :=
| only_next s m : Mode s m -> OnlyMode [L "--error-mode"; s] m
| only_equals s m : Mode s m -> OnlyMode [L "--error-mode=" ++ s] m
| only_next_end s m : Mode s m -> OnlyMode [L "--error-mode"; s; L "--"] m
| only_equals_end s m : Mode s m -> OnlyMode [L "--error-mode=" ++ s; L "--"] m.

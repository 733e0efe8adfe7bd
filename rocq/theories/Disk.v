(** * minty-cli: what a run does to files, step by step.

    minty-cli/src/io_helper.rs 17-79 ([read], [write], [DefaultIoHelper]) and convert.rs
    36-78, 184-213: the conversions of a command as programs that take turns, one call of
    the operating system at a time, in any order (rayon).

    Simplifications: no links, so that a path leads to one place, found from its text; files
    are changed by the command only; calls may fail for any reason, with any error.  A
    successful call need not check all that the operating system checks: there are more
    executions than occur. *)

From Coq Require Import List.
From Verif Require Import Base Doc Config Errors Path Reporter Cli.
Import ListNotations.

(* the operating system's files, as seen through std::fs by io_helper.rs:75-127 *)
Definition bytes := list N.
(** A place in the file system: names from the root. *)
(* the operating system's files, as seen through std::fs by io_helper.rs:75-127 *)
Definition place := list str.
(* the operating system's files, as seen through std::fs by io_helper.rs:75-127 *)
Inductive on_disk := DFile (data : bytes) | DDir.
(* the operating system's files, as seen through std::fs by io_helper.rs:75-127 *)
Definition disk := place -> option on_disk.
(* the operating system's files, as seen through std::fs by io_helper.rs:75-127 *)
Record world := mkWorld { w_disk : disk; w_out : bytes }.

(* the operating system's files, as seen through std::fs by io_helper.rs:75-127 *)
Definition place_dec : forall p q : place, {p = q} + {p <> q} := list_eq_dec (list_eq_dec N.eq_dec).
(* the operating system's files, as seen through std::fs by io_helper.rs:75-127 *)
Definition put (d : disk) (q : place) (e : on_disk) : disk := fun p => if place_dec p q then Some e else d p.

(** [pwrite] at the offset of the open file; a gap is filled with zeros. *)
(* the operating system's files, as seen through std::fs by io_helper.rs:75-127 *)
Definition overwrite (data : bytes) (at_ : nat) (chunk : bytes) : bytes :=
  firstn at_ (data ++ repeat 0 (at_ - length data)) ++ chunk ++ skipn (at_ + length chunk) data.

Section Disk.
Variable cwd : place.
(** Bytes and text: [io::read_to_string] and [as_bytes] *)
Variable decode : bytes -> option str.
Variable encode : str -> bytes.
Variable convert : str -> config -> str + convert_error.
Variable convert_forgiving : str -> config -> str + option str * convert_error.
Variable stdin : bytes.
Variable a : args.

(** The place that a path leads to. *)
(* the operating system's files, as seen through std::fs by io_helper.rs:75-127 *)
Fixpoint follow (at_ : place) (cs : list component) : place :=
  match cs with
  | [] => at_
  | RootDir :: cs => follow [] cs
  | CurDir :: cs => follow at_ cs
  | ParentDir :: cs => follow (removelast at_) cs
  | Normal n :: cs => follow (at_ ++ [n]) cs
  end.
(* the operating system's files, as seen through std::fs by io_helper.rs:75-127 *)
Definition resolve (p : str) : place := follow cwd (components p).

(** std's [create_dir_all]: the directories on the way, first to last.  (It begins with the
    last, and goes back to those before if it has to.) *)
Fixpoint ways (cs : list component) : list (list component) :=
  match cs with [] => [] | c :: cs => [c] :: map (cons c) (ways cs) end.
(* the operating system's files, as seen through std::fs by io_helper.rs:75-127 *)
Definition dirs_to (p : str) : list place :=
  match parent p with Some q => map (follow cwd) (ways (components q)) | None => [] end.

(** convert.rs:44-77: after the source has been read: the text to be written, and the
    result if it can be written. *)
Definition conversion (src : str) : option str * cres bool :=
  let cfg := as_config (g_options a) in
  let '(out, error) :=
    if match o_forgiving (g_options a) with Some b => b | None => false end then
      match convert_forgiving src cfg with
      | inl out => (Some out, None)
      | inr (out, e) => (out, Some e)
      end
    else
      match convert src cfg with
      | inl out => (Some out, None)
      | inr e => (None, Some e)
      end in
  let success := is_none error && is_some out in
  (out, match success, o_fail_fast (g_options a) with
        | false, Some FFTrue => inr (mkErr (Some CatHidden) None (show_category CatHidden))
        | _, _ => inl success
        end).

(** Where a conversion is. *)
(* the calls of convert.rs:36-78 and io_helper.rs:17-33 in turn *)
Inductive phase :=
| Start
| Reading (from : option place) (got : bytes)                      (* [None]: standard input *)
| Making (todo : list place) (text : bytes) (r : cres bool)        (* directories *)
| Opening (text : bytes) (r : cres bool)
| Emptying (q : place) (text : bytes) (r : cres bool)
| Writing (q : option place) (at_ : nat) (rest : bytes) (r : cres bool)  (* [None]: standard output *)
| Finished (r : cres bool).

(* the operating system's files, as seen through std::fs by io_helper.rs:75-127 *)
Definition contents (w : world) (from : option place) : option bytes :=
  match from with
  | None => Some stdin
  | Some q => match w_disk w q with Some (DFile data) => Some data | _ => None end
  end.

(** io_helper.rs:23-33 [write], from its beginning *)
Definition begin_write (dest : stream) (text : bytes) (r : cres bool) : phase :=
  match dest with
  | SFile p => Making (dirs_to p) text r
  | Stdio => Writing None 0 text r
  end.

(* the operating system's files, as seen through std::fs by io_helper.rs:75-127 *)
Definition put_w (w : world) (q : place) (e : on_disk) : world := mkWorld (put (w_disk w) q e) (w_out w).
(** The directory that a place is in exists. *)
(* the operating system's files, as seen through std::fs by io_helper.rs:75-127 *)
Definition in_dir (w : world) (q : place) : Prop := q = [] \/ w_disk w (removelast q) = Some DDir.

(** A step of the conversion of [source] to [dest]. *)
(* convert.rs:36-78, io_helper.rs:17-33, 75-88, 125-127 *)
Inductive step (source dest : stream) : world -> phase -> world -> phase -> Prop :=
(** io_helper.rs:75-77, 86-88: open the source *)
| StOpen : forall w p data, source = SFile p -> w_disk w (resolve p) = Some (DFile data) ->
    step source dest w Start w (Reading (Some (resolve p)) [])
| StStdin : forall w, source = Stdio -> step source dest w Start w (Reading None [])
(** [read_to_string], io_helper.rs:20-22: piece by piece *)
| StRead : forall w from got data chunk more, contents w from = Some data ->
    skipn (length got) data = chunk ++ more ->
    step source dest w (Reading from got) w (Reading from (got ++ chunk))
| StConvert : forall w from got data src out r, contents w from = Some data ->
    skipn (length got) data = [] -> decode got = Some src -> conversion src = (out, r) ->
    step source dest w (Reading from got) w
      (match out with Some t => begin_write dest (encode t) r | None => Finished r end)
(** [create_dir_all], io_helper.rs:26-30, 125-127 *)
| StMake : forall w q todo text r, w_disk w q = None -> in_dir w q ->
    step source dest w (Making (q :: todo) text r) (put_w w q DDir) (Making todo text r)
| StMade : forall w q todo text r, w_disk w q = Some DDir ->
    step source dest w (Making (q :: todo) text r) w (Making todo text r)
| StReady : forall w text r, step source dest w (Making [] text r) w (Opening text r)
(** [OpenOptions::new().create(true).write(true).open(path)], io_helper.rs:80 *)
| StCreate : forall w p text r, dest = SFile p -> w_disk w (resolve p) = None -> in_dir w (resolve p) ->
    step source dest w (Opening text r) (put_w w (resolve p) (DFile [])) (Emptying (resolve p) text r)
| StExists : forall w p data text r, dest = SFile p -> w_disk w (resolve p) = Some (DFile data) ->
    step source dest w (Opening text r) w (Emptying (resolve p) text r)
(** [set_len(0)], io_helper.rs:81 *)
| StEmpty : forall w q text r,
    step source dest w (Emptying q text r) (put_w w q (DFile [])) (Writing (Some q) 0 text r)
(** [write_all], io_helper.rs:32: piece by piece *)
| StWrite : forall w q data at_ chunk rest r, w_disk w q = Some (DFile data) ->
    step source dest w (Writing (Some q) at_ (chunk ++ rest) r)
      (put_w w q (DFile (overwrite data at_ chunk))) (Writing (Some q) (at_ + length chunk) rest r)
| StPrint : forall w at_ chunk rest r,
    step source dest w (Writing None at_ (chunk ++ rest) r)
      (mkWorld (w_disk w) (w_out w ++ chunk)) (Writing None (at_ + length chunk) rest r)
| StWritten : forall w q at_ r, step source dest w (Writing q at_ [] r) w (Finished r)
(** Any call may fail. *)
| StFail : forall w ph e, (forall r, ph <> Finished r) -> step source dest w ph w (Finished (inr e)).

(** ** All conversions of a command, convert.rs:190-212 *)
Definition running := list ((stream * stream) * phase).
(* convert.rs:190-212 *)
Inductive steps : world * running -> world * running -> Prop :=
| StepsHere : forall s, steps s s
| StepsOne : forall s w before j ph after w' ph', steps s (w, before ++ (j, ph) :: after) ->
    step (fst j) (snd j) w ph w' ph' -> steps s (w', before ++ (j, ph') :: after).

(* convert.rs:190-191 *)
Definition begin (jobs : list (stream * stream)) : running := map (fun j => (j, Start)) jobs.
End Disk.

(** * What a run may do to files.  The model is in Disk.v. *)

From Coq Require Import List.
From Verif Require Import Base Doc Config Errors Path Reporter Cli SpecCli Disk.
Import ListNotations.

(** Where a path leads, from the directory [cwd]: to the root, to the same directory, to the
    one around it, or to what is called [n] in it. *)
Inductive Leads (cwd : Disk.place) : list component -> Disk.place -> Prop :=
| LdHere : Leads cwd [] cwd
| LdRoot : forall cs, Leads cwd (cs ++ [RootDir]) []
| LdSame : forall cs q, Leads cwd cs q -> Leads cwd (cs ++ [CurDir]) q
| LdOut : forall cs q n, Leads cwd cs (q ++ [n]) -> Leads cwd (cs ++ [ParentDir]) q
| LdTop : forall cs, Leads cwd cs [] -> Leads cwd (cs ++ [ParentDir]) []
| LdIn : forall cs q n, Leads cwd cs q -> Leads cwd (cs ++ [Normal n]) (q ++ [n]).

Section Spec.
Variable cwd : Disk.place.
Variable decode : bytes -> option str.
Variable encode : str -> bytes.
Variable cv : str -> config -> str + convert_error.
Variable cvf : str -> config -> str + option str * convert_error.
Variable stdin : bytes.
Variable a : args.
Variable jobs : list (stream * stream).

(** The place of a stream that is a file *)
Definition file_of (s : stream) : option Disk.place := match s with SFile p => Some (resolve cwd p) | Stdio => None end.

(** The place is that of an output; or of a directory on the way to one. *)
Definition is_output (q : Disk.place) : Prop := exists j, In j jobs /\ file_of (snd j) = Some q.
Definition on_the_way (q : Disk.place) : Prop :=
  exists j p dir cs more, In j jobs /\ snd j = SFile p /\ parent p = Some dir /\ components dir = cs ++ more /\ q = follow cwd cs.

(** Outputs are different from each other and from all sources. *)
Definition separate : Prop :=
  NoDup (map (fun j => file_of (snd j)) jobs) /\
  forall j j' q, In j jobs -> In j' jobs -> file_of (snd j) = Some q -> file_of (fst j') <> Some q.

(** The text that a stream holds at the beginning *)
Definition holds (w : world) (s : stream) (src : str) : Prop :=
  exists data, decode data = Some src /\
    match s with SFile p => w_disk w (resolve cwd p) = Some (DFile data) | Stdio => stdin = data end.

(** What the library makes of a text: what is to be written, if anything, and whether there
    was no error. *)
Inductive library_gives (src : str) : option str -> bool -> Prop :=
| LgStrict : forall t, forgives a = false -> cv src (as_config (g_options a)) = inl t -> library_gives src (Some t) true
| LgError : forall e, forgives a = false -> cv src (as_config (g_options a)) = inr e -> library_gives src None false
| LgForgiving : forall t, forgives a = true -> cvf src (as_config (g_options a)) = inl t -> library_gives src (Some t) true
| LgForgiven : forall o e, forgives a = true -> cvf src (as_config (g_options a)) = inr (o, e) -> library_gives src o false.

(** The output holds the text; or it is as before (a directory may have been made there). *)
Definition has_text (w0 w : world) (s : stream) (t : str) : Prop :=
  match s with
  | SFile p => w_disk w (resolve cwd p) = Some (DFile (encode t))
  | Stdio => w_out w = w_out w0 ++ encode t
  end.
Definition as_before (w0 w : world) (s : stream) : Prop :=
  match s with
  | SFile p => w_disk w (resolve cwd p) = w_disk w0 (resolve cwd p) \/
               w_disk w0 (resolve cwd p) = None /\ w_disk w (resolve cwd p) = Some DDir
  | Stdio => w_out w = w_out w0
  end.

(** Executions: [n] of the steps got a conversion further (a read or write of nothing does not). *)
Inductive moves : nat -> world * running -> world * running -> Prop :=
| MvHere : forall s, moves 0 s s
| MvAny : forall n s w before j ph after w' ph', moves n s (w, before ++ (j, ph) :: after) ->
    step cwd decode encode cv cvf stdin a (fst j) (snd j) w ph w' ph' -> moves n s (w', before ++ (j, ph') :: after)
| MvOn : forall n s w before j ph after w' ph', moves n s (w, before ++ (j, ph) :: after) ->
    step cwd decode encode cv cvf stdin a (fst j) (snd j) w ph w' ph' -> ph' <> ph -> moves (S n) s (w', before ++ (j, ph') :: after).

(** What is on the disk is in a directory. *)
Definition is_tree (w : world) : Prop :=
  w_disk w [] = Some DDir /\ forall q, q <> [] -> w_disk w q <> None -> w_disk w (removelast q) = Some DDir.
(** Sources can be read; outputs have a name, and are not directories, nor places where directories
    have to be made; no file is where a directory has to be. *)
Record doable (w : world) : Prop := {
  do_tree : is_tree w;
  do_cwd : w_disk w cwd = Some DDir;
  do_sources : forall j, In j jobs -> exists src, holds w (fst j) src;
  do_outputs : forall j p, In j jobs -> snd j = SFile p ->
    file_name p <> None /\ w_disk w (resolve cwd p) <> Some DDir /\ ~ on_the_way (resolve cwd p);
  do_ways : forall q data, on_the_way q -> w_disk w q <> Some (DFile data) }.
End Spec.

(** All conversions have ended, with or without errors in their sources. *)
Definition ended (l : running) : Prop := Forall (fun x => exists ok, snd x = Finished (inl ok)) l.
(** No call has failed so far. *)
Definition no_failure (l : running) : Prop := Forall (fun x => forall e, snd x <> Finished (inr e)) l.

(** All conversions have ended, and the exit code is [SUCCESS] (convert.rs:212, main.rs:140-153). *)
Definition exits_ok (l : running) : Prop :=
  exists rs, Forall2 (fun x r => snd x = Finished r) l rs /\ reduces rs (inl true).

(** * Specification of pipelines and command lines. *)

From Coq Require Import String List Arith Bool.
From Verif Require Import Base Process.
Import ListNotations.
Local Open Scope string_scope.

(** The processes started, in order, with where their input comes from. *)
Definition started (log : list os_call) : list (command * stdin_from) :=
  flat_map (fun c => match c with OsStart c i _ _ => [(c, i)] | OsTempFile => [] end) log.

(** [c1 | c2 | ...]: every command reads the output of the one before it; [n] processes
    exist already. *)
Fixpoint piped (n : nat) (input : stdin_from) (cs : list command) : list (command * stdin_from) :=
  match cs with
  | [] => []
  | c :: cs => (c, input) :: piped (S n) (StdinPipe n) cs
  end.

Definition pipeline (cs : list command) : list (command * stdin_from) := piped 0 StdinInherited cs.

(** The arguments the user added to an ffmpeg command, in order. *)
Definition user_args (calls : list ffmpeg_call) : list string :=
  flat_map (fun k => match k with FfPath _ => [] | FfArg a => [a] | FfArgs l => l end) calls.

Definition paths (calls : list ffmpeg_call) : list string :=
  flat_map (fun k => match k with FfPath p => [p] | _ => [] end) calls.

(** The values given to each yt-dlp builder method. *)
Definition yt_extracts (calls : list ytdlp_call) : list bool :=
  flat_map (fun k => match k with YtExtract b => [b] | _ => [] end) calls.
Definition yt_formats (calls : list ytdlp_call) : list (option string) :=
  flat_map (fun k => match k with YtFormat f => [Some f] | _ => [] end) calls.
Definition yt_paths (calls : list ytdlp_call) : list string :=
  flat_map (fun k => match k with YtPath p => [p] | _ => [] end) calls.

(** How many commands leave stderr to the library. *)
Definition default_stderr (cs : list command) : nat :=
  length (filter (fun c => negb (cmd_own_stderr c)) cs).

(** The processes started, in order, with whether they are killed together with the
    stream. *)
Definition killed_with_stream (log : list os_call) : list bool :=
  flat_map (fun c => match c with OsStart _ _ _ k => [k] | OsTempFile => [] end) log.

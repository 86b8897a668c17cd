(** * Stderr: the error output of the commands, and what the end of the stream does with it
    (crates/stream-download/src/process/mod.rs:163-172, 216-242, 281-307).

    The library gives every command without a handle of its own a temporary file for stderr,
    and reads these files when the stream has ended badly.  The processes in front of the
    last one are not waited for and go on meanwhile.

    The file system is not modelled: the contents of a file are what the process has
    written, and the results of the operations on it are arbitrary. *)

From Coq Require Import List Arith Bool.
From Verif Require Import Base Process Pipes Utf8.
Import ListNotations.

(** For every process, whether its stderr is a file of the library ([stdio_to_tmp_file],
    process/mod.rs:163-172, called at process/mod.rs:137-143 and command_builder.rs:47-53;
    a clone of the handle goes to the process, the file is pushed to [stderr_files]). *)
Definition file_flags (log : list os_call) : list bool :=
  flat_map (fun c => match c with OsStart _ _ file _ => [file] | OsTempFile => [] end) log.

(** [stderr_files] (process/mod.rs:125, 212): the process behind each file, in order. *)
Definition stderr_files (log : list os_call) : list nat :=
  filter (fun i => nth i (file_flags log) false) (seq 0 (length (file_flags log))).

(** The results of the operations on one file: [flush], [reopen], reading ([Some n]: the
    device fails after [n] bytes) and [close]. *)
Record file_io := mkIo { io_flush : bool; io_open : bool; io_read : option nat; io_close : bool }.

Definition io_fine : file_io := mkIo true true None true.

(** The lines written to the log (process/mod.rs:220, 225, 230, 231, 240, 290). *)
Inductive line :=
| LExitStatus | LFlushError | LOpenError | LReadError | LStderr (text : list byte) | LCloseError.

(** [Read::read_to_string] into an empty string: what is in the string afterwards, and
    whether the call succeeds.  Bytes that are not UTF-8 are an error and leave the string
    as it was; a device error keeps what was read before it, if that is UTF-8. *)
Definition read_to_string (content : list byte) (fails : option nat) : list byte * bool :=
  let got := match fails with Some n => firstn n content | None => content end in
  if utf8_b got then (got, match fails with Some _ => false | None => true end) else ([], false).

(** The body of the loop of [check_stderr_files] (process/mod.rs:218-232). *)
Definition check_file (content : list byte) (f : file_io) : list line :=
  (if io_flush f then [] else [LFlushError]) ++
  (if io_open f then
     let '(text, ok) := read_to_string content (io_read f) in
     (if ok then [] else [LReadError]) ++ [LStderr text]
   else [LOpenError]).

(** What the world does at the end: whether waiting for the child and killing it work, what
    the processes do until the end of file number [j] is seen, and the results of the
    operations on that file. *)
Record ending := mkEnding {
  e_wait : result unit; e_kill : result unit;
  e_steps : nat -> list klabel; e_io : nat -> file_io }.

(** [check_stderr_files] (process/mod.rs:216-234), from file number [j] on.  Files only
    grow, so that a reader has read exactly what the file holds when it sees the end. *)
Fixpoint check_stderr_files (e : ending) (j : nat) (files : list nat) (k : kernel) :
    option (kernel * list line) :=
  match files with
  | [] => Some (k, [])
  | i :: files =>
      match krun k (e_steps e j) with
      | Some k =>
          match check_stderr_files e (S j) files k with
          | Some (k', ls) => Some (k', check_file (kp_errout (k_procs k i)) (e_io e j) ++ ls)
          | None => None
          end
      | None => None
      end
  end.

(** [close_stderr_files] (process/mod.rs:236-242), from file number [j] on. *)
Fixpoint close_stderr_files (e : ending) (j : nat) (files : list nat) : list line :=
  match files with
  | [] => []
  | _ :: files => (if io_close (e_io e j) then [] else [LCloseError]) ++ close_stderr_files e (S j) files
  end.

(** The last process; did it end well ([ExitStatus::success])? *)
Definition last_proc (k : kernel) : kproc := k_procs k (k_last k).
Definition succeeded_b (p : kproc) : bool :=
  match kp_status p with Exited ok => ok | _ => false end.

(** One action of [on_finish]: the processes, the files kept, the log. *)
Definition finish_act (e : ending) (st : option (kernel * list nat * list line)) (a : finish_action) :
    option (kernel * list nat * list line) :=
  match st with
  | None => None
  | Some (k, files, ls) =>
      match a with
      | FWait =>
          match e_wait e with
          | Ok _ => if is_running (last_proc k) then None
                    else Some (k, files,
                               ls ++ if succeeded_b (last_proc k) then [] else [LExitStatus])
          | _ => Some (k, files, ls)
          end
      | FKill =>
          match e_kill e with
          | Ok _ => match kstep k KKill with Some k => Some (k, files, ls) | None => None end
          | _ => Some (k, files, ls)
          end
      | FLogStderr =>
          match check_stderr_files e 0 files k with
          | Some (k, more) => Some (k, files, ls ++ more)
          | None => None
          end
      | FCloseFiles => Some (k, [], ls ++ close_stderr_files e 0 files)
      end
  end.

(** [on_finish] (process/mod.rs:281-307): its result, the processes afterwards, the files
    that are still there and the log.  [None]: the call cannot have returned yet. *)
Definition process_finish (res : result unit) (out : outcome) (k : kernel) (files : list nat)
    (e : ending) : option (result unit * kernel * list nat * list line) :=
  let wait := match e_wait e with
              | Ok _ => Ok (succeeded_b (last_proc k))
              | Err x => Err x
              | Panic => Panic
              end in
  let '(r, acts) := on_finish res out wait (e_kill e) in
  match fold_left (finish_act e) acts (Some (k, files, [])) with
  | Some (k, files, ls) => Some (r, k, files, ls)
  | None => None
  end.

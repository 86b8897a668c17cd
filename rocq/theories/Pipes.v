(** * Pipes: the processes of a pipeline running, with the kernel's pipes between them.

    [CommandBuilder::spawn] (process/command_builder.rs:36-70) and [SpawnedCommand::new]
    (process/mod.rs:129-160) ask the operating system for processes, pipes and files; this
    is what happens afterwards.  The library takes part by reading the output of the last
    process (process/mod.rs:310-319) and by killing that process ([on_finish],
    process/mod.rs:281-307, [kill_on_drop], process/mod.rs:149).

    Simplifications: programs are deterministic and do not look at how their input is cut
    into pieces (they read byte by byte); they keep stdout open until they exit; pipes are
    used byte by byte. *)

From Coq Require Import List Arith Bool.
From Verif Require Import Base Process.
Import ListNotations.

(** A program: exits with a status, writes to stdout or stderr, or reads from stdin
    ([None] is the end of the input). *)
CoInductive prog :=
| PExit (ok : bool)
| PWrite (b : byte) (k : prog)
| PErr (b : byte) (k : prog)
| PRead (k : option byte -> prog).

Inductive pstatus := Running | Exited (ok : bool) | Died.

(** Where stderr goes: a file (or another place that never blocks, such as the null
    device), or a pipe that nobody reads. *)
Inductive errdest := ErrFile | ErrPipe.

Record kproc := mkKp {
  kp_prog : prog; kp_in : stdin_from; kp_err : errdest; kp_errout : list byte; kp_status : pstatus }.

(** [k_n] processes; [k_pipes i] is the pipe behind the stdout of process [i], with room for
    [k_cap] bytes; the library holds the reading end of pipe [k_last] until [k_closed].
    [k_stdin] is what the library's own stdin, which the first process inherits, still
    holds, and [k_stdin_open] says that more may come.  [k_got] is what the library has
    read, [k_eof] whether it has seen the end. *)
Record kernel := mkK {
  k_n : nat; k_cap : nat; k_last : nat;
  k_stdin : list byte; k_stdin_open : bool;
  k_procs : nat -> kproc; k_pipes : nat -> list byte;
  k_got : list byte; k_eof : bool; k_closed : bool }.

Definition upd {A} (f : nat -> A) (i : nat) (x : A) : nat -> A :=
  fun j => if j =? i then x else f j.

Definition set_proc (k : kernel) (i : nat) (p : kproc) : kernel :=
  mkK (k_n k) (k_cap k) (k_last k) (k_stdin k) (k_stdin_open k) (upd (k_procs k) i p) (k_pipes k)
      (k_got k) (k_eof k) (k_closed k).
Definition set_pipe (k : kernel) (i : nat) (l : list byte) : kernel :=
  mkK (k_n k) (k_cap k) (k_last k) (k_stdin k) (k_stdin_open k) (k_procs k) (upd (k_pipes k) i l)
      (k_got k) (k_eof k) (k_closed k).
Definition set_stdin (k : kernel) (l : list byte) : kernel :=
  mkK (k_n k) (k_cap k) (k_last k) l (k_stdin_open k) (k_procs k) (k_pipes k)
      (k_got k) (k_eof k) (k_closed k).
Definition set_got (k : kernel) (l : list byte) (eof : bool) : kernel :=
  mkK (k_n k) (k_cap k) (k_last k) (k_stdin k) (k_stdin_open k) (k_procs k) (k_pipes k)
      l eof (k_closed k).
Definition set_closed (k : kernel) : kernel :=
  mkK (k_n k) (k_cap k) (k_last k) (k_stdin k) (k_stdin_open k) (k_procs k) (k_pipes k)
      (k_got k) (k_eof k) true.

Definition with_prog (p : kproc) (x : prog) : kproc :=
  mkKp x (kp_in p) (kp_err p) (kp_errout p) (kp_status p).
Definition with_status (p : kproc) (x : pstatus) : kproc :=
  mkKp (kp_prog p) (kp_in p) (kp_err p) (kp_errout p) x.
Definition with_errout (p : kproc) (b : byte) (x : prog) : kproc :=
  mkKp x (kp_in p) (kp_err p) (kp_errout p ++ [b]) (kp_status p).

Definition is_running (p : kproc) : bool := match kp_status p with Running => true | _ => false end.

(** Does process [p] read from pipe [i]? *)
Definition reads_from (p : kproc) (i : nat) : bool :=
  match kp_in p with StdinPipe j => j =? i | StdinInherited => false end.

(** Is there a reader for pipe [i]?  The parent has given its copies of the ends between
    two processes away (process/mod.rs:146, command_builder.rs:63-66). *)
Definition has_reader (k : kernel) (i : nat) : bool :=
  existsb (fun j => is_running (k_procs k j) && reads_from (k_procs k j) i) (seq 0 (k_n k))
  || ((i =? k_last k) && negb (k_closed k)).

(** The library reads the next byte of the last pipe or its end (process/mod.rs:310-319);
    process [i] executes its next action; the library kills the last process and closes
    its end of the last pipe. *)
Inductive klabel := KRead | KProc (i : nat) | KKill.

(** A write to a pipe without reader kills the process (SIGPIPE); a full pipe blocks. *)
Definition kstep_proc (k : kernel) (i : nat) : option kernel :=
  let p := k_procs k i in
  if (i <? k_n k) && is_running p then
    match kp_prog p with
    | PExit ok => Some (set_proc k i (with_status p (Exited ok)))
    | PWrite b x =>
        if has_reader k i then
          if length (k_pipes k i) <? k_cap k
          then Some (set_proc (set_pipe k i (k_pipes k i ++ [b])) i (with_prog p x))
          else None
        else Some (set_proc k i (with_status p Died))
    | PErr b x =>
        match kp_err p with
        | ErrFile => Some (set_proc k i (with_errout p b x))
        | ErrPipe =>
            if length (kp_errout p) <? k_cap k then Some (set_proc k i (with_errout p b x)) else None
        end
    | PRead f =>
        match kp_in p with
        | StdinInherited =>
            match k_stdin k with
            | b :: rest => Some (set_proc (set_stdin k rest) i (with_prog p (f (Some b))))
            | [] => if k_stdin_open k then None else Some (set_proc k i (with_prog p (f None)))
            end
        | StdinPipe j =>
            match k_pipes k j with
            | b :: rest => Some (set_proc (set_pipe k j rest) i (with_prog p (f (Some b))))
            | [] => if is_running (k_procs k j) then None
                    else Some (set_proc k i (with_prog p (f None)))
            end
        end
    end
  else None.

Definition kstep (k : kernel) (l : klabel) : option kernel :=
  match l with
  | KProc i => kstep_proc k i
  | KRead =>
      if k_eof k || k_closed k then None
      else match k_pipes k (k_last k) with
           | b :: rest => Some (set_got (set_pipe k (k_last k) rest) (k_got k ++ [b]) false)
           | [] => if is_running (k_procs k (k_last k)) then None
                   else Some (set_got k (k_got k) true)
           end
  | KKill =>
      let p := k_procs k (k_last k) in
      Some (set_closed (set_proc k (k_last k) (if is_running p then with_status p Died else p)))
  end.

Fixpoint krun (k : kernel) (ls : list klabel) : option kernel :=
  match ls with
  | [] => Some k
  | l :: t => match kstep k l with Some k' => krun k' t | None => None end
  end.

(** The processes that the calls [log] have started.  [sem] gives the program behind a
    command, [own] the place of a stderr handle supplied by the caller. *)
Definition started_procs (sem : command -> prog) (own : command -> errdest) (log : list os_call)
  : list kproc :=
  flat_map (fun c => match c with
                     | OsStart c i file _ => [mkKp (sem c) i (if file then ErrFile else own c) [] Running]
                     | OsTempFile => []
                     end) log.

Definition boot (sem : command -> prog) (own : command -> errdest) (cap : nat) (input : list byte)
    (input_open : bool) (sp : spawned) (log : list os_call) : kernel :=
  let ps := started_procs sem own log in
  mkK (length ps) cap (sp_child sp) input input_open
      (fun i => nth i ps (mkKp (PExit true) StdinInherited ErrFile [] Died)) (fun _ => []) [] false false.

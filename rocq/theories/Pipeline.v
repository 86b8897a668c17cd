(** * Pipeline: a download from running processes.

    The processes of Pipes.v, the stream over the output of the last one (process/mod.rs:206-319,
    async_read.rs:57-113) and the download task and reader of System.v, all running together. *)

From Coq Require Import List Arith Bool.
From Verif Require Import Base Storage System Process Pipes Stderr Source.
Import ListNotations.

(** [ProcessStream] over the processes: [poll_next] (process/mod.rs:310-319) yields what is in
    the pipe, at most [ar_capacity] bytes at a time (async_read.rs:108-113), its end when the
    last process has ended and the pipe is empty, or an error item, after which the stream has
    dropped its end of the pipe; [content_length], [supports_seek], [seek_range], [reconnect]
    (process/mod.rs:265-279, async_read.rs:79-99); [on_finish] as in Source.v with the exit
    status of the last process. *)
Definition pipeline_source (clen : option nat) : source kernel :=
  mkSource kernel
    (fun _ => clen)
    (fun _ => false)
    (fun k n =>
       if negb (k_eof k) && negb (k_closed k) && (0 <? n) &&
          (n <=? Nat.min ar_capacity (length (k_pipes k (k_last k))))
       then option_map (fun k' => (firstn n (k_pipes k (k_last k)), k')) (krun k (repeat KRead n))
       else None)
    (fun k =>
       if k_eof k || k_closed k then Some k
       else match k_pipes k (k_last k) with [] => kstep k KRead | _ => None end)
    (fun k => if k_eof k || k_closed k then None else Some (set_closed k))
    (fun k _ _ _ => (Err EUnsupported, k))
    (fun k _ _ => (Err EUnsupported, k))
    (fun k ok env => Source.process_finish (succeeded_b (last_proc k)) ok env).

(** An action of the task or the reader, an action of process [i], or the end of the task's
    life, with which the stream is dropped and the last process killed ([kill_on_drop],
    process/mod.rs:149). *)
Inductive plabel := PSys (l : label) | PProc (i : nat) | PDropStream.

(** [on_finish] waits for the last process if the stream has ended well (process/mod.rs:287),
    and kills it otherwise (process/mod.rs:295). *)
Definition must_wait (cs : csys kernel) (l : label) : bool :=
  match l, g_dpc (cs_sys cs) with
  | LDFinishRes true, DOnFinish true => is_running (last_proc (cs_src cs))
  | _, _ => false
  end.
Definition kills (cs : csys kernel) (l : label) : bool :=
  match l, g_dpc (cs_sys cs) with LDFinishRes true, DOnFinish false => true | _, _ => false end.

Definition pstep (clen : option nat) (c : cfg) (cs : csys kernel) (pl : plabel) : option (csys kernel) :=
  match pl with
  | PSys l =>
      if must_wait cs l then None
      else match cstep (pipeline_source clen) c cs l with
           | Some cs' =>
               if kills cs l then option_map (mkC (cs_sys cs')) (kstep (cs_src cs') KKill)
               else Some cs'
           | None => None
           end
  | PProc i => option_map (mkC (cs_sys cs)) (kstep (cs_src cs) (KProc i))
  | PDropStream =>
      match g_dpc (cs_sys cs) with
      | DEnd => option_map (mkC (cs_sys cs)) (kstep (cs_src cs) KKill)
      | _ => None
      end
  end.

(** Schedules. *)
Fixpoint prun (clen : option nat) (c : cfg) (cs : csys kernel) (pls : list plabel) : option (csys kernel) :=
  match pls with
  | [] => Some cs
  | pl :: t => match pstep clen c cs pl with Some cs' => prun clen c cs' t | None => None end
  end.

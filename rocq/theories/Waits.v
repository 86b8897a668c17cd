(** * Waits: waiting and waking with the primitives the code uses.

    In System.v a call that waits for a position is one step, possible once its condition
    holds, and a notification is one step as well.  Here they are programs over a mutex, a
    condition variable and a [Notify], one access per step, as in
    [wait_for_position_reached], [notify_position_reached], [notify_stream_done]
    (handle.rs:117-151) and [NotifyRead] (172-199).  Everything else is taken from
    System.v, except that the task's look at the requested position and the store that
    clears it (source/mod.rs:425-434) are separate steps here as well.

    The primitives.  [parking_lot::Mutex]: one thread holds it.  [parking_lot::Condvar]:
    [wait_while] evaluates its condition with the lock held, releases the lock and joins
    the sleepers in one step, and starts over with the lock when woken; it may be woken for
    no reason; [notify_all] wakes all sleepers and is lost if there are none.
    [tokio::sync::Notify]: [notify_one] wakes a task that waits in [notified], otherwise it
    stores a permit, of which there is at most one; [notified] takes the permit or waits.

    Simplifications.  The mutex is held by one thread at a time and not handed over in any
    order.  The result of a read becomes visible with the swap in [notify_read]
    (handle.rs:184), the call returns after the notification that follows. *)

From Coq Require Import List Arith Lia ZArith Bool.
From Verif Require Import Base Storage System Spec.
Import ListNotations.

Inductive side := Reader | Task.

(** The reader in [wait_for_position_reached].  [ROut]: outside; [REntered]: it has locked
    the mutex (133); [RTest]: in [wait_while], lock held, before the condition (140-142);
    [RAsleep]: waiting, without the lock; [RAwake]: woken, without the lock; [ROver]:
    [wait_while] has returned (148); [RLeaving]: before the lock is released (135, 151). *)
Inductive rstage := ROut | REntered | RTest | RAsleep | RAwake | ROver | RLeaving.

(** The task in [notify_position_reached] or [notify_stream_done].  [TSeen]: it has loaded
    the requested position and found that it was reached, and is about to clear it
    (source/mod.rs:434); [TLocked]: it has locked the mutex; [TStored]: it has stored the flag (120, 126); [TReleased]: it has
    released the mutex, before [notify_all] (121, 127). *)
Inductive tstage := TOut | TSeen | TLocked | TStored | TReleased.

(** The task in [wait_for_read] (handle.rs:195-197).  [NIdle]: before the first poll, or
    outside; [NQueued]: waiting; [NWoken]: woken by [notify_one], not yet running. *)
Inductive nstage := NIdle | NQueued | NWoken.

(** [w_g]: the rest of the state, whose fields [g_permit] and [g_again] are not used;
    [w_lock]: who holds the mutex; [w_permit]: the permit of [Notify]; [w_fly]: the reader
    has found [write_requested] set and is about to call [notify_one] (handle.rs:185,
    191). *)
Record wstate := mkW {
  w_g : gstate; w_lock : option side; w_r : rstage; w_t : tstage;
  w_n : nstage; w_permit : bool; w_fly : bool }.

Definition with_g (w : wstate) (g : gstate) : wstate :=
  mkW g (w_lock w) (w_r w) (w_t w) (w_n w) (w_permit w) (w_fly w).

(** [WL l]: a step of System.v outside the primitives; [WRLock]: the reader locks the
    mutex; [WRRun]: the reader's next action in [wait_for_position_reached] with the lock
    held; [WSpurious]: the condition variable wakes the reader for no reason;
    [WNotifyOne]: the reader calls [notify_one]; [WTLock]: the task locks the mutex;
    [WTRun]: its next action in the notification, or the
    clearing store; [WPoll]: the task polls [notified]. *)
Inductive wlabel :=
| WL (l : label) | WRLock | WRRun | WSpurious | WNotifyOne | WTLock | WTRun | WPoll.

(** The program counters of System.v at which the primitives are used. *)
Definition at_wait (r : rpc) : bool :=
  match r with RRWait _ _ _ | RSWait _ _ => true | _ => false end.
Definition at_signal (d : dpc) : bool :=
  match d with DWNotify _ _ _ _ | DFinish | DSignal => true | _ => false end.
Definition at_space (d : dpc) : bool :=
  match d with DWWait _ _ _ => true | _ => false end.

(** The requested position is there and was reached. *)
Definition sees (g : gstate) : bool :=
  match g_dpc g, g_req g with
  | DWCheck _ _ _ _, Some r => r <=? st_wpos (g_store g)
  | _, _ => false
  end.

Definition lift (w : wstate) (r : option gstate) : option wstate :=
  match r with Some g => Some (with_g w g) | None => None end.

(** The reader's action outside [wait_for_position_reached].  [RRNotify]:
    [notify_waiting] loads [write_requested] (handle.rs:190).  [RRDone]: [notify_read]
    swaps it (184), after which the call has its result. *)
Definition wr_step (c : cfg) (w : wstate) : option wstate :=
  let g := w_g w in
  match g_rpc g with
  | RRWait _ _ _ | RSWait _ _ => None
  | RRNotify n pos rq =>
      Some (mkW (set_rpc g (RRWait n pos rq)) (w_lock w) (w_r w) (w_t w) (w_n w) (w_permit w) (g_wreq g))
  | RRDone n pos waited r =>
      Some (mkW (finish_read (set_wreq g false) pos n waited r)
                (w_lock w) (w_r w) (w_t w) (w_n w) (w_permit w) (g_wreq g))
  | _ => lift w (step c g LRStep)
  end.

(** The reader can act outside [wait_for_position_reached]; so can the task outside the
    notifications. *)
Definition r_free (w : wstate) : bool :=
  match w_r w with ROut => negb (w_fly w) | _ => false end.
Definition t_free (w : wstate) : bool :=
  match w_t w with TOut => true | _ => false end.

Definition wstep (c : cfg) (w : wstate) (l : wlabel) : option wstate :=
  let g := w_g w in
  match l with
  | WL LUserCancel => lift w (step c g LUserCancel)
  | WL LRStep => if r_free w then wr_step c w else None
  | WL ((LRIoErr | LOp _ | LDrop) as l) => if r_free w then lift w (step c g l) else None
  | WL LDAgain => None
  | WL LDStep =>
      if t_free w && negb (at_signal (g_dpc g) || at_space (g_dpc g))
      then if sees g then Some (mkW g (w_lock w) (w_r w) TSeen (w_n w) (w_permit w) (w_fly w))
           else lift w (step c g LDStep)
      else None
  | WL l => if t_free w then lift w (step c g l) else None
  | WRLock =>
      match w_lock w, w_r w with
      | None, ROut =>
          if at_wait (g_rpc g) && negb (w_fly w)
          then Some (mkW g (Some Reader) REntered (w_t w) (w_n w) (w_permit w) (w_fly w)) else None
      | None, RAwake => Some (mkW g (Some Reader) RTest (w_t w) (w_n w) (w_permit w) (w_fly w))
      | _, _ => None
      end
  | WRRun =>
      match w_r w with
      | REntered =>
          if g_done g
          then match step c g LRStep with
               | Some g' => Some (mkW g' (w_lock w) RLeaving (w_t w) (w_n w) (w_permit w) (w_fly w))
               | None => None
               end
          else Some (mkW g (w_lock w) RTest (w_t w) (w_n w) (w_permit w) (w_fly w))
      | RTest =>
          if negb (g_done g) && negb (g_reached g)
          then Some (mkW g None RAsleep (w_t w) (w_n w) (w_permit w) (w_fly w))
          else Some (mkW g (w_lock w) ROver (w_t w) (w_n w) (w_permit w) (w_fly w))
      | ROver =>
          match step c g LRStep with
          | Some g' => Some (mkW g' (w_lock w) RLeaving (w_t w) (w_n w) (w_permit w) (w_fly w))
          | None => None
          end
      | RLeaving => Some (mkW g None ROut (w_t w) (w_n w) (w_permit w) (w_fly w))
      | _ => None
      end
  | WSpurious =>
      match w_r w with
      | RAsleep => Some (mkW g (w_lock w) RAwake (w_t w) (w_n w) (w_permit w) (w_fly w))
      | _ => None
      end
  | WNotifyOne =>
      if w_fly w
      then match w_n w with
           | NQueued => Some (mkW g (w_lock w) (w_r w) (w_t w) NWoken (w_permit w) false)
           | n => Some (mkW g (w_lock w) (w_r w) (w_t w) n true false)
           end
      else None
  | WTLock =>
      match w_lock w, w_t w with
      | None, TOut =>
          if at_signal (g_dpc g)
          then Some (mkW g (Some Task) (w_r w) TLocked (w_n w) (w_permit w) (w_fly w)) else None
      | _, _ => None
      end
  | WTRun =>
      match w_t w with
      | TSeen =>
          match g_dpc g with
          | DWCheck bytes k pos nw =>
              Some (mkW (set_dpc (set_req g None) (DWNotify bytes k pos nw))
                        (w_lock w) (w_r w) TOut (w_n w) (w_permit w) (w_fly w))
          | _ => None
          end
      | TLocked =>
          match step c g LDStep with
          | Some g' => Some (mkW g' (w_lock w) (w_r w) TStored (w_n w) (w_permit w) (w_fly w))
          | None => None
          end
      | TStored => Some (mkW g None (w_r w) TReleased (w_n w) (w_permit w) (w_fly w))
      | TReleased =>
          Some (mkW g (w_lock w) (match w_r w with RAsleep => RAwake | r => r end) TOut
                    (w_n w) (w_permit w) (w_fly w))
      | TOut => None
      end
  | WPoll =>
      match w_t w, g_dpc g, w_n w with
      | TOut, DWWait bytes k pos, NIdle =>
          if w_permit w
          then Some (mkW (set_dpc g (DWTop bytes k pos)) (w_lock w) (w_r w) TOut NIdle false (w_fly w))
          else Some (mkW g (w_lock w) (w_r w) TOut NQueued false (w_fly w))
      | TOut, DWWait bytes k pos, NWoken =>
          Some (mkW (set_dpc g (DWTop bytes k pos)) (w_lock w) (w_r w) TOut NIdle (w_permit w) (w_fly w))
      | _, _, _ => None
      end
  end.

(** The step of System.v that a label stands for, as far as the environment is concerned;
    [None]: a step of the primitives alone. *)
Definition counts_as (w : wstate) (l : wlabel) : option label :=
  match l with
  | WL LDStep => if sees (w_g w) then None else Some LDStep
  | WL l => Some l
  | WRRun =>
      match w_r w with
      | REntered => if g_done (w_g w) then Some LRStep else None
      | ROver => Some LRStep
      | _ => None
      end
  | WTRun => match w_t w with TSeen | TLocked => Some LDStep | _ => None end
  | WPoll => match w_n w with
             | NIdle => if w_permit w then Some LDStep else None
             | _ => Some LDStep
             end
  | _ => None
  end.

(** Executions, as in Spec.v. *)
Definition winit (g : gstate) : wstate := mkW g None ROut TOut NIdle false false.
Definition wallowed (allow : gstate -> label -> Prop) (w : wstate) (l : wlabel) : Prop :=
  match counts_as w l with Some l => allow (w_g w) l | None => True end.
Inductive wreach (c : cfg) (allow : gstate -> label -> Prop) : wstate -> Prop :=
| wreach_init : forall g, init c = Some g -> wreach c allow (winit g)
| wreach_step : forall w l w', wreach c allow w -> wallowed allow w l ->
    wstep c w l = Some w' -> wreach c allow w'.

(** Labels of the thread that reads, and of the download task. *)
Definition reader_side (l : wlabel) : bool :=
  match l with WL LRStep | WRLock | WRRun | WNotifyOne => true | _ => false end.
Definition task_side (l : wlabel) : bool :=
  match l with WL LDStep | WTLock | WTRun | WPoll => true | _ => false end.

(** A call is under way: it has not returned. *)
Definition w_in_call (w : wstate) : Prop := in_call (w_g w) \/ r_free w = false.
(** It cannot go on. *)
Definition wblocked (c : cfg) (w : wstate) : Prop :=
  w_in_call w /\ forall l, reader_side l = true -> wstep c w l = None.
(** The task can go on, or waits for the transport. *)
Definition wtask_can_move (c : cfg) (w : wstate) : Prop :=
  (awaits_transport (w_g w) /\ w_t w = TOut) \/
  exists l w', task_side l = true /\ wstep c w l = Some w'.

(** A restriction on the environment that does not depend on notifications. *)
Definition deaf (allow : gstate -> label -> Prop) : Prop :=
  (forall s p a l, allow s l -> allow (set_again (set_permit s p) a) l) /\
  (forall s, allow s LDStep -> allow s LDAgain).

(** Execution of a schedule. *)
Fixpoint wrun (c : cfg) (w : wstate) (ls : list wlabel) : option wstate :=
  match ls with
  | [] => Some w
  | l :: k => match wstep c w l with Some w' => wrun c w' k | None => None end
  end.

(** Steps of the schedule that are steps of System.v; steps of the primitives alone; wake-ups
    for no reason. *)
Fixpoint tally (c : cfg) (w : wstate) (ls : list wlabel) : nat * nat * nat :=
  match ls with
  | [] => (0, 0, 0)
  | l :: k =>
      match wstep c w l with
      | None => (0, 0, 0)
      | Some w' =>
          let '(v, p, sp) := tally c w' k in
          match l with
          | WSpurious => (v, p, S sp)
          | _ => match counts_as w l with Some _ => (S v, p, sp) | None => (v, S p, sp) end
          end
      end
  end.

(** * Tso: the same program on a machine that delays stores.

    System.v executes the accesses of the two threads one after the other.  The position a
    reader waits for is stored and loaded with relaxed ordering (handle.rs:89-101,
    "we are not using the atomic to lock something or to synchronize threads"), so the
    hardware may keep the store in the buffer of the reader's processor while the reader
    goes on, and the task does not see it until then.  This file models that, in the style
    of x86-TSO: stores may be delayed, loads are not, and an atomic read-modify-write (a
    lock, a send on a channel) first drains the buffer.

    [fence = false] is the code.  [fence = true] is the code with a sequentially consistent
    fence (or store) in [wait_for_position] (handle.rs:31-36), before the load of
    [write_requested].

    Simplifications.  Only the requested position is buffered.  The other variables are
    protected by a lock, or only accessed with sequentially consistent ordering
    (handle.rs:181-190, 205-210).  The task's own [clear] (handle.rs:90) is not buffered:
    the next thing the task does is to take the lock that releases the reader
    (source/mod.rs:433-434), and the reader stores nothing before that. *)

From Coq Require Import List Arith Lia ZArith Bool.
From Verif Require Import Base Storage System Spec.
Import ListNotations.

(** [t_buf]: a position the reader has stored and that is still in its store buffer;
    [t_g]: what the other thread sees. *)
Record tstate := mkT { t_g : gstate; t_buf : option nat }.

(** [TFlush]: the store reaches the memory. *)
Inductive tlabel := TL (l : label) | TFlush.

Definition keep_buf (b : option nat) (r : option gstate) : option tstate :=
  match r with Some g => Some (mkT g b) | None => None end.

(** The reader's next action.  [RRSet], [RSSet]: the store goes to the buffer
    (handle.rs:31, 41).  [RRNotify]: a load (36), not delayed by the buffer unless there is
    a fence.  Everything else begins with a lock or a send and waits for the buffer to be empty. *)
Definition tr_step (fence : bool) (c : cfg) (t : tstate) : option tstate :=
  let g := t_g t in
  match g_rpc g, t_buf t with
  | RRSet n pos rq, None => Some (mkT (set_rpc g (RRNotify n pos rq)) (Some rq))
  | RSSet from p, None => Some (mkT (set_rpc g (RSSend from p)) (Some p))
  | _, None => keep_buf None (step c g LRStep)
  | RRNotify _ _ _, b => if fence then None else keep_buf b (step c g LRStep)
  | _, Some _ => None
  end.

(** The label [LDStale] is not used: staleness is a consequence of the buffer here. *)
Definition tstep (fence : bool) (c : cfg) (t : tstate) (l : tlabel) : option tstate :=
  match l with
  | TFlush =>
      match t_buf t with
      | Some p => Some (mkT (set_req (t_g t) (Some p)) None)
      | None => None
      end
  | TL LRStep => tr_step fence c t
  | TL LDStale => None
  | TL l => keep_buf (t_buf t) (step c (t_g t) l)
  end.

(** Executions, as in Spec.v. *)
Inductive treach (fence : bool) (c : cfg) (allow : gstate -> label -> Prop) : tstate -> Prop :=
| treach_init : forall g, init c = Some g -> treach fence c allow (mkT g None)
| treach_step : forall t l t', treach fence c allow t -> allow (t_g t) l -> tstep fence c t (TL l) = Some t' ->
    treach fence c allow t'
| treach_flush : forall t t', treach fence c allow t -> tstep fence c t TFlush = Some t' -> treach fence c allow t'.

Inductive tsteps (fence : bool) (c : cfg) (allow : gstate -> label -> Prop) : tstate -> tstate -> Prop :=
| tsteps_refl : forall t, tsteps fence c allow t t
| tsteps_step : forall t t1 l t2, tsteps fence c allow t t1 -> allow (t_g t1) l ->
    tstep fence c t1 (TL l) = Some t2 -> tsteps fence c allow t t2
| tsteps_flush : forall t t1 t2, tsteps fence c allow t t1 -> tstep fence c t1 TFlush = Some t2 -> tsteps fence c allow t t2.

(** A call is under way, its stores have reached the memory, and it cannot go on. *)
Definition tblocked (fence : bool) (c : cfg) (t : tstate) : Prop :=
  in_call (t_g t) /\ t_buf t = None /\ tstep fence c t (TL LRStep) = None.

(** The state once the buffered store has arrived. *)
Definition arrived (t : tstate) : gstate :=
  match t_buf t with Some p => set_req (t_g t) (Some p) | None => t_g t end.

(** A restriction on the environment that does not depend on the requested position. *)
Definition blind (allow : gstate -> label -> Prop) : Prop :=
  (forall s x l, allow s l -> allow (set_req s x) l) /\
  (forall s, allow s LDStep -> allow s LDStale).

(** Execution of a schedule. *)
Fixpoint trun (fence : bool) (c : cfg) (t : tstate) (ls : list tlabel) : option tstate :=
  match ls with
  | [] => Some t
  | l :: k => match tstep fence c t l with Some t' => trun fence c t' k | None => None end
  end.

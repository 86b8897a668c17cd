(** * Abort: the download task dies.

    The task is spawned by [from_create_stream] (lib.rs:404-411) and nobody waits for it.  It
    dies without running any more of its code
    - when something it calls panics: a progress or reconnect callback (source/mod.rs:284,
      479), a method of the [SourceStream] (lines 186, 203, 278, 468), the storage writer;
    - when the runtime shuts down, which drops the task where it waits (lines 186, 204, 278,
      361, 442, 468).
    Dropping it runs no code of the library: [Source] has no [Drop], so neither
    [signal_download_complete] (line 196) nor [cancellation_token.cancel()] (lib.rs:408) is
    executed.  Only the receiving end of the seek channel goes away. *)

From Coq Require Import List Arith Bool.
From Verif Require Import Base Storage System Spec.
Import ListNotations.

(** Has the task not come to its end? *)
Definition unfinished (d : dpc) : bool := match d with DEnd | DPanic => false | _ => true end.

(** The state after the death of the task.  [DPanic] is where the task is after a panic of
    its own; it executes nothing from there, and its channel is closed. *)
Definition die (s : gstate) : option gstate :=
  if unfinished (g_dpc s) then Some (set_dpc s DPanic) else None.

(** Executions in which the task may die, at any point before its end; the flag says whether
    it has.  [allow] restricts the environment as in [Spec.reach]. *)
Inductive mortal (c : cfg) (allow : gstate -> label -> Prop) : bool -> gstate -> Prop :=
| mortal_init : forall s, init c = Some s -> mortal c allow false s
| mortal_step : forall dead s l s', mortal c allow dead s -> allow s l ->
    step c s l = Some s' -> mortal c allow dead s'
| mortal_die : forall s s', mortal c allow false s -> die s = Some s' -> mortal c allow true s'.

(** Everything but the task's program counter and the seek channel. *)
Definition same (s t : gstate) : Prop :=
  exists d ch, s = set_chan (set_dpc t d) ch.

(** A restriction of the client that does not look at the task's program counter or the
    channel. *)
Definition client_side (allow : gstate -> label -> Prop) : Prop :=
  forall s t l, same s t -> task_label l = false -> allow s l -> allow t l.

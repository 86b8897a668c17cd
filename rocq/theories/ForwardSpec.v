(** * Jumping ahead and going back in bounded storage: what is assumed and what is claimed. *)

From Coq Require Import List Arith ZArith Bool.
From Verif Require Import Base Storage System Spec.
Import ListNotations.

(** A response body ends only while nothing has been skipped: the storage has been given
    every byte before the one that comes next. *)
Definition ends_without_holes : gstate -> label -> Prop :=
  fun s l => match l with LDEof => accepted_total (g_trace s) = st_wpos (g_store s) | _ => True end.

(** The task takes up a seek only when no part of a chunk is left over from the prefetch. *)
Definition no_seek_with_leftover : gstate -> label -> Prop :=
  fun s l => match l with LDSeek => g_rem s = None | _ => True end.

(** A client that does not go back to a place before the number of bytes it has jumped over
    so far. *)
Definition counted_client (c : cfg) : gstate -> label -> Prop :=
  fun s l =>
    match l with
    | LOp (OSeek from) =>
        forall t, seek_target c (cursor (g_trace s)) from = Some t ->
          (Z.of_nat (cursor (g_trace s)) <= t)%Z \/ skipped (g_trace s) <= clamp c t
    | _ => True
    end.

(** A client that jumps ahead, and goes back and forth in the stretch it is working on. *)
Definition ranging_client (c : cfg) : gstate -> label -> Prop :=
  both (roaming_client c) (counted_client c).

(** One past the last byte that can have been stored: what was accepted, counted on from the
    place of each new request. *)
Fixpoint reached (tr : list event) : nat :=
  match tr with
  | [] => 0
  | EvWrite _ k :: t => reached t + k
  | EvSeekRange a _ :: t => Nat.max (reached t) a
  | _ :: t => reached t
  end.

(** What is assumed of the transport and the scheduling. *)
Definition jumping_transport (c : cfg) : gstate -> label -> Prop :=
  both (both ends_without_holes (no_silent_truncation c))
       (both no_seek_with_leftover no_reconnect_with_leftover).

Definition ranging_env (c : cfg) : gstate -> label -> Prop :=
  both (ranging_client c) (jumping_transport c).

(** No call panics; a read that succeeds returns the bytes of its position, empty only for an
    empty buffer or at the end of the resource; a read is refused as invalid only if it asks
    for more than the storage, of [size] bytes, can hold, or if the client has gone back so
    far that the bytes may have been overwritten. *)
Definition ranging_call_ok (c : cfg) (size : nat) (older : list event) (e : event) : Prop :=
  no_panic e /\
  match e with
  | EvRead pos n _ (Ok bs) => pos = cursor older /\ faithful c pos n bs
  | EvRead pos n _ (Err EInvalidInput) =>
      size < n \/ pos < snd (stretch older) /\ pos + size < reached older
  | _ => True
  end.

(** A client that reads and jumps ahead, to data that is there or not; after a jump over
    data that is not there the end of the resource is not reached. *)
Definition jumping_env (c : cfg) : gstate -> label -> Prop :=
  both (forward_client c) (jumping_transport c).

(** No call panics; a read that succeeds returns the bytes of its position, empty only for an
    empty buffer or at the end of the resource; a read is refused as invalid only if it asks
    for more than the storage, of [size] bytes, can hold. *)
Definition forward_call_ok (c : cfg) (size : nat) (older : list event) (e : event) : Prop :=
  no_panic e /\
  match e with
  | EvRead pos n _ (Ok bs) => pos = cursor older /\ faithful c pos n bs
  | EvRead _ n _ (Err EInvalidInput) => size < n
  | _ => True
  end.

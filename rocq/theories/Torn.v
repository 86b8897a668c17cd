(** * Torn: the system with bounded storage above a medium that fails half-way.

    In [System.v] a failing operation leaves the storage as it was.  Here an operation of
    the bounded storage may also fail in the middle, as in [BoundedFault.v]: a write that
    fails has overwritten some bytes, a read that fails has moved the inner reader. *)

From Coq Require Import List Arith ZArith Bool.
From Verif Require Import Base Storage StoreSpec BoundedFault System Spec.
Import ListNotations.

Inductive fault := TornWrite (f : wfault) | TornRead (f : rfault).

(** A write of [write_batched] (source/mod.rs:350-363) on [bytes] of which [off] are
    written fails inside [BoundedStorageWriter::write] (storage/bounded.rs:279-330): the
    [?] of line 354 leaves the download loop with the error, which ends the task
    (source/mod.rs:184-193).  The event records the bytes the writer has counted. *)
Definition torn_write (c : cfg) (s : gstate) (f : wfault) (b : bnd) (bytes : list byte) (off : nat)
  : option gstate :=
  let size := Nat.min (c_batch c) (length bytes - off) in
  match bnd_write_fault f (slice bytes off size) b with
  | Some (k, b') =>
      let s1 := set_store s (SBnd b') in
      Some (set_dpc (if k =? 0 then s1 else emit s1 (EvWrite size k)) (DOnFinish false))
  | None => None
  end.

(** A failure in the middle of the task's write or the reader's read (lib.rs:452). *)
Definition fault_step (c : cfg) (s : gstate) (x : fault) : option gstate :=
  match g_store s with
  | SPlain _ => None
  | SBnd b =>
      match x with
      | TornWrite f =>
          match g_dpc s with
          | DPre bytes w => torn_write c s f b bytes w
          | DWBatch bytes w pos nw => torn_write c s f b bytes (w + nw)
          | _ => None
          end
      | TornRead f =>
          match g_rpc s with
          | RRRead n pos rq waited =>
              match bnd_read_fault f n b with
              | Some b' => Some (set_rpc (set_store s (SBnd b')) (RRDone n pos waited (Err EOther)))
              | None => None
              end
          | _ => None
          end
      end
  end.

(** Executions with such failures, at any point.  [allow] restricts the rest of the
    environment as in [Spec.reach]. *)
Inductive faulty (c : cfg) (allow : gstate -> label -> Prop) : gstate -> Prop :=
| faulty_init : forall s, init c = Some s -> faulty c allow s
| faulty_step : forall s l s', faulty c allow s -> allow s l -> step c s l = Some s' ->
    faulty c allow s'
| faulty_fault : forall s x s', faulty c allow s -> fault_step c s x = Some s' ->
    faulty c allow s'.

(** Everything but the storage. *)
Definition same_view (s t : gstate) : Prop := exists st, s = set_store t st.

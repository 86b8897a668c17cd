(** * StoreSpec: vocabulary of the storage-level theorems.

    A storage is used through its two halves: the reader half reads, seeks and is asked
    for its position, the writer half writes and seeks.  Theorems about a storage are
    theorems about all sequences of such operations and the results they return. *)

From Coq Require Import List Arith Lia ZArith Bool.
From Verif Require Import Base Storage.
Import ListNotations.

(** Operations of the two halves ([std::io::{Read, Seek, Write}]). *)
Inductive sop :=
| OpRead (n : nat) | OpSeek (p : nat) | OpTell          (* reader half *)
| OpWrite (bs : list byte) | OpWSeek (p : nat).         (* writer half *)

(** What was called and what it returned. *)
Inductive sev :=
| SvRead (n : nat) (r : result (list byte))
| SvSeek (p : nat) (r : result nat)
| SvTell
| SvWrite (bs : list byte) (accepted : nat)
| SvWSeek (p : nat) (r : result nat).

(** One operation. *)
Definition sop_run (o : sop) (s : store) : sev * store :=
  match o with
  | OpRead n => let '(r, s') := st_read n s in (SvRead n r, s')
  | OpSeek p => let '(r, s') := st_rseek p s in (SvSeek p r, s')
  | OpTell => (SvTell, st_tell s)
  | OpWrite bs => let '(k, s') := st_write bs s in (SvWrite bs k, s')
  | OpWSeek p => let '(r, s') := st_wseek p s in (SvWSeek p r, s')
  end.

(** A sequence of operations; results newest first. *)
Fixpoint ops_run (os : list sop) (s : store) (evs : list sev) : list sev * store :=
  match os with
  | [] => (evs, s)
  | o :: t => let '(e, s') := sop_run o s in ops_run t s' (e :: evs)
  end.

(** [P older e] holds for every result [e] and the results [older] that preceded it. *)
Definition every_result (P : list sev -> sev -> Prop) (evs : list sev) : Prop :=
  forall newer e older, evs = newer ++ e :: older -> P older e.

(** The writer only appends. *)
Definition append_only (os : list sop) : Prop :=
  forall o, In o os -> match o with OpWSeek _ => False | _ => True end.

(** Everything an appending writer has written: the bytes the storage accepted. *)
Fixpoint history (evs : list sev) : list byte :=
  match evs with
  | [] => []
  | SvWrite bs k :: t => history t ++ firstn k bs
  | _ :: t => history t
  end.

(** The position the user of the reader half is at. *)
Fixpoint rcursor (evs : list sev) : nat :=
  match evs with
  | [] => 0
  | SvRead _ (Ok bs) :: t => rcursor t + length bs
  | SvSeek _ (Ok p) :: _ => p
  | _ :: t => rcursor t
  end.

(** Bytes occupied by a storage. *)
Definition footprint (s : store) : nat :=
  length (u_data (match s with SPlain u => u | SBnd b => b_inner b end)).

(** Size of the circular buffer of bounded storage. *)
Definition ring_size (clen : option nat) (buffer_size : nat) : nat :=
  match clen with Some n => Nat.min n buffer_size | None => buffer_size end.

(** A successful read returns what was written at these positions. *)
Definition read_is_history (older : list sev) (e : sev) : Prop :=
  match e with
  | SvRead n (Ok bs) =>
      length bs <= n /\ bs = slice (history older) (rcursor older) (length bs)
  | _ => True
  end.

(** A write takes as much as fits without touching what has not been read. *)
Definition write_fits (size : nat) (older : list sev) (e : sev) : Prop :=
  match e with
  | SvWrite bs k =>
      k = Nat.min (length bs) (size - (length (history older) - rcursor older))
  | _ => True
  end.

(** Inside the buffered window no seek fails, and a read returns everything asked for
    that is available. *)
Definition window_served (size : nat) (older : list sev) (e : sev) : Prop :=
  match e with
  | SvRead n r =>
      n <= size -> length (history older) - rcursor older <= size ->
      exists bs, r = Ok bs /\ length bs = Nat.min n (length (history older) - rcursor older)
  | SvSeek p r => r = Ok p
  | _ => True
  end.

(** All seeks of the reader stay inside what is buffered: not beyond what was written and
    not before what the buffer still holds. *)
Definition seeks_in_window (size : nat) (older : list sev) (e : sev) : Prop :=
  match e with
  | SvSeek p _ => length (history older) - size <= p <= length (history older)
  | _ => True
  end.

(** All seeks go backwards; all seeks go forwards. *)
Definition seeks_back (older : list sev) (e : sev) : Prop :=
  match e with SvSeek p _ => p <= rcursor older | _ => True end.
Definition seeks_ahead (older : list sev) (e : sev) : Prop :=
  match e with SvSeek p _ => rcursor older <= p | _ => True end.

(** Bytes read so far and not sought back over. *)
Fixpoint credit (evs : list sev) : nat :=
  match evs with
  | [] => 0
  | SvRead _ (Ok bs) :: t => credit t + length bs
  | SvSeek _ (Ok p) :: t => credit t - (rcursor t - p)
  | _ :: t => credit t
  end.

(** No seek goes back over more bytes than have been read. *)
Definition seeks_within_credit (older : list sev) (e : sev) : Prop :=
  match e with SvSeek p _ => rcursor older - p <= credit older | _ => True end.

(** Contents and write position of a file after the writes of [evs]. *)
Fixpoint file_after (evs : list sev) : list byte * nat :=
  match evs with
  | [] => ([], 0)
  | SvWrite bs _ :: t =>
      let '(d, w) := file_after t in
      (match bs with [] => d | _ => overwrite d w bs end, w + length bs)
  | SvWSeek p _ :: t => (fst (file_after t), p)
  | _ :: t => file_after t
  end.

(** Operations of the writer half only. *)
Definition writer_only (os : list sop) : Prop :=
  forall o, In o os -> match o with OpWrite _ | OpWSeek _ => True | _ => False end.

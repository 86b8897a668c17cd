(** * BoundedFault: bounded storage above a medium whose operations fail.

    [Storage.v] lets every operation on the inner storage succeed.  Here any of the inner
    seeks, reads, writes and flushes of [BoundedStorageReader::read] and
    [BoundedStorageWriter::write] (storage/bounded.rs:147-230, 279-330) may fail, a read or
    write after some of its bytes. *)

From Coq Require Import List Arith Lia ZArith Bool.
From Verif Require Import Base Storage StoreSpec.
Import ListNotations.

(** Where a read fails (storage/bounded.rs:202-223): at the first seek, after [j] bytes of
    the first [read_exact], at the seek to the start, after [j] bytes of the second. *)
Inductive rfault := RfSeek | RfFirst (j : nat) | RfSecondSeek | RfSecond (j : nat).

(** The reader after a failing read of [n] bytes; [None] if the read does not get there.
    The counters and positions are updated only behind the last inner operation
    (lines 225-227), so only the inner reader moves. *)
Definition bnd_read_fault (f : rfault) (n : nat) (b : bnd) : option bnd :=
  let available_len := b_wpos b - b_rpos b in
  let k := Nat.min available_len n in
  if (b_size b <? n) || (b_size b <? available_len) || (b_written b <=? b_read b)%Z || (k =? 0)
  then None
  else
    let start := mapped_read_position b 0 in
    let stop := mapped_read_position b (k - 1) + 1 in
    let first_seg_len := if start <? stop then k else Nat.min (b_size b) (b_wpos b) - start in
    let u0 := u_rseek start (b_inner b) in
    let after_first := snd (u_read_exact first_seg_len first_seg_len u0) in
    match f with
    | RfSeek => Some b
    | RfFirst j =>
        if j <? first_seg_len then Some (bnd_with_inner b (snd (u_read_exact j j u0))) else None
    | RfSecondSeek => if start <? stop then None else Some (bnd_with_inner b after_first)
    | RfSecond j =>
        if (start <? stop) || (k - first_seg_len <=? j) then None
        else Some (bnd_with_inner b (snd (u_read_exact j j (u_rseek 0 after_first))))
    end.

(** Where a write fails (storage/bounded.rs:303-327): at the first seek, after [j] bytes of
    the first [write_all], at the seek to the start, after [j] bytes of the second
    [write_all], or at the flush behind the update of the counters. *)
Inductive wfault := WfSeek | WfFirst (j : nat) | WfSecondSeek | WfSecond (j : nat) | WfFlush.

(** [write_all] that fails after the bytes [bs]. *)
Definition write_some (bs : list byte) (u : ustore) : ustore :=
  match bs with [] => u | _ => u_write bs u end.

(** The writer after a failing write of [bs], with the number of bytes by which its position
    moved; [None] if the write does not get there. *)
Definition bnd_write_fault (f : wfault) (bs : list byte) (b : bnd) : option (nat * bnd) :=
  let available_size := Nat.min (b_size b - (b_wpos b - b_rpos b)) (length bs) in
  let buf := firstn available_size bs in
  if available_size =? 0 then None
  else
    let start := mapped_write_position b 0 in
    let stop := mapped_write_position b (length buf - 1) + 1 in
    let first_seg_len := if start <? stop then length buf else b_size b - start in
    let u0 := u_wseek start (b_inner b) in
    let after_first := u_write (firstn first_seg_len buf) u0 in
    match f with
    | WfSeek => Some (0, b)
    | WfFirst j =>
        if j <? first_seg_len then Some (0, bnd_with_inner b (write_some (firstn j buf) u0)) else None
    | WfSecondSeek => if start <? stop then None else Some (0, bnd_with_inner b after_first)
    | WfSecond j =>
        if (start <? stop) || (length buf - first_seg_len <=? j) then None
        else Some (0, bnd_with_inner b
                        (write_some (firstn j (skipn first_seg_len buf)) (u_wseek 0 after_first)))
    | WfFlush => Some (bnd_write bs b)
    end.

(** Operations on bounded storage, with and without failures. *)
Inductive fop := FOp (o : sop) | FReadFails (n : nat) (f : rfault) | FWriteFails (bs : list byte) (f : wfault).

(** One operation: whether it failed, what was called, and the storage afterwards.  A failed
    write is recorded with the number of bytes by which the writer's position moved. *)
Definition fop_run (o : fop) (s : store) : option (bool * sev * store) :=
  match o, s with
  | FOp o, _ => let '(e, s') := sop_run o s in Some (false, e, s')
  | FReadFails n f, SBnd b =>
      option_map (fun b' => (true, SvRead n (Err EOther), SBnd b')) (bnd_read_fault f n b)
  | FWriteFails bs f, SBnd b =>
      option_map (fun '(k, b') => (true, SvWrite bs k, SBnd b')) (bnd_write_fault f bs b)
  | _, SPlain _ => None
  end.

(** A sequence of operations; results newest first. *)
Fixpoint fops_run (os : list fop) (s : store) (evs : list (bool * sev)) :
    option (list (bool * sev) * store) :=
  match os with
  | [] => Some (evs, s)
  | o :: t =>
      match fop_run o s with
      | Some (failed, e, s') => fops_run t s' ((failed, e) :: evs)
      | None => None
      end
  end.

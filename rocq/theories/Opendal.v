(** * Opendal: the OpenDAL source (crates/stream-download-opendal/src/lib.rs).

    The object is a list of bytes.  An [AsyncRead] over a range of it is the list of bytes
    it has yet to yield; one poll of it is answered by the environment with nothing yet, an
    error, or some bytes. *)

From Coq Require Import List Arith ZArith Bool.
From Verif Require Import Base.
Import ListNotations.

(** [OpendalStreamParams] (lib.rs:87-91), without operator and path. *)
Record od_params := mkOdParams { op_chunk_size : nat }.
(** [new] and [chunk_size] (lib.rs:95-112); [NonZeroUsize] is the successor. *)
Definition od_params_new : od_params := mkOdParams (Z.to_nat 4096).
Definition od_set_chunk_size (p : od_params) (n : nat) : od_params := mkOdParams (S n).

(** [OpendalStream] (lib.rs:117-125). [od_buf] is the content of the [BytesMut],
    [od_buf_cap] its capacity. *)
Record od_stream := mkOd {
  od_reader : list byte;          (* async_reader: what it will still yield *)
  od_buf : list byte;
  od_buf_cap : nat;
  od_capacity : nat;
  od_content_length : option nat }.

(** [stat] and the two reader constructions may fail (lib.rs:153, 158, 160). *)
Definition od_new (p : od_params) (object : list byte) (ok : bool) : option od_stream :=
  if ok then
    Some (mkOd object [] (op_chunk_size p) (op_chunk_size p)
            (if Nat.ltb 0 (length object) then Some (length object) else None))
  else None.

(** The bytes of the range [start..end] or [start..] of the object (lib.rs:198-199). *)
Definition od_range (object : list byte) (start : nat) (e : option nat) : list byte :=
  match e with
  | Some e => slice object start (e - start)
  | None => skipn start object
  end.

(** [seek_range] (lib.rs:195-207); the buffer is not touched.  [ok]: the reader could be
    created. *)
Definition od_seek_range (object : list byte) (s : od_stream) (start : nat) (e : option nat)
    (ok : bool) : result unit * od_stream :=
  if ok then (Ok tt, mkOd (od_range object start e) (od_buf s) (od_buf_cap s) (od_capacity s)
                       (od_content_length s))
  else (Err EOther, s).

(** [reconnect] (lib.rs:209-211). *)
Definition od_reconnect (object : list byte) (s : od_stream) (pos : nat) (ok : bool) :
    result unit * od_stream := od_seek_range object s pos None ok.

(** What a poll of the reader yields: not ready, an error, or [k] bytes. *)
Inductive od_read := ODPending | ODErr (k : io_kind) | ODData (k : nat).

(** [AsyncRead]: with room for [room] bytes a successful read returns between one byte and
    as many as there are room and data for, and zero only when either is zero. *)
Definition od_read_ok (s : od_stream) (room : nat) (r : od_read) : bool :=
  match r with
  | ODData k =>
      Nat.leb k (Nat.min room (length (od_reader s))) &&
      (Nat.ltb 0 k || Nat.eqb (Nat.min room (length (od_reader s))) 0)
  | _ => true
  end.

Inductive od_poll := OPPending | OPNone | OPErr (k : io_kind) | OPChunk (bs : list byte).

(** [if buf.capacity() == 0 { buf.reserve(capacity) }] (lib.rs:227-229).  [BytesMut::reserve]
    on an empty buffer without capacity gives the capacity asked for. *)
Definition od_reserve (s : od_stream) : od_stream :=
  if Nat.eqb (od_buf_cap s) 0
  then mkOd (od_reader s) (od_buf s) (od_capacity s) (od_capacity s) (od_content_length s)
  else s.

(** Room in the buffer for [poll_read_buf]: the spare capacity, or 64 bytes when there is
    none ([BytesMut::chunk_mut]). *)
Definition od_room (s : od_stream) : nat :=
  if Nat.eqb (od_buf_cap s - length (od_buf s)) 0 then 64 else od_buf_cap s - length (od_buf s).

(** [poll_next] (lib.rs:221-239); [buf.split()] takes the bytes and leaves the spare
    capacity. *)
Definition od_poll_next (s0 : od_stream) (r : od_read) : od_poll * od_stream :=
  let s := od_reserve s0 in
  match r with
  | ODPending => (OPPending, s)
  | ODErr k => (OPErr k, s)
  | ODData 0 => (OPNone, s)
  | ODData k =>
      let buf := od_buf s ++ firstn k (od_reader s) in
      let cap := Nat.max (od_buf_cap s) (length buf) in
      (OPChunk buf,
       mkOd (skipn k (od_reader s)) [] (cap - length buf) (od_capacity s) (od_content_length s))
  end.

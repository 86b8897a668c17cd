(** * Base: bytes, I/O results and slices.

    Shared vocabulary of the model.  Nothing here is specific to one source
    file; the citations say which Rust notion each definition stands for. *)

From Coq Require Import List Arith Lia ZArith Bool.
From Coq Require Export Init.Byte.
Import ListNotations.

(** Error kinds of [std::io::ErrorKind] that the crate constructs or forwards
    (crates/stream-download/src/lib.rs:442, 470, 482, 506;
    storage/bounded.rs:152, 167, 257; async_read.rs:62, 66).
    [EOther] also stands for any operating-system error. *)
Inductive io_kind := EInvalidInput | EUnsupported | EOther | EUnexpectedEof | EInterrupted.

(** [io::Result], with a third outcome for an unwinding panic. *)
Inductive result (A : Type) :=
| Ok (a : A)
| Err (e : io_kind)
| Panic.
Arguments Ok {A} a.
Arguments Err {A} e.
Arguments Panic {A}.

(** [&data[off .. off + len]] for in-range arguments; short when out of range. *)
Definition slice {A} (data : list A) (off len : nat) : list A :=
  firstn len (skipn off data).

(** Writing [bs] at offset [p] of a growable byte array, zero-filling any hole
    (Vec::resize(_, 0) + copy_from_slice, storage/memory.rs:90-94; the same
    effect as writing past the end of a POSIX file). *)
Definition overwrite (data : list byte) (p : nat) (bs : list byte) : list byte :=
  firstn p (data ++ repeat x00 (p - length data)) ++ bs ++ skipn (p + length bs) data.

(** 2^64, the modulus of [u64] / [usize] on a 64-bit target. *)
Definition two64 : Z := 18446744073709551616%Z.

(** Keep boolean comparisons folded during simplification. *)
#[global] Arguments Nat.ltb _ _ : simpl never.
#[global] Arguments Nat.leb _ _ : simpl never.
#[global] Arguments Nat.eqb _ _ : simpl never.
#[global] Arguments Nat.min _ _ : simpl never.
#[global] Arguments Nat.max _ _ : simpl never.
#[global] Arguments Nat.sub _ _ : simpl never.
#[global] Arguments Nat.modulo _ _ : simpl never.

(** * Machine: 64-bit arithmetic on positions.

    The other files use unbounded numbers for positions.  This one models the additions the
    code makes on [u64], [i64] and [usize] (64 bits), in builds with and without overflow
    checks. *)

From Coq Require Import ZArith Bool.
From Verif Require Import Base.
Local Open Scope Z_scope.

(** Overflow behaviour of the build: checked arithmetic panics (the default of the dev and
    test profiles), the other wraps around (the default of the release profile). *)
Inductive build := Checked | Wrapping.

Definition two63 : Z := 9223372036854775808.

(** [x as i64] for a [u64] or [usize] (lib.rs:435, 440; storage/bounded.rs:254;
    storage/memory.rs:77-78). *)
Definition cast_i64 (x : Z) : Z := (x + two63) mod two64 - two63.

(** [x as u64] or [x as usize] for an [i64] (the same lines). *)
Definition cast_u64 (x : Z) : Z := x mod two64.

(** [a + b] on [i64]. *)
Definition i64_add (bd : build) (a b : Z) : result Z :=
  let z := a + b in
  if (- two63 <=? z) && (z <? two63) then Ok z
  else match bd with Checked => Panic | Wrapping => Ok (cast_i64 z) end.

(** [a + b] on [u64] or [usize]. *)
Definition u64_add (bd : build) (a b : Z) : result Z :=
  let z := a + b in
  if z <? two64 then Ok z
  else match bd with Checked => Panic | Wrapping => Ok (cast_u64 z) end.

(** [(base as i64 + offset) as u64]: [get_absolute_seek_position] for [SeekFrom::Current]
    and [SeekFrom::End] (lib.rs:433-440), and the same expression in the storages
    (storage/bounded.rs:254, storage/memory.rs:77-78). *)
Definition relative_position (bd : build) (base offset : Z) : result Z :=
  match i64_add bd (cast_i64 base) offset with
  | Ok z => Ok (cast_u64 z)
  | Err e => Err e
  | Panic => Panic
  end.

(** [stream_position + buf.len() as u64], the position a read asks for before it is limited
    to the content length (lib.rs:555-557). *)
Definition read_end (bd : build) (position len : Z) : result Z := u64_add bd position len.

(** [stream_position >= start_position + self.prefetch_bytes] (source/mod.rs:321). *)
Definition prefetch_reached (bd : build) (start prefetch position : Z) : result bool :=
  match u64_add bd start prefetch with
  | Ok z => Ok (z <=? position)
  | Err e => Err e
  | Panic => Panic
  end.

(** [handle_seek] of the bounded storage (storage/bounded.rs:250-260). *)
Inductive seek_from_z := ZStart (p : Z) | ZCurrent (d : Z) | ZEnd (d : Z).
Definition bounded_handle_seek (bd : build) (from : seek_from_z) (current : Z) : result Z :=
  match from with
  | ZStart p => Ok p
  | ZCurrent d => relative_position bd current d
  | ZEnd _ => Err EUnsupported
  end.

(** [MemoryStorage::seek] (storage/memory.rs:70-84); [len] is the length of the vector. *)
Definition memory_seek (bd : build) (from : seek_from_z) (len current : Z) : result Z :=
  match from with
  | ZStart p => Ok p
  | ZCurrent d => relative_position bd current d
  | ZEnd d => relative_position bd len d
  end.

(** * Config: the requested-position cell, the settings builder, initialisation. *)

From Coq Require Import List Arith ZArith Bool.
From Verif Require Import Base.
Import ListNotations.

(** ** RequestedPosition (source/handle.rs:78-102)

    An [AtomicI64].  The cell is the stored integer; loads and stores are
    [Ordering::Relaxed] on one location, so they are totally ordered and the model is
    the sequence of stores. *)

(** [position as i64] for a [u64] (handle.rs:100): two's complement reinterpretation. *)
Definition as_i64 (p : Z) : Z := if (p <? 2 ^ 63)%Z then p else (p - 2 ^ 64)%Z.

(** [val as u64] for an [i64] (handle.rs:96). *)
Definition as_u64 (v : Z) : Z := if (v <? 0)%Z then (v + 2 ^ 64)%Z else v.

(** [Default] (handle.rs:81-85). *)
Definition rp_default : Z := (-1)%Z.
(** [clear] (handle.rs:90-92). *)
Definition rp_clear (cell : Z) : Z := (-1)%Z.
(** [set] (handle.rs:99-101). *)
Definition rp_set (cell p : Z) : Z := as_i64 p.
(** [get] (handle.rs:94-97). *)
Definition rp_get (cell : Z) : option Z :=
  if (cell =? -1)%Z then None else Some (as_u64 cell).

(** The two operations that change the cell. *)
Inductive rp_op := RpSet (p : Z) | RpClear.

(** One operation (handle.rs:90-92, 99-101). *)
Definition rp_step (cell : Z) (o : rp_op) : Z :=
  match o with RpSet p => rp_set cell p | RpClear => rp_clear cell end.

(** ** Settings (settings.rs:51-177)

    The callbacks are opaque values of type [F] (progress) and [G] (reconnect).
    [Duration] is a number of milliseconds. *)
Record settings (F G : Type) := mkSettings {
  prefetch_bytes : N;            (* settings.rs:52 *)
  batch_write_size : N;          (* settings.rs:53 *)
  retry_timeout_ms : N;          (* settings.rs:54 *)
  cancel_on_drop : bool;         (* settings.rs:55 *)
  on_progress : option F;        (* settings.rs:57 *)
  on_reconnect : option G }.     (* settings.rs:59 *)
Arguments mkSettings {F G}.
Arguments prefetch_bytes {F G}.
Arguments batch_write_size {F G}.
Arguments retry_timeout_ms {F G}.
Arguments cancel_on_drop {F G}.
Arguments on_progress {F G}.
Arguments on_reconnect {F G}.

(** [Default] (settings.rs:62-73). *)
Definition settings_default {F G} : settings F G :=
  mkSettings (256 * 1024)%N 4096%N 5000%N true None None.

(** A call of one builder method; [NonZeroUsize] is [positive]. *)
Inductive setter (F G : Type) :=
| SetPrefetch (n : N)            (* settings.rs:82 *)
| SetBatch (n : positive)        (* settings.rs:95 *)
| SetTimeout (ms : N)            (* settings.rs:111 *)
| SetCancel (b : bool)           (* settings.rs:124 *)
| SetProgress (f : F)            (* settings.rs:149 *)
| SetReconnect (g : G).          (* settings.rs:160 *)
Arguments SetPrefetch {F G}.
Arguments SetBatch {F G}.
Arguments SetTimeout {F G}.
Arguments SetCancel {F G}.
Arguments SetProgress {F G}.
Arguments SetReconnect {F G}.

(** The builder methods (settings.rs:82-87, 95-100, 111-116, 124-129, 149-155, 160-166). *)
Definition apply_setter {F G} (s : settings F G) (c : setter F G) : settings F G :=
  match c with
  | SetPrefetch n => mkSettings n (batch_write_size s) (retry_timeout_ms s) (cancel_on_drop s)
                       (on_progress s) (on_reconnect s)
  | SetBatch n => mkSettings (prefetch_bytes s) (Npos n) (retry_timeout_ms s) (cancel_on_drop s)
                       (on_progress s) (on_reconnect s)
  | SetTimeout n => mkSettings (prefetch_bytes s) (batch_write_size s) n (cancel_on_drop s)
                       (on_progress s) (on_reconnect s)
  | SetCancel b => mkSettings (prefetch_bytes s) (batch_write_size s) (retry_timeout_ms s) b
                       (on_progress s) (on_reconnect s)
  | SetProgress f => mkSettings (prefetch_bytes s) (batch_write_size s) (retry_timeout_ms s)
                       (cancel_on_drop s) (Some f) (on_reconnect s)
  | SetReconnect g => mkSettings (prefetch_bytes s) (batch_write_size s) (retry_timeout_ms s)
                       (cancel_on_drop s) (on_progress s) (Some g)
  end.

(** A chain of builder calls on [Settings::default()]. *)
Definition build {F G} (cs : list (setter F G)) : settings F G :=
  fold_left apply_setter cs settings_default.

(** The getters (settings.rs:169-176). *)
Definition get_prefetch_bytes {F G} (s : settings F G) := prefetch_bytes s.
Definition get_write_batch_size {F G} (s : settings F G) := batch_write_size s.

(** ** Initialisation (lib.rs:385-425)

    [S] is the source stream, [E] its creation error, [R] the two storage halves.  The
    provider is a function of the content length ([into_reader_writer], storage/mod.rs).
    What an initialisation does is the list of its externally visible actions. *)
Inductive init_error (E : Type) :=
| StreamCreationFailure (e : E)      (* lib.rs:528 *)
| StorageCreationFailure (k : io_kind).  (* lib.rs:525 *)
Arguments StreamCreationFailure {E}.
Arguments StorageCreationFailure {E}.

Inductive init_action := ICreateStream | ICreateStorage (clen : option nat) | ISpawnTask.

Record stream_download (R : Type) := mkSD {
  sd_storage : R;
  sd_content_length : option nat;
  sd_capacity : option nat;
  sd_cancel_on_drop : bool }.
Arguments mkSD {R}.
Arguments sd_storage {R}.
Arguments sd_content_length {R}.
Arguments sd_capacity {R}.
Arguments sd_cancel_on_drop {R}.

(** [from_create_stream] (lib.rs:385-425).  [create] is the outcome of the source's
    constructor, [provider] that of the storage provider, [capacity] its
    [max_capacity()]. *)
Definition from_create_stream {S E R F G} (create : S + E) (content_length : S -> option nat)
    (capacity : option nat) (provider : option nat -> R + io_kind) (st : settings F G) :
    (stream_download R + init_error E) * list init_action :=
  match create with
  | inr e => (inr (StreamCreationFailure e), [ICreateStream])
  | inl s =>
      let clen := content_length s in
      match provider clen with
      | inr k => (inr (StorageCreationFailure k), [ICreateStream; ICreateStorage clen])
      | inl r => (inl (mkSD r clen capacity (cancel_on_drop st)),
                  [ICreateStream; ICreateStorage clen; ISpawnTask])
      end
  end.

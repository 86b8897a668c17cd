(** * Storage: the storage providers, readers and writers.

    Models crates/stream-download/src/storage/{memory,temp,bounded,adaptive,mod}.rs.
    A reader/writer pair produced by one [into_reader_writer] call is one record,
    since both halves share the underlying bytes.  Positions are [nat]; a 64-bit
    target is assumed, so the [u64]/[usize] conversions never fail.
    Real file operations are modelled as never failing and never short; injected
    I/O errors are a separate transition of System.v. *)

From Coq Require Import List Arith Lia ZArith Bool.
From Verif Require Import Base.
Import ListNotations.

(** ** Memory storage *)

(** [MemoryStorage] reader and writer handles (storage/memory.rs:53-57): shared
    [inner] vector and [written] counter, one private position each. *)
Record mem := mkMem { m_vec : list byte; m_written : nat; m_rpos : nat; m_wpos : nat }.

(** [MemoryStorageProvider::into_reader_writer] (storage/memory.rs:23-48). *)
Definition mem_new (clen : option nat) : mem :=
  mkMem (repeat x00 (match clen with Some c => c | None => 0 end)) 0 0 0.

(** [MemoryStorage::read] (storage/memory.rs:60-69).  The slice expression
    [inner[position .. position + read_len]] panics when [position > inner.len()]. *)
Definition mem_read (n : nat) (m : mem) : result (list byte) * mem :=
  let available_len := Nat.min (length (m_vec m) - m_rpos m) (m_written m) in
  let read_len := Nat.min available_len n in
  if length (m_vec m) <? m_rpos m then (Panic, m)
  else (Ok (slice (m_vec m) (m_rpos m) read_len),
        mkMem (m_vec m) (m_written m) (m_rpos m + read_len) (m_wpos m)).

(** [MemoryStorage::seek] on the reader handle with [SeekFrom::Start]
    (storage/memory.rs:73-83). *)
Definition mem_rseek (p : nat) (m : mem) : mem :=
  mkMem (m_vec m) (m_written m) p (m_wpos m).

(** [MemoryStorage::seek] on the writer handle (storage/memory.rs:73-83). *)
Definition mem_wseek (p : nat) (m : mem) : mem :=
  mkMem (m_vec m) (m_written m) (m_rpos m) p.

(** [MemoryStorage::write] (storage/memory.rs:87-99). *)
Definition mem_write (bs : list byte) (m : mem) : mem :=
  mkMem (overwrite (m_vec m) (m_wpos m) bs) (m_written m + length bs)
        (m_rpos m) (m_wpos m + length bs).

(** ** Temporary file storage *)

(** [TempStorageReader] (a [BufReader] over the file) and the independent [File]
    write handle (storage/temp.rs:103-141).  [f_off] is the reading descriptor's
    offset, [f_buf] the unread part of the [BufReader]'s buffer and [f_cap] its
    capacity (8 KiB in std).  File contents [f_data] are shared.  [f_lim]: how many bytes
    the coming reads of the medium return at most; a read of a regular file is not cut
    short (no limits), one of a storage of the user's own may be ([PlCustom] below). *)
Record tfile := mkFile
  { f_data : list byte; f_off : nat; f_buf : list byte; f_cap : nat; f_wpos : nat;
    f_lim : list nat }.

(** [TempStorageProvider::into_reader_writer] (storage/temp.rs:107-134); the
    creation of the temporary file itself can fail, see [into_rw]. *)
Definition file_new (cap : nat) : tfile := mkFile [] 0 [] cap 0 [].

(** How much a read of [n] bytes asks of the medium: [Read::read] may return fewer bytes than
    wanted, but returns none only at the end. *)
Definition file_limit (n : nat) (f : tfile) : nat :=
  match f_lim f with [] => n | l :: _ => Nat.min n (Nat.max 1 l) end.

(** Logical read position: descriptor offset minus what is still buffered. *)
Definition file_rpos (f : tfile) : nat := f_off f - length (f_buf f).

(** [BufReader::read] through [TempStorageReader::read] (storage/temp.rs:144-146):
    a large read with an empty buffer bypasses the buffer, otherwise the buffer is
    refilled when empty and served from. *)
Definition file_read (n : nat) (f : tfile) : result (list byte) * tfile :=
  match f_buf f with
  | [] =>
      if f_cap f <=? n then
        let bs := slice (f_data f) (f_off f) (file_limit n f) in
        (Ok bs, mkFile (f_data f) (f_off f + length bs) [] (f_cap f) (f_wpos f) (tl (f_lim f)))
      else
        let chunk := slice (f_data f) (f_off f) (file_limit (f_cap f) f) in
        (Ok (firstn n chunk),
         mkFile (f_data f) (f_off f + length chunk) (skipn n chunk) (f_cap f) (f_wpos f)
                (tl (f_lim f)))
  | buf =>
      (Ok (firstn n buf),
       mkFile (f_data f) (f_off f) (skipn n buf) (f_cap f) (f_wpos f) (f_lim f))
  end.

(** [BufReader::seek(SeekFrom::Start p)] through [TempStorageReader::seek]
    (storage/temp.rs:150-152): the buffer is discarded. *)
Definition file_rseek (p : nat) (f : tfile) : tfile :=
  mkFile (f_data f) p [] (f_cap f) (f_wpos f) (f_lim f).

(** [File::seek] on the write handle (storage/temp.rs:105). *)
Definition file_wseek (p : nat) (f : tfile) : tfile :=
  mkFile (f_data f) (f_off f) (f_buf f) (f_cap f) p (f_lim f).

(** [File::write] on the write handle (storage/temp.rs:105): a complete write; an
    empty write does not extend the file. *)
Definition file_write (bs : list byte) (f : tfile) : tfile :=
  match bs with
  | [] => f
  | _ => mkFile (overwrite (f_data f) (f_wpos f) bs) (f_off f) (f_buf f) (f_cap f)
                (f_wpos f + length bs) (f_lim f)
  end.

(** ** Unbounded storage: memory or temporary file *)

Inductive ustore := UMem (m : mem) | UFile (f : tfile).

(** The byte array behind the handles. *)
Definition u_data (u : ustore) : list byte :=
  match u with UMem m => m_vec m | UFile f => f_data f end.

(** The position the next read starts at. *)
Definition u_rpos (u : ustore) : nat :=
  match u with UMem m => m_rpos m | UFile f => file_rpos f end.

(** The position the next write starts at. *)
Definition u_wpos (u : ustore) : nat :=
  match u with UMem m => m_wpos m | UFile f => f_wpos f end.

(** [Read::read] of the reader half (memory.rs:60-69, temp.rs:144-146). *)
Definition u_read (n : nat) (u : ustore) : result (list byte) * ustore :=
  match u with
  | UMem m => let '(r, m') := mem_read n m in (r, UMem m')
  | UFile f => let '(r, f') := file_read n f in (r, UFile f')
  end.

(** [Seek::seek(SeekFrom::Start p)] of the reader half (memory.rs:73-83, temp.rs:150-152). *)
Definition u_rseek (p : nat) (u : ustore) : ustore :=
  match u with UMem m => UMem (mem_rseek p m) | UFile f => UFile (file_rseek p f) end.

(** [Seek::seek(SeekFrom::Start p)] of the writer half. *)
Definition u_wseek (p : nat) (u : ustore) : ustore :=
  match u with UMem m => UMem (mem_wseek p m) | UFile f => UFile (file_wseek p f) end.

(** [Write::write] of the writer half; accepts the whole buffer
    (memory.rs:87-99, [File::write]). *)
Definition u_write (bs : list byte) (u : ustore) : ustore :=
  match u with UMem m => UMem (mem_write bs m) | UFile f => UFile (file_write bs f) end.

(** [Seek::stream_position] of the reader half: the default method of
    [std::io::Seek], i.e. [seek(SeekFrom::Current(0))].  For the temporary file this
    discards the [BufReader] buffer (temp.rs:149-153 does not override it). *)
Definition u_tell (u : ustore) : ustore := u_rseek (u_rpos u) u.

(** [Read::read_exact] (std): repeat [read] until the buffer is full; a zero-length
    read is [UnexpectedEof].  The first argument bounds the number of rounds and is
    always at least the number of bytes wanted. *)
Fixpoint u_read_exact (fuel k : nat) (u : ustore) : result (list byte) * ustore :=
  match k with
  | 0 => (Ok [], u)
  | S _ =>
      match fuel with
      | 0 => (Err EOther, u)
      | S fuel' =>
          match u_read k u with
          | (Ok [], u1) => (Err EUnexpectedEof, u1)
          | (Ok bs, u1) =>
              match u_read_exact fuel' (k - length bs) u1 with
              | (Ok bs', u2) => (Ok (bs ++ bs'), u2)
              | (r, u2) => (r, u2)
              end
          | (Err e, u1) => (Err e, u1)
          | (Panic, u1) => (Panic, u1)
          end
      end
  end.

(** ** Bounded storage *)

(** [BoundedStorageReader]/[BoundedStorageWriter] with their [SharedInfo]
    (storage/bounded.rs:111-118, 131-140, 263-272).  [b_read] and [b_written] are
    the running counters ([usize], so [Z] with wrap-around); [b_checks] says whether
    the build has overflow checks (debug profile) or wraps (release profile). *)
Record bnd := mkBnd
  { b_inner : ustore; b_read : Z; b_written : Z; b_rpos : nat; b_wpos : nat;
    b_size : nat; b_checks : bool }.

(** [SharedInfo::mapped_read_position] (storage/bounded.rs:121-123). *)
Definition mapped_read_position (b : bnd) (v : nat) : nat :=
  (v + b_rpos b mod b_size b) mod b_size b.

(** [SharedInfo::mapped_write_position] (storage/bounded.rs:125-127). *)
Definition mapped_write_position (b : bnd) (v : nat) : nat :=
  (v + b_wpos b mod b_size b) mod b_size b.

Definition bnd_with_inner (b : bnd) (u : ustore) : bnd :=
  mkBnd u (b_read b) (b_written b) (b_rpos b) (b_wpos b) (b_size b) (b_checks b).

(** The mapped segment reads of [BoundedStorageReader::read]
    (storage/bounded.rs:190-223), for [k > 0] bytes.  The slices
    [buf[..first_seg_len]] and the subtraction [size - start] panic out of range. *)
Definition bnd_read_mapped (k : nat) (b : bnd) : result (list byte) * ustore :=
  let size := Nat.min (b_size b) (b_wpos b) in
  let start := mapped_read_position b 0 in
  let stop := mapped_read_position b (k - 1) + 1 in
  let u0 := u_rseek start (b_inner b) in
  if start <? stop then u_read_exact k k u0
  else
    let first_seg_len := size - start in
    if (size <? start) || (k <? first_seg_len) then (Panic, u0)
    else
      match u_read_exact first_seg_len first_seg_len u0 with
      | (Ok bs1, u1) =>
          match u_read_exact (k - first_seg_len) (k - first_seg_len) (u_rseek 0 u1) with
          | (Ok bs2, u2) => (Ok (bs1 ++ bs2), u2)
          | (Err e, u2) => (Err e, u2)
          | (Panic, u2) => (Panic, u2)
          end
      | (Err e, u1) => (Err e, u1)
      | (Panic, u1) => (Panic, u1)
      end.

(** [BoundedStorageReader::read] (storage/bounded.rs:147-230). *)
Definition bnd_read (n : nat) (b : bnd) : result (list byte) * bnd :=
  let available_len := b_wpos b - b_rpos b in
  let k := Nat.min available_len n in
  if b_size b <? n then (Err EInvalidInput, b)
  else if b_size b <? available_len then (Err EInvalidInput, b)
  else if (b_written b <=? b_read b)%Z then (Ok [], b)
  else if k =? 0 then (Ok [], b)
  else
    match bnd_read_mapped k b with
    | (Ok bs, u') => (Ok bs, mkBnd u' (b_read b + Z.of_nat k) (b_written b) (b_rpos b + k)
                                   (b_wpos b) (b_size b) (b_checks b))
    | (Err e, u') => (Err e, bnd_with_inner b u')
    | (Panic, u') => (Panic, bnd_with_inner b u')
    end.

(** Unsigned subtraction [counter -= d]: panics under overflow checks, wraps
    modulo 2^64 otherwise. *)
Definition counter_sub (checks : bool) (c : Z) (d : nat) : option Z :=
  if (c <? Z.of_nat d)%Z then
    if checks then None else Some ((c - Z.of_nat d) mod two64)%Z
  else Some (c - Z.of_nat d)%Z.

(** [BoundedStorageReader::seek(SeekFrom::Start p)] (storage/bounded.rs:238-248). *)
Definition bnd_rseek (p : nat) (b : bnd) : result nat * bnd :=
  match counter_sub (b_checks b) (b_read b) (b_rpos b - p) with
  | None => (Panic, b)
  | Some r => (Ok p, mkBnd (b_inner b) r (b_written b) p (b_wpos b) (b_size b) (b_checks b))
  end.

(** The mapped segment writes of [BoundedStorageWriter::write]
    (storage/bounded.rs:292-321), for a non-empty [buf] that fits. *)
Definition bnd_write_mapped (buf : list byte) (b : bnd) : ustore :=
  let start := mapped_write_position b 0 in
  let stop := mapped_write_position b (length buf - 1) + 1 in
  let u0 := u_wseek start (b_inner b) in
  if start <? stop then u_write buf u0
  else
    let first_seg_len := b_size b - start in
    let u1 := u_write (firstn first_seg_len buf) u0 in
    u_write (skipn first_seg_len buf) (u_wseek 0 u1).

(** [BoundedStorageWriter::write] (storage/bounded.rs:279-330). *)
Definition bnd_write (bs : list byte) (b : bnd) : nat * bnd :=
  let space_taken := b_wpos b - b_rpos b in
  let available_size := Nat.min (b_size b - space_taken) (length bs) in
  if available_size =? 0 then (0, b)
  else
    (available_size,
     mkBnd (bnd_write_mapped (firstn available_size bs) b) (b_read b)
           (b_written b + Z.of_nat available_size) (b_rpos b)
           (b_wpos b + available_size) (b_size b) (b_checks b)).

(** [BoundedStorageWriter::seek(SeekFrom::Start p)] (storage/bounded.rs:342-349). *)
Definition bnd_wseek (p : nat) (b : bnd) : result nat * bnd :=
  match counter_sub (b_checks b) (b_written b) (b_wpos b - p) with
  | None => (Panic, b)
  | Some w => (Ok p, mkBnd (b_inner b) (b_read b) w (b_rpos b) p (b_size b) (b_checks b))
  end.

(** ** Any storage *)

Inductive store := SPlain (u : ustore) | SBnd (b : bnd).

(** The position the next read starts at ([stream_position] of the reader half). *)
Definition st_rpos (s : store) : nat :=
  match s with SPlain u => u_rpos u | SBnd b => b_rpos b end.

(** The position the next write starts at ([stream_position] of the writer half). *)
Definition st_wpos (s : store) : nat :=
  match s with SPlain u => u_wpos u | SBnd b => b_wpos b end.

(** State after [stream_position] on the reader half. *)
Definition st_tell (s : store) : store :=
  match s with SPlain u => SPlain (u_tell u) | SBnd b => SBnd b end.

(** [Read::read] (adaptive.rs:162-168 dispatches to the same operations). *)
Definition st_read (n : nat) (s : store) : result (list byte) * store :=
  match s with
  | SPlain u => let '(r, u') := u_read n u in (r, SPlain u')
  | SBnd b => let '(r, b') := bnd_read n b in (r, SBnd b')
  end.

(** [Seek::seek(SeekFrom::Start p)] on the reader half (adaptive.rs:176-182). *)
Definition st_rseek (p : nat) (s : store) : result nat * store :=
  match s with
  | SPlain u => (Ok p, SPlain (u_rseek p u))
  | SBnd b => let '(r, b') := bnd_rseek p b in (r, SBnd b')
  end.

(** [Write::write] (adaptive.rs:210-216): number of bytes accepted. *)
Definition st_write (bs : list byte) (s : store) : nat * store :=
  match s with
  | SPlain u => (length bs, SPlain (u_write bs u))
  | SBnd b => let '(k, b') := bnd_write bs b in (k, SBnd b')
  end.

(** [Seek::seek(SeekFrom::Start p)] on the writer half (adaptive.rs:232-238). *)
Definition st_wseek (p : nat) (s : store) : result nat * store :=
  match s with
  | SPlain u => (Ok p, SPlain (u_wseek p u))
  | SBnd b => let '(r, b') := bnd_wseek p b in (r, SBnd b')
  end.

(** ** Providers *)

(** [MemoryStorageProvider] or [TempStorageProvider] (with the [BufReader]
    capacity).  [PlFail] is a provider whose creation fails, e.g. a temporary file
    that cannot be created (storage/temp.rs:111-126).  [PlCustom]: a storage of the user's
    own (storage/mod.rs:15-41) that behaves like a file without a [BufReader], except that
    its reads may be short; Custom.v says what this covers. *)
Inductive plain := PlMem | PlTemp (cap : nat) | PlFail | PlCustom (limits : list nat).

(** Storage providers: plain, [BoundedStorageProvider] (bounded.rs:36-59) and
    [AdaptiveStorageProvider] (adaptive.rs:45-80).  Only plain providers are nested,
    which covers every combination the documentation uses.  The [bool] of a
    provider is the overflow-check build flag of [bnd]. *)
Inductive provider :=
| PPlain (p : plain)
| PBounded (checks : bool) (p : plain) (buffer_size : nat)
| PAdaptive (checks : bool) (fixed variable : plain) (buffer_size : nat).

(** [StorageProvider::max_capacity]: default [None] (storage/mod.rs), overridden by
    the bounded provider only (bounded.rs:68-70). *)
Definition max_capacity (p : provider) : option nat :=
  match p with
  | PBounded _ _ n => Some n
  | _ => None
  end.

(** [into_reader_writer] of the plain providers (memory.rs:23-48, temp.rs:107-134). *)
Definition plain_rw (p : plain) (clen : option nat) : option ustore :=
  match p with
  | PlMem => Some (UMem (mem_new clen))
  | PlTemp cap => Some (UFile (file_new cap))
  | PlFail => None
  | PlCustom limits => Some (UFile (mkFile [] 0 [] 0 0 limits))
  end.

(** [BoundedStorageProvider::into_reader_writer] (bounded.rs:72-108). *)
Definition bounded_rw (checks : bool) (p : plain) (buffer_size : nat) (clen : option nat)
  : option store :=
  let size := match clen with Some c => Nat.min c buffer_size | None => buffer_size end in
  match plain_rw p (Some size) with
  | Some u => Some (SBnd (mkBnd u 0 0 0 0 size checks))
  | None => None
  end.

(** [StorageProvider::into_reader_writer] (adaptive.rs:107-134 for the selection). *)
Definition into_rw (p : provider) (clen : option nat) : option store :=
  match p with
  | PPlain q => option_map SPlain (plain_rw q clen)
  | PBounded checks q n => bounded_rw checks q n clen
  | PAdaptive checks fixed variable n =>
      match clen with
      | None => bounded_rw checks fixed n None
      | Some len =>
          if len <=? n then option_map SPlain (plain_rw fixed (Some len))
          else option_map SPlain (plain_rw variable (Some len))
      end
  end.

(** * Word: the storage layer on a machine whose [usize] has fewer than 64 bits.

    Storage.v counts positions without a limit.  Here the same operations are carried out on
    words: [usize] has [M] values, [2^32] of them on the 32-bit targets the crate builds for.
    Stream positions stay [u64], so positions of the stream need not fit a word.  As in
    Storage.v, an arithmetic overflow is a panic in a build with overflow checks and wraps
    around otherwise ([b_checks]); memory allocations are assumed to succeed. *)

From Coq Require Import List Arith Lia ZArith Bool.
From Verif Require Import Base Storage StoreSpec.
Import ListNotations.

(** [a + d] on words. *)
Definition w_add (M : nat) (checks : bool) (a d : nat) : option nat :=
  if a + d <? M then Some (a + d) else if checks then None else Some ((a + d) mod M).

(** [a - d] on words. *)
Definition w_sub (M : nat) (checks : bool) (a d : nat) : option nat :=
  if d <=? a then Some (a - d) else if checks then None else Some ((a + M - d) mod M).

(** ** Memory and temporary files *)

(** [position as usize] (storage/memory.rs:76) keeps the low bits. *)
Definition w_cast (M p : nat) : nat := p mod M.

(** [MemoryStorage::seek] on the reader half (storage/memory.rs:73-83): the position is cast.
    A file offset is a [u64] on every target (storage/temp.rs:150-152). *)
Definition w_urseek (M p : nat) (u : ustore) : ustore :=
  match u with
  | UMem m => UMem (mem_rseek (w_cast M p) m)
  | UFile f => UFile (file_rseek p f)
  end.

(** [MemoryStorage::seek] on the writer half (storage/memory.rs:73-83), [File::seek]. *)
Definition w_uwseek (M p : nat) (u : ustore) : ustore :=
  match u with
  | UMem m => UMem (mem_wseek (w_cast M p) m)
  | UFile f => UFile (file_wseek p f)
  end.

(** What the seek reports: [new_position as u64] (storage/memory.rs:82). *)
Definition w_useek_result (M p : nat) (u : ustore) : nat :=
  match u with UMem _ => w_cast M p | UFile _ => p end.

(** [MemoryStorage::write] (storage/memory.rs:87-99).  When [position + buf.len()] overflows,
    the build with checks panics there; the other build panics at the slice expression, whose
    end lies before its start.  The atomic counter wraps in either build
    ([AtomicUsize::fetch_add]). *)
Definition w_mem_write (M : nat) (bs : list byte) (m : mem) : option mem :=
  if m_wpos m + length bs <? M then
    Some (mkMem (overwrite (m_vec m) (m_wpos m) bs) ((m_written m + length bs) mod M)
                (m_rpos m) (m_wpos m + length bs))
  else None.

(** [Write::write] of the writer half; [None] is a panic. *)
Definition w_uwrite (M : nat) (bs : list byte) (u : ustore) : option ustore :=
  match u with
  | UMem m => option_map UMem (w_mem_write M bs m)
  | UFile f => Some (UFile (file_write bs f))
  end.

(** ** Bounded storage *)

(** [mapped_read_position] and [mapped_write_position] (storage/bounded.rs:121-127). *)
Definition w_mapped (M : nat) (b : bnd) (pos v : nat) : option nat :=
  option_map (fun x => x mod b_size b) (w_add M (b_checks b) v (pos mod b_size b)).

(** The mapped segment reads (storage/bounded.rs:190-223). *)
Definition w_read_mapped (M k : nat) (b : bnd) : result (list byte) * ustore :=
  match w_mapped M b (b_rpos b) 0, w_mapped M b (b_rpos b) (k - 1) with
  | Some start, Some last =>
      let size := Nat.min (b_size b) (b_wpos b) in
      let stop := last + 1 in
      let u0 := w_urseek M start (b_inner b) in
      if start <? stop then u_read_exact k k u0
      else
        let first_seg_len := size - start in
        if (size <? start) || (k <? first_seg_len) then (Panic, u0)
        else
          match u_read_exact first_seg_len first_seg_len u0 with
          | (Ok bs1, u1) =>
              match u_read_exact (k - first_seg_len) (k - first_seg_len) (w_urseek M 0 u1) with
              | (Ok bs2, u2) => (Ok (bs1 ++ bs2), u2)
              | (Err e, u2) => (Err e, u2)
              | (Panic, u2) => (Panic, u2)
              end
          | (Err e, u1) => (Err e, u1)
          | (Panic, u1) => (Panic, u1)
          end
  | _, _ => (Panic, b_inner b)
  end.

(** The counters after [position += k; total += k] (storage/bounded.rs:226-227 and 324-325);
    [inl] when both additions went through, [inr] with what was stored before the panic. *)
Definition w_advance (M : nat) (checks : bool) (pos : nat) (total : Z) (k : nat)
  : (nat * Z) + nat :=
  match w_add M checks pos k with
  | None => inr pos
  | Some pos' =>
      match w_add M checks (Z.to_nat total) k with
      | None => inr pos'
      | Some total' => inl (pos', Z.of_nat total')
      end
  end.

(** [BoundedStorageReader::read] (storage/bounded.rs:147-230). *)
Definition w_bnd_read (M n : nat) (b : bnd) : result (list byte) * bnd :=
  let available_len := b_wpos b - b_rpos b in
  let k := Nat.min available_len n in
  if b_size b <? n then (Err EInvalidInput, b)
  else if b_size b <? available_len then (Err EInvalidInput, b)
  else if (b_written b <=? b_read b)%Z then (Ok [], b)
  else if k =? 0 then (Ok [], b)
  else
    match w_read_mapped M k b with
    | (Ok bs, u') =>
        match w_advance M (b_checks b) (b_rpos b) (b_read b) k with
        | inl (pos, total) =>
            (Ok bs, mkBnd u' total (b_written b) pos (b_wpos b) (b_size b) (b_checks b))
        | inr pos =>
            (Panic, mkBnd u' (b_read b) (b_written b) pos (b_wpos b) (b_size b) (b_checks b))
        end
    | (Err e, u') => (Err e, bnd_with_inner b u')
    | (Panic, u') => (Panic, bnd_with_inner b u')
    end.

(** [BoundedStorageReader::seek(SeekFrom::Start p)] (storage/bounded.rs:238-248, 253). *)
Definition w_bnd_rseek (M p : nat) (b : bnd) : result nat * bnd :=
  let p' := w_cast M p in
  match w_sub M (b_checks b) (Z.to_nat (b_read b)) (b_rpos b - p') with
  | None => (Panic, b)
  | Some r => (Ok p', mkBnd (b_inner b) (Z.of_nat r) (b_written b) p' (b_wpos b) (b_size b) (b_checks b))
  end.

(** The mapped segment writes (storage/bounded.rs:292-321); [None] is a panic. *)
Definition w_write_mapped (M : nat) (buf : list byte) (b : bnd) : option ustore :=
  match w_mapped M b (b_wpos b) 0, w_mapped M b (b_wpos b) (length buf - 1) with
  | Some start, Some last =>
      let stop := last + 1 in
      let u0 := w_uwseek M start (b_inner b) in
      if start <? stop then w_uwrite M buf u0
      else
        let first_seg_len := b_size b - start in
        if length buf <? first_seg_len then None
        else
          match w_uwrite M (firstn first_seg_len buf) u0 with
          | Some u1 => w_uwrite M (skipn first_seg_len buf) (w_uwseek M 0 u1)
          | None => None
          end
  | _, _ => None
  end.

(** [BoundedStorageWriter::write] (storage/bounded.rs:279-330). *)
Definition w_bnd_write (M : nat) (bs : list byte) (b : bnd) : result nat * bnd :=
  let space_taken := b_wpos b - b_rpos b in
  let available_size := Nat.min (b_size b - space_taken) (length bs) in
  if available_size =? 0 then (Ok 0, b)
  else
    match w_write_mapped M (firstn available_size bs) b with
    | None => (Panic, b)
    | Some u' =>
        match w_advance M (b_checks b) (b_wpos b) (b_written b) available_size with
        | inl (pos, total) =>
            (Ok available_size,
             mkBnd u' (b_read b) total (b_rpos b) pos (b_size b) (b_checks b))
        | inr pos =>
            (Panic, mkBnd u' (b_read b) (b_written b) (b_rpos b) pos (b_size b) (b_checks b))
        end
    end.

(** [BoundedStorageWriter::seek(SeekFrom::Start p)] (storage/bounded.rs:342-349, 253). *)
Definition w_bnd_wseek (M p : nat) (b : bnd) : result nat * bnd :=
  let p' := w_cast M p in
  match w_sub M (b_checks b) (Z.to_nat (b_written b)) (b_wpos b - p') with
  | None => (Panic, b)
  | Some w => (Ok p', mkBnd (b_inner b) (b_read b) (Z.of_nat w) (b_rpos b) p' (b_size b) (b_checks b))
  end.

(** ** Any storage *)

(** What an operation returned: the events of StoreSpec.v, and a write that panicked. *)
Inductive wev := Ev (e : sev) | PanickedWrite (bs : list byte).

(** One operation on words (adaptive.rs:162-238 dispatches to the same operations). *)
Definition wop_run (M : nat) (o : sop) (s : store) : wev * store :=
  match o, s with
  | OpRead n, SPlain u => let '(r, u') := u_read n u in (Ev (SvRead n r), SPlain u')
  | OpRead n, SBnd b => let '(r, b') := w_bnd_read M n b in (Ev (SvRead n r), SBnd b')
  | OpSeek p, SPlain u => (Ev (SvSeek p (Ok (w_useek_result M p u))), SPlain (w_urseek M p u))
  | OpSeek p, SBnd b => let '(r, b') := w_bnd_rseek M p b in (Ev (SvSeek p r), SBnd b')
  | OpTell, SPlain u => (Ev SvTell, SPlain (w_urseek M (u_rpos u) u))
  | OpTell, SBnd b => (Ev SvTell, SBnd b)
  | OpWrite bs, SPlain u =>
      match w_uwrite M bs u with
      | Some u' => (Ev (SvWrite bs (length bs)), SPlain u')
      | None => (PanickedWrite bs, SPlain u)
      end
  | OpWrite bs, SBnd b =>
      match w_bnd_write M bs b with
      | (Ok k, b') => (Ev (SvWrite bs k), SBnd b')
      | (_, b') => (PanickedWrite bs, SBnd b')
      end
  | OpWSeek p, SPlain u => (Ev (SvWSeek p (Ok (w_useek_result M p u))), SPlain (w_uwseek M p u))
  | OpWSeek p, SBnd b => let '(r, b') := w_bnd_wseek M p b in (Ev (SvWSeek p r), SBnd b')
  end.

(** A sequence of operations; results newest first. *)
Fixpoint wops_run (M : nat) (os : list sop) (s : store) (evs : list wev) : list wev * store :=
  match os with
  | [] => (evs, s)
  | o :: t => let '(e, s') := wop_run M o s in wops_run M t s' (e :: evs)
  end.

(** ** Creation *)

(** [MemoryStorageProvider::into_reader_writer] refuses a length that is not a [usize]
    (storage/memory.rs:28-34); a temporary file has no such limit. *)
Definition w_plain_rw (M : nat) (p : plain) (clen : option nat) : option ustore :=
  match p, clen with
  | PlMem, Some c => if c <? M then plain_rw PlMem (Some c) else None
  | _, _ => plain_rw p clen
  end.

(** [BoundedStorageProvider::into_reader_writer] (storage/bounded.rs:72-108): the smaller of
    the two sizes is computed in [u64] and converted back. *)
Definition w_bounded_rw (M : nat) (checks : bool) (p : plain) (buffer_size : nat)
  (clen : option nat) : option store :=
  let size := match clen with Some c => Nat.min c buffer_size | None => buffer_size end in
  match w_plain_rw M p (Some size) with
  | Some u => if size <? M then Some (SBnd (mkBnd u 0 0 0 0 size checks)) else None
  | None => None
  end.

(** [StorageProvider::into_reader_writer] (adaptive.rs:107-134 for the selection). *)
Definition w_into_rw (M : nat) (p : provider) (clen : option nat) : option store :=
  match p with
  | PPlain q => option_map SPlain (w_plain_rw M q clen)
  | PBounded checks q n => w_bounded_rw M checks q n clen
  | PAdaptive checks fixed variable n =>
      match clen with
      | None => w_bounded_rw M checks fixed n None
      | Some len =>
          if len <=? n then option_map SPlain (w_plain_rw M fixed (Some len))
          else option_map SPlain (w_plain_rw M variable (Some len))
      end
  end.

(** ** Vocabulary of the theorems *)

(** Bytes read, bytes written, and the farthest position that was sought. *)
Fixpoint bytes_read (evs : list sev) : nat :=
  match evs with
  | [] => 0
  | SvRead _ (Ok bs) :: t => bytes_read t + length bs
  | _ :: t => bytes_read t
  end.
Fixpoint bytes_written (evs : list sev) : nat :=
  match evs with
  | [] => 0
  | SvWrite _ k :: t => bytes_written t + k
  | _ :: t => bytes_written t
  end.
Fixpoint farthest (evs : list sev) : nat :=
  match evs with
  | [] => 0
  | SvSeek p _ :: t | SvWSeek p _ :: t => Nat.max p (farthest t)
  | _ :: t => farthest t
  end.

(** Everything fits a word: the farthest position sought, plus what was read and what was
    written since the storage was created. *)
Definition fits (M : nat) (evs : list sev) : Prop :=
  farthest evs + bytes_read evs < M /\ farthest evs + bytes_written evs < M.

(** No operation panicked. *)
Definition none_panicked (evs : list sev) : Prop :=
  forall e, In e evs ->
    match e with
    | SvRead _ Panic | SvSeek _ Panic | SvWSeek _ Panic => False
    | _ => True
    end.

(** A provider of the same storage in the other build. *)
Definition in_build (checks : bool) (p : provider) : provider :=
  match p with
  | PPlain q => PPlain q
  | PBounded _ q n => PBounded checks q n
  | PAdaptive _ f v n => PAdaptive checks f v n
  end.

(** The buffer of a bounded or adaptive provider is at most half the address space. *)
Definition buffer_fits (M : nat) (p : provider) : Prop :=
  match p with
  | PPlain _ => True
  | PBounded _ _ n | PAdaptive _ _ _ n => 2 * n <= M
  end.

(** The storage that is created is memory of the announced length. *)
Definition whole_in_memory (p : provider) (clen : option nat) : Prop :=
  match p, clen with
  | PPlain q, Some _ => q = PlMem
  | PAdaptive _ fixed variable n, Some len =>
      if len <=? n then fixed = PlMem else variable = PlMem
  | _, _ => False
  end.

(** * A storage of the user's own

    [StorageProvider] is a public trait (storage/mod.rs:13-40): a program can keep the
    downloaded bytes anywhere.  This file says what the trait asks of an implementation and
    runs the download task and the reader of System.v against one. *)

From Coq Require Import List Arith Bool.
From Verif Require Import Base RangeSet Storage System.
Import ListNotations.

(** ** Implementations *)

(** [StorageProvider::into_reader_writer] (storage/mod.rs:21-26) and the operations of the
    two halves it returns ([StorageReader], [StorageWriter], mod.rs:35-43: [std::io]'s
    [Read], [Write] and [Seek]), over a state of any type.  [false]: the seek failed.
    Simplifications: the position queries ([Seek::stream_position]) have no effect of their
    own; a failing query or [flush] is one of the failures of System.v; no maximum capacity
    is announced (mod.rs:29-31, the default). *)
Record custom (St : Type) := mkCustom
  { i_new : option nat -> St;
    i_rpos : St -> nat;
    i_wpos : St -> nat;
    i_read : nat -> St -> result (list byte) * St;
    i_rseek : nat -> St -> bool * St;
    i_write : list byte -> St -> result nat * St;
    i_wseek : nat -> St -> bool * St }.

Arguments mkCustom {St}. Arguments i_new {St}. Arguments i_rpos {St}. Arguments i_wpos {St}.
Arguments i_read {St}. Arguments i_rseek {St}. Arguments i_write {St}. Arguments i_wseek {St}.

(** ** The contract *)

(** What has been stored: for every position below the end of the storage the byte that was
    written there last, or nothing.  Writing [bs] at [p]: *)
Definition patch (v : list (option byte)) (p : nat) (bs : list byte) : list (option byte) :=
  match bs with
  | [] => v
  | _ => firstn p v ++ repeat None (p - length v) ++ map Some bs ++ skipn (p + length bs) v
  end.

(** A storage that can be relied on, [view] being what is stored in it. *)
Record honours {St} (I : custom St) (view : St -> list (option byte)) : Prop := mkHonours
  { (* it starts empty, perhaps with space reserved up to the announced length *)
    h_new : forall clen,
      (exists m, view (i_new I clen) = repeat None m /\
                 m <= match clen with Some n => n | None => 0 end) /\
      i_rpos I (i_new I clen) = 0 /\ i_wpos I (i_new I clen) = 0;
    (* reading: bytes that were written are read back; where none were written anything can
       be returned, but never past the end; there is data where a byte was written; nothing
       but the reading position moves, and that only by what was returned *)
    h_read : forall n st r st', i_read I n st = (r, st') ->
      view st' = view st /\ i_wpos I st' = i_wpos I st /\
      match r with
      | Ok bs => i_rpos I st' = i_rpos I st + length bs /\ length bs <= n /\
          (forall i b, nth_error bs i = Some b ->
             nth_error (view st) (i_rpos I st + i) = Some (Some b) \/
             nth_error (view st) (i_rpos I st + i) = Some None) /\
          (0 < n -> (exists b, nth_error (view st) (i_rpos I st) = Some (Some b)) -> bs <> [])
      | Err _ => i_rpos I st' = i_rpos I st
      | Panic => False
      end;
    h_rseek : forall p st ok st', i_rseek I p st = (ok, st') ->
      view st' = view st /\ i_wpos I st' = i_wpos I st /\
      i_rpos I st' = if ok then p else i_rpos I st;
    (* writing: some of the bytes are stored at the writing position, or none if it fails *)
    h_write : forall bs st r st', i_write I bs st = (r, st') ->
      i_rpos I st' = i_rpos I st /\
      match r with
      | Ok k => k <= length bs /\ (bs <> [] -> 0 < k) /\
          view st' = patch (view st) (i_wpos I st) (firstn k bs) /\
          i_wpos I st' = i_wpos I st + k
      | Err _ => view st' = view st /\ i_wpos I st' = i_wpos I st
      | Panic => False
      end;
    h_wseek : forall p st ok st', i_wseek I p st = (ok, st') ->
      view st' = view st /\ i_rpos I st' = i_rpos I st /\
      i_wpos I st' = if ok then p else i_wpos I st }.

(** ** The program with such a storage *)

(** The program of System.v at the moment its storage, in state [st], answers: a store with
    the positions of [st] in which a read finds [bs]. *)
Definition facing {St} (I : custom St) (s : gstate) (st : St) (bs : list byte) : gstate :=
  set_store s (SPlain (UFile (mkFile (repeat x00 (i_rpos I st) ++ bs) (i_rpos I st) [] 0
                                     (i_wpos I st) []))).

(** A batch is handed to [Write::write] (source/mod.rs:350-363). *)
Definition write_answer {St} (I : custom St) (batch : list byte) (st : St)
  : option (list byte * label * St) :=
  match i_write I batch st with
  | (Ok k, st') =>
      if k =? length batch then Some ([], LDStep, st')
      else if (0 <? k) && (k <? length batch) then Some ([], LDShort k, st') else None
  | (Err _, st') => Some ([], LDIoErr, st')
  | (Panic, _) => None
  end.

(** What the program is about to do ([l]), resolved by asking the storage: the bytes it is
    given if it reads, the action of System.v that results, the storage afterwards.  The calls
    are the read and the seek of the reader (lib.rs:452, 609-610, 618-619), the writes
    (source/mod.rs:350-363) and the seek of the writer (source/mod.rs:467-471; if it fails
    the task ends as if the request had failed).  Simplification: whatever error the storage
    reports, the client is told [Other].  [None]: the storage panics, or refuses to
    take any byte. *)
Definition answered {St} (I : custom St) (c : cfg) (s : gstate) (st : St) (l : label)
  : option (list byte * label * St) :=
  match l with
  | LRStep =>
      match g_rpc s with
      | RRRead n _ _ _ =>
          match i_read I n st with
          | (Ok bs, st') => Some (bs, LRStep, st')
          | (Err _, st') => Some ([], LRIoErr, st')
          | (Panic, _) => None
          end
      | RSSeek _ p =>
          let '(ok, st') := i_rseek I p st in
          Some ([], if ok then LRStep else LRIoErr, st')
      | _ => Some ([], LRStep, st)
      end
  | LDStep =>
      match g_dpc s with
      | DPre bytes w => write_answer I (slice bytes w (Nat.min (c_batch c) (length bytes - w))) st
      | DWBatch bytes w _ nw =>
          write_answer I (slice bytes (w + nw) (Nat.min (c_batch c) (length bytes - (w + nw)))) st
      | _ => Some ([], LDStep, st)
      end
  | LDSeekRes true =>
      match g_dpc s with
      | DSeeking a _ =>
          let '(ok, st') := i_wseek I a st in Some ([], LDSeekRes ok, st')
      | _ => None
      end
  | LDShort _ => None
  | _ => Some ([], l, st)
  end.

(** States the program reaches with the storage [I], if the environment does only what
    [allow] permits. *)
Inductive creach {St} (I : custom St) (c : cfg) (allow : gstate -> label -> Prop)
  : gstate -> St -> Prop :=
| creach_init : forall s, init c = Some s -> creach I c allow s (i_new I (c_clen c))
| creach_step : forall s st l bs l' st' s', creach I c allow s st ->
    answered I c s st l = Some (bs, l', st') -> allow s l' ->
    step c (facing I s st bs) l' = Some s' -> creach I c allow s' st'.

(** The configuration says that the storage is the user's own. *)
Definition own_storage (c : cfg) : Prop := c_provider c = PPlain (PlCustom []).

(** The same, with the actions that led there. *)
Inductive cpath {St} (I : custom St) (c : cfg) (allow : gstate -> label -> Prop)
  : list label -> gstate -> St -> Prop :=
| cpath_init : forall s, init c = Some s -> cpath I c allow [] s (i_new I (c_clen c))
| cpath_step : forall ls s st l bs l' st' s', cpath I c allow ls s st ->
    answered I c s st l = Some (bs, l', st') -> allow s l' ->
    step c (facing I s st bs) l' = Some s' -> cpath I c allow (ls ++ [l']) s' st'.

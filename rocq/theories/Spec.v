(** * Spec: vocabulary of the system-level theorems.

    Everything a system-level theorem mentions besides the transition system of
    System.v is defined here, in terms of the API: which executions are considered,
    what the client's position is, what a faithful read is, which clients and
    transports are meant. *)

From Coq Require Import List Arith Lia ZArith Bool.
From Verif Require Import Base Storage System.
Import ListNotations.

(** ** Executions *)

(** States reachable by steps that satisfy [allow].  [allow] restricts the
    environment (client, transport), never the scheduler. *)
Inductive reach (c : cfg) (allow : gstate -> label -> Prop) : gstate -> Prop :=
| reach_init : forall s, init c = Some s -> reach c allow s
| reach_step : forall s l s', reach c allow s -> allow s l -> step c s l = Some s' ->
    reach c allow s'.

(** Conjunction of restrictions, and no restriction. *)
Definition both (p q : gstate -> label -> Prop) : gstate -> label -> Prop :=
  fun s l => p s l /\ q s l.
Definition any : gstate -> label -> Prop := fun _ _ => True.

(** ** Configurations *)

(** The announced length, if any, is the true one, it is far from 2^64, and the batch
    size is non-zero (it is a [NonZeroUsize]). *)
Definition sane (c : cfg) : Prop :=
  (forall n, c_clen c = Some n -> n = length (c_content c)) /\
  (Z.of_nat (length (c_content c)) < two64 / 2)%Z /\
  0 < c_batch c.

(** Memory or temporary-file storage, directly or chosen by adaptive storage. *)
Definition unbounded_store (c : cfg) : Prop :=
  match c_provider c with
  | PPlain _ => True
  | PBounded _ _ _ => False
  | PAdaptive _ _ _ _ => c_clen c <> None
  end.

(** The transport honours byte ranges: a successful range request delivers the range
    and a successful reconnect resumes at the requested byte. *)
Definition honours_ranges (c : cfg) : Prop :=
  c_inv c <> InvServeAll /\ c_rec c = RecRange.

(** ** Client's view *)

(** The position a client expects to be at, from the results it has seen (newest
    first): advanced by successful reads, set by successful seeks. *)
Fixpoint cursor (tr : list event) : nat :=
  match tr with
  | [] => 0
  | EvRead _ _ _ (Ok bs) :: t => cursor t + length bs
  | EvSeek _ (Ok p) :: _ => p
  | _ :: t => cursor t
  end.

(** May reads of the storage return fewer bytes than there are?  Those of the library's own
    storages do not. *)
Definition short_reads (p : provider) : bool :=
  let custom q := match q with PlCustom _ => true | _ => false end in
  match p with
  | PPlain q => custom q
  | PBounded _ _ _ => false
  | PAdaptive _ fixed variable _ => custom fixed || custom variable
  end.

(** A read of [n] bytes at [pos] that returns [bs] is faithful: [bs] are the bytes of
    the resource from [pos] on, [n] of them or all that are left; if the storage may return
    fewer, some of them. *)
Definition faithful (c : cfg) (pos n : nat) (bs : list byte) : Prop :=
  exists k, bs = slice (c_content c) pos k /\ k <= n /\ (0 < n -> 0 < k) /\
            (short_reads (c_provider c) = false -> k = n).

(** Absolute position a seek asks for, as an integer (before any clamping). *)
Definition seek_target (c : cfg) (cur : nat) (from : seek_from) : option Z :=
  match from with
  | FromStart p => Some p
  | FromCurrent d => Some (Z.of_nat cur + d)%Z
  | FromEnd d => option_map (fun n => (Z.of_nat n + d)%Z) (c_clen c)
  end.

(** The argument of a seek call fits its machine type ([u64] or [i64]). *)
Definition seek_arg_ok (from : seek_from) : Prop :=
  match from with
  | FromStart p => (0 <= p < two64)%Z
  | FromCurrent d | FromEnd d => (- (two64 / 2) <= d < two64 / 2)%Z
  end.

(** The stretch of the resource a client is working on, from what its calls returned: it
    starts where the client last jumped to and ends at the furthest byte it has read from
    there.  A seek to a place inside it, or to its end, is no jump. *)
Definition enter (p : nat) (st : nat * nat) : nat * nat :=
  if (fst st <=? p) && (p <=? snd st) then st else (p, p).

Fixpoint stretch (tr : list event) : nat * nat :=
  match tr with
  | [] => (0, 0)
  | EvRead _ _ _ (Ok bs) :: t => (fst (stretch t), Nat.max (snd (stretch t)) (cursor t + length bs))
  | EvSeek _ (Ok p) :: t => enter p (stretch t)
  | _ :: t => stretch t
  end.

(** Clients that go back and forth in the stretch they are working on, and jump forward, but
    never go back behind the place they last jumped to. *)
Definition roaming_client (c : cfg) : gstate -> label -> Prop :=
  fun s l =>
    match l with
    | LOp (OSeek from) =>
        seek_arg_ok from /\
        forall t, seek_target c (cursor (g_trace s)) from = Some t ->
          (Z.of_nat (fst (stretch (g_trace s))) <= t < two64)%Z
    | LRIoErr => match g_rpc s with RSSeek _ _ => False | _ => True end
    | _ => True
    end.

(** Clients that never seek backwards, and whose seeks do not fail in the storage: after a
    failed seek the next read continues from an earlier position. *)
Definition forward_client (c : cfg) : gstate -> label -> Prop :=
  fun s l =>
    match l with
    | LOp (OSeek from) =>
        seek_arg_ok from /\
        forall t, seek_target c (cursor (g_trace s)) from = Some t ->
          (Z.of_nat (cursor (g_trace s)) <= t < two64)%Z
    | LRIoErr => match g_rpc s with RSSeek _ _ => False | _ => True end
    | _ => True
    end.

(** Clients that only read. *)
Definition sequential_client : gstate -> label -> Prop :=
  fun _ l => match l with LOp (OSeek _) => False | _ => True end.

(** Bytes the client has jumped over by seeking forwards. *)
Fixpoint skipped (tr : list event) : nat :=
  match tr with
  | [] => 0
  | EvSeek _ (Ok p) :: t => skipped t + (p - cursor t)
  | _ :: t => skipped t
  end.

(** ** Transport *)

(** A response body ends early only where the library can notice: on a seekable source
    of known length.  Otherwise a body that ends early cannot be told apart from a
    shorter resource. *)
Definition no_silent_truncation (c : cfg) : gstate -> label -> Prop :=
  fun s l =>
    match l with
    | LDEof => (c_seekable c = true /\ c_clen c <> None) \/ g_scur s = g_send s
    | _ => True
    end.

(** No empty chunks from beyond the end of the resource. *)
Definition no_empty_chunk_past_end (c : cfg) : gstate -> label -> Prop :=
  fun s l =>
    match l with LDChunk k => 0 < k \/ g_scur s <= length (c_content c) | _ => True end.

(** No operation of the reader on the storage fails. *)
Definition storage_works : gstate -> label -> Prop :=
  fun _ l => match l with LRIoErr => False | _ => True end.

(** No empty chunks at all. *)
Definition no_empty_chunk : gstate -> label -> Prop :=
  fun _ l => match l with LDChunk k => 0 < k | _ => True end.

(** Bytes accepted by the storage writer so far. *)
Fixpoint accepted_total (tr : list event) : nat :=
  match tr with
  | [] => 0
  | EvWrite _ k :: t => k + accepted_total t
  | _ :: t => accepted_total t
  end.

(** ** Trace predicates *)

(** [P older e] holds for every event [e] of the trace and the events [older] that
    preceded it. *)
Definition every_event (P : list event -> event -> Prop) (tr : list event) : Prop :=
  forall newer e older, tr = newer ++ e :: older -> P older e.

(** The position a read reports is the client's position. *)
Definition read_position_ok (older : list event) (e : event) : Prop :=
  match e with EvRead pos _ _ _ => pos = cursor older | _ => True end.

(** A successful seek returns the target, clamped to the known length, for every target
    that is representable. *)
Definition seek_result_ok (c : cfg) (older : list event) (e : event) : Prop :=
  match e with
  | EvSeek from (Ok p) =>
      forall t, seek_target c (cursor older) from = Some t -> (0 <= t < two64)%Z ->
        Z.of_nat p = match c_clen c with Some n => Z.min t (Z.of_nat n) | None => t end
  | _ => True
  end.

(** Reads that did not have to wait are faithful. *)
Definition fast_read_ok (c : cfg) (older : list event) (e : event) : Prop :=
  match e with
  | EvRead pos n false (Ok bs) => pos = cursor older /\ faithful c pos n bs
  | _ => True
  end.

(** All successful reads are faithful. *)
Definition read_ok (c : cfg) (older : list event) (e : event) : Prop :=
  match e with
  | EvRead pos n _ (Ok bs) => pos = cursor older /\ faithful c pos n bs
  | _ => True
  end.

(** A read into a non-empty buffer that returns nothing happened at or past the end. *)
Definition eof_ok (c : cfg) (older : list event) (e : event) : Prop :=
  match e with
  | EvRead pos n _ (Ok []) => n = 0 \/ length (c_content c) <= pos
  | _ => True
  end.

(** What the client has received so far, in order. *)
Fixpoint delivered (tr : list event) : list byte :=
  match tr with
  | [] => []
  | EvRead _ _ _ (Ok bs) :: t => delivered t ++ bs
  | _ :: t => delivered t
  end.

(** Executions from a given state. *)
Inductive steps (c : cfg) (allow : gstate -> label -> Prop) : gstate -> gstate -> Prop :=
| steps_refl : forall s, steps c allow s s
| steps_step : forall s s1 l s2, steps c allow s s1 -> allow s1 l -> step c s1 l = Some s2 ->
    steps c allow s s2.

(** The byte stored at position [x] of an unbounded storage. *)
Definition stored_byte (s : gstate) (x : nat) : option byte :=
  match g_store s with SPlain u => nth_error (u_data u) x | SBnd _ => None end.

(** Position [x] has been recorded as downloaded: the library would serve it without
    waiting. *)
Definition is_downloaded (s : gstate) (x : nat) : Prop :=
  exists a b, In (a, b) (g_down s) /\ a <= x < b.

(** Reconnects succeed only while nothing at or after the write position is downloaded
    (a reconnected transport delivers everything from there to the end). *)
Definition reconnect_at_front : gstate -> label -> Prop :=
  fun s l =>
    l = LDTimeout RcOk -> forall x, is_downloaded s x -> x < st_wpos (g_store s).

(** The download has completed successfully: readers are told that the stream is done
    and no failure was recorded. *)
Definition completed (s : gstate) : Prop := g_done s = true /\ g_failed s = false.

(** A read or seek call is in progress and its thread is blocked. *)
Definition in_call (s : gstate) : Prop :=
  match g_rpc s with RIdle | RDropped => False | _ => True end.
Definition blocked (c : cfg) (s : gstate) : Prop := in_call s /\ step c s LRStep = None.

(** The task can move: it has a local action to execute, or it is waiting for the
    transport (next chunk, outcome of a range request, [on_finish]). *)
Definition awaits_transport (s : gstate) : Prop :=
  match g_dpc s with DSelect | DSeeking _ _ | DOnFinish _ => True | _ => False end.
Definition task_can_move (c : cfg) (s : gstate) : Prop :=
  awaits_transport s \/ exists s', step c s LDStep = Some s'.

(** Events that involve the transport or the storage. *)
Definition is_request (e : event) : bool :=
  match e with EvSeekRange _ _ | EvReconnect _ _ => true | _ => false end.
Definition is_write (e : event) : bool := match e with EvWrite _ _ => true | _ => false end.

(** Failed calls. *)
Definition call_failed (e : event) : Prop :=
  match e with
  | EvRead _ _ _ r => exists k, r = Err k
  | EvSeek _ r => exists k, r = Err k
  | _ => True
  end.

(** A call that returned an error. *)
Definition call_error (e : event) : Prop :=
  match e with EvRead _ _ _ (Err _) | EvSeek _ (Err _) => True | _ => False end.

(** Nobody cancels: the token is not cancelled through the API and the handle is not
    dropped. *)
Definition nobody_cancels : gstate -> label -> Prop :=
  fun _ l => match l with LUserCancel | LDrop => False | _ => True end.

(** [StreamHandle::wait_for_completion] returns: it waits for the token that [handle] gives
    it (lib.rs:41-43, 374-378), which is the one that cancels the task. *)
Definition wait_returns (s : gstate) : Prop := g_cancel s = true.

(** The task has come to its end, and [on_finish] with it. *)
Definition task_finished (s : gstate) : Prop :=
  g_dpc s = DEnd /\ exists ok, In (EvFinish ok) (g_trace s).

(** Every reconnect attempt that returned is followed at once by the callback; the
    callback follows such an attempt. *)
Fixpoint reconnects_reported (tr : list event) : Prop :=
  match tr with
  | EvOnReconnect :: EvReconnect p rc :: t => rc <> RcElapsed /\ reconnects_reported t
  | EvOnReconnect :: _ => False
  | EvReconnect p rc :: t => rc = RcElapsed /\ reconnects_reported t
  | _ :: t => reconnects_reported t
  | [] => True
  end.

(** No write offers more than the batch size, nor accepts more than it was offered. *)
Definition write_size_ok (c : cfg) (e : event) : Prop :=
  match e with EvWrite offered accepted => accepted <= offered <= c_batch c | _ => True end.

(** A call that is served from complete data: a read returns the bytes at the client's
    position, a seek goes where it was asked to; an error is returned only if the
    download was later marked failed. *)
Definition served (c : cfg) (failed : bool) (older : list event) (e : event) : Prop :=
  match e with
  | EvRead pos n _ r =>
      pos = cursor older /\
      ((exists bs, r = Ok bs /\ faithful c pos n bs) \/ (failed = true /\ exists k, r = Err k))
  | EvSeek from r =>
      ((exists p, r = Ok p) \/ (failed = true /\ exists k, r = Err k)) /\
      seek_result_ok c older e
  | _ => True
  end.

(** The position a representable seek target denotes: clamped to the known length. *)
Definition clamp (c : cfg) (t : Z) : nat :=
  Z.to_nat (match c_clen c with Some n => Z.min t (Z.of_nat n) | None => t end).

(** Number of actions of the reader thread in a schedule. *)
Fixpoint reader_steps (ls : list label) : nat :=
  match ls with [] => 0 | (LRStep | LRIoErr) :: t => S (reader_steps t) | _ :: t => reader_steps t end.

(** Actions of the download task, including the answers of the transport. *)
Definition task_label (l : label) : bool :=
  match l with LRStep | LRIoErr | LOp _ | LUserCancel | LDrop => false | _ => true end.
Fixpoint task_steps (ls : list label) : nat :=
  match ls with [] => 0 | l :: t => (if task_label l then 1 else 0) + task_steps t end.

(** Actions of the download task and of the reader inside a call. *)
Definition action (l : label) : bool :=
  match l with LOp _ | LUserCancel | LDrop => false | _ => true end.
Fixpoint actions (ls : list label) : nat :=
  match ls with [] => 0 | l :: t => (if action l then 1 else 0) + actions t end.
(** Calls of [read] and [seek]. *)
Fixpoint calls (ls : list label) : nat :=
  match ls with [] => 0 | LOp _ :: t => S (calls t) | _ :: t => calls t end.

(** Calls that have returned. *)
Fixpoint returned (tr : list event) : nat :=
  match tr with
  | [] => 0
  | EvRead _ _ _ _ :: t | EvSeek _ _ :: t => S (returned t)
  | _ :: t => returned t
  end.

(** All calls made so far are successful reads with a non-empty buffer. *)
Definition reads_succeed (tr : list event) : Prop :=
  forall e, In e tr ->
    match e with
    | EvRead _ n _ (Ok _) => 0 < n
    | EvRead _ _ _ _ | EvSeek _ _ => False
    | _ => True
    end.

(** Labels of a schedule during one call: no further call is started, and no operation of
    the call on the storage fails. *)
Definition during_call (l : label) : Prop :=
  match l with LOp _ | LDrop | LRIoErr => False | _ => True end.

(** Everything the download task can see or be disturbed by. *)
Definition task_view (s : gstate) :=
  (g_down s, g_failed s, g_req s, g_reached s, g_done s, (g_permit s, g_again s, g_wreq s, g_chan s),
   (g_cancel s, g_dpc s, g_pfc s, g_pfs s), (g_rem s, g_scur s, g_send s)).

(** With capacity [cap]: an oversized read is refused without waiting, and so is a seek
    that lands further than the capacity beyond the client's position. *)
Definition oversized_refused (c : cfg) (cap : nat) (older : list event) (e : event) : Prop :=
  match e with
  | EvRead _ n waited r =>
      cap < n -> waited = false /\ (r = Err EInvalidInput \/ r = Err EOther)
  | EvSeek from r =>
      forall t, seek_target c (cursor older) from = Some t -> (0 <= t < two64)%Z ->
        cursor older + cap < clamp c t -> r = Err EInvalidInput \/ r = Err EOther
  | _ => True
  end.

(** Seeks relative to an unknown end are refused. *)
Definition end_refused (older : list event) (e : event) : Prop :=
  match e with
  | EvSeek (FromEnd _) r => r = Err EUnsupported \/ r = Err EOther
  | _ => True
  end.

(** Nothing is reported after completion was. *)
Definition is_progress (e : event) : bool :=
  match e with EvProgress _ _ _ => true | _ => false end.
Definition nothing_after_complete (older : list event) (e : event) : Prop :=
  is_progress e = true -> forall pos ch, ~ In (EvProgress PhComplete pos ch) older.

(** Response bodies are never cut short. *)
Definition no_truncation : gstate -> label -> Prop :=
  fun s l => match l with LDEof => g_scur s = g_send s | _ => True end.

(** The storage has refused data (it was full). *)
Definition refused_data (tr : list event) : Prop :=
  exists offered accepted, In (EvWrite offered accepted) tr /\ accepted < offered.

(** ** Environments of the main theorems *)

(** A client that never seeks backwards; a transport without silent truncation. *)
Definition forward_env (c : cfg) : gstate -> label -> Prop :=
  both (forward_client c) (both (no_empty_chunk_past_end c) (no_silent_truncation c)).

Definition roaming_env (c : cfg) : gstate -> label -> Prop :=
  both (roaming_client c) (both (no_empty_chunk_past_end c) (no_silent_truncation c)).

(** Any client; a transport without silent truncation. *)
Definition honest_env (c : cfg) : gstate -> label -> Prop :=
  both (no_empty_chunk_past_end c) (no_silent_truncation c).

(** The token is not cancelled through the API. *)
Definition no_user_cancel : gstate -> label -> Prop :=
  fun _ l => match l with LUserCancel => False | _ => True end.

(** Every range request lies inside a resource of length [cl]. *)
Definition request_inside (cl : nat) (e : event) : Prop :=
  match e with
  | EvSeekRange a b => a <= cl /\ exists e, b = Some e /\ 0 < e <= cl
  | _ => True
  end.

(** Every range request is non-empty, not inverted and inside the resource. *)
Definition gap_request (c : cfg) (e : event) : Prop :=
  match e with
  | EvSeekRange a b => exists cl e, c_clen c = Some cl /\ b = Some e /\ a < e <= cl
  | _ => True
  end.

(** No range request. *)
Definition no_range (e : event) : Prop := match e with EvSeekRange _ _ => False | _ => True end.

(** The position a call in progress has asked the task for. *)
Definition wait_target (r : rpc) : option nat :=
  match r with
  | RRNotify _ _ rq | RRWait _ _ rq => Some rq
  | RSSend _ p | RSWait _ p => Some p
  | _ => None
  end.

(** The task is shutting down. *)
Definition stopping (d : dpc) : Prop :=
  match d with
  | DOnFinish false | DSetFailed | DSignal | DCancelTok | DEnd => True
  | _ => False
  end.

(** A seek to a negative position goes to the end of a resource of known length. *)
Definition negative_to_end (c : cfg) (older : list event) (e : event) : Prop :=
  match e with
  | EvSeek from (Ok p) =>
      seek_arg_ok from -> forall t, seek_target c (cursor older) from = Some t -> (t < 0)%Z ->
        forall cl, c_clen c = Some cl -> p = cl
  | _ => True
  end.

(** A call did not panic. *)
Definition no_panic (e : event) : Prop :=
  match e with EvRead _ _ _ r => r <> Panic | EvSeek _ r => r <> Panic | _ => True end.

(** The storage is not memory behind an unknown length. *)
Definition clamped_or_file (c : cfg) : Prop :=
  c_clen c <> None \/ (exists cap, c_provider c = PPlain (PlTemp cap)) \/
  exists limits, c_provider c = PPlain (PlCustom limits).

(** A transport that makes progress: it delivers non-empty chunks, ends a response body
    only where it is complete, and does not stall. *)
Definition productive : gstate -> label -> Prop :=
  fun s l =>
    match l with
    | LDChunk k => 0 < k
    | LDEof => g_scur s = g_send s
    | LDErr | LDTimeout _ => False
    | _ => True
    end.

(** [waits c allow n s s']: an execution from [s] to [s'] during which one call stays
    blocked and the task executes [n] actions. *)
Inductive waits (c : cfg) (allow : gstate -> label -> Prop) : nat -> gstate -> gstate -> Prop :=
| waits_start : forall s, blocked c s -> waits c allow 0 s s
| waits_step : forall n s s1 l s2, waits c allow n s s1 -> allow s1 l ->
    step c s1 l = Some s2 -> blocked c s2 ->
    waits c allow (n + if task_label l then 1 else 0) s s2.

(** Every step of the schedule [ls] from [s] is possible and allowed. *)
Fixpoint allowed (c : cfg) (allow : gstate -> label -> Prop) (s : gstate) (ls : list label)
  : Prop :=
  match ls with
  | [] => True
  | l :: t => allow s l /\ match step c s l with Some s' => allowed c allow s' t | None => False end
  end.

(** Number of seek calls started in a schedule. *)
Fixpoint seek_calls (ls : list label) : nat :=
  match ls with
  | [] => 0
  | LOp (OSeek _) :: t => S (seek_calls t)
  | _ :: t => seek_calls t
  end.

(** Upper bound for the work of the download of a resource of [len] bytes that is not
    disturbed by seeks. *)
Definition work_bound (len : nat) : nat := (2 * len + 3) * (11 * len + 20).

(** The same client, transport and settings with another storage provider. *)
Definition with_provider (c : cfg) (p : provider) : cfg :=
  mkCfg (c_content c) (c_clen c) (c_seekable c) (c_prefetch c) (c_batch c)
        (c_cancel_on_drop c) (c_inv c) (c_rec c) p.

(** The capacity a user chose: the size of the bounded storage; the other storages have
    none. *)
Definition chosen_capacity (p : provider) : option nat :=
  match p with PBounded _ _ n => Some n | PPlain _ | PAdaptive _ _ _ _ => None end.

(** Clients that stay within a capacity: no read larger than it, and no seek further than
    it beyond the current position. *)
Definition within_capacity (c : cfg) (cap : nat) : gstate -> label -> Prop :=
  fun s l =>
    match l with
    | LOp (ORead n) => n <= cap
    | LOp (OSeek from) =>
        forall t, seek_target c (cursor (g_trace s)) from = Some t ->
          (0 <= t < two64)%Z /\ (t <= Z.of_nat (cursor (g_trace s) + cap))%Z
    | _ => True
    end.

(** No connection is re-established while bytes of a chunk wait for room in the storage
    (this happens only right after the prefetch phase has filled bounded storage). *)
Definition no_reconnect_with_leftover : gstate -> label -> Prop :=
  fun s l => match l with LDTimeout RcOk => g_rem s = None | _ => True end.

(** A client that only reads; a transport without empty chunks and silent truncation,
    which does not reconnect while a partial chunk is pending. *)
Definition bounded_env (c : cfg) : gstate -> label -> Prop :=
  both (both sequential_client no_empty_chunk)
       (both (no_silent_truncation c) no_reconnect_with_leftover).

(** Bytes received from the transport and not yet stored. *)
Definition pending (s : gstate) : option (list byte) :=
  match g_dpc s with
  | DSelect => Some (match g_rem s with Some r => r | None => [] end)
  | DPre bytes w | DWTop bytes w _ | DWWait bytes w _ | DWCheck bytes w _ _ | DWNotify bytes w _ _ =>
      Some (skipn w bytes)
  | DWBatch bytes w _ nw | DWPost bytes w _ nw => Some (skipn (w + nw) bytes)
  | _ => None
  end.

(** A read into a buffer of at most [cap] bytes is not refused as too large. *)
Definition not_refused (cap : nat) (older : list event) (e : event) : Prop :=
  match e with EvRead _ n _ r => n <= cap -> r <> Err EInvalidInput | _ => True end.

(** The client sees the task wait for room in the storage. *)
Definition waits_for_room (s : gstate) : Prop :=
  match g_dpc s with DWWait _ _ _ => True | _ => False end.

(** With the given capacity (none: unlimited), a seek is refused as too far only if it
    lands further than the capacity beyond the client's position. *)
Definition refused_only_if_far (c : cfg) (cap : option nat) (older : list event) (e : event)
  : Prop :=
  match e with
  | EvSeek from (Err EInvalidInput) =>
      exists n, cap = Some n /\
      forall t, seek_target c (cursor older) from = Some t -> (0 <= t < two64)%Z ->
        cursor older + n < clamp c t
  | _ => True
  end.

(** The transport never stalls: no timeout, hence no reconnect. *)
Definition no_stall : gstate -> label -> Prop :=
  fun _ l => match l with LDTimeout _ => False | _ => True end.

(** Clients that seek only to data that is already downloaded, and never back to a
    position smaller than the number of bytes they have jumped over. *)
Definition local_client (c : cfg) : gstate -> label -> Prop :=
  fun s l =>
    match l with
    | LOp (OSeek from) =>
        forall t, seek_target c (cursor (g_trace s)) from = Some t ->
          (0 <= t < two64)%Z /\ is_downloaded s (clamp c t) /\ skipped (g_trace s) <= clamp c t
    | _ => True
    end.

(** Once the reader waits, the task sees the position it has requested.  The relaxed
    accesses of the code do not ensure this, see Tso.v; a fence would. *)
Definition fenced : gstate -> label -> Prop :=
  fun s l =>
    match l, g_rpc s with
    | LDStale, RRWait _ _ _ | LDStale, RSWait _ _ => False
    | _, _ => True
    end.

(** Such a client; a transport as in [bounded_env]. *)
Definition local_env (c : cfg) : gstate -> label -> Prop :=
  both (both (local_client c) no_empty_chunk)
       (both (no_silent_truncation c) no_reconnect_with_leftover).

(** A call does not panic, and a read is refused as invalid only if it is larger than
    [size] or if its position is more than [size] bytes behind what has been stored. *)
Definition local_call_ok (size : nat) (older : list event) (e : event) : Prop :=
  no_panic e /\
  match e with
  | EvRead pos n _ r =>
      r = Err EInvalidInput -> size < n \/ pos + size < accepted_total older
  | _ => True
  end.

(** The task notices a cancellation as soon as it looks for events: whenever it could
    observe a cancelled token it does nothing else. *)
Definition prompt : gstate -> label -> Prop :=
  fun s l => g_dpc s = DSelect -> g_cancel s = true -> task_label l = true -> l = LDCancel.

(** Nothing goes wrong and nobody cancels: range requests succeed, the storage works for
    the task, [on_finish] accepts the result. *)
Definition nothing_fails : gstate -> label -> Prop :=
  fun _ l =>
    match l with
    | LDSeekRes false | LDIoErr | LDFinishRes false | LUserCancel => False
    | _ => True
    end.

(** The transport says nothing: no chunk, no end, no error item, no outcome of a range
    request, and reconnects time out. *)
Definition silent_transport : gstate -> label -> Prop :=
  fun _ l =>
    match l with
    | LDChunk _ | LDEof | LDErr | LDSeekRes _ | LDTimeout RcOk | LDTimeout RcErr => False
    | _ => True
    end.

(** ** Announced lengths that need not be right *)

(** Every byte a read returned is the byte of the resource at the position it was read
    from; a read may return fewer bytes than asked for. *)
Definition genuine (c : cfg) (older : list event) (e : event) : Prop :=
  match e with
  | EvRead pos n _ (Ok bs) =>
      pos = cursor older /\ length bs <= n /\ bs = slice (c_content c) pos (length bs)
  | _ => True
  end.

(** The downloaded data is kept in a temporary file or in a storage of the user's own. *)
Definition in_file (c : cfg) : Prop :=
  (exists cap, c_provider c = PPlain (PlTemp cap)) \/
  exists limits, c_provider c = PPlain (PlCustom limits).

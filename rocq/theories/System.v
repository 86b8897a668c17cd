(** * System: the download task and the reader handle running concurrently.

    Models crates/stream-download/src/source/mod.rs (the download task),
    source/handle.rs (the shared synchronisation state) and the [Read]/[Seek]
    implementation of [StreamDownload] in lib.rs, together with an environment
    that stands for the remote resource, the network and the user.

    One state [gstate] is everything shared or private; [step] executes one atomic
    action of one participant.  A label says which participant moves and resolves
    the nondeterminism (size of the next chunk, outcome of a request, next user
    operation).  Any list of labels accepted by [step] is a schedule, so a theorem
    about all reachable states is a theorem about all interleavings. *)

From Coq Require Import List Arith Lia ZArith Bool.
From Verif Require Import Base RangeSet Storage.
Import ListNotations.

(** ** Configuration *)

(** What the transport does with a range request whose end is not after its start.
    [InvServeAll]: the range header is ignored and the whole resource is sent, which
    RFC 9110 section 14.2 allows (and RFC 2616 section 14.35.1 required) for an invalid
    byte-range-spec.
    [InvEmpty]: an empty body.  [InvFail]: an error. *)
Inductive inv_policy := InvServeAll | InvEmpty | InvFail.

(** What a successful [SourceStream::reconnect(pos)] delivers: the resource from
    [pos] on (range-capable HTTP server, http/mod.rs:349-351) or from the beginning
    (HTTP without [Accept-Ranges], http/mod.rs:352-361). *)
Inductive rec_policy := RecRange | RecFromStart.

Record cfg := mkCfg
  { c_content : list byte;           (* the bytes of the remote resource *)
    c_clen : option nat;             (* SourceStream::content_length, source/mod.rs:60 *)
    c_seekable : bool;               (* SourceStream::supports_seek, source/mod.rs:83 *)
    c_prefetch : nat;                (* Settings::prefetch_bytes, settings.rs:52 *)
    c_batch : nat;                   (* Settings::batch_write_size, settings.rs:53 *)
    c_cancel_on_drop : bool;         (* Settings::cancel_on_drop, settings.rs:55 *)
    c_inv : inv_policy;
    c_rec : rec_policy;
    c_provider : provider }.

(** ** Events *)

(** [std::io::SeekFrom]; [u64]/[i64] arguments as integers. *)
Inductive seek_from := FromStart (p : Z) | FromCurrent (d : Z) | FromEnd (d : Z).

(** Outcome of [timeout(retry_timeout, stream.reconnect(pos))] (source/mod.rs:278). *)
Inductive rec_result := RcOk | RcErr | RcElapsed.

(** [StreamPhase] (settings.rs:15-32). *)
Inductive phase := PhPrefetching (target chunk_size : nat) | PhDownloading (chunk_size : nat)
                 | PhComplete.

(** Observable events, recorded newest first.  [EvRead pos n waited r]: a [read] call
    with a buffer of [n] bytes issued at position [pos] returned [r]; [waited] says
    whether it had to wait for the download.  [EvSeek from r]: a [seek] call returned.
    [EvSeekRange], [EvReconnect]: requests made to the transport. [EvOnReconnect],
    [EvProgress]: user callbacks.  [EvWrite k]: the storage writer accepted [k] bytes in
    one call.  [EvFinish ok]: [on_finish] returned. *)
Inductive event :=
| EvRead (pos n : nat) (waited : bool) (r : result (list byte))
| EvSeek (from : seek_from) (r : result nat)
| EvSeekRange (start : nat) (stop : option nat)
| EvReconnect (pos : nat) (rc : rec_result)
| EvOnReconnect
| EvProgress (ph : phase) (current_position : nat) (current_chunk : range)
| EvWrite (offered accepted : nat)
| EvFinish (ok : bool).

(** ** Program counters *)

(** Download task (source/mod.rs:173-471).
    - [DSelect]: the [select!] of [download_inner] (204-230).
    - [DPre bytes w]: in [handle_prefetch]'s [write_batched], [w] bytes written (306).
    - [DWTop bytes w pos]: head of the loop of [write], [w] bytes written (411).
    - [DWBatch bytes w pos nw]: in [write]'s [write_batched], [nw] more written (413).
    - [DWPost]: after [write_batched], before updating the downloaded ranges (416-423).
    - [DWCheck]: about to look at the requested position (425-432).
    - [DWNotify]: requested position cleared, about to notify (434-435).
    - [DWWait]: in [wait_for_read] (438-443).
    - [DSeeking a b]: [stream.seek_range(a, b)] in flight (467-471).
    - [DFinish]: about to signal completion (345-346); [DReport]: about to report it (232).
    - [DOnFinish ok]: in [stream.on_finish] (186); [DSetFailed] (191); [DSignal] (193).
    - [DCancelTok]: about to cancel the token (lib.rs:412); [DEnd]: task finished.
    - [DPanic]: task panicked. *)
Inductive dpc :=
| DSelect
| DPre (bytes : list byte) (w : nat)
| DWTop (bytes : list byte) (w pos : nat)
| DWBatch (bytes : list byte) (w pos nw : nat)
| DWPost (bytes : list byte) (w pos nw : nat)
| DWCheck (bytes : list byte) (w pos nw : nat)
| DWNotify (bytes : list byte) (w pos nw : nat)
| DWWait (bytes : list byte) (w pos : nat)
| DSeeking (start : nat) (stop : option nat)
| DFinish
| DReport
| DOnFinish (ok : bool)
| DSetFailed
| DSignal
| DCancelTok
| DEnd
| DPanic.

(** Reader handle (lib.rs:548-622 and handle.rs:26-75).
    [read(buf)] with [n = buf.len()], [pos] the position it started at and [rq] the
    requested position: [RRCheck] (551-557), [RRGet] (563-575), [RRSet] (handle.rs:31),
    [RRNotify] (handle.rs:36), [RRWait] (handle.rs:37), [RRCheck2] (lib.rs:578),
    [RRRead] (452, 570, 586), [RRDone] (455).
    [seek(from)] with target [p]: [RSCheck] (593-597), [RSGet] (600-603), [RSSet]
    (handle.rs:41), [RSSend] (42), [RSWait] (47), [RSCheck2] (lib.rs:615), [RSSeek]
    (608-611, 618-620). *)
Inductive rpc :=
| RIdle
| RRCheck (n : nat)
| RRGet (n pos rq : nat)
| RRSet (n pos rq : nat)
| RRNotify (n pos rq : nat)
| RRWait (n pos rq : nat)
| RRCheck2 (n pos rq : nat)
| RRRead (n pos rq : nat) (waited : bool)
| RRDone (n pos : nat) (waited : bool) (r : result (list byte))
| RSCheck (from : seek_from)
| RSGet (from : seek_from) (p : nat)
| RSSet (from : seek_from) (p : nat)
| RSSend (from : seek_from) (p : nat)
| RSWait (from : seek_from) (p : nat)
| RSCheck2 (from : seek_from) (p : nat)
| RSSeek (from : seek_from) (p : nat)
| RDropped.

(** ** Global state *)

(** [g_store]: the storage.  [SourceHandle] (handle.rs:15-23): [g_down] downloaded
    ranges, [g_failed] download status, [g_req] requested position, [g_reached]/[g_done]
    the [Waiter] (105-108), [g_permit] and [g_again] the [Notify] (see [notify_one])
    and [g_wreq] [write_requested] (173-176), [g_chan] the seek channel of capacity 1
    (source/mod.rs:149).  [g_cancel]: the cancellation token.  [Source]
    (source/mod.rs:115-134): [g_pfc] prefetch_complete, [g_pfs] prefetch_start_position,
    [g_rem] remaining_bytes.  [g_scur]/[g_send]: the part of the resource the current
    response body has still to deliver. *)
Record gstate := mkG
  { g_store : store; g_down : rset; g_failed : bool; g_req : option nat;
    g_reached : bool; g_done : bool; g_permit : bool; g_again : nat; g_wreq : bool;
    g_chan : option nat; g_cancel : bool;
    g_dpc : dpc; g_pfc : bool; g_pfs : nat; g_rem : option (list byte);
    g_scur : nat; g_send : nat;
    g_rpc : rpc; g_trace : list event }.

(** Field updates. *)
Definition set_store (s : gstate) (x : store) : gstate :=
  mkG x (g_down s) (g_failed s) (g_req s) (g_reached s) (g_done s) (g_permit s) (g_again s) (g_wreq s) (g_chan s) (g_cancel s) (g_dpc s) (g_pfc s) (g_pfs s) (g_rem s) (g_scur s) (g_send s) (g_rpc s) (g_trace s).
Definition set_down (s : gstate) (x : rset) : gstate :=
  mkG (g_store s) x (g_failed s) (g_req s) (g_reached s) (g_done s) (g_permit s) (g_again s) (g_wreq s) (g_chan s) (g_cancel s) (g_dpc s) (g_pfc s) (g_pfs s) (g_rem s) (g_scur s) (g_send s) (g_rpc s) (g_trace s).
Definition set_failed (s : gstate) (x : bool) : gstate :=
  mkG (g_store s) (g_down s) x (g_req s) (g_reached s) (g_done s) (g_permit s) (g_again s) (g_wreq s) (g_chan s) (g_cancel s) (g_dpc s) (g_pfc s) (g_pfs s) (g_rem s) (g_scur s) (g_send s) (g_rpc s) (g_trace s).
Definition set_req (s : gstate) (x : option nat) : gstate :=
  mkG (g_store s) (g_down s) (g_failed s) x (g_reached s) (g_done s) (g_permit s) (g_again s) (g_wreq s) (g_chan s) (g_cancel s) (g_dpc s) (g_pfc s) (g_pfs s) (g_rem s) (g_scur s) (g_send s) (g_rpc s) (g_trace s).
Definition set_reached (s : gstate) (x : bool) : gstate :=
  mkG (g_store s) (g_down s) (g_failed s) (g_req s) x (g_done s) (g_permit s) (g_again s) (g_wreq s) (g_chan s) (g_cancel s) (g_dpc s) (g_pfc s) (g_pfs s) (g_rem s) (g_scur s) (g_send s) (g_rpc s) (g_trace s).
Definition set_done (s : gstate) (x : bool) : gstate :=
  mkG (g_store s) (g_down s) (g_failed s) (g_req s) (g_reached s) x (g_permit s) (g_again s) (g_wreq s) (g_chan s) (g_cancel s) (g_dpc s) (g_pfc s) (g_pfs s) (g_rem s) (g_scur s) (g_send s) (g_rpc s) (g_trace s).
Definition set_permit (s : gstate) (x : bool) : gstate :=
  mkG (g_store s) (g_down s) (g_failed s) (g_req s) (g_reached s) (g_done s) x (g_again s) (g_wreq s) (g_chan s) (g_cancel s) (g_dpc s) (g_pfc s) (g_pfs s) (g_rem s) (g_scur s) (g_send s) (g_rpc s) (g_trace s).
Definition set_again (s : gstate) (x : nat) : gstate :=
  mkG (g_store s) (g_down s) (g_failed s) (g_req s) (g_reached s) (g_done s) (g_permit s) x (g_wreq s) (g_chan s) (g_cancel s) (g_dpc s) (g_pfc s) (g_pfs s) (g_rem s) (g_scur s) (g_send s) (g_rpc s) (g_trace s).
Definition set_wreq (s : gstate) (x : bool) : gstate :=
  mkG (g_store s) (g_down s) (g_failed s) (g_req s) (g_reached s) (g_done s) (g_permit s) (g_again s) x (g_chan s) (g_cancel s) (g_dpc s) (g_pfc s) (g_pfs s) (g_rem s) (g_scur s) (g_send s) (g_rpc s) (g_trace s).
Definition set_chan (s : gstate) (x : option nat) : gstate :=
  mkG (g_store s) (g_down s) (g_failed s) (g_req s) (g_reached s) (g_done s) (g_permit s) (g_again s) (g_wreq s) x (g_cancel s) (g_dpc s) (g_pfc s) (g_pfs s) (g_rem s) (g_scur s) (g_send s) (g_rpc s) (g_trace s).
Definition set_cancel (s : gstate) (x : bool) : gstate :=
  mkG (g_store s) (g_down s) (g_failed s) (g_req s) (g_reached s) (g_done s) (g_permit s) (g_again s) (g_wreq s) (g_chan s) x (g_dpc s) (g_pfc s) (g_pfs s) (g_rem s) (g_scur s) (g_send s) (g_rpc s) (g_trace s).
Definition set_dpc (s : gstate) (x : dpc) : gstate :=
  mkG (g_store s) (g_down s) (g_failed s) (g_req s) (g_reached s) (g_done s) (g_permit s) (g_again s) (g_wreq s) (g_chan s) (g_cancel s) x (g_pfc s) (g_pfs s) (g_rem s) (g_scur s) (g_send s) (g_rpc s) (g_trace s).
Definition set_pfc (s : gstate) (x : bool) : gstate :=
  mkG (g_store s) (g_down s) (g_failed s) (g_req s) (g_reached s) (g_done s) (g_permit s) (g_again s) (g_wreq s) (g_chan s) (g_cancel s) (g_dpc s) x (g_pfs s) (g_rem s) (g_scur s) (g_send s) (g_rpc s) (g_trace s).
Definition set_pfs (s : gstate) (x : nat) : gstate :=
  mkG (g_store s) (g_down s) (g_failed s) (g_req s) (g_reached s) (g_done s) (g_permit s) (g_again s) (g_wreq s) (g_chan s) (g_cancel s) (g_dpc s) (g_pfc s) x (g_rem s) (g_scur s) (g_send s) (g_rpc s) (g_trace s).
Definition set_rem (s : gstate) (x : option (list byte)) : gstate :=
  mkG (g_store s) (g_down s) (g_failed s) (g_req s) (g_reached s) (g_done s) (g_permit s) (g_again s) (g_wreq s) (g_chan s) (g_cancel s) (g_dpc s) (g_pfc s) (g_pfs s) x (g_scur s) (g_send s) (g_rpc s) (g_trace s).
Definition set_scur (s : gstate) (x : nat) : gstate :=
  mkG (g_store s) (g_down s) (g_failed s) (g_req s) (g_reached s) (g_done s) (g_permit s) (g_again s) (g_wreq s) (g_chan s) (g_cancel s) (g_dpc s) (g_pfc s) (g_pfs s) (g_rem s) x (g_send s) (g_rpc s) (g_trace s).
Definition set_send (s : gstate) (x : nat) : gstate :=
  mkG (g_store s) (g_down s) (g_failed s) (g_req s) (g_reached s) (g_done s) (g_permit s) (g_again s) (g_wreq s) (g_chan s) (g_cancel s) (g_dpc s) (g_pfc s) (g_pfs s) (g_rem s) (g_scur s) x (g_rpc s) (g_trace s).
Definition set_rpc (s : gstate) (x : rpc) : gstate :=
  mkG (g_store s) (g_down s) (g_failed s) (g_req s) (g_reached s) (g_done s) (g_permit s) (g_again s) (g_wreq s) (g_chan s) (g_cancel s) (g_dpc s) (g_pfc s) (g_pfs s) (g_rem s) (g_scur s) (g_send s) x (g_trace s).
Definition set_trace (s : gstate) (x : list event) : gstate :=
  mkG (g_store s) (g_down s) (g_failed s) (g_req s) (g_reached s) (g_done s) (g_permit s) (g_again s) (g_wreq s) (g_chan s) (g_cancel s) (g_dpc s) (g_pfc s) (g_pfs s) (g_rem s) (g_scur s) (g_send s) (g_rpc s) x.

Definition emit (s : gstate) (e : event) : gstate := set_trace s (e :: g_trace s).

(** ** Labels *)

Inductive op := ORead (n : nat) | OSeek (from : seek_from).

(** [LDSeek]: the task receives a seek message; [LDChunk k]: the transport delivers the
    next [k] bytes; [LDEof]: it reports the end of the body, possibly early; [LDErr]: it
    yields an error item; [LDTimeout rc]: no data within the retry timeout and the
    reconnect attempt ends with [rc]; [LDCancel]: the task observes the cancellation;
    [LDStep]: the task executes its next local action; [LDSeekRes ok]: the range request
    in flight ends; [LDIoErr]: the operation on the storage in progress (write, flush or
    position query) fails; [LDFinishRes ok]: [on_finish] ends, [ok = false] turning
    success into an error.  [LDShort k]: a storage that is not bounded accepts only [k]
    bytes of the batch, as [Write::write] allows and a file does on a full device; the
    bounded storage writes each batch with [write_all] (bounded.rs:306-320).
    [LDStale]: the task loads the requested position and does not see a position that the
    reader has already stored.  Both accesses are relaxed (handle.rs:89-101), so nothing
    but another synchronisation between the two threads makes the store visible; this
    label is more liberal than any hardware.
    [LDAgain]: [wait_for_read] returns because of a permit that was left by an earlier
    wait (see [notify_one]).
    [LRStep]: the reader thread executes its next action; [LRIoErr]: the operation on the
    storage in progress (read, seek or position query) fails; [LOp o]: the user calls an
    operation; [LUserCancel]: the user cancels the token; [LDrop]: the user drops the
    handle. *)
Inductive label :=
| LDSeek | LDChunk (k : nat) | LDEof | LDErr | LDTimeout (rc : rec_result) | LDCancel
| LDStep | LDSeekRes (ok : bool) | LDIoErr | LDFinishRes (ok : bool) | LDStale | LDAgain
| LDShort (k : nat) | LRStep | LRIoErr | LOp (o : op) | LUserCancel | LDrop.

(** ** Initial state *)

(** [StreamDownload::from_create_stream] (lib.rs:385-425) after the stream was created,
    with [Source::new] (source/mod.rs:141-170).  [None]: the storage could not be
    created.  The initial response body is the whole resource. *)
Definition init (c : cfg) : option gstate :=
  match into_rw (c_provider c) (c_clen c) with
  | None => None
  | Some st =>
      Some (mkG st [] false None false false false 0 false None false
                DSelect (c_prefetch c =? 0) 0 None 0 (length (c_content c)) RIdle [])
  end.

(** ** Download task *)

(** [finish_or_find_next_gap] (source/mod.rs:331-348), up to the range request or the
    completion signal. *)
Definition finish_or_find_next_gap (c : cfg) (s : gstate) : gstate :=
  match c_seekable c, c_clen c with
  | true, Some cl =>
      match rs_next_gap 0 cl (g_down s) with
      | Some (a, b) => set_dpc (emit s (EvSeekRange a (Some b))) (DSeeking a (Some b))
      | None => set_dpc s DFinish
      end
  | _, _ => set_dpc s DFinish
  end.

(** [should_seek] (source/mod.rs:455-465). *)
Definition should_seek (c : cfg) (s : gstate) (p : nat) : bool :=
  if c_seekable c then
    match rs_get p (g_down s) with
    | Some (a, b) => negb ((a <=? st_wpos (g_store s)) && (st_wpos (g_store s) <? b))
    | None => true
    end
  else false.

(** [handle_seek] (source/mod.rs:236-270), up to the range request. *)
Definition handle_seek (c : cfg) (s : gstate) (p : nat) : gstate :=
  if should_seek c s p then
    let cur := st_wpos (g_store s) in
    let s1 :=
      if g_pfc s then set_pfc (set_pfs s p) false
      else set_pfc (set_down s (rs_add (g_pfs s) cur (g_down s))) true in
    match c_clen c with
    | Some cl =>
        match rs_next_gap (Nat.min cur p) cl (g_down s1) with
        | Some (a, b) =>
            let start := Nat.max a p in
            set_dpc (emit s1 (EvSeekRange start (Some b))) (DSeeking start (Some b))
        | None => s1
        end
    | None => set_dpc (emit s1 (EvSeekRange p None)) (DSeeking p None)
    end
  else s.

(** Is the request [start .. stop] one that no byte range can satisfy as written?  A
    request starting at the known content length is answered locally with an empty
    stream (http/mod.rs:305-312). *)
Definition inverted (c : cfg) (start : nat) (stop : option nat) : bool :=
  match stop with
  | Some e => (e <=? start) &&
              negb (match c_clen c with Some cl => start =? cl | None => false end)
  | None => false
  end.

(** Body delivered by a successful [seek_range(start, stop)]: the window of the resource
    it covers.  [None]: such a request cannot succeed. *)
Definition body_window (c : cfg) (start : nat) (stop : option nat) : option (nat * nat) :=
  let len := length (c_content c) in
  if inverted c start stop then
    match c_inv c with
    | InvServeAll => Some (0, len)
    | InvEmpty => Some (start, start)
    | InvFail => None
    end
  else
    let e := match stop with Some e => Nat.min e len | None => len end in
    Some (start, Nat.max start e).

(** Completion of [Source::seek] (source/mod.rs:467-471). *)
Definition seek_done (c : cfg) (s : gstate) (start : nat) (stop : option nat) (ok : bool)
  : option gstate :=
  if ok then
    match body_window c start stop with
    | None => None
    | Some (a, b) =>
        let s1 := set_send (set_scur s a) b in
        match st_wseek start (g_store s) with
        | (Ok _, st) => Some (set_dpc (set_store s1 st) DSelect)
        | (Err _, st) => Some (set_dpc (set_store s1 st) (DOnFinish false))
        | (Panic, st) => Some (set_dpc (set_store s1 st) DPanic)
        end
    end
  else Some (set_dpc s (DOnFinish false)).

(** [handle_bytes] (source/mod.rs:365-403) and the head of [handle_prefetch]
    (290-305), up to the first storage write. *)
Definition handle_bytes (c : cfg) (s : gstate) (bytes : option (list byte)) : gstate :=
  if g_pfc s then
    let s1 := set_rem s None in
    let pos := st_wpos (g_store s) in
    match g_rem s, bytes with
    | Some r, Some b => set_dpc s1 (DWTop (r ++ b) 0 pos)
    | Some r, None => set_dpc s1 (DWTop r 0 pos)
    | None, Some b => set_dpc s1 (DWTop b 0 pos)
    | None, None => finish_or_find_next_gap c s1
    end
  else
    match bytes with
    | Some b => set_dpc s (DPre b 0)
    | None =>
        finish_or_find_next_gap c
          (set_down (set_pfc s true) (rs_add (g_pfs s) (st_wpos (g_store s)) (g_down s)))
    end.

(** One iteration of [write_batched] (source/mod.rs:350-363) over [bytes] of which
    [off] are written: the number of bytes accepted and the new state. *)
Definition write_once (c : cfg) (s : gstate) (bytes : list byte) (off : nat)
  : nat * gstate :=
  let size := Nat.min (c_batch c) (length bytes - off) in
  let '(k, st) := st_write (slice bytes off size) (g_store s) in
  (k, emit (set_store s st) (EvWrite size k)).

(** Not the bounded storage. *)
Definition st_plain (st : store) : bool := match st with SPlain _ => true | _ => false end.

(** The same iteration when the storage accepts only [k] bytes of the batch. *)
Definition write_short (c : cfg) (s : gstate) (bytes : list byte) (off k : nat)
  : option (nat * gstate) :=
  let size := Nat.min (c_batch c) (length bytes - off) in
  let '(k', st) := st_write (slice bytes off k) (g_store s) in
  if st_plain (g_store s) && ((0 <? k) && (k <? size))
  then Some (k', emit (set_store s st) (EvWrite size k')) else None.

(** Tail of [handle_prefetch] (source/mod.rs:307-328). *)
Definition prefetch_done (c : cfg) (s : gstate) (bytes : list byte) (written : nat)
  : gstate :=
  let pos := st_wpos (g_store s) in
  let partial := written <? length bytes in
  let s1 := if partial then set_rem s (Some (skipn written bytes)) else s in
  let s2 :=
    if (g_pfs s + c_prefetch c <=? pos) || partial
    then set_pfc (set_down s1 (rs_add (g_pfs s) pos (g_down s1))) true
    else s1 in
  set_dpc (emit s2 (EvProgress (PhPrefetching (c_prefetch c) written) pos (0, pos))) DSelect.

(** [report_downloading_progress] (source/mod.rs:504-525), after [write] returned; the
    lookup of [new_position - 1] panics when it is not downloaded (or underflows). *)
Definition report_downloading (s : gstate) (bytes : list byte) : gstate :=
  let pos := st_wpos (g_store s) in
  match pos with
  | 0 => set_dpc s DPanic
  | S q =>
      match rs_get q (g_down s) with
      | None => set_dpc s DPanic
      | Some ch =>
          set_dpc (emit s (EvProgress (PhDownloading (length bytes)) pos ch)) DSelect
      end
  end.

(** [report_download_complete] (source/mod.rs:527-540). *)
Definition report_complete (s : gstate) : gstate :=
  let pos := st_wpos (g_store s) in
  let ch := match rs_get (Nat.max pos 1 - 1) (g_down s) with
            | Some r => r | None => (0, 0) end in
  set_dpc (emit s (EvProgress PhComplete pos ch)) (DOnFinish true).

(** [handle_reconnect] (source/mod.rs:272-288).  The callback runs whenever the attempt
    did not itself time out, even if it returned an error (279-285). *)
Definition handle_reconnect (c : cfg) (s : gstate) (rc : rec_result) : gstate :=
  let pos := st_wpos (g_store s) in
  let s1 := emit s (EvReconnect pos rc) in
  let len := length (c_content c) in
  match rc with
  | RcElapsed => s1
  | RcErr => emit s1 EvOnReconnect
  | RcOk =>
      emit (match c_rec c with
            | RecRange => set_send (set_scur s1 pos) (Nat.max pos len)
            | RecFromStart => set_send (set_scur s1 0) len
            end) EvOnReconnect
  end.

(** Next local action of the task (see [dpc] for the lines). *)
Definition d_step (c : cfg) (s : gstate) : option gstate :=
  match g_dpc s with
  | DPre bytes w =>
      let '(k, s1) := write_once c s bytes w in
      if k =? 0 then Some (prefetch_done c s1 bytes w)
      else Some (set_dpc s1 (DPre bytes (w + k)))
  | DWTop bytes w pos =>
      if w <? length bytes then Some (set_dpc (set_wreq s true) (DWBatch bytes w pos 0))
      else Some (report_downloading s bytes)
  | DWBatch bytes w pos nw =>
      let '(k, s1) := write_once c s bytes (w + nw) in
      if k =? 0 then Some (set_dpc s1 (DWPost bytes w pos nw))
      else Some (set_dpc s1 (DWBatch bytes w pos (nw + k)))
  | DWPost bytes w pos nw =>
      let np := st_wpos (g_store s) in
      let s1 := set_down s (rs_add pos np (g_down s)) in
      Some (set_dpc s1 (DWCheck bytes (w + nw) pos nw))
  | DWCheck bytes w pos nw =>
      match g_req s with
      | Some r =>
          if r <=? st_wpos (g_store s)
          then Some (set_dpc (set_req s None) (DWNotify bytes w pos nw))
          else Some (set_dpc s (if nw =? 0 then DWWait bytes w pos else DWTop bytes w pos))
      | None => Some (set_dpc s (if nw =? 0 then DWWait bytes w pos else DWTop bytes w pos))
      end
  | DWNotify bytes w pos nw =>
      Some (set_dpc (set_reached s true)
                    (if nw =? 0 then DWWait bytes w pos else DWTop bytes w pos))
  | DWWait bytes w pos =>
      if g_permit s then Some (set_dpc (set_permit s false) (DWTop bytes w pos)) else None
  | DFinish => Some (set_dpc (set_done s true) DReport)
  | DReport => Some (report_complete s)
  | DSetFailed => Some (set_dpc (set_failed s true) DSignal)
  | DSignal => Some (set_dpc (set_done s true) DCancelTok)
  | DCancelTok => Some (set_dpc (set_cancel s true) DEnd)
  | DSelect | DSeeking _ _ | DOnFinish _ | DEnd | DPanic => None
  end.

(** ** Reader *)

(** [(x as i64 + d) as u64] (lib.rs:435, 440), wrap-around semantics. *)
Definition as_u64 (z : Z) : Z := (z mod two64)%Z.

(** [get_absolute_seek_position] (lib.rs:427-449). *)
Definition absolute_seek_position (c : cfg) (rpos : nat) (from : seek_from) : result Z :=
  match from with
  | FromStart p => Ok p
  | FromCurrent d => Ok (as_u64 (Z.of_nat rpos + d))
  | FromEnd d =>
      match c_clen c with
      | Some cl => Ok (as_u64 (Z.of_nat cl + d))
      | None => Err EUnsupported
      end
  end.

(** [normalize_requested_position] (lib.rs:459-466). *)
Definition normalize (c : cfg) (p : Z) : Z :=
  match c_clen c with Some cl => Z.min p (Z.of_nat cl) | None => p end.

(** [check_for_excessive_seek] (lib.rs:491-516). *)
Definition excessive_seek (c : cfg) (rpos : nat) (p : Z) : bool :=
  match max_capacity (c_provider c) with
  | Some cap => (Z.of_nat rpos + Z.of_nat cap <? p)%Z
  | None => false
  end.

(** [check_for_excessive_read] (lib.rs:476-489). *)
Definition excessive_read (c : cfg) (n : nat) : bool :=
  match max_capacity (c_provider c) with Some cap => cap <? n | None => false end.

Definition finish_read (s : gstate) (pos n : nat) (waited : bool) (r : result (list byte))
  : gstate := set_rpc (emit s (EvRead pos n waited r)) RIdle.

Definition finish_seek (s : gstate) (from : seek_from) (r : result nat) : gstate :=
  set_rpc (emit s (EvSeek from r)) RIdle.

(** The receiving end of the seek channel exists while the task runs; afterwards
    [try_send] reports [Closed] (handle.rs:66-75). *)
Definition chan_open (d : dpc) : bool :=
  match d with DEnd | DPanic => false | _ => true end.

(** [Notify::notify_one] of tokio wakes the task if it waits in [notified]; otherwise it
    stores a permit, of which there can be one.  [g_permit]: the task has been woken, or a
    permit is stored.  Further notifications may store a permit that is left when the task
    goes on: for example the first one wakes the task and the second one comes before the
    task runs.  [g_again]: how many such permits there may be at most, see [Waits.v]. *)
Definition notify_one (s : gstate) : gstate :=
  set_again (set_permit s true)
            (if g_permit s then Nat.min 2 (S (g_again s)) else g_again s).

(** Next action of the reader thread (see [rpc] for the lines). *)
Definition r_step (c : cfg) (s : gstate) : option gstate :=
  let rpos := st_rpos (g_store s) in
  match g_rpc s with
  | RRCheck n =>
      if g_failed s then Some (finish_read s rpos n false (Err EOther))
      else if excessive_read c n then Some (finish_read s rpos n false (Err EInvalidInput))
      else
        let rq := Z.to_nat (normalize c (Z.of_nat (rpos + n))) in
        Some (set_rpc (set_store s (st_tell (g_store s))) (RRGet n rpos rq))
  | RRGet n pos rq =>
      match rs_get pos (g_down s) with
      | Some (_, e) =>
          if rq <=? e then Some (set_rpc s (RRRead n pos rq false))
          else Some (set_rpc s (RRSet n pos rq))
      | None => Some (set_rpc s (RRSet n pos rq))
      end
  | RRSet n pos rq => Some (set_rpc (set_req s (Some rq)) (RRNotify n pos rq))
  | RRNotify n pos rq =>
      Some (set_rpc (if g_wreq s then notify_one s else s) (RRWait n pos rq))
  | RRWait n pos rq =>
      if g_done s then Some (set_rpc s (RRCheck2 n pos rq))
      else if g_reached s then Some (set_rpc (set_reached s false) (RRCheck2 n pos rq))
      else None
  | RRCheck2 n pos rq =>
      if g_failed s then Some (finish_read s pos n true (Err EOther))
      else Some (set_rpc (set_store s (st_tell (g_store s))) (RRRead n pos rq true))
  | RRRead n pos rq waited =>
      match st_read n (g_store s) with
      | (Panic, st) => Some (finish_read (set_store s st) pos n waited Panic)
      | (r, st) => Some (set_rpc (set_store s st) (RRDone n pos waited r))
      end
  | RRDone n pos waited r =>
      let s1 := if g_wreq s then notify_one (set_wreq s false) else s in
      Some (finish_read s1 pos n waited r)
  | RSCheck from =>
      if g_failed s then Some (finish_seek s from (Err EOther))
      else
        match absolute_seek_position c rpos from with
        | Ok z =>
            let p := normalize c z in
            if excessive_seek c rpos p then Some (finish_seek s from (Err EInvalidInput))
            else Some (set_rpc s (RSGet from (Z.to_nat p)))
        | Err e => Some (finish_seek s from (Err e))
        | Panic => Some (finish_seek s from Panic)
        end
  | RSGet from p =>
      match rs_get p (g_down s) with
      | Some _ => Some (set_rpc s (RSSeek from p))
      | None => Some (set_rpc s (RSSet from p))
      end
  | RSSet from p => Some (set_rpc (set_req s (Some p)) (RSSend from p))
  | RSSend from p =>
      Some (set_rpc (match g_chan s with
                     | None => if chan_open (g_dpc s) then set_chan s (Some p) else s
                     | Some _ => s
                     end) (RSWait from p))
  | RSWait from p =>
      if g_done s then Some (set_rpc s (RSCheck2 from p))
      else if g_reached s then Some (set_rpc (set_reached s false) (RSCheck2 from p))
      else None
  | RSCheck2 from p =>
      if g_failed s then Some (finish_seek s from (Err EOther))
      else Some (set_rpc s (RSSeek from p))
  | RSSeek from p =>
      let '(r, st) := st_rseek p (g_store s) in
      Some (finish_seek (set_store s st) from r)
  | RIdle | RDropped => None
  end.

(** An operation of the reader on the storage fails: the read (lib.rs:452), the seek
    (lib.rs:609-610, 618-619), or the position query of [read] (lib.rs:555, 582) or
    [seek] (lib.rs:435; the queries at 497-503 need a bounded storage).  Of these the
    bounded storage passes only the read on to another storage, the others cannot fail
    (bounded.rs:237-262).  Simplification: a failing operation leaves the storage as it
    was. *)
Definition r_error (c : cfg) (s : gstate) : option gstate :=
  match g_rpc s with
  | RRRead n pos rq waited => Some (set_rpc s (RRDone n pos waited (Err EOther)))
  | RRCheck n =>
      if st_plain (g_store s) && negb (g_failed s || excessive_read c n)
      then Some (finish_read s (st_rpos (g_store s)) n false (Err EOther)) else None
  | RRCheck2 n pos rq =>
      if st_plain (g_store s) && negb (g_failed s)
      then Some (finish_read s pos n true (Err EOther)) else None
  | RSCheck (FromCurrent d) =>
      if st_plain (g_store s) && negb (g_failed s)
      then Some (finish_seek s (FromCurrent d) (Err EOther)) else None
  | RSSeek from p =>
      if st_plain (g_store s) then Some (finish_seek s from (Err EOther)) else None
  | _ => None
  end.

(** ** Transition function *)

Definition step (c : cfg) (s : gstate) (l : label) : option gstate :=
  match l with
  | LDSeek =>
      match g_dpc s, g_chan s with
      | DSelect, Some p => Some (handle_seek c (set_chan s None) p)
      | _, _ => None
      end
  | LDChunk k =>
      match g_dpc s with
      | DSelect =>
          if g_scur s + k <=? g_send s then
            Some (handle_bytes c (set_scur s (g_scur s + k))
                               (Some (slice (c_content c) (g_scur s) k)))
          else None
      | _ => None
      end
  | LDEof =>
      match g_dpc s with
      | DSelect => Some (handle_bytes c (set_send s (g_scur s)) None)
      | _ => None
      end
  | LDErr => match g_dpc s with DSelect => Some s | _ => None end
  | LDTimeout rc =>
      match g_dpc s with DSelect => Some (handle_reconnect c s rc) | _ => None end
  | LDCancel =>
      match g_dpc s with
      | DSelect => if g_cancel s then Some (set_dpc s (DOnFinish false)) else None
      | _ => None
      end
  | LDStep => d_step c s
  | LDSeekRes ok =>
      match g_dpc s with DSeeking a b => seek_done c s a b ok | _ => None end
  | LDIoErr =>
      match g_dpc s with
      | DSelect | DPre _ _ | DWTop _ _ _ | DWBatch _ _ _ _ | DWPost _ _ _ _ | DFinish
      | DReport => Some (set_dpc s (DOnFinish false))
      | _ => None
      end
  | LDShort k =>
      match g_dpc s with
      | DPre bytes w =>
          match write_short c s bytes w k with
          | Some (k', s1) => Some (set_dpc s1 (DPre bytes (w + k')))
          | None => None
          end
      | DWBatch bytes w pos nw =>
          match write_short c s bytes (w + nw) k with
          | Some (k', s1) => Some (set_dpc s1 (DWBatch bytes w pos (nw + k')))
          | None => None
          end
      | _ => None
      end
  | LDFinishRes ok =>
      match g_dpc s with
      | DOnFinish b =>
          Some (set_dpc (emit s (EvFinish (ok && b)))
                        (if ok && b then DSignal else DSetFailed))
      | _ => None
      end
  | LDStale =>
      match g_dpc s with
      | DWCheck bytes w pos nw =>
          Some (set_dpc s (if nw =? 0 then DWWait bytes w pos else DWTop bytes w pos))
      | _ => None
      end
  | LDAgain =>
      match g_dpc s, g_again s with
      | DWWait bytes w pos, S a => Some (set_dpc (set_again s a) (DWTop bytes w pos))
      | _, _ => None
      end
  | LRStep => r_step c s
  | LRIoErr => r_error c s
  | LOp o =>
      match g_rpc s with
      | RIdle => Some (set_rpc s (match o with ORead n => RRCheck n | OSeek f => RSCheck f end))
      | _ => None
      end
  | LUserCancel => Some (set_cancel s true)
  | LDrop =>
      match g_rpc s with
      | RIdle => Some (set_rpc (if c_cancel_on_drop c then set_cancel s true else s) RDropped)
      | _ => None
      end
  end.

(** Execution of a schedule. *)
Fixpoint run (c : cfg) (s : gstate) (ls : list label) : option gstate :=
  match ls with
  | [] => Some s
  | l :: t => match step c s l with Some s' => run c s' t | None => None end
  end.

(** * Source: the [SourceStream] trait, the task running on top of a real source, and the
    sources the crates provide.

    System.v treats the transport as an environment that hands out windows of the
    resource.  Here the task talks to an implementation of the trait
    (source/mod.rs:42-89): the bytes it stores are those the implementation yields, and
    the outcome of a range request or a reconnect is the one the implementation returns. *)

From Coq Require Import List Arith ZArith Bool String.
From Verif Require Import Base Storage System Http Opendal Process.
Import ListNotations.

(** [SourceStream] (source/mod.rs:42-89) over a state [X].
    [src_poll x k]: the next poll yields a chunk of [k] bytes, if that is possible now;
    [src_end]: it yields the end of the stream; [src_fail]: it yields an error item.
    The booleans are answers of the environment: whether the network (or the operating
    system) serves the request.  [src_on_finish x ok env] is whether the result is a
    success, [ok] whether the result passed in is. *)
Record source (X : Type) := mkSource {
  src_content_length : X -> option nat;
  src_supports_seek : X -> bool;
  src_poll : X -> nat -> option (list byte * X);
  src_end : X -> option X;
  src_fail : X -> option X;
  src_seek_range : X -> nat -> option nat -> bool -> result unit * X;
  src_reconnect : X -> nat -> bool -> result unit * X;
  src_on_finish : X -> bool -> bool -> bool }.

Arguments src_content_length {X}.
Arguments src_supports_seek {X}.
Arguments src_poll {X}.
Arguments src_end {X}.
Arguments src_fail {X}.
Arguments src_seek_range {X}.
Arguments src_reconnect {X}.
Arguments src_on_finish {X}.

(** The task, the reader and the source. *)
Record csys (X : Type) := mkC { cs_sys : gstate; cs_src : X }.
Arguments mkC {X}.
Arguments cs_sys {X}.
Arguments cs_src {X}.

(** [StreamDownload::from_create_stream] (lib.rs:385-425) takes the content length and
    the seek support from the stream.  The last two fields of the configuration only
    steer the bookkeeping fields [g_scur] and [g_send], on which [cstep] does not
    depend. *)
Definition over {X} (src : source X) (x0 : X) (c : cfg) : cfg :=
  mkCfg (c_content c) (src_content_length src x0) (src_supports_seek src x0) (c_prefetch c)
        (c_batch c) (c_cancel_on_drop c) InvEmpty RecRange (c_provider c).

(** One action.  Everything the source is not asked about is as in [System.step]; the
    calls of the trait methods are
    - [stream.next()] (source/mod.rs:203, items handled in 209-222 and 365-403),
    - [stream.seek_range] (source/mod.rs:468),
    - [stream.reconnect] (source/mod.rs:278), with [RcElapsed] the case that the retry
      timeout strikes first and the call is dropped,
    - [stream.on_finish] (source/mod.rs:186). *)
Definition cstep {X} (src : source X) (c : cfg) (cs : csys X) (l : label) : option (csys X) :=
  let s := cs_sys cs in
  let x := cs_src cs in
  let pos := st_wpos (g_store s) in
  match l with
  | LDChunk k =>
      match g_dpc s, src_poll src x k with
      | DSelect, Some (bs, x') =>
          Some (mkC (handle_bytes c (set_scur s (g_scur s + k)) (Some bs)) x')
      | _, _ => None
      end
  | LDEof =>
      match g_dpc s, src_end src x with
      | DSelect, Some x' => Some (mkC (handle_bytes c (set_send s (g_scur s)) None) x')
      | _, _ => None
      end
  | LDErr =>
      match g_dpc s, src_fail src x with
      | DSelect, Some x' => Some (mkC s x')
      | _, _ => None
      end
  | LDTimeout RcElapsed =>
      match g_dpc s with
      | DSelect => Some (mkC (emit s (EvReconnect pos RcElapsed)) x)
      | _ => None
      end
  | LDTimeout rc =>
      match g_dpc s with
      | DSelect =>
          match src_reconnect src x pos (match rc with RcOk => true | _ => false end) with
          | (Ok _, x') =>
              Some (mkC (emit (set_send (set_scur (emit s (EvReconnect pos RcOk)) pos)
                                        (Nat.max pos (List.length (c_content c)))) EvOnReconnect) x')
          | (Err _, x') => Some (mkC (emit (emit s (EvReconnect pos RcErr)) EvOnReconnect) x')
          | (Panic, x') => Some (mkC (set_dpc s DPanic) x')
          end
      | _ => None
      end
  | LDSeekRes ok =>
      match g_dpc s with
      | DSeeking a b =>
          match src_seek_range src x a b ok with
          | (Ok _, x') => option_map (fun s' => mkC s' x') (seek_done c s a b true)
          | (Err _, x') => Some (mkC (set_dpc s (DOnFinish false)) x')
          | (Panic, x') => Some (mkC (set_dpc s DPanic) x')
          end
      | _ => None
      end
  | LDFinishRes ok =>
      match g_dpc s with
      | DOnFinish b =>
          let r := src_on_finish src x b ok in
          Some (mkC (set_dpc (emit s (EvFinish r)) (if r then DSignal else DSetFailed)) x)
      | _ => None
      end
  | _ => option_map (fun s' => mkC s' x) (step c s l)
  end.

(** ** HTTP (http/mod.rs) *)

(** The server behind a network that may be down. *)
Definition over_network (net : bool) (server : http_client) : http_client :=
  fun req => if net then server req else None.

(** [poll_next] hands on what the response stream yields (http/mod.rs:278-288): any piece
    of the body, its end (possibly before the body is complete: a connection that breaks
    yields an error item and then the end), or an error item.  [on_finish] is the default
    (source/mod.rs:82-88). *)
Definition http_source (server : http_client) : source http_stream :=
  mkSource http_stream
    (fun x => option_map N.to_nat (hs_content_length x))
    http_supports_seek
    (fun x k => if Nat.leb k (List.length (hs_body x))
                then Some (firstn k (hs_body x), set_body x (skipn k (hs_body x))) else None)
    (fun x => Some (set_body x []))
    (fun x => Some x)
    (fun x a b net =>
       fst (http_seek_range (over_network net server) x (N.of_nat a) (option_map N.of_nat b)))
    (fun x pos net => fst (http_reconnect (over_network net server) x (N.of_nat pos)))
    (fun _ ok _ => ok).

(** The same over a server that changes with time: [server n] answers the request after
    the first [n] ones (a request the network swallows counts as well).  The state carries
    the number of requests sent. *)
Definition http_source_at (server : nat -> http_client) : source (http_stream * nat) :=
  let plain := http_source (server 0) in
  let sent (n : nat) (r : result unit * http_stream * list http_request) :=
    match r with (res, x', reqs) => (res, (x', n + List.length reqs)) end in
  mkSource (http_stream * nat)
    (fun x => src_content_length plain (fst x))
    (fun x => src_supports_seek plain (fst x))
    (fun x k => option_map (fun p => (fst p, (snd p, snd x))) (src_poll plain (fst x) k))
    (fun x => option_map (fun x' => (x', snd x)) (src_end plain (fst x)))
    (fun x => option_map (fun x' => (x', snd x)) (src_fail plain (fst x)))
    (fun x a b net =>
       sent (snd x) (http_seek_range (over_network net (server (snd x))) (fst x)
                                     (N.of_nat a) (option_map N.of_nat b)))
    (fun x pos net =>
       sent (snd x) (http_reconnect (over_network net (server (snd x))) (fst x) (N.of_nat pos)))
    (fun x ok env => src_on_finish plain (fst x) ok env).

(** ** OpenDAL (crates/stream-download-opendal/src/lib.rs) *)

(** The polls that the [AsyncRead] contract permits. *)
Definition od_can (x : od_stream) (k : nat) : bool :=
  od_read_ok x (od_room (od_reserve x)) (ODData k).

Definition opendal_source (object : list byte) : source od_stream :=
  mkSource od_stream
    od_content_length
    (fun _ => true)                                       (* lib.rs:213-215 *)
    (fun x k => if od_can x k then
                  match od_poll_next x (ODData k) with
                  | (OPChunk bs, x') => Some (bs, x')
                  | _ => None
                  end
                else None)
    (fun x => if od_can x 0 then Some (snd (od_poll_next x (ODData 0))) else None)
    (fun x => Some (snd (od_poll_next x (ODErr EOther))))
    (od_seek_range object)
    (od_reconnect object)
    (fun _ ok _ => ok).

(** ** Adapter for asynchronous readers (async_read.rs)

    [ar_rest] is what the wrapped reader will still yield, [ar_live] whether the
    [ReaderStream] still has it: tokio_util's stream drops the reader at its end and
    after an error. *)
Record async_stream := mkAr {
  ar_rest : list byte;
  ar_live : bool;
  ar_content_length : option nat }.

(** [AsyncReadStream::new] (async_read.rs:57-65). *)
Definition ar_new (input : list byte) (clen : option nat) : async_stream := mkAr input true clen.

(** [content_length], [supports_seek], [seek_range], [reconnect] (async_read.rs:79-99),
    [poll_next] (async_read.rs:108-113), which is [ReaderStream::poll_next]: chunks of at
    most 4096 bytes, never empty.  [on_finish] is a parameter: the default for
    [AsyncReadStream], another one for [ProcessStream]. *)
Definition ar_capacity : nat := Z.to_nat 4096.
Definition async_source (finish : bool -> bool -> bool) : source async_stream :=
  mkSource async_stream
    ar_content_length
    (fun _ => false)
    (fun x k => if ar_live x && (Nat.ltb 0 k && Nat.leb k (Nat.min ar_capacity (List.length (ar_rest x))))
                then Some (firstn k (ar_rest x),
                           mkAr (skipn k (ar_rest x)) true (ar_content_length x))
                else None)
    (fun x => if negb (ar_live x) || Nat.eqb (List.length (ar_rest x)) 0
              then Some (mkAr (ar_rest x) false (ar_content_length x)) else None)
    (fun x => if ar_live x then Some (mkAr (ar_rest x) false (ar_content_length x)) else None)
    (fun x _ _ _ => (Err EUnsupported, x))
    (fun x _ _ => (Err EUnsupported, x))
    (fun _ => finish).

Definition reader_source : source async_stream := async_source (fun ok _ => ok).

(** [ProcessStream] (process/mod.rs:243-318): the adapter over the output of a child
    process, with its own [on_finish].  [exit] is the child's exit status (success or
    not); [env] says whether waiting for it, or killing it, works. *)
Definition process_finish (exit : bool) (ok env : bool) : bool :=
  let res : result unit := if ok then Ok tt else Err EOther in
  let wait : result bool := if env then Ok exit else Err EOther in
  let kill : result unit := if env then Ok tt else Err EOther in
  match fst (on_finish res Completed wait kill) with Ok _ => true | _ => false end.
Definition process_source (exit : bool) : source async_stream := async_source (process_finish exit).

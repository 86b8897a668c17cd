(** * Specification of the composition of the task with a source. *)

From Coq Require Import String List Arith ZArith Bool.
From Verif Require Import Base Storage System Spec Http HttpSpec Source.
Import ListNotations.

(** States reachable from the source state [x0] by steps that satisfy [allow]. *)
Inductive creach {X} (src : source X) (x0 : X) (c : cfg) (allow : gstate -> label -> Prop)
  : csys X -> Prop :=
| creach_init : forall s, init c = Some s -> creach src x0 c allow (mkC s x0)
| creach_step : forall cs l cs', creach src x0 c allow cs -> allow (cs_sys cs) l ->
    cstep src c cs l = Some cs' -> creach src x0 c allow cs'.

(** The requests the task makes of a source: for a resource of known length, bounded
    ranges inside it; otherwise open ones. *)
Definition request_made (c : cfg) (a : nat) (b : option nat) : Prop :=
  match c_clen c with
  | Some cl => a <= cl /\ exists e, b = Some e /\ 0 < e <= cl
  | None => b = None
  end.

(** The bytes a range request asks for. *)
Definition requested (content : list byte) (a : nat) (b : option nat) : list byte :=
  match b with Some e => slice content a (e - a) | None => skipn a content end.

(** What the trait promises of an implementation, [content] being the bytes of the
    resource and [rest x] those the source in state [x] has still to yield: chunks are the
    next bytes; the stream ends at the end of what was asked for, or earlier where that
    can be noticed (known length, seekable); a successful [seek_range] yields the range, a
    successful [reconnect] the resource from the position on; a failed one changes
    nothing; no call made by the task panics; [on_finish] does not invent success. *)
Record delivers {X} (src : source X) (x0 : X) (c : cfg) (allow : gstate -> label -> Prop)
    (ok : X -> Prop) (rest : X -> list byte) : Prop := mkDelivers {
  dv_start : ok x0 /\ rest x0 = c_content c;
  dv_poll : forall x k bs x', ok x -> src_poll src x k = Some (bs, x') ->
    ok x' /\ length bs = k /\ rest x = bs ++ rest x';
  dv_end : forall s x x', ok x -> allow s LDEof -> src_end src x = Some x' ->
    ok x' /\ rest x' = [] /\ (no_silent_truncation c s LDEof \/ rest x = []);
  dv_fail : forall s x x', ok x -> allow s LDErr -> src_fail src x = Some x' ->
    ok x' /\ rest x' = rest x;
  dv_seek : forall x a b net, ok x -> c_seekable c = true -> request_made c a b ->
    match src_seek_range src x a b net with
    | (Ok _, x') => ok x' /\ rest x' = requested (c_content c) a b
    | (Err _, x') => ok x' /\ rest x' = rest x
    | (Panic, _) => False
    end;
  dv_reconnect : forall s rc x pos net, allow s (LDTimeout rc) -> ok x ->
    match src_reconnect src x pos net with
    | (Ok _, x') => ok x' /\ rest x' = skipn pos (c_content c)
    | (Err _, x') => ok x' /\ rest x' = rest x
    | (Panic, _) => False
    end;
  dv_finish : forall x net, ok x -> src_on_finish src x false net = false;
  (* no empty chunks, unless nothing is requested from beyond the end *)
  dv_chunk : (forall x bs x', ok x -> src_poll src x 0 = Some (bs, x') -> False) \/
             ((forall x a b net x', ok x -> request_made c a b -> length (c_content c) < a ->
                 src_seek_range src x a b net <> (Ok tt, x')) /\
              (forall s rc x pos net x', allow s (LDTimeout rc) -> ok x ->
                 length (c_content c) < pos -> src_reconnect src x pos net <> (Ok tt, x'))) }.

(** Restrictions that do not look at the outcome of a request. *)
Definition outcome_blind (allow : gstate -> label -> Prop) : Prop :=
  forall s, (forall r r', allow s (LDSeekRes r) -> allow s (LDSeekRes r')) /\
            (forall r r', allow s (LDTimeout r) -> allow s (LDTimeout r')) /\
            (forall r r', allow s (LDFinishRes r) -> allow s (LDFinishRes r')).

(** An HTTP server for [resource]: a plain request is answered with the whole resource, the
    length [clen] (if it announces one) and the given [Accept-Ranges] header; a range
    request that succeeds is answered with exactly the bytes it denotes.  Any range request
    may fail. *)
Definition serves (server : http_client) (resource : list byte) (clen : option N)
    (ranges : option string) : Prop :=
  server HGet = Some (mkResp true clen ranges resource) /\
  (clen = None \/ clen = Some (N.of_nat (length resource))) /\
  forall h r, server (HGetRange h) = Some r -> resp_success r = true ->
    exists first last, parse_range h = Some (first, last) /\
      (first < N.of_nat (length resource))%N /\
      resp_body r = bytes_between resource (N.to_nat first)
                      (option_map (fun l => S (N.to_nat l)) last).

(** No error items. *)
Definition no_error_item : gstate -> label -> Prop :=
  fun _ l => match l with LDErr => False | _ => True end.

(** A server that ignores an invalid range header (RFC 9110 14.2: "MAY ignore or reject";
    RFC 2616 14.35.1: "MUST ignore"), and otherwise serves ranges. *)
Definition ignoring_server (resource : list byte) (ranges : option string) : http_client :=
  fun req =>
    match req with
    | HGet => range_server resource ranges HGet
    | HGetRange h =>
        match parse_range h with
        | None => range_server resource ranges HGet
        | Some _ => range_server resource ranges req
        end
    end.

(** Execution of a schedule. *)
Fixpoint crun {X} (src : source X) (c : cfg) (cs : csys X) (ls : list label) : option (csys X) :=
  match ls with
  | [] => Some cs
  | l :: t => match cstep src c cs l with Some cs' => crun src c cs' t | None => None end
  end.

(** A server for [resource] that announces its length or none, and the stream the client
    opens to it. *)
Definition http_setup (server : http_client) (resource : list byte) (clen : option N)
    (ranges : option string) (x0 : http_stream) (c0 : cfg) : Prop :=
  serves server resource clen ranges /\ http_new server = inl x0 /\ c_content c0 = resource /\
  (Z.of_nat (length resource) < two64 / 2)%Z /\ 0 < c_batch c0.

(** Every action of a schedule satisfies [P] in the state it is taken in. *)
Fixpoint callowed {X} (src : source X) (c : cfg) (P : csys X -> label -> Prop) (cs : csys X)
    (ls : list label) : Prop :=
  match ls with
  | [] => True
  | l :: t => P cs l /\ match cstep src c cs l with Some cs' => callowed src c P cs' t | None => True end
  end.

(** The source makes progress: its chunks are not empty, it ends where it has nothing left,
    it does not stall and yields no error items. *)
Definition keeps_going {X} (rest : X -> list byte) (cs : csys X) (l : label) : Prop :=
  match l with
  | LDChunk k => 0 < k
  | LDEof => rest (cs_src cs) = []
  | LDErr | LDTimeout _ => False
  | _ => True
  end.

(** Nothing fails: the source serves the requests made of it and accepts the result, the
    storage works for the task, and nobody cancels. *)
Definition all_served {X} (src : source X) (c : cfg) (cs : csys X) (l : label) : Prop :=
  match l with
  | LDSeekRes net => forall a b, g_dpc (cs_sys cs) = DSeeking a b ->
      fst (src_seek_range src (cs_src cs) a b net) = Ok tt
  | LDFinishRes env => src_on_finish src (cs_src cs) true env = true
  | LDIoErr | LUserCancel => False
  | LDrop => c_cancel_on_drop c = false
  | _ => True
  end.

(** A server that answers every satisfiable range. *)
Definition answers (server : http_client) (resource : list byte) : Prop :=
  forall h first last, parse_range h = Some (first, last) ->
    (first < N.of_nat (length resource))%N ->
    exists r, server (HGetRange h) = Some r /\ resp_success r = true.

(** Nobody interferes: the client reads but does not seek, nobody cancels, the network is
    up when the task makes a request, the storage works. *)
Definition undisturbed (c : cfg) (l : label) : Prop :=
  match l with
  | LDChunk k => 0 < k
  | LDSeekRes net => net = true
  | LOp (OSeek _) | LDIoErr | LUserCancel => False
  | LDrop => c_cancel_on_drop c = false
  | _ => True
  end.

(** The same for a source that cannot seek: the client may seek as it likes. *)
Definition untroubled (c : cfg) (l : label) : Prop :=
  match l with
  | LDChunk k => 0 < k
  | LDFinishRes env => env = true
  | LDErr | LDIoErr | LUserCancel => False
  | LDrop => c_cancel_on_drop c = false
  | _ => True
  end.

(** Streaming through bounded storage: a client that only reads; no empty chunks; a response
    breaks off only where that is noticed; no stall while a partial chunk is pending. *)
Definition streaming_env (c : cfg) : gstate -> label -> Prop :=
  both (both sequential_client no_empty_chunk)
       (both (no_silent_truncation c)
             (fun s l => match l with LDTimeout _ => g_rem s = None | _ => True end)).

(** A source that has bytes left can yield some, one that has none left can end. *)
Definition can_go_on {X} (src : source X) (ok : X -> Prop) (rest : X -> list byte) : Prop :=
  forall x, ok x ->
    (rest x = [] -> exists x', src_end src x = Some x') /\
    (rest x <> [] -> exists k bs x', 0 < k /\ src_poll src x k = Some (bs, x')).

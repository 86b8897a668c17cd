(** * Http: the HTTP source (crates/stream-download/src/http/mod.rs).

    A client is any function from requests to replies.  Bodies are the bytes the response
    stream yields; how a body is cut into chunks, and what happens to it in transit, is the
    business of the system model (System.v), which treats every source. *)

From Coq Require Import List Arith ZArith Bool String Ascii.
From Coq Require Import DecimalString.
From Verif Require Import Base.
Import ListNotations.
Local Open Scope string_scope.

(** [Display] for [u64] ([e.to_string()], [{start}]; http/mod.rs:371-372). *)
Definition u64_to_string (n : N) : string := NilZero.string_of_uint (N.to_uint n).

(** [format_range_header_bytes] (http/mod.rs:369-374); [last] is inclusive. *)
Definition format_range_header_bytes (start : N) (last : option N) : string :=
  "bytes=" ++ u64_to_string start ++ "-" ++
  match last with Some e => u64_to_string e | None => "" end.

(** What [Client::get] and [Client::get_range] put on the wire: a GET without, or with, a
    Range header (http/reqwest_client.rs:110-124, reqwest_middleware_client.rs:32-46). *)
Inductive http_request := HGet | HGetRange (range_header : string).

(** The parts of a response the crate looks at (http/mod.rs:114-140): [into_result] fails
    exactly for an unsuccessful status (reqwest_client.rs:79-88). *)
Record http_response := mkResp {
  resp_success : bool;
  resp_content_length : option N;
  resp_accept_ranges : option string;
  resp_body : list byte }.

(** A client: [None] is a transport failure ([C::Error]). *)
Definition http_client := http_request -> option http_response.

(** [HttpStream] (http/mod.rs:173-188) without the URL and the content type. *)
Record http_stream := mkHttp {
  hs_body : list byte;               (* stream *)
  hs_content_length : option N;      (* content_length *)
  hs_accept_ranges : option string   (* headers, as far as "Accept-Ranges" *) }.

(** [HttpStreamError] (http/mod.rs:152-159). *)
Inductive http_error := FetchFailure | ResponseFailure.

(** [HttpStream::new] (http/mod.rs:193-253). *)
Definition http_new (client : http_client) : http_stream + http_error :=
  match client HGet with
  | None => inr FetchFailure
  | Some r =>
      if resp_success r
      then inl (mkHttp (resp_body r) (resp_content_length r) (resp_accept_ranges r))
      else inr ResponseFailure
  end.

(** [supports_range_request] (http/mod.rs:271-276). *)
Definition supports_range_request (s : http_stream) : bool :=
  match hs_accept_ranges s with
  | Some v => negb (String.eqb v "none")
  | None => false
  end.

Definition set_body (s : http_stream) (b : list byte) : http_stream :=
  mkHttp b (hs_content_length s) (hs_accept_ranges s).

(** [Some(start) == self.content_length] (http/mod.rs:301). *)
Definition at_content_length (start : N) (clen : option N) : bool :=
  match clen with Some n => N.eqb start n | None => false end.

(** [e - 1] on a [u64] (http/mod.rs:319): overflow checks make [0 - 1] panic.  (A build
    without overflow checks asks for [start-18446744073709551615] instead.) *)
Definition inclusive_end (e : option N) : result (option N) :=
  match e with
  | None => Ok None
  | Some 0%N => Panic
  | Some e => Ok (Some (N.pred e))
  end.

(** [seek_range] (http/mod.rs:300-341): result, stream afterwards, requests sent. *)
Definition http_seek_range (client : http_client) (s : http_stream) (start : N) (e : option N) :
    result unit * http_stream * list http_request :=
  if at_content_length start (hs_content_length s)
  then (Ok tt, set_body s [], [])
  else match inclusive_end e with
       | Panic => (Panic, s, [])
       | Err k => (Err k, s, [])
       | Ok last =>
           let req := HGetRange (format_range_header_bytes start last) in
           match client req with
           | None => (Err EOther, s, [req])
           | Some r =>
               if resp_success r then (Ok tt, set_body s (resp_body r), [req])
               else (Err EOther, s, [req])
           end
       end.

(** [reconnect] (http/mod.rs:343-356).  In the branch without range support the response
    status is not examined. *)
Definition http_reconnect (client : http_client) (s : http_stream) (pos : N) :
    result unit * http_stream * list http_request :=
  if supports_range_request s then http_seek_range client s pos None
  else match client HGet with
       | None => (Err EOther, s, [HGet])
       | Some r => (Ok tt, set_body s (resp_body r), [HGet])
       end.

(** [supports_seek] (http/mod.rs:358-360). *)
Definition http_supports_seek (s : http_stream) : bool := true.

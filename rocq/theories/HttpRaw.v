(** * HttpRaw: from an HTTP message to what the source uses of it
    (http/reqwest_client.rs, reqwest_middleware_client.rs, and the error texts of http/mod.rs).

    A message is a status, a list of header fields and a body; [reqwest] delivers these.
    [Http.v] starts behind the functions of this file. *)

From Coq Require Import List Arith ZArith Bool String Ascii.
From Verif Require Import Base Http.
Import ListNotations.
Local Open Scope string_scope.

(** [reqwest::Response]: status, header fields in order of arrival, body. *)
Record raw_response := mkRaw {
  raw_status : N;
  raw_headers : list (string * string);
  raw_body : list byte }.

(** ASCII lower case, which [HeaderMap] uses to compare names (http::HeaderName). *)
Definition lower (c : ascii) : ascii :=
  let n := N_of_ascii c in
  if ((65 <=? n) && (n <=? 90))%N then ascii_of_N (n + 32) else c.
Fixpoint lower_string (s : string) : string :=
  match s with EmptyString => EmptyString | String c s => String (lower c) (lower_string s) end.

(** [HeaderMap::get] (http/reqwest_client.rs:21): the first value of the field, whatever the
    case of its name. *)
Fixpoint header_get (headers : list (string * string)) (key : string) : option string :=
  match headers with
  | [] => None
  | (name, value) :: rest =>
      if String.eqb (lower_string name) (lower_string key) then Some value
      else header_get rest key
  end.

(** [HeaderValue::to_str] (http/reqwest_client.rs:22): only visible ASCII, space and tab. *)
Definition visible (c : ascii) : bool :=
  let n := N_of_ascii c in ((32 <=? n) && (n <? 127) || (n =? 9))%N.
Fixpoint all_visible (s : string) : bool :=
  match s with EmptyString => true | String c s => visible c && all_visible s end.

(** [get_header_str] (http/reqwest_client.rs:20-26), also [ResponseHeaders::header]
    (lines 14-18) and [HttpStream::header] (http/mod.rs:262-264). *)
Definition get_header_str (headers : list (string * string)) (key : string) : option string :=
  match header_get headers key with
  | Some v => if all_visible v then Some v else None
  | None => None
  end.

(** [u64::from_str] (http/reqwest_client.rs:65): an optional plus sign and at least one
    digit; [None] stands for any error. *)
Definition digit (c : ascii) : option N :=
  let n := N_of_ascii c in
  if ((48 <=? n) && (n <=? 57))%N then Some (n - 48)%N else None.
Fixpoint from_digits (acc : N) (s : string) : option N :=
  match s with
  | EmptyString => Some acc
  | String c s =>
      match digit c with
      | Some d =>
          let acc := (10 * acc + d)%N in
          if (acc <? 18446744073709551616)%N then from_digits acc s else None
      | None => None
      end
  end.
Definition u64_from_str (s : string) : option N :=
  match s with
  | EmptyString => None
  | String c rest =>
      if Ascii.eqb c "+"
      then match rest with EmptyString => None | _ => from_digits 0 rest end
      else from_digits 0 s
  end.

(** [content_length] (http/reqwest_client.rs:63-69). *)
Definition raw_content_length (r : raw_response) : option N :=
  match get_header_str (raw_headers r) "content-length" with
  | Some v => u64_from_str v
  | None => None
  end.

(** [error_for_status_ref] in [into_result] (http/reqwest_client.rs:79-88): an error for
    statuses 400 to 599. *)
Definition raw_success (r : raw_response) : bool :=
  negb ((400 <=? raw_status r) && (raw_status r <? 600))%N.

(** The response as [http/mod.rs] sees it. *)
Definition response_of (r : raw_response) : http_response :=
  mkResp (raw_success r) (raw_content_length r)
    (get_header_str (raw_headers r) "Accept-Ranges") (raw_body r).

(** A server at the level of messages, and the client on top of it: [get] and [get_range]
    (http/reqwest_client.rs:110-124, reqwest_middleware_client.rs:32-46). *)
Definition raw_server := http_request -> option raw_response.
Definition client_of (server : raw_server) : http_client := fun req =>
  option_map response_of (server req).

(** ** Error texts *)

(** [WrapIoResult::wrap_err] (lib.rs:624-636) on an error of kind [k] and text [e]. *)
Definition wrap_err (msg : string) (err : io_kind * string) : io_kind * string :=
  (fst err, msg ++ ": " ++ snd err).

(** [FetchError::decode_error] (http/reqwest_client.rs:49-56): [source] is the text of the
    status error, [text] the decoded body or the text of the error while decoding it. *)
Definition decode_fetch_error (source : string) (text : string + string) : string :=
  match text with
  | inl t => source ++ ": " ++ t
  | inr e => source ++ ". Error decoding response: " ++ e
  end.

(** What went wrong with a request: no response, with the text of the client's error, or a
    response with an error status. *)
Inductive request_failure :=
| NoResponse (e : string)
| ErrorStatus (source : string) (text : string + string).

(** The error of [seek_range] (http/mod.rs:316-337). *)
Definition seek_range_error (url : string) (f : request_failure) : io_kind * string :=
  match f with
  | NoResponse e => wrap_err ("error sending HTTP range request to " ++ url) (EOther, e)
  | ErrorStatus source text =>
      wrap_err ("error getting HTTP range response from " ++ url)
        (EOther, decode_fetch_error source text)
  end.

(** The error of [reconnect] without range support (http/mod.rs:347-352). *)
Definition reconnect_error (url e : string) : io_kind * string :=
  wrap_err ("error sending HTTP request to " ++ url) (EOther, e).

(** [HttpStreamError::decode_error] (http/mod.rs:150-168) and through it
    [StreamInitializationError::decode_error] for a stream that could not be created
    (lib.rs:531-538). *)
Definition creation_error (f : request_failure) : string :=
  match f with
  | NoResponse e => "Failed to fetch: " ++ e
  | ErrorStatus source text => decode_fetch_error source text
  end.

(** [StreamInitializationError] (lib.rs:518-538): either the storage (with its text) or the
    stream failed. *)
Definition initialization_error (e : string + request_failure) : string :=
  match e with
  | inl storage => "Storage creation failure: " ++ storage
  | inr f => creation_error f
  end.

(** ** Default middleware *)

(** The process-wide list [DEFAULT_MIDDLEWARE] (http/reqwest_middleware_client.rs:9-17) and
    the clients made from it by [create] (lines 25-30): each gets a copy of the list.
    [M] is the type of middleware. *)
Inductive mw_op (M : Type) := MwAdd (m : M) | MwCreate.
Arguments MwAdd {M} m.
Arguments MwCreate {M}.

(** Runs the calls in the order in which they take the lock; returns the list and the
    middleware of the clients created. *)
Fixpoint mw_run {M : Type} (defaults : list M) (ops : list (mw_op M)) : list M * list (list M) :=
  match ops with
  | [] => (defaults, [])
  | MwAdd m :: ops => mw_run (defaults ++ [m]) ops
  | MwCreate :: ops => let '(d, clients) := mw_run defaults ops in (d, defaults :: clients)
  end.

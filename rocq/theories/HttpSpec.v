(** * Specification of HTTP range requests (RFC 9110, section 14). *)

From Coq Require Import List Arith ZArith Bool String Ascii.
From Verif Require Import Base Http.
Import ListNotations.
Local Open Scope string_scope.

(** Value of a decimal digit. *)
Definition digit_value (c : ascii) : option N :=
  let n := N_of_ascii c in
  if (48 <=? n)%N && (n <=? 57)%N then Some (n - 48)%N else None.

(** Reads [1*DIGIT] as a number, returning the rest of the text.  [None] when there is
    no digit. *)
Fixpoint digits_from (acc : N) (s : string) : N * string :=
  match s with
  | EmptyString => (acc, s)
  | String c s' =>
      match digit_value c with
      | Some d => digits_from (10 * acc + d) s'
      | None => (acc, s)
      end
  end.

Definition starts_with_digit (s : string) : bool :=
  match s with
  | String c _ => match digit_value c with Some _ => true | None => false end
  | EmptyString => false
  end.

Definition read_number (s : string) : option (N * string) :=
  if starts_with_digit s then Some (digits_from 0 s) else None.

(** [expect p s]: the text after the literal [p]. *)
Fixpoint expect (p s : string) : option string :=
  match p, s with
  | EmptyString, _ => Some s
  | String a p', String b s' => if Ascii.eqb a b then expect p' s' else None
  | String _ _, EmptyString => None
  end.

(** RFC 9110 14.1.1/14.1.2: [Range = "bytes" "=" first-pos "-" [ last-pos ]], both
    positions inclusive; a last-pos below first-pos is invalid. *)
Definition parse_range (h : string) : option (N * option N) :=
  match expect "bytes=" h with
  | None => None
  | Some s =>
      match read_number s with
      | None => None
      | Some (first, s) =>
          match expect "-" s with
          | None => None
          | Some EmptyString => Some (first, None)
          | Some s =>
              match read_number s with
              | Some (lst, EmptyString) => if (lst <? first)%N then None else Some (first, Some lst)
              | _ => None
              end
          end
      end
  end.

(** The bytes of [resource] from [start] up to, not including, [stop] (or to the end). *)
Definition bytes_between (resource : list byte) (start : nat) (stop : option nat) : list byte :=
  match stop with
  | None => skipn start resource
  | Some e => firstn (e - start) (skipn start resource)
  end.

(** A server that honours ranges: a plain GET returns the whole resource, a satisfiable
    range exactly the bytes it denotes, anything else an error status. *)
Definition range_server (resource : list byte) (ranges : option string) : http_client := fun req =>
  let len := N.of_nat (List.length resource) in
  match req with
  | HGet => Some (mkResp true (Some len) ranges resource)
  | HGetRange h =>
      match parse_range h with
      | None => Some (mkResp false None ranges [])
      | Some (first, lst) =>
          if (first <? len)%N
          then let body := bytes_between resource (N.to_nat first)
                             (match lst with Some l => Some (S (N.to_nat l)) | None => None end) in
               Some (mkResp true (Some (N.of_nat (List.length body))) ranges body)
          else Some (mkResp false None ranges [])
      end
  end.

(** A server without range support: it answers every request with the whole resource. *)
Definition plain_server (resource : list byte) : http_client := fun _ =>
  Some (mkResp true (Some (N.of_nat (List.length resource))) None resource).

(** The streams a client can be in: freshly created, after the consumer took bytes off the
    body, after a seek, after a reconnect. *)
Inductive http_reachable (client : http_client) : http_stream -> Prop :=
| hr_new s : http_new client = inl s -> http_reachable client s
| hr_consume s k : http_reachable client s ->
    http_reachable client (mkHttp (skipn k (hs_body s)) (hs_content_length s) (hs_accept_ranges s))
| hr_seek s start e r s' reqs : http_reachable client s ->
    http_seek_range client s start e = (r, s', reqs) -> http_reachable client s'
| hr_reconnect s pos r s' reqs : http_reachable client s ->
    http_reconnect client s pos = (r, s', reqs) -> http_reachable client s'.

(** The server announced support for range requests (RFC 9110, 14.3). *)
Definition announces_ranges (s : http_stream) : Prop :=
  exists v, hs_accept_ranges s = Some v /\ v <> "none".

(** A non-empty interval: the exclusive end, if given, lies behind the start. *)
Definition end_ok (start : N) (e : option N) : Prop :=
  match e with Some e => (start < e)%N | None => True end.

Definition nat_opt (e : option N) : option nat := option_map N.to_nat e.

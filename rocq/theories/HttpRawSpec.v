(** * Specification of HTTP messages: header fields, lengths, statuses (RFC 9110). *)

From Coq Require Import List Arith ZArith Bool String Ascii.
From Verif Require Import Base Http HttpSpec HttpRaw.
Import ListNotations.
Local Open Scope string_scope.

(** Letters are compared without regard to case (RFC 9110, 5.1). *)
Definition same_letter (a b : ascii) : Prop :=
  let x := N_of_ascii a in
  let y := N_of_ascii b in
  (x = y \/ (65 <= x <= 90 /\ y = x + 32) \/ (65 <= y <= 90 /\ x = y + 32))%N.
Inductive same_name : string -> string -> Prop :=
| sn_nil : same_name "" ""
| sn_cons a b s t : same_letter a b -> same_name s t -> same_name (String a s) (String b t).

(** [v] is the value of the first field called [key]. *)
Definition first_value (headers : list (string * string)) (key v : string) : Prop :=
  exists before name after,
    headers = (before ++ (name, v) :: after)%list /\ same_name name key /\
    forall n w, In (n, w) before -> ~ same_name n key.

(** Text without control characters or bytes outside ASCII. *)
Definition is_text (s : string) : Prop :=
  forall i c, String.get i s = Some c -> ((32 <= N_of_ascii c < 127) \/ N_of_ascii c = 9)%N.

(** [v] denotes the number [n] in decimal. *)
Definition decimal (v : string) (n : N) : Prop := read_number v = Some (n, "").

(** A client or server error (RFC 9110, 15.5 and 15.6). *)
Definition error_status (status : N) : Prop := (400 <= status <= 599)%N.

(** A server for [resource] that supports ranges: it states the length, in any letter case
    and among any other fields, and answers satisfiable ranges with exactly the bytes they
    denote; its statuses are any but errors. *)
Definition serves_ranges (resource : list byte) (server : raw_server) : Prop :=
  let len := N.of_nat (List.length resource) in
  (exists r v, server HGet = Some r /\ ~ error_status (raw_status r) /\
     first_value (raw_headers r) "Content-Length" v /\ is_text v /\ decimal v len /\
     raw_body r = resource) /\
  (forall h first lst, parse_range h = Some (first, lst) -> (first < len)%N ->
     exists r, server (HGetRange h) = Some r /\ ~ error_status (raw_status r) /\
       raw_body r = bytes_between resource (N.to_nat first)
                      (match lst with Some l => Some (S (N.to_nat l)) | None => None end)).

(** [t] occurs in [s]. *)
Definition contains (s t : string) : Prop := exists a b, s = a ++ t ++ b.

(** The middleware registered in a history of calls, oldest first. *)
Fixpoint registered {M : Type} (ops : list (mw_op M)) : list M :=
  match ops with
  | [] => []
  | MwAdd m :: ops => m :: registered ops
  | MwCreate :: ops => registered ops
  end.
Fixpoint created {M : Type} (ops : list (mw_op M)) : nat :=
  match ops with
  | [] => 0
  | MwAdd _ :: ops => created ops
  | MwCreate :: ops => S (created ops)
  end.

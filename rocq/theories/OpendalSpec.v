(** * Specification of OpenDAL streaming. *)

From Coq Require Import List Arith Bool.
From Verif Require Import Base HttpSpec Opendal.
Import ListNotations.

(** What a user of the stream sees. *)
Inductive od_event :=
| OEPoll (p : od_poll)
| OESeek (start : nat) (e : option nat) (r : result unit).

(** The streams and histories (latest event first) that polls and seeks lead to, whatever
    the reader returns within the [AsyncRead] contract. *)
Inductive od_reach (object : list byte) (p : od_params) : od_stream -> list od_event -> Prop :=
| or_new s : od_new p object true = Some s -> od_reach object p s []
| or_poll s tr r q s' : od_reach object p s tr ->
    od_read_ok s (od_room (od_reserve s)) r = true -> od_poll_next s r = (q, s') ->
    od_reach object p s' (OEPoll q :: tr)
| or_seek s tr start e ok r s' : od_reach object p s tr ->
    od_seek_range object s start e ok = (r, s') ->
    od_reach object p s' (OESeek start e r :: tr).

(** The bytes asked for: those of the latest successful seek, else the whole object. *)
Fixpoint asked_for (object : list byte) (tr : list od_event) : list byte :=
  match tr with
  | OESeek start e (Ok _) :: _ => bytes_between object start e
  | _ :: tr => asked_for object tr
  | [] => object
  end.

(** The bytes delivered since then. *)
Fixpoint delivered (tr : list od_event) : list byte :=
  match tr with
  | OESeek _ _ (Ok _) :: _ => []
  | OEPoll (OPChunk bs) :: tr => delivered tr ++ bs
  | _ :: tr => delivered tr
  | [] => []
  end.

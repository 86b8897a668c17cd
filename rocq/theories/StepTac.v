(** * Tactics for case analysis on transitions. *)

From Coq Require Import List Arith Lia ZArith Bool.
From Verif Require Import Base RangeSet Storage System.
Import ListNotations.

(** Projections of updated states compute. *)
Ltac gsimpl :=
  cbn [g_store g_down g_failed g_req g_reached g_done g_permit g_again g_wreq g_chan g_cancel
       g_dpc g_pfc g_pfs g_rem g_scur g_send g_rpc g_trace
       set_store set_down set_failed set_req set_reached set_done set_permit set_again notify_one set_wreq
       set_chan set_cancel set_dpc set_pfc set_pfs set_rem set_scur set_send set_rpc
       set_trace emit finish_read finish_seek] in *.

Ltac split_match H :=
  match type of H with
  | context [match ?x with _ => _ end] =>
      lazymatch x with
      | context [match _ with _ => _ end] => fail
      | _ => destruct x eqn:?
      end
  end.

Ltac step_cases H :=
  unfold step, d_step, r_step, handle_seek, handle_bytes, finish_or_find_next_gap,
    seek_done, prefetch_done, report_downloading, report_complete, handle_reconnect,
    write_once, write_short, r_error in H;
  repeat (split_match H; try discriminate H; gsimpl);
  try (injection H as H; subst).

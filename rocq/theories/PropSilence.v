(** * PropSilence: C87, which waits for the transport are given up. *)

From Coq Require Import List Arith Lia ZArith Bool Strings.Byte.
From Verif Require Import Base RangeSet Storage System Spec StepTac Exec.
Import ListNotations.

(** ** C87: a silent transport is given up after the retry timeout *)

(** While the task waits for the next chunk this is so: after the timeout it tries to
    reconnect at the position it writes to, and if that is not answered either it waits
    again, for any number of rounds, and notices a cancellation in every round. *)
Theorem C87_next_chunk_partial : forall c s n,
  g_dpc s = DSelect ->
  exists s', run c s (repeat (LDTimeout RcElapsed) n) = Some s' /\
    g_trace s' = repeat (EvReconnect (st_wpos (g_store s)) RcElapsed) n ++ g_trace s /\
    g_dpc s' = DSelect /\
    forall s1, step c s' LUserCancel = Some s1 -> exists s2, step c s1 LDCancel = Some s2.
Proof.
  intros c s n H.
  assert (K : forall n s, g_dpc s = DSelect -> exists s',
    run c s (repeat (LDTimeout RcElapsed) n) = Some s' /\
    g_trace s' = repeat (EvReconnect (st_wpos (g_store s)) RcElapsed) n ++ g_trace s /\
    g_dpc s' = DSelect).
  { clear. induction n as [|n IH]; intros s H; cbn [repeat run].
    - exists s. auto.
    - cbn [step]. rewrite H. cbn [handle_reconnect].
      destruct (IH (emit s (EvReconnect (st_wpos (g_store s)) RcElapsed))) as (s' & R & T & D); [exact H|].
      exists s'. split; [exact R|split; [|exact D]]. rewrite T. cbn [g_store emit].
      change (g_trace (emit s (EvReconnect (st_wpos (g_store s)) RcElapsed)))
        with (EvReconnect (st_wpos (g_store s)) RcElapsed :: g_trace s).
      replace (g_store (emit s (EvReconnect (st_wpos (g_store s)) RcElapsed))) with (g_store s) by (destruct s; reflexivity).
      rewrite repeat_cons. rewrite <- app_assoc. reflexivity. }
  destruct (K n s H) as (s' & R & T & D). exists s'. split; [exact R|split; [exact T|split; [exact D|]]].
  intros s1 E. cbn [step] in E. injection E as <-. eexists. cbn [step]. gsimpl. rewrite D. reflexivity.
Qed.

(** Not while it waits for the outcome of the range request of a seek or of a gap
    ([stream.seek_range(..).await] in [Source::seek], source/mod.rs:467-468, has no timeout
    and is not raced against the token).  Then a silent transport holds the task for ever:
    it asks for nothing, never ends, and does not notice a cancellation. *)
Lemma seeking_silent : forall c s l s' a b, g_dpc s = DSeeking a b -> silent_transport s l ->
  step c s l = Some s' -> task_label l = false /\ g_dpc s' = DSeeking a b.
Proof.
  intros c s l s' a b Hd Ha H. destruct l; cbn [task_label]; cbn [step] in H;
    try (rewrite ?Hd in H; discriminate H); try contradiction Ha.
  - unfold d_step in H. rewrite Hd in H. discriminate.
  - split; [reflexivity|]. unfold r_step in H.
    repeat (split_match H; try discriminate H); injection H as <-; gsimpl; auto.
  - split; [reflexivity|]. unfold r_error in H.
    repeat (split_match H; try discriminate H); injection H as <-; gsimpl; auto.
  - split; [reflexivity|]. destruct (g_rpc s); try discriminate H; injection H as <-; auto.
  - split; [reflexivity|]. injection H as <-; auto.
  - split; [reflexivity|]. destruct (g_rpc s); try discriminate H; injection H as <-; gsimpl.
    destruct (c_cancel_on_drop c); auto.
Qed.

Lemma seeking_blocked : forall c s l s' a b, g_dpc s = DSeeking a b -> silent_transport s l ->
  blocked c s -> step c s l = Some s' -> blocked c s' /\ g_trace s' = g_trace s.
Proof.
  intros c s l s' a b D Ha [Hi Hb] H. destruct (seeking_silent c s l s' a b D Ha H) as [Hl D'].
  destruct l; try discriminate Hl.
  - rewrite Hb in H. discriminate.
  - exfalso. cbn [step] in H, Hb. unfold r_step in Hb. unfold r_error in H.
    unfold in_call in Hi. destruct (g_rpc s); try contradiction; try discriminate H;
      repeat (split_match Hb; try discriminate Hb).
  - exfalso. cbn [step] in H. unfold in_call in Hi. destruct (g_rpc s); try contradiction; discriminate H.
  - cbn [step] in H. injection H as <-. split; [|reflexivity].
    split; [exact Hi|]. cbn [step] in *. unfold r_step in *. gsimpl.
    destruct (g_rpc s); try exact Hb;
      repeat (split_match Hb; try discriminate Hb); try discriminate Hb; auto.
  - exfalso. cbn [step] in H. unfold in_call in Hi. destruct (g_rpc s); try contradiction; discriminate H.
Qed.

Theorem C87_unanswered_request : forall c s s' start stop,
  g_dpc s = DSeeking start stop -> steps c silent_transport s s' ->
  g_dpc s' = DSeeking start stop /\
  (forall l s2, silent_transport s' l -> step c s' l = Some s2 -> task_label l = false) /\
  (blocked c s -> blocked c s' /\ g_trace s' = g_trace s).
Proof.
  intros c s s' a b D Hs.
  assert (K : g_dpc s' = DSeeking a b /\ (blocked c s -> blocked c s' /\ g_trace s' = g_trace s)).
  { induction Hs as [s|s s1 l s2 H1 IH Ha H2]; [auto|].
    destruct (IH D) as (D1 & B1). destruct (seeking_silent c s1 l s2 a b D1 Ha H2) as [_ D2].
    split; [exact D2|]. intros Hb. destruct (B1 Hb) as [B2 T2].
    destruct (seeking_blocked c s1 l s2 a b D1 Ha B2 H2) as [B3 T3]. rewrite T3, T2. auto. }
  destruct K as [K1 K2]. split; [exact K1|split; [|exact K2]].
  intros l s2 Ha H. apply (seeking_silent c s' l s2 a b K1 Ha H).
Qed.

(** So a call may wait for ever although the client has cancelled. *)
Theorem C87_refuted : exists c s,
  sane c /\ unbounded_store c /\ honours_ranges c /\ c_rec c = RecRange /\
  reach c (both no_empty_chunk no_truncation) s /\ g_cancel s = true /\ blocked c s /\
  forall s', steps c silent_transport s s' ->
    blocked c s' /\ ~ task_finished s' /\ g_trace s' = g_trace s.
Proof.
  set (c := mk (Some 12) true 0 4 (PPlain PlMem)).
  assert (E : exists s, reach c (both no_empty_chunk no_truncation) s /\ g_cancel s = true /\ blocked c s /\
    g_dpc s = DSeeking 6 (Some 12)).
  { eexists. split; [reach_tac (both_b empty_b truncation_b) ([LDChunk 3] ++ Tk 6 ++ [LOp (OSeek (FromStart 6))] ++ Rd 4 ++ [LDSeek; LUserCancel])|].
    split; [reflexivity|split; [split; [exact I|reflexivity]|reflexivity]]. }
  destruct E as (s & Hr & Hc & Hb & Hd). exists c, s.
  split; [apply mk_sane; [auto|lia]|split; [exact I|split; [apply mk_honours|split; [reflexivity|]]]].
  split; [exact Hr|split; [exact Hc|split; [exact Hb|]]].
  intros s' Hs. destruct (C87_unanswered_request c s s' _ _ Hd Hs) as (K1 & _ & K2).
  destruct (K2 Hb) as [K3 K4]. split; [exact K3|split; [|exact K4]].
  intros [F _]. rewrite K1 in F. discriminate.
Qed.

Example C87_case :
  let c := mk (Some 12) true 0 4 (PPlain PlMem) in
  exists s, reach c any s /\ g_dpc s = DSelect /\ st_wpos (g_store s) = 3 /\
    exists s', run c s (repeat (LDTimeout RcElapsed) 2) = Some s' /\
      In (EvReconnect 3 RcElapsed) (g_trace s').
Proof.
  cbv zeta. eexists. split; [reach_tac any_b ([LDChunk 3] ++ Tk 6)|].
  split; [reflexivity|split; [reflexivity|]]. eexists. split; [vm_compute; reflexivity|left; reflexivity].
Qed.

Print Assumptions C87_next_chunk_partial.
Print Assumptions C87_unanswered_request.
Print Assumptions C87_refuted.

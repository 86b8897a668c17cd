(** * Unbounded storage: the task never waits for the reader and never panics. *)

From Coq Require Import List Arith Lia ZArith Bool.
From Verif Require Import Base ListFacts RangeSet RangeSetFacts Storage StorageFacts
  System Spec StepTac InvSync InvTrace InvCore Exec.
Import ListNotations.

Definition alive_at (s : gstate) (u : ustore) : Prop :=
  match g_dpc s with
  | DWTop bytes w pos =>
      bytes <> [] /\ w <= length bytes /\ u_wpos u = pos + w /\
      (0 < w -> covered (g_down s) (u_wpos u - 1))
  | DWBatch bytes w pos nw =>
      w < length bytes /\ w + nw <= length bytes /\ u_wpos u = pos + (w + nw)
  | DWPost bytes w pos nw =>
      0 < nw /\ w + nw = length bytes /\ u_wpos u = pos + (w + nw)
  | DWCheck bytes w pos nw | DWNotify bytes w pos nw =>
      0 < nw /\ 0 < w /\ w = length bytes /\ u_wpos u = pos + w /\
      covered (g_down s) (u_wpos u - 1)
  | DWWait _ _ _ | DPanic => False
  | _ => True
  end.

Record alive (c : cfg) (s : gstate) (u : ustore) : Prop := mkAlive
  { al_store : g_store s = SPlain u;
    al_rem : g_rem s = None;
    al_body : g_scur s <= g_send s /\
              (g_send s <= length (c_content c) \/ g_scur s = g_send s);
    al_at : alive_at s u }.

Lemma alive_init : forall c s, unbounded_store c -> init c = Some s -> exists u, alive c s u.
Proof.
  intros c s Hu H. destruct (unbounded_init c s Hu H) as (p & u & E & Es).
  exists u. unfold init in H. destruct (into_rw _ _) eqn:E1; [|discriminate]. injection H as <-.
  cbn in *. constructor; cbn; auto. lia.
Qed.

Lemma window_ok : forall c start stop a b, body_window c start stop = Some (a, b) ->
  a <= b /\ (b <= length (c_content c) \/ a = b).
Proof.
  intros c start stop a b H. unfold body_window in H.
  destruct (inverted c start stop).
  - destruct (c_inv c); try discriminate; injection H as <- <-; lia.
  - injection H as <- <-. destruct stop; lia.
Qed.

Lemma u_read_wpos : forall n u r u', u_read n u = (r, u') -> u_wpos u' = u_wpos u.
Proof.
  intros n [m|f] r u' H; cbn in H.
  - unfold mem_read in H. destruct (_ <? _); injection H as _ <-; reflexivity.
  - unfold file_read in H. destruct (f_buf f); [destruct (_ <=? _)|]; injection H as _ <-; reflexivity.
Qed.

Lemma alive_step : forall c s u l s', 0 < c_batch c -> alive c s u -> no_empty_chunk s l ->
  step c s l = Some s' -> exists u', alive c s' u'.
Proof.
  intros c s u l s' Hbt [A1 A2 A3 A4] Hl H.
  assert (Hpl : forall (X : store), X = SPlain u -> exists u', X = SPlain u') by eauto.
  unfold alive_at in A4.
  destruct l; cbn [step] in H; cbn in Hl.
  - (* LDSeek *)
    destruct (g_dpc s) eqn:Ed; try discriminate. destruct (g_chan s); [|discriminate].
    injection H as <-. exists u. unfold handle_seek.
    destruct (should_seek _ _ _); gsimpl; [|constructor; unfold alive_at; gsimpl; rewrite ?Ed; auto].
    destruct (g_pfc s); gsimpl; destruct (c_clen c); gsimpl;
      try (destruct (rs_next_gap _ _ _) as [[? ?]|]); constructor; unfold alive_at; gsimpl; rewrite ?Ed; auto.
  - (* LDChunk *)
    destruct (g_dpc s) eqn:Ed; try discriminate. destruct (Nat.leb_spec (g_scur s + k) (g_send s)); [|discriminate].
    injection H as <-. exists u. unfold handle_bytes. gsimpl. rewrite A2.
    destruct (g_pfc s); constructor; unfold alive_at; gsimpl; auto; try lia.
    rewrite A1. cbn [st_wpos]. repeat split; try lia.
    intros E. apply (f_equal (@length byte)) in E. rewrite length_slice in E. cbn in E. lia.
  - (* LDEof *)
    destruct (g_dpc s) eqn:Ed; try discriminate. injection H as <-. exists u.
    unfold handle_bytes, finish_or_find_next_gap. gsimpl. rewrite A2.
    destruct (g_pfc s), (c_seekable c), (c_clen c); gsimpl;
      try (destruct (rs_next_gap _ _ _) as [[? ?]|]); constructor; unfold alive_at; gsimpl; auto; lia.
  - destruct (g_dpc s) eqn:Ed; try discriminate. injection H as <-. exists u.
    constructor; unfold alive_at; rewrite ?Ed; auto.
  - (* LDTimeout *)
    destruct (g_dpc s) eqn:Ed; try discriminate. injection H as <-. exists u.
    unfold handle_reconnect. destruct rc; [destruct (c_rec c)| |]; constructor; unfold alive_at; gsimpl; rewrite ?Ed; auto; lia.
  - destruct (g_dpc s) eqn:Ed; try discriminate. destruct (g_cancel s); [|discriminate].
    injection H as <-. exists u. constructor; unfold alive_at; gsimpl; auto.
  - (* LDStep *)
    unfold d_step in H. destruct (g_dpc s) eqn:Ed; try discriminate; gsimpl.
    + (* DPre *)
      unfold write_once in H. rewrite A1 in H. cbn [st_write] in H.
      destruct (Nat.eqb_spec (length (slice bytes w (Nat.min (c_batch c) (length bytes - w)))) 0) as [E|E].
      * injection H as <-. rewrite length_slice in E. eexists.
        unfold prefetch_done. gsimpl. destruct (Nat.ltb_spec w (length bytes)); [lia|].
        rewrite orb_false_r. destruct (_ <=? _); constructor; unfold alive_at; gsimpl; auto; reflexivity.
      * injection H as <-. eexists. constructor; unfold alive_at; gsimpl; auto; reflexivity.
    + (* DWTop *)
      destruct A4 as (B1 & B2 & B3 & B4). destruct (Nat.ltb_spec w (length bytes)).
      * injection H as <-. exists u. constructor; unfold alive_at; gsimpl; auto. lia.
      * injection H as <-. exists u.
        assert (length bytes <> 0) by (destruct bytes; cbn; congruence).
        unfold report_downloading. rewrite A1. cbn [st_wpos].
        destruct (u_wpos u) as [|q] eqn:Eq; [lia|].
        destruct (rs_get_covered (g_down s) q) as (a & b & Eg).
        { replace q with (S q - 1) by lia. apply B4. lia. }
        rewrite Eg. constructor; unfold alive_at; gsimpl; auto.
    + (* DWBatch *)
      destruct A4 as (B1 & B2 & B3).
      unfold write_once in H. rewrite A1 in H. cbn [st_write] in H.
      rewrite length_slice in H.
      destruct (Nat.eqb_spec (Nat.min (Nat.min (c_batch c) (length bytes - (w + nw))) (length bytes - (w + nw))) 0) as [E|E];
        injection H as <-; eexists; constructor; gsimpl; auto; try reflexivity;
        unfold alive_at; gsimpl; rewrite u_write_wpos, length_slice; lia.
    + (* DWPost *)
      destruct A4 as (B1 & B2 & B3). injection H as <-. exists u.
      constructor; unfold alive_at; gsimpl; auto. repeat split; try lia.
      apply rs_add_covered. right. rewrite A1. cbn [st_wpos]. lia.
    + (* DWCheck *)
      destruct A4 as (B1 & B2 & B3 & B4 & B5).
      destruct (Nat.eqb_spec nw 0); [lia|].
      assert (bytes <> []) by (intros ->; cbn in *; lia).
      destruct (g_req s); [destruct (_ <=? _)|]; injection H as <-; exists u;
        constructor; unfold alive_at; gsimpl; auto; repeat split; auto; lia.
    + destruct A4 as (B1 & B2 & B3 & B4 & B5).
      destruct (Nat.eqb_spec nw 0); [lia|].
      assert (bytes <> []) by (intros ->; cbn in *; lia).
      injection H as <-; exists u; constructor; unfold alive_at; gsimpl; auto; repeat split; auto; lia.
    + destruct A4.
    + injection H as <-. exists u. constructor; unfold alive_at; gsimpl; auto.
    + injection H as <-. exists u. unfold report_complete. constructor; unfold alive_at; gsimpl; auto.
    + injection H as <-. exists u. constructor; unfold alive_at; gsimpl; auto.
    + injection H as <-. exists u. constructor; unfold alive_at; gsimpl; auto.
    + injection H as <-. exists u. constructor; unfold alive_at; gsimpl; auto.
  - (* LDSeekRes *)
    destruct (g_dpc s) eqn:Ed; try discriminate. unfold seek_done in H. destruct ok.
    + destruct (body_window c start stop) as [[a b]|] eqn:Ew; [|discriminate].
      rewrite A1 in H. cbn [st_wseek] in H. injection H as <-. eexists.
      apply window_ok in Ew. constructor; gsimpl; try reflexivity; auto.
    + injection H as <-. exists u. constructor; unfold alive_at; gsimpl; auto.
  - destruct (g_dpc s) eqn:Ed; try discriminate; injection H as <-; exists u;
      constructor; unfold alive_at; gsimpl; auto.
  - destruct (g_dpc s) eqn:Ed; try discriminate; injection H as <-; exists u;
      constructor; unfold alive_at; gsimpl; auto. destruct (_ && _); exact I.
  - (* LDStale *)
    destruct (g_dpc s) eqn:Ed; try discriminate. destruct A4 as (B1 & B2 & B3 & B4 & B5).
    destruct (Nat.eqb_spec nw 0); [lia|].
    assert (bytes <> []) by (intros ->; cbn in *; lia).
    injection H as <-; exists u; constructor; unfold alive_at; gsimpl; auto; repeat split; auto; lia.
  - (* LDAgain *)
    destruct (g_dpc s); try discriminate. destruct A4.
  - (* LDShort *)
    destruct (g_dpc s) eqn:Ed; try discriminate.
    + destruct (write_short c s bytes w k) as [[k' s1]|] eqn:E; [|discriminate H]. injection H as <-.
      apply write_short_inv in E as (-> & st & E1 & E2 & ->). rewrite A1 in E1. cbn [st_write] in E1.
      injection E1 as _ <-. eexists. constructor; unfold alive_at; gsimpl; auto; reflexivity.
    + destruct A4 as (B1 & B2 & B3).
      destruct (write_short c s bytes (w + nw) k) as [[k' s1]|] eqn:E; [|discriminate H]. injection H as <-.
      apply write_short_inv in E as (-> & st & E1 & E2 & ->). rewrite A1 in E1. cbn [st_write] in E1.
      injection E1 as E1 <-. eexists. constructor; gsimpl; auto; try reflexivity;
        unfold alive_at; gsimpl; rewrite u_write_wpos, length_slice; lia.
  - (* LRStep *)
    assert (K : exists u', g_store s' = SPlain u' /\ u_wpos u' = u_wpos u).
    { unfold r_step in H.
      repeat (split_match H; try discriminate H; gsimpl); injection H as <-; gsimpl; rewrite A1 in *;
        cbn [st_tell st_read st_rseek] in *; eauto;
        try (eexists; split; [reflexivity|]; unfold u_tell; rewrite ?u_rseek_wpos; reflexivity).
      all: match goal with
           | E : context [u_read ?n ?v] |- _ =>
               destruct (u_read n v) as [r1 u1] eqn:E1; injection E as E1' <-;
               eexists; split; [reflexivity|]; eapply u_read_wpos; eauto
           | E : (_, SPlain _) = _ |- _ =>
               injection E as <- <-; eexists; split; [reflexivity|]; apply u_rseek_wpos
           end. }
    destruct K as (u' & K1 & K2). exists u'.
    assert (F : g_down s' = g_down s /\ g_rem s' = g_rem s /\ g_scur s' = g_scur s /\
                g_send s' = g_send s /\ g_dpc s' = g_dpc s).
    { unfold r_step in H. repeat (split_match H; try discriminate H; gsimpl); injection H as <-; gsimpl; auto. }
    destruct F as (F1 & F2 & F3 & F4 & F5).
    constructor; unfold alive_at; rewrite ?F1, ?F2, ?F3, ?F4, ?F5, ?K2; auto.
  - (* LRIoErr *)
    unfold r_error in H.
    repeat (split_match H; try discriminate H; gsimpl); injection H as <-; exists u;
      constructor; unfold alive_at; gsimpl; auto.
  - destruct (g_rpc s); try discriminate; injection H as <-; exists u.
    constructor; unfold alive_at; gsimpl; auto.
  - injection H as <-; exists u. constructor; unfold alive_at; gsimpl; auto.
  - destruct (g_rpc s); try discriminate; injection H as <-; exists u.
    destruct (c_cancel_on_drop c); constructor; unfold alive_at; gsimpl; auto.
Qed.

Lemma alive_reach : forall c s, 0 < c_batch c -> unbounded_store c ->
  reach c no_empty_chunk s -> exists u, alive c s u.
Proof.
  intros c s Hb Hu H. induction H as [s H|s l s' Hr [u IH] Hl H].
  - apply alive_init; auto.
  - eapply alive_step; eauto.
Qed.

Lemma unbounded_no_deadlock : forall c s, 0 < c_batch c -> unbounded_store c ->
  reach c no_empty_chunk s -> blocked c s -> task_can_move c s.
Proof.
  intros c s Hb Hu H Hbl. destruct (alive_reach c s Hb Hu H) as [u [A1 A2 A3 A4]].
  destruct Hbl as [B1 B2]. pose proof (sync_reach _ _ _ H) as Hsy.
  unfold task_can_move, awaits_transport, alive_at in *. cbn [step]. unfold d_step.
  destruct (g_dpc s) eqn:Ed; auto; try contradiction; right; try (eexists; reflexivity).
  - destruct (write_once _ _ _ _) as [k s1]. destruct (_ =? _); eauto.
  - destruct (_ <? _); eauto.
  - destruct (write_once _ _ _ _) as [k s1]. destruct (_ =? _); eauto.
  - destruct (g_req s); [destruct (_ <=? _)|]; eauto.
  - exfalso. pose proof (sy_final _ Hsy) as Hf. rewrite Ed in Hf. specialize (Hf I).
    unfold in_call in B1. cbn [step] in B2. unfold r_step in B2. rewrite Hf in B2.
    destruct (g_rpc s); try contradiction; try discriminate B2;
      repeat (split_match B2; try discriminate B2).
Qed.

Lemma unbounded_no_panic : forall c s, 0 < c_batch c -> unbounded_store c ->
  reach c no_empty_chunk s -> g_dpc s <> DPanic.
Proof.
  intros c s Hb Hu H E. destruct (alive_reach c s Hb Hu H) as [u [A1 A2 A3 A4]].
  unfold alive_at in A4. rewrite E in A4. exact A4.
Qed.

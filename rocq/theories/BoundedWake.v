(** * Bounded storage and a client that reads and seeks within the downloaded
    data: no lost wake-ups. *)

From Coq Require Import List Arith Lia ZArith Bool.
From Verif Require Import Base ListFacts RangeSet RangeSetFacts Storage StorageFacts
  System Spec StepTac InvSync InvTrace LifeFacts Alive BoundedFacts StoreSpec BoundedInv Exec.
Import ListNotations.

(** The task is inside [write], after announcing that it may wait for a read. *)
Definition writing (d : dpc) : Prop :=
  match d with
  | DWBatch _ _ _ _ | DWPost _ _ _ _ | DWCheck _ _ _ _ | DWNotify _ _ _ _ | DWWait _ _ _ => True
  | _ => False
  end.

(** The last attempt to write found no room. *)
Definition found_full (d : dpc) : Prop :=
  match d with
  | DWPost _ _ _ nw | DWCheck _ _ _ nw | DWNotify _ _ _ nw => nw = 0
  | DWWait _ _ _ => True
  | _ => False
  end.

Definition waits_read (r : rpc) : Prop := match r with RRWait _ _ _ => True | _ => False end.

Record bwake (size : nat) (s : gstate) : Prop := mkBwake
  { wk_req : writing (g_dpc s) -> g_wreq s = true \/ g_permit s = true;
    wk_full : found_full (g_dpc s) -> waits_read (g_rpc s) ->
      st_rpos (g_store s) + size <= st_wpos (g_store s) \/ g_permit s = true;
    wk_wait : (match g_dpc s with DWWait _ _ _ => True | _ => False end) ->
      waits_read (g_rpc s) ->
      g_req s <> None -> g_permit s = true }.

Ltac wk_triv := constructor; cbn; intros; try contradiction; auto.

Lemma bwake_step : forall c ck p n s W R l s', c_provider c = PBounded ck p n -> 0 < c_batch c ->
  let size := ring_size (c_clen c) n in
  bpos c size s W R (skipped (g_trace s)) -> local_pc c s -> sync s -> bwake size s ->
  local_client c s l -> no_empty_chunk s l -> fenced s l ->
  reader_at (g_rpc s) (cursor (g_trace s)) (st_rpos (g_store s)) ->
  step c s l = Some s' -> bwake size s'.
Proof.
  intros c ck p n s W R l s' Hp Hbt size Hpos Hpc Hsy [K1 K2 K3] Hl1 Hl2 Hl3 Hat H.
  destruct (task_label l) eqn:Et.
  - destruct (bpos_task c ck p n s W R _ l s' Hp Hbt Hpos Hl2 Et H) as (W' & Hle & Hpos' & Erpc).
    fold size in Hpos'.
    assert (Triv : ~ writing (g_dpc s') -> bwake size s').
    { intros Hw. constructor; intros Hd; exfalso; apply Hw; destruct (g_dpc s'); cbn in *; auto. }
    destruct Hpos as [A1 A2 A4 A5 A6 A7].
    pose proof (bst_wpos _ _ _ _ _ A1) as Hw. pose proof (bst_rpos _ _ _ _ _ A1) as Hr.
    pose proof (bst_le _ _ _ _ _ A1) as Hbl.
    unfold bat in A7.
    destruct l; try discriminate Et; cbn [step] in H.
    + rewrite A2 in H. destruct (g_dpc s); discriminate.
    + apply Triv. destruct (g_dpc s) eqn:Ed; try discriminate. destruct (_ <=? _); [|discriminate].
      injection H as <-. unfold handle_bytes. gsimpl. destruct (g_pfc s); [destruct (g_rem s)|]; cbn; tauto.
    + apply Triv. destruct (g_dpc s) eqn:Ed; try discriminate.
      injection H as <-. unfold handle_bytes, finish_or_find_next_gap. gsimpl.
      destruct (g_pfc s); [destruct (g_rem s)|]; destruct (c_seekable c), (c_clen c); gsimpl;
        try (destruct (rs_next_gap _ _ _) as [[? ?]|]); cbn; tauto.
    + apply Triv. destruct (g_dpc s) eqn:Ed; try discriminate. injection H as <-. rewrite Ed. cbn. tauto.
    + apply Triv. destruct (g_dpc s) eqn:Ed; try discriminate. injection H as <-.
      unfold handle_reconnect. destruct rc; [destruct (c_rec c)| |]; gsimpl; rewrite Ed; cbn; tauto.
    + apply Triv. destruct (g_dpc s) eqn:Ed; try discriminate. destruct (g_cancel s); [|discriminate].
      injection H as <-. cbn. tauto.
    + (* LDStep *)
      assert (Hnd : forall d, g_dpc s = d -> is_final d = false -> g_done s = false).
      { intros d E Ef. destruct (g_done s) eqn:Edn; auto. apply (sy_done _ Hsy) in Edn. congruence. }
      unfold d_step in H. destruct (g_dpc s) eqn:Ed; try discriminate; gsimpl.
      * apply Triv. unfold write_once in H. destruct (st_write _ _) as [k st].
        destruct (k =? 0); injection H as <-; unfold prefetch_done; gsimpl; cbn; tauto.
      * destruct (w <? length bytes); injection H as <-.
        -- constructor; gsimpl; cbn; auto; tauto.
        -- apply Triv. unfold report_downloading. destruct (st_wpos _); gsimpl; [cbn; tauto|].
           destruct (rs_get _ _); gsimpl; cbn; tauto.
      * (* DWBatch *)
        destruct A7 as (B1 & B2 & B3 & B4 & B5 & B6).
        unfold write_once in H. destruct (st_write _ (g_store s)) as [k st] eqn:Es.
        destruct (bst_write _ _ _ _ _ _ _ _ A1 Es) as [Ek A1']. rewrite length_slice in Ek.
        destruct (Nat.eqb_spec k 0) as [E|E]; injection H as <-; constructor; gsimpl; cbn; auto; try tauto.
        intros -> _. left. rewrite (bst_wpos _ _ _ _ _ A1'), (bst_rpos _ _ _ _ _ A1').
        unfold size in *. lia.
      * injection H as <-. constructor; gsimpl; cbn; auto; tauto.
      * (* DWCheck *)
        destruct A7 as (B1 & B2 & B3 & B4 & B5 & B6 & B7).
        destruct (g_req s) as [rq|] eqn:Erq; [destruct (Nat.leb_spec rq (st_wpos (g_store s)))|];
          injection H as <-; try (constructor; gsimpl; cbn; auto; tauto).
        -- destruct (Nat.eqb_spec nw 0); [|apply Triv; cbn; tauto].
           constructor; gsimpl; cbn; auto.
           intros _ Hw3 _. destruct (K2 e Hw3) as [F|F]; auto.
           exfalso. destruct (g_rpc s) eqn:Er; try contradiction.
           pose proof (sy_wait _ Hsy (Hnd _ eq_refl eq_refl)) as Sw.
           unfold sync_wait in Sw. rewrite Er, Erq in Sw. cbn in Sw, A6.
           assert (rq = rq0) by intuition congruence. subst. lia.
        -- destruct (Nat.eqb_spec nw 0); [|apply Triv; cbn; tauto].
           constructor; gsimpl; cbn; auto.
      * (* DWNotify *)
        injection H as <-. destruct (Nat.eqb_spec nw 0); [|apply Triv; cbn; tauto].
        constructor; gsimpl; cbn; auto.
        intros _ Hw3 Hq. exfalso. destruct (g_rpc s) eqn:Er; try contradiction.
        pose proof (sy_wait _ Hsy (Hnd _ eq_refl eq_refl)) as Sw.
        unfold sync_wait in Sw. rewrite Er, Ed in Sw. cbn in Sw. intuition congruence.
      * destruct (g_permit s); [|discriminate]. injection H as <-. apply Triv. cbn. tauto.
      * injection H as <-. apply Triv. cbn. tauto.
      * injection H as <-. apply Triv. cbn. tauto.
      * injection H as <-. apply Triv. cbn. tauto.
      * injection H as <-. apply Triv. cbn. tauto.
      * injection H as <-. apply Triv. cbn. tauto.
    + apply Triv. destruct (g_dpc s) eqn:Ed; try discriminate. unfold seek_done in H. destruct ok.
      * destruct (body_window _ _ _) as [[a b]|]; [|discriminate].
        destruct (st_wseek _ _) as [[?|?|] ?]; injection H as <-; cbn; tauto.
      * injection H as <-. cbn. tauto.
    + apply Triv. destruct (g_dpc s) eqn:Ed; try discriminate; injection H as <-; cbn; tauto.
    + apply Triv. destruct (g_dpc s) eqn:Ed; try discriminate; injection H as <-.
      destruct (_ && _); cbn; tauto.
    + (* LDStale *)
      destruct (g_dpc s) eqn:Ed; try discriminate. injection H as <-.
      destruct (Nat.eqb_spec nw 0); [|apply Triv; cbn; tauto].
      constructor; gsimpl; cbn; auto.
      intros _ Hw3 _. exfalso. unfold fenced in Hl3. destruct (g_rpc s); auto.
    + (* LDAgain *)
      destruct (g_dpc s) eqn:Ed; try discriminate. destruct (g_again s); [discriminate|].
      injection H as <-. apply Triv. cbn. tauto.
    + (* LDShort *)
      exfalso. destruct A1 as (b & h & A1 & _). unfold write_short in H. rewrite A1 in H.
      destruct (g_dpc s); try discriminate; destruct (st_write _ _); cbn in H; discriminate.
  - destruct (bpos_reader c ck p n s W R l s' Hp Hpos Hl1 Hpc Et Hat H) as (R' & Hpos' & Hpc' & Edpc & HR).
    fold size in Hpos'.
    assert (Enter : waits_read (g_rpc s') -> writing (g_dpc s) -> (g_rpc s' = g_rpc s /\ g_store s' = g_store s /\
              g_permit s' = g_permit s /\ g_req s' = g_req s) \/ g_permit s' = true).
    { intros Hwt Hwr. specialize (K1 Hwr). destruct l; try discriminate Et; cbn [step] in H.
      - unfold r_step in H. destruct (g_rpc s) eqn:Er; try discriminate H;
          try (repeat (split_match H; try discriminate H; gsimpl); injection H as <-; gsimpl; contradiction).
        injection H as <-. right. destruct (g_wreq s); gsimpl; auto. destruct K1; auto; discriminate.
      - unfold r_error in H. repeat (split_match H; try discriminate H; gsimpl); injection H as <-; gsimpl; contradiction.
      - destruct (g_rpc s); try discriminate; injection H as <-. destruct o; gsimpl; contradiction.
      - injection H as <-. left. auto.
      - destruct (g_rpc s); try discriminate; injection H as <-. destruct (c_cancel_on_drop c); gsimpl; contradiction. }
    constructor; rewrite Edpc.
    + intros Hwr. specialize (K1 Hwr). destruct l; try discriminate Et; cbn [step] in H.
      * unfold r_step in H.
        repeat (split_match H; try discriminate H; gsimpl); injection H as <-; gsimpl; auto;
          rewrite ?Heqb in *; auto; tauto.
      * unfold r_error in H. repeat (split_match H; try discriminate H; gsimpl); injection H as <-; gsimpl; auto.
      * destruct (g_rpc s); try discriminate; injection H as <-. auto.
      * injection H as <-. auto.
      * destruct (g_rpc s); try discriminate; injection H as <-. destruct (c_cancel_on_drop c); auto.
    + intros Hf Hwt. assert (Hwr : writing (g_dpc s)) by (destruct (g_dpc s); cbn in *; auto).
      destruct (Enter Hwt Hwr) as [(E1 & E2 & E3 & _)|E]; auto. rewrite E1 in Hwt. rewrite E2, E3. auto.
    + intros Hd Hwt Hq. assert (Hwr : writing (g_dpc s)) by (destruct (g_dpc s); cbn in *; auto).
      destruct (Enter Hwt Hwr) as [(E1 & E2 & E3 & E4)|E]; auto. rewrite E1 in Hwt. rewrite E4 in Hq. rewrite E3. auto.
Qed.

Definition bounded_provider (c : cfg) : Prop := exists ck p n, c_provider c = PBounded ck p n.

Lemma unfenced : forall c (allow : gstate -> label -> Prop) s, reach c (both allow fenced) s -> reach c allow s.
Proof. intros c allow s H. eapply reach_weaken; [|exact H]. intros s0 l [K _]. exact K. Qed.

Lemma bwake_reach : forall c ck p n s, c_provider c = PBounded ck p n -> 0 < c_batch c ->
  reach c (both (both (local_client c) no_empty_chunk) fenced) s ->
  bwake (ring_size (c_clen c) n) s.
Proof.
  intros c ck p n s Hp Hb H. induction H as [s H|s l s' Hr IH [[Hl1 Hl2] Hl3] H].
  - unfold init in H. destruct (into_rw _ _); [|discriminate]. injection H as <-.
    constructor; cbn; tauto.
  - destruct (bpos_reach c ck p n s Hp Hb (unfenced _ _ _ Hr)) as (W & R & Hpos & Hpc).
    eapply (bwake_step c ck p n s W R l s'); eauto.
    + eapply sync_reach; eauto.
    + apply (tr_at _ _ (traced_reach _ _ _ Hr)).
Qed.

Lemma bounded_no_deadlock : forall c ck p n s, c_provider c = PBounded ck p n -> 0 < c_batch c ->
  reach c (both (both (local_client c) no_empty_chunk) fenced) s ->
  blocked c s -> task_can_move c s.
Proof.
  intros c ck p n s Hp Hb H Hbl. destruct (bpos_reach c ck p n s Hp Hb (unfenced _ _ _ H)) as (W & R & Hpos & Hpc).
  pose proof (bwake_reach c ck p n s Hp Hb H) as [_ _ K3].
  pose proof (bp_at _ _ _ _ _ _ Hpos) as A7.
  destruct (blocked_wait _ _ Hbl) as (D1 & D2 & t & D3 & D4).
  pose proof (sync_reach _ _ _ H) as Hsy. pose proof (sy_wait _ Hsy D1) as Sw.
  pose proof (sy_final _ Hsy) as Hf.
  unfold task_can_move, awaits_transport, bat in *. cbn [step]. unfold d_step.
  destruct (g_dpc s) eqn:Ed; auto; try contradiction; right; try (eexists; reflexivity);
    try (rewrite (Hf I) in D1; discriminate).
  - destruct (write_once _ _ _ _) as [k s1]. destruct (_ =? _); eauto.
  - destruct (_ <? _); eauto.
  - destruct (write_once _ _ _ _) as [k s1]. destruct (_ =? _); eauto.
  - destruct (g_req s); [destruct (_ <=? _)|]; eauto.
  - destruct (g_permit s) eqn:Ep; [eauto|]. exfalso.
    assert (E : false = true); [|discriminate]. apply K3; auto.
    + unfold local_pc in Hpc. destruct (g_rpc s); try contradiction; try discriminate D3; auto.
    + unfold sync_wait in Sw. rewrite D3, D2 in Sw. rewrite Ed in Sw. cbn in Sw.
      intuition congruence.
Qed.

Lemma bounded_no_panic : forall c ck p n s, c_provider c = PBounded ck p n -> 0 < c_batch c ->
  reach c (both (local_client c) no_empty_chunk) s -> g_dpc s <> DPanic.
Proof.
  intros c ck p n s Hp Hb H E. destruct (bpos_reach c ck p n s Hp Hb H) as (W & R & Hpos & Hpc).
  pose proof (bp_at _ _ _ _ _ _ Hpos) as A7. unfold bat in A7. rewrite E in A7. exact A7.
Qed.

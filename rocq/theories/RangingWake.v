(** * Bounded storage and a client that jumps ahead: no read misses its wake-up. *)

From Coq Require Import List Arith Lia ZArith Bool.
From Verif Require Import Base ListFacts RangeSet RangeSetFacts Storage StorageFacts
  System Spec StepTac InvSync InvTrace LifeFacts Alive BoundedFacts StoreSpec BoundedInv BoundedWake Exec
  ArcFacts ForwardSpec Progress BoundedForward.
Import ListNotations.

(** A read asks for no more than the storage can hold. *)
Definition asks_fit (size : nat) (r : rpc) : Prop :=
  match r with
  | RRGet _ pos rq | RRSet _ pos rq | RRNotify _ pos rq | RRWait _ pos rq => rq <= pos + size
  | _ => True
  end.

Lemma asks_fit_step : forall c ck p n s l s', c_provider c = PBounded ck p n ->
  asks_fit (ring_size (c_clen c) n) (g_rpc s) -> step c s l = Some s' ->
  asks_fit (ring_size (c_clen c) n) (g_rpc s').
Proof.
  intros c ck p n s l s' Hp K H. destruct (task_label l) eqn:Et.
  - rewrite (task_step_rpc _ _ _ _ Et H). exact K.
  - destruct l; try discriminate Et; cbn [step] in H.
    + unfold r_step in H. destruct (g_rpc s) eqn:Er; try discriminate H;
        try (repeat (split_match H; try discriminate H; gsimpl); injection H as <-; gsimpl; rewrite ?Er; cbn in *; auto; fail).
      destruct (g_failed s); [injection H as <-; exact I|].
      destruct (excessive_read c n0) eqn:Ex; injection H as <-; [exact I|].
      cbn. unfold excessive_read in Ex. rewrite Hp in Ex. cbn in Ex. apply Nat.ltb_ge in Ex.
      unfold normalize, ring_size. destruct (c_clen c) as [cl|]; lia.
    + unfold r_error in H. repeat (split_match H; try discriminate H; gsimpl); injection H as <-; gsimpl; exact I.
    + destruct (g_rpc s); try discriminate; injection H as <-. destruct o; exact I.
    + injection H as <-. exact K.
    + destruct (g_rpc s); try discriminate; injection H as <-. destruct (c_cancel_on_drop c); exact I.
Qed.

Definition more_to_write (d : dpc) : Prop :=
  match d with DWBatch b w _ _ => w < length b | _ => True end.

Lemma ast_full : forall H size st lo W R K bs st', ast H size st lo W R K -> st_write bs st = (0, st') ->
  0 < length bs -> R <= W -> R + size <= W /\ st_wpos st' = W /\ st_rpos st' = R.
Proof.
  intros H size st lo W R K bs st' (b & -> & A & ES & EW & ER & C1 & Hle & C2) E Hl Hr.
  cbn in E. destruct (bnd_write bs b) as [k0 b'] eqn:Eb. injection E as -> <-.
  pose proof (bnd_write_spec _ _ _ _ Eb) as (A1 & A2 & A3 & _). cbn. lia.
Qed.

Lemma rwake_step : forall c ck p n s lo W R l s', c_provider c = PBounded ck p n -> 0 < c_batch c ->
  let size := ring_size (c_clen c) n in
  fwd c size s lo W R -> asks_fit size (g_rpc s) -> sync s ->
  bwake size s /\ more_to_write (g_dpc s) ->
  fenced s l -> reader_at (g_rpc s) (cursor (g_trace s)) (st_rpos (g_store s)) ->
  step c s l = Some s' -> bwake size s' /\ more_to_write (g_dpc s').
Proof.
  intros c ck p n s lo W R l s' Hp Hbt size F Hfit Hsy [[K1 K2 K3] K4] Hl3 Hat H.
  pose proof (fw_store _ _ _ _ _ _ F) as A1.
  pose proof (ast_wpos _ _ _ _ _ _ _ A1) as Hw. pose proof (ast_rpos _ _ _ _ _ _ _ A1) as Hr.
  pose proof (fw_le _ _ _ _ _ _ F) as Hle.
  pose proof (ast_plain _ _ _ _ _ _ _ A1) as Hpl.
  clear F.
  destruct (task_label l) eqn:Et.
  - pose proof (task_step_rpc _ _ _ _ Et H) as Erpc.
    assert (Triv : ~ writing (g_dpc s') -> bwake size s' /\ more_to_write (g_dpc s')).
    { intros Hx. split; [constructor; intros Hd; exfalso; apply Hx|]; destruct (g_dpc s'); cbn in *; auto.
      exfalso; auto. }
    destruct l; try discriminate Et; cbn [step] in H.
    + apply Triv. clear Triv. destruct (g_dpc s) eqn:Ed; try discriminate.
      repeat (split_match H; try discriminate H; gsimpl); injection H as <-; 
      unfold handle_seek, finish_or_find_next_gap; repeat (gsimpl; match goal with |- context[match ?x with _ => _ end] => destruct x end);
       gsimpl; rewrite ?Ed; cbn; tauto.
    + apply Triv. destruct (g_dpc s) eqn:Ed; try discriminate. destruct (_ <=? _); [|discriminate].
      injection H as <-. unfold handle_bytes. gsimpl. destruct (g_pfc s); [destruct (g_rem s)|]; cbn; tauto.
    + apply Triv. destruct (g_dpc s) eqn:Ed; try discriminate.
      injection H as <-. unfold handle_bytes, finish_or_find_next_gap. gsimpl.
      destruct (g_pfc s); [destruct (g_rem s)|]; destruct (c_seekable c), (c_clen c); gsimpl;
        try (destruct (rs_next_gap _ _ _) as [[? ?]|]); cbn; tauto.
    + apply Triv. destruct (g_dpc s) eqn:Ed; try discriminate. injection H as <-. rewrite Ed. cbn. tauto.
    + apply Triv. destruct (g_dpc s) eqn:Ed; try discriminate. injection H as <-.
      unfold handle_reconnect. destruct rc; [destruct (c_rec c)| |]; gsimpl; rewrite Ed; cbn; tauto.
    + apply Triv. destruct (g_dpc s) eqn:Ed; try discriminate. destruct (g_cancel s); [|discriminate].
      injection H as <-. cbn. tauto.
    + (* LDStep *)
      assert (Hnd : forall d, g_dpc s = d -> is_final d = false -> g_done s = false).
      { intros d E Ef. destruct (g_done s) eqn:Edn; auto. apply (sy_done _ Hsy) in Edn. congruence. }
      unfold d_step in H. destruct (g_dpc s) eqn:Ed; try discriminate; gsimpl.
      * apply Triv. unfold write_once in H. destruct (st_write _ _) as [k st].
        destruct (k =? 0); injection H as <-; unfold prefetch_done; gsimpl; cbn; tauto.
      * destruct (Nat.ltb_spec w (length bytes)) as [Hlt|Hge]; injection H as <-.
        -- split; [constructor; gsimpl; cbn; auto; tauto|exact Hlt].
        -- apply Triv. unfold report_downloading. destruct (st_wpos _); gsimpl; [cbn; tauto|].
           destruct (rs_get _ _); gsimpl; cbn; tauto.
      * (* DWBatch *)
        cbn in K4. unfold write_once in H. destruct (st_write _ (g_store s)) as [k st] eqn:Es.
        destruct (Nat.eqb_spec k 0) as [E|E]; injection H as <-; (split; [|cbn; auto]);
          constructor; gsimpl; cbn; auto; try tauto.
        intros -> _. left. subst k.
        destruct (ast_full _ _ _ _ _ _ _ _ _ A1 Es) as (Q1 & Q2 & Q3).
        { rewrite length_slice. lia. }
        { pose proof (Hnd _ eq_refl eq_refl). destruct Hle as [|(_ & _ & Q)]; [auto|congruence]. }
        rewrite Q2, Q3. exact Q1.
      * injection H as <-. split; [constructor; gsimpl; cbn; auto; tauto|exact I].
      * (* DWCheck *)
        destruct (g_req s) as [rq|] eqn:Erq; [destruct (Nat.leb_spec rq (st_wpos (g_store s)))|];
          injection H as <-; try (split; [constructor; gsimpl; cbn; auto; tauto|exact I]).
        -- destruct (Nat.eqb_spec nw 0); [|apply Triv; cbn; tauto].
           split; [|exact I]. constructor; gsimpl; cbn; auto.
           intros _ Hw3 _. destruct (K2 e Hw3) as [Q|Q]; auto.
           exfalso. destruct (g_rpc s) eqn:Er; try contradiction.
           pose proof (sy_wait _ Hsy (Hnd _ eq_refl eq_refl)) as Sw.
           unfold sync_wait in Sw. rewrite Er, Erq in Sw. cbn in Sw, Hfit, Hat.
           assert (rq = rq0) by intuition congruence. subst. lia.
        -- destruct (Nat.eqb_spec nw 0); [|apply Triv; cbn; tauto].
           split; [|exact I]. constructor; gsimpl; cbn; auto.
      * (* DWNotify *)
        injection H as <-. destruct (Nat.eqb_spec nw 0); [|apply Triv; cbn; tauto].
        split; [|exact I]. constructor; gsimpl; cbn; auto.
        intros _ Hw3 Hq. exfalso. destruct (g_rpc s) eqn:Er; try contradiction.
        pose proof (sy_wait _ Hsy (Hnd _ eq_refl eq_refl)) as Sw.
        unfold sync_wait in Sw. rewrite Er, Ed in Sw. cbn in Sw. intuition congruence.
      * destruct (g_permit s); [|discriminate]. injection H as <-. apply Triv. cbn. tauto.
      * injection H as <-. apply Triv. cbn. tauto.
      * injection H as <-. apply Triv. cbn. tauto.
      * injection H as <-. apply Triv. cbn. tauto.
      * injection H as <-. apply Triv. cbn. tauto.
      * injection H as <-. apply Triv. cbn. tauto.
    + apply Triv. destruct (g_dpc s) eqn:Ed; try discriminate. unfold seek_done in H. destruct ok.
      * destruct (body_window _ _ _) as [[a b]|]; [|discriminate].
        destruct (st_wseek _ _) as [[?|?|] ?]; injection H as <-; cbn; tauto.
      * injection H as <-. cbn. tauto.
    + apply Triv. destruct (g_dpc s) eqn:Ed; try discriminate; injection H as <-; cbn; tauto.
    + apply Triv. destruct (g_dpc s) eqn:Ed; try discriminate; injection H as <-.
      destruct (_ && _); cbn; tauto.
    + (* LDStale *)
      destruct (g_dpc s) eqn:Ed; try discriminate. injection H as <-.
      destruct (Nat.eqb_spec nw 0); [|apply Triv; cbn; tauto].
      split; [|exact I]. constructor; gsimpl; cbn; auto.
      intros _ Hw3 _. exfalso. unfold fenced in Hl3. destruct (g_rpc s); auto.
    + (* LDAgain *)
      destruct (g_dpc s) eqn:Ed; try discriminate. destruct (g_again s); [discriminate|].
      injection H as <-. apply Triv. cbn. tauto.
    + (* LDShort *)
      exfalso. destruct A1 as (b & A1 & _). unfold write_short in H. rewrite A1 in H.
      destruct (g_dpc s); try discriminate; destruct (st_write _ _); cbn in H; discriminate.
  - assert (Edpc : g_dpc s' = g_dpc s).
    { destruct l; try discriminate Et; step_cases H; gsimpl; auto. }
    assert (Enter : waits_read (g_rpc s') -> writing (g_dpc s) -> (g_rpc s' = g_rpc s /\ g_store s' = g_store s /\
              g_permit s' = g_permit s /\ g_req s' = g_req s) \/ g_permit s' = true).
    { intros Hwt Hwr. specialize (K1 Hwr). destruct l; try discriminate Et; cbn [step] in H.
      - unfold r_step in H. destruct (g_rpc s) eqn:Er; try discriminate H;
          try (repeat (split_match H; try discriminate H; gsimpl); injection H as <-; gsimpl; contradiction).
        injection H as <-. right. destruct (g_wreq s); gsimpl; auto. destruct K1; auto; discriminate.
      - unfold r_error in H. repeat (split_match H; try discriminate H; gsimpl); injection H as <-; gsimpl; contradiction.
      - destruct (g_rpc s); try discriminate; injection H as <-. destruct o; gsimpl; contradiction.
      - injection H as <-. left. auto.
      - destruct (g_rpc s); try discriminate; injection H as <-. destruct (c_cancel_on_drop c); gsimpl; contradiction. }
    split; [|rewrite Edpc; exact K4].
    constructor; rewrite Edpc.
    + intros Hwr. specialize (K1 Hwr). destruct l; try discriminate Et; cbn [step] in H.
      * unfold r_step in H.
        repeat (split_match H; try discriminate H; gsimpl); injection H as <-; gsimpl; auto;
          rewrite ?Heqb in *; auto; tauto.
      * unfold r_error in H. repeat (split_match H; try discriminate H; gsimpl); injection H as <-; gsimpl; auto.
      * destruct (g_rpc s); try discriminate; injection H as <-. auto.
      * injection H as <-. auto.
      * destruct (g_rpc s); try discriminate; injection H as <-. destruct (c_cancel_on_drop c); auto.
    + intros Hf Hwt. assert (Hwr : writing (g_dpc s)) by (destruct (g_dpc s); cbn in *; auto).
      destruct (Enter Hwt Hwr) as [(E1 & E2 & E3 & _)|E]; auto. rewrite E1 in Hwt. rewrite E2, E3. auto.
    + intros Hd Hwt Hq. assert (Hwr : writing (g_dpc s)) by (destruct (g_dpc s); cbn in *; auto).
      destruct (Enter Hwt Hwr) as [(E1 & E2 & E3 & E4)|E]; auto. rewrite E1 in Hwt. rewrite E4 in Hq. rewrite E3. auto.
Qed.

Lemma rwake_reach : forall c ck p n s, c_provider c = PBounded ck p n -> sane c ->
  c_rec c = RecRange -> (c_seekable c = true -> c_clen c <> None) ->
  reach c (both (ranging_env c) fenced) s ->
  asks_fit (ring_size (c_clen c) n) (g_rpc s) /\ bwake (ring_size (c_clen c) n) s /\ more_to_write (g_dpc s).
Proof.
  intros c ck p n s Hp Hs Hrec Hk H. induction H as [s H|s l s' Hr [IH1 IH2] [Hl1 Hl3] H].
  - unfold init in H. destruct (into_rw _ _); [|discriminate]. injection H as <-.
    split; [exact I|]. split; [constructor; cbn; tauto|exact I].
  - assert (Hr' : reach c (ranging_env c) s) by (eapply unfenced; eauto).
    destruct (fwd_reach c ck p n s Hp Hs Hrec Hk Hr') as (lo & W & R & F).
    split; [eapply asks_fit_step; eauto|].
    eapply (rwake_step c ck p n s lo W R l s'); eauto.
    + apply Hs.
    + eapply sync_reach; eauto.
    + apply (tr_at _ _ (traced_reach _ _ _ Hr)).
Qed.

Lemma ranging_read_wakes : forall c ck p n s, c_provider c = PBounded ck p n -> sane c ->
  c_rec c = RecRange -> (c_seekable c = true -> c_clen c <> None) ->
  reach c (both (ranging_env c) fenced) s -> blocked c s -> waits_read (g_rpc s) -> waits_for_room s ->
  exists s', step c s LDStep = Some s'.
Proof.
  intros c ck p n s Hp Hs Hrec Hk H Hbl Hwt Hroom.
  destruct (rwake_reach c ck p n s Hp Hs Hrec Hk H) as (_ & [_ _ K3] & _).
  destruct (blocked_wait _ _ Hbl) as (D1 & D2 & t & D3 & D4).
  pose proof (sync_reach _ _ _ H) as Hsy. pose proof (sy_wait _ Hsy D1) as Sw.
  unfold waits_for_room in Hroom. cbn [step]. unfold d_step.
  destruct (g_dpc s) eqn:Ed; try contradiction.
  destruct (g_permit s) eqn:Ep; [eauto|]. exfalso.
  assert (E : false = true); [|discriminate]. apply K3; auto.
  unfold sync_wait in Sw. rewrite D3, D2 in Sw. rewrite Ed in Sw. cbn in Sw. intuition congruence.
Qed.

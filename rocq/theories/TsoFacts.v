(** * TsoFacts: the buffered machine refines the model with stale loads. *)

From Coq Require Import List Arith Lia ZArith Bool.
From Verif Require Import Base RangeSet Storage System Spec StepTac InvSync Exec Progress LifeFacts Tso.
Import ListNotations.

Ltac split_goal :=
  match goal with
  | |- context [match ?x with _ => _ end] =>
      lazymatch x with
      | context [match _ with _ => _ end] => fail
      | _ => destruct x eqn:?
      end
  end.

(** The task's actions do not depend on the requested position, except where it is loaded;
    nor does what the user can do. *)
Lemma step_req : forall c s x l, l <> LRStep ->
  (match g_dpc s with DWCheck _ _ _ _ => l <> LDStep | _ => True end) ->
  step c (set_req s x) l = match step c s l with Some s' => Some (set_req s' x) | None => None end.
Proof.
  intros c s x l Hl Hd. destruct s as [st dn fl rq re dn' pe wr ch ca dp pf ps rm sc se rp tr].
  destruct l; try congruence; cbn [g_dpc] in Hd;
  unfold step, d_step, handle_seek, should_seek, handle_bytes, finish_or_find_next_gap,
    seek_done, prefetch_done, report_downloading, report_complete, handle_reconnect, write_once, write_short, r_error; gsimpl;
  repeat (split_goal; gsimpl; try congruence); try congruence; try reflexivity.
Qed.

Lemma notify_req : forall c s x n pos rq, g_rpc s = RRNotify n pos rq ->
  step c (set_req s x) LRStep = match step c s LRStep with Some s' => Some (set_req s' x) | None => None end.
Proof.
  intros c s x n pos rq E. cbn [step]. unfold r_step. gsimpl. rewrite E. destruct (g_wreq s); reflexivity.
Qed.

(** While a store is buffered the reader is between that store and its wait, and the
    memory still holds no request unless the task has finished. *)
Definition buf_ok (fence : bool) (t : tstate) : Prop :=
  match t_buf t with
  | Some p => wait_target (g_rpc (t_g t)) = Some p /\ (g_done (t_g t) = false -> g_req (t_g t) = None) /\
              (fence = true -> match g_rpc (t_g t) with RRWait _ _ _ | RSWait _ _ => False | _ => True end)
  | None => True
  end.

Lemma task_req_none : forall c s l s', l <> LRStep -> step c s l = Some s' -> 
  g_req s' = g_req s \/ g_req s' = None.
Proof. intros c s l s' Hl H. destruct l; try congruence; step_cases H; gsimpl; auto. Qed.

Lemma done_mono : forall c s l s', step c s l = Some s' -> g_done s' = false -> g_done s = false.
Proof. intros c s l s' H. step_cases H; gsimpl; intros; auto; try discriminate; try congruence. Qed.

Lemma step_wait_target : forall c s l s' p, l <> LRStep -> step c s l = Some s' ->
  wait_target (g_rpc s) = Some p -> g_rpc s' = g_rpc s.
Proof.
  intros c s l s' p Hl H E. destruct l; try congruence; try (eapply task_step_rpc; eauto; reflexivity);
    step_cases H; gsimpl; auto; discriminate.
Qed.

(** A step of the buffered machine is a step of the model on the state in which the store
    has arrived; a load that misses the buffered store is a stale load. *)
Lemma tso_refines : forall fence c (allow allow' : gstate -> label -> Prop) t,
  blind allow ->
  (forall s l, allow s l -> (fence = true -> fenced s l) -> allow' s l) ->
  treach fence c allow t ->
  reach c allow' (arrived t) /\ buf_ok fence t.
Proof.
  intros fence c allow allow' t [B1 B2] Hw H.
  assert (W : forall s l, l <> LDStale -> allow s l -> allow' s l).
  { intros s l Hl Ha. apply Hw; auto. intros _. destruct l; try exact I. congruence. }
  assert (NS : forall b t0 l t1, t_buf t0 = b -> tstep fence c t0 (TL l) = Some t1 -> l <> LDStale).
  { intros b t0 l t1 _ E ->. discriminate E. }
  induction H as [g H|t l t' Hr [IH IB] Hl H|t t' Hr [IH IB] H].
  - split; [apply reach_init; exact H|exact I].
  - pose proof (NS _ t l t' eq_refl H) as Hns. clear NS.
    destruct t as [g [p|]]; unfold arrived, buf_ok in *; cbn [t_g t_buf] in *.
    + destruct IB as (I1 & I2 & I3).
      assert (K : forall g', l <> LRStep -> step c g l = Some g' ->
        reach c allow' (set_req g' (Some p)) /\
        wait_target (g_rpc g') = Some p /\ (g_done g' = false -> g_req g' = None) /\
        (fence = true -> match g_rpc g' with RRWait _ _ _ | RSWait _ _ => False | _ => True end)).
      { intros g' Hn E. split; [|split; [|split]].
        - destruct (g_dpc g) eqn:Ed;
            try (eapply reach_step with (l := l); [exact IH|apply W; [assumption|apply B1; exact Hl]|];
                 rewrite step_req by (rewrite ?Ed; auto); rewrite E; reflexivity).
          assert (D : l = LDStep \/ l <> LDStep) by (destruct l; auto; right; discriminate).
          destruct D as [->|D];
            [|eapply reach_step with (l := l); [exact IH|apply W; [assumption|apply B1; exact Hl]|];
              rewrite step_req by (rewrite ?Ed; auto); rewrite E; reflexivity].
          (* the load of the task *)
          assert (Hd : g_done g = false).
          { destruct (g_done g) eqn:Edn; auto. pose proof (sy_done _ (sync_reach _ _ _ IH)) as Sd.
            gsimpl. rewrite Edn, Ed in Sd. specialize (Sd eq_refl). discriminate. }
          cbn [step] in E. unfold d_step in E. rewrite Ed, (I2 Hd) in E. injection E as <-.
          eapply reach_step with (l := LDStale); [exact IH| |].
          + apply Hw; [apply B1, B2; exact Hl|]. intros Ef. specialize (I3 Ef).
            unfold fenced. gsimpl. exact I3.
          + cbn [step]. gsimpl. rewrite Ed. reflexivity.
        - rewrite (step_wait_target c g l g' p Hn E I1). exact I1.
        - intros Hd. destruct (task_req_none c g l g' Hn E) as [Er|Er]; auto. rewrite Er.
          apply I2. eapply done_mono; eauto.
        - rewrite (step_wait_target c g l g' p Hn E I1). exact I3. }
      assert (K' : forall n pos rq g', fence = false -> g_rpc g = RRNotify n pos rq -> l = LRStep -> step c g LRStep = Some g' ->
        reach c allow' (set_req g' (Some p)) /\
        wait_target (g_rpc g') = Some p /\ (g_done g' = false -> g_req g' = None) /\
        (fence = true -> match g_rpc g' with RRWait _ _ _ | RSWait _ _ => False | _ => True end)).
      { intros n pos rq g' Ef Er -> E. split; [|split; [|split]].
        - eapply reach_step with (l := LRStep); [exact IH|apply W; [assumption|apply B1; exact Hl]|].
          erewrite notify_req by eauto. rewrite E. reflexivity.
        - rewrite Er in I1. cbn [step] in E. unfold r_step in E. rewrite Er in E. injection E as <-. exact I1.
        - cbn [step] in E. unfold r_step in E. rewrite Er in E. injection E as <-.
          destruct (g_wreq g); gsimpl; auto.
        - congruence. }
      destruct l; cbn [tstep t_g t_buf] in H; try discriminate H; unfold keep_buf in H;
        try (destruct (step c g _) as [g'|] eqn:E; [|discriminate H]; injection H as <-; cbn [t_g t_buf];
             apply K; auto; discriminate).
      unfold tr_step in H. cbn [t_g t_buf] in H. destruct (g_rpc g) eqn:Er; try discriminate H.
      unfold keep_buf in H. destruct fence; [discriminate H|].
      destruct (step c g LRStep) as [g'|] eqn:E; [|discriminate H].
      injection H as <-. cbn [t_g t_buf]. eapply K'; eauto.
    + assert (K : forall g', step c g l = Some g' -> reach c allow' g' /\ True).
      { intros g' E. split; auto. eapply reach_step; eauto. }
      destruct l; cbn [tstep t_g t_buf] in H; try discriminate H; unfold keep_buf in H;
        try (destruct (step c g _) as [g'|] eqn:E; [|discriminate H]; injection H as <-; cbn [t_g t_buf];
             apply K; auto).
      unfold tr_step in H. cbn [t_g t_buf] in H. unfold keep_buf in H.
      destruct (g_rpc g) eqn:Er;
        try (destruct (step c g LRStep) as [g'|] eqn:E; [|discriminate H];
             injection H as <-; cbn [t_g t_buf]; apply K; auto; fail).
      * injection H as <-. cbn [t_g t_buf]. gsimpl. cbn [wait_target].
        split; [|split; [reflexivity|split; [|auto]]].
        -- eapply reach_step with (l := LRStep); [exact IH|apply W; [assumption|exact Hl]|]. cbn [step]. unfold r_step. rewrite Er. reflexivity.
        -- intros Hd. pose proof (sy_wait _ (sync_reach _ _ _ IH) Hd) as Sw.
           unfold sync_wait in Sw. rewrite Er in Sw. cbn in Sw. apply Sw.
      * injection H as <-. cbn [t_g t_buf]. gsimpl. cbn [wait_target].
        split; [|split; [reflexivity|split; [|auto]]].
        -- eapply reach_step with (l := LRStep); [exact IH|apply W; [assumption|exact Hl]|]. cbn [step]. unfold r_step. rewrite Er. reflexivity.
        -- intros Hd. pose proof (sy_wait _ (sync_reach _ _ _ IH) Hd) as Sw.
           unfold sync_wait in Sw. rewrite Er in Sw. cbn in Sw. apply Sw.
  - destruct t as [g [p|]]; cbn in *; [|discriminate]. injection H as <-. split; [exact IH|exact I].
Qed.

(** Without a fence. *)
Lemma tso_reach : forall fence c (allow : gstate -> label -> Prop) t, blind allow -> treach fence c allow t ->
  reach c allow (arrived t).
Proof. intros fence c allow t B H. eapply tso_refines in H; [apply H|exact B|auto]. Qed.

(** With a fence. *)
Lemma tso_fenced_reach : forall c (allow : gstate -> label -> Prop) t, blind allow -> treach true c allow t ->
  reach c (both allow fenced) (arrived t).
Proof.
  intros c allow t B H. eapply tso_refines in H; [apply H|exact B|].
  intros s l A F. split; auto.
Qed.

Lemma arrived_trace : forall t, g_trace (arrived t) = g_trace (t_g t).
Proof. intros [g [p|]]; reflexivity. Qed.

Lemma tblocked_blocked : forall fence c t, tblocked fence c t -> arrived t = t_g t /\ blocked c (t_g t).
Proof.
  intros fence c [g b] (H1 & H2 & H3). cbn in *. subst b. split; [reflexivity|]. split; auto.
  unfold tr_step in H3. cbn [t_g t_buf] in H3. destruct (g_rpc g) eqn:Er; try discriminate H3;
    destruct (step c g LRStep); auto; discriminate H3.
Qed.

(** ** Environments that do not depend on the requested position *)

Lemma blind_both : forall p q, blind p -> blind q -> blind (both p q).
Proof.
  intros p q [P1 P2] [Q1 Q2]. split; unfold both.
  - intros s x l [A B]. auto.
  - intros s [A B]. auto.
Qed.

Ltac blind_tac :=
  split; [intros s x l; destruct l; cbn; auto;
          repeat match goal with
          | o : op |- _ => destruct o; cbn; auto
          | r : rec_result |- _ => destruct r; cbn; auto
          end|cbn; auto].

Lemma blind_any : blind any. Proof. blind_tac. Qed.
Lemma blind_roaming : forall c, blind (roaming_client c). Proof. intros c. blind_tac. Qed.
Lemma blind_sequential : blind sequential_client. Proof. blind_tac. Qed.
Lemma blind_local : forall c, blind (local_client c). Proof. intros c. blind_tac. Qed.
Lemma blind_past_end : forall c, blind (no_empty_chunk_past_end c). Proof. intros c. blind_tac. Qed.
Lemma blind_empty : blind no_empty_chunk. Proof. blind_tac. Qed.
Lemma blind_silent : forall c, blind (no_silent_truncation c). Proof. intros c. blind_tac. Qed.
Lemma blind_leftover : blind no_reconnect_with_leftover. Proof. blind_tac. Qed.
Lemma blind_productive : blind productive. Proof. blind_tac. Qed.

Lemma blind_roaming_env : forall c, blind (roaming_env c).
Proof. intros c. repeat apply blind_both; auto using blind_roaming, blind_past_end, blind_silent. Qed.
Lemma blind_honest_env : forall c, blind (honest_env c).
Proof. intros c. repeat apply blind_both; auto using blind_past_end, blind_silent. Qed.
Lemma blind_local_env : forall c, blind (local_env c).
Proof. intros c. repeat apply blind_both; auto using blind_local, blind_empty, blind_silent, blind_leftover. Qed.

(** ** Concrete executions *)

Fixpoint trun_b (fence : bool) (c : cfg) (ab : gstate -> label -> bool) (t : tstate) (ls : list tlabel)
  : option tstate :=
  match ls with
  | [] => Some t
  | l :: k =>
      if match l with TL l' => ab (t_g t) l' | TFlush => true end then
        match tstep fence c t l with Some t' => trun_b fence c ab t' k | None => None end
      else None
  end.

Definition texec_b (fence : bool) (c : cfg) ab (ls : list tlabel) : option tstate :=
  match init c with Some g => trun_b fence c ab (mkT g None) ls | None => None end.

Lemma texec_reach : forall fence c ab (allow : gstate -> label -> Prop) ls t, decides ab allow ->
  texec_b fence c ab ls = Some t -> treach fence c allow t.
Proof.
  intros fence c ab allow ls t Hd H. unfold texec_b in H. destruct (init c) as [g|] eqn:E; [|discriminate].
  assert (K : treach fence c allow (mkT g None)) by (apply treach_init; auto).
  revert H K. generalize (mkT g None) as t0. clear E. induction ls as [|l ls IH]; intros t0 H K; cbn [trun_b] in H.
  - congruence.
  - destruct l as [l|].
    + destruct (ab (t_g t0) l) eqn:Ea; [|discriminate].
      destruct (tstep fence c t0 (TL l)) as [t1|] eqn:Es; [|discriminate].
      apply (IH t1); auto. eapply treach_step; eauto.
    + destruct (tstep fence c t0 TFlush) as [t1|] eqn:Es; [|discriminate].
      apply (IH t1); auto. eapply treach_flush; eauto.
Qed.

(** ** Deadlock *)

Lemma tso_deadlock_stays : forall fence c allow t t' bytes w pos, g_dpc (t_g t) = DWWait bytes w pos ->
  g_permit (t_g t) = false -> g_again (t_g t) = 0 -> g_done (t_g t) = false -> g_reached (t_g t) = false -> t_buf t = None ->
  (match g_rpc (t_g t) with RRWait _ _ _ | RSWait _ _ => True | _ => False end) ->
  tsteps fence c allow t t' ->
  tblocked fence c t' /\ ~ task_can_move c (t_g t') /\ g_trace (t_g t') = g_trace (t_g t).
Proof.
  intros fence c allow t t' bytes w pos H1 H2 Ha H3 H4 H5 H6 H.
  assert (K : g_dpc (t_g t') = g_dpc (t_g t) /\ g_permit (t_g t') = false /\ g_done (t_g t') = false /\
              g_reached (t_g t') = false /\ g_rpc (t_g t') = g_rpc (t_g t) /\ t_buf t' = None /\
              g_trace (t_g t') = g_trace (t_g t) /\ g_again (t_g t') = 0).
  { induction H as [t|t t1 l t2 Hs IH Hl Hst|t t1 t2 Hs IH Hst]; [auto 10| |].
    - destruct (IH H1 H2 Ha H3 H4 H5 H6) as (K1 & K2 & K3 & K4 & K5 & K6 & K7 & K8). rewrite H1 in *.
      destruct l; cbn [tstep] in Hst; unfold tr_step, keep_buf in Hst; cbn [step] in Hst; unfold d_step, r_step, r_error in Hst;
        rewrite ?K1, ?K2, ?K3, ?K4, ?K5, ?K6, ?K8 in Hst;
        try discriminate Hst; try (destruct (g_rpc (t_g t)); try contradiction; discriminate Hst).
      injection Hst as <-. auto 10.
    - destruct (IH H1 H2 Ha H3 H4 H5 H6) as (K1 & K2 & K3 & K4 & K5 & K6 & K7 & K8).
      cbn [tstep] in Hst. rewrite K6 in Hst. discriminate. }
  destruct K as (K1 & K2 & K3 & K4 & K5 & K6 & K7 & _). split; [|split; auto].
  - unfold tblocked, in_call. cbn [tstep]. unfold tr_step, keep_buf. cbn [step]. unfold r_step. rewrite K3, K4, K5, K6.
    destruct (g_rpc (t_g t)); try contradiction; auto.
  - rewrite H1 in K1. unfold task_can_move, awaits_transport. rewrite K1. intros [K|[s2 K]]; [exact K|].
    cbn [step] in K. unfold d_step in K. rewrite K1, K2 in K. discriminate K.
Qed.

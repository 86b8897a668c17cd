(** * Life cycle of the download task, any storage: failure, cancellation, completion,
      callbacks. *)

From Coq Require Import List Arith Lia ZArith Bool.
From Verif Require Import Base ListFacts RangeSet RangeSetFacts Storage StorageFacts
  System Spec StepTac InvSync InvTrace Exec.
Import ListNotations.

Ltac rwpc :=
  repeat match goal with
  | E : g_dpc _ = _ |- _ => rewrite E in *; clear E
  | E : g_rpc _ = _ |- _ => rewrite E in *; clear E
  end.

(** ** Unseekable sources *)

Definition not_seeking (d : dpc) : Prop := match d with DSeeking _ _ => False | _ => True end.

Lemma unseekable_inv : forall c allow s, c_seekable c = false -> reach c allow s ->
  not_seeking (g_dpc s) /\ Forall no_range (g_trace s).
Proof.
  intros c allow s Hk H. induction H as [s H|s l s' Hr (IH1 & IH2) Hl H].
  - unfold init in H. destruct (into_rw _ _); [|discriminate]. injection H as <-. cbn; auto.
  - clear Hr Hl. unfold should_seek in *.
    step_cases H; gsimpl; unfold should_seek in *; rewrite ?Hk in *; rwpc; try discriminate; cbn [not_seeking] in *;
      try contradiction; auto; split; auto; repeat (constructor; [exact I|]); auto;
      try (destruct (nw =? 0); exact I); try (destruct (ok && ok0); exact I).
Qed.

(** ** Failure *)

Lemma failed_sticky : forall c s l s', g_failed s = true -> step c s l = Some s' ->
  g_failed s' = true.
Proof. intros c s l s' Hf H. step_cases H; gsimpl; auto; discriminate. Qed.

(** Calls that have not passed their last check for failure. *)
Definition doomed (r : rpc) : Prop :=
  match r with
  | RIdle | RDropped | RRCheck _ | RRSet _ _ _ | RRNotify _ _ _ | RRWait _ _ _
  | RRCheck2 _ _ _ | RSCheck _ | RSSet _ _ | RSSend _ _ | RSWait _ _ | RSCheck2 _ _ => True
  | _ => False
  end.

Lemma failed_calls : forall c allow s s', g_failed s = true -> doomed (g_rpc s) ->
  steps c allow s s' ->
  g_failed s' = true /\ doomed (g_rpc s') /\
  exists newer, g_trace s' = newer ++ g_trace s /\ Forall call_failed newer.
Proof.
  intros c allow s s' Hf Hd H. induction H as [s|s s1 l s2 Hst IH Hl H].
  - split; [auto|split; [auto|]]. exists []. auto.
  - destruct (IH Hf Hd) as (IH1 & IH2 & newer & IH3 & IH4). clear IH Hst.
    split; [eapply failed_sticky; eauto|].
    cut (doomed (g_rpc s2) /\ exists es, g_trace s2 = es ++ g_trace s1 /\ Forall call_failed es).
    { intros (K1 & es & K2 & K3). split; auto. exists (es ++ newer).
      rewrite K2, IH3, app_assoc. split; auto. apply Forall_app; auto. }
    clear IH3 IH4 newer.
    step_cases H; gsimpl; rwpc; cbn [doomed] in *; try contradiction; try congruence;
      (split; [auto; try (destruct o; exact I)|]);
      first [ exists []; split; [reflexivity|constructor]
            | eexists [_]; split; [reflexivity|constructor; [cbn; eauto|constructor]]
            | eexists [_; _]; split; [reflexivity|constructor; [exact I|constructor; [exact I|constructor]]]].
Qed.

(** A failed download releases whoever waits. *)
Lemma failed_releases : forall c allow s, reach c allow s -> g_failed s = true ->
  blocked c s -> g_dpc s = DSignal /\
  exists s1, step c s LDStep = Some s1 /\ step c s1 LRStep <> None.
Proof.
  intros c allow s Hr Hf [Hi Hb]. pose proof (sync_reach _ _ _ Hr) as Hsy.
  pose proof (sy_fail _ Hsy Hf) as Hd. pose proof (sy_final _ Hsy) as Hfin.
  unfold in_call in Hi. cbn [step] in *.
  destruct (g_dpc s) eqn:Ed; try contradiction.
  - split; auto. unfold d_step. rewrite Ed. eexists. split; [reflexivity|].
    unfold r_step in *. gsimpl. destruct (g_rpc s) eqn:Er; try contradiction;
      try discriminate; repeat (split_match Hb; try discriminate).
  - exfalso; specialize (Hfin I); unfold r_step in Hb; rewrite Hfin in Hb;
      destruct (g_rpc s) eqn:Er; try contradiction; try discriminate Hb;
      repeat (split_match Hb; try discriminate Hb).
  - exfalso; specialize (Hfin I); unfold r_step in Hb; rewrite Hfin in Hb;
      destruct (g_rpc s) eqn:Er; try contradiction; try discriminate Hb;
      repeat (split_match Hb; try discriminate Hb).
Qed.

(** ** Blocked readers *)

Lemma blocked_wait : forall c s, blocked c s ->
  g_done s = false /\ g_reached s = false /\
  exists t, wait_target (g_rpc s) = Some t /\
    match g_rpc s with RRWait _ _ _ | RSWait _ _ => True | _ => False end.
Proof.
  intros c s [Hi Hb]. unfold in_call in Hi. cbn [step] in Hb. unfold r_step in Hb.
  destruct (g_rpc s) eqn:Er; try contradiction; try discriminate Hb;
    repeat (split_match Hb; try discriminate Hb);
    repeat split; auto; eexists; split; cbn; eauto.
Qed.

Lemma blocked_registered : forall c allow s, reach c allow s -> blocked c s ->
  (exists t, g_req s = Some t /\ wait_target (g_rpc s) = Some t) \/
  exists s', step c s LDStep = Some s' /\ step c s' LRStep <> None.
Proof.
  intros c allow s Hr Hb. pose proof (sync_reach _ _ _ Hr) as Hsy.
  destruct (blocked_wait _ _ Hb) as (A1 & A2 & t & A3 & A4).
  pose proof (sy_wait _ Hsy A1) as Hw. unfold sync_wait in Hw. rewrite A3 in Hw.
  destruct Hw as [(B1 & B2 & B3)|[(B1 & B2 & B3)|(B1 & B2 & B3)]].
  - left. eauto.
  - congruence.
  - right. destruct (g_dpc s) eqn:Ed; try discriminate. cbn [step]. unfold d_step. rewrite Ed.
    eexists. split; [reflexivity|]. unfold r_step. gsimpl. rewrite A1.
    destruct (g_rpc s); try contradiction; discriminate.
Qed.

(** ** Cancellation *)

Lemma cancel_enabled : forall c s, g_cancel s = true -> g_dpc s = DSelect ->
  step c s LDCancel = Some (set_dpc s (DOnFinish false)).
Proof. intros c s H1 H2. cbn. rewrite H1, H2. auto. Qed.

Lemma stopping_steps : forall c allow s s', stopping (g_dpc s) -> steps c allow s s' ->
  stopping (g_dpc s') /\
  exists newer, g_trace s' = newer ++ g_trace s /\
    Forall (fun e => is_request e = false /\ is_write e = false) newer.
Proof.
  intros c allow s s' Hd H. induction H as [s|s s1 l s2 Hst IH Hl H].
  - split; [auto|]. exists []. auto.
  - destruct (IH Hd) as (IH2 & newer & IH3 & IH4). clear IH Hst.
    cut (stopping (g_dpc s2) /\ exists es, g_trace s2 = es ++ g_trace s1 /\
           Forall (fun e => is_request e = false /\ is_write e = false) es).
    { intros (K1 & es & K2 & K3). split; auto. exists (es ++ newer).
      rewrite K2, IH3, app_assoc. split; auto. apply Forall_app; auto. }
    clear IH3 IH4 newer.
    step_cases H; gsimpl; rwpc; cbn [stopping] in *; try contradiction; try congruence;
      (split; [auto; try (destruct (ok && ok0); exact I)|]);
      first [ exists []; split; [reflexivity|constructor]
            | eexists [_]; split; [reflexivity|constructor; [cbn; auto|constructor]]].
Qed.

Definition stop_rank (d : dpc) : nat :=
  match d with
  | DOnFinish false => 4 | DSetFailed => 3 | DSignal => 2 | DCancelTok => 1 | _ => 0
  end.

Lemma stop_run : forall c ls s s', stopping (g_dpc s) -> run c s ls = Some s' ->
  stopping (g_dpc s') /\ task_steps ls + stop_rank (g_dpc s') = stop_rank (g_dpc s).
Proof.
  induction ls as [|l ls IH]; intros s s' Hd H; cbn [run] in H.
  - injection H as <-. auto.
  - destruct (step c s l) as [s1|] eqn:E; [|discriminate].
    assert (K : stopping (g_dpc s1) /\ (if task_label l then 1 else 0) + stop_rank (g_dpc s1) = stop_rank (g_dpc s)).
    { clear H IH. rename E into H. step_cases H; gsimpl; rwpc; cbn [stopping stop_rank task_label] in *;
        try contradiction; auto;
        try (destruct ok0; [contradiction|rewrite andb_false_r in *; discriminate]);
        try (destruct ok0; [contradiction|auto]); try discriminate. }
    destruct K as [K1 K2]. destruct (IH _ _ K1 H) as [J1 J2]. split; auto.
    cbn [task_steps]. destruct (task_label l); lia.
Qed.

Lemma cancelled_stops : forall c s s1 ls s2, step c s LDCancel = Some s1 ->
  run c s1 ls = Some s2 ->
  task_steps ls <= 4 /\ (task_steps ls < 4 -> task_can_move c s2) /\ (task_steps ls = 4 -> g_dpc s2 = DEnd).
Proof.
  intros c s s1 ls s2 H1 H2.
  assert (Hd : g_dpc s1 = DOnFinish false) by (step_cases H1; auto).
  destruct (stop_run c ls s1 s2) as [A1 A2]; auto; [rewrite Hd; exact I|].
  rewrite Hd in A2. cbn [stop_rank] in A2. split; [lia|].
  unfold task_can_move, awaits_transport. cbn [step]. unfold d_step.
  destruct (g_dpc s2) as [| | | | | | | | | | |[]| | | | |]; cbn in A1, A2 |- *; try contradiction;
    (split; intros; try lia; eauto).
Qed.

(** ** Completion token *)

Lemma token_end : forall c (allow : gstate -> label -> Prop) s, (forall s l, allow s l -> nobody_cancels s l) ->
  reach c allow s -> (g_cancel s = true <-> g_dpc s = DEnd).
Proof.
  intros c allow s Ha H. induction H as [s H|s l s' Hr IH Hl H].
  - unfold init in H. destruct (into_rw _ _); [|discriminate]. injection H as <-. cbn.
    split; discriminate.
  - apply Ha in Hl. clear Hr Ha.
    step_cases H; gsimpl; rwpc; cbn in Hl; try contradiction; auto;
      try (split; [intros K; apply IH in K; congruence|congruence]);
      try (split; auto; fail).
    exfalso. destruct IH as [IH _]. specialize (IH eq_refl). discriminate.
Qed.

Lemma end_cancelled : forall c allow s, reach c allow s -> g_dpc s = DEnd ->
  g_cancel s = true /\ g_done s = true /\ exists ok, In (EvFinish ok) (g_trace s).
Proof.
  intros c allow s H Hd.
  assert (K : (g_dpc s = DEnd -> g_cancel s = true) /\
              (match g_dpc s with DSetFailed | DSignal | DCancelTok | DEnd => True | _ => False end ->
               exists ok, In (EvFinish ok) (g_trace s))).
  { clear Hd. induction H as [s H|s l s' Hr IH Hl H].
    - unfold init in H. destruct (into_rw _ _); [|discriminate]. injection H as <-. cbn.
      split; [discriminate|contradiction].
    - destruct IH as [IH1 IH2]. clear Hr Hl.
      step_cases H; gsimpl; rwpc; cbn [In] in *; split; intros; try discriminate; try contradiction;
        auto; try congruence; try (destruct (IH2 I) as [ok' K]; exists ok'; auto; fail);
        try (eexists; left; reflexivity).
      all: try (destruct IH2 as [ok' K]; [assumption|exists ok'; auto]). }
  destruct K as [K1 K2]. pose proof (sy_final _ (sync_reach _ _ _ H)) as Hfin.
  rewrite Hd in K2, Hfin. auto.
Qed.

(** ** Callbacks and writes *)

Lemma reconnects_inv : forall c allow s, reach c allow s -> reconnects_reported (g_trace s).
Proof.
  intros c allow s H. induction H as [s H|s l s' Hr IH Hl H].
  - unfold init in H. destruct (into_rw _ _); [|discriminate]. injection H as <-. exact I.
  - clear Hr Hl. step_cases H; gsimpl; cbn; auto; split; auto; discriminate.
Qed.

Lemma write_accepted : forall bs s k s', st_write bs s = (k, s') -> k <= length bs.
Proof.
  intros bs [u|b] k s' H; cbn in H.
  - injection H as <- _. auto.
  - destruct (bnd_write bs b) as [k1 b1] eqn:E. injection H as <- _.
    unfold bnd_write in E. destruct (_ =? 0); injection E as <- _; lia.
Qed.

Lemma writes_inv : forall c allow s, reach c allow s -> Forall (write_size_ok c) (g_trace s).
Proof.
  intros c allow s H. induction H as [s H|s l s' Hr IH Hl H].
  - unfold init in H. destruct (into_rw _ _); [|discriminate]. injection H as <-. constructor.
  - clear Hr Hl. step_cases H; gsimpl; auto; repeat constructor; auto.
    all: match goal with E : st_write _ _ = _ |- _ => apply write_accepted in E; rewrite length_slice in E end; try lia.
  all: apply andb_prop in Heqb as [_ Hk]; apply andb_prop in Hk as [_ Hk]; apply Nat.ltb_lt in Hk; lia.
Qed.

(** Nothing frees a task that waits for space once the handle is gone. *)
Lemma stuck_writer : forall c allow s s' bytes w pos, g_dpc s = DWWait bytes w pos ->
  g_permit s = false -> g_again s = 0 -> g_rpc s = RDropped -> steps c allow s s' ->
  g_dpc s' = g_dpc s /\ ~ task_can_move c s'.
Proof.
  intros c allow s s' bytes w pos H1 H2 Ha H3 H.
  assert (K : g_dpc s' = g_dpc s /\ g_permit s' = false /\ g_rpc s' = RDropped /\ g_again s' = 0).
  { induction H as [s|s s1 l s2 Hs IH Hl Hst]; auto.
    destruct (IH H1 H2 Ha H3) as (K1 & K2 & K3 & K4). rewrite H1 in *.
    destruct l; cbn [step] in Hst; unfold d_step, r_step, r_error in Hst;
      rewrite ?K1, ?K2, ?K3, ?K4 in Hst; try discriminate Hst. injection Hst as <-. auto. }
  destruct K as (K1 & K2 & K3 & _). split; auto. rewrite H1 in K1.
  unfold task_can_move, awaits_transport. rewrite K1. intros [K|[s2 K]]; [exact K|].
  cbn [step] in K. unfold d_step in K. rewrite K1, K2 in K. discriminate K.
Qed.

(** Reader and writer waiting for each other do so for ever. *)
Lemma deadlock_stays : forall c allow s s' bytes w pos, g_dpc s = DWWait bytes w pos ->
  g_permit s = false -> g_again s = 0 -> g_done s = false -> g_reached s = false ->
  (match g_rpc s with RRWait _ _ _ | RSWait _ _ => True | _ => False end) ->
  steps c allow s s' -> blocked c s' /\ ~ task_can_move c s' /\ g_trace s' = g_trace s.
Proof.
  intros c allow s s' bytes w pos H1 H2 Ha H3 H4 H5 H.
  assert (K : g_dpc s' = g_dpc s /\ g_permit s' = false /\ g_done s' = false /\
              g_reached s' = false /\ g_rpc s' = g_rpc s /\ g_trace s' = g_trace s /\ g_again s' = 0).
  { induction H as [s|s s1 l s2 Hs IH Hl Hst]; [auto 10|].
    destruct (IH H1 H2 Ha H3 H4 H5) as (K1 & K2 & K3 & K4 & K5 & K6 & K7). rewrite H1 in *.
    destruct l; cbn [step] in Hst; unfold d_step, r_step, r_error in Hst; rewrite ?K1, ?K2, ?K3, ?K4, ?K5, ?K7 in Hst;
      try discriminate Hst; try (destruct (g_rpc s); try contradiction; discriminate Hst).
    injection Hst as <-. auto 10. }
  destruct K as (K1 & K2 & K3 & K4 & K5 & K6 & _). split; [|split; auto].
  - unfold blocked, in_call. cbn [step]. unfold r_step. rewrite K3, K4, K5.
    destruct (g_rpc s); try contradiction; auto.
  - rewrite H1 in K1. unfold task_can_move, awaits_transport. rewrite K1. intros [K|[s2 K]]; [exact K|].
    cbn [step] in K. unfold d_step in K. rewrite K1, K2 in K. discriminate K.
Qed.

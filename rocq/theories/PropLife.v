(** * Properties of requests, calls, failure, cancellation and callbacks
    (C07, C10, C13-C17, C20, C21, C28, C31-C33, C37-C41, C53, C56). *)

From Coq Require Import List Arith Lia ZArith Bool.
From Verif Require Import Base RangeSet Storage System Spec InvSync InvTrace LifeFacts DoneFacts
  Alive Progress RequestFacts CallFacts MoreFacts Exec PropReads.
Import ListNotations.

(** ** C07: unseekable sources never get a range request *)

Theorem C07_no_range_request : forall c allow s,
  c_seekable c = false -> reach c allow s -> Forall no_range (g_trace s).
Proof. intros c allow s H1 H2. apply (unseekable_inv c allow s H1 H2). Qed.

(** A seek far ahead and a body that ends early on an unseekable source. *)
Example C07_case :
  let c := mk (Some 12) false 0 4 (PPlain PlMem) in
  c_seekable c = false /\ exists s, reach c any s /\
    In (EvSeek (FromStart 11) (Ok 11)) (g_trace s) /\ completed s.
Proof.
  cbv zeta. split; [reflexivity|]. eexists.
  split; [reach_tac any_b ([LDChunk 2] ++ Tk 6 ++ [LOp (OSeek (FromStart 11))] ++ Rd 4 ++
    [LDSeek; LDChunk 6] ++ Tk 7 ++ [LDEof] ++ Tk 2 ++ Rd 3)|].
  vm_compute; tauto.
Qed.

(** ** C10: range requests stay inside the resource *)

(** Not for every client: see [inverted_run]. *)
Theorem C10_refuted : exists c s a b,
  sane c /\ unbounded_store c /\ honours_ranges c /\ c_seekable c = true /\
  c_clen c = Some 12 /\ reach c (forward_env c) s /\
  In (EvSeekRange a (Some b)) (g_trace s) /\ b < a.
Proof.
  exists (mk (Some 12) true 0 4 (PPlain PlMem)). eexists. exists 9, 6.
  split; [apply mk_sane; auto; lia|split; [exact I|split; [apply mk_honours|]]].
  split; [reflexivity|split; [reflexivity|]].
  split; [reach_tac (forward_env_b (mk (Some 12) true 0 4 (PPlain PlMem)))
    (two_ranges_run ++ [LOp (OSeek (FromStart 9))] ++ Rd 4 ++ [LDChunk 4] ++ Tk 7 ++ Rd 3 ++
     [LDEof; LDSeekRes true; LDChunk 1] ++ Tk 6 ++ [LDSeek])|].
  split; [vm_compute; tauto|lia].
Qed.

(** Both ends of every request are inside the resource; without seeks the request is
    also non-empty and not inverted.  Missing: the order of the two ends after seeks. *)
Theorem C10_partial : forall c cl allow s,
  c_clen c = Some cl -> reach c allow s ->
  Forall (request_inside cl) (g_trace s) /\
  ((forall s l, allow s l -> sequential_client s l) -> Forall (gap_request c) (g_trace s)).
Proof.
  intros c cl allow s H1 H2. split.
  - apply (ranged_reach c cl allow s H1 H2).
  - intros H. apply (sequential_requests c allow s H H2).
Qed.

Example C10_case :
  let c := mk (Some 12) true 0 4 (PPlain PlMem) in
  c_clen c = Some 12 /\ exists s, reach c sequential_client s /\
    In (EvSeekRange 5 (Some 12)) (g_trace s).
Proof.
  cbv zeta. split; [reflexivity|]. eexists.
  split; [reach_tac sequential_b early_end_run|]. vm_compute; tauto.
Qed.

(** ** C13: seeking before the start is an error *)

Definition negative_run : list label := [LDChunk 12] ++ Tk 8 ++ [LDEof] ++ Tk 2 ++
  [LOp (OSeek (FromCurrent (-5)))] ++ Rd 7.

(** Not so: with a known length the seek succeeds and goes to the end. *)
Theorem C13_refuted : exists c s from t p,
  sane c /\ unbounded_store c /\ honours_ranges c /\
  reach c (both no_empty_chunk no_truncation) s /\
  nth_error (g_trace s) 0 = Some (EvSeek from (Ok p)) /\
  seek_target c (cursor (tl (g_trace s))) from = Some t /\ (t < 0)%Z.
Proof.
  exists (mk (Some 12) true 0 4 (PPlain PlMem)). eexists. exists (FromCurrent (-5)), (-5)%Z, 12.
  split; [apply mk_sane; auto; lia|split; [exact I|split; [apply mk_honours|]]].
  split; [reach_tac (both_b empty_b truncation_b) negative_run|].
  split; [reflexivity|split; [reflexivity|lia]].
Qed.

(** What it does instead, whenever the length is known.  Missing: the error. *)
Theorem C13_partial : forall c allow s,
  sane c -> reach c allow s -> every_event (negative_to_end c) (g_trace s).
Proof. exact negative_reach. Qed.

Example C13_case :
  let c := mk (Some 12) true 0 4 (PPlain PlMem) in
  sane c /\ exists s, reach c any s /\
    nth_error (g_trace s) 0 = Some (EvSeek (FromCurrent (-5)) (Ok 12)).
Proof.
  cbv zeta. split; [apply mk_sane; auto; lia|]. eexists.
  split; [reach_tac any_b negative_run|reflexivity].
Qed.

(** ** C14: seeking from the end needs a known length *)

(** Unknown length: refused, and at once, leaving everything but the trace as it was. *)
Theorem C14_end_unknown : forall c allow s,
  c_clen c = None -> reach c allow s ->
  every_event end_refused (g_trace s) /\
  (forall d s1 s2, g_failed s = false ->
     step c s (LOp (OSeek (FromEnd d))) = Some s1 -> step c s1 LRStep = Some s2 ->
     s2 = emit s (EvSeek (FromEnd d) (Err EUnsupported))).
Proof.
  intros c allow s H1 H2. split; [eapply end_unknown; eauto|].
  intros d s1 s2. apply end_unknown_now; auto.
Qed.

(** Known length: a successful seek goes to length + offset, clamped. *)
Theorem C14_end_known : forall c cl allow s newer d p older,
  c_clen c = Some cl -> reach c allow s ->
  g_trace s = newer ++ EvSeek (FromEnd d) (Ok p) :: older ->
  (0 <= Z.of_nat cl + d < two64)%Z ->
  Z.of_nat p = Z.min (Z.of_nat cl + d) (Z.of_nat cl).
Proof.
  intros c cl allow s newer d p older Hc Hr E Hd.
  pose proof (traced_reach _ _ _ Hr) as T.
  assert (Hs : every_event (seek_result_ok c) (g_trace s)) by (apply all_events_every; apply T).
  specialize (Hs _ _ _ E). cbn in Hs. rewrite Hc in Hs. cbn in Hs. apply (Hs _ eq_refl Hd).
Qed.

Example C14_case :
  (exists s, reach (mk None true 0 4 (PPlain PlMem)) any s /\
     In (EvSeek (FromEnd (-3)) (Err EUnsupported)) (g_trace s)) /\
  (exists s newer older, reach (mk (Some 12) true 0 4 (PPlain PlMem)) any s /\
     g_trace s = newer ++ EvSeek (FromEnd (-3)) (Ok 9) :: older).
Proof.
  split.
  - eexists. split; [reach_tac any_b ([LOp (OSeek (FromEnd (-3)))] ++ Rd 1)|vm_compute; tauto].
  - eexists. exists []. eexists.
    split; [reach_tac any_b ([LDChunk 12] ++ Tk 8 ++ [LOp (OSeek (FromEnd (-3)))] ++ Rd 3)|].
    vm_compute; reflexivity.
Qed.

(** ** C15: failure is sticky and reported *)

(** From a state that has failed and in which no call is in progress, or one is blocked,
    every call that returns returns an error. *)
Theorem C15_failure_is_sticky : forall c allow s s',
  g_failed s = true -> g_rpc s = RIdle \/ blocked c s -> steps c allow s s' ->
  g_failed s' = true /\
  exists newer, g_trace s' = newer ++ g_trace s /\ Forall call_failed newer.
Proof.
  intros c allow s s' Hf Hb Hs.
  assert (Hd : doomed (g_rpc s)).
  { destruct Hb as [E|Hb]; [rewrite E; exact I|].
    destruct (blocked_wait c s Hb) as (_ & _ & t & _ & Hw). destruct (g_rpc s); exact I || contradiction. }
  destruct (failed_calls c allow s s' Hf Hd Hs) as (A & _ & B). auto.
Qed.

(** A call that is blocked when the download has failed is released by the very next
    action of the task, which is already due. *)
Theorem C15_failure_releases : forall c allow s,
  reach c allow s -> g_failed s = true -> blocked c s ->
  exists s1, step c s LDStep = Some s1 /\ step c s1 LRStep <> None.
Proof. intros c allow s H1 H2 H3. apply (failed_releases c allow s H1 H2 H3). Qed.

(** A range request fails while the seek waits for it. *)
Definition failing_run : list label :=
  [LDChunk 2] ++ Tk 6 ++ [LOp (OSeek (FromStart 6))] ++ Rd 4 ++
  [LDSeek; LDSeekRes false; LDFinishRes true] ++ Tk 1.

Example C15_case :
  let c := mk (Some 12) true 0 4 (PPlain PlMem) in
  exists s s', reach c any s /\ g_failed s = true /\ blocked c s /\ steps c any s s' /\
    In (EvSeek (FromStart 6) (Err EOther)) (g_trace s') /\
    In (EvRead 0 2 false (Err EOther)) (g_trace s').
Proof.
  cbv zeta. eexists. eexists.
  split; [reach_tac any_b failing_run|]. split; [reflexivity|split; [split; [exact I|reflexivity]|]].
  split; [eapply (run_b_steps _ any_b _ any_decides (Tk 1 ++ Rd 2 ++ [LOp (ORead 2)] ++ Rd 1));
          [apply steps_refl|vm_compute; reflexivity]|].
  vm_compute; tauto.
Qed.

(** ** C16: a waiting reader is never forgotten *)

Theorem C16_waiter_registered : forall c allow s,
  reach c allow s -> blocked c s ->
  (exists t, g_req s = Some t /\ wait_target (g_rpc s) = Some t) \/
  exists s', step c s LDStep = Some s' /\ step c s' LRStep <> None.
Proof. exact blocked_registered. Qed.

(** Both disjuncts occur. *)
Example C16_case :
  let c := mk (Some 12) true 0 4 (PPlain PlMem) in
  (exists s, reach c any s /\ blocked c s /\ g_req s = Some 4) /\
  (exists s, reach c any s /\ blocked c s /\ g_req s = None).
Proof.
  cbv zeta. split; eexists.
  - split; [reach_tac any_b ([LOp (ORead 4)] ++ Rd 4 ++ [LDChunk 5] ++ Tk 5)|].
    split; [split; [exact I|]|]; reflexivity.
  - split; [reach_tac any_b ([LOp (ORead 4)] ++ Rd 4 ++ [LDChunk 5] ++ Tk 6)|].
    split; [split; [exact I|]|]; reflexivity.
Qed.

(** ** C17: no deadlock with unbounded storage *)

(** Whatever the transport and the scheduler did before, a blocked call never has to wait
    for itself: the task is running or waiting for the transport. *)
Theorem C17_no_deadlock : forall c s,
  0 < c_batch c -> unbounded_store c -> reach c no_empty_chunk s ->
  blocked c s -> task_can_move c s.
Proof. exact unbounded_no_deadlock. Qed.

(** Moreover a call stays blocked during a bounded number of actions of the task only, if
    the transport makes progress; and until then the task has an action to execute. *)
Theorem C17_blocked_call_released : forall c n s s',
  sane c -> unbounded_store c -> honours_ranges c ->
  reach c no_empty_chunk s -> waits c productive n s s' ->
  n <= work_bound (length (c_content c)) /\
  exists l s'', task_label l = true /\ productive s' l /\ step c s' l = Some s''.
Proof. exact blocked_released. Qed.

(** A seek that waits for a range request and then for the prefetch of its target. *)
Example C17_case :
  let c := mk (Some 12) true 2 4 (PPlain PlMem) in
  sane c /\ unbounded_store c /\ honours_ranges c /\
  exists s s', reach c no_empty_chunk s /\ waits c productive 10 s s' /\
    step c s' LDStep <> None.
Proof.
  cbv zeta. split; [apply mk_sane; auto; lia|split; [exact I|split; [apply mk_honours|]]].
  eexists. eexists.
  split; [reach_tac empty_b ([LDChunk 3] ++ Tk 2 ++ [LOp (OSeek (FromStart 6))] ++ Rd 4)|].
  split; [waits_tac productive_b ([LDSeek; LUserCancel; LDSeekRes true; LDChunk 4] ++ Tk 2 ++ [LDChunk 1] ++ Tk 4)|].
  discriminate.
Qed.

(** ** C57: the download terminates *)

(** With a transport that makes progress, however the client interleaves its calls, the
    task executes a number of actions bounded by the length of the resource and the
    number of seeks; while it has not ended it has an action to execute.  So it ends. *)
Theorem C57_download_terminates : forall c s ls s',
  sane c -> unbounded_store c -> honours_ranges c ->
  reach c no_empty_chunk s -> allowed c productive s ls -> run c s ls = Some s' ->
  task_steps ls <= (2 + seek_calls ls) * work_bound (length (c_content c)) /\
  (g_dpc s' <> DEnd ->
   exists l s'', task_label l = true /\ productive s' l /\ step c s' l = Some s'').
Proof.
  intros c s ls s' Hs Hu Hh Hr Ha H. split; [eapply download_terminates; eauto|].
  intros Hd. apply task_enabled; auto. apply (run_reach c no_empty_chunk ls s); auto.
  revert s Ha H Hr. induction ls as [|l ls IH]; intros s Ha H Hr; cbn in *; auto.
  destruct Ha as [A1 A2]. destruct (step c s l) as [s1|] eqn:E; [|contradiction].
  split; [apply productive_chunks; auto|]. apply IH; auto.
  apply (reach_step c _ s l s1); auto. apply productive_chunks; auto.
Qed.

Example C57_case :
  let c := mk (Some 12) true 0 4 (PPlain PlMem) in
  sane c /\ unbounded_store c /\ honours_ranges c /\
  exists s ls s', reach c no_empty_chunk s /\
    (allowed c productive s ls /\ run c s ls = Some s') /\
    g_dpc s' = DEnd /\ seek_calls ls = 1 /\ task_steps ls = 42.
Proof.
  cbv zeta. split; [apply mk_sane; auto; lia|split; [exact I|split; [apply mk_honours|]]].
  eexists. exists (two_ranges_run ++ [LDChunk 4] ++ Tk 6 ++ [LDEof; LDSeekRes true; LDChunk 4] ++ Tk 6 ++
     [LDEof] ++ Tk 2 ++ [LDFinishRes true] ++ Tk 2). eexists.
  split; [apply reach_init; reflexivity|].
  split; [apply (run_b_allowed _ productive_b _ productive_decides); vm_compute; reflexivity|].
  vm_compute. auto.
Qed.

(** ** C41: a seek returns once its target is available *)

(** Not so: if the rest of the resource behind the target is shorter than the prefetch,
    the seek also waits for the hole before the target to be filled. *)
Definition late_run : list label :=
  [LDChunk 4] ++ Tk 2 ++ [LOp (OSeek (FromStart 9))] ++ Rd 4 ++
  [LDSeek; LDSeekRes true; LDChunk 3] ++ Tk 2 ++ [LDEof].

Theorem C41_refuted : exists c s s' n,
  sane c /\ unbounded_store c /\ honours_ranges c /\
  reach c productive s /\ wait_target (g_rpc s) = Some 9 /\ is_downloaded s 9 /\
  waits c productive n s s' /\ ~ is_downloaded s 5 /\ is_downloaded s' 5.
Proof.
  exists (mk (Some 12) true 4 4 (PPlain PlMem)). eexists. eexists. exists 8.
  split; [apply mk_sane; auto; lia|split; [exact I|split; [apply mk_honours|]]].
  split; [reach_tac productive_b late_run|split; [reflexivity|]].
  split; [exists 9, 12; cbn; split; [auto|lia]|].
  split; [waits_tac productive_b ([LDSeekRes true; LDChunk 2] ++ Tk 6)|].
  split.
  - intros (a & b & H & Hx). cbn in H. destruct H as [H|[H|[]]]; inversion H; lia.
  - exists 0, 6; cbn; split; [auto|lia].
Qed.

(** What holds: the seek returns after a bounded number of actions of the task.  Missing:
    that these are the ones its target needs. *)
Theorem C41_partial : forall c n s s' from p,
  sane c -> unbounded_store c -> honours_ranges c ->
  reach c no_empty_chunk s -> g_rpc s = RSWait from p -> waits c productive n s s' ->
  n <= work_bound (length (c_content c)) /\
  exists l s'', task_label l = true /\ productive s' l /\ step c s' l = Some s''.
Proof. intros c n s s' from p H1 H2 H3 H4 _ H5. eapply blocked_released; eauto. Qed.

Example C41_case :
  let c := mk (Some 12) true 4 4 (PPlain PlMem) in
  exists s s', reach c no_empty_chunk s /\ g_rpc s = RSWait (FromStart 9) 9 /\
    waits c productive 1 s s'.
Proof.
  cbv zeta. eexists. eexists. split; [reach_tac empty_b late_run|]. split; [reflexivity|].
  waits_tac productive_b [LDSeekRes true].
Qed.

(** ** C20: cancelling stops the download task *)

(** The cancellation is observed whenever the task waits for the network. *)
Theorem C20_cancel_observed : forall c s,
  g_cancel s = true -> g_dpc s = DSelect -> exists s1, step c s LDCancel = Some s1.
Proof. intros c s H1 H2. eexists. apply (cancel_enabled c s H1 H2). Qed.

(** From then on the task executes exactly four more actions, is never blocked, ends,
    and neither requests nor stores anything. *)
Theorem C20_cancelled_task_ends : forall c s s1 ls s2,
  step c s LDCancel = Some s1 -> run c s1 ls = Some s2 ->
  task_steps ls <= 4 /\
  (task_steps ls < 4 -> task_can_move c s2) /\
  (task_steps ls = 4 -> g_dpc s2 = DEnd) /\
  exists newer, g_trace s2 = newer ++ g_trace s1 /\
    Forall (fun e => is_request e = false /\ is_write e = false) newer.
Proof.
  intros c s s1 ls s2 H1 H2. destruct (cancelled_stops c s s1 ls s2 H1 H2) as (A & B & C).
  repeat (split; auto).
  assert (Hst : stopping (g_dpc s1)).
  { cbn in H1. destruct (g_dpc s); try discriminate. destruct (g_cancel s); [|discriminate].
    injection H1 as <-. exact I. }
  assert (Hs : steps c any s1 s2).
  { clear - H2. assert (H : forall ls s, steps c any s1 s -> run c s ls = Some s2 -> steps c any s1 s2).
    { clear. induction ls as [|l ls IH]; intros s Hs H; cbn in H; [congruence|].
      destruct (step c s l) as [s'|] eqn:E; [|discriminate].
      apply (IH s'); auto. apply (steps_step c any s1 s l s'); auto. exact I. }
    apply (H ls s1); auto. apply steps_refl. }
  apply (stopping_steps c any s1 s2 Hst Hs).
Qed.

Example C20_case :
  let c := mk (Some 12) true 0 4 (PPlain PlMem) in
  exists s s1 s2, reach c any s /\ g_cancel s = true /\ g_dpc s = DSelect /\
    step c s LDCancel = Some s1 /\
    run c s1 ([LDFinishRes true] ++ Tk 1 ++ Rd 1 ++ Tk 2) = Some s2 /\ g_dpc s2 = DEnd.
Proof.
  cbv zeta. eexists. eexists. eexists.
  split; [reach_tac any_b ([LDChunk 2; LUserCancel] ++ Tk 6 ++ [LOp (ORead 4)])|].
  split; [reflexivity|split; [reflexivity|split; [reflexivity|split; [vm_compute; reflexivity|reflexivity]]]].
Qed.

(** The cancellation is not observed while the task waits for space in bounded storage:
    once the handle is dropped with a full buffer the task never ends, although
    [cancel_on_drop] is set. *)
Theorem C20_full_buffer_refuted : exists c s,
  c_cancel_on_drop c = true /\ reach c (both no_empty_chunk no_truncation) s /\
  g_cancel s = true /\ g_rpc s = RDropped /\
  forall allow s', steps c allow s s' -> g_dpc s' = g_dpc s /\ ~ task_can_move c s'.
Proof.
  exists (mk None true 0 4 (PBounded true PlMem 4)). eexists.
  split; [reflexivity|].
  split; [reach_tac (both_b empty_b truncation_b) ([LDChunk 6] ++ Tk 9 ++ [LDrop])|].
  split; [reflexivity|split; [reflexivity|]].
  intros allow s' H. apply (stuck_writer _ allow _ s' [x01; x02; x03; x04; x05; x06] 4 0); auto.
Qed.

(** ** C21: wait_for_completion returns when the task has finished *)

Theorem C21_completion_is_task_end : forall c s,
  reach c nobody_cancels s -> (wait_returns s <-> task_finished s).
Proof.
  intros c s H. unfold wait_returns, task_finished. rewrite (token_end c nobody_cancels s) by auto.
  split; [|tauto]. intros Hd. split; [exact Hd|]. apply (end_cancelled c nobody_cancels s H Hd).
Qed.

(** Whoever cancels, once the task has ended the waiting returns and the reader was
    released. *)
Theorem C21_after_end : forall c allow s,
  reach c allow s -> g_dpc s = DEnd ->
  wait_returns s /\ g_done s = true /\ task_finished s.
Proof.
  intros c allow s H Hd. destruct (end_cancelled c allow s H Hd) as (A & B & C).
  split; [exact A|split; [exact B|split; assumption]].
Qed.

(** Not if somebody cancels or drops the handle: the waiting returns at once, while the task
    is still downloading and [on_finish] (for a process: waiting for it or killing it) has
    not run.  With a full buffer it never will. *)
Theorem C21_cancelled_refuted :
  (exists c s, sane c /\ unbounded_store c /\ c_cancel_on_drop c = true /\
     reach c (both no_empty_chunk no_truncation) s /\
     wait_returns s /\ ~ task_finished s) /\
  (exists c s, c_cancel_on_drop c = true /\ reach c (both no_empty_chunk no_truncation) s /\
     wait_returns s /\ forall allow s', steps c allow s s' -> ~ task_finished s').
Proof.
  split.
  - exists (mk (Some 12) true 0 4 (PPlain PlMem)). eexists.
    split; [apply mk_sane; auto; lia|split; [exact I|split; [reflexivity|]]].
    split; [reach_tac (both_b empty_b truncation_b) ([LDChunk 6] ++ Tk 3 ++ [LDrop])|].
    split; [reflexivity|]. intros [A _]. discriminate A.
  - exists (mk None true 0 4 (PBounded true PlMem 4)). eexists.
    split; [reflexivity|].
    split; [reach_tac (both_b empty_b truncation_b) ([LDChunk 6] ++ Tk 9 ++ [LDrop])|].
    split; [reflexivity|]. intros allow s' H [A _].
    match type of H with steps _ _ ?s0 _ =>
      destruct (stuck_writer _ allow s0 s' _ _ _ eq_refl eq_refl eq_refl eq_refl H) as [B _] end.
    rewrite A in B. discriminate B.
Qed.

Definition complete_run : list label :=
  [LDChunk 12] ++ Tk 8 ++ [LDEof] ++ Tk 2 ++ [LDFinishRes true] ++ Tk 2.

Example C21_case :
  let c := mk (Some 12) true 0 4 (PPlain PlMem) in
  exists s, reach c nobody_cancels s /\ g_dpc s = DEnd /\ In (EvFinish true) (g_trace s).
Proof.
  cbv zeta. eexists. split; [reach_tac uncancelled_b complete_run|]. vm_compute; tauto.
Qed.

(** ** C28: oversized reads and seeks are rejected up front *)

Theorem C28_oversized_rejected : forall c ck p allow s cap,
  c_provider c = PBounded ck p cap -> reach c allow s ->
  every_event (oversized_refused c cap) (g_trace s).
Proof.
  intros c ck p allow s cap H. apply oversized. rewrite H. reflexivity.
Qed.

(** The refusal is immediate and changes nothing but the trace. *)
Theorem C28_rejected_at_once : forall c ck p allow s cap,
  c_provider c = PBounded ck p cap -> reach c allow s -> g_failed s = false ->
  (forall n s1 s2, cap < n ->
     step c s (LOp (ORead n)) = Some s1 -> step c s1 LRStep = Some s2 ->
     s2 = emit s (EvRead (st_rpos (g_store s)) n false (Err EInvalidInput))) /\
  (forall from t s1 s2, seek_target c (cursor (g_trace s)) from = Some t -> (0 <= t < two64)%Z ->
     cursor (g_trace s) + cap < clamp c t ->
     step c s (LOp (OSeek from)) = Some s1 -> step c s1 LRStep = Some s2 ->
     s2 = emit s (EvSeek from (Err EInvalidInput))).
Proof.
  intros c ck p allow s cap Hp H2 H3.
  assert (H1 : max_capacity (c_provider c) = Some cap) by (rewrite Hp; reflexivity). split.
  - intros n s1 s2 H4. apply oversized_read_now with cap; auto.
  - intros from t s1 s2 H4 H5 H6. eapply oversized_seek_now; eauto.
Qed.

Example C28_case :
  let c := mk None true 0 4 (PBounded true PlMem 4) in
  chosen_capacity (c_provider c) = Some 4 /\
  exists s, reach c any s /\
    In (EvRead 2 5 false (Err EInvalidInput)) (g_trace s) /\
    In (EvSeek (FromStart 7) (Err EInvalidInput)) (g_trace s).
Proof.
  cbv zeta. split; [reflexivity|]. eexists.
  split; [reach_tac any_b ([LDChunk 4] ++ Tk 6 ++ [LOp (ORead 2)] ++ Rd 4 ++ [LOp (ORead 5)] ++ Rd 1 ++
    [LOp (OSeek (FromStart 7))] ++ Rd 1)|]. vm_compute; tauto.
Qed.

(** ** C31: the reconnect callback reports reconnections *)

(** The callback also runs when the reconnect attempt returned an error. *)
Theorem C31_refuted : exists c s,
  sane c /\ reach c (both no_empty_chunk no_truncation) s /\
  In EvOnReconnect (g_trace s) /\ (forall p, ~ In (EvReconnect p RcOk) (g_trace s)).
Proof.
  exists (mk (Some 12) true 0 4 (PPlain PlMem)). eexists.
  split; [apply mk_sane; auto; lia|].
  split; [reach_tac (both_b empty_b truncation_b) [LDTimeout RcErr]|].
  split; [left; reflexivity|]. intros p [H|[H|[]]]; discriminate.
Qed.

(** The callback runs exactly for the attempts that returned.  Missing: only for those
    that succeeded. *)
Theorem C31_partial : forall c allow s,
  reach c allow s -> reconnects_reported (g_trace s).
Proof. exact reconnects_inv. Qed.

Example C31_case :
  let c := mk (Some 12) true 0 4 (PPlain PlMem) in
  exists s, reach c any s /\ In (EvReconnect 2 RcOk) (g_trace s) /\
    In (EvReconnect 0 RcElapsed) (g_trace s).
Proof.
  cbv zeta. eexists.
  split; [reach_tac any_b ([LDTimeout RcElapsed; LDChunk 2] ++ Tk 6 ++ [LDTimeout RcOk])|].
  vm_compute; tauto.
Qed.

(** ** C32: the download task does not panic *)

Theorem C32_task_no_panic : forall c s,
  0 < c_batch c -> unbounded_store c -> reach c no_empty_chunk s -> g_dpc s <> DPanic.
Proof. exact unbounded_no_panic. Qed.

Example C32_case :
  let c := mk (Some 12) true 0 4 (PPlain PlMem) in
  0 < c_batch c /\ unbounded_store c /\ exists s, reach c no_empty_chunk s /\ g_dpc s = DEnd.
Proof.
  cbv zeta. split; [cbn; lia|split; [exact I|]]. eexists.
  split; [reach_tac empty_b complete_run|]. vm_compute; reflexivity.
Qed.

(** The hypothesis is needed: an empty first chunk makes the progress report look up
    position -1. *)
Theorem C32_empty_chunk_panics : exists c s,
  sane c /\ unbounded_store c /\ reach c no_truncation s /\ g_dpc s = DPanic.
Proof.
  exists (mk (Some 12) true 0 4 (PPlain PlMem)). eexists.
  split; [apply mk_sane; auto; lia|split; [exact I|]].
  split; [reach_tac truncation_b ([LDChunk 0] ++ Tk 1)|reflexivity].
Qed.

(** ** C33: reading past the end returns end-of-file *)

(** Memory storage of unknown length: the read panics. *)
Theorem C33_refuted : exists c s,
  sane c /\ unbounded_store c /\ honours_ranges c /\
  reach c (both no_empty_chunk no_truncation) s /\
  completed s /\ nth_error (g_trace s) 0 = Some (EvRead 20 4 true Panic).
Proof.
  exists (mk None true 0 4 (PPlain PlMem)). eexists.
  split; [apply mk_sane; auto; lia|split; [exact I|split; [apply mk_honours|]]].
  split; [reach_tac (both_b empty_b truncation_b) ([LDChunk 12] ++ Tk 8 ++ [LDEof] ++ Tk 2 ++
    [LOp (OSeek (FromStart 20))] ++ Rd 7 ++ [LOp (ORead 4)] ++ Rd 7)|].
  split; [vm_compute; auto|reflexivity].
Qed.

(** Otherwise no call ever panics; that the read is then empty is C01 and C09.  Missing:
    memory storage of unknown length, and bounded storage (C26). *)
Theorem C33_partial : forall c allow s,
  unbounded_store c -> clamped_or_file c -> reach c allow s -> Forall no_panic (g_trace s).
Proof. intros c allow s H1 H2 H3. apply (reader_no_panic c allow s H1 H2 H3). Qed.

Example C33_case :
  let c := mk None true 0 4 (PPlain (PlTemp 8)) in
  unbounded_store c /\ clamped_or_file c /\
  exists s, reach c any s /\ nth_error (g_trace s) 0 = Some (EvRead 20 4 true (Ok [])).
Proof.
  cbv zeta. split; [exact I|split; [right; left; exists 8; reflexivity|]]. eexists.
  split; [reach_tac any_b ([LDChunk 12] ++ Tk 8 ++ [LDEof] ++ Tk 2 ++
    [LOp (OSeek (FromStart 20))] ++ Rd 7 ++ [LOp (ORead 4)] ++ Rd 8)|reflexivity].
Qed.

(** ** C37: progress callbacks are ordered and truthful *)

Theorem C37_complete_is_last : forall c allow s,
  reach c allow s -> every_event nothing_after_complete (g_trace s).
Proof. exact complete_last. Qed.

(** At the moment a report is made it states the write position; a downloading report
    names the maximal downloaded range containing the last byte written; completion is
    reported only when everything was downloaded. *)
Theorem C37_reports_are_true : forall c allow s l s' ph pos a b rest,
  reach c allow s -> step c s l = Some s' ->
  g_trace s' = EvProgress ph pos (a, b) :: rest ->
  length (g_trace s) < length (g_trace s') ->
  pos = st_wpos (g_store s') /\
  match ph with
  | PhDownloading _ =>
      0 < pos /\ a <= pos - 1 < b /\ (forall x, a <= x < b -> is_downloaded s' x) /\
      ~ is_downloaded s' b /\ (0 < a -> ~ is_downloaded s' (a - 1))
  | PhComplete =>
      c_seekable c = true -> forall cl, c_clen c = Some cl ->
      forall x, x < cl -> is_downloaded s' x
  | PhPrefetching target _ => target = c_prefetch c /\ a = 0 /\ b = pos
  end.
Proof. exact progress_truth. Qed.

Example C37_case :
  let c := mk (Some 12) true 0 4 (PPlain PlMem) in
  exists s s', reach c any s /\ step c s LDStep = Some s' /\
    g_trace s' = EvProgress (PhDownloading 1) 8 (6, 8) :: g_trace s.
Proof.
  cbv zeta. eexists. eexists.
  split; [reach_tac any_b ([LDChunk 2] ++ Tk 6 ++ [LOp (OSeek (FromStart 6))] ++ Rd 4 ++
  [LDSeek; LDSeekRes true; LDChunk 1] ++ Tk 2 ++ [LDChunk 1] ++ Tk 6)|].
  split; reflexivity.
Qed.

(** ** C38: prefetch progress reports downloaded data *)

(** After a seek the report names a chunk that starts at 0 although the hole before the
    seek target was not downloaded. *)
Theorem C38_refuted : exists c s target k pos a b x,
  sane c /\ unbounded_store c /\ honours_ranges c /\
  reach c (both no_empty_chunk no_truncation) s /\
  nth_error (g_trace s) 0 = Some (EvProgress (PhPrefetching target k) pos (a, b)) /\
  a <= x < b /\ ~ is_downloaded s x /\ stored_byte s x <> nth_error (c_content c) x.
Proof.
  exists (mk (Some 12) true 0 4 (PPlain PlMem)). eexists. exists 0, 1, 7, 0, 7, 3.
  split; [apply mk_sane; auto; lia|split; [exact I|split; [apply mk_honours|]]].
  split; [reach_tac (both_b empty_b truncation_b)
    ([LDChunk 2] ++ Tk 6 ++ [LOp (OSeek (FromStart 6))] ++ Rd 4 ++
     [LDSeek; LDSeekRes true; LDChunk 1] ++ Tk 2)|].
  split; [reflexivity|split; [lia|split]].
  - intros (a & b & H & Hx). cbn in H. destruct H as [H|[H|[]]]; inversion H; lia.
  - discriminate.
Qed.

(** Without seeks the reported bytes are stored and correct.  Missing: after seeks. *)
Theorem C38_partial : forall c s l s' target k pos a b rest,
  sane c -> unbounded_store c -> honours_ranges c ->
  reach c (both sequential_client (no_empty_chunk_past_end c)) s -> step c s l = Some s' ->
  both sequential_client (no_empty_chunk_past_end c) s l ->
  g_trace s' = EvProgress (PhPrefetching target k) pos (a, b) :: rest ->
  length (g_trace s) < length (g_trace s') ->
  b = pos /\
  forall x, a <= x < b -> x < length (c_content c) /\ stored_byte s' x = nth_error (c_content c) x.
Proof. exact prefetch_report. Qed.

Example C38_case :
  let c := mk (Some 12) true 8 4 (PPlain PlMem) in
  sane c /\ unbounded_store c /\ honours_ranges c /\
  exists s s', reach c (both sequential_client (no_empty_chunk_past_end c)) s /\
    step c s LDStep = Some s' /\
    g_trace s' = EvProgress (PhPrefetching 8 3) 5 (0, 5) :: EvWrite 0 0 :: g_trace s.
Proof.
  cbv zeta. split; [apply mk_sane; auto; lia|split; [exact I|split; [apply mk_honours|]]].
  eexists. eexists.
  split; [reach_tac (both_b sequential_b (past_end_b (mk (Some 12) true 8 4 (PPlain PlMem))))
    ([LDChunk 2] ++ Tk 2 ++ [LDChunk 3] ++ Tk 1)|].
  split; reflexivity.
Qed.

(** ** C39: no data is served before the prefetch target is reached *)

Theorem C39_prefetch_first : forall c s pos n w bs,
  0 < c_batch c -> reach c (both sequential_client no_truncation) s ->
  In (EvRead pos n w (Ok bs)) (g_trace s) ->
  (forall x, x < Nat.min (c_prefetch c) (length (c_content c)) -> is_downloaded s x) \/
  refused_data (g_trace s).
Proof. exact prefetch_first. Qed.

Example C39_case :
  let c := mk (Some 12) true 5 4 (PPlain PlMem) in
  exists s, reach c (both sequential_client no_truncation) s /\
    In (EvRead 0 2 true (Ok [x01; x02])) (g_trace s).
Proof.
  cbv zeta. eexists.
  split; [reach_tac (both_b sequential_b truncation_b)
    ([LOp (ORead 2)] ++ Rd 4 ++ [LDChunk 4] ++ Tk 2 ++ [LDChunk 3] ++ Tk 2 ++ [LDChunk 1] ++ Tk 7 ++ Rd 4)|].
  vm_compute; tauto.
Qed.

(** ** C40: writes respect the batch size *)

Theorem C40_batch_size : forall c allow s,
  reach c allow s -> Forall (write_size_ok c) (g_trace s).
Proof. exact writes_inv. Qed.

Example C40_case :
  let c := mk (Some 12) true 0 5 (PPlain PlMem) in
  exists s, reach c any s /\ In (EvWrite 5 5) (g_trace s) /\ In (EvWrite 2 2) (g_trace s).
Proof.
  cbv zeta. eexists. split; [reach_tac any_b ([LDChunk 12] ++ Tk 8)|]. vm_compute; tauto.
Qed.

(** ** C53: dropping the handle cancels exactly when configured *)

Theorem C53_drop : forall c s s',
  step c s LDrop = Some s' ->
  g_cancel s' = (g_cancel s || c_cancel_on_drop c)%bool /\
  g_dpc s' = g_dpc s /\ g_trace s' = g_trace s.
Proof. intros c s s' H. destruct (drop_token c s s' H) as (A & B & C & _). auto. Qed.

(** With [cancel_on_drop] off, dropping never cancels: the token stays untouched until
    the task has run to its own end. *)
Theorem C53_drop_without_cancel : forall c s,
  c_cancel_on_drop c = false -> reach c no_user_cancel s ->
  (g_cancel s = true <-> g_dpc s = DEnd).
Proof. exact drop_ignored. Qed.

Example C53_case :
  let c := mkCfg demo (Some 12) true 0 4 false InvEmpty RecRange (PPlain PlMem) in
  c_cancel_on_drop c = false /\
  exists s, reach c no_user_cancel s /\ g_rpc s = RDropped /\ completed s /\ g_dpc s = DEnd.
Proof.
  cbv zeta. split; [reflexivity|]. eexists.
  split; [reach_tac no_user_cancel_b ([LDChunk 2; LDrop] ++ Tk 6 ++ [LDChunk 10] ++ Tk 8 ++ [LDEof] ++ Tk 2 ++
    [LDFinishRes true] ++ Tk 2)|]. vm_compute; tauto.
Qed.

(** ** C56: nothing is downloaded twice *)

(** An open-ended request, made when the content length is unknown, covers data that is
    already there: seek to 6, download, seek back to 3. *)
Theorem C56_open_ended_refuted :
  let c := mk None true 0 4 (PPlain PlMem) in
  exists s s' a x, reach c any s /\ step c s LDSeek = Some s' /\
    g_trace s' = EvSeekRange a None :: g_trace s /\ a <= x /\ is_downloaded s x.
Proof.
  cbv zeta. eexists. eexists. exists 3, 6.
  split; [reach_tac any_b (two_ranges_run ++ [LOp (OSeek (FromStart 3))] ++ Rd 4)|].
  split; [vm_compute; reflexivity|split; [reflexivity|]].
  split; [lia|exists 6, 8]; cbn; split; auto; lia.
Qed.

(** Missing with respect to C56: requests without an end (unknown length, reconnects). *)
Theorem C56_bounded_requests_partial : forall c allow s l s' a b x,
  reach c allow s -> step c s l = Some s' ->
  g_trace s' = EvSeekRange a (Some b) :: g_trace s -> a <= x < b ->
  ~ is_downloaded s x.
Proof. intros c allow s l s' a b x H1 H2 H3 H4. apply (fresh_request c allow s l s' a b x H1 H2 H3 H4). Qed.

Example C56_case :
  let c := mk (Some 12) true 0 4 (PPlain PlMem) in
  exists s s', reach c any s /\ step c s LDEof = Some s' /\
    g_trace s' = EvSeekRange 2 (Some 6) :: g_trace s /\ is_downloaded s 1 /\ is_downloaded s 6.
Proof.
  cbv zeta. eexists. eexists. split; [reach_tac any_b two_ranges_run|].
  split; [vm_compute; reflexivity|split; [reflexivity|]].
  split; [exists 0, 2|exists 6, 8]; cbn; split; auto; lia.
Qed.

Print Assumptions C07_no_range_request.
Print Assumptions C10_refuted.
Print Assumptions C10_partial.
Print Assumptions C13_refuted.
Print Assumptions C13_partial.
Print Assumptions C14_end_unknown.
Print Assumptions C14_end_known.
Print Assumptions C15_failure_is_sticky.
Print Assumptions C15_failure_releases.
Print Assumptions C16_waiter_registered.
Print Assumptions C17_no_deadlock.
Print Assumptions C17_blocked_call_released.
Print Assumptions C57_download_terminates.
Print Assumptions C41_refuted.
Print Assumptions C41_partial.
Print Assumptions C20_cancel_observed.
Print Assumptions C20_cancelled_task_ends.
Print Assumptions C20_full_buffer_refuted.
Print Assumptions C21_completion_is_task_end.
Print Assumptions C21_after_end.
Print Assumptions C21_cancelled_refuted.
Print Assumptions C28_oversized_rejected.
Print Assumptions C28_rejected_at_once.
Print Assumptions C31_refuted.
Print Assumptions C31_partial.
Print Assumptions C32_task_no_panic.
Print Assumptions C32_empty_chunk_panics.
Print Assumptions C33_refuted.
Print Assumptions C33_partial.
Print Assumptions C37_complete_is_last.
Print Assumptions C37_reports_are_true.
Print Assumptions C38_refuted.
Print Assumptions C38_partial.
Print Assumptions C39_prefetch_first.
Print Assumptions C40_batch_size.
Print Assumptions C53_drop.
Print Assumptions C53_drop_without_cancel.
Print Assumptions C56_open_ended_refuted.
Print Assumptions C56_bounded_requests_partial.

(** * Further properties of failure, prefetching, requests and local reads
    (C15, C28, C62-C66). *)

From Coq Require Import List Arith Lia ZArith Bool.
From Verif Require Import Base RangeSet Storage System Spec InvSync InvTrace InvCore LifeFacts
  DoneFacts ReadFacts RequestFacts CallFacts MoreFacts LifeMore Exec PropReads PropLife PropBounded.
Import ListNotations.

(** ** C15: failure is recorded *)

(** The download is marked failed exactly when the task ended with an error: the mark is
    there, or the very next action of the task sets it. *)
Theorem C15_failure_recorded : forall c allow s,
  reach c allow s ->
  (g_failed s = true -> In (EvFinish false) (g_trace s)) /\
  (In (EvFinish false) (g_trace s) ->
     g_failed s = true \/ exists s', step c s LDStep = Some s' /\ g_failed s' = true) /\
  (In (EvFinish true) (g_trace s) -> g_failed s = false).
Proof.
  intros c allow s H. destruct (finish_inv_reach c allow s H) as (I1 & I2 & I3 & _).
  split; [auto|split; auto]. intros K. destruct (I2 K) as [|D]; auto. right.
  cbn [step]. unfold d_step. rewrite D. eauto.
Qed.

(** A failed range request, a failed write, a cancellation and an error from [on_finish]
    all end the task within four actions, as a failure, without touching the transport or
    the storage again. *)
Theorem C15_faults_fail : forall c s l s1 ls s2,
  l = LDSeekRes false \/ l = LDIoErr \/ l = LDCancel \/ l = LDFinishRes false ->
  step c s l = Some s1 -> run c s1 ls = Some s2 ->
  task_steps ls <= 4 /\
  (g_dpc s2 <> DEnd -> task_can_move c s2) /\
  (g_dpc s2 = DEnd -> g_failed s2 = true /\ g_done s2 = true) /\
  exists newer, g_trace s2 = newer ++ g_trace s1 /\
    Forall (fun e => is_request e = false /\ is_write e = false /\ e <> EvFinish true) newer.
Proof. exact fault_fails. Qed.

(** A write fails while a read waits for its data. *)
Example C15_faults_case :
  let c := mk (Some 12) true 0 4 (PPlain PlMem) in
  exists s s1 ls s2, reach c any s /\ blocked c s /\ step c s LDIoErr = Some s1 /\
    run c s1 ls = Some s2 /\ g_dpc s2 = DEnd /\ In (EvFinish false) (g_trace s2) /\
    In (EvRead 0 4 true (Err EOther)) (g_trace s2).
Proof.
  cbv zeta. eexists. eexists. exists ([LDFinishRes true] ++ Tk 3 ++ Rd 2). eexists.
  split; [reach_tac any_b ([LOp (ORead 4)] ++ Rd 4 ++ [LDChunk 2] ++ Tk 1)|].
  split; [split; [exact I|reflexivity]|].
  split; [reflexivity|split; [vm_compute; reflexivity|]]. vm_compute. auto 8.
Qed.

(** ** C28: what is within the capacity is not refused *)

Theorem C28_within_accepted : forall c allow s,
  reach c allow s ->
  every_event (refused_only_if_far c (chosen_capacity (c_provider c))) (g_trace s).
Proof. exact seek_refusal. Qed.

(** With bounded storage of 4 bytes, a seek by exactly 4 succeeds, one by 5 is refused. *)
Example C28_within_case :
  let c := mk (Some 12) true 0 4 (PBounded true PlMem 4) in
  chosen_capacity (c_provider c) = Some 4 /\ exists s, reach c any s /\
    In (EvSeek (FromStart 5) (Err EInvalidInput)) (g_trace s) /\
    In (EvSeek (FromStart 4) (Ok 4)) (g_trace s).
Proof.
  cbv zeta. split; [reflexivity|]. eexists.
  split; [reach_tac any_b ([LOp (OSeek (FromStart 5))] ++ Rd 1 ++ [LOp (OSeek (FromStart 4))] ++ Rd 4 ++
    [LDChunk 4] ++ Tk 6 ++ Rd 3)|]. vm_compute; tauto.
Qed.

(** ** C62: prefetching ends on time *)

(** A client that only reads, or an unseekable source: as soon as the prefetch size has
    been stored and the task waits for the next chunk, everything stored is available. *)
Theorem C62_prefetch_ends_on_time : forall c (allow : gstate -> label -> Prop) s,
  c_seekable c = false \/ (forall s l, allow s l -> sequential_client s l) ->
  reach c allow s -> g_dpc s = DSelect -> c_prefetch c <= st_wpos (g_store s) ->
  forall x, x < st_wpos (g_store s) -> is_downloaded s x.
Proof.
  intros c allow s Ha Hr Hd Hp x Hx. pose proof (seq_cov_reach c allow s Ha Hr) as K.
  unfold seq_cov in K. rewrite Hd in K. destruct (g_pfc s); [|lia].
  destruct (K x Hx) as (a & b & A & B). exists a, b; auto.
Qed.

(** Exactly the prefetch size has been stored. *)
Example C62_case :
  let c := mk (Some 12) true 5 4 (PPlain PlMem) in
  exists s, reach c sequential_client s /\ g_dpc s = DSelect /\
    c_prefetch c = 5 /\ st_wpos (g_store s) = 5 /\ is_downloaded s 4.
Proof.
  cbv zeta. eexists. split; [reach_tac sequential_b ([LDChunk 3] ++ Tk 2 ++ [LDChunk 2] ++ Tk 2)|].
  vm_compute. repeat split; auto. exists 0, 5. split; [left; reflexivity|lia].
Qed.

(** ** C63: seeking to missing data requests it *)

(** Not for every seek: while the message of an earlier seek, which was released by data
    that arrived anyway, is still waiting for the task, the message of the new one is
    dropped, and the task only answers the old one. *)
Theorem C63_refuted : exists c s from s1 ls s2 p,
  sane c /\ unbounded_store c /\ honours_ranges c /\ c_seekable c = true /\
  reach c (forward_env c) s /\ step c s (LOp (OSeek from)) = Some s1 /\
  Forall during_call ls /\ run c s1 ls = Some s2 /\ blocked c s2 /\
  wait_target (g_rpc s2) = Some p /\ p < length (c_content c) /\
  g_chan s2 = None /\ ~ is_downloaded s2 p /\ g_dpc s2 <> DPanic /\
  forall e, ~ In (EvSeekRange p e) (g_trace s2).
Proof.
  exists (mk (Some 12) true 0 4 (PPlain PlMem)). eexists. exists (FromStart 9). eexists.
  exists (Rd 4 ++ [LDSeek]). eexists. exists 9.
  split; [apply mk_sane; auto; lia|split; [exact I|split; [apply mk_honours|split; [reflexivity|]]]].
  split; [reach_tac (forward_env_b (mk (Some 12) true 0 4 (PPlain PlMem)))
    ([LDChunk 2] ++ Tk 6 ++ [LOp (OSeek (FromStart 4))] ++ Rd 4 ++ [LDChunk 3] ++ Tk 7 ++ Rd 3)|].
  split; [vm_compute; reflexivity|].
  split; [repeat constructor|]. split; [vm_compute; reflexivity|].
  split; [split; [exact I|reflexivity]|].
  split; [reflexivity|split; [cbn; lia|split; [reflexivity|]]].
  split; [intros (a & b & [H|[]] & Hx); inversion H; subst; lia|].
  split; [discriminate|].
  intros e H. vm_compute in H.
  repeat match type of H with _ \/ _ => destruct H as [H|H]; [discriminate H|] end. exact H.
Qed.

(** The message of a seek waits for the task, or the range from its target on has been
    requested since the call began, or the target has been stored in the meantime.
    Missing: seeks issued while an older message is waiting. *)
Theorem C63_partial : forall c allow s from s1 ls s2 p,
  reach c allow s -> c_seekable c = true -> g_chan s = None ->
  step c s (LOp (OSeek from)) = Some s1 -> Forall during_call ls -> run c s1 ls = Some s2 ->
  blocked c s2 -> wait_target (g_rpc s2) = Some p ->
  (forall cl, c_clen c = Some cl -> p < cl) ->
  g_chan s2 = Some p \/ is_downloaded s2 p \/ g_dpc s2 = DPanic \/
  exists newer e, g_trace s2 = newer ++ g_trace s /\ In (EvSeekRange p e) newer.
Proof. exact seek_answered. Qed.

(** When the task takes the message, the request it makes starts exactly at the target. *)
Theorem C63_request_starts_at_target : forall c allow s p s',
  reach c allow s -> c_seekable c = true -> g_chan s = Some p ->
  (forall cl, c_clen c = Some cl -> p < cl) ->
  step c s LDSeek = Some s' -> ~ is_downloaded s' p ->
  exists e, g_trace s' = EvSeekRange p e :: g_trace s.
Proof. intros c allow s p s' H. apply seek_request. eapply wf_reach; eauto. Qed.

Example C63_case :
  let c := mk (Some 12) true 0 4 (PPlain PlMem) in
  exists s s1 ls s2, reach c any s /\ g_chan s = None /\
    step c s (LOp (OSeek (FromStart 6))) = Some s1 /\ Forall during_call ls /\
    run c s1 ls = Some s2 /\ blocked c s2 /\ wait_target (g_rpc s2) = Some 6 /\
    g_chan s2 = None /\ ~ is_downloaded s2 6 /\ In (EvSeekRange 6 (Some 12)) (g_trace s2).
Proof.
  cbv zeta. eexists. eexists. exists (Rd 4 ++ [LDSeek]). eexists.
  split; [reach_tac any_b ([LDChunk 2] ++ Tk 6)|]. split; [reflexivity|].
  split; [vm_compute; reflexivity|].
  split; [repeat constructor|]. split; [vm_compute; reflexivity|].
  split; [split; [exact I|reflexivity]|]. split; [reflexivity|split; [reflexivity|]].
  split; [intros (a & b & [H|[]] & Hx); inversion H; subst; lia|]. vm_compute; tauto.
Qed.

(** ** C64: completion means everything, without seeking *)

(** A client that only reads, or an unseekable source; bodies are not cut short: when the
    download is reported complete, every byte of the resource is stored and available. *)
Theorem C64_completion_without_seeking : forall c (allow : gstate -> label -> Prop) s x,
  sane c -> unbounded_store c -> honours_ranges c ->
  c_seekable c = false \/ (forall s l, allow s l -> sequential_client s l) ->
  (forall s l, allow s l -> no_truncation s l /\ no_empty_chunk_past_end c s l) ->
  reach c allow s -> completed s -> x < length (c_content c) ->
  is_downloaded s x /\ stored_byte s x = nth_error (c_content c) x.
Proof.
  intros c allow s x Hs Hu Hh Ha Hal Hr Hd Hx.
  assert (W : whole c s).
  { apply (whole_reach c allow s); auto; [apply Hal|right; split; [auto|apply Hh]]. }
  assert (D : is_downloaded s x).
  { destruct W as (_ & _ & _ & _ & _ & W).
    destruct (W (completed_succeeded _ (sync_reach _ _ _ Hr) Hd) x Hx) as (a & b & A & B).
    exists a, b; auto. }
  split; auto. apply (downloaded_stored c s x); auto.
  clear - Hr Hal. induction Hr; [apply reach_init; auto|].
  eapply reach_step; eauto. apply Hal; auto.
Qed.

(** An unseekable source of unknown length, with a reconnect and a futile seek. *)
Example C64_case :
  let c := mk None false 2 4 (PPlain PlMem) in
  sane c /\ unbounded_store c /\ honours_ranges c /\ c_seekable c = false /\
  exists s, reach c (both no_truncation no_empty_chunk) s /\ completed s /\
    In (EvReconnect 5 RcOk) (g_trace s) /\ In (EvSeek (FromStart 7) (Ok 7)) (g_trace s).
Proof.
  cbv zeta. split; [apply mk_sane; auto; lia|split; [exact I|split; [apply mk_honours|]]].
  split; [reflexivity|]. eexists.
  split; [reach_tac (both_b truncation_b empty_b) ([LDChunk 3] ++ Tk 2 ++ [LDChunk 2] ++ Tk 6 ++
    [LDTimeout RcOk; LOp (OSeek (FromStart 7))] ++ Rd 4 ++ [LDSeek; LDChunk 7] ++ Tk 8 ++ Rd 3 ++
    [LDEof] ++ Tk 1)|].
  split; [split; reflexivity|]. vm_compute; tauto.
Qed.

(** ** C65: a plain download is one request *)

(** If the client only reads (or the source cannot seek), bodies are not cut short and the
    transport does not stall, the library makes no request beyond the one that created the
    stream, whatever the storage. *)
Theorem C65_one_request : forall c (allow : gstate -> label -> Prop) s,
  sane c ->
  c_seekable c = false \/ (forall s l, allow s l -> sequential_client s l) ->
  (forall s l, allow s l -> no_truncation s l /\ no_stall s l) ->
  reach c allow s -> Forall (fun e => is_request e = false) (g_trace s).
Proof.
  intros c allow s Hs Ha Hal Hr.
  assert (W : whole c s) by (apply (whole_reach c allow s); auto; [apply Hal|left; apply Hal]).
  destruct W as (W & _).
  assert (N : Forall (fun e => match e with EvReconnect _ _ => False | _ => True end) (g_trace s)).
  { clear W Ha Hs. induction Hr as [s H|s l s' Hr IH Hl H].
    - unfold init in H. destruct (into_rw _ _); [|discriminate]. injection H as <-. constructor.
    - apply Hal in Hl as [_ Hl]. clear Hr Hal.
      StepTac.step_cases H; StepTac.gsimpl; try contradiction; repeat (constructor; [exact I|]); auto. }
  rewrite Forall_forall in *. intros e He. specialize (W e He). specialize (N e He).
  destruct e; auto; contradiction.
Qed.

(** Bounded storage that fills up during the prefetch. *)
Example C65_case :
  let c := mk (Some 12) true 6 4 (PBounded true PlMem 4) in
  sane c /\ exists s, reach c (both sequential_client (both no_truncation no_stall)) s /\
    In (EvRead 0 4 false (Ok [x01; x02; x03; x04])) (g_trace s) /\ 4 < st_wpos (g_store s).
Proof.
  cbv zeta. split; [apply mk_sane; auto; lia|]. eexists.
  split; [reach_tac (both_b sequential_b (both_b truncation_b stall_b))
    ([LDChunk 6] ++ Tk 2 ++ [LOp (ORead 4)] ++ Rd 4 ++ [LDChunk 2] ++ Tk 3)|].
  split; [vm_compute; tauto|vm_compute; lia].
Qed.

(** ** C66: reading available data does not wait *)

(** All bytes the read asks for (up to a known end) are available: the read returns after
    four actions of its own, never blocked, with exactly these bytes, whatever the task
    does meanwhile; unless the download fails during the call. *)
Theorem C66_local_read : forall c s n ls s1 s2,
  sane c -> unbounded_store c -> honours_ranges c ->
  reach c (no_empty_chunk_past_end c) s ->
  is_downloaded s (cursor (g_trace s)) ->
  (forall x, cursor (g_trace s) <= x < cursor (g_trace s) + n ->
     (forall cl, c_clen c = Some cl -> x < cl) -> is_downloaded s x) ->
  step c s (LOp (ORead n)) = Some s1 -> Forall during_call ls ->
  allowed c (no_empty_chunk_past_end c) s1 ls -> run c s1 ls = Some s2 ->
  g_failed s2 = false ->
  (reader_steps ls < 4 -> exists s3, step c s2 LRStep = Some s3) /\
  (reader_steps ls = 4 -> g_rpc s2 = RIdle /\
     exists newer older bs, faithful c (cursor (g_trace s)) n bs /\ g_trace s2 =
       newer ++ EvRead (cursor (g_trace s)) n false (Ok bs) :: older ++ g_trace s).
Proof. exact local_read. Qed.

(** A read across two chunks, while the task stores a third and the token is cancelled. *)
Example C66_case :
  let c := mk (Some 12) true 0 4 (PPlain PlMem) in
  sane c /\ unbounded_store c /\ honours_ranges c /\
  exists s s1 ls s2, reach c (no_empty_chunk_past_end c) s /\
    is_downloaded s (cursor (g_trace s)) /\
    (forall x, 0 <= x < 0 + 5 -> is_downloaded s x) /\
    step c s (LOp (ORead 5)) = Some s1 /\ Forall during_call ls /\
    (allowed c (no_empty_chunk_past_end c) s1 ls /\ run c s1 ls = Some s2) /\
    reader_steps ls = 4 /\ g_failed s2 = false /\
    In (EvRead 0 5 false (Ok [x01; x02; x03; x04; x05])) (g_trace s2).
Proof.
  cbv zeta. split; [apply mk_sane; auto; lia|split; [exact I|split; [apply mk_honours|]]].
  eexists. eexists.
  exists ([LRStep; LDChunk 2] ++ Tk 3 ++ [LUserCancel; LRStep] ++ Tk 3 ++ [LRStep; LDCancel; LRStep]).
  eexists.
  split; [reach_tac (past_end_b (mk (Some 12) true 0 4 (PPlain PlMem)))
    ([LDChunk 3] ++ Tk 6 ++ [LDChunk 2] ++ Tk 6)|].
  split; [exists 0, 5; split; [left; reflexivity|cbn; lia]|].
  split; [intros x Hx; exists 0, 5; split; [left; reflexivity|lia]|].
  split; [vm_compute; reflexivity|]. split; [repeat constructor|].
  split; [apply (run_b_allowed _ (past_end_b _) _ (past_end_decides _)); vm_compute; reflexivity|].
  vm_compute. auto 10.
Qed.

Print Assumptions C15_failure_recorded.
Print Assumptions C15_faults_fail.
Print Assumptions C28_within_accepted.
Print Assumptions C62_prefetch_ends_on_time.
Print Assumptions C63_refuted.
Print Assumptions C63_partial.
Print Assumptions C63_request_starts_at_target.
Print Assumptions C64_completion_without_seeking.
Print Assumptions C65_one_request.
Print Assumptions C66_local_read.

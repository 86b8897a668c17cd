(** * Property theorems: stores that reach the other thread late (C72, C18).

    Vocabulary: Spec.v; the machine with a store buffer: Tso.v. *)

From Coq Require Import List Arith Lia ZArith Bool.
From Verif Require Import Base ListFacts RangeSet Storage System Spec StoreSpec Exec InvTrace ReadFacts Alive
  BoundedInv BoundedWake BoundedContent BoundedMore Tso TsoFacts PropReads.
Import ListNotations.

(** ** C72: relaxed ordering does not affect what calls return *)

(** Every execution of the machine with a store buffer is an execution of the model, with
    the same calls and results: all theorems about executions in a blind environment carry
    over. *)
Theorem C72_same_executions : forall fence c allow t,
  blind allow -> treach fence c allow t ->
  exists s, reach c allow s /\ g_trace s = g_trace (t_g t) /\ g_down s = g_down (t_g t) /\
            g_store s = g_store (t_g t) /\ g_failed s = g_failed (t_g t).
Proof.
  intros fence c allow t B H. exists (arrived t). split; [eapply tso_reach; eauto|].
  destruct t as [g [p|]]; auto.
Qed.

(** Reads of a client that never goes back behind the place it last jumped to. *)
Theorem C72_roaming_reads : forall fence c t,
  sane c -> unbounded_store c -> honours_ranges c ->
  treach fence c (roaming_env c) t ->
  every_event (read_ok c) (g_trace (t_g t)).
Proof.
  intros fence c t H1 H2 H3 H. rewrite <- arrived_trace.
  apply roaming_reads; auto. eapply tso_reach; eauto using blind_roaming_env.
Qed.

(** Reads through bounded storage. *)
Theorem C72_bounded_reads : forall fence c ck p n t,
  c_provider c = PBounded ck p n -> sane c -> c_rec c = RecRange ->
  treach fence c (local_env c) t ->
  every_event (read_ok c) (g_trace (t_g t)).
Proof.
  intros fence c ck p n t H1 H2 H3 H. rewrite <- arrived_trace.
  apply (local_reads c ck p n); auto. eapply tso_reach; eauto using blind_local_env.
Qed.

(** With unbounded storage a call whose store the task has not seen is not stuck: the task
    goes on downloading. *)
Theorem C72_no_deadlock : forall fence c t,
  0 < c_batch c -> unbounded_store c -> treach fence c no_empty_chunk t ->
  tblocked fence c t -> task_can_move c (t_g t).
Proof.
  intros fence c t Hb Hu H Hbl. destruct (tblocked_blocked _ _ _ Hbl) as [E B]. rewrite <- E in *.
  apply (unbounded_no_deadlock c (arrived t)); auto. eapply tso_reach; eauto using blind_empty.
Qed.

Definition TRd (n : nat) : list tlabel := repeat (TL LRStep) n.
Definition TTk (n : nat) : list tlabel := repeat (TL LDStep) n.

(** The task misses the request for four bytes although it has stored six; the next chunk
    releases the reader. *)
Example C72_case :
  let c := mk (Some 12) true 0 4 (PPlain PlMem) in
  (exists t, treach false c (roaming_env c) t /\ tblocked false c t /\
     g_rpc (t_g t) = RRWait 4 0 4 /\ st_wpos (g_store (t_g t)) = 6 /\ g_dpc (t_g t) = DSelect) /\
  (exists t, treach false c (roaming_env c) t /\
     In (EvRead 0 4 true (Ok [x01; x02; x03; x04])) (g_trace (t_g t))).
Proof.
  cbv zeta. split; eexists.
  - split; [eapply (texec_reach false _ (roaming_env_b (mk (Some 12) true 0 4 (PPlain PlMem))) _
      ([TL (LOp (ORead 4))] ++ TRd 4 ++ [TL (LDChunk 6)] ++ TTk 7 ++ [TFlush]));
      [decides_tac|vm_compute; reflexivity]|].
    split; [|split; [reflexivity|split; reflexivity]].
    split; [exact I|split; reflexivity].
  - split; [eapply (texec_reach false _ (roaming_env_b (mk (Some 12) true 0 4 (PPlain PlMem))) _
      ([TL (LOp (ORead 4))] ++ TRd 4 ++ [TL (LDChunk 6)] ++ TTk 7 ++ [TFlush; TL (LDChunk 2)] ++ TTk 7 ++ TRd 4));
      [decides_tac|vm_compute; reflexivity]|].
    vm_compute; tauto.
Qed.

(** ** C18: deadlock on a machine that delays stores *)

(** Violated: the first read of a stream stores the position it waits for and looks at
    [write_requested], which is not set yet.  The store is still buffered while the task
    fills the storage, looks for a request, finds none and waits for a read. *)
Theorem C18_tso_refuted : exists c t,
  c_provider c = PBounded true PlMem 4 /\ sane c /\ honours_ranges c /\
  treach false c (both (both sequential_client no_empty_chunk) productive) t /\
  g_rpc (t_g t) = RRWait 4 0 4 /\ is_downloaded (t_g t) 0 /\ is_downloaded (t_g t) 3 /\
  forall allow t', tsteps false c allow t t' ->
    tblocked false c t' /\ ~ task_can_move c (t_g t') /\ g_trace (t_g t') = g_trace (t_g t).
Proof.
  exists (mk (Some 12) true 0 4 (PBounded true PlMem 4)). eexists.
  split; [reflexivity|split; [apply mk_sane; auto; lia|split; [apply mk_honours|]]].
  split; [eapply (texec_reach false _ (both_b (both_b sequential_b empty_b) productive_b) _
      ([TL (LOp (ORead 4))] ++ TRd 4 ++ [TL (LDChunk 6)] ++ TTk 9 ++ [TFlush]));
      [decides_tac|vm_compute; reflexivity]|].
  split; [reflexivity|].
  split; [exists 0, 4; split; [vm_compute; tauto|lia]|].
  split; [exists 0, 4; split; [vm_compute; tauto|lia]|].
  intros allow t' H. eapply tso_deadlock_stays; [..|exact H]; reflexivity || exact I.
Qed.

(** A fence between the two accesses of the reader repairs it. *)
Theorem C18_fence_suffices : forall c ck p n t,
  c_provider c = PBounded ck p n -> 0 < c_batch c ->
  treach true c (both sequential_client no_empty_chunk) t ->
  tblocked true c t -> task_can_move c (t_g t).
Proof.
  intros c ck p n t Hp Hb H Hbl. destruct (tblocked_blocked _ _ _ Hbl) as [E B]. rewrite <- E in *.
  apply (bounded_no_deadlock c ck p n (arrived t)); auto.
  apply tso_fenced_reach in H; [|apply blind_both; auto using blind_sequential, blind_empty].
  eapply reach_weaken; [|exact H]. intros s l [[K1 K2] K3].
  split; [split; [apply sequential_local|]|]; auto.
Qed.

(** The same start with the fence: the task misses the request, but the reader then sees
    that the task wants a read and wakes it up. *)
Example C18_fence_case :
  let c := mk (Some 12) true 0 4 (PBounded true PlMem 4) in
  exists t, treach true c (both sequential_client no_empty_chunk) t /\ tblocked true c t /\
    g_rpc (t_g t) = RRWait 4 0 4 /\ g_permit (t_g t) = true.
Proof.
  cbv zeta. eexists.
  split; [eapply (texec_reach true _ (both_b sequential_b empty_b) _
      ([TL (LOp (ORead 4))] ++ TRd 3 ++ [TL (LDChunk 6)] ++ TTk 9 ++ [TFlush] ++ TRd 1));
      [decides_tac|vm_compute; reflexivity]|].
  split; [|split; reflexivity]. split; [exact I|split; reflexivity].
Qed.

Print Assumptions C72_same_executions.
Print Assumptions C72_roaming_reads.
Print Assumptions C72_bounded_reads.
Print Assumptions C72_no_deadlock.
Print Assumptions C18_tso_refuted.
Print Assumptions C18_fence_suffices.

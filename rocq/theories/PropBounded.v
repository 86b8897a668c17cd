(** * Property theorems: downloads through bounded storage.

    Vocabulary: Spec.v and StoreSpec.v. *)

From Coq Require Import List Arith Lia ZArith Bool.
From Verif Require Import Base ListFacts RangeSet Storage System Spec StoreSpec Exec InvTrace LifeFacts Alive ReadFacts
  StoreFacts BoundedFacts BoundedInv BoundedWake BoundedContent BoundedMore PropReads.
Import ListNotations.

Definition seek_to (p : nat) : label := LOp (OSeek (FromStart (Z.of_nat p))).

(** ** C18: no deadlock with bounded storage and sequential reads *)

(** Provided the task sees the position a waiting reader has requested ([fenced]); without
    that it is false, see [C18_tso_refuted] in PropTso.v. *)
Theorem C18_no_deadlock_partial : forall c ck p n s,
  c_provider c = PBounded ck p n -> 0 < c_batch c ->
  reach c (both (both sequential_client no_empty_chunk) fenced) s ->
  blocked c s -> task_can_move c s.
Proof.
  intros c ck p n s Hp Hb H. apply (bounded_no_deadlock c ck p n s Hp Hb).
  eapply reach_weaken; [|exact H]. intros s0 l [[K1 K2] K3].
  split; [split; [apply sequential_local|]|]; auto.
Qed.

(** Nor does the task ever panic in this use. *)
Theorem C18_no_panic : forall c ck p n s,
  c_provider c = PBounded ck p n -> 0 < c_batch c ->
  reach c (both sequential_client no_empty_chunk) s ->
  g_dpc s <> DPanic.
Proof.
  intros c ck p n s Hp Hb H. apply (bounded_no_panic c ck p n s Hp Hb).
  eapply sequential_local_reach; [|exact H]. intros s0 l K. exact K.
Qed.

(** The storage is full, the task was waiting for room, and the reader asks for as much as
    the storage can hold. *)
Example C18_case :
  let c := mk None true 0 4 (PBounded true PlMem 4) in
  exists s, reach c (both (both sequential_client no_empty_chunk) fenced) s /\ blocked c s /\
    refused_data (g_trace s) /\ g_rpc s = RRWait 4 2 6 /\ st_wpos (g_store s) = 4.
Proof.
  cbv zeta. eexists.
  split; [reach_tac (both_b (both_b sequential_b empty_b) fenced_b) ([LDChunk 6] ++ Tk 9 ++ [LOp (ORead 2)] ++ Rd 3 ++
    [LRStep; LOp (ORead 4)] ++ Rd 4)|].
  split; [apply blocked_b; reflexivity|]. split; [|split; reflexivity].
  exists 2, 0. split; [vm_compute; tauto|lia].
Qed.

(** ** C19: no deadlock with bounded storage and seeks *)

(** Violated: the task found the storage full and waits for a read; a seek to the end of
    the buffered data waits for the task.  A seek does not wake the task up. *)
Theorem C19_refuted : exists c s,
  c_provider c = PBounded true PlMem 4 /\ c_clen c = Some 12 /\
  reach c (both productive (within_capacity c 4)) s /\ g_rpc s = RSWait (FromStart 4) 4 /\
  forall allow s', steps c allow s s' ->
    blocked c s' /\ ~ task_can_move c s' /\ g_trace s' = g_trace s.
Proof.
  exists (mk (Some 12) true 0 4 (PBounded true PlMem 4)). eexists.
  split; [reflexivity|split; [reflexivity|]].
  split; [reach_tac (both_b productive_b (capacity_b 4)) ([LDChunk 6] ++ Tk 9 ++ [seek_to 4] ++ Rd 4)|].
  split; [reflexivity|].
  intros allow s' H.
  apply (deadlock_stays _ allow _ s' [x01; x02; x03; x04; x05; x06] 4 0); auto. exact I.
Qed.

(** Nor does it help that the target gets downloaded: the seek looks for byte 2 and does not
    find it, the task downloads it, fills the storage and waits for a read, and only then the
    seek posts its request.  It waits for ever for a byte that is there and in the buffer. *)
Theorem C19_race_refuted : exists c s,
  c_provider c = PBounded true PlMem 4 /\ c_clen c = Some 12 /\
  reach c (both productive (within_capacity c 4)) s /\ g_rpc s = RSWait (FromStart 2) 2 /\
  is_downloaded s 2 /\ st_wpos (g_store s) = 4 /\ st_rpos (g_store s) = 0 /\
  forall allow s', steps c allow s s' ->
    blocked c s' /\ ~ task_can_move c s' /\ g_trace s' = g_trace s.
Proof.
  exists (mk (Some 12) true 0 4 (PBounded true PlMem 4)). eexists.
  split; [reflexivity|split; [reflexivity|]].
  split; [reach_tac (both_b productive_b (capacity_b 4)) ([seek_to 2] ++ Rd 2 ++ [LDChunk 6] ++ Tk 9 ++ Rd 2)|].
  split; [reflexivity|]. split; [exists 0, 4; split; [vm_compute; tauto|lia]|].
  split; [reflexivity|]. split; [reflexivity|].
  intros allow s' H.
  apply (deadlock_stays _ allow _ s' [x01; x02; x03; x04; x05; x06] 4 0); auto. exact I.
Qed.

(** What is true of every client and storage: a call is stuck only while the task waits
    for room in the storage, or if the task has panicked.  Missing: that this ends. *)
Theorem C19_partial : forall c allow s,
  reach c allow s -> blocked c s ->
  task_can_move c s \/ waits_for_room s \/ g_dpc s = DPanic.
Proof. exact blocked_only_for_room. Qed.

Example C19_case :
  let c := mk (Some 12) true 0 4 (PBounded true PlMem 8) in
  exists s, reach c any s /\ blocked c s /\ g_rpc s = RSWait (FromStart 10) 10 /\ task_can_move c s.
Proof.
  cbv zeta. eexists.
  split; [reach_tac any_b ([LDChunk 8] ++ Tk 7 ++ [LOp (ORead 8)] ++ Rd 4 ++ [seek_to 10] ++ Rd 4)|].
  split; [apply blocked_b; reflexivity|]. split; [reflexivity|]. left. exact I.
Qed.

(** A client whose seeks stay within the downloaded data (and not before the bytes it has
    jumped over) is never stuck for good, and nothing panics.  Missing: seeks to data that
    is still to be downloaded, where the claim fails. *)
Theorem C19_local_partial : forall c ck p n s,
  c_provider c = PBounded ck p n -> 0 < c_batch c ->
  reach c (both (both (local_client c) no_empty_chunk) fenced) s ->
  (blocked c s -> task_can_move c s) /\ g_dpc s <> DPanic.
Proof.
  intros c ck p n s Hp Hb H. split.
  - exact (bounded_no_deadlock c ck p n s Hp Hb H).
  - exact (bounded_no_panic c ck p n s Hp Hb (unfenced _ _ _ H)).
Qed.

(** The storage is full, the client goes back to the start, reads everything again and then
    waits for the bytes that had been refused. *)
Example C19_local_case :
  let c := mk (Some 12) true 0 4 (PBounded true PlMem 4) in
  exists s, reach c (both (both (local_client c) no_empty_chunk) fenced) s /\ blocked c s /\
    refused_data (g_trace s) /\ g_rpc s = RRWait 4 4 8 /\
    In (EvSeek (FromStart 0) (Ok 0)) (g_trace s) /\ In (EvRead 0 4 false (Ok [x01; x02; x03; x04])) (g_trace s).
Proof.
  cbv zeta. eexists.
  split; [reach_tac (both_b (both_b (local_b (mk (Some 12) true 0 4 (PBounded true PlMem 4))) empty_b) fenced_b)
    ([LDChunk 6] ++ Tk 9 ++ [LOp (ORead 2)] ++ Rd 3 ++ [LRStep; seek_to 0] ++ Rd 3 ++ [LOp (ORead 4)] ++ Rd 4 ++
     [LOp (ORead 4)] ++ Rd 4)|].
  split; [apply blocked_b; reflexivity|]. split; [|split; [reflexivity|vm_compute; tauto]].
  exists 2, 0. split; [vm_compute; tauto|lia].
Qed.

(** ** C22: sequential reads through bounded storage are faithful *)

Theorem C22_reads_faithful : forall c ck p n s,
  c_provider c = PBounded ck p n -> sane c -> c_rec c = RecRange ->
  reach c (bounded_env c) s ->
  every_event (read_ok c) (g_trace s) /\
  (exists k, delivered (g_trace s) = firstn k (c_content c)) /\
  (forall newer pos m waited older,
     g_trace s = newer ++ EvRead pos m waited (Ok []) :: older -> 0 < m ->
     delivered (g_trace s) = c_content c).
Proof. exact bounded_reads. Qed.

(** Even if a body ends before its time without an error, the bytes are the right ones; only
    the end may then be reported too early. *)
Theorem C22_cut_off : forall c ck p n s,
  c_provider c = PBounded ck p n -> sane c -> c_rec c = RecRange ->
  reach c (both (local_client c) (both no_empty_chunk no_reconnect_with_leftover)) s ->
  every_event (genuine c) (g_trace s).
Proof.
  intros c ck p n s Hp (S1 & _ & S3) Hr. apply (local_genuine c ck p n s Hp); auto. right. exact S1.
Qed.

(** A body of eleven bytes that ends after six. *)
Example C22_cut_off_case :
  let c := mk None true 2 3 (PBounded true (PlTemp 2) 4) in
  exists s, sane c /\ reach c (both (local_client c) (both no_empty_chunk no_reconnect_with_leftover)) s /\
    In (EvRead 0 3 false (Ok [x01; x02; x03])) (g_trace s) /\
    In (EvRead 3 4 true (Ok [x04; x05; x06])) (g_trace s) /\ completed s.
Proof.
  cbv zeta. eexists. split; [apply mk_sane; auto; lia|].
  split; [reach_tac (both_b (local_b (mk None true 2 3 (PBounded true (PlTemp 2) 4))) (both_b empty_b leftover_b))
    ([LDChunk 6] ++ Tk 3 ++ [LOp (ORead 3)] ++ Rd 4 ++ [LDEof] ++ Tk 6 ++ [LOp (ORead 4)] ++ Rd 4 ++ [LDEof] ++ Tk 2 ++ Rd 4)|].
  vm_compute; tauto.
Qed.

(** Twelve bytes through a ring of four, with a leftover after the prefetch phase. *)
Example C22_case :
  let c := mk None true 2 3 (PBounded true (PlTemp 2) 4) in
  exists s, sane c /\ reach c (bounded_env c) s /\ refused_data (g_trace s) /\
    In (EvRead 0 3 false (Ok [x01; x02; x03])) (g_trace s) /\
    In (EvRead 3 4 true (Ok [x04; x05; x06; x07])) (g_trace s) /\
    In (EvRead 7 4 true (Ok [x08; x09; x0a; x0b])) (g_trace s).
Proof.
  cbv zeta. eexists. split; [apply mk_sane; auto; lia|].
  split; [reach_tac (bounded_env_b (mk None true 2 3 (PBounded true (PlTemp 2) 4)))
    ([LDChunk 6] ++ Tk 3 ++ [LOp (ORead 3)] ++ Rd 4 ++ [LOp (ORead 4)] ++ Rd 4 ++
     [LDChunk 6] ++ Tk 6 ++ Rd 4 ++ Tk 1 ++ [LOp (ORead 4)] ++ Rd 4 ++ Tk 8 ++ Rd 4)|].
  split; [exists 1, 0; split; [vm_compute; tauto|lia]|].
  vm_compute; tauto.
Qed.

(** Without the restriction on reconnects the claim fails, see C30. *)

(** ** C27: bounded storage accepts any read up to its advertised capacity *)

(** Violated: the storage of a resource shorter than the buffer is only as large as the
    resource, and a read into a larger buffer is refused although it is within the
    advertised capacity. *)
Theorem C27_refuted : exists c s n,
  c_provider c = PBounded true PlMem n /\ sane c /\ n = 4 /\
  reach c (bounded_env c) s /\ In (EvRead 0 3 false (Err EInvalidInput)) (g_trace s).
Proof.
  exists (mkCfg [x01; x02] (Some 2) true 0 4 true InvEmpty RecRange (PBounded true PlMem 4)).
  eexists. exists 4. split; [reflexivity|].
  split; [split; [intros n [= <-]; reflexivity|split; [vm_compute; reflexivity|cbn; lia]]|].
  split; [reflexivity|].
  split; [reach_tac (bounded_env_b (mkCfg [x01; x02] (Some 2) true 0 4 true InvEmpty RecRange (PBounded true PlMem 4)))
    ([LDChunk 2] ++ Tk 6 ++ [LOp (ORead 3)] ++ Rd 4)|].
  vm_compute; tauto.
Qed.

(** It holds for reads up to the smaller of the capacity and the length of the resource. *)
Theorem C27_partial : forall c ck p n s,
  c_provider c = PBounded ck p n -> 0 < c_batch c ->
  reach c (both sequential_client no_empty_chunk) s ->
  every_event (not_refused (match c_clen c with Some len => Nat.min len n | None => n end)) (g_trace s).
Proof. exact bounded_not_refused. Qed.

Example C27_case :
  let c := mk (Some 12) true 0 4 (PBounded true PlMem 4) in
  exists s, reach c (both sequential_client no_empty_chunk) s /\
    In (EvRead 0 4 false (Ok [x01; x02; x03; x04])) (g_trace s) /\
    In (EvRead 4 4 true (Ok [x05; x06; x07; x08])) (g_trace s).
Proof.
  cbv zeta. eexists.
  split; [reach_tac (both_b sequential_b empty_b) ([LDChunk 8] ++ Tk 9 ++ [LOp (ORead 4)] ++ Rd 4 ++
    [LOp (ORead 4)] ++ Rd 4 ++ Tk 7 ++ Rd 4)|].
  vm_compute; tauto.
Qed.

(** ** C29: a chunk interrupted by a full buffer is resumed, never misplaced *)

(** Violated: the two bytes left over from the prefetch phase are kept across a seek and
    written after the data of the new position. *)
Theorem C29_refuted : exists c s,
  c_provider c = PBounded true PlMem 4 /\ sane c /\ honours_ranges c /\
  reach c (both productive (within_capacity c 4)) s /\
  In (EvRead 6 2 false (Ok [x05; x06])) (g_trace s) /\
  slice (c_content c) 6 2 = [x07; x08].
Proof.
  exists (mk (Some 12) true 1 4 (PBounded true PlMem 4)). eexists.
  split; [reflexivity|split; [apply mk_sane; auto; lia|split; [apply mk_honours|]]].
  split; [reach_tac (both_b productive_b (capacity_b 4)) ([LDChunk 6] ++ Tk 2 ++ [LOp (ORead 2)] ++ Rd 4 ++
    [seek_to 5] ++ Rd 4 ++ [LDSeek; LDSeekRes true; LDChunk 1] ++ Tk 2 ++ [LDChunk 2] ++ Tk 5 ++
    Rd 3 ++ [LOp (ORead 1)] ++ Rd 4 ++ Tk 7 ++ [LOp (ORead 2)] ++ Rd 4)|].
  split; [vm_compute; tauto|reflexivity].
Qed.

(** For a client that only seeks within the downloaded data, whatever was received and not
    yet stored belongs to the position at which it will be stored.  Missing: seeks to data
    that is still to be downloaded. *)
Theorem C29_partial : forall c ck p n s bs,
  c_provider c = PBounded ck p n -> sane c -> c_rec c = RecRange ->
  reach c (local_env c) s -> pending s = Some bs ->
  bs = slice (c_content c) (st_wpos (g_store s)) (length bs).
Proof. exact bounded_unstored. Qed.

(** Bytes left over from the prefetch phase, followed by a new chunk. *)
Example C29_case :
  let c := mk None true 2 3 (PBounded true (PlTemp 2) 4) in
  exists s, sane c /\ reach c (local_env c) s /\ g_rem s = Some [x05; x06] /\
    exists s', reach c (local_env c) s' /\ pending s' = Some [x05; x06; x07; x08; x09] /\
    cursor (g_trace s') = 1.
Proof.
  cbv zeta. eexists. split; [apply mk_sane; auto; lia|].
  split; [reach_tac (local_env_b (mk None true 2 3 (PBounded true (PlTemp 2) 4))) ([LDChunk 6] ++ Tk 3)|].
  split; [reflexivity|]. eexists.
  split; [reach_tac (local_env_b (mk None true 2 3 (PBounded true (PlTemp 2) 4))) ([LDChunk 6] ++ Tk 3 ++
    [LOp (ORead 3)] ++ Rd 4 ++ [seek_to 1] ++ Rd 3 ++ [LDChunk 3])|].
  split; reflexivity.
Qed.

(** ** C30: reconnecting resumes at the right byte *)

(** Violated with bounded storage: the bytes left over from the prefetch phase are kept
    across a reconnect that starts at the first of them. *)
Theorem C30_refuted : exists c s,
  c_provider c = PBounded true PlMem 4 /\ sane c /\ honours_ranges c /\
  reach c (both sequential_client no_empty_chunk) s /\
  In (EvReconnect 4 RcOk) (g_trace s) /\
  In (EvRead 4 4 false (Ok [x05; x06; x05; x06])) (g_trace s) /\
  slice (c_content c) 4 4 = [x05; x06; x07; x08].
Proof.
  exists (mk (Some 12) true 1 4 (PBounded true PlMem 4)). eexists.
  split; [reflexivity|split; [apply mk_sane; auto; lia|split; [apply mk_honours|]]].
  split; [reach_tac (both_b sequential_b empty_b) ([LDChunk 6] ++ Tk 2 ++ [LDTimeout RcOk] ++ [LDChunk 3] ++ Tk 4 ++
    [LOp (ORead 4)] ++ Rd 4 ++ Tk 8  ++ [LOp (ORead 4)] ++ Rd 4)|].
  vm_compute; auto 20.
Qed.

(** Violated also, for every storage, if the server does not support ranges: the body
    starts again at the first byte of the resource and is stored at the current position. *)
Theorem C30_from_start_refuted : exists c s,
  c_provider c = PPlain PlMem /\ sane c /\ c_seekable c = false /\
  reach c (both sequential_client no_empty_chunk) s /\
  In (EvReconnect 4 RcOk) (g_trace s) /\
  In (EvRead 4 4 false (Ok [x01; x02; x03; x04])) (g_trace s).
Proof.
  set (c := mkCfg demo (Some 12) false 0 4 true InvEmpty RecFromStart (PPlain PlMem)).
  exists c. eexists. split; [reflexivity|].
  split; [split; [intros n [= <-]; reflexivity|split; [vm_compute; reflexivity|cbn; lia]]|].
  split; [reflexivity|].
  split; [reach_tac (both_b sequential_b empty_b) ([LDChunk 4] ++ Tk 6 ++ [LOp (ORead 4)] ++ Rd 4 ++
    [LDTimeout RcOk; LDChunk 4] ++ Tk 6 ++ [LOp (ORead 4)] ++ Rd 4)|].
  vm_compute; tauto.
Qed.

(** With a server that supports ranges and nothing left over, the first chunk after the
    reconnect starts at the position where it will be stored and nothing else changes. *)
Theorem C30_partial : forall c allow s s1 k s2,
  c_rec c = RecRange -> 0 < c_batch c -> reach c allow s -> unbounded_store c \/ g_rem s = None ->
  step c s (LDTimeout RcOk) = Some s1 -> step c s1 (LDChunk k) = Some s2 ->
  st_wpos (g_store s2) = st_wpos (g_store s) /\ g_down s2 = g_down s /\
  pending s2 = Some (slice (c_content c) (st_wpos (g_store s2)) k).
Proof.
  intros c allow s s1 k s2 Hrec Hb Hr Hu. apply (reconnect_resumes c allow); auto.
  destruct Hu as [Hu|]; auto. apply (unbounded_no_leftover c allow s Hu Hb Hr).
Qed.

Example C30_case :
  let c := mk (Some 12) true 0 4 (PPlain PlMem) in
  exists s s1 s2, reach c any s /\ step c s (LDTimeout RcOk) = Some s1 /\ step c s1 (LDChunk 3) = Some s2 /\
    pending s2 = Some [x06; x07; x08] /\ st_wpos (g_store s2) = 5.
Proof.
  cbv zeta. eexists. eexists. eexists.
  split; [reach_tac any_b ([LDChunk 5] ++ Tk 7)|].
  split; [reflexivity|split; [reflexivity|split; reflexivity]].
Qed.

(** ** C58: reads after seeks through bounded storage are faithful *)

(** Violated: after one forward seek within the capacity the read ends early. *)
Theorem C58_refuted : exists c s,
  c_provider c = PBounded true PlMem 8 /\ c_clen c = Some 12 /\ sane c /\ honours_ranges c /\
  reach c (both productive (both (within_capacity c 8) (forward_client c))) s /\
  In (EvRead 10 2 false (Ok [])) (g_trace s) /\ slice (c_content c) 10 2 = [x0b; x0c].
Proof.
  exists (mk (Some 12) true 0 4 (PBounded true PlMem 8)). eexists.
  split; [reflexivity|split; [reflexivity|split; [apply mk_sane; auto; lia|split; [apply mk_honours|]]]].
  split; [reach_tac (both_b productive_b (both_b (capacity_b 8) (forward_b (mk (Some 12) true 0 4 (PBounded true PlMem 8)))))
   ([LDChunk 8] ++ Tk 7 ++ [LOp (ORead 8)] ++ Rd 4 ++ [seek_to 10] ++ Rd 4 ++ [LDSeek; LDSeekRes true; LDChunk 2] ++
    Tk 2 ++ [LDEof; LDSeekRes true; LDChunk 2] ++ Tk 7 ++ Rd 3 ++ [LOp (ORead 2)] ++ Rd 4)|].
  vm_compute; tauto.
Qed.

(** And after seeks in both directions it returns the bytes of another position: data that
    was overwritten in the ring is still recorded as downloaded. *)
Theorem C58_wrong_bytes_refuted : exists c s,
  c_provider c = PBounded true PlMem 8 /\ c_clen c = Some 12 /\ sane c /\ honours_ranges c /\
  reach c (both productive (within_capacity c 8)) s /\
  In (EvRead 2 2 false (Ok [x0b; x0c])) (g_trace s) /\ slice (c_content c) 2 2 = [x03; x04].
Proof.
  exists (mk (Some 12) true 0 4 (PBounded true PlMem 8)). eexists.
  split; [reflexivity|split; [reflexivity|split; [apply mk_sane; auto; lia|split; [apply mk_honours|]]]].
  split; [reach_tac (both_b productive_b (capacity_b 8))
   ([LDChunk 8] ++ Tk 7 ++ [LOp (ORead 8)] ++ Rd 4 ++ [seek_to 10] ++ Rd 4 ++ [LDSeek; LDSeekRes true; LDChunk 1] ++
    Tk 2 ++ [LDChunk 1] ++ Tk 7 ++ Rd 3 ++ [LOp (ORead 2)] ++ Rd 4 ++ [seek_to 9] ++ Rd 4 ++
    [LDSeek; LDSeekRes true; LDChunk 1] ++ Tk 2 ++ [LDEof; LDSeekRes true; LDChunk 1] ++ Tk 7 ++ Rd 3 ++
    [seek_to 2] ++ Rd 3 ++ [LOp (ORead 2)] ++ Rd 4)|].
  vm_compute; tauto.
Qed.

(** Nor is it enough to stay within the downloaded data and the capacity.  Going forward and
    then back over the bytes that were jumped over panics in a build that checks for
    overflow; in one that does not, every read from then on reports the end. *)
Theorem C58_back_and_forth_refuted :
  (exists c s, c_provider c = PBounded true PlMem 8 /\ sane c /\ honours_ranges c /\
     reach c (both productive (within_capacity c 8)) s /\ is_downloaded s 0 /\ is_downloaded s 4 /\
     g_trace s = EvSeek (FromStart 0) Panic :: EvSeek (FromStart 4) (Ok 4) :: tl (tl (g_trace s))) /\
  (exists c s, c_provider c = PBounded false PlMem 8 /\ sane c /\ honours_ranges c /\
     reach c (both productive (within_capacity c 8)) s /\ is_downloaded s 0 /\ is_downloaded s 4 /\
     g_trace s = EvRead 0 2 false (Ok []) :: EvSeek (FromStart 0) (Ok 0) :: EvSeek (FromStart 4) (Ok 4) ::
                 tl (tl (tl (g_trace s)))).
Proof.
  split.
  - exists (mk (Some 12) true 0 4 (PBounded true PlMem 8)). eexists.
    split; [reflexivity|split; [apply mk_sane; auto; lia|split; [apply mk_honours|]]].
    split; [reach_tac (both_b productive_b (capacity_b 8)) ([LDChunk 8] ++ Tk 7 ++ [seek_to 4] ++ Rd 3 ++ [seek_to 0] ++ Rd 3)|].
    split; [exists 0, 8; split; [vm_compute; tauto|lia]|].
    split; [exists 0, 8; split; [vm_compute; tauto|lia]|reflexivity].
  - exists (mk (Some 12) true 0 4 (PBounded false PlMem 8)). eexists.
    split; [reflexivity|split; [apply mk_sane; auto; lia|split; [apply mk_honours|]]].
    split; [reach_tac (both_b productive_b (capacity_b 8)) ([LDChunk 8] ++ Tk 7 ++ [seek_to 4] ++ Rd 3 ++ [seek_to 0] ++ Rd 3 ++
      [LOp (ORead 2)] ++ Rd 4)|].
    split; [exists 0, 8; split; [vm_compute; tauto|lia]|].
    split; [exists 0, 8; split; [vm_compute; tauto|lia]|reflexivity].
Qed.

(** What is true: if every seek goes to downloaded data, and not before the bytes jumped
    over by earlier seeks, every read returns the bytes of its position and an empty read
    means the end. *)
Theorem C58_local_partial : forall c ck p n s,
  c_provider c = PBounded ck p n -> sane c -> c_rec c = RecRange ->
  reach c (local_env c) s ->
  every_event (read_ok c) (g_trace s).
Proof. exact local_reads. Qed.

(** And no call panics; a read is refused only if it asks for more than the storage holds,
    or if its position has been overwritten. *)
Theorem C58_local_calls_partial : forall c ck p n s,
  c_provider c = PBounded ck p n -> 0 < c_batch c ->
  reach c (both (local_client c) no_empty_chunk) s ->
  every_event (local_call_ok (match c_clen c with Some len => Nat.min len n | None => n end)) (g_trace s).
Proof.
  intros c ck p n s Hp Hb H. destruct (local_calls c ck p n s Hp Hb H) as (W & R & _ & _ & _ & _ & K).
  apply all_events_every. exact K.
Qed.

(** Back within the window, forward over unread bytes, and back to a byte that has been
    overwritten, where the read is refused. *)
Example C58_local_case :
  let c := mk (Some 12) true 0 4 (PBounded true PlMem 4) in
  exists s, sane c /\ reach c (local_env c) s /\
    refused_data (g_trace s) /\
    In (EvSeek (FromStart 1) (Ok 1)) (g_trace s) /\
    In (EvRead 1 2 false (Ok [x02; x03])) (g_trace s) /\
    In (EvSeek (FromStart 5) (Ok 5)) (g_trace s) /\
    In (EvRead 5 2 false (Ok [x06; x07])) (g_trace s) /\
    In (EvRead 2 2 false (Err EInvalidInput)) (g_trace s).
Proof.
  cbv zeta. eexists. split; [apply mk_sane; auto; lia|].
  split; [reach_tac (local_env_b (mk (Some 12) true 0 4 (PBounded true PlMem 4)))
    ([LDChunk 8] ++ Tk 9 ++ [LOp (ORead 3)] ++ Rd 4 ++ [seek_to 1] ++ Rd 3 ++ [LOp (ORead 2)] ++ Rd 4 ++
     [LOp (ORead 1)] ++ Rd 4 ++ Tk 7 ++ [seek_to 5] ++ Rd 3 ++ [LOp (ORead 2)] ++ Rd 4 ++
     [seek_to 2] ++ Rd 3 ++ [LOp (ORead 2)] ++ Rd 4)|].
  split; [exists 4, 0; split; [vm_compute; tauto|lia]|].
  vm_compute; auto 30.
Qed.

(** ** Adaptive storage of unknown length inherits both (C22, C35) *)

Theorem C35_unknown_length_partial : forall c ck fixed variable n s,
  c_clen c = None -> c_provider c = PAdaptive ck fixed variable n -> 0 < c_batch c ->
  reach c (both (within_capacity c n) (both (both sequential_client no_empty_chunk) fenced)) s ->
  blocked c s -> task_can_move c s.
Proof.
  intros c ck fixed variable n s Hl Hp Hb H Hbl.
  assert (Ec : c = with_provider c (PAdaptive ck fixed variable n))
    by (destruct c; cbn in *; subst; reflexivity).
  rewrite Ec in H at 1. pose proof (traced_reach _ _ _ H) as Htr.
  pose proof (pending_reach c _ _ _ _ H) as Hpd.
  apply adaptive_bounded in H; auto.
  assert (Hbl' : blocked (with_provider c (PBounded ck fixed n)) s).
  { destruct Hbl as [B1 B2]. split; auto. rewrite <- (lockstep c ck fixed variable n s LRStep); auto.
    - rewrite <- Ec. exact B2.
    - apply Htr. }
  assert (T : task_can_move (with_provider c (PBounded ck fixed n)) s).
  { apply (bounded_no_deadlock (with_provider c (PBounded ck fixed n)) ck fixed n s); auto.
    eapply reach_weaken; [|exact H]. intros s0 l [_ [[A1 A2] A3]].
    split; [split; [apply sequential_local|]|]; auto. }
  destruct T as [T|[s' T]]; [left; auto|right]. exists s'.
  change (step c s LDStep) with (step (with_provider c (PBounded ck fixed n)) s LDStep). exact T.
Qed.

Theorem C22_adaptive : forall c ck fixed variable n s,
  c_clen c = None -> sane c -> c_rec c = RecRange ->
  reach (with_provider c (PAdaptive ck fixed variable n)) (both (within_capacity c n) (bounded_env c)) s ->
  every_event (read_ok c) (g_trace s).
Proof.
  intros c ck fixed variable n s Hl Hs Hrec H. apply adaptive_bounded in H; auto.
  assert (R : every_event (read_ok (with_provider c (PBounded ck fixed n))) (g_trace s)).
  { apply (bounded_reads (with_provider c (PBounded ck fixed n)) ck fixed n s); auto.
    eapply reach_weaken; [|exact H]. intros s0 l [_ A]. exact A. }
  intros newer e older E. specialize (R newer e older E). destruct e as [pos m w [bs| |]| | | | | | |]; auto.
  destruct R as [A (k & B1 & B2 & B3 & B4)]. split; auto. exists k. auto.
Qed.

(** A full ring of four under an adaptive provider: data was refused, four bytes have been
    read and the reader waits for four more. *)
Example C35_unknown_length_case :
  let c := mk None true 0 4 (PAdaptive true PlMem (PlTemp 2) 4) in
  exists s, sane c /\ reach c (both (within_capacity c 4) (both (both sequential_client no_empty_chunk) fenced)) s /\
    reach c (both (within_capacity c 4) (bounded_env c)) s /\
    blocked c s /\ refused_data (g_trace s) /\ g_rpc s = RRWait 4 4 8 /\
    In (EvRead 0 4 false (Ok [x01; x02; x03; x04])) (g_trace s).
Proof.
  cbv zeta. eexists. split; [apply mk_sane; auto; lia|].
  split; [reach_tac (both_b (capacity_b 4) (both_b (both_b sequential_b empty_b) fenced_b)) ([LDChunk 6] ++ Tk 9 ++ [LOp (ORead 4)] ++ Rd 4 ++
    [LOp (ORead 4)] ++ Rd 4)|].
  split; [reach_tac (both_b (capacity_b 4) (bounded_env_b (mk None true 0 4 (PAdaptive true PlMem (PlTemp 2) 4))))
    ([LDChunk 6] ++ Tk 9 ++ [LOp (ORead 4)] ++ Rd 4 ++ [LOp (ORead 4)] ++ Rd 4)|].
  split; [apply blocked_b; reflexivity|]. split; [|split; [reflexivity|vm_compute; tauto]].
  exists 2, 0. split; [vm_compute; tauto|lia].
Qed.

Print Assumptions C18_no_deadlock_partial.
Print Assumptions C18_no_panic.
Print Assumptions C19_refuted.
Print Assumptions C19_race_refuted.
Print Assumptions C19_partial.
Print Assumptions C19_local_partial.
Print Assumptions C22_reads_faithful.
Print Assumptions C22_cut_off.
Print Assumptions C22_adaptive.
Print Assumptions C27_refuted.
Print Assumptions C27_partial.
Print Assumptions C29_refuted.
Print Assumptions C29_partial.
Print Assumptions C30_refuted.
Print Assumptions C30_from_start_refuted.
Print Assumptions C30_partial.
Print Assumptions C35_unknown_length_partial.
Print Assumptions C58_refuted.
Print Assumptions C58_wrong_bytes_refuted.
Print Assumptions C58_back_and_forth_refuted.
Print Assumptions C58_local_partial.
Print Assumptions C58_local_calls_partial.

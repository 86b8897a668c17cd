(** * Properties of reads and seeks, unbounded storage (C01-C06, C08, C09, C11, C12). *)

From Coq Require Import List Arith Lia ZArith Bool.
From Verif Require Import Base RangeSet Storage System Spec InvTrace ReadFacts DoneFacts
  RequestFacts CallFacts Exec.
Import ListNotations.

(** ** C01: reads of a forward-moving client are faithful *)

Theorem C01_forward_reads_faithful : forall c s,
  sane c -> unbounded_store c -> honours_ranges c ->
  reach c (forward_env c) s ->
  every_event (read_ok c) (g_trace s).
Proof. exact forward_reads. Qed.

(** Prefetch, read, forward seek served by a range request, read, hole filled. *)
Definition forward_run : list label :=
  [LDChunk 3] ++ Tk 2 ++ [LOp (ORead 2)] ++ Rd 4 ++ [LOp (OSeek (FromStart 6))] ++ Rd 4 ++
  [LDSeek; LDSeekRes true; LDChunk 4] ++ Tk 2 ++ [LDChunk 1] ++ Tk 7 ++ Rd 3 ++
  [LOp (ORead 4)] ++ Rd 4 ++ [LDTimeout RcOk; LDChunk 1] ++ Tk 6 ++
  [LDEof; LDSeekRes true; LDChunk 3] ++ Tk 6 ++ [LDEof] ++ Tk 2.

Example C01_case :
  let c := mk (Some 12) true 2 4 (PPlain PlMem) in
  sane c /\ unbounded_store c /\ honours_ranges c /\
  exists s, reach c (forward_env c) s /\
    In (EvRead 0 2 false (Ok [x01; x02])) (g_trace s) /\
    In (EvSeek (FromStart 6) (Ok 6)) (g_trace s) /\
    In (EvSeekRange 6 (Some 12)) (g_trace s) /\
    In (EvRead 6 4 false (Ok [x07; x08; x09; x0a])) (g_trace s) /\
    completed s.
Proof.
  cbv zeta. split; [apply mk_sane; auto; lia|split; [exact I|split; [apply mk_honours|]]].
  eexists. split; [reach_tac (forward_env_b (mk (Some 12) true 2 4 (PPlain PlMem))) forward_run|].
  vm_compute; repeat (split; [tauto|]); auto.
Qed.

(** A temporary file behaves the same; here the read waits for data. *)
Definition waiting_run : list label :=
  [LOp (ORead 5)] ++ Rd 4 ++ [LDChunk 3] ++ Tk 6 ++ [LDChunk 1] ++ Tk 6 ++ [LDErr; LDChunk 4] ++
  Tk 7 ++ Rd 4.

Example C01_case_temp :
  let c := mk None false 0 4 (PPlain (PlTemp 8)) in
  sane c /\ unbounded_store c /\ honours_ranges c /\
  exists s, reach c (forward_env c) s /\
    In (EvRead 0 5 true (Ok [x01; x02; x03; x04; x05])) (g_trace s).
Proof.
  cbv zeta. split; [apply mk_sane; auto; lia|split; [exact I|split; [apply mk_honours|]]].
  eexists. split; [reach_tac (forward_env_b (mk None false 0 4 (PPlain (PlTemp 8)))) waiting_run|].
  vm_compute; tauto.
Qed.

(** The hypothesis on range requests is needed: a client that only moves forward can
    make the library send an inverted range request, which a conforming HTTP server
    answers with the whole resource.  The seek to 9 is released by ordinary data, its
    message stays in the channel and is acted upon during the filling of a hole. *)
Definition two_ranges_run : list label :=
  [LDChunk 2] ++ Tk 6 ++ [LOp (OSeek (FromStart 6))] ++ Rd 4 ++
  [LDSeek; LDSeekRes true; LDChunk 1] ++ Tk 2 ++ [LDChunk 1] ++ Tk 7 ++ Rd 3.

Definition inverted_run : list label :=
  two_ranges_run ++ [LOp (OSeek (FromStart 9))] ++ Rd 4 ++ [LDChunk 4] ++ Tk 7 ++ Rd 3 ++
  [LDEof; LDSeekRes true; LDChunk 1] ++ Tk 6 ++ [LDSeek; LDSeekRes true; LDChunk 3] ++ Tk 2 ++
  [LOp (ORead 3)] ++ Rd 4.

Theorem C01_range_hypothesis_needed : exists c s,
  sane c /\ unbounded_store c /\ c_inv c = InvServeAll /\ c_rec c = RecRange /\
  reach c (forward_env c) s /\
  In (EvSeekRange 9 (Some 6)) (g_trace s) /\
  nth_error (g_trace s) 0 = Some (EvRead 9 3 false (Ok [x01; x02; x03])) /\
  ~ every_event (read_ok c) (g_trace s).
Proof.
  exists (mk_all (Some 12) true 0 4 (PPlain PlMem)). eexists.
  split; [split; [intros n E; injection E as <-; reflexivity|split; [reflexivity|cbn; lia]]|].
  split; [exact I|split; [reflexivity|split; [reflexivity|]]].
  split; [reach_tac (forward_env_b (mk_all (Some 12) true 0 4 (PPlain PlMem))) inverted_run|].
  split; [vm_compute; tauto|split; [reflexivity|]].
  intros H. pose proof (every_nth _ _ 0 _ H eq_refl) as [_ H']. apply faithful_whole in H'; [discriminate H'|reflexivity].
Qed.

(** ** C02: end of file is only reported at the end *)

Theorem C02_eof_only_at_end : forall c s,
  sane c -> unbounded_store c -> honours_ranges c ->
  reach c (forward_env c) s ->
  every_event (eof_ok c) (g_trace s).
Proof.
  intros c s H1 H2 H3 H4 newer e older E. apply read_ok_eof.
  exact (forward_reads c s H1 H2 H3 H4 newer e older E).
Qed.

(** A client that only reads has received a prefix of the resource, and the whole of it
    once it was told that the end is reached. *)
Theorem C02_read_to_end : forall c s,
  sane c -> unbounded_store c -> honours_ranges c ->
  reach c (both sequential_client (honest_env c)) s ->
  (exists k, delivered (g_trace s) = firstn k (c_content c)) /\
  (forall newer pos n waited older,
     g_trace s = newer ++ EvRead pos n waited (Ok []) :: older -> 0 < n ->
     delivered (g_trace s) = c_content c).
Proof. exact sequential_delivered. Qed.

Definition to_end_run : list label :=
  [LDChunk 12] ++ Tk 8 ++ [LOp (ORead 9)] ++ Rd 4 ++ [LOp (ORead 9)] ++ Rd 4 ++
  [LDEof] ++ Tk 2 ++ Rd 4 ++ [LOp (ORead 9)] ++ Rd 8.

Example C02_case :
  let c := mk None true 0 4 (PPlain PlMem) in
  exists s, sane c /\ unbounded_store c /\ honours_ranges c /\
    reach c (both sequential_client (honest_env c)) s /\
    nth_error (g_trace s) 0 = Some (EvRead 12 9 true (Ok [])) /\
    delivered (g_trace s) = c_content c.
Proof.
  cbv zeta. eexists. split; [apply mk_sane; auto; lia|split; [exact I|split; [apply mk_honours|]]].
  split; [reach_tac (both_b sequential_b (honest_env_b (mk None true 0 4 (PPlain PlMem)))) to_end_run|].
  vm_compute; auto.
Qed.

(** ** C03: bytes recorded as downloaded are the resource's bytes *)

Theorem C03_downloaded_is_correct : forall c s x,
  sane c -> unbounded_store c -> honours_ranges c ->
  reach c (no_empty_chunk_past_end c) s ->
  is_downloaded s x ->
  x < length (c_content c) /\ stored_byte s x = nth_error (c_content c) x.
Proof. exact downloaded_stored. Qed.

Example C03_case :
  let c := mk (Some 12) true 0 4 (PPlain PlMem) in
  exists s, sane c /\ unbounded_store c /\ honours_ranges c /\
    reach c (no_empty_chunk_past_end c) s /\
    is_downloaded s 1 /\ ~ is_downloaded s 4 /\ is_downloaded s 7 /\ stored_byte s 7 = Some x08.
Proof.
  cbv zeta. eexists. split; [apply mk_sane; auto; lia|split; [exact I|split; [apply mk_honours|]]].
  split; [reach_tac (past_end_b (mk (Some 12) true 0 4 (PPlain PlMem))) two_ranges_run|].
  split; [exists 0, 2; cbn; split; [auto|lia]|].
  split; [intros (a & b & H & Hx); cbn in H; destruct H as [H|[H|[]]]; inversion H; lia|].
  split; [exists 6, 8; cbn; split; [auto|lia]|reflexivity].
Qed.

(** ** C04: a read that does not have to wait is always correct *)

Theorem C04_immediate_reads_faithful : forall c s,
  sane c -> unbounded_store c -> honours_ranges c ->
  reach c (no_empty_chunk_past_end c) s ->
  every_event (fast_read_ok c) (g_trace s).
Proof. exact fast_reads. Qed.

(** Forward seek and back; the read after the backward seek is served at once. *)
Example C04_case :
  let c := mk (Some 12) true 0 4 (PPlain PlMem) in
  exists s, sane c /\ unbounded_store c /\ honours_ranges c /\
    reach c (no_empty_chunk_past_end c) s /\
    nth_error (g_trace s) 0 = Some (EvRead 0 2 false (Ok [x01; x02])) /\
    In (EvSeek (FromStart 0) (Ok 0)) (g_trace s) /\ In (EvSeek (FromStart 6) (Ok 6)) (g_trace s).
Proof.
  cbv zeta. eexists. split; [apply mk_sane; auto; lia|split; [exact I|split; [apply mk_honours|]]].
  split; [reach_tac (past_end_b (mk (Some 12) true 0 4 (PPlain PlMem)))
    (two_ranges_run ++ [LOp (OSeek (FromStart 0))] ++ Rd 3 ++ [LOp (ORead 2)] ++ Rd 4)|].
  vm_compute; tauto.
Qed.

(** ** C05: arbitrary seeking *)

(** Not a property of the code: after a fast backward seek, a read that has to wait is
    released by a write beyond the hole and returns bytes that were never downloaded. *)
Definition hole_run : list label :=
  two_ranges_run ++ [LOp (OSeek (FromStart 1))] ++ Rd 3 ++ [LOp (ORead 3)] ++ Rd 4 ++
  [LDChunk 1] ++ Tk 7 ++ Rd 4.

Theorem C05_refuted : exists c s,
  sane c /\ unbounded_store c /\ honours_ranges c /\ c_seekable c = true /\
  reach c (both no_empty_chunk no_truncation) s /\
  ~ every_event (read_ok c) (g_trace s) /\
  nth_error (g_trace s) 0 = Some (EvRead 1 3 true (Ok [x02; x00; x00])).
Proof.
  exists (mk (Some 12) true 0 4 (PPlain PlMem)). eexists.
  split; [apply mk_sane; auto; lia|split; [exact I|split; [apply mk_honours|split; [reflexivity|]]]].
  split; [reach_tac (both_b empty_b truncation_b) hole_run|].
  split; [|reflexivity].
  intros H. pose proof (every_nth _ _ 0 _ H eq_refl) as [_ H']. apply faithful_whole in H'; [discriminate H'|reflexivity].
Qed.

(** What holds: clients that do not go back behind their last jump (C97), reads that do not wait (C04), unseekable
    sources (C06), everything after completion (C09); together: *)
Theorem C05_partial : forall c s,
  sane c -> unbounded_store c -> honours_ranges c ->
  (reach c (roaming_env c) s \/ (c_seekable c = false /\ reach c (honest_env c) s) ->
     every_event (read_ok c) (g_trace s)) /\
  (reach c (no_empty_chunk_past_end c) s -> every_event (fast_read_ok c) (g_trace s)).
Proof.
  intros c s H1 H2 H3. split; [intros [H|[H4 H]]|intros H].
  - apply roaming_reads; auto.
  - apply unseekable_reads; auto.
  - apply fast_reads; auto.
Qed.

(** ** C06: unseekable sources tolerate any seek *)

Theorem C06_unseekable_reads_faithful : forall c s,
  sane c -> unbounded_store c -> honours_ranges c -> c_seekable c = false ->
  reach c (honest_env c) s ->
  every_event (read_ok c) (g_trace s).
Proof. exact unseekable_reads. Qed.

(** Seek ahead of the download, wait, read, seek back, read. *)
Definition unseekable_run : list label :=
  [LDChunk 2] ++ Tk 6 ++ [LOp (OSeek (FromStart 5))] ++ Rd 4 ++ [LDSeek; LDChunk 6] ++ Tk 8 ++
  Rd 3 ++ [LOp (ORead 2)] ++ Rd 4 ++ [LOp (OSeek (FromCurrent (-6)))] ++ Rd 3 ++
  [LOp (ORead 3)] ++ Rd 4.

Example C06_case :
  let c := mk None false 0 4 (PPlain PlMem) in
  exists s, sane c /\ unbounded_store c /\ honours_ranges c /\ c_seekable c = false /\
    reach c (honest_env c) s /\
    In (EvSeek (FromStart 5) (Ok 5)) (g_trace s) /\
    In (EvRead 5 2 false (Ok [x06; x07])) (g_trace s) /\
    In (EvRead 1 3 false (Ok [x02; x03; x04])) (g_trace s).
Proof.
  cbv zeta. eexists. split; [apply mk_sane; auto; lia|split; [exact I|split; [apply mk_honours|]]].
  split; [reflexivity|].
  split; [reach_tac (honest_env_b (mk None false 0 4 (PPlain PlMem))) unseekable_run|].
  vm_compute; tauto.
Qed.

(** ** C08: completion means everything was downloaded *)

Theorem C08_completion_means_everything : forall c s x,
  sane c -> unbounded_store c -> honours_ranges c ->
  c_seekable c = true -> c_clen c <> None ->
  reach c (no_empty_chunk_past_end c) s ->
  completed s -> x < length (c_content c) ->
  is_downloaded s x /\ stored_byte s x = nth_error (c_content c) x.
Proof. exact completed_stored. Qed.

(** [forward_run] completes after filling the hole left by its seek; this one after a
    body that ended early. *)
Definition early_end_run : list label :=
  [LDChunk 5] ++ Tk 7 ++ [LDEof; LDSeekRes true; LDChunk 7] ++ Tk 7 ++ [LDEof] ++ Tk 2.

Example C08_case :
  let c := mk (Some 12) true 0 4 (PPlain PlMem) in
  exists s, sane c /\ unbounded_store c /\ honours_ranges c /\ c_seekable c = true /\
    c_clen c <> None /\ reach c (no_empty_chunk_past_end c) s /\ completed s /\
    In (EvSeekRange 5 (Some 12)) (g_trace s).
Proof.
  cbv zeta. eexists. split; [apply mk_sane; auto; lia|split; [exact I|split; [apply mk_honours|]]].
  split; [reflexivity|split; [discriminate|]].
  split; [reach_tac (past_end_b (mk (Some 12) true 0 4 (PPlain PlMem))) early_end_run|].
  vm_compute; tauto.
Qed.

(** ** C09: after completion all calls are faithful *)

Theorem C09_after_completion_faithful : forall c s1 s2,
  sane c -> unbounded_store c -> honours_ranges c ->
  c_seekable c = true -> c_clen c <> None ->
  reach c (no_empty_chunk_past_end c) s1 ->
  completed s1 -> g_rpc s1 = RIdle ->
  steps c (both (no_empty_chunk_past_end c) storage_works) s1 s2 ->
  (exists newer, g_trace s2 = newer ++ g_trace s1 /\
     forall n e o, newer = n ++ e :: o -> served c (g_failed s2) (o ++ g_trace s1) e) /\
  ~ blocked c s2.
Proof. exact done_served. Qed.

Example C09_case :
  let c := mk (Some 12) true 0 4 (PPlain PlMem) in
  exists s1 s2, sane c /\ unbounded_store c /\ honours_ranges c /\ c_seekable c = true /\
    c_clen c <> None /\ reach c (no_empty_chunk_past_end c) s1 /\ completed s1 /\
    g_rpc s1 = RIdle /\ steps c (both (no_empty_chunk_past_end c) storage_works) s1 s2 /\
    In (EvRead 3 4 false (Ok [x04; x05; x06; x07])) (g_trace s2) /\
    g_failed s2 = false.
Proof.
  cbv zeta. eexists. eexists.
  split; [apply mk_sane; auto; lia|split; [exact I|split; [apply mk_honours|]]].
  split; [reflexivity|split; [discriminate|]].
  split; [reach_tac (past_end_b (mk (Some 12) true 0 4 (PPlain PlMem))) early_end_run|].
  split; [vm_compute; auto|split; [reflexivity|]].
  split; [eapply (run_b_steps _ (both_b (past_end_b (mk (Some 12) true 0 4 (PPlain PlMem))) works_b) _
            ltac:(decides_tac) ([LOp (OSeek (FromStart 3))] ++ Rd 3 ++ [LOp (ORead 4)] ++ Rd 4));
          [apply steps_refl|vm_compute; reflexivity]|].
  vm_compute; tauto.
Qed.

(** ** C11: seeking to downloaded data is served locally *)

(** The seek finishes after exactly three actions of its own thread, none of which can
    block or affect the download, however the other parties interleave. *)
Theorem C11_local_seek : forall c allow s from t ls s1 s2,
  unbounded_store c -> reach c allow s ->
  seek_target c (cursor (g_trace s)) from = Some t -> (0 <= t < two64)%Z ->
  is_downloaded s (clamp c t) ->
  step c s (LOp (OSeek from)) = Some s1 ->
  Forall during_call ls -> run c s1 ls = Some s2 -> g_failed s2 = false ->
  (reader_steps ls < 3 ->
     exists s3, step c s2 LRStep = Some s3 /\ task_view s3 = task_view s2) /\
  (reader_steps ls = 3 ->
     g_rpc s2 = RIdle /\
     exists newer older, g_trace s2 = newer ++ EvSeek from (Ok (clamp c t)) :: older ++ g_trace s).
Proof. exact local_seek. Qed.

Example C11_case :
  let c := mk (Some 12) true 0 4 (PPlain PlMem) in
  exists s s1 s2, unbounded_store c /\ reach c any s /\
    seek_target c (cursor (g_trace s)) (FromCurrent (-5)) = Some 1%Z /\
    is_downloaded s (clamp c 1) /\
    step c s (LOp (OSeek (FromCurrent (-5)))) = Some s1 /\
    run c s1 (LDChunk 1 :: LRStep :: Tk 3 ++ Rd 2) = Some s2 /\
    g_failed s2 = false.
Proof.
  cbv zeta. eexists. eexists. eexists. split; [exact I|].
  split; [reach_tac any_b two_ranges_run|].
  split; [reflexivity|split; [exists 0, 2; cbn; split; [auto|lia]|]].
  split; [reflexivity|split; [vm_compute; reflexivity|reflexivity]].
Qed.

(** ** C12: a successful seek moves to the requested position *)

(** A successful seek returns the clamped target; every read starts at the position the
    client expects, which a failed call does not change ([cursor]). *)
Theorem C12_seek_moves : forall c allow s,
  reach c allow s ->
  every_event (seek_result_ok c) (g_trace s) /\ every_event read_position_ok (g_trace s).
Proof.
  intros c allow s H. pose proof (traced_reach _ _ _ H) as T.
  split; apply all_events_every; apply T.
Qed.

Example C12_case :
  let c := mk (Some 12) true 2 4 (PBounded true PlMem 8) in
  exists s, reach c any s /\
    In (EvSeek (FromEnd 7) (Ok 12)) (g_trace s) /\ In (EvRead 12 4 true (Ok [])) (g_trace s) /\
    In (EvSeek (FromStart 30) (Err EInvalidInput)) (g_trace s).
Proof.
  cbv zeta. eexists.
  split; [reach_tac any_b
    ([LOp (OSeek (FromStart 30))] ++ Rd 1 ++ [LDChunk 5] ++ Tk 3 ++ [LOp (ORead 5)] ++ Rd 4 ++ [LDChunk 7] ++ Tk 7 ++ [LDEof] ++ Tk 2 ++
     [LOp (OSeek (FromEnd 7))] ++ Rd 7 ++ [LOp (ORead 4)] ++ Rd 8)|].
  vm_compute; tauto.
Qed.

Print Assumptions C01_forward_reads_faithful.
Print Assumptions C01_range_hypothesis_needed.
Print Assumptions C02_eof_only_at_end.
Print Assumptions C02_read_to_end.
Print Assumptions C03_downloaded_is_correct.
Print Assumptions C04_immediate_reads_faithful.
Print Assumptions C05_refuted.
Print Assumptions C05_partial.
Print Assumptions C06_unseekable_reads_faithful.
Print Assumptions C08_completion_means_everything.
Print Assumptions C09_after_completion_faithful.
Print Assumptions C11_local_seek.
Print Assumptions C12_seek_moves.

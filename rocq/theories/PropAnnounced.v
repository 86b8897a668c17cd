(** * PropAnnounced: C89, sources of which the announced length is wrong. *)

From Coq Require Import List Arith Lia ZArith Bool Strings.Byte.
From Verif Require Import Base ListFacts RangeSet Storage System Spec StepTac InvSync InvTrace
  InvCore ReadFacts LifeMore BoundedFacts StoreSpec BoundedInv BoundedContent Announced Exec.
Import ListNotations.

(** ** C89: a wrong announced length does not corrupt what is read *)

(** A source that cannot be repositioned, stored in a temporary file: whatever length was
    announced, whatever the client does, however often the source fails, reconnects or ends
    early, every byte read is the byte of the resource at its position. *)
Theorem C89_file : forall c s,
  c_seekable c = false -> 0 < c_batch c -> c_rec c = RecRange -> in_file c ->
  reach c any s -> every_event (genuine c) (g_trace s).
Proof.
  intros c s Hk Hb Hr Hf H.
  destruct (lin_reach false c any s) as [u K]; auto using in_file_unbounded; [discriminate|].
  apply all_events_every.
  eapply all_and; [|exact (tr_read _ _ (traced_reach _ _ _ H))|exact (l_trace _ _ _ _ K)].
  intros t e A B. destruct e as [pos n w r| | | | | | |]; cbn in *; auto. destruct r; auto.
  destruct B as (B1 & B2 & _). auto.
Qed.

(** In memory this needs an announced length that is not larger than the real one. *)
Theorem C89_memory_partial : forall c s,
  c_seekable c = false -> 0 < c_batch c -> c_rec c = RecRange -> unbounded_store c ->
  (forall N, c_clen c = Some N -> N <= length (c_content c)) ->
  reach c (no_silent_truncation c) s -> every_event (genuine c) (g_trace s).
Proof.
  intros c s Hk Hb Hr Hf HN H.
  destruct (lin_reach true c (no_silent_truncation c) s) as [u K]; auto.
  apply all_events_every.
  eapply all_and; [|exact (tr_read _ _ (traced_reach _ _ _ H))|exact (l_trace _ _ _ _ K)].
  intros t e A B. destruct e as [pos n w r| | | | | | |]; cbn in *; auto. destruct r; auto.
  destruct B as (B1 & B2 & _). split; [exact A|split; [exact B1|]]. apply B2. right. split; auto.
  unfold prealloc. destruct (c_clen c); [auto|lia].
Qed.

(** The end is reported only at the end, unless a smaller length was announced. *)
Theorem C89_end_partial : forall c s,
  c_seekable c = false -> 0 < c_batch c -> c_rec c = RecRange -> unbounded_store c ->
  (forall N, c_clen c = Some N -> length (c_content c) <= N) ->
  reach c (no_silent_truncation c) s -> every_event (eof_ok c) (g_trace s).
Proof.
  intros c s Hk Hb Hr Hf HN H.
  destruct (lin_reach true c (no_silent_truncation c) s) as [u K]; auto.
  apply all_events_every.
  eapply all_and; [|exact (l_trace _ _ _ _ K)|exact (l_trace _ _ _ _ K)].
  intros t e _ B. destruct e as [pos n w r| | | | | | |]; cbn in *; auto. destruct r; auto.
  destruct B as (_ & _ & B). destruct a; auto.
Qed.

(** Together, for a client that only reads: it receives the resource from its beginning,
    and all of it when the end is reported. *)
Lemma genuine_delivered : forall c tr, all_events (genuine c) tr ->
  Forall no_seek_event tr ->
  delivered tr = firstn (cursor tr) (c_content c).
Proof.
  intros c tr. induction tr as [|e tr IH]; intros H F; [reflexivity|].
  inversion F as [|? ? F1 F2]; subst. destruct H as [H1 H2]. specialize (IH H2 F2).
  destruct e as [pos n w r|from r| | | | | |]; cbn; auto.
  - destruct r as [bs| |]; auto. cbn in H1. destruct H1 as (E1 & E2 & E3). subst pos.
    rewrite IH. change (firstn (cursor tr + length bs) (c_content c))
      with (slice (c_content c) 0 (cursor tr + length bs)).
    rewrite slice_app. cbn. f_equal. exact E3.
  - contradiction.
Qed.

Theorem C89_sequential : forall c s,
  c_seekable c = false -> 0 < c_batch c -> c_rec c = RecRange -> in_file c ->
  (forall N, c_clen c = Some N -> length (c_content c) <= N) ->
  reach c (both sequential_client (no_silent_truncation c)) s ->
  (exists k, delivered (g_trace s) = firstn k (c_content c)) /\
  (forall newer pos n waited older, g_trace s = newer ++ EvRead pos n waited (Ok []) :: older ->
     0 < n -> delivered (g_trace s) = c_content c).
Proof.
  intros c s Hk Hb Hr Hf HN H.
  assert (H1 : every_event (genuine c) (g_trace s)).
  { apply C89_file; auto. eapply reach_weaken; [|exact H]. intros; exact I. }
  assert (H2 : every_event (eof_ok c) (g_trace s)).
  { apply C89_end_partial; auto using in_file_unbounded. eapply reach_weaken; [|exact H]. intros ? ? [_ A]; exact A. }
  destruct (sequential_inv c (both sequential_client (no_silent_truncation c)) s) as (_ & Hns & _);
    [intros s0 l [A _]; exact A|exact H|].
  pose proof (genuine_delivered c _ (every_all _ _ H1) Hns) as Hd.
  split; [eauto|]. intros newer pos n waited older E Hn.
  pose proof (H1 _ _ _ E) as (Hp & _ & _). pose proof (H2 _ _ _ E) as He. cbn in He.
  destruct He as [He|He]; [lia|].
  rewrite Hd. apply firstn_all2.
  assert (Hmono : cursor older <= cursor (g_trace s)).
  { rewrite E in *. clear - Hns. induction newer as [|e newer IH]; cbn in *.
    - lia.
    - inversion Hns; subst. specialize (IH H2). destruct e; auto; try contradiction.
      destruct r; cbn; auto; lia. }
  lia.
Qed.

(** In memory, with an announced length that is too large, the client reads zeros where
    the resource has ended: [MemoryStorage] allocates the announced length up front and
    reads up to the length of its vector (storage/memory.rs:36-38, 60-69). *)
Theorem C89_refuted : exists c s bs,
  c_seekable c = false /\ 0 < c_batch c /\ honours_ranges c /\ c_provider c = PPlain PlMem /\
  reach c (both sequential_client (both no_empty_chunk (no_silent_truncation c))) s /\
  completed s /\
  In (EvRead 8 8 true (Ok bs)) (g_trace s) /\ length bs = 8 /\
  length (c_content c) = 12 /\ skipn 4 bs = repeat x00 4 /\
  delivered (g_trace s) <> firstn (length (delivered (g_trace s))) (c_content c).
Proof.
  set (c := mk (Some 20) false 0 4 (PPlain PlMem)).
  exists c. eexists. exists [x09; x0a; x0b; x0c; x00; x00; x00; x00].
  split; [reflexivity|split; [cbn; lia|split; [apply mk_honours|split; [reflexivity|]]]].
  split; [reach_tac (both_b sequential_b (both_b empty_b (silent_b c)))
    ([LDChunk 12] ++ Tk 8 ++ [LOp (ORead 8)] ++ Rd 4 ++ [LOp (ORead 8)] ++ Rd 4 ++
     [LDEof] ++ Tk 2 ++ Rd 4)|].
  split; [split; reflexivity|]. split; [vm_compute; auto 20|].
  repeat (split; [reflexivity|]). vm_compute. discriminate.
Qed.

(** With an announced length that is too small the end may be reported early, although the
    source goes on and more of it may be read later. *)
Theorem C89_early_end_refuted : exists c s,
  c_seekable c = false /\ 0 < c_batch c /\ honours_ranges c /\ in_file c /\
  c_clen c = Some 4 /\ length (c_content c) = 12 /\
  reach c (both sequential_client (both no_empty_chunk (no_silent_truncation c))) s /\
  exists older, g_trace s = EvRead 4 4 false (Ok [x05; x06; x07; x08]) :: older /\
    In (EvRead 4 4 true (Ok [])) older.
Proof.
  set (c := mk (Some 4) false 0 4 (PPlain (PlTemp 8))).
  exists c. eexists.
  split; [reflexivity|split; [cbn; lia|split; [apply mk_honours|split; [left; exists 8; reflexivity|]]]].
  split; [reflexivity|split; [reflexivity|]].
  split; [reach_tac (both_b sequential_b (both_b empty_b (silent_b c)))
    ([LDChunk 4] ++ Tk 4 ++ [LOp (ORead 4)] ++ Rd 4 ++ [LOp (ORead 4)] ++ Rd 4 ++ Tk 3 ++ Rd 4 ++
     [LDChunk 4] ++ Tk 6 ++ [LOp (ORead 4)] ++ Rd 4)|].
  vm_compute. eexists. split; [reflexivity|]. do 3 right. left. reflexivity.
Qed.

(** ** Bounded storage *)

(** The buffer of bounded storage is as large as was asked for or as large as the announced
    length, whichever is smaller (storage/bounded.rs:51-77).  Whatever length was announced, and
    even if the source ends before its time, only bytes of the resource are read from it. *)
Theorem C89_bounded : forall c ck p n s,
  c_seekable c = false -> 0 < c_batch c -> c_rec c = RecRange -> c_provider c = PBounded ck p n ->
  reach c (both (local_client c) (both no_empty_chunk no_reconnect_with_leftover)) s ->
  every_event (genuine c) (g_trace s).
Proof. intros c ck p n s Hk Hb Hr Hp. apply (local_genuine c ck p n s Hp); auto. left. exact Hk. Qed.

(** Unless the announced length is too small, a read returns all it can, and a client that
    only reads receives the resource and is told of its end when it has got all of it. *)
Theorem C89_bounded_complete_partial : forall c ck p n s,
  c_seekable c = false -> 0 < c_batch c -> c_rec c = RecRange -> c_provider c = PBounded ck p n ->
  (forall N, c_clen c = Some N -> length (c_content c) <= N) ->
  reach c (bounded_env c) s ->
  every_event (read_ok c) (g_trace s) /\
  (exists k, delivered (g_trace s) = firstn k (c_content c)) /\
  (forall newer pos m waited older, g_trace s = newer ++ EvRead pos m waited (Ok []) :: older ->
     0 < m -> delivered (g_trace s) = c_content c).
Proof.
  intros c ck p n s Hk Hb Hr Hp HN H.
  destruct (local_content_any true c ck p n (bounded_env c) s Hp (or_introl Hk) Hb Hr) as (W & R & _ & _ & _ & K); auto.
  { intros s0 l [[A B] [C D]]. repeat split; auto. apply sequential_local; auto. }
  assert (Hev : every_event (read_ok c) (g_trace s)).
  { apply all_events_every. eapply all_impl; [|exact (br_trace _ _ _ _ K)].
    intros t e A. destruct e as [pos m w r| | | | | | |]; cbn in *; auto. destruct r; auto.
    destruct A as (A1 & _ & _ & A2). auto. }
  split; auto. apply seq_delivered; auto.
  edestruct (sequential_inv c (bounded_env c) s) as (_ & Hns & _); [|exact H|exact Hns].
  intros s0 l [[A _] _]; exact A.
Qed.

Lemma zero_nothing : forall c ck p n s,
  c_provider c = PBounded ck p n -> c_clen c = Some 0 -> c_seekable c = false ->
  0 < c_batch c -> c_rec c = RecRange -> reach c (bounded_env c) s ->
  exists R, bpos c (ring_size (c_clen c) n) s 0 R (skipped (g_trace s)) /\ local_pc c s /\ bcont true c s 0 /\ R = 0.
Proof.
  intros c ck p n s Hp Hz Hk Hb Hr H.
  assert (Z : ring_size (c_clen c) n = 0) by (rewrite Hz; unfold ring_size; lia).
  induction H as [s H|s l s' Hre (R & I1 & IL & I2 & IR) Hl H].
  - assert (Hi : reach c (bounded_env c) s) by (apply reach_init; auto).
    destruct (local_content_any true c ck p n (bounded_env c) s Hp (or_introl Hk) Hb Hr) as (W & R & A & B & C & _); auto.
    { intros s0 l [[K1 K2] [K3 K4]]. repeat split; auto. apply sequential_local; auto. }
    pose proof (bpos_init c ck p n s Hp H) as P.
    assert (W = 0).
    { rewrite <- (bst_wpos _ _ _ _ _ (bp_store _ _ _ _ _ _ A)). apply (bst_wpos _ _ _ _ _ (bp_store _ _ _ _ _ _ P)). }
    assert (R = 0).
    { rewrite <- (bst_rpos _ _ _ _ _ (bp_store _ _ _ _ _ _ A)). apply (bst_rpos _ _ _ _ _ (bp_store _ _ _ _ _ _ P)). }
    subst. exists 0. auto.
  - subst R. destruct Hl as [[L1 L2] [L3 L4]].
    pose proof (sync_reach _ _ _ Hre) as Hsy. pose proof (traced_reach _ _ _ Hre) as Htr.
    destruct (task_label l) eqn:Et.
    + destruct (bpos_task c ck p n s 0 0 _ l s' Hp Hb I1 L2 Et H) as (W' & [_ HW] & K & _).
      rewrite Z in HW. assert (W' = 0) by lia. subst W'.
      exists 0. rewrite (proj2 (task_views _ _ _ _ Et H)). split; [exact K|].
      split; [eapply local_pc_task; eauto|split; auto].
      exact (bcont_task true c ck p n s 0 0 _ l s' 0 Hp (or_introl Hk) Hr I1 K Hsy I2 (fun _ => L3) L4 Et H).
    + destruct (bpos_reader c ck p n s 0 0 l s' Hp I1 (sequential_local _ _ _ L1) IL Et (tr_at _ _ Htr) H) as (R' & K & K' & _).
      exists R'. split; [exact K|split; [exact K'|split]].
      * exact (bcont_reader true c ck p n s 0 0 l s' Hp I1 IL I2 (sequential_local _ _ _ L1) Et H).
      * pose proof (bst_le _ _ _ _ _ (bp_store _ _ _ _ _ _ K)). lia.
Qed.

(** With an announced length of zero that is wrong, the buffer has no room at all: nothing is
    ever stored, no read returns a byte, and the download does not complete. *)
Theorem C89_bounded_zero : forall c ck p n s,
  c_seekable c = false -> 0 < c_batch c -> c_rec c = RecRange -> c_provider c = PBounded ck p n ->
  c_clen c = Some 0 -> c_content c <> [] ->
  reach c (bounded_env c) s ->
  delivered (g_trace s) = [] /\ st_wpos (g_store s) = 0 /\ ~ completed s.
Proof.
  intros c ck p n s Hk Hb Hr Hp Hz Hc H.
  destruct (zero_nothing c ck p n s Hp Hz Hk Hb Hr H) as (R & A & B & C & ->).
  pose proof (bp_store _ _ _ _ _ _ A) as A1.
  split; [|split; [apply (bst_wpos _ _ _ _ _ A1)|]].
  - destruct (sequential_inv c (bounded_env c) s) as (N1 & Hns & _); [intros s0 l [[K _] _]; exact K|exact H|].
    rewrite (genuine_delivered c (g_trace s)); auto.
    + replace (cursor (g_trace s)) with 0; [reflexivity|].
      pose proof (tr_at _ _ (traced_reach _ _ _ H)) as T. rewrite (bst_rpos _ _ _ _ _ A1) in T.
      unfold reader_at in T. destruct (g_rpc s); cbn in N1, T; try contradiction; lia.
    + apply every_all. apply (C89_bounded c ck p n); auto.
      eapply reach_weaken; [|exact H]. intros s0 l [[K1 K2] [K3 K4]]. split; [apply sequential_local; auto|split; auto].
  - intros [D1 D2]. destruct (bc_done _ _ _ _ C D1) as [E|E]; [congruence|]. specialize (E eq_refl).
    destruct (c_content c); [congruence|discriminate].
Qed.


(** Lengths announced too large and too small; reads that return something, a body that
    ends early and a reconnect. *)
Example C89_file_case : let c := mk (Some 20) false 3 4 (PPlain (PlTemp 8)) in
  c_seekable c = false /\ 0 < c_batch c /\ c_rec c = RecRange /\ in_file c /\
  exists s, reach c any s /\
    In (EvRead 0 8 true (Ok [x01; x02; x03; x04; x05; x06; x07; x08])) (g_trace s) /\
    In (EvRead 8 8 true (Ok [])) (g_trace s).
Proof.
  cbv zeta. split; [reflexivity|split; [cbn; lia|split; [reflexivity|split; [left; exists 8; reflexivity|]]]].
  eexists. split.
  - reach_tac any_b ([LDChunk 5] ++ Tk 3 ++ [LDTimeout RcOk; LDChunk 3] ++ [LOp (ORead 8)] ++ Rd 4 ++ Tk 7 ++
      Rd 4 ++ [LDEof] ++ [LOp (ORead 8)] ++ Rd 4 ++ Tk 1 ++ Rd 4).
  - vm_compute. split; repeat (first [left; reflexivity|right]).
Qed.

Example C89_memory_case : let c := mk (Some 5) false 0 4 (PPlain PlMem) in
  c_seekable c = false /\ 0 < c_batch c /\ c_rec c = RecRange /\ unbounded_store c /\
  (forall N, c_clen c = Some N -> N <= length (c_content c)) /\
  exists s, reach c (no_silent_truncation c) s /\
    In (EvRead 0 8 false (Ok [x01; x02; x03; x04; x05; x06])) (g_trace s).
Proof.
  cbv zeta. split; [reflexivity|split; [cbn; lia|split; [reflexivity|split; [exact I|]]]].
  split; [intros N [= <-]; cbn; lia|].
  eexists. split.
  - reach_tac (silent_b (mk (Some 5) false 0 4 (PPlain PlMem))) ([LDChunk 6] ++ Tk 7 ++ [LOp (ORead 8)] ++ Rd 4).
  - vm_compute. repeat (first [left; reflexivity|right]).
Qed.

Example C89_end_case : let c := mk (Some 20) false 0 4 (PPlain (PlTemp 8)) in
  c_seekable c = false /\ 0 < c_batch c /\ c_rec c = RecRange /\ in_file c /\
  (forall N, c_clen c = Some N -> length (c_content c) <= N) /\
  exists s, reach c (both sequential_client (no_silent_truncation c)) s /\
    In (EvRead 12 8 true (Ok [])) (g_trace s).
Proof.
  cbv zeta. split; [reflexivity|split; [cbn; lia|split; [reflexivity|split; [left; exists 8; reflexivity|]]]].
  split; [intros N [= <-]; cbn; lia|].
  eexists. split.
  - reach_tac (both_b sequential_b (silent_b (mk (Some 20) false 0 4 (PPlain (PlTemp 8)))))
      ([LDChunk 12] ++ Tk 8 ++ [LOp (ORead 12)] ++ Rd 4 ++ [LOp (ORead 8)] ++ Rd 4 ++
     [LDEof] ++ Tk 1 ++ Rd 4).
  - vm_compute. repeat (first [left; reflexivity|right]).
Qed.

(** A buffer of eight that becomes one of three, and is gone through more than once. *)
Example C89_bounded_case : let c := mk (Some 3) false 0 4 (PBounded true PlMem 8) in
  c_seekable c = false /\ 0 < c_batch c /\ c_rec c = RecRange /\ length (c_content c) = 12 /\
  exists s, reach c (both (local_client c) (both no_empty_chunk no_reconnect_with_leftover)) s /\
    In (EvRead 0 2 false (Ok [x01; x02])) (g_trace s) /\
    In (EvRead 2 3 false (Ok [x03])) (g_trace s) /\
    In (EvRead 3 3 false (Ok [x04; x05; x06])) (g_trace s).
Proof.
  cbv zeta. split; [reflexivity|split; [cbn; lia|split; [reflexivity|split; [reflexivity|]]]].
  eexists. split.
  - reach_tac (both_b (local_b (mk (Some 3) false 0 4 (PBounded true PlMem 8))) (both_b empty_b leftover_b))
      ([LDChunk 8] ++ Tk 9 ++ [LOp (ORead 2)] ++ Rd 4 ++ [LOp (ORead 3)] ++ Rd 4 ++ Tk 9 ++ [LOp (ORead 3)] ++ Rd 4).
  - vm_compute. repeat split; repeat (first [left; reflexivity|right]).
Qed.

Example C89_bounded_complete_case : let c := mk (Some 20) false 0 4 (PBounded true PlMem 4) in
  c_seekable c = false /\ 0 < c_batch c /\ c_rec c = RecRange /\
  (forall N, c_clen c = Some N -> length (c_content c) <= N) /\
  exists s, reach c (bounded_env c) s /\ delivered (g_trace s) = demo /\ completed s /\
    In (EvRead 12 4 true (Ok [])) (g_trace s).
Proof.
  cbv zeta. split; [reflexivity|split; [cbn; lia|split; [reflexivity|]]].
  split; [intros N [= <-]; cbn; lia|].
  eexists. split.
  - reach_tac (bounded_env_b (mk (Some 20) false 0 4 (PBounded true PlMem 4)))
      ([LDChunk 12] ++ Tk 9 ++ [LOp (ORead 4)] ++ Rd 4 ++ Tk 9 ++ [LOp (ORead 4)] ++ Rd 4 ++ Tk 8 ++
       [LOp (ORead 4)] ++ Rd 4 ++ [LOp (ORead 4)] ++ Rd 4 ++ [LDEof] ++ Tk 2 ++ Rd 4).
  - vm_compute. split; [reflexivity|split; [split; reflexivity|repeat (first [left; reflexivity|right])]].
Qed.

Example C89_bounded_zero_case : let c := mk (Some 0) false 0 4 (PBounded true PlMem 4) in
  c_seekable c = false /\ 0 < c_batch c /\ c_rec c = RecRange /\ c_clen c = Some 0 /\ c_content c <> [] /\
  exists s, reach c (bounded_env c) s /\ In (EvWrite 4 0) (g_trace s) /\
    exists waited, In (EvRead 0 4 waited (Err EInvalidInput)) (g_trace s).
Proof.
  cbv zeta. split; [reflexivity|split; [cbn; lia|split; [reflexivity|split; [reflexivity|split; [discriminate|]]]]].
  eexists. split.
  - reach_tac (bounded_env_b (mk (Some 0) false 0 4 (PBounded true PlMem 4)))
      ([LDChunk 4] ++ Tk 4 ++ [LOp (ORead 4)] ++ Rd 4 ++ Tk 6 ++ Rd 4).
  - vm_compute. split; [repeat (first [left; reflexivity|right])|].
    eexists. repeat (first [left; reflexivity|right]).
Qed.

Print Assumptions C89_file.
Print Assumptions C89_bounded.
Print Assumptions C89_bounded_complete_partial.
Print Assumptions C89_bounded_zero.
Print Assumptions C89_memory_partial.
Print Assumptions C89_end_partial.
Print Assumptions C89_sequential.
Print Assumptions C89_refuted.
Print Assumptions C89_early_end_refuted.

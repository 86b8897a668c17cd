(** * Clients that go back and forth (C97). *)

From Coq Require Import List Arith Lia ZArith Bool.
From Verif Require Import Base RangeSet Storage StorageFacts System Spec StepTac InvTrace InvCore InvFront ReadFacts Exec PropReads.
Import ListNotations.

(** ** C97: a client may go back and forth between jumps *)

(** Reads and end of file, for a client that never goes back behind the place it last
    jumped to. *)
Theorem C97_reads_faithful : forall c s,
  sane c -> unbounded_store c -> honours_ranges c -> reach c (roaming_env c) s ->
  every_event (read_ok c) (g_trace s) /\ every_event (eof_ok c) (g_trace s).
Proof. intros c s H1 H2 H3 H4. split; [apply roaming_reads|apply roaming_eof]; auto. Qed.

(** Everything it has read since is still there. *)
Theorem C97_stretch_stored : forall c s x,
  sane c -> unbounded_store c -> honours_ranges c -> reach c (roaming_env c) s ->
  fst (stretch (g_trace s)) <= x < snd (stretch (g_trace s)) ->
  x < length (c_content c) /\ stored_byte s x = nth_error (c_content c) x.
Proof.
  intros c s x H1 H2 H3 H Hx.
  destruct (front_reach true c (roaming_env c) s H1 H2 H3) as (W & u & K1 & K2); auto; [discriminate| |].
  { intros s0 l (A1 & A2 & A3). split; [exact A2|split; [exact A3|auto]]. }
  pose proof (fr_span _ _ _ _ K2 x Hx) as Hin. apply proj1 in K1.
  unfold stored_byte. rewrite (co_store _ _ _ _ K1). apply (ui_data _ _ _ (co_inv _ _ _ _ K1)); auto.
Qed.

(** Such clients include those that never seek backwards and those that never leave what
    they have read. *)
Theorem C97_who : forall c s from,
  (forall l, forward_client c s l -> roaming_client c s l) /\
  (seek_arg_ok from ->
   (forall t, seek_target c (cursor (g_trace s)) from = Some t ->
      (Z.of_nat (fst (stretch (g_trace s))) <= t <= Z.of_nat (snd (stretch (g_trace s))))%Z /\ (t < two64)%Z) ->
   roaming_client c s (LOp (OSeek from))).
Proof.
  intros c s from. split; [intros l; apply forward_roams|].
  intros H1 H2. split; [exact H1|]. intros t Ht. destruct (H2 t Ht). lia.
Qed.

(** Read, back to the start, read on past the place read before, forward within what was
    read, a jump, and back to the place jumped to; the last read has to wait. *)
Definition roaming_run : list label :=
  [LDChunk 4] ++ Tk 6 ++ [LOp (ORead 3)] ++ Rd 4 ++ [LOp (OSeek (FromStart 0))] ++ Rd 3 ++
  [LOp (ORead 4)] ++ Rd 4 ++ [LOp (OSeek (FromCurrent (-2)))] ++ Rd 3 ++ [LOp (OSeek (FromStart 7))] ++ Rd 4 ++
  [LDSeek; LDSeekRes true; LDChunk 1] ++ Tk 2 ++ [LDChunk 1] ++ Tk 7 ++ Rd 3 ++ [LOp (ORead 2)] ++ Rd 4 ++
  [LOp (OSeek (FromCurrent (-1)))] ++ Rd 3 ++ [LOp (ORead 3)] ++ Rd 4 ++ [LDChunk 3] ++ Tk 7 ++ Rd 4.

Example C97_case :
  let c := mk (Some 12) true 0 4 (PPlain PlMem) in
  sane c /\ unbounded_store c /\ honours_ranges c /\
  exists s, reach c (roaming_env c) s /\ stretch (g_trace s) = (7, 11) /\
    In (EvSeek (FromCurrent (-2)) (Ok 2)) (g_trace s) /\
    In (EvRead 0 4 false (Ok [x01; x02; x03; x04])) (g_trace s) /\
    In (EvSeek (FromCurrent (-1)) (Ok 8)) (g_trace s) /\
    nth_error (g_trace s) 0 = Some (EvRead 8 3 true (Ok [x09; x0a; x0b])).
Proof.
  cbv zeta. split; [apply mk_sane; auto; lia|split; [exact I|split; [apply mk_honours|]]].
  eexists. split; [reach_tac (roaming_env_b (mk (Some 12) true 0 4 (PPlain PlMem))) roaming_run|].
  vm_compute. repeat (split; [tauto|]). reflexivity.
Qed.

(** The restriction is needed: a client that has behaved like this goes back once behind the
    place it last jumped to, and its next read returns bytes that were never downloaded. *)
Theorem C97_behind_needed : exists c s s' ls,
  sane c /\ unbounded_store c /\ honours_ranges c /\
  reach c (roaming_env c) s /\ fst (stretch (g_trace s)) = 6 /\
  run c s (LOp (OSeek (FromStart 1)) :: ls) = Some s' /\
  (forall from, ~ In (LOp (OSeek from)) ls) /\ reach c (honest_env c) s' /\
  nth_error (g_trace s') 0 = Some (EvRead 1 3 true (Ok [x02; x00; x00])) /\
  ~ every_event (read_ok c) (g_trace s').
Proof.
  exists (mk (Some 12) true 0 4 (PPlain PlMem)). eexists. eexists.
  exists (Rd 3 ++ [LOp (ORead 3)] ++ Rd 4 ++ [LDChunk 1] ++ Tk 7 ++ Rd 4).
  split; [apply mk_sane; auto; lia|split; [exact I|split; [apply mk_honours|]]].
  split; [reach_tac (roaming_env_b (mk (Some 12) true 0 4 (PPlain PlMem))) two_ranges_run|].
  split; [reflexivity|]. split; [vm_compute; reflexivity|].
  split; [intros from Hi; vm_compute in Hi; intuition discriminate|].
  split; [reach_tac (honest_env_b (mk (Some 12) true 0 4 (PPlain PlMem))) hole_run|].
  split; [reflexivity|].
  intros H. pose proof (every_nth _ _ 0 _ H eq_refl) as [_ H']. apply faithful_whole in H'; [discriminate H'|reflexivity].
Qed.

Print Assumptions C97_reads_faithful.
Print Assumptions C97_stretch_stored.
Print Assumptions C97_who.
Print Assumptions C97_behind_needed.

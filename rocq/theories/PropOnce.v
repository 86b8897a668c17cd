(** * How much is downloaded (C71, C56). *)

From Coq Require Import List Arith Lia ZArith Bool.
From Verif Require Import Base RangeSet Storage System Spec InvSync InvTrace InvCore LifeFacts
  DoneFacts ReadFacts RequestFacts LifeMore OnceFacts Exec PropReads PropLife.
Import ListNotations.

(** ** C71: no byte is downloaded twice *)

(** For any history of reads and seeks. *)
Theorem C71_nothing_twice : forall c s,
  sane c -> unbounded_store c -> honours_ranges c ->
  (c_seekable c = false \/ c_clen c <> None) ->
  reach c (both (no_empty_chunk_past_end c) reconnect_at_front) s ->
  accepted_total (g_trace s) <= length (c_content c).
Proof.
  intros c s Hs Hu Hh Hk H.
  destruct (once_reach c _ s Hs Hu Hh Hk (fun s l K => proj1 K) (fun s l K => proj2 K) H) as [W K].
  eapply once_bound; eauto.
Qed.

(** When the download of a seekable source of known length has completed, every byte
    was stored exactly once. *)
Theorem C71_exactly_once : forall c s,
  sane c -> unbounded_store c -> honours_ranges c ->
  c_seekable c = true -> c_clen c <> None ->
  reach c (both (no_empty_chunk_past_end c) reconnect_at_front) s -> completed s ->
  accepted_total (g_trace s) = length (c_content c).
Proof.
  intros c s Hs Hu Hh Hk Hn H Hc.
  destruct (once_reach c _ s Hs Hu Hh (or_intror Hn) (fun s l K => proj1 K) (fun s l K => proj2 K) H)
    as [W K].
  pose proof (once_bound _ _ _ K) as L1.
  assert (L2 : length (c_content c) <= length W).
  { rewrite <- (seq_length (length (c_content c)) 0). apply NoDup_incl_length; [apply seq_NoDup|].
    intros x Hx. apply in_seq in Hx. apply (on_cov _ _ _ K).
    apply (completed_stored c s x Hs Hu Hh Hk Hn); auto; [|lia].
    eapply reach_weaken; [|exact H]. intros s0 l [A _]; exact A. }
  rewrite (on_count _ _ _ K) in L2. lia.
Qed.

(** A client that only reads needs no condition on reconnects. *)
Theorem C71_sequential : forall c s,
  sane c -> unbounded_store c -> honours_ranges c ->
  (c_seekable c = false \/ c_clen c <> None) ->
  reach c (both sequential_client (no_empty_chunk_past_end c)) s ->
  accepted_total (g_trace s) <= length (c_content c).
Proof.
  intros c s Hs Hu Hh Hk H.
  assert (K : reach c (both (no_empty_chunk_past_end c) reconnect_at_front) s).
  { assert (St : straight c (both sequential_client (no_empty_chunk_past_end c)))
      by (right; intros ? ? [A _]; exact A).
    induction H as [s H|s l s' Hr IH [Hl1 Hl2] H]; [constructor; auto|].
    econstructor; [exact IH| |exact H]. split; [exact Hl2|].
    intros _ x Hx. apply (straight_front c _ s Hu St Hr). exact Hx. }
  apply (C71_nothing_twice c s); auto.
Qed.

Definition front_b : gstate -> label -> bool :=
  fun s l => match l with
  | LDTimeout RcOk => forallb (fun r => (snd r <=? fst r) || (snd r <=? st_wpos (g_store s))) (g_down s)
  | _ => true
  end.

Lemma front_decides : decides front_b reconnect_at_front.
Proof.
  intros s l H -> x (a & b & Hi & Hx). cbn in H. rewrite forallb_forall in H.
  specialize (H _ Hi). apply orb_true_iff in H as [H|H]; apply Nat.leb_le in H; cbn in H; lia.
Qed.

(** Seeks forwards, backwards and into a hole, an early end of a body, a reconnect at the
    front; the download completes. *)
Definition scattered_run : list label :=
  [LDChunk 2] ++ Tk 6 ++ [LDTimeout RcOk; LOp (OSeek (FromStart 6))] ++ Rd 4 ++
  [LDSeek; LDSeekRes true; LDChunk 1] ++ Tk 2 ++ [LDChunk 1] ++ Tk 7 ++ Rd 3 ++
  [LOp (OSeek (FromStart 4))] ++ Rd 4 ++ [LDSeek; LDSeekRes true; LDChunk 1] ++ Tk 2 ++
  [LDChunk 1] ++ Tk 7 ++ Rd 3 ++
  [LDEof; LDSeekRes true; LDChunk 1] ++ Tk 6 ++ [LDEof; LDSeekRes true; LDChunk 1] ++ Tk 6 ++
  [LDEof; LDSeekRes true; LDChunk 4] ++ Tk 6 ++ [LDEof] ++ Tk 2.

Example C71_case :
  let c := mk (Some 12) true 0 4 (PPlain PlMem) in
  sane c /\ unbounded_store c /\ honours_ranges c /\ c_seekable c = true /\ c_clen c <> None /\
  exists s, reach c (both (no_empty_chunk_past_end c) reconnect_at_front) s /\ completed s /\
    In (EvSeekRange 4 (Some 6)) (g_trace s) /\ In (EvSeekRange 3 (Some 4)) (g_trace s) /\
    In (EvSeekRange 8 (Some 12)) (g_trace s).
Proof.
  cbv zeta. split; [apply mk_sane; auto; lia|].
  split; [exact I|split; [apply mk_honours|]].
  split; [reflexivity|split; [discriminate|]]. eexists.
  split; [eapply (exec_b_reach _ (both_b (past_end_b (mk (Some 12) true 0 4 (PPlain PlMem))) front_b)
            _ scattered_run);
          [apply both_decides; [apply past_end_decides|apply front_decides]|vm_compute; reflexivity]|].
  vm_compute; tauto.
Qed.

(** The length must be known: a request without an end covers what is already there. *)
Theorem C71_known_length_needed :
  let c := mk None true 0 4 (PPlain PlMem) in
  exists s, reach c (both (no_empty_chunk_past_end c) reconnect_at_front) s /\
    length (c_content c) < accepted_total (g_trace s).
Proof.
  cbv zeta. eexists.
  split; [eapply (exec_b_reach _ (both_b (past_end_b (mk None true 0 4 (PPlain PlMem))) front_b)
            _ (two_ranges_run ++ [LOp (OSeek (FromStart 3))] ++ Rd 4 ++
               [LDSeek; LDSeekRes true; LDChunk 4] ++ Tk 2 ++ [LDChunk 5] ++ Tk 8));
          [apply both_decides; [apply past_end_decides|apply front_decides]|vm_compute; reflexivity]|].
  vm_compute; lia.
Qed.

(** So does a reconnect inside a hole. *)
Theorem C71_reconnect_condition_needed :
  let c := mk (Some 12) true 0 4 (PPlain PlMem) in
  exists s, reach c (no_empty_chunk_past_end c) s /\
    length (c_content c) < accepted_total (g_trace s).
Proof.
  cbv zeta. eexists.
  split; [reach_tac (past_end_b (mk (Some 12) true 0 4 (PPlain PlMem)))
    (two_ranges_run ++ [LDChunk 4] ++ Tk 6 ++ [LDEof; LDSeekRes true; LDTimeout RcOk; LDChunk 8] ++ Tk 7)|].
  vm_compute; lia.
Qed.

(** ** C56: with a known length, every range request asks for missing data only *)

(** Each request has an end, inside the resource, and no byte before it is there yet.
    ([a < e] fails for the inverted requests of C10.) *)
Theorem C56_known_length : forall c allow s l s' a b n,
  c_clen c = Some n -> reach c allow s -> step c s l = Some s' ->
  g_trace s' = EvSeekRange a b :: g_trace s ->
  exists e, b = Some e /\ e <= n /\ forall x, a <= x < e -> ~ is_downloaded s x.
Proof.
  intros c allow s l s' a b n Hn Hr H Ht.
  pose proof (rg_trace _ _ (ranged_step c n s l s' Hn (ranged_reach c n allow s Hn Hr) H)) as K.
  rewrite Ht in K. apply Forall_inv in K. destruct K as [_ (e & -> & K1)].
  exists e. split; [reflexivity|split; [lia|]].
  intros x Hx. apply (fresh_request c allow s l s' a e x Hr H Ht Hx).
Qed.

Print Assumptions C71_nothing_twice.
Print Assumptions C71_exactly_once.
Print Assumptions C71_sequential.
Print Assumptions C71_known_length_needed.
Print Assumptions C71_reconnect_condition_needed.
Print Assumptions C56_known_length.

(** * After completion: everything is stored and every call is served from it. *)

From Coq Require Import List Arith Lia ZArith Bool.
From Verif Require Import Base ListFacts RangeSet RangeSetFacts Storage StorageFacts
  System Spec StepTac InvSync InvTrace InvCore Exec.
Import ListNotations.

Lemma completed_succeeded : forall s, sync s -> completed s -> succeeded s.
Proof.
  intros s Hsy [H1 H2]. pose proof (sy_done _ Hsy H1) as Hf. unfold succeeded.
  destruct (g_dpc s); cbn in Hf; try discriminate; auto. destruct ok; auto; discriminate.
Qed.

Lemma completed_stored : forall c s x,
  sane c -> unbounded_store c -> honours_ranges c -> c_seekable c = true -> c_clen c <> None ->
  reach c (no_empty_chunk_past_end c) s -> completed s -> x < length (c_content c) ->
  is_downloaded s x /\ stored_byte s x = nth_error (c_content c) x.
Proof.
  intros c s x Hs Hu Hh Hk Hc H Hd Hx.
  destruct (core_reach c _ s Hs Hu Hh (fun s0 l A => A) H) as (W & u & K & _).
  pose proof (completed_succeeded _ (sync_reach _ _ _ H) Hd) as Hsucc.
  pose proof (co_full _ _ _ _ K Hk Hc Hsucc x (conj (Nat.le_0_l x) Hx)) as Hcov.
  split.
  - destruct Hcov as (a & b & Hi & Hb). exists a, b; auto.
  - apply (co_down _ _ _ _ K) in Hcov. unfold stored_byte. rewrite (co_store _ _ _ _ K).
    apply (ui_data _ _ _ (co_inv _ _ _ _ K)); auto.
Qed.

(** Invariant of the executions that follow completion; [base] is the trace at that
    point. *)
Record after_done (c : cfg) (base : list event) (s : gstate) : Prop := mkAfter
  { ad_done : g_done s = true;
    ad_covers : covers (g_down s) 0 (length (c_content c));
    ad_read : match g_rpc s with
              | RRDone n pos _ r => exists bs, r = Ok bs /\ faithful c pos n bs
              | _ => True
              end;
    ad_trace : exists newer, g_trace s = newer ++ base /\
               forall n e o, newer = n ++ e :: o -> served c (g_failed s) (o ++ base) e }.

Definition plain_event (e : event) : Prop :=
  match e with EvRead _ _ _ _ | EvSeek _ _ => False | _ => True end.

Lemma served_mono : forall c (f f' : bool) older e, (f = true -> f' = true) ->
  served c f older e -> served c f' older e.
Proof.
  intros c f f' older e H. destruct e; cbn; auto.
  - intros [A [B|[B1 B2]]]; auto.
  - intros [[A|[A1 A2]] B]; auto.
Qed.

Lemma trace_extend : forall c base tr tr' (f f' : bool) e, (f = true -> f' = true) ->
  tr' = e :: tr -> served c f' tr e ->
  (exists newer, tr = newer ++ base /\
     forall n e o, newer = n ++ e :: o -> served c f (o ++ base) e) ->
  exists newer, tr' = newer ++ base /\
     forall n e o, newer = n ++ e :: o -> served c f' (o ++ base) e.
Proof.
  intros c base tr tr' f f' e Hf -> He (newer & -> & H). exists (e :: newer). split; [reflexivity|].
  intros [|x n] e' o E; cbn in E; injection E as <- E.
  - subst o. auto.
  - eapply served_mono; [exact Hf|eauto].
Qed.

Lemma trace_keep : forall c base tr (f f' : bool), (f = true -> f' = true) ->
  (exists newer, tr = newer ++ base /\
     forall n e o, newer = n ++ e :: o -> served c f (o ++ base) e) ->
  exists newer, tr = newer ++ base /\
     forall n e o, newer = n ++ e :: o -> served c f' (o ++ base) e.
Proof.
  intros c base tr f f' Hf (newer & -> & H). exists newer. split; [reflexivity|].
  intros n e o E. eapply served_mono; eauto.
Qed.

Lemma full_read : forall c W u n r u', u_inv (c_content c) W u -> buf_empty u ->
  length (u_data u) <= length (c_content c) -> good W 0 (length (c_content c)) ->
  u_rpos u <= length (c_content c) -> (short_reads (c_provider c) = false -> u_whole u) ->
  u_read n u = (r, u') -> exists bs, r = Ok bs /\ faithful c (u_rpos u) n bs.
Proof.
  intros c W u n r u' Hi Hb Hl Hg Hr Hw H.
  assert (Hlen : length (u_data u) = length (c_content c)).
  { destruct (length (c_content c)) as [|m] eqn:E; [lia|].
    destruct (ui_data _ _ _ Hi m (Hg m ltac:(lia))) as [_ A].
    assert (m < length (u_data u)); [|lia].
    apply nth_error_Some. rewrite A. apply nth_error_Some. lia. }
  destruct r as [bs|e|].
  - exists bs. split; auto. eapply read_faithful; eauto. intros x Hx Hx'. apply Hg. lia.
  - exfalso. eapply u_read_not_err; eauto.
  - exfalso. destruct u as [m|f]; cbn in *.
    + unfold mem_read in H. destruct (Nat.ltb_spec (length (m_vec m)) (m_rpos m)); [lia|discriminate].
    + unfold file_read in H. destruct (f_buf f); [destruct (_ <=? _)|]; discriminate.
Qed.

Lemma after_step : forall c base s l s' W u, sane c -> unbounded_store c ->
  c_clen c <> None ->
  sync s -> traced c s -> traced c s' -> coreW c s W u -> after_done c base s ->
  storage_works s l -> step c s l = Some s' -> after_done c base s'.
Proof.
  intros c base s l s' W u Hs Hub Hcl Hsy Ht Ht' [HT HR] [D1 D2 D3 D4] Hw H.
  pose proof (sy_done _ Hsy D1) as Hfin.
  pose proof (tr_read _ _ Ht') as Tr. pose proof (tr_seeks _ _ Ht') as Ts.
  pose proof (tr_at _ _ Ht) as Ta. pose proof (co_read _ _ _ _ HR) as Hrd.
  pose proof (co_rpos _ _ _ _ HR) as Hrp. unfold reader_ok in Hrd.
  assert (Hg : good W 0 (length (c_content c))) by (intros x Hx; apply (co_down _ _ _ _ HT); auto).
  assert (Hrl : u_rpos u <= length (c_content c)).
  { destruct (c_clen c) as [m|] eqn:E; [|congruence]. rewrite <- (proj1 Hs m); auto. }
  assert (Hcap : max_capacity (c_provider c) = None).
  { unfold unbounded_store in Hub. destruct (c_provider c); auto; contradiction. }
  pose proof (co_store _ _ _ _ HT) as Es.
  assert (Hread : forall n r st, buf_empty u -> st_read n (g_store s) = (r, st) ->
            exists bs, r = Ok bs /\ faithful c (st_rpos (g_store s)) n bs).
  { intros n r st Hb Hx. pose proof (tr_whole _ _ Ht) as Hwh. rewrite Es in *. cbn in *.
    destruct (u_read n u) as [r1 u1] eqn:E1.
    injection Hx as <- _. eapply full_read; eauto; apply HT. }
  step_cases H; try contradiction Hw; constructor; gsimpl; rewrite ?D1 in *;
    repeat match goal with
    | E : g_dpc _ = _ |- _ => rewrite E in *; clear E
    | E : g_rpc _ = _ |- _ => rewrite E in *; clear E
    end; cbn [is_final] in *; try discriminate; auto;
    try (eapply trace_extend; [| reflexivity | | exact D4]; [auto; discriminate|exact I]);
    try (eapply trace_keep; [|exact D4]; auto; discriminate).
  all: try (eapply trace_extend; [| reflexivity | | exact D4]; [solve [auto; congruence]|]; cbn [served]).
  all: cbn [all_events read_position_ok] in Tr; cbn [all_events] in Ts;
    try (destruct Tr as [Tr _]); try (destruct Ts as [Ts _]).
  - split; [auto|]. right. eauto.
  - exfalso. unfold excessive_read in *. rewrite Hcap in *. discriminate.
  - split; [auto|]. right. eauto.
  - exists a. split; [auto|]. destruct Hrd as [Hb _]. destruct Ta as [_ Ta].
    destruct (Hread _ _ _ Hb Heqp) as (bs & [= <-] & Hf). rewrite Ta in Hf. exact Hf.
  - exfalso. destruct Hrd as [Hb _]. destruct (Hread _ _ _ Hb Heqp) as (bs & Hf & _). discriminate.
  - exfalso. destruct Hrd as [Hb _]. destruct (Hread _ _ _ Hb Heqp) as (bs & Hf & _). discriminate.
  - split; auto.
  - split; auto.
  - split; [right; eauto|exact I].
  - exfalso. unfold excessive_seek in *. rewrite Hcap in *. discriminate.
  - exfalso. destruct from; cbn in *; try discriminate. destruct (c_clen c); [discriminate|congruence].
  - exfalso. destruct from; cbn in *; try discriminate. destruct (c_clen c); discriminate.
  - split; [right; eauto|exact I].
  - split; [|exact Ts]. left. rewrite Es in Heqp0. cbn in Heqp0. injection Heqp0 as <- _. eauto.
Qed.

Lemma done_served : forall c s1 s2,
  sane c -> unbounded_store c -> honours_ranges c -> c_seekable c = true -> c_clen c <> None ->
  reach c (no_empty_chunk_past_end c) s1 -> completed s1 -> g_rpc s1 = RIdle ->
  steps c (both (no_empty_chunk_past_end c) storage_works) s1 s2 ->
  (exists newer, g_trace s2 = newer ++ g_trace s1 /\
     forall n e o, newer = n ++ e :: o -> served c (g_failed s2) (o ++ g_trace s1) e) /\
  ~ blocked c s2.
Proof.
  intros c s1 s2 Hs Hu Hh Hk Hc Hr Hd Hi Hst.
  assert (K : after_done c (g_trace s1) s2).
  { induction Hst as [s|s s1' l s2 Hst IH Hl H].
    - destruct (core_reach c _ s Hs Hu Hh (fun s0 l A => A) Hr) as (W & u & K & _).
      constructor.
      + apply Hd.
      + apply (co_full _ _ _ _ K Hk Hc). apply completed_succeeded; auto.
        eapply sync_reach; eauto.
      + rewrite Hi. exact I.
      + exists []. split; [reflexivity|]. intros [|? ?] ? ? E; discriminate.
    - specialize (IH Hr Hd Hi).
      assert (Hr1 : reach c (no_empty_chunk_past_end c) s1') by (eapply reach_steps; [exact Hr|]; eapply steps_weaken; [|exact Hst]; intros ? ? [? _]; auto).
      destruct (core_reach c _ s1' Hs Hu Hh (fun s0 l A => A) Hr1) as (W & u & K).
      apply (after_step c (g_trace s) s1' l s2 W u); auto; try apply Hl.
      + eapply sync_reach; eauto.
      + eapply traced_reach; eauto.
      + eapply traced_step; [|eauto]. eapply traced_reach; eauto. }
  split; [apply K|]. intros [B1 B2]. pose proof (ad_done _ _ _ K) as D.
  unfold in_call in B1. cbn [step] in B2. unfold r_step in B2. rewrite D in B2.
  destruct (g_rpc s2); try contradiction; try discriminate B2;
    repeat (split_match B2; try discriminate B2).
Qed.

(** * PropAbort: C84, what a client sees when the download task dies. *)

From Coq Require Import List Arith Lia ZArith Bool Strings.Byte.
From Verif Require Import Base RangeSet Storage System Spec Abort StepTac Exec ReadFacts PropReads LifeMore BoundedContent.
Import ListNotations.

(** ** A dead task is one that is never scheduled again *)

Lemma same_intro : forall s t,
  g_store s = g_store t -> g_down s = g_down t -> g_failed s = g_failed t -> g_req s = g_req t ->
  g_reached s = g_reached t -> g_done s = g_done t -> g_permit s = g_permit t -> g_again s = g_again t ->
  g_wreq s = g_wreq t -> g_cancel s = g_cancel t -> g_pfc s = g_pfc t -> g_pfs s = g_pfs t ->
  g_rem s = g_rem t -> g_scur s = g_scur t -> g_send s = g_send t -> g_rpc s = g_rpc t ->
  g_trace s = g_trace t -> same s t.
Proof.
  intros [] []; cbn; intros; subst. eexists _, _. reflexivity.
Qed.

Lemma dead_task : forall c s l s', g_dpc s = DPanic -> step c s l = Some s' ->
  task_label l = false /\ g_dpc s' = DPanic.
Proof.
  intros c s l s' Hd H. destruct l; cbn [task_label]; cbn [step] in H;
    try (rewrite ?Hd in H; discriminate H).
  - unfold d_step in H. rewrite Hd in H. discriminate.
  - split; [reflexivity|]. unfold r_step in H.
    repeat (split_match H; try discriminate H); injection H as <-; gsimpl; auto.
  - split; [reflexivity|]. unfold r_error in H.
    repeat (split_match H; try discriminate H); injection H as <-; gsimpl; auto.
  - split; [reflexivity|]. destruct (g_rpc s); try discriminate H; injection H as <-; auto.
  - split; [reflexivity|]. injection H as <-; auto.
  - split; [reflexivity|]. destruct (g_rpc s); try discriminate H; injection H as <-; gsimpl.
    destruct (c_cancel_on_drop c); auto.
Qed.

Lemma same_step : forall c s t l s', same s t -> task_label l = false -> step c s l = Some s' ->
  exists t', step c t l = Some t' /\ same s' t'.
Proof.
  intros c s t l s' [d [ch ->]] Hl H. destruct t. cbn in H |- *.
  destruct l; try discriminate Hl; cbn [step] in *.
  - unfold r_step in *; cbn in *.
    repeat (split_match H; try discriminate H); injection H as <-;
      try (eexists; split; [reflexivity|eexists _, _; reflexivity]);
      cbn; destruct g_chan; try destruct (chan_open g_dpc);
      (eexists; split; [reflexivity|eexists _, _; reflexivity]).
  - unfold r_error in *; cbn in *.
    repeat (split_match H; try discriminate H); injection H as <-;
      (eexists; split; [reflexivity|eexists _, _; reflexivity]).
  - destruct g_rpc; try discriminate H; injection H as <-;
      (eexists; split; [reflexivity|eexists _, _; reflexivity]).
  - injection H as <-; (eexists; split; [reflexivity|eexists _, _; reflexivity]).
  - destruct g_rpc; try discriminate H; injection H as <-;
      (eexists; split; [reflexivity|]); destruct (c_cancel_on_drop c); eexists _, _; reflexivity.
Qed.

Lemma same_sym : forall s t, same s t -> same t s.
Proof.
  intros s t [d [ch ->]]. destruct t. eexists _, _. reflexivity.
Qed.

Lemma same_fields : forall s t, same s t ->
  g_trace s = g_trace t /\ g_store s = g_store t /\ g_down s = g_down t /\ g_failed s = g_failed t /\
  g_rpc s = g_rpc t /\ g_done s = g_done t /\ g_reached s = g_reached t /\ g_cancel s = g_cancel t.
Proof. intros s t [d [ch ->]]. repeat split; reflexivity. Qed.

Lemma mortal_dead : forall c allow s, mortal c allow true s -> g_dpc s = DPanic.
Proof.
  intros c allow s H. remember true as b eqn:Eb. induction H; try discriminate.
  - apply (dead_task c s l s'); auto.
  - unfold die in H0. destruct (unfinished (g_dpc s)); [|discriminate]. injection H0 as <-. reflexivity.
Qed.

Lemma mortal_reach : forall c allow dead s, client_side allow -> mortal c allow dead s ->
  exists t, reach c allow t /\ same s t /\ (dead = false -> t = s).
Proof.
  intros c allow dead s Hc H. induction H as [s Hi|dead s l s' Hm IH Ha Hs|s s' Hm IH Hd].
  - exists s. split; [apply reach_init; auto|]. split; [|auto]. destruct s. eexists _, _. reflexivity.
  - destruct IH as (t & Ht & Hst & He). destruct dead.
    + assert (D := mortal_dead c allow s Hm). destruct (dead_task c s l s' D Hs) as [Hl _].
      destruct (same_step c s t l s' Hst Hl Hs) as (t' & Ht' & Hst').
      exists t'. split; [|split; [exact Hst'|discriminate]].
      eapply reach_step; [exact Ht| |exact Ht']. apply (Hc s t l); auto.
    + rewrite (He eq_refl) in *. exists s'. split; [eapply reach_step; eauto|].
      split; [|auto]. destruct s'. eexists _, _. reflexivity.
  - destruct IH as (t & Ht & Hst & He). rewrite (He eq_refl) in *. exists s. split; auto.
    split; [|discriminate]. unfold die in Hd. destruct (unfinished (g_dpc s)); [|discriminate].
    injection Hd as <-. exists DPanic, (g_chan s). destruct s. reflexivity.
Qed.

(** For a client a dead task looks like one that is never scheduled again: the same calls
    return the same results from a state of an ordinary execution. *)
Theorem C84_like_silence : forall c allow dead s,
  client_side allow -> mortal c allow dead s ->
  exists t, reach c allow t /\ same s t.
Proof.
  intros c allow dead s Hc H. destruct (mortal_reach c allow dead s Hc H) as (t & A & B & _). eauto.
Qed.

Lemma roaming_side : forall c, client_side (roaming_env c).
Proof.
  intros c s t l H Hl [A [B C]]. destruct (same_fields s t H) as (Et & _ & _ & _ & Er & _).
  split; [|split].
  - destruct l; try discriminate Hl; cbn [roaming_client] in *; rewrite <- ?Et, <- ?Er; exact A.
  - destruct l; try discriminate Hl; exact I.
  - destruct l; try discriminate Hl; exact I.
Qed.
Lemma past_end_side : forall c, client_side (no_empty_chunk_past_end c).
Proof. intros c s t l H Hl A. destruct l; try discriminate Hl; exact I. Qed.
Lemma honest_side : forall c, client_side (honest_env c).
Proof. intros c s t l H Hl A. destruct l; try discriminate Hl; split; exact I. Qed.
Lemma bounded_side : forall c, client_side (bounded_env c).
Proof.
  intros c s t l H Hl [[A B] [C D]].
  destruct l; try discriminate Hl; (split; split; try exact I); exact A.
Qed.

(** ** What still holds *)

(** Whenever the task dies, the reads of a client that never goes back behind the place it
    last jumped to return the bytes of the resource, and so do reads of any client that do not have to wait. *)
Theorem C84_reads_faithful : forall c dead s,
  sane c -> unbounded_store c -> honours_ranges c ->
  (mortal c (roaming_env c) dead s -> every_event (read_ok c) (g_trace s)) /\
  (mortal c (no_empty_chunk_past_end c) dead s -> every_event (fast_read_ok c) (g_trace s)).
Proof.
  intros c dead s H1 H2 H3. split; intros H.
  - destruct (mortal_reach _ _ _ _ (roaming_side c) H) as (t & Ht & Hst & _).
    destruct (same_fields s t Hst) as (Et & _). rewrite Et. apply roaming_reads; auto.
  - destruct (mortal_reach _ _ _ _ (past_end_side c) H) as (t & Ht & Hst & _).
    destruct (same_fields s t Hst) as (Et & _). rewrite Et. apply C04_immediate_reads_faithful; auto.
Qed.

(** The same through bounded storage, for a client that only reads; it has received a
    prefix of the resource. *)
Theorem C84_bounded_faithful : forall c ck p n dead s,
  c_provider c = PBounded ck p n -> sane c -> c_rec c = RecRange ->
  mortal c (bounded_env c) dead s ->
  every_event (read_ok c) (g_trace s) /\
  exists k, delivered (g_trace s) = firstn k (c_content c).
Proof.
  intros c ck p n dead s Hp Hs Hr H.
  destruct (mortal_reach _ _ _ _ (bounded_side c) H) as (t & Ht & Hst & _).
  destruct (same_fields s t Hst) as (Et & _). rewrite Et.
  destruct (bounded_reads c ck p n t Hp Hs Hr Ht) as (A & B & _). auto.
Qed.

Lemma reader_quiet : forall c s s', step c s LRStep = Some s' ->
  (g_rpc s' <> RIdle -> g_trace s' = g_trace s) /\
  length (g_trace s') <= S (length (g_trace s)).
Proof.
  intros c s s' H. cbn [step] in H. unfold r_step in H.
  repeat (split_match H; try discriminate H); injection H as <-; gsimpl; cbn;
    repeat match goal with |- context [if ?b then _ else _] => destruct b end; gsimpl; cbn;
    (split; [try congruence; try reflexivity|lia]).
Qed.

Lemma steps_not_idle : forall c s s', step c s LRStep = Some s' -> g_rpc s <> RIdle.
Proof. intros c s s' H E. cbn [step] in H. unfold r_step in H. rewrite E in H. discriminate. Qed.

(** What had been downloaded when the task died is still served: a read of available data
    returns it after four actions of its own. *)
Theorem C84_local_read : forall c s n,
  sane c -> unbounded_store c -> honours_ranges c ->
  mortal c (no_empty_chunk_past_end c) true s -> g_rpc s = RIdle -> g_failed s = false ->
  is_downloaded s (cursor (g_trace s)) ->
  (forall x, cursor (g_trace s) <= x < cursor (g_trace s) + n ->
     (forall cl, c_clen c = Some cl -> x < cl) -> is_downloaded s x) ->
  exists s' bs, run c s (LOp (ORead n) :: repeat LRStep 4) = Some s' /\
    g_rpc s' = RIdle /\ faithful c (cursor (g_trace s)) n bs /\
    g_trace s' = EvRead (cursor (g_trace s)) n false (Ok bs) :: g_trace s.
Proof.
  intros c s n H1 H2 H3 Hm Hi Hf Hd Hx.
  assert (D := mortal_dead _ _ _ Hm).
  destruct (mortal_reach _ _ _ _ (past_end_side c) Hm) as (t & Ht & Hst & _).
  destruct (same_fields s t Hst) as (Et & _ & Ed & Ef & Er & _).
  set (s1 := set_rpc s (RRCheck n)).
  assert (S1 : step c s (LOp (ORead n)) = Some s1) by (cbn [step]; rewrite Hi; reflexivity).
  destruct (same_step c s t (LOp (ORead n)) _ Hst eq_refl S1) as (t1 & T1 & Hst1).
  unfold is_downloaded in Hd, Hx. rewrite Et, Ed in Hd. rewrite Et, Ed in Hx.
  assert (Hloc : forall ls t2, Forall during_call ls ->
    allowed c (no_empty_chunk_past_end c) t1 ls -> run c t1 ls = Some t2 -> g_failed t2 = false ->
    (reader_steps ls < 4 -> exists s3, step c t2 LRStep = Some s3) /\
    (reader_steps ls = 4 -> g_rpc t2 = RIdle /\
       exists newer older bs, faithful c (cursor (g_trace t)) n bs /\
         g_trace t2 = newer ++ EvRead (cursor (g_trace t)) n false (Ok bs) :: older ++ g_trace t)).
  { intros ls t2. intros. eapply (LifeMore.local_read c t n ls t1 t2); eauto. }
  assert (Fstep : forall u u', step c u LRStep = Some u' -> g_failed u' = g_failed u).
  { intros u u' H. cbn [step] in H. unfold r_step in H.
    repeat (split_match H; try discriminate H); injection H as <-; gsimpl; auto;
      repeat match goal with |- context [if ?b then _ else _] => destruct b end; gsimpl; auto. }
  assert (Hf1 : g_failed t1 = false).
  { destruct (same_fields _ _ Hst1) as (_ & _ & _ & E & _). rewrite <- E. exact Hf. }
  destruct (Hloc [] t1 ltac:(constructor) I eq_refl Hf1) as [A1 _].
  destruct (A1 ltac:(cbn; lia)) as [t2 S2].
  assert (Hf2 : g_failed t2 = false) by (rewrite (Fstep _ _ S2); auto).
  destruct (Hloc [LRStep] t2 ltac:(repeat constructor)
    ltac:(cbn [allowed]; rewrite S2; repeat split) ltac:(cbn [run]; rewrite S2; auto) Hf2) as [A2 _].
  destruct (A2 ltac:(cbn; lia)) as [t3 S3].
  assert (Hf3 : g_failed t3 = false) by (rewrite (Fstep _ _ S3); auto).
  destruct (Hloc [LRStep; LRStep] t3 ltac:(repeat constructor)
    ltac:(cbn [allowed]; rewrite S2, S3; repeat split) ltac:(cbn [run]; rewrite S2, S3; auto) Hf3) as [A3 _].
  destruct (A3 ltac:(cbn; lia)) as [t4 S4].
  assert (Hf4 : g_failed t4 = false) by (rewrite (Fstep _ _ S4); auto).
  destruct (Hloc [LRStep; LRStep; LRStep] t4 ltac:(repeat constructor)
    ltac:(cbn [allowed]; rewrite S2, S3, S4; repeat split) ltac:(cbn [run]; rewrite S2, S3, S4; auto) Hf4) as [A4 _].
  destruct (A4 ltac:(cbn; lia)) as [t5 S5].
  assert (Hf5 : g_failed t5 = false) by (rewrite (Fstep _ _ S5); auto).
  destruct (Hloc [LRStep; LRStep; LRStep; LRStep] t5 ltac:(repeat constructor)
    ltac:(cbn [allowed]; rewrite S2, S3, S4, S5; repeat split)
    ltac:(cbn [run]; rewrite S2, S3, S4, S5; auto) Hf5) as [_ A5].
  destruct (A5 eq_refl) as (Hidle & newer & older & bs & Hbs & Htr).
  destruct (reader_quiet _ _ _ S2) as [Q2 _]. destruct (reader_quiet _ _ _ S3) as [Q3 _].
  destruct (reader_quiet _ _ _ S4) as [Q4 _]. destruct (reader_quiet _ _ _ S5) as [_ Q5].
  specialize (Q2 (steps_not_idle _ _ _ S3)). specialize (Q3 (steps_not_idle _ _ _ S4)).
  specialize (Q4 (steps_not_idle _ _ _ S5)).
  assert (Q1 : g_trace t1 = g_trace t).
  { destruct (same_fields _ _ Hst1) as (E & _). rewrite <- E, <- Et. reflexivity. }
  rewrite Q4, Q3, Q2, Q1, Htr, !app_length in Q5. cbn in Q5. rewrite app_length in Q5.
  destruct newer; [|cbn in Q5; lia]. destruct older; [|cbn in Q5; lia].
  destruct (same_step c t1 s1 LRStep _ (same_sym _ _ Hst1) eq_refl S2) as (s2 & U2 & V2).
  destruct (same_step c t2 s2 LRStep _ V2 eq_refl S3) as (s3 & U3 & V3).
  destruct (same_step c t3 s3 LRStep _ V3 eq_refl S4) as (s4 & U4 & V4).
  destruct (same_step c t4 s4 LRStep _ V4 eq_refl S5) as (s5 & U5 & V5).
  exists s5, bs. destruct (same_fields _ _ V5) as (Et5 & _ & _ & _ & Er5 & _).
  rewrite Et. split; [|split; [|split; [exact Hbs|]]].
  - cbn [run repeat]. rewrite S1, U2, U3, U4, U5. reflexivity.
  - rewrite <- Er5. exact Hidle.
  - rewrite <- Et5, Htr. reflexivity.
Qed.

(** ** What does not *)

Lemma dead_blocked : forall c s l s', g_dpc s = DPanic -> blocked c s -> step c s l = Some s' ->
  g_dpc s' = DPanic /\ blocked c s' /\ g_trace s' = g_trace s /\
  (l = LUserCancel \/ g_cancel s' = g_cancel s).
Proof.
  intros c s l s' D [Hi Hb] H. destruct (dead_task c s l s' D H) as [Hl D'].
  split; [exact D'|].
  destruct l; try discriminate Hl.
  - rewrite Hb in H. discriminate.
  - exfalso. cbn [step] in H, Hb. unfold r_step in Hb. unfold r_error in H.
    unfold in_call in Hi. destruct (g_rpc s); try contradiction; try discriminate H;
      repeat (split_match Hb; try discriminate Hb).
  - exfalso. cbn [step] in H. unfold in_call in Hi. destruct (g_rpc s); try contradiction; discriminate H.
  - cbn [step] in H. injection H as <-. split; [|split; [reflexivity|auto]].
    split; [exact Hi|]. cbn [step] in *. unfold r_step in *. gsimpl.
    destruct (g_rpc s); try exact Hb;
      repeat (split_match Hb; try discriminate Hb); try discriminate Hb; auto.
  - exfalso. cbn [step] in H. unfold in_call in Hi. destruct (g_rpc s); try contradiction; discriminate H.
Qed.

(** A call that waits when the task is dead waits for ever: in no continuation does it
    return, not even after a cancellation. *)
Theorem C84_waits_forever : forall c allow s s',
  mortal c allow true s -> blocked c s -> steps c any s s' ->
  blocked c s' /\ g_trace s' = g_trace s.
Proof.
  intros c allow s s' Hm Hb Hs. assert (D := mortal_dead _ _ _ Hm).
  assert (K : g_dpc s' = DPanic /\ blocked c s' /\ g_trace s' = g_trace s); [|tauto].
  clear Hm. induction Hs as [s|s s1 l s2 H1 IH Ha H2]; [auto|].
  destruct (IH Hb D) as (D1 & B1 & T1).
  destruct (dead_blocked c s1 l s2 D1 B1 H2) as (D2 & B2 & T2 & _). rewrite T2, T1. auto.
Qed.

(** Waiting for completion does not return either, unless somebody cancels: the token is
    cancelled by the task itself at its end, which it does not reach. *)
Theorem C84_completion_never : forall c allow s s',
  mortal c allow true s -> ~ wait_returns s -> steps c nobody_cancels s s' ->
  ~ wait_returns s'.
Proof.
  intros c allow s s' Hm Hw Hs. assert (D := mortal_dead _ _ _ Hm). clear Hm.
  assert (K : g_dpc s' = DPanic /\ ~ wait_returns s'); [|tauto].
  induction Hs as [s|s s1 l s2 H1 IH Ha H2]; [auto|].
  destruct (IH Hw D) as (D1 & W1). destruct (dead_task c s1 l s2 D1 H2) as [Hl D2].
  split; [exact D2|]. unfold wait_returns in *.
  assert (E : g_cancel s2 = g_cancel s1); [|rewrite E; exact W1].
  destruct l; try discriminate Hl; try contradiction Ha; cbn [step] in H2.
  - unfold r_step in H2. repeat (split_match H2; try discriminate H2); injection H2 as <-; gsimpl; auto;
      repeat match goal with |- context [if ?b then _ else _] => destruct b end; gsimpl; auto.
  - unfold r_error in H2. repeat (split_match H2; try discriminate H2); injection H2 as <-; gsimpl; auto.
  - destruct (g_rpc s1); try discriminate H2; injection H2 as <-; auto.
Qed.

Lemma mortal_of_reach : forall c allow s, reach c allow s -> mortal c allow false s.
Proof. intros c allow s H. induction H; [apply mortal_init; auto|eapply mortal_step; eauto]. Qed.

Lemma mortal_run : forall c allow dead ls s s', mortal c allow dead s -> allowed c allow s ls ->
  run c s ls = Some s' -> mortal c allow dead s'.
Proof.
  intros c allow dead. induction ls as [|l ls IH]; intros s s' Hm Ha H; cbn in *.
  - injection H as <-. exact Hm.
  - destruct Ha as [A1 A2]. destruct (step c s l) as [s1|] eqn:E; [|discriminate].
    apply (IH s1); auto. eapply mortal_step; eauto.
Qed.

Lemma run_any : forall c ls s s', run c s ls = Some s' -> allowed c any s ls.
Proof.
  intros c. induction ls as [|l ls IH]; intros s s' H; cbn in *; [exact I|].
  destruct (step c s l) eqn:E; [|discriminate]. split; [exact I|eauto].
Qed.

(** A schedule, the death of the task, and another schedule. *)
Definition dies_between (c : cfg) (before after : list label) : option gstate :=
  match exec c before with
  | Some s => match die s with Some s' => run c s' after | None => None end
  | None => None
  end.

Lemma dies_between_mortal : forall c before after s, dies_between c before after = Some s ->
  mortal c any true s.
Proof.
  unfold dies_between. intros c before after s H.
  destruct (exec c before) as [s1|] eqn:E; [|discriminate].
  destruct (die s1) as [s2|] eqn:E2; [|discriminate].
  eapply mortal_run; [|eapply run_any; exact H|exact H].
  eapply mortal_die; [|exact E2]. apply mortal_of_reach. eapply exec_any. exact E.
Qed.

(** Calls do not always return when the task dies.  The progress callback panics after
    three bytes: a read of four waits for ever, with an error-free transport and storage,
    and a seek that was waiting when it happened does too; neither is told of a failure. *)
Theorem C84_returns_refuted : exists c s1 s2,
  sane c /\ unbounded_store c /\ honours_ranges c /\
  (mortal c any true s1 /\ blocked c s1 /\ g_failed s1 = false /\
   exists n pos rq, g_rpc s1 = RRWait n pos rq) /\
  (mortal c any true s2 /\ blocked c s2 /\ g_failed s2 = false /\
   exists from p, g_rpc s2 = RSWait from p) /\
  (forall s', steps c any s1 s' -> blocked c s' /\ g_trace s' = g_trace s1) /\
  (forall s', steps c any s2 s' -> blocked c s' /\ g_trace s' = g_trace s2).
Proof.
  set (c := mk (Some 12) true 0 4 (PPlain PlMem)).
  assert (E1 : exists s, dies_between c ([LDChunk 3] ++ Tk 6) ([LOp (ORead 4)] ++ Rd 4) = Some s /\
    blocked c s /\ g_failed s = false /\ exists n pos rq, g_rpc s = RRWait n pos rq).
  { eexists. split; [vm_compute; reflexivity|]. split; [split; [exact I|reflexivity]|].
    split; [reflexivity|]. repeat eexists. }
  assert (E2 : exists s, dies_between c ([LOp (OSeek (FromStart 6))] ++ Rd 4 ++ [LDChunk 3] ++ Tk 6) [] = Some s /\
    blocked c s /\ g_failed s = false /\ exists from p, g_rpc s = RSWait from p).
  { eexists. split; [vm_compute; reflexivity|]. split; [split; [exact I|reflexivity]|].
    split; [reflexivity|]. repeat eexists. }
  destruct E1 as (s1 & E1 & B1 & F1 & P1). destruct E2 as (s2 & E2 & B2 & F2 & P2).
  apply dies_between_mortal in E1. apply dies_between_mortal in E2.
  exists c, s1, s2.
  split; [apply mk_sane; auto; lia|split; [exact I|split; [apply mk_honours|]]].
  split; [auto|split; [auto|]].
  split; intros s' Hs.
  - exact (C84_waits_forever _ _ _ s' E1 B1 Hs).
  - exact (C84_waits_forever _ _ _ s' E2 B2 Hs).
Qed.

(** What the other theorems are about: the task dies in the middle of a write; the client,
    which has read two bytes, reads the third, and is then at the end of what is there. *)
Example C84_case :
  let c := mk (Some 12) true 0 4 (PPlain PlMem) in
  sane c /\ unbounded_store c /\ honours_ranges c /\
  exists s, mortal c (roaming_env c) true s /\ g_rpc s = RIdle /\ g_failed s = false /\
    ~ wait_returns s /\ cursor (g_trace s) = 2 /\ is_downloaded s 2 /\ ~ is_downloaded s 3 /\
    stored_byte s 5 = Some x06 /\
    exists s', run c s (LOp (ORead 1) :: repeat LRStep 4) = Some s' /\
      mortal c (roaming_env c) true s' /\
      nth_error (g_trace s') 0 = Some (EvRead 2 1 false (Ok [x03])).
Proof.
  cbv zeta. split; [apply mk_sane; auto; lia|split; [exact I|split; [apply mk_honours|]]].
  set (c := mk (Some 12) true 0 4 (PPlain PlMem)).
  assert (E : exists s, reach c (roaming_env c) s /\ exists s1, die s = Some s1 /\
    g_rpc s1 = RIdle /\ g_failed s1 = false /\ g_cancel s1 = false /\ cursor (g_trace s1) = 2 /\
    g_down s1 = [(0, 3)] /\ stored_byte s1 5 = Some x06 /\
    exists s', run c s1 (LOp (ORead 1) :: repeat LRStep 4) = Some s' /\
      nth_error (g_trace s') 0 = Some (EvRead 2 1 false (Ok [x03]))).
  { eexists. split.
    - reach_tac (roaming_env_b c) ([LDChunk 3] ++ Tk 6 ++ [LOp (ORead 2)] ++ Rd 4 ++ [LDChunk 5] ++ Tk 2).
    - eexists. split; [vm_compute; reflexivity|]. repeat (split; [vm_compute; reflexivity|]).
      eexists. split; vm_compute; reflexivity. }
  destruct E as (s & Hr & s1 & Hd & A1 & A2 & A3 & A4 & A5 & A6 & s' & A7 & A8).
  assert (M : mortal c (roaming_env c) true s1).
  { eapply mortal_die; [apply mortal_of_reach; exact Hr|exact Hd]. }
  exists s1. split; [exact M|]. split; [exact A1|split; [exact A2|]].
  split; [unfold wait_returns; congruence|]. split; [exact A4|].
  unfold is_downloaded. rewrite A5.
  split; [exists 0, 3; split; [left; reflexivity|lia]|].
  split; [intros (a & b & [E|[]] & L); injection E as <- <-; lia|].
  split; [exact A6|]. exists s'. split; [exact A7|split; [|exact A8]].
  eapply mortal_run; [exact M| |exact A7].
  assert (P : forall ls u u', Forall (fun l => l = LRStep) ls -> run c u ls = Some u' ->
    allowed c (roaming_env c) u ls).
  { induction ls as [|l ls IH]; intros u u' F H; cbn in *; [exact I|].
    inversion F; subst. destruct (step c u LRStep) eqn:E; [|discriminate].
    split; [repeat split|eauto]. }
  cbn [allowed]. split; [repeat split|].
  cbn [run] in A7. destruct (step c s1 (LOp (ORead 1))) as [s2|] eqn:E; [|discriminate].
  eapply P; [|exact A7]. repeat constructor.
Qed.

(** Through bounded storage of four bytes: the task dies while it waits for room. *)
Example C84_case_bounded :
  let c := mk None false 0 4 (PBounded true PlMem 4) in
  sane c /\ c_rec c = RecRange /\
  exists s, mortal c (bounded_env c) true s /\ delivered (g_trace s) = [x01; x02; x03].
Proof.
  cbv zeta. split; [apply mk_sane; [auto|lia]|split; [reflexivity|]].
  set (c := mk None false 0 4 (PBounded true PlMem 4)).
  assert (E : exists s, reach c (bounded_env c) s /\ exists s1, die s = Some s1 /\
    delivered (g_trace s1) = [x01; x02; x03] /\ waits_for_room s).
  { eexists. split.
    - reach_tac (bounded_env_b c) ([LDChunk 6] ++ Tk 9 ++ [LOp (ORead 3)] ++ Rd 4).
    - eexists. split; [vm_compute; reflexivity|]. split; vm_compute; auto. }
  destruct E as (s & Hr & s1 & Hd & A & _). exists s1. split; [|exact A].
  eapply mortal_die; [apply mortal_of_reach; exact Hr|exact Hd].
Qed.

Print Assumptions C84_like_silence.
Print Assumptions C84_reads_faithful.
Print Assumptions C84_bounded_faithful.
Print Assumptions C84_local_read.
Print Assumptions C84_waits_forever.
Print Assumptions C84_completion_never.
Print Assumptions C84_returns_refuted.

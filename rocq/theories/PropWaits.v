(** * Property theorems: waiting and waking (C96).

    Vocabulary: Spec.v; the program over a mutex, a condition variable and a [Notify]:
    Waits.v. *)

From Coq Require Import List Arith Lia ZArith Bool.
From Verif Require Import Base ListFacts RangeSet Storage System Spec StoreSpec Exec StepTac InvTrace ReadFacts Alive
  BoundedInv BoundedWake BoundedContent BoundedMore LifeFacts Waits WaitsFacts.
Import ListNotations.

(** ** Restrictions on the environment do not mention notifications *)

Lemma deaf_both : forall p q, deaf p -> deaf q -> deaf (both p q).
Proof.
  intros p q [P1 P2] [Q1 Q2]. split; unfold both.
  - intros s x a l [A B]. auto.
  - intros s [A B]. auto.
Qed.

Ltac deaf_tac :=
  split; [intros s x a l; destruct l; cbn; auto;
          repeat match goal with
          | o : op |- _ => destruct o; cbn; auto
          | r : rec_result |- _ => destruct r; cbn; auto
          end|cbn; auto].

Lemma deaf_any : deaf any. Proof. deaf_tac. Qed.
Lemma deaf_roaming : forall c, deaf (roaming_client c). Proof. intros c. deaf_tac. Qed.
Lemma deaf_local : forall c, deaf (local_client c). Proof. intros c. deaf_tac. Qed.
Lemma deaf_past_end : forall c, deaf (no_empty_chunk_past_end c). Proof. intros c. deaf_tac. Qed.
Lemma deaf_empty : deaf no_empty_chunk. Proof. deaf_tac. Qed.
Lemma deaf_silent : forall c, deaf (no_silent_truncation c). Proof. intros c. deaf_tac. Qed.
Lemma deaf_leftover : deaf no_reconnect_with_leftover. Proof. deaf_tac. Qed.
Lemma deaf_fenced : deaf fenced. Proof. deaf_tac. Qed.
Lemma deaf_roaming_env : forall c, deaf (roaming_env c).
Proof. intros c. repeat apply deaf_both; auto using deaf_roaming, deaf_past_end, deaf_silent. Qed.
Lemma deaf_local_env : forall c, deaf (local_env c).
Proof. intros c. repeat apply deaf_both; auto using deaf_local, deaf_empty, deaf_silent, deaf_leftover. Qed.

(** ** C96: waiting is done right *)

(** Every execution of the program over the primitives is an execution of the model, with
    the same calls, results and state of the download. *)
Theorem C96_same_executions : forall c allow w,
  deaf allow -> wreach c allow w ->
  exists s, reach c allow s /\ g_trace s = g_trace (w_g w) /\ g_down s = g_down (w_g w) /\
            g_store s = g_store (w_g w) /\ g_failed s = g_failed (w_g w) /\
            g_dpc s = g_dpc (w_g w) /\ g_rpc s = g_rpc (w_g w).
Proof.
  intros c allow w D H. destruct (waits_refine c allow w D H) as (p & a & R & _).
  exists (proj (w_g w) p a). split; [exact R|]. repeat split; reflexivity.
Qed.

(** Conversely the program can do all that the model can, except that permits left by
    earlier waits are not there at will. *)
Definition no_again : gstate -> label -> Prop :=
  fun _ l => match l with LDAgain => False | _ => True end.

Definition at_rest (g : gstate) (p : bool) : wstate := mkW g None ROut TOut NIdle p false.

Lemma wait_complete : forall c (allow : gstate -> label -> Prop) g g' q, at_wait (g_rpc g) = true -> allow g LRStep ->
  step c g LRStep = Some g' -> wreach c allow (at_rest g q) -> wreach c allow (at_rest g' q).
Proof.
  intros c allow g g' q A Hl E W.
  assert (W1 : wreach c allow (mkW g (Some Reader) REntered TOut NIdle q false)).
  { eapply wreach_step with (l := WRLock); [exact W|exact I|]. cbn [wstep at_rest w_lock w_t w_g w_r w_n w_permit w_fly].
    rewrite A. reflexivity. }
  assert (W2 : wreach c allow (mkW g' (Some Reader) RLeaving TOut NIdle q false)).
  { destruct (leaving_pc c g g' A E) as [T _]. unfold told in T.
    destruct (g_done g) eqn:Ed.
    - eapply wreach_step with (l := WRRun); [exact W1| |].
      + unfold wallowed, counts_as. cbn [w_r w_g]. rewrite Ed. exact Hl.
      + cbn [wstep w_r w_g]. rewrite Ed, E. reflexivity.
    - assert (W2 : wreach c allow (mkW g (Some Reader) RTest TOut NIdle q false)).
      { eapply wreach_step with (l := WRRun); [exact W1| |].
        - unfold wallowed, counts_as. cbn [w_r w_g]. rewrite Ed. exact I.
        - cbn [wstep w_r w_g]. rewrite Ed. reflexivity. }
      assert (W3 : wreach c allow (mkW g (Some Reader) ROver TOut NIdle q false)).
      { eapply wreach_step with (l := WRRun); [exact W2|exact I|]. cbn [wstep w_r w_g].
        cbn [orb] in T. rewrite Ed, T. reflexivity. }
      eapply wreach_step with (l := WRRun); [exact W3|exact Hl|]. cbn [wstep w_r w_g]. rewrite E. reflexivity. }
  eapply wreach_step with (l := WRRun); [exact W2|exact I|]. reflexivity.
Qed.

Lemma waits_complete : forall c allow s, deaf allow -> reach c (both allow no_again) s ->
  exists p a, wreach c allow (at_rest (proj s p a) (g_permit s)).
Proof.
  intros c allow s [D1 D2] H. induction H as [s H|s l s' Hr IH [Hl Hn] H].
  { exists false, 0. unfold init in H. destruct (into_rw _ _) eqn:E; [|discriminate]. injection H as <-.
    apply wreach_init. unfold init. rewrite E. reflexivity. }
  destruct IH as (p & a & IH). set (g := proj s p a) in *.
  assert (Ag : allow g l) by (apply D1; exact Hl).
  assert (Perm : forall q, l <> LRStep -> at_space (g_dpc s) = false \/ l <> LDStep -> q = g_permit s -> q = g_permit s').
  { intros q A B ->. destruct l; try congruence; try contradiction; step_cases H; gsimpl; auto. destruct B; [discriminate|congruence]. }
  assert (One : forall w', wstep c (at_rest g (g_permit s)) (WL l) = Some w' -> wreach c allow w').
  { intros w' E. eapply wreach_step; [exact IH| |exact E].
    destruct l; try exact Ag. unfold wallowed, counts_as. destruct (sees _); [exact I|exact Ag]. }
  assert (Gen : l <> LRStep -> l <> LDStep ->
    wstep c (at_rest g (g_permit s)) (WL l) = lift (at_rest g (g_permit s)) (step c g l) ->
    exists p a, wreach c allow (at_rest (proj s' p a) (g_permit s'))).
  { intros A B E. exists p, a. apply One. rewrite E. unfold g. rewrite step_proj by (congruence || (intros ->; contradiction)).
    rewrite H. cbn [lift]. unfold with_g, at_rest. cbn. rewrite (Perm (g_permit s)); auto. }
  destruct l; try contradiction; try (apply Gen; [discriminate|discriminate|reflexivity]).
  - (* the task *)
    destruct (at_signal (g_dpc s)) eqn:Es; [|destruct (at_space (g_dpc s)) eqn:Ep].
    + assert (E : step c g LDStep = Some (proj s' p a)).
      { unfold g. rewrite step_proj; [rewrite H; reflexivity| | |]; try discriminate.
        intros _. destruct (g_dpc s); auto; discriminate. }
      exists p, a.
      assert (W1 : wreach c allow (mkW g (Some Task) ROut TLocked NIdle (g_permit s) false)).
      { eapply wreach_step with (l := WTLock); [exact IH|exact I|]. cbn [wstep at_rest w_lock w_t w_g w_r w_n w_permit w_fly].
        change (g_dpc g) with (g_dpc s). rewrite Es. reflexivity. }
      assert (W2 : wreach c allow (mkW (proj s' p a) (Some Task) ROut TStored NIdle (g_permit s) false)).
      { eapply wreach_step with (l := WTRun); [exact W1|exact Ag|]. cbn [wstep w_lock w_t w_g w_r w_n w_permit w_fly].
        rewrite E. reflexivity. }
      assert (W3 : wreach c allow (mkW (proj s' p a) None ROut TReleased NIdle (g_permit s) false)).
      { eapply wreach_step with (l := WTRun); [exact W2|exact I|]. reflexivity. }
      eapply wreach_step with (l := WTRun); [exact W3|exact I|]. cbn [wstep w_lock w_t w_g w_r w_n w_permit w_fly].
      unfold at_rest. rewrite (Perm (g_permit s)); auto; [discriminate|].
      left. destruct (g_dpc s); auto; discriminate.
    + destruct (g_dpc s) eqn:Ed; try discriminate Ep. cbn [step] in H. unfold d_step in H. rewrite Ed in H.
      destruct (g_permit s) eqn:Eq; [|discriminate H]. injection H as <-.
      exists p, a. eapply wreach_step with (l := WPoll); [exact IH|exact Ag|].
      cbn [wstep at_rest w_lock w_t w_g w_r w_n w_permit w_fly]. change (g_dpc g) with (g_dpc s). rewrite Ed. reflexivity.
    + exists p, a. destruct (sees g) eqn:Ese.
      { assert (W1 : wreach c allow (mkW g None ROut TSeen NIdle (g_permit s) false)).
        { apply One. cbn [wstep]. unfold t_free. cbn [at_rest w_t w_g]. change (g_dpc g) with (g_dpc s). rewrite Es, Ep, Ese. reflexivity. }
        eapply wreach_step with (l := WTRun); [exact W1|exact Ag|]. cbn [wstep w_t w_g w_lock w_r w_n w_permit w_fly].
        unfold sees in Ese. change (g_dpc g) with (g_dpc s) in *. change (g_req g) with (g_req s) in Ese.
        change (g_store g) with (g_store s) in Ese. cbn [step] in H. unfold d_step in H.
        destruct (g_dpc s) eqn:Ed; try discriminate Ese. destruct (g_req s); [|discriminate Ese]. rewrite Ese in H.
        injection H as <-. reflexivity. }
      apply One. cbn [wstep]. unfold t_free. cbn [at_rest w_t w_g]. change (g_dpc g) with (g_dpc s). rewrite Es, Ep, Ese.
      cbn [andb orb negb]. unfold g. rewrite step_proj by (auto; discriminate). rewrite H. unfold lift, with_g, at_rest. cbn.
      rewrite (Perm (g_permit s)); auto. discriminate.
  - (* the reader *)
    assert (Eg : g_rpc g = g_rpc s) by reflexivity.
    destruct (g_rpc s) eqn:Er.
    all: try (cbn [step] in H; unfold r_step in H; rewrite Er in H; discriminate H).
    all: try (exists p, a; apply One; cbn [wstep]; unfold r_free, wr_step; cbn [at_rest w_t w_r w_fly w_g negb]; rewrite Eg;
        unfold g; rewrite step_proj by (try discriminate; rewrite Er; exact (fun _ => I)); rewrite H; unfold lift, with_g, at_rest; cbn;
        f_equal; f_equal; cbn [step] in H; unfold r_step in H; rewrite Er in H; repeat (split_match H; try discriminate H; gsimpl); injection H as <-; reflexivity).
    + (* RRNotify *)
      cbn [step] in H. unfold r_step in H. rewrite Er in H. injection H as <-.
      assert (W1 : wreach c allow (mkW (set_rpc g (RRWait n pos rq)) None ROut TOut NIdle (g_permit s) (g_wreq s))).
      { apply One. cbn [wstep]. unfold r_free, wr_step. cbn [at_rest w_r w_fly w_g negb]. rewrite Eg. reflexivity. }
      exists p, a. destruct (g_wreq s) eqn:Ew; [|exact W1].
      eapply wreach_step with (l := WNotifyOne); [exact W1|exact I|]. reflexivity.
    + exists p, a. assert (Eq : g_permit s' = g_permit s).
      { cbn [step] in H. unfold r_step in H. rewrite Er in H.
        repeat (split_match H; try discriminate H; gsimpl); injection H as <-; reflexivity. }
      rewrite Eq. apply (wait_complete c allow g); auto.
      * rewrite Eg. reflexivity.
      * unfold g. rewrite step_proj by (try discriminate; rewrite Er; exact (fun _ => I)). rewrite H. reflexivity.
    + (* RRDone *)
      cbn [step] in H. unfold r_step in H. rewrite Er in H. injection H as <-.
      assert (W1 : wreach c allow (mkW (finish_read (set_wreq g false) pos n waited r) None ROut TOut NIdle (g_permit s) (g_wreq s))).
      { apply One. cbn [wstep]. unfold r_free, wr_step. cbn [at_rest w_r w_fly w_g negb]. rewrite Eg. reflexivity. }
      exists p, a. destruct (g_wreq s) eqn:Ew.
      * eapply wreach_step with (l := WNotifyOne); [exact W1|exact I|]. reflexivity.
      * assert (E : (finish_read (set_wreq g false) pos n waited r) = (proj (finish_read s pos n waited r) p a)).
        { unfold g. destruct s. cbn in Ew. subst. reflexivity. }
        rewrite E in W1. exact W1.
    + exists p, a. assert (Eq : g_permit s' = g_permit s).
      { cbn [step] in H. unfold r_step in H. rewrite Er in H.
        repeat (split_match H; try discriminate H; gsimpl); injection H as <-; reflexivity. }
      rewrite Eq. apply (wait_complete c allow g); auto.
      * rewrite Eg. reflexivity.
      * unfold g. rewrite step_proj by (try discriminate; rewrite Er; exact (fun _ => I)). rewrite H. reflexivity.
Qed.

Theorem C96_all_executions : forall c allow s,
  deaf allow -> reach c (both allow no_again) s ->
  exists w, wreach c allow w /\ g_trace (w_g w) = g_trace s /\ g_down (w_g w) = g_down s /\
            g_store (w_g w) = g_store s /\ g_failed (w_g w) = g_failed s /\
            g_dpc (w_g w) = g_dpc s /\ g_rpc (w_g w) = g_rpc s.
Proof.
  intros c allow s D H. destruct (waits_complete c allow s D H) as (p & a & W).
  eexists. split; [exact W|]. repeat split; reflexivity.
Qed.

(** The mutex: at most one thread is in a section it protects. *)
Theorem C96_exclusive : forall c allow w, wreach c allow w ->
  ~ (w_lock w = Some Reader /\ w_t w = TLocked) /\
  (w_r w = ROver \/ w_r w = REntered \/ w_r w = RTest -> w_t w <> TLocked /\ w_t w <> TStored).
Proof.
  intros c allow w H. pose proof (winv_reach _ _ _ H) as I. split.
  - intros [A B]. pose proof (wi_lock _ I) as L. pose proof (wi_one _ I) as O. rewrite A, B in *.
    destruct (holds_r (w_r w)); [specialize (O eq_refl)|]; discriminate.
  - intros K. assert (E : holds_r (w_r w) = true) by (destruct K as [->|[->| ->]]; reflexivity).
    pose proof (wi_one _ I E) as O. split; intros E2; rewrite E2 in O; discriminate.
Qed.

(** No wake-up is lost: while a call sleeps, nobody has told it anything, or the task is on
    its way to wake it. *)
Theorem C96_no_lost_wakeup : forall c allow w, wreach c allow w -> w_r w = RAsleep ->
  (g_done (w_g w) = false /\ g_reached (w_g w) = false) \/ w_t w = TStored \/ w_t w = TReleased.
Proof.
  intros c allow w H E. pose proof (wi_sleep _ (winv_reach _ _ _ H) E) as K. unfold told in K.
  destruct (g_done (w_g w)); [|destruct (g_reached (w_g w)); [|auto]];
    right; specialize (K eq_refl); destruct (w_t w); try discriminate K; auto.
Qed.

(** A call that waits goes on only if the position was reached or the download has ended:
    waking up for no reason has no effect. *)
Theorem C96_no_early_return : forall c allow w w', wreach c allow w ->
  waiting (w_r w) = true -> wstep c w WRRun = Some w' -> w_r w' = RLeaving ->
  g_done (w_g w) = true \/ g_reached (w_g w) = true.
Proof.
  intros c allow w w' H A E B. pose proof (winv_reach _ _ _ H) as I. pose proof (wi_over _ I) as O.
  cbn [wstep] in E. destruct (w_r w) eqn:Er; try discriminate A; try discriminate E.
  - destruct (g_done (w_g w)); auto. injection E as <-. discriminate B.
  - destruct (_ && _); injection E as <-; discriminate B.
  - specialize (O eq_refl). unfold told in O. apply orb_true_iff in O. exact O.
Qed.

(** Deadlock: if in the model a call never waits for a task that cannot move, it never does
    here; in particular with unbounded storage, and with bounded storage under the
    conditions of C18. *)
Theorem C96_deadlock_transfer : forall c allow w, deaf allow -> wreach c allow w ->
  (forall s, reach c allow s -> blocked c s -> task_can_move c s) ->
  wblocked c w -> wtask_can_move c w.
Proof. exact waits_progress. Qed.

Theorem C96_no_deadlock : forall c w, 0 < c_batch c -> unbounded_store c ->
  wreach c no_empty_chunk w -> wblocked c w -> wtask_can_move c w.
Proof.
  intros c w Hb Hu H. apply (waits_progress c no_empty_chunk); auto using deaf_empty.
  intros s. apply unbounded_no_deadlock; auto.
Qed.

Theorem C96_no_deadlock_bounded : forall c ck p n w, c_provider c = PBounded ck p n -> 0 < c_batch c ->
  wreach c (both (both (local_client c) no_empty_chunk) fenced) w ->
  wblocked c w -> wtask_can_move c w.
Proof.
  intros c ck p n w Hp Hb H. apply (waits_progress c (both (both (local_client c) no_empty_chunk) fenced)); auto.
  - repeat apply deaf_both; auto using deaf_local, deaf_empty, deaf_fenced.
  - intros s. apply (bounded_no_deadlock c ck p n); auto.
Qed.

(** What calls return. *)
Theorem C96_roaming_reads : forall c w,
  sane c -> unbounded_store c -> honours_ranges c -> wreach c (roaming_env c) w ->
  every_event (read_ok c) (g_trace (w_g w)).
Proof.
  intros c w H1 H2 H3 H. destruct (C96_same_executions c _ w (deaf_roaming_env c) H) as (s & R & <- & _).
  apply roaming_reads; auto.
Qed.

Theorem C96_bounded_reads : forall c ck p n w,
  c_provider c = PBounded ck p n -> sane c -> c_rec c = RecRange -> wreach c (local_env c) w ->
  every_event (read_ok c) (g_trace (w_g w)).
Proof.
  intros c ck p n w H1 H2 H3 H. destruct (C96_same_executions c _ w (deaf_local_env c) H) as (s & R & <- & _).
  apply (local_reads c ck p n); auto.
Qed.

(** Locking, waking and polling do not keep the two busy: between two steps of the model
    there are at most 18 of them, and 3 more for every wake-up without a reason. *)
Theorem C96_overhead : forall c allow w ls w' v p sp, wreach c allow w ->
  wrun c w ls = Some w' -> tally c w ls = (v, p, sp) -> p <= 18 * (v + 1) + 3 * sp.
Proof.
  intros c allow w ls w' v p sp H R T.
  pose proof (tally_bound c ls w w' v p sp (winv_reach _ _ _ H) R T). pose proof (wrank_bound w). lia.
Qed.

(** ** Concrete executions *)

Fixpoint wrun_b (c : cfg) (ab : gstate -> label -> bool) (w : wstate) (ls : list wlabel) : option wstate :=
  match ls with
  | [] => Some w
  | l :: k =>
      if match counts_as w l with Some l => ab (w_g w) l | None => true end
      then match wstep c w l with Some w' => wrun_b c ab w' k | None => None end else None
  end.

Lemma wrun_b_reach : forall c ab allow ls w w', decides ab allow -> wreach c allow w ->
  wrun_b c ab w ls = Some w' -> wreach c allow w'.
Proof.
  intros c ab allow ls. induction ls as [|l k IH]; intros w w' D Hr H; cbn [wrun_b] in H.
  - injection H as <-. exact Hr.
  - destruct (match counts_as w l with Some l => ab (w_g w) l | None => true end) eqn:Ea; [|discriminate H].
    destruct (wstep c w l) as [w1|] eqn:E; [|discriminate H]. apply (IH w1 w'); auto.
    eapply wreach_step; [exact Hr| |exact E]. unfold wallowed. destruct (counts_as w l); auto.
Qed.

Lemma wexec_reach : forall c ab allow ls w, decides ab allow ->
  (match init c with Some g => wrun_b c ab (winit g) ls | None => None end) = Some w -> wreach c allow w.
Proof.
  intros c ab allow ls w D H. destruct (init c) as [g|] eqn:E; [|discriminate H].
  eapply wrun_b_reach; [exact D|apply wreach_init; exact E|exact H].
Qed.

Definition reads (n : nat) : list wlabel := repeat (WL LRStep) n.
Definition works (n : nat) : list wlabel := repeat (WL LDStep) n.
(** The task wakes the reader. *)
Definition signals : list wlabel := [WTLock; WTRun; WTRun; WTRun].

(** A read falls asleep, is woken for no reason and falls asleep again; the task stores
    what it waits for and, before it has woken the reader, the reader is woken for no reason
    a second time and goes on. *)
Example C96_case :
  let c := mk (Some 12) true 0 4 (PPlain PlMem) in
  (exists w, wreach c (roaming_env c) w /\ w_r w = RAsleep /\ wblocked c w /\ g_rpc (w_g w) = RRWait 4 0 4 /\
     g_dpc (w_g w) = DSelect) /\
  (exists w, wreach c (roaming_env c) w /\ w_r w = RAwake /\ w_t w = TReleased /\ w_lock w = None /\
     g_reached (w_g w) = true) /\
  (exists w, wreach c (roaming_env c) w /\ w_t w = TReleased /\
     In (EvRead 0 4 true (Ok [x01; x02; x03; x04])) (g_trace (w_g w))).
Proof.
  cbv zeta. split; [|split]; eexists.
  - split; [eapply (wexec_reach _ (roaming_env_b (mk (Some 12) true 0 4 (PPlain PlMem))) _
      ([WL (LOp (ORead 4))] ++ reads 4 ++ [WRLock; WRRun; WRRun; WSpurious; WRLock; WRRun]));
      [decides_tac|vm_compute; reflexivity]|].
    split; [reflexivity|]. split; [|split; reflexivity]. split; [left; exact I|].
    intros [l| | | | | | |] Hl; try discriminate Hl; try reflexivity. destruct l; try discriminate Hl; reflexivity.
  - split; [eapply (wexec_reach _ (roaming_env_b (mk (Some 12) true 0 4 (PPlain PlMem))) _
      ([WL (LOp (ORead 4))] ++ reads 4 ++ [WRLock; WRRun; WRRun; WSpurious; WRLock; WRRun; WL (LDChunk 6)] ++
       works 6 ++ [WTRun; WTLock; WTRun; WSpurious; WTRun]));
      [decides_tac|vm_compute; reflexivity]|].
    repeat split; reflexivity.
  - split; [eapply (wexec_reach _ (roaming_env_b (mk (Some 12) true 0 4 (PPlain PlMem))) _
      ([WL (LOp (ORead 4))] ++ reads 4 ++ [WRLock; WRRun; WRRun; WSpurious; WRLock; WRRun; WL (LDChunk 6)] ++
       works 6 ++ [WTRun; WTLock; WTRun; WSpurious; WTRun; WRLock; WRRun; WRRun; WRRun] ++ reads 3));
      [decides_tac|vm_compute; reflexivity]|].
    split; [reflexivity|]. vm_compute. tauto.
Qed.

(** Bounded storage.  A read has asked for its position, the task has seen it and waits for
    space; now the read notifies the task twice, before and after it takes its bytes.  The
    first notification wakes the task, the second leaves a permit; the task goes on through
    its next wait although nothing has been read since. *)
Example C96_permit_left_case :
  let c := mk (Some 12) true 0 4 (PBounded true PlMem 4) in
  (exists w, wreach c (local_env c) w /\ w_n w = NWoken /\ w_permit w = true /\ g_rpc (w_g w) = RIdle) /\
  (exists w w', wreach c (local_env c) w /\ w_n w = NIdle /\ g_dpc (w_g w) = DWWait [x07; x08; x09; x0a] 2 6 /\
     g_wreq (w_g w) = true /\ wstep c w WPoll = Some w' /\ g_dpc (w_g w') = DWTop [x07; x08; x09; x0a] 2 6).
Proof.
  cbv zeta. split.
  - eexists. split; [eapply (wexec_reach _ (local_env_b (mk (Some 12) true 0 4 (PBounded true PlMem 4))) _
      ([WL (LDChunk 6)] ++ works 3 ++ [WL (LOp (ORead 4))] ++ reads 3 ++ works 2 ++ [WTRun] ++ signals ++ works 4 ++
               [WPoll] ++ reads 1 ++ [WNotifyOne; WRLock; WRRun; WRRun; WRRun; WRRun] ++ reads 3 ++ [WNotifyOne]));
      [decides_tac|vm_compute; reflexivity]|].
    repeat split; reflexivity.
  - eexists. eexists. split; [eapply (wexec_reach _ (local_env_b (mk (Some 12) true 0 4 (PBounded true PlMem 4))) _
      ([WL (LDChunk 6)] ++ works 3 ++ [WL (LOp (ORead 4))] ++ reads 3 ++ works 2 ++ [WTRun] ++ signals ++ works 4 ++
               [WPoll] ++ reads 1 ++ [WNotifyOne; WRLock; WRRun; WRRun; WRRun; WRRun] ++ reads 3 ++ [WNotifyOne] ++
               [WPoll] ++ works 6 ++ [WL (LDChunk 4)] ++ works 9));
      [decides_tac|vm_compute; reflexivity]|].
    repeat split; reflexivity.
Qed.

Print Assumptions C96_same_executions.
Print Assumptions C96_all_executions.
Print Assumptions C96_exclusive.
Print Assumptions C96_no_lost_wakeup.
Print Assumptions C96_no_early_return.
Print Assumptions C96_deadlock_transfer.
Print Assumptions C96_no_deadlock.
Print Assumptions C96_no_deadlock_bounded.
Print Assumptions C96_roaming_reads.
Print Assumptions C96_bounded_reads.
Print Assumptions C96_overhead.

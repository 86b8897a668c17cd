(** * The end of the download task: cancelled (C20), unattended (C53). *)

From Coq Require Import List Arith Lia ZArith Bool.
From Verif Require Import Base ListFacts RangeSet RangeSetFacts Storage StorageFacts
  System Spec StepTac InvSync InvTrace InvCore Alive LifeFacts Exec Progress LifeMore
  BoundedProgress PropReads.
Import ListNotations.

(** ** A cancelled task *)

(** Actions left until the task has ended, if it cancels at the next opportunity. *)
Definition quit_measure (s : gstate) : nat :=
  match g_dpc s with
  | DPre b w => length b - w + 6
  | DWTop b w _ => if w <? length b then length b - w + 12 else 6
  | DWBatch b w _ nw => length b - (w + nw) + 11
  | DWPost _ _ _ _ => 10
  | DWCheck _ _ _ _ => 9
  | DWNotify _ _ _ _ => 8
  | DSeeking _ _ => 6
  | DSelect => 5
  | DFinish => 6 | DReport => 5 | DOnFinish _ => 4 | DSetFailed => 3 | DSignal => 2
  | DCancelTok => 1 | DEnd | DPanic | DWWait _ _ _ => 0
  end.

(** The chunk in progress is no longer than the resource. *)
Definition small_chunk (c : cfg) (s : gstate) : Prop :=
  match g_dpc s with
  | DPre b _ | DWTop b _ _ | DWBatch b _ _ _ | DWPost b _ _ _ | DWCheck b _ _ _
  | DWNotify b _ _ _ => length b <= length (c_content c)
  | _ => True
  end.

Lemma slice_small : forall (l : list byte) a n, length (slice l a n) <= length l.
Proof. intros. rewrite length_slice. lia. Qed.

Lemma small_chunk_reach : forall c s, 0 < c_batch c -> unbounded_store c ->
  reach c no_empty_chunk s -> small_chunk c s.
Proof.
  intros c s Hb Hu H. induction H as [s H|s l s' Hr IH Hl H].
  - unfold init in H. destruct (into_rw _ _); [|discriminate]. injection H as <-. exact I.
  - destruct (alive_reach c s Hb Hu Hr) as [u A]. pose proof (al_at _ _ _ A) as Aa.
    pose proof (al_rem _ _ _ A) as Ar. unfold alive_at in Aa.
    unfold small_chunk in *.
    destruct l; step_cases H; gsimpl; auto; try exact I; try discriminate;
      try (rewrite Ar in *; try discriminate);
      rewrite ?Heqd in *; auto; try apply slice_small; try congruence; try lia;
      try (repeat match goal with
        | |- context [if ?b then _ else _] => destruct b; gsimpl end; auto; try exact I; lia).
Qed.

Lemma quit_measure_bound : forall c s, small_chunk c s ->
  quit_measure s <= length (c_content c) + 12.
Proof.
  intros c s H. unfold small_chunk, quit_measure in *. destruct (g_dpc s); try lia. destruct (_ <? _); lia.
Qed.

Lemma quit_step : forall c s l s', sane c -> unbounded_store c -> reach c no_empty_chunk s ->
  no_empty_chunk s l -> g_cancel s = true -> prompt s l -> task_label l = true ->
  step c s l = Some s' -> quit_measure s' < quit_measure s.
Proof.
  intros c s l s' Hs Hu Hr Hl Hc Hp Ht H.
  assert (Hb : 0 < c_batch c) by apply Hs.
  destruct (alive_reach c s Hb Hu Hr) as [u A]. pose proof (al_at _ _ _ A) as Aa.
  pose proof (al_store _ _ _ A) as As. unfold alive_at in Aa.
  destruct l; try discriminate Ht; cbn [step] in H;
    try (destruct (g_dpc s) eqn:Ed; try discriminate H; specialize (Hp Ed Hc eq_refl); discriminate Hp).
  - destruct (g_dpc s) eqn:Ed; try discriminate H. destruct (g_cancel s); [|discriminate H].
    injection H as <-. unfold quit_measure. gsimpl. rewrite Ed. lia.
  - unfold d_step in H. destruct (g_dpc s) eqn:Ed; try discriminate H; try contradiction;
      unfold quit_measure; rewrite Ed.
    + unfold write_once in H. rewrite As in H. cbn [st_write] in H. rewrite length_slice in H.
      match type of H with context [?z =? 0] => destruct (Nat.eqb_spec z 0) as [Ez|Ez] end; injection H as <-; gsimpl.
      * unfold prefetch_done. gsimpl. lia.
      * lia.
    + destruct (Nat.ltb_spec w (length bytes)); injection H as <-; gsimpl; [lia|].
      unfold report_downloading. destruct (st_wpos _); gsimpl; [lia|]. destruct (rs_get _ _); gsimpl; lia.
    + unfold write_once in H. rewrite As in H. cbn [st_write] in H. rewrite length_slice in H.
      match type of H with context [?z =? 0] => destruct (Nat.eqb_spec z 0) as [Ez|Ez] end; injection H as <-; gsimpl; lia.
    + injection H as <-. gsimpl. lia.
    + destruct Aa as (A1 & A2 & A3 & A4 & _). destruct (Nat.eqb_spec nw 0); [lia|].
      destruct (g_req s); [destruct (_ <=? _)|]; injection H as <-; gsimpl; try lia;
        destruct (Nat.ltb_spec w (length bytes)); lia.
    + destruct Aa as (A1 & A2 & A3 & A4 & _). destruct (Nat.eqb_spec nw 0); [lia|].
      injection H as <-; gsimpl. destruct (Nat.ltb_spec w (length bytes)); lia.
    + injection H as <-; gsimpl; lia.
    + injection H as <-; unfold report_complete; gsimpl; lia.
    + injection H as <-; gsimpl; lia.
    + injection H as <-; gsimpl; lia.
    + injection H as <-; gsimpl; lia.
  - destruct (g_dpc s) eqn:Ed; try discriminate H. unfold seek_done in H. unfold quit_measure. rewrite Ed.
    destruct ok; [|injection H as <-; gsimpl; lia].
    destruct (body_window _ _ _) as [[a b]|]; [|discriminate H].
    destruct (st_wseek start (g_store s)) as [[r|k|] st]; injection H as <-; gsimpl; lia.
  - destruct (g_dpc s) eqn:Ed; try discriminate H; try (specialize (Hp Ed Hc eq_refl); discriminate Hp);
      injection H as <-; unfold quit_measure; gsimpl; rewrite ?Ed; try lia.
    destruct (_ <? _); lia.
  - destruct (g_dpc s) eqn:Ed; try discriminate H. injection H as <-. unfold quit_measure. gsimpl. rewrite Ed.
    destruct (_ && _); lia.
  - destruct (g_dpc s) eqn:Ed; try discriminate H. injection H as <-. unfold quit_measure. gsimpl. rewrite Ed.
    destruct Aa as (A1 & A2 & A3 & A4 & _). destruct (Nat.eqb_spec nw 0); [lia|].
    destruct (Nat.ltb_spec w (length bytes)); lia.
  - destruct (g_dpc s) eqn:Ed; try discriminate H. contradiction.
  - destruct (g_dpc s) eqn:Ed; try discriminate H; unfold quit_measure; rewrite Ed.
    + destruct (write_short c s bytes w k) as [[k' s1]|] eqn:E; [|discriminate H]. injection H as <-.
      apply write_short_inv in E as (-> & st & E1 & E2 & ->). gsimpl. lia.
    + destruct (write_short c s bytes (w + nw) k) as [[k' s1]|] eqn:E; [|discriminate H]. injection H as <-.
      apply write_short_inv in E as (-> & st & E1 & E2 & ->). gsimpl. lia.
Qed.

Lemma cancel_stays : forall c s l s', g_cancel s = true -> step c s l = Some s' -> g_cancel s' = true.
Proof.
  intros c s l s' Hc H. destruct l; step_cases H; gsimpl; auto;
    repeat match goal with |- context [if ?b then _ else _] => destruct b; gsimpl end; auto.
Qed.

Lemma user_quit : forall c s l s', task_label l = false -> step c s l = Some s' ->
  quit_measure s' = quit_measure s.
Proof.
  intros c s l s' Hl H. assert (E : g_dpc s' = g_dpc s).
  { destruct l; try discriminate Hl; step_cases H; gsimpl; auto;
      repeat match goal with |- context [if ?b then _ else _] => destruct b; gsimpl end; auto. }
  unfold quit_measure. rewrite E. reflexivity.
Qed.

Lemma quit_bounded : forall c ls s s', sane c -> unbounded_store c -> reach c no_empty_chunk s ->
  g_cancel s = true -> allowed c (both no_empty_chunk prompt) s ls -> run c s ls = Some s' ->
  task_steps ls + quit_measure s' <= quit_measure s /\ reach c no_empty_chunk s' /\ g_cancel s' = true.
Proof.
  induction ls as [|l ls IH]; intros s s' Hs Hu Hr Hc Ha H; cbn [run allowed task_steps] in *.
  - injection H as <-. auto.
  - destruct Ha as [[Ha1 Ha2] Ha3]. destruct (step c s l) as [s1|] eqn:E; [|discriminate].
    assert (Hr1 : reach c no_empty_chunk s1) by (apply (reach_step c _ s l s1); auto).
    destruct (IH s1 s' Hs Hu Hr1 (cancel_stays _ _ _ _ Hc E) Ha3 H) as (B & C). split; [|exact C].
    destruct (task_label l) eqn:El.
    + pose proof (quit_step c s l s1 Hs Hu Hr Ha1 Hc Ha2 El E). lia.
    + rewrite (user_quit c s l s1 El E) in B. lia.
Qed.

(** With unbounded storage a cancelled task ends: it executes a bounded number of actions,
    and until it has ended it can go on. *)
Theorem C20_ends_in_time : forall c s ls s',
  sane c -> unbounded_store c -> reach c no_empty_chunk s -> g_cancel s = true ->
  allowed c (both no_empty_chunk prompt) s ls -> run c s ls = Some s' ->
  task_steps ls <= length (c_content c) + 12 /\
  (g_dpc s' <> DEnd ->
   exists l s'', task_label l = true /\ both no_empty_chunk prompt s' l /\ step c s' l = Some s'').
Proof.
  intros c s ls s' Hs Hu Hr Hc Ha H.
  destruct (quit_bounded c ls s s' Hs Hu Hr Hc Ha H) as (B & Hr' & Hc').
  pose proof (quit_measure_bound c s (small_chunk_reach c s (proj2 (proj2 Hs)) Hu Hr)).
  split; [lia|]. intros Hd.
  destruct (alive_reach c s' (proj2 (proj2 Hs)) Hu Hr') as [u A]. pose proof (al_at _ _ _ A) as Aa.
  unfold alive_at in Aa.
  destruct (g_dpc s') eqn:Ed; try congruence; try contradiction;
    try (exists LDStep; cbn [step]; unfold d_step; rewrite Ed; eexists;
         repeat split; try (intros X; congruence); reflexivity).
  - exists LDCancel. cbn [step]. rewrite Ed, Hc'. eexists. repeat split; try (intros X; congruence).
  - exists LDStep; cbn [step]; unfold d_step; rewrite Ed. destruct (write_once _ _ _ _) as [k s1].
    destruct (_ =? _); eexists; repeat split; intros X; congruence.
  - exists LDStep; cbn [step]; unfold d_step; rewrite Ed.
    destruct (_ <? _); eexists; repeat split; intros X; congruence.
  - exists LDStep; cbn [step]; unfold d_step; rewrite Ed. destruct (write_once _ _ _ _) as [k s1].
    destruct (_ =? _); eexists; repeat split; intros X; congruence.
  - exists LDStep; cbn [step]; unfold d_step; rewrite Ed.
    destruct (g_req s'); [destruct (_ <=? _)|]; eexists; repeat split; intros X; congruence.
  - exists (LDSeekRes false). cbn. rewrite Ed. eexists; repeat split; intros X; congruence.
  - exists (LDFinishRes false). cbn. rewrite Ed. eexists; repeat split; intros X; congruence.
Qed.

(** Dropped in the middle of a chunk; the task stores the chunk, sees the cancellation,
    ends. *)
Example C20_ends_case :
  let c := mk (Some 12) true 0 4 (PPlain PlMem) in
  exists s ls s', reach c no_empty_chunk s /\ g_cancel s = true /\ g_rpc s = RDropped /\
    allowed c (both no_empty_chunk prompt) s ls /\ run c s ls = Some s' /\ g_dpc s' = DEnd /\
    task_steps ls = 12.
Proof.
  cbv zeta. eexists. exists (Tk 7 ++ [LDCancel; LDFinishRes true] ++ Tk 3). eexists.
  split; [reach_tac empty_b [LDChunk 8; LDrop]|].
  split; [reflexivity|split; [reflexivity|]].
  split; [eapply run_b_allowed with (ab := both_b empty_b prompt_b); [decides_tac|vm_compute; reflexivity]|].
  split; [vm_compute; reflexivity|split; reflexivity].
Qed.

(** ** An unattended task *)

(** Without faults the task is never on the way to a failure. *)
Definition on_course (s : gstate) : Prop :=
  g_failed s = false /\
  match g_dpc s with
  | DOnFinish ok => ok = true
  | DSetFailed => False
  | _ => True
  end /\
  (g_cancel s = true -> g_dpc s = DEnd).

Definition kept (c : cfg) : gstate -> label -> Prop :=
  fun _ l => l = LDrop -> c_cancel_on_drop c = false.

Lemma on_course_kept : forall c s, 0 < c_batch c -> unbounded_store c ->
  reach c (both (both no_empty_chunk nothing_fails) (kept c)) s -> on_course s.
Proof.
  intros c s Hb Hu H.
  assert (Hst : forall s, reach c (both (both no_empty_chunk nothing_fails) (kept c)) s -> exists u, g_store s = SPlain u).
  { intros s0 H0. destruct (alive_reach c s0 Hb Hu) as [u A];
      [|exists u; apply (al_store _ _ _ A)]. revert H0. apply reach_weaken. intros ? ? [[A _] _]. exact A. }
  induction H as [s H|s l s' Hr IH Hl H].
  - unfold init in H. destruct (into_rw _ _); [|discriminate]. injection H as <-.
    repeat split; cbn; discriminate.
  - destruct (Hst s Hr) as [u Eu]. destruct IH as (I1 & I2 & I3). destruct Hl as [[_ Hl] Hk].
    unfold on_course.
    destruct l; cbn in Hl; try contradiction; step_cases H; gsimpl; rewrite ?Heqd in *; auto; try congruence.
    all: try contradiction.
    all: try (match goal with E : st_wseek _ _ = _ |- _ => rewrite Eu in E; cbn [st_wseek] in E; discriminate E end).
    all: try (split; [assumption|split; [first [exact I|reflexivity|assumption]|intros X; specialize (I3 X); congruence]]).
    + specialize (I3 eq_refl). discriminate.
    + subst. destruct ok; [discriminate|contradiction].
    + specialize (Hk eq_refl). congruence.
Qed.

Lemma on_course_reach : forall c s, 0 < c_batch c -> c_cancel_on_drop c = false -> unbounded_store c ->
  reach c (both no_empty_chunk nothing_fails) s -> on_course s.
Proof.
  intros c s Hb Hd Hu H. apply (on_course_kept c s Hb Hu). revert H. apply reach_weaken.
  intros s0 l A. split; [exact A|intros _; exact Hd].
Qed.

(** An action that is productive and does not fail. *)
Lemma unattended_enabled : forall c s, sane c -> unbounded_store c -> c_inv c = InvEmpty ->
  reach c no_empty_chunk s -> g_dpc s <> DEnd ->
  exists l s', task_label l = true /\ both productive nothing_fails s l /\ step c s l = Some s'.
Proof.
  intros c s Hs Hu Hi Hr Hd.
  destruct (alive_reach c s (proj2 (proj2 Hs)) Hu Hr) as [u [A1 A2 [A3 A3'] A4]].
  unfold alive_at in A4.
  destruct (g_dpc s) eqn:Ed; try congruence; try contradiction;
    try (exists LDStep; cbn [step]; unfold d_step; rewrite Ed; cbn; eexists; repeat split; reflexivity).
  - destruct (Nat.eq_dec (g_scur s) (g_send s)) as [E|E].
    + exists LDEof. cbn. rewrite Ed. eexists. repeat split; auto.
    + exists (LDChunk 1). cbn [step]. rewrite Ed. destruct (Nat.leb_spec (g_scur s + 1) (g_send s)); [|lia].
      eexists. repeat split. cbn. lia.
  - exists LDStep; cbn [step]; unfold d_step; rewrite Ed. destruct (write_once _ _ _ _) as [k s1]. destruct (_ =? _); eexists; repeat split.
  - exists LDStep; cbn [step]; unfold d_step; rewrite Ed. destruct (_ <? _); eexists; repeat split.
  - exists LDStep; cbn [step]; unfold d_step; rewrite Ed. destruct (write_once _ _ _ _) as [k s1]. destruct (_ =? _); eexists; repeat split.
  - exists LDStep; cbn [step]; unfold d_step; rewrite Ed. destruct (g_req s); [destruct (_ <=? _)|]; eexists; repeat split.
  - exists (LDSeekRes true). cbn [step]. rewrite Ed. unfold seek_done.
    assert (exists a b, body_window c start stop = Some (a, b)) as (a & b & ->).
    { unfold body_window. rewrite Hi. destruct (inverted _ _ _); eauto. }
    destruct (st_wseek start (g_store s)) as [[r|k|] st]; eexists; repeat split.
  - exists (LDFinishRes true). cbn. rewrite Ed. eexists; repeat split.
Qed.

Lemma dropped_stays : forall c s l s', g_rpc s = RDropped -> step c s l = Some s' -> g_rpc s' = RDropped.
Proof.
  intros c s l s' Hd H. destruct (task_label l) eqn:El; [rewrite (task_step_rpc c s l s' El H); exact Hd|].
  destruct l; try discriminate El; cbn [step] in H; unfold r_step, r_error in H; rewrite ?Hd in H;
    try discriminate H. injection H as <-. exact Hd.
Qed.

Lemma dropped_seeks : forall c ls s s', g_rpc s = RDropped -> run c s ls = Some s' -> seek_calls ls = 0.
Proof.
  induction ls as [|l ls IH]; intros s s' Hd H; cbn [run seek_calls] in *; auto.
  destruct (step c s l) as [s1|] eqn:E; [|discriminate H].
  specialize (IH s1 s' (dropped_stays _ _ _ _ Hd E) H).
  destruct l; auto. cbn [step] in E. rewrite Hd in E. discriminate E.
Qed.

(** With [cancel_on_drop] off, a download whose handle was dropped still completes: the
    task executes a bounded number of actions, can always go on until it has ended, and has
    then downloaded everything. *)
Theorem C53_unattended_completes : forall c s ls s',
  sane c -> unbounded_store c -> c_inv c = InvEmpty -> c_rec c = RecRange ->
  c_cancel_on_drop c = false ->
  reach c (both no_empty_chunk nothing_fails) s -> g_rpc s = RDropped ->
  allowed c (both productive nothing_fails) s ls -> run c s ls = Some s' ->
  task_steps ls <= work_bound (length (c_content c)) /\
  (g_dpc s' <> DEnd ->
   exists l s'', task_label l = true /\ both productive nothing_fails s' l /\ step c s' l = Some s'') /\
  (g_dpc s' = DEnd ->
   completed s' /\ In (EvFinish true) (g_trace s') /\
   (c_seekable c = true -> c_clen c <> None -> forall x, x < length (c_content c) ->
    is_downloaded s' x /\ stored_byte s' x = nth_error (c_content c) x)).
Proof.
  intros c s ls s' Hs Hu Hi Hrc Hcd Hr Hd Ha H.
  assert (Hh : honours_ranges c) by (split; [congruence|exact Hrc]).
  assert (Hr0 : reach c no_empty_chunk s) by (revert Hr; apply reach_weaken; intros ? ? [A _]; exact A).
  assert (Hr' : reach c (both no_empty_chunk nothing_fails) s').
  { apply (allowed_reach c (both productive nothing_fails) _ ls s s'); auto.
    intros x l [A B]. split; [apply productive_chunks; exact A|exact B]. }
  assert (Hr1 : reach c no_empty_chunk s') by (revert Hr'; apply reach_weaken; intros ? ? [A _]; exact A).
  assert (Ha' : allowed c productive s ls) .
  { clear - Ha. revert s Ha. induction ls as [|l ls IH]; intros s Ha; cbn in *; auto.
    destruct Ha as [[A _] B]. split; [exact A|]. destruct (step c s l); auto. }
  split; [|split].
  - pose proof (task_bounded c ls s s' Hs Hu Hh Hr0 Ha' H) as B.
    rewrite (dropped_seeks c ls s s' Hd H) in B. unfold potential in B at 2. rewrite Hd in B. cbn [before_send] in B.
    destruct (moving_reach c s Hs Hu Hh Hr0) as [u Hm]. pose proof (measure_bound c s u Hs Hh Hm). lia.
  - intros Hn. apply unattended_enabled; auto.
  - intros He. pose proof (on_course_reach c s' (proj2 (proj2 Hs)) Hcd Hu Hr') as (O1 & _ & _).
    destruct (end_cancelled c _ s' Hr' He) as (E1 & E2 & ok & E3).
    assert (Hc : completed s') by (split; assumption).
    split; [exact Hc|]. split.
    + destruct ok; [exact E3|].
      destruct (finish_inv_reach c _ s' Hr') as (_ & F & _). destruct (F E3) as [X|X]; congruence.
    + intros S1 S2 x Hx. apply (C08_completion_means_everything c s' x); auto.
      revert Hr1. apply reach_weaken. intros s0 l A. destruct l; cbn in *; auto.
Qed.

(** The handle is dropped before anything arrived; one chunk goes into the prefetch phase,
    and the body ends early, so the task requests the rest. *)
Example C53_unattended_case :
  let c := mkCfg demo (Some 12) true 4 4 false InvEmpty RecRange (PPlain PlMem) in
  exists s ls s', reach c (both no_empty_chunk nothing_fails) s /\ g_rpc s = RDropped /\
    allowed c (both productive nothing_fails) s ls /\ run c s ls = Some s' /\ g_dpc s' = DEnd /\
    length (g_down s') = 1.
Proof.
  cbv zeta. eexists.
  exists ([LDSeekRes true; LDChunk 10] ++ Tk 8 ++ [LDEof] ++ Tk 2 ++ [LDFinishRes true] ++ Tk 2). eexists.
  split; [reach_tac (both_b empty_b nofail_b) ([LDrop; LDChunk 2] ++ Tk 2 ++ [LDEof])|].
  split; [reflexivity|].
  split; [eapply run_b_allowed with (ab := both_b productive_b nofail_b); [decides_tac|vm_compute; reflexivity]|].
  split; [vm_compute; reflexivity|split; reflexivity].
Qed.

Print Assumptions C20_ends_in_time.
Print Assumptions C53_unattended_completes.

(** * WaitsFacts: the program over the primitives refines the model. *)

From Coq Require Import List Arith Lia ZArith Bool.
From Verif Require Import Base RangeSet Storage System Spec StepTac InvSync Exec Progress LifeFacts TsoFacts Waits.
Import ListNotations.

(** ** Fields that only the notifications look at *)

Definition proj (g : gstate) (p : bool) (a : nat) : gstate := set_again (set_permit g p) a.

Lemma step_proj : forall c g p a l,
  (l = LDStep -> at_space (g_dpc g) = false) -> l <> LDAgain ->
  (l = LRStep -> match g_rpc g with RRNotify _ _ _ | RRDone _ _ _ _ => False | _ => True end) ->
  step c (proj g p a) l = match step c g l with Some g' => Some (proj g' p a) | None => None end.
Proof.
  intros c g p a l H1 H2 H3. destruct g as [st dn fl rq re dn' pe ag wr ch ca dp pf ps rm sc se rp tr].
  unfold proj. cbn [g_dpc g_rpc] in *.
  destruct l; try congruence;
  try specialize (H1 eq_refl); try specialize (H3 eq_refl);
  unfold step, d_step, r_step, handle_seek, should_seek, handle_bytes, finish_or_find_next_gap,
    seek_done, prefetch_done, report_downloading, report_complete, handle_reconnect, write_once, write_short, r_error; gsimpl;
  repeat (split_goal; gsimpl; try congruence); try congruence; try reflexivity; try contradiction; try discriminate.
Qed.

(** ** Steps outside the primitives *)

Lemma lift_some : forall w r w', lift w r = Some w' -> exists g', r = Some g' /\ w' = with_g w g'.
Proof. intros w [g'|] w' H; [|discriminate]. injection H as <-. eauto. Qed.

Lemma wl_cases : forall c w l w', wstep c w (WL l) = Some w' ->
  (exists g', step c (w_g w) l = Some g' /\ w' = with_g w g' /\
     (l = LDStep -> at_signal (g_dpc (w_g w)) = false /\ at_space (g_dpc (w_g w)) = false /\ sees (w_g w) = false) /\ l <> LDAgain /\
     (l = LRStep -> match g_rpc (w_g w) with
                    | RRNotify _ _ _ | RRDone _ _ _ _ | RRWait _ _ _ | RSWait _ _ => False | _ => True end) /\
     (if task_label l then w_t w = TOut else l = LUserCancel \/ r_free w = true)) \/
  (l = LRStep /\ r_free w = true /\ exists n pos rq, g_rpc (w_g w) = RRNotify n pos rq /\
     w' = mkW (set_rpc (w_g w) (RRWait n pos rq)) (w_lock w) (w_r w) (w_t w) (w_n w) (w_permit w) (g_wreq (w_g w))) \/
  (l = LRStep /\ r_free w = true /\ exists n pos waited r, g_rpc (w_g w) = RRDone n pos waited r /\
     w' = mkW (finish_read (set_wreq (w_g w) false) pos n waited r)
              (w_lock w) (w_r w) (w_t w) (w_n w) (w_permit w) (g_wreq (w_g w))) \/
  (l = LDStep /\ w_t w = TOut /\ sees (w_g w) = true /\
     w' = mkW (w_g w) (w_lock w) (w_r w) TSeen (w_n w) (w_permit w) (w_fly w)).
Proof.
  intros c w l w' H.
  assert (Tk : forall r, t_free w = true -> lift w r = Some w' -> exists g', r = Some g' /\ w' = with_g w g' /\ w_t w = TOut).
  { intros r A B. apply lift_some in B as (g' & -> & ->). unfold t_free in A. destruct (w_t w); try discriminate. eauto. }
  assert (P : task_label l = true -> l <> LDStep -> l <> LDAgain -> t_free w = true -> lift w (step c (w_g w) l) = Some w' ->
    exists g', step c (w_g w) l = Some g' /\ w' = with_g w g' /\
     (l = LDStep -> at_signal (g_dpc (w_g w)) = false /\ at_space (g_dpc (w_g w)) = false /\ sees (w_g w) = false) /\ l <> LDAgain /\
     (l = LRStep -> match g_rpc (w_g w) with
                    | RRNotify _ _ _ | RRDone _ _ _ _ | RRWait _ _ _ | RSWait _ _ => False | _ => True end) /\
     (if task_label l then w_t w = TOut else l = LUserCancel \/ r_free w = true)).
  { intros A B D E F. destruct (Tk _ E F) as (g' & -> & -> & G). exists g'. rewrite A.
    split; [auto|split; [auto|split; [congruence|split; [auto|split; [intros ->; discriminate|auto]]]]]. }
  assert (Q : task_label l = false -> l <> LRStep -> (l = LUserCancel \/ r_free w = true) -> lift w (step c (w_g w) l) = Some w' ->
    exists g', step c (w_g w) l = Some g' /\ w' = with_g w g' /\
     (l = LDStep -> at_signal (g_dpc (w_g w)) = false /\ at_space (g_dpc (w_g w)) = false /\ sees (w_g w) = false) /\ l <> LDAgain /\
     (l = LRStep -> match g_rpc (w_g w) with
                    | RRNotify _ _ _ | RRDone _ _ _ _ | RRWait _ _ _ | RSWait _ _ => False | _ => True end) /\
     (if task_label l then w_t w = TOut else l = LUserCancel \/ r_free w = true)).
  { intros A B D F. apply lift_some in F as (g' & -> & ->). exists g'. rewrite A.
    split; [auto|split; [auto|split; [intros ->; discriminate|split; [intros ->; discriminate|split; [congruence|auto]]]]]. }
  destruct l; cbn [wstep] in H;
    try (left; apply P; [reflexivity|discriminate|discriminate| |];
         destruct (t_free w); try discriminate H; auto; fail);
    try (left; apply Q; [reflexivity|discriminate| |];
         try (destruct (r_free w); try discriminate H); auto; fail); try discriminate H.
  - destruct (t_free w) eqn:Ef; [|discriminate H]. cbn [andb] in H.
    destruct (at_signal _) eqn:E1; [discriminate H|]. destruct (at_space _) eqn:E2; [discriminate H|].
    cbn [orb negb] in H. destruct (sees (w_g w)) eqn:E3.
    { right. right. right. injection H as <-. unfold t_free in Ef. destruct (w_t w); try discriminate Ef. auto. }
    left. destruct (Tk _ eq_refl H) as (g' & -> & -> & G). exists g'. cbn [task_label].
    split; [auto|split; [auto|split; [auto|split; [discriminate|split; [discriminate|auto]]]]].
  - destruct (r_free w) eqn:Ef; [|discriminate H]. unfold wr_step in H.
    destruct (g_rpc (w_g w)) eqn:Er; try discriminate H;
      try (left; apply lift_some in H as (g' & E & ->); exists g'; cbn [task_label];
           split; [auto|split; [auto|split; [discriminate|split; [discriminate|split; [auto|auto]]]]]; fail).
    + right. left. injection H as <-. repeat split; eauto 10.
    + right. right. left. injection H as <-. repeat split; eauto 10.
Qed.

(** ** Invariant *)

Definition holds_r (r : rstage) : bool :=
  match r with REntered | RTest | ROver | RLeaving => true | _ => false end.
Definition holds_t (t : tstage) : bool :=
  match t with TLocked | TStored => true | _ => false end.
Definition waiting (r : rstage) : bool :=
  match r with ROut | RLeaving => false | _ => true end.
Definition waking (t : tstage) : bool :=
  match t with TStored | TReleased => true | _ => false end.
Definition told (g : gstate) : bool := g_done g || g_reached g.

Record winv (w : wstate) : Prop := {
  wi_lock : w_lock w = if holds_r (w_r w) then Some Reader else if holds_t (w_t w) then Some Task else None;
  wi_one : holds_r (w_r w) = true -> holds_t (w_t w) = false;
  wi_wait : waiting (w_r w) = true -> at_wait (g_rpc (w_g w)) = true;
  wi_fly : w_r w <> ROut -> w_fly w = false;
  wi_over : w_r w = ROver -> told (w_g w) = true;
  wi_sleep : w_r w = RAsleep -> told (w_g w) = true -> waking (w_t w) = true;
  wi_sig : w_t w = TLocked -> at_signal (g_dpc (w_g w)) = true;
  wi_n : w_n w <> NIdle -> at_space (g_dpc (w_g w)) = true /\ w_t w = TOut;
  wi_q : w_n w = NQueued -> w_permit w = false;
  wi_chk : w_t w = TSeen -> match g_dpc (w_g w) with DWCheck _ _ _ _ => True | _ => False end }.

Lemma told_task : forall c g l g', step c g l = Some g' -> task_label l = true ->
  (l = LDStep -> at_signal (g_dpc g) = false) -> told g' = told g /\ g_rpc g' = g_rpc g.
Proof.
  intros c g l g' H Hl Hs. split; [|eapply task_step_rpc; eauto].
  unfold told. destruct l; try discriminate Hl; try specialize (Hs eq_refl); step_cases H; gsimpl; auto; discriminate.
Qed.

Lemma told_mono : forall c g l g', step c g l = Some g' -> task_label l = true -> told g = true -> told g' = true.
Proof.
  intros c g l g' H Hl Hs. unfold told in *. destruct l; try discriminate Hl; step_cases H; gsimpl; auto;
    try (apply orb_true_r); auto.
Qed.

Lemma user_dpc : forall c g l g', step c g l = Some g' -> task_label l = false -> g_dpc g' = g_dpc g.
Proof. intros c g l g' H Hl. destruct l; try discriminate Hl; step_cases H; gsimpl; auto. Qed.

Lemma cancel_frame : forall c g g', step c g LUserCancel = Some g' ->
  told g' = told g /\ g_rpc g' = g_rpc g /\ g_dpc g' = g_dpc g.
Proof. intros c g g' H. injection H as <-. auto. Qed.

Lemma leaving_pc : forall c g g', at_wait (g_rpc g) = true -> step c g LRStep = Some g' ->
  told g = true /\ g_dpc g' = g_dpc g.
Proof.
  intros c g g' A H. unfold told. cbn [step] in H. unfold r_step in H. destruct (g_rpc g); try discriminate A;
    destruct (g_done g), (g_reached g); try discriminate H; injection H as <-; auto.
Qed.

Lemma winv_step : forall c w l w', winv w -> wstep c w l = Some w' -> winv w'.
Proof.
  intros c w l w' [I1 I2 I3 I4 I5 I6 I7 I8 I9 I10] H. destruct l.
  - destruct (wl_cases c w l w' H) as [(g' & E & -> & B1 & B2 & B3 & B4)|[(-> & B1 & n & pos & rq & B2 & ->)|[(-> & B1 & n & pos & wt & r & B2 & ->)|(-> & B1 & B2 & ->)]]].
    + unfold with_g. destruct (task_label l) eqn:El.
      * destruct (told_task c _ l g' E El) as [T1 T2]; [intros Hl; apply B1; auto|].
        constructor; cbn [w_g w_lock w_r w_t w_n w_permit w_fly]; auto.
        -- rewrite T2; auto.
        -- rewrite T1; auto.
        -- rewrite T1; auto.
        -- rewrite B4. discriminate.
        -- intros Hn. split; [|auto]. exfalso. destruct (I8 Hn) as [S1 S2].
           destruct (g_dpc (w_g w)) eqn:Ed; try discriminate S1.
           destruct l; try discriminate El; cbn [step] in E; try rewrite Ed in E; try discriminate E.
           ++ destruct (B1 eq_refl) as [_ [B _]]. discriminate B.
           ++ congruence.
        -- rewrite B4. discriminate.
      * pose proof (user_dpc c _ l g' E El) as Ed.
        destruct B4 as [->|B4].
        -- destruct (cancel_frame _ _ _ E) as (T1 & T2 & T3).
           constructor; cbn [w_g w_lock w_r w_t w_n w_permit w_fly]; rewrite ?T1, ?T2, ?T3; auto.
        -- unfold r_free in B4. destruct (w_r w) eqn:Er; try discriminate B4.
           constructor; cbn [w_g w_lock w_r w_t w_n w_permit w_fly]; rewrite ?Er, ?Ed; auto; try discriminate.
    + unfold r_free in B1. destruct (w_r w) eqn:Er; try discriminate B1.
      constructor; cbn [w_g w_lock w_r w_t w_n w_permit w_fly]; rewrite ?Er; gsimpl; auto; try discriminate; congruence.
    + unfold r_free in B1. destruct (w_r w) eqn:Er; try discriminate B1.
      constructor; cbn [w_g w_lock w_r w_t w_n w_permit w_fly]; rewrite ?Er; gsimpl; auto; try discriminate; congruence.
    + assert (Hc : match g_dpc (w_g w) with DWCheck _ _ _ _ => True | _ => False end).
      { unfold sees in B2. destruct (g_dpc (w_g w)); try discriminate B2. exact I. }
      constructor; cbn [w_g w_lock w_r w_t w_n w_permit w_fly holds_t waking]; rewrite ?B1 in *; auto; try discriminate.
      intros Hn. destruct (I8 Hn) as [S1 _]. destruct (g_dpc (w_g w)); try discriminate S1; contradiction.
  - (* WRLock *)
    cbn [wstep] in H. destruct (w_lock w) eqn:El; [discriminate H|]. destruct (w_r w) eqn:Er; try discriminate H.
    + destruct (at_wait (g_rpc (w_g w))) eqn:Ea; [|discriminate H]. destruct (w_fly w) eqn:Ef; [discriminate H|].
      injection H as <-.
      constructor; cbn [w_g w_lock w_r w_t w_n w_permit w_fly holds_r waiting]; auto; try discriminate; try (intros _; apply I4; discriminate).
      intros _. destruct (holds_t (w_t w)); auto; discriminate.
    + injection H as <-.
      constructor; cbn [w_g w_lock w_r w_t w_n w_permit w_fly holds_r waiting]; auto; try discriminate; try (intros _; apply I4; discriminate).
      intros _. destruct (holds_t (w_t w)); auto; discriminate.
  - (* WRRun *)
    cbn [wstep] in H. destruct (w_r w) eqn:Er; try discriminate H.
    + destruct (g_done (w_g w)) eqn:Ed.
      * destruct (step c (w_g w) LRStep) as [g'|] eqn:E; [|discriminate H]. injection H as <-.
        destruct (leaving_pc c _ _ (I3 eq_refl) E) as [_ Ed'].
        constructor; cbn [w_g w_lock w_r w_t w_n w_permit w_fly holds_r waiting]; rewrite ?Ed'; auto; try discriminate; try (intros _; apply I4; discriminate).
      * injection H as <-.
        constructor; cbn [w_g w_lock w_r w_t w_n w_permit w_fly holds_r waiting]; auto; try discriminate; try (intros _; apply I4; discriminate).
    + destruct (negb (g_done (w_g w)) && negb (g_reached (w_g w))) eqn:Ec; injection H as <-.
      * constructor; cbn [w_g w_lock w_r w_t w_n w_permit w_fly holds_r waiting]; auto; try discriminate; try (intros _; apply I4; discriminate).
        -- rewrite (I2 eq_refl). reflexivity.
        -- unfold told. destruct (g_done _), (g_reached _); discriminate.
      * constructor; cbn [w_g w_lock w_r w_t w_n w_permit w_fly holds_r waiting]; auto; try discriminate; try (intros _; apply I4; discriminate).
        intros _. unfold told. destruct (g_done _), (g_reached _); auto; discriminate.
    + destruct (step c (w_g w) LRStep) as [g'|] eqn:E; [|discriminate H]. injection H as <-.
      destruct (leaving_pc c _ _ (I3 eq_refl) E) as [_ Ed'].
      constructor; cbn [w_g w_lock w_r w_t w_n w_permit w_fly holds_r waiting]; rewrite ?Ed'; auto; try discriminate; try (intros _; apply I4; discriminate).
    + injection H as <-.
      constructor; cbn [w_g w_lock w_r w_t w_n w_permit w_fly holds_r waiting]; auto; try discriminate; try congruence.
      rewrite (I2 eq_refl). reflexivity.
  - (* WSpurious *)
    cbn [wstep] in H. destruct (w_r w) eqn:Er; try discriminate H. injection H as <-.
    constructor; cbn [w_g w_lock w_r w_t w_n w_permit w_fly holds_r waiting] in *; auto; try discriminate.
    intros _. apply I4. discriminate.
  - (* WNotifyOne *)
    cbn [wstep] in H. destruct (w_fly w) eqn:Ef; [|discriminate H].
    assert (Er : w_r w = ROut) by (destruct (w_r w); auto; assert (true = false) by (apply I4; discriminate); discriminate).
    destruct (w_n w) eqn:En; injection H as <-;
      constructor; cbn [w_g w_lock w_r w_t w_n w_permit w_fly holds_r waiting] in *; auto; try discriminate; try congruence.
    all: intros _; apply I8; discriminate.
  - (* WTLock *)
    cbn [wstep] in H. destruct (w_lock w) eqn:El; [discriminate H|]. destruct (w_t w) eqn:Et; try discriminate H.
    destruct (at_signal (g_dpc (w_g w))) eqn:Ea; [|discriminate H]. injection H as <-.
    assert (Hr : holds_r (w_r w) = false) by (destruct (holds_r (w_r w)); auto; discriminate).
    constructor; cbn [w_g w_lock w_r w_t w_n w_permit w_fly holds_t waking] in *; auto; try discriminate.
    + rewrite Hr. auto.
    + rewrite Hr. discriminate.
    + intros Hn. destruct (I8 Hn) as [S1 _]. destruct (g_dpc (w_g w)); discriminate.
  - (* WTRun *)
    cbn [wstep] in H. destruct (w_t w) eqn:Et; try discriminate H.
    + specialize (I10 eq_refl). destruct (g_dpc (w_g w)) eqn:Ed; try contradiction. injection H as <-.
      constructor; cbn [w_g w_lock w_r w_t w_n w_permit w_fly holds_t waking] in *; gsimpl; auto; try discriminate.
      intros Hn. destruct (I8 Hn) as [S1 _]. discriminate S1.
    + destruct (step c (w_g w) LDStep) as [g'|] eqn:E; [|discriminate H]. injection H as <-.
      pose proof (task_step_rpc c _ LDStep _ eq_refl E) as Ep.
      constructor; cbn [w_g w_lock w_r w_t w_n w_permit w_fly holds_t waking] in *; rewrite ?Ep; auto; try discriminate.
      * intros Ho. eapply told_mono; eauto.
      * intros Hn. destruct (I8 Hn) as [_ K]. discriminate K.
    + injection H as <-.
      constructor; cbn [w_g w_lock w_r w_t w_n w_permit w_fly holds_t waking] in *; auto; try discriminate.
      * destruct (holds_r (w_r w)); [specialize (I2 eq_refl); discriminate|reflexivity].
      * intros Hn. destruct (I8 Hn) as [_ K]. discriminate K.
    + injection H as <-.
      constructor; cbn [w_g w_lock w_r w_t w_n w_permit w_fly holds_t waking] in *; auto; try discriminate.
      * rewrite I1. destruct (w_r w); reflexivity.
      * destruct (w_r w); auto.
      * destruct (w_r w); auto; intros; apply I4; discriminate.
      * destruct (w_r w); auto; discriminate.
      * destruct (w_r w); discriminate.
      * intros Hn. destruct (I8 Hn) as [_ K]. discriminate K.
  - (* WPoll *)
    cbn [wstep] in H. destruct (w_t w) eqn:Et; try discriminate H.
    destruct (g_dpc (w_g w)) eqn:Ed; try discriminate H. destruct (w_n w) eqn:En; try discriminate H.
    + destruct (w_permit w) eqn:Ep; injection H as <-;
        constructor; cbn [w_g w_lock w_r w_t w_n w_permit w_fly holds_t waking] in *; gsimpl; auto; try discriminate; try congruence.
      rewrite Ed. auto.
    + injection H as <-.
      constructor; cbn [w_g w_lock w_r w_t w_n w_permit w_fly holds_t waking] in *; gsimpl; auto; try discriminate; try congruence.
Qed.

Lemma winv_reach : forall c allow w, wreach c allow w -> winv w.
Proof.
  intros c allow w H. induction H as [g H|w l w' Hr IH Hl H]; [|eapply winv_step; eauto].
  constructor; cbn; auto; try discriminate; congruence.
Qed.

(** ** Refinement *)

Definition one (b : bool) : nat := if b then 1 else 0.
(** Wake-ups that are on their way to the task. *)
Definition tokens (w : wstate) : nat :=
  match w_n w with NWoken => 1 | _ => 0 end + one (w_permit w) + one (w_fly w).

Lemma proj_notify : forall c g p a n pos rq, g_rpc g = RRNotify n pos rq ->
  step c (proj g p a) LRStep =
  Some (proj (set_rpc g (RRWait n pos rq)) (if g_wreq g then true else p)
             (if g_wreq g then if p then Nat.min 2 (S a) else a else a)).
Proof.
  intros c g p a n pos rq E. cbn [step]. unfold r_step, proj. gsimpl. rewrite E.
  destruct (g_wreq g); reflexivity.
Qed.

Lemma proj_done : forall c g p a n pos wt r, g_rpc g = RRDone n pos wt r ->
  step c (proj g p a) LRStep =
  Some (proj (finish_read (set_wreq g false) pos n wt r) (if g_wreq g then true else p)
             (if g_wreq g then if p then Nat.min 2 (S a) else a else a)).
Proof.
  intros c g p a n pos wt r E. cbn [step]. unfold r_step, proj. gsimpl. rewrite E.
  destruct (g_wreq g) eqn:Ew; [reflexivity|]. destruct g. gsimpl. subst. reflexivity.
Qed.

Lemma cover_notify : forall n q p a b, one p <= n + one q + 0 <= one p + a -> n <= 1 ->
  one (if b : bool then true else p) <= n + one q + one b <=
  one (if b then true else p) + (if b then if p then Nat.min 2 (S a) else a else a).
Proof. intros n q p a b H Hn. destruct b, p, q; cbn [one] in *; lia. Qed.

(** While the task is between its load of the requested position and the store that clears
    it, the reader is on its way to its wait and stores nothing. *)
Lemma seen_stays : forall c g l g', sync g -> sees g = true -> task_label l = false ->
  step c g l = Some g' -> sees g' = true.
Proof.
  intros c g l g' S H Hl E. unfold sees in *. destruct (g_dpc g) eqn:Ed; try discriminate H.
  destruct (g_req g) as [r|] eqn:Er; [|discriminate H].
  assert (Hd : g_done g = false).
  { destruct (g_done g) eqn:X; auto. pose proof (sy_done _ S X) as K. rewrite Ed in K. discriminate. }
  pose proof (sy_wait _ S Hd) as K. unfold sync_wait in K. rewrite Er in K.
  destruct (wait_target (g_rpc g)) as [t|] eqn:Et; [|destruct K; discriminate].
  destruct K as [(_ & K & _)|[(K & _)|(K & _)]]; try discriminate K.
  destruct l; try discriminate Hl; cbn [step] in E.
  - unfold r_step in E. rewrite Hd, K in E. destruct (g_rpc g) eqn:Ep; try discriminate Et; try discriminate E; injection E as <-; gsimpl.
    + destruct (g_wreq g); gsimpl; rewrite Ed, Er; exact H.
    + destruct (g_chan g); [|destruct (chan_open _)]; gsimpl; rewrite Ed, Er; exact H.
  - unfold r_error in E. destruct (g_rpc g); try discriminate Et; discriminate E.
  - destruct (g_rpc g); try discriminate Et; discriminate E.
  - injection E as <-. gsimpl. rewrite Ed, Er. exact H.
  - destruct (g_rpc g); try discriminate Et; discriminate E.
Qed.

Lemma waits_refine : forall c allow w, deaf allow -> wreach c allow w ->
  exists p a, reach c allow (proj (w_g w) p a) /\ one p <= tokens w <= one p + a /\
    (w_t w = TSeen -> sees (w_g w) = true).
Proof.
  intros c allow w [D1 D2] H. induction H as [g H|w l w' Hr IH Hl H].
  { exists false, 0. split; [|split; [cbn; lia|discriminate]]. unfold init in H. destruct (into_rw _ _) eqn:E; [|discriminate].
    injection H as <-. apply reach_init. unfold init. rewrite E. reflexivity. }
  destruct IH as (p & a & IR & IC & IS). pose proof (winv_reach _ _ _ Hr) as I.
  assert (Keep : forall g', w_g w' = g' -> g' = w_g w -> tokens w' = tokens w ->
    (w_t w' = TSeen -> w_t w = TSeen \/ sees (w_g w) = true) ->
    exists p a, reach c allow (proj (w_g w') p a) /\ one p <= tokens w' <= one p + a /\
      (w_t w' = TSeen -> sees (w_g w') = true)).
  { intros g' -> -> -> K. exists p, a. split; [auto|split; [auto|]]. intros X. destruct (K X); auto. }
  assert (Same : forall g' lb, step c (w_g w) lb = Some g' -> allow (w_g w) lb -> w_g w' = g' -> tokens w' = tokens w ->
    (lb = LDStep -> at_space (g_dpc (w_g w)) = false) -> lb <> LDAgain ->
    (lb = LRStep -> match g_rpc (w_g w) with RRNotify _ _ _ | RRDone _ _ _ _ => False | _ => True end) ->
    (w_t w' = TSeen -> w_t w = TSeen /\ task_label lb = false) ->
    exists p a, reach c allow (proj (w_g w') p a) /\ one p <= tokens w' <= one p + a /\
      (w_t w' = TSeen -> sees (w_g w') = true)).
  { intros g' lb E Ha <- -> F1 F2 F3 F4. exists p, a. split; [|split; [exact IC|]].
    2: { intros X. destruct (F4 X) as [Y Z]. pose proof (sync_reach _ _ _ IR) as Sy.
         assert (E2 : step c (proj (w_g w) p a) lb = Some (proj (w_g w') p a)) by (rewrite step_proj by auto; rewrite E; reflexivity).
         exact (seen_stays c _ lb _ Sy (IS Y) Z E2). }
    eapply reach_step with (l := lb); [exact IR|apply D1; exact Ha|].
    rewrite step_proj by auto. rewrite E. reflexivity. }
  assert (Pass : forall bytes k pos, g_dpc (w_g w) = DWWait bytes k pos -> allow (w_g w) LDStep ->
    w_g w' = set_dpc (w_g w) (DWTop bytes k pos) -> tokens w = S (tokens w') -> w_t w' = TOut ->
    exists p a, reach c allow (proj (w_g w') p a) /\ one p <= tokens w' <= one p + a /\
      (w_t w' = TSeen -> sees (w_g w') = true)).
  { intros bytes k pos Ed Ha -> Et Eo. destruct p; cbn [one] in IC.
    - exists false, a. split; [|split; [cbn [one]; lia|rewrite Eo; discriminate]].
      eapply reach_step with (l := LDStep); [exact IR|apply D1; exact Ha|].
      cbn [step]. unfold d_step, proj. gsimpl. rewrite Ed. reflexivity.
    - destruct a as [|a]; [lia|]. exists false, a. split; [|split; [cbn [one]; lia|rewrite Eo; discriminate]].
      eapply reach_step with (l := LDAgain); [exact IR|apply D1, D2; exact Ha|].
      cbn [step]. unfold proj. gsimpl. rewrite Ed. reflexivity. }
  destruct l.
  - unfold wallowed in Hl.
    destruct (wl_cases c w l w' H) as [(g' & E & -> & B1 & B2 & B3 & B4)|[(-> & B1 & n & pos & rq & B2 & ->)|[(-> & B1 & n & pos & wt & r & B2 & ->)|(-> & B1 & B2 & ->)]]].
    + assert (Hl' : allow (w_g w) l).
      { destruct l; try exact Hl. cbn [counts_as] in Hl. destruct (B1 eq_refl) as (_ & _ & X). rewrite X in Hl. exact Hl. }
      apply (Same g' l); auto.
      * intros X. apply B1; auto.
      * intros X. specialize (B3 X). destruct (g_rpc (w_g w)); auto.
      * cbn [with_g w_t]. intros X. split; [exact X|]. destruct (task_label l); [congruence|reflexivity].
    + unfold r_free in B1. destruct (w_r w); try discriminate B1. destruct (w_fly w) eqn:Ef; try discriminate B1.
      eexists _, _. split.
      * eapply reach_step with (l := LRStep); [exact IR|apply D1; exact Hl|]. cbn [w_g].
        apply proj_notify. exact B2.
      * split; [unfold tokens in *; rewrite Ef in IC; cbn [w_n w_permit w_fly]; apply cover_notify; [exact IC|destruct (w_n w); lia]|].
        cbn [w_t w_g]. intros X. specialize (IS X). unfold sees, finish_read in *. gsimpl. exact IS.
    + unfold r_free in B1. destruct (w_r w); try discriminate B1. destruct (w_fly w) eqn:Ef; try discriminate B1.
      eexists _, _. split.
      * eapply reach_step with (l := LRStep); [exact IR|apply D1; exact Hl|]. cbn [w_g].
        apply proj_done. exact B2.
      * split; [unfold tokens in *; rewrite Ef in IC; cbn [w_n w_permit w_fly]; apply cover_notify; [exact IC|destruct (w_n w); lia]|].
        cbn [w_t w_g]. intros X. specialize (IS X). unfold sees, finish_read in *. gsimpl. exact IS.
    + eapply Keep; try reflexivity. auto.
  - cbn [wstep] in H. destruct (w_lock w); [discriminate H|]. destruct (w_r w); try discriminate H.
    + destruct (_ && _); [|discriminate H]. injection H as <-. eapply Keep; cbn; auto; discriminate.
    + injection H as <-. eapply Keep; cbn; auto; discriminate.
  - pose proof (wi_wait _ I) as W. unfold wallowed, counts_as in Hl. cbn [wstep] in H.
    destruct (w_r w) eqn:Er; try discriminate H; cbn [waiting] in W.
    + destruct (g_done (w_g w)) eqn:Ed; [|injection H as <-; eapply Keep; cbn; auto; discriminate].
      destruct (step c (w_g w) LRStep) as [g'|] eqn:E; [|discriminate H]. injection H as <-.
      apply (Same g' LRStep); auto; try discriminate. intros _. specialize (W eq_refl).
      destruct (g_rpc (w_g w)); auto; discriminate.
    + destruct (_ && _); injection H as <-; eapply Keep; cbn; auto; discriminate.
    + destruct (step c (w_g w) LRStep) as [g'|] eqn:E; [|discriminate H]. injection H as <-.
      apply (Same g' LRStep); auto; try discriminate. intros _. specialize (W eq_refl).
      destruct (g_rpc (w_g w)); auto; discriminate.
    + injection H as <-; eapply Keep; cbn; auto; discriminate.
  - cbn [wstep] in H. destruct (w_r w); try discriminate H. injection H as <-; eapply Keep; cbn; auto; discriminate.
  - pose proof (wi_q _ I) as Q. cbn [wstep] in H. destruct (w_fly w) eqn:Ef; [|discriminate H]. exists p, a.
    unfold tokens in *. rewrite Ef in IC.
    destruct (w_n w) eqn:En; injection H as <-; cbn [w_g w_n w_permit w_fly]; (split; [exact IR|split; [|exact IS]]);
      destruct (w_permit w), p; cbn [one] in *; try lia; specialize (Q eq_refl); discriminate.
  - cbn [wstep] in H. destruct (w_lock w); [discriminate H|]. destruct (w_t w); try discriminate H.
    destruct (at_signal _); [|discriminate H]. injection H as <-; eapply Keep; cbn; auto; discriminate.
  - pose proof (wi_sig _ I) as Sg. unfold wallowed, counts_as in Hl. cbn [wstep] in H. destruct (w_t w) eqn:Et; try discriminate H.
    + specialize (IS eq_refl). unfold sees in IS. destruct (g_dpc (w_g w)) eqn:Ed; try discriminate H. injection H as <-.
      destruct (g_req (w_g w)) as [r|] eqn:Eq; [|discriminate IS].
      eapply (Same _ LDStep); auto; try discriminate. cbn [step]. unfold d_step. rewrite Ed, Eq, IS. reflexivity.
    + destruct (step c (w_g w) LDStep) as [g'|] eqn:E; [|discriminate H]. injection H as <-.
      apply (Same g' LDStep); auto; try discriminate. intros _. specialize (Sg eq_refl).
      destruct (g_dpc (w_g w)); auto; discriminate.
    + injection H as <-; eapply Keep; cbn; auto; discriminate.
    + injection H as <-; eapply Keep; cbn; auto; discriminate.
  - unfold wallowed, counts_as in Hl. cbn [wstep] in H. destruct (w_t w) eqn:Et; try discriminate H.
    destruct (g_dpc (w_g w)) eqn:Ed; try discriminate H. destruct (w_n w) eqn:En; try discriminate H.
    + destruct (w_permit w) eqn:Ep; injection H as <-.
      * eapply Pass; [reflexivity|exact Hl|reflexivity| |reflexivity]. unfold tokens. rewrite En, Ep. cbn. lia.
      * eapply Keep; [reflexivity|reflexivity| |discriminate]. unfold tokens. rewrite En, Ep. cbn. lia.
    + injection H as <-. eapply Pass; [reflexivity|exact Hl|reflexivity| |reflexivity]. unfold tokens. rewrite En. cbn. lia.
Qed.

(** ** Deadlock *)

Lemma reader_enabled : forall c g, in_call g -> at_wait (g_rpc g) = false -> exists g', step c g LRStep = Some g'.
Proof.
  intros c g A B. unfold in_call in A. cbn [step]. unfold r_step. destruct (g_rpc g); try contradiction; try discriminate B; eauto;
    repeat match goal with
      | |- exists g', Some ?x = Some g' => exists x; reflexivity
      | |- context [match ?x with _ => _ end] => destruct x
      end.
Qed.

Lemma wblocked_stage : forall c w, winv w -> wblocked c w ->
  (exists l w', task_side l = true /\ wstep c w l = Some w') \/
  (w_r w = RAsleep /\ told (w_g w) = false).
Proof.
  intros c w I [Hc Hb].
  assert (TR : w_t w = TLocked \/ w_t w = TStored \/ w_t w = TReleased -> exists l w', task_side l = true /\ wstep c w l = Some w').
  { intros Ht. exists WTRun. cbn [wstep]. destruct Ht as [Ht|[Ht|Ht]]; rewrite Ht; eauto.
    pose proof (wi_sig _ I Ht) as S. cbn [step]. unfold d_step. destruct (g_dpc (w_g w)); try discriminate S; eauto. }
  pose proof (Hb WRRun eq_refl) as B1. pose proof (Hb WRLock eq_refl) as B2. pose proof (Hb (WL LRStep) eq_refl) as B3.
  pose proof (Hb WNotifyOne eq_refl) as B4. cbn [wstep] in B1, B2, B3, B4.
  pose proof (wi_lock _ I) as L. pose proof (wi_wait _ I) as W. pose proof (wi_over _ I) as O. pose proof (wi_sleep _ I) as Sl.
  assert (LK : w_lock w <> None -> holds_r (w_r w) = false -> exists l w', task_side l = true /\ wstep c w l = Some w').
  { intros A B. rewrite B in L. destruct (holds_t (w_t w)) eqn:E; [|congruence].
    apply TR. destruct (w_t w); try discriminate E; auto. }
  destruct (w_fly w) eqn:Ef; [destruct (w_n w); discriminate B4|].
  assert (Run : at_wait (g_rpc (w_g w)) = true -> told (w_g w) = true -> exists g', step c (w_g w) LRStep = Some g').
  { intros A B. unfold told in B. cbn [step]. unfold r_step.
    destruct (g_rpc (w_g w)); try discriminate A; destruct (g_done (w_g w)); eauto; destruct (g_reached (w_g w)); eauto; discriminate. }
  unfold r_free in B3. destruct (w_r w) eqn:Er; rewrite ?Ef in *; cbn [negb andb] in *.
  - destruct (at_wait (g_rpc (w_g w))) eqn:Ea.
    + left. apply LK; [|reflexivity]. intros E. rewrite E in B2. discriminate B2.
    + exfalso. destruct Hc as [Hc|Hc]; [|unfold r_free in Hc; rewrite Er, Ef in Hc; discriminate].
      destruct (reader_enabled c (w_g w) Hc Ea) as [g' E]. unfold wr_step, lift in B3. rewrite E in B3.
      destruct (g_rpc (w_g w)); discriminate.
  - exfalso. destruct (g_done (w_g w)) eqn:Ed; [|discriminate B1].
    destruct (Run (W eq_refl)) as [g' E]; [unfold told; rewrite Ed; reflexivity|]. rewrite E in B1. discriminate.
  - exfalso. destruct (_ && _); discriminate.
  - destruct (told (w_g w)) eqn:Et; [|auto]. left. apply TR. specialize (Sl eq_refl eq_refl).
    destruct (w_t w); try discriminate Sl; auto.
  - left. apply LK; [|reflexivity]. intros E. rewrite E in B2. discriminate B2.
  - exfalso. destruct (Run (W eq_refl) (O eq_refl)) as [g' E]. rewrite E in B1. discriminate.
  - discriminate B1.
Qed.

Lemma waits_progress : forall c allow w, deaf allow -> wreach c allow w ->
  (forall s, reach c allow s -> blocked c s -> task_can_move c s) ->
  wblocked c w -> wtask_can_move c w.
Proof.
  intros c allow w D H Hs Hb. pose proof (winv_reach _ _ _ H) as I.
  destruct (wblocked_stage c w I Hb) as [K|[Er Et]]; [right; exact K|].
  destruct (waits_refine c allow w D H) as (p & a & IR & IC & IS).
  pose proof (wi_wait _ I) as W. rewrite Er in W. specialize (W eq_refl).
  assert (B : blocked c (proj (w_g w) p a)).
  { unfold told in Et. apply orb_false_elim in Et as [E1 E2]. unfold blocked, in_call, proj. cbn [step]. unfold r_step. gsimpl.
    rewrite E1, E2. destruct (g_rpc (w_g w)); try discriminate W; auto. }
  pose proof (wi_fly _ I) as F. rewrite Er in F. specialize (F ltac:(discriminate)).
  pose proof (wi_lock _ I) as L. rewrite Er in L. cbn [holds_r] in L.
  destruct (w_t w) eqn:Ew.
  2: right; exists WTRun; cbn [wstep]; rewrite Ew; specialize (IS eq_refl); unfold sees in IS;
     destruct (g_dpc (w_g w)); try discriminate IS; eauto.
  2: right; exists WTRun; cbn [wstep]; rewrite Ew; pose proof (wi_sig _ I Ew) as S; cbn [step]; unfold d_step;
     destruct (g_dpc (w_g w)); try discriminate S; eauto.
  2,3: right; exists WTRun; cbn [wstep]; rewrite Ew; eauto.
  destruct (Hs _ IR B) as [K|[s' K]]; [left; split; auto|].
  right. destruct (at_signal (g_dpc (w_g w))) eqn:Es.
  { exists WTLock. cbn [wstep]. rewrite Ew, L. cbn [holds_t]. rewrite Es. eauto. }
  destruct (at_space (g_dpc (w_g w))) eqn:Ep.
  - exists WPoll. cbn [wstep]. rewrite Ew. destruct (g_dpc (w_g w)) eqn:Ed; try discriminate Ep.
    cbn [step] in K. unfold d_step, proj in K. gsimpl. rewrite Ed in K. destruct p; [|discriminate K].
    unfold tokens in IC. rewrite F in IC. pose proof (wi_q _ I) as Q.
    destruct (w_n w); eauto.
    + destruct (w_permit w); eauto.
    + rewrite (Q eq_refl) in IC. cbn in IC. lia.
  - exists (WL LDStep). cbn [wstep]. unfold t_free. rewrite Ew, Es, Ep. cbn [andb orb negb].
    rewrite step_proj in K by (auto; discriminate).
    destruct (sees (w_g w)); eauto.
    destruct (step c (w_g w) LDStep) as [g'|]; [|discriminate K]. cbn [lift]. eauto.
Qed.

(** ** The primitives alone do not keep anyone busy *)

Definition wrank (w : wstate) : nat :=
  match w_r w with
  | ROut => 4 | REntered => 3 | RTest => 2 | RAsleep => 0 | RAwake => 3 | ROver => 1 | RLeaving => 5
  end +
  match w_t w with TOut => 6 | TSeen | TLocked => 5 | TStored => 11 | TReleased => 10 end +
  match w_n w with NIdle => 1 | _ => 0 end +
  one (w_fly w).

Lemma wrank_bound : forall w, wrank w <= 18.
Proof. intros w. unfold wrank. destruct (w_r w), (w_t w), (w_n w), (w_fly w); cbn; lia. Qed.

Lemma wrank_step : forall c w l w', winv w -> wstep c w l = Some w' -> counts_as w l = None ->
  if match l with WSpurious => true | _ => false end then wrank w' = 3 + wrank w else wrank w' < wrank w.
Proof.
  intros c w l w' I H Hc. destruct l; cbn [wstep counts_as] in H, Hc; try discriminate Hc.
  - assert (X : sees (w_g w) = true /\ l = LDStep) by (destruct l; try discriminate Hc; destruct (sees _); auto; discriminate).
    destruct X as [X ->]. unfold t_free in H. destruct (w_t w) eqn:Et; try discriminate H. cbn [andb] in H.
    destruct (negb _); [|discriminate H]. rewrite X in H. injection H as <-. unfold wrank. rewrite Et. cbn. lia.
  - destruct (w_lock w); [discriminate H|]. destruct (w_r w) eqn:Er; try discriminate H.
    + destruct (_ && _); [|discriminate H]. injection H as <-. unfold wrank. rewrite Er. cbn. lia.
    + injection H as <-. unfold wrank. rewrite Er. cbn. lia.
  - destruct (w_r w) eqn:Er; try discriminate H; try discriminate Hc.
    + destruct (g_done _); [discriminate Hc|]. injection H as <-. unfold wrank. rewrite Er. cbn. lia.
    + destruct (_ && _); injection H as <-; unfold wrank; rewrite Er; cbn; lia.
    + injection H as <-. unfold wrank. rewrite Er. cbn. lia.
  - destruct (w_r w) eqn:Er; try discriminate H. injection H as <-. unfold wrank. rewrite Er. cbn. lia.
  - destruct (w_fly w) eqn:Ef; [|discriminate H].
    destruct (w_n w) eqn:En; injection H as <-; unfold wrank; rewrite Ef, En; cbn [w_r w_t w_n w_fly one]; lia.
  - destruct (w_lock w); [discriminate H|]. destruct (w_t w) eqn:Et; try discriminate H.
    destruct (at_signal _); [|discriminate H]. injection H as <-. unfold wrank. rewrite Et. cbn. lia.
  - destruct (w_t w) eqn:Et; try discriminate H; try discriminate Hc; injection H as <-; unfold wrank; rewrite Et;
      cbn [w_r w_t w_n w_fly]; [lia|]. destruct (w_r w); lia.
  - destruct (w_t w) eqn:Et; try discriminate H. destruct (g_dpc _); try discriminate H.
    destruct (w_n w) eqn:En; try discriminate H; try discriminate Hc. destruct (w_permit w); [discriminate Hc|].
    injection H as <-. unfold wrank. rewrite Et, En. cbn. lia.
Qed.

Lemma tally_bound : forall c ls w w' v p sp, winv w -> wrun c w ls = Some w' -> tally c w ls = (v, p, sp) ->
  p + wrank w' <= wrank w + 18 * v + 3 * sp.
Proof.
  intros c. induction ls as [|l k IH]; intros w w' v p sp I H T; cbn [wrun tally] in *.
  - injection H as <-. injection T as <- <- <-. lia.
  - destruct (wstep c w l) as [w1|] eqn:E; [|discriminate H].
    destruct (tally c w1 k) as [[v1 p1] sp1] eqn:T1.
    specialize (IH w1 w' v1 p1 sp1 (winv_step _ _ _ _ I E) H T1).
    pose proof (wrank_bound w1). pose proof (wrank_step c w l w1 I E) as R.
    destruct (counts_as w l) eqn:Ec.
    + assert (T' : (S v1, p1, sp1) = (v, p, sp)) by (destruct l; auto; discriminate Ec).
      injection T' as <- <- <-. lia.
    + specialize (R eq_refl). destruct l; try discriminate Ec; injection T as <- <- <-; lia.
Qed.

(** * Bounded storage: refusals, reconnects, blocked calls. *)

From Coq Require Import List Arith Lia ZArith Bool.
From Verif Require Import Base ListFacts RangeSet RangeSetFacts Storage StorageFacts
  System Spec StepTac InvSync InvTrace LifeFacts Alive Progress ReadFacts BoundedFacts StoreSpec
  BoundedInv BoundedContent.
Import ListNotations.

(** ** Reads that fit are not refused *)

Lemma not_refused_task : forall c cap s l s', task_label l = true -> step c s l = Some s' ->
  all_events (not_refused cap) (g_trace s) -> all_events (not_refused cap) (g_trace s').
Proof.
  intros c cap s l s' Et H K. destruct l; try discriminate Et;
    step_cases H; gsimpl; cbn [all_events not_refused]; auto.
Qed.

Lemma bounded_not_refused : forall c ck p n s, c_provider c = PBounded ck p n -> 0 < c_batch c ->
  reach c (both sequential_client no_empty_chunk) s ->
  every_event (not_refused (ring_size (c_clen c) n)) (g_trace s).
Proof.
  intros c ck p n s Hp Hb H. set (cap := ring_size (c_clen c) n).
  assert (Hcap : cap <= n) by (unfold cap, ring_size; destruct (c_clen c); lia).
  enough (K : all_events (not_refused cap) (g_trace s) /\
              match g_rpc s with RRDone n _ _ r => n <= cap -> r <> Err EInvalidInput | _ => True end)
    by (apply all_events_every, K).
  induction H as [s H|s l s' Hr [I1 I2] [Hl1 Hl2] H].
  - unfold init in H. destruct (into_rw _ _); [|discriminate]. injection H as <-. cbn; auto.
  - destruct (bpos_window c ck p n s Hp Hb Hr) as (W & R & [A1 A2 _ _ _ _] & _ & A3 & A8).
    destruct (task_label l) eqn:Et.
    { split; [eapply not_refused_task; eauto|].
      rewrite (task_step_rpc _ _ _ _ Et H). auto. }
    destruct l; try discriminate Et; cbn [step] in H.
    + unfold r_step in H. destruct (g_rpc s) eqn:Er; try contradiction; try discriminate H.
      * destruct (g_failed s).
        { injection H as <-. gsimpl. cbn. split; auto. split; auto. discriminate. }
        unfold excessive_read in H. rewrite Hp in H. cbn [max_capacity] in H.
        destruct (Nat.ltb_spec n n0); injection H as <-; gsimpl; cbn; auto. split; auto. split; auto. lia.
      * repeat (split_match H; try discriminate H); injection H as <-; gsimpl; auto.
      * repeat (split_match H; try discriminate H); injection H as <-; gsimpl; auto.
      * repeat (split_match H; try discriminate H); injection H as <-; gsimpl; auto.
      * repeat (split_match H; try discriminate H); injection H as <-; gsimpl; auto.
      * repeat (split_match H; try discriminate H); injection H as <-; gsimpl; cbn; auto.
        split; auto. split; auto. discriminate.
      * destruct (st_read n0 (g_store s)) as [r st] eqn:Es. fold cap in A1.
        destruct (bst_read _ _ _ _ _ _ _ _ A1 Es) as [(-> & Hn & _)|(Hn & bs & -> & _)]; injection H as <-; gsimpl.
        -- split; auto. unfold cap in *. lia.
        -- split; auto. discriminate.
      * destruct (g_wreq s); injection H as <-; gsimpl; cbn; auto.
    + assert (Pl : st_plain (g_store s) = false) by (destruct A1 as (b & h & A1 & _); rewrite A1; auto).
      unfold r_error in H. rewrite Pl in H.
      destruct (g_rpc s); try discriminate H; [|destruct from; discriminate H].
      injection H as <-. gsimpl. split; auto. discriminate.
    + destruct (g_rpc s); try discriminate; injection H as <-; gsimpl. destruct o; auto.
    + injection H as <-; gsimpl; auto.
    + destruct (g_rpc s); try discriminate; injection H as <-; gsimpl. destruct (c_cancel_on_drop c); auto.
Qed.

(** ** Leftover bytes *)

Lemma bounded_unstored : forall c ck p n s bs, c_provider c = PBounded ck p n -> sane c ->
  c_rec c = RecRange -> reach c (local_env c) s -> pending s = Some bs ->
  bs = slice (c_content c) (st_wpos (g_store s)) (length bs).
Proof.
  intros c ck p n s bs Hp Hs Hrec H E.
  destruct (local_content c ck p n s Hp Hs Hrec H) as (W & R & K1 & _ & K2 & _).
  rewrite (bst_wpos _ _ _ _ _ (bp_store _ _ _ _ _ _ K1)). apply (bc_pend _ _ _ _ K2); auto.
Qed.

(** ** Unbounded storage leaves nothing over *)

Lemma plain_write_all : forall bs st k st', (exists u, st = SPlain u) -> st_write bs st = (k, st') ->
  k = length bs /\ exists u, st' = SPlain u.
Proof. intros bs st k st' (u & ->) H. cbn in H. injection H as <- <-. eauto. Qed.

Lemma unbounded_plain : forall c s, unbounded_store c -> init c = Some s -> exists u, g_store s = SPlain u.
Proof.
  intros c s Hu H. unfold init in H. destruct (into_rw _ _) as [st|] eqn:E; [|discriminate].
  injection H as <-. gsimpl. unfold unbounded_store in Hu. unfold into_rw in E.
  destruct (c_provider c) as [p|ck p n|ck f v n]; cbn in *; try contradiction.
  - destruct (plain_rw _ _); [|discriminate]. injection E as <-. eauto.
  - destruct (c_clen c); [|congruence]. destruct (_ <=? _); destruct (plain_rw _ _); try discriminate; injection E as <-; eauto.
Qed.

Lemma unbounded_no_leftover : forall c allow s, unbounded_store c -> 0 < c_batch c -> reach c allow s ->
  (exists u, g_store s = SPlain u) /\ g_rem s = None /\
  (forall bytes w, g_dpc s = DPre bytes w -> w <= length bytes).
Proof.
  intros c allow s Hu Hb H. induction H as [s H|s l s' Hr ((u & I1) & I2 & I3) _ H].
  - split; [eapply unbounded_plain; eauto|]. unfold init in H. destruct (into_rw _ _); [|discriminate].
    injection H as <-. split; [reflexivity|discriminate].
  - step_cases H; gsimpl; rewrite I1 in *; cbn [st_write st_read st_rseek st_wseek st_tell] in *;
      repeat match goal with
      | E : (_, SPlain _) = (_, _) |- _ => injection E as ? ?; subst
      | E : (let '(_, _) := ?x in _) = (_, _) |- _ => destruct x; injection E as ? ?; subst
      end;
      (split; [eauto|split; [auto; try congruence|intros; try discriminate; try congruence]]).
    all: try (repeat match goal with E : DPre _ _ = DPre _ _ |- _ => injection E as ? ?; subst end; lia).
    all: try (match goal with E : (_ =? 0) = true |- _ => apply Nat.eqb_eq in E; rewrite length_slice in E end;
              match goal with E : (_ <? _) = true |- _ => apply Nat.ltb_lt in E; lia end).
    all: try (match goal with E : DPre _ _ = DPre _ _ |- _ => injection E as ? ?; subst end; rewrite length_slice; specialize (I3 _ _ eq_refl); lia).
    all: eauto.
Qed.

(** After a reconnect the next chunk starts at the position it will be stored at. *)
Lemma reconnect_resumes : forall c allow s s1 k s2, c_rec c = RecRange ->
  reach c allow s -> g_rem s = None ->
  step c s (LDTimeout RcOk) = Some s1 -> step c s1 (LDChunk k) = Some s2 ->
  st_wpos (g_store s2) = st_wpos (g_store s) /\ g_down s2 = g_down s /\
  pending s2 = Some (slice (c_content c) (st_wpos (g_store s2)) k).
Proof.
  intros c allow s s1 k s2 Hrec _ Hrem H1 H2. cbn [step] in *.
  destruct (g_dpc s) eqn:Ed; try discriminate. injection H1 as <-.
  unfold handle_reconnect in H2. rewrite Hrec in H2. gsimpl. rewrite Ed in H2.
  destruct (_ <=? _); [|discriminate]. injection H2 as <-.
  unfold handle_bytes, pending. gsimpl. rewrite Hrem. destruct (g_pfc s); gsimpl; auto.
Qed.

(** ** Blocked calls, any storage *)

Lemma blocked_only_for_room : forall c allow s, reach c allow s -> blocked c s ->
  task_can_move c s \/ waits_for_room s \/ g_dpc s = DPanic.
Proof.
  intros c allow s H Hb. pose proof (sync_reach _ _ _ H) as Hsy.
  destruct (blocked_wait _ _ Hb) as (D1 & D2 & t & D3 & D4).
  pose proof (sy_final _ Hsy) as Hf.
  unfold task_can_move, awaits_transport, waits_for_room. cbn [step]. unfold d_step.
  destruct (g_dpc s) eqn:Ed; auto; try (rewrite (Hf I) in D1; discriminate); left; right;
    try (eexists; reflexivity).
  - destruct (write_once _ _ _ _) as [k s1]. destruct (_ =? _); eauto.
  - destruct (_ <? _); eauto.
  - destruct (write_once _ _ _ _) as [k s1]. destruct (_ =? _); eauto.
  - destruct (g_req s); [destruct (_ <=? _)|]; eauto.
Qed.

(** ** Local seeks: what was written, and which reads are refused *)

Lemma task_accepted : forall c ck p n s W R L l s' W', c_provider c = PBounded ck p n -> 0 < c_batch c ->
  bpos c (ring_size (c_clen c) n) s W R L -> bpos c (ring_size (c_clen c) n) s' W' R L ->
  task_label l = true -> step c s l = Some s' ->
  accepted_total (g_trace s') + W = accepted_total (g_trace s) + W'.
Proof.
  intros c ck p n s W R L l s' W' Hp Hb [A1 A2 A4 A5 A6 A7] Hpos' Et H.
  pose proof (bst_wpos _ _ _ _ _ A1) as Hw.
  pose proof (bst_wpos _ _ _ _ _ (bp_store _ _ _ _ _ _ Hpos')) as Hw'. clear Hpos'.
  destruct l; try discriminate Et.
  all: try (step_cases H; gsimpl; cbn [accepted_total]; lia).
  - cbn [step] in H. unfold d_step in H. destruct (g_dpc s) eqn:Ed; try discriminate.
    all: try (step_cases H; gsimpl; cbn [accepted_total]; lia).
    all: unfold write_once in H; destruct (st_write _ (g_store s)) as [k st] eqn:Es;
      destruct (bst_write _ _ _ _ _ _ _ _ A1 Es) as [Ek A1'];
      pose proof (bst_wpos _ _ _ _ _ A1') as Hw2.
    + destruct (Nat.eqb_spec k 0); injection H as <-; unfold prefetch_done in *; gsimpl;
        repeat match goal with |- context [if ?b then _ else _] => destruct b end;
        repeat match goal with K : context [if ?b then _ else _] |- _ => destruct b end; gsimpl;
        cbn [accepted_total]; lia.
    + destruct (Nat.eqb_spec k 0); injection H as <-; gsimpl; cbn [accepted_total]; lia.
  - cbn [step] in H. destruct (g_dpc s) eqn:Ed; try discriminate. unfold seek_done in H.
    unfold bat in A7. rewrite Ed in A7. destruct A7 as (_ & _ & _ & ->).
    destruct ok; [|injection H as <-; gsimpl; lia].
    destruct (body_window _ _ _) as [[a b]|]; [|discriminate].
    destruct (st_wseek W (g_store s)) as [r st] eqn:Es.
    destruct (bst_wseek _ _ _ _ _ _ _ A1 Es) as [-> A1'].
    pose proof (bst_wpos _ _ _ _ _ A1') as Hw2. injection H as <-. gsimpl. lia.
  - exfalso. destruct A1 as (b & h & A1 & _). cbn [step] in H. unfold write_short in H. rewrite A1 in H.
    destruct (g_dpc s); try discriminate; destruct (st_write _ _); cbn in H; discriminate.
Qed.

Lemma local_call_task : forall c size s l s', task_label l = true -> step c s l = Some s' ->
  all_events (local_call_ok size) (g_trace s) -> all_events (local_call_ok size) (g_trace s').
Proof.
  intros c size s l s' Et H K. unfold local_call_ok in *. destruct l; try discriminate Et;
    step_cases H; gsimpl; cbn [all_events no_panic]; auto.
Qed.

(** How a call of a local client ends. *)
Definition local_pc_end (size : nat) (s : gstate) : Prop :=
  match g_rpc s with
  | RRDone n pos _ r =>
      r <> Panic /\ (r = Err EInvalidInput -> size < n \/ pos + size < accepted_total (g_trace s))
  | _ => True
  end.

Lemma local_calls : forall c ck p n s, c_provider c = PBounded ck p n -> 0 < c_batch c ->
  reach c (both (local_client c) no_empty_chunk) s ->
  exists W R, bpos c (ring_size (c_clen c) n) s W R (skipped (g_trace s)) /\ local_pc c s /\
    accepted_total (g_trace s) = W /\ local_pc_end (ring_size (c_clen c) n) s /\
    all_events (local_call_ok (ring_size (c_clen c) n)) (g_trace s).
Proof.
  intros c ck p n s Hp Hb H.
  induction H as [s H|s l s' Hr (W & R & IH & IL & IA & IE & IT) [Hl1 Hl2] H].
  - exists 0, 0. pose proof (bpos_init c ck p n s Hp H) as B. unfold init in H.
    destruct (into_rw _ _); [|discriminate]. injection H as <-. cbn. auto.
  - set (size := ring_size (c_clen c) n) in *. destruct (task_label l) eqn:Et.
    + destruct (bpos_task c ck p n s W R _ l s' Hp Hb IH Hl2 Et H) as (W' & [HW _] & K & Er).
      pose proof (task_accepted c ck p n s W R _ l s' W' Hp Hb IH K Et H) as Ea.
      rewrite <- (proj2 (task_views _ _ _ _ Et H)) in K.
      exists W', R. split; [auto|split; [eapply local_pc_task; eauto|split; [lia|split]]].
      * unfold local_pc_end in *. rewrite Er. destruct (g_rpc s); auto.
        destruct IE as [E1 E2]. split; auto. intros E. destruct (E2 E); auto. right. lia.
      * eapply local_call_task; eauto.
    + destruct (bpos_reader c ck p n s W R l s' Hp IH Hl1 IL Et) as (R' & K & K' & Ed & _); eauto.
      { apply (tr_at _ _ (traced_reach _ _ _ Hr)). }
      exists W, R'. split; [exact K|split; [exact K'|]].
      pose proof (bp_store _ _ _ _ _ _ IH) as A1. pose proof (bst_rpos _ _ _ _ _ A1) as HR.
      pose proof (tr_at _ _ (traced_reach _ _ _ Hr)) as Hat. rewrite HR in Hat.
      unfold local_pc_end in *. unfold local_pc in IL. clear K K'.
      destruct l; try discriminate Et; cbn [step] in H.
      * unfold r_step in H. rewrite HR in H.
        destruct (g_rpc s) eqn:Er; try contradiction; try discriminate H.
        -- unfold excessive_read in H. rewrite Hp in H. cbn [max_capacity] in H.
           assert (Hsz : size <= n) by (unfold size, ring_size; destruct (c_clen c); lia).
           destruct (g_failed s); [injection H as <-|destruct (Nat.ltb_spec n n0); injection H as <-]; gsimpl;
             unfold local_call_ok; cbn [accepted_total all_events no_panic]; repeat (split; auto); try discriminate.
           intros _. left. lia.
        -- repeat (split_match H; try discriminate H); injection H as <-; gsimpl; auto.
        -- repeat (split_match H; try discriminate H); injection H as <-; gsimpl; auto.
        -- repeat (split_match H; try discriminate H); injection H as <-; gsimpl; auto.
        -- repeat (split_match H; try discriminate H); injection H as <-; gsimpl; auto.
        -- repeat (split_match H; try discriminate H); injection H as <-; gsimpl;
             unfold local_call_ok; cbn [accepted_total all_events no_panic]; repeat (split; auto); discriminate.
        -- destruct (st_read n0 (g_store s)) as [r st] eqn:Es.
           destruct (bst_read _ _ _ _ _ _ _ _ A1 Es) as [(-> & Hn & ->)|(Hn & bs & -> & _)]; injection H as <-;
             gsimpl; repeat (split; auto); try discriminate.
           cbn in Hat. destruct Hat as [_ ->]. intros _. rewrite IA. exact Hn.
        -- destruct IE as [E1 E2]. destruct (g_wreq s); injection H as <-; gsimpl;
             unfold local_call_ok; cbn [accepted_total all_events no_panic]; repeat (split; auto).
        -- repeat (split_match H; try discriminate H); injection H as <-; gsimpl;
             unfold local_call_ok; cbn [accepted_total all_events no_panic]; repeat (split; auto); try discriminate.
           match goal with E : absolute_seek_position _ _ from = Panic |- _ => destruct from; cbn in E; try discriminate; destruct (c_clen c); discriminate end.
        -- repeat (split_match H; try discriminate H); injection H as <-; gsimpl; auto.
        -- destruct IL as [(a & b & Hi & Hab) Hsk].
           pose proof (bat_down _ _ (bp_at _ _ _ _ _ _ IH)) as (D & HD1 & HD2).
           assert (Hpw : p0 <= W).
           { rewrite HD2 in Hi. destruct D; cbn [block] in Hi; [contradiction|].
             destruct Hi as [[= <- <-]|[]]. lia. }
           destruct (st_rseek p0 (g_store s)) as [r st] eqn:Es.
           destruct (bst_rseek _ _ _ _ _ _ _ _ A1 (conj Hsk Hpw) Es) as [-> _]. injection H as <-. gsimpl.
           unfold local_call_ok; cbn [accepted_total all_events no_panic]; repeat (split; auto). discriminate.
      * assert (Pl : st_plain (g_store s) = false) by (destruct A1 as (b & h & A1 & _); rewrite A1; auto).
        unfold r_error in H. rewrite Pl in H.
        destruct (g_rpc s); try discriminate H; [|destruct from; discriminate H].
        injection H as <-. gsimpl. repeat (split; auto); discriminate.
      * destruct (g_rpc s) eqn:Er; try discriminate; injection H as <-. gsimpl. split; auto. destruct o; auto.
      * injection H as <-. gsimpl. auto.
      * destruct (g_rpc s) eqn:Er; try discriminate; injection H as <-.
        destruct (c_cancel_on_drop c); gsimpl; auto.
Qed.

Lemma local_reads : forall c ck p n s, c_provider c = PBounded ck p n -> sane c ->
  c_rec c = RecRange -> reach c (local_env c) s ->
  every_event (read_ok c) (g_trace s).
Proof.
  intros c ck p n s Hp Hs Hrec H.
  destruct (local_content c ck p n s Hp Hs Hrec H) as (W & R & _ & _ & _ & K).
  apply all_events_every, K.
Qed.

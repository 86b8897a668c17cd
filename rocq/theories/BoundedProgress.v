(** * Bounded storage: the task and the reader execute a bounded number of actions per
    call. *)

From Coq Require Import List Arith Lia ZArith Bool.
From Verif Require Import Base ListFacts RangeSet RangeSetFacts Storage StorageFacts
  System Spec StepTac InvSync InvTrace LifeFacts Alive Exec Progress BoundedFacts StoreSpec
  BoundedInv BoundedWake.
Import ListNotations.

(** ** Sizes of what the task holds *)

Lemma again_reach : forall c allow s, reach c allow s -> g_again s <= 2.
Proof.
  intros c allow s H. induction H as [s H|s l s' Hr IH _ H].
  - unfold init in H. destruct (into_rw _ _); [|discriminate]. injection H as <-. cbn. lia.
  - destruct l; step_cases H; gsimpl; auto; try lia.
    all: destruct (g_permit s); lia.
Qed.

Definition small (c : cfg) (s : gstate) : Prop :=
  (forall r, g_rem s = Some r -> length r <= length (c_content c)) /\
  match g_dpc s with
  | DPre b _ => length b <= length (c_content c)
  | DWTop b _ _ | DWBatch b _ _ _ | DWPost b _ _ _ | DWCheck b _ _ _ | DWNotify b _ _ _
  | DWWait b _ _ => length b <= 2 * length (c_content c)
  | _ => True
  end.

Lemma small_reach : forall c allow s, reach c allow s -> small c s.
Proof.
  intros c allow s H. induction H as [s H|s l s' Hr [IR ID] _ H].
  - unfold init in H. destruct (into_rw _ _); [|discriminate]. injection H as <-.
    split; cbn; auto. discriminate.
  - destruct l; step_cases H; unfold small; gsimpl; auto;
      repeat match goal with
        | E : g_dpc s = _ |- _ => rewrite E in ID
        | E : g_rem s = _ |- _ => rewrite E in IR
        | |- context [if ?b then _ else _] => destruct b; gsimpl
      end; try (split; [exact IR|auto]); try (split; [discriminate|auto]); rewrite ?app_length, ?length_slice;
      try (specialize (IR _ eq_refl)); try lia; auto.
    all: try (intros r [= <-]; rewrite skipn_length; lia).
    all: try (split; [intros r [= <-]; rewrite skipn_length; lia|auto]).
    all: match goal with E : g_dpc _ = _ |- _ => rewrite E; exact I end.
Qed.

(** With clients that stay within the downloaded data the only range requests are for the
    rest of the resource. *)
Definition rest_asked (c : cfg) (s : gstate) : Prop :=
  match g_dpc s with
  | DSeeking a b => exists cl, c_clen c = Some cl /\ b = Some cl /\ a < cl
  | _ => True
  end.

Lemma rest_asked_reach : forall c ck p n s, c_provider c = PBounded ck p n -> 0 < c_batch c ->
  reach c (both (local_client c) no_empty_chunk) s -> rest_asked c s.
Proof.
  intros c ck p n s Hp Hb H. induction H as [s H|s l s' Hr IH [Hl1 Hl2] H].
  - unfold init in H. destruct (into_rw _ _); [|discriminate]. injection H as <-. exact I.
  - destruct (bpos_reach c ck p n s Hp Hb Hr) as (W & R & [A1 A2 A4 A5 A6 A7] & _).
    pose proof (bst_wpos _ _ _ _ _ A1) as Hw.
    unfold rest_asked in *. unfold bat in A7.
    destruct l; cbn [step] in H;
      try (rewrite A2 in H; destruct (g_dpc s); discriminate).
    2:{ destruct (g_dpc s) eqn:Ed; try discriminate. injection H as <-.
        unfold handle_bytes, finish_or_find_next_gap. gsimpl.
        destruct (g_pfc s); [destruct (g_rem s); gsimpl; [exact I|]|];
          (destruct (c_seekable c); [destruct (c_clen c) as [cl|] eqn:Ecl|]; gsimpl; try exact I);
          gsimpl.
        - rewrite (proj1 A7), block_gap. destruct (Nat.ltb_spec W cl); gsimpl; eauto.
        - rewrite (proj1 A7), A4, Hw. change [] with (block 0). rewrite block_add, block_gap by lia.
          destruct (Nat.ltb_spec W cl); gsimpl; eauto. }
    all: step_cases H; gsimpl; auto;
      repeat match goal with
        | |- context [if ?b then _ else _] => destruct b; gsimpl end; auto;
      match goal with E : g_dpc _ = _ |- _ => rewrite E; exact I end.
Qed.

(** ** The measure *)

Definition unsaved (s : gstate) : nat :=
  match pending s with Some l => length l | None => 0 end.

(** The response body in use does not reach the end of the resource: another one will be
    requested. *)
Definition falls_short (c : cfg) (s : gstate) : nat :=
  if st_wpos (g_store s) + unsaved s + (g_send s - g_scur s) <? length (c_content c)
  then 40 * length (c_content c) + 10 else 0.

Definition dpc_rank (s : gstate) : nat :=
  match g_dpc s with
  | DSelect => match g_rem s with Some _ => 9 | None => 0 end
  | DPre _ _ => 10
  | DWTop b w _ => if w <? length b then 8 else 1
  | DWBatch _ _ _ nw => if nw =? 0 then 7 else 20
  | DWPost _ _ _ nw => if nw =? 0 then 6 else 13
  | DWCheck _ _ _ nw => if nw =? 0 then 5 else 12
  | DWNotify _ _ _ nw => if nw =? 0 then 4 else 11
  | DWWait _ _ _ => 3
  | _ => 0
  end.

Definition task_rank (c : cfg) (s : gstate) : nat :=
  match g_dpc s with
  | DFinish => 6 | DReport => 5 | DOnFinish _ => 4 | DSetFailed => 3 | DSignal => 2
  | DCancelTok => 1 | DEnd | DPanic => 0
  | DSeeking _ _ => 40 * length (c_content c) + 15
  | _ => 10 + falls_short c s + 40 * (g_send s - g_scur s) + 20 * unsaved s + dpc_rank s
  end.

Definition permit_rank (s : gstate) : nat := (if g_permit s then 10 else 0) + 10 * g_again s.

Ltac rank :=
  unfold task_rank, permit_rank, falls_short, unsaved, pending, dpc_rank; gsimpl;
  try match goal with E : g_dpc ?s = _ |- context [g_dpc ?s] => rewrite E end.

Ltac ranks :=
  rewrite ?skipn_O, ?app_length, ?skipn_length, ?length_slice; cbn [length];
  repeat match goal with
    | |- context [if ?a <? ?b then _ else _] => destruct (Nat.ltb_spec a b)
    | |- context [if ?a =? ?b then _ else _] => destruct (Nat.eqb_spec a b)
    end.

Lemma task_rank_step : forall c ck p n s W R L l s', c_provider c = PBounded ck p n ->
  sane c -> honours_ranges c ->
  bpos c (ring_size (c_clen c) n) s W R L -> rest_asked c s -> productive s l ->
  task_label l = true -> step c s l = Some s' ->
  task_rank c s' + permit_rank s' < task_rank c s + permit_rank s.
Proof.
  intros c ck p n s W R L l s' Hp (Hcl & _ & Hbt) Hh [A1 A2 A4 A5 A6 A7] Hra Hl Htl H.
  set (size := ring_size (c_clen c) n) in *.
  pose proof (bst_wpos _ _ _ _ _ A1) as Hw.
  unfold bat in A7. unfold rest_asked in Hra.
  destruct l; try discriminate Htl; cbn [step] in H; cbn in Hl.
  - rewrite A2 in H. destruct (g_dpc s); discriminate.
  - (* LDChunk *)
    destruct (g_dpc s) eqn:Ed; try discriminate. destruct (Nat.leb_spec (g_scur s + k) (g_send s)); [|discriminate].
    injection H as <-. assert (g_send s <= length (c_content c)) by lia.
    unfold handle_bytes. gsimpl. destruct (g_pfc s) eqn:Epf; [destruct (g_rem s) as [r|] eqn:Er|]; gsimpl;
      unfold task_rank, permit_rank, falls_short, unsaved, pending, dpc_rank; gsimpl; rewrite ?Ed, ?Er;
      rewrite ?skipn_O, ?app_length, ?length_slice; cbn [length];
      try (rewrite (proj2 A7)); cbn [length];
      repeat match goal with |- context [if ?a <? ?b then _ else _] => destruct (Nat.ltb_spec a b) end; lia.
  - (* LDEof *)
    destruct (g_dpc s) eqn:Ed; try discriminate. injection H as <-.
    unfold handle_bytes, finish_or_find_next_gap. gsimpl.
    destruct (g_pfc s) eqn:Epf; [destruct (g_rem s) as [r|] eqn:Er|]; gsimpl.
    + destruct A7 as [_ A7]. specialize (A7 r eq_refl).
      assert (length r <> 0) by (destruct r; cbn; congruence).
      rank. rewrite Er. ranks; lia.
    + destruct (c_seekable c); [destruct (c_clen c) as [cl|] eqn:Ecl|]; gsimpl.
      2,3: rank; rewrite ?Er; ranks; lia.
      specialize (Hcl _ eq_refl). rewrite (proj1 A7), block_gap.
      destruct (Nat.ltb_spec W cl); rank; rewrite ?Er; ranks; lia.
    + destruct (c_seekable c); [destruct (c_clen c) as [cl|] eqn:Ecl|]; gsimpl.
      2,3: rank; rewrite ?(proj2 A7); ranks; lia.
      specialize (Hcl _ eq_refl). rewrite (proj1 A7), A4, Hw. change [] with (block 0).
      rewrite block_add, block_gap by lia.
      destruct (Nat.ltb_spec W cl); rank; rewrite ?(proj2 A7); ranks; lia.
  - contradiction.
  - contradiction.
  - destruct (g_dpc s) eqn:Ed; try discriminate. destruct (g_cancel s); [|discriminate].
    injection H as <-. rank. lia.
  - (* LDStep *)
    unfold d_step in H. destruct (g_dpc s) eqn:Ed; try discriminate; gsimpl.
    + (* DPre *)
      destruct A7 as (B1 & B2 & B3 & B4).
      unfold write_once in H. destruct (st_write _ (g_store s)) as [k st] eqn:Es.
      destruct (bst_write _ _ _ _ _ _ _ _ A1 Es) as [Ek A1']. rewrite length_slice in Ek.
      pose proof (bst_wpos _ _ _ _ _ A1') as Hw'.
      destruct (Nat.eqb_spec k 0) as [E|E]; injection H as <-.
      * unfold prefetch_done. gsimpl.
        destruct (Nat.ltb_spec w (length bytes)); gsimpl; [rewrite orb_true_r|destruct (_ || _)]; rank;
          rewrite ?B2; ranks; lia.
      * rank. ranks; lia.
    + destruct A7 as (B1 & B2 & B3 & B4 & B5 & B6). destruct (Nat.ltb_spec w (length bytes)); injection H as <-.
      * rank. ranks; lia.
      * unfold report_downloading. destruct (st_wpos (g_store s)) eqn:Ew; [|destruct (rs_get _ _)]; rank;
          rewrite ?B2; ranks; lia.
    + destruct A7 as (B1 & B2 & B3 & B4 & B5 & B6).
      unfold write_once in H. destruct (st_write _ (g_store s)) as [k st] eqn:Es.
      destruct (bst_write _ _ _ _ _ _ _ _ A1 Es) as [Ek A1']. rewrite length_slice in Ek.
      pose proof (bst_wpos _ _ _ _ _ A1') as Hw'.
      destruct (Nat.eqb_spec k 0) as [E|E]; injection H as <-; rank; ranks; lia.
    + injection H as <-. rank; ranks; lia.
    + destruct A7 as (B1 & B2 & B3 & B4 & B5 & B6 & B7).
      destruct (g_req s) as [rq|]; [destruct (_ <=? _)|]; injection H as <-;
        destruct (Nat.eqb_spec nw 0); rank; ranks; lia.
    + destruct A7 as (B1 & B2 & B3 & B4 & B5 & B6 & B7). injection H as <-.
        destruct (Nat.eqb_spec nw 0); rank; ranks; lia.
    + destruct (g_permit s) eqn:Ep; [|discriminate]. injection H as <-. rank. rewrite Ep. ranks; lia.
    + injection H as <-. rank. lia.
    + injection H as <-. unfold report_complete. rank. lia.
    + injection H as <-. rank. lia.
    + injection H as <-. rank. lia.
    + injection H as <-. rank. lia.
  - (* LDSeekRes *)
    destruct (g_dpc s) eqn:Ed; try discriminate. unfold seek_done in H.
    destruct A7 as (B1 & B2 & B3 & B4). destruct ok.
    + destruct (body_window c start stop) as [[a b]|] eqn:Ew; [|discriminate].
      destruct Hra as (cl & Ecl & -> & Hlt). specialize (Hcl _ Ecl).
      assert (a = start /\ b = cl) as [-> ->].
      { unfold body_window, inverted in Ew. destruct (Nat.leb_spec cl start); [lia|]. cbn in Ew.
        injection Ew as <- <-. lia. }
      subst start.
      destruct (st_wseek W (g_store s)) as [r st] eqn:Es.
      destruct (bst_wseek _ _ _ _ _ _ _ A1 Es) as [-> A1']. injection H as <-.
      pose proof (bst_wpos _ _ _ _ _ A1') as Hw'.
      rank. rewrite ?B2; ranks; lia.
    + injection H as <-. rank. lia.
  - destruct (g_dpc s) eqn:Ed; try discriminate; injection H as <-; rank; lia.
  - destruct (g_dpc s) eqn:Ed; try discriminate; injection H as <-; destruct (_ && _); rank; lia.
  - destruct (g_dpc s) eqn:Ed; try discriminate. destruct A7 as (B1 & B2 & B3 & B4 & B5 & B6 & B7).
    injection H as <-. destruct (Nat.eqb_spec nw 0); rank; ranks; lia.
  - destruct (g_dpc s) eqn:Ed; try discriminate. destruct A7 as (B1 & B2 & B3 & B4 & B5 & B6).
    destruct (g_again s) eqn:Ea; [discriminate|]. injection H as <-. rank. rewrite Ea. ranks; lia.
  - exfalso. destruct A1 as (b & h & A1 & _). unfold write_short in H. rewrite A1 in H.
    destruct (g_dpc s); try discriminate; destruct (st_write _ _); cbn in H; discriminate.
Qed.

Lemma task_rank_bound : forall c size s W R L, bpos c size s W R L -> small c s -> g_again s <= 2 ->
  task_rank c s + permit_rank s <= 120 * length (c_content c) + 70.
Proof.
  intros c size s W R L [A1 A2 A4 A5 A6 A7] [S1 S2] S3. unfold bat in A7.
  destruct (g_dpc s) eqn:Ed; rank; try (destruct (g_permit s)); try lia;
    try (destruct (g_rem s) as [r|] eqn:Er; [specialize (S1 r eq_refl)|]); ranks; lia.
Qed.

(** ** The reader *)

Definition rpc_rank (r : rpc) : nat :=
  match r with
  | RRCheck _ => 28 | RRGet _ _ _ => 27 | RRSet _ _ _ => 26 | RRNotify _ _ _ => 25
  | RRWait _ _ _ => 14 | RRCheck2 _ _ _ => 13 | RRRead _ _ _ _ => 12 | RRDone _ _ _ _ => 11
  | RSCheck _ => 7 | RSGet _ _ => 6 | RSSet _ _ => 5 | RSSend _ _ => 4 | RSWait _ _ => 3
  | RSCheck2 _ _ => 2 | RSSeek _ _ => 1
  | RIdle | RDropped => 0
  end.

Lemma user_frame : forall c s l s', task_label l = false -> step c s l = Some s' ->
  g_dpc s' = g_dpc s /\ g_rem s' = g_rem s /\ g_scur s' = g_scur s /\ g_send s' = g_send s.
Proof.
  intros c s l s' Hl H. destruct l; try discriminate Hl; step_cases H; gsimpl; auto 10.
Qed.

Lemma user_permit : forall c s l s', task_label l = false -> step c s l = Some s' ->
  permit_rank s' + rpc_rank (g_rpc s') + (if action l then 1 else 0) <=
  permit_rank s + rpc_rank (g_rpc s) + match l with LOp _ => 28 | _ => 0 end.
Proof.
  intros c s l s' Hl H. unfold permit_rank.
  destruct l; try discriminate Hl; step_cases H; gsimpl; cbn [rpc_rank action];
    try (destruct (g_permit s)); try lia.
Qed.

Definition local_fenced (c : cfg) : gstate -> label -> Prop :=
  both (both (local_client c) no_empty_chunk) fenced.
Definition local_productive (c : cfg) : gstate -> label -> Prop :=
  both (both (local_client c) productive) fenced.

Lemma local_productive_fenced : forall c s l, local_productive c s l -> local_fenced c s l.
Proof.
  intros c s l [[A B] D]. split; [split|]; auto. apply productive_chunks; auto.
Qed.

Lemma allowed_reach : forall c (allow allow' : gstate -> label -> Prop) ls s s',
  (forall s l, allow s l -> allow' s l) ->
  reach c allow' s -> allowed c allow s ls -> run c s ls = Some s' -> reach c allow' s'.
Proof.
  induction ls as [|l ls IH]; intros s s' Hw Hr Ha H; cbn [run allowed] in *.
  - injection H as <-. auto.
  - destruct Ha as [A1 A2]. destruct (step c s l) as [s1|] eqn:E; [|discriminate].
    apply (IH s1 s'); auto. eapply reach_step; eauto.
Qed.

Definition all_rank (c : cfg) (s : gstate) : nat :=
  task_rank c s + permit_rank s + rpc_rank (g_rpc s).

Lemma all_rank_step : forall c ck p n s l s', c_provider c = PBounded ck p n ->
  sane c -> honours_ranges c -> reach c (local_fenced c) s -> local_productive c s l ->
  step c s l = Some s' ->
  all_rank c s' + (if action l then 1 else 0) <=
  all_rank c s + match l with LOp _ => 28 | _ => 0 end.
Proof.
  intros c ck p n s l s' Hp Hs Hh Hr [[Hl1 Hl2] Hl3] H.
  assert (Hb : 0 < c_batch c) by apply Hs.
  pose proof (unfenced _ _ _ Hr) as Hr0.
  destruct (bpos_reach c ck p n s Hp Hb Hr0) as (W & R & Hpos & Hpc).
  unfold all_rank. destruct (task_label l) eqn:Et.
  - pose proof (task_rank_step c ck p n s W R _ l s' Hp Hs Hh Hpos (rest_asked_reach c ck p n s Hp Hb Hr0) Hl2 Et H).
    rewrite (task_step_rpc c s l s' Et H). destruct l; try discriminate Et; cbn; lia.
  - pose proof (user_permit c s l s' Et H). destruct (user_frame c s l s' Et H) as (F1 & F2 & F3 & F4).
    destruct (bpos_reader c ck p n s W R l s' Hp Hpos Hl1 Hpc Et) as (R' & K & _); auto.
    { apply (tr_at _ _ (traced_reach _ _ _ Hr)). }
    assert (task_rank c s' = task_rank c s); [|lia].
    unfold task_rank, falls_short, unsaved, pending, dpc_rank.
    rewrite (bst_wpos _ _ _ _ _ (bp_store _ _ _ _ _ _ K)), (bst_wpos _ _ _ _ _ (bp_store _ _ _ _ _ _ Hpos)).
    rewrite F1, F2, F3, F4. reflexivity.
Qed.

Lemma all_rank_bound : forall c ck p n s, c_provider c = PBounded ck p n ->
  sane c -> reach c (local_fenced c) s -> all_rank c s <= 120 * length (c_content c) + 98.
Proof.
  intros c ck p n s Hp Hs Hr. assert (Hb : 0 < c_batch c) by apply Hs.
  destruct (bpos_reach c ck p n s Hp Hb (unfenced _ _ _ Hr)) as (W & R & Hpos & Hpc).
  pose proof (task_rank_bound c _ s W R _ Hpos (small_reach c _ s Hr) (again_reach c _ s Hr)). unfold all_rank.
  assert (rpc_rank (g_rpc s) <= 28) by (destruct (g_rpc s); cbn; lia). lia.
Qed.

Lemma bounded_actions : forall c ck p n ls s s', c_provider c = PBounded ck p n ->
  sane c -> honours_ranges c -> reach c (local_fenced c) s ->
  allowed c (local_productive c) s ls -> run c s ls = Some s' ->
  actions ls + all_rank c s' <= all_rank c s + 28 * calls ls.
Proof.
  induction ls as [|l ls IH]; intros s s' Hp Hs Hh Hr Ha H; cbn [run allowed actions calls] in *.
  - injection H as <-. lia.
  - destruct Ha as [A1 A2]. destruct (step c s l) as [s1|] eqn:E; [|discriminate].
    pose proof (all_rank_step c ck p n s l s1 Hp Hs Hh Hr A1 E).
    assert (Hr1 : reach c (local_fenced c) s1)
      by (eapply reach_step; eauto; apply local_productive_fenced; auto).
    specialize (IH s1 s' Hp Hs Hh Hr1 A2 H). destruct l; lia.
Qed.

(** While a call is in progress some action is possible. *)
Lemma task_moves : forall c s, g_scur s <= g_send s -> task_can_move c s ->
  exists l s', task_label l = true /\ productive s l /\ fenced s l /\ step c s l = Some s'.
Proof.
  intros c s Hb [H|[s' H]]; [|exists LDStep, s'; repeat split; auto].
  unfold awaits_transport in H. destruct (g_dpc s) eqn:Ed; try contradiction.
  - destruct (Nat.eq_dec (g_scur s) (g_send s)) as [E|E].
    + exists LDEof. cbn. rewrite Ed. eexists. repeat split; auto.
    + exists (LDChunk 1). cbn [step]. rewrite Ed. destruct (Nat.leb_spec (g_scur s + 1) (g_send s)); [|lia].
      eexists. repeat split. cbn. lia.
  - exists (LDSeekRes false). cbn. rewrite Ed. eexists; repeat split.
  - exists (LDFinishRes true). cbn. rewrite Ed. eexists; repeat split.
Qed.

Lemma bounded_call_moves : forall c ck p n s, c_provider c = PBounded ck p n -> 0 < c_batch c ->
  reach c (local_fenced c) s -> in_call s ->
  exists l s', action l = true /\ local_productive c s l /\ step c s l = Some s'.
Proof.
  intros c ck p n s Hp Hb Hr Hc. destruct (step c s LRStep) as [s'|] eqn:E.
  - exists LRStep, s'. repeat split; auto.
  - destruct (bpos_reach c ck p n s Hp Hb (unfenced _ _ _ Hr)) as (W & R & Hpos & Hpc).
    destruct (task_moves c s) as (l & s' & Et & P1 & P2 & H).
    + apply (bp_body _ _ _ _ _ _ Hpos).
    + apply (bounded_no_deadlock c ck p n); auto. split; auto.
    + exists l, s'. repeat split; auto; destruct l; try discriminate Et; auto; exact I.
Qed.

(** A blocked call is released after a bounded number of actions. *)
Lemma bounded_waits : forall c ck p n k s s', c_provider c = PBounded ck p n ->
  sane c -> honours_ranges c -> reach c (local_fenced c) s ->
  waits c (local_productive c) k s s' ->
  reach c (local_fenced c) s' /\ blocked c s' /\ k + all_rank c s' <= all_rank c s.
Proof.
  intros c ck p n k s s' Hp Hs Hh Hr H. induction H as [s Hb|k s s1 l s2 Hw IH Ha He Hb].
  - repeat split; auto; apply Hb.
  - destruct (IH Hr) as (Hr1 & Hb1 & IHm).
    assert (Hr2 : reach c (local_fenced c) s2)
      by (eapply reach_step; eauto; apply local_productive_fenced; auto).
    split; [auto|split; [auto|]].
    pose proof (all_rank_step c ck p n s1 l s2 Hp Hs Hh Hr1 Ha He).
    assert (match l with LOp _ => 28 | _ => 0 end = 0).
    { destruct l; auto. exfalso. destruct Hb1 as [Hc _]. unfold in_call in Hc. cbn [step] in He.
      destruct (g_rpc s1); try discriminate; contradiction. }
    destruct l; cbn [action task_label] in *; lia.
Qed.

(** ** Unbounded storage *)

Definition rpc_left (r : rpc) : nat :=
  match r with
  | RRCheck _ => 8 | RRGet _ _ _ => 7 | RRSet _ _ _ => 6 | RRNotify _ _ _ => 5
  | RRWait _ _ _ => 4 | RRCheck2 _ _ _ => 3 | RRRead _ _ _ _ => 2 | RRDone _ _ _ _ => 1
  | RSCheck _ => 7 | RSGet _ _ => 6 | RSSet _ _ => 5 | RSSend _ _ => 4 | RSWait _ _ => 3
  | RSCheck2 _ _ => 2 | RSSeek _ _ => 1
  | RIdle | RDropped => 0
  end.

Lemma reader_actions : forall c ls s s', run c s ls = Some s' ->
  actions ls + rpc_left (g_rpc s') <= task_steps ls + rpc_left (g_rpc s) + 8 * calls ls.
Proof.
  induction ls as [|l ls IH]; intros s s' H; cbn [run actions task_steps calls] in *.
  - injection H as <-. lia.
  - destruct (step c s l) as [s1|] eqn:E; [|discriminate]. specialize (IH s1 s' H).
    destruct (task_label l) eqn:Et.
    + rewrite (task_step_rpc c s l s1 Et E) in IH. destruct l; try discriminate Et; cbn [action]; lia.
    + assert (rpc_left (g_rpc s1) + (if action l then 1 else 0) <=
              rpc_left (g_rpc s) + match l with LOp _ => 8 | _ => 0 end);
        [|destruct l; try discriminate Et; lia].
      clear IH H. destruct l; try discriminate Et; step_cases E; gsimpl; cbn [rpc_left action]; lia.
Qed.

Lemma unbounded_call_moves : forall c s, sane c -> unbounded_store c -> honours_ranges c ->
  reach c no_empty_chunk s -> in_call s ->
  exists l s', action l = true /\ productive s l /\ step c s l = Some s'.
Proof.
  intros c s Hs Hu Hh Hr Hc. destruct (step c s LRStep) as [s'|] eqn:E.
  - exists LRStep, s'. repeat split; auto.
  - destruct (task_enabled c s) as (l & s' & Et & P & H); auto.
    + intros Ed. pose proof (sy_final _ (sync_reach _ _ _ Hr)) as Hf. rewrite Ed in Hf. specialize (Hf I).
      destruct (blocked_wait c s (conj Hc E)) as (B & _). congruence.
    + exists l, s'. repeat split; auto. destruct l; try discriminate Et; auto.
Qed.

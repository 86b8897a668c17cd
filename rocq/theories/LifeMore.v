(** * More facts about the end of the download task and about single requests. *)

From Coq Require Import List Arith Lia ZArith Bool.
From Verif Require Import Base ListFacts RangeSet RangeSetFacts Storage StorageFacts
  System Spec StepTac InvSync InvTrace InvCore LifeFacts ReadFacts RequestFacts MoreFacts Exec.
Import ListNotations.

(** ** What [on_finish] returned is what is recorded *)

Definition finish_inv (s : gstate) : Prop :=
  (g_failed s = true -> In (EvFinish false) (g_trace s)) /\
  (In (EvFinish false) (g_trace s) -> g_failed s = true \/ g_dpc s = DSetFailed) /\
  (In (EvFinish true) (g_trace s) -> g_failed s = false) /\
  (forall ok, In (EvFinish ok) (g_trace s) ->
     match g_dpc s with DSetFailed | DSignal | DCancelTok | DEnd => True | _ => False end) /\
  (g_dpc s = DSetFailed -> In (EvFinish false) (g_trace s) /\ ~ In (EvFinish true) (g_trace s)).

Lemma finish_inv_reach : forall c allow s, reach c allow s -> finish_inv s.
Proof.
  intros c allow s H. induction H as [s H|s l s' Hr IH Hl H].
  - unfold init in H. destruct (into_rw _ _); [|discriminate]. injection H as <-.
    unfold finish_inv; cbn; intuition discriminate.
  - pose proof (sync_reach _ _ _ Hr) as Hs. pose proof (sy_fail _ Hs) as Hsf. clear Hr Hl Hs.
    destruct IH as (I1 & I2 & I3 & I4 & I5).
    assert (D : forall d, g_dpc s = d ->
      match d with DSetFailed | DSignal | DCancelTok | DEnd => False | _ => True end ->
      forall ok, ~ In (EvFinish ok) (g_trace s)).
    { intros d E K ok J. specialize (I4 _ J). rewrite E in I4. destruct d; contradiction. }
    step_cases H; unfold finish_inv; gsimpl; rwpc; cbn [In] in *;
      repeat match goal with |- _ /\ _ => split end;
      try solve [intuition (try discriminate; try congruence)];
      intros; repeat match goal with
        | K : _ \/ _ |- _ => destruct K as [K|K]; try discriminate K
        end; try solve [exfalso; eapply (D _ eq_refl I); eauto];
      try solve [intuition (try discriminate; try congruence; eauto)].
    all: try solve [exfalso; apply Hsf; auto]; try solve [eapply I4; eauto];
      try solve [destruct (g_failed _) eqn:E; auto; exfalso; auto].
Qed.

(** ** Faults end the task, as a failure *)

Definition failing (s : gstate) : Prop :=
  match g_dpc s with
  | DOnFinish false | DSetFailed => True
  | DSignal => g_failed s = true
  | DCancelTok | DEnd => g_failed s = true /\ g_done s = true
  | _ => False
  end.

Lemma failing_step : forall c s l s', failing s -> step c s l = Some s' ->
  failing s' /\
  (if task_label l then 1 else 0) + stop_rank (g_dpc s') = stop_rank (g_dpc s) /\
  exists newer, g_trace s' = newer ++ g_trace s /\
    Forall (fun e => is_request e = false /\ is_write e = false /\ e <> EvFinish true) newer.
Proof.
  intros c s l s' Hf H. unfold failing in *.
  step_cases H; gsimpl; rwpc; cbn [stop_rank task_label] in *; try contradiction;
    try (destruct ok0; [contradiction|rewrite andb_false_r in *; try discriminate]);
    (split; [try solve [intuition auto | destruct (g_dpc _) as [| | | | | | | | | | |[]| | | | |]; intuition congruence]|split; [try reflexivity|]]);
    try first [ exists []; split; [reflexivity|constructor]
          | eexists [_]; split; [reflexivity|constructor; [repeat split; cbn; auto; discriminate|constructor]]].
Qed.

Lemma failing_run : forall c ls s s', failing s -> run c s ls = Some s' ->
  failing s' /\ task_steps ls + stop_rank (g_dpc s') = stop_rank (g_dpc s) /\
  exists newer, g_trace s' = newer ++ g_trace s /\
    Forall (fun e => is_request e = false /\ is_write e = false /\ e <> EvFinish true) newer.
Proof.
  induction ls as [|l ls IH]; intros s s' Hf H; cbn [run] in H.
  - injection H as <-. split; [auto|split; [reflexivity|]]. exists []. auto.
  - destruct (step c s l) as [s1|] eqn:E; [|discriminate].
    destruct (failing_step _ _ _ _ Hf E) as (K1 & K2 & n1 & K3 & K4).
    destruct (IH _ _ K1 H) as (J1 & J2 & n2 & J3 & J4).
    split; [auto|split]; [cbn [task_steps]; destruct (task_label l); lia|].
    exists (n2 ++ n1). rewrite J3, K3, app_assoc. split; auto. apply Forall_app; auto.
Qed.

Lemma fault_fails : forall c s l s1 ls s2,
  l = LDSeekRes false \/ l = LDIoErr \/ l = LDCancel \/ l = LDFinishRes false ->
  step c s l = Some s1 -> run c s1 ls = Some s2 ->
  task_steps ls <= 4 /\
  (g_dpc s2 <> DEnd -> task_can_move c s2) /\
  (g_dpc s2 = DEnd -> g_failed s2 = true /\ g_done s2 = true) /\
  exists newer, g_trace s2 = newer ++ g_trace s1 /\
    Forall (fun e => is_request e = false /\ is_write e = false /\ e <> EvFinish true) newer.
Proof.
  intros c s l s1 ls s2 Hl H1 H2.
  assert (Hf : failing s1).
  { unfold failing. destruct Hl as [->|[->|[->| ->]]]; step_cases H1; gsimpl; try discriminate; exact I. }
  destruct (failing_run _ _ _ _ Hf H2) as (K1 & K2 & K3).
  assert (stop_rank (g_dpc s1) <= 4) by (destruct (g_dpc s1) as [| | | | | | | | | | |[]| | | | |]; cbn; lia).
  split; [lia|]. split; [|split; auto].
  - intros Hd. unfold failing in K1. unfold task_can_move, awaits_transport. cbn [step]. unfold d_step.
    destruct (g_dpc s2) as [| | | | | | | | | | |[]| | | | |]; try contradiction; eauto; congruence.
  - intros Hd. unfold failing in K1. rewrite Hd in K1. auto.
Qed.

(** ** Seeks that stay within the capacity are not refused *)

Lemma absolute_ok : forall c rpos from t,
  seek_target c rpos from = Some t -> (0 <= t < two64)%Z ->
  absolute_seek_position c rpos from = Ok t.
Proof.
  intros c rpos from t Ht Hb. destruct from; cbn in *.
  - congruence.
  - injection Ht as <-. f_equal. apply Z.mod_small; auto.
  - destruct (c_clen c); cbn in *; [|discriminate]. injection Ht as <-.
    f_equal. apply Z.mod_small; auto.
Qed.

Lemma rseek_no_error : forall p st e st', st_rseek p st <> (Err e, st').
Proof.
  intros p [u|b] e st'; cbn; [discriminate|]. unfold bnd_rseek.
  destruct (counter_sub _ _ _); discriminate.
Qed.

Lemma absolute_no_invalid : forall c rpos from e, absolute_seek_position c rpos from = Err e ->
  e = EUnsupported.
Proof. intros c rpos [] e; cbn; try discriminate. destruct (c_clen c); congruence. Qed.

Lemma seek_refusal : forall c allow s, reach c allow s ->
  every_event (refused_only_if_far c (max_capacity (c_provider c))) (g_trace s).
Proof.
  intros c allow s H. apply all_events_every.
  induction H as [s H|s l s' Hr K Hl H].
  - unfold init in H. destruct (into_rw _ _); [|discriminate]. injection H as <-. cbn; auto.
  - pose proof (traced_reach _ _ _ Hr) as Ht. pose proof (tr_at _ _ Ht) as Ta.
    clear Hr Hl Ht. unfold excessive_seek in *.
    step_cases H; gsimpl; unfold excessive_seek in *; rwpc;
      cbn [all_events refused_only_if_far cursor reader_at] in *; auto.
    all: split; auto.
    + destruct (max_capacity (c_provider c)) as [cap|]; [|discriminate].
      exists cap. split; auto. intros t Ht1 Ht2. rewrite Ta in *.
      pose proof (absolute_ok c _ _ t Ht1 Ht2) as E. rewrite E in Heqr0. injection Heqr0 as <-.
      unfold clamp, normalize in *. apply Z.ltb_lt in Heqb0. lia.
    + apply absolute_no_invalid in Heqr0. subst. exact I.
    + destruct r as [|e|]; auto. exfalso. eapply rseek_no_error; eauto.
Qed.

(** ** Reads of downloaded data *)

Lemma rs_get_upto : forall l lo p q, wf_from lo l -> p < q ->
  (forall x, p <= x < q -> covered l x) ->
  exists a b, rs_get p l = Some (a, b) /\ q <= b.
Proof.
  induction l as [|[a b] t IH]; intros lo p q Hw Hpq Hc.
  - destruct (Hc p) as (? & ? & [] & _). lia.
  - cbn in Hw. destruct Hw as (W1 & W2 & W3). cbn [rs_get].
    destruct ((a <=? p) && (p <? b)) eqn:E.
    + apply andb_prop in E as [E1 E2]. apply Nat.leb_le in E1. apply Nat.ltb_lt in E2.
      exists a, b. split; auto. destruct (Nat.le_gt_cases q b); auto. exfalso.
      specialize (Hc b ltac:(lia)). apply covered_cons in Hc as [Hc|Hc]; [lia|].
      apply (wf_from_lower _ _ _ W3) in Hc. lia.
    + apply (IH (S b)); auto. intros x Hx. pose proof (Hc p ltac:(lia)) as Hp. specialize (Hc x Hx).
      apply covered_cons in Hc as [Hc|Hc]; auto. exfalso.
      apply andb_false_iff in E as [E|E]; [apply Nat.leb_gt in E|apply Nat.ltb_ge in E; lia].
      apply covered_cons in Hp as [Hp|Hp]; [lia|]. apply (wf_from_lower _ _ _ W3) in Hp. lia.
Qed.

Lemma plain_read_ok : forall n u, u_rpos u < length (u_data u) ->
  exists bs u', u_read n u = (Ok bs, u').
Proof.
  intros n [m|f] H; cbn in *.
  - unfold mem_read. destruct (Nat.ltb_spec (length (m_vec m)) (m_rpos m)); [lia|]. eauto.
  - unfold file_read. destruct (f_buf f); [destruct (f_cap f <=? n)|]; eauto.
Qed.

Lemma local_read : forall c s n ls s1 s2,
  sane c -> unbounded_store c -> honours_ranges c ->
  reach c (no_empty_chunk_past_end c) s ->
  is_downloaded s (cursor (g_trace s)) ->
  (forall x, cursor (g_trace s) <= x < cursor (g_trace s) + n ->
     (forall cl, c_clen c = Some cl -> x < cl) -> is_downloaded s x) ->
  step c s (LOp (ORead n)) = Some s1 -> Forall during_call ls ->
  allowed c (no_empty_chunk_past_end c) s1 ls -> run c s1 ls = Some s2 ->
  g_failed s2 = false ->
  (reader_steps ls < 4 -> exists s3, step c s2 LRStep = Some s3) /\
  (reader_steps ls = 4 -> g_rpc s2 = RIdle /\
     exists newer older bs, faithful c (cursor (g_trace s)) n bs /\ g_trace s2 =
       newer ++ EvRead (cursor (g_trace s)) n false (Ok bs) :: older ++ g_trace s).
Proof.
  intros c s n ls s1 s2 Hs Hub Hh Hr Hd Hdn H1 Hls Hal Hrun Hf.
  set (pos := cursor (g_trace s)) in *.
  set (rq := Z.to_nat (normalize c (Z.of_nat (pos + n)))).
  set (E := no_empty_chunk_past_end c) in *.
  set (ph := fun k (s' : gstate) =>
    match k with
    | 0 => g_rpc s' = RRCheck n /\ st_rpos (g_store s') = pos
    | 1 => g_rpc s' = RRGet n pos rq /\ st_rpos (g_store s') = pos
    | 2 => g_rpc s' = RRRead n pos rq false /\ st_rpos (g_store s') = pos
    | 3 => exists bs, g_rpc s' = RRDone n pos false (Ok bs)
    | 4 => g_rpc s' = RIdle /\
        exists bs newer older, g_trace s' = newer ++ EvRead pos n false (Ok bs) :: older ++ g_trace s
    | _ => False
    end).
  set (dn := fun s' => (is_downloaded s' pos /\ exists nw, g_trace s' = nw ++ g_trace s) /\
     forall x, pos <= x < pos + n ->
     (forall cl, c_clen c = Some cl -> x < cl) -> is_downloaded s' x).
  assert (Hdn' : forall s' l s'', step c s' l = Some s'' -> dn s' -> dn s'').
  { intros s' l s'' St [[D1 (nw & D3)] D2]. split; [split; [eapply down_mono; eauto|]|].
    - destruct (trace_grows _ _ _ _ St) as (nw2 & ->). rewrite D3. exists (nw2 ++ nw). apply app_assoc.
    - intros. eapply down_mono; eauto. }
  assert (Hcap : excessive_read c n = false).
  { unfold excessive_read, max_capacity. unfold unbounded_store in Hub.
    destruct (c_provider c); auto; contradiction. }
  assert (Hone : forall k s', ph k s' -> reach c E s' -> g_failed s' = false -> dn s' -> k < 4 ->
            exists s3, step c s' LRStep = Some s3 /\ ph (S k) s3).
  { intros k s' P R F [[D1 (nw & D3)] D2] K. cbn [step]. unfold r_step.
    destruct k as [|[|[|[|k]]]]; [| | | |lia]; cbn in P.
    - destruct P as [P1 P2]. rewrite P1, F, Hcap. rewrite P2. eexists. split; [reflexivity|]. cbn.
      split; [reflexivity|]. pose proof (tr_wf _ _ (traced_reach _ _ _ R)) as Hw.
      destruct (st_tell_rpos _ Hw) as (T1 & T2 & T3). congruence.
    - destruct P as [P P2]. rewrite P.
      destruct (Nat.eq_dec rq pos) as [Eq|Eq].
      + destruct (rs_get_covered (g_down s') pos) as (a & b & G); [exact D1|].
        rewrite G. apply rs_get_some in G. destruct (Nat.leb_spec rq b); [|lia].
        eexists. split; [reflexivity|]. cbn. auto.
      + destruct (Nat.lt_ge_cases pos rq) as [L|L].
        * destruct (rs_get_upto (g_down s') 0 pos rq) as (a & b & G & B); auto.
          { apply (wf_reach c _ s' R). }
          { intros x Hx. apply D2; unfold rq, normalize in *; destruct (c_clen c); try lia;
            intros cl C; try injection C as <-; try discriminate; lia. }
          rewrite G. destruct (Nat.leb_spec rq b); [|lia]. eexists. split; [reflexivity|]. cbn. auto.
        * destruct (rs_get_covered (g_down s') pos) as (a & b & G); [exact D1|].
          rewrite G. apply rs_get_some in G. destruct (Nat.leb_spec rq b); [|lia].
          eexists. split; [reflexivity|]. cbn. auto.
    - destruct P as [P P2]. rewrite P.
      destruct (downloaded_stored c s' pos Hs Hub Hh R D1) as [L B].
      destruct (plain_reach c _ s' Hub R) as (u & U). unfold stored_byte in B. rewrite U in *. cbn in P2.
      assert (Hl : u_rpos u < length (u_data u)).
      { rewrite P2. apply nth_error_Some. rewrite B. apply nth_error_Some. auto. }
      cbn [st_read]. destruct (plain_read_ok n u Hl) as (bs & u' & Er). rewrite Er.
      eexists. split; [reflexivity|]. cbn. eauto.
    - destruct P as [bs P]. rewrite P. eexists. split; [reflexivity|]. cbn. split; [reflexivity|].
      exists bs, [], nw. rewrite <- D3. destruct (g_wreq s'); reflexivity. }
  assert (R1 : reach c E s1) by (eapply reach_step; eauto; exact I).
  assert (P0 : ph 0 s1).
  { pose proof (traced_reach _ _ _ Hr) as Htr0. pose proof (tr_at _ _ Htr0) as Ta.
    cbn [step] in H1. destruct (g_rpc s) eqn:Eq; try discriminate. injection H1 as <-. cbn.
    split; auto. }
  assert (D0 : dn s1) by (eapply Hdn'; eauto; split; auto; split; auto; exists []; reflexivity).
  cut (ph (reader_steps ls) s2 /\ reach c E s2 /\ dn s2).
  { intros (P1 & P2 & P3). split; intros K.
    - destruct (Hone _ _ P1 P2 Hf P3 K) as (s3 & A1 & _). eauto.
    - rewrite K in P1. destruct P1 as (Q1 & bs & nw & od & Q2). split; auto. exists nw, od, bs.
      pose proof (fast_reads c s2 Hs Hub Hh P2 _ _ _ Q2) as [_ Ff]. auto. }
  cut (forall ls k s', ph k s' -> reach c E s' -> dn s' -> allowed c E s' ls ->
         Forall during_call ls -> run c s' ls = Some s2 ->
         ph (k + reader_steps ls) s2 /\ reach c E s2 /\ dn s2).
  { intros G. apply (G ls 0 s1); auto. }
  clear Hrun Hal ls Hls H1 P0 D0 R1.
  induction ls as [|l ls IH]; intros k s' P R D Ha Hls H; cbn in H.
  - injection H as <-. cbn. rewrite Nat.add_0_r. eauto.
  - cbn [allowed] in Ha. destruct Ha as [Ha Ha'].
    destruct (step c s' l) as [s''|] eqn:St; [|discriminate].
    inversion Hls as [|? ? Hl Hls']; subst.
    assert (R' : reach c E s'') by (eapply reach_step; eauto).
    assert (D' : dn s'') by (eapply Hdn'; eauto).
    assert (F : g_failed s' = false).
    { apply (run_failed c (l :: ls) s' s2); auto. cbn. rewrite St. auto. }
    assert (Hnon : user_label l = false -> ph k s'').
    { intros Hu. destruct (task_step_frame _ _ _ _ Hu (traced_reach _ _ _ R) St) as (R1 & R2 & es & R3 & _).
      destruct k as [|[|[|[|[|k]]]]]; cbn in *; rewrite ?R1, ?R2; auto.
      destruct P as [P (bs & nw & od & P')]. split; auto. exists bs, (es ++ nw), od.
      rewrite R3, P', app_assoc. reflexivity. }
    destruct l; cbn in Hl; try contradiction; cbn [reader_steps];
      try (apply (IH k s''); auto; apply Hnon; reflexivity).
    rewrite Nat.add_succ_r, <- Nat.add_succ_l. apply (IH (S k) s''); auto.
    destruct (Nat.lt_ge_cases k 4) as [K|K].
    + destruct (Hone k s' P R F D K) as (s3 & A1 & A3). congruence.
    + exfalso. destruct k as [|[|[|[|[|k]]]]]; try lia; cbn in P; [|contradiction].
      cbn [step] in St. unfold r_step in St. destruct P as [P _]. rewrite P in St. discriminate.
Qed.

(** ** The download of a client that only reads *)

Definition upto (s : gstate) (n : nat) : Prop := forall x, x < n -> covered (g_down s) x.

Definition seq_cov (c : cfg) (s : gstate) : Prop :=
  match g_dpc s with
  | DSelect => if g_pfc s then upto s (st_wpos (g_store s))
               else st_wpos (g_store s) < c_prefetch c /\ g_rem s = None
  | DPre _ _ => g_pfc s = false /\ g_rem s = None
  | DWTop _ _ p | DWWait _ _ p | DWCheck _ _ p _ | DWNotify _ _ p _ =>
      g_pfc s = true /\ g_rem s = None /\ upto s (st_wpos (g_store s)) /\ p <= st_wpos (g_store s)
  | DWBatch _ _ p _ | DWPost _ _ p _ =>
      g_pfc s = true /\ g_rem s = None /\ upto s p /\ p <= st_wpos (g_store s)
  | DSeeking a _ => g_pfc s = true /\ g_rem s = None /\ upto s a
  | _ => True
  end.

Lemma upto_add : forall l p n, (forall x, x < p -> covered l x) ->
  forall x, x < n -> covered (rs_add p n l) x.
Proof.
  intros l p n H x Hx. apply rs_add_covered. destruct (Nat.lt_ge_cases x p); auto.
Qed.

(** Sources and clients for which the task never changes its course. *)
Definition straight (c : cfg) (allow : gstate -> label -> Prop) : Prop :=
  c_seekable c = false \/ forall s l, allow s l -> sequential_client s l.

Lemma straight_chan : forall c allow s, straight c allow -> reach c allow s ->
  forall p s1, g_chan s = Some p -> should_seek c s1 p = false.
Proof.
  intros c allow s [H|H] Hr p s1 Hc.
  - unfold should_seek. rewrite H. reflexivity.
  - destruct (sequential_inv c allow s H Hr) as (_ & _ & E). congruence.
Qed.

Lemma straight_pfs : forall c allow s, straight c allow -> reach c allow s -> g_pfs s = 0.
Proof.
  intros c allow s Ha H. induction H as [s H|s l s' Hr IH Hl H].
  - unfold init in H. destruct (into_rw _ _); [|discriminate]. injection H as <-. reflexivity.
  - pose proof (straight_chan c allow s Ha Hr) as N.
    step_cases H; gsimpl; auto; rewrite (N _ _ eq_refl) in *; congruence.
Qed.

Lemma seq_cov_reach : forall c allow s, straight c allow -> reach c allow s -> seq_cov c s.
Proof.
  intros c allow s Ha H. induction H as [s H|s l s' Hr IH Hl H].
  - unfold init in H. destruct (into_rw _ _) eqn:E; [|discriminate]. injection H as <-.
    apply into_rw_init in E as (E1 & E2 & E3). unfold seq_cov, upto; cbn. rewrite E3.
    destruct (Nat.eqb_spec (c_prefetch c) 0); [lia|]. split; [lia|auto].
  - pose proof (straight_chan c allow s Ha Hr) as N.
    pose proof (straight_pfs c allow s Ha Hr) as Hp.
    pose proof (tr_wf _ _ (traced_reach _ _ _ Hr)) as Hw.
    pose proof (wf_reach c _ s Hr) as Hwf.
    unfold seq_cov, upto in *.
    clear Hr Hl Ha.
    step_cases H; gsimpl; rwpc; auto; try (rewrite (N _ _ eq_refl) in *; congruence);
      try (rewrite (N _ _ Heqo) in *; congruence); clear N;
      repeat match goal with
        | E : st_read _ _ = _ |- _ => apply st_read_rpos in E; [|exact Hw]
        | E : st_write _ _ = _ |- _ => apply st_write_rpos in E; [|exact Hw]
        | E : st_wseek _ _ = _ |- _ => apply st_wseek_rpos in E; [|exact Hw]
        | E : st_rseek _ _ = _ |- _ => apply st_rseek_rpos in E; [|exact Hw]
        end;
      try (destruct (st_tell_rpos _ Hw) as (T1 & T2 & T3); rewrite ?T3; auto).
    all: try match type of IH with
           | _ /\ _ /\ _ /\ _ => destruct IH as (I1 & I2 & I3 & I4)
           | _ /\ _ /\ _ => destruct IH as (I1 & I2 & I3)
           | _ /\ _ => destruct IH as [I1 I2]
           end; rewrite ?I1, ?Hp in *;
      auto; try solve [intuition (try lia; try congruence)].
    all: try match goal with E : _ /\ _ |- _ => destruct E as (E1 & E2 & E3) end.
    all: try match goal with E : rs_next_gap _ _ _ = Some _ |- _ =>
           apply rs_next_gap_some with (lo0 := 0) in E; [|auto using rs_add_wf] end.
    all: try match goal with |- wf_from _ (rs_add _ _ _) => apply rs_add_wf; auto end.
    all: try solve [repeat split; auto; intros x Hx;
      first [apply Heqo1; lia | apply Heqo0; lia | apply rs_add_covered; right; lia]].
    all: try (rewrite E2; auto; fail).
    + rewrite orb_false_r in Heqb0. apply Nat.leb_gt in Heqb0. cbn in Heqb0. split; [lia|auto].
    + repeat split; auto; try lia. intros x Hx. apply I3. lia.
    + rewrite Heqn. auto.
    + repeat split; auto; try tauto. intros x Hx. apply upto_add; tauto.
    + rewrite (E3 a eq_refl). auto.
Qed.

(** Where the transport is, the writer is, up to what is pending; nothing is requested. *)
Definition whole (c : cfg) (s : gstate) : Prop :=
  Forall no_range (g_trace s) /\
  g_send s = length (c_content c) /\ g_scur s <= g_send s /\
  (forall a b, g_dpc s <> DSeeking a b) /\
  (forall p, pending s = Some p -> g_scur s = st_wpos (g_store s) + length p) /\
  (succeeded s -> upto s (length (c_content c))).

(** The reader does not touch what belongs to the task. *)
Lemma reader_frame : forall c s l s', st_wf (g_store s) -> task_label l = false -> step c s l = Some s' ->
  g_down s' = g_down s /\ g_dpc s' = g_dpc s /\ g_rem s' = g_rem s /\ g_scur s' = g_scur s /\
  g_send s' = g_send s /\ g_failed s' = g_failed s /\ g_done s' = g_done s /\
  g_pfc s' = g_pfc s /\ st_wpos (g_store s') = st_wpos (g_store s) /\
  exists newer, g_trace s' = newer ++ g_trace s /\
    Forall (fun e => match e with EvRead _ _ _ _ | EvSeek _ _ => True | _ => False end) newer.
Proof.
  intros c s l s' Hw Hl H.
  step_cases H; try discriminate Hl; gsimpl;
    repeat match goal with
      | E : st_read _ _ = _ |- _ => apply st_read_rpos in E; [|exact Hw]
      | E : st_rseek _ _ = _ |- _ => apply st_rseek_rpos in E; [|exact Hw]
      end;
    try (destruct (st_tell_rpos _ Hw) as (T1 & T2 & T3); rewrite ?T3);
    repeat (split; [auto; tauto|]);
    first [exists []; split; [reflexivity|constructor]
          |eexists [_]; split; [reflexivity|repeat constructor]].
Qed.

(** Unbounded storage never leaves anything over. *)
Lemma no_leftover : forall c allow s, 0 < c_batch c -> unbounded_store c -> reach c allow s ->
  g_rem s = None.
Proof.
  intros c allow s Hb Hu H. induction H as [s H|s l s' Hr IH Hl H].
  - unfold init in H. destruct (into_rw _ _) eqn:E; [|discriminate]. injection H as <-. reflexivity.
  - destruct (plain_reach c allow s Hu Hr) as (u & Eu). clear Hr Hl.
    step_cases H; gsimpl; auto; exfalso; rewrite Eu in *; cbn [st_write] in *;
      apply pair_equal_spec in Heqp as [P1 P2]; apply Nat.eqb_eq in Heqb;
      rewrite Heqb in P1; unfold slice in P1; rewrite firstn_length, skipn_length in P1;
      apply Nat.ltb_lt in Heqb1; lia.
Qed.

Lemma whole_reach : forall c allow s, sane c -> straight c allow ->
  (forall s l, allow s l -> no_truncation s l) ->
  (forall s l, allow s l -> no_stall s l) \/ (unbounded_store c /\ c_rec c = RecRange) ->
  reach c allow s -> whole c s.
Proof.
  intros c allow s Hs Ha Ht Hst H. induction H as [s H|s l s' Hr IH Hl H].
  - unfold init in H. destruct (into_rw _ _) eqn:E; [|discriminate]. injection H as <-.
    apply into_rw_init in E as (E1 & E2 & E3). unfold whole, upto; cbn. rewrite E3.
    repeat split; auto; try lia; try discriminate; try contradiction. intros p Hp. injection Hp as <-. reflexivity.
  - pose proof (tr_wf _ _ (traced_reach _ _ _ Hr)) as Hw.
    pose proof (seq_cov_reach c allow s Ha Hr) as Hcov.
    destruct IH as (I1 & I2 & I3 & I4 & I5 & I6).
    destruct (task_label l) eqn:Htl.
    2:{ destruct (reader_frame c s l s' Hw Htl H) as (F1 & F2 & F3 & F4 & F5 & F6 & F7 & F8 & F9 & nw & F10 & F11).
        unfold whole, upto, succeeded, pending in *.
        rewrite F1, F2, F3, F4, F5, F6, F7, F9, F10.
        repeat (split; [auto; try (apply Forall_app; split; auto; eapply Forall_impl; [|exact F11]; intros [] ?; cbn; auto; fail)|]).
        auto. }
    pose proof (straight_chan c allow s Ha Hr) as N.
    pose proof (straight_pfs c allow s Ha Hr) as Hp.
    pose proof (sy_done _ (sync_reach _ _ _ Hr)) as Hfin.
    pose proof (wf_reach c _ s Hr) as Hwf.
    assert (Hrem : unbounded_store c -> g_rem s = None).
    { intros Hu. apply (no_leftover c allow s); auto. apply Hs. }
    unfold whole, upto, seq_cov, succeeded, pending in *.
    pose proof (Ht _ _ Hl) as Htr.
    assert (Hsl : no_stall s l \/ (unbounded_store c /\ c_rec c = RecRange)).
    { destruct Hst as [K|K]; [left; apply K; auto|right; auto]. }
    clear Hr Hl Ha Ht Hst.
    step_cases H; gsimpl; rwpc; try discriminate Htl; try (rewrite (N _ _ eq_refl) in *; congruence);
      try (rewrite (N _ _ Heqo) in *; congruence); clear N Htl; cbn [no_truncation] in *;
      try (exfalso; eapply I4; reflexivity);
      repeat match goal with
        | E : st_write _ _ = _ |- _ => pose proof (write_accepted _ _ _ _ E); apply st_write_rpos in E; [|exact Hw]
        end.
    all: (split; [repeat (constructor; [exact I|]); auto|
          split; [auto|split; [auto|split; [try discriminate; auto|split; [try discriminate; auto|auto; try contradiction]]]]]).
    all: repeat match goal with
      | K : (_ <=? _) = true |- _ => apply Nat.leb_le in K
      | K : (_ <? _) = false |- _ => apply Nat.ltb_ge in K
      | K : (_ <? _) = true |- _ => apply Nat.ltb_lt in K
      | K : (_ =? _) = true |- _ => apply Nat.eqb_eq in K
      end; try lia; try discriminate.
    all: try (specialize (I5 _ eq_refl); gsimpl;
      try (intros p P; injection P as <-); cbn [skipn length] in *;
      rewrite ?app_length, ?length_slice, ?skipn_length, ?Nat.add_0_r in *; try lia).
    all: try (exfalso; match goal with E : rs_next_gap _ _ _ = Some _ |- _ =>
           apply rs_next_gap_some with (lo0 := 0) in E;
             [destruct E as (G1 & G2 & G3 & _ & G5 & _); apply (G5 n0);
              rewrite ?(proj1 Hs _ eq_refl), ?(proj1 Hs _ Heqo0) in *|] end; 
             [lia| |]).
    all: try (apply rs_add_wf; auto; fail); try exact Hwf.
    all: try (assert (Em : g_rem s = None) by
           (first [tauto | destruct Hsl as [[]|[Hu _]]; auto]); rewrite Em in *; cbn [length] in *).
    all: try lia.
    all: try (apply Hcov; lia); try (intros _ x Hx; apply Hcov; lia);
         try (apply rs_add_covered; right; lia); try (intros _ x Hx; apply rs_add_covered; right; lia).
    { rewrite (proj1 Hs _ Heqo) in *. apply rs_add_covered. right. lia. }
    { rewrite (proj1 Hs _ Heqo) in *. apply rs_add_covered. right. lia. }
    { exfalso. destruct Hsl as [[]|[_ Hrr]]. congruence. }
    all: try (intros Hd; specialize (Hfin Hd); discriminate Hfin).
    all: try (intros _; apply I6; auto; fail).
    all: try (destruct ok0; [auto|]).
    { rewrite andb_false_r in *. discriminate. }
    { intros Hd. auto. }
Qed.

(** ** A seek to missing data is answered by a request for it *)

Lemma seek_request : forall c s p s', rs_wf (g_down s) -> c_seekable c = true ->
  g_chan s = Some p -> (forall cl, c_clen c = Some cl -> p < cl) ->
  step c s LDSeek = Some s' -> ~ is_downloaded s' p ->
  exists e, g_trace s' = EvSeekRange p e :: g_trace s.
Proof.
  intros c s p s' Hw Hk Hc Hp H Hd.
  assert (Hd0 : ~ is_downloaded s p) by (intros K; apply Hd; eapply down_mono; eauto).
  cbn [step] in H. rewrite Hc in H.
  destruct (g_dpc s); try discriminate. injection H as <-.
  unfold handle_seek, should_seek in *. rewrite Hk in *. gsimpl.
  destruct (rs_get p (g_down s)) as [[a b]|] eqn:G.
  { exfalso. apply rs_get_some in G as [G1 G2]. apply Hd0. exists a, b. auto. }
  set (s1 := if g_pfc s then _ else _) in *.
  assert (W1 : rs_wf (g_down s1)) by (unfold s1; destruct (g_pfc s); gsimpl; auto using rs_add_wf).
  assert (T1 : g_trace s1 = g_trace s) by (unfold s1; destruct (g_pfc s); reflexivity).
  destruct (c_clen c) as [cl|].
  - specialize (Hp _ eq_refl).
    destruct (rs_next_gap (Nat.min (st_wpos (g_store s)) p) cl (g_down s1)) as [[a b]|] eqn:E.
    + gsimpl. exists (Some b). rewrite T1. f_equal. f_equal.
      apply rs_next_gap_some with (lo0 := 0) in E as (E1 & E2 & E3 & E4 & E5 & _); auto.
      apply Nat.max_r. destruct (Nat.le_gt_cases a p); auto. exfalso. apply Hd.
      destruct (E4 p) as (x & y & A & B); [lia|]. exists x, y. auto.
    + exfalso. apply Hd. destruct (rs_next_gap_none _ _ _ E p) as (x & y & A & B); [lia|].
      exists x, y; auto.
  - gsimpl. exists None. rewrite T1. reflexivity.
Qed.

Definition seek_heard (c : cfg) (base : list event) (s : gstate) (p : nat) : Prop :=
  g_chan s = Some p \/ is_downloaded s p \/
  (exists newer e, g_trace s = newer ++ base /\ In (EvSeekRange p e) newer) \/
  chan_open (g_dpc s) = false \/ exists cl, c_clen c = Some cl /\ cl <= p.

Definition seek_phase (c : cfg) (base : list event) (s : gstate) : Prop :=
  match g_rpc s with
  | RSCheck _ | RSGet _ _ | RSSet _ _ | RSSend _ _ => g_chan s = None
  | RSWait _ p | RSCheck2 _ p | RSSeek _ p => seek_heard c base s p
  | RIdle => True
  | _ => False
  end.

Lemma closed_stays : forall c s l s', step c s l = Some s' -> chan_open (g_dpc s) = false ->
  chan_open (g_dpc s') = false.
Proof.
  intros c s l s' H Hd. unfold chan_open in *.
  step_cases H; gsimpl; auto; rwpc; try discriminate; auto.
Qed.

Lemma seek_phase_step : forall c base s l s', rs_wf (g_down s) -> c_seekable c = true ->
  (exists newer, g_trace s = newer ++ base) ->
  during_call l -> step c s l = Some s' ->
  seek_phase c base s -> seek_phase c base s'.
Proof.
  intros c base s l s' Hw Hk (nw & Hb) Hl H Hph.
  assert (Hq : forall p, seek_heard c base s p -> seek_heard c base s' p).
  { intros p Q0.
    assert (Hpc : (forall cl, c_clen c = Some cl -> p < cl) \/ exists cl, c_clen c = Some cl /\ cl <= p).
    { destruct (c_clen c) as [cl|]; [|left; discriminate].
      destruct (Nat.lt_ge_cases p cl); [left; congruence|right; eauto]. }
    destruct Hpc as [Hpc|Hpc]; [|unfold seek_heard; auto 6].
    destruct Q0 as [Q|[Q|[Q|[Q|Q]]]].
    - destruct (g_chan s') as [q|] eqn:Eq.
      + left. rewrite Eq. rewrite <- Q, <- Eq. clear Hph. step_cases H; gsimpl; auto; congruence.
      + assert (l = LDSeek).
        { clear Hph. destruct l; auto; exfalso; step_cases H; gsimpl; congruence. }
        subst l. destruct (rs_get p (g_down s')) as [[a b]|] eqn:G.
        * apply rs_get_some in G as [G1 G2]. right; left. exists a, b; auto.
        * right; right; left. apply rs_get_none in G.
          destruct (seek_request c s p s' Hw Hk Q Hpc H) as (e & E).
          { intros (a & b & A & B). apply G. exists a, b; auto. }
          exists (EvSeekRange p e :: nw), e. rewrite E, Hb. split; [reflexivity|left; reflexivity].
    - right; left. eapply down_mono; eauto.
    - destruct Q as (n1 & e & Q1 & Q2). destruct (trace_grows _ _ _ _ H) as (n2 & E).
      right; right; left. exists (n2 ++ n1), e. rewrite E, Q1, app_assoc. split; auto.
      apply in_or_app; auto.
    - right; right; right; left. eapply closed_stays; eauto.
    - unfold seek_heard; auto 6. }
  assert (Hst : g_rpc s' = g_rpc s \/ l = LRStep).
  { destruct l; auto; left; cbn in Hl; try contradiction; clear - H; step_cases H; gsimpl; auto. }
  unfold seek_phase in *. destruct Hst as [Hst|Hst].
  - rewrite Hst. destruct (g_rpc s) eqn:Er; auto;
      try (apply Hq; auto; fail);
      (destruct (g_chan s') as [q|] eqn:Eq; auto; exfalso; clear Hq;
        destruct l; cbn in Hl; try contradiction; step_cases H; gsimpl; congruence).
  - subst l. cbn [step] in H. unfold r_step in H.
    destruct (g_rpc s) eqn:Er; try contradiction; try discriminate;
      repeat (split_match H; try discriminate H); try (injection H as H; subst); gsimpl; auto;
      try (apply Hq; auto; fail).
    + right; left. destruct r as [a b]. apply rs_get_some in Heqo as [G1 G2]. exists a, b; auto.
    + discriminate.
    + left. reflexivity.
    + right; right; right; left. assumption.
Qed.

Lemma seek_answered : forall c allow s from s1 ls s2 p,
  reach c allow s -> c_seekable c = true -> g_chan s = None ->
  step c s (LOp (OSeek from)) = Some s1 -> Forall during_call ls -> run c s1 ls = Some s2 ->
  blocked c s2 -> wait_target (g_rpc s2) = Some p ->
  (forall cl, c_clen c = Some cl -> p < cl) ->
  g_chan s2 = Some p \/ is_downloaded s2 p \/ g_dpc s2 = DPanic \/
  exists newer e, g_trace s2 = newer ++ g_trace s /\ In (EvSeekRange p e) newer.
Proof.
  intros c allow s from s1 ls s2 p Hr Hk Hc H1 Hls H2 Hb Hw Hp.
  assert (K : reach c any s2 /\ seek_phase c (g_trace s) s2 /\ exists newer, g_trace s2 = newer ++ g_trace s).
  { assert (R1 : reach c any s1).
    { eapply reach_step; [|exact I|exact H1]. clear - Hr. induction Hr.
      - apply reach_init; auto.
      - eapply reach_step; eauto. exact I. }
    assert (P1 : seek_phase c (g_trace s) s1 /\ exists newer, g_trace s1 = newer ++ g_trace s).
    { cbn [step] in H1. destruct (g_rpc s); try discriminate. injection H1 as <-.
      unfold seek_phase; gsimpl. split; auto. exists []. reflexivity. }
    destruct P1 as [P1 N1]. clear H1. revert s1 R1 P1 N1 H2.
    induction Hls as [|l ls Hl Hls IH]; intros s1 R1 P1 N1 H2; cbn [run] in H2.
    - injection H2 as <-. auto.
    - destruct (step c s1 l) as [s3|] eqn:E; [|discriminate]. apply (IH s3); auto.
      + eapply reach_step; eauto. exact I.
      + eapply seek_phase_step; eauto. eapply wf_reach; eauto.
      + destruct N1 as (n1 & N1). destruct (trace_grows _ _ _ _ E) as (n2 & N2).
        exists (n2 ++ n1). rewrite N2, N1, app_assoc. reflexivity. }
  destruct K as (R2 & P2 & _). pose proof (sync_reach _ _ _ R2) as Hs.
  unfold seek_phase in P2. destruct Hb as [_ Hb]. cbn [step] in Hb. unfold r_step in Hb.
  destruct (g_rpc s2); try discriminate; try contradiction. injection Hw as ->.
  destruct P2 as [Q|[Q|[Q|[Q|Q]]]]; auto.
  - right; right; left. destruct (g_dpc s2) eqn:Ed; try discriminate; auto.
    assert (g_done s2 = true) by (apply (sy_final _ Hs); rewrite Ed; exact I).
    rewrite H in Hb. discriminate.
  - exfalso. destruct Q as (cl & Q1 & Q2). specialize (Hp _ Q1). lia.
Qed.

(** * Range requests, local seeks, rejected calls and progress reports, any storage. *)

From Coq Require Import List Arith Lia ZArith Bool.
From Verif Require Import Base ListFacts RangeSet RangeSetFacts Storage StorageFacts
  System Spec StepTac InvSync InvTrace Exec LifeFacts.
Import ListNotations.

(** ** Range requests *)

Definition rpc_target (r : rpc) : option nat :=
  match r with
  | RSGet _ p | RSSet _ p | RSSend _ p | RSWait _ p | RSCheck2 _ p | RSSeek _ p => Some p
  | _ => None
  end.

Record ranged (cl : nat) (s : gstate) : Prop := mkRanged
  { rg_wf : rs_wf (g_down s);
    rg_chan : forall p, g_chan s = Some p -> p <= cl;
    rg_rpc : forall p, rpc_target (g_rpc s) = Some p -> p <= cl;
    rg_trace : Forall (request_inside cl) (g_trace s) }.

Lemma ranged_step : forall c cl s l s', c_clen c = Some cl -> ranged cl s ->
  step c s l = Some s' -> ranged cl s'.
Proof.
  intros c cl s l s' Hc [R1 R2 R3 R4] H.
  step_cases H; constructor; gsimpl; auto using rs_add_wf;
    repeat match goal with
    | E : g_rpc _ = _ |- _ => rewrite E in *; clear E
    | E : g_chan _ = _ |- _ => rewrite E in *; clear E
    end; try discriminate; cbn [rpc_target] in *; auto; try congruence;
    try (intros p0 [= <-]; auto; fail);
    repeat (constructor; [exact I|]); auto.
  - constructor; auto. injection Hc as ->. apply rs_next_gap_some with (lo0 := 0) in Heqo1; auto.
    specialize (R2 _ eq_refl). cbn. split; [lia|]. eexists; split; [reflexivity|lia].
  - constructor; auto. injection Hc as ->.
    apply rs_next_gap_some with (lo0 := 0) in Heqo1; [|apply rs_add_wf; auto].
    specialize (R2 _ eq_refl). cbn. split; [lia|]. eexists; split; [reflexivity|lia].
  - constructor; auto. injection Hc as ->. apply rs_next_gap_some with (lo0 := 0) in Heqo1; auto.
    cbn. split; [lia|]. eexists; split; [reflexivity|lia].
  - constructor; auto. injection Hc as ->.
    apply rs_next_gap_some with (lo0 := 0) in Heqo0; [|apply rs_add_wf; auto].
    cbn. split; [lia|]. eexists; split; [reflexivity|lia].
  - intros p [= <-]. unfold normalize. rewrite Hc. lia.
Qed.

Lemma ranged_reach : forall c cl allow s, c_clen c = Some cl -> reach c allow s -> ranged cl s.
Proof.
  intros c cl allow s Hc H. induction H as [s H|s l s' Hr IH Hl H].
  - unfold init in H. destruct (into_rw _ _); [|discriminate]. injection H as <-.
    constructor; cbn; auto; discriminate.
  - eapply ranged_step; eauto.
Qed.

Lemma wf_reach : forall c allow s, reach c allow s -> rs_wf (g_down s).
Proof.
  intros c allow s H. induction H as [s H|s l s' Hr IH Hl H].
  - unfold init in H. destruct (into_rw _ _); [|discriminate]. injection H as <-. exact I.
  - clear Hr Hl. step_cases H; gsimpl; auto using rs_add_wf.
Qed.

(** A request never covers a byte that is already downloaded. *)
Lemma fresh_request : forall c allow s l s' a b x, reach c allow s -> step c s l = Some s' ->
  g_trace s' = EvSeekRange a (Some b) :: g_trace s -> a <= x < b ->
  ~ is_downloaded s x /\ ~ is_downloaded s' x.
Proof.
  intros c allow s l s' a b x Hr H Ht Hx.
  pose proof (wf_reach _ _ _ Hr) as Hw. clear Hr.
  assert (Hself : forall (t : list event) e, t <> e :: t).
  { intros t e E. apply (f_equal (@length event)) in E. cbn in E. lia. }
  assert (K : exists lo hi a0, rs_next_gap lo hi (g_down s') = Some (a0, b) /\ a0 <= a /\
              rs_wf (g_down s') /\ forall y, covered (g_down s) y -> covered (g_down s') y).
  { step_cases H; gsimpl; try (exfalso; symmetry in Ht; eapply Hself; eauto; fail);
      try discriminate Ht.
    all: try (exfalso; injection Ht; intros; congruence).
    all: injection Ht as <- <-; do 3 eexists; split; [eassumption|].
    all: split; [try lia|split; [auto using rs_add_wf|]]; auto.
    all: intros y Hy; apply rs_add_covered; auto. }
  destruct K as (lo & hi & a0 & K1 & K2 & K3 & K4).
  apply rs_next_gap_some with (lo0 := 0) in K1; auto.
  assert (N : ~ covered (g_down s') x) by (apply K1; lia).
  split; intros (a1 & b1 & D); apply N; [apply K4|]; exists a1, b1; exact D.
Qed.

Lemma sequential_requests : forall c (allow : gstate -> label -> Prop) s,
  (forall s l, allow s l -> sequential_client s l) -> reach c allow s ->
  Forall (gap_request c) (g_trace s).
Proof.
  intros c allow s Ha H.
  assert (K : (match g_rpc s with RSCheck _ | RSGet _ _ | RSSet _ _ | RSSend _ _ | RSWait _ _
                | RSCheck2 _ _ | RSSeek _ _ => False | _ => True end) /\ g_chan s = None /\
              rs_wf (g_down s) /\ Forall (gap_request c) (g_trace s)).
  { induction H as [s H|s l s' Hr (K1 & K2 & K3 & K4) Hl H].
    - unfold init in H. destruct (into_rw _ _); [|discriminate]. injection H as <-. cbn; auto.
    - apply Ha in Hl. clear Hr Ha.
      step_cases H; gsimpl; rwpc; try contradiction; try congruence;
        (split; [auto|split; [auto|split; [auto using rs_add_wf|]]]);
        repeat (constructor; [exact I|]); auto.
      all: constructor; auto; cbn.
      + apply rs_next_gap_some with (lo0 := 0) in Heqo1; auto. do 2 eexists. repeat split; eauto; lia.
      + apply rs_next_gap_some with (lo0 := 0) in Heqo0; [|apply rs_add_wf; auto].
        do 2 eexists. repeat split; eauto; lia. }
  apply K.
Qed.

(** ** Seeks to downloaded positions *)

Lemma down_mono : forall c s l s' x, step c s l = Some s' -> is_downloaded s x ->
  is_downloaded s' x.
Proof.
  intros c s l s' x H (a & b & Hi & Hx).
  assert (Hc : covered (g_down s) x) by (exists a, b; auto).
  change (covered (g_down s') x).
  step_cases H; gsimpl; auto; apply rs_add_covered; auto.
Qed.

Lemma cursor_extend : forall es tr,
  Forall (fun e => match e with EvRead _ _ _ _ | EvSeek _ _ => False | _ => True end) es ->
  cursor (es ++ tr) = cursor tr.
Proof.
  induction 1 as [|e es He Hes IH]; cbn; auto. destruct e; auto; contradiction.
Qed.

Definition user_label (l : label) : bool :=
  match l with LRStep | LRIoErr | LOp _ | LDrop => true | _ => false end.

Lemma task_step_frame : forall c s l s', user_label l = false -> traced c s -> step c s l = Some s' ->
  g_rpc s' = g_rpc s /\ st_rpos (g_store s') = st_rpos (g_store s) /\
  exists es, g_trace s' = es ++ g_trace s /\
    Forall (fun e => match e with EvRead _ _ _ _ | EvSeek _ _ => False | _ => True end) es.
Proof.
  intros c s l s' Hl Ht H. pose proof (tr_wf _ _ Ht) as Hw. clear Ht.
  step_cases H; try discriminate Hl; gsimpl; auto;
    (split; [reflexivity|split; [auto|]]);
    try (eapply st_write_rpos; eauto; fail); try (eapply st_wseek_rpos; eauto; fail);
    first [ exists []; split; [reflexivity|constructor]
          | eexists [_]; split; [reflexivity|constructor; [exact I|constructor]]
          | eexists [_; _]; split; [reflexivity|constructor; [exact I|constructor; [exact I|constructor]]]].
Qed.

Lemma plain_step : forall c s u l s', g_store s = SPlain u -> step c s l = Some s' ->
  exists u', g_store s' = SPlain u'.
Proof.
  intros c s u l s' IH H.
  step_cases H; gsimpl; rewrite IH in *; cbn [st_tell st_write st_wseek st_rseek st_read] in *;
    eauto; try congruence;
    try (match goal with E : (_, SPlain _) = (_, _) |- _ => injection E as <- <-; eauto end);
    try (match goal with E : context [u_read ?n ?u] |- _ =>
           destruct (u_read n u); injection E as E1 <-; eauto end).
Qed.

Lemma plain_reach : forall c allow s, unbounded_store c -> reach c allow s ->
  exists u, g_store s = SPlain u.
Proof.
  intros c allow s Hu H. induction H as [s H|s l s' Hr [u IH] Hl H].
  - unfold init in H. destruct (into_rw _ _) eqn:E; [|discriminate]. injection H as <-. cbn.
    unfold unbounded_store in Hu. destruct (c_provider c); cbn in E.
    + destruct (plain_rw _ _); [|discriminate]. injection E as <-. eauto.
    + contradiction.
    + destruct (c_clen c); [|congruence].
      destruct (_ <=? _); destruct (plain_rw _ _); try discriminate; injection E as <-; eauto.
  - eapply plain_step; eauto.
Qed.

Lemma run_failed : forall c ls s s', run c s ls = Some s' -> g_failed s' = false ->
  g_failed s = false.
Proof.
  induction ls as [|l ls IH]; intros s s' H Hf; cbn in H; [congruence|].
  destruct (step c s l) as [s1|] eqn:E; [|discriminate].
  specialize (IH _ _ H Hf). destruct (g_failed s) eqn:F; auto.
  rewrite (failed_sticky _ _ _ _ F E) in IH. discriminate.
Qed.

Lemma trace_grows : forall c s l s', step c s l = Some s' ->
  exists newer, g_trace s' = newer ++ g_trace s.
Proof.
  intros c s l s' H. step_cases H; gsimpl;
    first [ exists []; reflexivity | eexists [_]; reflexivity | eexists [_; _]; reflexivity ].
Qed.

Lemma local_seek : forall c allow s from t ls s1 s2,
  unbounded_store c -> reach c allow s ->
  seek_target c (cursor (g_trace s)) from = Some t -> (0 <= t < two64)%Z ->
  is_downloaded s (clamp c t) ->
  step c s (LOp (OSeek from)) = Some s1 -> Forall during_call ls -> run c s1 ls = Some s2 ->
  g_failed s2 = false ->
  (reader_steps ls < 3 -> exists s3, step c s2 LRStep = Some s3 /\ task_view s3 = task_view s2) /\
  (reader_steps ls = 3 -> g_rpc s2 = RIdle /\
     exists newer older, g_trace s2 = newer ++ EvSeek from (Ok (clamp c t)) :: older ++ g_trace s).
Proof.
  intros c allow s from t ls s1 s2 Hub Hr Ht Ht2 Hd H1 Hls Hrun Hf.
  set (ph := fun k (s' : gstate) =>
    match k with
    | 0 => g_rpc s' = RSCheck from /\ st_rpos (g_store s') = cursor (g_trace s)
    | 1 => g_rpc s' = RSGet from (clamp c t)
    | 2 => g_rpc s' = RSSeek from (clamp c t)
    | 3 => g_rpc s' = RIdle /\
        exists newer older, g_trace s' = newer ++ EvSeek from (Ok (clamp c t)) :: older ++ g_trace s
    | _ => False
    end).
  set (dn := fun s' => is_downloaded s' (clamp c t) /\ exists nw, g_trace s' = nw ++ g_trace s).
  assert (Hdn' : forall s' l s'', step c s' l = Some s'' -> dn s' -> dn s'').
  { intros s' l s'' St [D1 (nw & D3)]. split; [eapply down_mono; eauto|].
    destruct (trace_grows _ _ _ _ St) as (nw2 & ->). rewrite D3. exists (nw2 ++ nw). apply app_assoc. }
  assert (Hcap : forall r p, excessive_seek c r p = false).
  { intros r p. unfold excessive_seek, max_capacity. unfold unbounded_store in Hub.
    destruct (c_provider c); auto; contradiction. }
  assert (Hone : forall k s', ph k s' -> g_failed s' = false -> dn s' ->
            (exists u, g_store s' = SPlain u) -> k < 3 ->
            exists s3, step c s' LRStep = Some s3 /\ task_view s3 = task_view s' /\ ph (S k) s3).
  { intros k s' P F [D (nw & D3)] (u & U) K. cbn [step]. unfold r_step.
    destruct k as [|[|[|k]]]; [| | |lia]; cbn in P.
    - destruct P as [P1 P2]. rewrite P1, F.
      assert (Hab : absolute_seek_position c (st_rpos (g_store s')) from = Ok t).
      { rewrite P2. destruct from; cbn in *.
        - congruence.
        - injection Ht as <-. f_equal. apply Z.mod_small; auto.
        - destruct (c_clen c); cbn in *; [|discriminate]. injection Ht as <-.
          f_equal. apply Z.mod_small; auto. }
      rewrite Hab, Hcap. eexists. split; [reflexivity|split; [reflexivity|]]. cbn.
      reflexivity.
    - rewrite P. destruct (rs_get_covered (g_down s') (clamp c t)) as (a & b & E); [exact D|].
      rewrite E. eexists. split; [reflexivity|split; [reflexivity|]]. reflexivity.
    - rewrite P, U. cbn [st_rseek]. eexists. split; [reflexivity|split; [reflexivity|]].
      cbn. split; [reflexivity|]. exists [], nw. cbn. rewrite D3. reflexivity. }
  assert (Htr : traced c s1) by (eapply traced_step; [|eauto]; eapply traced_reach; eauto).
  assert (P0 : ph 0 s1 /\ dn s1 /\ exists u, g_store s1 = SPlain u).
  { split; [|split; [eapply Hdn'; eauto; split; auto; exists []; reflexivity|]].
    - pose proof (traced_reach _ _ _ Hr) as Htr0. pose proof (tr_at _ _ Htr0) as Ta.
      cbn [step] in H1. destruct (g_rpc s) eqn:E; try discriminate. injection H1 as <-. cbn.
      split; auto. 
    - cbn [step] in H1. destruct (g_rpc s) eqn:E; try discriminate. injection H1 as <-. cbn.
      eapply plain_reach; eauto. }
  cut (ph (reader_steps ls) s2 /\ dn s2 /\ (exists u, g_store s2 = SPlain u)).
  { intros (P1 & P2 & P3). split; intros K.
    - destruct (Hone _ _ P1 Hf P2 P3 K) as (s3 & A1 & A2 & _). eauto.
    - rewrite K in P1. exact P1. }
  cut (forall ls k s', ph k s' -> dn s' -> (exists u, g_store s' = SPlain u) ->
         traced c s' -> Forall during_call ls -> run c s' ls = Some s2 ->
         ph (k + reader_steps ls) s2 /\ dn s2 /\
         (exists u, g_store s2 = SPlain u)).
  { intros G. apply (G ls 0 s1); auto; apply P0. }
  clear Hrun ls Hls H1 Htr P0.
  induction ls as [|l ls IH]; intros k s' P D (u & U) T Hls H; cbn in H.
  - injection H as <-. cbn. rewrite Nat.add_0_r. eauto.
  - destruct (step c s' l) as [s''|] eqn:E; [|discriminate].
    inversion Hls as [|? ? Hl Hls']; subst.
    assert (D' : dn s'') by (eapply Hdn'; eauto).
    assert (U' : exists u, g_store s'' = SPlain u) by (eapply plain_step; eauto).
    assert (T' : traced c s'') by (eapply traced_step; eauto).
    assert (F : g_failed s' = false).
    { apply (run_failed c (l :: ls) s' s2); auto. cbn. rewrite E. auto. }
    assert (Hnon : user_label l = false -> ph k s'').
    { intros Hu. destruct (task_step_frame _ _ _ _ Hu T E) as (R1 & R2 & es & R3 & _).
      destruct k as [|[|[|[|k]]]]; cbn in *; rewrite ?R1, ?R2; auto.
      destruct P as [P (nw & od & P')]. split; auto. exists (es ++ nw), od.
      rewrite R3, P', app_assoc. reflexivity. }
    destruct l; cbn in Hl; try contradiction; cbn [reader_steps];
      try (apply (IH k s''); auto; apply Hnon; reflexivity).
    rewrite Nat.add_succ_r, <- Nat.add_succ_l. apply (IH (S k) s''); auto.
    destruct (Nat.lt_ge_cases k 3) as [K|K].
    + destruct (Hone k s' P F D (ex_intro _ u U) K) as (s3 & A1 & _ & A3). congruence.
    + exfalso. destruct k as [|[|[|[|k]]]]; try lia; cbn in P; [|contradiction].
      cbn [step] in E. unfold r_step in E. destruct P as [P _]. rewrite P in E. discriminate.
Qed.

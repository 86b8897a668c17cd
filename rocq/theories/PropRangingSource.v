(** * C32, C19, C58: jumping ahead in bounded storage, over HTTP and over OpenDAL.

    Vocabulary: Spec.v, ForwardSpec.v and SourceSpec.v. *)

From Coq Require Import String List Arith Lia ZArith Bool.
From Verif Require Import Base ListFacts Storage System Spec Exec
  Http HttpSpec Opendal Source SourceSpec SourceFacts SourceImpl
  BoundedInv BoundedForward ForwardSpec PropReads PropBounded PropSource PropSourceLive PropSourceLoop
  PropForward PropJump PropRanging.
Import ListNotations.

Lemma blind_ranging_full : forall c, outcome_blind (both (ranging_http_env c) no_empty_chunk).
Proof.
  intros c s. split; [|split]; intros r r' H; try exact H; repeat split; try exact I.
Qed.

Lemma ranging_over : forall c, c_seekable c = true -> c_clen c <> None -> forall s l,
  ranging_http_env c s l -> ranging_env c s l.
Proof.
  intros c K1 K2 s l (A1 & A2 & A3 & A4).
  split; [exact A1|]. split; [split; [exact A2|]|split; [exact A3|]].
  - destruct l; try exact I. left. split; assumption.
  - destruct l; try exact I. destruct rc; [exact A4|exact I|exact I].
Qed.

Lemma blind_ranging_fenced : forall c,
  outcome_blind (both (ranging_http_env c) (both no_empty_chunk fenced)).
Proof.
  intros c s. split; [|split]; intros r r' H; try exact H; repeat split; try exact I.
Qed.

(** ** Over HTTP the task does not panic *)

Lemma http_ranging_reach : forall server resource len v x0 c0 extra cs,
  let c := over (http_source server) x0 c0 in
  http_setup server resource (Some len) (Some v) x0 c0 -> v <> "none"%string ->
  outcome_blind (both (ranging_http_env c) extra) ->
  creach (http_source server) x0 c (both (ranging_http_env c) extra) cs ->
  sane c /\ c_clen c <> None /\ reach c (both (ranging_env c) extra) (cs_sys cs).
Proof.
  intros server resource len v x0 c0 extra cs c Hs Hv Hbl H.
  destruct (setup_known _ _ _ _ _ _ Hs) as [K1 K2]. fold c in K1, K2.
  assert (Hsane : sane c) by (eapply setup_sane; exact Hs).
  assert (D : delivers (http_source server) x0 c (both (ranging_http_env c) extra)
                (http_ok (Some len) (Some v)) hs_body).
  { eapply setup_delivers; [exact Hs| |].
    - intros s _. left. split; assumption.
    - intros s rc _. exists v. auto. }
  destruct (refine (http_source server) x0 c _ _ _ D Hbl
              eq_refl eq_refl (proj1 Hsane) cs H) as [_ R].
  split; [exact Hsane|]. split; [exact K2|].
  revert R. apply reach_weaken. intros s l [[A B] _]. split; [|exact B].
  exact (ranging_over c K1 K2 s l A).
Qed.

Theorem C32_http_ranging : forall server resource len v x0 c0 ck p n cs,
  let c := over (http_source server) x0 c0 in
  http_setup server resource (Some len) (Some v) x0 c0 -> v <> "none"%string ->
  c_provider c0 = PBounded ck p n ->
  creach (http_source server) x0 c (both (ranging_http_env c) no_empty_chunk) cs ->
  g_dpc (cs_sys cs) <> DPanic.
Proof.
  intros server resource len v x0 c0 ck p n cs c Hs Hv Hp H.
  destruct (http_ranging_reach _ _ _ _ _ _ _ _ Hs Hv (blind_ranging_full c) H) as (A & B & R).
  exact (C32_ranging c ck p n _ Hp A eq_refl (fun _ => B) R).
Qed.

Theorem C19_http_ranging_partial : forall server resource len v x0 c0 ck p n cs,
  let c := over (http_source server) x0 c0 in
  http_setup server resource (Some len) (Some v) x0 c0 -> v <> "none"%string ->
  c_provider c0 = PBounded ck p n ->
  creach (http_source server) x0 c (both (ranging_http_env c) no_empty_chunk) cs ->
  blocked c (cs_sys cs) -> task_can_move c (cs_sys cs) \/ waits_for_room (cs_sys cs).
Proof.
  intros server resource len v x0 c0 ck p n cs c Hs Hv Hp H Hb.
  destruct (http_ranging_reach _ _ _ _ _ _ _ _ Hs Hv (blind_ranging_full c) H) as (A & B & R).
  exact (C19_ranging_partial c ck p n _ Hp A eq_refl (fun _ => B) R Hb).
Qed.

(** Only a seek can be stuck. *)
Theorem C19_http_ranging_reads_partial : forall server resource len v x0 c0 ck p n cs,
  let c := over (http_source server) x0 c0 in
  http_setup server resource (Some len) (Some v) x0 c0 -> v <> "none"%string ->
  c_provider c0 = PBounded ck p n ->
  creach (http_source server) x0 c (both (ranging_http_env c) (both no_empty_chunk fenced)) cs ->
  blocked c (cs_sys cs) ->
  task_can_move c (cs_sys cs) \/ exists from t, g_rpc (cs_sys cs) = RSWait from t.
Proof.
  intros server resource len v x0 c0 ck p n cs c Hs Hv Hp H Hb.
  destruct (http_ranging_reach _ _ _ _ _ _ _ _ Hs Hv (blind_ranging_fenced c) H) as (A & B & R).
  apply (C19_ranging_reads_partial c ck p n _ Hp A eq_refl (fun _ => B)); [|exact Hb].
  revert R. apply reach_weaken. intros s l (Q1 & Q2 & Q3). split; [split|]; assumption.
Qed.

(** A jump past the downloaded data and a seek back over HTTP, both served, and a seek that waits. *)
Example C32_http_ranging_case :
  let c := over (http_source demo_server) demo_http (ring_cfg 0) in
  exists cs, creach (http_source demo_server) demo_http c (both (ranging_http_env c) no_empty_chunk) cs /\
    blocked c (cs_sys cs) /\
    In (EvRead 5 2 true (Ok [x06; x07])) (g_trace (cs_sys cs)) /\
    In (EvSeek (FromStart 6) (Ok 6)) (g_trace (cs_sys cs)) /\
    g_rpc (cs_sys cs) = RSWait (FromStart 9) 9.
Proof.
  cbv zeta. eexists.
  split; [eapply (crun_b_reach _ _ _ (both_b (ranging_http_b (over (http_source demo_server) demo_http (ring_cfg 0))) empty_b) _
    ([LDChunk 2] ++ Tk 6 ++ [LOp (ORead 2)] ++ Rd 4 ++ [seek_to 5] ++ Rd 4 ++ [LDSeek; LDSeekRes true; LDChunk 1] ++
     Tk 2 ++ [LDTimeout RcOk; LDChunk 1] ++ Tk 5 ++ Rd 3 ++ [LOp (ORead 2)] ++ Rd 4 ++ Tk 7 ++ Rd 4 ++ [seek_to 6] ++ Rd 3 ++
     [seek_to 9] ++ Rd 4));
    [apply both_decides; [apply ranging_http_decides|apply empty_decides]|vm_compute; reflexivity|vm_compute; reflexivity]|].
  split; [apply blocked_b; reflexivity|]. vm_compute; auto 40.
Qed.

(** ** Over OpenDAL: reads are faithful and the task does not panic *)

(** The adapter yields no empty chunks. *)
Lemma opendal_no_empty : forall object x0 c allow cs,
  creach (opendal_source object) x0 c allow cs ->
  creach (opendal_source object) x0 c (both allow no_empty_chunk) cs.
Proof.
  intros object x0 c allow cs H. induction H as [s H|cs l cs' Hr IH Hl H].
  - constructor; exact H.
  - econstructor; [exact IH| |exact H]. split; [exact Hl|].
    destruct l; try exact I.
    destruct k; [|unfold no_empty_chunk; lia].
    exfalso. unfold cstep in H. cbn [opendal_source src_poll Opendal.od_poll_next] in H.
    destruct (g_dpc (cs_sys cs)); destruct (od_can (cs_src cs) 0); discriminate H.
Qed.

Lemma opendal_ranging_reach : forall object p x0 c0 extra cs,
  let c := over (opendal_source object) x0 c0 in
  od_new p object true = Some x0 -> 0 < op_chunk_size p -> c_content c0 = object -> 0 < length object ->
  (Z.of_nat (length object) < two64 / 2)%Z -> 0 < c_batch c0 ->
  outcome_blind (both (ranging_http_env c) extra) ->
  creach (opendal_source object) x0 c (both (ranging_http_env c) extra) cs ->
  sane c /\ c_clen c = Some (length object) /\ reach c (both (ranging_env c) extra) (cs_sys cs).
Proof.
  intros object p x0 c0 extra cs c Hn Hp Hc Hne Hl Hb Hbl H. rewrite od_new_fresh in Hn. apply some_inj in Hn.
  assert (K2 : c_clen c = Some (length object)).
  { unfold c. subst x0. cbn. destruct (Nat.ltb_spec 0 (length object)); [reflexivity|lia]. }
  assert (K1 : c_seekable c = true) by reflexivity.
  assert (Hsane : sane c).
  { split; [|split; [cbn; rewrite Hc; exact Hl|exact Hb]].
    intros k E. rewrite K2 in E. injection E as <-. unfold c. cbn. rewrite Hc. reflexivity. }
  assert (D : delivers (opendal_source object) x0 c (both (ranging_http_env c) extra) od_ok od_reader).
  { subst x0. unfold c. apply opendal_delivers; auto. }
  destruct (refine (opendal_source object) x0 c _ _ _ D Hbl eq_refl eq_refl (proj1 Hsane) cs H) as [_ R].
  split; [exact Hsane|]. split; [exact K2|].
  assert (K3 : c_clen c <> None) by (rewrite K2; discriminate).
  revert R. apply reach_weaken. intros s l [[A B] _]. split; [|exact B].
  exact (ranging_over c K1 K3 s l A).
Qed.

Theorem C58_opendal_ranging_partial : forall object p x0 c0 ck pl n cs,
  let c := over (opendal_source object) x0 c0 in
  od_new p object true = Some x0 -> 0 < op_chunk_size p -> c_content c0 = object -> 0 < length object ->
  (Z.of_nat (length object) < two64 / 2)%Z -> 0 < c_batch c0 ->
  c_provider c0 = PBounded ck pl n ->
  creach (opendal_source object) x0 c (ranging_http_env c) cs ->
  every_event (ranging_call_ok c (Nat.min (length object) n)) (g_trace (cs_sys cs)).
Proof.
  intros object p x0 c0 ck pl n cs c Hn Hp Hc Hne Hl Hb Hpr H.
  destruct (opendal_ranging_reach _ _ _ _ _ _ Hn Hp Hc Hne Hl Hb (blind_ranging_full c) (opendal_no_empty _ _ _ _ _ H)) as (A & B & R). fold c in A, B, R.
  assert (R' : reach c (ranging_env c) (cs_sys cs)).
  { revert R. apply reach_weaken. intros s l [Q _]. exact Q. }
  pose proof (C58_ranging_partial c ck pl n (cs_sys cs) Hpr A eq_refl
    (fun _ => ltac:(rewrite B; discriminate)) R') as Q.
  rewrite B in Q. exact Q.
Qed.

(** No hypothesis on empty chunks is needed. *)
Theorem C32_opendal_ranging : forall object p x0 c0 ck pl n cs,
  let c := over (opendal_source object) x0 c0 in
  od_new p object true = Some x0 -> 0 < op_chunk_size p -> c_content c0 = object -> 0 < length object ->
  (Z.of_nat (length object) < two64 / 2)%Z -> 0 < c_batch c0 ->
  c_provider c0 = PBounded ck pl n ->
  creach (opendal_source object) x0 c (ranging_http_env c) cs ->
  g_dpc (cs_sys cs) <> DPanic.
Proof.
  intros object p x0 c0 ck pl n cs c Hn Hp Hc Hne Hl Hb Hpr H.
  destruct (opendal_ranging_reach _ _ _ _ _ _ Hn Hp Hc Hne Hl Hb (blind_ranging_full c) (opendal_no_empty _ _ _ _ _ H)) as (A & B & R). fold c in A, B, R.
  exact (C32_ranging c ck pl n _ Hpr A eq_refl (fun _ => ltac:(rewrite B; discriminate)) R).
Qed.

Theorem C19_opendal_ranging_partial : forall object p x0 c0 ck pl n cs,
  let c := over (opendal_source object) x0 c0 in
  od_new p object true = Some x0 -> 0 < op_chunk_size p -> c_content c0 = object -> 0 < length object ->
  (Z.of_nat (length object) < two64 / 2)%Z -> 0 < c_batch c0 ->
  c_provider c0 = PBounded ck pl n ->
  creach (opendal_source object) x0 c (ranging_http_env c) cs ->
  blocked c (cs_sys cs) -> task_can_move c (cs_sys cs) \/ waits_for_room (cs_sys cs).
Proof.
  intros object p x0 c0 ck pl n cs c Hn Hp Hc Hne Hl Hb Hpr H Hbl.
  destruct (opendal_ranging_reach _ _ _ _ _ _ Hn Hp Hc Hne Hl Hb (blind_ranging_full c) (opendal_no_empty _ _ _ _ _ H)) as (A & B & R). fold c in A, B, R.
  exact (C19_ranging_partial c ck pl n _ Hpr A eq_refl (fun _ => ltac:(rewrite B; discriminate)) R Hbl).
Qed.

(** Only a seek can be stuck. *)
Theorem C19_opendal_ranging_reads_partial : forall object p x0 c0 ck pl n cs,
  let c := over (opendal_source object) x0 c0 in
  od_new p object true = Some x0 -> 0 < op_chunk_size p -> c_content c0 = object -> 0 < length object ->
  (Z.of_nat (length object) < two64 / 2)%Z -> 0 < c_batch c0 ->
  c_provider c0 = PBounded ck pl n ->
  creach (opendal_source object) x0 c (both (ranging_http_env c) fenced) cs ->
  blocked c (cs_sys cs) ->
  task_can_move c (cs_sys cs) \/ exists from t, g_rpc (cs_sys cs) = RSWait from t.
Proof.
  intros object p x0 c0 ck pl n cs c Hn Hp Hc Hne Hl Hb Hpr H Hbl.
  assert (H' : creach (opendal_source object) x0 c (both (ranging_http_env c) (both no_empty_chunk fenced)) cs).
  { apply opendal_no_empty in H. revert H. generalize cs. clear. intros cs H.
    induction H as [s H|cs l cs' Hr IH [[Q1 Q2] Q3] H]; [constructor; exact H|].
    econstructor; [exact IH|exact (conj Q1 (conj Q3 Q2))|exact H]. }
  destruct (opendal_ranging_reach _ _ _ _ _ _ Hn Hp Hc Hne Hl Hb (blind_ranging_fenced c) H') as (A & B & R).
  fold c in A, B, R.
  apply (C19_ranging_reads_partial c ck pl n _ Hpr A eq_refl (fun _ => ltac:(rewrite B; discriminate))); [|exact Hbl].
  revert R. apply reach_weaken. intros s l (Q1 & Q2 & Q3). split; [split|]; assumption.
Qed.

(** A jump to byte five, back to byte six, too far back to byte five, and a seek that waits. *)
Example C58_opendal_ranging_case :
  let c := over (opendal_source demo) demo_od (ring_cfg 0) in
  od_new (od_set_chunk_size od_params_new 2) demo true = Some demo_od /\
  exists cs, creach (opendal_source demo) demo_od c (ranging_http_env c) cs /\
    In (EvSeekRange 5 (Some 12)) (g_trace (cs_sys cs)) /\
    In (EvReconnect 6 RcOk) (g_trace (cs_sys cs)) /\
    In (EvRead 6 1 false (Ok [x07])) (g_trace (cs_sys cs)) /\
    In (EvRead 5 1 false (Err EInvalidInput)) (g_trace (cs_sys cs)) /\
    In (EvRead 8 2 false (Ok [x09; x0a])) (g_trace (cs_sys cs)) /\
    blocked c (cs_sys cs).
Proof.
  cbv zeta. split; [reflexivity|]. eexists.
  split; [eapply (crun_b_reach _ _ _ (ranging_http_b (over (opendal_source demo) demo_od (ring_cfg 0))) _
    ([LDChunk 2] ++ Tk 6 ++ [LOp (ORead 2)] ++ Rd 4 ++ [seek_to 5] ++ Rd 4 ++ [LDSeek; LDSeekRes true; LDChunk 1] ++
     Tk 2 ++ [LDTimeout RcOk; LDChunk 1] ++ Tk 5 ++ Rd 3 ++ [LOp (ORead 2)] ++ Rd 4 ++ Tk 7 ++ Rd 4 ++ [seek_to 6] ++ Rd 3 ++
     [LOp (ORead 1)] ++ Rd 4 ++ Tk 1 ++ [LDChunk 2] ++ Tk 6 ++ [LDChunk 1] ++ Tk 6 ++ [seek_to 5] ++ Rd 3 ++ [LOp (ORead 1)] ++ Rd 4 ++
     [seek_to 8] ++ Rd 3 ++ [LOp (ORead 2)] ++ Rd 4 ++ [seek_to 11] ++ Rd 4));
    [apply ranging_http_decides|vm_compute; reflexivity|vm_compute; reflexivity]|].
  repeat (split; [vm_compute; tauto|]). apply blocked_b; reflexivity.
Qed.

(** A read that follows a jump wakes the task, which waits for room. *)
Example C19_http_ranging_reads_case :
  let c := over (http_source demo_server) demo_http (ring_cfg 0) in
  exists cs, creach (http_source demo_server) demo_http c (both (ranging_http_env c) (both no_empty_chunk fenced)) cs /\
    blocked c (cs_sys cs) /\ waits_for_room (cs_sys cs) /\ refused_data (g_trace (cs_sys cs)) /\
    In (EvSeek (FromStart 5) (Ok 5)) (g_trace (cs_sys cs)) /\ g_rpc (cs_sys cs) = RRWait 3 5 8.
Proof.
  cbv zeta. eexists.
  split; [eapply (crun_b_reach _ _ _ (both_b (ranging_http_b (over (http_source demo_server) demo_http (ring_cfg 0))) (both_b empty_b fenced_b)) _
    ([LDChunk 2] ++ Tk 6 ++ [LOp (ORead 2)] ++ Rd 4 ++ [seek_to 5] ++ Rd 4 ++ [LDSeek; LDSeekRes true; LDChunk 1] ++
     Tk 2 ++ [LDChunk 6] ++ Tk 8 ++ Rd 3 ++ Tk 2 ++ [LOp (ORead 3)] ++ Rd 4));
    [apply both_decides; [apply ranging_http_decides|apply both_decides; [apply empty_decides|apply fenced_decides]]|vm_compute; reflexivity|vm_compute; reflexivity]|].
  split; [apply blocked_b; reflexivity|]. split; [exact I|].
  split; [eexists _, 0; split; [vm_compute; tauto|lia]|]. vm_compute; auto 40.
Qed.

(** The same over OpenDAL. *)
Example C19_opendal_ranging_reads_case :
  let c := over (opendal_source demo) demo_od (ring_cfg 0) in
  exists cs, creach (opendal_source demo) demo_od c (both (ranging_http_env c) fenced) cs /\
    blocked c (cs_sys cs) /\ waits_for_room (cs_sys cs) /\ refused_data (g_trace (cs_sys cs)) /\
    In (EvSeek (FromStart 5) (Ok 5)) (g_trace (cs_sys cs)) /\ g_rpc (cs_sys cs) = RRWait 3 5 8.
Proof.
  cbv zeta. eexists.
  split; [eapply (crun_b_reach _ _ _ (both_b (ranging_http_b (over (opendal_source demo) demo_od (ring_cfg 0))) fenced_b) _
    ([LDChunk 2] ++ Tk 6 ++ [LOp (ORead 2)] ++ Rd 4 ++ [seek_to 5] ++ Rd 4 ++ [LDSeek; LDSeekRes true; LDChunk 1] ++
     Tk 2 ++ [LDChunk 2] ++ Tk 8 ++ Rd 3 ++ Tk 2 ++ [LOp (ORead 3)] ++ Rd 4));
    [apply both_decides; [apply ranging_http_decides|apply fenced_decides]|vm_compute; reflexivity|vm_compute; reflexivity]|].
  split; [apply blocked_b; reflexivity|]. split; [exact I|].
  split; [eexists _, 0; split; [vm_compute; tauto|lia]|]. vm_compute; auto 40.
Qed.

Print Assumptions C32_http_ranging.
Print Assumptions C19_http_ranging_partial.
Print Assumptions C58_opendal_ranging_partial.
Print Assumptions C32_opendal_ranging.
Print Assumptions C19_opendal_ranging_partial.
Print Assumptions C19_http_ranging_reads_partial.
Print Assumptions C19_opendal_ranging_reads_partial.

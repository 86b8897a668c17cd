(** * C83: reading a real source in a loop yields its content, also through bounded storage. *)

From Coq Require Import String List Arith Lia ZArith Bool Nnat.
From Verif Require Import Base ListFacts Storage System Spec Exec ReadFacts Progress BoundedProgress
  Http HttpSpec Process Source SourceSpec
  SourceFacts SourceImpl PropReads PropBounded PropReturn PropSource PropSourceLive.
Import ListNotations.

(** A run of the composition as a run of the system model. *)
Lemma loop_run : forall {X} (src : source X) x0 c0 (allow : gstate -> label -> Prop) ok rest s0 ls cs,
  let c := over src x0 c0 in
  sane c -> delivers src x0 c allow ok rest -> outcome_blind allow -> init c = Some s0 ->
  callowed src c (fun cs => allow (cs_sys cs)) (mkC s0 x0) ls -> crun src c (mkC s0 x0) ls = Some cs ->
  exists ls', allowed c (both allow (honest_env c)) s0 ls' /\ run c s0 ls' = Some (cs_sys cs) /\
    calls ls' = calls ls.
Proof.
  intros X src x0 c0 allow ok rest s0 ls cs c Hs D HB Hi Ha H.
  destruct (refine src x0 c allow ok rest D HB eq_refl eq_refl (proj1 Hs) (mkC s0 x0)
              (creach_init src x0 c allow s0 Hi)) as [Hc R].
  destruct (refine_run src x0 c allow ok rest D HB eq_refl eq_refl Hs ls (mkC s0 x0) cs
              (fun cs => allow (cs_sys cs)) allow) as (ls' & I1 & I2 & _ & _ & _ & I6 & _ & _); auto.
  - intros cs0 l _ A. apply (blind_label src allow HB). exact A.
  - exists ls'. auto.
Qed.

(** ** Any source *)

Theorem C83_read_loop : forall X (src : source X) x0 c0 (allow : gstate -> label -> Prop) ok rest s0 ls cs,
  let c := over src x0 c0 in
  sane c -> unbounded_store c -> delivers src x0 c allow ok rest -> outcome_blind allow ->
  (forall s l, allow s l -> sequential_client s l) ->
  init c = Some s0 -> callowed src c (fun cs => allow (cs_sys cs)) (mkC s0 x0) ls ->
  crun src c (mkC s0 x0) ls = Some cs ->
  ~ in_call (cs_sys cs) -> reads_succeed (g_trace (cs_sys cs)) -> length (c_content c) <= calls ls ->
  delivered (g_trace (cs_sys cs)) = c_content c.
Proof.
  intros X src x0 c0 allow ok rest s0 ls cs c Hs Hu D HB Hseq Hi Ha H Hc Hok Hn.
  destruct (loop_run src x0 c0 allow ok rest s0 ls cs Hs D HB Hi Ha H) as (ls' & A1 & A2 & A3).
  apply (C75_read_loop c s0 ls' (cs_sys cs)); auto; [apply over_honours| |lia].
  revert A1. apply allowed_weaken. intros s l [A B]. split; [apply Hseq; exact A|exact B].
Qed.

Theorem C83_bounded_reads : forall X (src : source X) x0 c0 (allow : gstate -> label -> Prop) ok rest ck p n cs,
  let c := over src x0 c0 in
  c_provider c0 = PBounded ck p n -> sane c -> delivers src x0 c allow ok rest -> outcome_blind allow ->
  (forall s l, allow s l -> streaming_env c s l) ->
  creach src x0 c allow cs ->
  every_event (read_ok c) (g_trace (cs_sys cs)) /\
  (exists k, delivered (g_trace (cs_sys cs)) = firstn k (c_content c)) /\
  (forall newer pos m waited older,
     g_trace (cs_sys cs) = newer ++ EvRead pos m waited (Ok []) :: older -> 0 < m ->
     delivered (g_trace (cs_sys cs)) = c_content c).
Proof.
  intros X src x0 c0 allow ok rest ck p n cs c Hp Hs D HB Ha H.
  destruct (refine src x0 c allow ok rest D HB eq_refl eq_refl (proj1 Hs) cs H) as [_ R].
  apply (C22_reads_faithful c ck p n); auto.
  revert R. apply reach_weaken. intros s l [A _]. destruct (Ha _ _ A) as [A1 [A2 A3]].
  split; [exact A1|split; [exact A2|]]. destruct l; try exact I. destruct rc; [exact A3|exact I|exact I].
Qed.

Theorem C83_bounded_loop : forall X (src : source X) x0 c0 (allow : gstate -> label -> Prop) ok rest ck p n s0 ls cs,
  let c := over src x0 c0 in
  c_provider c0 = PBounded ck p n -> sane c -> delivers src x0 c allow ok rest -> outcome_blind allow ->
  (forall s l, allow s l -> streaming_env c s l) ->
  init c = Some s0 -> callowed src c (fun cs => allow (cs_sys cs)) (mkC s0 x0) ls ->
  crun src c (mkC s0 x0) ls = Some cs ->
  ~ in_call (cs_sys cs) -> reads_succeed (g_trace (cs_sys cs)) -> length (c_content c) <= calls ls ->
  delivered (g_trace (cs_sys cs)) = c_content c.
Proof.
  intros X src x0 c0 allow ok rest ck p n s0 ls cs c Hp Hs D HB Hal Hi Ha H Hc Hok Hn.
  destruct (loop_run src x0 c0 allow ok rest s0 ls cs Hs D HB Hi Ha H) as (ls' & A1 & A2 & A3).
  apply (C75_bounded_read_loop c ck p n s0 ls' (cs_sys cs)); auto; [|lia].
  revert A1. apply allowed_weaken. intros s l [A _]. destruct (Hal _ _ A) as [B1 [B2 B3]].
  split; [exact B1|split; [exact B2|]]. destruct l; try exact I. destruct rc; [exact B3|exact I|exact I].
Qed.

(** The calls return: the source goes on, the client reads, or seeks within what is
    downloaded. *)
Definition local_going {X} (c : cfg) (rest : X -> list byte) (cs : csys X) (l : label) : Prop :=
  local_client c (cs_sys cs) l /\ keeps_going rest cs l /\ fenced (cs_sys cs) l.

Theorem C83_bounded_returns : forall X (src : source X) x0 c0 (allow : gstate -> label -> Prop) ok rest ck p n cs ls cs',
  let c := over src x0 c0 in
  c_provider c0 = PBounded ck p n -> sane c -> delivers src x0 c allow ok rest -> can_go_on src ok rest ->
  outcome_blind allow ->
  (forall s l, allow s l -> both (both (local_client c) no_empty_chunk) fenced s l) ->
  (forall s l, both (both (local_client c) productive) fenced s l -> allow s l) ->
  creach src x0 c allow cs -> callowed src c (local_going c rest) cs ls -> crun src c cs ls = Some cs' ->
  actions ls <= 120 * length (c_content c) + 98 + 28 * calls ls /\
  (in_call (cs_sys cs') ->
   exists l cs'', action l = true /\ local_going c rest cs' l /\ cstep src c cs' l = Some cs'').
Proof.
  intros X src x0 c0 allow ok rest ck p n cs ls cs' c Hp Hs D Hlive HB Hup Hlow Hr Ha H.
  destruct (refine src x0 c allow ok rest D HB eq_refl eq_refl (proj1 Hs) cs Hr) as [Hc R].
  destruct (refine_run src x0 c allow ok rest D HB eq_refl eq_refl Hs ls cs cs'
              (local_going c rest) (both (both (local_client c) productive) fenced))
    as (ls' & I1 & I2 & I3 & I4 & I5 & I6 & I7 & I8); auto.
  { intros cs0 l K (A1 & A2 & A3). pose proof (keeps_productive src c ok rest cs0 l K A2) as A4.
    split; [split; [|exact A4]|].
    - destruct l; cbn [sys_label]; try exact A1; try exact I.
      + destruct rc; exact I.
      + destruct (g_dpc (cs_sys cs0)); exact I.
      + destruct (g_dpc (cs_sys cs0)); exact I.
    - destruct l; cbn [sys_label]; try exact A3; try exact I.
      + destruct rc; exact I.
      + destruct (g_dpc (cs_sys cs0)); exact I.
      + destruct (g_dpc (cs_sys cs0)); exact I. }
  apply (allowed_weaken c _ (both (both (local_client c) productive) fenced)) in I1; [|intros s l [A _]; exact A].
  assert (R' : reach c (both (both (local_client c) no_empty_chunk) fenced) (cs_sys cs)).
  { revert R. apply reach_weaken. intros s l [A _]. apply Hup. exact A. }
  destruct (C74_bounded_calls_return c ck p n (cs_sys cs) ls' (cs_sys cs') Hp Hs (over_honours src x0 c0) R' I1 I2)
    as [B1 B2].
  rewrite I4, I6 in B1. split; [exact B1|]. intros Hi.
  destruct (B2 Hi) as (l & s'' & L1 & [[L2 L3] L4] & L5).
  destruct (source_moves src c ok rest eq_refl Hlive _ _ _ I7 L3 L5) as (l2 & cs2 & M1 & M2 & M3 & M4 & M5).
  exists l2, cs2. split; [congruence|]. split; [|exact M4].
  destruct M5 as [->|M5]; [repeat split; auto|].
  split; [|split; [exact M3|]]; destruct l2; try discriminate M5; exact I.
Qed.

(** ** HTTP *)

Lemma blind_streaming : forall c, outcome_blind (streaming_env c).
Proof.
  intros c s. split; [|split]; intros r r' H; try exact H; repeat split; try exact I.
Qed.

Theorem C83_http_bounded : forall server resource clen v x0 c0 ck p n cs,
  let c := over (http_source server) x0 c0 in
  http_setup server resource clen (Some v) x0 c0 -> v <> "none"%string ->
  c_provider c0 = PBounded ck p n ->
  creach (http_source server) x0 c (streaming_env c) cs ->
  every_event (read_ok c) (g_trace (cs_sys cs)) /\
  (exists k, delivered (g_trace (cs_sys cs)) = firstn k resource) /\
  (forall newer pos m waited older,
     g_trace (cs_sys cs) = newer ++ EvRead pos m waited (Ok []) :: older -> 0 < m ->
     delivered (g_trace (cs_sys cs)) = resource).
Proof.
  intros server resource clen v x0 c0 ck p n cs c Hs Hv Hp H.
  replace resource with (c_content c) by apply Hs.
  apply (C83_bounded_reads _ (http_source server) x0 c0 (streaming_env c) (http_ok clen (Some v)) hs_body ck p n); auto.
  - eapply setup_sane; exact Hs.
  - eapply setup_delivers; [exact Hs| |].
    + intros s [_ [A _]]. exact A.
    + intros s rc _. exists v. auto.
  - apply blind_streaming.
Qed.

Theorem C83_http_loop : forall server resource n v x0 c0 s0 ls cs,
  let c := over (http_source server) x0 c0 in
  http_setup server resource (Some n) (Some v) x0 c0 -> v <> "none"%string -> unbounded_store c ->
  init c = Some s0 ->
  callowed (http_source server) c (fun cs => sequential_client (cs_sys cs)) (mkC s0 x0) ls ->
  crun (http_source server) c (mkC s0 x0) ls = Some cs ->
  ~ in_call (cs_sys cs) -> reads_succeed (g_trace (cs_sys cs)) -> length resource <= calls ls ->
  delivered (g_trace (cs_sys cs)) = resource.
Proof.
  intros server resource n v x0 c0 s0 ls cs c Hs Hv Hu Hi Ha H Hc Hok Hn.
  replace resource with (c_content c) in * by apply Hs.
  apply (C83_read_loop _ (http_source server) x0 c0 sequential_client (http_ok (Some n) (Some v)) hs_body s0 ls cs); auto.
  - eapply setup_sane; exact Hs.
  - eapply setup_delivers; [exact Hs| |].
    + intros s _. left. exact (setup_known _ _ _ _ _ _ Hs).
    + intros s rc _. exists v. auto.
  - intros s. repeat split; intros; exact I.
Qed.

Theorem C83_http_bounded_loop : forall server resource clen v x0 c0 ck p n s0 ls cs,
  let c := over (http_source server) x0 c0 in
  http_setup server resource clen (Some v) x0 c0 -> v <> "none"%string ->
  c_provider c0 = PBounded ck p n -> init c = Some s0 ->
  callowed (http_source server) c (fun cs => streaming_env c (cs_sys cs)) (mkC s0 x0) ls ->
  crun (http_source server) c (mkC s0 x0) ls = Some cs ->
  ~ in_call (cs_sys cs) -> reads_succeed (g_trace (cs_sys cs)) -> length resource <= calls ls ->
  delivered (g_trace (cs_sys cs)) = resource.
Proof.
  intros server resource clen v x0 c0 ck p n s0 ls cs c Hs Hv Hp Hi Ha H Hc Hok Hn.
  replace resource with (c_content c) in * by apply Hs.
  apply (C83_bounded_loop _ (http_source server) x0 c0 (streaming_env c) (http_ok clen (Some v)) hs_body ck p n s0 ls cs); auto.
  - eapply setup_sane; exact Hs.
  - eapply setup_delivers; [exact Hs| |].
    + intros s [_ [A _]]. exact A.
    + intros s rc _. exists v. auto.
  - apply blind_streaming.
Qed.

Theorem C83_http_bounded_returns : forall server resource clen v x0 c0 ck p n cs ls cs',
  let c := over (http_source server) x0 c0 in
  http_setup server resource clen (Some v) x0 c0 -> v <> "none"%string ->
  c_provider c0 = PBounded ck p n ->
  creach (http_source server) x0 c
    (both (both (both (local_client c) no_empty_chunk) fenced) (no_silent_truncation c)) cs ->
  callowed (http_source server) c (local_going c hs_body) cs ls ->
  crun (http_source server) c cs ls = Some cs' ->
  actions ls <= 120 * length resource + 98 + 28 * calls ls /\
  (in_call (cs_sys cs') ->
   exists l cs'', action l = true /\ local_going c hs_body cs' l /\
     cstep (http_source server) c cs' l = Some cs'').
Proof.
  intros server resource clen v x0 c0 ck p n cs ls cs' c Hs Hv Hp Hr Ha H.
  replace resource with (c_content c) by apply Hs.
  eapply (C83_bounded_returns _ (http_source server) x0 c0
    (both (both (both (local_client c) no_empty_chunk) fenced) (no_silent_truncation c))
    (http_ok clen (Some v)) hs_body ck p n); try eassumption.
  - eapply setup_sane; exact Hs.
  - eapply setup_delivers; [exact Hs| |].
    + intros s [_ A]. exact A.
    + intros s rc _. exists v. auto.
  - apply http_goes_on.
  - intros s. split; [|split]; intros r r' K; repeat split; exact I.
  - intros s l [A _]. exact A.
  - intros s l [[A B] K]. split; [split; [split; [exact A|apply productive_chunks; exact B]|exact K]|].
    destruct l; try exact I. right. exact B.
Qed.

(** ** Processes *)

Theorem C83_process_bounded : forall exit input clen c0 ck p n s0 ls cs,
  let c := over (process_source exit) (ar_new input clen) c0 in
  (clen = None \/ clen = Some (length input)) -> c_content c0 = input ->
  (Z.of_nat (length input) < two64 / 2)%Z -> 0 < c_batch c0 ->
  c_provider c0 = PBounded ck p n -> init c = Some s0 ->
  callowed (process_source exit) c (fun cs => both (streaming_env c) no_error_item (cs_sys cs))
    (mkC s0 (ar_new input clen)) ls ->
  crun (process_source exit) c (mkC s0 (ar_new input clen)) ls = Some cs ->
  every_event (read_ok c) (g_trace (cs_sys cs)) /\
  (~ in_call (cs_sys cs) -> reads_succeed (g_trace (cs_sys cs)) -> length input <= calls ls ->
   delivered (g_trace (cs_sys cs)) = input).
Proof.
  intros exit input clen c0 ck p n s0 ls cs c Hcl Hc Hl Hb Hp Hi Ha H.
  assert (Hs : sane c) by (apply async_sane; assumption).
  assert (D : delivers (process_source exit) (ar_new input clen) c (both (streaming_env c) no_error_item) ar_ok ar_body).
  { apply async_delivers; auto; [apply process_finish_error|]. intros s [_ K]. exact K. }
  assert (HB : outcome_blind (both (streaming_env c) no_error_item)).
  { intros s. destruct (blind_streaming c s) as (B1 & B2 & B3).
    split; [|split]; intros r r' [A K]; split; eauto. }
  destruct (loop_run (process_source exit) (ar_new input clen) c0 _ ar_ok ar_body s0 ls cs Hs D HB Hi Ha H)
    as (ls' & A1 & A2 & A3).
  split.
  - apply (C22_reads_faithful c ck p n); auto.
    eapply (allowed_reach c _ _ ls' s0); [|apply reach_init; exact Hi|exact A1|exact A2].
    intros s l [[A _] _]. destruct A as [B1 [B2 B3]].
    split; [exact B1|split; [exact B2|]]. destruct l; try exact I. destruct rc; [exact B3|exact I|exact I].
  - intros Hx Hok Hn. replace input with (c_content c) in Hn |- * by exact Hc.
    apply (C83_bounded_loop _ (process_source exit) (ar_new input clen) c0
             (both (streaming_env c) no_error_item) ar_ok ar_body ck p n s0 ls cs); auto.
    intros s l [A _]. exact A.
Qed.

(** ** Cases *)

Definition ring_cfg (pre : nat) : cfg := mk None false pre 3 (PBounded true PlMem 4).

Lemma ring_setup : forall pre,
  http_setup demo_server demo (Some 12%N) (Some "bytes"%string) demo_http (ring_cfg pre).
Proof.
  intros pre. split; [exact (range_server_serves demo (Some "bytes"%string))|].
  split; [reflexivity|split; [reflexivity|split; [reflexivity|cbn; lia]]].
Qed.

Definition streaming_b (c : cfg) : gstate -> label -> bool :=
  both_b (both_b sequential_b empty_b)
    (both_b (silent_b c) (fun s l => match l, g_rem s with LDTimeout _, Some _ => false | _, _ => true end)).
Lemma streaming_decides : forall c, decides (streaming_b c) (streaming_env c).
Proof.
  intros c. apply both_decides; [decides_tac|]. apply both_decides; [decides_tac|].
  intros s l H. destruct l; auto. destruct (g_rem s); [discriminate|reflexivity].
Qed.

(** Twelve bytes over HTTP through a ring of four, in reads of three. *)
Example C83_case :
  let c := over (http_source demo_server) demo_http (ring_cfg 2) in
  exists s0 cs, init c = Some s0 /\ let ls := eager c 3 400 12 s0 in
    callowed (http_source demo_server) c (fun cs => streaming_env c (cs_sys cs)) (mkC s0 demo_http) ls /\
    callowed (http_source demo_server) c (local_going c hs_body) (mkC s0 demo_http) ls /\
    crun (http_source demo_server) c (mkC s0 demo_http) ls = Some cs /\
    ~ in_call (cs_sys cs) /\ reads_succeed (g_trace (cs_sys cs)) /\ calls ls = 12 /\
    refused_data (g_trace (cs_sys cs)).
Proof.
  cbv zeta. do 2 eexists. split; [vm_compute; reflexivity|].
  split; [apply (callowed_b _ _ (fun cs l => streaming_b (over (http_source demo_server) demo_http (ring_cfg 2)) (cs_sys cs) l));
          [intros cs l; apply streaming_decides|vm_compute; reflexivity]|].
  split; [apply (callowed_b _ _ (fun cs l => both_b (local_b (over (http_source demo_server) demo_http (ring_cfg 2))) fenced_b (cs_sys cs) l
            && keeps_going_b hs_body cs l));
          [|vm_compute; reflexivity]|].
  { intros cs l H. apply andb_prop in H as [H1 H2].
    assert (K : both (local_client (over (http_source demo_server) demo_http (ring_cfg 2))) fenced (cs_sys cs) l).
    { revert H1. assert (Dk : decides (both_b (local_b (over (http_source demo_server) demo_http (ring_cfg 2))) fenced_b)
        (both (local_client (over (http_source demo_server) demo_http (ring_cfg 2))) fenced)) by decides_tac.
      apply Dk. }
    split; [apply K|split; [apply keeps_going_decides; exact H2|apply K]]. }
  split; [vm_compute; reflexivity|].
  split; [intros F; exact F|].
  split; [intros e F; vm_compute in F; repeat (destruct F as [<-|F]; [try exact I; cbn; lia|]); contradiction|].
  split; [vm_compute; reflexivity|].
  exists 3, 0; split; [vm_compute; tauto|lia].
Qed.

(** The output of a process, of unknown length. *)
Example C83_case_process :
  let c := over (process_source true) (ar_new demo None) (ring_cfg 0) in
  exists s0 cs, init c = Some s0 /\ let ls := eager c 2 400 12 s0 in
    callowed (process_source true) c (fun cs => both (streaming_env c) no_error_item (cs_sys cs))
      (mkC s0 (ar_new demo None)) ls /\
    crun (process_source true) c (mkC s0 (ar_new demo None)) ls = Some cs /\
    ~ in_call (cs_sys cs) /\ reads_succeed (g_trace (cs_sys cs)) /\ calls ls = 12.
Proof.
  cbv zeta. do 2 eexists. split; [vm_compute; reflexivity|].
  split; [apply (callowed_b _ _ (fun cs l => both_b (streaming_b (over (process_source true) (ar_new demo None) (ring_cfg 0)))
              (fun _ l => match l with LDErr => false | _ => true end) (cs_sys cs) l));
          [|vm_compute; reflexivity]|].
  { intros cs l. apply both_decides; [apply streaming_decides|].
    intros s l0 K. destruct l0; try exact I. discriminate K. }
  split; [vm_compute; reflexivity|].
  split; [intros F; exact F|].
  split; [intros e F; vm_compute in F; repeat (destruct F as [<-|F]; [try exact I; cbn; lia|]); contradiction|].
  vm_compute; reflexivity.
Qed.

Print Assumptions C83_read_loop.
Print Assumptions C83_bounded_reads.
Print Assumptions C83_bounded_loop.
Print Assumptions C83_bounded_returns.
Print Assumptions C83_http_bounded.
Print Assumptions C83_http_loop.
Print Assumptions C83_http_bounded_loop.
Print Assumptions C83_http_bounded_returns.
Print Assumptions C83_process_bounded.

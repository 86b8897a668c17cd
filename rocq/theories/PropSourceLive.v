(** * C82: a download from a real source ends, and its calls return. *)

From Coq Require Import String List Arith Lia ZArith Bool Nnat.
From Verif Require Import Base ListFacts Storage System Spec Exec ReadFacts LifeFacts LifeMore DoneFacts Alive
  Progress BoundedProgress Http HttpSpec HttpFacts Opendal OpendalSpec Process Source SourceSpec
  SourceFacts SourceImpl PropReads PropMore PropLife PropReturn PropQuit PropSource StepTac.
Import ListNotations.

Lemma sys_label_same : forall {X} (src : source X) cs l,
  task_label (sys_label src cs l) = task_label l /\ action (sys_label src cs l) = action l /\
  (forall t, seek_calls (sys_label src cs l :: t) = seek_calls (l :: t)) /\
  (forall t, calls (sys_label src cs l :: t) = calls (l :: t)).
Proof.
  intros X src cs l. unfold sys_label.
  destruct l; repeat split; auto; try (destruct (g_dpc (cs_sys cs)); reflexivity);
    try (destruct rc; reflexivity).
Qed.

Lemma allowed_weaken : forall c (P Q : gstate -> label -> Prop), (forall s l, P s l -> Q s l) ->
  forall ls s, allowed c P s ls -> allowed c Q s ls.
Proof.
  intros c P Q H. induction ls as [|l ls IH]; intros s; cbn [allowed]; [auto|].
  destruct (step c s l); intros [A B]; split; auto; contradiction.
Qed.

Section Live.
Context {X : Type} (src : source X) (x0 : X) (c : cfg) (allow : gstate -> label -> Prop)
  (ok : X -> Prop) (rest : X -> list byte).
Context (D : delivers src x0 c allow ok rest) (HB : outcome_blind allow)
  (Hinv : c_inv c = InvEmpty) (Hrec : c_rec c = RecRange)
  (Hs : sane c) (Hlive : can_go_on src ok rest).

Lemma coupled_end : forall cs, coupled src c ok rest cs -> rest (cs_src cs) = [] ->
  g_scur (cs_sys cs) = g_send (cs_sys cs).
Proof.
  intros cs (_ & C2 & C3 & _) E. rewrite E in C2. apply (f_equal (@length byte)) in C2.
  unfold slice in C2. rewrite firstn_length, skipn_length in C2. cbn [length] in C2. lia.
Qed.

Lemma keeps_productive : forall cs l, coupled src c ok rest cs -> keeps_going rest cs l ->
  productive (cs_sys cs) (sys_label src cs l).
Proof.
  intros cs l Hc H. destruct l; cbn in *; auto; try contradiction.
  - apply coupled_end; auto.
  - destruct (g_dpc (cs_sys cs)); exact I.
  - destruct (g_dpc (cs_sys cs)); exact I.
Qed.

(** A step of the system model is possible for the source too. *)
Lemma source_moves : forall cs l s', coupled src c ok rest cs -> productive (cs_sys cs) l ->
  step c (cs_sys cs) l = Some s' ->
  exists l2 cs2, task_label l2 = task_label l /\ action l2 = action l /\ keeps_going rest cs l2 /\
    cstep src c cs l2 = Some cs2 /\ (l2 = l \/ source_label l2 = true).
Proof.
  intros cs l s' Hc Hp H.
  assert (Same : source_label l = false -> exists l2 cs2, task_label l2 = task_label l /\
    action l2 = action l /\ keeps_going rest cs l2 /\ cstep src c cs l2 = Some cs2 /\
    (l2 = l \/ source_label l2 = true)).
  { intros El. exists l, (mkC s' (cs_src cs)). repeat split; auto.
    - destruct l; try discriminate El; exact I.
    - destruct l; try discriminate El; cbn [cstep]; rewrite H; reflexivity. }
  assert (Sel : g_dpc (cs_sys cs) = DSelect -> exists l2 cs2, task_label l2 = true /\
    action l2 = true /\ keeps_going rest cs l2 /\ cstep src c cs l2 = Some cs2 /\
    (l2 = l \/ source_label l2 = true)).
  { intros Ed. destruct Hc as (C1 & C2 & C3 & C4). destruct (Hlive _ C1) as [L1 L2].
    destruct (rest (cs_src cs)) as [|b r] eqn:Er.
    - destruct (L1 eq_refl) as [x' Ex]. exists LDEof. cbn [cstep]. rewrite Ed, Ex. eexists.
      repeat split; [exact Er|auto].
    - destruct L2 as (k & bs & x' & Hk & Ex); [discriminate|]. exists (LDChunk k). cbn [cstep].
      rewrite Ed, Ex. eexists. repeat split; [exact Hk|auto]. }
  destruct l; try (apply Same; reflexivity); try contradiction.
  - apply Sel. cbn [step] in H. destruct (g_dpc (cs_sys cs)); try discriminate H. reflexivity.
  - apply Sel. cbn [step] in H. destruct (g_dpc (cs_sys cs)); try discriminate H. reflexivity.
  - cbn [step] in H. destruct (g_dpc (cs_sys cs)) eqn:Ed; try discriminate H.
    exists (LDSeekRes true). cbn [cstep]. rewrite Ed.
    destruct (src_seek_range src (cs_src cs) start stop true) as [[u|e|] x'];
      [|eexists; repeat split; auto|eexists; repeat split; auto].
    assert (E : exists s1, seek_done c (cs_sys cs) start stop true = Some s1).
    { unfold seek_done. assert (exists a b, body_window c start stop = Some (a, b)) as (a & b & ->).
      { unfold body_window. rewrite Hinv. destruct (inverted _ _ _); eauto. }
      destruct (st_wseek start (g_store (cs_sys cs))) as [[r|k|] st]; eauto. }
    destruct E as [s1 E]. rewrite E. eexists. repeat split. auto.
  - cbn [step] in H. destruct (g_dpc (cs_sys cs)) eqn:Ed; try discriminate H.
    exists (LDFinishRes true). cbn [cstep]. rewrite Ed. eexists. repeat split. auto.
Qed.

Lemma blind_label : forall cs l, allow (cs_sys cs) (sys_label src cs l) <-> allow (cs_sys cs) l.
Proof.
  intros cs l. destruct (HB (cs_sys cs)) as (B1 & B2 & B3).
  destruct l; cbn [sys_label]; try tauto.
  - destruct rc; split; try tauto; apply B2.
  - destruct (g_dpc (cs_sys cs)); try tauto. split; apply B1.
  - destruct (g_dpc (cs_sys cs)); try tauto. split; apply B3.
Qed.

(** A run of the composition is a run of the system model of the same length. *)
Lemma refine_run : forall ls cs cs' (P : csys X -> label -> Prop) (Q : gstate -> label -> Prop),
  (forall cs l, coupled src c ok rest cs -> P cs l -> Q (cs_sys cs) (sys_label src cs l)) ->
  (forall s l, Q s l -> allow s l) ->
  coupled src c ok rest cs -> reach c (both allow (honest_env c)) (cs_sys cs) ->
  callowed src c P cs ls -> crun src c cs ls = Some cs' ->
  exists ls', allowed c (both Q (honest_env c)) (cs_sys cs) ls' /\ run c (cs_sys cs) ls' = Some (cs_sys cs') /\
    task_steps ls' = task_steps ls /\ actions ls' = actions ls /\ seek_calls ls' = seek_calls ls /\
    calls ls' = calls ls /\ coupled src c ok rest cs' /\
    reach c (both allow (honest_env c)) (cs_sys cs').
Proof.
  induction ls as [|l ls IH]; intros cs cs' P Q HP HQ Hc Hr Ha H; cbn [crun callowed] in *.
  - injection H as <-. exists []. repeat split; try apply Hc; auto.
  - destruct Ha as [Ha1 Ha2]. destruct (cstep src c cs l) as [cs1|] eqn:E; [|discriminate H].
    pose proof (HP _ _ Hc Ha1) as Hq. pose proof (proj1 (blind_label _ _) (HQ _ _ Hq)) as Hp.
    destruct (refine_step src x0 c allow ok rest D HB Hinv Hrec (proj1 Hs) _ _ _ Hc Hr Hp E) as (K & A & B).
    assert (Hr1 : reach c (both allow (honest_env c)) (cs_sys cs1)) by (eapply reach_step; eassumption).
    destruct (IH cs1 cs' P Q HP HQ K Hr1 Ha2 H) as (ls' & I1 & I2 & I3 & I4 & I5 & I6 & I7 & I8).
    destruct (sys_label_same src cs l) as (S1 & S2 & S3 & S4).
    exists (sys_label src cs l :: ls'). cbn [allowed run task_steps actions]. rewrite B, S1, S2, S3, S4.
    split; [split; [split; [exact Hq|apply A]|exact I1]|]. repeat split; auto; try lia; try (apply I7).
    + cbn [seek_calls]. rewrite I5. reflexivity.
    + cbn [calls]. rewrite I6. reflexivity.
Qed.
End Live.


Section Served.
Context {X : Type} (src : source X) (x0 : X) (c : cfg) (allow : gstate -> label -> Prop)
  (ok : X -> Prop) (rest : X -> list byte).
Context (D : delivers src x0 c allow ok rest) (HB : outcome_blind allow)
  (Hinv : c_inv c = InvEmpty) (Hrec : c_rec c = RecRange)
  (Hs : sane c) (Hu : unbounded_store c)
  (Hup : forall s l, allow s l -> no_empty_chunk s l).

Lemma served_step : forall cs l cs', coupled src c ok rest cs ->
  reach c (both allow (honest_env c)) (cs_sys cs) ->
  reach c (both (both no_empty_chunk nothing_fails) (kept c)) (cs_sys cs) ->
  allow (cs_sys cs) l -> all_served src c cs l -> cstep src c cs l = Some cs' ->
  coupled src c ok rest cs' /\ reach c (both allow (honest_env c)) (cs_sys cs') /\
  reach c (both (both no_empty_chunk nothing_fails) (kept c)) (cs_sys cs').
Proof.
  intros cs l cs' Hc Hr Hq Ha Hserve H. pose proof (Hup _ _ Ha) as Hl.
  destruct (refine_step src x0 c allow ok rest D HB Hinv Hrec (proj1 Hs) _ _ _ Hc Hr Ha H) as (K & A & B).
  split; [exact K|]. split; [eapply reach_step; eassumption|].
  eapply reach_step; [exact Hq| |exact B].
  destruct (on_course_kept c _ (proj2 (proj2 Hs)) Hu Hq) as (_ & O2 & _).
  destruct l; cbn [sys_label] in *; try (repeat split; cbn; auto; try discriminate; fail).
  - destruct rc; repeat split; discriminate.
  - cbn [cstep] in H. destruct (g_dpc (cs_sys cs)) eqn:Ed; try discriminate H.
    cbn in Hserve. rewrite (Hserve _ _ Ed) in *. repeat split; discriminate.
  - cbn [cstep] in H. destruct (g_dpc (cs_sys cs)) eqn:Ed; try discriminate H. subst.
    cbn in Hserve. rewrite Hserve in *. repeat split; discriminate.
  - repeat split. intros _. exact Hserve.
Qed.

Lemma served_run : forall ls cs cs' , coupled src c ok rest cs ->
  reach c (both allow (honest_env c)) (cs_sys cs) ->
  reach c (both (both no_empty_chunk nothing_fails) (kept c)) (cs_sys cs) ->
  callowed src c (fun cs l => allow (cs_sys cs) l /\ all_served src c cs l) cs ls ->
  crun src c cs ls = Some cs' ->
  reach c (both allow (honest_env c)) (cs_sys cs') /\
  reach c (both (both no_empty_chunk nothing_fails) (kept c)) (cs_sys cs').
Proof.
  induction ls as [|l ls IH]; intros cs cs' Hc Hr Hq Ha H; cbn [crun callowed] in *.
  - injection H as <-. auto.
  - destruct Ha as [[A1 A2] Ha]. destruct (cstep src c cs l) as [cs1|] eqn:E; [|discriminate H].
    destruct (served_step _ _ _ Hc Hr Hq A1 A2 E) as (B1 & B2 & B3). eapply IH; eassumption.
Qed.
End Served.

(** ** C82

    Over a source that keeps the promises of the trait and can go on, whatever calls are
    made: the number of actions is bounded in terms of the length of the resource and the
    number of calls; while a call is in progress, and while the task has not ended, there is
    an action to execute. *)
Theorem C82_ends : forall X (src : source X) x0 c0 (allow : gstate -> label -> Prop) ok rest cs ls cs',
  let c := over src x0 c0 in
  sane c -> unbounded_store c -> delivers src x0 c allow ok rest -> can_go_on src ok rest ->
  outcome_blind allow -> (forall s l, productive s l -> allow s l) ->
  (forall s l, allow s l -> no_empty_chunk s l) ->
  creach src x0 c allow cs -> callowed src c (keeps_going rest) cs ls -> crun src c cs ls = Some cs' ->
  actions ls <= (2 + seek_calls ls) * work_bound (length (c_content c)) + 8 * (1 + calls ls) /\
  task_steps ls <= (2 + seek_calls ls) * work_bound (length (c_content c)) /\
  (in_call (cs_sys cs') ->
   exists l cs'', action l = true /\ keeps_going rest cs' l /\ cstep src c cs' l = Some cs'') /\
  (g_dpc (cs_sys cs') <> DEnd ->
   exists l cs'', task_label l = true /\ keeps_going rest cs' l /\ cstep src c cs' l = Some cs'').
Proof.
  intros X src x0 c0 allow ok rest cs ls cs' c Hs Hu D Hlive HB Hlow Hup Hr Ha H.
  destruct (refine src x0 c allow ok rest D HB eq_refl eq_refl (proj1 Hs) cs Hr) as [Hc R].
  destruct (refine_run src x0 c allow ok rest D HB eq_refl eq_refl Hs ls cs cs'
              (keeps_going rest) productive) as (ls' & I1 & I2 & I3 & I4 & I5 & I6 & I7 & I8);
    auto; [intros; eapply keeps_productive; eassumption|].
  apply (allowed_weaken c _ productive) in I1; [|intros s l [A _]; exact A].
  assert (Hne : forall s, reach c (both allow (honest_env c)) s -> reach c no_empty_chunk s).
  { intros s. apply reach_weaken. intros s0 l [A _]. apply Hup; exact A. }
  pose proof (C74_calls_return c _ ls' _ Hs Hu (over_honours src x0 c0) (Hne _ R) I1 I2) as [B1 B2].
  pose proof (C57_download_terminates c _ ls' _ Hs Hu (over_honours src x0 c0) (Hne _ R) I1 I2) as [B3 B4].
  rewrite I3, I4, I5, I6 in *. split; [exact B1|]. split; [exact B3|]. split.
  - intros Hi. destruct (B2 Hi) as (l & s'' & L1 & L2 & L3).
    destruct (source_moves src c ok rest eq_refl Hlive _ _ _ I7 L2 L3)
      as (l2 & cs2 & M1 & M2 & M3 & M4 & M5).
    exists l2, cs2. repeat split; auto. congruence.
  - intros Hi. destruct (B4 Hi) as (l & s'' & L1 & L2 & L3).
    destruct (source_moves src c ok rest eq_refl Hlive _ _ _ I7 L2 L3)
      as (l2 & cs2 & M1 & M2 & M3 & M4 & M5).
    exists l2, cs2. repeat split; auto. congruence.
Qed.

(** If moreover nothing fails, the task ends with the download complete.  Reconnects may
    happen; the source may also end its responses too early. *)
Theorem C82_completes : forall X (src : source X) x0 c0 (allow : gstate -> label -> Prop) ok rest s0 ls cs x,
  let c := over src x0 c0 in
  sane c -> unbounded_store c -> delivers src x0 c allow ok rest -> outcome_blind allow ->
  (forall s l, allow s l -> no_empty_chunk s l) ->
  init c = Some s0 ->
  callowed src c (fun cs l => allow (cs_sys cs) l /\ all_served src c cs l)
    (mkC s0 x0) ls ->
  crun src c (mkC s0 x0) ls = Some cs -> g_dpc (cs_sys cs) = DEnd ->
  completed (cs_sys cs) /\ In (EvFinish true) (g_trace (cs_sys cs)) /\
  (c_seekable c = true -> c_clen c <> None -> x < length (c_content c) ->
   stored_byte (cs_sys cs) x = nth_error (c_content c) x).
Proof.
  intros X src x0 c0 allow ok rest s0 ls cs x c Hs Hu D HB Hup Hi Ha H Hd.
  destruct (refine src x0 c allow ok rest D HB eq_refl eq_refl (proj1 Hs) (mkC s0 x0)
              (creach_init src x0 c allow s0 Hi)) as [Hc R].
  assert (Hq : reach c (both (both no_empty_chunk nothing_fails) (kept c)) s0) by (apply reach_init; exact Hi).
  destruct (served_run src x0 c allow ok rest D HB eq_refl eq_refl Hs Hu Hup ls _ _ Hc R Hq Ha H) as [R1 R2].
  pose proof (on_course_kept c _ (proj2 (proj2 Hs)) Hu R2) as (O1 & _ & _).
  destruct (end_cancelled c _ _ R2 Hd) as (E1 & E2 & r & E3).
  assert (Hcom : completed (cs_sys cs)) by (split; assumption).
  split; [exact Hcom|]. split.
  - destruct r; [exact E3|].
    destruct (finish_inv_reach c _ _ R2) as (_ & F & _). destruct (F E3) as [Z|Z]; congruence.
  - intros S1 S2 Hx. apply (C08_completion_means_everything c _ x); auto; [apply over_honours|].
    revert R2. apply reach_weaken. intros s l [[A _] _]. destruct l; cbn in *; auto.
Qed.

(** ** Over HTTP *)

Lemma http_goes_on : forall server clen ranges, can_go_on (http_source server) (http_ok clen ranges) hs_body.
Proof.
  intros server clen ranges x _. split; [intros _; eexists; reflexivity|].
  intros H. exists 1. destruct (hs_body x) as [|b r] eqn:E; [congruence|]. cbn. rewrite E. cbn.
  do 2 eexists. split; [lia|reflexivity].
Qed.

Lemma setup_delivers_any : forall server resource n v x0 c0,
  http_setup server resource (Some n) (Some v) x0 c0 -> v <> "none"%string ->
  delivers (http_source server) x0 (over (http_source server) x0 c0) no_empty_chunk
    (http_ok (Some n) (Some v)) hs_body.
Proof.
  intros server resource n v x0 c0 Hs Hv. eapply setup_delivers; [exact Hs| |].
  - intros s _. left. exact (setup_known _ _ _ _ _ _ Hs).
  - intros s rc _. exists v. auto.
Qed.

Lemma blind_chunks : outcome_blind no_empty_chunk.
Proof. intros s. repeat split; intros; exact I. Qed.

Theorem C82_http_ends : forall server resource n v x0 c0 cs ls cs',
  let c := over (http_source server) x0 c0 in
  http_setup server resource (Some n) (Some v) x0 c0 -> v <> "none"%string -> unbounded_store c ->
  creach (http_source server) x0 c no_empty_chunk cs ->
  callowed (http_source server) c (keeps_going hs_body) cs ls ->
  crun (http_source server) c cs ls = Some cs' ->
  actions ls <= (2 + seek_calls ls) * work_bound (length resource) + 8 * (1 + calls ls) /\
  (in_call (cs_sys cs') \/ g_dpc (cs_sys cs') <> DEnd ->
   exists l cs'', action l = true /\ keeps_going hs_body cs' l /\
     cstep (http_source server) c cs' l = Some cs'').
Proof.
  intros server resource n v x0 c0 cs ls cs' c Hs Hv Hu Hr Ha H.
  replace resource with (c_content c) by apply Hs.
  destruct (C82_ends _ (http_source server) x0 c0 no_empty_chunk (http_ok (Some n) (Some v)) hs_body cs ls cs')
    as (A & B & C & E); auto.
  - eapply setup_sane; exact Hs.
  - eapply setup_delivers_any; eassumption.
  - apply http_goes_on.
  - apply blind_chunks.
  - apply productive_chunks.
  - split; [exact A|]. intros [K|K]; [apply C; exact K|].
    destruct (E K) as (l & cs'' & L1 & L2 & L3). exists l, cs''. split; [|auto].
    destruct l; try discriminate L1; reflexivity.
Qed.

(** The requests of an undisturbed download are proper ranges. *)
Definition gap_only (c : cfg) (s : gstate) : Prop :=
  g_chan s = None /\ before_send (g_rpc s) = false /\
  forall a b cl, c_clen c = Some cl -> g_dpc s = DSeeking a b -> exists e, b = Some e /\ a < e <= cl.

Definition reads_only : gstate -> label -> Prop :=
  fun _ l => match l with LOp (OSeek _) => False | _ => True end.

Lemma gap_only_reach : forall c s, reach c reads_only s -> gap_only c s.
Proof.
  intros c s H. induction H as [s H|s l s' Hr IH Hl H].
  - unfold init in H. destruct (into_rw _ _); [|discriminate]. injection H as <-.
    repeat split; cbn; discriminate.
  - pose proof (RequestFacts.wf_reach _ _ _ Hr) as W. destruct IH as (I1 & I2 & I3).
    unfold gap_only.
    destruct l; cbn in Hl; try contradiction; step_cases H; gsimpl; rewrite ?Heqr in *; cbn [before_send] in *;
      try discriminate; try contradiction; try congruence; auto;
      try (split; [auto|split; [auto|]]; intros; try discriminate; try congruence; eauto; fail).
    all: pose proof (RangeSetFacts.rs_add_wf _ (g_pfs s) (st_wpos (g_store s)) W) as W2;
      match goal with
      | G : RangeSet.rs_next_gap 0 _ _ = Some (_, _) |- _ =>
          first [destruct (RangeSetFacts.rs_next_gap_some _ _ _ _ _ _ W G) as (_ & G1 & G2 & _)
                |destruct (RangeSetFacts.rs_next_gap_some _ _ _ _ _ _ W2 G) as (_ & G1 & G2 & _)]
      end;
      (split; [assumption|split; [assumption|]]); intros a b cl E1 E2; injection E1 as <-;
      injection E2 as <- <-; eexists; split; [reflexivity|lia].
Qed.

Lemma undisturbed_served : forall server resource n v x0 c0,
  let c := over (http_source server) x0 c0 in
  http_setup server resource (Some n) (Some v) x0 c0 -> v <> "none"%string -> answers server resource ->
  forall ls cs cs', coupled (http_source server) c (http_ok (Some n) (Some v)) hs_body cs ->
  reach c (both no_empty_chunk (honest_env c)) (cs_sys cs) -> reach c reads_only (cs_sys cs) ->
  callowed (http_source server) c (fun _ => undisturbed c) cs ls ->
  crun (http_source server) c cs ls = Some cs' ->
  callowed (http_source server) c
    (fun cs l => no_empty_chunk (cs_sys cs) l /\ all_served (http_source server) c cs l) cs ls.
Proof.
  intros server resource n v x0 c0 c Hs Hv Hans.
  pose proof (setup_delivers_any _ _ _ _ _ _ Hs Hv) as D.
  assert (Hsa : sane c) by (eapply setup_sane; exact Hs).
  assert (Hn : n = N.of_nat (length resource)) by (destruct Hs as [(_ & [E|E] & _) _]; congruence).
  induction ls as [|l ls IH]; intros cs cs' Hc Hr Hq Ha H; cbn [crun callowed] in *; [exact I|].
  destruct Ha as [A1 A2]. destruct (cstep (http_source server) c cs l) as [cs1|] eqn:E; [|discriminate H].
  assert (Hl : no_empty_chunk (cs_sys cs) l) by (destruct l; cbn in *; auto).
  destruct (refine_step _ x0 c _ _ _ D blind_chunks eq_refl eq_refl (proj1 Hsa) _ _ _ Hc Hr Hl E) as (K & A & B).
  split; [split; [exact Hl|]|].
  - destruct l; cbn in A1 |- *; auto; try contradiction.
    intros a b Hd. subst ok. destruct (gap_only_reach _ _ Hq) as (_ & _ & G).
    assert (Hcl : c_clen c = Some (length resource)).
    { unfold c. rewrite (setup_fresh _ _ _ _ _ _ Hs). cbn. rewrite Hn, Nat2N.id. reflexivity. }
    destruct (G a b _ Hcl Hd) as (e & -> & He). destruct Hc as ((C1 & C2) & _).
    unfold http_seek_range. rewrite C1. cbn [at_content_length option_map].
    destruct (N.eqb_spec (N.of_nat a) n) as [Z|Z]; [subst n; apply Nat2N.inj in Z; lia|].
    unfold inclusive_end. destruct (N.of_nat e) as [|pe] eqn:Ee; [lia|].
    destruct (Hans (format_range_header_bytes (N.of_nat a) (Some (N.pred (N.pos pe)))) (N.of_nat a)
                (Some (N.pred (N.pos pe)))) as (r & R1 & R2).
    { apply parse_format. rewrite <- Ee. lia. }
    { lia. }
    unfold over_network. rewrite R1, R2. reflexivity.
  - eapply IH; [exact K| | |exact A2|exact H].
    + eapply reach_step; eassumption.
    + eapply reach_step; [exact Hq| |exact B].
      destruct l; cbn in A1 |- *; try exact I; try contradiction.
      * destruct rc; exact I.
      * destruct (g_dpc (cs_sys cs)); exact I.
      * destruct (g_dpc (cs_sys cs)); exact I.
      * destruct o; [exact I|contradiction].
Qed.

Theorem C82_http_completes : forall server resource n v x0 c0 s0 ls cs x,
  let c := over (http_source server) x0 c0 in
  http_setup server resource (Some n) (Some v) x0 c0 -> v <> "none"%string -> answers server resource ->
  unbounded_store c -> init c = Some s0 ->
  callowed (http_source server) c (fun _ => undisturbed c) (mkC s0 x0) ls ->
  crun (http_source server) c (mkC s0 x0) ls = Some cs -> g_dpc (cs_sys cs) = DEnd ->
  completed (cs_sys cs) /\
  (x < length resource -> stored_byte (cs_sys cs) x = nth_error resource x).
Proof.
  intros server resource n v x0 c0 s0 ls cs x c Hs Hv Hans Hu Hi Ha H Hd.
  pose proof (setup_delivers_any _ _ _ _ _ _ Hs Hv) as D.
  assert (Hsa : sane c) by (eapply setup_sane; exact Hs).
  destruct (refine _ x0 c _ _ _ D blind_chunks eq_refl eq_refl (proj1 Hsa) (mkC s0 x0)
              (creach_init _ x0 c _ s0 Hi)) as [Hc R].
  assert (Hq : reach c reads_only s0) by (apply reach_init; exact Hi).
  pose proof (undisturbed_served _ _ _ _ _ _ Hs Hv Hans ls _ _ Hc R Hq Ha H) as Ha'.
  destruct (setup_known _ _ _ _ _ _ Hs) as [K1 K2].
  replace resource with (c_content c) by apply Hs.
  destruct (C82_completes _ (http_source server) x0 c0 no_empty_chunk _ _ s0 ls cs x Hsa Hu D blind_chunks
              (fun s l K => K) Hi Ha' H Hd) as (B1 & _ & B3).
  split; [exact B1|]. intros Hx. apply B3; assumption.
Qed.

(** The client must not seek: a forward seek can make the task send a range that ends before
    it starts (finding), which an exact server rejects; the task then fails. *)
Definition undisturbed_b (c : cfg) : gstate -> label -> bool :=
  fun _ l =>
    match l with
    | LDChunk k => 0 <? k
    | LDSeekRes net => net
    | LOp (OSeek _) | LDIoErr | LUserCancel => false
    | LDrop => negb (c_cancel_on_drop c)
    | _ => true
    end.
Lemma undisturbed_decides : forall c, decides (undisturbed_b c) (fun _ => undisturbed c).
Proof.
  intros c s l H. destruct l; cbn in *; auto; try discriminate; try (apply Nat.ltb_lt; auto; fail);
    try (destruct o; auto; discriminate); try (apply negb_true_iff; auto; fail).
Qed.

Lemma demo_answers : answers demo_server demo.
Proof.
  intros h first lst E L. unfold demo_server. cbn [range_server]. rewrite E.
  destruct (N.ltb_spec first (N.of_nat (length demo))); [|lia]. eexists. split; reflexivity.
Qed.

Definition seeking_run : list label :=
  two_ranges_run ++ [LOp (OSeek (FromStart 9))] ++ Rd 4 ++ [LDChunk 4] ++ Tk 7 ++ Rd 3 ++
  [LDEof; LDSeekRes true; LDChunk 1] ++ Tk 6 ++ [LDSeek; LDSeekRes true; LDFinishRes true] ++ Tk 3.

Definition but_seeks (c : cfg) : gstate -> label -> Prop :=
  fun s l => match l with LOp (OSeek _) => True | _ => undisturbed c l end.
Definition but_seeks_b (c : cfg) : gstate -> label -> bool :=
  fun s l => match l with LOp (OSeek _) => true | _ => undisturbed_b c s l end.

Theorem C82_seek_needed : exists server resource n v x0 c0 cs,
  let c := over (http_source server) x0 c0 in
  http_setup server resource (Some n) (Some v) x0 c0 /\ v <> "none"%string /\ answers server resource /\
  unbounded_store c /\
  creach (http_source server) x0 c (both (forward_client c) (but_seeks c)) cs /\
  g_dpc (cs_sys cs) = DEnd /\ ~ completed (cs_sys cs).
Proof.
  exists demo_server, demo, 12%N, "bytes"%string, demo_http, (demo_cfg 0). eexists. cbv zeta.
  split; [apply demo_setup|split; [discriminate|split; [exact demo_answers|split; [exact I|]]]].
  split.
  - eapply (crun_b_reach _ _ _ (both_b (forward_b (over (http_source demo_server) demo_http (demo_cfg 0)))
             (but_seeks_b (over (http_source demo_server) demo_http (demo_cfg 0)))) _ seeking_run);
      [|vm_compute; reflexivity|vm_compute; reflexivity].
    apply both_decides; [decides_tac|].
    intros s l H. destruct l; try exact (undisturbed_decides _ s _ H). destruct o; [exact I|exact I].
  - vm_compute. split; [reflexivity|]. intros [A B]. congruence.
Qed.

(** ** Over OpenDAL *)

Lemma opendal_goes_on : forall object, can_go_on (opendal_source object) od_ok od_reader.
Proof.
  intros object x (H1 & H2 & H3).
  assert (Hroom : 0 < od_room (od_reserve x)).
  { unfold od_room. destruct (Nat.eqb_spec (od_buf_cap (od_reserve x) - length (od_buf (od_reserve x))) 0); lia. }
  split; intros H.
  - cbn. unfold od_can, od_read_ok. rewrite H. cbn. rewrite Nat.min_0_r. cbn. eexists. reflexivity.
  - exists 1. cbn. unfold od_can, od_read_ok.
    assert (Hk : 1 <= Nat.min (od_room (od_reserve x)) (length (od_reader x))).
    { destruct (od_reader x); [congruence|cbn; lia]. }
    rewrite (proj2 (Nat.leb_le _ _) Hk). cbn.
    destruct (od_reader x) eqn:E; [congruence|]. do 2 eexists. split; [lia|reflexivity].
Qed.

Theorem C82_opendal_ends : forall object p x0 c0 cs ls cs',
  let c := over (opendal_source object) x0 c0 in
  od_new p object true = Some x0 -> 0 < op_chunk_size p -> c_content c0 = object ->
  (Z.of_nat (length object) < two64 / 2)%Z -> 0 < c_batch c0 -> unbounded_store c ->
  creach (opendal_source object) x0 c no_empty_chunk cs ->
  callowed (opendal_source object) c (keeps_going od_reader) cs ls ->
  crun (opendal_source object) c cs ls = Some cs' ->
  actions ls <= (2 + seek_calls ls) * work_bound (length object) + 8 * (1 + calls ls) /\
  (in_call (cs_sys cs') \/ g_dpc (cs_sys cs') <> DEnd ->
   exists l cs'', action l = true /\ keeps_going od_reader cs' l /\
     cstep (opendal_source object) c cs' l = Some cs'').
Proof.
  intros object p x0 c0 cs ls cs' c Hn Hp Hc Hl Hb Hu Hr Ha H. rewrite od_new_fresh in Hn. apply some_inj in Hn.
  subst x0.
  destruct (C82_ends _ (opendal_source object) (od_fresh object (op_chunk_size p)) c0 no_empty_chunk od_ok od_reader cs ls cs')
    as (A & B & C & E); auto.
  - split; [|split; [cbn; rewrite Hc; exact Hl|exact Hb]].
    intros n E. cbn in *. rewrite Hc. destruct (Nat.ltb 0 (length object)); [injection E as <-; reflexivity|discriminate].
  - apply opendal_delivers; auto.
  - apply opendal_goes_on.
  - apply blind_chunks.
  - apply productive_chunks.
  - split; [cbn [over c_content] in A; rewrite Hc in A; exact A|]. intros [K|K]; [apply C; exact K|].
    destruct (E K) as (l & cs'' & L1 & L2 & L3). exists l, cs''. split; [|auto].
    destruct l; try discriminate L1; reflexivity.
Qed.

(** ** Over readers and processes *)

Lemma async_goes_on : forall finish, can_go_on (async_source finish) ar_ok ar_body.
Proof.
  intros finish x _. unfold ar_body. destruct (ar_live x) eqn:E; split; intros H; try congruence.
  - cbn. rewrite E, H. cbn. eexists. reflexivity.
  - exists 1. cbn -[ar_capacity]. rewrite E. cbn -[ar_capacity].
    destruct (ar_rest x) as [|b r] eqn:Er; [congruence|]. cbn [length].
    replace (1 <=? Nat.min ar_capacity (S (length r))) with true by (symmetry; apply Nat.leb_le; unfold ar_capacity; lia).
    do 2 eexists. split; [lia|reflexivity].
  - cbn. rewrite E. cbn. eexists. reflexivity.
Qed.

Lemma async_sane : forall finish input clen c0,
  (clen = None \/ clen = Some (length input)) -> c_content c0 = input ->
  (Z.of_nat (length input) < two64 / 2)%Z -> 0 < c_batch c0 ->
  sane (over (async_source finish) (ar_new input clen) c0).
Proof.
  intros finish input clen c0 Hcl Hc Hl Hb. split; [|split; [cbn; rewrite Hc; exact Hl|exact Hb]].
  intros n E. cbn in *. rewrite Hc. destruct Hcl; congruence.
Qed.

Lemma blind_items : outcome_blind (both no_empty_chunk no_error_item).
Proof. intros s. repeat split; intros; exact I. Qed.

Lemma async_chunks : forall finish x0 c cs, creach (async_source finish) x0 c no_error_item cs ->
  creach (async_source finish) x0 c (both no_empty_chunk no_error_item) cs.
Proof.
  intros finish x0 c cs H. induction H as [s H|cs l cs' Hr IH Hl H]; [apply creach_init; exact H|].
  eapply creach_step; [exact IH| |exact H]. split; [|exact Hl].
  destruct l; cbn; auto. destruct k; [|lia]. cbn in H.
  rewrite andb_false_r in H. destruct (g_dpc (cs_sys cs)); discriminate H.
Qed.

Lemma async_ends : forall finish input clen c0 cs ls cs',
  let c := over (async_source finish) (ar_new input clen) c0 in
  (forall env, finish false env = false) ->
  (clen = None \/ clen = Some (length input)) -> c_content c0 = input ->
  (Z.of_nat (length input) < two64 / 2)%Z -> 0 < c_batch c0 -> unbounded_store c ->
  creach (async_source finish) (ar_new input clen) c no_error_item cs ->
  callowed (async_source finish) c (keeps_going ar_body) cs ls ->
  crun (async_source finish) c cs ls = Some cs' ->
  actions ls <= (2 + seek_calls ls) * work_bound (length input) + 8 * (1 + calls ls) /\
  (in_call (cs_sys cs') \/ g_dpc (cs_sys cs') <> DEnd ->
   exists l cs'', action l = true /\ keeps_going ar_body cs' l /\
     cstep (async_source finish) c cs' l = Some cs'').
Proof.
  intros finish input clen c0 cs ls cs' c Hf Hcl Hc Hl Hb Hu Hr Ha H.
  destruct (C82_ends _ (async_source finish) (ar_new input clen) c0 (both no_empty_chunk no_error_item)
              ar_ok ar_body cs ls cs') as (A & B & C & E); auto.
  - apply async_sane; assumption.
  - apply async_delivers; auto. intros s [_ K]. exact K.
  - apply async_goes_on.
  - apply blind_items.
  - intros s l K. split; [apply productive_chunks; exact K|]. destruct l; cbn in *; auto.
  - intros s l [K _]. exact K.
  - apply async_chunks. exact Hr.
  - split; [cbn [over c_content] in A; rewrite Hc in A; exact A|]. intros [K|K]; [apply C; exact K|].
    destruct (E K) as (l & cs'' & L1 & L2 & L3). exists l, cs''. split; [|auto].
    destruct l; try discriminate L1; reflexivity.
Qed.

Theorem C82_reader_ends : forall input clen c0 cs ls cs',
  let c := over reader_source (ar_new input clen) c0 in
  (clen = None \/ clen = Some (length input)) -> c_content c0 = input ->
  (Z.of_nat (length input) < two64 / 2)%Z -> 0 < c_batch c0 -> unbounded_store c ->
  creach reader_source (ar_new input clen) c no_error_item cs ->
  callowed reader_source c (keeps_going ar_body) cs ls ->
  crun reader_source c cs ls = Some cs' ->
  actions ls <= (2 + seek_calls ls) * work_bound (length input) + 8 * (1 + calls ls) /\
  (in_call (cs_sys cs') \/ g_dpc (cs_sys cs') <> DEnd ->
   exists l cs'', action l = true /\ keeps_going ar_body cs' l /\ cstep reader_source c cs' l = Some cs'').
Proof. intros. eapply async_ends; eauto. Qed.

(** [exit]: the exit status of the process. *)
Theorem C82_process_ends : forall exit input clen c0 cs ls cs',
  let c := over (process_source exit) (ar_new input clen) c0 in
  (clen = None \/ clen = Some (length input)) -> c_content c0 = input ->
  (Z.of_nat (length input) < two64 / 2)%Z -> 0 < c_batch c0 -> unbounded_store c ->
  creach (process_source exit) (ar_new input clen) c no_error_item cs ->
  callowed (process_source exit) c (keeps_going ar_body) cs ls ->
  crun (process_source exit) c cs ls = Some cs' ->
  actions ls <= (2 + seek_calls ls) * work_bound (length input) + 8 * (1 + calls ls) /\
  (in_call (cs_sys cs') \/ g_dpc (cs_sys cs') <> DEnd ->
   exists l cs'', action l = true /\ keeps_going ar_body cs' l /\
     cstep (process_source exit) c cs' l = Some cs'').
Proof. intros. eapply async_ends; eauto. apply process_finish_error. Qed.

Lemma never_seeking : forall c allow s, c_seekable c = false -> reach c allow s ->
  forall a b, g_dpc s <> DSeeking a b.
Proof.
  intros c allow s Hk H. induction H as [s H|s l s' Hr IH Hl H].
  - unfold init in H. destruct (into_rw _ _); [|discriminate]. injection H as <-. discriminate.
  - clear Hr Hl. assert (Hq : forall s p, should_seek c s p = false) by (intros; unfold should_seek; rewrite Hk; reflexivity).
    step_cases H; gsimpl; try discriminate; auto; try congruence; rewrite Hq in *; discriminate.
Qed.

(** The task ends with the whole output of the process stored, whatever the client does in
    between, and whatever the exit status: it is only logged. *)
Theorem C82_process_completes : forall exit input clen c0 s0 ls cs,
  let c := over (process_source exit) (ar_new input clen) c0 in
  (clen = None \/ clen = Some (length input)) -> c_content c0 = input ->
  (Z.of_nat (length input) < two64 / 2)%Z -> 0 < c_batch c0 -> unbounded_store c ->
  init c = Some s0 ->
  callowed (process_source exit) c (fun _ => untroubled c) (mkC s0 (ar_new input clen)) ls ->
  crun (process_source exit) c (mkC s0 (ar_new input clen)) ls = Some cs ->
  g_dpc (cs_sys cs) = DEnd ->
  completed (cs_sys cs) /\
  forall x, x < length input -> stored_byte (cs_sys cs) x = nth_error input x.
Proof.
  intros exit input clen c0 s0 ls cs c Hcl Hc Hl Hb Hu Hi Ha H Hd.
  set (src := process_source exit) in *. set (x0 := ar_new input clen) in *.
  assert (Hsa : sane c) by (apply async_sane; assumption).
  assert (D : delivers src x0 c (both no_empty_chunk no_error_item) ar_ok ar_body).
  { apply async_delivers; auto; [apply process_finish_error|]. intros s [_ K]. exact K. }
  destruct (refine src x0 c _ _ _ D blind_items eq_refl eq_refl (proj1 Hsa) (mkC s0 x0)
              (creach_init _ x0 c _ s0 Hi)) as [Hcp R].
  assert (Hrun : forall ls cs0, coupled src c ar_ok ar_body cs0 ->
      reach c (both (both no_empty_chunk no_error_item) (honest_env c)) (cs_sys cs0) ->
      callowed src c (fun _ => untroubled c) cs0 ls -> crun src c cs0 ls = Some cs ->
      callowed src c (fun cs l => both no_empty_chunk no_error_item (cs_sys cs) l /\
         all_served src c cs l) cs0 ls /\
      reach c (both (both no_empty_chunk no_error_item) (honest_env c)) (cs_sys cs)).
  { clear ls Ha H. induction ls as [|l ls IH]; intros cs0 K1 K2 Ha H; cbn [crun callowed] in *.
    { injection H as <-. auto. }
    destruct Ha as [A1 A2]. destruct (cstep src c cs0 l) as [cs1|] eqn:E; [|discriminate H].
    assert (Hal : both no_empty_chunk no_error_item (cs_sys cs0) l) by (destruct l; cbn in *; split; cbn; auto).
    destruct (refine_step _ x0 c _ _ _ D blind_items eq_refl eq_refl (proj1 Hsa) _ _ _ K1 K2 Hal E) as (J1 & J2 & J3).
    destruct (IH cs1) as (B1 & B2); auto.
    - eapply reach_step; eassumption.
    - split; [|exact B2]. split; [split; [exact Hal|]|exact B1].
      destruct l; cbn in A1 |- *; auto; try contradiction.
      + intros a b Z. destruct (never_seeking c _ _ eq_refl K2 _ _ Z).
      + subst. destruct exit; reflexivity. }
  destruct (Hrun ls (mkC s0 x0) Hcp R Ha H) as (B1 & B2).
  destruct (C82_completes _ src x0 c0 _ _ _ s0 ls cs 0 Hsa Hu D blind_items (fun s l K => proj1 K) Hi B1 H Hd)
    as (F1 & _ & _).
  split; [exact F1|]. intros x Hx. replace input with (c_content c) in * by exact Hc.
  apply (C64_completion_without_seeking c (both (both no_empty_chunk no_error_item) (honest_env c)) (cs_sys cs) x); auto.
  - apply over_honours.
  - intros s l [_ [A B]]. split; [|exact A]. eapply unseekable_truncation; [|exact B]. reflexivity.
Qed.

(** ** Cases *)

Lemma callowed_b : forall {X} (src : source X) c pb (P : csys X -> label -> Prop), (forall cs l, pb cs l = true -> P cs l) ->
  forall ls cs, (fix go cs ls := match ls with
     | [] => true
     | l :: ls' => match cstep src c cs l with
                   | Some cs' => pb cs l && go cs' ls'
                   | None => false end end) cs ls = true -> callowed src c P cs ls.
Proof.
  intros X src c pb P Hp. induction ls as [|l ls IH]; intros cs H; cbn [callowed]; [exact I|].
  destruct (cstep src c cs l) as [cs'|]; [|discriminate H]. apply andb_prop in H as [H1 H2].
  split; [apply Hp; exact H1|apply IH; exact H2].
Qed.

Definition keeps_going_b {X} (rest : X -> list byte) (cs : csys X) (l : label) : bool :=
  match l with
  | LDChunk k => 0 <? k
  | LDEof => Nat.eqb (length (rest (cs_src cs))) 0
  | LDErr | LDTimeout _ => false
  | _ => true
  end.
Lemma keeps_going_decides : forall {X} (rest : X -> list byte) cs l,
  keeps_going_b rest cs l = true -> keeps_going rest cs l.
Proof.
  intros X rest cs l H. destruct l; cbn in *; auto; try discriminate.
  - apply Nat.ltb_lt; auto.
  - destruct (rest (cs_src cs)); [reflexivity|discriminate].
Qed.

(** A response that breaks off after five bytes, an error item, a stall with a reconnect that
    fails; the rest comes with a range request. *)
Definition broken_run : list label :=
  [LDChunk 5] ++ Tk 7 ++ [LOp (ORead 4)] ++ Rd 4 ++ [LDErr; LDTimeout RcErr; LDEof; LDSeekRes true; LDChunk 7] ++
  Tk 7 ++ [LDEof] ++ Tk 2 ++ [LDFinishRes true] ++ Tk 2.

Example C82_case :
  let c := over (http_source demo_server) demo_http (demo_cfg 0) in
  http_setup demo_server demo (Some 12%N) (Some "bytes"%string) demo_http (demo_cfg 0) /\
  answers demo_server demo /\ unbounded_store c /\
  exists s0 cs, init c = Some s0 /\
    callowed (http_source demo_server) c (fun _ => undisturbed c) (mkC s0 demo_http) broken_run /\
    crun (http_source demo_server) c (mkC s0 demo_http) broken_run = Some cs /\
    g_dpc (cs_sys cs) = DEnd /\ In (EvSeekRange 5 (Some 12)) (g_trace (cs_sys cs)) /\
    In (EvRead 0 4 false (Ok [x01; x02; x03; x04])) (g_trace (cs_sys cs)).
Proof.
  cbv zeta. split; [apply demo_setup|split; [exact demo_answers|split; [exact I|]]].
  do 2 eexists. split; [vm_compute; reflexivity|]. split.
  - apply (callowed_b _ _ (fun cs l => undisturbed_b (over (http_source demo_server) demo_http (demo_cfg 0)) (cs_sys cs) l)).
    + intros cs l. apply (undisturbed_decides _ (cs_sys cs)).
    + vm_compute. reflexivity.
  - split; [vm_compute; reflexivity|]. vm_compute. repeat split; tauto.
Qed.

(** A read of the last bytes blocks, first over OpenDAL, then over the output of a process;
    the source goes on. *)
Example C82_case_waiting :
  let c := over (opendal_source demo) demo_od (demo_cfg 0) in
  let d := over (process_source true) (ar_new demo None) (demo_cfg 0) in
  exists cs cs' ds ds',
    let ls := Tk 6 ++ [LDChunk 3] ++ Tk 6 in
    creach (opendal_source demo) demo_od c no_empty_chunk cs /\
    callowed (opendal_source demo) c (keeps_going od_reader) cs ls /\
    crun (opendal_source demo) c cs ls = Some cs' /\ in_call (cs_sys cs') /\
    creach (process_source true) (ar_new demo None) d no_error_item ds /\
    callowed (process_source true) d (keeps_going ar_body) ds ls /\
    crun (process_source true) d ds ls = Some ds' /\ in_call (cs_sys ds').
Proof.
  cbv zeta. do 4 eexists.
  assert (B : forall s l, empty_b s l = true -> no_empty_chunk s l).
  { intros s l H. destruct l; cbn in *; auto. apply Nat.ltb_lt; auto. }
  split; [|split; [|split; [|split]]].
  - eapply (crun_b_reach _ _ _ empty_b _ ([LOp (ORead 12)] ++ Rd 4 ++ [LDChunk 3]));
      [exact B|vm_compute; reflexivity|vm_compute; reflexivity].
  - eapply callowed_b; [apply keeps_going_decides|vm_compute; reflexivity].
  - vm_compute. reflexivity.
  - vm_compute. exact I.
  - split; [|split; [|split]].
    + eapply (crun_b_reach _ _ _ (fun _ l => match l with LDErr => false | _ => true end) _
                ([LOp (ORead 12)] ++ Rd 4 ++ [LDChunk 3]));
        [|vm_compute; reflexivity|vm_compute; reflexivity].
      intros s l H. destruct l; try exact I. discriminate H.
    + eapply callowed_b; [apply keeps_going_decides|vm_compute; reflexivity].
    + vm_compute. reflexivity.
    + vm_compute. exact I.
Qed.

Example C82_case_process :
  let c := over (process_source false) (ar_new demo None) (demo_cfg 0) in
  exists s0 cs, init c = Some s0 /\
    let ls := [LOp (OSeek (FromStart 2))] ++ Rd 4 ++ [LDChunk 5] ++ Tk 8 ++ Rd 3 ++ [LDChunk 7] ++ Tk 7 ++
              [LDEof] ++ Tk 2 ++ [LDFinishRes true] ++ Tk 2 in
    callowed (process_source false) c (fun _ => untroubled c) (mkC s0 (ar_new demo None)) ls /\
    crun (process_source false) c (mkC s0 (ar_new demo None)) ls = Some cs /\ g_dpc (cs_sys cs) = DEnd.
Proof.
  cbv zeta. do 2 eexists. split; [vm_compute; reflexivity|]. split; [|split; vm_compute; reflexivity].
  apply (callowed_b _ _ (fun _ l => match l with
     | LDChunk k => 0 <? k | LDFinishRes env => env | LDErr | LDIoErr | LUserCancel | LDrop => false | _ => true end)).
  - intros cs l H. destruct l; cbn in *; auto; try discriminate. apply Nat.ltb_lt; auto.
  - vm_compute. reflexivity.
Qed.

Print Assumptions C82_ends.
Print Assumptions C82_completes.
Print Assumptions C82_http_ends.
Print Assumptions C82_http_completes.
Print Assumptions C82_seek_needed.
Print Assumptions C82_opendal_ends.
Print Assumptions C82_reader_ends.
Print Assumptions C82_process_ends.
Print Assumptions C82_process_completes.

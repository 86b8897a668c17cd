(** * C93: a source is used in order and told once, truthfully, how the download ended. *)

From Coq Require Import ZArith List Lia Arith Bool.
From Verif Require Import Base ListFacts RangeSet Storage System Spec StepTac Process Calls CallsSpec TsoFacts Exec.
Import ListNotations.

Definition open (k : list call) : Prop := forall r o, ~ In (COnFinish r o) k.

(** Where the task is, against the calls made so far. *)
Definition stage (c : cfg) (ls : list label) (k : list call) (s : gstate) : Prop :=
  match g_dpc s with
  | DFinish | DReport => open k /\ exists k1, k = k1 ++ [CNext NEnd]
  | DOnFinish b => exists k1 r o, k = k1 ++ [COnFinish r o] /\ open k1 /\ truthful c ls k1 r o /\
      (b = true <-> r = FOk) /\ g_failed s = false /\ ~ In (LDFinishRes false) ls
  | DSetFailed => exists k1 r o, k = k1 ++ [COnFinish r o] /\ open k1 /\ truthful c ls k1 r o /\
      (r <> FOk \/ In (LDFinishRes false) ls)
  | DSignal | DCancelTok | DEnd => exists k1 r o, k = k1 ++ [COnFinish r o] /\ open k1 /\
      truthful c ls k1 r o /\ (g_failed s = true <-> r <> FOk \/ In (LDFinishRes false) ls)
  | _ => open k
  end /\
  match g_dpc s with
  | DSetFailed | DSignal | DCancelTok | DEnd => True
  | _ => g_failed s = false /\ ~ In (LDFinishRes false) ls /\
         (g_cancel s = true -> user_cancelled c ls)
  end.

Lemma open_app k l : open k -> open l -> open (k ++ l).
Proof. intros A B r o H. apply in_app_or in H as [H|H]; [eapply A|eapply B]; eauto. Qed.

Lemma truthful_more c ls l k r o : truthful c ls k r o -> truthful c (ls ++ [l]) k r o.
Proof.
  unfold truthful, user_cancelled, something_failed. destruct o, r; auto; rewrite !in_app_iff; tauto.
Qed.

Lemma cancelled_more c ls l : user_cancelled c ls -> user_cancelled c (ls ++ [l]).
Proof. unfold user_cancelled. rewrite !in_app_iff. tauto. Qed.

Lemma in_snoc {A} (x y : A) ls : In x (ls ++ [y]) <-> In x ls \/ y = x.
Proof. rewrite in_app_iff. cbn. tauto. Qed.

Lemma wseek_no_err p st e st' : st_wseek p st = (Err e, st') -> False.
Proof.
  destruct st as [u|b]; cbn.
  - intros [=].
  - unfold bnd_wseek. destruct (counter_sub _ _ _); intros [=].
Qed.

Ltac open_tac :=
  solve [rewrite ?app_nil_r; auto
        |apply open_app; [assumption|]; let r := fresh in let o := fresh in let H := fresh in
         intros r o H; cbn in H; intuition discriminate].

Ltac calm_tac :=
  match goal with
  | B : g_failed _ = false /\ ~ In _ _ /\ _ |- g_failed _ = false /\ _ /\ _ =>
      let B1 := fresh in let B2 := fresh in let B3 := fresh in
      destruct B as (B1 & B2 & B3);
      split; [exact B1|split; [rewrite in_snoc; intuition discriminate|
        let H := fresh in intros H; first [apply cancelled_more; auto; fail
          |left; rewrite in_snoc; auto; fail|right; split; auto; rewrite in_snoc; auto]]]
  end.

Lemma stage_quiet c ls k s s' l : stage c ls k s -> (forall b, l <> LDFinishRes b) ->
  g_dpc s' = g_dpc s -> g_failed s' = g_failed s ->
  (g_cancel s' = true -> g_cancel s = true \/ user_cancelled c (ls ++ [l])) ->
  stage c (ls ++ [l]) k s'.
Proof.
  intros [A B] Hl Hd Hf Hc. unfold stage. rewrite Hd, Hf.
  assert (Hi : In (LDFinishRes false) (ls ++ [l]) <-> In (LDFinishRes false) ls).
  { rewrite in_snoc. split; [intros [H|H]; auto; subst; exfalso; eapply Hl; eauto|auto]. }
  assert (Hb : g_failed s = false /\ ~ In (LDFinishRes false) ls /\ (g_cancel s = true -> user_cancelled c ls) ->
    g_failed s = false /\ ~ In (LDFinishRes false) (ls ++ [l]) /\ (g_cancel s' = true -> user_cancelled c (ls ++ [l]))).
  { intros (B1 & B2 & B3). rewrite Hi. repeat split; auto.
    intros H. destruct (Hc H); auto. apply cancelled_more; auto. }
  split; [clear B|destruct (g_dpc s); auto].
  destruct (g_dpc s); auto; destruct A as (k1 & r & o & A1 & A2 & A3 & A4); exists k1, r, o; rewrite Hi;
    repeat (split; [auto using truthful_more|]); auto; tauto.
Qed.

(** A step that ends in [on_finish]. *)
Ltac end_tac rr oo :=
  match goal with
  | B : g_failed ?s = false /\ ~ In _ _ /\ _ |- (exists k1 r o, ?k ++ _ = _ /\ _) /\ _ =>
      let B1 := fresh in let B2 := fresh in let B3 := fresh in
      destruct B as (B1 & B2 & B3);
      split; [exists k, rr, oo; split; [reflexivity|split; [tauto|split; [|split; [split; congruence|]]]]|];
      [cbn; unfold user_cancelled, something_failed in *; rewrite !in_snoc; intuition
      |split; [exact B1|rewrite in_snoc; intuition discriminate]
      |split; [exact B1|split; [rewrite in_snoc; intuition discriminate|intros; apply cancelled_more; auto]]]
  end.

Ltac after_tac :=
  match goal with
  | A : exists k1 r o, ?k = _ /\ _ /\ _ /\ _ |- (exists k1 r o, _ = _ /\ _) /\ True =>
      split; [|exact I];
      let k1 := fresh "k1" in let r := fresh "r" in let o := fresh "o" in
      let A1 := fresh in let A2 := fresh in let A3 := fresh in let A4 := fresh in
      destruct A as (k1 & r & o & A1 & A2 & A3 & A4); exists k1, r, o;
      split; [rewrite app_nil_r; exact A1|split; [exact A2|split; [apply truthful_more; exact A3|]]];
      rewrite ?in_snoc; intuition (auto; try discriminate)
  end.

Lemma reader_same c s l s' : task_label l = false -> step c s l = Some s' ->
  g_dpc s' = g_dpc s /\ g_failed s' = g_failed s /\
  (g_cancel s' = true -> g_cancel s = true \/ l = LUserCancel \/ (c_cancel_on_drop c = true /\ l = LDrop)).
Proof. intros Et H. destruct l; try discriminate Et; step_cases H; gsimpl; repeat split; auto. Qed.

Lemma stage_step c ls k s l s' : stage c ls k s -> step c s l = Some s' ->
  stage c (ls ++ [l]) (k ++ calls_of c s s' l) s'.
Proof.
  intros J H. destruct (task_label l) eqn:Et.
  2:{ destruct (reader_same _ _ _ _ Et H) as (H1 & H2 & H3).
      assert (E : calls_of c s s' l = []).
      { unfold calls_of, requested, finished. rewrite H1.
        destruct l; try discriminate Et; destruct (g_dpc s); reflexivity. }
      rewrite E, app_nil_r. apply (stage_quiet c ls k s); auto.
      - intros b ->. discriminate.
      - unfold user_cancelled. rewrite !in_snoc. intuition. }
  destruct l; try discriminate Et.
  all: pose proof J as [A B].
  all: try (step_cases H; unfold stage, calls_of, polled, requested, finished; gsimpl;
    repeat match goal with E : g_dpc _ = _ |- _ => rewrite E in * end;
    cbn [app] in *;
    try (split; [first [open_tac|split; [open_tac|eauto; fail]|idtac]|first [calm_tac|exact I|idtac]]; fail)).
  all: try (end_tac FInterrupted CancelledByUser; fail).
  all: try (end_tac FOk Completed; fail).
  all: try (exfalso; eapply wseek_no_err; eassumption).
  all: try (end_tac FError Completed; fail).
  all: try (after_tac; fail).
  - destruct A as [A1 A2]. destruct B as (B1 & B2 & B3).
    split; [exists k, FOk, Completed; split; [reflexivity|split; [exact A1|split; [exact A2|split; [tauto|]]]]|];
      rewrite in_snoc; repeat split; auto; try (intuition discriminate). intros; apply cancelled_more; auto.
  - destruct A as [A1 A2]. destruct B as (B1 & B2 & B3).
    split; [exists k, FOk, Completed; split; [reflexivity|split; [exact A1|split; [exact A2|split; [tauto|]]]]|];
      rewrite in_snoc; repeat split; auto; try (intuition discriminate). intros; apply cancelled_more; auto.
  - apply andb_prop in Heqb as [-> ->]. split; [|exact I].
    destruct A as (k1 & r & o & A1 & A2 & A3 & A4 & A5 & A6). exists k1, r, o. rewrite app_nil_r, A5, in_snoc.
    split; [exact A1|split; [exact A2|split; [apply truthful_more; exact A3|]]].
    split; [discriminate|]. intros [E|[E|E]]; [tauto|tauto|discriminate].
  - split; [|exact I].
    destruct A as (k1 & r & o & A1 & A2 & A3 & A4 & A5 & A6). exists k1, r, o. rewrite app_nil_r, in_snoc.
    split; [exact A1|split; [exact A2|split; [apply truthful_more; exact A3|]]].
    destruct ok; [left|right; right; reflexivity]. cbn in Heqb. subst. intros ->. destruct A4 as [_ A4].
    discriminate (A4 eq_refl).
Qed.

Lemma stage_run c : forall ls ls0 k0 s s' k, stage c ls0 k0 s -> calls_run c s ls = Some (s', k) ->
  stage c (ls0 ++ ls) (k0 ++ k) s'.
Proof.
  induction ls as [|l ls IH]; cbn [calls_run]; intros ls0 k0 s s' k J H.
  - injection H as <- <-. rewrite !app_nil_r. exact J.
  - destruct (step c s l) as [s1|] eqn:E; [|discriminate].
    destruct (calls_run c s1 ls) as [[s2 k2]|] eqn:E2; [|discriminate]. injection H as <- <-.
    rewrite app_assoc. change (l :: ls) with ([l] ++ ls). rewrite app_assoc.
    eapply IH; [|exact E2]. apply stage_step; auto.
Qed.

Lemma stage_reached c s0 ls s k : init c = Some s0 -> calls_run c s0 ls = Some (s, k) -> stage c ls k s.
Proof.
  intros Hi H. apply (stage_run c ls [] [] s0); auto.
  unfold init in Hi. destruct (into_rw _ _); [|discriminate]. injection Hi as <-.
  split; cbn; [intros r o []|]. repeat split; auto; discriminate.
Qed.

Lemma exists_last_or_nil {A} (l : list A) : l = [] \/ exists l' x, l = l' ++ [x].
Proof. destruct l as [|a l]; [auto|right]. destruct (@exists_last A (a :: l)) as (l' & x & E); [discriminate|eauto]. Qed.

Lemma open_snoc k1 r o k2 r' o' k3 : open k1 -> k1 ++ [COnFinish r o] = k2 ++ COnFinish r' o' :: k3 ->
  k2 = k1 /\ r' = r /\ o' = o /\ k3 = [].
Proof.
  intros Hk E. destruct (exists_last_or_nil k3) as [->|(k4 & x & ->)].
  - apply app_inj_tail in E as [-> [= <- <-]]. auto.
  - change (COnFinish r' o' :: k4 ++ [x]) with ((COnFinish r' o' :: k4) ++ [x]) in E.
    rewrite app_assoc in E. apply app_inj_tail in E as [-> _]. exfalso.
    apply (Hk r' o'). rewrite in_app_iff. cbn. auto.
Qed.

(** ** C93 *)

(** [on_finish] is called at most once, nothing is called after it, and what it is told is
    true: "cancelled" only after the user has cancelled, "completed" without an error only
    when the source itself has said that it is at its end, and with an error only if the
    storage or a range request has failed. *)
Theorem C93_told : forall c s0 ls s calls before r o after,
  init c = Some s0 -> calls_run c s0 ls = Some (s, calls) ->
  calls = before ++ COnFinish r o :: after ->
  after = [] /\ truthful c ls before r o.
Proof.
  intros c s0 ls s k before r o after Hi H E. destruct (stage_reached _ _ _ _ _ Hi H) as [A _].
  assert (No : ~ open k).
  { intros K. apply (K r o). rewrite E, in_app_iff. cbn. auto. }
  destruct (g_dpc s); try contradiction; try (destruct A as [A _]; contradiction);
    destruct A as (k1 & r1 & o1 & A1 & A2 & A3 & _); rewrite A1 in E;
    apply (open_snoc _ _ _ _ _ _ _ A2) in E as (-> & -> & -> & ->); auto.
Qed.

(** When the task is over, [on_finish] has been called, and the download counts as failed
    exactly if it was told of an error or has returned one itself. *)
Theorem C93_called_partial : forall c s0 ls s calls,
  init c = Some s0 -> calls_run c s0 ls = Some (s, calls) -> task_over s ->
  exists before r o, calls = before ++ [COnFinish r o] /\
    (g_failed s = true <-> r <> FOk \/ In (LDFinishRes false) ls).
Proof.
  intros c s0 ls s k Hi H E. destruct (stage_reached _ _ _ _ _ Hi H) as [A _].
  unfold task_over in E. rewrite E in A. destruct A as (k1 & r & o & A1 & _ & _ & A2). eauto.
Qed.

(** A download that nobody cancels, whose storage works and whose range requests succeed,
    ends only because the source is at its end. *)
Theorem C93_undisturbed : forall c s0 ls s calls,
  init c = Some s0 -> calls_run c s0 ls = Some (s, calls) -> task_over s ->
  ~ user_cancelled c ls -> ~ something_failed ls ->
  exists before, calls = before ++ [CNext NEnd; COnFinish FOk Completed].
Proof.
  intros c s0 ls s k Hi H E N1 N2.
  destruct (C93_called_partial c s0 ls s k Hi H E) as (k1 & r & o & Ek & _).
  destruct (C93_told c s0 ls s k k1 r o [] Hi H Ek) as [_ T].
  destruct o, r; cbn in T; try contradiction. destruct T as [k2 ->].
  exists k2. rewrite Ek, <- app_assoc. reflexivity.
Qed.

(** If the task panics, which an empty first chunk can make it do (C32), the source is told
    nothing. *)
Theorem C93_panic_refuted : exists c s0 ls s calls,
  init c = Some s0 /\ calls_run c s0 ls = Some (s, calls) /\ g_dpc s = DPanic /\
  forall r o, ~ In (COnFinish r o) calls.
Proof.
  exists (mk (Some 12) true 0 4 (PPlain PlMem)). eexists. exists ([LDChunk 0] ++ Tk 1). eexists. eexists.
  split; [reflexivity|split; [vm_compute; reflexivity|split; [reflexivity|]]].
  intros r o [H|[]]; discriminate.
Qed.

(** A download that completes, one that is cancelled and one whose range request fails. *)
Example C93_case_complete : exists c s0 ls s calls,
  init c = Some s0 /\ calls_run c s0 ls = Some (s, calls) /\ task_over s /\
  ~ user_cancelled c ls /\ ~ something_failed ls /\ c_cancel_on_drop c = true /\
  calls = [CNext (NChunk [x01; x02; x03; x04]); CNext NNothing; CReconnect 4; CNext NError;
           CNext (NChunk [x05; x06; x07; x08; x09; x0a; x0b; x0c]); CNext NEnd; COnFinish FOk Completed].
Proof.
  exists (mk (Some 12) true 0 4 (PPlain PlMem)). eexists.
  exists ([LDChunk 4] ++ Tk 6 ++ [LDTimeout RcOk; LDErr; LDChunk 8] ++ Tk 7 ++ [LDEof] ++ Tk 2 ++ [LDFinishRes true] ++ Tk 2).
  eexists. eexists. split; [reflexivity|split; [vm_compute; reflexivity|split; [reflexivity|]]].
  repeat split.
  - intros [H|[_ H]]; cbn in H; intuition discriminate.
  - intros [H|H]; cbn in H; intuition discriminate.
Qed.

Example C93_case_cancelled : exists c s0 ls s calls,
  init c = Some s0 /\ calls_run c s0 ls = Some (s, calls) /\ task_over s /\ g_failed s = true /\
  calls = [CNext (NChunk [x01; x02; x03; x04]); COnFinish FInterrupted CancelledByUser].
Proof.
  exists (mk (Some 12) true 0 4 (PPlain PlMem)). eexists.
  exists ([LDChunk 4] ++ Tk 3 ++ [LUserCancel] ++ Tk 3 ++ [LDCancel; LDFinishRes true] ++ Tk 3).
  eexists. eexists. split; [reflexivity|split; [vm_compute; reflexivity|repeat split; reflexivity]].
Qed.

Example C93_case_failed : exists c s0 ls s calls,
  init c = Some s0 /\ calls_run c s0 ls = Some (s, calls) /\ task_over s /\ g_failed s = true /\
  calls = [CSeekRange 8 (Some 12); COnFinish FError Completed].
Proof.
  exists (mk (Some 12) true 0 4 (PPlain PlMem)). eexists.
  exists ([LOp (OSeek (FromStart (Z.of_nat 8)))] ++ Rd 4 ++ [LDSeek; LDSeekRes false; LDFinishRes true] ++ Tk 3).
  eexists. eexists. split; [reflexivity|split; [vm_compute; reflexivity|repeat split; reflexivity]].
Qed.

Print Assumptions C93_told.
Print Assumptions C93_called_partial.
Print Assumptions C93_undisturbed.
Print Assumptions C93_panic_refuted.

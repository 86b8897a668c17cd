(** * Exec: concrete executions, used for non-vacuity examples and refutations. *)

From Coq Require Import List Arith Lia ZArith Bool.
From Verif Require Import Base RangeSet RangeSetFacts Storage System Spec.
Import ListNotations.

Lemma run_reach : forall c allow ls s s', reach c allow s -> allowed c allow s ls ->
  run c s ls = Some s' -> reach c allow s'.
Proof.
  induction ls as [|l ls IH]; intros s s' Hr Ha H; cbn in *.
  - congruence.
  - destruct Ha as [Ha1 Ha2]. destruct (step c s l) as [s1|] eqn:E; [|discriminate].
    apply (IH s1 s'); auto. eapply reach_step; eauto.
Qed.

Lemma run_steps : forall c allow ls s0 s s', steps c allow s0 s -> allowed c allow s ls ->
  run c s ls = Some s' -> steps c allow s0 s'.
Proof.
  induction ls as [|l ls IH]; intros s0 s s' Hr Ha H; cbn in *.
  - congruence.
  - destruct Ha as [Ha1 Ha2]. destruct (step c s l) as [s1|] eqn:E; [|discriminate].
    apply (IH s0 s1 s'); auto. eapply steps_step; eauto.
Qed.

(** The state after a schedule, from the initial state. *)
Definition exec (c : cfg) (ls : list label) : option gstate :=
  match init c with Some s => run c s ls | None => None end.

Definition exec_allowed (c : cfg) (allow : gstate -> label -> Prop) (ls : list label) : Prop :=
  match init c with Some s => allowed c allow s ls | None => False end.

Lemma exec_reach : forall c allow ls s, exec_allowed c allow ls -> exec c ls = Some s ->
  reach c allow s.
Proof.
  unfold exec, exec_allowed. intros c allow ls s Ha H.
  destruct (init c) as [s0|] eqn:E; [|discriminate].
  eapply run_reach; eauto. apply reach_init; auto.
Qed.

Lemma exec_any : forall c ls s, exec c ls = Some s -> reach c any s.
Proof.
  intros c ls s H. eapply exec_reach; eauto. unfold exec, exec_allowed in *.
  destruct (init c) as [s0|]; [|discriminate]. revert s0 H.
  induction ls as [|l ls IH]; intros s0 H; cbn in *; [exact I|].
  destruct (step c s0 l) eqn:E; [|discriminate]. split; [exact I|auto].
Qed.

Lemma reach_weaken : forall c (p q : gstate -> label -> Prop) s,
  (forall s l, p s l -> q s l) -> reach c p s -> reach c q s.
Proof. intros c p q s H. induction 1; [apply reach_init; auto|eapply reach_step; eauto]. Qed.

Lemma steps_weaken : forall c (p q : gstate -> label -> Prop) s s',
  (forall s l, p s l -> q s l) -> steps c p s s' -> steps c q s s'.
Proof. intros c p q s s' H. induction 1; [apply steps_refl|eapply steps_step; eauto]. Qed.

Lemma reach_steps : forall c allow s s', reach c allow s -> steps c allow s s' ->
  reach c allow s'.
Proof.
  intros c allow s s' Hr H. induction H as [s|s s1 l s2 _ IH Hl Hs]; auto.
  apply (reach_step c allow s1 l s2); auto.
Qed.

(** Shorthands for schedules: [n] reader steps, [n] task steps. *)
Definition Rd (n : nat) : list label := repeat LRStep n.
Definition Tk (n : nat) : list label := repeat LDStep n.

(** Small resource used by the examples. *)
Definition demo : list byte := [x01; x02; x03; x04; x05; x06; x07; x08; x09; x0a; x0b; x0c].

(** Configurations over it: content length, seekable, prefetch, batch, provider. *)
Definition mk (clen : option nat) (seek : bool) (pre batch : nat) (p : provider) : cfg :=
  mkCfg demo clen seek pre batch true InvEmpty RecRange p.

(** The same with a server that ignores unsatisfiable ranges. *)
Definition mk_all (clen : option nat) (seek : bool) (pre batch : nat) (p : provider) : cfg :=
  mkCfg demo clen seek pre batch true InvServeAll RecRange p.

Lemma mk_sane : forall clen seek pre batch p, (clen = None \/ clen = Some 12) -> 0 < batch ->
  sane (mk clen seek pre batch p).
Proof.
  intros clen seek pre batch p H Hb. split; [|split; [reflexivity|exact Hb]].
  intros n E. cbn in E. destruct H; subst; [discriminate|injection E as <-; reflexivity].
Qed.

Lemma mk_honours : forall clen seek pre batch p, honours_ranges (mk clen seek pre batch p).
Proof. split; [discriminate|reflexivity]. Qed.

(** What the client and the environment saw, after a schedule. *)
Definition trace_of (c : cfg) (ls : list label) : list event :=
  match exec c ls with Some s => g_trace s | None => [] end.

(** ** Executions of restricted environments by computation *)

Fixpoint run_b (c : cfg) (ab : gstate -> label -> bool) (s : gstate) (ls : list label)
  : option gstate :=
  match ls with
  | [] => Some s
  | l :: t =>
      if ab s l then match step c s l with Some s' => run_b c ab s' t | None => None end
      else None
  end.

Definition exec_b (c : cfg) (ab : gstate -> label -> bool) (ls : list label) : option gstate :=
  match init c with Some s => run_b c ab s ls | None => None end.

Definition decides (ab : gstate -> label -> bool) (allow : gstate -> label -> Prop) : Prop :=
  forall s l, ab s l = true -> allow s l.

Lemma run_b_steps : forall c ab (allow : gstate -> label -> Prop), decides ab allow ->
  forall ls s0 s s', steps c allow s0 s -> run_b c ab s ls = Some s' -> steps c allow s0 s'.
Proof.
  intros c ab allow Hd. induction ls as [|l ls IH]; intros s0 s s' Hr H; cbn in H.
  - congruence.
  - destruct (ab s l) eqn:E; [|discriminate]. destruct (step c s l) as [s1|] eqn:Es; [|discriminate].
    apply (IH s0 s1 s'); auto. eapply steps_step; eauto.
Qed.

Lemma exec_b_reach : forall c ab (allow : gstate -> label -> Prop) ls s, decides ab allow ->
  exec_b c ab ls = Some s -> reach c allow s.
Proof.
  unfold exec_b. intros c ab allow ls s Hd H. destruct (init c) as [s0|] eqn:E; [|discriminate].
  apply (reach_steps c allow s0); [apply reach_init; auto|].
  eapply run_b_steps; eauto. apply steps_refl.
Qed.

Definition both_b (p q : gstate -> label -> bool) : gstate -> label -> bool :=
  fun s l => p s l && q s l.
Lemma both_decides : forall p q P Q, decides p P -> decides q Q -> decides (both_b p q) (both P Q).
Proof. intros p q P Q H1 H2 s l H. apply andb_true_iff in H as [A B]. split; auto. Qed.

Definition any_b : gstate -> label -> bool := fun _ _ => true.
Lemma any_decides : decides any_b any.
Proof. intros s l _. exact I. Qed.

Definition sequential_b : gstate -> label -> bool :=
  fun _ l => match l with LOp (OSeek _) => false | _ => true end.
Lemma sequential_decides : decides sequential_b sequential_client.
Proof. intros s l H. destruct l; cbn in *; auto. destruct o; [exact I|discriminate]. Qed.

Definition truncation_b : gstate -> label -> bool :=
  fun s l => match l with LDEof => g_scur s =? g_send s | _ => true end.
Definition stall_b : gstate -> label -> bool :=
  fun _ l => match l with LDTimeout _ => false | _ => true end.
Lemma stall_decides : decides stall_b no_stall.
Proof. intros s l H. destruct l; cbn in *; auto; discriminate. Qed.

Lemma truncation_decides : decides truncation_b no_truncation.
Proof. intros s l H. destruct l; cbn in *; auto. apply Nat.eqb_eq; auto. Qed.

Definition silent_b (c : cfg) : gstate -> label -> bool :=
  fun s l => match l with
  | LDEof => (c_seekable c && match c_clen c with Some _ => true | None => false end) ||
             (g_scur s =? g_send s)
  | _ => true
  end.
Lemma silent_decides : forall c, decides (silent_b c) (no_silent_truncation c).
Proof.
  intros c s l H. destruct l; cbn in *; auto. apply orb_true_iff in H as [H|H].
  - left. apply andb_true_iff in H as [A B]. split; auto. destruct (c_clen c); congruence.
  - right. apply Nat.eqb_eq; auto.
Qed.

Definition past_end_b (c : cfg) : gstate -> label -> bool :=
  fun s l => match l with
  | LDChunk k => (0 <? k) || (g_scur s <=? length (c_content c)) | _ => true end.
Lemma past_end_decides : forall c, decides (past_end_b c) (no_empty_chunk_past_end c).
Proof.
  intros c s l H. destruct l; cbn in *; auto. apply orb_true_iff in H as [H|H].
  - left. apply Nat.ltb_lt; auto.
  - right. apply Nat.leb_le; auto.
Qed.

Definition works_b : gstate -> label -> bool :=
  fun _ l => match l with LRIoErr => false | _ => true end.
Lemma works_decides : decides works_b storage_works.
Proof. intros s l H. destruct l; cbn in *; auto. discriminate. Qed.

Definition empty_b : gstate -> label -> bool :=
  fun _ l => match l with LDChunk k => 0 <? k | _ => true end.
Lemma empty_decides : decides empty_b no_empty_chunk.
Proof. intros s l H. destruct l; cbn in *; auto. apply Nat.ltb_lt; auto. Qed.

Definition uncancelled_b : gstate -> label -> bool :=
  fun _ l => match l with LUserCancel | LDrop => false | _ => true end.
Lemma uncancelled_decides : decides uncancelled_b nobody_cancels.
Proof. intros s l H. destruct l; cbn in *; auto; discriminate. Qed.

Definition no_user_cancel_b : gstate -> label -> bool :=
  fun _ l => match l with LUserCancel => false | _ => true end.
Lemma no_user_cancel_decides : decides no_user_cancel_b no_user_cancel.
Proof. intros s l H. destruct l; cbn in *; auto; discriminate. Qed.

Definition forward_b (c : cfg) : gstate -> label -> bool :=
  fun s l => match l with
  | LOp (OSeek from) =>
      match from with
      | FromStart p => (0 <=? p)%Z && (p <? two64)%Z
      | FromCurrent d | FromEnd d => (- (two64 / 2) <=? d)%Z && (d <? two64 / 2)%Z
      end &&
      match seek_target c (cursor (g_trace s)) from with
      | Some t => (Z.of_nat (cursor (g_trace s)) <=? t)%Z && (t <? two64)%Z
      | None => true
      end
  | LRIoErr => match g_rpc s with RSSeek _ _ => false | _ => true end
  | _ => true
  end.
Lemma forward_decides : forall c, decides (forward_b c) (forward_client c).
Proof.
  intros c s l H. destruct l; cbn in *; auto;
    [destruct (g_rpc s); auto; discriminate|]. destruct o; auto.
  apply andb_true_iff in H as [A B]. split.
  - destruct from; cbn; apply andb_true_iff in A as [A1 A2]; apply Z.leb_le in A1;
      apply Z.ltb_lt in A2; split; auto.
  - intros t E. rewrite E in B. apply andb_true_iff in B as [B1 B2].
    apply Z.leb_le in B1. apply Z.ltb_lt in B2. auto.
Qed.

Definition roaming_b (c : cfg) : gstate -> label -> bool :=
  fun s l => match l with
  | LOp (OSeek from) =>
      match from with
      | FromStart p => (0 <=? p)%Z && (p <? two64)%Z
      | FromCurrent d | FromEnd d => (- (two64 / 2) <=? d)%Z && (d <? two64 / 2)%Z
      end &&
      match seek_target c (cursor (g_trace s)) from with
      | Some t => (Z.of_nat (fst (stretch (g_trace s))) <=? t)%Z && (t <? two64)%Z
      | None => true
      end
  | LRIoErr => match g_rpc s with RSSeek _ _ => false | _ => true end
  | _ => true
  end.
Lemma roaming_decides : forall c, decides (roaming_b c) (roaming_client c).
Proof.
  intros c s l H. destruct l; cbn in *; auto;
    [destruct (g_rpc s); auto; discriminate|]. destruct o; auto.
  apply andb_true_iff in H as [A B]. split.
  - destruct from; cbn; apply andb_true_iff in A as [A1 A2]; apply Z.leb_le in A1;
      apply Z.ltb_lt in A2; split; auto.
  - intros t E. rewrite E in B. apply andb_true_iff in B as [B1 B2].
    apply Z.leb_le in B1. apply Z.ltb_lt in B2. auto.
Qed.

Definition productive_b : gstate -> label -> bool :=
  fun s l => match l with
  | LDChunk k => 0 <? k | LDEof => g_scur s =? g_send s | LDErr | LDTimeout _ => false
  | _ => true
  end.
Lemma productive_decides : decides productive_b productive.
Proof.
  intros s l H. destruct l; cbn in *; auto; try discriminate.
  - apply Nat.ltb_lt; auto.
  - apply Nat.eqb_eq; auto.
Qed.

(** Reads within a capacity and absolute seeks within it. *)
Definition capacity_b (cap : nat) : gstate -> label -> bool :=
  fun s l => match l with
  | LOp (ORead n) => n <=? cap
  | LOp (OSeek (FromStart p)) =>
      (0 <=? p)%Z && (p <? two64)%Z && (p <=? Z.of_nat (cursor (g_trace s) + cap))%Z
  | LOp (OSeek _) => false
  | _ => true
  end.
Lemma capacity_decides : forall c cap, decides (capacity_b cap) (within_capacity c cap).
Proof.
  intros c cap s l H. destruct l; cbn in *; auto. destruct o; [apply Nat.leb_le; auto|].
  destruct from; try discriminate. intros t [= <-].
  apply andb_true_iff in H as [H C]. apply andb_true_iff in H as [A B].
  apply Z.leb_le in A, C. apply Z.ltb_lt in B. auto.
Qed.

Definition leftover_b : gstate -> label -> bool :=
  fun s l => match l with
  | LDTimeout RcOk => match g_rem s with None => true | Some _ => false end | _ => true end.
Lemma leftover_decides : decides leftover_b no_reconnect_with_leftover.
Proof.
  intros s l H. destruct l; cbn in *; auto. destruct rc; auto. destruct (g_rem s); congruence.
Qed.

Definition local_b (c : cfg) : gstate -> label -> bool :=
  fun s l => match l with
  | LOp (OSeek (FromStart p)) =>
      (0 <=? p)%Z && (p <? two64)%Z &&
      match rs_get (clamp c p) (g_down s) with Some _ => true | None => false end &&
      (skipped (g_trace s) <=? clamp c p)
  | LOp (OSeek _) => false
  | _ => true
  end.
Lemma local_decides : forall c, decides (local_b c) (local_client c).
Proof.
  intros c s l H. destruct l; cbn in *; auto. destruct o; auto.
  destruct from; try discriminate. intros t [= <-].
  apply andb_true_iff in H as [H D]. apply andb_true_iff in H as [H C]. apply andb_true_iff in H as [A B].
  apply Z.leb_le in A. apply Z.ltb_lt in B. apply Nat.leb_le in D.
  split; [auto|split; [|auto]].
  destruct (rs_get _ _) as [[a b]|] eqn:E; [|discriminate]. apply rs_get_some in E. exists a, b. tauto.
Qed.
Definition fenced_b : gstate -> label -> bool :=
  fun s l => match l, g_rpc s with
  | LDStale, RRWait _ _ _ | LDStale, RSWait _ _ => false
  | _, _ => true
  end.
Lemma fenced_decides : decides fenced_b fenced.
Proof. intros s l H. unfold fenced, fenced_b in *. destruct l; auto. destruct (g_rpc s); auto; discriminate. Qed.
Definition local_env_b (c : cfg) : gstate -> label -> bool :=
  both_b (both_b (local_b c) empty_b) (both_b (silent_b c) leftover_b).

Definition bounded_env_b (c : cfg) : gstate -> label -> bool :=
  both_b (both_b sequential_b empty_b) (both_b (silent_b c) leftover_b).

Definition forward_env_b (c : cfg) := both_b (forward_b c) (both_b (past_end_b c) (silent_b c)).
Definition roaming_env_b (c : cfg) := both_b (roaming_b c) (both_b (past_end_b c) (silent_b c)).
Definition honest_env_b (c : cfg) := both_b (past_end_b c) (silent_b c).

Definition nofail_b : gstate -> label -> bool :=
  fun _ l => match l with
             | LDSeekRes false | LDIoErr | LDFinishRes false | LUserCancel => false | _ => true end.
Lemma nofail_decides : decides nofail_b nothing_fails.
Proof. intros s l H. destruct l as [| | | | | | |[]| |[]| | | | | | | |]; cbn in *; auto; discriminate. Qed.

Definition prompt_b : gstate -> label -> bool :=
  fun s l => match g_dpc s, l with
             | DSelect, LDCancel => true
             | DSelect, _ => negb (g_cancel s && task_label l)
             | _, _ => true end.
Lemma prompt_decides : decides prompt_b prompt.
Proof.
  intros s l H E1 E2 E3. unfold prompt_b in H. rewrite E1, E2, E3 in H. destruct l; auto; discriminate.
Qed.

(** Proves [decides _ _] for the environments above. *)
Ltac decides_tac :=
  unfold roaming_env_b, roaming_env, forward_env_b, forward_env, honest_env_b, honest_env, bounded_env_b, bounded_env, local_env_b, local_env;
  repeat apply both_decides;
  first [ apply any_decides | apply sequential_decides | apply truncation_decides
        | apply silent_decides | apply past_end_decides | apply empty_decides
        | apply uncancelled_decides | apply no_user_cancel_decides | apply forward_decides | apply roaming_decides
        | apply productive_decides | apply capacity_decides | apply stall_decides | apply leftover_decides
        | apply works_decides | apply nofail_decides | apply prompt_decides
        | apply local_decides | apply fenced_decides ].

(** Proves [reach c allow ?s] by running the schedule [ls], checking each step with [ab]. *)
Ltac reach_tac ab ls :=
  eapply (exec_b_reach _ ab _ ls); [decides_tac|vm_compute; reflexivity].

Lemma every_nth : forall P tr k e, every_event P tr -> nth_error tr k = Some e ->
  P (skipn (S k) tr) e.
Proof.
  intros P tr k e H E. apply nth_error_split in E as (l1 & l2 & E & Hk).
  subst k. rewrite E. replace (skipn (S (length l1)) (l1 ++ e :: l2)) with l2.
  - eapply H; eauto.
  - replace (S (length l1)) with (length (l1 ++ [e])) by (rewrite app_length; cbn; lia).
    replace (l1 ++ e :: l2) with ((l1 ++ [e]) ++ l2) by (rewrite <- app_assoc; reflexivity).
    rewrite skipn_app, Nat.sub_diag, skipn_all. reflexivity.
Qed.

(** A schedule all of whose states are blocked. *)
Fixpoint waits_b (c : cfg) (ab : gstate -> label -> bool) (s : gstate) (ls : list label)
  : option (nat * gstate) :=
  if match g_rpc s with RIdle | RDropped => false | _ => true end &&
     match step c s LRStep with None => true | Some _ => false end then
    match ls with
    | [] => Some (0, s)
    | l :: t =>
        if ab s l then
          match step c s l with
          | Some s' => match waits_b c ab s' t with
                       | Some (n, s2) => Some ((if task_label l then 1 else 0) + n, s2)
                       | None => None end
          | None => None
          end
        else None
    end
  else None.

Lemma blocked_b : forall c s,
  match g_rpc s with RIdle | RDropped => false | _ => true end &&
     match step c s LRStep with None => true | Some _ => false end = true -> blocked c s.
Proof.
  intros c s H. apply andb_true_iff in H as [A B]. split.
  - unfold in_call. destruct (g_rpc s); try discriminate; exact I.
  - destruct (step c s LRStep); [discriminate|reflexivity].
Qed.

Lemma waits_b_waits : forall c ab (allow : gstate -> label -> Prop), decides ab allow ->
  forall ls n0 s0 s n s', waits c allow n0 s0 s -> waits_b c ab s ls = Some (n, s') ->
  waits c allow (n0 + n) s0 s'.
Proof.
  intros c ab allow Hd. induction ls as [|l ls IH]; intros n0 s0 s n s' Hw H; cbn [waits_b] in H;
    (match type of H with (if ?b then _ else _) = _ => destruct b eqn:E; [|discriminate] end).
  - injection H as <- <-. rewrite Nat.add_0_r. auto.
  - destruct (ab s l) eqn:Ea; [|discriminate]. destruct (step c s l) as [s1|] eqn:Es; [|discriminate].
    destruct (waits_b c ab s1 ls) as [[m s2]|] eqn:Ew; [|discriminate]. injection H as <- <-.
    rewrite Nat.add_assoc. apply (IH _ s0 s1 m s2); auto.
    apply (waits_step c allow n0 s0 s l s1); auto.
    destruct ls; cbn [waits_b] in Ew;
      (match type of Ew with (if ?b then _ else _) = _ => destruct b eqn:E1; [|discriminate] end);
      apply blocked_b; auto.
Qed.

Lemma waits_b_start : forall c ab (allow : gstate -> label -> Prop) ls s n s', decides ab allow ->
  waits_b c ab s ls = Some (n, s') -> waits c allow n s s'.
Proof.
  intros c ab allow ls s n s' Hd H. apply (waits_b_waits c ab allow Hd ls 0 s s n s'); auto.
  apply waits_start. destruct ls; cbn [waits_b] in H;
      (match type of H with (if ?b then _ else _) = _ => destruct b eqn:E1; [|discriminate] end);
      apply blocked_b; auto.
Qed.

(** Proves [waits c allow n s ?s'] by running [ls]. *)
Ltac waits_tac ab ls :=
  eapply (waits_b_start _ ab _ ls); [decides_tac|vm_compute; reflexivity].

Lemma run_b_allowed : forall c ab (allow : gstate -> label -> Prop), decides ab allow ->
  forall ls s s', run_b c ab s ls = Some s' -> allowed c allow s ls /\ run c s ls = Some s'.
Proof.
  intros c ab allow Hd. induction ls as [|l ls IH]; intros s s' H; cbn in *; auto.
  destruct (ab s l) eqn:E; [|discriminate]. destruct (step c s l) as [s1|] eqn:Es; [|discriminate].
  apply IH in H as [A B]. auto.
Qed.

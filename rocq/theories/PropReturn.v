(** * C74, C75: calls return, and reading in a loop yields the whole resource. *)

From Coq Require Import List Arith Lia ZArith Bool.
From Coq.Init Require Import Byte.
From Verif Require Import Base ListFacts RangeSet Storage System Spec StepTac InvSync Alive Exec
  Progress ReadFacts BoundedFacts StoreSpec BoundedInv BoundedWake BoundedProgress BoundedContent
  BoundedMore.
Import ListNotations.

(** ** C74: every call returns *)

(** Whatever calls are made, and however the task and the reader are scheduled: the number
    of actions they execute is bounded in terms of the length of the resource and the
    number of calls, and while a call is in progress there is an action to execute.  So
    every call returns. *)
Theorem C74_calls_return : forall c s ls s',
  sane c -> unbounded_store c -> honours_ranges c ->
  reach c no_empty_chunk s -> allowed c productive s ls -> run c s ls = Some s' ->
  actions ls <= (2 + seek_calls ls) * work_bound (length (c_content c)) + 8 * (1 + calls ls) /\
  (in_call s' -> exists l s'', action l = true /\ productive s' l /\ step c s' l = Some s'').
Proof.
  intros c s ls s' Hs Hu Hh Hr Ha H. split.
  - pose proof (download_terminates c ls s s' Hs Hu Hh Hr Ha H).
    pose proof (reader_actions c ls s s' H).
    assert (rpc_left (g_rpc s) <= 8) by (destruct (g_rpc s); cbn; lia). lia.
  - apply unbounded_call_moves; auto.
    eapply allowed_reach; [|exact Hr|exact Ha|exact H]. apply productive_chunks.
Qed.

(** The same for bounded storage and clients that do not leave the downloaded data. *)
Theorem C74_bounded_calls_return : forall c ck p n s ls s',
  c_provider c = PBounded ck p n -> sane c -> honours_ranges c ->
  reach c (both (both (local_client c) no_empty_chunk) fenced) s ->
  allowed c (both (both (local_client c) productive) fenced) s ls -> run c s ls = Some s' ->
  actions ls <= 120 * length (c_content c) + 98 + 28 * calls ls /\
  (in_call s' -> exists l s'', action l = true /\
     both (both (local_client c) productive) fenced s' l /\ step c s' l = Some s'').
Proof.
  intros c ck p n s ls s' Hp Hs Hh Hr Ha H. split.
  - pose proof (bounded_actions c ck p n ls s s' Hp Hs Hh Hr Ha H).
    pose proof (all_rank_bound c ck p n s Hp Hs Hr). lia.
  - apply (bounded_call_moves c ck p n s'); auto. { apply Hs. }
    eapply allowed_reach; [|exact Hr|exact Ha|exact H]. apply local_productive_fenced.
Qed.

(** A read through a ring of four that has to wait: the task fills the ring, the first read
    makes room, the second one waits until the task has been woken up and has written. *)
Definition ring_wait_run : list label :=
  [LDChunk 6] ++ Tk 9 ++ [LOp (ORead 2)] ++ Rd 4 ++ [LOp (ORead 4)] ++ Rd 4 ++ Tk 7.

Example C74_case :
  let c := mk (Some 12) true 0 4 (PBounded true PlMem 4) in
  sane c /\ honours_ranges c /\
  exists s s', init c = Some s /\
    allowed c (both (both (local_client c) productive) fenced) s ring_wait_run /\
    run c s ring_wait_run = Some s' /\ in_call s' /\ actions ring_wait_run = 25 /\
    calls ring_wait_run = 2 /\ refused_data (g_trace s') /\ g_reached s' = true.
Proof.
  cbv zeta. split; [apply mk_sane; auto; lia|split; [apply mk_honours|]].
  eexists. eexists. split; [vm_compute; reflexivity|].
  split; [eapply (run_b_allowed _ (both_b (both_b (local_b (mk (Some 12) true 0 4 (PBounded true PlMem 4))) productive_b) fenced_b));
    [decides_tac|vm_compute; reflexivity]|].
  split; [vm_compute; reflexivity|].
  split; [exact I|]. split; [reflexivity|]. split; [reflexivity|].
  split; [exists 2, 0; split; [vm_compute; tauto|lia]|reflexivity].
Qed.

(** In particular a blocked read through bounded storage is released after a bounded number
    of actions of the task, and until then the task has an action to execute. *)
Theorem C18_blocked_read_released : forall c ck p n k s s',
  c_provider c = PBounded ck p n -> sane c -> honours_ranges c ->
  reach c (both (both (local_client c) no_empty_chunk) fenced) s ->
  waits c (both (both (local_client c) productive) fenced) k s s' ->
  k <= 120 * length (c_content c) + 98 /\
  exists l s'', task_label l = true /\ productive s' l /\ fenced s' l /\ step c s' l = Some s''.
Proof.
  intros c ck p n k s s' Hp Hs Hh Hr H.
  destruct (bounded_waits c ck p n k s s' Hp Hs Hh Hr H) as (Hr' & Hb & Hk).
  pose proof (all_rank_bound c ck p n s Hp Hs Hr). split; [lia|].
  assert (Hbt : 0 < c_batch c) by apply Hs.
  destruct (bpos_reach c ck p n s' Hp Hbt (unfenced _ _ _ Hr')) as (W & R & Hpos & Hpc).
  apply task_moves; [apply (bp_body _ _ _ _ _ _ Hpos)|].
  apply (bounded_no_deadlock c ck p n); auto.
Qed.

(** The second read of [ring_wait_run] waits while the task consumes the wake-up, finds
    room for two bytes and writes them. *)
Example C18_released_case :
  let c := mk (Some 12) true 0 4 (PBounded true PlMem 4) in
  exists s s', reach c (both (both (local_client c) no_empty_chunk) fenced) s /\
    waits c (both (both (local_client c) productive) fenced) 5 s s' /\
    g_rpc s' = RRWait 4 2 6.
Proof.
  cbv zeta. eexists. eexists.
  split; [reach_tac (both_b (both_b (local_b (mk (Some 12) true 0 4 (PBounded true PlMem 4))) empty_b) fenced_b)
    ([LDChunk 6] ++ Tk 9 ++ [LOp (ORead 2)] ++ Rd 4 ++ [LOp (ORead 4)] ++ Rd 4)|].
  split; [waits_tac (both_b (both_b (local_b (mk (Some 12) true 0 4 (PBounded true PlMem 4))) productive_b) fenced_b) (Tk 5)|].
  reflexivity.
Qed.

(** ** C75: reading in a loop yields the whole resource *)

Definition busy (r : rpc) : nat := match r with RIdle | RDropped => 0 | _ => 1 end.

Lemma returned_step : forall c s l s', step c s l = Some s' ->
  returned (g_trace s') + busy (g_rpc s') =
  returned (g_trace s) + busy (g_rpc s) + match l with LOp _ => 1 | _ => 0 end.
Proof.
  intros c s l s' H. destruct (task_label l) eqn:Et.
  - rewrite (task_step_rpc c s l s' Et H).
    destruct l; try discriminate Et; step_cases H; gsimpl; cbn [returned]; try lia.
  - destruct l; try discriminate Et; step_cases H; gsimpl; cbn [returned busy]; try lia;
      match goal with E : g_rpc _ = _ |- _ => rewrite E; cbn [busy]; lia end.
Qed.

Lemma returned_run : forall c ls s s', run c s ls = Some s' ->
  returned (g_trace s') + busy (g_rpc s') = returned (g_trace s) + busy (g_rpc s) + calls ls.
Proof.
  induction ls as [|l ls IH]; intros s s' H; cbn [run calls] in *.
  - injection H as <-. lia.
  - destruct (step c s l) as [s1|] eqn:E; [|discriminate].
    pose proof (returned_step c s l s1 E). specialize (IH s1 s' H). destruct l; lia.
Qed.

(** Successful reads with a non-empty buffer: either one of them returned nothing, or they
    have delivered at least a byte each. *)
Lemma reads_deliver : forall tr,
  (forall e, In e tr -> match e with EvRead _ n _ (Ok _) => 0 < n | EvRead _ _ _ _ | EvSeek _ _ => False | _ => True end) ->
  returned tr <= length (delivered tr) \/
  exists newer pos n waited older, tr = newer ++ EvRead pos n waited (Ok []) :: older /\ 0 < n.
Proof.
  induction tr as [|e tr IH]; intros H; [left; cbn; lia|].
  destruct IH as [IH|(newer & pos & n & w & older & -> & Hn)].
  - intros e' He. apply H. right. exact He.
  - specialize (H e (or_introl eq_refl)).
    destruct e; cbn [returned delivered]; auto; try contradiction.
    destruct r as [bs| |]; try contradiction. destruct bs as [|b bs].
    + right. eexists [], _, _, _, _. split; [reflexivity|auto].
    + left. rewrite app_length. cbn. lia.
  - right. exists (e :: newer), pos, n, w, older. auto.
Qed.

(** A client makes as many reads as the resource has bytes, each with a non-empty buffer of
    any size, and they succeed: it has received the whole resource, in order.  With
    [C74_calls_return] the reads do return. *)
Theorem C75_read_loop : forall c s ls s',
  sane c -> unbounded_store c -> honours_ranges c ->
  init c = Some s -> allowed c (both sequential_client (honest_env c)) s ls ->
  run c s ls = Some s' -> ~ in_call s' -> reads_succeed (g_trace s') ->
  length (c_content c) <= calls ls ->
  delivered (g_trace s') = c_content c.
Proof.
  intros c s ls s' Hs Hu Hh Hi Ha H Hc Hok Hn.
  assert (Hr : reach c (both sequential_client (honest_env c)) s').
  { eapply (allowed_reach c _ _ ls s s'); [intros ? ? A; exact A|constructor; exact Hi|exact Ha|exact H]. }
  destruct (sequential_delivered c s' Hs Hu Hh Hr) as [[k Hk] He].
  destruct (reads_deliver (g_trace s') Hok) as [Hl|(nw & pos & m & w & od & E & Hm)]; [|eauto].
  pose proof (returned_run c ls s s' H) as R.
  assert (B : busy (g_rpc s') = 0) by (unfold in_call in Hc; destruct (g_rpc s'); cbn; tauto).
  rewrite Hk in *. rewrite firstn_length in Hl. apply firstn_all2. lia.
Qed.

(** The same through bounded storage. *)
Theorem C75_bounded_read_loop : forall c ck p n s ls s',
  c_provider c = PBounded ck p n -> sane c -> c_rec c = RecRange ->
  init c = Some s -> allowed c (bounded_env c) s ls ->
  run c s ls = Some s' -> ~ in_call s' -> reads_succeed (g_trace s') ->
  length (c_content c) <= calls ls ->
  delivered (g_trace s') = c_content c.
Proof.
  intros c ck p n s ls s' Hp Hs Hrec Hi Ha H Hc Hok Hn.
  assert (Hr : reach c (bounded_env c) s').
  { eapply (allowed_reach c _ _ ls s s'); [intros ? ? A; exact A|constructor; exact Hi|exact Ha|exact H]. }
  destruct (bounded_reads c ck p n s' Hp Hs Hrec Hr) as (_ & [k Hk] & He).
  destruct (reads_deliver (g_trace s') Hok) as [Hl|(nw & pos & m & w & od & E & Hm)]; [|eauto].
  pose proof (returned_run c ls s s' H) as R.
  assert (B : busy (g_rpc s') = 0) by (unfold in_call in Hc; destruct (g_rpc s'); cbn; tauto).
  rewrite Hk in *. rewrite firstn_length in Hl. apply firstn_all2. lia.
Qed.

(** A schedule: the reader moves when it can, then the task; the transport delivers up to
    five bytes at a time; the client reads [m] bytes at a time, [k] times. *)
Definition eager_label (m : nat) (c : cfg) (s : gstate) : label :=
  match g_rpc s, step c s LRStep, step c s LDStep with
  | RIdle, _, _ => LOp (ORead m)
  | _, Some _, _ => LRStep
  | _, None, Some _ => LDStep
  | _, None, None =>
      match g_dpc s with
      | DOnFinish _ => LDFinishRes true
      | _ => if g_scur s <? g_send s then LDChunk (Nat.min 5 (g_send s - g_scur s)) else LDEof
      end
  end.
Fixpoint eager (c : cfg) (m fuel k : nat) (s : gstate) : list label :=
  match fuel with
  | 0 => []
  | S fuel =>
      match eager_label m c s, k with
      | LOp _, 0 => []
      | l, _ =>
          match step c s l with
          | Some s' => l :: eager c m fuel (match l with LOp _ => k - 1 | _ => k end) s'
          | None => []
          end
      end
  end.

Example C75_case :
  let c := mk (Some 12) true 2 3 (PBounded true (PlTemp 2) 4) in
  sane c /\ c_rec c = RecRange /\
  exists s s', init c = Some s /\ let ls := eager c 3 400 12 s in
    allowed c (both (both (local_client c) productive) fenced) s ls /\
    allowed c (bounded_env c) s ls /\ run c s ls = Some s' /\ ~ in_call s' /\
    reads_succeed (g_trace s') /\ calls ls = 12 /\ refused_data (g_trace s') /\
    nth_error (rev (filter (fun e => match e with EvRead _ _ _ _ => true | _ => false end) (g_trace s'))) 4 =
      Some (EvRead 12 3 true (Ok [])).
Proof.
  cbv zeta. split; [apply mk_sane; auto; lia|split; [reflexivity|]].
  eexists. eexists. split; [vm_compute; reflexivity|].
  split; [eapply (run_b_allowed _ (both_b (both_b (local_b (mk (Some 12) true 2 3 (PBounded true (PlTemp 2) 4))) productive_b) fenced_b));
    [decides_tac|vm_compute; reflexivity]|].
  split; [eapply (run_b_allowed _ (bounded_env_b (mk (Some 12) true 2 3 (PBounded true (PlTemp 2) 4))));
    [decides_tac|vm_compute; reflexivity]|].
  split; [vm_compute; reflexivity|].
  split; [intros F; exact F|].
  split; [intros e F; vm_compute in F; repeat (destruct F as [<-|F]; [try exact I; cbn; lia|]); contradiction|].
  split; [vm_compute; reflexivity|].
  split; [exists 3, 0; split; [vm_compute; tauto|lia]|vm_compute; reflexivity].
Qed.

(** Through unbounded storage, with a transport that is not ended by the length. *)
Example C75_unbounded_case :
  let c := mk None true 0 3 (PPlain PlMem) in
  sane c /\ unbounded_store c /\ honours_ranges c /\
  exists s s', init c = Some s /\ let ls := eager c 2 400 12 s in
    allowed c (both sequential_client (honest_env c)) s ls /\ run c s ls = Some s' /\ ~ in_call s' /\
    reads_succeed (g_trace s') /\ calls ls = 12.
Proof.
  cbv zeta. split; [apply mk_sane; auto; lia|split; [exact I|split; [apply mk_honours|]]].
  eexists. eexists. split; [vm_compute; reflexivity|].
  split; [eapply (run_b_allowed _ (both_b sequential_b (honest_env_b (mk None true 0 3 (PPlain PlMem)))));
    [decides_tac|vm_compute; reflexivity]|].
  split; [vm_compute; reflexivity|].
  split; [intros F; exact F|].
  split; [intros e F; vm_compute in F; repeat (destruct F as [<-|F]; [try exact I; cbn; lia|]); contradiction|].
  vm_compute; reflexivity.
Qed.

Print Assumptions C74_calls_return.
Print Assumptions C74_bounded_calls_return.
Print Assumptions C18_blocked_read_released.
Print Assumptions C75_read_loop.
Print Assumptions C75_bounded_read_loop.

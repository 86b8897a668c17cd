(** * Property theorems: storage that fails (C73).

    Vocabulary: Spec.v. *)

From Coq Require Import List Arith Lia ZArith Bool.
From Verif Require Import Base ListFacts RangeSet Storage StorageFacts System Spec StoreSpec StepTac Exec
  InvTrace InvCore ReadFacts CallFacts MoreFacts BoundedMore PropReads PropMore.
Import ListNotations.

(** ** C73: failing storage does no damage *)

(** The storage fails an operation of a call: the call returns an error, after at most one
    more action of its thread, which cannot be blocked.  The download, the stored bytes and
    the client's position are as they were. *)
Theorem C73_failed_call_harmless : forall c allow s s1,
  reach c allow s -> step c s LRIoErr = Some s1 ->
  task_view s1 = task_view s /\ g_store s1 = g_store s /\
  exists k s2, k <= 1 /\ run c s1 (repeat LRStep k) = Some s2 /\ g_rpc s2 = RIdle /\
    g_store s2 = g_store s /\ g_down s2 = g_down s /\ g_failed s2 = g_failed s /\
    exists e, g_trace s2 = e :: g_trace s /\ call_error e /\
      cursor (g_trace s2) = cursor (g_trace s) /\ st_rpos (g_store s2) = cursor (g_trace s2).
Proof.
  intros c allow s s1 H E. pose proof (tr_at _ _ (traced_reach _ _ _ H)) as Hat.
  cbn [step] in E. unfold r_error in E. destruct (g_rpc s) eqn:Er; try discriminate E.
  - destruct (_ && _); [|discriminate]. injection E as <-. split; [reflexivity|split; [reflexivity|]].
    exists 0. eexists. cbn [repeat run]. split; [lia|]. repeat (split; [reflexivity|]).
    eexists. repeat (split; [reflexivity|]). cbn in *. auto.
  - destruct (_ && _); [|discriminate]. injection E as <-. split; [reflexivity|split; [reflexivity|]].
    exists 0. eexists. cbn [repeat run]. split; [lia|]. repeat (split; [reflexivity|]).
    eexists. repeat (split; [reflexivity|]). cbn in *. intuition congruence.
  - injection E as <-. split; [reflexivity|split; [reflexivity|]].
    exists 1. eexists. cbn [repeat run step]. unfold r_step. cbn [g_rpc set_rpc].
    split; [lia|split; [reflexivity|]]. cbn [reader_at] in Hat. destruct (g_wreq s) eqn:W; gsimpl; rewrite W; gsimpl.
    all: repeat (split; [reflexivity|]).
    all: eexists; repeat (split; [reflexivity|]); cbn [cursor]; intuition congruence.
  - destruct from; try discriminate. destruct (_ && _); [|discriminate]. injection E as <-.
    split; [reflexivity|split; [reflexivity|]].
    exists 0. eexists. cbn [repeat run]. split; [lia|]. repeat (split; [reflexivity|]).
    eexists. repeat (split; [reflexivity|]). cbn in *. auto.
  - destruct (st_plain _); [|discriminate]. injection E as <-. split; [reflexivity|split; [reflexivity|]].
    exists 0. eexists. cbn [repeat run]. split; [lia|]. repeat (split; [reflexivity|]).
    eexists. repeat (split; [reflexivity|]). cbn in *. auto.
Qed.

Lemma skip_twice : forall {A} (l : list A) a b, skipn a (skipn b l) = skipn (b + a) l.
Proof. intros. apply list_ext; intros i. rewrite !nth_error_skipn. f_equal. lia. Qed.

(** The storage accepts part of a write: these bytes are stored, the others are kept, in
    order, and written next. *)
Theorem C73_short_write_continues : forall c allow s k s1,
  reach c allow s -> 0 < c_batch c -> step c s (LDShort k) = Some s1 ->
  exists bs, pending s = Some bs /\ 0 < k < length bs /\
    pending s1 = Some (skipn k bs) /\
    g_store s1 = snd (st_write (firstn k bs) (g_store s)) /\
    st_wpos (g_store s1) = st_wpos (g_store s) + k.
Proof.
  intros c allow s k s1 H Hb E. cbn [step] in E.
  assert (P : forall bs st k' st', st_plain st = true -> st_write bs st = (k', st') ->
    k' = length bs /\ st_wpos st' = st_wpos st + length bs).
  { intros bs st k' st' Hp Ew. destruct st; try discriminate Hp. cbn in Ew. injection Ew as <- <-.
    split; auto. cbn. apply u_write_wpos. }
  destruct (g_dpc s) eqn:Ed; try discriminate; unfold write_short in E;
    destruct (st_write _ _) as [k' st'] eqn:Ew;
    destruct (st_plain _ && _) eqn:G; try discriminate;
    apply andb_prop in G as [G1 G2]; apply andb_prop in G2 as [G2 G3];
    apply Nat.ltb_lt in G2; apply Nat.ltb_lt in G3;
    destruct (P _ _ _ _ G1 Ew) as [-> P2].
  all: injection E as <-; unfold pending; rewrite Ed; gsimpl; eexists; (split; [reflexivity|]).
  all: rewrite length_slice in *.
  all: match goal with |- context [Nat.min ?j ?x] => replace (Nat.min j x) with j in * by lia end.
  all: rewrite skipn_length; (split; [lia|]); rewrite skip_twice;
    (split; [f_equal; f_equal; lia|]); (split; [|exact P2]).
  all: unfold slice in Ew; rewrite Ew; reflexivity.
Qed.

Lemma repeat_last : forall {A} (x : A) j, repeat x (S j) = repeat x j ++ [x].
Proof. intros A x j. induction j as [|j IH]; cbn in *; congruence. Qed.

Lemma run_snoc : forall c ls s s1 l s2, run c s ls = Some s1 -> step c s1 l = Some s2 ->
  run c s (ls ++ [l]) = Some s2.
Proof.
  intros c. induction ls as [|a ls IH]; intros s s1 l s2 H1 H2; cbn [run app] in *.
  - injection H1 as <-. rewrite H2. reflexivity.
  - destruct (step c s a); [eauto|discriminate].
Qed.

Lemma allowed_reads : forall c j s s', run c s (repeat LRStep j) = Some s' ->
  allowed c (no_empty_chunk_past_end c) s (repeat LRStep j).
Proof.
  intros c. induction j as [|j IH]; intros s s' H; cbn [repeat run allowed] in *; auto.
  split; [exact I|]. destruct (step c s LRStep); [eauto|discriminate].
Qed.

(** Reading again after such an error returns the data, without waiting, when it is
    downloaded: from the same position, and exactly the bytes of the resource. *)
Theorem C73_read_again : forall c s n s1,
  sane c -> unbounded_store c -> honours_ranges c ->
  reach c (no_empty_chunk_past_end c) s -> g_failed s = false ->
  is_downloaded s (cursor (g_trace s)) ->
  (forall x, cursor (g_trace s) <= x < cursor (g_trace s) + n ->
     (forall cl, c_clen c = Some cl -> x < cl) -> is_downloaded s x) ->
  step c s LRIoErr = Some s1 ->
  exists k s2 e s3 newer older bs, k <= 1 /\ run c s1 (repeat LRStep k) = Some s2 /\
    g_trace s2 = e :: g_trace s /\ call_error e /\
    run c s2 (LOp (ORead n) :: repeat LRStep 4) = Some s3 /\ g_rpc s3 = RIdle /\
    faithful c (cursor (g_trace s)) n bs /\
    g_trace s3 = newer ++ EvRead (cursor (g_trace s)) n false (Ok bs) :: older ++ g_trace s2.
Proof.
  intros c s n s1 Hs Hu Hh Hr Hf Hd Ha E.
  destruct (C73_failed_call_harmless c _ s s1 Hr E) as (_ & _ & k & s2 & Hk & R2 & Ei & _ & Ed & Ef & e & Et & Ee & Ec & _).
  assert (Hr1 : reach c (no_empty_chunk_past_end c) s1) by (eapply reach_step with (l := LRIoErr); eauto; exact I).
  assert (Hr2 : reach c (no_empty_chunk_past_end c) s2).
  { destruct k as [|[|]]; [|cbn in R2|lia]; cbn in R2.
    - injection R2 as <-. auto.
    - destruct (r_step c s1) eqn:E1; [|discriminate]. injection R2 as <-.
      eapply reach_step with (l := LRStep); eauto. exact I. }
  assert (L : step c s2 (LOp (ORead n)) = Some (set_rpc s2 (RRCheck n))) by (cbn [step]; rewrite Ei; reflexivity).
  assert (G : forall j s3, run c (set_rpc s2 (RRCheck n)) (repeat LRStep j) = Some s3 -> j <= 4 -> g_failed s3 = false).
  { intros j s3 R _. rewrite <- Hf, <- Ef.
    enough (Q : forall j s s', run c s (repeat LRStep j) = Some s' -> g_failed s' = g_failed s)
      by (rewrite (Q _ _ _ R); reflexivity).
    clear. induction j as [|j IH]; intros s s' R; cbn [repeat run] in R; [injection R as <-; auto|].
    destruct (step c s LRStep) as [s0|] eqn:E; [|discriminate]. rewrite (IH _ _ R). clear R.
    cbn [step] in E. step_cases E; gsimpl; auto. }
  assert (M : forall j, j <= 4 -> exists s3, run c (set_rpc s2 (RRCheck n)) (repeat LRStep j) = Some s3).
  { induction j as [|j IH]; intros Hj; [eexists; reflexivity|]. destruct (IH ltac:(lia)) as (s3 & R3).
    assert (Hrs : reader_steps (repeat LRStep j) = j) by (clear; induction j; cbn; auto).
    destruct (C66_local_read c s2 n (repeat LRStep j) (set_rpc s2 (RRCheck n)) s3 Hs Hu Hh Hr2) as [Q _]; auto.
    - rewrite Ec. unfold is_downloaded in *. rewrite Ed. auto.
    - intros x Hx Hc. rewrite Ec in Hx. unfold is_downloaded in *. rewrite Ed. auto.
    - apply Forall_forall. intros l Hl. apply repeat_spec in Hl. subst. exact I.
    - eapply allowed_reads; eauto.
    - eapply G; eauto. lia.
    - destruct Q as (s4 & Q); [lia|]. exists s4. rewrite repeat_last.
      apply (run_snoc c _ _ s3); auto. }
  destruct (M 4 ltac:(lia)) as (s3 & R3).
  destruct (C66_local_read c s2 n (repeat LRStep 4) (set_rpc s2 (RRCheck n)) s3 Hs Hu Hh Hr2) as [_ Q]; auto.
  - rewrite Ec. unfold is_downloaded in *. rewrite Ed. auto.
  - intros x Hx Hc. rewrite Ec in Hx. unfold is_downloaded in *. rewrite Ed. auto.
  - repeat constructor.
  - eapply allowed_reads; eauto.
  - eapply G; eauto.
  - destruct (Q eq_refl) as (Q1 & nw & od & bs & Q3 & Q2). rewrite Ec in Q2, Q3.
    exists k, s2, e, s3, nw, od, bs. repeat (split; auto).
    cbn [run]. rewrite L. exact R3.
Qed.

(** Short writes while a chunk is stored, then a failing read of the stored bytes, then the
    read again. *)
Example C73_case :
  let c := mk (Some 12) true 0 4 (PPlain PlMem) in
  sane c /\ unbounded_store c /\ honours_ranges c /\
  (exists s s1, reach c any s /\ step c s (LDShort 1) = Some s1 /\
     pending s = Some [x03; x04; x05; x06] /\ pending s1 = Some [x04; x05; x06]) /\
  (exists s s1 s3, reach c (no_empty_chunk_past_end c) s /\ g_failed s = false /\
     is_downloaded s (cursor (g_trace s)) /\
     (forall x, 0 <= x < 0 + 5 -> is_downloaded s x) /\
     step c s LRIoErr = Some s1 /\
     run c s1 (LRStep :: LOp (ORead 5) :: Rd 4) = Some s3 /\
     In (EvRead 0 5 false (Err EOther)) (g_trace s3) /\
     In (EvRead 0 5 false (Ok [x01; x02; x03; x04; x05])) (g_trace s3)) /\
  (exists s s1, reach c any s /\ step c s LRIoErr = Some s1 /\
     In (EvSeek (FromStart 4) (Err EOther)) (g_trace s1)).
Proof.
  cbv zeta. split; [apply mk_sane; auto; lia|split; [exact I|split; [apply mk_honours|]]].
  split; [|split].
  - eexists. eexists. split; [reach_tac any_b ([LDChunk 6] ++ Tk 1 ++ [LDShort 2])|].
    split; [vm_compute; reflexivity|]. split; vm_compute; reflexivity.
  - eexists. eexists. eexists.
    split; [reach_tac (past_end_b (mk (Some 12) true 0 4 (PPlain PlMem)))
      ([LDChunk 6] ++ Tk 1 ++ [LDShort 2; LDShort 1] ++ Tk 5 ++ [LOp (ORead 5)] ++ Rd 2)|].
    split; [reflexivity|]. split; [exists 0, 6; split; [left; reflexivity|cbn; lia]|].
    split; [intros x Hx; exists 0, 6; split; [left; reflexivity|lia]|].
    split; [vm_compute; reflexivity|]. split; [vm_compute; reflexivity|]. vm_compute. auto 10.
  - eexists. eexists.
    split; [reach_tac any_b ([LDChunk 6] ++ Tk 7 ++ [LOp (OSeek (FromStart 4))] ++ Rd 2)|].
    split; [vm_compute; reflexivity|]. vm_compute. auto.
Qed.

Print Assumptions C73_failed_call_harmless.
Print Assumptions C73_short_write_continues.
Print Assumptions C73_read_again.

(** * Further facts: negative seeks, panics of the reader, prefetch reports. *)

From Coq Require Import List Arith Lia ZArith Bool.
From Verif Require Import Base ListFacts RangeSet RangeSetFacts Storage StorageFacts System Spec
  StepTac InvSync InvTrace InvCore LifeFacts ReadFacts RequestFacts.
Import ListNotations.

(** ** Negative seeks *)

Definition neg_target (c : cfg) (r : rpc) (rpos : nat) : Prop :=
  match r with
  | RSGet from p | RSSet from p | RSSend from p | RSWait from p | RSCheck2 from p
  | RSSeek from p =>
      seek_arg_ok from -> forall t, seek_target c rpos from = Some t -> (t < 0)%Z ->
        forall cl, c_clen c = Some cl -> p = cl
  | _ => True
  end.

Lemma negative_target : forall c allow s, sane c ->
  reach c allow s ->
  neg_target c (g_rpc s) (st_rpos (g_store s)).
Proof.
  intros c allow s Hs H. induction H as [s H|s l s' Hr IH Hl H].
  - unfold init in H. destruct (into_rw _ _); [|discriminate]. injection H as <-. exact I.
  - pose proof (traced_reach _ _ _ Hr) as [H1 _ _ _ _ _]. clear Hr Hl.
    step_cases H;
      repeat match goal with
      | E : st_write _ (g_store s) = _ |- _ =>
          destruct (st_write_rpos _ _ _ _ H1 E) as (? & ? & ?); clear E
      | E : st_wseek _ (g_store s) = _ |- _ =>
          destruct (st_wseek_rpos _ _ _ _ H1 E) as (? & ? & ?); clear E
      end;
      gsimpl; rwpc; cbn [neg_target] in *; auto; try congruence;
      try (match goal with E : st_rpos _ = _ |- _ => rewrite E; auto end; fail).
    intros Ha t Ht Hn cl Hcl. destruct Hs as (Hs1 & Hs2 & _). rewrite <- (Hs1 _ Hcl) in Hs2.
    unfold normalize. rewrite Hcl.
    assert (K : (a = t + two64)%Z).
    { destruct from; cbn in *.
      - injection Ht as <-. lia.
      - injection Ht as <-. injection Heqr0 as <-. unfold as_u64.
        rewrite <- (Z.mod_add _ 1) by discriminate. rewrite Z.mul_1_l.
        apply Z.mod_small. unfold two64 in *. lia.
      - rewrite Hcl in *. cbn in *. injection Ht as <-. injection Heqr0 as <-. unfold as_u64.
        rewrite <- (Z.mod_add _ 1) by discriminate. rewrite Z.mul_1_l.
        apply Z.mod_small. unfold two64 in *. lia. }
    subst a. assert ((two64 / 2 <= t + two64)%Z); [|lia].
    destruct from; cbn in *; try rewrite Hcl in *; cbn in *; injection Ht as <-; unfold two64 in *; lia.
Qed.

Lemma negative_reach : forall c allow s, sane c -> reach c allow s ->
  every_event (negative_to_end c) (g_trace s).
Proof.
  intros c allow s Hs H. apply all_events_every. induction H as [s H|s l s' Hr IH Hl H].
  - unfold init in H. destruct (into_rw _ _); [|discriminate]. injection H as <-. exact I.
  - pose proof (traced_reach _ _ _ Hr) as [H1 H2 _ _ _ _].
    pose proof (negative_target _ _ _ Hs Hr) as H3. clear Hr Hl.
    step_cases H; gsimpl; rwpc; cbn [all_events negative_to_end neg_target reader_at] in *; auto.
    split; auto. rewrite H2.
    destruct (st_rseek_rpos _ _ _ _ H1 Heqp0) as (_ & _ & [[-> _]|[-> _]]); auto.
Qed.

(** ** Reader panics *)

Definition mem_ok (c : cfg) (u : ustore) : Prop :=
  match u with
  | UMem m => m_rpos m <= length (m_vec m) /\
      (exists cl, c_clen c = Some cl /\ cl <= length (m_vec m))
  | UFile _ => True
  end.

Lemma mem_ok_write : forall c bs u, mem_ok c u -> mem_ok c (u_write bs u).
Proof.
  intros c bs [m|f] H; [|exact I]. destruct H as (H1 & cl & H2 & H3). cbn.
  rewrite length_overwrite. split; [lia|]. exists cl. split; [auto|lia].
Qed.

Lemma mem_ok_wseek : forall c p u, mem_ok c u -> mem_ok c (u_wseek p u).
Proof. intros c p [m|f] H; exact H. Qed.

Lemma mem_ok_tell : forall c u, mem_ok c u -> mem_ok c (u_tell u).
Proof. intros c [m|f] H; exact H. Qed.

Lemma mem_ok_rseek : forall c p u, (forall cl, c_clen c = Some cl -> p <= cl) ->
  mem_ok c u -> mem_ok c (u_rseek p u).
Proof.
  intros c p [m|f] Hp H; [|exact I]. destruct H as (H1 & cl & H2 & H3). cbn.
  specialize (Hp _ H2). split; [lia|eauto].
Qed.

Lemma mem_ok_read : forall c n u r u', mem_ok c u -> u_read n u = (r, u') ->
  r <> Panic /\ mem_ok c u'.
Proof.
  intros c n [m|f] r u' H E; cbn in E.
  - destruct H as (H1 & cl & H2 & H3). unfold mem_read in E.
    destruct (Nat.ltb_spec (length (m_vec m)) (m_rpos m)); [lia|].
    injection E as <- <-. split; [discriminate|]. cbn. split; [lia|eauto].
  - destruct (file_read n f) as [r0 f'] eqn:E0. injection E as <- <-. split; [|exact I].
    unfold file_read in E0. destruct (f_buf f); [destruct (_ <=? _)|];
      injection E0 as <- <-; discriminate.
Qed.

Lemma mem_ok_init : forall c s, unbounded_store c -> clamped_or_file c -> init c = Some s ->
  exists u, g_store s = SPlain u /\ mem_ok c u.
Proof.
  intros c s Hu Hc H. unfold init in H. destruct (into_rw _ _) eqn:E; [|discriminate].
  injection H as <-. cbn [g_store].
  assert (P : forall p cl u, c_clen c = Some cl -> plain_rw p (Some cl) = Some u -> mem_ok c u).
  { intros p cl u H1 H2. destruct p; cbn in H2; try discriminate; injection H2 as <-; cbn; auto.
    rewrite repeat_length. split; [lia|eauto]. }
  unfold unbounded_store in Hu. destruct (c_provider c) eqn:Ep; cbn in E; [|contradiction|].
  - destruct (plain_rw p (c_clen c)) eqn:E2; [|discriminate]. injection E as <-.
    eexists. split; [reflexivity|]. destruct (c_clen c) as [cl|] eqn:Ec; [eauto|].
    destruct Hc as [Hc|[[cap Hc]|[lims Hc]]]; [congruence| |]; rewrite Ep in Hc; injection Hc as ->;
    cbn in E2; injection E2 as <-; exact I.
  - destruct (c_clen c) as [len|] eqn:Ec; [|congruence].
    destruct (len <=? buffer_size);
      [destruct (plain_rw fixed (Some len)) eqn:E2|destruct (plain_rw variable (Some len)) eqn:E2];
      try discriminate; injection E as <-; eauto.
Qed.

Lemma reader_no_panic : forall c allow s, unbounded_store c -> clamped_or_file c ->
  reach c allow s ->
  (exists u, g_store s = SPlain u /\ mem_ok c u) /\
  match g_rpc s with RRDone _ _ _ r => r <> Panic | _ => True end /\
  Forall no_panic (g_trace s).
Proof.
  intros c allow s Hu Hc H. induction H as [s H|s l s' Hr (( u & IH1 & IH2) & IH3 & IH4) Hl H].
  - split; [apply mem_ok_init; auto|].
    unfold init in H. destruct (into_rw _ _); [|discriminate]. injection H as <-. cbn. auto.
  - assert (Hp : forall cl p, c_clen c = Some cl -> rpc_target (g_rpc s) = Some p -> p <= cl).
    { intros cl p Hcl. apply (rg_rpc _ _ (ranged_reach _ _ _ _ Hcl Hr)). }
    clear Hr Hl.
    step_cases H; gsimpl; rwpc; rewrite ?IH1 in *; cbn [st_write st_wseek st_rseek st_tell st_read rpc_target] in *;
      repeat match goal with
      | E : (_, _) = (_, _) |- _ => injection E as ? ?; subst
      | E : (let '(_, _) := u_read ?n ?v in _) = _ |- _ =>
          destruct (u_read n v) eqn:?; injection E as ? ?; subst
      | E : u_read _ _ = _ |- _ => apply (mem_ok_read c) in E as [? ?]; [|assumption]
      end; try congruence;
      (split; [eexists; split; [first [reflexivity|eassumption]|]
              |split; [auto; try discriminate; try (destruct (g_rpc s); auto; fail)|
                       repeat constructor; auto; try discriminate]]);
      auto using mem_ok_write, mem_ok_wseek, mem_ok_tell, mem_ok_rseek.
  destruct from; cbn in Heqr0; try discriminate. destruct (c_clen c); discriminate.
Qed.

(** ** Prefetch reports *)

Lemma sequential_pfs : forall c (allow : gstate -> label -> Prop) s,
  (forall s l, allow s l -> sequential_client s l) -> reach c allow s -> g_pfs s = 0.
Proof.
  intros c allow s Ha H. induction H as [s H|s l s' Hr IH Hl H].
  - unfold init in H. destruct (into_rw _ _); [|discriminate]. injection H as <-. reflexivity.
  - destruct (sequential_inv c allow s) as (A1 & A2 & A3); auto.
    step_cases H; gsimpl; auto; congruence.
Qed.

Lemma prefetch_report : forall c s l s' target k pos a b rest,
  sane c -> unbounded_store c -> honours_ranges c ->
  reach c (both sequential_client (no_empty_chunk_past_end c)) s -> step c s l = Some s' ->
  both sequential_client (no_empty_chunk_past_end c) s l ->
  g_trace s' = EvProgress (PhPrefetching target k) pos (a, b) :: rest ->
  length (g_trace s) < length (g_trace s') ->
  b = pos /\ forall x, a <= x < b -> x < length (c_content c) /\ stored_byte s' x = nth_error (c_content c) x.
Proof.
  intros c s l s' target k pos a b rest Hs Hu Hh Hr H Hl Ht Hlen.
  assert (Hr' : reach c (both sequential_client (no_empty_chunk_past_end c)) s').
  { eapply reach_step; eauto. }
  assert (Hp : g_pfs s' = 0).
  { apply (sequential_pfs c (both sequential_client (no_empty_chunk_past_end c))); auto.
    intros s0 l0 [A _]; exact A. }
  destruct (core_reach c _ s' Hs Hu Hh (fun s0 l A => proj2 A) Hr') as (W & u & K & _).
  assert (Hpf : forall bytes k, g_dpc s = DPre bytes k -> g_pfc s = false).
  { destruct (core_reach c _ s Hs Hu Hh (fun s0 l A => proj2 A) Hr) as (W0 & u0 & K0 & _).
    intros bytes k0 E. pose proof (co_task _ _ _ _ K0) as T. unfold task_ok in T.
    rewrite E in T. tauto. }
  assert (Hc : a = 0 /\ b = pos /\ pos = u_wpos u /\ g_dpc s' = DSelect /\
               (g_pfc s' = true -> covers (g_down s') 0 pos)).
  { pose proof (co_store _ _ _ _ K) as Hst. clear Hr Hr' K Hu Hh Hs Hl.
    step_cases H; gsimpl; try (exfalso; rewrite Ht in Hlen; cbn in Hlen; lia);
      try (exfalso; cbn in Hlen; lia); try discriminate Ht;
      injection Ht as ? ? ? ? ? ?; subst; repeat split; auto;
      try (rewrite Hst; reflexivity); rewrite ?Hp; try congruence;
      rewrite ?(Hpf _ _ eq_refl); first [discriminate | intros _; rewrite ?Hp; apply covers_add]. }
  destruct Hc as (-> & -> & C1 & C2 & C3). split; auto. intros x Hx.
  assert (Hw : In x W).
  { destruct (g_pfc s') eqn:Ef.
    - apply (co_down _ _ _ _ K). apply C3; auto.
    - pose proof (co_task _ _ _ _ K) as T. unfold task_ok in T. rewrite C2 in T.
      destruct T as (_ & _ & T). apply (T Ef). rewrite Hp. lia. }
  unfold stored_byte. rewrite (co_store _ _ _ _ K).
  apply (ui_data _ _ _ (co_inv _ _ _ _ K)); auto.
Qed.

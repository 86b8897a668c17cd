(** * Consequences of the invariants for reads through unbounded storage. *)

From Coq Require Import List Arith Lia ZArith Bool.
From Verif Require Import Base ListFacts RangeSet RangeSetFacts Storage StorageFacts
  System Spec StepTac InvSync InvTrace InvCore InvFront Exec.
Import ListNotations.

Lemma read_ok_eof : forall c older e, read_ok c older e -> eof_ok c older e.
Proof.
  intros c older e H. destruct e; cbn in *; auto. destruct r as [[|b bs]| |]; auto.
  destruct H as [_ (k & H & _ & Hk & _)]. symmetry in H. apply slice_nil_inv in H. lia.
Qed.

Lemma every_event_weaken : forall (P Q : list event -> event -> Prop) tr,
  (forall older e, P older e -> Q older e) -> every_event P tr -> every_event Q tr.
Proof. intros P Q tr H1 H2 newer e older E. apply H1. eapply H2; eauto. Qed.

Lemma every_all : forall P tr, every_event P tr -> all_events P tr.
Proof.
  induction tr as [|e tr IH]; intros H; cbn; auto. split.
  - apply (H [] e tr). reflexivity.
  - apply IH. intros newer x older E. apply (H (e :: newer)). cbn. congruence.
Qed.

(** ** Clients that only read *)

Definition no_seek_event (e : event) : Prop := match e with EvSeek _ _ => False | _ => True end.
Definition reads_only (r : rpc) : Prop :=
  match r with
  | RSCheck _ | RSGet _ _ | RSSet _ _ | RSSend _ _ | RSWait _ _ | RSCheck2 _ _ | RSSeek _ _ => False
  | _ => True
  end.

Lemma sequential_inv : forall c (allow : gstate -> label -> Prop) s, (forall s l, allow s l -> sequential_client s l) ->
  reach c allow s ->
  reads_only (g_rpc s) /\ Forall no_seek_event (g_trace s) /\ g_chan s = None.
Proof.
  intros c allow s Ha H. induction H as [s H|s l s' Hr (IH1 & IH2 & IH3) Hl H].
  - unfold init in H. destruct (into_rw _ _); [|discriminate]. injection H as <-. cbn; auto.
  - apply Ha in Hl. clear Hr Ha.
    step_cases H; gsimpl;
      repeat match goal with
      | E : g_rpc _ = _ |- _ => rewrite E in *; clear E
      end; cbn [reads_only] in *; try contradiction; try discriminate;
      repeat split; auto; repeat (constructor; [exact I|]); auto.
Qed.

Lemma delivered_cursor : forall c tr, all_events (read_ok c) tr -> Forall no_seek_event tr ->
  delivered tr = slice (c_content c) 0 (cursor tr).
Proof.
  intros c tr H1 H2. induction H2 as [|e tr He H2 IH]; cbn in *; auto.
  destruct H1 as [H1 H1']. specialize (IH H1').
  destruct e; cbn in *; auto; try contradiction.
  destruct r as [bs| |]; auto. destruct H1 as [Hp Hf]. subst pos.
  change (firstn (cursor tr + length bs) (c_content c))
    with (slice (c_content c) 0 (cursor tr + length bs)).
  rewrite IH, slice_app. cbn [Nat.add]. f_equal.
  apply (faithful_prefix _ _ _ _ Hf).
Qed.

Lemma roaming_reads : forall c s,
  sane c -> unbounded_store c -> honours_ranges c -> reach c (roaming_env c) s ->
  every_event (read_ok c) (g_trace s).
Proof.
  intros c s Hs Hu Hh H.
  destruct (front_reach true c (roaming_env c) s Hs Hu Hh) as (W & u & _ & K); auto.
  - discriminate.
  - intros s0 l (A1 & A2 & A3). split; [exact A2|split; [exact A3|auto]].
  - apply all_events_every. apply K.
Qed.

Lemma roaming_eof : forall c s,
  sane c -> unbounded_store c -> honours_ranges c -> reach c (roaming_env c) s ->
  every_event (eof_ok c) (g_trace s).
Proof.
  intros c s H1 H2 H3 H4 newer e older E. apply read_ok_eof.
  exact (roaming_reads c s H1 H2 H3 H4 newer e older E).
Qed.

Lemma forward_env_roams : forall c s l, forward_env c s l -> roaming_env c s l.
Proof. intros c s l [A B]. split; [apply forward_roams; exact A|exact B]. Qed.

Lemma forward_reads : forall c s,
  sane c -> unbounded_store c -> honours_ranges c -> reach c (forward_env c) s ->
  every_event (read_ok c) (g_trace s).
Proof.
  intros c s Hs Hu Hh H. apply roaming_reads; auto. eapply reach_weaken; [|exact H]. apply forward_env_roams.
Qed.

Lemma unseekable_reads : forall c s,
  sane c -> unbounded_store c -> honours_ranges c -> c_seekable c = false ->
  reach c (honest_env c) s -> every_event (read_ok c) (g_trace s).
Proof.
  intros c s Hs Hu Hh Hk H.
  destruct (front_reach false c (honest_env c) s Hs Hu Hh) as (W & u & _ & K); auto.
  - intros s0 l (A2 & A3). split; [exact A2|split; [exact A3|discriminate]].
  - apply all_events_every. apply K.
Qed.

Lemma sequential_forward : forall c env s,
  reach c (both sequential_client env) s -> reach c (both (forward_client c) env) s.
Proof.
  intros c env s H. induction H as [s H|s l s' Hr IH [Hl He] H]; [apply reach_init; exact H|].
  eapply reach_step; [exact IH| |exact H]. split; [|exact He].
  edestruct (sequential_inv c (both sequential_client env) s) as (Hns & _ & _);
    [intros s0 l0 [A _]; exact A|exact Hr|].
  destruct l; cbn in *; auto.
  - destruct (g_rpc s); auto.
  - destruct o; [auto|contradiction].
Qed.

Lemma sequential_delivered : forall c s,
  sane c -> unbounded_store c -> honours_ranges c ->
  reach c (both sequential_client (both (no_empty_chunk_past_end c) (no_silent_truncation c))) s ->
  (exists k, delivered (g_trace s) = firstn k (c_content c)) /\
  (forall newer pos n waited older, g_trace s = newer ++ EvRead pos n waited (Ok []) :: older ->
     0 < n -> delivered (g_trace s) = c_content c).
Proof.
  intros c s Hs Hu Hh H.
  assert (Hev : every_event (read_ok c) (g_trace s)).
  { apply forward_reads; auto. apply sequential_forward. exact H. }
  edestruct (sequential_inv c (both sequential_client (both (no_empty_chunk_past_end c)
              (no_silent_truncation c))) s) as (_ & Hns & _); [|exact H|].
  { intros s0 l [A _]; exact A. }
  pose proof (delivered_cursor c _ (every_all _ _ Hev) Hns) as Hd.
  split; [exists (cursor (g_trace s)); rewrite Hd; reflexivity|].
  intros newer pos n waited older E Hn.
  pose proof (Hev _ _ _ E) as [Hp (k & Hf & _ & Hk & _)]. symmetry in Hf.
  apply slice_nil_inv in Hf as [Hf|Hf]; [lia|].
  rewrite Hd. apply slice_full.
  assert (Hmono : cursor older <= cursor (g_trace s)).
  { rewrite E in *. clear - Hns. induction newer as [|e newer IH]; cbn in *.
    - lia.
    - inversion Hns; subst. specialize (IH H2). destruct e; auto; try contradiction.
      destruct r; cbn; auto; lia. }
  lia.
Qed.

(** ** Any client *)

Lemma downloaded_stored : forall c s x,
  sane c -> unbounded_store c -> honours_ranges c ->
  reach c (no_empty_chunk_past_end c) s -> is_downloaded s x ->
  x < length (c_content c) /\ stored_byte s x = nth_error (c_content c) x.
Proof.
  intros c s x Hs Hu Hh H (a & b & Hi & Hx).
  destruct (core_reach c _ s Hs Hu Hh (fun s0 l A => A) H) as (W & u & K & _).
  assert (Hc : covered (g_down s) x) by (exists a, b; auto).
  apply (co_down _ _ _ _ K) in Hc. unfold stored_byte. rewrite (co_store _ _ _ _ K).
  apply (ui_data _ _ _ (co_inv _ _ _ _ K)); auto.
Qed.

Lemma fast_reads : forall c s,
  sane c -> unbounded_store c -> honours_ranges c ->
  reach c (no_empty_chunk_past_end c) s -> every_event (fast_read_ok c) (g_trace s).
Proof.
  intros c s Hs Hu Hh H.
  destruct (core_reach c _ s Hs Hu Hh (fun s0 l A => A) H) as (W & u & _ & K).
  apply all_events_every. apply K.
Qed.

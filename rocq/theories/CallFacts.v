(** * Rejected calls, progress reports, prefetch and dropping, any storage. *)

From Coq Require Import List Arith Lia ZArith Bool.
From Verif Require Import Base ListFacts RangeSet RangeSetFacts Storage StorageFacts
  System Spec StepTac InvSync InvTrace Exec LifeFacts RequestFacts ReadFacts.
Import ListNotations.

(** ** Rejected calls *)

Lemma end_unknown : forall c allow s, c_clen c = None -> reach c allow s ->
  every_event end_refused (g_trace s).
Proof.
  intros c allow s Hc H. apply all_events_every.
  assert (K : (match g_rpc s with
               | RSGet (FromEnd _) _ | RSSet (FromEnd _) _ | RSSend (FromEnd _) _
               | RSWait (FromEnd _) _ | RSCheck2 (FromEnd _) _ | RSSeek (FromEnd _) _ => False
               | _ => True end) /\ all_events end_refused (g_trace s)).
  { induction H as [s H|s l s' Hr (K1 & K2) Hl H].
    - unfold init in H. destruct (into_rw _ _); [|discriminate]. injection H as <-. cbn; auto.
    - clear Hr Hl. step_cases H; gsimpl; rwpc; cbn [all_events end_refused] in *; auto;
        try (destruct from; cbn in *; auto; try contradiction; fail).
      all: destruct from; cbn in *; try discriminate; auto; rewrite Hc in *; try discriminate.
      injection Heqr0 as <-. auto. }
  apply K.
Qed.

Lemma end_unknown_now : forall c s d s1 s2, c_clen c = None -> g_failed s = false ->
  step c s (LOp (OSeek (FromEnd d))) = Some s1 -> step c s1 LRStep = Some s2 ->
  s2 = emit s (EvSeek (FromEnd d) (Err EUnsupported)).
Proof.
  intros c s d s1 s2 Hc Hf H1 H2. cbn [step] in *. destruct (g_rpc s) eqn:E; try discriminate.
  injection H1 as <-. unfold r_step in H2. gsimpl. rewrite Hf in H2. cbn in H2. rewrite Hc in H2.
  injection H2 as <-. destruct s; cbn in *. subst. reflexivity.
Qed.

Lemma oversized : forall c allow s cap, max_capacity (c_provider c) = Some cap ->
  reach c allow s -> every_event (oversized_refused c cap) (g_trace s).
Proof.
  intros c allow s cap Hcap H. apply all_events_every.
  assert (K : (match g_rpc s with
               | RRGet n _ _ | RRSet n _ _ | RRNotify n _ _ | RRWait n _ _ | RRCheck2 n _ _
               | RRRead n _ _ _ | RRDone n _ _ _ => n <= cap
               | RSGet _ p | RSSet _ p | RSSend _ p | RSWait _ p | RSCheck2 _ p
               | RSSeek _ p => p <= cursor (g_trace s) + cap
               | _ => True end) /\ all_events (oversized_refused c cap) (g_trace s)).
  { induction H as [s H|s l s' Hr (K1 & K2) Hl H].
    - unfold init in H. destruct (into_rw _ _); [|discriminate]. injection H as <-. cbn; auto.
    - pose proof (traced_reach _ _ _ Hr) as Ht. pose proof (tr_at _ _ Ht) as Ta.
      pose proof (tr_seek _ _ Ht) as Ts.
      clear Hr Hl Ht. unfold excessive_read, excessive_seek in *.
      step_cases H; gsimpl; unfold excessive_read, excessive_seek in *;
        rewrite ?Hcap in *; rwpc;
        cbn [all_events oversized_refused cursor reader_at reader_seeks] in *; auto;
        try (split; [auto|split; [|auto]]); auto; try lia;
        try (intros t Ht1 Ht2 Ht3; exfalso).
      + split; auto. apply Nat.ltb_ge in Heqb0. auto.
      + split; auto. apply Z.ltb_ge in Heqb0. lia.
      + destruct from; cbn in *; try discriminate. destruct (c_clen c); discriminate.
      + destruct from; cbn in *; try discriminate. destruct (c_clen c); discriminate.
      + rewrite Ta in *. specialize (Ts t Ht1 Ht2). unfold clamp in Ht3. lia. }
  apply K.
Qed.

Lemma oversized_read_now : forall c s cap n s1 s2, max_capacity (c_provider c) = Some cap ->
  cap < n -> g_failed s = false ->
  step c s (LOp (ORead n)) = Some s1 -> step c s1 LRStep = Some s2 ->
  s2 = emit s (EvRead (st_rpos (g_store s)) n false (Err EInvalidInput)).
Proof.
  intros c s cap n s1 s2 Hc Hn Hf H1 H2. cbn [step] in *. destruct (g_rpc s) eqn:E; try discriminate.
  injection H1 as <-. unfold r_step, excessive_read in H2. gsimpl. rewrite Hf, Hc in H2.
  destruct (Nat.ltb_spec cap n); [|lia].
  injection H2 as <-. destruct s; cbn in *. subst. reflexivity.
Qed.

Lemma oversized_seek_now : forall c allow s cap from t s1 s2,
  max_capacity (c_provider c) = Some cap -> reach c allow s ->
  seek_target c (cursor (g_trace s)) from = Some t -> (0 <= t < two64)%Z ->
  cursor (g_trace s) + cap < clamp c t -> g_failed s = false ->
  step c s (LOp (OSeek from)) = Some s1 -> step c s1 LRStep = Some s2 ->
  s2 = emit s (EvSeek from (Err EInvalidInput)).
Proof.
  intros c allow s cap from t s1 s2 Hc Hr Ht Ht2 Hp Hf H1 H2.
  pose proof (tr_at _ _ (traced_reach _ _ _ Hr)) as Ta.
  cbn [step] in *. destruct (g_rpc s) eqn:E; try discriminate. cbn in Ta.
  injection H1 as <-. unfold r_step, excessive_seek in H2. gsimpl. rewrite Hf, Hc in H2.
  rewrite Ta in *.
  assert (Ha : absolute_seek_position c (st_rpos (g_store s)) from = Ok t).
  { destruct from; cbn in *.
    - congruence.
    - injection Ht as <-. f_equal. apply Z.mod_small; auto.
    - destruct (c_clen c); cbn in *; [|discriminate]. injection Ht as <-.
      f_equal. apply Z.mod_small; auto. }
  rewrite Ha in H2. unfold clamp, normalize in *.
  destruct (Z.ltb_spec (Z.of_nat (st_rpos (g_store s)) + Z.of_nat cap)
             match c_clen c with Some cl => Z.min t (Z.of_nat cl) | None => t end); [|lia].
  injection H2 as <-. destruct s; cbn in *. subst. reflexivity.
Qed.

(** ** Dropping the handle *)

Lemma drop_token : forall c s s', step c s LDrop = Some s' ->
  g_cancel s' = (g_cancel s || c_cancel_on_drop c)%bool /\ g_dpc s' = g_dpc s /\
  g_trace s' = g_trace s /\ g_rpc s' = RDropped.
Proof.
  intros c s s' H. step_cases H; gsimpl; rewrite ?orb_true_r, ?orb_false_r; auto.
Qed.

Lemma drop_ignored : forall c s, c_cancel_on_drop c = false -> reach c no_user_cancel s ->
  (g_cancel s = true <-> g_dpc s = DEnd).
Proof.
  intros c s Hd H. induction H as [s H|s l s' Hr IH Hl H].
  - unfold init in H. destruct (into_rw _ _); [|discriminate]. injection H as <-. cbn.
    split; discriminate.
  - clear Hr. step_cases H; gsimpl; rwpc; cbn in Hl; try contradiction; auto; try congruence;
      try (split; [intros K; apply IH in K; congruence|congruence]);
      try (split; auto; fail).
    exfalso. destruct IH as [IH _]. specialize (IH eq_refl). discriminate.
Qed.

(** After dropping, no call is ever made. *)
Lemma dropped_forever : forall c allow s s', g_rpc s = RDropped -> steps c allow s s' ->
  g_rpc s' = RDropped.
Proof.
  intros c allow s s' Hd H. induction H as [s|s s1 l s2 Hst IH Hl H]; auto.
  specialize (IH Hd). clear Hst. step_cases H; gsimpl; congruence.
Qed.

(** ** Progress reports *)

Lemma complete_last : forall c allow s, reach c allow s ->
  every_event nothing_after_complete (g_trace s).
Proof.
  intros c allow s H. apply all_events_every.
  assert (K : ((exists pos ch, In (EvProgress PhComplete pos ch) (g_trace s)) ->
               match g_dpc s with DOnFinish _ | DSetFailed | DSignal | DCancelTok | DEnd => True
               | _ => False end) /\ all_events nothing_after_complete (g_trace s)).
  { induction H as [s H|s l s' Hr (K1 & K2) Hl H].
    - unfold init in H. destruct (into_rw _ _); [|discriminate]. injection H as <-. cbn.
      split; auto. intros (pos & ch & []).
    - clear Hr Hl. step_cases H; gsimpl; rwpc; cbn [all_events In] in *; auto;
        (split; [|repeat (split; [try (intros ?; discriminate)|]); auto]);
        auto; try (intros (pos' & ch' & K); repeat (destruct K as [K|K]; [discriminate K|]); apply K1; eauto; fail);
        try (intros _ pos' ch' K; apply K1; eauto; fail).
      all: intros _ pos' ch' [K|K]; [discriminate|apply K1; eauto]. }
  apply K.
Qed.

Definition ended_well (s : gstate) : Prop :=
  match g_dpc s with
  | DFinish | DReport | DOnFinish true => True
  | DOnFinish false | DSetFailed => g_done s = true
  | DSignal | DCancelTok | DEnd => g_failed s = false
  | _ => False
  end.

Lemma ended_covers : forall c allow s cl, c_seekable c = true -> c_clen c = Some cl ->
  reach c allow s -> ended_well s -> covers (g_down s) 0 cl.
Proof.
  intros c allow s cl Hk Hc H. induction H as [s H|s l s' Hr IH Hl H].
  - unfold init in H. destruct (into_rw _ _); [|discriminate]. injection H as <-. intros [].
  - pose proof (sync_reach _ _ _ Hr) as Hsy. clear Hr Hl. unfold ended_well in *.
    pose proof (sy_done _ Hsy) as Hdn.
    assert (Hfl : forall b, g_dpc s = DOnFinish b -> g_failed s = false).
    { intros b E1. destruct (g_failed s) eqn:E; auto. apply (sy_fail _ Hsy) in E.
      rewrite E1 in E. contradiction. }
    pose proof (sy_fail _ Hsy) as Hff.
    step_cases H; gsimpl; try (rewrite Hk in *; discriminate); try congruence;
      rwpc; intros Hw; try contradiction; auto; try congruence;
      try (specialize (Hdn Hw); discriminate Hdn).
    { injection Hc as ->. intros x Hx. eapply rs_next_gap_none; eauto. }
    { injection Hc as ->. intros x Hx. eapply rs_next_gap_none; eauto. }
    { apply andb_prop in Heqb as [_ ->]. auto. }
    { apply IH. destruct ok0; auto. }
    all: apply IH; destruct (g_dpc s); auto; try (destruct ok; auto); congruence.
Qed.

Lemma progress_truth : forall c allow s l s' ph pos a b rest, reach c allow s ->
  step c s l = Some s' -> g_trace s' = EvProgress ph pos (a, b) :: rest ->
  length (g_trace s) < length (g_trace s') ->
  pos = st_wpos (g_store s') /\
  match ph with
  | PhDownloading _ =>
      0 < pos /\ a <= pos - 1 < b /\ (forall x, a <= x < b -> is_downloaded s' x) /\
      ~ is_downloaded s' b /\ (0 < a -> ~ is_downloaded s' (a - 1))
  | PhComplete =>
      c_seekable c = true -> forall cl, c_clen c = Some cl ->
      forall x, x < cl -> is_downloaded s' x
  | PhPrefetching target _ => target = c_prefetch c /\ a = 0 /\ b = pos
  end.
Proof.
  intros c allow s l s' ph pos a b rest Hr H Ht Hlen.
  pose proof (wf_reach _ _ _ Hr) as Hw.
  pose proof (fun cl A B => ended_covers c allow s cl A B Hr) as Hc. clear Hr.
  unfold ended_well in Hc.
  step_cases H; gsimpl; try (exfalso; lia); try discriminate Ht;
    try (injection Ht as <- <- <- <-); auto.
  - destruct r as [a0 b0]. injection Ht as <- <- <- <- _. split; [auto|].
    apply rs_get_maximal in Heqo as (A1 & A2 & A3 & A4); auto.
    split; [lia|split; [lia|]].
    split; [exact A2|split; [exact A3|exact A4]].
  - destruct r as [a0 b0]. injection Ht as <- <- <- <- _. split; [auto|].
    intros Hk cl Hcl x Hx. apply (Hc cl); auto. lia.
  - split; [auto|]. intros Hk cl Hcl x Hx. apply (Hc cl); auto. lia.
Qed.

(** ** Prefetch *)

Definition early (c : cfg) (s : gstate) : Prop :=
  g_pfc s = false /\ g_pfs s = 0 /\ g_done s = false /\ g_reached s = false /\
  g_send s = length (c_content c) /\ g_scur s <= g_send s /\
  match g_dpc s with
  | DSelect =>
      g_scur s <= st_wpos (g_store s) /\ (c_rec c = RecRange -> g_scur s = st_wpos (g_store s))
  | DPre bytes w =>
      g_scur s + w <= st_wpos (g_store s) + length bytes /\ w <= length bytes /\
      (c_rec c = RecRange -> g_scur s + w = st_wpos (g_store s) + length bytes)
  | DOnFinish false | DSetFailed => True
  | _ => False
  end.

Definition no_data_yet (c : cfg) (s : gstate) : Prop :=
  g_down s = [] /\
  (forall pos n w bs, ~ In (EvRead pos n w (Ok bs)) (g_trace s)) /\
  ((early c s /\ match g_rpc s with RRRead _ _ _ _ | RRDone _ _ _ _ | RRCheck2 _ _ _ => False | _ => True end) \/
   (g_failed s = true /\ match g_rpc s with RRRead _ _ _ _ | RRDone _ _ _ _ => False | _ => True end)).

Definition prefetched (c : cfg) (s : gstate) : Prop :=
  (forall x, x < Nat.min (c_prefetch c) (length (c_content c)) -> is_downloaded s x) \/
  refused_data (g_trace s).

Definition prefetch_env : gstate -> label -> Prop := both sequential_client no_truncation.

Lemma prefetched_mono : forall c s l s', step c s l = Some s' -> prefetched c s -> prefetched c s'.
Proof.
  intros c s l s' H [P|(o & a & Hi & Ha)].
  - left. intros x Hx. eapply down_mono; eauto.
  - right. exists o, a. split; auto. clear Ha.
    step_cases H; gsimpl; cbn; auto.
Qed.

Lemma prefetch_reach : forall c s, 0 < c_batch c -> reach c prefetch_env s -> prefetched c s \/ no_data_yet c s.
Proof.
  intros c s Hb H. induction H as [s H|s l s' Hr IH [Hl1 Hl2] H].
  - unfold init in H. destruct (into_rw _ _) eqn:Ei; [|discriminate]. injection H as <-.
    apply into_rw_init in Ei as (A1 & A2 & A3).
    destruct (Nat.eqb_spec (c_prefetch c) 0) as [E|E].
    + left. left. rewrite E. cbn. intros x Hx. lia.
    + right. unfold no_data_yet, early; cbn.
      split; [auto|split; [auto|]]. left. repeat split; auto; lia.
  - destruct IH as [IH|IH]; [left; eapply prefetched_mono; eauto|].
    pose proof (tr_wf _ _ (traced_reach _ _ _ Hr)) as Hwf.
    pose proof (sy_fail _ (sync_reach _ _ _ Hr)) as Hsf.
    assert (Hch : g_chan s = None /\ reads_only (g_rpc s)).
    { destruct (sequential_inv c prefetch_env s) as (A1 & A2 & A3); auto.
      intros s0 l0 [A _]; exact A. }
    destruct Hch as [Hch Hro]. clear Hr.
    destruct IH as (B1 & B2 & [[(E1 & E2 & E3 & E4 & E5 & E5' & E6) B3]|[B3 B4]]).
    + assert (Hnd : forall es, (forall pos n w bs, ~ In (EvRead pos n w (Ok bs)) es) ->
                forall pos n w bs, ~ In (EvRead pos n w (Ok bs)) (es ++ g_trace s)).
      { intros es He pos n w bs K. apply in_app_or in K as [K|K]; [eapply He|eapply B2]; eauto. }
      assert (Hnil : forall pos n w bs, ~ In (EvRead pos n w (Ok bs)) []) by (intros; intros []).
      assert (H1 : forall e, (forall pos n w bs, e <> EvRead pos n w (Ok bs)) ->
                forall pos n w bs, ~ In (EvRead pos n w (Ok bs)) (e :: g_trace s)).
      { intros e He pos n w bs [K|K]; [eapply He|eapply B2]; eauto. }
      clear Hnd Hnil.
      assert (H2 : forall e e', (forall pos n w bs, e <> EvRead pos n w (Ok bs)) ->
                (forall pos n w bs, e' <> EvRead pos n w (Ok bs)) ->
                forall pos n w bs, ~ In (EvRead pos n w (Ok bs)) (e :: e' :: g_trace s)).
      { intros e e' He He' pos n w bs [K|[K|K]]; [eapply He|eapply He'|eapply B2]; eauto. }
      step_cases H; gsimpl; rwpc; try congruence; cbn in Hl1, Hl2; try contradiction;
        rewrite ?B1 in *; cbn [rs_get] in *; try discriminate;
        try (match goal with E : st_write _ _ = _ |- _ =>
               pose proof (write_accepted _ _ _ _ E) as Ha; rewrite length_slice in Ha;
               apply st_write_rpos in E as (W1 & W2 & W3); auto end);
        try (match goal with E : (_ =? 0) = true |- _ => apply Nat.eqb_eq in E end);
        try (match goal with E : (_ <=? _) = true |- _ => apply Nat.leb_le in E end).
      all: rewrite ?E2 in *; cbn [orb andb] in *; try discriminate.
      all: try (match goal with E : _ = Some ?x |- context [?x] => progress (injection E as <-) end).
      all: repeat match goal with H : _ /\ _ |- _ => destruct H end.
      all: try (left; left; intros x Hx; apply rs_add_covered; right; gsimpl; lia).
      all: try (match goal with E : (_ <? _) = true |- _ => apply Nat.ltb_lt in E end).
      all: try (match goal with E : (_ <? _) = false |- _ => apply Nat.ltb_ge in E end).
      all: try (left; right; eexists; eexists; gsimpl; cbn [In]; split; [eauto|lia]).
      all: try (right; unfold no_data_yet, early; gsimpl;
             rewrite ?length_slice;
             split; [assumption|split; [solve [assumption|apply H1; discriminate|apply H2; discriminate]|]];
             left; rwpc; repeat split; auto; try (intros; discriminate); try lia;
             try (intros; match goal with G : _ -> _ = _ |- _ => specialize (G ltac:(assumption)); lia end);
             fail).
      { specialize (H0 eq_refl). right. unfold no_data_yet, early; gsimpl. rewrite Heqd.
        split; [assumption|split; [apply H2; discriminate|left]].
        split; auto. repeat split; auto; lia. }
      { right. unfold no_data_yet, early; gsimpl. rewrite Heqd.
        split; [assumption|split; [apply H2; discriminate|left]].
        split; auto. repeat split; auto; try lia. congruence. }
      { left; left; intros x Hx; apply rs_add_covered; right; gsimpl.
        apply orb_true_iff in Heqb0 as [K|K]; [apply Nat.leb_le in K|discriminate]. lia. }
      { right. unfold no_data_yet; gsimpl. split; [assumption|split; [assumption|right]].
        split; auto. destruct (g_rpc s); auto. }
      { destruct ok0; [contradiction|]. rewrite andb_false_r in *. discriminate. }
      { destruct (st_tell_rpos _ Hwf) as (T1 & T2 & T3).
        right. unfold no_data_yet, early; gsimpl. rewrite T3.
        split; [assumption|split; [assumption|left]].
        split; auto. repeat split; auto. }
    + assert (H1 : forall e, (forall pos n w bs, e <> EvRead pos n w (Ok bs)) ->
                forall pos n w bs, ~ In (EvRead pos n w (Ok bs)) (e :: g_trace s)).
      { intros e He pos n w bs [K|K]; [eapply He|eapply B2]; eauto. }
      rewrite B3 in Hsf.
      right. step_cases H; gsimpl; rwpc; try congruence; try contradiction; try (exfalso; intuition; fail);
        rewrite ?B1 in *; cbn [rs_get] in *; try discriminate;
        (split; [assumption|split; [solve [assumption|apply H1; discriminate]|right]]);
        gsimpl; rwpc; auto.
Qed.

(** A read returns data only once the prefetch target (or everything) was downloaded. *)
Lemma prefetch_first : forall c s pos n w bs,
  0 < c_batch c -> reach c (both sequential_client no_truncation) s ->
  In (EvRead pos n w (Ok bs)) (g_trace s) ->
  (forall x, x < Nat.min (c_prefetch c) (length (c_content c)) -> is_downloaded s x) \/
  refused_data (g_trace s).
Proof.
  intros c s pos n w bs Hb Hr Hi. destruct (prefetch_reach _ _ Hb Hr) as [P|(_ & P & _)]; auto.
  destruct (P _ _ _ _ Hi).
Qed.

(** * Front invariant for unbounded storage: what a waiting read is woken up for.

    Two situations in which everything between the reader and the writer is stored:
    the client never seeks back behind the place it last jumped to, or the source cannot be
    repositioned at all. *)

From Coq Require Import List Arith Lia ZArith Bool.
From Verif Require Import Base ListFacts RangeSet RangeSetFacts Storage StorageFacts
  System Spec StepTac InvSync InvTrace InvCore.
Import ListNotations.

(** [m = true]: the client roams; [m = false]: the source is not seekable. *)
Definition front_env (m : bool) (c : cfg) (s : gstate) (l : label) : Prop :=
  core_env c s l /\ no_silent_truncation c s l /\ (m = true -> roaming_client c s l).

(** The lowest position the reader can still be interested in. *)
Definition floor (m : bool) (s : gstate) : nat :=
  if m then
    match g_rpc s with
    | RSGet _ p | RSSet _ p | RSSend _ p | RSWait _ p | RSCheck2 _ p | RSSeek _ p =>
        fst (enter p (stretch (g_trace s)))
    | _ => fst (stretch (g_trace s))
    end
  else 0.

(** Where the task is going to store the next byte. *)
Definition front_pos (d : dpc) (wpos : nat) : option nat :=
  match d with
  | DSelect | DPre _ _ | DWTop _ _ _ | DWBatch _ _ _ _ | DWPost _ _ _ _ | DWCheck _ _ _ _
  | DWNotify _ _ _ _ | DWWait _ _ _ => Some wpos
  | DSeeking a _ => Some a
  | _ => None
  end.

Definition working (d : dpc) : bool :=
  match d with
  | DSelect | DPre _ _ | DWTop _ _ _ | DWBatch _ _ _ _ | DWPost _ _ _ _ | DWCheck _ _ _ _
  | DWNotify _ _ _ _ | DWWait _ _ _ => true
  | _ => false
  end.

Definition known (c : cfg) : Prop := c_seekable c = true /\ c_clen c <> None.

Record front (m : bool) (c : cfg) (s : gstate) (W : list nat) : Prop := mkFront
  { fr_w : forall x, front_pos (g_dpc s) (st_wpos (g_store s)) = Some x ->
           good W (floor m s) x;
    fr_chan : m = true -> forall q, g_chan s = Some q -> good W (floor m s) q \/ g_failed s = true;
    fr_span : good W (fst (stretch (g_trace s))) (snd (stretch (g_trace s)));
    fr_seeking : forall a b, g_dpc s = DSeeking a b ->
                 c_seekable c = true /\ (c_clen c = None -> b = None);
    fr_body : ~ known c -> working (g_dpc s) = true -> length (c_content c) <= g_send s;
    fr_reached : g_done s = false -> g_reached s = true \/ is_notify (g_dpc s) = true ->
      match g_rpc s with
      | RRNotify n pos rq | RRWait n pos rq => good W pos rq
      | _ => True
      end;
    fr_succ : succeeded s -> good W (floor m s) (length (c_content c));
    fr_reader : match g_rpc s with
      | RRCheck2 n pos rq => g_done s = true \/ good W pos rq
      | RRRead n pos _ _ => readable c W pos n
      | RRDone n pos _ r => forall bs, r = Ok bs -> faithful c pos n bs /\ good W pos (pos + length bs)
      | RSCheck from => m = true -> seek_arg_ok from /\
          forall t, seek_target c (st_rpos (g_store s)) from = Some t ->
            (Z.of_nat (fst (stretch (g_trace s))) <= t < two64)%Z
      | _ => True
      end;
    fr_trace : all_events (read_ok c) (g_trace s) }.

Lemma front_init : forall m c s, init c = Some s -> front m c s [].
Proof.
  intros m c s H. unfold init in H. destruct (into_rw _ _) eqn:E; [|discriminate].
  injection H as <-. apply into_rw_init in E as (A1 & A2 & A3).
  constructor; cbn; auto; try discriminate; try contradiction.
  - intros x [= <-]. rewrite A3. intros y Hy; lia.
  - intros y Hy; lia.
Qed.

Lemma enter_in : forall p st, fst st <= p -> fst st <= snd st ->
  fst st <= fst (enter p st) /\ fst (enter p st) <= p <= snd (enter p st).
Proof.
  intros p [lo hi] H1 H2. unfold enter. cbn [fst snd] in *.
  destruct (Nat.leb_spec lo p), (Nat.leb_spec p hi); cbn [andb fst snd]; lia.
Qed.

(** The client is in its stretch. *)
Lemma stretch_cursor : forall tr, fst (stretch tr) <= cursor tr <= snd (stretch tr).
Proof.
  induction tr as [|e tr IH]; cbn [stretch cursor fst snd]; [lia|].
  destruct e as [pos n w r|from r| | | | | |]; auto; destruct r; auto; cbn [fst snd]; [lia|].
  unfold enter. destruct (Nat.leb_spec (fst (stretch tr)) a), (Nat.leb_spec a (snd (stretch tr))); cbn [andb fst snd]; lia.
Qed.

Lemma forward_roams : forall c s l, forward_client c s l -> roaming_client c s l.
Proof.
  intros c s l H. destruct l; auto. destruct o; auto. destruct H as [H1 H2]. split; auto.
  intros t Ht. specialize (H2 t Ht). pose proof (stretch_cursor (g_trace s)). lia.
Qed.

(** ** Reader steps *)

Lemma floor_step : forall m c s l s', task_label l = false -> traced c s -> traced c s' ->
  (forall n, c_clen c = Some n -> st_rpos (g_store s) <= n) ->
  match g_rpc s with
  | RSCheck from => m = true -> seek_arg_ok from /\
      forall t, seek_target c (st_rpos (g_store s)) from = Some t ->
        (Z.of_nat (fst (stretch (g_trace s))) <= t < two64)%Z
  | _ => True
  end ->
  (forall b, g_store s <> SBnd b) -> (m = true -> roaming_client c s l) ->
  step c s l = Some s' -> floor m s <= floor m s' \/ g_failed s = true.
Proof.
  intros m c s l s' Hl Ht Ht' Hr Hf Hb Hfw H. unfold floor. destruct m; [|auto].
  pose proof (tr_wf _ _ Ht) as Hw. pose proof (tr_at _ _ Ht) as Ha.
  pose proof (tr_seek _ _ Ht') as Hsk. pose proof (stretch_cursor (g_trace s)) as Hc.
  destruct (g_store s) as [u|b] eqn:Es; [|exfalso; eapply Hb; eauto].
  step_cases H; try discriminate Hl; gsimpl; rewrite ?Es in *; auto;
    repeat match goal with
    | E : g_rpc _ = _ |- _ => rewrite E in *; clear E
    end; cbn [stretch fst snd]; auto; try (left; destruct r; auto; fail).
  - left. destruct (Hf eq_refl) as [Hf1 Hf2]. cbn [reader_seeks] in Hsk. cbn [reader_at] in Ha.
    apply enter_in; [|lia].
    destruct (seek_target c (st_rpos (SPlain u)) from) as [t|] eqn:Et.
    + specialize (Hf2 t eq_refl). specialize (Hsk t eq_refl ltac:(lia)).
      destruct (c_clen c) as [n|] eqn:Ec; [specialize (Hr n eq_refl)|]; lia.
    + exfalso. destruct from; cbn in *; try discriminate.
      destruct (c_clen c); cbn in *; discriminate.
  - left. cbn [st_rseek] in *. match goal with E : _ = (r, _) |- _ => injection E as <- _ end. auto.
  - exfalso. specialize (Hfw eq_refl). cbn in Hfw. destruct (g_rpc s); try discriminate; auto.
Qed.

(** What a reader step leaves alone. *)
Lemma reader_step_frame : forall c s l s', task_label l = false -> traced c s ->
  step c s l = Some s' ->
  g_dpc s' = g_dpc s /\ g_send s' = g_send s /\ g_done s' = g_done s /\
  g_failed s' = g_failed s /\ st_wpos (g_store s') = st_wpos (g_store s) /\
  g_down s' = g_down s.
Proof.
  intros c s l s' Hl Ht H. pose proof (tr_wf _ _ Ht) as Hw.
  step_cases H; try discriminate Hl; gsimpl; auto 10;
    repeat match goal with
    | E : st_rseek _ (g_store s) = _ |- _ =>
        destruct (st_rseek_rpos _ _ _ _ Hw E) as (? & ? & ?); clear E
    | E : st_read _ (g_store s) = _ |- _ =>
        destruct (st_read_rpos _ _ _ _ Hw E) as (? & ? & ?); clear E
    end;
    try (destruct (st_tell_rpos _ Hw) as (T1 & T2 & T3)); auto 10.
Qed.

Lemma good_sub : forall W a b a', good W a b -> a <= a' -> good W a' b.
Proof. intros W a b a' H Ha x Hx. apply H. lia. Qed.

Lemma good_enter : forall W p st, good W (fst st) (snd st) -> good W (fst (enter p st)) p.
Proof.
  intros W p [lo hi] H x Hx. unfold enter in Hx. cbn [fst snd] in *.
  destruct (Nat.leb_spec lo p), (Nat.leb_spec p hi); cbn [andb fst snd] in Hx; try lia. apply H. lia.
Qed.

Lemma sync_succeeded : forall s, sync s -> g_done s = true -> g_failed s = false -> succeeded s.
Proof.
  intros s [S1 S2 S3 S4 S5] Hd Hf. specialize (S1 Hd). unfold succeeded.
  destruct (g_dpc s); try discriminate S1; auto. destruct ok; auto.
Qed.

Lemma sync_active : forall s x w, sync s -> front_pos (g_dpc s) w = Some x -> g_failed s = false.
Proof.
  intros s x w [S1 S2 S3 S4 S5] H. destruct (g_failed s) eqn:E; auto.
  specialize (S3 eq_refl). destruct (g_dpc s); try contradiction; discriminate.
Qed.

Lemma front_reader_step : forall m c s l s' W u,
  sane c -> front_env m c s l -> task_label l = false ->
  sync s -> traced c s -> coreW c s W u -> front m c s W ->
  step c s l = Some s' -> front m c s' W.
Proof.
  intros m c s l s' W u Hs (_ & _ & Hfw) Hl Hsy Htr [HT HR] HF H.
  pose proof (co_store _ _ _ _ HT) as Es.
  assert (Hrp : forall n, c_clen c = Some n -> st_rpos (g_store s) <= n)
    by (rewrite Es; cbn; apply HR).
  assert (Hnb : forall b, g_store s <> SBnd b) by (rewrite Es; discriminate).
  destruct (reader_step_frame _ _ _ _ Hl Htr H) as (F1 & F2 & F3 & F4 & F5 & F6).
  pose proof (traced_step _ _ _ _ Htr H) as Htr'.
  destruct HF as [R1 R2 R2' R3' R3 R4 R5 R6 R7].
  assert (Hfl : floor m s <= floor m s' \/ g_failed s = true).
  { eapply floor_step; eauto. destruct (g_rpc s); auto. }
  constructor.
  - intros x Hx. rewrite F1, F5 in Hx. pose proof (sync_active _ _ _ Hsy Hx) as Hnf.
    destruct Hfl as [Hfl|Hfl]; [|congruence]. eapply good_sub; eauto.
  - intros Hm q Hq. rewrite F4. destruct Hfl as [Hfl|Hfl]; [|auto].
    destruct (g_chan s) as [q0|] eqn:Ec.
    + specialize (R2 Hm q0 eq_refl). assert (q = q0).
      { clear - H Hl Hq Ec. step_cases H; try discriminate Hl; gsimpl; congruence. }
      subst. destruct R2; [left; eapply good_sub; eauto|auto].
    + left. clear - H Hl Hq Ec Hm R2'. subst m. unfold floor.
      step_cases H; try discriminate Hl; gsimpl; try congruence.
      injection Hq as <-. apply good_enter. exact R2'.
  - pose proof (tr_at _ _ Htr) as Hat. unfold reader_at in Hat. clear - H Hl R2' R6 Hat.
    pose proof (stretch_cursor (g_trace s)) as Hc.
    step_cases H; try discriminate Hl; gsimpl; auto;
      repeat match goal with
      | E : g_rpc _ = _ |- _ => rewrite E in *; clear E
      end; cbn [stretch fst snd]; auto; try (destruct r; auto; fail).
    1,2: destruct r as [bs| |]; auto; cbn [fst snd]; destruct Hat as [<- _]; destruct (R6 bs eq_refl) as [_ K];
      intros x Hx; destruct (Nat.lt_ge_cases x (snd (stretch (g_trace s)))); [apply R2'; lia|apply K; lia].
    destruct r as [q| |]; auto. unfold enter. destruct (_ && _); [exact R2'|]. intros x Hx. cbn in Hx. lia.
  - rewrite F1. auto.
  - rewrite F1, F2. auto.
  - rewrite F3, F1. intros Hd Hr. pose proof (sy_wait _ Hsy Hd) as Hw. unfold sync_wait in Hw.
    clear - H Hl Hd Hr R4 Hw.
    step_cases H; try discriminate Hl; gsimpl; auto;
      repeat match goal with
      | E : g_rpc _ = _ |- _ => rewrite E in *; clear E
      end; cbn [wait_target] in *; auto.
    all: try (destruct o; exact I).
    all: intuition congruence.
  - unfold succeeded. rewrite F1, F3, F4. intros Hsu. specialize (R5 Hsu).
    destruct Hfl as [Hfl|Hfl]; [eapply good_sub; eauto|].
    exfalso. pose proof (sy_fail _ Hsy Hfl) as Hf. unfold succeeded in Hsu.
    destruct (g_dpc s); try contradiction; congruence.
  - destruct HR as [_ Q _]. unfold reader_ok in Q. pose proof (tr_at _ _ Htr) as Hat.
    unfold reader_at in Hat.
    destruct l; try discriminate Hl; cbn [step] in H.
    3-5: [> destruct (g_rpc s) eqn:Er; try discriminate H; injection H as <-
          | injection H as <-
          | destruct (g_rpc s) eqn:Er; try discriminate H; injection H as <-]; gsimpl; auto.
    3: { destruct o; auto. intros Hm. specialize (Hfw Hm). cbn in Hfw. rewrite Hat in Hfw. auto. }
    2: { unfold r_error in H. repeat (split_match H; try discriminate H); injection H as <-; gsimpl; auto.
         discriminate. }
    unfold r_step in H.
    destruct (g_rpc s) eqn:Er; try discriminate H.
    + destruct (g_failed s); [injection H as <-; exact I|].
      destruct (excessive_read c n); injection H as <-; exact I.
    + destruct Q as [_ Q].
      destruct (rs_get pos (g_down s)) as [[a e]|] eqn:Eg; [|injection H as <-; exact I].
      destruct (Nat.leb_spec rq e); injection H as <-; [|exact I]. gsimpl.
      eapply rq_readable; eauto. intros x Hx. apply (co_down _ _ _ _ HT).
      destruct (rs_get_covers _ _ _ _ Eg) as [A1 A2]. apply A2; lia.
    + injection H as <-; exact I.
    + injection H as <-. destruct (g_wreq s); exact I.
    + destruct (g_done s) eqn:Ed; [injection H as <-; gsimpl; auto|].
      destruct (g_reached s) eqn:Erc; [|discriminate]. injection H as <-. gsimpl. auto.
    + destruct (g_failed s) eqn:Ef; injection H as <-; [exact I|]. gsimpl.
      destruct Q as [_ Q]. destruct R6 as [R6|R6]; [|eapply rq_readable; eauto].
      specialize (R5 (sync_succeeded _ Hsy R6 Ef)). intros x Hx Hxl. apply R5.
      split; [|lia]. unfold floor. rewrite Er. pose proof (stretch_cursor (g_trace s)). destruct m; lia.
    + rewrite Es in H. cbn [st_read] in H. destruct Q as [Q _]. destruct Hat as [_ Hat].
      rewrite Es in Hat. cbn [st_rpos] in Hat.
      destruct (u_read n u) as [r u'] eqn:Eu. destruct r as [bs|e|]; injection H as <-; gsimpl.
      * intros bs' [= <-].
        assert (K : faithful c pos n bs).
        { rewrite <- Hat. eapply read_faithful; eauto; [apply HT|apply HT|rewrite Hat; auto|].
          intros Hp. pose proof (tr_whole _ _ Htr Hp) as Hw. rewrite Es in Hw. exact Hw. }
        split; [exact K|]. destruct K as (k & K1 & K2 & _). intros x Hx. apply R6;
          rewrite K1, length_slice in Hx; lia.
      * discriminate.
      * exact I.
    + injection H as <-. destruct (g_wreq s); exact I.
    + destruct (g_failed s); [injection H as <-; exact I|].
      destruct (absolute_seek_position c _ from); [destruct (excessive_seek c _ _)| |];
        injection H as <-; exact I.
    + destruct (rs_get p (g_down s)); injection H as <-; exact I.
    + injection H as <-; exact I.
    + injection H as <-. destruct (g_chan s); [|destruct (chan_open _)]; exact I.
    + destruct (g_done s); [|destruct (g_reached s); [|discriminate]]; injection H as <-; exact I.
    + destruct (g_failed s); injection H as <-; exact I.
    + destruct (st_rseek p (g_store s)); injection H as <-; exact I.
  - pose proof (tr_at _ _ Htr) as Hat. unfold reader_at in Hat. clear - H Hl R6 R7 Hat.
    step_cases H; try discriminate Hl; gsimpl; auto;
      repeat match goal with
      | E : g_rpc _ = _ |- _ => rewrite E in *; clear E
      end; cbn [all_events read_ok]; auto; split; auto; destruct r; auto;
      destruct Hat; split; auto; apply R6; auto.
Qed.

(** A range request starts where everything from the seek target, or from the
    beginning, is downloaded. *)
Lemma seek_start : forall c s l s' a b, rs_wf (g_down s) -> rs_wf (g_down s') ->
  task_label l = true -> step c s l = Some s' -> g_dpc s' = DSeeking a b ->
  c_seekable c = true /\ (c_clen c = None -> b = None) /\
  exists p, covers (g_down s') p a /\ (p = 0 \/ g_chan s = Some p).
Proof.
  intros c s l s' a b Hw Hw' Hl H Hd.
  step_cases H; try discriminate Hl; gsimpl; try congruence;
    try (destruct (nw =? 0); congruence); try (destruct (ok && ok0); congruence);
    injection Hd as <- <-; auto.
  all: unfold should_seek in *; gsimpl.
  all: (split; [destruct (c_seekable c); auto; discriminate|]).
  all: (split; [auto; congruence|]).
  all: try match goal with
    | E : rs_next_gap 0 _ _ = Some _ |- _ =>
        exists 0; split; [intros x Hx; eapply rs_next_gap_some; eauto; lia|auto]
    | E : rs_next_gap _ _ _ = Some _, E2 : g_chan _ = Some ?n |- _ =>
        exists n; split; [intros x Hx; eapply rs_next_gap_some; eauto; lia|auto]
    | E2 : g_chan _ = Some ?n |- _ =>
        exists n; split; [intros x Hx; lia|auto]
    end.
Qed.

(** Otherwise an active task was active before. *)
Lemma front_back : forall c s l s' w x, task_label l = true -> step c s l = Some s' ->
  (forall a b, g_dpc s' <> DSeeking a b) -> front_pos (g_dpc s') w = Some x ->
  x = w /\
  ((exists a b, g_dpc s = DSeeking a b /\ g_dpc s' = DSelect) \/
   (forall a b, g_dpc s <> DSeeking a b) /\ forall w0, front_pos (g_dpc s) w0 = Some w0).
Proof.
  intros c s l s' w x Hl H Hns Hx.
  assert (E : x = w) by (destruct (g_dpc s'); cbn in Hx; try congruence; exfalso; eapply Hns; eauto).
  split; auto. clear E.
  step_cases H; try discriminate Hl; gsimpl; rew_pc; cbn [front_pos] in *; try discriminate;
    try (exfalso; eapply Hns; reflexivity);
    try (right; split; [discriminate|reflexivity]).
  - left; eauto.
Qed.

Lemma front_task_step : forall m c s l s' W u W' u',
  sane c -> honours_ranges c -> (m = false -> c_seekable c = false) ->
  front_env m c s l -> task_label l = true ->
  sync s -> traced c s -> coreT c s W u -> front m c s W -> step c s l = Some s' ->
  coreT c s' W' u' -> incl W W' -> reader_frame s s' u u' -> wpos_move s s' W W' u u' ->
  front m c s' W'.
Proof.
  intros m c s l s' W u W' u' Hs Hh Hm (He1 & He2 & He3) Hl Hsy Htr HT HF H HT' Hi Hrf Hmv.
  pose proof (co_store _ _ _ _ HT) as Es. pose proof (co_store _ _ _ _ HT') as Es'.
  destruct Hrf as (G1 & G2 & _ & es & G3 & G4). apply proj1 in Hmv.
  assert (Hstr : stretch (g_trace s') = stretch (g_trace s)).
  { rewrite G3. clear - G4. induction G4 as [|e es He _ IH]; cbn [app stretch]; auto. destruct e; auto; contradiction. }
  assert (Hfl : floor m s' = floor m s).
  { unfold floor. rewrite G1, Hstr. auto. }
  destruct HF as [R1 R2 R2' R3' R3 R4 R5 R6 R7].
  rewrite Es in R1. cbn [st_wpos] in R1.
  assert (Hfront : forall x, front_pos (g_dpc s') (u_wpos u') = Some x ->
                             good W' (floor m s) x).
  { intros x Hx.
    assert (D : (exists a b, g_dpc s' = DSeeking a b) \/ (forall a b, g_dpc s' <> DSeeking a b)).
    { destruct (g_dpc s'); try (right; discriminate). left; eauto. }
    destruct D as [(a & b & Ed)|Hns].
    - rewrite Ed in Hx. injection Hx as <-.
      destruct (seek_start _ _ _ _ _ _ (co_wf _ _ _ _ HT) (co_wf _ _ _ _ HT') Hl H Ed)
        as (K1 & K2 & p & K3 & K4).
      assert (Hp : good W (floor m s) p).
      { destruct m; [|specialize (Hm eq_refl); congruence].
        destruct K4 as [->|K4]; [intros y Hy; lia|]. destruct (R2 eq_refl p K4) as [|Hf]; auto.
        exfalso. pose proof (sy_fail _ Hsy Hf) as Hf'.
        clear - H Hl Hf' Ed. step_cases H; try discriminate Hl; gsimpl; rew_pc; try contradiction; try discriminate. }
      intros y Hy. destruct (Nat.lt_ge_cases y p); [apply Hi, Hp; lia|].
      apply (co_down _ _ _ _ HT'). apply K3. lia.
    - destruct (front_back _ _ _ _ _ _ Hl H Hns Hx) as [-> [(a & b & Ed & Ed')|[Hns' Ed]]].
      + unfold wpos_move in Hmv. rewrite Ed in Hmv. rewrite (Hmv Ed').
        eapply good_incl; eauto. apply R1. rewrite Ed. reflexivity.
      + unfold wpos_move in Hmv.
        assert (Hmv' : u_wpos u <= u_wpos u' /\ good W' (u_wpos u) (u_wpos u')).
        { destruct (g_dpc s); auto. exfalso; eapply Hns'; reflexivity. }
        intros y Hy. destruct (Nat.lt_ge_cases y (u_wpos u)).
        * apply Hi. eapply (R1 (u_wpos u)); [apply Ed|lia].
        * apply Hmv'. lia. }
  assert (Hsame : g_failed s = true -> g_failed s' = true).
  { clear - H Hl. step_cases H; try discriminate Hl; gsimpl; auto. }
  assert (Hdn : g_done s = true -> g_done s' = true).
  { clear - H Hl. step_cases H; try discriminate Hl; gsimpl; auto. }
  constructor.
  - rewrite Hfl, Es'. auto.
  - intros Hmt q Hq. rewrite Hfl.
    assert (Ec : g_chan s = Some q)
      by (clear - H Hl Hq; step_cases H; try discriminate Hl; gsimpl; congruence).
    destruct (R2 Hmt q Ec); auto. left. eapply good_incl; eauto.
  - rewrite Hstr. eapply good_incl; eauto.
  - intros a b Ed'.
    destruct (seek_start _ _ _ _ _ _ (co_wf _ _ _ _ HT) (co_wf _ _ _ _ HT') Hl H Ed')
        as (K1 & K2 & _); auto.
  - intros Hk Hw. specialize (R3 Hk). clear - H Hl R3 R3' Hk Hw Hh He2.
    unfold known in Hk.
    step_cases H; try discriminate Hl; gsimpl; rew_pc; cbn [working] in *; auto; try discriminate.
    + destruct He2 as [He2|He2]; [tauto|]. specialize (R3 eq_refl). lia.
    + lia.
    + destruct (R3' _ _ eq_refl) as [K1 K2]. unfold body_window in *.
      destruct (c_clen c) as [cl|] eqn:Ec; [exfalso; apply Hk; split; auto; discriminate|].
      rewrite K2 in * by auto. cbn [inverted] in *. injection Heqo as <- <-. lia.
  - intros Hd Hr. rewrite G1.
    assert (Hd0 : g_done s = false) by (destruct (g_done s); auto; specialize (Hdn eq_refl); congruence).
    specialize (R4 Hd0). pose proof (sy_wait _ Hsy Hd0) as Hw. unfold sync_wait in Hw.
    assert (K : (g_reached s = true \/ is_notify (g_dpc s) = true) \/
                exists r, g_req s = Some r /\ r <= u_wpos u /\ u_wpos u' = u_wpos u /\
                          exists bs w p nw, g_dpc s' = DWNotify bs w p nw).
    { assert (Ew : g_store s' = g_store s -> u_wpos u' = u_wpos u)
        by (intros E; rewrite Es, Es' in E; congruence).
      clear - H Hl Hr Es Ew.
      step_cases H; try discriminate Hl; gsimpl; rew_pc; cbn [is_notify] in *; auto;
        try (destruct Hr; [auto|discriminate]).
      - right. exists n. rewrite Es in *. cbn in *.
        match goal with E : (_ <=? _) = true |- _ => apply Nat.leb_le in E end.
        eauto 10. }
    destruct K as [K|(r & K1 & K2 & K3 & bs & w & p & nw & K4)].
    + specialize (R4 K). destruct (g_rpc s); auto; eapply good_incl; eauto.
    + assert (Hg : good W' (floor m s) (u_wpos u)).
      { rewrite <- K3. apply Hfront. rewrite K4. reflexivity. }
      pose proof (stretch_cursor (g_trace s)) as Hcu.
      assert (Hat : forall n pos rq, g_rpc s = RRNotify n pos rq \/ g_rpc s = RRWait n pos rq ->
                floor m s <= pos /\ rq = r).
      { intros n pos rq Hrpc. split.
        - unfold floor. pose proof (tr_at _ _ Htr) as Hat.
          destruct Hrpc as [E|E]; rewrite E in *; cbn in Hat; destruct m; lia.
        - destruct Hrpc as [E|E]; rewrite E in Hw; cbn in Hw; intuition congruence. }
      destruct (g_rpc s) eqn:Er; auto;
        (destruct (Hat _ _ _ ltac:(eauto)) as [A1 A2]; intros x Hx; apply Hg; lia).
  - intros Hsu. rewrite Hfl.
    assert (K : succeeded s \/ g_dpc s' = DFinish /\ g_dpc s = DSelect).
    { clear - Hsu H Hl Hsy. pose proof (sy_done _ Hsy) as S1.
      unfold succeeded in *.
      step_cases H; try discriminate Hl; gsimpl; rew_pc; auto; try contradiction;
        try (specialize (S1 Hsu); discriminate S1); try discriminate Hsu;
        destruct ok0; auto; destruct ok; discriminate. }
    destruct K as [K|[K1 K2]].
    + eapply good_incl; eauto.
    + assert (Hkn : known c \/ ~ known c).
      { unfold known. destruct (c_seekable c), (c_clen c); intuition congruence. }
      destruct Hkn as [Hkn|Hkn].
      * intros x Hx. apply (co_down _ _ _ _ HT'). apply (co_full _ _ _ _ HT'); [apply Hkn ..|exact Hsu|lia].
      * assert (El : l = LDEof).
        { clear - H Hl K1 K2. step_cases H; try discriminate Hl; gsimpl; try congruence. }
        subst l. destruct He2 as [He2|He2]; [exfalso; apply Hkn; exact He2|].
        pose proof (co_task _ _ _ _ HT) as Ht. unfold task_ok in Ht. rewrite K2 in Ht.
        rewrite K2 in R3. specialize (R3 Hkn eq_refl).
        eapply good_incl; eauto.
        intros x Hx. apply (R1 (u_wpos u)); [rewrite K2; reflexivity|]. lia.
  - rewrite G1. destruct (g_rpc s); auto.
    + destruct R6 as [R6|R6]; [auto|right; eapply good_incl; eauto].
    + eapply readable_incl; eauto.
    + intros bs E. destruct (R6 bs E). split; auto. eapply good_incl; eauto.
    + rewrite Hstr. rewrite Es' in *. rewrite Es in *. cbn [st_rpos] in *. rewrite G2. auto.
  - rewrite G3. clear G3. induction G4 as [|e es He _ IH]; cbn; auto. split; auto.
    destruct e; cbn; auto; contradiction.
Qed.

Lemma front_reach : forall m c (allow : gstate -> label -> Prop) s,
  sane c -> unbounded_store c -> honours_ranges c ->
  (m = false -> c_seekable c = false) ->
  (forall s0 l, allow s0 l -> front_env m c s0 l) -> reach c allow s ->
  exists W u, coreW c s W u /\ front m c s W.
Proof.
  intros m c allow s Hs Hu Hh Hm Ha H. induction H as [s H|s l s' Hr (W & u & IH1 & IH2) Hl H].
  - destruct (core_init _ _ Hs Hu H) as [u K]. exists [], u. split; auto. apply front_init; auto.
  - pose proof (sync_reach _ _ _ Hr) as Hsy. pose proof (traced_reach _ _ _ Hr) as Htr.
    specialize (Ha _ _ Hl).
    destruct (core_step _ _ _ _ _ _ Hs Hh (proj1 Ha) Hsy Htr IH1 H) as (W' & u' & K1 & K2 & K3).
    exists W', u'. split; auto. destruct (task_label l) eqn:El.
    + destruct K3 as [K3 K4]. eapply front_task_step; eauto; [apply IH1|apply K1].
    + subst W'. eapply front_reader_step; eauto.
Qed.

(** * Bounded storage and a client that jumps ahead and goes back in its stretch. *)

From Coq Require Import List Arith Lia ZArith Bool.
From Verif Require Import Base ListFacts RangeSet RangeSetFacts Storage StorageFacts
  System Spec StepTac InvSync InvTrace InvCore InvFront LifeFacts Alive Exec Progress ReadFacts BoundedFacts StoreSpec
  BoundedInv BoundedContent ArcFacts ForwardSpec.
Import ListNotations.

(** The lowest position the client can still be interested in. *)
Definition heading (r : rpc) (tr : list event) : nat :=
  match r with
  | RSGet _ p | RSSet _ p | RSSend _ p | RSWait _ p | RSCheck2 _ p | RSSeek _ p =>
      fst (enter p (stretch tr))
  | _ => fst (stretch tr)
  end.

(** No access to the storage is due. *)
Definition resting (r : rpc) : Prop :=
  match r with RIdle | RRCheck _ | RSCheck _ | RDropped => True | _ => False end.

(** The task: [lo] is the place the writer last jumped to, [W] where it is. *)
Definition fat (c : cfg) (size : nat) (s : gstate) (lo W R : nat) : Prop :=
  match g_dpc s with
  | DSelect =>
      if g_pfc s then covers (g_down s) lo W
      else g_rem s = None /\ lo <= g_pfs s <= W /\ covers (g_down s) lo (g_pfs s)
  | DPre _ _ =>
      g_pfc s = false /\ g_rem s = None /\ lo <= g_pfs s <= W /\ covers (g_down s) lo (g_pfs s)
  | DWTop _ _ pos | DWWait _ _ pos | DWCheck _ _ pos _ | DWNotify _ _ pos _ =>
      g_pfc s = true /\ g_rem s = None /\ lo <= pos <= W /\ covers (g_down s) lo W
  | DWBatch _ _ pos _ | DWPost _ _ pos _ =>
      g_pfc s = true /\ g_rem s = None /\ lo <= pos <= W /\ covers (g_down s) lo pos
  | DSeeking a b =>
      g_rem s = None /\ W <= a <= length (c_content c) /\
      b = Some (length (c_content c)) /\ c_clen c = Some (length (c_content c)) /\
      covers (g_down s) lo W /\
      (g_pfc s = false -> a = W -> lo <= g_pfs s <= W) /\
      (W < a -> (g_pfc s = false -> g_pfs s = a) /\ g_chan s = None /\ a <= R + size /\ a <= reached (g_trace s) /\
                exists from, g_rpc s = RSWait from a)
  | DFinish | DReport | DOnFinish true => W = length (c_content c)
  | DSignal => g_failed s = true \/ W = length (c_content c)
  | _ => True
  end.

Definition target_ok (c : cfg) (size : nat) (tr : list event) (R p : nat) : Prop :=
  (fst (stretch tr) <= p /\ skipped tr <= p <= R + size) /\ forall N, c_clen c = Some N -> p <= N.

(** The task has stored the last byte and is done. *)
Definition at_end (c : cfg) (s : gstate) (W : nat) : Prop :=
  W = length (c_content c) /\ g_done s = true.

(** What a call may rely on, and what it has got. *)
Definition fread_at (c : cfg) (size : nat) (s : gstate) (W R : nat) : Prop :=
  match g_rpc s with
  | RRCheck2 _ _ rq => rq <= W \/ g_failed s = true \/ W = length (c_content c)
  | RRRead _ _ rq _ => rq <= W \/ W = length (c_content c)
  | RRDone n pos _ r =>
      match r with
      | Ok bs => faithful c pos n bs
      | Err EInvalidInput =>
          size < n \/ pos < snd (stretch (g_trace s)) /\ pos + size < reached (g_trace s)
      | Err _ => True
      | Panic => False
      end
  | RSCheck from => forall t, seek_target c R from = Some t ->
      (Z.of_nat (fst (stretch (g_trace s))) <= t < two64)%Z /\
      ((Z.of_nat R <= t)%Z \/ skipped (g_trace s) <= clamp c t)
  | RSGet _ p | RSSet _ p | RSSend _ p | RSWait _ p => target_ok c size (g_trace s) R p
  | RSCheck2 _ p => target_ok c size (g_trace s) R p /\ (p <= W \/ g_failed s = true \/ at_end c s W)
  | RSSeek _ p => target_ok c size (g_trace s) R p /\ (p <= W \/ at_end c s W)
  | _ => True
  end.

Record fwd (c : cfg) (size : nat) (s : gstate) (lo W R : nat) : Prop := mkFwd
  { fw_store : ast (c_content c) size (g_store s) lo W R (skipped (g_trace s));
    fw_send : g_send s <= length (c_content c) /\ (known c \/ g_send s = length (c_content c));
    fw_wf : rs_wf (g_down s);
    fw_down : forall x, covered (g_down s) x -> x < W;
    fw_task : fat c size s lo W R;
    fw_pend : forall bs, pending s = Some bs ->
      bs = slice (c_content c) W (length bs) /\ g_scur s = W + length bs /\
      g_scur s <= length (c_content c);
    fw_done : g_done s = true -> g_failed s = true \/ W = length (c_content c);
    fw_acc : accepted_total (g_trace s) <= W /\ (lo = 0 \/ accepted_total (g_trace s) < W);
    fw_le : R <= W \/ (c_clen c = None /\ W = length (c_content c) /\ g_done s = true);
    fw_far : snd (stretch (g_trace s)) <= W \/ (c_clen c = None /\ W = length (c_content c) /\ g_done s = true);
    fw_room : W <= Nat.max R (snd (stretch (g_trace s))) + size;
    fw_reach : W <= reached (g_trace s);
    fw_chan : g_done s = false -> forall q, g_chan s = Some q ->
      lo <= q /\ (q <= W \/ exists from, g_rpc s = RSWait from q);
    fw_head : lo <= heading (g_rpc s) (g_trace s) \/ (g_failed s = true /\ resting (g_rpc s));
    fw_rq : asked_rq c (g_rpc s);
    fw_note : forall t, wait_target (g_rpc s) = Some t -> g_done s = false -> g_req s <> Some t -> t <= W;
    fw_at : fread_at c size s W R;
    fw_trace : all_events (ranging_call_ok c size) (g_trace s) }.

(** ** The task *)

Lemma covers_grow : forall l lo a W, covers l lo a -> a <= W -> covers (rs_add a W l) lo W.
Proof.
  intros l lo a W H Ha x Hx. apply rs_add_covered.
  destruct (Nat.lt_ge_cases x a); [left; apply H|right]; lia.
Qed.

Lemma covers_grow2 : forall l lo a m W, covers l lo a -> m <= a -> a <= W -> covers (rs_add m W l) lo W.
Proof.
  intros l lo a m W H Hm Ha x Hx. apply rs_add_covered.
  destruct (Nat.lt_ge_cases x a); [left; apply H|right]; lia.
Qed.

(** The first gap at or after a position of the last stretch starts where the writer is. *)
Lemma next_gap_end : forall l lo W p cl, rs_wf l -> covers l lo W -> (forall x, covered l x -> x < W) ->
  lo <= p <= W -> W <= cl ->
  rs_next_gap p cl l = if W <? cl then Some (W, cl) else None.
Proof.
  intros l lo W p cl Hwf Hc Hd Hp Hcl.
  destruct (rs_next_gap p cl l) as [[a b]|] eqn:E.
  - destruct (rs_next_gap_some _ _ _ _ _ _ Hwf E) as (G1 & G2 & G3 & G4 & G5 & G6).
    assert (W <= a). { destruct (Nat.le_gt_cases W a); auto. exfalso. apply (G5 a); [lia|]. apply Hc. lia. }
    assert (a <= W).
    { destruct (Nat.le_gt_cases a W); auto. exfalso. specialize (Hd W (G4 W ltac:(lia))). lia. }
    assert (b = cl). { destruct G6 as [|G6]; auto. specialize (Hd _ G6). lia. }
    assert (a = W) by lia. subst. destruct (Nat.ltb_spec W cl); [reflexivity|lia].
  - destruct (Nat.ltb_spec W cl); auto. exfalso.
    specialize (Hd W (rs_next_gap_none _ _ _ E W ltac:(lia))). lia.
Qed.

(** The task moves on without touching the storage. *)
Ltac fcon :=
  constructor; unfold pending, fat in *; gsimpl; cbn [accepted_total skipped stretch reached];
  try discriminate; try contradiction; auto;
  try match goal with
  | |- _ <= reached _ + _ => lia
  | |- _ <= Nat.max (reached _) _ => lia
  | |- _ <= Nat.max _ (snd (stretch _)) + _ => lia
  | |- _ <= reached (g_trace _) => fail 1
  | |- _ => tauto
  end;
  try (split; [auto; fail|split; [auto; fail|split; [lia|auto; fail]]]).


(** The part of the invariant that is about the task and the storage. *)
Record fwt (c : cfg) (size : nat) (s : gstate) (lo W R : nat) : Prop := mkFwt
  { ft_store : ast (c_content c) size (g_store s) lo W R (skipped (g_trace s));
    ft_send : g_send s <= length (c_content c) /\ (known c \/ g_send s = length (c_content c));
    ft_wf : rs_wf (g_down s);
    ft_down : forall x, covered (g_down s) x -> x < W;
    ft_task : fat c size s lo W R;
    ft_pend : forall bs, pending s = Some bs ->
      bs = slice (c_content c) W (length bs) /\ g_scur s = W + length bs /\
      g_scur s <= length (c_content c);
    ft_done : g_done s = true -> g_failed s = true \/ W = length (c_content c);
    ft_acc : accepted_total (g_trace s) <= W /\ (lo = 0 \/ accepted_total (g_trace s) < W);
    ft_room : W <= Nat.max R (snd (stretch (g_trace s))) + size;
    ft_reach : W <= reached (g_trace s) }.

Lemma down_grow : forall l a W W', (forall x, covered l x -> x < W) -> W <= W' ->
  forall x, covered (rs_add a W' l) x -> x < W'.
Proof. intros l a W W' H Hw x Hx. apply rs_add_covered in Hx as [Hx|Hx]; [specialize (H x Hx)|]; lia. Qed.

Lemma fwt_seek : forall c size s lo W R s', sane c -> (c_seekable c = true -> c_clen c <> None) ->
  fwd c size s lo W R -> sync s -> no_seek_with_leftover s LDSeek ->
  step c s LDSeek = Some s' -> fwt c size s' lo W R.
Proof.
  intros c size s lo W R s' (S1 & _) Hk [A1 A2 A3 A4 A5 A6 A7 Aacc Ale Afar Aroom Areach A8 A9 _ _ A10 _] Hsy Hl H.
  cbn [step] in H. cbn in Hl. pose proof (ast_wpos _ _ _ _ _ _ _ A1) as Hw.
  pose proof (ast_le _ _ _ _ _ _ _ A1) as [Hle1 Hle2].
  destruct (g_dpc s) eqn:Ed; try discriminate. destruct (g_chan s) as [q|] eqn:Ec; [|discriminate].
  injection H as <-.
  assert (Hd : g_done s = false).
  { destruct (g_done s) eqn:E; auto. apply (sy_done _ Hsy) in E. rewrite Ed in E. discriminate. }
  destruct (A8 Hd q eq_refl) as [Hq1 Hq2]. unfold fat in A5. rewrite Ed in A5. unfold pending in A6. rewrite Ed in A6.
  unfold handle_seek. destruct (should_seek c (set_chan s None) q) eqn:Ess.
  2:{ fcon; rewrite ?Ed; auto. }
  assert (Esk : c_seekable c = true) by (unfold should_seek in Ess; destruct (c_seekable c); auto; discriminate).
  destruct (c_clen c) as [cl|] eqn:Ecl; [|destruct (Hk Esk); auto]. pose proof (S1 cl eq_refl) as Scl. subst cl.
  set (len := length (c_content c)) in *.
  gsimpl. rewrite Hw.
  set (s1 := if g_pfc s then _ else _).
  assert (B : g_store s1 = g_store s /\ g_send s1 = g_send s /\ rs_wf (g_down s1) /\
    (forall x, covered (g_down s1) x -> x < W) /\ g_done s1 = g_done s /\ g_failed s1 = g_failed s /\
    covers (g_down s1) lo W /\ g_rem s1 = None /\ g_dpc s1 = DSelect /\ g_scur s1 = g_scur s /\
    (g_pfc s1 = false -> g_pfs s1 = q) /\ g_chan s1 = None /\ g_rpc s1 = g_rpc s /\ g_trace s1 = g_trace s).
  { unfold s1. destruct (g_pfc s) eqn:Epf; gsimpl.
    - repeat (split; auto).
    - destruct A5 as (B1 & B2 & B3). do 3 (split; [auto using rs_add_wf|]).
      split; [eapply down_grow; eauto|]. do 2 (split; [auto|]).
      split; [apply covers_grow; auto; lia|]. repeat (split; auto). discriminate. }
  destruct B as (B1 & B2 & B3 & B4 & B5 & B6 & B7 & B8 & B9 & B10 & B11 & B12 & B13 & B14). clearbody s1.
  assert (Hcur : W < q -> exists from, g_rpc s = RSWait from q).
  { intros. destruct Hq2; [lia|auto]. }
  assert (Hmin : lo <= Nat.min W q <= W) by lia.
  rewrite (next_gap_end _ lo W) by (auto; lia).
  destruct (Nat.ltb_spec W len).
  - assert (Hql : W < q -> q <= len /\ q <= R + size).
    { intros Hlt. destruct (Hcur Hlt) as [from Er]. unfold fread_at in A10. rewrite Er in A10.
      destruct A10 as [T1 T2]. specialize (T2 _ Ecl). unfold len in *. lia. }
    constructor; unfold pending, fat; gsimpl; cbn [accepted_total skipped stretch reached]; rewrite ?B1, ?B2, ?B5, ?B6, ?B8, ?B12, ?B13, ?B14; auto; try discriminate; try lia.
    split; auto. split; [fold len; lia|]. split; [auto|split; [auto|split; [auto|split]]].
    + intros E1 E2. rewrite (B11 E1). lia.
    + intros Hlt. assert (Hlt' : W < q) by lia. rewrite Nat.max_r by lia.
      split; [exact B11|]. split; [auto|]. split; [destruct (Hql Hlt'); auto|].
      split; [lia|auto].
  - assert (q <= W).
    { destruct (Nat.le_gt_cases q W); auto. destruct (Hcur H0) as [from Er].
      unfold fread_at in A10. rewrite Er in A10. destruct A10 as [T1 T2]. specialize (T2 _ Ecl). unfold len in *. lia. }
    constructor; unfold pending, fat; rewrite ?B1, ?B2, ?B5, ?B6, ?B8, ?B9, ?B10, ?B14; auto.
    + destruct (g_pfc s1); auto. rewrite B11 by auto. split; auto. split; [lia|].
      eapply covers_sub; eauto; lia.
    + rewrite Hl in A6. auto.
Qed.

Lemma fwt_task : forall c ck pl n s lo W R l s', c_provider c = PBounded ck pl n -> sane c ->
  c_rec c = RecRange -> (c_seekable c = true -> c_clen c <> None) ->
  fwd c (ring_size (c_clen c) n) s lo W R -> sync s ->
  jumping_transport c s l ->
  task_label l = true -> step c s l = Some s' ->
  exists lo' W', fwt c (ring_size (c_clen c) n) s' lo' W' R /\ W <= W' /\
    (lo' = lo \/ W < lo' /\ W' = lo' /\ g_dpc s' = DSelect /\ g_chan s' = None /\ exists from, g_rpc s = RSWait from lo').
Proof.
  intros c ck pl n s lo W R l s' Hp Hs Hrec Hk F Hsy ((G0 & G1) & G2 & G3) Et H.
  set (size := ring_size (c_clen c) n) in *. pose proof F as [A1 A2 A3 A4 A5 A6 A7 Aacc Ale Afar Aroom Areach A8 A9 _ _ A10 _].
  set (len := length (c_content c)) in *.
  pose proof (ast_wpos _ _ _ _ _ _ _ A1) as Hw. pose proof (ast_le _ _ _ _ _ _ _ A1) as [Hle1 Hle2]. fold len in Hle2.
  assert (Hnd : is_final (g_dpc s) = false -> g_done s = false).
  { intros E. destruct (g_done s) eqn:Edn; auto. apply (sy_done _ Hsy) in Edn. congruence. }
  destruct l; try discriminate Et;
    [exists lo, W; split; [eapply fwt_seek; eauto|auto]|..]; clear F Afar Ale A8 A9 A10.
  - (* LDChunk *)
    cbn [step] in H. destruct (g_dpc s) eqn:Ed; try discriminate.
    unfold fat in A5. rewrite Ed in A5. unfold pending in A6. rewrite Ed in A6.
    destruct (Nat.leb_spec (g_scur s + k) (g_send s)) as [Hk'|]; [|discriminate]. injection H as <-.
    fold len in A2. destruct (A6 _ eq_refl) as (P1 & P2 & P3).
    exists lo, W. split; [|auto]. unfold handle_bytes. gsimpl.
    destruct (g_pfc s) eqn:Epf; [destruct (g_rem s) as [r|] eqn:Er|]; gsimpl; rewrite ?Hw.
    + fcon. intros bs [= <-]. cbn [skipn].
      rewrite app_length, length_slice. fold len. replace (Nat.min k (len - g_scur s)) with k by (unfold len; lia).
      rewrite slice_app, <- P1, <- P2. repeat split; auto; lia.
    + fcon. intros bs [= <-]. cbn [skipn length] in *.
      rewrite length_slice. fold len. replace (Nat.min k (len - g_scur s)) with k by (unfold len; lia).
      replace (g_scur s) with W by lia. repeat split; auto; lia.
    + destruct A5 as (B1 & B2 & B3). rewrite B1 in *. fcon. intros bs [= <-]. cbn [skipn length] in *.
      rewrite length_slice. fold len. replace (Nat.min k (len - g_scur s)) with k by (unfold len; lia).
      replace (g_scur s) with W by lia. repeat split; auto; lia.
  - (* LDEof *)
    cbn [step] in H. destruct (g_dpc s) eqn:Ed; try discriminate. injection H as <-.
    unfold fat in A5. rewrite Ed in A5. unfold pending in A6. rewrite Ed in A6.
    cbn in G0, G1. rewrite Hw in G0. assert (lo = 0) by lia. subst lo.
    destruct (A6 _ eq_refl) as (P1 & P2 & P3).
    exists 0, W. split; [|auto]. unfold handle_bytes. gsimpl.
    assert (Gap : forall s0, rs_wf (g_down s0) -> covers (g_down s0) 0 W ->
      (forall x, covered (g_down s0) x -> x < W) -> g_rem s0 = None -> g_pfc s0 = true ->
      g_store s0 = g_store s -> g_send s0 = g_scur s -> g_scur s0 = g_scur s -> g_done s0 = g_done s ->
      g_failed s0 = g_failed s -> g_trace s0 = g_trace s -> (known c \/ W = len) ->
      fwt c size (finish_or_find_next_gap c s0) 0 W R).
    { intros s0 E1 E2 E3 E4 E5 E6 E7 E8 E9 E10 E11 E12. unfold finish_or_find_next_gap.
      assert (Kn : c_seekable c = true -> c_clen c = Some len).
      { intros Esk. destruct Hs as (S1 & _). destruct (c_clen c) as [cl|]; [|destruct (Hk Esk); auto].
        rewrite (S1 cl eq_refl). reflexivity. }
      destruct (c_seekable c) eqn:Esk.
      - rewrite (Kn eq_refl), (next_gap_end _ 0 W) by (auto; lia).
        destruct (Nat.ltb_spec W len); fcon; rewrite ?E4, ?E5, ?E6, ?E7, ?E8, ?E9, ?E10, ?E11; auto; try discriminate; try lia.
        + unfold known. rewrite Esk, (Kn eq_refl). split; [auto|]. left. split; [auto|discriminate].
        + split; auto. split; [fold len; lia|]. do 3 (split; [auto|]). split; [discriminate|lia].
      - assert (W = len) by (destruct E12 as [[? _]|]; congruence).
        fcon; rewrite ?E4, ?E5, ?E6, ?E7, ?E8, ?E9, ?E10, ?E11; auto.
        split; auto. right. fold len. lia. }
    assert (Sd : g_scur s <= len /\ (known c \/ g_scur s = len)).
    { split; auto. destruct G1 as [G1|G1]; [left; exact G1|]. destruct A2 as [_ [?|?]]; [auto|right]. congruence. }
    destruct (g_pfc s) eqn:Epf; [destruct (g_rem s) as [r|] eqn:Er|]; gsimpl; rewrite ?Hw.
    + fcon.
    + cbn [length] in *. apply Gap; gsimpl; auto. destruct Sd as [_ [?|?]]; [auto|right; lia].
    + destruct A5 as (B1 & B2 & B3). rewrite B1 in *. cbn [length] in *.
      apply Gap; gsimpl; auto using rs_add_wf.
      * apply covers_grow; auto; lia.
      * eapply down_grow; eauto.
      * destruct Sd as [_ [?|?]]; [auto|right; lia].
  - cbn [step] in H. destruct (g_dpc s) eqn:Ed; try discriminate. injection H as <-.
    exists lo, W. split; [|auto]. constructor; auto.
  - (* LDTimeout *)
    cbn [step] in H. destruct (g_dpc s) eqn:Ed; try discriminate. injection H as <-.
    exists lo, W. split; [|auto]. unfold fat in A5. rewrite Ed in A5. unfold pending in A6. rewrite Ed in A6.
    unfold handle_reconnect. rewrite Hrec. cbn in G3.
    destruct rc; fcon; rewrite ?Ed; auto; try lia.
    intros bs [= <-]. rewrite G3. cbn. repeat split; auto; lia.
  - cbn [step] in H. destruct (g_dpc s) eqn:Ed; try discriminate. destruct (g_cancel s); [|discriminate].
    injection H as <-. exists lo, W. split; [|auto]. fcon.
  - (* LDStep *)
    cbn [step] in H. unfold d_step in H. unfold fat in A5. unfold pending in A6.
    destruct (g_dpc s) eqn:Ed; try discriminate; gsimpl.
    + (* DPre *)
      destruct A5 as (B1 & B2 & B3 & B4). destruct (A6 _ eq_refl) as (P1 & P2 & P3).
      unfold write_once in H. destruct (st_write _ (g_store s)) as [k st] eqn:Es.
      destruct (ast_write _ _ _ _ _ _ _ _ _ _ A1 Es) as (Ek & Ekr & A1'). rewrite length_slice in Ek.
      destruct (pend_write (c_content c) bytes W w (Nat.min (c_batch c) (length bytes - w)) k) as (Q1 & Q2 & Q3);
        auto; try lia.
      assert (HW : W + k <= len) by (rewrite skipn_length in *; unfold len in *; lia).
      assert (A1'' : ast (c_content c) size st lo (W + k) R (skipped (g_trace s))).
      { apply A1'; [|exact HW]. apply (f_equal (skipn W)) in Q1.
        rewrite skipn_app, firstn_length, skipn_all2 in Q1 by (rewrite firstn_length; lia).
        cbn [app] in Q1. fold len in Q1. rewrite Nat.min_l, Nat.sub_diag in Q1 by lia. cbn [skipn] in Q1. rewrite Q1.
        change (firstn (W + k) (c_content c)) with (slice (c_content c) 0 (W + k)). rewrite skipn_slice.
        f_equal; lia. }
      clear A1'. pose proof (ast_wpos _ _ _ _ _ _ _ A1'') as Hwk.
      destruct (Nat.eqb_spec k 0) as [E|E]; injection H as <-.
      * subst k. rewrite Nat.add_0_r in *. exists lo, W. split; [|auto]. unfold prefetch_done. gsimpl. rewrite Hwk.
        destruct (Nat.ltb_spec w (length bytes)); gsimpl.
        -- rewrite orb_true_r. fcon; auto using rs_add_wf; try (eapply down_grow; eauto).
           apply covers_grow; auto; lia.
        -- rewrite orb_false_r. assert (Es0 : skipn w bytes = []) by (apply skipn_all2; auto).
           rewrite Es0 in *. cbn [length] in *.
           destruct (_ <=? _); gsimpl; fcon; auto using rs_add_wf; try (eapply down_grow; eauto);
             try (apply covers_grow; auto; lia); rewrite ?B1, ?B2; auto.
      * exists lo, (W + k). split; [|split; [lia|auto]]. fcon; auto.
        -- intros x Hx. specialize (A4 x Hx). lia.
        -- intros bs [= <-]. repeat split; auto; lia.
        -- rewrite Hnd by reflexivity. discriminate.
        -- lia.
    + (* DWTop *)
      destruct A5 as (B1 & B2 & B3 & B4). destruct (A6 _ eq_refl) as (P1 & P2 & P3).
      exists lo, W. split; [|auto].
      destruct (Nat.ltb_spec w (length bytes)); injection H as <-.
      * fcon.
        -- split; auto. split; auto. split; auto. eapply covers_sub; eauto; lia.
        -- intros bs [= <-]. rewrite Nat.add_0_r. auto.
      * assert (Es0 : skipn w bytes = []) by (apply skipn_all2; auto).
        rewrite Es0 in *. unfold report_downloading. rewrite Hw.
        destruct W as [|q]; [fcon|]. destruct (rs_get q (g_down s)); fcon; rewrite ?B1, ?B2; auto.
    + (* DWBatch *)
      destruct A5 as (B1 & B2 & B3 & B4). destruct (A6 _ eq_refl) as (P1 & P2 & P3).
      unfold write_once in H. destruct (st_write _ (g_store s)) as [k st] eqn:Es.
      destruct (ast_write _ _ _ _ _ _ _ _ _ _ A1 Es) as (Ek & Ekr & A1'). rewrite length_slice in Ek.
      destruct (pend_write (c_content c) bytes W (w + nw) (Nat.min (c_batch c) (length bytes - (w + nw))) k) as (Q1 & Q2 & Q3);
        auto; try lia.
      assert (HW : W + k <= len) by (rewrite skipn_length in *; unfold len in *; lia).
      assert (A1'' : ast (c_content c) size st lo (W + k) R (skipped (g_trace s))).
      { apply A1'; [|exact HW]. apply (f_equal (skipn W)) in Q1.
        rewrite skipn_app, firstn_length, skipn_all2 in Q1 by (rewrite firstn_length; lia).
        cbn [app] in Q1. fold len in Q1. rewrite Nat.min_l, Nat.sub_diag in Q1 by lia. cbn [skipn] in Q1. rewrite Q1.
        change (firstn (W + k) (c_content c)) with (slice (c_content c) 0 (W + k)). rewrite skipn_slice.
        f_equal; lia. }
      clear A1'.
      destruct (Nat.eqb_spec k 0) as [E|E]; injection H as <-.
      * subst k. rewrite Nat.add_0_r in *. exists lo, W. split; [|auto]. fcon.
      * exists lo, (W + k). split; [|split; [lia|auto]]. fcon; auto.
        -- intros x Hx. specialize (A4 x Hx). lia.
        -- intros bs [= <-]. rewrite Nat.add_assoc in *. repeat split; auto; lia.
        -- rewrite Hnd by reflexivity. discriminate.
        -- lia.
    + (* DWPost *)
      destruct A5 as (B1 & B2 & B3 & B4). injection H as <-. exists lo, W. split; [|auto].
      rewrite Hw. fcon; auto using rs_add_wf; try (eapply down_grow; eauto).
      split; auto. split; auto. split; auto. apply covers_grow; auto; lia.
    + exists lo, W. split; [|auto].
      destruct (g_req s) as [rq|]; [destruct (_ <=? _)|]; injection H as <-; destruct (nw =? 0); fcon.
    + exists lo, W. split; [|auto]. injection H as <-; destruct (nw =? 0); fcon.
    + exists lo, W. split; [|auto]. destruct (g_permit s); [|discriminate]. injection H as <-; fcon.
    + exists lo, W. split; [|auto]. injection H as <-; fcon.
    + exists lo, W. split; [|auto]. injection H as <-. unfold report_complete. destruct (st_wpos _) eqn:Ewp; [|destruct (rs_get _ _)]; fcon.
    + exists lo, W. split; [|auto]. injection H as <-; fcon.
    + exists lo, W. split; [|auto]. injection H as <-; fcon.
    + exists lo, W. split; [|auto]. injection H as <-; fcon.
  - (* LDSeekRes *)
    cbn [step] in H. destruct (g_dpc s) eqn:Ed; try discriminate. unfold fat in A5. rewrite Ed in A5.
    destruct A5 as (B1 & B2 & B3 & B4 & B5 & B6 & B7). fold len in B2, B3, B4.
    unfold seek_done in H. destruct ok.
    + unfold body_window, inverted in H. rewrite B3, B4 in H. fold len in H.
      assert (Einv : (len <=? start) && negb (start =? len) = false).
      { destruct (Nat.leb_spec len start); auto. destruct (Nat.eqb_spec start len); auto. lia. }
      rewrite Einv, Nat.min_id, Nat.max_r in H by lia.
      destruct (st_wseek start (g_store s)) as [r st] eqn:Es.
      destruct (Nat.eq_dec start W) as [->|Hne].
      * destruct (ast_wstay _ _ _ _ _ _ _ _ _ A1 Es) as [-> A1']. injection H as <-.
        exists lo, W. split; [|auto]. fcon; auto.
        -- destruct (g_pfc s); auto. specialize (B6 eq_refl eq_refl). split; auto. split; auto.
           eapply covers_sub; eauto; lia.
        -- intros bs [= <-]. rewrite B1. cbn. repeat split; auto; lia.
      * assert (Hlt : W < start) by lia. destruct (B7 Hlt) as (B7' & B8 & B9 & B9' & B10). clear B7. rename B7' into B7.
        destruct (ast_wjump _ _ _ _ _ _ _ _ _ _ A1 Hlt (proj2 B2) Es) as [-> A1'].
        injection H as <-. exists start, start. split; [|split; [lia|right; split; [lia|auto]]]. fcon; auto.
        -- intros x Hx. specialize (A4 x Hx). lia.
        -- destruct (g_pfc s); [intros x Hx; lia|]. specialize (B7 eq_refl). rewrite B7.
           split; auto. split; auto. intros x Hx; lia.
        -- intros bs [= <-]. rewrite B1. cbn. repeat split; auto; lia.
        -- rewrite Hnd by reflexivity. discriminate.
        -- lia.
    + injection H as <-. exists lo, W. split; [|auto]. fcon.
  - cbn [step] in H. exists lo, W. split; [|auto].
    unfold fat in A5. destruct (g_dpc s) eqn:Ed; try discriminate; injection H as <-; fcon.
  - cbn [step] in H. exists lo, W. split; [|auto].
    unfold fat in A5. destruct (g_dpc s) eqn:Ed; try discriminate; injection H as <-.
    destruct ok0, ok; cbn [andb]; fcon.
  - cbn [step] in H. exists lo, W. split; [|auto].
    unfold fat in A5. unfold pending in A6. destruct (g_dpc s) eqn:Ed; try discriminate; injection H as <-.
    destruct (nw =? 0); fcon.
  - cbn [step] in H. exists lo, W. split; [|auto].
    unfold fat in A5. unfold pending in A6. destruct (g_dpc s) eqn:Ed; try discriminate.
    destruct (g_again s); [discriminate|]. injection H as <-; fcon.
  - exfalso. cbn [step] in H. pose proof (ast_plain _ _ _ _ _ _ _ A1) as Pl. unfold write_short in H. rewrite Pl in H.
    destruct (g_dpc s); try discriminate; destruct (st_write _ _); cbn in H; discriminate.
Qed.

Lemma task_chan : forall c s l s', task_label l = true -> step c s l = Some s' ->
  g_chan s' = g_chan s \/ g_chan s' = None.
Proof. intros c s l s' Et H. destruct l; try discriminate Et; step_cases H; gsimpl; auto. Qed.

Lemma task_calls : forall c s l s', task_label l = true -> step c s l = Some s' ->
  stretch (g_trace s') = stretch (g_trace s) /\ skipped (g_trace s') = skipped (g_trace s) /\
  reached (g_trace s) <= reached (g_trace s').
Proof.
  intros c s l s' Et H. destruct l; try discriminate Et;
    step_cases H; gsimpl; cbn [stretch skipped reached]; auto; repeat split; auto; lia.
Qed.

Lemma enter_fst : forall p st, fst (enter p st) <= p /\ (fst st <= p -> fst st <= fst (enter p st)).
Proof.
  intros p [a b]. unfold enter. cbn [fst snd].
  destruct (Nat.leb_spec a p), (Nat.leb_spec p b); cbn [andb fst]; lia.
Qed.
Lemma enter_far : forall p st, snd st < p -> enter p st = (p, p).
Proof.
  intros p [a b] H. unfold enter. cbn [fst snd] in *.
  destruct (Nat.leb_spec p b); [lia|]. rewrite andb_false_r. reflexivity.
Qed.
Lemma enter_snd : forall p st, fst st <= p ->
  p <= snd st /\ snd (enter p st) = snd st \/ snd st < p /\ snd (enter p st) = p.
Proof.
  intros p [a b] H. unfold enter. cbn [fst snd] in *.
  destruct (Nat.leb_spec a p), (Nat.leb_spec p b); cbn [andb snd]; lia.
Qed.

Lemma ranging_events : forall c size s l s', task_label l = true -> step c s l = Some s' ->
  all_events (ranging_call_ok c size) (g_trace s) -> all_events (ranging_call_ok c size) (g_trace s').
Proof.
  intros c size s l s' Et H K. destruct l; try discriminate Et;
    step_cases H; gsimpl; unfold ranging_call_ok in *; cbn [all_events no_panic]; auto 10.
Qed.

Lemma fwd_task : forall c ck pl n s lo W R l s', c_provider c = PBounded ck pl n -> sane c ->
  c_rec c = RecRange -> (c_seekable c = true -> c_clen c <> None) ->
  fwd c (ring_size (c_clen c) n) s lo W R -> sync s ->
  jumping_transport c s l ->
  task_label l = true -> step c s l = Some s' ->
  exists lo' W', fwd c (ring_size (c_clen c) n) s' lo' W' R /\ (lo' = lo \/ g_dpc s' = DSelect).
Proof.
  intros c ck pl n s lo W R l s' Hp Hs Hrec Hk F Hsy G Et H.
  destruct (fwt_task c ck pl n s lo W R l s' Hp Hs Hrec Hk F Hsy G Et H) as (lo' & W' & [B1 B2 B3 B4 B5 B6 B7 B8 B9 B10] & Hle & Hlo).
  destruct (task_calls _ _ _ _ Et H) as (Cs & Ck & Cr).
  exists lo', W'. split; [|destruct Hlo as [?|(_ & _ & ? & _)]; auto]. destruct F as [A1 A2 A3 A4 A5 A6 A7 Aacc Ale Afar Aroom Areach A8 A9 A10 A11 A12 A13].
  pose proof (task_step_rpc _ _ _ _ Et H) as Er. pose proof (ast_wpos _ _ _ _ _ _ _ A1) as Hw.
  assert (Hf : g_failed s = true -> g_failed s' = true) by (eapply task_failed; eauto).
  pose proof (ast_le _ _ _ _ _ _ _ B1) as [_ Hle2].
  assert (Hdn : g_done s = true -> g_done s' = true).
  { intros E. destruct (g_done s') eqn:E'; auto. rewrite (task_done _ _ _ _ Et H E') in E. discriminate. }
  assert (Hend : at_end c s W -> at_end c s' W') by (intros [E1 E2]; split; [lia|auto]).
  constructor; auto.
  - destruct Ale as [|(E1 & E2 & E3)]; [left; lia|right]. split; auto. split; [lia|auto].
  - rewrite Cs. destruct Afar as [|(E1 & E2 & E3)]; [left; lia|right]. split; auto. split; [lia|auto].
  - intros Hd q Hq. pose proof (task_done _ _ _ _ Et H Hd) as Hd0. rewrite Er.
    destruct Hlo as [->|(_ & _ & _ & Hn & _)]; [|congruence].
    destruct (task_chan _ _ _ _ Et H) as [E|E]; rewrite E in Hq; [|discriminate].
    destruct (A8 Hd0 q Hq) as [C1 [C2|C2]]; split; auto. left. lia.
  - rewrite Er. destruct Hlo as [->|(Q1 & Q2 & _ & _ & from & Q3)].
    + destruct A9 as [|[]]; auto. left. unfold heading in *. rewrite Cs. auto.
    + left. rewrite Q3. cbn [heading]. rewrite Cs, enter_far; [auto|]. destruct Afar as [|[_ [E _]]]; lia.
  - rewrite Er. auto.
  - rewrite Er. intros t Ht Hd Hq. pose proof (task_done _ _ _ _ Et H Hd) as Hd0.
    destruct (task_req _ _ _ _ Et H) as [E|(r & E1 & E2 & E3)].
    + rewrite E in Hq. specialize (A11 t Ht Hd0 Hq). lia.
    + destruct (Nat.eq_dec r t) as [->|Hn]; [lia|].
      assert (Hq2 : g_req s <> Some t) by congruence. specialize (A11 t Ht Hd0 Hq2). lia.
  - unfold fread_at, target_ok in *. rewrite Er, Cs, Ck. 
    assert (Hor : forall a (P : Prop), a <= W \/ P -> a <= W' \/ P) by (intros a P [|]; [left; lia|auto]).
    assert (HWl : W = length (c_content c) -> W' = length (c_content c)) by lia.
    destruct (g_rpc s); auto.
    + apply Hor. destruct A12 as [|[|]]; auto.
    + apply Hor. destruct A12 as [|]; auto.
    + destruct r as [|[]|]; auto. lia.
    + destruct A12 as [T [|[|]]]; split; auto; left; lia.
    + destruct A12 as [T [|]]; split; auto; left; lia.
  - eapply ranging_events; eauto.
Qed.

(** ** The reader *)

(** A reader step that leaves the storage and the task alone. *)
Lemma fat_reader : forall c size s s' lo W R R', fat c size s lo W R ->
  g_dpc s' = g_dpc s -> g_pfc s' = g_pfc s -> g_rem s' = g_rem s -> g_pfs s' = g_pfs s ->
  g_down s' = g_down s -> g_failed s' = g_failed s -> reached (g_trace s') = reached (g_trace s) ->
  (forall from a, g_rpc s = RSWait from a -> W < a -> (exists b, g_dpc s = DSeeking a b) ->
     g_chan s = None -> R' = R /\ g_chan s' = None /\ exists from', g_rpc s' = RSWait from' a) ->
  fat c size s' lo W R'.
Proof.
  intros c size s s' lo W R R' F E1 E2 E3 E4 E5 E6 HR Hx. unfold fat in *. rewrite E1, E2, E3, E4, E5, E6.
  destruct (g_dpc s) eqn:Ed; auto.
  destruct F as (F1 & F2 & F3 & F4 & F5 & F6 & F7). do 6 (split; [auto|]).
  intros Hlt. destruct (F7 Hlt) as (G1 & G2 & G3 & G3' & from & G4). split; auto.
  destruct (Hx from start G4 Hlt (ex_intro _ _ eq_refl) G2) as (-> & Q1 & Q2). rewrite HR. auto.
Qed.

(** The task's view of a reader step. *)
Definition same_task (s s' : gstate) : Prop :=
  g_dpc s' = g_dpc s /\ g_pfc s' = g_pfc s /\ g_rem s' = g_rem s /\ g_pfs s' = g_pfs s /\
  g_down s' = g_down s /\ g_failed s' = g_failed s /\ g_done s' = g_done s /\
  g_send s' = g_send s /\ g_scur s' = g_scur s.

Lemma fwd_reader_gen : forall c size s s' lo W R R', fwd c size s lo W R -> same_task s s' ->
  ast (c_content c) size (g_store s') lo W R' (skipped (g_trace s')) ->
  reached (g_trace s') = reached (g_trace s) ->
  accepted_total (g_trace s') = accepted_total (g_trace s) ->
  (R' <= W \/ (c_clen c = None /\ W = length (c_content c) /\ g_done s = true)) ->
  (snd (stretch (g_trace s')) <= W \/ (c_clen c = None /\ W = length (c_content c) /\ g_done s = true)) ->
  W <= Nat.max R' (snd (stretch (g_trace s'))) + size ->
  (forall from a, g_rpc s = RSWait from a -> W < a -> g_done s = false ->
     R' = R /\ g_chan s' = g_chan s /\ exists from', g_rpc s' = RSWait from' a) ->
  (g_done s = false -> forall q, g_chan s' = Some q ->
     lo <= q /\ (q <= W \/ exists from, g_rpc s' = RSWait from q)) ->
  (lo <= heading (g_rpc s') (g_trace s') \/ (g_failed s = true /\ resting (g_rpc s'))) ->
  asked_rq c (g_rpc s') ->
  (forall t, wait_target (g_rpc s') = Some t -> g_done s = false -> g_req s' <> Some t -> t <= W) ->
  fread_at c size s' W R' ->
  all_events (ranging_call_ok c size) (g_trace s') -> sync s ->
  fwd c size s' lo W R'.
Proof.
  intros c size s s' lo W R R' [A1 A2 A3 A4 A5 A6 A7 Aacc Ale Afar Aroom Areach A8 A9 A10 A11 A12 A13]
    (E1 & E2 & E3 & E4 & E5 & E6 & E7 & E8 & E9) B1 HR Ha Hl Hf Hm Hx B2 B3 B4 B5 B6 B7 Hsy.
  constructor; rewrite ?E1, ?E2, ?E3, ?E4, ?E5, ?E6, ?E7, ?E8, ?E9, ?Ha, ?HR; auto.
  - eapply fat_reader; eauto. intros from a Er Hlt [b Ed] Hc.
    destruct (Hx from a Er Hlt) as (Q0 & Q1 & Q2); [|split; [auto|split; [congruence|auto]]].
    destruct (g_done s) eqn:Edn; auto. apply (sy_done _ Hsy) in Edn. rewrite Ed in Edn. discriminate.
  - unfold pending in *. rewrite E1, E3. auto.
Qed.


Ltac rgen F :=
  match type of F with fwd ?c ?size ?s ?lo ?W ?R =>
    eapply (fwd_reader_gen c size s); [exact F|repeat split|..]; gsimpl; cbn [accepted_total skipped stretch reached]; auto; try exact (fw_le _ _ _ _ _ _ F); try exact (fw_far _ _ _ _ _ _ F)
  end;
  try match goal with
  | E : g_rpc _ = _ |- forall from a, g_rpc _ = RSWait from a -> _ => rewrite E; discriminate
  | K : g_done _ = false -> forall q, g_chan _ = Some q -> _ |-
      g_done _ = false -> forall q, g_chan _ = Some q -> _ =>
      let Hd := fresh in let q := fresh "q" in let Hq := fresh in
      intros Hd q Hq; destruct (K Hd q Hq) as [? [?|[? ?]]]; [auto|discriminate]
  | E : g_done ?s = true |- g_done ?s = false -> _ => rewrite E; discriminate
  | E : g_done ?s = false, K : _ -> forall q, g_chan ?s = Some q -> _ |-
      g_done ?s = false -> forall q, g_chan ?s = Some q -> _ =>
      let q := fresh "q" in let Hq := fresh in
      intros _ q Hq; destruct (K eq_refl q Hq) as [? [?|[? ?]]]; [auto|discriminate]
  end; unfold fread_at; gsimpl; cbn [heading resting asked_rq wait_target]; auto; try discriminate.

Lemma fwd_reader : forall c ck pl n s lo W R l s', c_provider c = PBounded ck pl n -> sane c ->
  fwd c (ring_size (c_clen c) n) s lo W R -> sync s -> traced c s ->
  ranging_client c s l -> task_label l = false -> step c s l = Some s' ->
  exists R', fwd c (ring_size (c_clen c) n) s' lo W R'.
Proof.
  intros c ck pl n s lo W R l s' Hp (S1 & _) F Hsy Htr Hl Etl H.
  set (size := ring_size (c_clen c) n) in *.
  pose proof F as [A1 A2 A3 A4 A5 A6 A7 Aacc Ale Afar Aroom Areach A8 A9 A10 A11 A12 A13].
  pose proof (ast_wpos _ _ _ _ _ _ _ A1) as Hw. pose proof (ast_rpos _ _ _ _ _ _ _ A1) as Hr.
  pose proof (ast_le _ _ _ _ _ _ _ A1) as [Hle1 Hle2]. pose proof (ast_tell _ _ _ _ _ _ _ A1) as Ht.
  pose proof (tr_at _ _ Htr) as Hat. rewrite Hr in Hat. unfold fread_at in A12.
  assert (Hsz : size <= n /\ forall N, c_clen c = Some N -> size = Nat.min N n).
  { unfold size, ring_size. destruct (c_clen c); split; try lia; intros N [= <-]; lia. }
  assert (Hsz2 : c_clen c = None -> size = n) by (unfold size, ring_size; intros ->; auto).
  destruct l; try discriminate Etl; cbn [step] in H.
  - (* LRStep *)
    unfold r_step in H. rewrite Hr in H.
    destruct (g_rpc s) eqn:Er; try discriminate H; cbn [heading resting asked_rq wait_target reader_at] in *.
    + (* RRCheck *)
      destruct (g_failed s) eqn:Ef.
      { injection H as <-. exists R. rgen F. split; [|auto]. split; [discriminate|auto]. }
      destruct A9 as [A9|[? _]]; [|discriminate].
      unfold excessive_read in H. rewrite Hp in H. cbn [max_capacity] in H.
      destruct (Nat.ltb_spec n n0).
      { injection H as <-. exists R. rgen F. split; [|auto]. split; [discriminate|lia]. }
      injection H as <-. exists R. rewrite Ht. rgen F.
    + (* RRGet *)
      destruct A9 as [A9|[_ []]].
      destruct (rs_get pos (g_down s)) as [[a e]|] eqn:Eg; [destruct (Nat.leb_spec rq e)|]; injection H as <-;
        exists R; rgen F.
      apply rs_get_some in Eg as [G1 G2].
      assert (Q : covered (g_down s) (e - 1)) by (exists a, e; split; auto; lia).
      specialize (A4 _ Q). lia.
    + (* RRSet *)
      destruct A9 as [A9|[_ []]]. injection H as <-. exists R. rgen F. intros t [= <-]. congruence.
    + (* RRNotify *)
      destruct A9 as [A9|[_ []]]. injection H as <-. exists R. destruct (g_wreq s); rgen F.
    + (* RRWait *)
      destruct A9 as [A9|[_ []]].
      destruct (g_done s) eqn:Edn.
      { injection H as <-. exists R. rgen F. }
      destruct (g_reached s) eqn:Ere; [|discriminate].
      injection H as <-. exists R. rgen F.
      left. apply A11; auto. pose proof (sy_wait _ Hsy Edn) as Sw. unfold sync_wait in Sw. rewrite Er in Sw.
      cbn in Sw. intros E. rewrite E, Ere in Sw. intuition discriminate.
    + (* RRCheck2 *)
      destruct A9 as [A9|[_ []]].
      destruct (g_failed s) eqn:Ef.
      { injection H as <-. exists R. rgen F. split; [|auto]. split; [discriminate|auto]. }
      injection H as <-. exists R. rewrite Ht. rgen F. destruct A12 as [|[?|]]; auto. discriminate.
    + (* RRRead *)
      destruct A9 as [A9|[_ []]]. destruct Hat as [Hc <-].
      destruct (st_read n0 (g_store s)) as [r st] eqn:Es.
      pose proof (stretch_cursor (g_trace s)) as Hsc.
      assert (HloR : lo <= R) by lia.
      destruct (ast_read _ _ _ _ _ _ _ _ _ _ A1 HloR Es) as [(-> & Hn & ->)|(Hn & -> & A1')]; injection H as <-.
      * exists R. rgen F. lia.
      * exists (R + Nat.min n0 (W - R)). rgen F; try lia.
        { destruct Ale as [|Q]; [left; lia|right; exact Q]. }
        destruct (Nat.le_gt_cases n0 (W - R)).
        -- rewrite Nat.min_l by auto. apply faithful_slice.
        -- assert (HWl : W = length (c_content c)).
           { subst rq. unfold normalize in A12. destruct (c_clen c) as [cl|]; [|lia].
             specialize (S1 cl eq_refl). lia. }
           rewrite Nat.min_r by lia. rewrite HWl.
           replace (slice (c_content c) R (length (c_content c) - R)) with (slice (c_content c) R n0);
             [apply faithful_slice|rewrite (slice_min _ R n0); f_equal; lia].
    + (* RRDone *)
      destruct A9 as [A9|[_ []]]. destruct Hat as [Hc Hd]. injection H as <-. exists R.
      assert (Q2 : forall bs, r = Ok bs -> R = cursor (g_trace s) + length bs) by (intros bs ->; lia).
      assert (Q : all_events (ranging_call_ok c size) (EvRead pos n0 waited r :: g_trace s)).
      { cbn. split; auto. split; [destruct r; try contradiction; discriminate|]. destruct r as [bs|[]|]; auto. }
      destruct (g_wreq s); destruct r as [bs|e|]; try contradiction; rgen F; cbn [stretch fst snd]; try lia;
        specialize (Q2 bs eq_refl); destruct Afar as [|Qe]; [destruct Ale as [|Qe]; [left; lia|right; exact Qe]|right; exact Qe|
          destruct Ale as [|Qe]; [left; lia|right; exact Qe]|right; exact Qe].
    + (* RSCheck *)
      destruct (g_failed s) eqn:Ef.
      { injection H as <-. exists R. rgen F. split; [|auto]. split; [discriminate|auto]. }
      destruct A9 as [A9|[? _]]; [|discriminate].
      destruct (absolute_seek_position c R from) as [z|e|] eqn:Ez.
      * destruct (excessive_seek c R (normalize c z)) eqn:Ex.
        { injection H as <-. exists R. rgen F. split; [|auto]. split; [discriminate|auto]. }
        injection H as <-. exists R.
        destruct (seek_target c R from) as [t|] eqn:Etg.
        2:{ exfalso. destruct from; cbn in *; try discriminate. destruct (c_clen c); discriminate. }
        specialize (A12 t eq_refl). pose proof (absolute_target _ _ _ _ _ Ez Etg ltac:(lia)). subst z.
        unfold excessive_seek in Ex. rewrite Hp in Ex. cbn [max_capacity] in Ex. apply Z.ltb_ge in Ex.
        pose proof (stretch_cursor (g_trace s)) as Hsc.
        assert (T : target_ok c size (g_trace s) R (Z.to_nat (normalize c t))).
        { unfold normalize, clamp in *. split.
          - destruct (c_clen c) as [N|]; [|specialize (Hsz2 eq_refl); lia].
            specialize (S1 N eq_refl). destruct Hsz as [_ Hsz]. specialize (Hsz N eq_refl). destruct Ale as [|[? _]]; [lia|discriminate].
          - intros N E. rewrite E. lia. }
        rgen F. left. destruct T as [T _].
        pose proof (proj2 (enter_fst (Z.to_nat (normalize c t)) (stretch (g_trace s))) (proj1 T)). lia.
      * injection H as <-. exists R. rgen F. split; [|auto]. split; [discriminate|auto].
      * exfalso. destruct from; cbn in Ez; try discriminate. destruct (c_clen c); discriminate.
    + (* RSGet *)
      destruct A9 as [A9|[_ []]].
      destruct (rs_get p (g_down s)) as [[a e]|] eqn:Eg; injection H as <-; exists R; rgen F.
      split; auto. assert (Q : covered (g_down s) p).
      { apply rs_get_some in Eg as [G1 G2]. exists a, e. auto. }
      specialize (A4 _ Q). lia.
    + (* RSSet *)
      destruct A9 as [A9|[_ []]]. injection H as <-. exists R. rgen F. intros t [= <-]. congruence.
    + (* RSSend *)
      destruct A9 as [A9|[_ []]].
      destruct (g_chan s) as [q|] eqn:Ec.
      * injection H as <-. exists R. rgen F. rewrite Ec. intros Hd q' [= <-].
        destruct (A8 Hd q eq_refl) as [? [?|[? ?]]]; [auto|discriminate].
      * destruct (chan_open (g_dpc s)); injection H as <-; exists R; rgen F.
        -- intros _ q [= <-]. pose proof (proj1 (enter_fst p (stretch (g_trace s)))). split; [lia|]. right. eauto.
        -- rewrite Ec. discriminate.
    + (* RSWait *)
      destruct A9 as [A9|[_ []]].
      assert (G : g_done s = true \/ g_done s = false /\ p <= W ->
        exists R', fwd c size (set_rpc (if g_done s then s else set_reached s false) (RSCheck2 from p)) lo W R').
      { intros Q. exists R. destruct (g_done s) eqn:Edn.
        - rgen F; [intros ? ? _ _ ?; congruence|]. split; auto. right.
          destruct (A7 eq_refl); auto. right. split; auto.
        - destruct Q as [?|[_ Q]]; [discriminate|]. rgen F.
          + intros f a E Hlt. rewrite Er in E. injection E as <- <-. lia.
          + intros _ q Hq. destruct (A8 eq_refl q Hq) as [? [?|[f E]]]; [auto|]. injection E as <- <-. auto. }
      destruct (g_done s) eqn:Edn.
      { injection H as <-. apply G. auto. }
      destruct (g_reached s) eqn:Ere; [|discriminate].
      injection H as <-. apply G. right. split; auto.
      apply A11; auto. pose proof (sy_wait _ Hsy Edn) as Sw. unfold sync_wait in Sw. rewrite Er in Sw.
      cbn in Sw. intros E. rewrite E, Ere in Sw. intuition discriminate.
    + (* RSCheck2 *)
      destruct A9 as [A9|[_ []]]. destruct A12 as [T Q].
      destruct (g_failed s) eqn:Ef.
      { injection H as <-. exists R. rgen F. split; [|auto]. split; [discriminate|auto]. }
      injection H as <-. exists R. rgen F. destruct Q as [|[?|]]; auto. discriminate.
    + (* RSSeek *)
      destruct A9 as [A9|[_ []]]. destruct A12 as [T Q]. destruct T as [T1 T2].
      destruct (st_rseek p (g_store s)) as [r st] eqn:Es.
      pose proof (stretch_cursor (g_trace s)) as Hsc.
      destruct T1 as [T0 T1]. pose proof (enter_fst p (stretch (g_trace s))) as [En1 En2].
      assert (Hlp : lo <= p) by lia.
      destruct (ast_rseek _ _ _ _ _ _ _ _ _ _ A1 (proj1 T1) Hlp Es) as [-> A1']. injection H as <-.
      pose proof (enter_snd p (stretch (g_trace s)) T0) as En3.
      exists p. rgen F; cbn [stretch skipped]; rewrite ?Hat; try lia; try exact A1'.
      { destruct Q as [|[Q1 Q2]]; auto. destruct (c_clen c) as [N|]; [left|auto].
        specialize (S1 N eq_refl). specialize (T2 N eq_refl). lia. }
      { destruct Afar as [|Qe]; [|right; exact Qe]. destruct Q as [|[Q1 Q2]]; [left; lia|].
        destruct (c_clen c) as [N|]; [left|auto]. specialize (S1 N eq_refl). specialize (T2 N eq_refl). lia. }
      split; [|auto]. split; [discriminate|auto].
  - (* LRIoErr *)
    unfold r_error in H. rewrite (ast_plain _ _ _ _ _ _ _ A1) in H.
    destruct (g_rpc s) eqn:Er; try discriminate H; [|destruct from; discriminate H].
    destruct A9 as [A9|[_ []]]. injection H as <-. exists R. rgen F.
  - (* LOp *)
    destruct (g_rpc s) eqn:Er; try discriminate; injection H as <-. exists R.
    destruct o; rgen F. destruct Hl as [[_ Hl] Hl']. cbn in Hl, Hl', Hat. rewrite <- Hat. auto.
  - injection H as <-. exists R. rgen F. intros; eauto.
  - destruct (g_rpc s) eqn:Er; try discriminate; injection H as <-. exists R.
    destruct (c_cancel_on_drop c); rgen F.
Qed.

Lemma fwd_init : forall c ck pl n s, c_provider c = PBounded ck pl n -> init c = Some s ->
  fwd c (ring_size (c_clen c) n) s 0 0 0.
Proof.
  intros c ck pl n s Hp H. unfold init in H. rewrite Hp in H.
  destruct (into_rw _ _) as [st|] eqn:E; [|discriminate]. injection H as <-. cbn in E.
  pose proof (ast_new (c_content c) _ _ _ _ _ E) as A.
  constructor; unfold pending, fat, fread_at; gsimpl; cbn; auto; try discriminate; try lia.
  - intros x [a [e [[] _]]].
  - destruct (c_prefetch c =? 0); [intros x Hx; lia|]. split; auto. split; [lia|]. intros x Hx; lia.
  - intros bs [= <-]. cbn. repeat split; lia.
Qed.

Lemma fwd_reach : forall c ck pl n s, c_provider c = PBounded ck pl n -> sane c ->
  c_rec c = RecRange -> (c_seekable c = true -> c_clen c <> None) ->
  reach c (ranging_env c) s ->
  exists lo W R, fwd c (ring_size (c_clen c) n) s lo W R.
Proof.
  intros c ck pl n s Hp Hs Hrec Hk H.
  induction H as [s H|s l s' Hr (lo & W & R & F) [Hl1 Hl2] H].
  - exists 0, 0, 0. eapply fwd_init; eauto.
  - pose proof (sync_reach _ _ _ Hr) as Hsy. pose proof (traced_reach _ _ _ Hr) as Htr.
    destruct (task_label l) eqn:Et.
    + destruct (fwd_task c ck pl n s lo W R l s' Hp Hs Hrec Hk F Hsy Hl2 Et H) as (lo' & W' & F' & _). eauto.
    + destruct (fwd_reader c ck pl n s lo W R l s' Hp Hs F Hsy Htr Hl1 Et H) as (R' & F'). eauto.
Qed.

Lemma jumping_ranges : forall c s l, jumping_env c s l -> ranging_env c s l.
Proof.
  intros c s l [H1 H2]. split; [|exact H2]. split; [apply forward_roams; exact H1|].
  unfold counted_client. destruct l; auto. destruct o; auto. destruct H1 as [_ H1]. intros t Ht. left. apply (H1 t Ht).
Qed.

(** ** A client that only goes forward is always at the end of its stretch. *)
Definition far_ok (older : list event) (e : event) : Prop :=
  match e with EvRead _ _ _ _ => snd (stretch older) = cursor older | _ => True end.

Record only_ahead (c : cfg) (s : gstate) : Prop := mkAhead
  { oa_far : snd (stretch (g_trace s)) = cursor (g_trace s);
    oa_rpc : match g_rpc s with
      | RSCheck from => forall t, seek_target c (cursor (g_trace s)) from = Some t ->
          (Z.of_nat (cursor (g_trace s)) <= t < two64)%Z
      | RSGet _ p | RSSet _ p | RSSend _ p | RSWait _ p | RSCheck2 _ p | RSSeek _ p =>
          cursor (g_trace s) <= p
      | _ => True
      end;
    oa_trace : all_events far_ok (g_trace s) }.

Lemma ahead_task : forall c s l s', only_ahead c s -> task_label l = true -> step c s l = Some s' ->
  only_ahead c s'.
Proof.
  intros c s l s' [A1 A2 A3] Et H. pose proof (task_step_rpc _ _ _ _ Et H) as Er.
  destruct (task_calls _ _ _ _ Et H) as (Cs & _).
  assert (Cc : cursor (g_trace s') = cursor (g_trace s)).
  { destruct l; try discriminate Et; step_cases H; gsimpl; auto. }
  constructor; rewrite ?Cs, ?Cc, ?Er; auto.
  destruct l; try discriminate Et; step_cases H; gsimpl; cbn [all_events far_ok]; auto.
Qed.

Lemma ahead_reader : forall c s l s', only_ahead c s -> traced c s -> traced c s' ->
  (forall n, c_clen c = Some n -> st_rpos (g_store s) <= n) ->
  forward_client c s l -> task_label l = false -> step c s l = Some s' -> only_ahead c s'.
Proof.
  intros c s l s' [A1 A2 A3] Ht Ht' Hn Hf Et H.
  pose proof (tr_at _ _ Ht) as Ha. pose proof (tr_seek _ _ Ht') as Hsk.
  pose proof (stretch_cursor (g_trace s)) as Hc.
  destruct l; try discriminate Et; step_cases H; gsimpl; cbn [reader_at reader_seeks] in *;
   repeat match goal with
    | E : g_rpc _ = _ |- _ => rewrite E in *; clear E
    end; cbn [reader_at] in *;
   try (constructor; gsimpl; cbn [stretch cursor all_events far_ok snd]; auto; fail);
   try (destruct r as [bs|e|]; constructor; gsimpl; cbn [stretch cursor all_events far_ok snd]; auto; lia).
  - constructor; gsimpl; auto.
    destruct (seek_target c (st_rpos (g_store s)) from) as [t|] eqn:Etg.
    2:{ exfalso. destruct from; cbn in *; try discriminate. destruct (c_clen c); discriminate. }
    rewrite Ha in *. specialize (A2 t Etg). specialize (Hsk t eq_refl ltac:(lia)).
    destruct (c_clen c) as [N|] eqn:Ec; [specialize (Hn N eq_refl)|]; lia.
  - assert (Hr : r = Ok p \/ r = Panic).
    { match goal with E : st_rseek _ _ = _ |- _ => revert E end. unfold st_rseek.
      destruct (g_store s) as [u|b]; [intros [= <- _]; auto|]. unfold bnd_rseek.
      destruct (counter_sub _ _ _); intros [= <- _]; auto. }
    constructor; gsimpl; [|auto|cbn; auto].
    destruct Hr as [-> | ->]; cbn [stretch cursor]; auto.
    destruct (enter_snd p (stretch (g_trace s))) as [[? E]|[? E]]; lia.
  - constructor; gsimpl; auto. apply Hf.
Qed.

Lemma ahead_reach : forall c ck pl n s, c_provider c = PBounded ck pl n -> sane c ->
  c_rec c = RecRange -> (c_seekable c = true -> c_clen c <> None) ->
  reach c (jumping_env c) s -> only_ahead c s.
Proof.
  intros c ck pl n s Hp Hs Hrec Hk H. induction H as [s H|s l s' Hr IH [Hl1 Hl2] H].
  - unfold init in H. destruct (into_rw _ _); [|discriminate]. injection H as <-.
    constructor; cbn; auto.
  - destruct (task_label l) eqn:Et; [eapply ahead_task; eauto|].
    assert (Htr : traced c s) by (eapply traced_reach; eauto).
    assert (Htr' : traced c s').
    { apply (traced_reach c (jumping_env c)). eapply reach_step; [exact Hr|split; [exact Hl1|exact Hl2]|exact H]. }
    eapply ahead_reader; eauto.
    assert (Hg : reach c (ranging_env c) s).
    { revert Hr. apply reach_weaken. apply jumping_ranges. }
    destruct (fwd_reach c ck pl n s Hp Hs Hrec Hk Hg) as (lo & W & R & F).
    intros N E. rewrite (ast_rpos _ _ _ _ _ _ _ (fw_store _ _ _ _ _ _ F)).
    pose proof (ast_le _ _ _ _ _ _ _ (fw_store _ _ _ _ _ _ F)) as [_ Hle].
    destruct (fw_le _ _ _ _ _ _ F) as [|[E' _]]; [|congruence]. destruct Hs as [S1 _]. rewrite (S1 N E). lia.
Qed.

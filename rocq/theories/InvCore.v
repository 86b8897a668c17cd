(** * Core invariant for unbounded storage: stored bytes are right.

    Holds for every history of reads and seeks, provided the transport honours byte
    ranges. *)

From Coq Require Import List Arith Lia ZArith Bool.
From Verif Require Import Base ListFacts RangeSet RangeSetFacts Storage StorageFacts
  System Spec StepTac InvSync InvTrace.
Import ListNotations.

Definition good (W : list nat) (a b : nat) : Prop := forall x, a <= x < b -> In x W.

(** Everything a read of [n] bytes at [pos] could return is correctly stored. *)
Definition readable (c : cfg) (W : list nat) (pos n : nat) : Prop :=
  forall x, pos <= x < pos + n -> x < length (c_content c) -> In x W.

(** The task is inside [write]: [k] of [bytes] are stored, from [pos] on. *)
Definition writing (c : cfg) (s : gstate) (W : list nat) (u : ustore)
    (bytes : list byte) (pos k added : nat) : Prop :=
  g_rem s = None /\ g_pfc s = true /\ bytes = slice (c_content c) pos (length bytes) /\
  u_wpos u = pos + k /\ k <= length bytes /\ g_scur s = pos + length bytes /\
  g_scur s <= length (c_content c) /\ good W pos (pos + k) /\ covers (g_down s) pos (pos + added).

Definition task_ok (c : cfg) (s : gstate) (W : list nat) (u : ustore) : Prop :=
  match g_dpc s with
  | DSelect =>
      g_rem s = None /\ g_scur s = u_wpos u /\
      (g_pfc s = false -> good W (g_pfs s) (u_wpos u))
  | DPre bytes k =>
      g_rem s = None /\ g_pfc s = false /\
      bytes = slice (c_content c) (u_wpos u - k) (length bytes) /\
      k <= u_wpos u /\ k <= length bytes /\ g_scur s = u_wpos u - k + length bytes /\
      g_scur s <= length (c_content c) /\
      good W (g_pfs s) (u_wpos u)
  | DWTop bytes k pos | DWWait bytes k pos => writing c s W u bytes pos k k
  | DWBatch bytes k pos nw | DWPost bytes k pos nw =>
      writing c s W u bytes pos (k + nw) k
  | DWCheck bytes k pos nw | DWNotify bytes k pos nw => writing c s W u bytes pos k k
  | DSeeking a _ =>
      g_rem s = None /\ (g_pfc s = false -> good W (g_pfs s) a) /\
      (forall n, c_clen c = Some n -> a <= n)
  | _ => True
  end.

Definition body_ok (c : cfg) (s : gstate) : Prop :=
  g_scur s <= g_send s /\
  (g_send s <= length (c_content c) \/ g_scur s = g_send s) /\
  (c_clen c <> None -> g_send s <= length (c_content c)).

Definition reader_ok (c : cfg) (s : gstate) (W : list nat) (u : ustore) : Prop :=
  match g_rpc s with
  | RRGet n pos rq | RRSet n pos rq | RRNotify n pos rq | RRWait n pos rq
  | RRCheck2 n pos rq =>
      buf_empty u /\ rq = Z.to_nat (normalize c (Z.of_nat (pos + n)))
  | RRRead n pos _ waited => buf_empty u /\ (waited = false -> readable c W pos n)
  | RRDone n pos waited r =>
      waited = false -> forall bs, r = Ok bs -> faithful c pos n bs
  | RSGet _ p | RSSet _ p | RSSend _ p | RSWait _ p | RSCheck2 _ p | RSSeek _ p =>
      forall n, c_clen c = Some n -> p <= n
  | _ => True
  end.

(** The task has finished, or is bound to finish, successfully. *)
Definition succeeded (s : gstate) : Prop :=
  match g_dpc s with
  | DFinish | DReport | DOnFinish true => True
  | DOnFinish false | DSetFailed => g_done s = true
  | DSignal | DCancelTok | DEnd => g_failed s = false
  | _ => False
  end.

(** Task half of the invariant. *)
Record coreT (c : cfg) (s : gstate) (W : list nat) (u : ustore) : Prop := mkCoreT
  { co_store : g_store s = SPlain u;
    co_inv : u_inv (c_content c) W u;
    co_len : length (u_data u) <= length (c_content c);
    co_wf : rs_wf (g_down s);
    co_down : forall x, covered (g_down s) x -> In x W;
    co_body : body_ok c s;
    co_task : task_ok c s W u;
    co_chan : forall n p, c_clen c = Some n -> g_chan s = Some p -> p <= n;
    co_full : c_seekable c = true -> c_clen c <> None -> succeeded s ->
              covers (g_down s) 0 (length (c_content c)) }.

(** Reader half of the invariant. *)
Record coreR (c : cfg) (s : gstate) (W : list nat) (u : ustore) : Prop := mkCoreR
  { co_rpos : forall n, c_clen c = Some n -> u_rpos u <= n;
    co_read : reader_ok c s W u;
    co_trace : all_events (fast_read_ok c) (g_trace s) }.

Definition coreW (c : cfg) (s : gstate) (W : list nat) (u : ustore) : Prop :=
  coreT c s W u /\ coreR c s W u.

(** Restrictions on the environment under which the core invariant holds. *)
Definition core_env (c : cfg) : gstate -> label -> Prop := no_empty_chunk_past_end c.

Lemma good_incl : forall W W' a b, incl W W' -> good W a b -> good W' a b.
Proof. intros W W' a b H1 H2 x Hx. apply H1, H2, Hx. Qed.

Lemma readable_incl : forall c W W' p n, incl W W' -> readable c W p n -> readable c W' p n.
Proof. intros c W W' p n H1 H2 x Hx Hl. apply H1, H2; auto. Qed.

Lemma unbounded_init : forall c s, unbounded_store c -> init c = Some s ->
  exists p u, plain_rw p (c_clen c) = Some u /\ g_store s = SPlain u.
Proof.
  intros c s Hu H. unfold init in H. destruct (into_rw _ _) eqn:E; [|discriminate].
  injection H as <-. cbn. unfold unbounded_store in Hu.
  destruct (c_provider c); cbn in E; [|contradiction|].
  - destruct (plain_rw p (c_clen c)) eqn:E2; [|discriminate]. injection E as <-. eauto.
  - destruct (c_clen c) as [len|]; [|congruence].
    destruct (len <=? buffer_size).
    + destruct (plain_rw fixed (Some len)) eqn:E2; [|discriminate]. injection E as <-. eauto.
    + destruct (plain_rw variable (Some len)) eqn:E2; [|discriminate]. injection E as <-. eauto.
Qed.

Lemma core_init : forall c s, sane c -> unbounded_store c -> init c = Some s ->
  exists u, coreW c s [] u.
Proof.
  intros c s Hs Hu H. destruct (unbounded_init c s Hu H) as (p & u & E & Es).
  exists u. destruct (u_inv_new (c_content c) _ _ _ E) as (A1 & A2 & A3 & A4 & A5).
  unfold init in H. destruct (into_rw _ _) eqn:E1; [|discriminate]. injection H as <-.
  cbn in *. split; constructor; cbn; auto.
  - destruct Hs as [Hs _]. destruct (c_clen c) as [n|] eqn:En; [rewrite <- (Hs n) by auto|]; lia.
  - intros x Hx. destruct (covered_nil _ Hx).
  - repeat split; cbn; auto; lia.
  - unfold task_ok; cbn. repeat split; auto. rewrite A2. intros _ x Hx. lia.
  - intros; discriminate.
  - intros _ _ Hsucc. destruct Hsucc.
  - intros n En. lia.
Qed.

Lemma add_range_incl : forall W a k, incl W (add_range W a k).
Proof. intros W a k x Hx. apply add_range_in; auto. Qed.

Lemma good_add : forall W a b k, good W a b -> good (add_range W b k) a (b + k).
Proof.
  intros W a b k H x Hx. apply add_range_in.
  destruct (Nat.lt_ge_cases x b); [left; apply H; lia|right; lia].
Qed.

Lemma covers_add : forall l a b, covers (rs_add a b l) a b.
Proof. intros l a b x Hx. apply rs_add_covered. auto. Qed.

Lemma covers_mono : forall l a b a' b', covers l a b -> covers (rs_add a' b' l) a b.
Proof. intros l a b a' b' H x Hx. apply rs_add_covered. left. apply H, Hx. Qed.

Lemma down_add : forall W l a b, (forall x, covered l x -> In x W) -> good W a b ->
  forall x, covered (rs_add a b l) x -> In x W.
Proof. intros W l a b H1 H2 x Hx. apply rs_add_covered in Hx as [Hx|Hx]; auto. Qed.

Lemma normalize_bound : forall c z n, c_clen c = Some n -> Z.to_nat (normalize c z) <= n.
Proof. intros c z n H. unfold normalize. rewrite H. lia. Qed.

Lemma rq_readable : forall c W pos n rq, sane c ->
  rq = Z.to_nat (normalize c (Z.of_nat (pos + n))) ->
  good W pos rq -> readable c W pos n.
Proof.
  intros c W pos n rq [Hs _] E H x Hx Hl. apply H. split; [lia|].
  subst rq. unfold normalize. destruct (c_clen c) as [m|] eqn:Em; [|lia].
  rewrite (Hs m eq_refl). lia.
Qed.

Ltac rew_pc :=
  repeat match goal with
  | E : g_dpc _ = _ |- _ => rewrite E in *; clear E
  | E : g_rpc _ = _ |- _ => rewrite E in *; clear E
  end.

(** What a task step leaves alone. *)
Definition reader_frame (s s' : gstate) (u u' : ustore) : Prop :=
  g_rpc s' = g_rpc s /\ u_rpos u' = u_rpos u /\ (buf_empty u -> buf_empty u') /\
  exists es, g_trace s' = es ++ g_trace s /\
    Forall (fun e => match e with EvRead _ _ _ _ | EvSeek _ _ => False | _ => True end) es.

(** How a task step moves the write position: over bytes it stored, or to the start of
    the range request that just succeeded. *)
Definition wpos_move (s s' : gstate) (W W' : list nat) (u u' : ustore) : Prop :=
  match g_dpc s with
  | DSeeking a _ => g_dpc s' = DSelect -> u_wpos u' = a
  | _ => u_wpos u <= u_wpos u' /\ good W' (u_wpos u) (u_wpos u')
  end /\
  (forall x, In x W' -> In x W \/
     u_wpos u <= x < u_wpos u' /\ forall a b, g_dpc s <> DSeeking a b).

Lemma wpos_stay : forall s s' W u, (forall a b, g_dpc s <> DSeeking a b) ->
  wpos_move s s' W W u u.
Proof.
  intros s s' W u H. unfold wpos_move. split; [|auto].
  assert (K : u_wpos u <= u_wpos u /\ good W (u_wpos u) (u_wpos u)) by (split; [lia|intros x Hx; lia]).
  destruct (g_dpc s) eqn:E; auto. exfalso. eapply H; eauto.
Qed.

Ltac frame_events :=
  gsimpl;
  first [ exists []; split; [reflexivity|constructor]
        | eexists [_]; split; [reflexivity|constructor; [exact I|constructor]]
        | eexists [_; _]; split; [reflexivity|constructor; [exact I|constructor; [exact I|constructor]]]].

Ltac frame_same := split; [apply incl_refl|];
  split; [gsimpl; try reflexivity | split; [auto|split; [auto|]]]; frame_events.

Lemma reader_frame_refl : forall s u, reader_frame s s u u.
Proof.
  intros s u. split; [auto|split; [auto|split; [auto|]]].
  exists []. split; [reflexivity|constructor].
Qed.

Lemma reader_frame_trans : forall s1 s2 s3 u1 u2 u3,
  reader_frame s1 s2 u1 u2 -> reader_frame s2 s3 u2 u3 -> reader_frame s1 s3 u1 u3.
Proof.
  intros s1 s2 s3 u1 u2 u3 (A1 & A2 & A3 & e1 & A4 & A5) (B1 & B2 & B3 & e2 & B4 & B5).
  split; [congruence|split; [congruence|split; [auto|]]].
  exists (e2 ++ e1). split; [rewrite B4, A4, app_assoc; auto|apply Forall_app; auto].
Qed.

(** Task invariant without the control-dependent part. *)
Record coreB (c : cfg) (s : gstate) (W : list nat) (u : ustore) : Prop := mkCoreB
  { cb_store : g_store s = SPlain u;
    cb_inv : u_inv (c_content c) W u;
    cb_len : length (u_data u) <= length (c_content c);
    cb_wf : rs_wf (g_down s);
    cb_down : forall x, covered (g_down s) x -> In x W;
    cb_body : body_ok c s;
    cb_chan : forall n p, c_clen c = Some n -> g_chan s = Some p -> p <= n }.

Lemma coreT_intro : forall c s W u, coreB c s W u -> task_ok c s W u ->
  (c_seekable c = true -> c_clen c <> None -> succeeded s ->
   covers (g_down s) 0 (length (c_content c))) -> coreT c s W u.
Proof. intros c s W u [] H1 H2. constructor; auto. Qed.

Lemma coreT_base : forall c s W u, coreT c s W u -> coreB c s W u.
Proof. intros c s W u []. constructor; auto. Qed.

(** Replacing parts of the state that the base invariant does not mention. *)
Lemma coreB_ext : forall c s s' W u, coreB c s W u ->
  g_store s' = g_store s -> g_down s' = g_down s -> g_scur s' = g_scur s ->
  g_send s' = g_send s -> g_chan s' = g_chan s -> coreB c s' W u.
Proof.
  intros c s s' W u [B1 B2 B3 B4 B5 B6 B7] E1 E2 E3 E4 E5.
  constructor; unfold body_ok in *; rewrite ?E1, ?E2, ?E3, ?E4, ?E5; auto.
Qed.

Lemma coreB_down : forall c s W u a b, coreB c s W u -> good W a b ->
  coreB c (set_down s (rs_add a b (g_down s))) W u.
Proof.
  intros c s W u a b [B1 B2 B3 B4 B5 B6 B7] Hg. constructor; gsimpl; auto.
  - apply rs_add_wf; auto.
  - apply down_add; auto.
Qed.

(** A correct storage write. *)
Lemma coreB_write : forall c s W u bs e, coreB c s W u ->
  bs = slice (c_content c) (u_wpos u) (length bs) ->
  u_wpos u + length bs <= length (c_content c) ->
  coreB c (emit (set_store s (SPlain (u_write bs u))) e)
        (add_range W (u_wpos u) (length bs)) (u_write bs u).
Proof.
  intros c s W u bs e [B1 B2 B3 B4 B5 B6 B7] E L. constructor; gsimpl; auto.
  - apply u_inv_write; auto.
  - apply u_write_data_length; auto.
  - intros x Hx. apply add_range_incl; auto.
Qed.

Lemma find_gap_core : forall c s W u, sane c -> coreB c s W u -> g_rem s = None ->
  g_pfc s = true ->
  coreT c (finish_or_find_next_gap c s) W u /\
  reader_frame s (finish_or_find_next_gap c s) u u.
Proof.
  intros c s W u Hs HB Hr Hp. unfold finish_or_find_next_gap.
  assert (Hfin : (c_seekable c = true -> c_clen c <> None ->
                  covers (g_down s) 0 (length (c_content c))) ->
    coreT c (set_dpc s DFinish) W u /\ reader_frame s (set_dpc s DFinish) u u).
  { intros Hf. split.
    - apply coreT_intro; [eapply coreB_ext; eauto|exact I|intros A1 A2 _; apply Hf; auto].
    - apply (reader_frame_refl s u). }
  destruct (c_seekable c); [|apply Hfin; discriminate].
  destruct (c_clen c) as [cl|] eqn:Ec; [|apply Hfin; congruence].
  destruct (rs_next_gap 0 cl (g_down s)) as [[a b]|] eqn:Eg.
  - split.
    + apply coreT_intro; [eapply coreB_ext; eauto| |intros _ _ []].
      unfold task_ok; gsimpl. split; [auto|split; [congruence|]].
      intros n En. assert (n = cl) by congruence; subst n.
      destruct (rs_next_gap_some _ _ _ _ _ _ (cb_wf _ _ _ _ HB) Eg) as (_ & A2 & A3 & _). lia.
    + split; [auto|split; [auto|split; [auto|]]]. frame_events.
  - apply Hfin. intros _ _ x Hx. eapply rs_next_gap_none; eauto.
    destruct Hs as [Hs _]. rewrite (Hs cl Ec). auto.
Qed.

Lemma handle_seek_core : forall c s W u p, sane c -> coreB c s W u -> g_dpc s = DSelect ->
  task_ok c s W u -> (forall n, c_clen c = Some n -> p <= n) ->
  coreT c (handle_seek c s p) W u /\ reader_frame s (handle_seek c s p) u u.
Proof.
  intros c s W u p Hs HB Hd Ht Hp. unfold task_ok in Ht. rewrite Hd in Ht.
  destruct Ht as (T1 & T2 & T3). unfold handle_seek.
  destruct (should_seek c s p).
  2: { split; [|apply reader_frame_refl].
       apply coreT_intro; auto; unfold task_ok, succeeded; rewrite Hd; auto. intros _ _ []. }
  pose proof (cb_store _ _ _ _ HB) as Es. rewrite Es in *. cbn [st_wpos].
  set (s1 := if g_pfc s then _ else _).
  assert (K : coreB c s1 W u /\ reader_frame s s1 u u /\ g_dpc s1 = DSelect /\
              g_rem s1 = None /\ g_scur s1 = u_wpos u /\ (g_pfc s1 = false -> g_pfs s1 = p)).
  { subst s1. destruct (g_pfc s) eqn:Ep.
    - split; [eapply coreB_ext; eauto|]. split; [apply (reader_frame_refl s u)|]. gsimpl; auto.
    - split; [|split; [apply (reader_frame_refl s u)|gsimpl; intuition discriminate]].
      apply (coreB_ext c (set_down s (rs_add (g_pfs s) (u_wpos u) (g_down s)))); auto.
      apply coreB_down; auto. }
  clearbody s1. destruct K as (K1 & K2 & K3 & K4 & K5 & K6).
  destruct (c_clen c) as [cl|] eqn:Ec.
  - destruct (rs_next_gap (Nat.min (u_wpos u) p) cl (g_down s1)) as [[a b]|] eqn:Eg.
    + split.
      * apply coreT_intro; [eapply coreB_ext; eauto| |intros _ _ []].
        unfold task_ok; gsimpl. split; [auto|split].
        -- intros Hf. rewrite (K6 Hf).
           destruct (rs_next_gap_some _ _ _ _ _ _ (cb_wf _ _ _ _ K1) Eg) as (A1 & A2 & A3 & A4 & _).
           intros x Hx. apply (cb_down _ _ _ _ K1). apply A4. lia.
        -- intros n En. assert (n = cl) by congruence; subst n. specialize (Hp cl eq_refl).
           destruct (rs_next_gap_some _ _ _ _ _ _ (cb_wf _ _ _ _ K1) Eg) as (A1 & A2 & A3 & A4 & _). lia.
      * eapply reader_frame_trans; eauto.
        split; [auto|split; [auto|split; [auto|]]]. frame_events.
    + split; auto. apply coreT_intro; auto; unfold task_ok, succeeded; rewrite K3;
        [|intros _ _ []].
      split; [auto|split; [auto|]]. intros Hf x Hx. rewrite (K6 Hf) in Hx.
      apply (cb_down _ _ _ _ K1). eapply rs_next_gap_none; eauto.
      destruct HB as [_ _ _ _ _ (B1 & B2 & B3) _].
      assert (g_send s <= length (c_content c)) by (apply B3; congruence).
      destruct Hs as [Hs _]. rewrite (Hs cl Ec). lia.
  - split.
    + apply coreT_intro; [eapply coreB_ext; eauto| |intros _ _ []].
      unfold task_ok; gsimpl. split; [auto|split].
      * intros Hf. rewrite (K6 Hf). intros x Hx; lia.
      * intros n En. congruence.
    + eapply reader_frame_trans; eauto.
      split; [auto|split; [auto|split; [auto|]]]. frame_events.
Qed.

Lemma chunk_core : forall c s W u k, sane c -> coreB c s W u -> g_dpc s = DSelect ->
  task_ok c s W u -> (0 < k \/ g_scur s <= length (c_content c)) -> g_scur s + k <= g_send s ->
  let s' := handle_bytes c (set_scur s (g_scur s + k)) (Some (slice (c_content c) (g_scur s) k)) in
  coreT c s' W u /\ reader_frame s s' u u.
Proof.
  intros c s W u k Hs HB Hd Ht Hk Hle s'. subst s'. unfold task_ok in Ht. rewrite Hd in Ht.
  destruct Ht as (T1 & T2 & T3).
  assert (HB' : coreB c (set_scur s (g_scur s + k)) W u).
  { destruct HB as [B1 B2 B3 B4 B5 (B6 & B6' & B6'') B7]. constructor; gsimpl; auto.
    unfold body_ok; gsimpl. split; [auto|split; [|auto]].
    destruct B6' as [B6'|B6']; [auto|]. right. lia. }
  assert (HL : length (slice (c_content c) (g_scur s) k) = k /\
               g_scur s + k <= length (c_content c)).
  { destruct HB as [_ _ _ _ _ (B6 & B6' & B6'') _]. rewrite length_slice.
    destruct Hk as [Hk|Hk].
    - destruct B6' as [B6'|B6']; lia.
    - destruct B6' as [B6'|B6']; lia. }
  destruct HL as [HL HL'].
  unfold handle_bytes. gsimpl. rewrite T1. pose proof (cb_store _ _ _ _ HB) as Es.
  destruct (g_pfc s) eqn:Ep.
  - split; [|apply (reader_frame_refl s u)].
    apply coreT_intro; [eapply coreB_ext; eauto| |intros _ _ []].
    unfold task_ok, writing; gsimpl. rewrite HL, Es. cbn [st_wpos].
    split; [auto|split; [auto|split; [congruence|split; [lia|split; [lia|split; [lia|split; [lia|]]]]]]].
    split; intros x Hx; lia.
  - split; [|apply (reader_frame_refl s u)].
    apply coreT_intro; [eapply coreB_ext; eauto| |intros _ _ []].
    unfold task_ok; gsimpl. rewrite HL, Nat.sub_0_r, <- T2.
    split; [auto|split; [auto|split; [congruence|split; [lia|split; [lia|split; [lia|split; [lia|]]]]]]].
    rewrite T2. auto.
Qed.

Lemma eof_core : forall c s W u, sane c -> coreB c s W u -> g_dpc s = DSelect ->
  task_ok c s W u ->
  let s' := handle_bytes c (set_send s (g_scur s)) None in
  coreT c s' W u /\ reader_frame s s' u u.
Proof.
  intros c s W u Hs HB Hd Ht s'. subst s'. unfold task_ok in Ht. rewrite Hd in Ht.
  destruct Ht as (T1 & T2 & T3).
  assert (HB' : coreB c (set_send s (g_scur s)) W u).
  { destruct HB as [B1 B2 B3 B4 B5 (B6 & B6' & B6'') B7]. constructor; gsimpl; auto.
    unfold body_ok; gsimpl. split; [auto|split; [auto|]]. intros K; specialize (B6'' K); lia. }
  unfold handle_bytes. gsimpl. rewrite T1. pose proof (cb_store _ _ _ _ HB) as Es.
  rewrite Es. cbn [st_wpos].
  destruct (g_pfc s) eqn:Ep.
  - edestruct find_gap_core as [F1 F2]; [eauto| | | |split; [exact F1|exact F2]]; auto.
    eapply coreB_ext; eauto.
  - edestruct find_gap_core as [F1 F2]; [eauto| | | |split; [exact F1|exact F2]]; auto.
    apply (coreB_ext c (set_down (set_send s (g_scur s))
             (rs_add (g_pfs s) (u_wpos u) (g_down (set_send s (g_scur s)))))); auto.
    apply coreB_down; auto.
Qed.

Lemma write_short_inv : forall c s bytes off k k' s1, write_short c s bytes off k = Some (k', s1) ->
  k' = k /\ exists st, st_write (slice bytes off k) (g_store s) = (k, st) /\
    (0 < k /\ k < Nat.min (c_batch c) (length bytes - off)) /\
    s1 = emit (set_store s st) (EvWrite (Nat.min (c_batch c) (length bytes - off)) k).
Proof.
  intros c s bytes off k k' s1 H. unfold write_short in H.
  destruct (st_write _ _) as [n st] eqn:E.
  destruct (st_plain (g_store s)) eqn:P; [|discriminate].
  destruct (Nat.ltb_spec 0 k) as [K1|]; [|discriminate].
  destruct (Nat.ltb_spec k (Nat.min (c_batch c) (length bytes - off))) as [K2|]; [|discriminate].
  cbn [andb] in H. injection H as <- <-.
  destruct (g_store s) as [u|]; [|discriminate]. cbn [st_write] in *. injection E as <- <-.
  rewrite length_slice. replace (Nat.min k (length bytes - off)) with k by lia.
  split; [reflexivity|]. eexists. split; [reflexivity|split; [lia|reflexivity]].
Qed.

(** One storage write of [size] bytes out of [bytes], the content from [base] on. *)
Lemma write_size_core : forall c s W u bytes base off size k st lim s1, coreB c s W u ->
  bytes = slice (c_content c) base (length bytes) -> u_wpos u = base + off ->
  off <= length bytes -> base + length bytes <= length (c_content c) ->
  size <= length bytes - off -> st_write (slice bytes off size) (g_store s) = (k, st) ->
  s1 = emit (set_store s st) (EvWrite lim k) ->
  exists u', coreB c s1 (add_range W (base + off) k) u' /\ reader_frame s s1 u u' /\
    u_wpos u' = base + off + k /\ k = size /\
    g_down s1 = g_down s /\ g_dpc s1 = g_dpc s /\ g_pfc s1 = g_pfc s /\
    g_pfs s1 = g_pfs s /\ g_rem s1 = g_rem s /\ g_scur s1 = g_scur s /\ g_store s1 = SPlain u'.
Proof.
  intros c s W u bytes base off size k st lim s1 HB Eb Ew Ho Hl Hz H E1. subst s1.
  rewrite (cb_store _ _ _ _ HB) in H. cbn [st_write] in H.
  set (bs := slice bytes off size) in *.
  assert (Lb : length bs = size) by (subst bs; rewrite length_slice; lia).
  injection H as Ek Es. rewrite Lb in Ek. subst k st.
  assert (Hbs : bs = slice (c_content c) (u_wpos u) (length bs)).
  { rewrite Lb. subst bs. rewrite Eb at 1. rewrite slice_slice, Ew. f_equal. lia. }
  exists (u_write bs u). rewrite <- Ew.
  assert (HB' := coreB_write c s W u bs (EvWrite lim (length bs)) HB Hbs ltac:(lia)).
  rewrite Lb in *. rewrite u_write_wpos, Lb.
  split; [exact HB'|]. split; [|gsimpl; intuition auto].
  split; [auto|split; [apply u_write_rpos|split; [apply u_write_buf|]]]. frame_events.
Qed.

Lemma write_once_core : forall c s W u bytes base off k s1, coreB c s W u ->
  bytes = slice (c_content c) base (length bytes) -> u_wpos u = base + off ->
  off <= length bytes -> base + length bytes <= length (c_content c) ->
  write_once c s bytes off = (k, s1) ->
  exists u', coreB c s1 (add_range W (base + off) k) u' /\ reader_frame s s1 u u' /\
    u_wpos u' = base + off + k /\ k = Nat.min (c_batch c) (length bytes - off) /\
    g_down s1 = g_down s /\ g_dpc s1 = g_dpc s /\ g_pfc s1 = g_pfc s /\
    g_pfs s1 = g_pfs s /\ g_rem s1 = g_rem s /\ g_scur s1 = g_scur s /\ g_store s1 = SPlain u'.
Proof.
  intros c s W u bytes base off k s1 HB Eb Ew Ho Hl H.
  unfold write_once in H. destruct (st_write _ (g_store s)) as [k' st] eqn:E.
  injection H as <- <-. eapply write_size_core; eauto. lia.
Qed.

Lemma d_step_core : forall c s W u s', sane c -> sync s -> coreT c s W u ->
  d_step c s = Some s' ->
  exists W' u', coreT c s' W' u' /\ incl W W' /\ reader_frame s s' u u' /\
    wpos_move s s' W W' u u'.
Proof.
  intros c s W u s' Hs Hsync HT H. pose proof (coreT_base _ _ _ _ HT) as HB.
  destruct HT as [_ _ _ _ _ _ Ht _ Hfull]. pose proof (cb_store _ _ _ _ HB) as Es.
  unfold d_step in H. unfold task_ok in Ht. unfold succeeded in Hfull.
  assert (Hmv : forall s2 k u2 W2, (forall a b, g_dpc s <> DSeeking a b) ->
    u_wpos u2 = u_wpos u + k -> wpos_move s s2 W2 (add_range W2 (u_wpos u) k) u u2).
  { intros s2 k u2 W2 Hns E. unfold wpos_move. rewrite E.
    split; [|intros x Hx; apply add_range_in in Hx as [Hx|Hx]; auto].
    assert (K : u_wpos u <= u_wpos u + k /\ good (add_range W2 (u_wpos u) k) (u_wpos u) (u_wpos u + k)).
    { split; [lia|]. intros x Hx. apply add_range_in. right; lia. }
    destruct (g_dpc s) eqn:Ed; auto. exfalso. eapply Hns; eauto. }
  assert (Hst : forall s2, (forall a b, g_dpc s <> DSeeking a b) -> wpos_move s s2 W W u u)
    by (intros; apply wpos_stay; auto).
  destruct (g_dpc s) eqn:Ed; try discriminate H.
  - (* DPre *)
    destruct Ht as (T1 & T2 & T3 & T4 & T5 & T6 & T7 & T8).
    destruct (write_once c s bytes w) as [k s1] eqn:Ew.
    destruct (write_once_core c s W u bytes (u_wpos u - w) w k s1 HB T3)
      as (u' & A1 & A2 & A3 & A4 & A5 & A6 & A7 & A8 & A9 & A10 & A11); auto; [lia ..|].
    replace (u_wpos u - w + w) with (u_wpos u) in * by lia.
    exists (add_range W (u_wpos u) k), u'.
    assert (Hg : good (add_range W (u_wpos u) k) (g_pfs s) (u_wpos u + k)) by (apply good_add; auto).
    destruct (Nat.eqb_spec k 0) as [Ek|Ek]; injection H as <-.
    + unfold prefetch_done. destruct Hs as (_ & _ & Hb). rewrite A11. cbn [st_wpos].
      destruct (Nat.ltb_spec w (length bytes)); [lia|].
      assert (w = length bytes) by lia.
      assert (HB2 : coreB c (set_down s1 (rs_add (g_pfs s) (u_wpos u') (g_down s1)))
                      (add_range W (u_wpos u) k) u').
      { apply coreB_down; auto. rewrite A3. auto. }
      split; [|split; [apply add_range_incl|split; [|apply Hmv; [discriminate|lia]]]].
      * apply coreT_intro; [| |intros _ _ []].
        -- rewrite A8. destruct ((_ <=? _) || false); [eapply (coreB_ext _ _ _ _ _ HB2)|eapply (coreB_ext _ _ _ _ _ A1)]; gsimpl; auto.
        -- unfold task_ok; gsimpl. rewrite A8.
           destruct ((_ <=? _) || false); gsimpl.
           ++ rewrite A9. split; [auto|split; [lia|]]. discriminate.
           ++ rewrite A9, A8. split; [auto|split; [lia|]]. intros _. rewrite A3. auto.
      * eapply reader_frame_trans; [exact A2|].
        destruct ((_ <=? _) || false); (split; [auto|split; [auto|split; [auto|]]]); frame_events.
    + split; [|split; [apply add_range_incl|split; [exact A2|rewrite <- ?T4 in *; apply Hmv; [discriminate|lia]]]].
      apply coreT_intro; [eapply coreB_ext; eauto| |intros _ _ []].
      unfold task_ok; gsimpl. rewrite A9, A7, A8, A10, A3.
      replace (u_wpos u + k - (w + k)) with (u_wpos u - w) by lia.
      split; [auto|split; [auto|split; [auto|split; [lia|split; [lia|split; [lia|split; [lia|auto]]]]]]].
  - (* DWTop *)
    exists W, u. unfold writing in Ht. destruct (w <? length bytes) eqn:El; injection H as <-.
    + split; [|split; [apply incl_refl|split; [apply (reader_frame_refl s u)|apply Hst; discriminate]]].
      apply coreT_intro; [eapply coreB_ext; eauto| |intros _ _ []].
      unfold task_ok, writing; gsimpl. rewrite Nat.add_0_r. auto.
    + apply Nat.ltb_ge in El. destruct Ht as (T1 & T2 & T3 & T4 & T5 & T6 & T7 & T8 & T9).
      unfold report_downloading.
      assert (Hp : coreT c (set_dpc s DPanic) W u /\ incl W W /\
                   reader_frame s (set_dpc s DPanic) u u /\ wpos_move s (set_dpc s DPanic) W W u u).
      { split; [|split; [apply incl_refl|split; [apply (reader_frame_refl s u)|apply Hst; discriminate]]].
        apply coreT_intro; [eapply coreB_ext; eauto|exact I|intros _ _ []]. }
      destruct (st_wpos (g_store s)); [exact Hp|]. destruct (rs_get _ _); [|exact Hp].
      split; [|split; [apply incl_refl|split; [|apply Hst; discriminate]]].
      * apply coreT_intro; [eapply coreB_ext; eauto| |intros _ _ []].
        unfold task_ok; gsimpl. split; [auto|split; [lia|]]. congruence.
      * split; [auto|split; [auto|split; [auto|]]]. frame_events.
  - (* DWBatch *)
    destruct Ht as (T1 & T2 & T3 & T4 & T5 & T6 & T7 & T8 & T9).
    destruct (write_once c s bytes (w + nw)) as [k s1] eqn:Ew.
    destruct (write_once_core c s W u bytes pos (w + nw) k s1 HB T3)
      as (u' & A1 & A2 & A3 & A4 & A5 & A6 & A7 & A8 & A9 & A10 & A11); auto; [lia ..|].
    exists (add_range W (pos + (w + nw)) k), u'.
    assert (Hg : good (add_range W (pos + (w + nw)) k) pos (pos + (w + nw) + k)) by (apply good_add; auto).
    destruct (Nat.eqb_spec k 0) as [Ek|Ek]; injection H as <-;
      (split; [|split; [apply add_range_incl|split; [exact A2|rewrite <- ?T4 in *; apply Hmv; [discriminate|lia]]]]);
      (apply coreT_intro; [eapply coreB_ext; eauto| |intros _ _ []]);
      unfold task_ok, writing; gsimpl; rewrite A9, A7, A10, A3, A5.
    + rewrite Ek, ?Nat.add_0_r in *.
      split; [auto|split; [auto|split; [auto|split; [auto|split; [lia|split; [lia|split; [auto|auto]]]]]]].
    + replace (pos + (w + (nw + k))) with (pos + (w + nw) + k) by lia.
      split; [auto|split; [auto|split; [auto|split; [auto|split; [lia|split; [lia|split; [auto|auto]]]]]]].
  - (* DWPost *)
    destruct Ht as (T1 & T2 & T3 & T4 & T5 & T6 & T7 & T8 & T9). injection H as <-.
    exists W, u. split; [|split; [apply incl_refl|split; [apply (reader_frame_refl s u)|apply Hst; discriminate]]].
    rewrite Es. cbn [st_wpos]. rewrite T4.
    apply coreT_intro; [apply (coreB_ext c (set_down s (rs_add pos (pos + (w + nw)) (g_down s)))); auto;
                        apply coreB_down; auto| |intros _ _ []].
    unfold task_ok, writing; gsimpl.
    split; [auto|split; [auto|split; [auto|split; [auto|split; [auto|split; [auto|split; [auto|split; [auto|]]]]]]]].
    apply covers_add.
  - (* DWCheck *)
    assert (K : forall d, d = DWNotify bytes w pos nw \/ d = DWTop bytes w pos \/ d = DWWait bytes w pos ->
      forall s2, g_store s2 = g_store s -> g_down s2 = g_down s -> g_scur s2 = g_scur s ->
        g_send s2 = g_send s -> g_chan s2 = g_chan s -> g_rem s2 = g_rem s ->
        g_pfc s2 = g_pfc s -> g_dpc s2 = d -> g_rpc s2 = g_rpc s -> g_trace s2 = g_trace s ->
        coreT c s2 W u /\ incl W W /\ reader_frame s s2 u u /\ wpos_move s s2 W W u u).
    { intros d Hd s2 E1 E2 E3 E4 E5 E6 E7 E8 E9 E10.
      split; [|split; [apply incl_refl|split; [|apply Hst; discriminate]]].
      - apply coreT_intro; [eapply coreB_ext; eauto| |].
        + unfold task_ok, writing in *; rewrite E8.
          destruct Hd as [->|[->| ->]]; rewrite E2, E3, E6, E7; auto.
        + unfold succeeded; rewrite E8. destruct Hd as [->|[->| ->]]; intros _ _ [].
      - split; [auto|split; [auto|split; [auto|]]]. exists []. rewrite E10. auto. }
    exists W, u. destruct (g_req s); [destruct (_ <=? _)|]; injection H as <-;
      (eapply K; [|gsimpl; auto ..]); [auto|destruct (nw =? 0); auto ..].
  - (* DWNotify *)
    injection H as <-. exists W, u.
    split; [|split; [apply incl_refl|split; [apply (reader_frame_refl s u)|apply Hst; discriminate]]].
    apply coreT_intro; [eapply coreB_ext; eauto| |].
    + unfold task_ok, writing in *; gsimpl. destruct (nw =? 0); auto.
    + unfold succeeded; gsimpl. destruct (nw =? 0); intros _ _ [].
  - (* DWWait *)
    destruct (g_permit s); [|discriminate]. injection H as <-. exists W, u.
    split; [|split; [apply incl_refl|split; [apply (reader_frame_refl s u)|apply Hst; discriminate]]].
    apply coreT_intro; [eapply coreB_ext; eauto| |intros _ _ []].
    unfold task_ok, writing in *; gsimpl. auto.
  - (* DFinish *)
    injection H as <-. exists W, u.
    split; [|split; [apply incl_refl|split; [apply (reader_frame_refl s u)|apply Hst; discriminate]]].
    apply coreT_intro; [eapply coreB_ext; eauto|exact I|auto].
  - (* DReport *)
    injection H as <-. exists W, u. unfold report_complete.
    split; [|split; [apply incl_refl|split; [|apply Hst; discriminate]]].
    + apply coreT_intro; [eapply coreB_ext; eauto|exact I|auto].
    + split; [auto|split; [auto|split; [auto|]]]. frame_events.
  - (* DSetFailed *)
    injection H as <-. exists W, u.
    split; [|split; [apply incl_refl|split; [apply (reader_frame_refl s u)|apply Hst; discriminate]]].
    apply coreT_intro; [eapply coreB_ext; eauto|exact I|].
    unfold succeeded; gsimpl. discriminate.
  - (* DSignal *)
    injection H as <-. exists W, u.
    split; [|split; [apply incl_refl|split; [apply (reader_frame_refl s u)|apply Hst; discriminate]]].
    apply coreT_intro; [eapply coreB_ext; eauto|exact I|auto].
  - (* DCancelTok *)
    injection H as <-. exists W, u.
    split; [|split; [apply incl_refl|split; [apply (reader_frame_refl s u)|apply Hst; discriminate]]].
    apply coreT_intro; [eapply coreB_ext; eauto|exact I|auto].
Qed.

Lemma body_window_ok : forall c a b x y, honours_ranges c -> body_window c a b = Some (x, y) ->
  x = a /\ (y = a \/ a <= y <= length (c_content c)).
Proof.
  intros c a b x y [H1 H2] H. unfold body_window in H.
  destruct (inverted c a b).
  - destruct (c_inv c); [congruence| |discriminate]. injection H as <- <-. auto.
  - injection H as <- <-. split; auto. destruct b; lia.
Qed.

Lemma seek_done_core : forall c s W u a b ok s', sane c -> honours_ranges c -> sync s ->
  coreT c s W u -> g_dpc s = DSeeking a b -> seek_done c s a b ok = Some s' ->
  exists u', coreT c s' W u' /\ reader_frame s s' u u' /\ wpos_move s s' W W u u'.
Proof.
  intros c s W u a b ok s' Hs Hh Hsync HT Ed H. pose proof (coreT_base _ _ _ _ HT) as HB.
  destruct HT as [_ _ _ _ _ _ Ht _ _]. unfold task_ok in Ht. rewrite Ed in Ht.
  destruct Ht as (T1 & T2 & T3). unfold seek_done in H.
  destruct ok.
  2: { injection H as <-. exists u. split; [|split; [apply (reader_frame_refl s u)|unfold wpos_move; rewrite Ed; split; [discriminate|auto]]].
       apply coreT_intro; [eapply coreB_ext; eauto|exact I|].
       intros _ _ Hd. apply (sy_done _ Hsync) in Hd. rewrite Ed in Hd. discriminate Hd. }
  destruct (body_window c a b) as [[x y]|] eqn:Eb; [|discriminate].
  destruct (body_window_ok _ _ _ _ _ Hh Eb) as [-> Hy].
  pose proof (cb_store _ _ _ _ HB) as Es. rewrite Es in H. cbn [st_wseek] in H.
  injection H as <-. exists (u_wseek a u).
  assert (Hm : wpos_move s (set_dpc (set_store (set_send (set_scur s a) y) (SPlain (u_wseek a u))) DSelect)
                 W W u (u_wseek a u))
    by (unfold wpos_move; rewrite Ed; split; [intros _; apply u_wseek_wpos|auto]).
  split; [|split; [|exact Hm]].
  - apply coreT_intro; [| |intros _ _ []].
    + destruct HB as [B1 B2 B3 B4 B5 B6 B7]. constructor; gsimpl; auto.
      * apply u_inv_wseek; auto.
      * rewrite u_wseek_data; auto.
      * unfold body_ok; gsimpl. split; [lia|split; [lia|]]. intros Hn.
        destruct (c_clen c) as [n|] eqn:En; [|congruence].
        destruct Hs as [Hs _]. specialize (Hs n En). specialize (T3 n eq_refl). lia.
    + unfold task_ok; gsimpl. rewrite u_wseek_wpos. auto.
  - split; [auto|split; [apply u_wseek_rpos|split; [apply u_wseek_buf|]]]. frame_events.
Qed.

Lemma coreT_task_step : forall c s l s' W u,
  sane c -> honours_ranges c -> core_env c s l -> task_label l = true ->
  sync s -> coreT c s W u -> step c s l = Some s' ->
  exists W' u', coreT c s' W' u' /\ incl W W' /\ reader_frame s s' u u' /\
    wpos_move s s' W W' u u'.
Proof.
  intros c s l s' W u Hs Hh Henv Hl Hsync HT H. pose proof (coreT_base _ _ _ _ HT) as HB.
  pose proof (cb_store _ _ _ _ HB) as Es. pose proof (co_task _ _ _ _ HT) as Ht.
  assert (Hsame : (forall a b, g_dpc s <> DSeeking a b) ->
    forall s1, coreT c s1 W u /\ reader_frame s s1 u u ->
    exists W' u', coreT c s1 W' u' /\ incl W W' /\ reader_frame s s1 u u' /\
      wpos_move s s1 W W' u u').
  { intros Hns s1 [K1 K2]. exists W, u. split; [auto|split; [apply incl_refl|split; [auto|]]].
    apply wpos_stay; auto. }
  destruct l; try discriminate Hl; cbn [step] in H.
  - destruct (g_dpc s) eqn:Ed; try discriminate H.
    destruct (g_chan s) as [p|] eqn:Ec; [|discriminate]. injection H as <-. apply Hsame; [discriminate|].
    assert (HB' : coreB c (set_chan s None) W u).
    { destruct HB as [B1 B2 B3 B4 B5 B6 B7]. constructor; gsimpl; auto. discriminate. }
    destruct (handle_seek_core c (set_chan s None) W u p Hs HB') as [K1 K2]; auto.
    { intros n En. eapply co_chan; eauto. }
  - destruct (g_dpc s) eqn:Ed; try discriminate H.
    destruct (Nat.leb_spec (g_scur s + k) (g_send s)); [|discriminate]. injection H as <-.
    apply Hsame; [discriminate|]. apply chunk_core; auto.
  - destruct (g_dpc s) eqn:Ed; try discriminate H. injection H as <-. apply Hsame; [discriminate|].
    apply eof_core; auto.
  - destruct (g_dpc s) eqn:Ed; try discriminate H. injection H as <-. apply Hsame; [discriminate|].
    split; [auto|apply reader_frame_refl].
  - destruct (g_dpc s) eqn:Ed; try discriminate H. injection H as <-. apply Hsame; [discriminate|].
    unfold task_ok in Ht. rewrite Ed in Ht. destruct Ht as (T1 & T2 & T3).
    unfold handle_reconnect. rewrite Es. cbn [st_wpos]. destruct Hh as [_ Hrec]. rewrite Hrec.
    split.
    + apply coreT_intro.
      * destruct HB as [B1 B2 B3 B4 B5 (B6 & B6' & B6'') B7]. constructor; destruct rc; gsimpl; auto;
          unfold body_ok; gsimpl; auto.
        split; [lia|split; [lia|]]. intros K; specialize (B6'' K). lia.
      * unfold task_ok. destruct rc; gsimpl; rewrite Ed; auto.
      * unfold succeeded. destruct rc; gsimpl; rewrite Ed; intros _ _ [].
    + destruct rc; (split; [auto|split; [auto|split; [auto|]]]); frame_events.
  - destruct (g_dpc s) eqn:Ed; try discriminate H. destruct (g_cancel s); [|discriminate].
    injection H as <-. apply Hsame; [discriminate|]. split; [|apply (reader_frame_refl s u)].
    apply coreT_intro; [eapply coreB_ext; eauto|exact I|].
    intros _ _ Hd. apply (sy_done _ Hsync) in Hd. rewrite Ed in Hd. discriminate Hd.
  - eapply d_step_core; eauto.
  - destruct (g_dpc s) eqn:Ed; try discriminate H.
    destruct (seek_done_core _ _ _ _ _ _ _ _ Hs Hh Hsync HT Ed H) as (u' & K1 & K2 & K3).
    exists W, u'. split; [auto|split; [apply incl_refl|auto]].
  - destruct (g_dpc s) eqn:Ed; try discriminate H; injection H as <-; (apply Hsame; [discriminate|]);
      (split; [|apply (reader_frame_refl s u)]);
      (apply coreT_intro; [eapply coreB_ext; eauto|exact I|]);
      try (intros _ _ Hd; apply (sy_done _ Hsync) in Hd; rewrite Ed in Hd; discriminate Hd).
    pose proof (co_full _ _ _ _ HT) as Hf. unfold succeeded in Hf. rewrite Ed in Hf. auto.
  - destruct (g_dpc s) as [| | | | | | | | | | |b| | | | |] eqn:Ed; try discriminate H.
    injection H as <-. apply Hsame; [discriminate|]. split.
    + apply coreT_intro; [eapply coreB_ext; eauto| |].
      * unfold task_ok; gsimpl. destruct (ok && b); exact I.
      * unfold succeeded; gsimpl. pose proof (co_full _ _ _ _ HT) as Hf.
        pose proof (sy_done _ Hsync) as Hd. pose proof (sy_final _ Hsync) as Hd2.
        unfold succeeded in Hf. rewrite Ed in *.
        destruct ok, b; cbn [andb]; auto.
    + split; [auto|split; [auto|split; [auto|]]]. frame_events.
  - destruct (g_dpc s) as [| | | | |bytes w pos nw| | | | | | | | | | |] eqn:Ed; try discriminate H.
    injection H as <-. apply Hsame; [discriminate|]. split; [|apply (reader_frame_refl s u)].
    unfold task_ok in Ht. rewrite Ed in Ht.
    apply coreT_intro; [eapply coreB_ext; eauto| |].
    + unfold task_ok, writing in *; gsimpl. destruct (nw =? 0); auto.
    + unfold succeeded; gsimpl. destruct (nw =? 0); intros _ _ [].
  - destruct (g_dpc s) as [| | | | | |bytes w pos| | | | | | | | | |] eqn:Ed; try discriminate H.
    destruct (g_again s); [discriminate H|].
    injection H as <-. apply Hsame; [discriminate|]. split; [|apply (reader_frame_refl s u)].
    unfold task_ok in Ht. rewrite Ed in Ht.
    apply coreT_intro; [eapply coreB_ext; eauto| |].
    + unfold task_ok, writing in *; gsimpl. auto.
    + unfold succeeded; gsimpl. intros _ _ [].
  - assert (Hmv : forall s2 k2 u2 W2, (forall a b, g_dpc s <> DSeeking a b) ->
      u_wpos u2 = u_wpos u + k2 -> wpos_move s s2 W2 (add_range W2 (u_wpos u) k2) u u2).
    { intros s2 k2 u2 W2 Hns E. unfold wpos_move. rewrite E.
      split; [|intros x Hx; apply add_range_in in Hx as [Hx|Hx]; auto].
      assert (K : u_wpos u <= u_wpos u + k2 /\ good (add_range W2 (u_wpos u) k2) (u_wpos u) (u_wpos u + k2)).
      { split; [lia|]. intros x Hx. apply add_range_in. right; lia. }
      destruct (g_dpc s) eqn:Ed; auto. exfalso. eapply Hns; eauto. }
    unfold task_ok in Ht.
    destruct (g_dpc s) as [|bytes w| |bytes w pos nw| | | | | | | | | | | | |] eqn:Ed; try discriminate H.
    + destruct Ht as (T1 & T2 & T3 & T4 & T5 & T6 & T7 & T8).
      destruct (write_short c s bytes w k) as [[k' s1]|] eqn:E; [|discriminate H]. injection H as <-.
      apply write_short_inv in E as (-> & st & E1 & E2 & E3).
      edestruct (write_size_core c s W u bytes (u_wpos u - w) w k k st)
        as (u' & A1 & A2 & A3 & A4 & A5 & A6 & A7 & A8 & A9 & A10 & A11); eauto; [lia ..|].
      replace (u_wpos u - w + w) with (u_wpos u) in * by lia.
      exists (add_range W (u_wpos u) k), u'.
      assert (Hg : good (add_range W (u_wpos u) k) (g_pfs s) (u_wpos u + k)) by (apply good_add; auto).
      split; [|split; [apply add_range_incl|split; [exact A2|apply Hmv; [discriminate|lia]]]].
      apply coreT_intro; [eapply coreB_ext; eauto| |intros _ _ []].
      unfold task_ok; gsimpl. rewrite A9, A7, A8, A10, A3.
      replace (u_wpos u + k - (w + k)) with (u_wpos u - w) by lia.
      split; [auto|split; [auto|split; [auto|split; [lia|split; [lia|split; [lia|split; [lia|auto]]]]]]].
    + destruct Ht as (T1 & T2 & T3 & T4 & T5 & T6 & T7 & T8 & T9).
      destruct (write_short c s bytes (w + nw) k) as [[k' s1]|] eqn:E; [|discriminate H]. injection H as <-.
      apply write_short_inv in E as (-> & st & E1 & E2 & E3).
      edestruct (write_size_core c s W u bytes pos (w + nw) k k st)
        as (u' & A1 & A2 & A3 & A4 & A5 & A6 & A7 & A8 & A9 & A10 & A11); eauto; [lia ..|].
      exists (add_range W (pos + (w + nw)) k), u'.
      assert (Hg : good (add_range W (pos + (w + nw)) k) pos (pos + (w + nw) + k)) by (apply good_add; auto).
      split; [|split; [apply add_range_incl|split; [exact A2|rewrite <- ?T4 in *; apply Hmv; [discriminate|lia]]]].
      apply coreT_intro; [eapply coreB_ext; eauto| |intros _ _ []].
      unfold task_ok, writing; gsimpl; rewrite A9, A7, A10, A3, A5.
      replace (pos + (w + (nw + k))) with (pos + (w + nw) + k) by lia.
      split; [auto|split; [auto|split; [auto|split; [auto|split; [lia|split; [lia|split; [auto|auto]]]]]]].
Qed.

(** Reader steps keep the task half. *)
Lemma coreT_reader_ext : forall c s s' W u u', coreT c s W u ->
  g_store s' = SPlain u' -> u_inv (c_content c) W u' -> u_data u' = u_data u ->
  u_wpos u' = u_wpos u ->
  g_down s' = g_down s -> g_dpc s' = g_dpc s -> g_pfc s' = g_pfc s -> g_pfs s' = g_pfs s ->
  g_rem s' = g_rem s -> g_scur s' = g_scur s -> g_send s' = g_send s ->
  g_done s' = g_done s -> g_failed s' = g_failed s ->
  (forall n p, c_clen c = Some n -> g_chan s' = Some p -> p <= n) ->
  coreT c s' W u'.
Proof.
  intros c s s' W u u' [C1 C2 C3 C4 C5 C6 C7 C8 C9] E0 E1 E2 E3 E4 E5 E6 E7 E8 E9 E10 E11 E12 E13.
  constructor; auto; unfold body_ok, task_ok, writing, succeeded in *;
    rewrite ?E2, ?E3, ?E4, ?E5, ?E6, ?E7, ?E8, ?E9, ?E10, ?E11, ?E12; auto.
Qed.

Lemma coreR_task_ext : forall c s s' W W' u u', coreR c s W u -> incl W W' ->
  reader_frame s s' u u' -> coreR c s' W' u'.
Proof.
  intros c s s' W W' u u' [R1 R2 R3] Hi (F1 & F2 & F3 & es & F4 & F5). constructor.
  - intros n En. rewrite F2. auto.
  - unfold reader_ok in *. rewrite F1. destruct (g_rpc s); auto; intuition auto;
      eapply readable_incl; eauto.
  - rewrite F4. clear F4. induction F5 as [|e es He _ IH]; cbn; auto. split; auto.
    destruct e; cbn; auto; contradiction.
Qed.

Lemma u_read_bound : forall n u bs u', buf_empty u -> u_read n u = (Ok bs, u') ->
  length bs <= length (u_data u) - u_rpos u.
Proof.
  intros n [m|f] bs u' Hb H; cbn in *.
  - unfold mem_read in H. destruct (_ <? _); [discriminate|]. injection H as <- _.
    rewrite length_slice. lia.
  - unfold file_read, file_rpos in *. rewrite Hb in *. cbn.
    destruct (_ <=? _); injection H as <- _; rewrite ?firstn_length, ?length_slice; lia.
Qed.

Lemma read_faithful : forall c W u n bs u', u_inv (c_content c) W u -> buf_empty u ->
  length (u_data u) <= length (c_content c) -> readable c W (u_rpos u) n ->
  (short_reads (c_provider c) = false -> u_whole u) ->
  u_read n u = (Ok bs, u') -> faithful c (u_rpos u) n bs.
Proof.
  intros c W u n bs u' H1 H2 H3 H4 H5 H6.
  destruct (u_read_ok _ _ _ _ _ _ H1 H2 H3 H4 H6) as (k & K1 & K2 & K3 & K4).
  exists k. auto 6.
Qed.

Lemma core_reader_step : forall c s l s' W u,
  sane c -> task_label l = false -> traced c s ->
  coreW c s W u -> step c s l = Some s' ->
  exists u', coreW c s' W u'.
Proof.
  intros c s l s' W u Hs Hl Htr [HT HR] H.
  pose proof (co_store _ _ _ _ HT) as Es. pose proof (co_inv _ _ _ _ HT) as Hu.
  pose proof (co_chan _ _ _ _ HT) as Hc.
  destruct HR as [R1 R2 R3]. unfold reader_ok in R2.
  destruct Htr as [_ Tr1 _ _ _ Trw].
  assert (Hsame : forall s1, g_store s1 = SPlain u -> g_down s1 = g_down s ->
    g_dpc s1 = g_dpc s -> g_pfc s1 = g_pfc s -> g_pfs s1 = g_pfs s -> g_rem s1 = g_rem s ->
    g_scur s1 = g_scur s -> g_send s1 = g_send s -> g_done s1 = g_done s ->
    g_failed s1 = g_failed s -> g_chan s1 = g_chan s ->
    reader_ok c s1 W u -> all_events (fast_read_ok c) (g_trace s1) ->
    exists u', coreW c s1 W u').
  { intros s1 E0 E1 E2 E3 E4 E5 E6 E7 E8 E9 E10 Hr He. exists u. split.
    - eapply coreT_reader_ext; eauto. rewrite E10; auto.
    - constructor; auto. }
  destruct l; try discriminate Hl; cbn [step] in H.
  3-5: [> destruct (g_rpc s) eqn:Er; try discriminate H; injection H as <-
        | injection H as <-
        | destruct (g_rpc s) eqn:Er; try discriminate H; injection H as <-]; exists u;
      (split; [try (destruct (c_cancel_on_drop c)); eapply coreT_reader_ext; eauto
              |constructor; gsimpl; auto; unfold reader_ok; gsimpl;
               try (destruct (c_cancel_on_drop c)); auto; try (destruct o; exact I)]).
  2:{ unfold r_error in H. unfold reader_at in Tr1.
      destruct (g_rpc s) as [|n| | | | |n pos rq|n pos rq waited| |from| | | | | |from p|] eqn:Er; try discriminate H;
        try (destruct from; [discriminate H| |discriminate H]);
        try (destruct (st_plain (g_store s) && _); [|discriminate H]);
        try (destruct (st_plain (g_store s)); [|discriminate H]);
        injection H as <-; apply Hsame; gsimpl; auto; try exact I; try (split; auto; exact I).
      intros _ bs Hb. discriminate Hb. }
  unfold r_step in H. rewrite Es in *. cbn [st_rpos st_tell st_read st_rseek] in *.
  unfold reader_at in Tr1.
  destruct (g_rpc s) eqn:Er; try discriminate H.
  - destruct (g_failed s) eqn:Ef;
      [|destruct (excessive_read c n)]; injection H as <-;
      [apply Hsame; gsimpl; auto; try exact I; split; auto; cbn; auto ..|].
    exists (u_tell u). unfold u_tell. split.
    + eapply coreT_reader_ext; gsimpl; eauto;
        [apply u_inv_rseek; auto|apply u_rseek_data|apply u_rseek_wpos].
    + constructor; gsimpl; auto; [rewrite u_rseek_rpos; auto|].
      unfold reader_ok; gsimpl. split; auto. apply u_rseek_buf.
  - destruct R2 as [R2 R2'].
    assert (K : forall s1, s1 = set_rpc s (RRSet n pos rq) -> exists u', coreW c s1 W u').
    { intros s1 ->. apply Hsame; gsimpl; auto. split; auto. }
    destruct (rs_get pos (g_down s)) as [[a e]|] eqn:Eg;
      [destruct (Nat.leb_spec rq e)|]; injection H as <-; auto.
    apply Hsame; gsimpl; auto. split; auto. intros _.
    eapply rq_readable; eauto. intros x Hx. apply (co_down _ _ _ _ HT).
    destruct (rs_get_covers _ _ _ _ Eg) as [A1 A2]. apply A2; lia.
  - injection H as <-. apply Hsame; gsimpl; auto.
  - injection H as <-. apply Hsame; destruct (g_wreq s); gsimpl; auto.
  - destruct (g_done s) eqn:Edn; [|destruct (g_reached s); [|discriminate]]; injection H as <-;
      apply Hsame; gsimpl; auto.
  - destruct (g_failed s) eqn:Ef; injection H as <-.
    + apply Hsame; gsimpl; auto; [exact I|cbn; auto].
    + exists (u_tell u). unfold u_tell. split.
      * eapply coreT_reader_ext; gsimpl; eauto;
          [apply u_inv_rseek; auto|apply u_rseek_data|apply u_rseek_wpos].
      * constructor; gsimpl; auto; [rewrite u_rseek_rpos; auto|].
        unfold reader_ok; gsimpl. split; [apply u_rseek_buf|discriminate].
  - destruct R2 as [R2 R2']. destruct Tr1 as [Tr1 Tr2].
    destruct (u_read n u) as [r u'] eqn:Eu.
    destruct (u_read_frame _ _ _ _ _ _ Hu Eu) as (F1 & F2 & F3 & F4).
    destruct r as [bs|e|]; injection H as <-; exists u'.
    + split; [eapply coreT_reader_ext; gsimpl; eauto|].
      constructor; gsimpl; auto.
      * intros m Em. specialize (R1 m Em). pose proof (u_read_bound _ _ _ _ R2 Eu).
        pose proof (co_len _ _ _ _ HT). destruct Hs as [Hs _]. rewrite (Hs m Em) in *. lia.
      * unfold reader_ok; gsimpl. intros Hw bs' [= <-].
        rewrite <- Tr2. eapply read_faithful; eauto; [apply HT|rewrite Tr2; auto].
    + exfalso. eapply u_read_not_err; eauto.
    + split; [eapply coreT_reader_ext; gsimpl; eauto|].
      constructor; gsimpl; auto.
      * intros m Em. rewrite F4. rewrite Nat.add_0_r. auto.
      * exact I.
      * split; auto. destruct waited; exact I.
  - destruct Tr1 as [Tr1 Tr2]. injection H as <-.
    apply Hsame; destruct (g_wreq s); gsimpl; auto; try exact I;
      (split; [|auto]); destruct waited; cbn; auto; destruct r; auto;
      (split; [auto|apply R2; auto]).
  - destruct (g_failed s) eqn:Ef; [injection H as <-; apply Hsame; gsimpl; auto; try exact I; split; auto; exact I|].
    destruct (absolute_seek_position c (u_rpos u) from);
      [destruct (excessive_seek c _ _)| |]; injection H as <-; apply Hsame; gsimpl; auto;
      try exact I; try (split; auto; exact I).
    unfold reader_ok; gsimpl. intros n En. apply normalize_bound; auto.
  - destruct (rs_get p (g_down s)); injection H as <-; apply Hsame; gsimpl; auto.
  - injection H as <-; apply Hsame; gsimpl; auto.
  - destruct (g_chan s) as [q|] eqn:Ec; [|destruct (chan_open (g_dpc s))]; injection H as <-;
      [apply Hsame; gsimpl; auto| |apply Hsame; gsimpl; auto].
    exists u. split.
    + eapply coreT_reader_ext; gsimpl; eauto. intros n q En [= <-]. auto.
    + constructor; gsimpl; auto.
  - destruct (g_done s) eqn:Edn; [|destruct (g_reached s); [|discriminate]]; injection H as <-;
      apply Hsame; gsimpl; auto.
  - destruct (g_failed s) eqn:Ef; injection H as <-; apply Hsame; gsimpl; auto;
      try exact I; split; auto; exact I.
  - injection H as <-. exists (u_rseek p u). split.
    + eapply coreT_reader_ext; gsimpl; eauto;
        [apply u_inv_rseek; auto|apply u_rseek_data|apply u_rseek_wpos].
    + constructor; gsimpl; auto.
      * rewrite u_rseek_rpos; auto.
      * exact I.
      * split; auto. exact I.
Qed.

Theorem core_step : forall c s l s' W u,
  sane c -> honours_ranges c -> core_env c s l -> sync s -> traced c s ->
  coreW c s W u -> step c s l = Some s' ->
  exists W' u', coreW c s' W' u' /\ incl W W' /\
    if task_label l then reader_frame s s' u u' /\ wpos_move s s' W W' u u'
    else W' = W.
Proof.
  intros c s l s' W u Hs Hh He Hsy Htr HC H. destruct (task_label l) eqn:El.
  - destruct HC as [HT HR].
    destruct (coreT_task_step _ _ _ _ _ _ Hs Hh He El Hsy HT H) as (W' & u' & K1 & K2 & K3 & K4).
    exists W', u'. split; [split; [auto|eapply coreR_task_ext; eauto]|auto].
  - destruct (core_reader_step _ _ _ _ _ _ Hs El Htr HC H) as (u' & K).
    exists W, u'. split; [auto|split; [apply incl_refl|auto]].
Qed.

Lemma core_reach : forall c (allow : gstate -> label -> Prop) s, sane c -> unbounded_store c -> honours_ranges c ->
  (forall s0 l, allow s0 l -> core_env c s0 l) -> reach c allow s ->
  exists W u, coreW c s W u.
Proof.
  intros c allow s Hs Hu Hh Ha H. induction H as [s H|s l s' Hr (W & u & IH) Hl H].
  - destruct (core_init _ _ Hs Hu H) as [u K]. eauto.
  - destruct (core_step _ _ _ _ _ _ Hs Hh (Ha _ _ Hl) (sync_reach _ _ _ Hr)
               (traced_reach _ _ _ Hr) IH H) as (W' & u' & K & _). eauto.
Qed.

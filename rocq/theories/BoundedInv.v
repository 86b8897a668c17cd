(** * Bounded storage and a client that reads and seeks within the downloaded data:
    positions. *)

From Coq Require Import List Arith Lia ZArith Bool.
From Verif Require Import Base ListFacts RangeSet RangeSetFacts Storage StorageFacts
  System Spec StepTac InvSync InvTrace Alive Exec Progress ReadFacts RequestFacts BoundedFacts StoreSpec.
Import ListNotations.

(** ** The storage *)

(** [W] bytes were written, the reader is at [R] and has jumped over [L]. *)
Definition bst (size : nat) (st : store) (W R L : nat) : Prop :=
  exists b H, st = SBnd b /\ ring H b /\ length H = W /\ b_rpos b = R /\ b_size b = size /\
    b_read b = (Z.of_nat R - Z.of_nat L)%Z /\ b_written b = Z.of_nat W /\
    length (u_data (b_inner b)) <= size /\ L <= R <= W.

Lemma bst_rpos : forall size st W R L, bst size st W R L -> st_rpos st = R.
Proof. intros size st W R L (b & H & -> & _ & _ & E & _). exact E. Qed.

Lemma bst_wpos : forall size st W R L, bst size st W R L -> st_wpos st = W.
Proof. intros size st W R L (b & H & -> & Rg & E & _). cbn. rewrite (rg_wpos _ _ Rg). exact E. Qed.

Lemma bst_tell : forall size st W R L, bst size st W R L -> st_tell st = st.
Proof. intros size st W R L (b & H & -> & _). reflexivity. Qed.

Lemma bst_le : forall size st W R L, bst size st W R L -> L <= R <= W.
Proof. intros size st W R L (b & H & _ & _ & _ & _ & _ & _ & _ & _ & E). exact E. Qed.

Lemma bst_write : forall size st W R L bs k st', bst size st W R L -> st_write bs st = (k, st') ->
  k = Nat.min (length bs) (size - (W - R)) /\ bst size st' (W + k) R L.
Proof.
  intros size st W R L bs k st' (b & H & -> & Rg & EH & ER & ES & Er & Ew & Hd & Hle) E.
  cbn in E. destruct (bnd_write bs b) as [k0 b'] eqn:Eb. injection E as -> <-.
  pose proof (bnd_write_ring _ _ _ _ _ Rg Eb) as Rg'.
  pose proof (bnd_write_spec _ _ _ _ Eb) as (A1 & A2 & A3 & A4 & A5 & A6 & _ & A7).
  rewrite (rg_wpos _ _ Rg), EH, ER, ES in A1. split; auto.
  exists b', (H ++ firstn k bs). rewrite app_length, firstn_length, A3, A4, A5, A6.
  repeat (split; auto); try congruence; try lia.
Qed.

Lemma bst_read : forall size st W R L n r st', bst size st W R L -> st_read n st = (r, st') ->
  (r = Err EInvalidInput /\ (size < n \/ R + size < W) /\ st' = st) \/
  (n <= size /\ exists bs, r = Ok bs /\ length bs = Nat.min n (W - R) /\ bst size st' W (R + length bs) L).
Proof.
  intros size st W R L n r st' (b & H & -> & Rg & EH & ER & ES & Er & Ew & Hd & Hle) E.
  cbn in E. destruct (bnd_read n b) as [r0 b'] eqn:Eb. injection E as -> <-.
  assert (Hd' : length (u_data (b_inner b)) <= b_size b) by lia.
  destruct (bnd_read_ring _ _ _ _ _ Rg Hd' Eb) as (Rg' & D' & S' & W' & _ & C).
  rewrite EH, ER, ES, Er, Ew in *.
  destruct C as [(-> & -> & C)|[(-> & -> & C1 & C2 & C3)|(C1 & C2 & C3 & C4 & -> & C5 & C6)]].
  - left. repeat split; auto. lia.
  - right. split; auto. exists []. cbn. split; auto. split; [lia|]. rewrite Nat.add_0_r.
    exists b, H. repeat (split; auto); lia.
  - right. split; auto. eexists. split; [reflexivity|]. rewrite length_slice, EH.
    split; [lia|]. exists b', H.
    replace (Nat.min (Nat.min (W - R) n) (W - R)) with (Nat.min (W - R) n) by lia.
    repeat (split; auto); try congruence; try lia.
Qed.

Lemma bst_rseek : forall size st W R L p r st', bst size st W R L -> L <= p <= W ->
  st_rseek p st = (r, st') -> r = Ok p /\ bst size st' W p (L + (p - R)).
Proof.
  intros size st W R L p r st' (b & H & -> & Rg & EH & ER & ES & Er & Ew & Hd & Hle) Hp E.
  cbn in E. unfold bnd_rseek, counter_sub in E. rewrite ER, Er in E.
  destruct (Z.ltb_spec (Z.of_nat R - Z.of_nat L) (Z.of_nat (R - p))); [lia|]. injection E as <- <-.
  split; auto. eexists. exists H. split; [reflexivity|]. destruct Rg as [R1 R2 R3].
  cbn [b_rpos b_size b_read b_written b_inner]. repeat (split; auto); cbn; try lia; auto.
Qed.

Lemma bst_wseek : forall size st W R L r st', bst size st W R L -> st_wseek W st = (r, st') ->
  r = Ok W /\ bst size st' W R L.
Proof.
  intros size st W R L r st' (b & H & -> & Rg & EH & ER & ES & Er & Ew & Hd & Hle) E.
  cbn in E. unfold bnd_wseek, counter_sub in E. rewrite (rg_wpos _ _ Rg), EH, Nat.sub_diag, Ew in E.
  destruct (Z.ltb_spec (Z.of_nat W) (Z.of_nat 0)); [lia|]. injection E as <- <-.
  split; auto. eexists. exists H. split; [reflexivity|]. destruct Rg as [R1 R2 R3].
  cbn [b_rpos b_size b_read b_written b_inner]. repeat (split; auto); cbn; try lia; auto.
Qed.

Lemma bst_init : forall c ck p n s, c_provider c = PBounded ck p n -> init c = Some s ->
  bst (ring_size (c_clen c) n) (g_store s) 0 0 0.
Proof.
  intros c ck p n s Hp H. unfold init in H. rewrite Hp in H.
  destruct (into_rw _ _) as [st|] eqn:E; [|discriminate]. injection H as <-. cbn.
  cbn in E. destruct (bnd_new_ring _ _ _ _ _ E) as (b & -> & A1 & A2 & A3 & A4 & A5 & A6 & A7).
  exists b, []. cbn. repeat (split; auto); try lia. rewrite <- A5 at 1. exact A7.
Qed.

(** ** Downloaded ranges: one block from the start *)

Definition block (D : nat) : rset := match D with 0 => [] | _ => [(0, D)] end.

Lemma block_add : forall D pos np, pos <= D -> D <= np -> rs_add pos np (block D) = block np.
Proof.
  intros D pos np H1 H2. unfold rs_add. destruct (Nat.ltb_spec pos np).
  - destruct np as [|np]; [lia|]. destruct D as [|D]; cbn [block rs_insert].
    + assert (pos = 0) by lia. subst pos. reflexivity.
    + destruct (Nat.ltb_spec (S D) pos); [lia|]. destruct (Nat.ltb_spec (S np) 0); [lia|].
      rewrite Nat.min_0_r. replace (Nat.max (S np) (S D)) with (S np) by lia. reflexivity.
  - assert (D = np) by lia. subst. reflexivity.
Qed.

Lemma block_get : forall D p a e, rs_get p (block D) = Some (a, e) -> a = 0 /\ e = D /\ p < D.
Proof.
  intros D p a e H. destruct D; cbn [block rs_get] in H; [discriminate|].
  destruct (Nat.leb_spec 0 p); [|lia]. destruct (Nat.ltb_spec p (S D)); [|discriminate].
  injection H as <- <-. lia.
Qed.

Lemma block_get_last : forall q, rs_get q (block (S q)) = Some (0, S q).
Proof.
  intros q. cbn [block rs_get]. destruct (Nat.leb_spec 0 q); [|lia].
  destruct (Nat.ltb_spec q (S q)); [|lia]. reflexivity.
Qed.

Lemma block_gap : forall D cl, rs_next_gap 0 cl (block D) = if D <? cl then Some (D, cl) else None.
Proof.
  intros D cl. destruct D; cbn [block rs_next_gap].
  - destruct (Nat.leb_spec cl 0), (Nat.ltb_spec 0 cl); auto; lia.
  - destruct (Nat.leb_spec cl 0), (Nat.ltb_spec (S D) cl); auto; try lia;
      destruct (Nat.leb_spec (S D) 0), (Nat.ltb_spec 0 0), (Nat.leb_spec cl (S D)); auto; lia.
Qed.

(** ** The task *)

(** [W]: bytes written so far. *)
Definition bat (s : gstate) (W : nat) : Prop :=
  match g_dpc s with
  | DSelect =>
      if g_pfc s then g_down s = block W /\ (forall r, g_rem s = Some r -> r <> [])
      else g_down s = [] /\ g_rem s = None
  | DPre bytes w => g_pfc s = false /\ g_rem s = None /\ g_down s = [] /\ w <= length bytes
  | DWTop bytes w pos | DWWait bytes w pos =>
      g_pfc s = true /\ g_rem s = None /\ g_down s = block W /\ bytes <> [] /\
      w <= length bytes /\ W = pos + w
  | DWBatch bytes w pos nw | DWPost bytes w pos nw =>
      g_pfc s = true /\ g_rem s = None /\ g_down s = block (pos + w) /\
      w < length bytes /\ w + nw <= length bytes /\ W = pos + (w + nw)
  | DWCheck bytes w pos nw | DWNotify bytes w pos nw =>
      g_pfc s = true /\ g_rem s = None /\ g_down s = block W /\ bytes <> [] /\
      nw <= w <= length bytes /\ W = pos + w /\ (nw = 0 -> w < length bytes)
  | DSeeking a b =>
      g_pfc s = true /\ g_rem s = None /\ g_down s = block W /\ a = W
  | DPanic => False
  | _ => exists D, D <= W /\ g_down s = block D
  end.

(** A seek in progress goes to downloaded data, not before the number of bytes jumped
    over. *)
Definition local_at (s : gstate) (p : nat) : Prop :=
  is_downloaded s p /\ skipped (g_trace s) <= p.
Definition local_pc (c : cfg) (s : gstate) : Prop :=
  match g_rpc s with
  | RSCheck from => forall t, seek_target c (cursor (g_trace s)) from = Some t ->
      (0 <= t < two64)%Z /\ local_at s (clamp c t)
  | RSGet _ p | RSSeek _ p => local_at s p
  | RSSet _ _ | RSSend _ _ | RSWait _ _ | RSCheck2 _ _ => False
  | _ => True
  end.

Lemma task_views : forall c s l s', task_label l = true -> step c s l = Some s' ->
  cursor (g_trace s') = cursor (g_trace s) /\ skipped (g_trace s') = skipped (g_trace s).
Proof.
  intros c s l s' Et H. destruct l; try discriminate Et; step_cases H; gsimpl; cbn [cursor skipped]; auto.
Qed.

Lemma local_pc_task : forall c s l s', task_label l = true -> step c s l = Some s' ->
  local_pc c s -> local_pc c s'.
Proof.
  intros c s l s' Et H K. pose proof (task_step_rpc _ _ _ _ Et H) as Er.
  pose proof (task_views _ _ _ _ Et H) as [E1 E2].
  assert (M : forall p, local_at s p -> local_at s' p).
  { intros p [M1 M2]. split; [eapply down_mono; eauto|rewrite E2; auto]. }
  unfold local_pc in *. rewrite Er, E1. destruct (g_rpc s); auto.
  intros t Ht. destruct (K t Ht). auto.
Qed.

Definition asked_at (size : nat) (r : rpc) (R : nat) : Prop :=
  match r with
  | RRGet _ pos rq | RRSet _ pos rq | RRNotify _ pos rq | RRWait _ pos rq
  | RRCheck2 _ pos rq | RRRead _ pos rq _ => pos = R /\ rq <= R + size
  | _ => True
  end.

Record bpos (c : cfg) (size : nat) (s : gstate) (W R L : nat) : Prop := mkBpos
  { bp_store : bst size (g_store s) W R L;
    bp_chan : g_chan s = None;
    bp_pfs : g_pfs s = 0;
    bp_body : g_scur s <= g_send s /\
              (g_send s <= length (c_content c) \/ g_scur s = g_send s);
    bp_ask : asked_at size (g_rpc s) R;
    bp_at : bat s W }.

Lemma bpos_init : forall c ck p n s, c_provider c = PBounded ck p n -> init c = Some s ->
  bpos c (ring_size (c_clen c) n) s 0 0 0.
Proof.
  intros c ck p n s Hp H. pose proof (bst_init c ck p n s Hp H) as B.
  unfold init in H. destruct (into_rw _ _) eqn:E1; [|discriminate]. injection H as <-.
  cbn in *. constructor; unfold bat; cbn; auto; try lia.
  destruct (c_prefetch c =? 0); auto. split; auto. discriminate.
Qed.

(** Effect on the storage positions of one step. *)
Lemma bat_down : forall s W, bat s W -> exists D, D <= W /\ g_down s = block D.
Proof.
  intros s W H. unfold bat in H.
  destruct (g_dpc s); try contradiction; auto;
    try (destruct (g_pfc s));
    repeat match goal with K : _ /\ _ |- _ => destruct K end;
    try (exists W; split; auto; fail); try (exists 0; split; [lia|auto]; fail).
  all: exists (pos + w); split; [lia|auto].
Qed.

Ltac bcon := constructor; unfold bat; gsimpl; auto.

(** Task labels never move the reader. *)
Lemma bpos_task : forall c ck p n s W R L l s', c_provider c = PBounded ck p n -> 0 < c_batch c ->
  bpos c (ring_size (c_clen c) n) s W R L -> no_empty_chunk s l -> task_label l = true ->
  step c s l = Some s' -> exists W', (W <= W' /\ (W <= R + ring_size (c_clen c) n -> W' <= R + ring_size (c_clen c) n)) /\
    bpos c (ring_size (c_clen c) n) s' W' R L /\ g_rpc s' = g_rpc s.
Proof.
  intros c ck p n s W R L l s' Hp Hbt [A1 A2 A4 A5 A6 A7] Hl Htl H.
  set (size := ring_size (c_clen c) n) in *.
  pose proof (bst_wpos _ _ _ _ _ A1) as Hw.
  pose proof (bat_down _ _ A7) as Hdn.
  unfold bat in A7.
  destruct l; try discriminate Htl; cbn [step] in H; cbn in Hl.
  - rewrite A2 in H. destruct (g_dpc s); discriminate.
  - (* LDChunk *)
    destruct (g_dpc s) eqn:Ed; try discriminate. destruct (Nat.leb_spec (g_scur s + k) (g_send s)); [|discriminate].
    injection H as <-. exists W. split; auto. unfold handle_bytes. gsimpl.
    assert (Lne : slice (c_content c) (g_scur s) k <> []).
    { intros E. apply (f_equal (@length byte)) in E. rewrite length_slice in E. cbn in E. lia. }
    destruct (g_pfc s) eqn:Epf.
    + destruct A7 as [B1 B2]. destruct (g_rem s) as [r|] eqn:Er; gsimpl; (split; [bcon|reflexivity]); try lia;
        rewrite Hw; repeat split; auto; try lia.
      intros E. apply app_eq_nil in E as [E _]. subst. eapply B2; eauto.
    + destruct A7 as [B1 B2]. split; [|reflexivity]. bcon; try lia. repeat split; auto. lia.
  - (* LDEof *)
    destruct (g_dpc s) eqn:Ed; try discriminate. injection H as <-. exists W. split; auto.
    unfold handle_bytes, finish_or_find_next_gap. gsimpl.
    destruct (g_pfc s) eqn:Epf.
    + destruct A7 as [B1 B2]. destruct (g_rem s) as [r|] eqn:Er; gsimpl.
      * split; [bcon|reflexivity]; try lia. rewrite Hw. repeat split; auto; try lia.
      * destruct (c_seekable c), (c_clen c) as [cl|]; gsimpl;
          try (rewrite B1, block_gap; destruct (Nat.ltb_spec W cl)); gsimpl;
          (split; [bcon|reflexivity]); try lia; try (exists W; auto).
    + destruct A7 as [B1 B2].
      assert (Eb : rs_add (g_pfs s) (st_wpos (g_store s)) (g_down s) = block W).
      { rewrite A4, Hw, B1. change [] with (block 0). apply block_add; lia. }
      destruct (c_seekable c), (c_clen c) as [cl|]; gsimpl; rewrite ?Eb;
        try (rewrite block_gap; destruct (Nat.ltb_spec W cl)); gsimpl;
          (split; [bcon; rewrite ?Eb|reflexivity]); try lia; auto; try (exists W; auto).
  - destruct (g_dpc s) eqn:Ed; try discriminate. injection H as <-. exists W. split; auto. split; auto. bcon. rewrite Ed. auto.
  - (* LDTimeout *)
    destruct (g_dpc s) eqn:Ed; try discriminate. injection H as <-. exists W. split; auto.
    unfold handle_reconnect. destruct rc; [destruct (c_rec c)| |]; (split; [bcon|reflexivity]); rewrite ?Ed; auto; lia.
  - destruct (g_dpc s) eqn:Ed; try discriminate. destruct (g_cancel s); [|discriminate].
    injection H as <-. exists W. split; auto. split; [bcon|reflexivity].
  - (* LDStep *)
    unfold d_step in H. destruct (g_dpc s) eqn:Ed; try discriminate; gsimpl.
    + (* DPre *)
      destruct A7 as (B1 & B2 & B3 & B4).
      unfold write_once in H. destruct (st_write _ (g_store s)) as [k st] eqn:Es.
      destruct (bst_write _ _ _ _ _ _ _ _ A1 Es) as [Ek A1']. rewrite length_slice in Ek.
      destruct (Nat.eqb_spec k 0) as [E|E].
      * injection H as <-. exists W. split; auto. rewrite E, Nat.add_0_r in A1'.
        assert (Eb : rs_add (g_pfs s) (st_wpos st) (g_down s) = block W).
        { rewrite A4, (bst_wpos _ _ _ _ _ A1'), B3. change [] with (block 0). apply block_add; lia. }
        unfold prefetch_done. gsimpl.
        destruct (Nat.ltb_spec w (length bytes)); gsimpl.
        -- rewrite orb_true_r. split; [bcon|reflexivity]. split; auto.
           intros r [= <-] E0. apply (f_equal (@length byte)) in E0. rewrite skipn_length in E0. cbn in E0. lia.
        -- rewrite orb_false_r. destruct (_ <=? _); gsimpl; (split; [bcon|reflexivity]); rewrite ?B1; auto.
           split; auto. intros r. rewrite B2. discriminate.
      * injection H as <-. exists (W + k). split; [lia|]. split; [|reflexivity]. bcon. repeat split; auto. lia.
    + (* DWTop *)
      destruct A7 as (B1 & B2 & B3 & B4 & B5 & B6). destruct (Nat.ltb_spec w (length bytes)).
      * injection H as <-. exists W. split; auto. split; [|reflexivity]. bcon.
        repeat split; auto; try lia. rewrite <- B6; auto.
      * injection H as <-. exists W. split; auto.
        assert (length bytes <> 0) by (destruct bytes; cbn; congruence).
        unfold report_downloading. rewrite Hw. destruct W as [|q] eqn:Eq; [lia|].
        rewrite B3, block_get_last. split; [|reflexivity]. bcon. rewrite B1. split; auto.
        intros r. rewrite B2. discriminate.
    + (* DWBatch *)
      destruct A7 as (B1 & B2 & B3 & B4 & B5 & B6).
      unfold write_once in H. destruct (st_write _ (g_store s)) as [k st] eqn:Es.
      destruct (bst_write _ _ _ _ _ _ _ _ A1 Es) as [Ek A1']. rewrite length_slice in Ek.
      destruct (Nat.eqb_spec k 0) as [E|E]; injection H as <-.
      * exists W. split; auto. rewrite E, Nat.add_0_r in A1'. split; [|reflexivity]. bcon. auto 10.
      * exists (W + k). split; [lia|]. split; [|reflexivity]. bcon. repeat split; auto; lia.
    + (* DWPost *)
      destruct A7 as (B1 & B2 & B3 & B4 & B5 & B6). injection H as <-. exists W. split; auto. split; [|reflexivity].
      assert (bytes <> []) by (intros ->; cbn in *; lia).
      bcon. rewrite Hw, B3, block_add by lia. repeat split; auto; try lia.
    + (* DWCheck *)
      destruct A7 as (B1 & B2 & B3 & B4 & B5 & B6 & B7).
      destruct (g_req s) as [rq|]; [destruct (_ <=? _)|]; injection H as <-; exists W; (split; auto);
        (split; [|reflexivity]); bcon; auto 10; destruct (nw =? 0); repeat split; auto; lia.
    + destruct A7 as (B1 & B2 & B3 & B4 & B5 & B6 & B7).
      injection H as <-; exists W; (split; auto); (split; [|reflexivity]). bcon.
      destruct (nw =? 0); repeat split; auto; lia.
    + (* DWWait *)
      destruct (g_permit s); [|discriminate]. injection H as <-. exists W. split; auto. split; [|reflexivity]. bcon.
    + injection H as <-. exists W. split; auto. split; [|reflexivity]. bcon.
    + injection H as <-. exists W. split; auto. split; [|reflexivity]. unfold report_complete. bcon.
    + injection H as <-. exists W. split; auto. split; [|reflexivity]. bcon.
    + injection H as <-. exists W. split; auto. split; [|reflexivity]. bcon.
    + injection H as <-. exists W. split; auto. split; [|reflexivity]. bcon.
  - (* LDSeekRes *)
    destruct (g_dpc s) eqn:Ed; try discriminate. unfold seek_done in H.
    destruct A7 as (B1 & B2 & B3 & B4). destruct ok.
    + destruct (body_window c start stop) as [[a b]|] eqn:Ew; [|discriminate]. subst start.
      destruct (st_wseek W (g_store s)) as [r st] eqn:Es.
      destruct (bst_wseek _ _ _ _ _ _ _ A1 Es) as [-> A1']. injection H as <-.
      apply window_ok in Ew. exists W. split; auto. split; [|reflexivity]. bcon.
      rewrite B1. split; auto. intros r. rewrite B2. discriminate.
    + injection H as <-. exists W. split; auto. split; [|reflexivity]. bcon.
  - destruct (g_dpc s) eqn:Ed; try discriminate; injection H as <-; exists W; (split; auto); (split; [|reflexivity]); bcon.
  - destruct (g_dpc s) eqn:Ed; try discriminate; injection H as <-; exists W; (split; auto); (split; [|reflexivity]); bcon.
    destruct (_ && _); auto.
  - (* LDStale *)
    destruct (g_dpc s) eqn:Ed; try discriminate. destruct A7 as (B1 & B2 & B3 & B4 & B5 & B6 & B7).
    injection H as <-; exists W; (split; auto); (split; [|reflexivity]). bcon.
    destruct (nw =? 0); repeat split; auto; lia.
  - (* LDAgain *)
    destruct (g_dpc s) eqn:Ed; try discriminate. destruct (g_again s); [discriminate|].
    injection H as <-. exists W. split; auto. split; [|reflexivity]. bcon.
  - (* LDShort *)
    exfalso. destruct A1 as (b & h & A1 & _). unfold write_short in H. rewrite A1 in H.
    destruct (g_dpc s); try discriminate; destruct (st_write _ _); cbn in H; discriminate.
Qed.

(** Reader steps: only a successful read or seek moves a position. *)
Lemma bpos_reader : forall c ck p n s W R l s', c_provider c = PBounded ck p n ->
  bpos c (ring_size (c_clen c) n) s W R (skipped (g_trace s)) -> local_client c s l ->
  local_pc c s -> task_label l = false ->
  reader_at (g_rpc s) (cursor (g_trace s)) (st_rpos (g_store s)) ->
  step c s l = Some s' ->
  exists R', bpos c (ring_size (c_clen c) n) s' W R' (skipped (g_trace s')) /\ local_pc c s' /\
    g_dpc s' = g_dpc s /\
    (R' = R \/ (R <= R' /\ exists n pos w r, g_rpc s' = RRDone n pos w r) \/
     ((exists from p, g_rpc s = RSSeek from p) /\ g_rpc s' = RIdle)).
Proof.
  intros c ck p n s W R l s' Hp [A1 A2 A4 A5 A6 A7] Hl Hpc Htl Hat H.
  set (size := ring_size (c_clen c) n) in *.
  pose proof (bst_rpos _ _ _ _ _ A1) as Hr. rewrite Hr in Hat.
  pose proof (bat_down _ _ A7) as (D & HD1 & HD2).
  destruct l; try discriminate Htl; cbn [step] in H; cbn in Hl.
  - (* LRStep *)
    unfold r_step in H. rewrite Hr in H. unfold local_pc in Hpc |- *.
    destruct (g_rpc s) eqn:Er; try contradiction; try discriminate H.
    + destruct (g_failed s).
      { injection H as <-. exists R. gsimpl. split; [bcon|auto]. }
      destruct (excessive_read c n0) eqn:Ex.
      { injection H as <-. exists R. gsimpl. split; [bcon|auto]. }
      injection H as <-. exists R. gsimpl. rewrite (bst_tell _ _ _ _ _ A1). split; [|auto]. bcon.
      cbn. split; auto. unfold excessive_read in Ex. rewrite Hp in Ex. cbn in Ex.
      destruct (Nat.ltb_spec n n0); [discriminate|].
      unfold normalize, size, ring_size. destruct (c_clen c) as [cl|]; lia.
    + destruct (rs_get pos (g_down s)) as [[a e]|]; [destruct (rq <=? e)|]; injection H as <-;
        exists R; gsimpl; (split; [bcon|auto]).
    + injection H as <-. exists R; gsimpl; (split; [bcon|auto]).
    + injection H as <-. exists R. destruct (g_wreq s); gsimpl; (split; [bcon|auto]).
    + destruct (g_done s); [|destruct (g_reached s); [|discriminate]]; injection H as <-;
        exists R; gsimpl; (split; [bcon|auto]).
    + destruct (g_failed s).
      { injection H as <-. exists R. gsimpl. split; [bcon|auto]. }
      injection H as <-. exists R. gsimpl. rewrite (bst_tell _ _ _ _ _ A1). split; [bcon|auto].
    + destruct (st_read n0 (g_store s)) as [r st] eqn:Es.
      destruct (bst_read _ _ _ _ _ _ _ _ A1 Es) as [(-> & Hn & ->)|(Hn & bs & -> & Hlen & A1')].
      * injection H as <-. exists R. gsimpl. split; [bcon|auto].
      * injection H as <-. exists (R + length bs). gsimpl. split; [bcon|].
        split; [auto|split; [auto|]]. right; left. split; [lia|eauto 6].
    + injection H as <-. exists R. destruct (g_wreq s); gsimpl; (split; [bcon|auto]).
    + (* RSCheck *)
      destruct (g_failed s).
      { injection H as <-. exists R. gsimpl. split; [bcon|auto]. }
      destruct (absolute_seek_position c R from) as [z|e|] eqn:Ea.
      * destruct (excessive_seek _ _ _); injection H as <-; exists R; gsimpl; (split; [bcon|auto]).
        split; [|auto]. cbn in Hat. rewrite Hat in Hpc.
        destruct (seek_target c R from) as [t|] eqn:Et.
        -- destruct (Hpc t eq_refl) as [Ht Hloc]. rewrite (absolute_target _ _ _ _ _ Ea Et Ht). exact Hloc.
        -- destruct from; cbn in Et, Ea; try discriminate. destruct (c_clen c); discriminate.
      * injection H as <-. exists R. gsimpl. split; [bcon|auto].
      * injection H as <-. exists R. gsimpl. split; [bcon|auto].
    + (* RSGet *)
      destruct (rs_get p0 (g_down s)) as [q|] eqn:Eg; injection H as <-; exists R; gsimpl.
      * split; [bcon|auto].
      * exfalso. destruct Hpc as [(a & b & Hi & Hab) _].
        rewrite HD2 in Hi, Eg. destruct D; cbn [block] in Hi; [contradiction|].
        destruct Hi as [[= <- <-]|[]]. cbn [block rs_get] in Eg.
        destruct (Nat.leb_spec 0 p0); [|lia]. destruct (Nat.ltb_spec p0 (S D)); [|lia]. discriminate.
    + (* RSSeek *)
      destruct Hpc as [(a & b & Hi & Hab) Hsk].
      assert (p0 < W).
      { rewrite HD2 in Hi. destruct D; cbn [block] in Hi; [contradiction|].
        destruct Hi as [[= <- <-]|[]]. lia. }
      destruct (st_rseek p0 (g_store s)) as [r st] eqn:Es.
      destruct (bst_rseek _ _ _ _ _ _ _ _ A1 (conj Hsk (Nat.lt_le_incl _ _ H0)) Es) as [-> A1'].
      injection H as <-. exists p0. gsimpl. split; [|split; [auto|split; [auto|right; right; eauto]]].
      bcon. cbn [skipped]. cbn in Hat. rewrite Hat. exact A1'.
  - (* LRIoErr *)
    unfold r_error in H. unfold local_pc in Hpc |- *.
    assert (Pl : st_plain (g_store s) = false) by (destruct A1 as (b & h & A1 & _); rewrite A1; auto).
    rewrite Pl in H. destruct (g_rpc s) eqn:Er; try discriminate H; [|destruct from; discriminate H].
    injection H as <-. exists R. gsimpl. split; [bcon|auto].
  - unfold local_pc in *. destruct (g_rpc s) eqn:Er; try discriminate; injection H as <-; exists R; gsimpl.
    split; [|split; [|auto]].
    + bcon. destruct o; exact I.
    + destruct o; auto.
  - injection H as <-; exists R; gsimpl; (split; [bcon|auto]).
  - unfold local_pc in *. destruct (g_rpc s); try discriminate; injection H as <-; exists R.
    destruct (c_cancel_on_drop c); gsimpl; (split; [bcon|auto]).
Qed.

Lemma bpos_reach : forall c ck p n s, c_provider c = PBounded ck p n -> 0 < c_batch c ->
  reach c (both (local_client c) no_empty_chunk) s ->
  exists W R, bpos c (ring_size (c_clen c) n) s W R (skipped (g_trace s)) /\ local_pc c s.
Proof.
  intros c ck p n s Hp Hb H. induction H as [s H|s l s' Hr (W & R & IH & IL) [Hl1 Hl2] H].
  - exists 0, 0. pose proof (bpos_init c ck p n s Hp H) as B. unfold init in H.
    destruct (into_rw _ _); [|discriminate]. injection H as <-. split; [exact B|exact I].
  - destruct (task_label l) eqn:Et.
    + destruct (bpos_task c ck p n s W R _ l s' Hp Hb IH Hl2 Et H) as (W' & _ & K & _).
      rewrite <- (proj2 (task_views _ _ _ _ Et H)) in K.
      exists W', R. split; auto. eapply local_pc_task; eauto.
    + destruct (bpos_reader c ck p n s W R l s' Hp IH Hl1 IL Et) as (R' & K & K' & _); eauto.
      apply (tr_at _ _ (traced_reach _ _ _ Hr)).
Qed.

Lemma sequential_local : forall c s l, sequential_client s l -> local_client c s l.
Proof. intros c s l H. destruct l; cbn in *; auto. destruct o; [auto|contradiction]. Qed.

Lemma sequential_local_reach : forall c (allow : gstate -> label -> Prop) s,
  (forall s l, allow s l -> sequential_client s l /\ no_empty_chunk s l) -> reach c allow s ->
  reach c (both (local_client c) no_empty_chunk) s.
Proof.
  intros c allow s Ha H. eapply reach_weaken; [|exact H].
  intros s0 l K. destruct (Ha s0 l K). split; auto. apply sequential_local; auto.
Qed.

(** A client that does not seek stays within the window. *)
Lemma bpos_window : forall c ck p n s, c_provider c = PBounded ck p n -> 0 < c_batch c ->
  reach c (both sequential_client no_empty_chunk) s ->
  exists W R, bpos c (ring_size (c_clen c) n) s W R (skipped (g_trace s)) /\ local_pc c s /\
    reads_only (g_rpc s) /\ W <= R + ring_size (c_clen c) n.
Proof.
  intros c ck p n s Hp Hb H. induction H as [s H|s l s' Hr (W & R & IH & IL & IN & IW) [Hl1 Hl2] H].
  - exists 0, 0. pose proof (bpos_init c ck p n s Hp H) as B. unfold init in H.
    destruct (into_rw _ _); [|discriminate]. injection H as <-. split; [exact B|].
    split; [exact I|split; [exact I|lia]].
  - assert (Hr' : reach c (both sequential_client no_empty_chunk) s')
      by (eapply reach_step; eauto; split; auto).
    assert (N' : reads_only (g_rpc s')).
    { destruct (sequential_inv c (both sequential_client no_empty_chunk) s') as (N & _); auto.
      intros ? ? [A _]; exact A. }
    destruct (task_label l) eqn:Et.
    + destruct (bpos_task c ck p n s W R _ l s' Hp Hb IH Hl2 Et H) as (W' & [_ HW] & K & _).
      rewrite <- (proj2 (task_views _ _ _ _ Et H)) in K.
      exists W', R. split; [auto|split; [eapply local_pc_task; eauto|auto]].
    + destruct (bpos_reader c ck p n s W R l s' Hp IH (sequential_local c s l Hl1) IL Et) as (R' & K & K' & _ & C); eauto.
      { apply (tr_at _ _ (traced_reach _ _ _ Hr)). }
      exists W, R'. split; [auto|split; [auto|split; [auto|]]].
      destruct C as [->|[[C _]|[(from & q & C) _]]]; auto; try lia. rewrite C in IN. contradiction.
Qed.

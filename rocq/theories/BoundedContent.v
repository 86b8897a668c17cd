(** * Bounded storage and a client that reads and seeks within the downloaded
    data: the bytes. *)

From Coq Require Import List Arith Lia ZArith Bool.
From Verif Require Import Base ListFacts RangeSet RangeSetFacts Storage StorageFacts
  System Spec StepTac InvSync InvTrace LifeFacts Alive Exec Progress ReadFacts BoundedFacts StoreSpec BoundedInv.
Import ListNotations.

(** ** The storage holds [H] *)

Definition hist (st : store) (H : list byte) : Prop := exists b, st = SBnd b /\ ring H b.

Lemma hist_write : forall st H bs k st', hist st H -> st_write bs st = (k, st') ->
  hist st' (H ++ firstn k bs).
Proof.
  intros st H bs k st' (b & -> & Rg) E. cbn in E. destruct (bnd_write bs b) as [k0 b'] eqn:Eb.
  injection E as -> <-. exists b'. split; auto. eapply bnd_write_ring; eauto.
Qed.

Lemma hist_read : forall size st W R L H n r st', bst size st W R L -> hist st H ->
  st_read n st = (r, st') ->
  hist st' H /\
  ((r = Err EInvalidInput /\ (size < n \/ R + size < W)) \/ r = Ok (slice H R (Nat.min n (W - R)))).
Proof.
  intros size st W R L H n r st' (b & H0 & -> & Rg0 & EH & ER & ES & Er & Ew & Hd & Hle) (b1 & E1 & Rg) E.
  injection E1 as <-. cbn in E. destruct (bnd_read n b) as [r0 b'] eqn:Eb. injection E as -> <-.
  assert (Hd' : length (u_data (b_inner b)) <= b_size b) by lia.
  assert (HW : length H = W) by (rewrite <- (rg_wpos _ _ Rg), (rg_wpos _ _ Rg0); auto).
  destruct (bnd_read_ring _ _ _ _ _ Rg Hd' Eb) as (Rg' & D' & S' & W' & _ & C).
  rewrite HW, ER, ES, Er, Ew in *. split; [exists b'; auto|].
  destruct C as [(-> & -> & C)|[(-> & -> & C1 & C2 & C3)|(C1 & C2 & C3 & C4 & -> & C5 & C6)]].
  - left. split; auto. lia.
  - right. replace (Nat.min n (W - R)) with 0 by lia. reflexivity.
  - right. rewrite Nat.min_comm. reflexivity.
Qed.

Lemma hist_wseek : forall size st W R L H r st', bst size st W R L -> hist st H ->
  st_wseek W st = (r, st') -> hist st' H.
Proof.
  intros size st W R L H r st' (b & H0 & -> & Rg0 & EH & ER & ES & Er & Ew & Hd & Hle) (b1 & E1 & Rg) E.
  injection E1 as <-. cbn in E. unfold bnd_wseek, counter_sub in E.
  rewrite (rg_wpos _ _ Rg0), EH, Nat.sub_diag, Ew in E.
  destruct (Z.ltb_spec (Z.of_nat W) (Z.of_nat 0)); [lia|]. injection E as <- <-.
  eexists. split; [reflexivity|]. destruct Rg as [R1 R2 R3]. constructor; cbn; auto.
  rewrite <- R1, (rg_wpos _ _ Rg0). auto.
Qed.

Lemma hist_rseek : forall size st W R L H p r st', bst size st W R L -> L <= p <= W -> hist st H ->
  st_rseek p st = (r, st') -> hist st' H.
Proof.
  intros size st W R L H p r st' (b & H0 & -> & Rg0 & EH & ER & ES & Er & Ew & Hd & Hle) Hp (b1 & E1 & Rg) E.
  injection E1 as <-. cbn in E. unfold bnd_rseek, counter_sub in E. rewrite ER, Er in E.
  destruct (Z.ltb_spec (Z.of_nat R - Z.of_nat L) (Z.of_nat (R - p))); [lia|]. injection E as <- <-.
  eexists. split; [reflexivity|]. destruct Rg as [R1 R2 R3]. constructor; cbn; auto.
Qed.

Lemma hist_tell : forall st H, hist st H -> hist (st_tell st) H.
Proof. intros st H (b & -> & Rg). exists b. auto. Qed.

(** ** The task *)

(** The source cannot be repositioned, or its announced length is the true one. *)
Definition linear_or_exact (c : cfg) : Prop :=
  c_seekable c = false \/ forall N, c_clen c = Some N -> N = length (c_content c).

(** Has the task declared success? *)
Definition succeeding (d : dpc) : Prop :=
  match d with DFinish | DReport | DOnFinish true => True | _ => False end.

(** The download has everything, or has failed.  Here and below, [tr] says that no body ends
    before its time without an error. *)
Definition settled (tr : bool) (c : cfg) (s : gstate) (W : nat) : Prop :=
  g_failed s = true \/ (tr = true -> W = length (c_content c)).

Record bcont (tr : bool) (c : cfg) (s : gstate) (W : nat) : Prop := mkBcont
  { bc_hist : hist (g_store s) (firstn W (c_content c));
    bc_le : W <= length (c_content c);
    bc_pend : forall bs, pending s = Some bs ->
      bs = slice (c_content c) W (length bs) /\ g_scur s = W + length bs /\
      g_scur s <= length (c_content c);
    bc_gap : forall a b, g_dpc s = DSeeking a b ->
      b = Some (length (c_content c)) /\ a < length (c_content c);
    bc_send : tr = true -> (c_seekable c = true /\ c_clen c <> None) \/ g_send s = length (c_content c);
    bc_succ : succeeding (g_dpc s) -> tr = true -> W = length (c_content c);
    bc_sig : g_dpc s = DSignal -> settled tr c s W;
    bc_done : g_done s = true -> settled tr c s W }.

Lemma pend_write : forall (content bytes : list byte) W off m k,
  skipn off bytes = slice content W (length (skipn off bytes)) ->
  W + length (skipn off bytes) <= length content ->
  k <= m -> k <= length bytes - off ->
  firstn W content ++ firstn k (slice bytes off m) = firstn (W + k) content /\
  skipn (off + k) bytes = slice content (W + k) (length (skipn (off + k) bytes)) /\
  W + k + length (skipn (off + k) bytes) = W + length (skipn off bytes).
Proof.
  intros content bytes W off m k E Hl H1 H2. rewrite skipn_length in *.
  assert (S : skipn (off + k) bytes = skipn k (skipn off bytes)).
  { apply list_ext. intros i. rewrite !nth_error_skipn. f_equal. lia. }
  split; [|split].
  - unfold slice at 1. rewrite E, firstn_firstn, Nat.min_l, firstn_slice by lia.
    change (firstn W content) with (slice content 0 W).
    change (firstn (W + k) content) with (slice content 0 (W + k)).
    rewrite slice_app, Nat.min_l by lia. reflexivity.
  - rewrite S, E at 1. rewrite skipn_slice. f_equal. lia.
  - rewrite skipn_length. lia.
Qed.

Ltac ccon :=
  constructor; unfold pending, settled in *; gsimpl; cbn [succeeding];
  try discriminate; try contradiction; auto; try tauto;
  try match goal with
  | Hn : is_final _ = false -> g_done _ = false |- g_done _ = true -> _ =>
      let Hx := fresh in intros Hx; rewrite (Hn eq_refl) in Hx; discriminate
  end.

Lemma bcont_task : forall tr c ck p n s W R L l s' W', c_provider c = PBounded ck p n ->
  linear_or_exact c ->
  c_rec c = RecRange ->
  bpos c (ring_size (c_clen c) n) s W R L -> bpos c (ring_size (c_clen c) n) s' W' R L ->
  sync s -> bcont tr c s W ->
  (tr = true -> no_silent_truncation c s l) -> no_reconnect_with_leftover s l -> task_label l = true ->
  step c s l = Some s' -> bcont tr c s' W'.
Proof.
  intros tr c ck p n s W R L l s' W' Hp Hcl Hrec [A1 A2 A4 A5 A6 A7] Hpos' Hsy
    [C1 C2 C3 C4 C5 C6 C7 C8] Ht Hg Etl H.
  set (size := ring_size (c_clen c) n) in *.
  set (len := length (c_content c)) in *.
  pose proof (bst_wpos _ _ _ _ _ A1) as Hw.
  pose proof (bst_wpos _ _ _ _ _ (bp_store _ _ _ _ _ _ Hpos')) as Hw'.
  assert (Hnd : is_final (g_dpc s) = false -> g_done s = false).
  { intros Ef. destruct (g_done s) eqn:Edn; auto. apply (sy_done _ Hsy) in Edn. congruence. }
  unfold bat in A7. unfold pending in C3.
  destruct l; try discriminate Etl; cbn [step] in H; cbn in Ht, Hg.
  - rewrite A2 in H. destruct (g_dpc s); discriminate.
  - (* LDChunk *)
    destruct (g_dpc s) eqn:Ed; try discriminate.
    destruct (Nat.leb_spec (g_scur s + k) (g_send s)) as [Hk|]; [|discriminate].
    injection H as <-. destruct (C3 _ eq_refl) as (P1 & P2 & P3).
    assert (Hk' : g_scur s + k <= len) by (destruct A5 as [? [?|?]]; unfold len in *; lia).
    revert Hw' Hpos'. unfold handle_bytes. gsimpl.
    destruct (g_pfc s) eqn:Epf; [destruct (g_rem s) as [r|] eqn:Er|]; gsimpl; rewrite Hw; intros <- _.
    + ccon. intros bs [= <-]. cbn [skipn].
      rewrite app_length, length_slice. fold len. replace (Nat.min k (len - g_scur s)) with k by lia.
      rewrite slice_app, <- P1, <- P2. repeat split; auto; lia.
    + ccon. intros bs [= <-]. cbn [skipn length] in *.
      rewrite length_slice. fold len. replace (Nat.min k (len - g_scur s)) with k by lia.
      replace (g_scur s) with W by lia. repeat split; auto; lia.
    + destruct A7 as [B1 B2]. rewrite B2 in *. ccon. intros bs [= <-]. cbn [skipn length] in *.
      rewrite length_slice. fold len. replace (Nat.min k (len - g_scur s)) with k by lia.
      replace (g_scur s) with W by lia. repeat split; auto; lia.
  - (* LDEof *)
    destruct (g_dpc s) eqn:Ed; try discriminate. injection H as <-.
    destruct (C3 _ eq_refl) as (P1 & P2 & P3).
    assert (Hs' : tr = true -> (c_seekable c = true /\ c_clen c <> None) \/ g_scur s = len).
    { intros Et. destruct (C5 Et) as [?|C5']; auto. destruct (Ht Et) as [?|Ht']; auto. right. unfold len. lia. }
    assert (F : forall st0, g_down st0 = block W -> g_store st0 = g_store s -> g_done st0 = g_done s ->
      g_failed st0 = g_failed s -> g_send st0 = g_scur s -> g_scur st0 = g_scur s ->
      (match g_rem s with Some r => r | None => [] end) = [] ->
      bcont tr c (finish_or_find_next_gap c st0) W).
    { intros st0 E1 E2 E3 E4 E5 E6 E7. rewrite E7 in P2. cbn [length] in P2. rewrite Nat.add_0_r in P2.
      unfold finish_or_find_next_gap.
      assert (Fin : (tr = true -> g_scur s = len) -> bcont tr c (set_dpc st0 DFinish) W).
      { intros E. ccon; rewrite ?E2, ?E3, ?E4, ?E5; auto; unfold len in *; try (intros; specialize (E ltac:(assumption)); lia). }
      destruct (c_seekable c) eqn:Esk; [destruct (c_clen c) as [cl|] eqn:Ecl|].
      - destruct Hcl as [Hcl|Hcl]; [congruence|]. specialize (Hcl cl Ecl). rewrite E1, block_gap. fold len in Hcl.
        destruct (Nat.ltb_spec W cl).
        + ccon; rewrite ?E2, ?E3, ?E4, ?E5; auto. intros a b [= <- <-]. fold len. subst cl. auto.
          left. split; auto. congruence.
        + apply Fin. lia.
      - apply Fin. intros Et. destruct (Hs' Et) as [[_ Hs2]|]; auto. congruence.
      - apply Fin. intros Et. destruct (Hs' Et) as [[Hs2 _]|]; auto. discriminate. }
    revert Hw' Hpos'. unfold handle_bytes. gsimpl.
    destruct (g_pfc s) eqn:Epf; [destruct (g_rem s) as [r|] eqn:Er|].
    + gsimpl. rewrite Hw. intros <- _. ccon.
    + intros Hw' Hpos'. destruct A7 as [B1 B2].
      assert (EW : W' = W); [|rewrite EW; apply F; auto].
      rewrite <- Hw', <- Hw. unfold finish_or_find_next_gap. gsimpl.
      destruct (c_seekable c), (c_clen c); try destruct (rs_next_gap _ _ _) as [[? ?]|]; reflexivity.
    + intros Hw' Hpos'. destruct A7 as [B1 B2].
      assert (EW : W' = W); [|rewrite EW; apply F; auto].
      * rewrite <- Hw', <- Hw. unfold finish_or_find_next_gap. gsimpl.
        destruct (c_seekable c), (c_clen c); try destruct (rs_next_gap _ _ _) as [[? ?]|]; reflexivity.
      * gsimpl. rewrite A4, Hw, B1. change [] with (block 0). apply block_add; lia.
      * rewrite B2. reflexivity.
  - destruct (g_dpc s) eqn:Ed; try discriminate. injection H as <-.
    rewrite Hw in Hw'. subst W'. constructor; auto; rewrite ?Ed; auto. unfold pending. rewrite Ed. auto.
  - (* LDTimeout *)
    destruct (g_dpc s) eqn:Ed; try discriminate. injection H as <-.
    unfold handle_reconnect in *. rewrite Hrec in *. destruct (C3 _ eq_refl) as (P1 & P2 & P3).
    destruct rc; gsimpl; rewrite Hw in *; subst W'.
    + rewrite Hg in *. cbn [length] in *. ccon; rewrite ?Ed in *; auto; try discriminate.
      * intros bs [= <-]. rewrite Hg. cbn. repeat split; auto; lia.
      * right. fold len. lia.
    + ccon; rewrite ?Ed in *; auto; try discriminate.
    + ccon; rewrite ?Ed in *; auto; try discriminate.
  - destruct (g_dpc s) eqn:Ed; try discriminate. destruct (g_cancel s); [|discriminate].
    injection H as <-. gsimpl. rewrite Hw in Hw'. subst W'. ccon.
  - (* LDStep *)
    unfold d_step in H. destruct (g_dpc s) eqn:Ed; try discriminate; gsimpl.
    + (* DPre *)
      destruct A7 as (B1 & B2 & B3 & B4). destruct (C3 _ eq_refl) as (P1 & P2 & P3).
      unfold write_once in H. destruct (st_write _ (g_store s)) as [k st] eqn:Es.
      pose proof (hist_write _ _ _ _ _ C1 Es) as C1'.
      destruct (bst_write _ _ _ _ _ _ _ _ A1 Es) as [Ek A1']. rewrite length_slice in Ek.
      pose proof (bst_wpos _ _ _ _ _ A1') as Hwk.
      destruct (pend_write (c_content c) bytes W w (Nat.min (c_batch c) (length bytes - w)) k) as (Q1 & Q2 & Q3);
        auto; try lia.
      rewrite Q1 in C1'.
      assert (W + k <= len) by (rewrite skipn_length in *; unfold len in *; lia). clear Ek.
      destruct (Nat.eqb_spec k 0) as [E|E]; injection H as <-.
      * subst k. rewrite Nat.add_0_r in *. revert Hw' Hpos'. unfold prefetch_done. gsimpl.
        destruct (Nat.ltb_spec w (length bytes)); gsimpl.
        -- rewrite orb_true_r. gsimpl. rewrite Hwk. intros <- _. ccon.
        -- rewrite orb_false_r. assert (Es0 : skipn w bytes = []) by (apply skipn_all2; auto).
           rewrite Es0 in *. cbn [length] in *.
           destruct (_ <=? _); gsimpl; rewrite Hwk; intros <- _; ccon; intros bs [= <-]; rewrite B2; cbn; repeat split; auto.
      * gsimpl. rewrite Hwk in Hw'. subst W'. ccon. intros bs [= <-]. repeat split; auto; lia.
    + (* DWTop *)
      destruct A7 as (B1 & B2 & B3 & B4 & B5 & B6). destruct (C3 _ eq_refl) as (P1 & P2 & P3).
      destruct (Nat.ltb_spec w (length bytes)).
      * injection H as <-. gsimpl. rewrite Hw in Hw'. subst W'. ccon.
        intros bs [= <-]. rewrite Nat.add_0_r. auto.
      * injection H as <-. assert (Es0 : skipn w bytes = []) by (apply skipn_all2; auto).
        rewrite Es0 in *. cbn [length] in *. revert Hw' Hpos'. unfold report_downloading.
        rewrite Hw. destruct W as [|q] eqn:Eq; [destruct bytes; cbn in *; [congruence|lia]|].
        rewrite B3, block_get_last. gsimpl. rewrite Hw. intros <- _. ccon.
        intros bs [= <-]. rewrite B2. cbn. repeat split; auto.
    + (* DWBatch *)
      destruct A7 as (B1 & B2 & B3 & B4 & B5 & B6). destruct (C3 _ eq_refl) as (P1 & P2 & P3).
      unfold write_once in H. destruct (st_write _ (g_store s)) as [k st] eqn:Es.
      pose proof (hist_write _ _ _ _ _ C1 Es) as C1'.
      destruct (bst_write _ _ _ _ _ _ _ _ A1 Es) as [Ek A1']. rewrite length_slice in Ek.
      pose proof (bst_wpos _ _ _ _ _ A1') as Hwk.
      destruct (pend_write (c_content c) bytes W (w + nw) (Nat.min (c_batch c) (length bytes - (w + nw))) k) as (Q1 & Q2 & Q3);
        auto; try lia.
      rewrite Q1 in C1'.
      assert (W + k <= len) by (rewrite skipn_length in *; unfold len in *; lia). clear Ek.
      destruct (Nat.eqb_spec k 0) as [E|E]; injection H as <-; gsimpl; rewrite Hwk in Hw'; subst W'.
      * subst k. rewrite !Nat.add_0_r in *. ccon.
      * ccon. intros bs [= <-]. rewrite Nat.add_assoc in *. repeat split; auto; lia.
    + injection H as <-. gsimpl. rewrite Hw in Hw'. subst W'. ccon.
    + destruct (g_req s) as [rq|]; [destruct (_ <=? _)|]; injection H as <-; gsimpl; rewrite Hw in Hw'; subst W';
        destruct (nw =? 0); ccon.
    + injection H as <-; gsimpl; rewrite Hw in Hw'; subst W'; destruct (nw =? 0); ccon.
    + destruct (g_permit s); [|discriminate]. injection H as <-; gsimpl; rewrite Hw in Hw'; subst W'; ccon.
    + injection H as <-; gsimpl; rewrite Hw in Hw'; subst W'; ccon.
    + injection H as <-; revert Hw' Hpos'; unfold report_complete; gsimpl; rewrite Hw; intros <- _; ccon.
    + injection H as <-; gsimpl; rewrite Hw in Hw'; subst W'; ccon.
    + injection H as <-; gsimpl; rewrite Hw in Hw'; subst W'; ccon.
    + injection H as <-; gsimpl; rewrite Hw in Hw'; subst W'; ccon.
  - (* LDSeekRes *)
    destruct (g_dpc s) eqn:Ed; try discriminate. unfold seek_done in H.
    destruct A7 as (B1 & B2 & B3 & B4). destruct (C4 _ _ eq_refl) as [G1 G2].
    fold len in G1, G2. destruct ok.
    + unfold body_window, inverted in H. rewrite G1 in H. fold len in H.
      destruct (Nat.leb_spec len start); [lia|]. cbn [andb] in H. subst start.
      destruct (st_wseek W (g_store s)) as [r st] eqn:Es.
      pose proof (hist_wseek _ _ _ _ _ _ _ _ A1 C1 Es) as C1'.
      destruct (bst_wseek _ _ _ _ _ _ _ A1 Es) as [-> A1']. injection H as <-. gsimpl.
      rewrite (bst_wpos _ _ _ _ _ A1') in Hw'. subst W'. ccon.
      * intros bs [= <-]. rewrite B2. cbn. repeat split; auto.
      * right. fold len. lia.
    + injection H as <-; gsimpl; rewrite Hw in Hw'; subst W'; ccon.
  - destruct (g_dpc s) eqn:Ed; try discriminate; injection H as <-; gsimpl; rewrite Hw in Hw'; subst W'; ccon.
  - destruct (g_dpc s) eqn:Ed; try discriminate; injection H as <-; gsimpl; rewrite Hw in Hw'; subst W'.
    destruct ok, ok0; cbn [andb]; ccon.
  - destruct (g_dpc s) eqn:Ed; try discriminate; injection H as <-; gsimpl; rewrite Hw in Hw'; subst W'.
    destruct (nw =? 0); ccon.
  - destruct (g_dpc s) eqn:Ed; try discriminate. destruct (g_again s); [discriminate|].
    injection H as <-; gsimpl; rewrite Hw in Hw'; subst W'; ccon.
  - exfalso. destruct A1 as (b & h & A1 & _). unfold write_short in H. rewrite A1 in H.
    destruct (g_dpc s); try discriminate; destruct (st_write _ _); cbn in H; discriminate.
Qed.

(** ** The reader *)

Definition asked_rq (c : cfg) (r : rpc) : Prop :=
  match r with
  | RRGet n pos rq | RRSet n pos rq | RRNotify n pos rq | RRWait n pos rq
  | RRCheck2 n pos rq | RRRead n pos rq _ => rq = Z.to_nat (normalize c (Z.of_nat (pos + n)))
  | _ => True
  end.

(** What a read returns: bytes of the resource, and as many as it can if the announced
    length is not too small and no body is cut off. *)
Definition got (tr : bool) (c : cfg) (pos n : nat) (bs : list byte) : Prop :=
  length bs <= n /\ bs = slice (c_content c) pos (length bs) /\
  (tr = true -> (forall N, c_clen c = Some N -> length (c_content c) <= N) -> faithful c pos n bs).

Definition got_ev (tr : bool) (c : cfg) (older : list event) (e : event) : Prop :=
  match e with
  | EvRead pos n _ (Ok bs) => pos = cursor older /\ got tr c pos n bs
  | _ => True
  end.

(** What a call may rely on when the storage is read, and what it has got. *)
Definition served_at (tr : bool) (c : cfg) (s : gstate) (W : nat) : Prop :=
  match g_rpc s with
  | RRCheck2 n pos rq => rq <= W \/ settled tr c s W
  | RRRead n pos rq _ => rq <= W \/ (tr = true -> W = length (c_content c))
  | RRDone n pos _ (Ok bs) => got tr c pos n bs
  | RRDone n pos _ (Err _) => True
  | RRDone n pos _ Panic => False
  | _ => True
  end.

Record bread (tr : bool) (c : cfg) (s : gstate) (W : nat) : Prop := mkBread
  { br_rq : asked_rq c (g_rpc s);
    br_note : forall t, wait_target (g_rpc s) = Some t -> g_done s = false -> g_req s <> Some t -> t <= W;
    br_at : served_at tr c s W;
    br_trace : all_events (got_ev tr c) (g_trace s) }.

Lemma task_events : forall tr c s l s', task_label l = true -> step c s l = Some s' ->
  all_events (got_ev tr c) (g_trace s) -> all_events (got_ev tr c) (g_trace s').
Proof.
  intros tr c s l s' Et H K. destruct l; try discriminate Et;
    step_cases H; gsimpl; cbn [all_events got_ev]; auto.
Qed.

Lemma task_req : forall c s l s', task_label l = true -> step c s l = Some s' ->
  g_req s' = g_req s \/ exists r, g_req s = Some r /\ r <= st_wpos (g_store s) /\ g_req s' = None.
Proof.
  intros c s l s' Et H. destruct l; try discriminate Et; step_cases H; gsimpl; auto;
    right; eexists; repeat split; eauto; apply Nat.leb_le; auto.
Qed.

Lemma task_failed : forall c s l s', task_label l = true -> step c s l = Some s' ->
  g_failed s = true -> g_failed s' = true.
Proof. intros c s l s' Et H K. destruct l; try discriminate Et; step_cases H; gsimpl; auto. Qed.

Lemma task_done : forall c s l s', task_label l = true -> step c s l = Some s' ->
  g_done s' = false -> g_done s = false.
Proof. intros c s l s' Et H. destruct l; try discriminate Et; step_cases H; gsimpl; auto; discriminate. Qed.

Lemma bread_task : forall tr c s l s' W W', task_label l = true -> step c s l = Some s' ->
  st_wpos (g_store s) = W -> W <= W' -> W' <= length (c_content c) -> bread tr c s W -> bread tr c s' W'.
Proof.
  intros tr c s l s' W W' Et H Hw Hle Hlen [K1 K2 K3 K4].
  pose proof (task_step_rpc _ _ _ _ Et H) as Er.
  constructor; rewrite ?Er; auto.
  - intros t Ht Hd Hq. pose proof (task_done _ _ _ _ Et H Hd) as Hd0.
    destruct (task_req _ _ _ _ Et H) as [E|(r & E1 & E2 & E3)].
    + rewrite E in Hq. specialize (K2 t Ht Hd0 Hq). lia.
    + destruct (Nat.eq_dec r t) as [->|Hn]; [lia|].
      assert (g_req s <> Some t) by congruence. specialize (K2 t Ht Hd0 H0). lia.
  - unfold served_at, settled in *. rewrite Er. destruct (g_rpc s); auto; try lia.
    + destruct K3 as [K3|[K3|K3]]; [lia| |].
      * right; left. eapply task_failed; eauto.
      * right; right. intros E. specialize (K3 E). lia.
    + destruct K3 as [K3|K3]; [lia|]. right. intros E. specialize (K3 E). lia.
  - eapply task_events; eauto.
Qed.

Lemma bread_reader : forall tr c ck p n s W R l s', c_provider c = PBounded ck p n ->
  bpos c (ring_size (c_clen c) n) s W R (skipped (g_trace s)) -> local_pc c s -> sync s -> traced c s -> bcont tr c s W -> bread tr c s W ->
  local_client c s l -> task_label l = false -> step c s l = Some s' -> bread tr c s' W.
Proof.
  intros tr c ck p n s W R l s' Hp [A1 A2 A4 A5 A6 A7] Hpc Hsy Htr
    [C1 C2 C3 C4 C5 C6 C7 C8] [K1 K2 K3 K4] Hl Etl H.
  pose proof (tr_at _ _ Htr) as Hat.
  set (size := ring_size (c_clen c) n) in *.
  pose proof (bst_rpos _ _ _ _ _ A1) as Hr. rewrite Hr in Hat.
  pose proof (bat_down _ _ A7) as (D & HD1 & HD2).
  unfold served_at in K3. unfold local_pc in Hpc.
  destruct l; try discriminate Etl; cbn [step] in H; cbn in Hl.
  - unfold r_step in H. rewrite Hr in H.
    destruct (g_rpc s) eqn:Er; try contradiction; try discriminate H; cbn in A6, Hat, K1.
    + destruct (g_failed s).
      { injection H as <-. constructor; unfold served_at; gsimpl; cbn; auto; discriminate. }
      destruct (excessive_read c n0).
      { injection H as <-. constructor; unfold served_at; gsimpl; cbn; auto; discriminate. }
      injection H as <-. constructor; unfold served_at; gsimpl; cbn; auto; discriminate.
    + destruct (rs_get pos (g_down s)) as [[a e]|] eqn:Eg; [destruct (Nat.leb_spec rq e)|]; injection H as <-;
        (constructor; unfold served_at; gsimpl; cbn [wait_target asked_rq]; auto; try discriminate).
      left. rewrite HD2 in Eg. apply block_get in Eg. lia.
    + injection H as <-. constructor; unfold served_at; gsimpl; cbn [wait_target asked_rq]; auto.
      intros t [= <-]. congruence.
    + injection H as <-. destruct (g_wreq s); constructor; unfold served_at; gsimpl; cbn [wait_target asked_rq] in *; auto.
    + destruct (g_done s) eqn:Edn.
      { injection H as <-. constructor; unfold served_at, settled in *; gsimpl; cbn [wait_target asked_rq]; auto; discriminate. }
      destruct (g_reached s) eqn:Ere; [|discriminate].
      injection H as <-. constructor; unfold served_at, settled in *; gsimpl; cbn [wait_target asked_rq]; auto; try discriminate.
      left. apply K2; auto. pose proof (sy_wait _ Hsy Edn) as Sw. unfold sync_wait in Sw. rewrite Er in Sw.
      cbn in Sw. intros E. rewrite E, Ere in Sw. intuition discriminate.
    + destruct (g_failed s) eqn:Ef.
      { injection H as <-. constructor; unfold served_at; gsimpl; cbn; auto; discriminate. }
      injection H as <-. constructor; unfold served_at, settled in *; gsimpl; cbn [wait_target asked_rq]; auto; try discriminate.
      destruct K3 as [K3|[K3|K3]]; auto. congruence.
    + destruct (st_read n0 (g_store s)) as [r st] eqn:Es.
      destruct (hist_read _ _ _ _ _ _ _ _ _ A1 C1 Es) as (_ & [(-> & Hn)| ->]); injection H as <-;
        (constructor; unfold served_at; gsimpl; cbn [wait_target asked_rq]; auto; try discriminate).
      destruct A6 as [-> A6]. pose proof (bst_le _ _ _ _ _ A1) as Hle.
      change (firstn W (c_content c)) with (slice (c_content c) 0 W). rewrite slice_slice. cbn [Nat.add].
      replace (Nat.min (Nat.min n0 (W - R)) (W - R)) with (Nat.min n0 (W - R)) by lia.
      split; [rewrite length_slice; lia|split; [rewrite length_slice; apply slice_min|]].
      intros Et Hcl.
      destruct (Nat.le_gt_cases n0 (W - R)).
      * rewrite Nat.min_l by auto. apply faithful_slice.
      * assert (HWl : W = length (c_content c)).
        { destruct K3 as [K3|K3]; auto. subst rq. unfold normalize in K3. destruct (c_clen c) as [cl|]; [|lia].
          specialize (Hcl cl eq_refl). lia. }
        rewrite Nat.min_r by lia. rewrite HWl.
        replace (slice (c_content c) R (length (c_content c) - R)) with (slice (c_content c) R n0);
          [apply faithful_slice|rewrite (slice_min _ R n0); f_equal; lia].
    + injection H as <-. destruct Hat as [Hc _].
      assert (Q : all_events (got_ev tr c) (EvRead pos n0 waited r :: g_trace s)).
      { cbn. split; auto. destruct r; auto. }
      destruct (g_wreq s); constructor; unfold served_at; gsimpl; cbn [wait_target asked_rq]; auto; discriminate.
    + repeat (split_match H; try discriminate H); injection H as <-;
        (constructor; unfold served_at; gsimpl; cbn; auto; discriminate).
    + repeat (split_match H; try discriminate H); injection H as <-;
        (constructor; unfold served_at; gsimpl; cbn; auto; discriminate).
    + repeat (split_match H; try discriminate H); injection H as <-;
        (constructor; unfold served_at; gsimpl; cbn; auto; discriminate).
  - unfold r_error in H. assert (Pl : st_plain (g_store s) = false) by (destruct A1 as (b & h & A1 & _); rewrite A1; auto).
    rewrite Pl in H. destruct (g_rpc s); try discriminate H; [|destruct from; discriminate H].
    injection H as <-. constructor; unfold served_at; gsimpl; cbn; auto; discriminate.
  - destruct (g_rpc s) eqn:Er; try discriminate; injection H as <-.
    destruct o; constructor; unfold served_at; gsimpl; cbn; auto; discriminate.
  - injection H as <-. constructor; unfold served_at in *; gsimpl; auto.
  - destruct (g_rpc s); try discriminate; injection H as <-.
    destruct (c_cancel_on_drop c); constructor; unfold served_at; gsimpl; cbn; auto; discriminate.
Qed.

Lemma bcont_reader : forall tr c ck p n s W R l s', c_provider c = PBounded ck p n ->
  bpos c (ring_size (c_clen c) n) s W R (skipped (g_trace s)) -> local_pc c s -> bcont tr c s W ->
  local_client c s l -> task_label l = false -> step c s l = Some s' -> bcont tr c s' W.
Proof.
  intros tr c ck p n s W R l s' Hp [A1 A2 A4 A5 A6 A7] Hpc [C1 C2 C3 C4 C5 C6 C7 C8] Hl Etl H.
  assert (G : forall s2, hist (g_store s2) (firstn W (c_content c)) ->
    g_dpc s2 = g_dpc s -> g_rem s2 = g_rem s -> g_scur s2 = g_scur s -> g_send s2 = g_send s ->
    g_failed s2 = g_failed s -> g_done s2 = g_done s -> bcont tr c s2 W).
  { intros s2 E0 E1 E2 E3 E4 E5 E6. unfold pending, settled in *.
    constructor; unfold pending, settled; rewrite ?E1, ?E2, ?E3, ?E4, ?E5, ?E6; auto. }
  destruct l; try discriminate Etl; cbn [step] in H; cbn in Hl.
  - unfold local_pc in Hpc. unfold r_step in H. destruct (g_rpc s) eqn:Er; try contradiction; try discriminate H;
      try (repeat (split_match H; try discriminate H); injection H as <-; apply G; gsimpl; auto;
           apply hist_tell; auto; fail).
    + destruct (st_read n0 (g_store s)) as [r st] eqn:Es.
      destruct (hist_read _ _ _ _ _ _ _ _ _ A1 C1 Es) as (Q & [(-> & Hn)| ->]); injection H as <-; apply G; gsimpl; auto.
    + destruct Hpc as [(a & b & Hi & Hab) Hsk]. pose proof (bat_down _ _ A7) as (D & HD1 & HD2).
      assert (p0 <= W).
      { rewrite HD2 in Hi. destruct D; cbn [block] in Hi; [contradiction|].
        destruct Hi as [[= <- <-]|[]]. lia. }
      destruct (st_rseek p0 (g_store s)) as [r st] eqn:Es.
      pose proof (hist_rseek _ _ _ _ _ _ _ _ _ A1 (conj Hsk H0) C1 Es). injection H as <-. apply G; gsimpl; auto.
  - unfold r_error in H. assert (Pl : st_plain (g_store s) = false) by (destruct A1 as (b & h & A1 & _); rewrite A1; auto).
    rewrite Pl in H. destruct (g_rpc s); try discriminate H; [|destruct from; discriminate H].
    injection H as <-. apply G; auto.
  - destruct (g_rpc s); try discriminate; injection H as <-; apply G; auto.
  - injection H as <-; apply G; auto.
  - destruct (g_rpc s); try discriminate; injection H as <-; apply G; destruct (c_cancel_on_drop c); auto.
Qed.

Lemma local_content_any : forall tr c ck p n (allow : gstate -> label -> Prop) s, c_provider c = PBounded ck p n ->
  linear_or_exact c -> 0 < c_batch c -> c_rec c = RecRange -> (forall s l, allow s l -> (local_client c s l /\ no_empty_chunk s l) /\
     ((tr = true -> no_silent_truncation c s l) /\ no_reconnect_with_leftover s l)) ->
  reach c allow s ->
  exists W R, bpos c (ring_size (c_clen c) n) s W R (skipped (g_trace s)) /\ local_pc c s /\
    bcont tr c s W /\ bread tr c s W.
Proof.
  intros tr c ck p n allow s Hp Hs S3 Hrec Ha H.
  induction H as [s H|s l s' Hr (W & R & I1 & IL & I2 & I3) Hl H].
  - exists 0, 0. pose proof (bpos_init c ck p n s Hp H) as B.
    unfold init in H. rewrite Hp in H. destruct (into_rw _ _) as [st|] eqn:E; [|discriminate]. injection H as <-.
    split; [exact B|split; [exact I|]]. clear B.
    cbn in E. destruct (bnd_new_ring _ _ _ _ _ E) as (b & -> & A1 & _).
    split; constructor; unfold pending, settled, served_at; gsimpl; cbn; auto; try discriminate; try lia; try contradiction.
    + exists b. auto.
    + intros bs [= <-]. cbn. repeat split; auto; lia.
  - destruct (Ha _ _ Hl) as [[Hl1 Hl2] [Hl3 Hl4]]. pose proof (sync_reach _ _ _ Hr) as Hsy. pose proof (traced_reach _ _ _ Hr) as Htr.
    destruct (task_label l) eqn:Et.
    + destruct (bpos_task c ck p n s W R _ l s' Hp S3 I1 Hl2 Et H) as (W' & [Hle _] & K & _).
      assert (K2 : bcont tr c s' W') by exact (bcont_task tr c ck p n s W R _ l s' W' Hp Hs Hrec I1 K Hsy I2 Hl3 Hl4 Et H).
      exists W', R. rewrite (proj2 (task_views _ _ _ _ Et H)).
      split; [auto|split; [eapply local_pc_task; eauto|split; auto]]. apply (bread_task tr c s l s' W W'); auto.
      * apply (bst_wpos _ _ _ _ _ (bp_store _ _ _ _ _ _ I1)).
      * apply (bc_le _ _ _ _ K2).
    + destruct (bpos_reader c ck p n s W R l s' Hp I1 Hl1 IL Et (tr_at _ _ Htr) H) as (R' & K & K' & _).
      exists W, R'. split; [auto|split; [auto|split]].
      * exact (bcont_reader tr c ck p n s W R l s' Hp I1 IL I2 Hl1 Et H).
      * exact (bread_reader tr c ck p n s W R l s' Hp I1 IL Hsy Htr I2 I3 Hl1 Et H).
Qed.

Lemma all_impl : forall (P Q : list event -> event -> Prop) tr,
  (forall t e, P t e -> Q t e) -> all_events P tr -> all_events Q tr.
Proof. intros P Q tr H. induction tr as [|e tr IH]; cbn; auto. intros [A B]. auto. Qed.

Lemma local_content : forall c ck p n s, c_provider c = PBounded ck p n -> sane c ->
  c_rec c = RecRange -> reach c (local_env c) s ->
  exists W R, bpos c (ring_size (c_clen c) n) s W R (skipped (g_trace s)) /\ local_pc c s /\
    bcont true c s W /\ all_events (read_ok c) (g_trace s).
Proof.
  intros c ck p n s Hp (S1 & _ & S3) Hrec H.
  destruct (local_content_any true c ck p n (local_env c) s Hp (or_intror S1) S3 Hrec) as (W & R & A & B & C & D); auto.
  { intros s0 l [K1 [K2 K3]]. auto. }
  exists W, R. split; [exact A|split; [exact B|split; [exact C|]]].
  eapply all_impl; [|exact (br_trace _ _ _ _ D)].
  intros t e K. destruct e as [pos m w r| | | | | | |]; cbn in *; auto. destruct r; auto.
  destruct K as (K1 & _ & _ & K2). split; auto. apply K2; auto. intros N E. rewrite (S1 N E). auto.
Qed.

Lemma local_genuine : forall c ck p n s, c_provider c = PBounded ck p n ->
  linear_or_exact c -> 0 < c_batch c -> c_rec c = RecRange ->
  reach c (both (local_client c) (both no_empty_chunk no_reconnect_with_leftover)) s ->
  every_event (genuine c) (g_trace s).
Proof.
  intros c ck p n s Hp Hk Hb Hr H.
  destruct (local_content_any false c ck p n
    (both (local_client c) (both no_empty_chunk no_reconnect_with_leftover)) s Hp Hk Hb Hr) as (W & R & _ & _ & _ & K); auto.
  { intros s0 l (A & B & C). repeat split; auto. discriminate. }
  apply all_events_every. eapply all_impl; [|exact (br_trace _ _ _ _ K)].
  intros t e A. destruct e as [pos m w r| | | | | | |]; cbn in *; auto. destruct r; auto.
  destruct A as (A1 & A2 & A3 & _). auto.
Qed.

Lemma bounded_env_local : forall c s, reach c (bounded_env c) s -> reach c (local_env c) s.
Proof.
  intros c s H. eapply reach_weaken; [|exact H].
  intros s0 l [[A B] C]. split; [split; [apply sequential_local|]|]; auto.
Qed.

Lemma seq_delivered : forall c tr, every_event (read_ok c) tr -> Forall no_seek_event tr ->
  (exists k, delivered tr = firstn k (c_content c)) /\
  (forall newer pos n waited older, tr = newer ++ EvRead pos n waited (Ok []) :: older ->
     0 < n -> delivered tr = c_content c).
Proof.
  intros c tr Hev Hns.
  pose proof (delivered_cursor c _ (every_all _ _ Hev) Hns) as Hd.
  split; [exists (cursor tr); rewrite Hd; reflexivity|].
  intros newer pos n waited older E Hn.
  pose proof (Hev _ _ _ E) as [Hp (k & Hf & _ & Hk & _)]. symmetry in Hf.
  apply slice_nil_inv in Hf as [Hf|Hf]; [lia|].
  rewrite Hd. apply slice_full.
  assert (Hmono : cursor older <= cursor tr).
  { rewrite E in *. clear - Hns. induction newer as [|e newer IH]; cbn in *.
    - lia.
    - inversion Hns; subst. specialize (IH H2). destruct e; auto; try contradiction.
      destruct r; cbn; auto; lia. }
  lia.
Qed.

Lemma bounded_reads : forall c ck p n s, c_provider c = PBounded ck p n -> sane c ->
  c_rec c = RecRange -> reach c (bounded_env c) s ->
  every_event (read_ok c) (g_trace s) /\
  (exists k, delivered (g_trace s) = firstn k (c_content c)) /\
  (forall newer pos n waited older, g_trace s = newer ++ EvRead pos n waited (Ok []) :: older ->
     0 < n -> delivered (g_trace s) = c_content c).
Proof.
  intros c ck p n s Hp Hs Hrec H.
  destruct (local_content c ck p n s Hp Hs Hrec (bounded_env_local _ _ H)) as (W & R & _ & _ & _ & K).
  assert (Hev : every_event (read_ok c) (g_trace s)) by (apply all_events_every, K).
  split; auto. apply seq_delivered; auto.
  edestruct (sequential_inv c (bounded_env c) s) as (_ & Hns & _); [|exact H|exact Hns].
  intros s0 l [[A _] _]; exact A.
Qed.

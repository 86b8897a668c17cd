(** * Facts about bounded storage with a writer that may jump ahead. *)

From Coq Require Import List Arith Lia ZArith Bool.
From Verif Require Import Base ListFacts Storage StorageFacts System BoundedFacts.
Import ListNotations.

(** The writer has last jumped to [lo].  Of the bytes of [H] written since then, the last
    [b_size] are in their slots. *)
Record arc (H : list byte) (lo : nat) (b : bnd) : Prop := mkArc
  { ac_lo : lo <= b_wpos b;
    ac_top : b_wpos b <= length H;
    ac_data : forall x, lo <= x -> b_wpos b - b_size b <= x < b_wpos b ->
      nth_error (u_data (b_inner b)) (x mod b_size b) = nth_error H x;
    ac_count : match b_inner b with UMem m => b_wpos b - lo <= m_written m | UFile _ => True end;
    ac_room : length (u_data (b_inner b)) <= b_size b }.

Lemma arc_slot : forall H lo b x, arc H lo b -> lo <= x -> b_wpos b - b_size b <= x < b_wpos b ->
  x mod b_size b < length (u_data (b_inner b)).
Proof.
  intros H lo b x [A1 A2 A3 A4 A5] Hl Hx. specialize (A3 x Hl Hx). apply nth_error_Some. rewrite A3.
  apply nth_error_Some. lia.
Qed.

Lemma bnd_write_arc : forall H lo bs b k b', arc H lo b -> bnd_write bs b = (k, b') ->
  firstn k bs = slice H (b_wpos b) k -> b_wpos b + k <= length H -> arc H lo b'.
Proof.
  intros H lo bs b k b' A E Hb Hl. pose proof (bnd_write_spec _ _ _ _ E) as (Ek & Ew & Er & Es & _ & _ & _ & Ed).
  pose proof (ac_room _ _ _ A) as Ar. specialize (Ed Ar).
  unfold bnd_write in E.
  destruct (Nat.eqb_spec (Nat.min (b_size b - (b_wpos b - b_rpos b)) (length bs)) 0) as [E0|E0].
  - injection E as <- <-. auto.
  - injection E as E1 E2. rewrite E1 in *.
    assert (Lb : length (firstn k bs) = k) by (rewrite firstn_length; lia).
    pose proof A as [A1 A2 A3 A4 A5]. constructor; try lia.
    + intros x Hx1 Hx. rewrite Es, Ew in *. subst b'. cbn [b_inner].
      destruct (Nat.lt_ge_cases x (b_wpos b)) as [Hw|Hw].
      * rewrite <- A3 by lia.
        rewrite (slot_behind (b_wpos b) (b_size b) x) by lia.
        apply wmapped_slot; rewrite ?Lb; try lia.
        rewrite <- slot_behind by lia. apply (arc_slot H lo b x); auto; lia.
      * replace x with (b_wpos b + (x - b_wpos b)) by lia.
        destruct (wmapped_slot (firstn k bs) b (x - b_wpos b)) as [Q _]; rewrite ?Lb; try lia.
        rewrite Q by lia. rewrite Hb, nth_error_slice.
        destruct (Nat.ltb_spec (x - b_wpos b) k); [reflexivity|lia].
    + rewrite Ew. subst b'. cbn [b_inner].
      assert (Hk : 0 < length (firstn k bs) <= b_size b) by lia.
      pose proof (wmapped_count (firstn k bs) b Hk) as M. rewrite Lb in M.
      destruct (b_inner b) as [m|f]; destruct (bnd_write_mapped (firstn k bs) b) as [m'|f']; auto; try contradiction.
      lia.
Qed.

(** Reading inside the buffered window. *)
Lemma arc_mapped_ok : forall H lo b k, arc H lo b -> 0 < k -> lo <= b_rpos b -> b_rpos b + k <= b_wpos b ->
  b_wpos b - b_rpos b <= b_size b ->
  exists u', bnd_read_mapped k b = (Ok (slice H (b_rpos b) k), u') /\
    u_data u' = u_data (b_inner b) /\
    match b_inner b, u' with UMem m, UMem m' => m_written m' = m_written m | UFile _, UFile _ => True | _, _ => False end.
Proof.
  intros H lo b k R Hk Hlo Hr Hw. pose proof R as [R0 R1 R2 R3 Hd].
  unfold bnd_read_mapped, mapped_read_position.
  assert (Hs : b_size b <> 0) by lia.
  pose proof (Nat.mod_upper_bound (b_rpos b) (b_size b) Hs) as Hm.
  set (start := b_rpos b mod b_size b) in *.
  assert (E0 : (0 + start) mod b_size b = start) by (apply Nat.mod_small; lia). rewrite E0.
  assert (E1 : (k - 1 + start) mod b_size b + 1 =
     if start + k <=? b_size b then start + k else start + k - b_size b).
  { rewrite (Nat.add_comm _ start), slot_at by lia. rewrite (Nat.mod_small start) by lia.
    destruct (Nat.ltb_spec (start + (k - 1)) (b_size b)), (Nat.leb_spec (start + k) (b_size b)); lia. }
  rewrite E1.
  assert (Hslot : forall j, j < k ->
    nth_error (u_data (b_inner b)) (if start + j <? b_size b then start + j else start + j - b_size b)
    = nth_error H (b_rpos b + j)).
  { intros j Hj. rewrite <- R2 by lia. f_equal. unfold start. rewrite slot_at by lia. reflexivity. }
  assert (Hlen : forall j, j < k ->
    (if start + j <? b_size b then start + j else start + j - b_size b) < length (u_data (b_inner b))).
  { intros j Hj. apply nth_error_Some. rewrite Hslot by auto. apply nth_error_Some. lia. }
  assert (Hcnt : match b_inner b with UMem m => k <= m_written m | UFile _ => True end).
  { destruct (b_inner b); auto. lia. }
  destruct (Nat.leb_spec (start + k) (b_size b)) as [Hc|Hc].
  - destruct (Nat.ltb_spec start (start + k)); [|lia].
    destruct (u_read_exact_ok k k (u_rseek start (b_inner b))) as (u' & E & D & _ & _ & M); auto.
    { apply can_read_rseek; auto. specialize (Hlen (k - 1)).
      destruct (Nat.ltb_spec (start + (k - 1)) (b_size b)); lia. }
    exists u'. rewrite E. rewrite u_rseek_data in *. rewrite u_rseek_rpos. split; [|split; [auto|]].
    + f_equal. f_equal. apply list_ext. intros i. rewrite !nth_error_slice.
      destruct (Nat.ltb_spec i k); auto. rewrite <- Hslot by auto.
      destruct (Nat.ltb_spec (start + i) (b_size b)); [reflexivity|lia].
    + destruct (b_inner b), u'; cbn in *; auto.
  - destruct (Nat.ltb_spec start (start + k - b_size b)); [lia|].
    assert (Hfull : b_size b <= b_wpos b).
    { destruct (Nat.le_gt_cases (b_size b) (b_wpos b)); auto. exfalso.
      assert (start = b_rpos b) by (unfold start; apply Nat.mod_small; lia). lia. }
    replace (Nat.min (b_size b) (b_wpos b)) with (b_size b) by lia.
    destruct (Nat.ltb_spec (b_size b) start); [lia|]. cbn [orb].
    destruct (Nat.ltb_spec k (b_size b - start)); [lia|].
    assert (Hl1 : b_size b <= length (u_data (b_inner b))).
    { specialize (Hlen (b_size b - start - 1)).
      destruct (Nat.ltb_spec (start + (b_size b - start - 1)) (b_size b)); lia. }
    destruct (u_read_exact_ok (b_size b - start) (b_size b - start) (u_rseek start (b_inner b)))
      as (u1 & F1 & D1 & _ & _ & M1); auto.
    { apply can_read_rseek; [lia|]. destruct (b_inner b); auto. lia. }
    rewrite F1.
    destruct (u_read_exact_ok (k - (b_size b - start)) (k - (b_size b - start)) (u_rseek 0 u1))
      as (u2 & F2 & D2 & _ & _ & M2); auto.
    { apply can_read_rseek; [rewrite D1, u_rseek_data; lia|].
      destruct (b_inner b), u1; cbn in *; auto; try contradiction. lia. }
    rewrite F2. rewrite !u_rseek_data in *. rewrite !u_rseek_rpos in *. exists u2.
    split; [|split; [congruence|]].
    + f_equal. f_equal. apply list_ext. intros i.
      destruct (Nat.lt_ge_cases i (b_size b - start)).
      * rewrite nth_error_app1 by (rewrite length_slice; lia). rewrite !nth_error_slice.
        destruct (Nat.ltb_spec i (b_size b - start)); [|lia]. destruct (Nat.ltb_spec i k); [|lia].
        rewrite <- Hslot by auto. destruct (Nat.ltb_spec (start + i) (b_size b)); [reflexivity|lia].
      * rewrite nth_error_app2 by (rewrite length_slice; lia). rewrite !nth_error_slice, length_slice.
        rewrite D1. replace (Nat.min (b_size b - start) (length (u_data (b_inner b)) - start)) with (b_size b - start) by lia.
        destruct (Nat.ltb_spec i k).
        -- destruct (Nat.ltb_spec (i - (b_size b - start)) (k - (b_size b - start))); [|lia].
           rewrite <- Hslot by auto. destruct (Nat.ltb_spec (start + i) (b_size b)); [lia|]. f_equal. lia.
        -- destruct (Nat.ltb_spec (i - (b_size b - start)) (k - (b_size b - start))); [lia|reflexivity].
    + destruct (b_inner b), u1, u2; cbn in *; auto; try contradiction. congruence.
Qed.

(** ** The whole storage *)

(** [W] and [R]: where the writer and the reader are.  [K]: how many bytes the reader has
    jumped over.  The difference of the counters is at least the number of bytes the reader
    still has in front of it. *)
Definition ast (H : list byte) (size : nat) (st : store) (lo W R K : nat) : Prop :=
  exists b, st = SBnd b /\ arc H lo b /\ b_size b = size /\ b_wpos b = W /\ b_rpos b = R /\
    b_read b = (Z.of_nat R - Z.of_nat K)%Z /\ K <= R /\
    (b_read b + Z.of_nat (W - Nat.max R lo) <= b_written b)%Z.

Lemma ast_wpos : forall H size st lo W R K, ast H size st lo W R K -> st_wpos st = W.
Proof. intros H size st lo W R K (b & -> & _ & _ & E & _). exact E. Qed.
Lemma ast_rpos : forall H size st lo W R K, ast H size st lo W R K -> st_rpos st = R.
Proof. intros H size st lo W R K (b & -> & _ & _ & _ & E & _). exact E. Qed.
Lemma ast_tell : forall H size st lo W R K, ast H size st lo W R K -> st_tell st = st.
Proof. intros H size st lo W R K (b & -> & _). reflexivity. Qed.
Lemma ast_plain : forall H size st lo W R K, ast H size st lo W R K -> st_plain st = false.
Proof. intros H size st lo W R K (b & -> & _). reflexivity. Qed.
Lemma ast_le : forall H size st lo W R K, ast H size st lo W R K ->
  K <= R /\ lo <= W <= length H.
Proof.
  intros H size st lo W R K (b & -> & [A1 A2 _ _ _] & _ & E & _ & _ & Q & _). lia.
Qed.

Lemma ast_write : forall H size st lo W R K bs k st', ast H size st lo W R K -> st_write bs st = (k, st') ->
  k <= length bs /\ (k = 0 \/ W + k <= R + size) /\
  (firstn k bs = slice H W k -> W + k <= length H -> ast H size st' lo (W + k) R K).
Proof.
  intros H size st lo W R K bs k st' (b & -> & A & ES & EW & ER & C1 & Hle & C2) E.
  cbn in E. destruct (bnd_write bs b) as [k0 b'] eqn:Eb. injection E as -> <-.
  pose proof (bnd_write_spec _ _ _ _ Eb) as (A1 & A2 & A3 & A4 & A5 & A6 & _ & A7).
  split; [lia|]. split; [lia|]. intros Hb Hl. exists b'. rewrite <- EW in Hb, Hl.
  split; [reflexivity|]. split; [eapply bnd_write_arc; eauto|].
  rewrite A4, A2, A3, A5, A6. pose proof (ac_lo _ _ _ A). repeat (split; [lia|]). lia.
Qed.

Lemma ast_read : forall H size st lo W R K n r st', ast H size st lo W R K -> lo <= R ->
  st_read n st = (r, st') ->
  (r = Err EInvalidInput /\ (size < n \/ R + size < W) /\ st' = st) \/
  (n <= size /\ let k := Nat.min n (W - R) in r = Ok (slice H R k) /\ ast H size st' lo W (R + k) K).
Proof.
  intros H size st lo W R K n r st' (b & -> & A & ES & EW & ER & C1 & Hle & C2) Hlo E.
  cbn in E. destruct (bnd_read n b) as [r0 b'] eqn:Eb. injection E as -> <-.
  unfold bnd_read in Eb. rewrite ES, EW, ER in Eb.
  destruct (Nat.ltb_spec size n); [left; injection Eb as <- <-; auto|].
  destruct (Nat.ltb_spec size (W - R)); [left; injection Eb as <- <-; split; [auto|split; [lia|auto]]|].
  right. split; auto. cbv zeta.
  assert (Z0 : Nat.min n (W - R) = 0 -> (Ok [], b) = (r, b') ->
    r = Ok (slice H R (Nat.min n (W - R))) /\ ast H size (SBnd b') lo W (R + Nat.min n (W - R)) K).
  { intros E0 [= <- <-]. rewrite E0, Nat.add_0_r. split; [reflexivity|]. exists b. auto 10. }
  destruct (Z.leb_spec (b_written b) (b_read b)); [apply Z0; auto; lia|].
  destruct (Nat.eqb_spec (Nat.min (W - R) n) 0); [apply Z0; auto; lia|].
  rewrite (Nat.min_comm (W - R)) in Eb. set (k := Nat.min n (W - R)) in *.
  destruct (arc_mapped_ok H lo b k) as (u' & F & D & M); auto; try lia.
  rewrite F in Eb. injection Eb as <- <-. rewrite ER. split; auto.
  eexists. split; [reflexivity|]. cbn [b_inner b_size b_wpos b_rpos b_read b_written].
  split; [|repeat (split; [lia|]); lia].
  destruct A as [A1 A2 A3 A4 A5]. constructor; cbn; rewrite ?D; auto; try lia.
  - rewrite <- EW, <- ES. auto.
  - destruct (b_inner b), u'; auto; try contradiction. lia.
Qed.

Lemma ast_rseek : forall H size st lo W R K p r st', ast H size st lo W R K -> K <= p -> lo <= p ->
  st_rseek p st = (r, st') -> r = Ok p /\ ast H size st' lo W p (K + (p - R)).
Proof.
  intros H size st lo W R K p r st' (b & -> & A & ES & EW & ER & C1 & Hle & C2) Hp Hlo E.
  cbn in E. unfold bnd_rseek, counter_sub in E. rewrite ER in E.
  destruct (Z.ltb_spec (b_read b) (Z.of_nat (R - p))); [lia|]. injection E as <- <-.
  split; auto. eexists. split; [reflexivity|]. destruct A as [A1 A2 A3 A4 A5].
  cbn [b_inner b_size b_wpos b_rpos b_read b_written].
  split; [constructor; cbn; auto|]. repeat (split; [lia|]). lia.
Qed.

(** The writer stays. *)
Lemma ast_wstay : forall H size st lo W R K r st', ast H size st lo W R K -> st_wseek W st = (r, st') ->
  r = Ok W /\ ast H size st' lo W R K.
Proof.
  intros H size st lo W R K r st' (b & -> & A & ES & EW & ER & C1 & Hle & C2) E.
  cbn in E. unfold bnd_wseek, counter_sub in E. rewrite EW in E.
  destruct (Z.ltb_spec (b_written b) (Z.of_nat (W - W))); [lia|]. injection E as <- <-.
  split; auto. eexists. split; [reflexivity|]. destruct A as [A1 A2 A3 A4 A5].
  cbn [b_inner b_size b_wpos b_rpos b_read b_written].
  split; [constructor; cbn; auto; rewrite <- EW; auto|]. repeat (split; [lia|]). lia.
Qed.

(** The writer jumps ahead, over bytes that are never written. *)
Lemma ast_wjump : forall H size st lo W R K q r st', ast H size st lo W R K -> W < q ->
  q <= length H -> st_wseek q st = (r, st') -> r = Ok q /\ ast H size st' q q R K.
Proof.
  intros H size st lo W R K q r st' (b & -> & A & ES & EW & ER & C1 & Hle & C2) Hq Hl E.
  cbn in E. unfold bnd_wseek, counter_sub in E. rewrite EW in E.
  destruct (Z.ltb_spec (b_written b) (Z.of_nat (W - q))); [lia|]. injection E as <- <-.
  split; auto. eexists. split; [reflexivity|]. destruct A as [A1 A2 A3 A4 A5].
  cbn [b_inner b_size b_wpos b_rpos b_read b_written].
  split; [constructor; cbn; auto; try lia; destruct (b_inner b); auto; lia|]. repeat (split; [lia|]). lia.
Qed.

Lemma ast_new : forall H ck p n clen st, bounded_rw ck p n clen = Some st ->
  ast H (match clen with Some l => Nat.min l n | None => n end) st 0 0 0 0.
Proof.
  intros H ck p n clen st E. destruct (bnd_new_ring _ _ _ _ _ E) as (b & -> & Rg & A2 & A3 & A4 & A5 & A6 & A7).
  pose proof (rg_wpos _ _ Rg) as A1. cbn in A1. exists b. split; [reflexivity|]. rewrite A1, A2, A3, A4.
  split; [|repeat (split; [lia|]); lia].
  constructor; rewrite ?A1; try lia. destruct (b_inner b); auto. lia.
Qed.

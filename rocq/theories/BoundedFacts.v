(** * Facts about bounded storage with a writer that appends. *)

From Coq Require Import List Arith Lia ZArith Bool.
From Verif Require Import Base ListFacts Storage StorageFacts.
Import ListNotations.

(** ** Slots *)

Lemma slot_at : forall w size j, j < size ->
  (w + j) mod size = if w mod size + j <? size then w mod size + j else w mod size + j - size.
Proof.
  intros w size j Hj. assert (Hs : size <> 0) by lia.
  pose proof (Nat.mod_upper_bound w size Hs) as Hm.
  rewrite <- Nat.add_mod_idemp_l by auto.
  destruct (Nat.ltb_spec (w mod size + j) size).
  - apply Nat.mod_small; auto.
  - replace (w mod size + j) with ((w mod size + j - size) + 1 * size) at 1 by lia.
    rewrite Nat.mod_add by auto. apply Nat.mod_small. lia.
Qed.

(** The slot of a position at most [size] behind. *)
Lemma slot_behind : forall w size x, x < w <= x + size -> 0 < size ->
  x mod size = (w + (x + size - w)) mod size.
Proof.
  intros w size x Hx Hs. replace (w + (x + size - w)) with (x + 1 * size) by lia.
  rewrite Nat.mod_add by lia. reflexivity.
Qed.

(** ** Reading a whole segment *)

(** The next [k] bytes can be read: they exist and the buffer, if any, shows the file. *)
Definition can_read (k : nat) (u : ustore) : Prop :=
  u_rpos u + k <= length (u_data u) /\
  match u with
  | UMem m => k <= m_written m
  | UFile f => length (f_buf f) <= f_off f /\
               f_buf f = slice (f_data f) (file_rpos f) (length (f_buf f))
  end.

Lemma can_read_rseek : forall p k u, p + k <= length (u_data u) ->
  match u with UMem m => k <= m_written m | UFile _ => True end -> can_read k (u_rseek p u).
Proof.
  intros p k u H1 H2. unfold can_read. rewrite u_rseek_rpos, u_rseek_data. split; auto.
  destruct u as [m|f]; cbn in *; auto. split; [lia|reflexivity].
Qed.

Lemma u_read_some : forall k k0 u, 0 < k -> k <= k0 -> can_read k u -> exists bs u',
  u_read k u = (Ok bs, u') /\ 0 < length bs <= k /\ bs = slice (u_data u) (u_rpos u) (length bs) /\
  u_data u' = u_data u /\ u_wpos u' = u_wpos u /\ u_rpos u' = u_rpos u + length bs /\
  match u, u' with UMem m, UMem m' => m_written m' = m_written m | UFile f, UFile f' => f_cap f' = f_cap f | _, _ => False end /\
  can_read (k - length bs) u'.
Proof.
  intros k k0 u Hk _ [H1 H2]. destruct u as [m|f]; cbn in *.
  - unfold mem_read. destruct (Nat.ltb_spec (length (m_vec m)) (m_rpos m)); [lia|].
    replace (Nat.min (Nat.min (length (m_vec m) - m_rpos m) (m_written m)) k) with k by lia.
    eexists. eexists. split; [reflexivity|]. rewrite length_slice.
    replace (Nat.min k (length (m_vec m) - m_rpos m)) with k by lia. unfold can_read. cbn. repeat split; auto; try lia.
  - destruct H2 as [H2 H3]. unfold file_read. destruct (f_buf f) as [|x l] eqn:Eb.
    + unfold file_rpos in *. rewrite Eb in *. cbn [length] in *.
      rewrite Nat.sub_0_r in *.
      pose proof (file_limit_le k f). pose proof (file_limit_pos k f Hk).
      pose proof (file_limit_le (f_cap f) f). pose proof (file_limit_pos (f_cap f) f).
      destruct (Nat.leb_spec (f_cap f) k).
      * eexists. eexists. split; [reflexivity|]. rewrite length_slice.
        set (z := Nat.min _ _). assert (Hz : z = file_limit k f) by lia. rewrite Hz in *. unfold can_read. cbn. unfold file_rpos; cbn.
        repeat split; auto; try lia.
      * eexists. eexists. split; [reflexivity|]. rewrite firstn_length, length_slice.
        set (y := file_limit (f_cap f) f) in *. set (z := Nat.min y _).
        set (q := Nat.min k z). unfold can_read. cbn. unfold file_rpos; cbn.
        rewrite skipn_length, length_slice. fold z.
        repeat split; auto; try lia.
        -- rewrite firstn_slice. rewrite slice_min. f_equal. lia.
        -- rewrite skipn_slice. destruct (Nat.le_gt_cases k z).
           ++ replace (f_off f + z - (z - k)) with (f_off f + k) by lia.
              rewrite (slice_min _ _ (y - k)).
              replace (Nat.min (y - k) (length (f_data f) - (f_off f + k))) with (z - k) by lia. reflexivity.
           ++ replace (z - k) with 0 by lia. rewrite slice_min.
              replace (Nat.min (y - k) (length (f_data f) - (f_off f + k))) with 0 by lia. reflexivity.
    + unfold file_rpos in *. rewrite Eb in *. cbn [length] in *.
      eexists. eexists. split; [reflexivity|].
      rewrite <- Eb in *. rewrite firstn_length. unfold can_read. cbn. unfold file_rpos; cbn. rewrite skipn_length.
      assert (Hl : length (f_buf f) = S (length l)) by (rewrite Eb; reflexivity).
      rewrite Hl in *.
      repeat split; auto; try lia.
      * rewrite H3 at 1. rewrite firstn_slice. reflexivity.
      * rewrite H3. rewrite skipn_slice.
        destruct (Nat.le_gt_cases k (S (length l))).
        -- replace (f_off f - S (length l) + k) with (f_off f - (S (length l) - k)) by lia. reflexivity.
        -- replace (S (length l) - k) with 0 by lia. reflexivity.
Qed.

Lemma u_read_exact_ok : forall fuel k u, k <= fuel -> can_read k u -> exists u',
  u_read_exact fuel k u = (Ok (slice (u_data u) (u_rpos u) k), u') /\
  u_data u' = u_data u /\ u_wpos u' = u_wpos u /\ u_rpos u' = u_rpos u + k /\
  match u, u' with UMem m, UMem m' => m_written m' = m_written m | UFile f, UFile f' => f_cap f' = f_cap f | _, _ => False end.
Proof.
  induction fuel as [|fuel IH]; intros k u Hk Hc.
  - assert (k = 0) by lia. subst k. exists u. cbn. rewrite Nat.add_0_r. repeat split; destruct u; auto.
  - destruct k as [|k].
    + exists u. cbn. rewrite Nat.add_0_r. repeat split; destruct u; auto.
    + destruct (u_read_some (S k) (S k) u) as (bs & u1 & E & L & Hb & D & Wp & Rp & M & C); auto; try lia.
      cbn [u_read_exact]. rewrite E. destruct bs as [|x bs]; [cbn in L; lia|].
      set (bb := x :: bs) in *.
      destruct (IH (S k - length bb) u1) as (u2 & E2 & D2 & W2 & R2 & M2); [lia|auto|].
      exists u2. rewrite E2. repeat split; try congruence; try lia.
      * f_equal. f_equal. rewrite Hb at 1. rewrite D, Rp. rewrite <- slice_app. f_equal. lia.
      * destruct u, u1, u2; cbn in *; try contradiction; congruence.
Qed.

(** ** The circular buffer *)

(** [H] is everything written so far: the last [b_size] bytes of it are in their slots. *)
Record ring (H : list byte) (b : bnd) : Prop := mkRing
  { rg_wpos : b_wpos b = length H;
    rg_data : forall x, length H - b_size b <= x < length H ->
      nth_error (u_data (b_inner b)) (x mod b_size b) = nth_error H x;
    rg_count : match b_inner b with UMem m => length H <= m_written m | UFile _ => True end }.

Lemma ring_slot : forall H b x, ring H b -> length H - b_size b <= x < length H ->
  x mod b_size b < length (u_data (b_inner b)).
Proof.
  intros H b x [R1 R2 R3] Hx. specialize (R2 x Hx). apply nth_error_Some. rewrite R2.
  apply nth_error_Some. lia.
Qed.

Lemma bnd_new_ring : forall ck p n clen st, bounded_rw ck p n clen = Some st ->
  exists b, st = SBnd b /\ ring [] b /\ b_rpos b = 0 /\ b_read b = 0%Z /\ b_written b = 0%Z /\
    b_size b = match clen with Some l => Nat.min l n | None => n end /\ b_checks b = ck /\
    length (u_data (b_inner b)) <= b_size b.
Proof.
  intros ck p n clen st E. unfold bounded_rw in E.
  destruct (plain_rw p _) as [u|] eqn:Eu; [|discriminate]. injection E as <-.
  eexists. split; [reflexivity|]. cbn. repeat split; auto.
  - cbn. intros x Hx. lia.
  - destruct u; cbn; lia.
  - destruct p; cbn in Eu; try discriminate; injection Eu as <-; cbn; [rewrite repeat_length; auto|lia|lia].
Qed.

Lemma bnd_wmapped_data : forall buf b, 0 < length buf <= b_size b ->
  let start := b_wpos b mod b_size b in
  u_data (bnd_write_mapped buf b) =
    if start + length buf <=? b_size b then overwrite (u_data (b_inner b)) start buf
    else overwrite (overwrite (u_data (b_inner b)) start (firstn (b_size b - start) buf)) 0
                   (skipn (b_size b - start) buf).
Proof.
  intros buf b Hk start. unfold bnd_write_mapped, mapped_write_position. fold start.
  assert (Hs : b_size b <> 0) by lia.
  pose proof (Nat.mod_upper_bound (b_wpos b) (b_size b) Hs) as Hm. fold start in Hm.
  assert (E0 : (0 + start) mod b_size b = start) by (apply Nat.mod_small; lia). rewrite E0.
  assert (E1 : (length buf - 1 + start) mod b_size b + 1 =
     if start + length buf <=? b_size b then start + length buf else start + length buf - b_size b).
  { rewrite (Nat.add_comm _ start), slot_at by lia. rewrite (Nat.mod_small start) by lia.
    destruct (Nat.ltb_spec (start + (length buf - 1)) (b_size b)), (Nat.leb_spec (start + length buf) (b_size b)); lia. }
  rewrite E1. destruct (Nat.leb_spec (start + length buf) (b_size b)).
  - destruct (Nat.ltb_spec start (start + length buf)); [|lia].
    rewrite u_data_write by (destruct buf; cbn in *; [lia|congruence]).
    rewrite u_wseek_data, u_wseek_wpos. reflexivity.
  - destruct (Nat.ltb_spec start (start + length buf - b_size b)); [lia|].
    rewrite u_data_write.
    2:{ intros E. apply (f_equal (@length byte)) in E. rewrite skipn_length in E. cbn in E. lia. }
    rewrite u_wseek_data, u_wseek_wpos. rewrite u_data_write.
    2:{ intros E. apply (f_equal (@length byte)) in E. rewrite firstn_length in E. cbn in E. lia. }
    rewrite u_wseek_data, u_wseek_wpos. reflexivity.
Qed.

(** What a mapped write leaves in each slot. *)
Lemma wmapped_slot : forall buf b j, 0 < length buf <= b_size b -> j < b_size b ->
  (j < length buf ->
     nth_error (u_data (bnd_write_mapped buf b)) ((b_wpos b + j) mod b_size b) = nth_error buf j) /\
  (length buf <= j -> (b_wpos b + j) mod b_size b < length (u_data (b_inner b)) ->
     nth_error (u_data (bnd_write_mapped buf b)) ((b_wpos b + j) mod b_size b) =
     nth_error (u_data (b_inner b)) ((b_wpos b + j) mod b_size b)).
Proof.
  intros buf b j Hk Hj. rewrite bnd_wmapped_data by auto. rewrite slot_at by auto.
  assert (Hs : b_size b <> 0) by lia.
  pose proof (Nat.mod_upper_bound (b_wpos b) (b_size b) Hs) as Hm.
  set (start := b_wpos b mod b_size b) in *. set (size := b_size b) in *.
  destruct (Nat.leb_spec (start + length buf) size); split; intros Hj1.
  - destruct (Nat.ltb_spec (start + j) size); [|lia]. rewrite nth_overwrite_in by lia. f_equal. lia.
  - intros Hl. apply nth_overwrite_out; auto. destruct (Nat.ltb_spec (start + j) size); lia.
  - destruct (Nat.ltb_spec (start + j) size).
    + rewrite nth_overwrite_out.
      * rewrite nth_overwrite_in by (rewrite firstn_length; lia).
        rewrite nth_error_firstn. destruct (Nat.ltb_spec (start + j - start) (size - start)); [|lia]. f_equal. lia.
      * rewrite length_overwrite. rewrite firstn_length. lia.
      * rewrite skipn_length. lia.
    + rewrite nth_overwrite_in by (rewrite skipn_length; lia).
      rewrite nth_error_skipn. f_equal. lia.
  - intros Hl. destruct (Nat.ltb_spec (start + j) size); [lia|].
    rewrite nth_overwrite_out.
    + apply nth_overwrite_out; auto. rewrite firstn_length. lia.
    + rewrite length_overwrite. lia.
    + rewrite skipn_length. lia.
Qed.

Lemma wmapped_count : forall buf b, 0 < length buf <= b_size b ->
  match b_inner b, bnd_write_mapped buf b with
  | UMem m, UMem m' => m_written m' = m_written m + length buf
  | UFile _, UFile _ => True
  | _, _ => False
  end.
Proof.
  intros buf b Hk. unfold bnd_write_mapped.
  destruct (b_inner b) as [m|f]; cbn; destruct (_ <? _); cbn; auto.
  - rewrite firstn_length, skipn_length.
    assert (Hs : b_size b <> 0) by lia.
    pose proof (Nat.mod_upper_bound (0 + b_wpos b mod b_size b) (b_size b) Hs).
    unfold mapped_write_position. lia.
Qed.

Lemma wmapped_length : forall buf b, 0 < length buf <= b_size b ->
  length (u_data (b_inner b)) <= b_size b -> length (u_data (bnd_write_mapped buf b)) <= b_size b.
Proof.
  intros buf b Hk Hl. rewrite bnd_wmapped_data by auto.
  assert (Hs : b_size b <> 0) by lia.
  pose proof (Nat.mod_upper_bound (b_wpos b) (b_size b) Hs) as Hm.
  destruct (Nat.leb_spec (b_wpos b mod b_size b + length buf) (b_size b)).
  - rewrite length_overwrite. lia.
  - rewrite !length_overwrite, firstn_length, skipn_length. lia.
Qed.

Lemma bnd_write_spec : forall bs b k b', bnd_write bs b = (k, b') ->
  k = Nat.min (length bs) (b_size b - (b_wpos b - b_rpos b)) /\
  b_wpos b' = b_wpos b + k /\ b_rpos b' = b_rpos b /\ b_size b' = b_size b /\
  b_read b' = b_read b /\ b_written b' = (b_written b + Z.of_nat k)%Z /\ b_checks b' = b_checks b /\
  (length (u_data (b_inner b)) <= b_size b -> length (u_data (b_inner b')) <= b_size b).
Proof.
  intros bs b k b' E. unfold bnd_write in E.
  destruct (Nat.eqb_spec (Nat.min (b_size b - (b_wpos b - b_rpos b)) (length bs)) 0) as [E0|E0];
    injection E as <- <-; cbn.
  - repeat split; auto; lia.
  - repeat split; auto; try lia. intros Hl. apply wmapped_length; auto. rewrite firstn_length. lia.
Qed.

Lemma bnd_write_ring : forall H bs b k b', ring H b -> bnd_write bs b = (k, b') ->
  ring (H ++ firstn k bs) b'.
Proof.
  intros H bs b k b' R E. pose proof (bnd_write_spec _ _ _ _ E) as (Ek & Ew & Er & Es & _).
  unfold bnd_write in E.
  destruct (Nat.eqb_spec (Nat.min (b_size b - (b_wpos b - b_rpos b)) (length bs)) 0) as [E0|E0].
  - injection E as <- <-. cbn. rewrite app_nil_r. auto.
  - injection E as E1 E2. rewrite E1 in *.
    assert (Hb : length (firstn k bs) = k) by (rewrite firstn_length; lia).
    destruct R as [R1 R2 R3]. constructor.
    + rewrite app_length, Hb. lia.
    + rewrite app_length, Hb. intros x Hx. rewrite Es in *. subst b'. cbn [b_inner].
      destruct (Nat.lt_ge_cases x (length H)) as [Hl|Hl].
      * rewrite nth_error_app1 by auto. rewrite <- R2 by lia.
        rewrite (slot_behind (length H) (b_size b) x) by lia. rewrite <- R1.
        apply wmapped_slot; rewrite ?Hb; try lia.
        rewrite R1, <- slot_behind by lia.
        apply (ring_slot H b x); [constructor; auto|lia].
      * rewrite nth_error_app2 by auto.
        replace x with (b_wpos b + (x - length H)) at 1 by lia.
        apply wmapped_slot; rewrite ?Hb; lia.
    + subst b'. cbn [b_inner]. rewrite app_length, Hb.
      assert (Hk : 0 < length (firstn k bs) <= b_size b) by lia.
      pose proof (wmapped_count (firstn k bs) b Hk) as M. rewrite Hb in M.
      destruct (b_inner b) as [m|f]; destruct (bnd_write_mapped (firstn k bs) b) as [m'|f']; auto; try contradiction.
      lia.
Qed.

(** Reading inside the buffered window. *)
Lemma read_mapped_ok : forall H b k, ring H b -> 0 < k -> b_rpos b + k <= length H ->
  length H - b_rpos b <= b_size b -> length (u_data (b_inner b)) <= b_size b ->
  exists u', bnd_read_mapped k b = (Ok (slice H (b_rpos b) k), u') /\
    u_data u' = u_data (b_inner b) /\
    match b_inner b, u' with UMem m, UMem m' => m_written m' = m_written m | UFile _, UFile _ => True | _, _ => False end.
Proof.
  intros H b k R Hk Hr Hw Hd. pose proof R as [R1 R2 R3].
  unfold bnd_read_mapped, mapped_read_position.
  assert (Hs : b_size b <> 0) by lia.
  pose proof (Nat.mod_upper_bound (b_rpos b) (b_size b) Hs) as Hm.
  set (start := b_rpos b mod b_size b) in *.
  assert (E0 : (0 + start) mod b_size b = start) by (apply Nat.mod_small; lia). rewrite E0.
  assert (E1 : (k - 1 + start) mod b_size b + 1 =
     if start + k <=? b_size b then start + k else start + k - b_size b).
  { rewrite (Nat.add_comm _ start), slot_at by lia. rewrite (Nat.mod_small start) by lia.
    destruct (Nat.ltb_spec (start + (k - 1)) (b_size b)), (Nat.leb_spec (start + k) (b_size b)); lia. }
  rewrite E1.
  assert (Hslot : forall j, j < k ->
    nth_error (u_data (b_inner b)) (if start + j <? b_size b then start + j else start + j - b_size b)
    = nth_error H (b_rpos b + j)).
  { intros j Hj. rewrite <- R2 by lia. f_equal. unfold start. rewrite slot_at by lia. reflexivity. }
  assert (Hlen : forall j, j < k ->
    (if start + j <? b_size b then start + j else start + j - b_size b) < length (u_data (b_inner b))).
  { intros j Hj. apply nth_error_Some. rewrite Hslot by auto. apply nth_error_Some. lia. }
  assert (Hcnt : match b_inner b with UMem m => k <= m_written m | UFile _ => True end).
  { destruct (b_inner b); auto. lia. }
  destruct (Nat.leb_spec (start + k) (b_size b)) as [Hc|Hc].
  - destruct (Nat.ltb_spec start (start + k)); [|lia].
    destruct (u_read_exact_ok k k (u_rseek start (b_inner b))) as (u' & E & D & _ & _ & M); auto.
    { apply can_read_rseek; auto. specialize (Hlen (k - 1)).
      destruct (Nat.ltb_spec (start + (k - 1)) (b_size b)); lia. }
    exists u'. rewrite E. rewrite u_rseek_data in *. rewrite u_rseek_rpos. split; [|split; [auto|]].
    + f_equal. f_equal. apply list_ext. intros i. rewrite !nth_error_slice.
      destruct (Nat.ltb_spec i k); auto. rewrite <- Hslot by auto.
      destruct (Nat.ltb_spec (start + i) (b_size b)); [reflexivity|lia].
    + destruct (b_inner b), u'; cbn in *; auto.
  - destruct (Nat.ltb_spec start (start + k - b_size b)); [lia|].
    assert (Hfull : b_size b <= b_wpos b).
    { destruct (Nat.le_gt_cases (b_size b) (b_wpos b)); auto. exfalso.
      assert (start = b_rpos b) by (unfold start; apply Nat.mod_small; lia). lia. }
    replace (Nat.min (b_size b) (b_wpos b)) with (b_size b) by lia.
    destruct (Nat.ltb_spec (b_size b) start); [lia|]. cbn [orb].
    destruct (Nat.ltb_spec k (b_size b - start)); [lia|].
    assert (Hl1 : b_size b <= length (u_data (b_inner b))).
    { specialize (Hlen (b_size b - start - 1)).
      destruct (Nat.ltb_spec (start + (b_size b - start - 1)) (b_size b)); lia. }
    destruct (u_read_exact_ok (b_size b - start) (b_size b - start) (u_rseek start (b_inner b)))
      as (u1 & F1 & D1 & _ & _ & M1); auto.
    { apply can_read_rseek; [lia|]. destruct (b_inner b); auto. lia. }
    rewrite F1.
    destruct (u_read_exact_ok (k - (b_size b - start)) (k - (b_size b - start)) (u_rseek 0 u1))
      as (u2 & F2 & D2 & _ & _ & M2); auto.
    { apply can_read_rseek; [rewrite D1, u_rseek_data; lia|].
      destruct (b_inner b), u1; cbn in *; auto; try contradiction. lia. }
    rewrite F2. rewrite !u_rseek_data in *. rewrite !u_rseek_rpos in *. exists u2.
    split; [|split; [congruence|]].
    + f_equal. f_equal. apply list_ext. intros i.
      destruct (Nat.lt_ge_cases i (b_size b - start)).
      * rewrite nth_error_app1 by (rewrite length_slice; lia). rewrite !nth_error_slice.
        destruct (Nat.ltb_spec i (b_size b - start)); [|lia]. destruct (Nat.ltb_spec i k); [|lia].
        rewrite <- Hslot by auto. destruct (Nat.ltb_spec (start + i) (b_size b)); [reflexivity|lia].
      * rewrite nth_error_app2 by (rewrite length_slice; lia). rewrite !nth_error_slice, length_slice.
        rewrite D1. replace (Nat.min (b_size b - start) (length (u_data (b_inner b)) - start)) with (b_size b - start) by lia.
        destruct (Nat.ltb_spec i k).
        -- destruct (Nat.ltb_spec (i - (b_size b - start)) (k - (b_size b - start))); [|lia].
           rewrite <- Hslot by auto. destruct (Nat.ltb_spec (start + i) (b_size b)); [lia|]. f_equal. lia.
        -- destruct (Nat.ltb_spec (i - (b_size b - start)) (k - (b_size b - start))); [lia|reflexivity].
    + destruct (b_inner b), u1, u2; cbn in *; auto; try contradiction. congruence.
Qed.

(** The outcome of a read, completely. *)
Lemma bnd_read_ring : forall H n b r b', ring H b -> length (u_data (b_inner b)) <= b_size b ->
  bnd_read n b = (r, b') ->
  ring H b' /\ length (u_data (b_inner b')) <= b_size b /\
  b_size b' = b_size b /\ b_written b' = b_written b /\ b_checks b' = b_checks b /\
  ((r = Err EInvalidInput /\ b' = b /\ (b_size b < n \/ b_size b < length H - b_rpos b)) \/
   (r = Ok [] /\ b' = b /\ n <= b_size b /\ length H - b_rpos b <= b_size b /\
      ((b_written b <= b_read b)%Z \/ n = 0 \/ length H <= b_rpos b)) \/
   (n <= b_size b /\ length H - b_rpos b <= b_size b /\ (b_read b < b_written b)%Z /\
    let k := Nat.min (length H - b_rpos b) n in
    0 < k /\ r = Ok (slice H (b_rpos b) k) /\ b_rpos b' = b_rpos b + k /\
    b_read b' = (b_read b + Z.of_nat k)%Z)).
Proof.
  intros H n b r b' R Hd E. pose proof R as [R1 R2 R3]. unfold bnd_read in E. rewrite R1 in E.
  destruct (Nat.ltb_spec (b_size b) n).
  { injection E as <- <-. repeat (split; auto). }
  destruct (Nat.ltb_spec (b_size b) (length H - b_rpos b)).
  { injection E as <- <-. repeat (split; auto). }
  destruct (Z.leb_spec (b_written b) (b_read b)).
  { injection E as <- <-. repeat (split; auto). right; left. repeat (split; auto). }
  destruct (Nat.eqb_spec (Nat.min (length H - b_rpos b) n) 0).
  { injection E as <- <-. repeat (split; auto). right; left. repeat (split; auto). lia. }
  destruct (read_mapped_ok H b (Nat.min (length H - b_rpos b) n)) as (u' & F & D & M); auto; try lia.
  rewrite F in E. injection E as <- <-. cbn. rewrite D.
  split; [constructor; cbn; auto; [rewrite D; auto|]|].
  - destruct (b_inner b), u'; auto; try contradiction. lia.
  - repeat (split; auto). right; right. repeat (split; auto); lia.
Qed.

Lemma bnd_rseek_ring : forall H p b r b', ring H b -> bnd_rseek p b = (r, b') ->
  ring H b' /\ b_size b' = b_size b /\ b_written b' = b_written b /\ b_inner b' = b_inner b /\
  b_checks b' = b_checks b /\
  ((r = Panic /\ b' = b) \/ (r = Ok p /\ b_rpos b' = p)).
Proof.
  intros H p b r b' [R1 R2 R3] E. unfold bnd_rseek in E.
  destruct (counter_sub _ _ _); injection E as <- <-; cbn; split; try (constructor; auto; fail); auto 10.
Qed.

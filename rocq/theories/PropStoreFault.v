(** * C80: bounded storage above a failing medium. *)

From Coq Require Import List Arith Lia ZArith Bool.
From Verif Require Import Base ListFacts Storage StorageFacts StoreSpec BoundedFacts StoreFacts
  BoundedFault Exec.
Import ListNotations.

(** ** What a failure leaves behind *)

(** Same bytes and same count of written bytes. *)
Definition same_bytes (u u' : ustore) : Prop :=
  u_data u' = u_data u /\
  match u, u' with
  | UMem m, UMem m' => m_written m' = m_written m
  | UFile _, UFile _ => True
  | _, _ => False
  end.

Lemma same_refl : forall u, same_bytes u u.
Proof. intros [m|f]; split; auto. Qed.

Lemma same_trans : forall u1 u2 u3, same_bytes u1 u2 -> same_bytes u2 u3 -> same_bytes u1 u3.
Proof.
  intros [?|?] [?|?] [?|?] [A1 A2] [B1 B2]; try contradiction; split; congruence || auto.
Qed.

Lemma same_rseek : forall p u, same_bytes u (u_rseek p u).
Proof. intros p [m|f]; split; cbn; auto. Qed.

Lemma same_read : forall n u, same_bytes u (snd (u_read n u)).
Proof.
  intros n [m|f]; cbn.
  - unfold mem_read. destruct (_ <? _); split; cbn; auto.
  - unfold file_read. destruct (f_buf f); [destruct (_ <=? _)|]; split; cbn; auto.
Qed.

Lemma same_read_exact : forall fuel k u, same_bytes u (snd (u_read_exact fuel k u)).
Proof.
  induction fuel as [|fuel IH]; intros [|k] u; cbn [u_read_exact]; try apply same_refl.
  pose proof (same_read (S k) u) as S1. destruct (u_read (S k) u) as [[bs|e|] u1]; cbn [snd] in *; auto.
  destruct bs as [|x bs]; auto. specialize (IH (S k - length (x :: bs)) u1).
  destruct (u_read_exact fuel (S k - length (x :: bs)) u1) as [[bs'|e|] u2]; cbn [snd] in *;
    eapply same_trans; eauto.
Qed.

Lemma ring_same : forall H b u, ring H b -> same_bytes (b_inner b) u -> ring H (bnd_with_inner b u).
Proof.
  intros H b u [R1 R2 R3] [S1 S2]. constructor; cbn; auto.
  - intros x Hx. rewrite S1. auto.
  - destruct (b_inner b), u; auto; try contradiction. lia.
Qed.

Lemma read_fault_spec : forall f n b b', bnd_read_fault f n b = Some b' ->
  exists u, b' = bnd_with_inner b u /\ same_bytes (b_inner b) u.
Proof.
  intros f n b b' E. unfold bnd_read_fault in E. destruct (_ || _ || _ || _); [discriminate|].
  set (start := mapped_read_position b 0) in *.
  destruct f as [|j| |j].
  - injection E as <-. exists (b_inner b). split; [destruct b; reflexivity|apply same_refl].
  - destruct (j <? _); [|discriminate]. injection E as <-. eexists. split; [reflexivity|].
    eapply same_trans; [apply same_rseek|apply same_read_exact].
  - destruct (_ <? _); [discriminate|]. injection E as <-. eexists. split; [reflexivity|].
    eapply same_trans; [apply same_rseek|apply same_read_exact].
  - destruct (_ || _); [discriminate|]. injection E as <-. eexists. split; [reflexivity|].
    eapply same_trans; [apply same_rseek|]. eapply same_trans; [apply same_read_exact|].
    eapply same_trans; [apply same_rseek|apply same_read_exact].
Qed.

(** A failing write that does not get to the flush writes [m] bytes behind the write
    position, in their slots, and nothing else. *)
Lemma write_fault_spec : forall f bs b k b', bnd_write_fault f bs b = Some (k, b') ->
  (f = WfFlush /\ bnd_write bs b = (k, b')) \/
  (k = 0 /\ exists u, b' = bnd_with_inner b u /\
     (same_bytes (b_inner b) u \/
      exists buf, 0 < length buf <= b_size b - (b_wpos b - b_rpos b) /\
        same_bytes (bnd_write_mapped buf b) u)).
Proof.
  intros f bs b k b' E. unfold bnd_write_fault in E.
  set (avail := Nat.min (b_size b - (b_wpos b - b_rpos b)) (length bs)) in *.
  destruct (Nat.eqb_spec avail 0) as [|Ha]; [discriminate|].
  set (buf := firstn avail bs) in *.
  assert (Hbuf : length buf = avail) by (unfold buf; rewrite firstn_length; lia).
  assert (Hs : b_size b <> 0) by lia.
  pose proof (Nat.mod_upper_bound (b_wpos b) (b_size b) Hs) as Hm.
  unfold mapped_write_position in E. set (start := b_wpos b mod b_size b) in *.
  assert (E0 : (0 + start) mod b_size b = start) by (apply Nat.mod_small; lia). rewrite E0 in E.
  assert (E1 : forall l, 0 < l <= b_size b -> (l - 1 + start) mod b_size b + 1 =
     if start + l <=? b_size b then start + l else start + l - b_size b).
  { intros l Hl. rewrite (Nat.add_comm _ start), slot_at by lia. rewrite (Nat.mod_small start) by lia.
    destruct (Nat.ltb_spec (start + (l - 1)) (b_size b)), (Nat.leb_spec (start + l) (b_size b)); lia. }
  rewrite E1 in E by lia.
  assert (Sw : (start <? (if start + length buf <=? b_size b then start + length buf else start + length buf - b_size b))
    = (start + length buf <=? b_size b)).
  { destruct (Nat.leb_spec (start + length buf) (b_size b));
      [apply Nat.ltb_lt|apply Nat.ltb_ge]; lia. }
  rewrite Sw in E. clear Sw.
  (* one write at [start] *)
  assert (One : forall l, 0 < length l <= b_size b -> start + length l <= b_size b ->
    bnd_write_mapped l b = u_write l (u_wseek start (b_inner b))).
  { intros l Hl Hl'. unfold bnd_write_mapped, mapped_write_position. fold start. rewrite E0, E1 by lia.
    destruct (Nat.leb_spec (start + length l) (b_size b)); [|lia].
    destruct (Nat.ltb_spec start (start + length l)); [reflexivity|lia]. }
  assert (Two : forall l, 0 < length l <= b_size b -> b_size b < start + length l ->
    bnd_write_mapped l b = u_write (skipn (b_size b - start) l)
      (u_wseek 0 (u_write (firstn (b_size b - start) l) (u_wseek start (b_inner b))))).
  { intros l Hl Hl'. unfold bnd_write_mapped, mapped_write_position. fold start. rewrite E0, E1 by lia.
    destruct (Nat.leb_spec (start + length l) (b_size b)); [lia|].
    destruct (Nat.ltb_spec start (start + length l - b_size b)); [lia|]. reflexivity. }
  assert (Ws : forall p u, same_bytes u (u_wseek p u)) by (intros p [m|f0]; split; cbn; auto).
  assert (Bound : avail <= b_size b - (b_wpos b - b_rpos b)) by (unfold avail; lia).
  assert (Wd : forall l u, l <> [] -> write_some l u = u_write l u) by (intros [|x l] u N; [congruence|reflexivity]).
  (* a prefix of the first segment *)
  assert (First : forall j, j <= avail -> start + j <= b_size b ->
    same_bytes (b_inner b) (write_some (firstn j buf) (u_wseek start (b_inner b))) \/
    exists l, 0 < length l <= b_size b - (b_wpos b - b_rpos b) /\
      same_bytes (bnd_write_mapped l b) (write_some (firstn j buf) (u_wseek start (b_inner b)))).
  { intros j Hj Hj'. destruct j as [|j]; [left; apply Ws|right]. exists (firstn (S j) buf).
    assert (L : length (firstn (S j) buf) = S j) by (rewrite firstn_length; lia). rewrite L.
    split; [lia|]. rewrite One by lia. rewrite Wd by (intros X; rewrite X in L; discriminate).
    apply same_refl. }
  destruct f as [|j| |j|].
  { injection E as <- <-. right. split; auto. exists (b_inner b). split; [destruct b; reflexivity|].
    left. apply same_refl. }
  4: { injection E as E. left. auto. }
  all: destruct (Nat.leb_spec (start + length buf) (b_size b)) as [Hc|Hc].
  all: cbn [orb] in E; try discriminate E.
  - destruct (Nat.ltb_spec j (length buf)) as [Hj|]; [|discriminate]. injection E as <- <-. right. split; auto.
    eexists. split; [reflexivity|]. apply First; lia.
  - destruct (Nat.ltb_spec j (b_size b - start)) as [Hj|]; [|discriminate]. injection E as <- <-. right. split; auto.
    eexists. split; [reflexivity|]. apply First; lia.
  - injection E as <- <-. right. split; auto.
    eexists. split; [reflexivity|].
    rewrite <- Wd by (intros X; apply (f_equal (@length byte)) in X; rewrite firstn_length in X; cbn in X; lia).
    apply First; lia.
  - destruct (Nat.leb_spec (length buf - (b_size b - start)) j) as [|Hj]; [discriminate|].
    injection E as <- <-. right. split; auto. eexists. split; [reflexivity|]. right.
    exists (firstn (b_size b - start + j) buf).
    assert (L : length (firstn (b_size b - start + j) buf) = b_size b - start + j) by (rewrite firstn_length; lia).
    rewrite L. split; [lia|].
    destruct j as [|j].
    + rewrite Nat.add_0_r in *. cbn [firstn write_some]. rewrite One by lia. apply Ws.
    + rewrite Two by lia. rewrite firstn_firstn.
      replace (Nat.min (b_size b - start) (b_size b - start + S j)) with (b_size b - start) by lia.
      assert (Es : skipn (b_size b - start) (firstn (b_size b - start + S j) buf) = firstn (S j) (skipn (b_size b - start) buf)).
      { rewrite firstn_skipn_comm. reflexivity. }
      rewrite Es. rewrite Wd; [apply same_refl|].
      intros X. apply (f_equal (@length byte)) in X. rewrite firstn_length, skipn_length in X. cbn in X. lia.
Qed.

(** ** Histories with failures *)

(** [H] as far as the reader can still get at it without seeking back. *)
Definition kept (H : list byte) (b : bnd) : Prop :=
  exists H', ring H' b /\ length H' = length H /\
    forall x, b_rpos b <= x -> nth_error H' x = nth_error H x.

Lemma nth_error_map_seq : forall {A} (f : nat -> A) n x, x < n ->
  nth_error (map f (seq 0 n)) x = Some (f x).
Proof.
  intros A f n x Hx. rewrite nth_error_map.
  replace (nth_error (seq 0 n) x) with (Some x); [reflexivity|].
  symmetry. rewrite (nth_error_nth' _ 0) by (rewrite seq_length; auto). rewrite seq_nth by auto. reflexivity.
Qed.

(** Whatever the slots hold is a history. *)
Lemma ring_rebuild : forall b n, b_wpos b = n ->
  (forall x, n - b_size b <= x < n -> x mod b_size b < length (u_data (b_inner b))) ->
  match b_inner b with UMem m => n <= m_written m | UFile _ => True end ->
  exists H, ring H b /\ length H = n /\
    forall x, n - b_size b <= x < n -> nth_error H x = nth_error (u_data (b_inner b)) (x mod b_size b).
Proof.
  intros b n Hn Hs Hc.
  pose (H := map (fun x => nth (x mod b_size b) (u_data (b_inner b)) x00) (seq 0 n)).
  assert (L : length H = n) by (unfold H; rewrite map_length, seq_length; auto).
  assert (G : forall x, n - b_size b <= x < n -> nth_error H x = nth_error (u_data (b_inner b)) (x mod b_size b)).
  { intros x Hx. unfold H. rewrite nth_error_map_seq by lia. symmetry. apply nth_error_nth'. auto. }
  exists H. split; [|auto]. constructor; rewrite ?L; auto. intros x Hx. symmetry. auto.
Qed.

Lemma kept_same : forall H b u, kept H b -> same_bytes (b_inner b) u -> kept H (bnd_with_inner b u).
Proof. intros H b u (H' & R & L & A) S. exists H'. split; [apply ring_same; auto|]. auto. Qed.

(** Bytes written behind the write position without counting them. *)
Lemma kept_spill : forall H b buf, kept H b ->
  0 < length buf <= b_size b - (b_wpos b - b_rpos b) ->
  kept H (bnd_with_inner b (bnd_write_mapped buf b)).
Proof.
  intros H b buf (H' & R & L & A) Hb. pose proof R as [R1 R2 R3].
  assert (Slot : forall x, length H' - b_size b <= x < length H' ->
    exists j, j < b_size b /\ x mod b_size b = (b_wpos b + j) mod b_size b /\ j = x + b_size b - b_wpos b).
  { intros x Hx. exists (x + b_size b - b_wpos b). split; [lia|]. split; [|reflexivity].
    rewrite R1. apply slot_behind; lia. }
  assert (Len : forall x, length H' - b_size b <= x < length H' ->
    x mod b_size b < length (u_data (bnd_write_mapped buf b))).
  { intros x Hx. destruct (Slot x Hx) as (j & Hj & E & _). pose proof (ring_slot H' b x R Hx) as Hs.
    destruct (wmapped_slot buf b j) as [W1 W2]; [lia|auto|]. apply nth_error_Some. rewrite E in *.
    destruct (Nat.lt_ge_cases j (length buf)).
    - rewrite W1 by auto. apply nth_error_Some. auto.
    - rewrite W2 by auto. apply nth_error_Some. auto. }
  destruct (ring_rebuild (bnd_with_inner b (bnd_write_mapped buf b)) (length H')) as (H2 & Q1 & Q2 & Q3).
  - exact R1.
  - exact Len.
  - cbn [b_inner bnd_with_inner]. assert (Hk : 0 < length buf <= b_size b) by lia.
    pose proof (wmapped_count buf b Hk) as M.
    destruct (b_inner b) as [m|f], (bnd_write_mapped buf b) as [m'|f']; auto; try contradiction. lia.
  - exists H2. split; [exact Q1|]. split; [congruence|]. cbn [b_rpos bnd_with_inner].
    intros x Hx. rewrite <- A by auto.
    destruct (Nat.lt_ge_cases x (length H')) as [Hl|Hl].
    2:{ rewrite (proj2 (nth_error_None H2 x)) by lia. symmetry. apply nth_error_None. auto. }
    assert (Hw : length H' - b_size b <= x < length H') by lia.
    rewrite Q3 by exact Hw. cbn [b_inner b_size bnd_with_inner]. rewrite <- R2 by exact Hw.
    destruct (Slot x Hw) as (j & Hj & E & Ej). rewrite E.
    apply wmapped_slot; auto; try lia. rewrite <- E. apply (ring_slot H' b x R Hw).
Qed.

Definition results (evs : list (bool * sev)) : list sev := map snd evs.

Record finv (size : nat) (evs : list (bool * sev)) (b : bnd) : Prop := mkFinv
  { fi_kept : kept (history (results evs)) b;
    fi_size : b_size b = size;
    fi_len : length (u_data (b_inner b)) <= b_size b;
    fi_rpos : b_rpos b = rcursor (results evs);
    fi_written : b_written b = Z.of_nat (length (history (results evs)));
    fi_read : b_read b = Z.of_nat (credit (results evs));
    fi_credit : credit (results evs) <= rcursor (results evs) }.

Lemma slice_kept : forall (H' H : list byte) p k, length H' = length H ->
  (forall x, p <= x -> nth_error H' x = nth_error H x) -> slice H' p k = slice H p k.
Proof.
  intros H' H p k L A. apply list_ext. intros i. rewrite !nth_error_slice.
  destruct (i <? k); auto. apply A. lia.
Qed.

Lemma kept_app : forall H H' l : list byte, length H' = length H -> forall p,
  (forall x, p <= x -> nth_error H' x = nth_error H x) ->
  forall x, p <= x -> nth_error (H' ++ l) x = nth_error (H ++ l) x.
Proof.
  intros H H' l L p A x Hx. destruct (Nat.lt_ge_cases x (length H)).
  - rewrite !nth_error_app1 by lia. auto.
  - rewrite !nth_error_app2 by lia. f_equal. lia.
Qed.

Lemma finv_write : forall size evs b bs k b' fl, finv size evs b -> bnd_write bs b = (k, b') ->
  write_fits size (results evs) (SvWrite bs k) /\ finv size ((fl, SvWrite bs k) :: evs) b'.
Proof.
  intros size evs b bs k b' fl [(H' & R & L & A) Hs Hd Hr Hw Hc Hcr] E.
  pose proof (bnd_write_ring _ _ _ _ _ R E) as R'.
  pose proof (bnd_write_spec _ _ _ _ E) as (Ek & _ & Er & Es & Erd & Ew & _ & Hd').
  rewrite (rg_wpos _ _ R), Hr, L, Hs in Ek. split; [exact Ek|].
  constructor; cbn [results map snd history rcursor credit]; fold (results evs); try congruence.
  - exists (H' ++ firstn k bs). split; auto. split; [rewrite !app_length; congruence|].
    rewrite Er. apply kept_app; auto.
  - rewrite Es. auto.
  - rewrite Ew, Hw, app_length, firstn_length. lia.
Qed.

Definition fappends (o : fop) : Prop := match o with FOp (OpWSeek _) => False | _ => True end.

(** What every result satisfies. *)
Definition fresult (size : nat) (older : list sev) (failed : bool) (e : sev) : Prop :=
  read_is_history older e /\
  (failed = false -> write_fits size older e /\ window_served size older e).

Lemma finv_step : forall size o evs b fl e s', fappends o -> finv size evs b ->
  fop_run o (SBnd b) = Some (fl, e, s') -> seeks_ahead (results evs) e ->
  fresult size (results evs) fl e /\ exists b', s' = SBnd b' /\ finv size ((fl, e) :: evs) b'.
Proof.
  intros size o evs b fl e s' Ho F E Hk. pose proof F as [(H' & R & L & A) Hs Hd Hr Hw Hc Hcr].
  destruct o as [o|n f|bs f]; cbn [fop_run] in E.
  - destruct o as [n|p| |bs|p]; cbn in E, Ho; try contradiction.
    + destruct (bnd_read n b) as [r b'] eqn:Er. injection E as <- <- <-.
      destruct (bnd_read_ring _ _ _ _ _ R Hd Er) as (R' & D' & S' & W' & _ & C).
      rewrite L, Hr in C.
      destruct C as [(-> & -> & C)|[(-> & -> & C1 & C2 & C3)|(C1 & C2 & C3 & Hk0 & -> & Hp & Hq)]].
      * split; [split; [exact I|]|].
        -- intros _. split; [exact I|]. cbn. intros; lia.
        -- exists b. split; auto. constructor; cbn; auto. exists H'. auto.
      * split; [split; [cbn; split; [lia|reflexivity]|]|].
        -- intros _. split; [exact I|]. cbn. intros. exists []. split; auto. cbn. lia.
        -- exists b. split; auto. constructor; cbn [results map snd history rcursor credit length];
             fold (results evs); rewrite ?Nat.add_0_r; auto. exists H'. auto.
      * assert (Sl : slice H' (rcursor (results evs)) (Nat.min (length (history (results evs)) - rcursor (results evs)) n)
          = slice (history (results evs)) (rcursor (results evs)) (Nat.min (length (history (results evs)) - rcursor (results evs)) n)).
        { apply slice_kept; auto. rewrite <- Hr. auto. }
        rewrite Sl.
        assert (Ll : length (slice (history (results evs)) (rcursor (results evs))
            (Nat.min (length (history (results evs)) - rcursor (results evs)) n))
          = Nat.min (length (history (results evs)) - rcursor (results evs)) n) by (rewrite length_slice; lia).
        split; [split|].
        -- cbn -[slice]. rewrite Ll. split; [lia|reflexivity].
        -- intros _. split; [exact I|]. cbn -[slice]. intros _ _. eexists. split; [reflexivity|]. lia.
        -- exists b'. split; auto. constructor; cbn -[slice results]; cbn [results map snd]; fold (results evs).
           ++ cbn [history]. exists H'. split; auto. split; auto. intros x Hx. apply A. lia.
           ++ congruence.
           ++ rewrite S'. auto.
           ++ cbn [rcursor]. rewrite Ll, Hp. reflexivity.
           ++ cbn [history]. congruence.
           ++ cbn [credit]. rewrite Ll, Hq, Hc. lia.
           ++ cbn [credit rcursor]. lia.
    + destruct (bnd_rseek p b) as [r b'] eqn:Er. injection E as <- <- <-. cbn in Hk.
      unfold bnd_rseek, counter_sub in Er.
      replace (b_rpos b - p) with 0 in Er by lia. rewrite Hc in Er.
      destruct (Z.ltb_spec (Z.of_nat (credit (results evs))) (Z.of_nat 0)); [lia|].
      injection Er as <- <-. split; [split; [exact I|]|].
      * intros _. split; [exact I|reflexivity].
      * eexists. split; [reflexivity|].
        constructor; cbn [results map snd history rcursor credit b_size b_inner b_rpos b_written b_read];
          fold (results evs); auto; try lia.
        exists H'. split; [destruct R; constructor; auto|]. split; auto. cbn [b_rpos]. intros x Hx. apply A. lia.
    + injection E as <- <- <-. split; [split; [exact I|intros _; split; exact I]|].
      exists b. split; auto. constructor; cbn; auto. exists H'. auto.
    + destruct (bnd_write bs b) as [k b'] eqn:Ew. injection E as <- <- <-.
      destruct (finv_write size evs b bs k b' false F Ew) as [G1 G2].
      split; [split; [exact I|intros _; split; [exact G1|exact I]]|]. exists b'. auto.
  - destruct (bnd_read_fault f n b) as [b'|] eqn:Er; [|discriminate]. injection E as <- <- <-.
    destruct (read_fault_spec _ _ _ _ Er) as (u & -> & Su).
    split; [split; [exact I|discriminate]|]. eexists. split; [reflexivity|].
    constructor; cbn [results map snd history rcursor credit b_size b_inner b_rpos b_written b_read bnd_with_inner];
      fold (results evs); auto.
    + apply kept_same; auto. exists H'. auto.
    + destruct Su as [-> _]. auto.
  - destruct (bnd_write_fault f bs b) as [[k b']|] eqn:Er; [|discriminate]. injection E as <- <- <-.
    split; [split; [exact I|discriminate]|].
    destruct (write_fault_spec _ _ _ _ _ Er) as [(_ & Ew)|(-> & u & -> & Su)].
    + exists b'. split; auto. apply (finv_write size evs b bs k b' true F Ew).
    + eexists. split; [reflexivity|].
      assert (G : kept (history (results evs)) (bnd_with_inner b u) /\ length (u_data u) <= b_size b).
      { assert (K0 : kept (history (results evs)) b) by (exists H'; auto).
        destruct Su as [Su|(buf & Hb & Su)].
        - split; [apply kept_same; auto|]. destruct Su as [-> _]. auto.
        - split.
          + apply (kept_same _ (bnd_with_inner b (bnd_write_mapped buf b)) u); auto. apply kept_spill; auto.
          + destruct Su as [-> _]. apply wmapped_length; auto. lia. }
      destruct G as [G1 G2].
      constructor; cbn [results map snd history rcursor credit b_size b_inner b_rpos b_written b_read bnd_with_inner];
        fold (results evs); cbn [firstn]; rewrite ?app_nil_r; auto.
Qed.

Lemma fops_grow : forall os s evs evs' s', fops_run os s evs = Some (evs', s') ->
  exists new, evs' = new ++ evs.
Proof.
  induction os as [|o os IH]; intros s evs evs' s' H; cbn in H.
  - injection H as <- <-. exists []. reflexivity.
  - destruct (fop_run o s) as [[[fl e] s1]|]; [|discriminate]. apply IH in H as [new ->].
    exists (new ++ [(fl, e)]). rewrite <- app_assoc. reflexivity.
Qed.

Lemma finv_run : forall size os b evs evs' s',
  (forall o, In o os -> fappends o) -> finv size evs b ->
  (forall newer fl e older, evs = newer ++ (fl, e) :: older -> fresult size (results older) fl e) ->
  fops_run os (SBnd b) evs = Some (evs', s') -> every_result seeks_ahead (results evs') ->
  forall newer fl e older, evs' = newer ++ (fl, e) :: older -> fresult size (results older) fl e.
Proof.
  intros size. induction os as [|o os IH]; intros b evs evs' s' Ho F P H Hk; cbn in H.
  - injection H as <- <-. exact P.
  - destruct (fop_run o (SBnd b)) as [[[fl e] s1]|] eqn:E; [|discriminate].
    destruct (fops_grow _ _ _ _ _ H) as [new Hn].
    destruct (finv_step size o evs b fl e s1) as (Q & b' & -> & F'); auto.
    { apply Ho. left; auto. }
    { apply (Hk (results new) e (results evs)). rewrite Hn. unfold results. rewrite map_app. reflexivity. }
    apply (IH b' ((fl, e) :: evs) evs' s'); auto.
    + intros x Hx. apply Ho. right; auto.
    + intros newer fl0 e0 older Eq. destruct newer as [|x newer]; cbn in Eq.
      * injection Eq as <- <- <-. auto.
      * injection Eq as <- Eq. eauto.
Qed.

(** ** C80: failures of the medium below bounded storage do no damage *)

(** The writer half appends, in spite of failures. *)
Definition appends_only (os : list fop) : Prop :=
  forall p, ~ In (FOp (OpWSeek p)) os.

(** Whatever fails, and wherever, every successful read of a reader that does not seek back
    returns exactly what was written at its position; the operations that do not fail accept
    and return as many bytes as without any failure. *)
Theorem C80_failures_partial : forall ck p n clen st os evs st',
  into_rw (PBounded ck p n) clen = Some st -> appends_only os ->
  fops_run os st [] = Some (evs, st') -> every_result seeks_ahead (map snd evs) ->
  forall newer failed e older, evs = newer ++ (failed, e) :: older ->
    read_is_history (map snd older) e /\
    (failed = false -> write_fits (ring_size clen n) (map snd older) e /\
                       window_served (ring_size clen n) (map snd older) e).
Proof.
  intros ck p n clen st os evs st' Hi Ha H Hk.
  destruct (bounded_start _ _ _ _ _ Hi) as (b & -> & R & Hr & Hb & Hw & Hs & _ & Hl & _).
  apply (finv_run (ring_size clen n) os b [] evs st'); auto.
  - intros o Ho. destruct o as [[]| |]; cbn; auto. eapply Ha; eauto.
  - constructor; cbn; auto. exists []. split; auto.
  - intros newer fl e older E. destruct newer; discriminate E.
Qed.

(** Violated for a reader that seeks back within the buffered window: a write that fails
    after two of its bytes destroys data that is still in reach. *)
Theorem C80_seek_back_refuted : exists st os evs st' newer e older,
  into_rw (PBounded true (PlTemp 8) 5) None = Some st /\ appends_only os /\
  fops_run os st [] = Some (evs, st') /\
  every_result (seeks_in_window 5) (map snd evs) /\
  evs = newer ++ (false, e) :: older /\ e = SvRead 3 (Ok [x06; x07; x03]) /\
  slice (history (map snd older)) (rcursor (map snd older)) 3 = [x01; x02; x03].
Proof.
  eexists. exists [FOp (OpWrite (firstn 5 demo)); FOp (OpRead 3);
                   FWriteFails (skipn 5 demo) (WfFirst 2); FOp (OpSeek 0); FOp (OpRead 3)].
  eexists. eexists. exists []. eexists. eexists.
  split; [reflexivity|]. split; [intros p H; repeat (destruct H as [H|H]; [discriminate H|]); destruct H|].
  split; [vm_compute; reflexivity|]. split; [|split; [reflexivity|split; reflexivity]].
  intros newer e older E. cbn [map snd] in E.
  do 5 (destruct newer as [|? newer]; [injection E as <- <-; cbn; lia|injection E as _ E]).
  destruct newer; discriminate.
Qed.

(** In every state, a failing write leaves every unread byte in its slot. *)
Theorem C80_unread_kept : forall b f bs k b' x v,
  bnd_write_fault f bs b = Some (k, b') ->
  b_rpos b <= x < b_wpos b -> b_wpos b <= b_rpos b + b_size b ->
  nth_error (u_data (b_inner b)) (x mod b_size b) = Some v ->
  nth_error (u_data (b_inner b')) (x mod b_size b') = Some v.
Proof.
  intros b f bs k b' x v E Hx Hr Hv.
  destruct (write_fault_spec _ _ _ _ _ E) as [(_ & Ew)|(-> & u & -> & Su)].
  - pose proof (bnd_write_spec _ _ _ _ Ew) as (_ & _ & _ & Es & _). rewrite Es.
    eapply write_keeps_window; eauto; lia.
  - cbn [b_inner b_size bnd_with_inner]. destruct Su as [[-> _]|(buf & Hb & [-> _])]; auto.
    rewrite <- Hv. rewrite (slot_behind (b_wpos b) (b_size b) x) by lia.
    apply wmapped_slot; try lia. rewrite <- slot_behind by lia. apply nth_error_Some. congruence.
Qed.

(** Equal up to the private position, buffer and limits of the inner reader. *)
Definition unread (u : ustore) : ustore :=
  match u with
  | UMem m => UMem (mem_rseek 0 m)
  | UFile f => UFile (mkFile (f_data f) 0 [] (f_cap f) (f_wpos f) [])
  end.

Lemma unread_of_rseek : forall p u, unread (u_rseek p u) = unread u.
Proof. intros p [m|f]; reflexivity. Qed.

(** The buffer of a file shows the file. *)
Definition buffered (f : tfile) : Prop :=
  length (f_buf f) <= f_off f /\ f_buf f = slice (f_data f) (file_rpos f) (length (f_buf f)).

Lemma file_read_any : forall n f r f', 0 < n -> buffered f -> file_read n f = (r, f') -> exists bs,
  r = Ok bs /\ length bs <= n /\ bs = slice (f_data f) (file_rpos f) (length bs) /\
  (file_rpos f < length (f_data f) -> bs <> []) /\
  f_data f' = f_data f /\ file_rpos f' = file_rpos f + length bs /\ buffered f'.
Proof.
  intros n f r f' Hn [B1 B2] H. unfold file_read in H. destruct (f_buf f) as [|x l] eqn:Eb.
  - unfold file_rpos in *. rewrite Eb in *. cbn [length] in *. rewrite Nat.sub_0_r in *.
    pose proof (file_limit_le n f). pose proof (file_limit_pos n f Hn).
    pose proof (file_limit_le (f_cap f) f). pose proof (file_limit_pos (f_cap f) f).
    destruct (Nat.leb_spec (f_cap f) n); injection H as <- <-; eexists; (split; [reflexivity|]).
    + unfold buffered, file_rpos. cbn. rewrite length_slice.
      split; [lia|split; [apply slice_min|split; [|repeat split; auto; lia]]].
      intros Hlt E. apply slice_nil_inv in E. lia.
    + unfold buffered, file_rpos. cbn. rewrite firstn_length, skipn_length, length_slice.
      set (y := file_limit (f_cap f) f) in *. set (d := length (f_data f)) in *.
      split; [lia|split; [rewrite firstn_slice, slice_min; f_equal; lia|split; [|split; [auto|split; [lia|split; [lia|]]]]]].
      * intros Hlt E. rewrite firstn_slice in E. apply slice_nil_inv in E. lia.
      * rewrite skipn_slice. rewrite slice_min. fold d.
        destruct (Nat.le_gt_cases n (Nat.min y (d - f_off f))).
        -- unfold slice; f_equal; [|f_equal]; lia.
        -- replace (Nat.min (y - n) (d - (f_off f + n))) with 0 by lia.
           replace (Nat.min y (d - f_off f) - n) with 0 by lia. reflexivity.
  - rewrite <- Eb in *. injection H as <- <-. eexists. split; [reflexivity|].
    assert (Hl : length (f_buf f) = S (length l)) by (rewrite Eb; reflexivity).
    unfold buffered, file_rpos in *. cbn. rewrite firstn_length, skipn_length.
    split; [lia|split; [|split; [|split; [auto|split; [lia|split; [lia|]]]]]].
    + rewrite B2 at 1. rewrite firstn_slice. reflexivity.
    + intros _. rewrite Eb. destruct n; [lia|discriminate].
    + rewrite B2 at 1. rewrite skipn_slice.
      destruct (Nat.le_gt_cases n (length (f_buf f))).
      * unfold slice; do 2 f_equal; lia.
      * replace (length (f_buf f) - n) with 0 by lia. reflexivity.
Qed.

(** Short reads do not show in [read_exact]. *)
Lemma read_exact_file : forall fuel k f, k <= fuel -> buffered f ->
  fst (u_read_exact fuel k (UFile f)) =
  if (k =? 0) || (file_rpos f + k <=? length (f_data f))
  then Ok (slice (f_data f) (file_rpos f) k) else Err EUnexpectedEof.
Proof.
  induction fuel as [|fuel IH]; intros [|k] f Hk B; try lia; try reflexivity.
  cbn [u_read_exact u_read]. destruct (file_read (S k) f) as [r f'] eqn:E.
  destruct (file_read_any _ _ _ _ (Nat.lt_0_succ k) B E) as (bs & -> & Hl & Hb & Hne & Hd & Hp & B').
  assert (Hle : length bs <= length (f_data f) - file_rpos f).
  { rewrite Hb, length_slice. lia. }
  cbn [Nat.eqb orb]. destruct bs as [|x bs].
  - destruct (Nat.leb_spec (file_rpos f + S k) (length (f_data f))); [|reflexivity].
    exfalso. apply Hne; [lia|reflexivity].
  - set (bb := x :: bs) in *. assert (0 < length bb) by (cbn; lia).
    specialize (IH (S k - length bb) f' ltac:(lia) B').
    destruct (u_read_exact fuel (S k - length bb) (UFile f')) as [r2 u2]. cbn [fst] in IH.
    rewrite Hd, Hp in IH.
    destruct (Nat.leb_spec (file_rpos f + S k) (length (f_data f))).
    + replace ((S k - length bb =? 0) || _) with true in IH
        by (symmetry; apply orb_true_iff; right; apply Nat.leb_le; lia).
      subst r2. cbn [fst]. rewrite ?orb_true_r. f_equal. rewrite Hb at 1. rewrite <- slice_app. f_equal. lia.
    + replace ((S k - length bb =? 0) || _) with false in IH
        by (symmetry; apply orb_false_iff; split; [apply Nat.eqb_neq; lia|apply Nat.leb_gt; lia]).
      subst r2. reflexivity.
Qed.

Lemma unread_exact : forall k p u u', unread u = unread u' ->
  fst (u_read_exact k k (u_rseek p u)) = fst (u_read_exact k k (u_rseek p u')).
Proof.
  intros k p [m|f] [m'|f'] E; cbn in E; try discriminate.
  - injection E as E1 E2 E3. cbn [u_rseek]. unfold mem_rseek. rewrite E1, E2, E3. reflexivity.
  - injection E as E1 E2 E3. cbn [u_rseek]. rewrite !read_exact_file; auto; try (split; cbn; auto; lia).
    unfold file_rpos; cbn. rewrite E1. reflexivity.
Qed.

Lemma unread_write : forall u u' p bs, unread u = unread u' ->
  unread (u_write bs (u_wseek p u)) = unread (u_write bs (u_wseek p u')).
Proof.
  intros [m|f] [m'|f'] p bs E; cbn in *; try discriminate; injection E as E1 E2; try (intros; subst).
  - unfold mem_rseek, mem_write; cbn. congruence.
  - destruct bs; cbn; congruence.
Qed.

Lemma unread_read : forall n u, unread (snd (u_read n u)) = unread u.
Proof.
  intros n [m|f]; cbn.
  - unfold mem_read. destruct (_ <? _); reflexivity.
  - unfold file_read. destruct (f_buf f); [destruct (_ <=? _)|]; reflexivity.
Qed.

Lemma unread_read_exact : forall fuel k u, unread (snd (u_read_exact fuel k u)) = unread u.
Proof.
  induction fuel as [|fuel IH]; intros [|k] u; cbn [u_read_exact]; auto.
  pose proof (unread_read (S k) u) as S1. destruct (u_read (S k) u) as [[bs|e|] u1]; cbn [snd] in *; auto.
  destruct bs as [|x bs]; auto. specialize (IH (S k - length (x :: bs)) u1).
  destruct (u_read_exact fuel (S k - length (x :: bs)) u1) as [[bs'|e|] u2]; cbn [snd] in *; congruence.
Qed.

Definition alike (b b' : bnd) : Prop :=
  exists u, b' = bnd_with_inner b u /\ unread u = unread (b_inner b).

Lemma alike_inner : forall b u u', unread u' = unread u ->
  alike (bnd_with_inner b u) (bnd_with_inner b u').
Proof. intros b u u' E. exists u'. split; [destruct b; reflexivity|exact E]. Qed.

Lemma alike_step : forall o b b' e s1, alike b b' -> sop_run o (SBnd b) = (e, s1) ->
  exists b1 b1', s1 = SBnd b1 /\ sop_run o (SBnd b') = (e, SBnd b1') /\ alike b1 b1'.
Proof.
  intros o b b' e s1 (u & -> & Eu) H. set (b' := bnd_with_inner b u).
  destruct o as [n|p| |bs|p]; cbn [sop_run st_read st_rseek st_tell st_write st_wseek] in *.
  - assert (M : forall k, fst (bnd_read_mapped k b') = fst (bnd_read_mapped k b) /\
                          unread (snd (bnd_read_mapped k b')) = unread (snd (bnd_read_mapped k b))).
    { intros k. unfold bnd_read_mapped. cbn [b_size b_wpos b_inner b' bnd_with_inner].
      change (mapped_read_position b') with (mapped_read_position b).
      set (st := mapped_read_position b 0).
      assert (X : forall j p v v', unread v = unread v' ->
        fst (u_read_exact j j (u_rseek p v)) = fst (u_read_exact j j (u_rseek p v')) /\
        unread (snd (u_read_exact j j (u_rseek p v))) = unread (snd (u_read_exact j j (u_rseek p v')))).
      { intros j p v v' Ev. split; [apply unread_exact; auto|].
        rewrite !unread_read_exact, !unread_of_rseek. auto. }
      destruct (_ <? _); [apply X; auto|].
      destruct (_ || _); [cbn [fst snd]; rewrite !unread_of_rseek; auto|].
      set (j := Nat.min (b_size b) (b_wpos b) - st).
      destruct (X j st u (b_inner b) Eu) as [X1 X2].
      destruct (u_read_exact j j (u_rseek st u)) as [r1 u1], (u_read_exact j j (u_rseek st (b_inner b))) as [r2 u2].
      cbn [fst snd] in X1, X2. subst r2. destruct r1 as [bs1|e1|]; auto.
      destruct (X (k - j) 0 u1 u2 X2) as [X3 X4].
      destruct (u_read_exact (k - j) (k - j) (u_rseek 0 u1)) as [r3 u3], (u_read_exact (k - j) (k - j) (u_rseek 0 u2)) as [r4 u4].
      cbn [fst snd] in X3, X4. subst r4. destruct r3; auto. }
    destruct (bnd_read n b) as [r b1] eqn:E. injection H as <- <-.
    unfold bnd_read in *. cbn [b_size b_wpos b_rpos b_written b_read] in *.
    change (b_size b') with (b_size b). change (b_wpos b') with (b_wpos b).
    change (b_rpos b') with (b_rpos b). change (b_written b') with (b_written b).
    change (b_read b') with (b_read b). change (b_checks b') with (b_checks b).
    assert (A : alike b b') by (exists u; auto).
    destruct (_ <? n); [injection E as <- <-; exists b, b'; auto|].
    destruct (_ <? _ - _); [injection E as <- <-; exists b, b'; auto|].
    destruct (_ <=? _)%Z; [injection E as <- <-; exists b, b'; auto|].
    destruct (_ =? 0); [injection E as <- <-; exists b, b'; auto|].
    match goal with |- context [bnd_read_mapped ?k b'] => destruct (M k) as [M1 M2] end.
    destruct (bnd_read_mapped _ b) as [[bs|er|] u1], (bnd_read_mapped _ b') as [r' u1'];
      cbn [fst snd] in M1, M2; subst r'; injection E as <- <-;
      eexists; eexists; (split; [reflexivity|split; [reflexivity|]]);
      exists u1'; split; auto.
  - destruct (bnd_rseek p b) as [r b1] eqn:E. injection H as <- <-. unfold bnd_rseek in *.
    change (b_checks b') with (b_checks b). change (b_read b') with (b_read b).
    change (b_rpos b') with (b_rpos b).
    destruct (counter_sub _ _ _); injection E as <- <-; eexists; eexists;
      (split; [reflexivity|split; [reflexivity|]]); exists u; split; auto.
  - injection H as <- <-. exists b, b'. split; auto. split; auto. exists u; auto.
  - destruct (bnd_write bs b) as [k b1] eqn:E. injection H as <- <-. unfold bnd_write in *.
    change (b_size b') with (b_size b). change (b_wpos b') with (b_wpos b).
    change (b_rpos b') with (b_rpos b). change (b_written b') with (b_written b).
    change (b_read b') with (b_read b). change (b_checks b') with (b_checks b).
    destruct (_ =? 0); injection E as <- <-; eexists; eexists; (split; [reflexivity|split; [reflexivity|]]).
    + exists u; auto.
    + eexists. split; [reflexivity|]. cbn [b_inner]. unfold bnd_write_mapped.
      change (mapped_write_position b') with (mapped_write_position b). change (b_size b') with (b_size b).
      destruct (_ <? _); [apply unread_write; auto|]. apply unread_write. apply unread_write. auto.
  - destruct (bnd_wseek p b) as [r b1] eqn:E. injection H as <- <-. unfold bnd_wseek in *.
    change (b_checks b') with (b_checks b). change (b_written b') with (b_written b).
    change (b_wpos b') with (b_wpos b).
    destruct (counter_sub _ _ _); injection E as <- <-; eexists; eexists;
      (split; [reflexivity|split; [reflexivity|]]); exists u; split; auto.
Qed.

Lemma alike_run : forall os b b' evs, alike b b' ->
  fst (ops_run os (SBnd b') evs) = fst (ops_run os (SBnd b) evs).
Proof.
  induction os as [|o os IH]; intros b b' evs A; cbn [ops_run]; auto.
  destruct (sop_run o (SBnd b)) as [e s1] eqn:E.
  destruct (alike_step o b b' e s1 A E) as (b1 & b1' & -> & -> & A1). apply IH. exact A1.
Qed.

(** A failing read goes unnoticed: whatever is done afterwards, by either half, gives the
    results it would have given without it. *)
Theorem C80_failed_read_unnoticed : forall f n b b' os,
  bnd_read_fault f n b = Some b' ->
  fst (ops_run os (SBnd b') []) = fst (ops_run os (SBnd b) []).
Proof.
  intros f n b b' os E. apply alike_run. unfold bnd_read_fault in E.
  destruct (_ || _ || _ || _); [discriminate|].
  assert (K : forall u, unread u = unread (b_inner b) -> alike b (bnd_with_inner b u)) by (intros u; exists u; auto).
  destruct f as [|j| |j].
  - injection E as <-. exists (b_inner b). split; [destruct b; reflexivity|reflexivity].
  - destruct (j <? _); [|discriminate]. injection E as <-. apply K.
    rewrite unread_read_exact. apply unread_of_rseek.
  - destruct (_ <? _); [discriminate|]. injection E as <-. apply K.
    rewrite unread_read_exact. apply unread_of_rseek.
  - destruct (_ || _); [discriminate|]. injection E as <-. apply K.
    rewrite unread_read_exact, unread_of_rseek, unread_read_exact. apply unread_of_rseek.
Qed.

Definition c80_ops : list fop :=
  [FOp (OpWrite (firstn 5 demo)); FReadFails 4 (RfFirst 2); FOp (OpRead 3);
   FWriteFails (skipn 5 demo) (WfFirst 2); FWriteFails (skipn 5 demo) (WfFlush);
   FReadFails 4 (RfSecond 1); FReadFails 4 RfSecondSeek; FOp (OpRead 1); FOp (OpSeek 5); FOp (OpRead 3)].

(** Failures inside a wrapped read, inside a write and at the flush. *)
Example C80_case : exists st evs st',
  into_rw (PBounded true (PlTemp 2) 5) None = Some st /\ appends_only c80_ops /\
  fops_run c80_ops st [] = Some (evs, st') /\ every_result seeks_ahead (map snd evs) /\
  evs = [(false, SvRead 3 (Ok [x06; x07; x08])); (false, SvSeek 5 (Ok 5)); (false, SvRead 1 (Ok [x04]));
         (true, SvRead 4 (Err EOther)); (true, SvRead 4 (Err EOther));
         (true, SvWrite (skipn 5 demo) 3); (true, SvWrite (skipn 5 demo) 0);
         (false, SvRead 3 (Ok [x01; x02; x03])); (true, SvRead 4 (Err EOther));
         (false, SvWrite (firstn 5 demo) 5)].
Proof.
  eexists. eexists. eexists. split; [reflexivity|].
  split; [intros p H; repeat (destruct H as [H|H]; [discriminate H|]); destruct H|].
  split; [vm_compute; reflexivity|]. split; [|reflexivity].
  intros newer e older E. cbn [map snd] in E.
  do 10 (destruct newer as [|? newer]; [injection E as <- <-; cbn; auto; lia|injection E as _ E]).
  destruct newer; discriminate.
Qed.

Print Assumptions C80_failures_partial.
Print Assumptions C80_seek_back_refuted.
Print Assumptions C80_unread_kept.
Print Assumptions C80_failed_read_unnoticed.

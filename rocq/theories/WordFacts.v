(** * WordFacts: proofs about the storage layer on words (Word.v). *)

From Coq Require Import List Arith Lia ZArith Bool.
From Verif Require Import Base Storage StoreSpec ListFacts StoreFacts Word.
Import ListNotations.

(** ** Reads of the medium *)

Definition u_count (u : ustore) : nat :=
  match u with UMem m => m_written m | UFile _ => 0 end.

Lemma u_read_bound : forall n u r u', u_read n u = (r, u') ->
  u_count u' = u_count u /\ forall bs, r = Ok bs -> length bs <= n.
Proof.
  intros n [m|f] r u' H; cbn in H.
  - unfold mem_read in H. destruct (_ <? _); injection H as <- <-; cbn; split; auto; intros bs E;
      try discriminate. injection E as <-. rewrite length_slice. lia.
  - unfold file_read in H. destruct (f_buf f); [destruct (_ <=? _)|]; injection H as <- <-; cbn;
      split; auto; intros bs E; injection E as <-; rewrite ?length_slice, ?firstn_length; try lia.
    unfold file_limit. destruct (f_lim f); lia.
Qed.

Lemma u_read_exact_len : forall fuel k u r u', u_read_exact fuel k u = (r, u') ->
  u_count u' = u_count u /\ forall bs, r = Ok bs -> length bs = k.
Proof.
  induction fuel as [|fuel IH]; intros k u r u' H; destruct k as [|k]; cbn in H.
  - injection H as <- <-. split; auto. intros bs E. injection E as <-. auto.
  - injection H as <- <-. split; auto. discriminate.
  - injection H as <- <-. split; auto. intros bs E. injection E as <-. auto.
  - destruct (u_read (S k) u) as [r1 u1] eqn:E1. apply u_read_bound in E1 as [C1 L1].
    destruct r1 as [bs1|e|].
    + specialize (L1 _ eq_refl).
      destruct bs1 as [|b0 bs1]; [injection H as <- <-; split; auto; discriminate|].
      destruct (u_read_exact fuel (S k - length (b0 :: bs1)) u1) as [r2 u2] eqn:E2.
      apply IH in E2 as [C2 L2].
      destruct r2; injection H as <- <-; split; try congruence.
      intros bs E. injection E as <-. rewrite app_comm_cons, app_length, (L2 _ eq_refl). lia.
    + injection H as <- <-. split; auto. discriminate.
    + injection H as <- <-. split; auto. discriminate.
Qed.

(** ** Additions that do not overflow *)

Lemma w_add_fits : forall M ck a d, a + d < M -> w_add M ck a d = Some (a + d).
Proof. intros. unfold w_add. destruct (Nat.ltb_spec (a + d) M); auto; lia. Qed.

Lemma w_cast_fits : forall M p, p < M -> w_cast M p = p.
Proof. intros. apply Nat.mod_small. auto. Qed.

Definition set_checks (ck : bool) (b : bnd) : bnd :=
  mkBnd (b_inner b) (b_read b) (b_written b) (b_rpos b) (b_wpos b) (b_size b) ck.

Definition set_build (ck : bool) (s : store) : store :=
  match s with SPlain u => SPlain u | SBnd b => SBnd (set_checks ck b) end.

Lemma w_mapped_fits : forall M b pos v, 0 < b_size b -> v < b_size b -> 2 * b_size b <= M ->
  w_mapped M b pos v = Some ((v + pos mod b_size b) mod b_size b).
Proof.
  intros. unfold w_mapped. pose proof (Nat.mod_upper_bound pos (b_size b)).
  rewrite w_add_fits by lia. reflexivity.
Qed.

Lemma w_urseek_fits : forall M p u, p < M -> w_urseek M p u = u_rseek p u.
Proof. intros M p [m|f] H; cbn; rewrite ?w_cast_fits; auto. Qed.

Lemma w_uwseek_fits : forall M p u, p < M -> w_uwseek M p u = u_wseek p u.
Proof. intros M p [m|f] H; cbn; rewrite ?w_cast_fits; auto. Qed.

Lemma w_useek_fits : forall M p u, p < M -> w_useek_result M p u = p.
Proof. intros M p [m|f] H; cbn; rewrite ?w_cast_fits; auto. Qed.

Lemma w_uwrite_fits : forall M bs u,
  u_wpos u + length bs < M -> u_count u + length bs < M -> w_uwrite M bs u = Some (u_write bs u).
Proof.
  intros M bs [m|f] H1 H2; cbn in *; auto.
  unfold w_mem_write. destruct (Nat.ltb_spec (m_wpos m + length bs) M); [|lia].
  cbn. unfold mem_write. rewrite Nat.mod_small by lia. reflexivity.
Qed.

Lemma u_write_count : forall bs u, u_count (u_write bs u) <= u_count u + length bs.
Proof. intros bs [m|f]; cbn; lia. Qed.

Lemma u_wseek_facts : forall p u, u_wpos (u_wseek p u) = p /\ u_count (u_wseek p u) = u_count u.
Proof. intros p [m|f]; auto. Qed.

Lemma u_rseek_count : forall p u, u_count (u_rseek p u) = u_count u.
Proof. intros p [m|f]; auto. Qed.

Lemma w_read_mapped_fits : forall M k b ck, 0 < k <= b_size b -> 2 * b_size b <= M ->
  w_read_mapped M k (set_checks ck b) = bnd_read_mapped k b.
Proof.
  intros M k b ck Hk HM. unfold w_read_mapped, bnd_read_mapped, mapped_read_position.
  rewrite !w_mapped_fits by (cbn; lia). cbn [set_checks b_inner b_rpos b_wpos b_size].
  pose proof (Nat.mod_upper_bound (0 + b_rpos b mod b_size b) (b_size b)).
  rewrite w_urseek_fits by lia.
  destruct (_ <? _); auto. destruct (_ || _); auto.
  destruct (u_read_exact _ _ _) as [[bs1|e|] u1]; auto.
  rewrite w_urseek_fits by lia. reflexivity.
Qed.

Lemma bnd_read_mapped_len : forall k b r u', bnd_read_mapped k b = (r, u') ->
  u_count u' = u_count (b_inner b) /\ forall bs, r = Ok bs -> length bs = k.
Proof.
  intros k b r u' H. unfold bnd_read_mapped in H.
  set (start := mapped_read_position b 0) in *.
  destruct (_ <? _).
  - apply u_read_exact_len in H as [C L]. rewrite u_rseek_count in C. auto.
  - set (seg := _ - start) in *.
    destruct ((_ <? start) || (k <? seg)) eqn:B.
    + injection H as <- <-. rewrite u_rseek_count. split; auto. discriminate.
    + apply orb_false_iff in B as [_ B]. apply Nat.ltb_ge in B.
      destruct (u_read_exact seg seg _) as [r1 u1] eqn:E1.
      apply u_read_exact_len in E1 as [C1 L1]. rewrite u_rseek_count in C1.
      destruct r1 as [bs1|e|]; [|injection H as <- <-; split; auto; discriminate
                                |injection H as <- <-; split; auto; discriminate].
      destruct (u_read_exact (k - seg) _ _) as [r2 u2] eqn:E2.
      apply u_read_exact_len in E2 as [C2 L2]. rewrite u_rseek_count in C2.
      destruct r2; injection H as <- <-; split; try congruence.
      intros bs E. injection E as <-. rewrite app_length, (L1 _ eq_refl), (L2 _ eq_refl). lia.
Qed.

Lemma w_write_mapped_fits : forall M buf b ck, 0 < length buf <= b_size b -> 2 * b_size b <= M ->
  u_count (b_inner b) + length buf < M ->
  w_write_mapped M buf (set_checks ck b) = Some (bnd_write_mapped buf b) /\
  u_count (bnd_write_mapped buf b) <= u_count (b_inner b) + length buf.
Proof.
  intros M buf b ck Hk HM Hc. unfold w_write_mapped, bnd_write_mapped, mapped_write_position.
  rewrite !w_mapped_fits by (cbn; lia). cbn [set_checks b_inner b_rpos b_wpos b_size].
  set (q := b_wpos b mod b_size b).
  assert (Hq : q < b_size b) by (apply Nat.mod_upper_bound; lia).
  rewrite Nat.add_0_l, (Nat.mod_small q) by auto.
  rewrite w_uwseek_fits by lia.
  pose proof (u_wseek_facts q (b_inner b)) as [W C].
  destruct (Nat.ltb_spec q ((length buf - 1 + q) mod b_size b + 1)) as [L|L].
  - assert (Hs : q + length buf <= b_size b).
    { destruct (Nat.lt_ge_cases (length buf - 1 + q) (b_size b)); [lia|].
      replace (length buf - 1 + q) with (length buf - 1 + q - b_size b + 1 * b_size b) in L by lia.
      rewrite Nat.mod_add, Nat.mod_small in L by lia. lia. }
    split; [apply w_uwrite_fits; rewrite ?W, ?C; lia|].
    rewrite <- C. apply u_write_count.
  - assert (Hs : b_size b < q + length buf).
    { destruct (Nat.lt_ge_cases (length buf - 1 + q) (b_size b)); [|lia].
      rewrite Nat.mod_small in L by lia. lia. }
    destruct (Nat.ltb_spec (length buf) (b_size b - q)); [lia|].
    rewrite w_uwrite_fits by (rewrite ?W, ?C, firstn_length; lia).
    rewrite w_uwseek_fits by lia.
    set (u1 := u_write _ _).
    assert (C1 : u_count u1 <= u_count (b_inner b) + (b_size b - q)).
    { unfold u1. eapply Nat.le_trans; [apply u_write_count|]. rewrite C, firstn_length. lia. }
    pose proof (u_wseek_facts 0 u1) as [W2 C2].
    split; [apply w_uwrite_fits; rewrite ?W2, ?C2, skipn_length; lia|].
    eapply Nat.le_trans; [apply u_write_count|]. rewrite C2, skipn_length. lia.
Qed.

Lemma w_advance_fits : forall M ck pos total k, pos + k < M -> (0 <= total)%Z ->
  Z.to_nat total + k < M -> w_advance M ck pos total k = inl (pos + k, (total + Z.of_nat k)%Z).
Proof.
  intros. unfold w_advance. rewrite w_add_fits by lia. rewrite w_add_fits by lia.
  do 2 f_equal. lia.
Qed.

(** ** The two machines in step *)

Definition wordly (M : nat) (evs : list sev) (s : store) : Prop :=
  match s with
  | SPlain (UMem m) =>
      m_rpos m <= farthest evs + bytes_read evs /\ m_wpos m <= farthest evs + bytes_written evs /\
      m_written m <= bytes_written evs
  | SPlain (UFile _) => True
  | SBnd b =>
      2 * b_size b <= M /\ b_checks b = true /\
      b_rpos b <= farthest evs + bytes_read evs /\ b_wpos b <= farthest evs + bytes_written evs /\
      (0 <= b_read b)%Z /\ (b_read b <= Z.of_nat (bytes_read evs))%Z /\
      (0 <= b_written b)%Z /\ (b_written b <= Z.of_nat (bytes_written evs))%Z /\
      u_count (b_inner b) <= bytes_written evs
  end.

Definition panicked (e : sev) : bool :=
  match e with
  | SvRead _ Panic | SvSeek _ Panic | SvWSeek _ Panic => true
  | _ => false
  end.

Lemma set_with_inner : forall ck b u,
  set_checks ck (bnd_with_inner b u) = bnd_with_inner (set_checks ck b) u.
Proof. reflexivity. Qed.

Local Ltac fin := split; [reflexivity|cbn in *; repeat split; auto; lia].

Lemma word_step : forall M ck o s e s' evs, sop_run o s = (e, s') -> wordly M evs s ->
  fits M (e :: evs) -> ck = true \/ panicked e = false ->
  wop_run M o (set_build ck s) = (Ev e, set_build ck s') /\ wordly M (e :: evs) s'.
Proof.
  intros M ck o s e s' evs H W [F1 F2] P.
  destruct s as [u|b].
  - destruct o; cbn [sop_run st_read st_rseek st_tell st_write st_wseek] in H;
      cbn [set_build wop_run].
    + destruct (u_read n u) as [r u'] eqn:E. injection H as <- <-. split; [reflexivity|].
      destruct u as [m|f]; cbn in E.
      * unfold mem_read in E. destruct (_ <? _); injection E as <- <-; cbn in *;
          rewrite ?length_slice in *; lia.
      * destruct (file_read n f) as [r0 f']. injection E as <- <-. exact I.
    + injection H as <- <-. cbn [farthest bytes_read bytes_written] in *.
      rewrite w_useek_fits, w_urseek_fits by lia. split; [reflexivity|].
      destruct u as [m|f]; cbn in *; lia.
    + injection H as <- <-. cbn [farthest bytes_read bytes_written] in *.
      destruct u as [m|f]; cbn in *.
      * rewrite w_cast_fits by lia. split; [reflexivity|lia].
      * split; auto.
    + injection H as <- <-. cbn [farthest bytes_read bytes_written] in *.
      destruct u as [m|f]; [|cbn; auto].
      rewrite w_uwrite_fits by (cbn in *; lia). split; [reflexivity|]. cbn in *. lia.
    + injection H as <- <-. cbn [farthest bytes_read bytes_written] in *.
      rewrite w_useek_fits, w_uwseek_fits by lia. split; [reflexivity|].
      destruct u as [m|f]; cbn in *; lia.
  - destruct W as (HM & Hck & Hr & Hw & Hr0 & Hr1 & Hw0 & Hw1 & Hc).
    destruct o; cbn [sop_run st_read st_rseek st_tell st_write st_wseek] in H;
      cbn [set_build wop_run].
    + destruct (bnd_read n b) as [r b'] eqn:E. injection H as <- <-.
      unfold bnd_read in E. unfold w_bnd_read. cbv zeta in E |- *.
      cbn [set_checks b_size b_wpos b_rpos b_written b_read b_checks].
      destruct (Nat.ltb_spec (b_size b) n) as [L1|L1];
        [injection E as <- <-; fin|].
      destruct (Nat.ltb_spec (b_size b) (b_wpos b - b_rpos b)) as [L2|L2];
        [injection E as <- <-; fin|].
      destruct (b_written b <=? b_read b)%Z;
        [injection E as <- <-; fin|].
      destruct (Nat.eqb_spec (Nat.min (b_wpos b - b_rpos b) n) 0) as [L3|L3];
        [injection E as <- <-; fin|].
      rewrite w_read_mapped_fits by lia.
      destruct (bnd_read_mapped _ b) as [r0 u'] eqn:Em.
      apply bnd_read_mapped_len in Em as [Cm Lm].
      destruct r0 as [bs|e|]; injection E as <- <-.
      * specialize (Lm _ eq_refl). cbn [fits farthest bytes_read bytes_written] in *.
        rewrite w_advance_fits by lia. split; [reflexivity|]. cbn.
        rewrite Cm. repeat split; auto; lia.
      * fin.
      * fin.
    + destruct (bnd_rseek p b) as [r b'] eqn:E. injection H as <- <-.
      cbn [fits farthest bytes_read bytes_written] in *.
      unfold bnd_rseek, counter_sub in E. unfold w_bnd_rseek, w_sub.
      rewrite w_cast_fits by lia. cbn [set_checks b_size b_wpos b_rpos b_written b_read b_checks].
      rewrite Hck in E.
      destruct (Z.ltb_spec (b_read b) (Z.of_nat (b_rpos b - p))) as [L|L];
        destruct (Nat.leb_spec (b_rpos b - p) (Z.to_nat (b_read b))) as [L'|L']; try lia;
        injection E as <- <-.
      * destruct P as [->|P]; [|discriminate]. split; [reflexivity|].
        cbn. repeat (split; auto); lia.
      * split.
        -- cbn. unfold set_checks. cbn. do 3 f_equal. lia.
        -- cbn. repeat split; auto; lia.
    + injection H as <- <-. fin.
    + destruct (bnd_write bs b) as [k b'] eqn:E. injection H as <- <-.
      cbn [fits farthest bytes_read bytes_written] in *.
      unfold bnd_write in E. unfold w_bnd_write. cbv zeta in E |- *.
      cbn [set_checks b_size b_wpos b_rpos b_written b_read b_checks].
      destruct (Nat.eqb_spec (Nat.min (b_size b - (b_wpos b - b_rpos b)) (length bs)) 0) as [L|L];
        injection E as <- <-; [fin|].
      set (k := Nat.min (b_size b - (b_wpos b - b_rpos b)) (length bs)) in *.
      assert (Lk : length (firstn k bs) = k) by (rewrite firstn_length; lia).
      destruct (w_write_mapped_fits M (firstn k bs) b ck) as [Ew Cw]; try lia.
      fold (set_checks ck b). rewrite Ew.
      rewrite w_advance_fits by lia. split; [reflexivity|].
      cbn. rewrite Lk in Cw. repeat split; auto; lia.
    + destruct (bnd_wseek p b) as [r b'] eqn:E. injection H as <- <-.
      cbn [fits farthest bytes_read bytes_written] in *.
      unfold bnd_wseek, counter_sub in E. unfold w_bnd_wseek, w_sub.
      rewrite w_cast_fits by lia. cbn [set_checks b_size b_wpos b_rpos b_written b_read b_checks].
      rewrite Hck in E.
      destruct (Z.ltb_spec (b_written b) (Z.of_nat (b_wpos b - p))) as [L|L];
        destruct (Nat.leb_spec (b_wpos b - p) (Z.to_nat (b_written b))) as [L'|L']; try lia;
        injection E as <- <-.
      * destruct P as [->|P]; [|discriminate]. split; [reflexivity|].
        cbn. repeat (split; auto); lia.
      * split.
        -- cbn. unfold set_checks. cbn. do 3 f_equal. lia.
        -- cbn. repeat split; auto; lia.
Qed.

Lemma fits_app : forall M new evs, fits M (new ++ evs) -> fits M evs.
Proof.
  intros M new evs. unfold fits.
  assert (G : farthest evs <= farthest (new ++ evs) /\ bytes_read evs <= bytes_read (new ++ evs) /\
    bytes_written evs <= bytes_written (new ++ evs)).
  { induction new as [|e new IH]; [auto|].
    destruct e as [n [bs|x|]|p r| |bs k|p r]; cbn; lia. }
  lia.
Qed.

Lemma word_run : forall M ck os s evs evs' s', ops_run os s evs = (evs', s') -> wordly M evs s ->
  fits M evs' -> ck = true \/ (forall e, In e evs' -> panicked e = false) ->
  wops_run M os (set_build ck s) (map Ev evs) = (map Ev evs', set_build ck s') /\ wordly M evs' s'.
Proof.
  induction os as [|o os IH]; intros s evs evs' s' H W F P.
  - injection H as <- <-. auto.
  - cbn in H. destruct (sop_run o s) as [e s1] eqn:E.
    destruct (ops_run_grow _ _ _ _ _ H) as [new ->].
    destruct (word_step M ck o s e s1 evs E W) as [S1 W1].
    { eapply fits_app. exact F. }
    { destruct P as [P|P]; [auto|]. right. apply P. apply in_or_app. right. left. auto. }
    cbn. rewrite S1. apply (IH s1 (e :: evs) _ s' H W1 F P).
Qed.

Lemma wordly_start : forall M p clen st, buffer_fits M p ->
  into_rw (in_build true p) clen = Some st -> wordly M [] st.
Proof.
  intros M p clen st B H.
  assert (Hp : forall q c u, plain_rw q c = Some u -> wordly M [] (SPlain u) /\ u_count u = 0).
  { intros [|cap| |lim] c u E; cbn in E; try discriminate; injection E as <-; cbn; auto. }
  assert (Hb : forall q n c, 2 * n <= M -> bounded_rw true q n c = Some st -> wordly M [] st).
  { intros q n c Hn E. unfold bounded_rw in E. destruct (plain_rw q _) as [u|] eqn:Eu; [|discriminate].
    apply Hp in Eu as [_ Eu]. injection E as <-. cbn. rewrite Eu.
    assert (match c with Some c0 => Nat.min c0 n | None => n end <= n) by (destruct c; lia).
    repeat split; auto; lia. }
  destruct p as [q|k q n|k f v n]; cbn [in_build into_rw] in H; cbn [buffer_fits] in B.
  - destruct (plain_rw q clen) as [u|] eqn:E; [|discriminate]. injection H as <-. eapply Hp; eauto.
  - eapply Hb; eauto.
  - destruct clen as [len|]; [|eapply Hb; eauto].
    destruct (len <=? n).
    + destruct (plain_rw f _) as [u|] eqn:E; [|discriminate]. injection H as <-. eapply Hp; eauto.
    + destruct (plain_rw v _) as [u|] eqn:E; [|discriminate]. injection H as <-. eapply Hp; eauto.
Qed.

Lemma start_build : forall ck p clen,
  into_rw (in_build ck p) clen = option_map (set_build ck) (into_rw (in_build true p) clen).
Proof.
  intros ck [q|k q n|k f v n] clen; cbn.
  - destruct (plain_rw q clen); auto.
  - unfold bounded_rw. destruct (plain_rw q _); auto.
  - destruct clen as [len|].
    + destruct (len <=? n); [destruct (plain_rw f _)|destruct (plain_rw v _)]; auto.
    + unfold bounded_rw. destruct (plain_rw f _); auto.
Qed.

(** ** A stream played as it arrives *)

Fixpoint radio (x : byte) (k : nat) : list sop :=
  match k with 0 => [] | S j => radio x j ++ [OpWrite [x]; OpRead 1] end.

Fixpoint played (x : byte) (k : nat) : list sev :=
  match k with 0 => [] | S j => SvRead 1 (Ok [x]) :: SvWrite [x] 1 :: played x j end.

Lemma played_facts : forall x k,
  history (played x k) = repeat x k /\ rcursor (played x k) = k /\ credit (played x k) = k /\
  farthest (played x k) = 0 /\ bytes_read (played x k) = k /\ bytes_written (played x k) = k /\
  (forall e, In e (played x k) -> panicked e = false).
Proof.
  intros x. induction k as [|k (H1 & H2 & H3 & H4 & H5 & H6 & H7)]; [cbn; repeat split; auto; tauto|].
  cbn [played history rcursor credit farthest bytes_read bytes_written length firstn].
  rewrite H1, H2, H3, H4, H5, H6.
  repeat split; try lia.
  - change [x] with (repeat x 1). rewrite <- repeat_app. f_equal. lia.
  - intros e [<-|[<-|H]]; auto.
Qed.

Lemma radio_plays : forall x size st k, 0 < size -> counted size [] st ->
  exists b, ops_run (radio x k) st [] = (played x k, SBnd b) /\ counted size (played x k) (SBnd b).
Proof.
  intros x size st k Hs C0. induction k as [|k (b & E & C)].
  - cbn. destruct st as [u|b]; [destruct C0 as (_ & _ & [])|]. eauto.
  - cbn [radio]. rewrite ops_run_app, E. cbn [ops_run].
    destruct (played_facts x k) as (F1 & F2 & F3 & _).
    destruct (sop_run (OpWrite [x]) (SBnd b)) as [e1 s1] eqn:E1.
    edestruct (counted_step size (OpWrite [x])) as [_ C1]; [exact I|exact C| |exact E1|].
    { cbn in E1. destruct (bnd_write [x] b). injection E1 as <- <-. exact I. }
    destruct C as (A & _). destruct (appended_step size (OpWrite [x]) _ _ _ _ I A I E1) as [[_ W] _].
    assert (He1 : e1 = SvWrite [x] 1).
    { cbn in E1. destruct (bnd_write [x] b) as [k1 b1]. injection E1 as <- <-. cbn in W.
      rewrite F1, F2, repeat_length in W. f_equal. destruct size; lia. }
    subst e1.
    destruct (sop_run (OpRead 1) s1) as [e2 s2] eqn:E2.
    edestruct (counted_step size (OpRead 1)) as [W2 C2]; [exact I|exact C1| |exact E2|].
    { cbn in E2. destruct (st_read 1 s1). injection E2 as <- <-. exact I. }
    destruct C1 as (A1 & _).
    destruct (appended_step size (OpRead 1) _ _ _ _ I A1 I E2) as [[R2 _] _].
    assert (He2 : e2 = SvRead 1 (Ok [x])).
    { cbn in E2. destruct (st_read 1 s1) as [r b2]. injection E2 as <- <-.
      cbn [window_served] in W2. cbn [read_is_history] in R2. cbn [history rcursor] in *.
      rewrite F1, F2 in *. change (firstn 1 [x]) with [x] in *.
      change [x] with (repeat x 1) in W2, R2. rewrite <- repeat_app, ?repeat_length in *.
      destruct W2 as (bs & -> & Lb); try lia.
      destruct R2 as [_ R2]. replace (length bs) with 1 in R2 by lia.
      rewrite repeat_app in R2. unfold slice in R2.
      rewrite skipn_app, repeat_length, Nat.sub_diag in R2.
      rewrite (skipn_all2 (repeat x k)) in R2 by (rewrite repeat_length; auto).
      cbn in R2. rewrite R2. reflexivity. }
    subst e2. cbn [played].
    destruct s2 as [u2|b2]; [destruct C2 as (_ & _ & [])|]. eauto.
Qed.

(** ** The same bytes stored over and over *)

Fixpoint rewrites (x : byte) (k : nat) : list sop :=
  match k with 0 => [] | S j => rewrites x j ++ [OpWSeek 0; OpWrite [x]] end.

Fixpoint rewritten (x : byte) (k : nat) : list sev :=
  match k with 0 => [] | S j => SvWrite [x] 1 :: SvWSeek 0 (Ok 0) :: rewritten x j end.

Lemma rewrites_run : forall x k, 0 < k ->
  ops_run (rewrites x k) (SPlain (UMem (mem_new None))) [] =
    (rewritten x k, SPlain (UMem (mkMem [x] k 0 1))).
Proof.
  intros x k Hk. destruct k as [|k]; [lia|]. clear Hk. induction k as [|k IH]; [reflexivity|].
  cbn [rewrites] in *. rewrite ops_run_app, IH. cbn. do 4 f_equal.
  unfold mem_write, mem_wseek. cbn. f_equal. lia.
Qed.

Lemma rewritten_facts : forall x k,
  farthest (rewritten x k) = 0 /\ bytes_read (rewritten x k) = 0 /\
  bytes_written (rewritten x k) = k /\ (forall e, In e (rewritten x k) -> panicked e = false).
Proof.
  intros x. induction k as [|k (H1 & H2 & H3 & H4)]; [cbn; repeat split; auto; tauto|].
  cbn [rewritten farthest bytes_read bytes_written]. rewrite H1, H2, H3.
  repeat split; try lia. intros e [<-|[<-|H]]; auto.
Qed.

Lemma wops_run_app : forall M os1 os2 s evs, wops_run M (os1 ++ os2) s evs =
  let '(evs1, s1) := wops_run M os1 s evs in wops_run M os2 s1 evs1.
Proof.
  induction os1 as [|o os1 IH]; intros os2 s evs; cbn; auto.
  destruct (wop_run M o s) as [e s']. apply IH.
Qed.

(** One byte is stored whatever the inner counter says. *)
Lemma w_write_one : forall M b x, 0 < b_size b -> 2 * b_size b <= M ->
  exists u, w_write_mapped M [x] b = Some u.
Proof.
  intros M b x H1 H2. unfold w_write_mapped. change (length [x] - 1) with 0.
  rewrite w_mapped_fits by lia.
  set (q := _ mod b_size b). assert (Hq : q < b_size b) by (apply Nat.mod_upper_bound; lia).
  destruct (Nat.ltb_spec q (q + 1)); [|lia].
  rewrite w_uwseek_fits by lia. destruct (b_inner b) as [m|f]; cbn; eauto.
  unfold w_mem_write. cbn. destruct (Nat.ltb_spec (q + 1) M); [|lia]. cbn. eauto.
Qed.

(** * Sources of which the announced length is not the real one.

    [sane] (Spec.v) asks for an announced content length that is the length of the
    resource.  For readers and processes it is whatever the user passed in.  This file
    follows a source that cannot be repositioned, whatever length was announced. *)

From Coq Require Import List Arith Lia ZArith Bool.
From Verif Require Import Base ListFacts RangeSet RangeSetFacts Storage StorageFacts
  System Spec StepTac InvSync InvTrace InvCore RequestFacts LifeFacts LifeMore.
Import ListNotations.

(** ** Storage that is only ever appended to *)

(** [N] bytes were preallocated by the memory storage. *)
Definition grown (content : list byte) (N : nat) (u : ustore) : Prop :=
  u_wpos u <= length content /\
  (forall x, x < u_wpos u -> nth_error (u_data u) x = nth_error content x) /\
  match u with
  | UMem m => length (m_vec m) = Nat.max N (m_wpos m) /\ m_written m = m_wpos m
  | UFile f => length (f_data f) = f_wpos f /\ length (f_buf f) <= f_off f /\
               f_buf f = slice content (file_rpos f) (length (f_buf f))
  end.

Definition prealloc (clen : option nat) : nat := match clen with Some n => n | None => 0 end.

Lemma grown_new : forall content p clen u, plain_rw p clen = Some u ->
  grown content (prealloc clen) u /\ u_wpos u = 0.
Proof.
  intros content p clen u H. destruct p; cbn in H; try discriminate; injection H as <-;
    unfold grown; cbn; repeat split; auto; try lia.
  rewrite repeat_length. unfold prealloc. destruct clen; lia.
Qed.

Lemma grown_rseek : forall content N u p, grown content N u -> grown content N (u_rseek p u).
Proof.
  intros content N [m|f] p (H1 & H2 & H3); unfold grown in *; cbn in *; repeat split; auto;
    try tauto; lia.
Qed.

Lemma grown_write : forall content N u bs, grown content N u ->
  bs = slice content (u_wpos u) (length bs) ->
  u_wpos u + length bs <= length content ->
  grown content N (u_write bs u) /\ u_wpos (u_write bs u) = u_wpos u + length bs.
Proof.
  intros content N u bs (H1 & H2 & H3) Hb Hl.
  assert (Hw : u_wpos u <= length (u_data u)) by (destruct u; cbn in *; lia).
  destruct bs as [|b0 bs0] eqn:Eb.
  - destruct u as [m|f]; unfold grown in *; cbn in *; [|repeat split; auto; try tauto; lia].
    rewrite Nat.add_0_r.
    assert (E : overwrite (m_vec m) (m_wpos m) [] = m_vec m).
    { unfold overwrite. cbn. rewrite Nat.add_0_r. replace (m_wpos m - length (m_vec m)) with 0 by lia.
      cbn. rewrite app_nil_r. apply firstn_skipn. }
    rewrite E. repeat split; auto; try tauto; lia.
  - rewrite <- Eb in *.
    assert (Hd : u_data (u_write bs u) = overwrite (u_data u) (u_wpos u) bs)
      by (apply u_data_write; congruence).
    assert (Hp : u_wpos (u_write bs u) = u_wpos u + length bs)
      by (destruct u; [reflexivity|subst bs; reflexivity]).
    split; auto. unfold grown. rewrite Hp, Hd. split; [auto|split].
    + intros x Hx. destruct (Nat.lt_ge_cases x (u_wpos u)).
      * rewrite nth_overwrite_out by lia. auto.
      * rewrite nth_overwrite_in by lia. rewrite Hb at 1. rewrite nth_error_slice.
        destruct (Nat.ltb_spec (x - u_wpos u) (length bs)); [|lia]. f_equal; lia.
    + destruct u as [m|f]; cbn.
      * cbn in *. rewrite length_overwrite. split; lia.
      * subst bs. cbn [u_write file_write f_data f_wpos f_off f_buf] in *.
        cbn in H3. unfold file_rpos. cbn [f_off f_buf]. rewrite length_overwrite.
        cbn [u_wpos] in *. repeat split; try tauto. lia.
Qed.

(** What a read returns. *)
Lemma grown_read : forall content N u n bs u', grown content N u ->
  u_read n u = (Ok bs, u') ->
  grown content N u' /\ u_wpos u' = u_wpos u /\ length bs <= n /\
  (match u with UMem _ => Nat.min (u_rpos u + n) N <= u_wpos u | UFile _ => True end ->
   bs = slice content (u_rpos u) (length bs)) /\
  (0 < n -> u_rpos u < u_wpos u -> bs <> []).
Proof.
  intros content N u n bs u' (H1 & H2 & H3) Hu. destruct u as [m|f]; cbn in Hu.
  - unfold mem_read in Hu. destruct (Nat.ltb_spec (length (m_vec m)) (m_rpos m)); [discriminate|].
    injection Hu as <- <-. cbn in *. unfold grown; cbn. rewrite !length_slice.
    split; [repeat split; auto; tauto|]. split; [auto|split; [lia|split]].
    + intros Hs. destruct H3 as [H3 H4].
      transitivity (slice (m_vec m) (m_rpos m) (Nat.min (Nat.min (Nat.min (length (m_vec m) - m_rpos m) (m_written m)) n)
        (length (m_vec m) - m_rpos m))).
      { f_equal. lia. }
      apply slice_ext. intros i Hi. apply H2. lia.
    + intros Hn Hp E. apply slice_nil_inv in E. lia.
  - unfold file_read in Hu. cbn in H3. destruct H3 as (H3 & H4 & H5).
    assert (Hd : forall o k, slice (f_data f) o k = slice content o (length (slice (f_data f) o k))).
    { intros o k. rewrite (slice_min (f_data f) o k) at 1. rewrite length_slice.
      apply slice_ext. intros i Hi. apply (H2 i). cbn. lia. }
    destruct (f_buf f) as [|b0 bf] eqn:Eb.
    + assert (Er : file_rpos f = f_off f) by (unfold file_rpos; rewrite Eb; cbn; lia).
      destruct (Nat.leb_spec (f_cap f) n); injection Hu as <- <-; unfold grown; cbn in *.
      * pose proof (file_limit_le n f) as Hc1. pose proof (file_limit_pos n f) as Hc2.
        rewrite Er. repeat split; auto; try lia.
        -- rewrite length_slice. lia.
        -- intros Hn Hp E. apply slice_nil_inv in E. lia.
      * rewrite Er. unfold file_rpos; cbn.
        pose proof (file_limit_le (f_cap f) f) as Hc1.
        pose proof (file_limit_pos (f_cap f) f ltac:(lia)) as Hc2.
        set (cap := file_limit (f_cap f) f) in *.
        assert (Hc : length (slice (f_data f) (f_off f) cap) <= cap)
          by (rewrite length_slice; lia).
        assert (Hk : length (skipn n (slice (f_data f) (f_off f) cap)) =
                     length (slice (f_data f) (f_off f) cap) - n) by apply skipn_length.
        assert (Hf : length (firstn n (slice (f_data f) (f_off f) cap)) =
                     Nat.min n (length (slice (f_data f) (f_off f) cap))) by apply firstn_length.
        set (L := length (slice (f_data f) (f_off f) cap)) in *.
        pose proof (Hd (f_off f) cap) as Hs. fold L in Hs.
        repeat split; auto; try lia.
        -- rewrite Hk. rewrite Hs at 1. rewrite skipn_slice.
           destruct (Nat.le_gt_cases n L).
           ++ replace (f_off f + L - (L - n)) with (f_off f + n) by lia. reflexivity.
           ++ replace (L - n) with 0 by lia. reflexivity.
        -- intros _. rewrite Hf. rewrite Hs at 1. apply firstn_slice.
        -- intros Hn Hp E. rewrite E in Hf. cbn in Hf.
           assert (K : L = Nat.min cap (length (f_data f) - f_off f)) by apply length_slice.
           lia.
    + rewrite <- Eb in *.
      assert (Hu' : (Ok (firstn n (f_buf f)), UFile (mkFile (f_data f) (f_off f)
                (skipn n (f_buf f)) (f_cap f) (f_wpos f) (f_lim f))) = (Ok bs, u')) by (rewrite <- Hu; reflexivity).
      clear Hu. injection Hu' as <- <-. unfold grown; cbn.
      assert (Hk := skipn_length n (f_buf f)). assert (Hf := firstn_length n (f_buf f)).
      unfold file_rpos in *; cbn.
      repeat split; auto; try lia.
      * rewrite Hk. rewrite H5 at 1. rewrite skipn_slice.
        destruct (Nat.le_gt_cases n (length (f_buf f))).
        -- replace (f_off f - (length (f_buf f) - n)) with (f_off f - length (f_buf f) + n) by lia.
           reflexivity.
        -- replace (length (f_buf f) - n) with 0 by lia. reflexivity.
      * intros _. rewrite Hf. rewrite H5 at 1. rewrite firstn_slice. reflexivity.
      * intros Hn _ E. rewrite E in Hf. cbn in Hf. rewrite Eb in Hf. cbn in Hf. lia.
Qed.

(** ** Invariant *)

Definition want (c : cfg) (pos n : nat) : nat :=
  match c_clen c with Some N => Nat.min (pos + n) N | None => pos + n end.

Definition rd_ok (t : bool) (c : cfg) (pos n : nat) (bs : list byte) : Prop :=
  length bs <= n /\
  (in_file c \/ t = true /\ prealloc (c_clen c) <= length (c_content c) ->
   bs = slice (c_content c) pos (length bs)) /\
  (t = true -> (forall N, c_clen c = Some N -> length (c_content c) <= N) ->
   bs = [] -> n = 0 \/ length (c_content c) <= pos).

Definition ev_ok (t : bool) (c : cfg) (older : list event) (e : event) : Prop :=
  match e with EvRead pos n _ (Ok bs) => rd_ok t c pos n bs | _ => True end.

Definition reader_clause (t : bool) (c : cfg) (s : gstate) (u : ustore) : Prop :=
  match g_rpc s with
  | RRGet n pos rq | RRSet n pos rq => rq = want c pos n
  | RRNotify n pos rq | RRWait n pos rq => rq = want c pos n /\
      (g_done s = false -> g_reached s = true \/ is_notify (g_dpc s) = true -> rq <= u_wpos u)
  | RRCheck2 n pos rq => rq = want c pos n /\ (g_done s = true \/ rq <= u_wpos u)
  | RRRead n pos _ _ => want c pos n <= u_wpos u \/ (t = true -> u_wpos u = length (c_content c))
  | RRDone n pos _ (Ok bs) => rd_ok t c pos n bs
  | _ => True
  end.

(** [t]: no body ends early. *)
Record lin (t : bool) (c : cfg) (s : gstate) (u : ustore) : Prop := mkLin
  { l_store : g_store s = SPlain u;
    l_grown : grown (c_content c) (prealloc (c_clen c)) u;
    l_file : in_file c -> exists f, u = UFile f;
    l_seek : forall a b, g_dpc s <> DSeeking a b;
    l_body : g_scur s <= g_send s <= length (c_content c);
    l_pend : forall p, pending s = Some p ->
      p = slice (c_content c) (u_wpos u) (length p) /\ g_scur s = u_wpos u + length p;
    l_down : forall x, covered (g_down s) x -> x < u_wpos u;
    l_whole : t = true -> pending s <> None -> g_send s = length (c_content c);
    l_end : t = true -> succeeded s -> u_wpos u = length (c_content c);
    l_reader : reader_clause t c s u;
    l_trace : all_events (ev_ok t c) (g_trace s) }.

Lemma lin_init : forall t c s, unbounded_store c -> init c = Some s -> exists u, lin t c s u.
Proof.
  intros t c s Hu H. destruct (unbounded_init c s Hu H) as (p & u & E & Es).
  destruct (grown_new (c_content c) _ _ _ E) as [G1 G2]. exists u.
  assert (Hf : in_file c -> exists f, u = UFile f).
  { intros [[cap Hc]|[lim Hc]]; unfold init in H; rewrite Hc in H; cbn in H; injection H as <-;
      cbn in Es; injection Es as <-; eauto. }
  unfold init in H. destruct (into_rw _ _) eqn:E1; [|discriminate]. injection H as <-.
  cbn in *. constructor; cbn; auto; try discriminate; try lia.
  - intros p0 [= <-]. rewrite G2. auto.
  - intros x Hx. destruct (covered_nil _ Hx).
Qed.

Lemma lin_frame : forall t c s u s' u', lin t c s u ->
  g_store s' = SPlain u' -> grown (c_content c) (prealloc (c_clen c)) u' ->
  u_wpos u' = u_wpos u -> (forall f, u = UFile f -> exists f', u' = UFile f') ->
  g_dpc s' = g_dpc s -> g_rem s' = g_rem s -> g_scur s' = g_scur s -> g_send s' = g_send s ->
  g_down s' = g_down s -> g_done s' = g_done s -> g_failed s' = g_failed s ->
  reader_clause t c s' u' -> all_events (ev_ok t c) (g_trace s') -> lin t c s' u'.
Proof.
  intros t c s u s' u' [L1 L2 L3 L4 L5 L6 L7 L8 L9 L10 L11] F1 F2 F3 F4 F5 F6 F7 F8 F9 F10 F11 R T.
  constructor; unfold pending, succeeded in *; rewrite ?F3, ?F5, ?F6, ?F7, ?F8, ?F9, ?F10, ?F11; auto.
  intros K. destruct (L3 K) as [f Hf]. eauto.
Qed.

Lemma u_rseek_file : forall p u f, u = UFile f -> exists f', u_rseek p u = UFile f'.
Proof. intros p u f ->. cbn. eauto. Qed.

Lemma u_read_file : forall n u r u' f, u = UFile f -> u_read n u = (r, u') -> exists f', u' = UFile f'.
Proof. intros n u r u' f -> H. cbn in H. destruct (file_read n f). injection H as <- <-. eauto. Qed.

Lemma u_read_panic : forall n u u', u_read n u = (Panic, u') -> u' = u.
Proof.
  intros n [m|f] u' H; cbn in H.
  - unfold mem_read in H. destruct (_ <? _); [|discriminate]. injection H as <-. auto.
  - unfold file_read in H. destruct (f_buf f); [destruct (_ <=? _)|]; discriminate.
Qed.

Lemma u_read_err : forall n u e u', u_read n u <> (Err e, u').
Proof.
  intros n [m|f] e u' H; cbn in H.
  - unfold mem_read in H. destruct (_ <? _); discriminate.
  - unfold file_read in H. destruct (f_buf f); [destruct (_ <=? _)|]; discriminate.
Qed.

Lemma want_normalize : forall c pos n, Z.to_nat (normalize c (Z.of_nat (pos + n))) = want c pos n.
Proof. intros c pos n. unfold normalize, want. destruct (c_clen c); lia. Qed.

Lemma lin_reader_step : forall t c s l s' u, task_label l = false -> sync s -> traced c s ->
  lin t c s u -> step c s l = Some s' -> exists u', lin t c s' u'.
Proof.
  intros t c s l s' u Hl Hsy Htr HL H.
  pose proof (tr_at _ _ Htr) as Ha.
  assert (Hfull : g_done s = true -> g_failed s = false -> t = true -> u_wpos u = length (c_content c)).
  { intros D F T. apply (l_end _ _ _ _ HL); auto.
    destruct Hsy as [S1 S2 S3 S4 S5]. specialize (S1 D). unfold succeeded.
    destruct (g_dpc s); try discriminate S1; auto. destruct ok; auto. }
  pose proof (sy_wait _ Hsy) as Hwait. unfold sync_wait in Hwait.
  assert (Hget : forall p a e, rs_get p (g_down s) = Some (a, e) -> p < e /\ e <= u_wpos u).
  { intros p a e K. apply rs_get_covers in K as [K1 K2].
    assert (covered (g_down s) (e - 1)) as K by (apply K2; lia). apply (l_down _ _ _ _ HL) in K. lia. }
  pose proof (l_store _ _ _ _ HL) as L1. pose proof (l_reader _ _ _ _ HL) as L10.
  unfold reader_clause in L10.
  pose proof (l_trace _ _ _ _ HL) as L11. pose proof (l_grown _ _ _ _ HL) as L2.
  assert (Hkeep : forall s2, g_store s2 = SPlain u ->
    g_dpc s2 = g_dpc s -> g_rem s2 = g_rem s -> g_scur s2 = g_scur s -> g_send s2 = g_send s ->
    g_down s2 = g_down s -> g_done s2 = g_done s -> g_failed s2 = g_failed s ->
    reader_clause t c s2 u -> all_events (ev_ok t c) (g_trace s2) -> exists u', lin t c s2 u').
  { intros. exists u. eapply lin_frame; eauto. }
  assert (Hmove : forall s2 p, g_store s2 = SPlain (u_rseek p u) ->
    g_dpc s2 = g_dpc s -> g_rem s2 = g_rem s -> g_scur s2 = g_scur s -> g_send s2 = g_send s ->
    g_down s2 = g_down s -> g_done s2 = g_done s -> g_failed s2 = g_failed s ->
    reader_clause t c s2 (u_rseek p u) -> all_events (ev_ok t c) (g_trace s2) -> exists u', lin t c s2 u').
  { intros. exists (u_rseek p u). eapply lin_frame; eauto using grown_rseek, u_rseek_wpos, u_rseek_file. }
  clear Hsy Htr.
  step_cases H; try discriminate Hl; rewrite ?L1 in *;
    repeat match goal with E : g_rpc _ = _ |- _ => rewrite E in * end; cbn [reader_at wait_target] in *;
    try (apply Hkeep; auto; unfold reader_clause; gsimpl; auto; cbn [all_events ev_ok]; auto;
         repeat match goal with E : g_rpc _ = _ |- _ => rewrite E in * end; auto;
         try (destruct L10); auto; fail).
  - eapply Hmove; try reflexivity; unfold reader_clause; gsimpl; auto.
    apply want_normalize.
  - apply Hkeep; auto. unfold reader_clause; gsimpl. left. apply Hget in Heqo.
    apply Nat.leb_le in Heqb. lia.
  - apply Hkeep; auto. unfold reader_clause; gsimpl. split; auto.
    intros D. specialize (Hwait D). destruct Hwait as (_ & W1 & W2). rewrite W1, W2.
    intros [K|K]; discriminate K.
  - eapply Hmove; try reflexivity; unfold reader_clause; gsimpl; auto.
    rewrite u_rseek_wpos. destruct L10 as [K1 [K2|K2]]; [right; auto|left; lia].
  - cbn in Heqp. destruct (u_read n u) as [r1 u1] eqn:Er. injection Heqp as -> <-.
    destruct (grown_read _ _ _ _ _ _ L2 Er) as (G1 & G2 & G3 & G4 & G5).
    exists u1. eapply lin_frame; eauto using u_read_file.
    unfold reader_clause; gsimpl. destruct Ha as [Ha1 Ha2]. cbn in Ha2. rewrite Ha2 in *.
    split; [auto|split].
    + intros Hc. apply G4. destruct u as [m|f]; auto.
      destruct Hc as [Hc|[Ht Hc]].
      { destruct (l_file _ _ _ _ HL Hc) as [f Hf]. discriminate. }
      destruct L2 as (G & _ & _). unfold want, prealloc in *.
      destruct L10 as [K|K].
      * destruct (c_clen c); lia.
      * specialize (K Ht). lia.
    + intros Ht Hc Hnil. destruct (Nat.eq_dec n 0) as [|Hn]; [auto|right].
      destruct (Nat.le_gt_cases (length (c_content c)) pos) as [|Hlt]; [auto|exfalso].
      apply G5; auto; [lia|]. destruct L10 as [K|K].
      * unfold want in K. destruct (c_clen c) as [N|] eqn:EN; [specialize (Hc N eq_refl)|]; lia.
      * specialize (K Ht). lia.
  - cbn in Heqp. destruct (u_read n u) as [r1 u1] eqn:Er. injection Heqp as -> <-.
    destruct (u_read_err _ _ _ _ Er).
  - cbn in Heqp. destruct (u_read n u) as [r1 u1] eqn:Er. injection Heqp as -> <-.
    apply u_read_panic in Er. subst u1. apply Hkeep; auto; unfold reader_clause; gsimpl; auto.
    cbn; auto.
  - match goal with E : st_rseek _ _ = _ |- _ => cbn in E; injection E as <- <- end;
    eapply Hmove; try reflexivity; unfold reader_clause; gsimpl; cbn; auto.
Qed.

(** The reader's part after a step of the task. *)
Lemma clause_grows : forall t c s u s' u', reader_clause t c s u ->
  u_wpos u <= u_wpos u' -> u_wpos u' <= length (c_content c) -> g_rpc s' = g_rpc s ->
  (g_done s = true -> g_done s' = true) ->
  (g_done s' = false -> g_reached s' = true \/ is_notify (g_dpc s') = true ->
     g_reached s = true \/ is_notify (g_dpc s) = true \/
     (forall n pos rq, g_rpc s = RRNotify n pos rq \/ g_rpc s = RRWait n pos rq -> rq <= u_wpos u')) ->
  reader_clause t c s' u'.
Proof.
  intros t c s u s' u' H Hw Hl Hr Hd Hn. unfold reader_clause in *. rewrite Hr.
  destruct (g_rpc s) eqn:E; auto.
  - destruct H as [H1 H2]. split; auto. intros D K. destruct (Hn D K) as [K1|[K1|K1]].
    + assert (g_done s = false) by (destruct (g_done s); auto; rewrite Hd in D; auto; discriminate).
      specialize (H2 H (or_introl K1)). lia.
    + assert (g_done s = false) by (destruct (g_done s); auto; rewrite Hd in D; auto; discriminate).
      specialize (H2 H (or_intror K1)). lia.
    + eapply K1; eauto.
  - destruct H as [H1 H2]. split; auto. intros D K. destruct (Hn D K) as [K1|[K1|K1]].
    + assert (g_done s = false) by (destruct (g_done s); auto; rewrite Hd in D; auto; discriminate).
      specialize (H2 H (or_introl K1)). lia.
    + assert (g_done s = false) by (destruct (g_done s); auto; rewrite Hd in D; auto; discriminate).
      specialize (H2 H (or_intror K1)). lia.
    + eapply K1; eauto.
  - destruct H as [H1 [H2|H2]]; split; auto. right; lia.
  - destruct H as [H|H]; [left; lia|right]. intros T. specialize (H T). lia.
Qed.

Lemma skipn_slice_eq : forall (content : list byte) a (p : list byte) k,
  p = slice content a (length p) -> k <= length p ->
  skipn k p = slice content (a + k) (length (skipn k p)).
Proof.
  intros content a p k H Hk. rewrite skipn_length. rewrite H at 1. apply skipn_slice.
Qed.

Lemma firstn_slice_eq : forall (content : list byte) a (p : list byte) k,
  p = slice content a (length p) -> firstn k p = slice content a (length (firstn k p)).
Proof.
  intros content a p k H. rewrite firstn_length. rewrite H at 1. rewrite firstn_slice. auto.
Qed.

Lemma slice_skipn : forall {A} (l : list A) o n, slice l o n = firstn n (skipn o l).
Proof. reflexivity. Qed.

(** A write of [size] bytes of what is pending. *)
Lemma lin_write : forall content N u p k size, grown content N u ->
  p = slice content (u_wpos u) (length p) -> u_wpos u + length p <= length content ->
  k = length (firstn size p) ->
  grown content N (u_write (firstn size p) u) /\
  u_wpos (u_write (firstn size p) u) = u_wpos u + k /\ k <= length p /\
  skipn k p = slice content (u_wpos (u_write (firstn size p) u)) (length (skipn k p)).
Proof.
  intros content N u p k size HG Hp Hl ->.
  assert (Hk : length (firstn size p) <= length p) by (rewrite firstn_length; lia).
  destruct (grown_write content N u (firstn size p) HG) as [W1 W2].
  - apply firstn_slice_eq. auto.
  - lia.
  - split; [auto|split; [auto|split; [auto|]]]. rewrite W2. apply skipn_slice_eq; auto.
Qed.

Lemma lin_task_step : forall t c s l s' u, task_label l = true -> 0 < c_batch c ->
  c_seekable c = false -> c_rec c = RecRange -> g_rem s = None -> sync s ->
  (t = true -> no_silent_truncation c s l) ->
  lin t c s u -> step c s l = Some s' -> exists u', lin t c s' u'.
Proof.
  intros t c s l s' u Hl Hb Hk Hrec Hrem Hsy Htr HL H.
  pose proof (sy_wait _ Hsy) as Hwait. pose proof (sy_done _ Hsy) as Hdone.
  pose proof (sy_succ _ Hsy) as Hsucc. pose proof (sy_fail _ Hsy) as Hfail.
  pose proof HL as [L1 L2 L3 L4 L5 L6 L7 L8 L9 L10 L11].
  assert (HW : u_wpos u <= length (c_content c)) by apply L2.
  (* steps that leave the storage alone *)
  assert (Hkeep : forall s2, g_store s2 = SPlain u -> g_rpc s2 = g_rpc s ->
    (forall a b, g_dpc s2 <> DSeeking a b) -> g_scur s2 <= g_send s2 <= length (c_content c) ->
    (forall p, pending s2 = Some p ->
      p = slice (c_content c) (u_wpos u) (length p) /\ g_scur s2 = u_wpos u + length p) ->
    (forall x, covered (g_down s2) x -> x < u_wpos u) ->
    (t = true -> pending s2 <> None -> g_send s2 = length (c_content c)) ->
    (t = true -> succeeded s2 -> u_wpos u = length (c_content c)) ->
    (g_done s = true -> g_done s2 = true) ->
    (g_done s2 = false -> g_reached s2 = true \/ is_notify (g_dpc s2) = true ->
     g_reached s = true \/ is_notify (g_dpc s) = true \/
     (forall n pos rq, g_rpc s = RRNotify n pos rq \/ g_rpc s = RRWait n pos rq -> rq <= u_wpos u)) ->
    all_events (ev_ok t c) (g_trace s2) -> exists u', lin t c s2 u').
  { intros. exists u. constructor; auto. eapply clause_grows; eauto. }
  (* writes *)
  assert (Hwr : forall s2 p size k, pending s = Some p -> k = length (firstn size p) ->
    g_store s2 = SPlain (u_write (firstn size p) u) -> g_rpc s2 = g_rpc s ->
    (forall a b, g_dpc s2 <> DSeeking a b) -> g_scur s2 = g_scur s -> g_send s2 = g_send s ->
    (forall q, pending s2 = Some q -> q = skipn k p) ->
    (forall x, covered (g_down s2) x -> x < u_wpos u + k) ->
    succeeded s2 = False -> g_done s2 = g_done s -> g_reached s2 = g_reached s ->
    is_notify (g_dpc s2) = false -> all_events (ev_ok t c) (g_trace s2) -> exists u', lin t c s2 u').
  { intros s2 p size k Hp Ek A1 A2 A3 A4 A5 A6 A7 A8 A9 A10 A11 A12.
    destruct (L6 p Hp) as [P1 P2].
    destruct (lin_write _ _ u p k size L2 P1) as (W1 & W2 & W3 & W4); auto; [lia|].
    exists (u_write (firstn size p) u). constructor; auto.
    - intros F. destruct (L3 F) as [f ->]. cbn. eauto.
    - rewrite A4, A5. auto.
    - intros q Hq. rewrite (A6 q Hq). split; auto. rewrite W2, A4, P2, skipn_length. lia.
    - intros x Hx. rewrite W2. auto.
    - intros T Hq. rewrite A5. apply L8; auto. congruence.
    - rewrite A8. intros _ [].
    - eapply clause_grows; eauto; try lia; try congruence.
      rewrite A10, A11. intros _ [K|K]; [auto|discriminate]. }
  unfold should_seek in *.
  step_cases H; try discriminate Hl; unfold should_seek in *; rewrite ?Hk in *; try discriminate;
    try congruence; rewrite ?Hrec in *; try discriminate; try (exfalso; eapply L4; eauto; fail);
    rewrite ?L1 in *.
  all: try (apply Hkeep; clear Hkeep Hwr; unfold succeeded, pending in *; gsimpl; rwpc;
    cbn [is_notify is_final all_events ev_ok] in *; auto; try discriminate; try contradiction;
    first [ intros T _; apply L8; [exact T|discriminate]
          | split; [exact I|auto]
          | intros _ [K|K]; [auto|discriminate]
          | solve [intuition (try discriminate; try congruence)] ]; fail).
  all: repeat match goal with
    | E : st_write _ (SPlain _) = _ |- _ => cbn [st_write] in E; injection E as En <-
    end; cbn [st_wpos] in *; unfold no_silent_truncation in Htr.
  all: assert (Hdn : forall a x, covered (rs_add a (u_wpos u) (g_down s)) x -> x < u_wpos u)
         by (intros a0 x Hx; apply rs_add_covered in Hx as [Hx|Hx]; [auto|lia]).
  all: assert (Hskip : forall (bs : list byte) i k, skipn k (skipn i bs) = skipn (i + k) bs)
         by (intros bs0 i k0; apply list_ext; intros z; rewrite !nth_error_skipn; f_equal; lia).
  (* chunks *)
  1,2: destruct (L6 []) as [P1 P2]; [unfold pending; rewrite Heqd, ?Hrem, ?Heqo; reflexivity|];
       cbn in P2; apply Nat.leb_le in Heqb;
       assert (Hk2 : length (slice (c_content c) (g_scur s) k) = k) by (rewrite length_slice; lia);
       assert (Hsend : t = true -> g_send s = length (c_content c))
         by (intros T; apply L8; [exact T|unfold pending; rewrite Heqd; discriminate]);
       apply Hkeep; clear Hkeep Hwr; unfold succeeded, pending in *; gsimpl; auto; try discriminate; try contradiction;
       [lia|intros p [= <-]; cbn [skipn]; rewrite Hk2; rewrite P2, Nat.add_0_r; auto
       |cbn [is_notify]; intros _ [K|K]; [auto|discriminate]].
  (* end of the body *)
  1,2: destruct (L6 []) as [P1 P2]; [unfold pending; rewrite Heqd, ?Hrem, ?Heqo; reflexivity|];
       cbn in P2;
       assert (Hsend : t = true -> g_send s = length (c_content c))
         by (intros T; apply L8; [exact T|unfold pending; rewrite Heqd; discriminate]);
       apply Hkeep; clear Hkeep Hwr; unfold succeeded, pending in *; gsimpl; auto; try discriminate; try contradiction;
       try lia; try (cbn [is_notify]; intros _ [K|K]; [auto|discriminate]); try (eauto; fail);
       intros T K1; first [contradiction
         |destruct (Htr T) as [[K _]|K]; [congruence|specialize (Hsend T); lia]].
  (* reconnect *)
  1: { assert (Es : Nat.max (u_wpos u) (length (c_content c)) = length (c_content c)) by lia.
    apply Hkeep; clear Hkeep Hwr; unfold succeeded, pending in *; gsimpl; rewrite ?Es, ?Heqd in *; auto;
      try discriminate; try contradiction.
    - intros p Hp. rewrite Hrem in Hp. injection Hp as <-. cbn. auto.
    - cbn. intros _ [K|K]; auto.
    - cbn. auto. }
  (* writes *)
  1,3: exfalso; apply Nat.ltb_lt in Heqb1; apply Nat.eqb_eq in Heqb; rewrite length_slice in En; lia.
  1,2: apply Nat.ltb_ge in Heqb1; apply Nat.eqb_eq in Heqb;
    assert (Ew : skipn w bytes = []) by (apply skipn_all2; lia);
    assert (Es : slice bytes w (Nat.min (c_batch c) (length bytes - w)) = [])
      by (unfold slice; rewrite Ew; apply firstn_nil);
    rewrite Es in *;
    assert (Ep : u_wpos (u_write [] u) = u_wpos u) by (rewrite u_write_wpos; cbn; lia);
    apply (Hwr _ [] 0 0); clear Hkeep Hwr; unfold succeeded, pending in *; gsimpl; rewrite ?Heqd, ?Hrem in *;
      rewrite ?Ew, ?Ep in *; try discriminate; cbn; auto;
    [intros q [= <-]; reflexivity
    |intros x Hx; rewrite Nat.add_0_r; eauto].
  - apply (Hwr _ (skipn w bytes) (Nat.min (c_batch c) (length bytes - w)) n);
      clear Hkeep Hwr; unfold succeeded, pending, slice in *; gsimpl; rewrite ?Heqd in *; try discriminate; cbn; auto.
    + intros q [= <-]. rewrite Hskip. auto.
    + intros x Hx. apply L7 in Hx. lia.
  - apply Hkeep; clear Hkeep Hwr; unfold succeeded, pending in *; gsimpl; rewrite ?Heqd in *;
      try discriminate; cbn [is_notify]; auto.
    + rewrite Nat.add_0_r. auto.
    + intros T _. apply L8; [auto|discriminate].
    + intros _ [K|K]; auto.
  - apply Nat.ltb_ge in Heqb. destruct (L6 []) as [P1 P2].
    { unfold pending. rewrite Heqd. rewrite skipn_all2 by lia. auto. }
    apply Hkeep; clear Hkeep Hwr; unfold succeeded, pending in *; gsimpl; rewrite ?Heqd in *;
      try discriminate; cbn [is_notify]; auto.
    + rewrite Hrem. intros p [= <-]. auto.
    + intros T _. apply L8; [auto|discriminate].
    + intros _ [K|K]; auto.
    + cbn; auto.
  - apply Nat.eqb_eq in Heqb. rewrite Heqb in *.
    apply (Hwr _ (skipn (w + nw) bytes) (Nat.min (c_batch c) (length bytes - (w + nw))) 0);
      clear Hkeep Hwr; unfold succeeded, pending, slice in *; gsimpl; rewrite ?Heqd in *; try discriminate; cbn; auto.
    + intros q [= <-]. auto.
    + intros x Hx. apply L7 in Hx. lia.
  - apply (Hwr _ (skipn (w + nw) bytes) (Nat.min (c_batch c) (length bytes - (w + nw))) n);
      clear Hkeep Hwr; unfold succeeded, pending, slice in *; gsimpl; rewrite ?Heqd in *; try discriminate; cbn; auto.
    + intros q [= <-]. rewrite Hskip. f_equal. lia.
    + intros x Hx. apply L7 in Hx. lia.
  - apply Hkeep; clear Hkeep Hwr; unfold succeeded, pending in *; gsimpl; rewrite ?Heqd in *;
      try discriminate; cbn [is_notify]; eauto.
    + intros _ [K|K]; auto.
  - apply Nat.leb_le in Heqb.
    apply Hkeep; clear Hkeep Hwr; unfold succeeded, pending in *; gsimpl; rewrite ?Heqd in *;
      try discriminate; cbn [is_notify]; eauto.
    + intros D _. right. right. specialize (Hwait D). unfold sync_wait in Hwait.
      intros n0 pos0 rq0 [K|K]; rewrite K in Hwait; cbn in Hwait;
        destruct Hwait as [(W1 & _)|[(W1 & _)|(W1 & _)]]; rewrite W1 in Heqo; try discriminate;
        injection Heqo as <-; auto.
  - apply andb_prop in Heqb as [-> ->].
    apply Hkeep; clear Hkeep Hwr; unfold succeeded, pending in *; gsimpl; rewrite ?Heqd in *;
      try discriminate; cbn [is_notify]; eauto.
    + intros _ [K|K]; auto.
    + cbn; auto.
  - apply Hkeep; clear Hkeep Hwr; unfold succeeded, pending in *; gsimpl; rewrite ?Heqd in *;
      try discriminate; cbn [is_notify]; eauto.
    + intros T D. apply L9; auto. destruct ok0; auto.
    + intros _ [K|K]; auto.
    + cbn; auto.
  - apply (Hwr _ (skipn w bytes) k n);
      clear Hkeep Hwr; unfold succeeded, pending, slice in *; gsimpl; rewrite ?Heqd in *; try discriminate; cbn; auto.
    + intros q [= <-]. rewrite Hskip. auto.
    + intros x Hx. apply L7 in Hx. lia.
  - apply (Hwr _ (skipn (w + nw) bytes) k n);
      clear Hkeep Hwr; unfold succeeded, pending, slice in *; gsimpl; rewrite ?Heqd in *; try discriminate; cbn; auto.
    + intros q [= <-]. rewrite Hskip. f_equal. lia.
    + intros x Hx. apply L7 in Hx. lia.
Qed.

Lemma lin_reach : forall t c (allow : gstate -> label -> Prop) s, unbounded_store c -> 0 < c_batch c ->
  c_seekable c = false -> c_rec c = RecRange ->
  (t = true -> forall s0 l, allow s0 l -> no_silent_truncation c s0 l) ->
  reach c allow s -> exists u, lin t c s u.
Proof.
  intros t c allow s Hu Hb Hk Hrec Ha H. induction H as [s H|s l s' Hr [u IH] Hl H].
  - apply lin_init; auto.
  - pose proof (sync_reach _ _ _ Hr) as Hsy. pose proof (traced_reach _ _ _ Hr) as Htr.
    destruct (task_label l) eqn:El.
    + eapply lin_task_step; eauto. eapply no_leftover; eauto.
    + eapply lin_reader_step; eauto.
Qed.

Lemma all_and : forall (P Q R : list event -> event -> Prop) tr, (forall t e, P t e -> Q t e -> R t e) ->
  all_events P tr -> all_events Q tr -> all_events R tr.
Proof.
  intros P Q R tr H. induction tr as [|e tr IH]; cbn; auto. intros [A1 A2] [B1 B2]. auto.
Qed.

Lemma in_file_unbounded : forall c, in_file c -> unbounded_store c.
Proof. intros c [[cap E]|[lim E]]; unfold unbounded_store; rewrite E; exact I. Qed.

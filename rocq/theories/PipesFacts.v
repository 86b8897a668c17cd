(** * Facts about running pipelines. *)

From Coq Require Import List Arith Lia Bool.
From Verif Require Import Base Process ProcessSpec ProcessFacts Pipes PipesSpec.
Import ListNotations.

(** ** Counted runs of a program *)

Inductive trn (ends : bool) : nat -> prog -> list byte -> list byte -> bool -> Prop :=
| tn_exit : forall ok input, trn ends 1 (PExit ok) input [] ok
| tn_write : forall n b k input output ok,
    trn ends n k input output ok -> trn ends (S n) (PWrite b k) input (b :: output) ok
| tn_err : forall n b k input output ok,
    trn ends n k input output ok -> trn ends (S n) (PErr b k) input output ok
| tn_read : forall n f b input output ok,
    trn ends n (f (Some b)) input output ok -> trn ends (S n) (PRead f) (b :: input) output ok
| tn_eof : forall n f output ok, ends = true ->
    trn ends n (f None) [] output ok -> trn ends (S n) (PRead f) [] output ok.

Lemma transforms_trn ends p x y ok : transforms ends p x y ok -> exists n, trn ends n p x y ok.
Proof.
  induction 1; try (destruct IHtransforms as [n Hn]); eexists; econstructor; eassumption.
Qed.

(** ** The invariant *)

Definition ends_of (k : kernel) (i : nat) : bool :=
  match i with 0 => negb (k_stdin_open k) | S _ => true end.

Definition pending (k : kernel) (w : nat -> list byte) (i : nat) : list byte :=
  match i with 0 => k_stdin k | S j => k_pipes k j ++ w j end.

Definition in_of (i : nat) : stdin_from :=
  match i with 0 => StdinInherited | S j => StdinPipe j end.

(** The shape of the pipeline. *)
Record shape (k : kernel) : Prop := mkShape {
  sh_n : k_n k = S (k_last k);
  sh_cap : 0 < k_cap k;
  sh_in : forall i, i < k_n k -> kp_in (k_procs k i) = in_of i;
  sh_err : forall i, i < k_n k -> kp_err (k_procs k i) = ErrFile }.

(** [m i] steps and [w i] output are left to process [i]. *)
Record sound (out : list byte) (ok : bool) (k : kernel) (m : nat -> nat) (w : nat -> list byte)
    (s : nat -> bool) : Prop := mkSound {
  so_run : forall i, i < k_n k -> is_running (k_procs k i) = true ->
      trn (ends_of k i) (m i) (kp_prog (k_procs k i)) (pending k w i) (w i) (s i);
  so_done : forall i, i < k_n k -> is_running (k_procs k i) = false -> m i = 0 /\ w i = [];
  so_ok : s (k_last k) = ok;
  so_status : k_closed k = false -> is_running (k_procs k (k_last k)) = false ->
      kp_status (k_procs k (k_last k)) = Exited ok;
  so_out : k_closed k = false -> k_got k ++ k_pipes k (k_last k) ++ w (k_last k) = out;
  so_got : prefix_of (k_got k) out;
  so_eof : k_eof k = true ->
      is_running (k_procs k (k_last k)) = false /\ k_pipes k (k_last k) = [] /\ k_got k = out }.

Fixpoint sum (n : nat) (f : nat -> nat) : nat :=
  match n with 0 => 0 | S n => f n + sum n f end.

Definition weight (k : kernel) (m : nat -> nat) (w : nat -> list byte) : nat :=
  sum (k_n k) m + length (k_pipes k (k_last k) ++ w (k_last k)) + (if k_eof k then 0 else 1).

Lemma sum_ext n f g : (forall i, i < n -> f i = g i) -> sum n f = sum n g.
Proof. induction n; intros H; cbn; [reflexivity|]. rewrite H, IHn by auto. reflexivity. Qed.

Lemma sum_upd n i f x : i < n -> sum n (upd f i x) + f i = sum n f + x.
Proof.
  induction n as [|n IH]; intros L; [lia|]. cbn. destruct (Nat.eq_dec i n) as [->|N].
  - unfold upd at 1. rewrite Nat.eqb_refl.
    rewrite (sum_ext n (upd f n x) f); [lia|]. intros j Hj. unfold upd.
    destruct (Nat.eqb_spec j n); [lia|reflexivity].
  - unfold upd at 1. destruct (Nat.eqb_spec n i); [lia|]. specialize (IH ltac:(lia)). lia.
Qed.

Lemma upd_same {A} (f : nat -> A) i x : upd f i x i = x.
Proof. unfold upd. rewrite Nat.eqb_refl. reflexivity. Qed.

Lemma upd_other {A} (f : nat -> A) i j x : j <> i -> upd f i x j = f j.
Proof. unfold upd. intros N. destruct (Nat.eqb_spec j i); [contradiction|reflexivity]. Qed.

(** ** Readers *)

Lemma reader_next k i : shape k -> S i < k_n k ->
  has_reader k i = is_running (k_procs k (S i)).
Proof.
  intros Sh L. unfold has_reader. destruct (Nat.eqb_spec i (k_last k)) as [->|N].
  { rewrite (sh_n k Sh) in L. lia. }
  cbn [andb]. rewrite orb_false_r.
  destruct (is_running (k_procs k (S i))) eqn:E.
  - apply existsb_exists. exists (S i). split; [apply in_seq; lia|]. rewrite E. cbn [andb].
    unfold reads_from. rewrite (sh_in k Sh) by exact L. cbn. apply Nat.eqb_refl.
  - apply not_true_is_false. intros H. apply existsb_exists in H. destruct H as (j & Hj & H).
    apply in_seq in Hj. apply andb_true_iff in H. destruct H as [H1 H2]. unfold reads_from in H2.
    rewrite (sh_in k Sh) in H2 by lia. destruct j as [|j]; cbn in H2; [discriminate|].
    apply Nat.eqb_eq in H2. subst j. congruence.
Qed.

Lemma reader_last k : shape k -> has_reader k (k_last k) = negb (k_closed k).
Proof.
  intros Sh. unfold has_reader. rewrite Nat.eqb_refl. cbn [andb].
  replace (existsb _ _) with false; [reflexivity|]. symmetry. apply not_true_is_false.
  intros H. apply existsb_exists in H. destruct H as (j & Hj & H). apply in_seq in Hj.
  apply andb_true_iff in H. destruct H as [_ H]. unfold reads_from in H.
  rewrite (sh_in k Sh) in H by lia. destruct j as [|j]; cbn in H; [discriminate|].
  apply Nat.eqb_eq in H. rewrite (sh_n k Sh) in Hj. lia.
Qed.

Lemma done_running k i : is_running (k_procs k i) = true -> kp_status (k_procs k i) = Running.
Proof. unfold is_running. destruct (kp_status _); congruence. Qed.

(** ** Steps keep the invariant and use it up *)

Lemma shape_proc k i p : shape k ->
  kp_in p = kp_in (k_procs k i) -> kp_err p = kp_err (k_procs k i) -> shape (set_proc k i p).
Proof.
  intros [A B C D] E F. constructor; cbn [set_proc k_n k_last k_cap k_procs]; auto;
    intros j Hj; unfold upd; destruct (Nat.eqb_spec j i) as [->|N];
    rewrite ?E, ?F; auto.
Qed.

Lemma shape_pipe k i l : shape k -> shape (set_pipe k i l).
Proof. intros [A B C D]. constructor; auto. Qed.
Lemma shape_stdin k l : shape k -> shape (set_stdin k l).
Proof. intros [A B C D]. constructor; auto. Qed.
Lemma shape_got k l e : shape k -> shape (set_got k l e).
Proof. intros [A B C D]. constructor; auto. Qed.
Lemma shape_closed k : shape k -> shape (set_closed k).
Proof. intros [A B C D]. constructor; auto. Qed.


Definition same_frame (k k' : kernel) : Prop :=
  k_n k' = k_n k /\ k_last k' = k_last k /\ k_stdin_open k' = k_stdin_open k /\
  k_got k' = k_got k /\ k_eof k' = k_eof k /\ k_closed k' = k_closed k.

Lemma ends_same k k' i : same_frame k k' -> ends_of k' i = ends_of k i.
Proof. intros (_ & _ & E & _). unfold ends_of. destruct i; [rewrite E|]; reflexivity. Qed.

(** A process takes a step and goes on: what the others see of it is unchanged. *)
Lemma sound_goes_on out ok k k' m w s i n w1 p :
  shape k -> sound out ok k m w s -> i < k_n k -> m i = S n ->
  is_running (k_procs k i) = true -> is_running p = true ->
  same_frame k k' -> k_procs k' = upd (k_procs k) i p ->
  (forall j, j < k_n k -> j <> i -> pending k' (upd w i w1) j = pending k w j) ->
  k_pipes k' (k_last k) ++ upd w i w1 (k_last k) = k_pipes k (k_last k) ++ w (k_last k) ->
  trn (ends_of k i) n (kp_prog p) (pending k' (upd w i w1) i) w1 (s i) ->
  sound out ok k' (upd m i n) (upd w i w1) s /\ weight k' (upd m i n) (upd w i w1) < weight k m w.
Proof.
  intros Sh So L Em Hr Hp Fr Ep Hpend Hlast Ht. pose proof Fr as (En & El & Eo & Eg & Ee & Ec).
  assert (Hrun : forall j, is_running (k_procs k' j) = is_running (k_procs k j)).
  { intros j. rewrite Ep. unfold upd. destruct (Nat.eqb_spec j i) as [->|N]; congruence. }
  split.
  - destruct So as [A B C C' D E F]. constructor; rewrite ?En, ?El, ?Eg, ?Ee, ?Ec.
    + intros j Hj. rewrite Hrun, (ends_same k k' j Fr). intros Hj'. destruct (Nat.eq_dec j i) as [->|N].
      * rewrite Ep, !upd_same. exact Ht.
      * rewrite Hpend by assumption. rewrite Ep, !upd_other by exact N. apply A; assumption.
    + intros j Hj. rewrite Hrun. intros Hj'. assert (N : j <> i) by (intros ->; congruence).
      rewrite !upd_other by exact N. apply B; assumption.
    + exact C.
    + rewrite Hrun. intros Hc Hl. rewrite Ep. assert (N : k_last k <> i) by (intros <-; congruence).
      rewrite upd_other by exact N. auto.
    + intros Hc. rewrite Hlast. auto.
    + exact E.
    + rewrite Hrun. intros He. destruct (F He) as (F1 & F2 & F3). split; [exact F1|]. split; [|exact F3].
      destruct (B (k_last k)) as [_ B2]; [|exact F1|].
      { rewrite (sh_n k Sh). lia. }
      rewrite F2, B2 in Hlast. cbn in Hlast. apply app_eq_nil in Hlast. tauto.
  - unfold weight. rewrite En, El, Ee, Hlast. pose proof (sum_upd (k_n k) i m n L). lia.
Qed.

(** A process ends. *)
Lemma sound_stops out ok k k' m w s i p :
  shape k -> sound out ok k m w s -> i < k_n k ->
  is_running (k_procs k i) = true -> is_running p = false ->
  k_n k' = k_n k -> k_last k' = k_last k -> k_stdin_open k' = k_stdin_open k ->
  k_got k' = k_got k -> k_eof k' = k_eof k ->
  (k_closed k' = false -> k_closed k = false) ->
  k_procs k' = upd (k_procs k) i p -> k_stdin k' = k_stdin k -> k_pipes k' = k_pipes k ->
  (w i = [] \/ S i = k_n k \/ is_running (k_procs k (S i)) = false) ->
  (i = k_last k -> k_closed k' = false -> w i = [] /\ kp_status p = Exited ok) ->
  sound out ok k' (upd m i 0) (upd w i []) s /\ weight k' (upd m i 0) (upd w i []) < weight k m w.
Proof.
  intros Sh So L Hr Hp En El Eo Eg Ee Ec Ep Es Epi Hw Hlast.
  assert (Hm : 0 < m i).
  { destruct So as [A _ _ _ _ _ _]. specialize (A i L Hr). inversion A; lia. }
  assert (Hlen : length (k_pipes k (k_last k) ++ upd w i [] (k_last k))
                 <= length (k_pipes k (k_last k) ++ w (k_last k))).
  { rewrite !app_length. unfold upd. destruct (k_last k =? i); cbn; lia. }
  split.
  - destruct So as [A B C C' D E F]. constructor; rewrite ?En, ?El, ?Eg, ?Ee, ?Ep, ?Epi.
    + intros j Hj. destruct (Nat.eq_dec j i) as [->|N]; [rewrite upd_same; congruence|].
      rewrite !upd_other by exact N. intros Hj'.
      replace (ends_of k' j) with (ends_of k j)
        by (unfold ends_of; destruct j; rewrite ?Eo; reflexivity).
      replace (pending k' (upd w i []) j) with (pending k w j); [apply A; assumption|].
      destruct j as [|j]; cbn [pending]; rewrite ?Es, ?Epi; [reflexivity|].
      destruct (Nat.eq_dec j i) as [->|N'].
      * rewrite upd_same. destruct Hw as [-> | [Hw|Hw]]; [reflexivity|lia|congruence].
      * rewrite upd_other by exact N'. reflexivity.
    + intros j Hj. destruct (Nat.eq_dec j i) as [->|N].
      * intros _. rewrite !upd_same. auto.
      * rewrite !upd_other by exact N. auto.
    + exact C.
    + intros Hc. destruct (Nat.eq_dec (k_last k) i) as [El'|N].
      * rewrite El', upd_same. intros _. apply Hlast; [congruence|exact Hc].
      * rewrite !upd_other by exact N. auto.
    + intros Hc. destruct (Nat.eq_dec (k_last k) i) as [El'|N].
      * destruct Hlast as [Hl _]; [congruence|exact Hc|]. rewrite <- (D (Ec Hc)).
        rewrite El', upd_same, Hl. reflexivity.
      * rewrite upd_other by exact N. auto.
    + exact E.
    + intros He. destruct (F He) as (F1 & F2 & F3). split; [|auto].
      assert (N : k_last k <> i) by (intros <-; congruence). rewrite upd_other by exact N. exact F1.
  - unfold weight. rewrite En, El, Ee, Epi. pose proof (sum_upd (k_n k) i m 0 L). lia.
Qed.

Ltac shp :=
  repeat first [ apply shape_proc; [|reflexivity|reflexivity] | apply shape_pipe | apply shape_stdin
               | apply shape_got | apply shape_closed ]; assumption.

Lemma step_sound out ok k m w s l k' :
  shape k -> sound out ok k m w s -> kstep k l = Some k' ->
  shape k' /\ exists m' w', sound out ok k' m' w' s /\
    (l <> KKill -> weight k' m' w' < weight k m w) /\ weight k' m' w' <= weight k m w.
Proof.
  intros Sh So H.
  assert (Done : forall m' w', sound out ok k' m' w' s /\ weight k' m' w' < weight k m w ->
    exists m' w', sound out ok k' m' w' s /\
      (l <> KKill -> weight k' m' w' < weight k m w) /\ weight k' m' w' <= weight k m w).
  { intros m' w' [A B]. exists m', w'. split; [exact A|]. split; [auto|lia]. }
  destruct l as [|i|]; cbn [kstep] in H.
  - (* KRead *)
    destruct (k_eof k) eqn:Ee; [discriminate|]. destruct (k_closed k) eqn:Ec; [discriminate|].
    cbn [orb] in H. destruct (k_pipes k (k_last k)) as [|b rest] eqn:Epi.
    + destruct (is_running (k_procs k (k_last k))) eqn:Er; [discriminate|]. injection H as <-.
      split; [shp|]. apply (Done m w).
      destruct So as [A B C C' D E F]. destruct (B (k_last k)) as [B1 B2];
        [rewrite (sh_n k Sh); lia|exact Er|].
      specialize (D Ec). rewrite Epi, B2 in D. cbn in D. rewrite app_nil_r in D.
      split; [constructor; cbn; auto|unfold weight; cbn; rewrite Ee; lia].
      all: intros _; rewrite Epi, ?B2; cbn; rewrite ?app_nil_r; auto.
    + injection H as <-. split; [shp|]. apply (Done m w).
      destruct So as [A B C C' D E F].
      split; [constructor; cbn [set_got set_pipe k_n k_last k_procs k_pipes k_got k_eof k_closed]; auto|].
      * intros i Hi Hr. specialize (A i Hi Hr). cbn [pending set_got set_pipe k_stdin k_pipes].
        destruct i as [|j]; [exact A|]. cbn [pending set_got set_pipe k_pipes] in *.
        rewrite upd_other; [exact A|]. rewrite (sh_n k Sh) in Hi. lia.
      * intros Hc. rewrite upd_same, <- (D Hc), Epi, <- app_assoc. reflexivity.
      * exists (rest ++ w (k_last k)). rewrite <- (D Ec), Epi, <- app_assoc. reflexivity.
      * discriminate.
      * unfold weight. cbn [set_got set_pipe k_n k_last k_procs k_pipes k_got k_eof k_closed].
        rewrite upd_same, Epi, Ee. cbn. lia.
  - (* KProc *)
    unfold kstep_proc in H. destruct (Nat.ltb_spec i (k_n k)) as [L|L]; [|discriminate].
    destruct (is_running (k_procs k i)) eqn:Er; [|discriminate]. cbn [andb] in H.
    pose proof (so_run _ _ _ _ _ _ So i L Er) as Ht. pose proof (done_running k i Er) as Es.
    pose proof (sh_in k Sh i L) as Ein.
    destruct (kp_prog (k_procs k i)) as [ok'|b x|b x|f] eqn:Epr.
    + injection H as <-. split; [shp|]. inversion Ht; subst.
      apply (Done (upd m i 0) (upd w i [])).
      apply (sound_stops _ _ k _ m w s i (with_status (k_procs k i) (Exited (s i))) Sh So L Er);
        try reflexivity; auto.
      intros -> _. split; [auto|]. cbn. rewrite (so_ok _ _ _ _ _ _ So). reflexivity.
    + destruct (has_reader k i) eqn:Erd.
      * destruct (length (k_pipes k i) <? k_cap k) eqn:Ecap; [|discriminate]. injection H as <-.
        split; [shp|]. inversion Ht as [|n b' k0 inp outp ok' Ht' X1 X2| | |]; subst.
        match goal with X : _ :: outp = w i |- _ => rename X into X3 end.
        apply (Done (upd m i n) (upd w i outp)).
        apply (sound_goes_on _ _ k _ m w s i n outp (with_prog (k_procs k i) x) Sh So L); auto.
        -- cbn. repeat split; reflexivity.
        -- intros j Hj N. cbn [set_proc set_pipe pending k_stdin k_pipes]. destruct j as [|j]; [reflexivity|].
           cbn [pending set_proc set_pipe k_pipes]. destruct (Nat.eq_dec j i) as [->|N']; [|rewrite !upd_other by exact N'; reflexivity].
           rewrite !upd_same, <- X3, <- app_assoc. reflexivity.
        -- cbn [set_proc set_pipe k_pipes]. destruct (Nat.eq_dec (k_last k) i) as [->|N'].
           ++ rewrite !upd_same, <- X3, <- app_assoc. reflexivity.
           ++ rewrite !upd_other by exact N'. reflexivity.
        -- cbn [with_prog kp_prog]. replace (pending _ _ i) with (pending k w i); [exact Ht'|].
           cbn [set_proc set_pipe pending k_stdin k_pipes]. destruct i as [|j]; [reflexivity|].
           cbn [pending set_proc set_pipe k_pipes]. rewrite !upd_other by lia. reflexivity.
      * injection H as <-. split; [shp|].
        apply (Done (upd m i 0) (upd w i [])).
        apply (sound_stops _ _ k _ m w s i (with_status (k_procs k i) Died) Sh So L Er);
          try reflexivity; auto.
        -- right. destruct (Nat.eq_dec (S i) (k_n k)) as [E|N]; [left; exact E|right].
           rewrite <- (reader_next k i Sh) by lia. exact Erd.
        -- intros E Hc. cbn in Hc. subst i. rewrite (reader_last k Sh), Hc in Erd. discriminate.
    + rewrite (sh_err k Sh i L) in H. injection H as <-. split; [shp|].
      inversion Ht as [| |n b' k0 inp outp ok' Ht' X1 X2 X3| |]; subst.
      apply (Done (upd m i n) (upd w i (w i))).
      assert (Ew : forall j, upd w i (w i) j = w j).
      { intros j. unfold upd. destruct (Nat.eqb_spec j i) as [->|]; reflexivity. }
      apply (sound_goes_on _ _ k _ m w s i n (w i) (with_errout (k_procs k i) b x) Sh So L); auto.
      * cbn. repeat split; reflexivity.
      * intros j Hj N. cbn [set_proc pending k_stdin k_pipes]. destruct j as [|j]; [reflexivity|].
        cbn [pending set_proc set_pipe k_pipes]. rewrite Ew. reflexivity.
      * cbn [set_proc k_pipes]. rewrite Ew. reflexivity.
      * cbn [with_errout kp_prog]. replace (pending _ _ i) with (pending k w i); [exact Ht'|].
        cbn [set_proc pending k_stdin k_pipes]. destruct i as [|j]; [reflexivity|]. cbn [pending set_proc set_pipe k_pipes].
        rewrite Ew. reflexivity.
    + assert (Ew : forall j, upd w i (w i) j = w j).
      { intros j. unfold upd. destruct (Nat.eqb_spec j i) as [->|]; reflexivity. }
      rewrite Ein in H. destruct i as [|i0]; cbn [in_of] in H.
      * cbn [pending] in Ht. destruct (k_stdin k) as [|b rest] eqn:Estd.
        -- destruct (k_stdin_open k) eqn:Eop; [discriminate|]. injection H as <-.
           split; [shp|].
           inversion Ht as [| | | |n f' outp ok' He Ht' X1 X2 X3]; subst.
           apply (Done (upd m 0 n) (upd w 0 (w 0))).
           apply (sound_goes_on _ _ k _ m w s 0 n (w 0) (with_prog (k_procs k 0) (f None)) Sh So L); auto.
           ++ cbn. repeat split; reflexivity.
           ++ intros j Hj N. cbn [set_proc pending k_stdin k_pipes]. destruct j as [|j]; [reflexivity|].
              cbn [pending set_proc set_pipe k_pipes]. rewrite Ew. reflexivity.
           ++ cbn [set_proc k_pipes]. rewrite Ew. reflexivity.
           ++ cbn [with_prog kp_prog pending set_proc k_stdin]. rewrite Estd. exact Ht'.
        -- injection H as <-. split; [shp|].
           inversion Ht as [| | |n f' b' inp outp ok' Ht' X1 X2 X3|]; subst.
           apply (Done (upd m 0 n) (upd w 0 (w 0))).
           apply (sound_goes_on _ _ k _ m w s 0 n (w 0) (with_prog (k_procs k 0) (f (Some b))) Sh So L); auto.
           ++ cbn. repeat split; reflexivity.
           ++ intros j Hj N. destruct j as [|j]; [congruence|].
              cbn [set_proc set_stdin pending k_stdin k_pipes]. rewrite Ew. reflexivity.
           ++ cbn [set_proc set_stdin k_pipes]. rewrite Ew. reflexivity.
      * cbn [pending] in Ht. destruct (k_pipes k i0) as [|b rest] eqn:Epi.
        -- destruct (is_running (k_procs k i0)) eqn:Er0; [discriminate|]. injection H as <-.
           split; [shp|].
           destruct (so_done _ _ _ _ _ _ So i0 ltac:(lia) Er0) as [_ W0]. rewrite W0 in Ht. cbn [app] in Ht.
           inversion Ht as [| | | |n f' outp ok' He Ht' X1 X2 X3]; subst.
           apply (Done (upd m (S i0) n) (upd w (S i0) (w (S i0)))).
           apply (sound_goes_on _ _ k _ m w s (S i0) n (w (S i0)) (with_prog (k_procs k (S i0)) (f None)) Sh So L); auto.
           ++ cbn. repeat split; reflexivity.
           ++ intros j Hj N. cbn [set_proc pending k_stdin k_pipes]. destruct j as [|j]; [reflexivity|].
              cbn [pending set_proc set_pipe k_pipes]. rewrite Ew. reflexivity.
           ++ cbn [set_proc k_pipes]. rewrite Ew. reflexivity.
           ++ cbn [with_prog kp_prog pending set_proc k_pipes]. rewrite Ew, Epi, W0. exact Ht'.
        -- injection H as <-. split; [shp|]. cbn [app] in Ht.
           inversion Ht as [| | |n f' b' inp outp ok' Ht' X1 X2 X3|]; subst.
           apply (Done (upd m (S i0) n) (upd w (S i0) (w (S i0)))).
           apply (sound_goes_on _ _ k _ m w s (S i0) n (w (S i0)) (with_prog (k_procs k (S i0)) (f (Some b))) Sh So L); auto.
           ++ cbn. repeat split; reflexivity.
           ++ intros j Hj N. destruct j as [|j]; [reflexivity|].
              cbn [set_proc set_pipe pending k_stdin k_pipes]. rewrite Ew, upd_other by lia. reflexivity.
           ++ cbn [set_proc set_pipe k_pipes]. rewrite Ew, upd_other; [reflexivity|].
              rewrite (sh_n k Sh) in L. lia.
           ++ cbn [with_prog kp_prog pending set_proc set_pipe k_pipes]. rewrite Ew, upd_same. exact Ht'.
  - (* KKill *)
    injection H as <-. destruct (is_running (k_procs k (k_last k))) eqn:Er.
    + split; [shp|]. apply (Done (upd m (k_last k) 0) (upd w (k_last k) [])).
      apply (sound_stops _ _ k _ m w s (k_last k) (with_status (k_procs k (k_last k)) Died) Sh So);
        try reflexivity; auto.
      * rewrite (sh_n k Sh). lia.
      * discriminate.
      * right. left. rewrite (sh_n k Sh). reflexivity.
      * discriminate.
    + split; [shp|]. exists m, w.
      assert (Eu : forall j, upd (k_procs k) (k_last k) (k_procs k (k_last k)) j = k_procs k j).
      { intros j. unfold upd. destruct (Nat.eqb_spec j (k_last k)) as [->|]; reflexivity. }
      split; [|split; [congruence|unfold weight; cbn; lia]].
      destruct So as [A B C C' D E F].
      constructor; cbn [set_closed set_proc k_n k_last k_procs k_pipes k_got k_eof k_closed];
        try discriminate; auto; intros; rewrite Eu in *; auto.
      exact (A i H H0).
Qed.

Lemma run_sound out ok ls : forall k m w s k',
  shape k -> sound out ok k m w s -> krun k ls = Some k' ->
  shape k' /\ exists m' w', sound out ok k' m' w' s /\ weight k' m' w' + work ls <= weight k m w.
Proof.
  induction ls as [|l ls IH]; intros k m w s k' Sh So H; cbn [krun] in H.
  - injection H as <-. split; [exact Sh|]. exists m, w. split; [exact So|cbn; lia].
  - destruct (kstep k l) as [k1|] eqn:E; [|discriminate].
    destruct (step_sound _ _ _ _ _ _ _ _ Sh So E) as (Sh1 & m1 & w1 & So1 & W1 & W2).
    destruct (IH _ _ _ _ _ Sh1 So1 H) as (Sh2 & m2 & w2 & So2 & W3).
    split; [exact Sh2|]. exists m2, w2. split; [exact So2|].
    unfold work in *. cbn [filter]. destruct l; cbn [length]; try lia;
      specialize (W1 ltac:(discriminate)); lia.
Qed.

(** ** No deadlock *)

Lemma exists_step k i : kstep_proc k i <> None -> can_move k.
Proof. intros H. exists (KProc i). split; [discriminate|exact H]. Qed.

Lemma moves_down out ok k m w s : shape k -> sound out ok k m w s -> forall i, i < k_n k ->
  is_running (k_procs k i) = true ->
  length (k_pipes k i) < k_cap k \/ has_reader k i = false -> can_move k.
Proof.
  intros Sh So. induction i as [|i IH]; intros L Er Hroom.
  all: pose proof (so_run _ _ _ _ _ _ So _ L Er) as Ht; pose proof (sh_in k Sh _ L) as Ein;
    pose proof (sh_err k Sh _ L) as Eerr;
    match type of L with ?x < _ => assert (Step : forall X, kstep_proc k x = X -> X <> None -> can_move k)
      by (intros X <- ; apply exists_step) end;
    unfold kstep_proc in Step;
    match type of L with ?x < _ => destruct (Nat.ltb_spec x (k_n k)) as [_|Y]; [|lia] end;
    rewrite Er in Step; cbn [andb] in Step;
    match type of Er with is_running ?p = _ =>
      destruct (kp_prog p) as [ok'|b x|b x|f] eqn:Epr end.
  all: try (eapply Step; [reflexivity|discriminate]).
  all: try (rewrite Eerr in Step; eapply Step; [reflexivity|discriminate]).
  all: try (match type of L with ?x < _ => destruct (has_reader k x) eqn:Erd end; [|eapply Step; [reflexivity|discriminate]];
            destruct Hroom as [Hr|Hr]; [|discriminate Hr]; apply Nat.ltb_lt in Hr; rewrite Hr in Step;
            eapply Step; [reflexivity|discriminate]).
  - rewrite Ein in Step. cbn [in_of] in Step. cbn [pending ends_of] in Ht.
    destruct (k_stdin k) as [|b rest]; [|eapply Step; [reflexivity|discriminate]].
    destruct (k_stdin_open k); [|eapply Step; [reflexivity|discriminate]].
    inversion Ht. discriminate.
  - rewrite Ein in Step. cbn [in_of] in Step.
    destruct (k_pipes k i) as [|b rest] eqn:Epi; [|eapply Step; [reflexivity|discriminate]].
    destruct (is_running (k_procs k i)) eqn:Er0; [|eapply Step; [reflexivity|discriminate]].
    apply IH; [lia|reflexivity|left; apply (sh_cap k Sh)].
Qed.

Lemma moves_up out ok k m w s : shape k -> sound out ok k m w s -> forall d i, i + d = k_last k ->
  is_running (k_procs k i) = true -> can_move k.
Proof.
  intros Sh So. pose proof (sh_n k Sh) as En. pose proof (sh_cap k Sh) as Ecap.
  induction d as [|d IH]; intros i Ei Er.
  all: destruct (Nat.lt_ge_cases (length (k_pipes k i)) (k_cap k)) as [Hr|Hr];
    [apply (moves_down _ _ _ _ _ _ Sh So i); [lia|exact Er|left; exact Hr]|].
  all: destruct (has_reader k i) eqn:Erd;
    [|apply (moves_down _ _ _ _ _ _ Sh So i); [lia|exact Er|right; exact Erd]].
  - assert (E : i = k_last k) by lia. subst i. rewrite (reader_last k Sh) in Erd.
    exists KRead. split; [discriminate|]. cbn [kstep].
    destruct (k_eof k) eqn:Ee.
    { destruct (so_eof _ _ _ _ _ _ So Ee) as [X _]. congruence. }
    destruct (k_closed k); [discriminate Erd|]. cbn [orb].
    destruct (k_pipes k (k_last k)); [cbn in Hr; lia|discriminate].
  - rewrite (reader_next k i Sh) in Erd by lia. apply (IH (S i)); [lia|exact Erd].
Qed.

Lemma can_move_or_done out ok k m w s : shape k -> sound out ok k m w s ->
  can_move k \/ (all_ended k /\ (k_closed k = false -> k_eof k = true)).
Proof.
  intros Sh So. pose proof (sh_n k Sh) as En.
  destruct (existsb (fun i => is_running (k_procs k i)) (seq 0 (k_n k))) eqn:Ex.
  - apply existsb_exists in Ex. destruct Ex as (i & Hi & Er). apply in_seq in Hi. left.
    apply (moves_up _ _ _ _ _ _ Sh So (k_last k - i) i); [lia|exact Er].
  - assert (Ha : all_ended k).
    { intros i Hi. apply not_true_is_false. intros Er.
      enough (existsb (fun i => is_running (k_procs k i)) (seq 0 (k_n k)) = true) by congruence.
      apply existsb_exists. exists i. split; [apply in_seq; lia|exact Er]. }
    destruct (k_closed k) eqn:Ec; [right; split; [exact Ha|discriminate]|].
    destruct (k_eof k) eqn:Ee; [right; auto|]. left. exists KRead. split; [discriminate|].
    cbn [kstep]. rewrite Ee, Ec. cbn [orb].
    destruct (k_pipes k (k_last k)); [|discriminate]. rewrite Ha by lia. discriminate.
Qed.

(** ** The beginning *)

Definition proc_of (sem : command -> prog) (own : command -> errdest) (ci : command * stdin_from) : kproc :=
  mkKp (sem (fst ci)) (snd ci) (if cmd_own_stderr (fst ci) then own (fst ci) else ErrFile) [] Running.

Lemma procs_app sem own a b :
  started_procs sem own (a ++ b) = started_procs sem own a ++ started_procs sem own b.
Proof. unfold started_procs. apply flat_map_app. Qed.

Lemma start_one_procs sem own o c prev kill files log r log' :
  started_procs sem own log = map (proc_of sem own) (started log) ->
  start_one o c prev kill files log = (r, log') ->
  started_procs sem own log' = map (proc_of sem own) (started log').
Proof.
  intros H. unfold start_one. destruct (cmd_own_stderr c) eqn:Eo.
  - destruct (os_start_ok o (starts log)); intros E; injection E as <- <-;
      rewrite procs_app, started_app, map_app, H; cbn; unfold proc_of; cbn; rewrite Eo; reflexivity.
  - destruct (os_temp_ok o (temps log)).
    + destruct (os_start_ok o _); intros E; injection E as <- <-;
        rewrite !procs_app, !started_app, !map_app, H; cbn; unfold proc_of; cbn; rewrite Eo; reflexivity.
    + intros E; injection E as <- <-. rewrite procs_app, started_app, map_app, H. reflexivity.
Qed.

Lemma spawn_loop_procs sem own o cs last : forall prev files log r log',
  started_procs sem own log = map (proc_of sem own) (started log) ->
  spawn_loop o cs last prev files log = (r, log') ->
  started_procs sem own log' = map (proc_of sem own) (started log').
Proof.
  induction cs as [|c cs IH]; intros prev files log r log' H; cbn [spawn_loop].
  - unfold spawned_new. destruct (start_one o last prev true files log) as [x l1] eqn:E1.
    apply (start_one_procs sem own) in E1; [|exact H].
    destruct x as [[child f]|k|]; intros E; injection E as <- <-; exact E1.
  - destruct (start_one o c prev false files log) as [x l1] eqn:E1.
    apply (start_one_procs sem own) in E1; [|exact H].
    destruct x as [[child f]|k|]; [intros E; eapply IH; eassumption| |];
      intros E; injection E as <- <-; exact E1.
Qed.

Lemma builder_procs sem own o b r log :
  builder_spawn o b = (r, log) -> started_procs sem own log = map (proc_of sem own) (started log).
Proof.
  unfold builder_spawn. destruct (rev b) as [|l f].
  - intros H; injection H as <- <-. reflexivity.
  - apply spawn_loop_procs. reflexivity.
Qed.

Lemma piped_length cs : forall n i, length (piped n i cs) = length cs.
Proof. induction cs as [|c cs IH]; intros n i; cbn; [reflexivity|]. rewrite IH. reflexivity. Qed.

Lemma piped_nth cs : forall n inp i d, i < length cs ->
  nth i (piped n inp cs) d = (nth i cs (fst d), match i with 0 => inp | S j => StdinPipe (n + j) end).
Proof.
  induction cs as [|c cs IH]; intros n inp i d L; [cbn in L; lia|]. destruct i as [|i]; [reflexivity|].
  cbn [piped nth]. cbn in L. rewrite IH by lia. destruct i as [|i]; f_equal; f_equal; lia.
Qed.

(** The outputs along a chain. *)
Lemma chain_stages sem ends cs input out ok : pipes_through sem ends cs input out ok ->
  forall d, exists (m : nat -> nat) (w : nat -> list byte) (s : nat -> bool),
    (forall i, i < length cs ->
       trn (match i with 0 => ends | S _ => true end) (m i) (sem (nth i cs d))
           (match i with 0 => input | S j => w j end) (w i) (s i)) /\
    w (length cs - 1) = out /\ s (length cs - 1) = ok.
Proof.
  induction 1 as [ends c x y ok H|ends c cs x y ok z ok' H Hpt IH]; intros d;
    destruct (transforms_trn _ _ _ _ _ H) as [n Hn].
  - exists (fun _ => n), (fun _ => y), (fun _ => ok). repeat split.
    intros i Hi. cbn in Hi. replace i with 0 by lia. exact Hn.
  - destruct (IH d) as (m & w & s & A & B & C).
    destruct cs as [|c2 cs].
    { inversion Hpt. }
    exists (fun i => match i with 0 => n | S j => m j end),
           (fun i => match i with 0 => y | S j => w j end),
           (fun i => match i with 0 => ok | S j => s j end).
    split; [|cbn [length] in *; rewrite Nat.sub_succ, Nat.sub_0_r in *; auto].
    intros [|i] Hi; [exact Hn|]. cbn in Hi. specialize (A i ltac:(cbn; lia)).
    destruct i as [|i]; exact A.
Qed.

Lemma boot_sound sem own cap input open o c cs sp log out ok :
  builder_spawn o (fold_left builder_pipe cs (builder_new c)) = (Ok sp, log) ->
  0 < cap -> (forall x, In x (c :: cs) -> cmd_own_stderr x = true -> own x = ErrFile) ->
  pipes_through sem (negb open) (c :: cs) input out ok ->
  let k := boot sem own cap input open sp log in
  shape k /\ exists m w s, sound out ok k m w s.
Proof.
  intros Hb Hcap Hown Hpt k.
  pose proof (builder_procs sem own _ _ _ _ Hb) as Hp.
  apply builder_spawn_spec in Hb. destruct Hb as (Hs & Hc & _).
  rewrite Hs in Hp. unfold pipeline in Hp.
  assert (Hn : k_n k = S (length cs)).
  { cbn. rewrite Hp, map_length, piped_length. reflexivity. }
  assert (Hl : k_last k = length cs) by exact Hc.
  assert (Hproc : forall i, i < S (length cs) ->
    k_procs k i = proc_of sem own (nth i (c :: cs) c, in_of i)).
  { intros i Hi. cbn [k boot k_procs]. rewrite Hp.
    rewrite (nth_indep _ _ (proc_of sem own (c, StdinInherited)))
      by (rewrite map_length, piped_length; exact Hi).
    rewrite map_nth, piped_nth by exact Hi. cbn [fst].
    destruct i as [|i]; reflexivity. }
  split.
  - constructor; [rewrite Hn, Hl; reflexivity|exact Hcap| |];
      intros i Hi; rewrite Hn in Hi; rewrite Hproc by exact Hi; [reflexivity|].
    cbn [proc_of kp_err fst]. destruct (cmd_own_stderr (nth i (c :: cs) c)) eqn:E; [|reflexivity].
    apply Hown; [|exact E]. apply nth_In. exact Hi.
  - destruct (chain_stages _ _ _ _ _ _ Hpt c) as (m & w & s & A & B & C).
    cbn [length] in B, C. rewrite Nat.sub_succ, Nat.sub_0_r in B, C.
    exists m, w, s. constructor; rewrite ?Hn, ?Hl.
    + intros i Hi _. rewrite Hproc by exact Hi. specialize (A i Hi). cbn [proc_of kp_prog fst].
      destruct i as [|i]; exact A.
    + intros i Hi. rewrite Hproc by exact Hi. discriminate.
    + exact C.
    + intros _. rewrite Hproc by lia. discriminate.
    + intros _. cbn. exact B.
    + exists out. reflexivity.
    + discriminate.
Qed.

(** * Sequences of storage operations. *)

From Coq Require Import List Arith Lia ZArith Bool.
From Verif Require Import Base ListFacts Storage StorageFacts System Spec StepTac StoreSpec
  BoundedFacts InvTrace.
Import ListNotations.

Lemma ops_run_app : forall os1 os2 s evs, ops_run (os1 ++ os2) s evs =
  let '(e1, s1) := ops_run os1 s evs in ops_run os2 s1 e1.
Proof.
  induction os1 as [|o os1 IH]; intros os2 s evs; cbn; auto.
  destruct (sop_run o s) as [e s']. apply IH.
Qed.

Lemma ops_run_grow : forall os s evs evs' s', ops_run os s evs = (evs', s') ->
  exists new, evs' = new ++ evs.
Proof.
  induction os as [|o os IH]; intros s evs evs' s' H; cbn in H.
  - injection H as <- <-. exists []. reflexivity.
  - destruct (sop_run o s) as [e s1]. apply IH in H as [new ->]. exists (new ++ [e]).
    rewrite <- app_assoc. reflexivity.
Qed.

(** An invariant of results and storage, and a property of each result. *)
Lemma ops_inv : forall (I : list sev -> store -> Prop) (A : list sev -> sev -> Prop)
    (P : list sev -> sev -> Prop) (allowed : sop -> Prop) os,
  (forall o s evs e s', allowed o -> I evs s -> A evs e -> sop_run o s = (e, s') ->
     P evs e /\ I (e :: evs) s') ->
  (forall o, In o os -> allowed o) ->
  forall s evs evs' s', I evs s -> every_result P evs -> ops_run os s evs = (evs', s') ->
  every_result A evs' -> every_result P evs' /\ I evs' s'.
Proof.
  intros I A P allowed os Hstep Hall. induction os as [|o os IH];
    intros s evs evs' s' HI HP H HA; cbn in H.
  - injection H as <- <-. auto.
  - destruct (sop_run o s) as [e s1] eqn:E.
    destruct (ops_run_grow _ _ _ _ _ H) as [new Hn].
    destruct (Hstep o s evs e s1) as [P1 I1]; auto.
    { apply Hall; cbn; auto. }
    { apply (HA new e evs). auto. }
    apply (IH (fun x Hx => Hall x (or_intror Hx)) s1 (e :: evs) evs' s'); auto.
    intros newer e0 older Eq. destruct newer as [|x newer]; cbn in Eq.
    + injection Eq as <- <-. auto.
    + injection Eq as <- Eq. apply (HP newer e0 older); auto.
Qed.

(** ** Bounded storage *)

Lemma bnd_foot : forall o b e s', sop_run o (SBnd b) = (e, s') ->
  u_inv [] [] (b_inner b) -> length (u_data (b_inner b)) <= b_size b ->
  exists b', s' = SBnd b' /\ u_inv [] [] (b_inner b') /\ b_size b' = b_size b /\
    length (u_data (b_inner b')) <= b_size b.
Proof.
  intros o b e s' H Hu Hl.
  destruct o; cbn in H.
  - destruct (bnd_read n b) as [r b'] eqn:E. injection H as <- <-. exists b'. split; auto.
    split; [eapply bnd_read_rpos; eauto|].
    unfold bnd_read in E.
    repeat match type of E with (if ?x then _ else _) = _ => destruct x; [injection E as <- <-; auto|] end.
    destruct (bnd_read_mapped _ b) as [rr u'] eqn:Em.
    apply bnd_read_mapped_wf in Em as (_ & D & _); auto.
    destruct rr; injection E as <- <-; cbn; rewrite D; auto.
  - destruct (bnd_rseek p b) as [r b'] eqn:E. injection H as <- <-. exists b'. split; auto.
    unfold bnd_rseek in E. destruct (counter_sub _ _ _); injection E as <- <-; cbn; auto.
  - injection H as <- <-. exists b. auto.
  - destruct (bnd_write bs b) as [k b'] eqn:E. injection H as <- <-. exists b'. split; auto.
    pose proof (bnd_write_spec _ _ _ _ E) as (_ & _ & _ & Es & _ & _ & _ & Hd).
    split; [|auto]. destruct (st_write_rpos bs (SBnd b) k (SBnd b')) as [W _]; auto.
    cbn. rewrite E. reflexivity.
  - destruct (bnd_wseek p b) as [r b'] eqn:E. injection H as <- <-. exists b'. split; auto.
    unfold bnd_wseek in E. destruct (counter_sub _ _ _); injection E as <- <-; cbn; auto.
Qed.

Lemma bounded_start : forall ck p n clen st, into_rw (PBounded ck p n) clen = Some st ->
  exists b, st = SBnd b /\ ring [] b /\ b_rpos b = 0 /\ b_read b = 0%Z /\ b_written b = 0%Z /\
    b_size b = ring_size clen n /\ b_checks b = ck /\ length (u_data (b_inner b)) <= b_size b /\
    u_inv [] [] (b_inner b).
Proof.
  intros ck p n clen st H. pose proof (into_rw_init _ _ _ H) as (W & _).
  cbn in H. destruct (bnd_new_ring _ _ _ _ _ H) as (b & -> & R & ?). exists b.
  intuition.
Qed.

Lemma bounded_footprint : forall ck p n clen st os evs st',
  into_rw (PBounded ck p n) clen = Some st -> ops_run os st [] = (evs, st') ->
  footprint st' <= ring_size clen n.
Proof.
  intros ck p n clen st os evs st' Hi H.
  destruct (bounded_start _ _ _ _ _ Hi) as (b & -> & _ & _ & _ & _ & Hs & _ & Hl & Hu).
  rewrite <- Hs. clear Hi Hs.
  assert (G : forall os b evs, u_inv [] [] (b_inner b) -> length (u_data (b_inner b)) <= b_size b ->
    forall evs' st', ops_run os (SBnd b) evs = (evs', st') -> footprint st' <= b_size b).
  { clear. induction os as [|o os IH]; intros b evs Hu Hl evs' st' H; cbn in H.
    - injection H as <- <-. exact Hl.
    - destruct (sop_run o (SBnd b)) as [e s1] eqn:E.
      destruct (bnd_foot _ _ _ _ E Hu Hl) as (b1 & -> & Hu1 & Hs1 & Hl1).
      rewrite <- Hs1. eapply IH; eauto. rewrite Hs1. auto. }
  eapply G; eauto.
Qed.

(** The invariant of an append-only history. *)
Definition appended (size : nat) (evs : list sev) (s : store) : Prop :=
  exists b, s = SBnd b /\ ring (history evs) b /\ b_size b = size /\
    length (u_data (b_inner b)) <= b_size b /\ b_rpos b = rcursor evs /\
    b_written b = Z.of_nat (length (history evs)).

Definition appends (o : sop) : Prop := match o with OpWSeek _ => False | _ => True end.

Definition bounded_result (size : nat) (older : list sev) (e : sev) : Prop :=
  read_is_history older e /\ write_fits size older e.

Lemma appended_step : forall size o s evs e s', appends o -> appended size evs s ->
  True -> sop_run o s = (e, s') -> bounded_result size evs e /\ appended size (e :: evs) s'.
Proof.
  intros size o s evs e s' Ho (b & -> & R & Hs & Hd & Hr & Hw) _ H. subst size.
  destruct o; cbn in H; try contradiction.
  - destruct (bnd_read n b) as [r b'] eqn:E. injection H as <- <-.
    destruct (bnd_read_ring _ _ _ _ _ R Hd E) as (R' & D' & S' & W' & _ & C).
    destruct C as [(-> & -> & _)|[(-> & -> & _)|(_ & _ & _ & Hk & -> & Hp & _)]].
    + split; [split; exact I|]. exists b. cbn. rewrite Hs || idtac. auto 10.
    + split; [split; cbn; auto; split; [lia|reflexivity]|]. exists b. cbn. rewrite Nat.add_0_r. auto 10.
    + rewrite Hr in *.
      assert (L : length (slice (history evs) (rcursor evs) (Nat.min (length (history evs) - rcursor evs) n))
        = Nat.min (length (history evs) - rcursor evs) n) by (rewrite length_slice; lia).
      split; [split; [|exact I]|].
      * cbn -[slice]. rewrite L. split; [lia|reflexivity].
      * exists b'. cbn -[slice]. rewrite L. repeat (split; auto); try congruence; lia.
  - destruct (bnd_rseek p b) as [r b'] eqn:E. injection H as <- <-.
    destruct (bnd_rseek_ring _ _ _ _ _ R E) as (R' & S' & W' & D' & _ & C).
    split; [split; exact I|]. exists b'.
    destruct C as [(-> & ->)|(-> & Hp)]; cbn; rewrite ?D'; repeat (split; auto); try congruence.
  - injection H as <- <-. split; [split; exact I|]. exists b. cbn. auto 10.
  - destruct (bnd_write bs b) as [k b'] eqn:E. injection H as <- <-.
    pose proof (bnd_write_ring _ _ _ _ _ R E) as R'.
    pose proof (bnd_write_spec _ _ _ _ E) as (Ek & _ & Er & Es & _ & Ew & _ & Hd').
    rewrite (rg_wpos _ _ R), Hr in Ek.
    split; [split; [exact I|exact Ek]|].
    exists b'. cbn. rewrite app_length, firstn_length. repeat (split; auto); try congruence; try lia.
Qed.

Lemma every_nil : forall P, every_result P [].
Proof. intros P newer e older H. destruct newer; discriminate. Qed.

Lemma every_true : forall evs, every_result (fun _ _ => True) evs.
Proof. intros evs newer e older _. exact I. Qed.

Lemma bounded_appended : forall ck p n clen st, into_rw (PBounded ck p n) clen = Some st ->
  appended (ring_size clen n) [] st.
Proof.
  intros ck p n clen st Hi.
  destruct (bounded_start _ _ _ _ _ Hi) as (b & -> & R & Hr & _ & Hw & Hs & _ & Hl & _).
  exists b. cbn. auto 10.
Qed.

Lemma bounded_append : forall ck p n clen st os evs st', append_only os ->
  into_rw (PBounded ck p n) clen = Some st -> ops_run os st [] = (evs, st') ->
  every_result (bounded_result (ring_size clen n)) evs /\ appended (ring_size clen n) evs st'.
Proof.
  intros ck p n clen st os evs st' Ha Hi H.
  apply (ops_inv _ (fun _ _ => True) _ appends os (appended_step (ring_size clen n)) Ha st [] evs st');
    auto using every_nil, every_true.
  eapply bounded_appended; eauto.
Qed.

Lemma every_impl : forall (P Q : list sev -> sev -> Prop) evs, (forall older e, P older e -> Q older e) ->
  every_result P evs -> every_result Q evs.
Proof. intros P Q evs H HP newer e older E. apply H. eapply HP; eauto. Qed.

(** The counters, as long as no seek goes back too far. *)
Definition counted (size : nat) (evs : list sev) (s : store) : Prop :=
  appended size evs s /\ credit evs <= rcursor evs /\
  match s with SBnd b => b_read b = Z.of_nat (credit evs) | SPlain _ => False end.

Lemma counted_step : forall size o s evs e s', appends o -> counted size evs s ->
  seeks_within_credit evs e -> sop_run o s = (e, s') ->
  window_served size evs e /\ counted size (e :: evs) s'.
Proof.
  intros size o s evs e s' Ho (A & Hc & Hb) Hk H.
  destruct (appended_step size o s evs e s' Ho A I H) as [_ A'].
  destruct A as (b & -> & R & Hs & Hd & Hr & Hw). unfold counted.
  cut (window_served size evs e /\ credit (e :: evs) <= rcursor (e :: evs) /\
       match s' with SBnd b0 => b_read b0 = Z.of_nat (credit (e :: evs)) | SPlain _ => False end); [tauto|].
  destruct o; cbn in H; try contradiction.
  - destruct (bnd_read n b) as [r b'] eqn:E. injection H as <- <-. cbn [credit rcursor window_served].
    destruct (bnd_read_ring _ _ _ _ _ R Hd E) as (R' & D' & S' & W' & _ & C). rewrite Hr in *.
    destruct C as [(-> & -> & C)|[(-> & -> & C1 & C2 & C3)|(C1 & C2 & C3 & Hk0 & -> & Hp & Hq)]].
    + split; [|auto]. intros; lia.
    + cbn. rewrite !Nat.add_0_r. split; [|auto]. intros. exists []. split; auto. cbn. lia.
    + rewrite length_slice in *. split; [|split; [lia|rewrite Hq, Hb; lia]].
      intros _ _. eexists. split; [reflexivity|]. rewrite length_slice. lia.
  - destruct (bnd_rseek p b) as [r b'] eqn:E. injection H as <- <-. cbn in Hk.
    unfold bnd_rseek, counter_sub in E. rewrite Hr, Hb in E.
    destruct (Z.ltb_spec (Z.of_nat (credit evs)) (Z.of_nat (rcursor evs - p))); [lia|].
    injection E as <- <-. cbn. split; auto. split; lia.
  - injection H as <- <-. cbn. auto.
  - destruct (bnd_write bs b) as [k b'] eqn:E. injection H as <- <-. cbn.
    pose proof (bnd_write_spec _ _ _ _ E) as (_ & _ & _ & _ & Er & _). rewrite Er. auto.
Qed.

Lemma bounded_window : forall ck p n clen st os evs st', append_only os ->
  into_rw (PBounded ck p n) clen = Some st -> ops_run os st [] = (evs, st') ->
  every_result seeks_within_credit evs -> every_result (window_served (ring_size clen n)) evs.
Proof.
  intros ck p n clen st os evs st' Ha Hi H Hk.
  apply (ops_inv _ seeks_within_credit _ appends os (counted_step (ring_size clen n)) Ha st [] evs st');
    auto using every_nil.
  split; [eapply bounded_appended; eauto|].
  destruct (bounded_start _ _ _ _ _ Hi) as (b & -> & _ & _ & Hb & _). cbn. auto.
Qed.

(** Backward seeks only: everything before the position has been read. *)
Lemma counted_back_step : forall size o s evs e s', appends o ->
  counted size evs s /\ credit evs = rcursor evs ->
  seeks_back evs e -> sop_run o s = (e, s') ->
  window_served size evs e /\ (counted size (e :: evs) s' /\ credit (e :: evs) = rcursor (e :: evs)).
Proof.
  intros size o s evs e s' Ho [C Hc] Hb H.
  destruct (counted_step size o s evs e s' Ho C) as [A B]; auto.
  { destruct e; cbn in *; auto. lia. }
  split; auto. split; auto. destruct e; cbn in *; auto.
  - destruct r; lia.
  - subst r. lia.
Qed.

Lemma bounded_window_back : forall ck p n clen st os evs st', append_only os ->
  into_rw (PBounded ck p n) clen = Some st -> ops_run os st [] = (evs, st') ->
  every_result seeks_back evs -> every_result (window_served (ring_size clen n)) evs.
Proof.
  intros ck p n clen st os evs st' Ha Hi H Hk.
  apply (ops_inv _ seeks_back _ appends os (counted_back_step (ring_size clen n)) Ha st [] evs st');
    auto using every_nil.
  split; [|reflexivity]. split; [eapply bounded_appended; eauto|].
  destruct (bounded_start _ _ _ _ _ Hi) as (b & -> & _ & _ & Hb & _). cbn. auto.
Qed.

(** A write leaves the unread window in place. *)
Lemma write_keeps_window : forall bs b k b' x v, bnd_write bs b = (k, b') ->
  b_rpos b <= x < b_wpos b -> b_wpos b <= x + b_size b -> b_wpos b <= b_rpos b + b_size b ->
  nth_error (u_data (b_inner b)) (x mod b_size b) = Some v ->
  nth_error (u_data (b_inner b')) (x mod b_size b) = Some v.
Proof.
  intros bs b k b' x v E Hx Hw Hr Hv.
  unfold bnd_write in E.
  destruct (Nat.eqb_spec (Nat.min (b_size b - (b_wpos b - b_rpos b)) (length bs)) 0) as [E0|E0];
    injection E as <- <-; auto.
  cbn [b_inner]. rewrite <- Hv. rewrite (slot_behind (b_wpos b) (b_size b) x) by lia.
  apply wmapped_slot; rewrite ?firstn_length; try lia.
  rewrite <- slot_behind by lia. apply nth_error_Some. congruence.
Qed.

(** ** Temporary files *)

Definition is_file (evs : list sev) (s : store) : Prop :=
  exists f, s = SPlain (UFile f) /\ f_data f = fst (file_after evs) /\ f_wpos f = snd (file_after evs) /\
    file_rpos f = rcursor evs /\ length (f_buf f) <= f_off f /\ f_lim f = [].

Lemma is_file_step : forall o s evs e s', True -> is_file evs s -> True -> sop_run o s = (e, s') ->
  True /\ is_file (e :: evs) s'.
Proof.
  intros o s evs e s' _ (f & -> & Hd & Hw & Hr & Hb & Hm) _ H. split; auto.
  destruct o; cbn in H.
  - destruct (file_read n f) as [r f'] eqn:E. injection H as <- <-. exists f'. cbn.
    unfold file_read, file_limit in E. rewrite Hm in E. cbn [tl] in E. destruct (f_buf f) as [|x l] eqn:Eb.
    + unfold file_rpos in *. rewrite Eb in *. cbn [length] in *. rewrite Nat.sub_0_r in Hr.
      destruct (f_cap f <=? n); injection E as <- <-; cbn -[slice]; repeat (split; auto); try lia.
      * rewrite firstn_length, skipn_length. lia.
      * rewrite skipn_length. lia.
    + unfold file_rpos in *. rewrite Eb in *. rewrite <- Eb in *. injection E as <- <-.
      cbn -[firstn skipn]. rewrite firstn_length, skipn_length. repeat (split; auto); try lia.
  - injection H as <- <-. eexists. split; [reflexivity|]. cbn. unfold file_rpos; cbn. repeat (split; auto); lia.
  - injection H as <- <-. eexists. split; [reflexivity|]. cbn. unfold file_rpos in *; cbn. repeat (split; auto); lia.
  - injection H as <- <-. eexists. split; [reflexivity|]. cbn. destruct (file_after evs) as [d w]; cbn in *.
    subst d w. destruct bs as [|x bs]; cbn; [repeat (split; auto)|].
    unfold file_rpos in *. cbn. repeat (split; auto); lia.
  - injection H as <- <-. eexists. split; [reflexivity|]. cbn. auto 10.
Qed.

Lemma file_ops : forall cap clen st os evs st', into_rw (PPlain (PlTemp cap)) clen = Some st ->
  ops_run os st [] = (evs, st') -> is_file evs st'.
Proof.
  intros cap clen st os evs st' Hi H.
  apply (ops_inv is_file (fun _ _ => True) (fun _ _ => True) (fun _ => True) os is_file_step
           (fun _ _ => I) st [] evs st'); auto using every_nil, every_true.
  cbn in Hi. injection Hi as <-. exists (file_new cap). cbn. unfold file_rpos; cbn. auto 10.
Qed.

(** Writer operations do not touch the reader's buffer. *)
Lemma writer_ops_buf : forall os f evs evs' s', writer_only os -> f_buf f = [] ->
  ops_run os (SPlain (UFile f)) evs = (evs', s') ->
  exists f', s' = SPlain (UFile f') /\ f_buf f' = [] /\ rcursor evs' = rcursor evs.
Proof.
  induction os as [|o os IH]; intros f evs evs' s' Hw Hb H; cbn in H.
  - injection H as <- <-. exists f. auto.
  - assert (Ho := Hw o (or_introl eq_refl)).
    assert (Hw' : writer_only os) by (intros x Hx; apply Hw; cbn; auto).
    destruct o; try contradiction; cbn in H.
    + apply IH in H as (f' & -> & H1 & H2); auto.
      * exists f'. auto.
      * destruct bs; auto.
    + apply IH in H as (f' & -> & H1 & H2); auto. exists f'. auto.
Qed.

Lemma file_fresh : forall cap clen st os1 os2 n evs st' r st'',
  into_rw (PPlain (PlTemp cap)) clen = Some st -> writer_only os2 ->
  ops_run (os1 ++ OpTell :: os2) st [] = (evs, st') -> st_read n st' = (r, st'') ->
  r = Ok (slice (fst (file_after evs)) (rcursor evs) n).
Proof.
  intros cap clen st os1 os2 n evs st' r st'' Hi Hw H Hread.
  pose proof (file_ops _ _ _ _ _ _ Hi H) as (f & E & Hd & _ & Hr & _ & Hm).
  rewrite ops_run_app in H. destruct (ops_run os1 st []) as [e1 s1] eqn:H1.
  pose proof (file_ops _ _ _ _ _ _ Hi H1) as (f1 & -> & _).
  cbn in H. apply writer_ops_buf in H as (f2 & E2 & Hb & _); auto.
  rewrite E in E2. injection E2 as <-. subst st'. cbn in Hread.
  unfold file_read, file_limit in Hread. rewrite Hb, Hm in Hread.
  unfold file_rpos in Hr. rewrite Hb, Nat.sub_0_r in Hr. rewrite Hd, Hr in Hread.
  destruct (Nat.leb_spec (f_cap f) n); injection Hread as <- <-; auto.
  rewrite firstn_slice. do 2 f_equal. lia.
Qed.

(** ** Adaptive storage of unknown length *)

Definition pending_within (c : cfg) (cap : nat) (s : gstate) : Prop :=
  match g_rpc s with
  | RRCheck n => n <= cap
  | RSCheck from =>
      forall t, seek_target c (cursor (g_trace s)) from = Some t ->
          (0 <= t < two64)%Z /\ (t <= Z.of_nat (cursor (g_trace s) + cap))%Z
  | _ => True
  end.

Lemma pending_step : forall c c' cap s l s', pending_within c cap s -> within_capacity c cap s l ->
  step c' s l = Some s' -> pending_within c cap s'.
Proof.
  intros c c' cap s l s' Hp Ha H. unfold pending_within in *.
  step_cases H; gsimpl; auto;
    repeat match goal with E : g_rpc _ = _ |- _ => rewrite E in *; clear E end;
    cbn [cursor] in *; auto; destruct (g_rpc s); auto.
Qed.

Lemma lockstep : forall c ck fixed variable n s l, c_clen c = None ->
  reader_at (g_rpc s) (cursor (g_trace s)) (st_rpos (g_store s)) -> pending_within c n s ->
  step (with_provider c (PAdaptive ck fixed variable n)) s l =
  step (with_provider c (PBounded ck fixed n)) s l.
Proof.
  intros c ck fixed variable n s l Hl Hat Hp. destruct l; try reflexivity; cbn [step].
  2:{ unfold r_error. unfold pending_within in Hp. destruct (g_rpc s) eqn:Er; try reflexivity.
      unfold excessive_read; cbn. destruct (Nat.ltb_spec n n0); [lia|]. reflexivity. }
  unfold r_step. unfold pending_within in Hp.
  destruct (g_rpc s) eqn:Er; try reflexivity.
  - unfold excessive_read; cbn. destruct (Nat.ltb_spec n n0); [lia|]. reflexivity.
  - cbn in Hat. destruct (g_failed s); auto.
    replace (absolute_seek_position (with_provider c (PAdaptive ck fixed variable n))) with
      (absolute_seek_position (with_provider c (PBounded ck fixed n))) by reflexivity.
    destruct (absolute_seek_position (with_provider c (PBounded ck fixed n)) (st_rpos (g_store s)) from) as [v|e|] eqn:E; auto.
    replace (normalize (with_provider c (PAdaptive ck fixed variable n)) v) with
      (normalize (with_provider c (PBounded ck fixed n)) v) by reflexivity.
    unfold excessive_seek; cbn [max_capacity c_provider with_provider].
    destruct (Z.ltb_spec (Z.of_nat (st_rpos (g_store s)) + Z.of_nat n)
      (normalize (with_provider c (PBounded ck fixed n)) v)) as [L|L]; auto.
    exfalso. rewrite <- Hat in *.
    assert (T : exists t, seek_target c (cursor (g_trace s)) from = Some t).
    { destruct from; cbn in *; eauto. rewrite Hl in E. discriminate. }
    destruct T as [t T]. destruct (Hp t T) as [T1 T2].
    assert (V : v = t) by (eapply absolute_target; eauto). subst v.
    unfold normalize in L. cbn in L. rewrite Hl in L. lia.
Qed.

Lemma pending_reach : forall c c' cap allow s, reach c' (both (within_capacity c cap) allow) s ->
  pending_within c cap s.
Proof.
  induction 1 as [s H|s l s' Hr IH [A _] H].
  - unfold init in H. destruct (into_rw _ _); [|discriminate]. injection H as <-. exact I.
  - eapply pending_step; eauto.
Qed.

Lemma adaptive_bounded : forall c ck fixed variable n allow s,
  c_clen c = None ->
  (reach (with_provider c (PAdaptive ck fixed variable n)) (both (within_capacity c n) allow) s <->
   reach (with_provider c (PBounded ck fixed n)) (both (within_capacity c n) allow) s).
Proof.
  intros c ck fixed variable n allow s Hl.
  assert (I : init (with_provider c (PAdaptive ck fixed variable n)) =
              init (with_provider c (PBounded ck fixed n))).
  { unfold init. cbn. rewrite Hl. reflexivity. }
  split; induction 1.
  - apply reach_init. rewrite <- I. auto.
  - eapply reach_step; eauto. rewrite <- (lockstep c ck fixed variable); auto.
    + apply (tr_at _ _ (traced_reach _ _ _ H)).
    + eapply pending_reach; eauto.
  - apply reach_init. rewrite I. auto.
  - eapply reach_step; eauto. rewrite (lockstep c ck fixed variable); auto.
    + apply (tr_at _ _ (traced_reach _ _ _ H)).
    + eapply pending_reach; eauto.
Qed.

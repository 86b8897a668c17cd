(** * PropTorn: C86, what a client of bounded storage sees of a half-way failure. *)

From Coq Require Import List Arith Lia ZArith Bool Strings.Byte.
From Verif Require Import Base ListFacts RangeSet RangeSetFacts Storage StorageFacts
  System Spec StepTac InvSync InvTrace LifeFacts Alive Exec Progress ReadFacts BoundedFacts StoreSpec BoundedFault
  PropStoreFault BoundedInv BoundedContent BoundedMore LifeMore Torn.
Import ListNotations.

(** ** Storages that agree on what is still to be read *)

Definition twin (b b' : bnd) : Prop :=
  b_read b' = b_read b /\ b_written b' = b_written b /\ b_rpos b' = b_rpos b /\
  b_wpos b' = b_wpos b /\ b_size b' = b_size b /\ b_checks b' = b_checks b /\
  length (u_data (b_inner b)) <= b_size b /\ length (u_data (b_inner b')) <= b_size b /\
  exists h h', ring h b /\ ring h' b' /\ length h' = length h /\
    forall x, b_rpos b <= x -> nth_error h' x = nth_error h x.

Definition twins (st st' : store) : Prop :=
  exists b b', st = SBnd b /\ st' = SBnd b' /\ twin b b'.

Lemma twins_pos : forall st st', twins st st' ->
  st_rpos st' = st_rpos st /\ st_wpos st' = st_wpos st /\ st_tell st = st /\ st_tell st' = st' /\
  st_plain st = false /\ st_plain st' = false.
Proof.
  intros st st' (b & b' & -> & -> & T). destruct T as (_ & _ & T3 & T4 & _). cbn. auto 10.
Qed.

Lemma twins_read : forall st st' n r st1, twins st st' -> st_read n st = (r, st1) ->
  exists st1', st_read n st' = (r, st1') /\ twins st1 st1'.
Proof.
  intros st st' n r st1 (b & b' & -> & -> & T) E. cbn in E. destruct (bnd_read n b) as [r0 b1] eqn:Eb.
  injection E as -> <-. cbn [st_read]. destruct (bnd_read n b') as [r' b1'] eqn:Eb'.
  destruct T as (T1 & T2 & T3 & T4 & T5 & T6 & T7 & T8 & h & h' & Rg & Rg' & L & A).
  assert (T8' : length (u_data (b_inner b')) <= b_size b') by congruence.
  destruct (bnd_read_ring _ _ _ _ _ Rg T7 Eb) as (P1 & P2 & P3 & P4 & P5 & C).
  destruct (bnd_read_ring _ _ _ _ _ Rg' T8' Eb') as (Q1 & Q2 & Q3 & Q4 & Q5 & C').
  rewrite T1, T2, T3, T5, L in *.
  assert (W1 : b_wpos b1 = b_wpos b) by (rewrite (rg_wpos _ _ P1), (rg_wpos _ _ Rg); auto).
  assert (W2 : b_wpos b1' = b_wpos b') by (rewrite (rg_wpos _ _ Q1), (rg_wpos _ _ Rg'); auto).
  destruct C as [(-> & -> & C)|[(-> & -> & C1 & C2 & C3)|(C1 & C2 & C3 & C4 & -> & C5 & C6)]];
    destruct C' as [(-> & -> & D)|[(-> & -> & D1 & D2 & D3)|(D1 & D2 & D3 & D4 & -> & D5 & D6)]]; try lia.
  - eexists. split; [reflexivity|]. exists b, b'. repeat (split; auto). exists h, h'. auto.
  - eexists. split; [reflexivity|]. exists b, b'. repeat (split; auto). exists h, h'. auto.
  - exists (SBnd b1'). split.
    + f_equal. f_equal. apply slice_kept; auto.
    + exists b1, b1'. split; [auto|split; [auto|]].
      unfold twin. repeat (split; [congruence|]). exists h, h'. split; [auto|split; [auto|split; [auto|]]].
      intros x Hx. apply A. lia.
Qed.

Lemma twins_write : forall st st' bs k st1, twins st st' -> st_write bs st = (k, st1) ->
  exists st1', st_write bs st' = (k, st1') /\ twins st1 st1'.
Proof.
  intros st st' bs k st1 (b & b' & -> & -> & T) E. cbn in E. destruct (bnd_write bs b) as [k0 b1] eqn:Eb.
  injection E as -> <-. cbn [st_write]. destruct (bnd_write bs b') as [k' b1'] eqn:Eb'.
  destruct T as (T1 & T2 & T3 & T4 & T5 & T6 & T7 & T8 & h & h' & Rg & Rg' & L & A).
  destruct (bnd_write_spec _ _ _ _ Eb) as (P1 & P2 & P3 & P4 & P5 & P6 & P7 & P8).
  destruct (bnd_write_spec _ _ _ _ Eb') as (Q1 & Q2 & Q3 & Q4 & Q5 & Q6 & Q7 & Q8).
  assert (K : k' = k) by (rewrite T3, T4, T5 in Q1; lia). clear Q1. subst k'.
  eexists. split; [reflexivity|]. exists b1, b1'. split; [auto|split; [auto|]].
  unfold twin. repeat (split; [rewrite ?P4, ?Q4; try congruence; auto|]).
  - rewrite <- T5. apply Q8. congruence.
  - exists (h ++ firstn k bs), (h' ++ firstn k bs).
    split; [eapply bnd_write_ring; eauto|]. split; [eapply bnd_write_ring; eauto|].
    split; [rewrite !app_length; congruence|]. intros x Hx. eapply kept_app; eauto. congruence.
Qed.

Lemma twins_rseek : forall st st' p r st1, twins st st' -> st_rpos st <= p -> st_rseek p st = (r, st1) ->
  exists st1', st_rseek p st' = (r, st1') /\ twins st1 st1'.
Proof.
  intros st st' p r st1 (b & b' & -> & -> & T) Hp E. cbn in E, Hp. cbn [st_rseek].
  destruct T as (T1 & T2 & T3 & T4 & T5 & T6 & T7 & T8 & h & h' & Rg & Rg' & L & A).
  unfold bnd_rseek in *. rewrite T1, T3, T6 in *. destruct (counter_sub _ _ _) as [z|].
  - injection E as <- <-. eexists. split; [reflexivity|]. eexists _, _. split; [reflexivity|split; [reflexivity|]].
    unfold twin. cbn. repeat (split; [congruence|]). exists h, h'.
    destruct Rg as [R1 R2 R3], Rg' as [S1 S2 S3].
    split; [constructor; auto|]. split; [constructor; auto|]. split; auto. intros x Hx. apply A. lia.
  - injection E as <- <-. eexists. split; [reflexivity|]. exists b, b'.
    repeat (split; auto). exists h, h'. auto.
Qed.

Lemma twins_wseek : forall size st st' W R L r st1, twins st st' -> bst size st W R L -> st_wseek W st = (r, st1) ->
  exists st1', st_wseek W st' = (r, st1') /\ twins st1 st1'.
Proof.
  intros size st st' W R L r st1 (b & b' & -> & -> & T) B E. pose proof (bst_wpos _ _ _ _ _ B) as Hw.
  cbn in E, Hw. cbn [st_wseek].
  destruct T as (T1 & T2 & T3 & T4 & T5 & T6 & T7 & T8 & h & h' & Rg & Rg' & Ln & A).
  unfold bnd_wseek in *. rewrite T2, T4, T6 in *. destruct (counter_sub _ _ _) as [z|].
  - injection E as <- <-. eexists. split; [reflexivity|]. eexists _, _. split; [reflexivity|split; [reflexivity|]].
    unfold twin. cbn. repeat (split; [congruence|]). exists h, h'.
    destruct Rg as [R1 R2 R3], Rg' as [S1 S2 S3].
    split; [constructor; cbn; auto; congruence|]. split; [constructor; cbn; auto; congruence|]. split; auto.
  - injection E as <- <-. eexists. split; [reflexivity|]. exists b, b'.
    repeat (split; auto). exists h, h'. auto.
Qed.

(** ** The system *)

Definition like (s t : gstate) : Prop :=
  exists st, s = set_store t st /\ twins (g_store t) st.

(** Seeks in progress do not go back. *)
Definition ahead (c : cfg) (s : gstate) : Prop :=
  match g_rpc s with
  | RSCheck from => forall t, seek_target c (cursor (g_trace s)) from = Some t ->
      (Z.of_nat (cursor (g_trace s)) <= t < two64)%Z
  | RSGet _ p | RSSet _ p | RSSend _ p | RSWait _ p | RSCheck2 _ p | RSSeek _ p =>
      cursor (g_trace s) <= p
  | _ => True
  end.

Lemma like_task : forall c size s t W R L l s', bpos c size t W R L -> like s t -> task_label l = true ->
  step c s l = Some s' -> exists t', step c t l = Some t' /\ like s' t'.
Proof.
  intros c size s t W R L l s' [A1 _ _ _ _ A7] (st' & -> & T) Et H. unfold like.
  destruct (twins_pos _ _ T) as (_ & Hw & _ & _ & Pl & Pl').
  destruct t as [st down failed req reached done permit again wreq chan cancel d pfc pfs rem scur send r tr].
  unfold bat in A7. gsimpl.
  destruct l; try discriminate Et; cbn [step] in *; unfold d_step in *; gsimpl.
  all: destruct d; try discriminate H.
  all: unfold handle_seek, should_seek, handle_bytes, finish_or_find_next_gap, report_complete, report_downloading,
         handle_reconnect in *; gsimpl; rewrite ?Hw in *.
  all: try (repeat (split_match H; try discriminate H; gsimpl); injection H as <-;
            (eexists; split; [reflexivity|eexists; split; [reflexivity|exact T]])).
  - unfold write_once in *. gsimpl.
    destruct (st_write _ st) as [k st1] eqn:E. destruct (twins_write _ _ _ _ _ T E) as (st1' & E' & T1).
    rewrite E' in H. destruct (twins_pos _ _ T1) as (_ & Hw1 & _).
    unfold prefetch_done in *. gsimpl. rewrite ?Hw1 in H.
    repeat (split_match H; try discriminate H; gsimpl); injection H as <-;
      (eexists; split; [reflexivity|eexists; split; [reflexivity|exact T1]]).
  - unfold write_once in *. gsimpl.
    destruct (st_write _ st) as [k st1] eqn:E. destruct (twins_write _ _ _ _ _ T E) as (st1' & E' & T1).
    rewrite E' in H.
    repeat (split_match H; try discriminate H; gsimpl); injection H as <-;
      (eexists; split; [reflexivity|eexists; split; [reflexivity|exact T1]]).
  - destruct A7 as (_ & _ & _ & ->). unfold seek_done in *. gsimpl.
    destruct (st_wseek W st) as [q st1] eqn:E.
    destruct (twins_wseek _ _ _ _ _ _ _ _ T A1 E) as (st1' & E' & T1). rewrite E' in H.
    repeat (split_match H; try discriminate H; gsimpl); injection H as <-;
      (eexists; split; [reflexivity|eexists; split; [reflexivity|first [exact T1|exact T]]]).
  - unfold write_short in H. gsimpl. rewrite Pl' in H. destruct (st_write _ _); discriminate H.
  - unfold write_short in H. gsimpl. rewrite Pl' in H. destruct (st_write _ _); discriminate H.
Qed.

Lemma like_reader : forall c s t l s', local_pc c t -> ahead c t -> traced c t ->
  like s t -> task_label l = false ->
  step c s l = Some s' -> exists t', step c t l = Some t' /\ like s' t'.
Proof.
  intros c s t l s' Hlo Ha Htr (st' & -> & T) Et H. unfold like.
  pose proof (tr_at _ _ Htr) as Hat. clear Htr.
  destruct (twins_pos _ _ T) as (Hr & Hw & Te & Te' & Pl & Pl').
  destruct t as [st down failed req reached done permit again wreq chan cancel d pfc pfs rem scur send r tr].
  unfold local_pc, ahead in *. gsimpl.
  destruct l; try discriminate Et; cbn [step] in *.
  - unfold r_step in *. gsimpl. rewrite Hr in H. destruct r; try discriminate H; try contradiction Hlo.
    all: rewrite ?Te, ?Te' in *.
    all: try (repeat (split_match H; try discriminate H; gsimpl); injection H as <-;
            (eexists; split; [reflexivity|eexists; split; [reflexivity|exact T]])).
    + destruct (st_read n st) as [q st1] eqn:E. destruct (twins_read _ _ _ _ _ T E) as (st1' & E' & T1).
      rewrite E' in H.
      repeat (split_match H; try discriminate H; gsimpl); injection H as <-;
        (eexists; split; [reflexivity|eexists; split; [reflexivity|exact T1]]).
    + destruct (st_rseek p st) as [q st1] eqn:E. cbn [reader_at] in Hat.
      assert (Hp : st_rpos st <= p) by lia.
      destruct (twins_rseek _ _ _ _ _ T Hp E) as (st1' & E' & T1).
      rewrite E' in H. injection H as <-.
      eexists; split; [reflexivity|eexists; split; [reflexivity|exact T1]].
  - unfold r_error in *. gsimpl. rewrite Pl' in H. rewrite Pl. destruct r; try discriminate H.
    + injection H as <-. eexists; split; [reflexivity|eexists; split; [reflexivity|exact T]].
    + destruct from; discriminate H.
  - gsimpl. destruct r; try discriminate H; injection H as <-.
    eexists; split; [reflexivity|eexists; split; [reflexivity|exact T]].
  - injection H as <-. eexists; split; [reflexivity|eexists; split; [reflexivity|exact T]].
  - gsimpl. destruct r; try discriminate H; injection H as <-.
    destruct (c_cancel_on_drop c); (eexists; split; [reflexivity|eexists; split; [reflexivity|exact T]]).
Qed.

Lemma ahead_task : forall c s l s', task_label l = true -> step c s l = Some s' -> ahead c s -> ahead c s'.
Proof.
  intros c s l s' Et H K. pose proof (task_step_rpc _ _ _ _ Et H) as Er.
  pose proof (task_views _ _ _ _ Et H) as [E1 _]. unfold ahead in *. rewrite Er, E1. exact K.
Qed.

Lemma ahead_reader : forall c s l s' W R, sane c -> task_label l = false -> traced c s -> forward_client c s l ->
  st_rpos (g_store s) = R -> R <= W -> W <= length (c_content c) ->
  step c s l = Some s' -> ahead c s -> ahead c s'.
Proof.
  intros c s l s' W R Hs Et Htr Hf HR HW HL H K. pose proof (tr_at _ _ Htr) as Hat. unfold ahead in *.
  destruct l; try discriminate Et; cbn [step] in H.
  - unfold r_step in H. rewrite HR in *. destruct (g_rpc s) eqn:Er; try discriminate H.
    all: try (repeat (split_match H; try discriminate H; gsimpl); injection H as <-; gsimpl; first [exact I|exact K]).
    + destruct (g_failed s); [injection H as <-; gsimpl; exact I|].
      destruct (absolute_seek_position c R from) as [z|e|] eqn:Ea; [|injection H as <-; gsimpl; exact I..].
      destruct (excessive_seek _ _ _); injection H as <-; gsimpl; [exact I|].
      cbn in Hat. rewrite Hat in *.
      destruct (seek_target c R from) as [t|] eqn:Et'.
      * specialize (K t eq_refl). assert (Z0 : (0 <= t < two64)%Z) by lia.
        rewrite (absolute_target _ _ _ _ _ Ea Et' Z0). unfold normalize.
        destruct (c_clen c) as [cl|] eqn:Ec; [|lia]. pose proof (proj1 Hs cl Ec). lia.
      * destruct from; cbn in Et', Ea; try discriminate. destruct (c_clen c); discriminate.
  - unfold r_error in H. repeat (split_match H; try discriminate H; gsimpl); injection H as <-; gsimpl; exact I.
  - destruct (g_rpc s) eqn:Er; try discriminate H; injection H as <-; gsimpl.
    destruct o as [n|from]; [exact I|]. cbn in Hf. apply Hf.
  - injection H as <-. gsimpl. exact K.
  - destruct (g_rpc s); try discriminate H; injection H as <-; gsimpl. exact I.
Qed.

Definition forward_local (c : cfg) : gstate -> label -> Prop := both (local_env c) (forward_client c).

Lemma ahead_reach : forall c ck p n s, c_provider c = PBounded ck p n -> sane c -> c_rec c = RecRange ->
  reach c (forward_local c) s -> ahead c s.
Proof.
  intros c ck p n s Hp Hs Hr H. induction H as [s H|s l s' Hre IH [Hl Hf] H].
  - unfold init in H. destruct (into_rw _ _); [|discriminate]. injection H as <-. exact I.
  - assert (Hlo : reach c (local_env c) s) by (eapply reach_weaken; [|exact Hre]; intros ? ? []; auto).
    destruct (local_content c ck p n s Hp Hs Hr Hlo) as (W & R & B & _ & C & _).
    destruct (task_label l) eqn:Et; [eapply ahead_task; eauto|].
    pose proof (bp_store _ _ _ _ _ _ B) as B1.
    eapply (ahead_reader c s l s' W R); eauto.
    + eapply traced_reach; eauto.
    + apply (bst_rpos _ _ _ _ _ B1).
    + apply (bst_le _ _ _ _ _ B1).
    + apply (bc_le _ _ _ _ C).
Qed.

(** ** Failures *)

Lemma twin_inner : forall b b' u, twin b b' -> same_bytes (b_inner b') u -> twin b (bnd_with_inner b' u).
Proof.
  intros b b' u (T1 & T2 & T3 & T4 & T5 & T6 & T7 & T8 & h & h' & Rg & Rg' & L & A) S.
  unfold twin. cbn. repeat (split; [assumption|]).
  split; [rewrite (proj1 S); assumption|].
  exists h, h'. split; [auto|split; [apply ring_same; auto|auto]].
Qed.

Lemma twin_spill : forall b b' buf u, twin b b' -> 0 < length buf <= b_size b' - (b_wpos b' - b_rpos b') ->
  same_bytes (bnd_write_mapped buf b') u -> twin b (bnd_with_inner b' u).
Proof.
  intros b b' buf u (T1 & T2 & T3 & T4 & T5 & T6 & T7 & T8 & h & h' & Rg & Rg' & L & A) Hb S.
  assert (K : kept h' b') by (exists h'; auto).
  pose proof (kept_same _ _ _ (kept_spill h' b' buf K Hb) S) as (h2 & R2 & L2 & A2).
  cbn [b_rpos bnd_with_inner] in A2. unfold twin. cbn. repeat (split; [assumption|]). split.
  - rewrite (proj1 S), <- T5. apply wmapped_length; [lia|congruence].
  - exists h, h2. split; [auto|split; [exact R2|split; [congruence|]]].
    intros x Hx. rewrite A2 by congruence. auto.
Qed.

Lemma like_torn_write : forall c s t f b bytes off s',
  like s t -> g_store s = SBnd b -> torn_write c s f b bytes off = Some s' ->
  (exists t', Some (set_dpc t (DOnFinish false)) = Some t' /\ like s' t') \/
  (exists k t1, write_once c t bytes off = (k, t1) /\ 0 < k /\
     like s' (set_dpc t1 (DOnFinish false))).
Proof.
  intros c s t f b' bytes off s' (st' & -> & b & bb & Eb & -> & T) Es H. gsimpl. injection Es as ->.
  unfold torn_write in H. set (size := Nat.min _ _) in *.
  destruct (bnd_write_fault f _ b') as [[k b1]|] eqn:Ef; [|discriminate].
  destruct (write_fault_spec _ _ _ _ _ Ef) as [[-> Ew]|(-> & u & -> & S)].
  - right. assert (Tw : twins (g_store t) (SBnd b')) by (exists b, b'; auto).
    unfold write_once. fold size. destruct (st_write (slice bytes off size) (g_store t)) as [k0 st1] eqn:E0.
    destruct (twins_write _ _ _ _ _ Tw E0) as (st1' & E1 & T1). cbn [st_write] in E1. rewrite Ew in E1.
    injection E1 as <- <-. exists k, (emit (set_store t st1) (EvWrite size k)). split; [reflexivity|].
    assert (Hk : 0 < k).
    { unfold bnd_write_fault in Ef. destruct (bnd_write_spec _ _ _ _ Ew) as (Ek & _).
      destruct (Nat.eqb_spec (Nat.min (b_size b' - (b_wpos b' - b_rpos b')) (length (slice bytes off size))) 0);
        [discriminate|lia]. }
    split; [exact Hk|]. destruct (Nat.eqb_spec k 0); [lia|]. injection H as <-.
    exists (SBnd b1). split; [destruct t; reflexivity|]. destruct t; exact T1.
  - left. eexists. split; [reflexivity|]. rewrite Nat.eqb_refl in H. injection H as <-.
    exists (SBnd (bnd_with_inner b' u)). split; [destruct t; reflexivity|].
    exists b, (bnd_with_inner b' u). split; [destruct t; exact Eb|split; [reflexivity|]].
    destruct S as [S|(buf & Hb & S)]; [apply twin_inner; auto|eapply twin_spill; eauto].
Qed.

Lemma like_fault : forall c s t x s', like s t -> fault_step c s x = Some s' ->
  exists ls t', (ls = [LDIoErr] \/ ls = [LRIoErr] \/ ls = [LDStep; LDIoErr]) /\
    run c t ls = Some t' /\ like s' t'.
Proof.
  intros c s t x s' Hl H. unfold fault_step in H. destruct (g_store s) as [u|b'] eqn:Es; [discriminate|].
  destruct Hl as (st' & -> & T). gsimpl. subst st'.
  assert (Hl : like (set_store t (SBnd b')) t) by (exists (SBnd b'); auto).
  destruct x as [f|f].
  - destruct (g_dpc t) eqn:Ed; try discriminate H;
      (destruct (like_torn_write _ _ _ _ _ _ _ _ Hl eq_refl H) as [(t' & E & Hl')|(k & t1 & E & Hk & Hl')]).
    + exists [LDIoErr], t'. split; [auto|split; [|exact Hl']]. cbn [run step]. rewrite Ed, E. reflexivity.
    + exists [LDStep; LDIoErr], (set_dpc t1 (DOnFinish false)). split; [auto|split; [|exact Hl']].
      cbn [run step]. unfold d_step. rewrite Ed, E. destruct (Nat.eqb_spec k 0); [lia|]. gsimpl.
      destruct t1; reflexivity.
    + exists [LDIoErr], t'. split; [auto|split; [|exact Hl']]. cbn [run step]. rewrite Ed, E. reflexivity.
    + exists [LDStep; LDIoErr], (set_dpc t1 (DOnFinish false)). split; [auto|split; [|exact Hl']].
      cbn [run step]. unfold d_step. rewrite Ed, E. destruct (Nat.eqb_spec k 0); [lia|]. gsimpl.
      destruct t1; reflexivity.
  - destruct (g_rpc t) eqn:Er; try discriminate H.
    destruct (bnd_read_fault f n b') as [b1|] eqn:Ef; [|discriminate]. injection H as <-.
    destruct (read_fault_spec _ _ _ _ Ef) as (u & -> & S).
    exists [LRIoErr], (set_rpc t (RRDone n pos waited (Err EOther))). split; [auto|split].
    + cbn [run step]. unfold r_error. rewrite Er. reflexivity.
    + destruct T as (b & b2 & Eb & E2 & T). injection E2 as <-.
      exists (SBnd (bnd_with_inner b' u)). split; [destruct t; reflexivity|].
      exists b, (bnd_with_inner b' u). split; [destruct t; exact Eb|split; [reflexivity|]].
      apply twin_inner; auto.
Qed.

(** What is needed of a restriction of the environment. *)
Definition storage_blind (c : cfg) (allow : gstate -> label -> Prop) : Prop :=
  (forall s l, allow s l -> forward_local c s l) /\
  (forall s t l, same_view s t -> allow s l -> allow t l) /\
  (forall s, allow s LDIoErr /\ allow s LDStep) /\
  (forall s n pos rq w, g_rpc s = RRRead n pos rq w -> allow s LRIoErr).

Lemma blind_local : forall c, storage_blind c (forward_local c).
Proof.
  intros c. split; [auto|]. split; [|split].
  - intros s t l (st & ->) H. destruct t. exact H.
  - intros s. repeat split.
  - intros s n pos rq w E. repeat split. cbn. rewrite E. exact I.
Qed.

Lemma blind_bounded : forall c, storage_blind c (both (bounded_env c) (forward_client c)).
Proof.
  intros c. split; [|split; [|split]].
  - intros s l [[[A B] C] D]. split; [|exact D]. split; [split; [apply sequential_local|]|]; auto.
  - intros s t l (st & ->) H. destruct t. exact H.
  - intros s. repeat split.
  - intros s n pos rq w E. repeat split. cbn. rewrite E. exact I.
Qed.

Lemma like_init : forall c ck p n s, c_provider c = PBounded ck p n -> init c = Some s -> like s s.
Proof.
  intros c ck p n s Hp H. exists (g_store s). split; [destruct s; reflexivity|].
  destruct (bst_init c ck p n s Hp H) as (b & h & Eb & Rg & _ & _ & _ & _ & _ & Hd & _).
  exists b, b. split; [auto|split; [auto|]].
  pose proof (bst_init c ck p n s Hp H) as (b2 & h2 & Eb2 & Rg2 & _ & _ & Es & _ & _ & Hd2 & _).
  rewrite Eb in Eb2. injection Eb2 as <-.
  unfold twin. repeat (split; [congruence|]). exists h, h. auto.
Qed.

Lemma faulty_reach : forall c ck p n allow s, c_provider c = PBounded ck p n -> sane c -> c_rec c = RecRange ->
  storage_blind c allow ->
  faulty c allow s -> exists t, reach c allow t /\ like s t.
Proof.
  intros c ck p n allow s Hp Hs Hr (B1 & B2 & B3 & B4) H.
  induction H as [s H|s l s' Hf (t & Ht & Hl) Ha H|s x s' Hf (t & Ht & Hl) H].
  - exists s. split; [apply reach_init; auto|eapply like_init; eauto].
  - assert (Hfl : reach c (forward_local c) t) by (eapply reach_weaken; [|exact Ht]; auto).
    assert (Hlo : reach c (local_env c) t) by (eapply reach_weaken; [|exact Hfl]; intros ? ? []; auto).
    destruct (local_content c ck p n t Hp Hs Hr Hlo) as (W & R & B & P & C & _).
    assert (E : exists t', step c t l = Some t' /\ like s' t').
    { destruct (task_label l) eqn:Et; [eapply like_task; eauto|].
      eapply like_reader; eauto.
      - eapply ahead_reach; eauto.
      - eapply traced_reach; eauto. }
    destruct E as (t' & E & Hl'). exists t'. split; [|exact Hl'].
    eapply reach_step; [exact Ht| |exact E]. apply (B2 s); auto.
    destruct Hl as (st & -> & _). exists st. reflexivity.
  - destruct (like_fault c s t x s' Hl H) as (ls & t' & Hls & E & Hl'). exists t'. split; [|exact Hl'].
    destruct Hls as [->|[->| ->]]; cbn [run] in E.
    + destruct (step c t LDIoErr) eqn:E1; [|discriminate]. injection E as ->.
      eapply reach_step; [exact Ht|exact (proj1 (B3 t))|exact E1].
    + destruct (step c t LRIoErr) eqn:E1; [|discriminate]. injection E as ->.
      eapply reach_step; [exact Ht| |exact E1].
      destruct Hl as (st & -> & T). destruct (twins_pos _ _ T) as (_ & _ & _ & _ & Pl & _).
      cbn [step] in E1. unfold r_error in E1. rewrite Pl in E1.
      destruct (g_rpc t) eqn:Er; try discriminate E1; [|destruct from; discriminate E1].
      eapply B4; eauto.
    + destruct (step c t LDStep) eqn:E1; [|discriminate]. destruct (step c g LDIoErr) eqn:E2; [|discriminate].
      injection E as ->. eapply reach_step; [eapply reach_step; [exact Ht|exact (proj2 (B3 t))|exact E1]
        |exact (proj1 (B3 g))|exact E2].
Qed.

(** ** C86: a failure half-way does no more harm than a clean one *)

(** For a client that reads and seeks forwards within the downloaded data: at whatever
    points storage operations fail, and after however many of their bytes, everything but
    the storage is as if they had failed without effect, and every read that succeeds
    returns the bytes of the resource. *)
Theorem C86_partial : forall c ck p n s,
  c_provider c = PBounded ck p n -> sane c -> c_rec c = RecRange ->
  faulty c (both (local_env c) (forward_client c)) s ->
  (exists t, reach c (both (local_env c) (forward_client c)) t /\ same_view s t) /\
  every_event (read_ok c) (g_trace s).
Proof.
  intros c ck p n s Hp Hs Hr H.
  destruct (faulty_reach c ck p n _ s Hp Hs Hr (blind_local c) H) as (t & Ht & st & -> & T).
  split; [exists t; split; [exact Ht|exists st; reflexivity]|].
  replace (g_trace (set_store t st)) with (g_trace t) by (destruct t; reflexivity).
  apply (local_reads c ck p n t Hp Hs Hr).
  eapply reach_weaken; [|exact Ht]. intros ? ? []; auto.
Qed.

(** A client that only reads has received a prefix of the resource. *)
Theorem C86_prefix : forall c ck p n s,
  c_provider c = PBounded ck p n -> sane c -> c_rec c = RecRange ->
  faulty c (both (bounded_env c) (forward_client c)) s ->
  exists k, delivered (g_trace s) = firstn k (c_content c).
Proof.
  intros c ck p n s Hp Hs Hr H.
  destruct (faulty_reach c ck p n _ s Hp Hs Hr (blind_bounded c) H) as (t & Ht & st & -> & T).
  replace (g_trace (set_store t st)) with (g_trace t) by (destruct t; reflexivity).
  assert (Hb : reach c (bounded_env c) t) by (eapply reach_weaken; [|exact Ht]; intros ? ? []; auto).
  destruct (bounded_reads c ck p n t Hp Hs Hr Hb) as (_ & K & _). exact K.
Qed.

(** A write that fails half-way ends the task within four actions, as a failure, without
    touching the transport or the storage again. *)
Theorem C86_reported : forall c s f s1 ls s2,
  fault_step c s (TornWrite f) = Some s1 -> run c s1 ls = Some s2 ->
  task_steps ls <= 4 /\
  (g_dpc s2 <> DEnd -> task_can_move c s2) /\
  (g_dpc s2 = DEnd -> g_failed s2 = true /\ g_done s2 = true) /\
  exists newer, g_trace s2 = newer ++ g_trace s1 /\
    Forall (fun e => is_request e = false /\ is_write e = false /\ e <> EvFinish true) newer.
Proof.
  intros c s f s1 ls s2 H Hr.
  assert (E : step c (set_dpc s1 DSelect) LDIoErr = Some s1).
  { assert (D : g_dpc s1 = DOnFinish false).
    { unfold fault_step in H. destruct (g_store s); [discriminate|].
      destruct (g_dpc s); try discriminate H; unfold torn_write in H;
        (destruct (bnd_write_fault _ _ _) as [[]|]; [|discriminate]); injection H as <-;
        destruct (_ =? 0); reflexivity. }
    cbn [step]. gsimpl. destruct s1. cbn in *. subst. reflexivity. }
  apply (fault_fails c (set_dpc s1 DSelect) LDIoErr s1 ls s2); auto.
Qed.

(** A schedule with failures. *)
Fixpoint frun (c : cfg) (ab : gstate -> label -> bool) (s : gstate) (ls : list (label + fault)) : option gstate :=
  match ls with
  | [] => Some s
  | inl l :: t =>
      if ab s l then match step c s l with Some s' => frun c ab s' t | None => None end else None
  | inr x :: t => match fault_step c s x with Some s' => frun c ab s' t | None => None end
  end.
Definition fexec (c : cfg) (ab : gstate -> label -> bool) (ls : list (label + fault)) : option gstate :=
  match init c with Some s => frun c ab s ls | None => None end.

Lemma fexec_faulty : forall c ab allow ls s, decides ab allow -> fexec c ab ls = Some s -> faulty c allow s.
Proof.
  intros c ab allow ls s Hd H. unfold fexec in H. destruct (init c) as [s0|] eqn:E; [|discriminate].
  apply (faulty_init c allow) in E. revert s0 E H.
  induction ls as [|[l|x] ls IH]; intros s0 Hf H; cbn in H.
  - injection H as <-. exact Hf.
  - destruct (ab s0 l) eqn:Ea; [|discriminate]. destruct (step c s0 l) as [s1|] eqn:Es; [|discriminate].
    apply (IH s1); auto. eapply faulty_step; eauto.
  - destruct (fault_step c s0 x) as [s1|] eqn:Es; [|discriminate].
    apply (IH s1); auto. eapply faulty_fault; eauto.
Qed.

Definition ok_ (ls : list label) : list (label + fault) := map inl ls.

(** Violated for clients that seek back.  A ring of four bytes holds the first four, of
    which the client has read three.  The write of the next three fails after two of them,
    which are now in the slots of positions 0 and 1.  Before the failure is recorded the
    client seeks back to position 1, which is downloaded and less than four bytes behind,
    and reads another byte than the one that is there. *)
Definition torn_run : list (label + fault) :=
  ok_ ([LDChunk 4] ++ Tk 6 ++ [LOp (ORead 3)] ++ Rd 4 ++ [LDChunk 3] ++ Tk 1) ++
  [inr (TornWrite (WfFirst 2))] ++
  ok_ ([LOp (OSeek (FromStart 1))] ++ Rd 3 ++ [LOp (ORead 2)] ++ Rd 4).

Theorem C86_refuted : exists c ck p n s,
  c_provider c = PBounded ck p n /\ sane c /\ c_rec c = RecRange /\ honours_ranges c /\
  faulty c (local_env c) s /\
  In (EvRead 1 2 false (Ok [x06; x03])) (g_trace s) /\ slice (c_content c) 1 2 = [x02; x03] /\
  ~ every_event (read_ok c) (g_trace s).
Proof.
  set (c := mk None true 0 4 (PBounded true PlMem 4)).
  assert (E : exists s, fexec c (local_env_b c) torn_run = Some s /\
    exists older, g_trace s = EvRead 1 2 false (Ok [x06; x03]) :: older).
  { eexists. split; [vm_compute; reflexivity|]. eexists. vm_compute. reflexivity. }
  destruct E as (s & E & older & Et). exists c, true, PlMem, 4, s.
  split; [reflexivity|split; [apply mk_sane; [auto|lia]|split; [reflexivity|split; [apply mk_honours|]]]].
  split; [eapply fexec_faulty; [|exact E]; decides_tac|].
  split; [rewrite Et; left; reflexivity|split; [reflexivity|]].
  intros K. destruct (K [] _ older Et) as [_ (k & F & _ & _ & Fk)].
  rewrite (Fk eq_refl) in F. discriminate F.
Qed.

(** A read fails in its second segment; then a write, of which the first segment has
    reached the storage.  The client reads everything that was stored before. *)
Definition survived_run : list (label + fault) :=
  ok_ ([LDChunk 4] ++ Tk 6 ++ [LOp (ORead 3)] ++ Rd 4 ++ [LDChunk 3] ++ Tk 6 ++
       [LOp (ORead 3)] ++ Rd 2) ++
  [inr (TornRead (RfSecond 1))] ++
  ok_ (Rd 1 ++ [LOp (ORead 2)] ++ Rd 4 ++ [LDChunk 5] ++ Tk 1) ++
  [inr (TornWrite WfSecondSeek)] ++
  ok_ ([LOp (ORead 2)] ++ Rd 4).

Example C86_case :
  let c := mk None true 0 4 (PBounded true (PlTemp 2) 4) in
  sane c /\ c_rec c = RecRange /\
  exists s, fexec c (both_b (bounded_env_b c) (forward_b c)) survived_run = Some s /\
    faulty c (both (bounded_env c) (forward_client c)) s /\
    faulty c (both (local_env c) (forward_client c)) s /\
    In (EvRead 3 3 false (Err EOther)) (g_trace s) /\
    delivered (g_trace s) = [x01; x02; x03; x04; x05; x06; x07] /\
    (exists b, g_store s = SBnd b /\ nth_error (u_data (b_inner b)) 3 = Some x08).
Proof.
  cbv zeta. set (c := mk None true 0 4 (PBounded true (PlTemp 2) 4)).
  split; [apply mk_sane; [auto|lia]|split; [reflexivity|]].
  assert (E : exists s, fexec c (both_b (bounded_env_b c) (forward_b c)) survived_run = Some s /\
    fexec c (both_b (local_env_b c) (forward_b c)) survived_run = Some s /\
    nth_error (g_trace s) 2 = Some (EvRead 3 3 false (Err EOther)) /\
    delivered (g_trace s) = [x01; x02; x03; x04; x05; x06; x07] /\
    (exists b, g_store s = SBnd b /\ nth_error (u_data (b_inner b)) 3 = Some x08)).
  { eexists. split; [vm_compute; reflexivity|]. split; [vm_compute; reflexivity|].
    split; [reflexivity|split; [reflexivity|]]. eexists. split; reflexivity. }
  destruct E as (s & E1 & E2 & E3 & E4 & E5). exists s.
  split; [exact E1|]. split; [eapply fexec_faulty; [|exact E1]; decides_tac|].
  split; [eapply fexec_faulty; [|exact E2]; decides_tac|].
  split; [eapply nth_error_In; exact E3|]. auto.
Qed.

Print Assumptions C86_partial.
Print Assumptions C86_prefix.
Print Assumptions C86_reported.
Print Assumptions C86_refuted.

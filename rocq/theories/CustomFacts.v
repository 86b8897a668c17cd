(** * The program with a storage of the user's own: proofs *)

From Coq Require Import List Arith Lia ZArith Bool.
From Verif Require Import Base ListFacts RangeSet RangeSetFacts Storage StorageFacts
  System Spec StepTac InvSync InvTrace InvCore InvFront Exec ReadFacts Custom.
Import ListNotations.

(** ** What a step does with the store *)

(** The effect of an action on a file that is not buffered. *)
Definition effect (c : cfg) (s : gstate) (l : label) (f : tfile) : tfile :=
  match l with
  | LRStep =>
      match g_rpc s with
      | RRRead n _ _ _ => snd (file_read n f)
      | RSSeek _ p => file_rseek p f
      | _ => f
      end
  | LDStep =>
      match g_dpc s with
      | DPre bytes w => file_write (slice bytes w (Nat.min (c_batch c) (length bytes - w))) f
      | DWBatch bytes w _ nw =>
          file_write (slice bytes (w + nw) (Nat.min (c_batch c) (length bytes - (w + nw)))) f
      | _ => f
      end
  | LDShort k =>
      match g_dpc s with
      | DPre bytes w => file_write (slice bytes w k) f
      | DWBatch bytes w _ nw => file_write (slice bytes (w + nw) k) f
      | _ => f
      end
  | LDSeekRes true =>
      match g_dpc s with DSeeking a _ => file_wseek a f | _ => f end
  | _ => f
  end.

Lemma tell_same : forall f, f_buf f = [] -> file_rseek (file_rpos f) f = f.
Proof. intros [d o b cp w lm] H. cbn in *. subst b. unfold file_rpos, file_rseek. cbn. rewrite Nat.sub_0_r. reflexivity. Qed.

Lemma step_effect : forall c s l f s', f_buf f = [] ->
  step c (set_store s (SPlain (UFile f))) l = Some s' ->
  g_store s' = SPlain (UFile (effect c s l f)).
Proof.
  intros c s l f s' Hb H.
  remember (set_store s (SPlain (UFile f))) as t eqn:Et.
  assert (E1 : g_rpc s = g_rpc t) by (subst t; reflexivity).
  assert (E2 : g_dpc s = g_dpc t) by (subst t; reflexivity).
  assert (E3 : g_store t = SPlain (UFile f)) by (subst t; reflexivity).
  clear Et. unfold effect. rewrite E1, E2. clear E1 E2 s.
  step_cases H; gsimpl; rewrite ?E3 in *; auto.
  all: try (cbn in *; unfold u_tell; cbn; rewrite ?tell_same; auto; fail).
  all: repeat match goal with
    | E : st_write _ _ = (_, _) |- _ => cbn [st_write u_write] in E; injection E as <- <-
    | E : st_wseek _ _ = (_, _) |- _ => cbn [st_wseek u_wseek] in E; try discriminate E; injection E as <- <-
    | E : st_rseek _ _ = (_, _) |- _ => cbn [st_rseek u_rseek] in E; injection E as <- <-
    | E : st_read _ _ = (_, _) |- _ => cbn [st_read u_read] in E;
        destruct (file_read _ _) eqn:?; cbn in E; injection E as E1 E2; subst; cbn
    end; auto.
Qed.

(** ** Two stores a step cannot tell apart *)

Definition bare (s : gstate) : gstate := set_store s (SPlain (UFile (file_new 0))).

Lemma step_alike : forall c s l f1 f2 s1, f_buf f1 = [] -> f_buf f2 = [] ->
  f_off f1 = f_off f2 -> f_wpos f1 = f_wpos f2 ->
  (l = LRStep -> forall n pos rq w, g_rpc s = RRRead n pos rq w ->
     fst (file_read n f1) = fst (file_read n f2)) ->
  step c (set_store s (SPlain (UFile f1))) l = Some s1 ->
  exists s2, step c (set_store s (SPlain (UFile f2))) l = Some s2 /\ bare s2 = bare s1.
Proof.
  intros c s l f1 f2 s1 B1 B2 Ho Hw Hr H.
  assert (Er : file_rpos f1 = file_rpos f2) by (unfold file_rpos; rewrite B1, B2, Ho; reflexivity).
  assert (Ew : forall bs, u_wpos (u_write bs (UFile f1)) = u_wpos (u_write bs (UFile f2)))
    by (intros bs; cbn; unfold file_write; destruct bs; cbn; congruence).
  assert (K : option_map bare (step c (set_store s (SPlain (UFile f2))) l) =
              option_map bare (step c (set_store s (SPlain (UFile f1))) l)).
  2:{ rewrite H in K. destruct (step c (set_store s (SPlain (UFile f2))) l) as [s2|]; [|discriminate].
      exists s2. split; [reflexivity|]. cbn [option_map] in K. congruence. }
  clear H s1.
  unfold step, d_step, r_step, handle_seek, should_seek, handle_bytes, finish_or_find_next_gap,
    seek_done, prefetch_done, report_downloading, report_complete, handle_reconnect,
    write_once, write_short, r_error.
  destruct l; gsimpl; cbn [st_wpos st_rpos u_wpos u_rpos st_plain st_tell st_rseek st_wseek st_write];
    rewrite ?Hw, ?Er; try reflexivity.
  all: try (repeat (match goal with
    | |- context [match ?x with _ => _ end] =>
        lazymatch x with
        | context [match _ with _ => _ end] => fail
        | st_read _ _ => fail
        | _ => destruct x eqn:?
        end
    end; try reflexivity; gsimpl; rewrite ?Ew; cbn [st_wpos st_rpos u_rpos]; rewrite ?Ew; cbn [u_wpos]; rewrite ?Hw, ?Er;
    try reflexivity); fail).
  destruct (g_rpc s) eqn:Eg.
  8:{ specialize (Hr eq_refl _ _ _ _ eq_refl). cbn [st_read u_read].
      destruct (file_read n f1) as [r1 f1'], (file_read n f2) as [r2 f2']. cbn in Hr. subst r2. cbn.
      destruct r1; reflexivity. }
  all: repeat (match goal with
    | |- context [match ?x with _ => _ end] =>
        lazymatch x with
        | context [match _ with _ => _ end] => fail
        | _ => destruct x eqn:?
        end
    end; try reflexivity; gsimpl; rewrite ?Ew; cbn [st_wpos st_rpos u_rpos]; rewrite ?Ew; cbn [u_wpos]; rewrite ?Hw, ?Er;
    try reflexivity); try reflexivity.
Qed.

Lemma bare_eq : forall a b, bare a = bare b -> a = set_store b (g_store a).
Proof. intros [] [] H. unfold bare, set_store in *. cbn in *. injection H; intros; subst; reflexivity. Qed.

(** ** Patches *)

Lemma nth_skip : forall {A} (l : list A) n i, nth_error (skipn n l) i = nth_error l (n + i).
Proof. intros. apply nth_error_skipn. Qed.

Lemma length_patch : forall v p bs, bs <> [] -> length (patch v p bs) = Nat.max (length v) (p + length bs).
Proof.
  intros v p bs H. unfold patch. destruct bs; [congruence|].
  rewrite !app_length, firstn_length, repeat_length, map_length, skipn_length. lia.
Qed.

Lemma patch_in : forall v p bs i, p <= i < p + length bs ->
  nth_error (patch v p bs) i = option_map Some (nth_error bs (i - p)).
Proof.
  intros v p bs i H. unfold patch. destruct bs as [|b bs]; [cbn in H; lia|].
  rewrite app_assoc, nth_error_app2; rewrite app_length, firstn_length, repeat_length; [|lia].
  rewrite nth_error_app1 by (rewrite map_length; cbn [length] in *; lia).
  rewrite nth_error_map. do 2 f_equal. lia.
Qed.

Lemma patch_out : forall v p bs i, ~ (p <= i < p + length bs) -> i < length v ->
  nth_error (patch v p bs) i = nth_error v i.
Proof.
  intros v p bs i H L. unfold patch. destruct bs as [|b bs]; [reflexivity|].
  destruct (Nat.lt_ge_cases i p).
  - rewrite nth_error_app1 by (rewrite firstn_length; lia).
    rewrite nth_error_firstn. destruct (Nat.ltb_spec i p); [auto|lia].
  - cbn [length] in H. rewrite app_assoc, nth_error_app2; rewrite app_length, firstn_length, repeat_length; [|lia].
    rewrite nth_error_app2 by (rewrite map_length; cbn [length]; lia).
    rewrite map_length, nth_skip. f_equal. cbn [length]. lia.
Qed.

Lemma patch_hole : forall v p bs i b, ~ (p <= i < p + length bs) -> length v <= i ->
  nth_error (patch v p bs) i <> Some (Some b).
Proof.
  intros v p bs i b H L. unfold patch. destruct bs as [|b0 bs].
  { rewrite (proj2 (nth_error_None _ _)) by lia. discriminate. }
  destruct (Nat.lt_ge_cases i p).
  - rewrite nth_error_app2; rewrite firstn_length; [|lia].
    rewrite nth_error_app1 by (rewrite repeat_length; lia).
    intros E. apply nth_error_In, repeat_spec in E. discriminate E.
  - rewrite (proj2 (nth_error_None _ _)); [discriminate|].
    rewrite !app_length, firstn_length, repeat_length, map_length, skipn_length.
    cbn [length] in *. lia.
Qed.

(** ** The storage and the file that stands for it *)

Definition stored {St} (view : St -> list (option byte)) (st : St) (x : nat) : Prop :=
  exists b, nth_error (view st) x = Some (Some b).

Record rel {St} (I : custom St) (view : St -> list (option byte)) (st : St) (f : tfile) : Prop := mkRel
  { rl_buf : f_buf f = []; rl_cap : f_cap f = 0;
    rl_rpos : f_off f = i_rpos I st; rl_wpos : f_wpos f = i_wpos I st;
    rl_len : length (f_data f) <= length (view st);
    rl_data : forall x b, nth_error (view st) x = Some (Some b) -> nth_error (f_data f) x = Some b }.

Definition with_lim (f : tfile) (l : list nat) : tfile :=
  mkFile (f_data f) (f_off f) (f_buf f) (f_cap f) (f_wpos f) l.

Lemma rel_lim : forall {St} (I : custom St) view st f l, rel I view st f -> rel I view st (with_lim f l).
Proof. intros St I view st f l []. constructor; auto. Qed.

Lemma rel_write : forall {St} (I : custom St) view st st' f bs, rel I view st f ->
  i_rpos I st' = i_rpos I st -> view st' = patch (view st) (i_wpos I st) bs ->
  i_wpos I st' = i_wpos I st + length bs ->
  rel I view st' (file_write bs f) /\
  (forall x, f_wpos f <= x < f_wpos (file_write bs f) -> stored view st' x) /\
  (forall x, stored view st x -> stored view st' x) /\
  length (view st') <= Nat.max (length (view st)) (length (f_data (file_write bs f))).
Proof.
  intros St I view st st' f bs [R1 R2 R3 R4 R5 R6] H1 H2 H3. rewrite <- R4 in H2, H3.
  destruct bs as [|b0 bs].
  { cbn in *. rewrite Nat.add_0_r in H3. split; [constructor; rewrite ?H2; auto; congruence|]. split; [intros; lia|].
    unfold stored. rewrite H2. split; [auto|lia]. }
  set (bb := b0 :: bs) in *. assert (Hne : bb <> []) by discriminate.
  assert (E : file_write bb f = mkFile (overwrite (f_data f) (f_wpos f) bb) (f_off f) (f_buf f)
    (f_cap f) (f_wpos f + length bb) (f_lim f)) by reflexivity.
  rewrite E. split; [|split; [|split]].
  4:{ rewrite H2, length_patch by auto. cbn [f_data]. rewrite length_overwrite. lia. }
  - constructor; cbn; auto; try congruence.
    + rewrite length_overwrite, H2, length_patch by auto. lia.
    + intros x b Hx. rewrite H2 in Hx.
      assert (D : f_wpos f <= x < f_wpos f + length bb \/ ~ (f_wpos f <= x < f_wpos f + length bb)) by lia.
      destruct D as [D|D].
      * rewrite patch_in in Hx by auto. rewrite nth_overwrite_in by auto.
        destruct (nth_error bb (x - f_wpos f)); cbn in Hx; congruence.
      * destruct (Nat.lt_ge_cases x (length (view st))).
        -- rewrite patch_out in Hx by auto. pose proof (R6 _ _ Hx) as Hx2. assert (x < length (f_data f)) by (apply nth_error_Some; congruence).
           rewrite nth_overwrite_out by (auto; lia). auto.
        -- exfalso. eapply patch_hole; eauto.
  - intros x Hx. cbn [f_wpos] in Hx. unfold stored. rewrite H2, patch_in by auto.
    destruct (nth_error bb (x - f_wpos f)) eqn:En; [cbn; eauto|]. apply nth_error_None in En. lia.
  - intros x [b Hb]. unfold stored. rewrite H2.
    assert (D : f_wpos f <= x < f_wpos f + length bb \/ ~ (f_wpos f <= x < f_wpos f + length bb)) by lia.
    destruct D as [D|D].
    + rewrite patch_in by auto.
      destruct (nth_error bb (x - f_wpos f)) eqn:En; [cbn; eauto|]. apply nth_error_None in En. lia.
    + exists b. rewrite patch_out; auto. apply nth_error_Some. congruence.
Qed.

(** ** The invariants of the program on a state *)

Record inv (m : bool) (c : cfg) (s : gstate) (W : list nat) (u : ustore) : Prop := mkInv
  { iv_sync : sync s; iv_traced : traced c s; iv_core : coreW c s W u; iv_front : front m c s W }.

Lemma inv_step : forall m c s l s' W u, sane c -> honours_ranges c ->
  (m = false -> c_seekable c = false) -> front_env m c s l -> inv m c s W u ->
  step c s l = Some s' ->
  exists W' u', inv m c s' W' u' /\
    (forall x, In x W' -> In x W \/
       u_wpos u <= x < u_wpos u' /\ forall a b, g_dpc s <> DSeeking a b).
Proof.
  intros m c s l s' W u Hs Hh Hm He [I1 I2 I3 I4] H.
  destruct (core_step _ _ _ _ _ _ Hs Hh (proj1 He) I1 I2 I3 H) as (W' & u' & K1 & K2 & K3).
  exists W', u'.
  assert (S' : sync s') by (eapply sync_step; eauto).
  assert (T' : traced c s') by (eapply traced_step; eauto).
  destruct (task_label l) eqn:El.
  - destruct K3 as [K3 K4]. split; [|apply K4].
    constructor; auto. eapply front_task_step; eauto; [apply I3|apply K1].
  - subst W'. split; [|auto]. constructor; auto. eapply front_reader_step; eauto.
Qed.

Definition on (s : gstate) (f : tfile) : gstate := set_store s (SPlain (UFile f)).

Lemma inv_lim : forall m c s W f l, short_reads (c_provider c) = true ->
  inv m c (on s f) W (UFile f) -> inv m c (on s (with_lim f l)) W (UFile (with_lim f l)).
Proof.
  intros m c s W f l Hp [[] [] [[] []] []]. constructor.
  - constructor; auto.
  - constructor; try assumption; [destruct tr_wf; constructor; assumption|].
    intros E. rewrite E in Hp. discriminate Hp.
  - destruct co_inv. split; constructor; auto. constructor; auto.
  - constructor; auto.
Qed.

(** ** Simulation *)

Record sim {St} (m : bool) (I : custom St) (view : St -> list (option byte)) (c : cfg)
    (s : gstate) (st : St) (W : list nat) (f : tfile) : Prop := mkSim
  { sm_rel : rel I view st f; sm_inv : inv m c (on s f) W (UFile f);
    sm_stored : forall x, In x W -> stored view st x;
    sm_len : length (view st) <= length (c_content c) }.

Lemma own_short : forall c, own_storage c -> short_reads (c_provider c) = true.
Proof. intros c H. unfold own_storage in H. rewrite H. reflexivity. Qed.

Lemma sim_init : forall {St} m (I : custom St) view c s, honours I view -> sane c ->
  own_storage c -> init c = Some s ->
  sim m I view c s (i_new I (c_clen c)) [] (mkFile [] 0 [] 0 0 []).
Proof.
  intros St m I view c s Hi Hs Ho H.
  destruct (h_new _ _ Hi (c_clen c)) as ((k & V & Hk) & P1 & P2).
  pose proof (sync_init _ _ H) as [Y1 Y2 Y3 Y4 Y5].
  unfold init in H. unfold own_storage in Ho. rewrite Ho in H. cbn in H. injection H as <-.
  assert (Hl : k <= length (c_content c)).
  { destruct Hs as [Hs _]. destruct (c_clen c) as [n|] eqn:En; [rewrite <- (Hs n) by auto|]; lia. }
  constructor; [|constructor| |].
  - constructor; cbn; auto; [lia|].
    intros x b Hx. rewrite V in Hx. apply nth_error_In, repeat_spec in Hx. discriminate Hx.
  - constructor; auto.
  - constructor; cbn; auto; try (constructor; cbn; auto; try constructor; contradiction).
  - split; constructor; cbn; auto; try discriminate; try contradiction.
    + constructor; cbn; auto; try constructor; try contradiction.
    + lia.
    + intros x Hx. destruct (covered_nil _ Hx).
    + repeat split; cbn; auto; lia.
    + unfold task_ok; cbn. repeat split; auto. intros _ x Hx. lia.
    + unfold file_rpos; cbn. intros n En. lia.
  - constructor; cbn; auto; try discriminate; try contradiction.
    + intros x [= <-] y Hy. lia.
    + intros y Hy. lia.
  - intros x [].
  - rewrite V, repeat_length. exact Hl.
Qed.

(** What the storage reads is what the file reads. *)
Lemma read_same : forall {St} m (I : custom St) view c s st W f n pos rq w bs st',
  honours I view -> sim m I view c s st W f -> g_rpc s = RRRead n pos rq w ->
  i_read I n st = (Ok bs, st') ->
  length bs <= n /\ slice (f_data f) (f_off f) (Nat.min n (Nat.max 1 (length bs))) = bs.
Proof.
  intros St m I view c s st W f n pos rq w bs st' Hi [R [V1 V2 V3 V4] Hst] Eg E.
  destruct (h_read _ _ Hi _ _ _ _ E) as (_ & _ & _ & Hn & Hb & Hne). split; auto.
  pose proof (fr_reader _ _ _ _ V4) as Hr. cbn in Hr. rewrite Eg in Hr.
  pose proof (tr_at _ _ V2) as Ha. cbn in Ha. rewrite Eg in Ha. destruct Ha as [_ Ha].
  pose proof (co_len _ _ _ _ (proj1 V3)) as Hlen. cbn in Hlen.
  destruct R as [R1 R2 R3 R4 R5 R6].
  unfold file_rpos in Ha. rewrite R1 in Ha. cbn in Ha. rewrite Nat.sub_0_r in Ha. subst pos.
  rewrite <- R3 in Hb, Hne.
  destruct bs as [|b0 bs].
  - destruct n as [|n]; [reflexivity|]. apply slice_empty.
    destruct (Nat.le_gt_cases (length (f_data f)) (f_off f)) as [|Hgt]; auto. exfalso.
    apply Hne; [lia| |reflexivity]. apply Hst. apply Hr; lia.
  - set (bb := b0 :: bs) in *. assert (0 < length bb) by (cbn; lia).
    replace (Nat.min n (Nat.max 1 (length bb))) with (length bb) by lia.
    apply list_ext. intros i. rewrite nth_error_slice.
    destruct (Nat.ltb_spec i (length bb)) as [Li|Li].
    2:{ symmetry. apply nth_error_None. auto. }
    destruct (nth_error bb i) as [b|] eqn:En; [|apply nth_error_None in En; lia].
    destruct (Hb i b En) as [K|K]; [auto|]. exfalso.
    assert (Lv : f_off f + i < length (view st)) by (apply nth_error_Some; congruence).
    destruct (Hst (f_off f + i)) as [b' K']; [apply Hr; lia|]. congruence.
Qed.

Lemma read_limited : forall f n bs X, f_buf f = [] -> f_cap f = 0 ->
  slice (f_data f) (f_off f) (Nat.min n (Nat.max 1 (length bs))) = bs ->
  file_read n (with_lim f (length bs :: X)) =
  (Ok bs, mkFile (f_data f) (f_off f + length bs) [] 0 (f_wpos f) X).
Proof.
  intros [d o b cp w lm] n bs X H1 H2 H3. cbn in *. subst b cp. unfold file_read, with_lim, file_limit.
  cbn [f_buf f_cap f_data f_off f_wpos f_lim tl]. rewrite H3. reflexivity.
Qed.

(** The storage after the call and the file after the action. *)
Lemma rel_step : forall {St} m (I : custom St) view c s st W f l bs l' st' L,
  honours I view -> sim m I view c s st W f -> answered I c s st l = Some (bs, l', st') ->
  L = [length bs] -> let f' := effect c s l' (with_lim f L) in
  rel I view st' f' /\
  (forall x, f_wpos f <= x < f_wpos f' -> (forall a b, g_dpc s <> DSeeking a b) -> stored view st' x) /\
  (forall x, stored view st x -> stored view st' x) /\
  length (view st') <= Nat.max (length (view st)) (length (f_data f')).
Proof.
  intros St m I view c s st W f l bs l' st' L Hi HS Ha EL f'. subst f'.
  pose proof (sm_rel _ _ _ _ _ _ _ _ HS) as R.
  assert (Stay : forall st2, view st2 = view st -> i_rpos I st2 = i_rpos I st -> i_wpos I st2 = i_wpos I st ->
    rel I view st2 (with_lim f L) /\
    (forall x, f_wpos f <= x < f_wpos (with_lim f L) -> (forall a b, g_dpc s <> DSeeking a b) -> stored view st2 x) /\
    (forall x, stored view st x -> stored view st2 x) /\
    length (view st2) <= Nat.max (length (view st)) (length (f_data (with_lim f L)))).
  { intros st2 E1 E2 E3. destruct R as [R1 R2 R3 R4 R5 R6]. split; [|split; [|split; [|rewrite E1; lia]]].
    - constructor; cbn; rewrite ?E1, ?E2, ?E3; auto.
    - cbn. intros; lia.
    - unfold stored. rewrite E1. auto. }
  assert (Wr : forall bytes w batch, batch = slice bytes w (Nat.min (c_batch c) (length bytes - w)) ->
    write_answer I batch st = Some (bs, l', st') ->
    bs = [] /\ (l' = LDIoErr /\ view st' = view st /\ i_rpos I st' = i_rpos I st /\ i_wpos I st' = i_wpos I st \/
      exists k, (l' = LDStep /\ slice bytes w (Nat.min (c_batch c) (length bytes - w)) = firstn k batch \/
                 l' = LDShort k /\ slice bytes w k = firstn k batch) /\
        i_rpos I st' = i_rpos I st /\ view st' = patch (view st) (i_wpos I st) (firstn k batch) /\
        i_wpos I st' = i_wpos I st + length (firstn k batch))).
  { intros bytes w batch Eb E. unfold write_answer in E.
    destruct (i_write I batch st) as [r st2] eqn:Ew.
    destruct (h_write _ _ Hi _ _ _ _ Ew) as [A1 A2]. destruct r as [k|e|]; [|injection E as <- <- <-; tauto|contradiction].
    destruct A2 as (A2 & A3 & A4 & A5).
    assert (Lk : length (firstn k batch) = k) by (rewrite firstn_length; lia).
    destruct (Nat.eqb_spec k (length batch)) as [Ek|Ek].
    - injection E as <- <- <-. split; auto. right. exists k. split.
      + left. split; auto. rewrite <- Eb, Ek, firstn_all. reflexivity.
      + rewrite Lk. auto.
    - destruct ((0 <? k) && (k <? length batch)) eqn:Eq; [|discriminate]. injection E as <- <- <-.
      split; auto. right. exists k. split.
      + right. split; auto. rewrite Eb, firstn_slice.
        apply andb_true_iff in Eq as [_ Eq]. apply Nat.ltb_lt in Eq. rewrite Eb, length_slice in Eq.
        f_equal. lia.
      + rewrite Lk. auto. }
  assert (Wr2 : forall bytes w batch, batch = slice bytes w (Nat.min (c_batch c) (length bytes - w)) ->
    write_answer I batch st = Some (bs, l', st') ->
    (forall k, effect c s (LDShort k) (with_lim f L) = file_write (slice bytes w k) (with_lim f L)) ->
    effect c s LDStep (with_lim f L) = file_write batch (with_lim f L) ->
    rel I view st' (effect c s l' (with_lim f L)) /\
    (forall x, f_wpos f <= x < f_wpos (effect c s l' (with_lim f L)) -> (forall a b, g_dpc s <> DSeeking a b) -> stored view st' x) /\
    (forall x, stored view st x -> stored view st' x) /\
    length (view st') <= Nat.max (length (view st)) (length (f_data (effect c s l' (with_lim f L))))).
  { intros bytes w batch Eb E F1 F2. destruct (Wr _ _ _ Eb E) as [-> [(-> & E1 & E2 & E3)|(k & D & E1 & E2 & E3)]].
    - apply Stay; auto.
    - assert (Ef : effect c s l' (with_lim f L) = file_write (firstn k batch) (with_lim f L)).
      { destruct D as [[-> D]|[-> D]]; [rewrite <- Eb in D; rewrite F2, <- D|rewrite F1, D]; reflexivity. }
      rewrite Ef. destruct (rel_write I view st st' (with_lim f L) (firstn k batch) (rel_lim _ _ _ _ _ R) E1 E2 E3)
        as (K1 & K2 & K3). split; [exact K1|split; [|exact K3]]. intros x Hx _. apply K2. exact Hx. }
  destruct l; cbn [answered] in Ha; try discriminate Ha;
    try (injection Ha as <- <- <-; apply Stay; auto; fail).
  - (* LDStep *)
    destruct (g_dpc s) eqn:Ed; try (injection Ha as <- <- <-; cbn [effect]; rewrite Ed; apply Stay; auto; fail).
    + eapply Wr2; [reflexivity|exact Ha| |]; intros; cbn [effect]; rewrite Ed; reflexivity.
    + eapply Wr2; [reflexivity|exact Ha| |]; intros; cbn [effect]; rewrite Ed; reflexivity.
  - (* LDSeekRes *)
    destruct ok; [|injection Ha as <- <- <-; apply Stay; auto].
    destruct (g_dpc s) as [| | | | | | | |a0 b0| | | | | | | |] eqn:Ed; try discriminate Ha.
    destruct (i_wseek I _ st) as [k st2] eqn:E. injection Ha as <- <- <-.
    destruct (h_wseek _ _ Hi _ _ _ _ E) as (A1 & A2 & A3).
    destruct k; [|apply Stay; auto]. cbn [effect]. rewrite Ed.
    destruct R as [R1 R2 R3 R4 R5 R6]. split; [|split; [|split; [|rewrite A1; lia]]].
    + constructor; cbn; rewrite ?A1, ?A2, ?A3; auto.
    + intros x _ Hx. exfalso. eapply Hx. reflexivity.
    + unfold stored. rewrite A1. auto.
  - (* LRStep *)
    destruct (g_rpc s) eqn:Eg; try (injection Ha as <- <- <-; cbn [effect]; rewrite Eg; apply Stay; auto; fail).
    + destruct (i_read I n st) as [r st2] eqn:E.
      pose proof (h_read _ _ Hi _ _ _ _ E) as (A1 & A2 & A3).
      destruct r as [bs2|e|]; [|injection Ha as <- <- <-; apply Stay; auto|discriminate].
      injection Ha as <- <- <-. cbn [effect]. rewrite Eg.
      destruct (read_same _ _ _ _ _ _ _ _ _ _ _ _ _ _ Hi HS Eg E) as [Hn Hsl].
      destruct A3 as (A3 & _). destruct R as [R1 R2 R3 R4 R5 R6].
      subst L. rewrite read_limited by auto. cbn [snd].
      split; [|split; [|split; [|rewrite A1; lia]]].
      * constructor; cbn; rewrite ?A1, ?A2, ?A3; auto.
      * cbn. intros; lia.
      * unfold stored. rewrite A1. auto.
    + destruct (i_rseek I p st) as [k st2] eqn:E. injection Ha as <- <- <-.
      destruct (h_rseek _ _ Hi _ _ _ _ E) as (A1 & A2 & A3).
      destruct k; [|apply Stay; auto]. cbn [effect]. rewrite Eg.
      destruct R as [R1 R2 R3 R4 R5 R6]. split; [|split; [|split; [|rewrite A1; lia]]].
      * constructor; cbn; rewrite ?A1, ?A2, ?A3; auto.
      * cbn. intros; lia.
      * unfold stored. rewrite A1. auto.
Qed.

Lemma facing_read : forall {St} (I : custom St) (st : St) n bs, length bs <= n ->
  fst (file_read n (mkFile (repeat x00 (i_rpos I st) ++ bs) (i_rpos I st) [] 0 (i_wpos I st) [])) = Ok bs.
Proof.
  intros St I st n bs H. unfold file_read, file_limit. cbn [f_buf f_cap f_data f_off f_lim fst].
  replace (0 <=? n) with true by (symmetry; apply Nat.leb_le; lia). cbn [fst]. f_equal.
  unfold slice. rewrite skipn_app, repeat_length, Nat.sub_diag, skipn_all2 by (rewrite repeat_length; lia).
  apply firstn_all2. exact H.
Qed.

(** Environments that do not look at the store. *)
Definition storeless (allow : gstate -> label -> Prop) : Prop :=
  forall s u l, allow s l -> allow (set_store s u) l.

Lemma sim_step : forall {St} m (I : custom St) view c s st W f l bs l' st' s',
  honours I view -> sane c -> own_storage c -> honours_ranges c ->
  (m = false -> c_seekable c = false) ->
  (forall u, front_env m c (set_store s u) l') -> sim m I view c s st W f ->
  answered I c s st l = Some (bs, l', st') -> step c (facing I s st bs) l' = Some s' ->
  exists W', let f' := effect c s l' (with_lim f [length bs]) in
    sim m I view c s' st' W' f' /\
    exists M, forall X, step c (on s (with_lim f (M ++ X))) l' = Some (on s' (with_lim f' X)).
Proof.
  intros St m I view c s st W f l bs l' st' s' Hi Hs Ho Hh Hm He HS Ha H.
  pose proof (rel_step m I view c s st W f l bs l' st' [length bs] Hi HS Ha eq_refl) as (K1 & K2 & K3 & K4).
  pose proof (sm_rel _ _ _ _ _ _ _ _ HS) as R. pose proof (sm_inv _ _ _ _ _ _ _ _ HS) as V.
  pose proof (inv_lim _ _ _ _ _ [length bs] (own_short _ Ho) V) as V2.
  set (fl := with_lim f [length bs]) in *.
  assert (Hr0 : forall X, l' = LRStep -> forall n pos rq w, g_rpc s = RRRead n pos rq w ->
    fst (file_read n (mkFile (repeat x00 (i_rpos I st) ++ bs) (i_rpos I st) [] 0 (i_wpos I st) [])) = Ok bs /\
    file_read n (with_lim f (length bs :: X)) =
      (Ok bs, mkFile (f_data f) (f_off f + length bs) [] 0 (f_wpos f) X)).
  { intros X -> n pos rq w Eg.
    assert (Ha' : l = LRStep /\ i_read I n st = (Ok bs, st')).
    { clear - Ha Eg. destruct l; cbn [answered] in Ha; try discriminate Ha.
      - exfalso. unfold write_answer in Ha. split_match Ha; try discriminate Ha.
        all: repeat (split_match Ha; try discriminate Ha).
      - exfalso. repeat (split_match Ha; try discriminate Ha).
      - split; auto. rewrite Eg in Ha. destruct (i_read I n st) as [[b|e|] st2]; try discriminate Ha.
        injection Ha as -> ->. reflexivity. }
    destruct Ha' as [_ Ea].
    destruct (read_same _ _ _ _ _ _ _ _ _ _ _ _ _ _ Hi HS Eg Ea) as [Hn Hsl].
    rewrite facing_read by auto. rewrite read_limited; auto; apply R. }
  assert (Hr : forall X, l' = LRStep -> forall n pos rq w, g_rpc s = RRRead n pos rq w ->
    fst (file_read n (mkFile (repeat x00 (i_rpos I st) ++ bs) (i_rpos I st) [] 0 (i_wpos I st) [])) =
    fst (file_read n (with_lim f (length bs :: X)))).
  { intros X E n pos rq w Eg. destruct (Hr0 X E _ _ _ _ Eg) as [-> ->]. reflexivity. }
  destruct (step_alike c s l' (mkFile (repeat x00 (i_rpos I st) ++ bs) (i_rpos I st) [] 0 (i_wpos I st) []) fl s' eq_refl (rl_buf _ _ _ _ R) (eq_sym (rl_rpos _ _ _ _ R))
    (eq_sym (rl_wpos _ _ _ _ R)) (Hr []) H) as (t & T & Eb).
  pose proof (step_effect c s l' fl t (rl_buf _ _ _ _ R) T) as Et.
  pose proof (bare_eq _ _ Eb) as Et2. rewrite Et in Et2.
  destruct (inv_step m c (on s fl) l' t W (UFile fl) Hs Hh Hm (He _) V2 T) as (W' & u' & V' & HW).
  assert (Eu : u' = UFile (effect c s l' fl)).
  { pose proof (co_store _ _ _ _ (proj1 (iv_core _ _ _ _ _ V'))) as E. rewrite Et in E. congruence. }
  subst u'. exists W'. split; [constructor; auto|].
  { unfold on. rewrite <- Et2. exact V'. }
  { intros x Hx. destruct (HW x Hx) as [Hx2|[Hx2 Hns]].
    + apply K3. apply (sm_stored _ _ _ _ _ _ _ _ HS). exact Hx2.
    + apply K2; auto. }
  { pose proof (co_len _ _ _ _ (proj1 (iv_core _ _ _ _ _ V'))) as Hlen. cbn in Hlen.
    pose proof (sm_len _ _ _ _ _ _ _ _ HS). lia. }
  assert (D : (l' = LRStep /\ exists n pos rq w, g_rpc s = RRRead n pos rq w) \/
    ~ (l' = LRStep /\ exists n pos rq w, g_rpc s = RRRead n pos rq w)).
  { destruct l'; try (right; intros [E _]; discriminate E; fail).
    destruct (g_rpc s); try (right; intros (_ & n0 & p0 & q0 & w0 & E); discriminate E; fail).
    left. eauto 6. }
  destruct D as [(El & n & pos & rq & w & Eg)|D].
  - exists [length bs]. intros X. cbn [app].
    destruct (step_alike c s l' (mkFile (repeat x00 (i_rpos I st) ++ bs) (i_rpos I st) [] 0 (i_wpos I st) []) (with_lim f (length bs :: X)) s' eq_refl (rl_buf _ _ _ _ R) (eq_sym (rl_rpos _ _ _ _ R))
      (eq_sym (rl_wpos _ _ _ _ R)) (Hr X) H) as (t2 & T2 & Eb2).
    pose proof (step_effect c s l' (with_lim f (length bs :: X)) t2 (rl_buf _ _ _ _ R) T2) as Et3.
    pose proof (bare_eq _ _ Eb2) as Et4. rewrite Et3 in Et4. unfold on. rewrite T2, Et4. repeat f_equal.
    unfold effect. rewrite El, Eg. unfold fl.
    rewrite (proj2 (Hr0 X El _ _ _ _ Eg)), (proj2 (Hr0 [] El _ _ _ _ Eg)). reflexivity.
  - exists []. intros X. cbn [app].
    destruct (step_alike c s l' (mkFile (repeat x00 (i_rpos I st) ++ bs) (i_rpos I st) [] 0 (i_wpos I st) []) (with_lim f X) s' eq_refl (rl_buf _ _ _ _ R) (eq_sym (rl_rpos _ _ _ _ R))
      (eq_sym (rl_wpos _ _ _ _ R))) as (t2 & T2 & Eb2); auto.
    { intros El n pos rq w Eg. destruct D. eauto 6. }
    pose proof (step_effect c s l' (with_lim f X) t2 (rl_buf _ _ _ _ R) T2) as Et3.
    pose proof (bare_eq _ _ Eb2) as Et4. rewrite Et3 in Et4. unfold on. rewrite T2, Et4. repeat f_equal.
    clear - D. unfold effect, fl, file_write.
    destruct l'; try reflexivity.
    + destruct (g_dpc s); try reflexivity; destruct (slice _ _ _); reflexivity.
    + destruct ok; [|reflexivity]. destruct (g_dpc s); reflexivity.
    + destruct (g_dpc s); try reflexivity; destruct (slice _ _ _); reflexivity.
    + destruct (g_rpc s) eqn:Eg; try reflexivity. destruct D. eauto 6.
Qed.

Lemma sim_reach : forall {St} m (I : custom St) view c (allow : gstate -> label -> Prop) s st,
  honours I view -> sane c -> own_storage c -> honours_ranges c ->
  (m = false -> c_seekable c = false) ->
  (forall s0 u l, allow s0 l -> front_env m c (set_store s0 u) l) ->
  creach I c allow s st -> exists W f, sim m I view c s st W f.
Proof.
  intros St m I view c allow s st Hi Hs Ho Hh Hm He H. induction H as [s H|s st l bs l' st' s' _ (W & f & IH) Ha Hl H].
  - pose proof (sim_init m I view c s Hi Hs Ho H). eauto.
  - destruct (sim_step m I view c s st W f l bs l' st' s') as (W' & K & _); eauto.
Qed.

(** ** Refinement *)

(** The file with [limits] on its reads, instead of the user's storage. *)
Definition on_file (c : cfg) (limits : list nat) : cfg :=
  with_provider c (PPlain (PlCustom limits)).

Lemma step_on_file : forall c L s l, own_storage c -> step (on_file c L) s l = step c s l.
Proof. intros [] L s l H. unfold own_storage in H. cbn in H. subst. destruct l; reflexivity. Qed.

Lemma run_last : forall c ls s s1 l s2, run c s ls = Some s1 -> step c s1 l = Some s2 ->
  run c s (ls ++ [l]) = Some s2.
Proof.
  intros c. induction ls as [|a ls IH]; intros s s1 l s2 H1 H2; cbn [run app] in *.
  - injection H1 as <-. rewrite H2. reflexivity.
  - destruct (step c s a) as [s0|]; [|discriminate]. eauto.
Qed.

Lemma allowed_last : forall c (allow : gstate -> label -> Prop) ls s s1 l s2, run c s ls = Some s1 ->
  allowed c allow s ls -> allow s1 l -> step c s1 l = Some s2 -> allowed c allow s (ls ++ [l]).
Proof.
  intros c allow. induction ls as [|a ls IH]; intros s s1 l s2 H1 Ha Hl H2; cbn [run allowed app] in *.
  - injection H1 as <-. rewrite H2. auto.
  - destruct Ha as [Ha1 Ha]. split; auto. destruct (step c s a) as [s0|]; [|discriminate]. eauto.
Qed.

Lemma refine : forall {St} m (I : custom St) view c (allow : gstate -> label -> Prop) ls s st,
  honours I view -> sane c -> own_storage c -> honours_ranges c ->
  (m = false -> c_seekable c = false) ->
  (forall s0 u l, allow s0 l -> front_env m c (set_store s0 u) l) -> storeless allow ->
  cpath I c allow ls s st ->
  exists L W f, sim m I view c s st W f /\
    forall X, exists s0, init (on_file c (L ++ X)) = Some s0 /\
      allowed (on_file c (L ++ X)) allow s0 ls /\
      run (on_file c (L ++ X)) s0 ls = Some (on s (with_lim f X)).
Proof.
  intros St m I view c allow ls s st Hi Hs Ho Hh Hm He Hst H.
  induction H as [s H|ls s st l bs l' st' s' _ (L & W & f & IH & Hrun) Ha Hl H].
  - exists [], [], (mkFile [] 0 [] 0 0 []). split; [apply sim_init; auto|].
    intros X. unfold init in H. pose proof Ho as Ho2. unfold own_storage in Ho2. rewrite Ho2 in H. cbn in H. injection H as <-.
    eexists. split; [reflexivity|]. cbn [allowed run]. split; [exact Logic.I|reflexivity].
  - destruct (sim_step m I view c s st W f l bs l' st' s') as (W' & K & M & D); auto.
    set (f' := effect c s l' (with_lim f [length bs])) in *.
    exists (L ++ M), W', f'. split; [exact K|]. intros X.
    destruct (Hrun (M ++ X)) as (s0 & E1 & E2 & E3). rewrite app_assoc in E1, E2, E3. exists s0. split; [exact E1|].
    assert (T : step (on_file c ((L ++ M) ++ X)) (on s (with_lim f (M ++ X))) l' = Some (on s' (with_lim f' X)))
      by (rewrite step_on_file by auto; apply D).
    split; [|eapply run_last; eauto]. eapply allowed_last; eauto.
Qed.

(** Where the file lets the program move, the storage does. *)
Lemma custom_moves : forall {St} (I : custom St) view c s st f l s2,
  honours I view -> rel I view st f -> action l = true -> productive s l ->
  step c (on s f) l = Some s2 ->
  exists l2 bs l' st' s', action l2 = true /\ answered I c s st l2 = Some (bs, l', st') /\
    action l' = true /\ productive s l' /\ step c (facing I s st bs) l' = Some s'.
Proof.
  intros St I view c s st f l s2 Hi R Ha Hp H.
  assert (Alike : forall l0 bs, (l0 = LRStep -> forall n pos rq w, g_rpc s <> RRRead n pos rq w) ->
    step c (on s f) l0 <> None -> exists s', step c (facing I s st bs) l0 = Some s').
  { intros l0 bs Hn H0. destruct (step c (on s f) l0) as [s3|] eqn:E; [|congruence].
    destruct (step_alike c s l0 f (mkFile (repeat x00 (i_rpos I st) ++ bs) (i_rpos I st) [] 0 (i_wpos I st) []) s3
      (rl_buf _ _ _ _ R) eq_refl (rl_rpos _ _ _ _ R) (rl_wpos _ _ _ _ R)) as (t & T & _); auto.
    - intros El n pos rq w Eg. destruct (Hn El n pos rq w Eg).
    - exists t. exact T. }
  assert (Wr : forall bytes w, (exists batch, batch = slice bytes w (Nat.min (c_batch c) (length bytes - w)) /\
      answered I c s st LDStep = write_answer I batch st) ->
    (exists s', step c (facing I s st []) LDStep = Some s') ->
    (exists s', step c (facing I s st []) LDIoErr = Some s') ->
    (forall k, 0 < k < Nat.min (c_batch c) (length bytes - w) -> exists s', step c (facing I s st []) (LDShort k) = Some s') ->
    exists l2 bs l' st' s', action l2 = true /\ answered I c s st l2 = Some (bs, l', st') /\
      action l' = true /\ productive s l' /\ step c (facing I s st bs) l' = Some s').
  { intros bytes w (batch & Eb & Ea) [t1 T1] [t2 T2] T3. exists LDStep. rewrite Ea. unfold write_answer.
    destruct (i_write I batch st) as [r st'] eqn:Ew. destruct (h_write _ _ Hi _ _ _ _ Ew) as [_ A].
    destruct r as [k|e|]; [|do 4 eexists; repeat split; eauto|contradiction].
    destruct A as (A1 & A2 & _). destruct (Nat.eqb_spec k (length batch)) as [Ek|Ek]; [do 4 eexists; repeat split; eauto|].
    assert (Hk : 0 < k) by (apply A2; intros ->; cbn in *; lia).
    assert (Hk2 : k < length batch) by lia.
    apply Nat.ltb_lt in Hk as Hk3. apply Nat.ltb_lt in Hk2 as Hk4. rewrite Hk3, Hk4. cbn [andb].
    destruct (T3 k) as [t3 T4]; [rewrite Eb, length_slice in Hk2; lia|].
    do 4 eexists; repeat split; eauto. }
  assert (Sh : forall bytes w k, 0 < k < Nat.min (c_batch c) (length bytes - w) ->
    write_short c (facing I s st []) bytes w k <> None).
  { intros bytes w k [K1 K2]. unfold write_short, facing. cbn [g_store set_store st_write st_plain andb].
    destruct (Nat.ltb_spec 0 k); [|lia]. destruct (Nat.ltb_spec k (Nat.min (c_batch c) (length bytes - w))); [|lia].
    cbn. discriminate. }
  assert (Dst : l = LDStep \/ (exists k, l = LDShort k) -> 
    exists l2 bs l' st' s', action l2 = true /\ answered I c s st l2 = Some (bs, l', st') /\
      action l' = true /\ productive s l' /\ step c (facing I s st bs) l' = Some s').
  { intros El. destruct (g_dpc s) as [|bytes w| |bytes w pos nw| | | | | | | | | | | | |] eqn:Ed.
    2:{ apply (Wr bytes w).
        - eexists. split; [reflexivity|]. cbn [answered]. rewrite Ed. reflexivity.
        - cbn [step]. unfold d_step, facing. cbn [g_dpc set_store]. rewrite Ed. destruct (write_once _ _ _ _) as [k0 s0]; destruct (k0 =? 0); eauto.
        - cbn [step]. unfold facing. cbn [g_dpc set_store]. rewrite Ed. eauto.
        - intros k Hk. cbn [step]. unfold facing at 1. cbn [g_dpc set_store]. rewrite Ed.
          destruct (write_short c (facing I s st []) bytes w k) as [[k' s1]|] eqn:E; [eauto|destruct (Sh _ _ _ Hk E)]. }
    3:{ apply (Wr bytes (w + nw)).
        - eexists. split; [reflexivity|]. cbn [answered]. rewrite Ed. reflexivity.
        - cbn [step]. unfold d_step, facing. cbn [g_dpc set_store]. rewrite Ed. destruct (write_once _ _ _ _) as [k0 s0]; destruct (k0 =? 0); eauto.
        - cbn [step]. unfold facing. cbn [g_dpc set_store]. rewrite Ed. eauto.
        - intros k Hk. cbn [step]. unfold facing at 1. cbn [g_dpc set_store]. rewrite Ed.
          destruct (write_short c (facing I s st []) bytes (w + nw) k) as [[k' s1]|] eqn:E; [eauto|destruct (Sh _ _ _ Hk E)]. }
    all: destruct El as [->|[k ->]]; [|exfalso; cbn [step] in H; unfold on in H; cbn [g_dpc set_store] in H; rewrite Ed in H; discriminate H].
    all: exists LDStep; cbn [answered]; rewrite Ed; destruct (Alike LDStep []) as [t T]; [discriminate|congruence|];
      do 4 eexists; repeat split; eauto. }
  assert (Easy : answered I c s st l = Some ([], l, st) ->
    (l = LRStep -> forall n pos rq w, g_rpc s <> RRRead n pos rq w) ->
    exists l2 bs l' st' s', action l2 = true /\ answered I c s st l2 = Some (bs, l', st') /\
      action l' = true /\ productive s l' /\ step c (facing I s st bs) l' = Some s').
  { intros Ea Hn. exists l, [], l, st. destruct (Alike l [] Hn) as [t T]; [congruence|]. exists t. auto. }
  destruct l; cbn in Ha; try discriminate Ha; try (apply Easy; [reflexivity|discriminate]; fail);
    try (apply Dst; eauto; fail).
  - (* LDSeekRes *)
    destruct ok; [|apply Easy; [reflexivity|discriminate]].
    destruct (g_dpc s) eqn:Ed;
      try (exfalso; cbn [step] in H; unfold on in H; cbn [g_dpc set_store] in H; rewrite Ed in H; discriminate H).
    exists (LDSeekRes true), []. cbn [answered]. rewrite Ed.
    destruct (i_wseek I start st) as [k st'] eqn:E. exists (LDSeekRes k), st'.
    destruct (Alike (LDSeekRes k) []) as [t T]; [discriminate| |exists t; auto].
    destruct k; [congruence|]. cbn [step]. unfold on, seek_done. cbn [g_dpc set_store]. rewrite Ed. discriminate.
  - (* LRStep *)
    destruct (g_rpc s) eqn:Eg; try (apply Easy; [cbn [answered]; rewrite Eg; reflexivity|intros _ ? ? ? ? E; discriminate E]; fail).
    + exists LRStep. cbn [answered]. rewrite Eg. destruct (i_read I n st) as [r st'] eqn:E.
      destruct (h_read _ _ Hi _ _ _ _ E) as (_ & _ & A).
      destruct r as [bs|e|]; [|do 4 eexists; repeat split; cbn; unfold r_error, facing; cbn; rewrite Eg; reflexivity|contradiction].
      destruct (step c (facing I s st bs) LRStep) as [t|] eqn:T; [exists bs, LRStep, st', t; auto|exfalso].
      cbn [step] in T. unfold r_step, facing in T. cbn [g_rpc set_store] in T. rewrite Eg in T.
      cbn [g_store set_store st_read u_read] in T. destruct (file_read _ _) as [[] f']; discriminate T.
    + exists LRStep, []. cbn [answered]. rewrite Eg. destruct (i_rseek I p st) as [k st'] eqn:E.
      destruct k.
      * destruct (Alike LRStep []) as [t T]; [intros _ ? ? ? ? X; discriminate X|congruence|]. exists LRStep, st', t. auto.
      * destruct (Alike LRIoErr []) as [t T]; [discriminate| |exists LRIoErr, st', t; auto].
        cbn [step]. unfold r_error, on. cbn [g_rpc set_store g_store st_plain]. rewrite Eg. discriminate.
Qed.

Lemma custom_refines : forall {St} (I : custom St) view c (allow : gstate -> label -> Prop) ls s st,
  honours I view -> sane c -> own_storage c -> honours_ranges c ->
  (forall s l, allow s l -> honest_env c s l) ->
  (c_seekable c = false \/ forall s l, allow s l -> roaming_client c s l) ->
  storeless allow -> cpath I c allow ls s st ->
  exists L f s0, rel I view st f /\ init (on_file c L) = Some s0 /\
    allowed (on_file c L) allow s0 ls /\ run (on_file c L) s0 ls = Some (on s f).
Proof.
  intros St I view c allow ls s st Hi Hs Ho Hh He Hf Hst H.
  assert (K : exists m, (m = false -> c_seekable c = false) /\
    forall s0 u l, allow s0 l -> front_env m c (set_store s0 u) l).
  { destruct Hf as [Hf|Hf].
    - exists false. split; auto. intros s0 u l Hl. destruct (He _ _ (Hst _ u _ Hl)) as [A1 A2].
      split; [exact A1|split; [exact A2|discriminate]].
    - exists true. split; [discriminate|]. intros s0 u l Hl. destruct (He _ _ (Hst _ u _ Hl)) as [A1 A2].
      split; [exact A1|split; [exact A2|]]. intros _. apply Hf. auto. }
  destruct K as (m & K1 & K2).
  destruct (refine m I view c allow ls s st) as (L & W & f & Hsim & K); auto.
  destruct (K []) as (s0 & E1 & E2 & E3). exists (L ++ []), (with_lim f []), s0.
  split; [apply rel_lim; apply Hsim|auto].
Qed.

Lemma allowed_less : forall c (P Q : gstate -> label -> Prop), (forall s l, P s l -> Q s l) ->
  forall ls s, allowed c P s ls -> allowed c Q s ls.
Proof.
  intros c P Q H. induction ls as [|l ls IH]; intros s; cbn [allowed]; [auto|].
  destruct (step c s l); intros [A B]; split; auto; contradiction.
Qed.

Lemma creach_path : forall {St} (I : custom St) c (allow : gstate -> label -> Prop) s st,
  creach I c allow s st -> exists ls, cpath I c allow ls s st.
Proof.
  intros St I c allow s st H. induction H as [s H|s st l bs l' st' s' _ [ls IH] Ha Hl H].
  - exists []. constructor. exact H.
  - exists (ls ++ [l']). econstructor; eauto.
Qed.

Lemma custom_roaming : forall {St} (I : custom St) view c s st,
  honours I view -> sane c -> own_storage c -> honours_ranges c ->
  creach I c (roaming_env c) s st -> every_event (read_ok c) (g_trace s).
Proof.
  intros St I view c s st Hi Hs Ho Hh H.
  destruct (sim_reach true I view c (roaming_env c) s st) as (W & f & K); auto.
  - discriminate.
  - intros s0 u l (A1 & A2 & A3). split; [exact A2|split; [exact A3|intros _; exact A1]].
  - apply all_events_every. apply (fr_trace _ _ _ _ (iv_front _ _ _ _ _ (sm_inv _ _ _ _ _ _ _ _ K))).
Qed.

Lemma custom_unseekable : forall {St} (I : custom St) view c s st,
  honours I view -> sane c -> own_storage c -> honours_ranges c -> c_seekable c = false ->
  creach I c (honest_env c) s st -> every_event (read_ok c) (g_trace s).
Proof.
  intros St I view c s st Hi Hs Ho Hh Hk H.
  destruct (sim_reach false I view c (honest_env c) s st) as (W & f & K); auto.
  - intros s0 u l (A2 & A3). split; [exact A2|split; [exact A3|discriminate]].
  - apply all_events_every. apply (fr_trace _ _ _ _ (iv_front _ _ _ _ _ (sm_inv _ _ _ _ _ _ _ _ K))).
Qed.

Lemma covered_downloaded : forall s x, is_downloaded s x -> covered (g_down s) x.
Proof. intros s x (a & b & H1 & H2). exists a, b. auto. Qed.

(** What is recorded as downloaded is in the storage, and is right. *)
Lemma custom_stored : forall {St} (I : custom St) view c s st x,
  honours I view -> sane c -> own_storage c -> honours_ranges c ->
  creach I c (roaming_env c) s st -> is_downloaded s x ->
  exists b, nth_error (view st) x = Some (Some b) /\ nth_error (c_content c) x = Some b.
Proof.
  intros St I view c s st x Hi Hs Ho Hh H Hx.
  destruct (sim_reach true I view c (roaming_env c) s st) as (W & f & K); auto.
  - discriminate.
  - intros s0 u l (A1 & A2 & A3). split; [exact A2|split; [exact A3|intros _; exact A1]].
  - pose proof (iv_core _ _ _ _ _ (sm_inv _ _ _ _ _ _ _ _ K)) as [KT _].
    pose proof (co_down _ _ _ _ KT x (covered_downloaded _ _ Hx)) as Hw.
    destruct (sm_stored _ _ _ _ _ _ _ _ K x Hw) as [b Hb]. exists b. split; auto.
    destruct (ui_data _ _ _ (co_inv _ _ _ _ KT) x Hw) as [_ E]. rewrite <- E.
    apply (rl_data _ _ _ _ (sm_rel _ _ _ _ _ _ _ _ K)). exact Hb.
Qed.

(** ** Clients that only read *)

Lemma creach_sequential : forall {St} (I : custom St) c (allow : gstate -> label -> Prop) s st,
  (forall s l, allow s l -> sequential_client s l) -> creach I c allow s st ->
  reads_only (g_rpc s) /\ Forall no_seek_event (g_trace s) /\ g_chan s = None.
Proof.
  intros St I c allow s st Ha H. induction H as [s H|s st l bs l' st' s' Hr (IH1 & IH2 & IH3) _ Hl H].
  - unfold init in H. destruct (into_rw _ _); [|discriminate]. injection H as <-. cbn; auto.
  - apply Ha in Hl. clear Hr Ha. unfold facing in H.
    step_cases H; gsimpl;
      repeat match goal with
      | E : g_rpc _ = _ |- _ => rewrite E in *; clear E
      end; cbn [reads_only] in *; try contradiction; try discriminate;
      repeat split; auto; repeat (constructor; [exact Logic.I|]); auto.
Qed.

Lemma creach_roaming : forall {St} (I : custom St) c env s st,
  creach I c (both sequential_client env) s st -> creach I c (both (roaming_client c) env) s st.
Proof.
  intros St I c env s st H.
  induction H as [s H|s st l bs l' st' s' Hr IH Ha [Hl He] H]; [apply creach_init; exact H|].
  eapply creach_step; [exact IH|exact Ha| |exact H]. split; [|exact He].
  edestruct (creach_sequential I c (both sequential_client env) s st) as (Hns & _ & _);
    [intros s0 l0 [A _]; exact A|exact Hr|].
  destruct l'; cbn in *; auto.
  - destruct (g_rpc s); auto.
  - destruct o; [auto|contradiction].
Qed.

Lemma custom_delivered : forall {St} (I : custom St) view c s st,
  honours I view -> sane c -> own_storage c -> honours_ranges c ->
  creach I c (both sequential_client (honest_env c)) s st ->
  (exists k, delivered (g_trace s) = firstn k (c_content c)) /\
  (forall newer pos n waited older,
     g_trace s = newer ++ EvRead pos n waited (Ok []) :: older -> 0 < n ->
     delivered (g_trace s) = c_content c).
Proof.
  intros St I view c s st Hi Hs Ho Hh H.
  assert (Hev : every_event (read_ok c) (g_trace s)).
  { eapply custom_roaming; eauto. apply creach_roaming. exact H. }
  edestruct (creach_sequential I c (both sequential_client (honest_env c)) s st) as (_ & Hns & _); [|exact H|].
  { intros s0 l [A _]; exact A. }
  pose proof (delivered_cursor c _ (every_all _ _ Hev) Hns) as Hd.
  split; [exists (cursor (g_trace s)); rewrite Hd; reflexivity|].
  intros newer pos n waited older E Hn.
  pose proof (Hev _ _ _ E) as [Hp (k & Hf & _ & Hk & _)]. symmetry in Hf.
  apply slice_nil_inv in Hf as [Hf|Hf]; [lia|].
  rewrite Hd. apply slice_full.
  assert (Hmono : cursor older <= cursor (g_trace s)).
  { rewrite E in *. clear - Hns. induction newer as [|e newer IH]; cbn in *.
    - lia.
    - inversion Hns; subst. specialize (IH H2). destruct e; auto; try contradiction.
      destruct r; cbn; auto; lia. }
  lia.
Qed.

(** ** Executions by computation *)

Fixpoint crun {St} (I : custom St) (c : cfg) (ab : gstate -> label -> bool) (s : gstate) (st : St)
    (ls : list label) : option (gstate * St) :=
  match ls with
  | [] => Some (s, st)
  | l :: t =>
      match answered I c s st l with
      | Some (bs, l', st') =>
          if ab s l' then
            match step c (facing I s st bs) l' with
            | Some s' => crun I c ab s' st' t
            | None => None
            end
          else None
      | None => None
      end
  end.

Definition cexec {St} (I : custom St) (c : cfg) (ab : gstate -> label -> bool) (ls : list label)
  : option (gstate * St) :=
  match init c with Some s => crun I c ab s (i_new I (c_clen c)) ls | None => None end.

Lemma cexec_reach : forall {St} (I : custom St) c ab (allow : gstate -> label -> Prop) ls s st,
  decides ab allow -> cexec I c ab ls = Some (s, st) -> creach I c allow s st.
Proof.
  intros St I c ab allow ls s st Hd H. unfold cexec in H.
  destruct (init c) as [s0|] eqn:E; [|discriminate].
  assert (R : creach I c allow s0 (i_new I (c_clen c))) by (apply creach_init; auto).
  clear E. revert R H. generalize (i_new I (c_clen c)). revert s0.
  induction ls as [|l ls IH]; intros s0 st0 R H; cbn in H; [congruence|].
  destruct (answered I c s0 st0 l) as [[[bs l'] st1]|] eqn:Ea; [|discriminate].
  destruct (ab s0 l') eqn:Eb; [|discriminate].
  destruct (step c (facing I s0 st0 bs) l') as [s1|] eqn:Es; [|discriminate].
  eapply IH; [|exact H]. eapply creach_step; eauto.
Qed.

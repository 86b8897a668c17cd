(** * Temporary files: proofs *)

From Coq Require Import Arith Lia Bool String List.
From Verif Require Import Base ListFacts Storage Files FilesSpec.
Import ListNotations.
Local Open Scope nat_scope.
Local Open Scope list_scope.

Lemma path_eqb_spec : forall p q, reflect (p = q) (path_eqb p q).
Proof.
  intros [a b] [a' b']. unfold path_eqb. cbn.
  destruct (String.eqb_spec a a'), (String.eqb_spec b b'); cbn; constructor; congruence.
Qed.

Ltac upds := unfold upd, upd_name in *; cbn [o_data o_name o_desc o_fd o_fresh d_file d_off d_append d_refs fst snd] in *;
  repeat (match goal with
  | |- context [?a =? ?b] => destruct (Nat.eqb_spec a b); try lia
  | H : context [?a =? ?b] |- _ => destruct (Nat.eqb_spec a b); try lia
  | |- context [path_eqb ?a ?b] => destruct (path_eqb_spec a b)
  | H : context [path_eqb ?a ?b] |- _ => destruct (path_eqb_spec a b)
  end; cbn [o_data o_name o_desc o_fd o_fresh d_file d_off d_append d_refs fst snd] in * ).

(** What creating a storage does to the system. *)
Record opened (o : os) (nm : named) (w : nat) (o' : os) (i d1 d2 : nat) : Prop := mkOpened
  { op_i : o_fresh o <= i; op_d1 : o_fresh o <= d1; op_d2 : o_fresh o <= d2;
    op_r : o_fresh o <= n_fd nm; op_w : o_fresh o <= w;
    op_lt : i < o_fresh o' /\ d1 < o_fresh o' /\ d2 < o_fresh o' /\ n_fd nm < o_fresh o' /\ w < o_fresh o';
    op_ne : d1 <> d2 /\ n_fd nm <> w;
    op_data : o_data o' i = []; op_else : forall x, x <> i -> o_data o' x = o_data o x;
    op_fd1 : o_fd o' (n_fd nm) = Some d1; op_fd2 : o_fd o' w = Some d2;
    op_fds : forall x, x <> n_fd nm -> x <> w -> o_fd o' x = o_fd o x;
    op_desc1 : exists a, o_desc o' d1 = Some (mkDescr i 0 a 1);
    op_desc2 : o_desc o' d2 = Some (mkDescr i 0 false 1);
    op_descs : forall x, x <> d1 -> x <> d2 -> o_desc o' x = o_desc o x;
    op_name : o_name o' (n_path nm) = Some i; op_free : o_name o (n_path nm) = None;
    op_names : forall p, p <> n_path nm -> o_name o' p = o_name o p }.

Lemma tempfile_inv : forall b rs o nm o', tempfile o b rs = Some (nm, o') ->
  exists r, In r rs /\ n_path nm = temp_path b r /\ n_keep nm = b_keep b /\
    sys_create o (n_path nm) (b_append b) = Some (n_fd nm, o').
Proof.
  induction rs as [|r rs IH]; intros o nm o' H; cbn in H; [discriminate|].
  destruct (sys_create o (temp_path b r) (b_append b)) as [[fd o1]|] eqn:E.
  - injection H as <- <-. exists r. cbn. auto.
  - destruct (IH _ _ _ H) as (r' & H1 & H2). exists r'. cbn. auto.
Qed.

Lemma close_eq : forall o fd d e, o_fd o fd = Some d -> o_desc o d = Some e ->
  sys_close o fd = mkOs (o_data o) (o_name o)
    (upd (o_desc o) d (if d_refs e <=? 1 then None
                       else Some (mkDescr (d_file e) (d_off e) (d_append e) (d_refs e - 1))))
    (upd (o_fd o) fd None) (o_fresh o).
Proof. intros o fd d e H1 H2. unfold sys_close. rewrite H1, H2. reflexivity. Qed.

Lemma temp_open_spec : forall t x rs o res o', tidy o -> temp_open t x rs o = (res, o') ->
  tidy o' /\ o_fresh o <= o_fresh o' /\
  match res with
  | Some (nm, w) =>
      (exists i d1 d2, opened o nm w o' i d1 d2) /\ n_keep nm = b_keep (builder_of t) /\
      exists r, In r rs /\ n_path nm = temp_path (builder_of t) r
  | None =>
      (forall y, y < o_fresh o -> o_data o' y = o_data o y) /\
      (forall y, o_fd o' y = o_fd o y) /\ (forall y, o_desc o' y = o_desc o y) /\
      (b_keep (builder_of t) = false -> forall p, o_name o' p = o_name o p)
  end.
Proof.
  intros t x rs o res o' [T1 T2] H. unfold temp_open in H.
  destruct (if x_create x then None else tempfile o (builder_of t) rs) as [[nm o1]|] eqn:E1.
  2:{ injection H as <- <-. split; [split; auto|]. split; [lia|]. auto. }
  destruct (x_create x); [discriminate|].
  destruct (tempfile_inv _ _ _ _ _ E1) as (r & R1 & R2 & R3 & Ec). clear E1.
  unfold sys_create in Ec. destruct (o_name o (n_path nm)) eqn:En; [discriminate|].
  injection Ec as Efd Eo1. cbn [o_fresh] in *.
  assert (Tf : forall y, o_fresh o <= y -> o_fd o y = None) by (intros; apply T1; auto).
  assert (Td : forall y, o_fresh o <= y -> o_desc o y = None) by (intros; apply T1; auto).
  clear T1. set (F := o_fresh o) in *.
  assert (Drop : forall o2, o_fd o2 (n_fd nm) = Some (S (S F)) ->
    o_desc o2 (S (S F)) = Some (mkDescr F 0 (b_append (builder_of t)) 1) ->
    drop_named o2 nm = mkOs (o_data o2) (if n_keep nm then o_name o2 else upd_name (o_name o2) (n_path nm) None)
      (upd (o_desc o2) (S (S F)) None) (upd (o_fd o2) (n_fd nm) None) (o_fresh o2)).
  { intros o2 A1 A2. unfold drop_named.
    erewrite close_eq; [|destruct (n_keep nm); exact A1|destruct (n_keep nm); exact A2].
    cbn [d_refs]. replace (1 <=? 1) with true by reflexivity. destruct (n_keep nm); reflexivity. }
  assert (Fail : forall names descs fds fr,
    fr >= F -> (forall y, descs y = o_desc o y) -> (forall y, fds y = o_fd o y) ->
    (forall q, names q = if n_keep nm then o_name o1 q else o_name o q) ->
    fr > F ->
    let o2 := mkOs (o_data o1) names descs fds fr in
    tidy o2 /\ F <= o_fresh o2 /\
    (forall y, y < F -> o_data o2 y = o_data o y) /\
    (forall y, o_fd o2 y = o_fd o y) /\ (forall y, o_desc o2 y = o_desc o y) /\
    (b_keep (builder_of t) = false -> forall p, o_name o2 p = o_name o p)).
  { intros names descs fds fr A1 A2 A3 A4 A5. cbn. split; [|split; [auto|split; [|split; [auto|split; [auto|]]]]].
    - split; cbn.
      + intros y Hy. rewrite A2, A3. split; [apply Tf|apply Td]; lia.
      + intros q i Hq. rewrite A4 in Hq. destruct (n_keep nm); [|specialize (T2 _ _ Hq); lia].
        subst o1. upds; [injection Hq as <-; lia|]. specialize (T2 _ _ Hq). lia.
    - intros y Hy. subst o1. upds. reflexivity.
    - intros K q. rewrite A4, R3, K. reflexivity. }
  destruct (x_reopen x).
  - injection H as <- <-. rewrite Drop by (subst o1; upds; auto; try congruence).
    apply Fail; try lia; subst o1; cbn [o_fresh]; try lia.
    + intros y. upds; try congruence. symmetry. apply Td. lia.
    + intros y. upds; try congruence. symmetry. apply Tf. lia.
    + intros q. destruct (n_keep nm); upds; congruence.
  - assert (E2 : reopen o1 nm = (Some (S (S (S F))), mkOs (o_data o1) (o_name o1)
        (upd (o_desc o1) (S (S (S (S F)))) (Some (mkDescr F 0 false 1)))
        (upd (o_fd o1) (S (S (S F))) (Some (S (S (S (S F)))))) (S (S (S (S (S F))))))).
    { unfold reopen, sys_open_path. replace (o_name o1 (n_path nm)) with (Some F) by (subst o1; upds; congruence).
      unfold sys_open, same_file, sys_desc. subst o1. upds; try lia. reflexivity. }
    rewrite E2 in H. clear E2. set (o2 := mkOs _ _ _ _ _) in H.
    destruct (x_clone x).
    + injection H as <- <-.
      rewrite Drop by (subst o2 o1; upds; auto; try lia).
      erewrite close_eq; [|subst o2 o1; upds; try lia; reflexivity|subst o2 o1; upds; try lia; reflexivity].
      cbn [d_refs]. replace (1 <=? 1) with true by reflexivity.
      apply Fail; subst o2 o1; cbn [o_fresh o_name o_fd o_desc]; try lia.
      * intros y. upds; try congruence; symmetry; apply Td; lia.
      * intros y. upds; try congruence; symmetry; apply Tf; lia.
      * intros q. destruct (n_keep nm); upds; congruence.
    + assert (E3 : sys_dup o2 (S (S (S F))) = Some (S (S (S (S (S F)))), mkOs (o_data o1) (o_name o1)
        (upd (o_desc o2) (S (S (S (S F)))) (Some (mkDescr F 0 false 2)))
        (upd (o_fd o2) (S (S (S (S (S F))))) (Some (S (S (S (S F)))))) (S (S (S (S (S (S F)))))))).
      { unfold sys_dup. subst o2. upds; try lia. reflexivity. }
      rewrite E3 in H. injection H as <- <-.
      erewrite close_eq; [|subst o2 o1; upds; try lia; reflexivity|subst o2 o1; upds; try lia; reflexivity].
      cbn [d_refs d_file d_off d_append]. replace (2 <=? 1) with false by reflexivity. replace (2 - 1) with 1 by reflexivity.
      split; [|split; [subst o2 o1; cbn; lia|split; [|split; [exact R3|eauto]]]].
      * subst o2 o1. split; cbn [o_fresh o_name o_fd o_desc].
        -- intros y Hy. upds; split; [apply Tf|apply Td]; lia.
        -- intros q i Hq. upds; [injection Hq as <-; lia|]. specialize (T2 _ _ Hq). lia.
      * exists F, (S (S F)), (S (S (S (S F)))). rewrite <- Efd in *.
        constructor; subst o2 o1; cbn [o_fresh o_name o_fd o_desc o_data]; fold F; try lia.
        -- upds; lia || auto.
        -- intros y Hy. upds; auto; try congruence.
        -- upds; auto; lia.
        -- upds; auto; lia.
        -- intros y Hy Hy2. upds; auto; try congruence. symmetry. apply Tf. lia.
        -- eexists. upds; auto; lia.
        -- upds; auto; lia.
        -- intros y Hy Hy2. upds; auto; congruence.
        -- upds; auto; congruence.
        -- auto.
        -- intros q Hq. upds; congruence.
Qed.

(** ** The storages and the files they stand for *)

Lemma set_nth_same : forall {A} (l : list A) k a, k < length l -> nth_error (set_nth l k a) k = Some a.
Proof.
  intros A l k a H. unfold set_nth. rewrite nth_error_app2; rewrite firstn_length; [|lia].
  replace (k - Nat.min k (length l)) with 0 by lia. reflexivity.
Qed.

Lemma set_nth_other : forall {A} (l : list A) k j a, k < length l -> j <> k ->
  nth_error (set_nth l k a) j = nth_error l j.
Proof.
  intros A l. induction l as [|b l IH]; intros k j a H Hj; cbn in H; [lia|].
  destruct k, j; cbn in *; try congruence; auto. apply IH; lia.
Qed.

Lemma set_nth_length : forall {A} (l : list A) k a, k < length l -> length (set_nth l k a) = length l.
Proof.
  intros A l k a H. unfold set_nth. rewrite app_length, firstn_length. cbn [length]. rewrite skipn_length. lia.
Qed.

Record cell (cap : nat) (o : os) (t : tstore) (f : tfile) (i d1 d2 : nat) : Prop := mkCell
  { ce_cap : f_cap f = cap; ce_lim : f_lim f = [];
    ce_lt : i < o_fresh o /\ d1 < o_fresh o /\ d2 < o_fresh o; ce_ne : d1 <> d2;
    ce_data : ts_reader t <> None \/ ts_writer t <> None -> o_data o i = f_data f;
    ce_reader : forall nm buf, ts_reader t = Some (nm, buf) ->
      f_buf f = buf /\ o_fd o (n_fd nm) = Some d1 /\
      exists a, o_desc o d1 = Some (mkDescr i (f_off f) a 1);
    ce_writer : forall w, ts_writer t = Some w ->
      o_fd o w = Some d2 /\ o_desc o d2 = Some (mkDescr i (f_wpos f) false 1) }.

Definition apart (g g' : nat * nat * nat) : Prop :=
  match g, g' with
  | (i, d1, d2), (i', d1', d2') =>
      i <> i' /\ d1 <> d1' /\ d1 <> d2' /\ d2 <> d1' /\ d2 <> d2'
  end.

Record linv (cap : nat) (o : os) (ts : list tstore) (fs : list tfile) (gs : list (nat * nat * nat))
  : Prop := mkLinv
  { li_tidy : tidy o; li_fs : length fs = length ts; li_gs : length gs = length ts;
    li_cell : forall k t f i d1 d2, nth_error ts k = Some t -> nth_error fs k = Some f ->
      nth_error gs k = Some (i, d1, d2) -> cell cap o t f i d1 d2;
    li_apart : forall k k' g g', nth_error gs k = Some g -> nth_error gs k' = Some g' -> k <> k' ->
      apart g g' }.

(** Nothing else changes than the description [d], the file [i] and the descriptor [x]. *)
Definition only (o o' : os) (d i x : nat) : Prop :=
  o_fresh o' = o_fresh o /\ (forall y, y <> d -> o_desc o' y = o_desc o y) /\
  (forall y, y <> i -> o_data o' y = o_data o y) /\ (forall y, y <> x -> o_fd o' y = o_fd o y).

Lemma cell_kept : forall cap o o' t f i d1 d2 d j x, cell cap o t f i d1 d2 ->
  only o o' d j x -> j <> i -> d <> d1 -> d <> d2 -> o_fd o x = Some d ->
  cell cap o' t f i d1 d2.
Proof.
  intros cap o o' t f i d1 d2 d j x [C1 C2 C3 C4 C5 C6 C7] (O1 & O2 & O3 & O4) Hj Hd1 Hd2 Hx.
  constructor; auto.
  - rewrite O1. auto.
  - intros K. rewrite O3 by auto. auto.
  - intros nm buf E. destruct (C6 _ _ E) as (K1 & K2 & K3). split; auto.
    rewrite O2, O4 by congruence. auto.
  - intros w E. destruct (C7 _ E) as (K1 & K2). rewrite O2, O4 by congruence. auto.
Qed.

Lemma linv_one : forall cap o ts fs gs k t f i d1 d2 o' t' f' d x,
  linv cap o ts fs gs -> nth_error ts k = Some t -> nth_error fs k = Some f ->
  nth_error gs k = Some (i, d1, d2) -> d = d1 \/ d = d2 -> o_fd o x = Some d ->
  tidy o' -> only o o' d i x -> cell cap o' t' f' i d1 d2 ->
  linv cap o' (set_nth ts k t') (set_nth fs k f') gs.
Proof.
  intros cap o ts fs gs k t f i d1 d2 o' t' f' d x [L1 L2 L3 L4 L5] Et Ef Eg Hd Hx Ht Ho Hc.
  assert (Lk : k < length ts) by (apply nth_error_Some; congruence).
  constructor; auto.
  - rewrite !set_nth_length by lia. exact L2.
  - rewrite set_nth_length by lia. exact L3.
  - intros j t0 f0 i0 e1 e2 E1 E2 E3. destruct (Nat.eq_dec j k) as [->|Hj].
    + rewrite set_nth_same in E1 by lia. rewrite set_nth_same in E2 by lia. congruence.
    + rewrite set_nth_other in E1 by lia. rewrite set_nth_other in E2 by lia.
      destruct (L5 _ _ _ _ Eg E3 (not_eq_sym Hj)) as (A1 & A2 & A3 & A4 & A5).
      eapply (cell_kept cap o o' t0 f0 i0 e1 e2 d i x); eauto; destruct Hd; congruence.
Qed.

Lemma set_nth_id : forall {A} (l : list A) k a, nth_error l k = Some a -> set_nth l k a = l.
Proof.
  intros A l. induction l as [|b l IH]; intros k a H; destruct k; cbn in *; try discriminate.
  - injection H as ->. reflexivity.
  - unfold set_nth in *. cbn. f_equal. apply IH. exact H.
Qed.

Lemma linv_get : forall cap o ts fs gs k t, linv cap o ts fs gs -> nth_error ts k = Some t ->
  exists f i d1 d2, nth_error fs k = Some f /\ nth_error gs k = Some (i, d1, d2) /\ cell cap o t f i d1 d2.
Proof.
  intros cap o ts fs gs k t [L1 L2 L3 L4 L5] Et.
  assert (Lk : k < length ts) by (apply nth_error_Some; congruence).
  destruct (nth_error fs k) as [f|] eqn:Ef; [|apply nth_error_None in Ef; lia].
  destruct (nth_error gs k) as [[[i d1] d2]|] eqn:Eg; [|apply nth_error_None in Eg; lia].
  eauto 10.
Qed.

(** Moving the offset of a description. *)
Lemma only_off : forall o d e p x, only o (set_off o d e p) d (d_file e) x.
Proof. intros. unfold only, set_off. cbn. repeat split; auto. intros y Hy. upds. congruence. Qed.

Lemma tidy_off : forall o d e p, tidy o -> o_desc o d = Some e -> tidy (set_off o d e p).
Proof.
  intros o d e p [T1 T2] E. split; cbn; [|exact T2]. intros x Hx. destruct (T1 x Hx). split; auto.
  upds; congruence.
Qed.

Lemma tidy_close : forall o fd d e, tidy o -> o_fd o fd = Some d -> o_desc o d = Some e ->
  tidy (sys_close o fd).
Proof.
  intros o fd d e [T1 T2] E1 E2. rewrite (close_eq _ _ _ _ E1 E2). split; cbn; [|exact T2].
  intros x Hx. destruct (T1 x Hx). split; upds; auto; congruence.
Qed.

Lemma texec_step : forall cap o ts fs gs a r o' ts', linv cap o ts fs gs ->
  texec cap o ts a = Some (r, o', ts') ->
  expected fs a r /\ exists gs', linv cap o' ts' (file_op cap fs (a, r)) gs'.
Proof.
  intros cap o ts fs gs a r o' ts' L H.
  destruct a as [t x rs|k n|k p|k|k bs|k p|k|k]; cbn [texec] in H.
  - (* TNew *)
    destruct (temp_open t x rs o) as [res o1] eqn:E.
    destruct (temp_open_spec _ _ _ _ _ _ (li_tidy _ _ _ _ _ L) E) as (T & Fr & S).
    destruct L as [L1 L2 L3 L4 L5].
    destruct res as [[nm w]|].
    + injection H as <- <- <-. split; [cbn; eauto|]. cbn [file_op fst snd].
      destruct S as ((i & d1 & d2 & O) & _ & _). exists (gs ++ [(i, d1, d2)]). 
      destruct O.
      assert (Old : forall t f i' e1 e2, cell cap o t f i' e1 e2 -> cell cap o1 t f i' e1 e2).
      { intros t0 f i' e1 e2 [C1 C2 C3 C4 C5 C6 C7]. constructor; auto.
        - lia.
        - intros K. rewrite op_else0 by lia. auto.
        - intros nm0 buf E0. destruct (C6 _ _ E0) as (K1 & K2 & K3). split; auto.
          assert (n_fd nm0 < o_fresh o).
          { destruct (Nat.lt_ge_cases (n_fd nm0) (o_fresh o)); auto. destruct (proj1 L1 (n_fd nm0)); auto. congruence. }
          rewrite op_fds0, op_descs0 by lia. auto.
        - intros w0 E0. destruct (C7 _ E0) as (K1 & K2).
          assert (w0 < o_fresh o).
          { destruct (Nat.lt_ge_cases w0 (o_fresh o)); auto. destruct (proj1 L1 w0); auto. congruence. }
          rewrite op_fds0, op_descs0 by lia. auto. }
      assert (Ids : forall k i' e1 e2, nth_error gs k = Some (i', e1, e2) -> i' < o_fresh o /\ e1 < o_fresh o /\ e2 < o_fresh o).
      { intros k i' e1 e2 Eg. assert (Lk : k < length gs) by (apply nth_error_Some; congruence).
        destruct (nth_error ts k) as [t0|] eqn:Et; [|apply nth_error_None in Et; lia].
        destruct (nth_error fs k) as [f0|] eqn:Ef; [|apply nth_error_None in Ef; lia].
        apply (ce_lt _ _ _ _ _ _ _ (L4 _ _ _ _ _ _ Et Ef Eg)). }
      constructor; auto.
      * rewrite !app_length. cbn. lia.
      * rewrite !app_length. cbn. lia.
      * intros k t0 f0 i' e1 e2 Et Ef Eg.
        destruct (Nat.lt_ge_cases k (length ts)) as [Lk|Lk].
        -- rewrite nth_error_app1 in Et by lia. rewrite nth_error_app1 in Ef by lia. rewrite nth_error_app1 in Eg by lia. eauto.
        -- rewrite nth_error_app2 in Et by lia. rewrite nth_error_app2 in Ef by lia. rewrite nth_error_app2 in Eg by lia.
           assert (k = length ts) as ->.
           { assert (k - length ts < 1) by (apply (nth_error_Some [mkTs (Some (nm, [])) (Some w)]); congruence). lia. }
           rewrite L2, L3, Nat.sub_diag in *. cbn in Et, Ef, Eg. injection Et as <-. injection Ef as <-. injection Eg as <- <- <-.
           constructor; cbn; auto; try lia.
           ++ intros nm0 buf [= <- <-]. auto.
           ++ intros w0 [= <-]. auto.
      * intros k k' [[i1 a1] a2] [[i2 b1] b2] E1 E2 Hk.
        assert (B : forall k g, nth_error (gs ++ [(i, d1, d2)]) k = Some g -> nth_error gs k = Some g \/ k = length gs /\ g = (i, d1, d2)).
        { intros k0 g E0. destruct (Nat.lt_ge_cases k0 (length gs)); [rewrite nth_error_app1 in E0 by lia; auto|].
          rewrite nth_error_app2 in E0 by lia. destruct (k0 - length gs) as [|[|q]] eqn:Eq; cbn in E0; try discriminate.
          injection E0 as <-. right. split; [lia|auto]. }
        destruct (B _ _ E1) as [F1|[F1 G1]], (B _ _ E2) as [F2|[F2 G2]].
        -- eapply L5; eauto.
        -- injection G2 as -> -> ->. destruct (Ids _ _ _ _ F1) as (? & ? & ?). cbn. lia.
        -- injection G1 as -> -> ->. destruct (Ids _ _ _ _ F2) as (? & ? & ?). cbn. lia.
        -- lia.
    + injection H as <- <- <-. split; [cbn; eauto|]. exists gs. destruct S as (S1 & S2 & S3 & _).
      cbn [file_op fst snd]. constructor; auto.
      intros k t0 f i d1 d2 Et Ef Eg. destruct (L4 _ _ _ _ _ _ Et Ef Eg) as [C1 C2 C3 C4 C5 C6 C7].
      constructor; auto.
      * lia.
      * intros K. rewrite S1 by lia. auto.
      * intros nm buf E0. rewrite S2, S3. auto.
      * intros w E0. rewrite S2, S3. auto.
  - (* TRead *)
    destruct (nth_error ts k) as [[[[nm buf]|] w]|] eqn:Et; try discriminate.
    destruct (linv_get _ _ _ _ _ _ _ L Et) as (f & i & d1 & d2 & Ef & Eg & C).
    pose proof C as [C1 C2 C3 C4 C5 C6 C7]. destruct (C6 _ _ eq_refl) as (K1 & K2 & ap & K3).
    cbn [ts_reader ts_writer] in *.
    assert (Rd : forall m, sys_read o (n_fd nm) m = Some (slice (f_data f) (f_off f) m,
      set_off o d1 (mkDescr i (f_off f) ap 1) (f_off f + length (slice (f_data f) (f_off f) m)))).
    { intros m. unfold sys_read, sys_desc. rewrite K2, K3. cbn [d_file d_off]. rewrite C5 by (left; discriminate). reflexivity. }
    assert (Fin : forall p' buf' f', f_off f' = p' -> f_buf f' = buf' -> f_data f' = f_data f ->
       f_wpos f' = f_wpos f -> f_cap f' = f_cap f -> f_lim f' = [] ->
       linv cap (set_off o d1 (mkDescr i (f_off f) ap 1) p') (set_nth ts k (mkTs (Some (nm, buf')) w)) (set_nth fs k f') gs).
    { intros p' buf' f' F1 F2 F3 F4 F5 F6.
      eapply (linv_one cap o ts fs gs k _ f i d1 d2 _ _ _ d1 (n_fd nm)); eauto; [apply tidy_off; [apply L|exact K3]|apply (only_off _ _ (mkDescr i (f_off f) ap 1))|].
      constructor; cbn [ts_reader ts_writer]; try rewrite F3; try rewrite F4; try rewrite F5; try rewrite F6; auto.
      - intros _. cbn. apply C5. left. discriminate.
      - intros nm0 buf0 [= <- <-]. split; auto. cbn. split; auto. exists ap. upds; congruence.
      - intros w0 E0. destruct (C7 _ E0). cbn. split; auto. upds; congruence. }
    unfold expected, file_op, on_nth. cbn [fst snd]. rewrite Ef.
    destruct buf as [|b0 buf].
    + destruct (cap <=? n) eqn:Ecap.
      * assert (Er : file_read n f = (Ok (slice (f_data f) (f_off f) n),
          mkFile (f_data f) (f_off f + length (slice (f_data f) (f_off f) n)) [] (f_cap f) (f_wpos f) [])).
        { unfold file_read, file_limit. rewrite K1, C1, C2, Ecap. reflexivity. }
        rewrite Rd in H. injection H as <- <- <-. split.
        -- exists f. eexists. rewrite Er. split; [reflexivity|]. split; reflexivity.
        -- exists gs. rewrite Er. apply Fin; auto.
      * assert (Er : file_read n f = (Ok (firstn n (slice (f_data f) (f_off f) cap)),
          mkFile (f_data f) (f_off f + length (slice (f_data f) (f_off f) cap))
            (skipn n (slice (f_data f) (f_off f) cap)) (f_cap f) (f_wpos f) [])).
        { unfold file_read, file_limit. rewrite K1, C1, C2, Ecap. reflexivity. }
        rewrite Rd in H. injection H as <- <- <-. split.
        -- exists f. eexists. rewrite Er. split; [reflexivity|]. split; reflexivity.
        -- exists gs. rewrite Er. apply Fin; auto.
    + assert (Er : file_read n f = (Ok (firstn n (b0 :: buf)),
          mkFile (f_data f) (f_off f) (skipn n (b0 :: buf)) (f_cap f) (f_wpos f) [])).
      { unfold file_read. rewrite K1, C2. reflexivity. }
      injection H as <- <- <-. split.
      { exists f. eexists. rewrite Er. split; [reflexivity|]. split; reflexivity. }
      exists gs. rewrite Er.
      eapply (linv_one cap o ts fs gs k _ f i d1 d2 o _ _ d1 (n_fd nm)); eauto.
      * apply L.
      * repeat split; auto.
      * constructor; cbn [ts_reader ts_writer f_cap f_lim f_data f_off f_buf f_wpos snd]; auto.
        -- intros _. apply C5. left. discriminate.
        -- intros nm0 buf0 [= <- <-]. split; auto. split; auto. eauto.
  - (* TRseek *)
    destruct (nth_error ts k) as [[[[nm buf]|] w]|] eqn:Et; try discriminate.
    destruct (linv_get _ _ _ _ _ _ _ L Et) as (f & i & d1 & d2 & Ef & Eg & C).
    pose proof C as [C1 C2 C3 C4 C5 C6 C7]. destruct (C6 _ _ eq_refl) as (K1 & K2 & ap & K3).
    unfold sys_seek, sys_desc in H. rewrite K2, K3 in H. injection H as <- <- <-.
    unfold expected, file_op, on_nth. cbn [fst snd]. rewrite Ef. split; [split; [discriminate|auto]|]. exists gs.
    eapply (linv_one cap o ts fs gs k _ f i d1 d2 _ _ _ d1 (n_fd nm)); eauto; [apply tidy_off; [apply L|exact K3]|apply (only_off _ _ (mkDescr i (f_off f) ap 1))|].
    constructor; cbn [ts_reader ts_writer file_rseek f_cap f_lim f_data f_off f_buf f_wpos]; auto.
    + intros _. apply C5. left. discriminate.
    + intros nm0 buf0 [= <- <-]. split; auto. cbn. split; auto. exists ap. upds; congruence.
    + intros w0 E0. destruct (C7 _ E0). cbn. split; auto. upds; congruence.
  - (* TTell *)
    destruct (nth_error ts k) as [[[[nm buf]|] w]|] eqn:Et; try discriminate.
    destruct (linv_get _ _ _ _ _ _ _ L Et) as (f & i & d1 & d2 & Ef & Eg & C).
    pose proof C as [C1 C2 C3 C4 C5 C6 C7]. destruct (C6 _ _ eq_refl) as (K1 & K2 & ap & K3).
    unfold sys_off, sys_seek, sys_desc in H. rewrite K2, K3 in H. cbn [d_off] in H. injection H as <- <- <-.
    unfold expected, file_op, on_nth. cbn [fst snd]. rewrite Ef. split; [exists f; split; [reflexivity|unfold file_rpos; rewrite K1; reflexivity]|]. exists gs. unfold file_rpos. rewrite K1.
    eapply (linv_one cap o ts fs gs k _ f i d1 d2 _ _ _ d1 (n_fd nm)); eauto; [apply tidy_off; [apply L|exact K3]|apply (only_off _ _ (mkDescr i (f_off f) ap 1))|].
    constructor; cbn [ts_reader ts_writer file_rseek f_cap f_lim f_data f_off f_buf f_wpos]; auto.
    + intros _. apply C5. left. discriminate.
    + intros nm0 buf0 [= <- <-]. split; auto. cbn. split; auto. exists ap. upds; congruence.
    + intros w0 E0. destruct (C7 _ E0). cbn. split; auto. upds; congruence.
  - (* TWrite *)
    destruct (nth_error ts k) as [[rd [w|]]|] eqn:Et; try discriminate.
    destruct (linv_get _ _ _ _ _ _ _ L Et) as (f & i & d1 & d2 & Ef & Eg & C).
    pose proof C as [C1 C2 C3 C4 C5 C6 C7]. destruct (C7 _ eq_refl) as (K1 & K2).
    unfold sys_write, sys_desc in H. rewrite K1, K2 in H.
    unfold expected, file_op, on_nth. cbn [fst snd]. rewrite Ef.
    destruct bs as [|b0 bs].
    + injection H as <- <- <-. split; [split; [discriminate|auto]|]. exists gs. cbn [file_write]. rewrite set_nth_id by auto. exact L.
    + cbn [d_append d_off d_file] in H. injection H as <- <- <-. split; [split; [discriminate|auto]|]. exists gs.
      rewrite <- (set_nth_id _ _ _ Et).
      eapply (linv_one cap o ts fs gs k _ f i d1 d2 _ _ _ d2 w); eauto.
      * apply (tidy_off o d2 (mkDescr i (f_wpos f) false 1) (f_wpos f + length (b0 :: bs)) (li_tidy _ _ _ _ _ L) K2).
      * unfold only. cbn. repeat split; auto; intros y Hy; upds; congruence.
      * constructor; unfold file_write; cbn [ts_reader ts_writer f_cap f_lim f_data f_off f_buf f_wpos]; auto.
        -- intros K. cbn [o_data]. rewrite <- C5 by auto. upds; congruence.
        -- intros nm0 buf0 E0. destruct (C6 _ _ E0) as (M1 & M2 & M3). split; auto. cbn. split; auto. upds; congruence.
        -- intros w0 [= <-]. cbn. split; auto. upds; congruence.
  - (* TWseek *)
    destruct (nth_error ts k) as [[rd [w|]]|] eqn:Et; try discriminate.
    destruct (linv_get _ _ _ _ _ _ _ L Et) as (f & i & d1 & d2 & Ef & Eg & C).
    pose proof C as [C1 C2 C3 C4 C5 C6 C7]. destruct (C7 _ eq_refl) as (K1 & K2).
    unfold sys_seek, sys_desc in H. rewrite K1, K2 in H. injection H as <- <- <-.
    unfold expected, file_op, on_nth. cbn [fst snd]. rewrite Ef. split; [split; [discriminate|auto]|]. exists gs.
    rewrite <- (set_nth_id _ _ _ Et).
    eapply (linv_one cap o ts fs gs k _ f i d1 d2 _ _ _ d2 w); eauto; [apply tidy_off; [apply L|exact K2]|apply (only_off _ _ (mkDescr i (f_wpos f) false 1))|].
    constructor; unfold file_wseek; cbn [ts_reader ts_writer f_cap f_lim f_data f_off f_buf f_wpos]; auto.
    + intros nm0 buf0 E0. destruct (C6 _ _ E0) as (M1 & M2 & M3). split; auto. cbn. split; auto. upds; congruence.
    + intros w0 [= <-]. cbn. split; auto. upds; congruence.
  - (* TDropReader *)
    destruct (nth_error ts k) as [[[[nm buf]|] w]|] eqn:Et; try discriminate.
    destruct (linv_get _ _ _ _ _ _ _ L Et) as (f & i & d1 & d2 & Ef & Eg & C).
    pose proof C as [C1 C2 C3 C4 C5 C6 C7]. destruct (C6 _ _ eq_refl) as (K1 & K2 & ap & K3).
    injection H as <- <- <-. unfold expected, file_op. cbn [fst snd]. split; [split; [congruence|auto]|]. exists gs.
    rewrite <- (set_nth_id _ _ _ Ef).
    set (o1 := if n_keep nm then o else sys_unlink o (n_path nm)).
    assert (J1 : o_fd o1 = o_fd o) by (unfold o1; destruct (n_keep nm); reflexivity).
    assert (J2 : o_desc o1 = o_desc o) by (unfold o1; destruct (n_keep nm); reflexivity).
    assert (J3 : o_data o1 = o_data o) by (unfold o1; destruct (n_keep nm); reflexivity).
    assert (J4 : o_fresh o1 = o_fresh o) by (unfold o1; destruct (n_keep nm); reflexivity).
    assert (J5 : tidy o1).
    { pose proof (li_tidy _ _ _ _ _ L) as [T1 T2]. unfold o1. destruct (n_keep nm); [split; auto|].
      split; cbn; auto. intros q j Hq. upds; [discriminate|eauto]. }
    assert (E1 : o_fd o1 (n_fd nm) = Some d1) by congruence.
    assert (E2 : o_desc o1 d1 = Some (mkDescr i (f_off f) ap 1)) by congruence.
    unfold drop_named. fold o1.
    eapply (linv_one cap o ts fs gs k _ f i d1 d2 _ _ _ d1 (n_fd nm)); eauto.
    + eapply tidy_close; eauto.
    + rewrite (close_eq _ _ _ _ E1 E2). unfold only. cbn. rewrite J1, J2, J3, J4. repeat split; auto; intros y Hy; upds; congruence.
    + rewrite (close_eq _ _ _ _ E1 E2). constructor; cbn [ts_reader ts_writer o_fresh o_data]; auto.
      * rewrite J4. auto.
      * rewrite J3. intros K. apply C5. left. discriminate.
      * discriminate.
      * intros w0 E0. destruct (C7 _ E0) as [M1 M2]. cbn. rewrite J1, J2. split; upds; congruence.
  - (* TDropWriter *)
    destruct (nth_error ts k) as [[rd [w|]]|] eqn:Et; try discriminate.
    destruct (linv_get _ _ _ _ _ _ _ L Et) as (f & i & d1 & d2 & Ef & Eg & C).
    pose proof C as [C1 C2 C3 C4 C5 C6 C7]. destruct (C7 _ eq_refl) as (K1 & K2).
    injection H as <- <- <-. unfold expected, file_op. cbn [fst snd]. split; [split; [congruence|auto]|]. exists gs.
    rewrite <- (set_nth_id _ _ _ Ef).
    eapply (linv_one cap o ts fs gs k _ f i d1 d2 _ _ _ d2 w); eauto.
    + eapply tidy_close; eauto. apply L.
    + rewrite (close_eq _ _ _ _ K1 K2). unfold only. cbn. repeat split; auto; intros y Hy; upds; congruence.
    + rewrite (close_eq _ _ _ _ K1 K2). constructor; cbn [ts_reader ts_writer o_fresh o_data]; auto.
      * intros K. apply C5. right. discriminate.
      * intros nm0 buf0 E0. destruct (C6 _ _ E0) as (M1 & M2 & a0 & M3). cbn. split; auto. split; [upds; congruence|]. exists a0. upds; congruence.
      * discriminate.
Qed.

Lemma linv_elsewhere : forall cap o o' ts fs gs, linv cap o ts fs gs -> elsewhere ts o o' ->
  linv cap o' ts fs gs.
Proof.
  intros cap o o' ts fs gs [L1 L2 L3 L4 L5] [E1 E2 E3]. constructor; auto.
  intros k t f i d1 d2 Et Ef Eg. destruct (L4 _ _ _ _ _ _ Et Ef Eg) as [C1 C2 C3 C4 C5 C6 C7].
  assert (R : forall nm buf, ts_reader t = Some (nm, buf) -> owned ts (n_fd nm))
    by (intros nm buf E; exists k, t; split; auto; left; eauto).
  assert (W : forall w, ts_writer t = Some w -> owned ts w)
    by (intros w E; exists k, t; split; auto).
  constructor; auto.
  - lia.
  - intros K. rewrite <- C5 by auto.
    destruct (ts_reader t) as [[nm buf]|] eqn:Er.
    + destruct (C6 _ _ eq_refl) as (K1 & K2 & a & K3).
      apply (E3 _ _ _ (R _ _ eq_refl) K2 K3).
    + destruct (ts_writer t) as [w|] eqn:Ew; [|destruct K; congruence].
      destruct (C7 _ eq_refl) as (K1 & K2). apply (E3 _ _ _ (W _ eq_refl) K1 K2).
  - intros nm buf E. destruct (C6 _ _ E) as (K1 & K2 & a & K3). split; auto.
    destruct (E3 _ _ _ (R _ _ E) K2 K3) as (? & ? & _). eauto.
  - intros w E. destruct (C7 _ E) as (K1 & K2). destruct (E3 _ _ _ (W _ E) K1 K2) as (? & ? & _). auto.
Qed.

Lemma files_snoc : forall cap h a r, files cap (h ++ [(a, r)]) = file_op cap (files cap h) (a, r).
Proof. intros. unfold files. rewrite fold_left_app. reflexivity. Qed.

Lemma truns_linv : forall cap o h o' ts, tidy o -> truns cap o h o' ts ->
  exists gs, linv cap o' ts (files cap h) gs.
Proof.
  intros cap o h o' ts T H. induction H as [|h o1 ts1 a r o2 ts2 H IH E|h o1 ts1 o2 H IH E].
  - exists []. constructor; auto; intros k; destruct k; cbn; discriminate.
  - destruct IH as [gs L]. rewrite files_snoc. eapply texec_step; eauto.
  - destruct IH as [gs L]. exists gs. eapply linv_elsewhere; eauto.
Qed.

Lemma tquiet_truns : forall cap o h o' ts, tquiet cap o h o' ts -> truns cap o h o' ts.
Proof. intros cap o h o' ts H. induction H; econstructor; eauto. Qed.

(** The histories of runs have the results of the files. *)
Lemma truns_expected : forall cap o h o' ts, tidy o -> truns cap o h o' ts ->
  forall h1 a r h2, h = h1 ++ (a, r) :: h2 -> expected (files cap h1) a r.
Proof.
  intros cap o h o' ts T H. induction H as [|h o1 ts1 a r o2 ts2 H IH E|h o1 ts1 o2 H IH E];
    intros h1 a0 r0 h2 Eh; auto.
  - destruct h1; discriminate.
  - destruct h2 as [|x h2 _] using rev_ind.
    + apply app_inj_tail in Eh. destruct Eh as [<- [= <- <-]].
      destruct (truns_linv _ _ _ _ _ T H) as [gs L]. eapply texec_step; eauto.
    + rewrite app_comm_cons, app_assoc in Eh. apply app_inj_tail in Eh. destruct Eh as [Eh _]. eauto.
  - eauto.
Qed.

(** ** Live halves *)

Lemma texec_total : forall cap o ts fs gs a, linv cap o ts fs gs -> usable ts a ->
  texec cap o ts a <> None.
Proof.
  intros cap o ts fs gs a L U.
  destruct a as [t x rs|k n|k p|k|k bs|k p|k|k]; cbn [texec usable] in *;
    [destruct (temp_open t x rs o) as [[[nm w]|] o1]; discriminate|..];
    destruct U as ([rd wr] & Et & U); cbn [ts_reader ts_writer] in U;
    destruct (linv_get _ _ _ _ _ _ _ L Et) as (f & i & d1 & d2 & Ef & Eg & [C1 C2 C3 C4 C5 C6 C7]);
    rewrite Et; cbn [ts_reader ts_writer] in *;
    try (destruct rd as [[nm buf]|]; [|congruence]; destruct (C6 _ _ eq_refl) as (K1 & K2 & ap & K3));
    try (destruct wr as [w|]; [|congruence]; destruct (C7 _ eq_refl) as (M1 & M2));
    unfold sys_read, sys_off, sys_seek, sys_write, sys_desc;
    repeat match goal with
    | H : o_fd o ?x = Some _ |- context [o_fd o ?x] => rewrite H
    | H : o_desc o ?x = Some _ |- context [o_desc o ?x] => rewrite H
    end; try discriminate.
  - destruct buf; [|discriminate]. destruct (cap <=? n); discriminate.
  - destruct bs; discriminate.
Qed.

(** ** Nothing else changes *)

Definition rd (ts : list tstore) (k : nat) (nm : named) : Prop :=
  exists t buf, nth_error ts k = Some t /\ ts_reader t = Some (nm, buf).
Definition wr (ts : list tstore) (k w : nat) : Prop :=
  exists t, nth_error ts k = Some t /\ ts_writer t = Some w.

Lemma owned_iff : forall ts fd, owned ts fd <->
  (exists k nm, rd ts k nm /\ n_fd nm = fd) \/ (exists k, wr ts k fd).
Proof.
  intros ts fd. split.
  - intros (k & t & E & [(nm & buf & E1 & E2)|E1]).
    + left. exists k, nm. split; auto. exists t, buf. auto.
    + right. exists k, t. auto.
  - intros [(k & nm & (t & buf & E & E1) & E2)|(k & t & E & E1)]; exists k, t; split; auto. left. eauto.
Qed.

Lemma own_one : forall cap o ts fs gs, linv cap o ts fs gs -> forall fd fd' d,
  owned ts fd -> owned ts fd' -> o_fd o fd = Some d -> o_fd o fd' = Some d -> fd = fd'.
Proof.
  intros cap o ts fs gs L.
  assert (K : forall fd d, owned ts fd -> o_fd o fd = Some d -> exists k t i d1 d2,
    nth_error ts k = Some t /\ nth_error gs k = Some (i, d1, d2) /\ d1 <> d2 /\
    ((d = d1 /\ exists nm buf, ts_reader t = Some (nm, buf) /\ n_fd nm = fd) \/
     (d = d2 /\ ts_writer t = Some fd))).
  { intros fd d (k & t & E & D) Ed. destruct (linv_get _ _ _ _ _ _ _ L E) as (f & i & d1 & d2 & Ef & Eg & C).
    exists k, t, i, d1, d2. split; auto. split; auto. split; [apply C|].
    destruct D as [(nm & buf & E1 & <-)|E1].
    - left. destruct (ce_reader _ _ _ _ _ _ _ C _ _ E1) as (_ & K & _). split; [congruence|eauto].
    - right. destruct (ce_writer _ _ _ _ _ _ _ C _ E1) as (K & _). split; [congruence|auto]. }
  intros fd fd' d H H' E E'.
  destruct (K _ _ H E) as (k & t & i & d1 & d2 & A1 & A2 & A3 & A4).
  destruct (K _ _ H' E') as (k' & t' & i' & d1' & d2' & B1 & B2 & B3 & B4).
  destruct (Nat.eq_dec k k') as [<-|Hk].
  - assert (t' = t) by congruence. assert (d1' = d1) by congruence. assert (d2' = d2) by congruence. subst.
    destruct A4 as [(-> & nm & buf & M1 & M2)|(-> & M1)], B4 as [(? & nm' & buf' & N1 & N2)|(? & N1)]; congruence.
  - destruct (li_apart _ _ _ _ _ L _ _ _ _ A2 B2 Hk) as (_ & P).
    destruct A4 as [(-> & _)|(-> & _)], B4 as [(-> & _)|(-> & _)]; lia.
Qed.

Record nothing (o0 o : os) (ts : list tstore) : Prop := mkNothing
  { no_fresh : o_fresh o0 <= o_fresh o;
    no_name : forall k nm, rd ts k nm ->
      o_name o0 (n_path nm) = None /\ o_name o (n_path nm) <> None /\ n_keep nm = false;
    no_names : forall p, (forall k nm, rd ts k nm -> n_path nm <> p) -> o_name o p = o_name o0 p;
    no_same : forall k k' nm nm', rd ts k nm -> rd ts k' nm' -> n_path nm = n_path nm' -> k = k';
    no_own : forall fd, owned ts fd -> o_fresh o0 <= fd /\
      exists d e, o_fd o fd = Some d /\ o_desc o d = Some e /\ o_fresh o0 <= d /\ o_fresh o0 <= d_file e;
    no_fds : forall fd, owned ts fd \/ o_fd o fd = o_fd o0 fd;
    no_descs : forall d, (exists fd, owned ts fd /\ o_fd o fd = Some d) \/ o_desc o d = o_desc o0 d;
    no_data : forall i, i < o_fresh o0 -> o_data o i = o_data o0 i }.

(** Reading, writing and seeking. *)
Lemma nothing_use : forall o0 o o' ts ts' fd d e, nothing o0 o ts ->
  owned ts fd -> o_fd o fd = Some d -> o_desc o d = Some e -> (exists e', o_desc o' d = Some e' /\ d_file e' = d_file e) ->
  (forall y, y <> d -> o_desc o' y = o_desc o y) -> o_name o' = o_name o -> o_fd o' = o_fd o ->
  o_fresh o' = o_fresh o -> (forall y, y <> d_file e -> o_data o' y = o_data o y) ->
  (forall k nm, rd ts' k nm <-> rd ts k nm) -> (forall k w, wr ts' k w <-> wr ts k w) ->
  nothing o0 o' ts'.
Proof.
  intros o0 o o' ts ts' fd d e [N1 N2 N3 N4 N5 N6 N7 N8] Ho Ed Ee (e' & Ee' & Ef) Ds Ns Fs Fr Da R W.
  assert (Ow : forall y, owned ts' y <-> owned ts y).
  { intros y. rewrite !owned_iff. split; (intros [(k & nm & K1 & K2)|(k & K)]; [left; exists k, nm|right; exists k]);
      try (split; auto); try apply R; try apply W; auto. }
  destruct (N5 _ Ho) as (P0 & d' & e1 & P1 & P2 & P3 & P4).
  assert (d' = d) by congruence. subst d'. assert (e1 = e) by congruence. subst e1.
  constructor.
  - lia.
  - intros k nm K. rewrite Ns. apply (N2 k). apply R. auto.
  - intros p K. rewrite Ns. apply N3. intros k nm K1. apply (K k). apply R. auto.
  - intros k k' nm nm' K1 K2. apply (N4 _ _ _ _ (proj1 (R _ _) K1) (proj1 (R _ _) K2)).
  - intros y Hy. destruct (N5 y (proj1 (Ow y) Hy)) as (Q0 & d2 & e2 & Q1 & Q2 & Q3 & Q4). split; auto.
    rewrite Fs. destruct (Nat.eq_dec d2 d) as [->|Hd].
    + exists d, e'. repeat split; auto. congruence.
    + exists d2, e2. rewrite Ds by auto. auto.
  - intros y. rewrite Fs. destruct (N6 y); [left; apply Ow; auto|auto].
  - intros y. rewrite Fs. destruct (Nat.eq_dec y d) as [->|Hd].
    + left. exists fd. split; [apply Ow; auto|auto].
    + rewrite Ds by auto. destruct (N7 y) as [(x & X1 & X2)|X]; auto. left. exists x. split; [apply Ow; auto|auto].
  - intros y Hy. rewrite Da by lia. auto.
Qed.

Lemma rd_set : forall ts k nm buf buf' w, nth_error ts k = Some (mkTs (Some (nm, buf)) w) ->
  (forall j x, rd (set_nth ts k (mkTs (Some (nm, buf')) w)) j x <-> rd ts j x) /\
  (forall j x, wr (set_nth ts k (mkTs (Some (nm, buf')) w)) j x <-> wr ts j x).
Proof.
  intros ts k nm buf buf' w E.
  assert (Lk : k < length ts) by (apply nth_error_Some; congruence).
  split; intros j x; unfold rd, wr; (destruct (Nat.eq_dec j k) as [->|Hj];
    [rewrite set_nth_same by auto; rewrite E|rewrite set_nth_other by auto; tauto]).
  - split; intros (t & b & [= <-] & K2); cbn in K2; injection K2 as <- <-; eexists; eexists; split; reflexivity.
  - split; intros (t & [= <-] & K2); cbn in K2; eexists; split; try reflexivity; auto.
Qed.

Lemma nothing_step : forall cap o0 o ts fs gs a r o' ts', tidy o0 -> linv cap o ts fs gs -> nothing o0 o ts ->
  texec cap o ts a = Some (r, o', ts') ->
  (forall t x rs, a = TNew t x rs -> b_keep (builder_of t) = false) -> nothing o0 o' ts'.
Proof.
  intros cap o0 o ts fs gs a r o' ts' T0 L N H Hk.
  destruct a as [t x rs|k n|k p|k|k bs|k p|k|k]; cbn [texec] in H.
  - specialize (Hk _ _ _ eq_refl). destruct N as [N1 N2 N3 N4 N5 N6 N7 N8].
    destruct (temp_open t x rs o) as [res o1] eqn:E.
    destruct (temp_open_spec _ _ _ _ _ _ (li_tidy _ _ _ _ _ L) E) as (T & Fr & S).
    destruct (li_tidy _ _ _ _ _ L) as [TT1 TT2].
    destruct res as [[nm w]|]; injection H as <- <- <-.
    + destruct S as ((i & d1 & d2 & O) & Kp & _). destruct O.
      assert (R : forall j x, rd (ts ++ [mkTs (Some (nm, [])) (Some w)]) j x -> rd ts j x \/ j = length ts /\ x = nm).
      { intros j y (t0 & buf & K1 & K2). destruct (Nat.lt_ge_cases j (length ts)).
        - rewrite nth_error_app1 in K1 by lia. left. exists t0, buf. auto.
        - rewrite nth_error_app2 in K1 by lia. destruct (j - length ts) as [|[|q]] eqn:Eq; cbn in K1; try discriminate.
          injection K1 as <-. cbn in K2. injection K2 as <- <-. right. split; auto. lia. }
      assert (R' : forall j x, rd ts j x -> rd (ts ++ [mkTs (Some (nm, [])) (Some w)]) j x).
      { intros j y (t0 & buf & K1 & K2). exists t0, buf. split; auto. rewrite nth_error_app1; auto. apply nth_error_Some. congruence. }
      assert (Rn : rd (ts ++ [mkTs (Some (nm, [])) (Some w)]) (length ts) nm).
      { exists (mkTs (Some (nm, [])) (Some w)), []. split; auto. rewrite nth_error_app2, Nat.sub_diag by lia. auto. }
      assert (W : forall y, owned (ts ++ [mkTs (Some (nm, [])) (Some w)]) y -> owned ts y \/ y = n_fd nm \/ y = w).
      { intros y (j & t0 & K1 & K2). destruct (Nat.lt_ge_cases j (length ts)).
        - rewrite nth_error_app1 in K1 by lia. left. exists j, t0. auto.
        - rewrite nth_error_app2 in K1 by lia. destruct (j - length ts) as [|[|q]] eqn:Eq; cbn in K1; try discriminate.
          injection K1 as <-. cbn in K2. destruct K2 as [(nm0 & buf & [= <- <-] & <-)|[= <-]]; auto. }
      assert (W1 : forall y, owned ts y -> owned (ts ++ [mkTs (Some (nm, [])) (Some w)]) y).
      { intros y (j & t0 & K1 & K2). exists j, t0. split; auto. rewrite nth_error_app1; auto. apply nth_error_Some. congruence. }
      assert (W2 : owned (ts ++ [mkTs (Some (nm, [])) (Some w)]) (n_fd nm)).
      { exists (length ts), (mkTs (Some (nm, [])) (Some w)). rewrite nth_error_app2, Nat.sub_diag by lia. split; auto.
        left. exists nm, []. auto. }
      assert (W3 : owned (ts ++ [mkTs (Some (nm, [])) (Some w)]) w).
      { exists (length ts), (mkTs (Some (nm, [])) (Some w)). rewrite nth_error_app2, Nat.sub_diag by lia. split; auto. }
      assert (Lo : forall y, owned ts y -> y < o_fresh o /\ forall d, o_fd o y = Some d -> d < o_fresh o).
      { intros y Hy. destruct (N5 y Hy) as (Q0 & d & e & Q1 & Q2 & Q3 & Q4). split.
        - destruct (Nat.lt_ge_cases y (o_fresh o)); auto. destruct (TT1 y); auto. congruence.
        - intros dd Hdd. assert (dd = d) by congruence. subst. destruct (Nat.lt_ge_cases d (o_fresh o)); auto. destruct (TT1 d); auto. congruence. }
      assert (Pf : forall j y, rd ts j y -> n_path y <> n_path nm).
      { intros j y K E0. destruct (N2 _ _ K) as (_ & Q & _). congruence. }
      constructor.
      * lia.
      * intros j y K. destruct (R _ _ K) as [K1|[-> ->]].
        -- destruct (N2 _ _ K1) as (A & B & C). split; auto. split; auto. rewrite op_names0; eauto.
        -- split; [|split; congruence]. rewrite <- op_free0. symmetry. apply N3. intros j y Hy. eauto.
      * intros p K. rewrite op_names0. 2:{ intros ->. apply (K _ _ Rn eq_refl). }
        apply N3. intros j y Hy. apply (K j). auto.
      * intros j j' y y' K K' E0. destruct (R _ _ K) as [K1|[-> ->]], (R _ _ K') as [K1'|[-> ->]]; eauto.
        -- destruct (Pf _ _ K1 E0).
        -- symmetry in E0. destruct (Pf _ _ K1' E0).
      * intros y Hy. destruct (W _ Hy) as [K|[->| ->]].
        -- destruct (Lo _ K) as [Lo1 Lo2]. destruct (N5 y K) as (Q0 & d & e & Q1 & Q2 & Q3 & Q4). specialize (Lo2 _ Q1).
           split; auto. exists d, e. rewrite op_fds0, op_descs0 by lia. auto.
        -- destruct op_desc3 as [a op_desc3]. split; [lia|]. exists d1, (mkDescr i 0 a 1). cbn. repeat split; auto; lia.
        -- split; [lia|]. exists d2, (mkDescr i 0 false 1). cbn. repeat split; auto; lia.
      * intros y. destruct (Nat.eq_dec y (n_fd nm)) as [->|H1]; [auto|]. destruct (Nat.eq_dec y w) as [->|H2]; [auto|].
        rewrite op_fds0 by auto. destruct (N6 y); auto.
      * intros y. destruct (Nat.eq_dec y d1) as [->|H1]; [eauto|]. destruct (Nat.eq_dec y d2) as [->|H2]; [eauto|].
        rewrite op_descs0 by auto. destruct (N7 y) as [(z & Z1 & Z2)|Z]; auto. left. exists z. split; auto.
        destruct (Lo _ Z1). rewrite op_fds0 by lia. auto.
      * intros y Hy. rewrite op_else0 by lia. auto.
    + destruct S as (S1 & S2 & S3 & S4). constructor; auto.
      * lia.
      * intros j y K. rewrite S4 by auto. eauto.
      * intros p K. rewrite S4; auto.
      * intros y Hy. rewrite S2. destruct (N5 y Hy) as (Q0 & d & e & Q1 & Q2 & Q3 & Q4). split; auto.
        exists d, e. rewrite S3. auto.
      * intros y. rewrite S2. auto.
      * intros y. rewrite S3. destruct (N7 y) as [(z & Z1 & Z2)|Z]; auto. left. exists z. rewrite S2. auto.
      * intros y Hy. rewrite S1 by lia. auto.
  - destruct (nth_error ts k) as [[[[nm buf]|] w]|] eqn:Et; try discriminate.
    destruct (linv_get _ _ _ _ _ _ _ L Et) as (f & i & d1 & d2 & Ef & Eg & C).
    destruct (ce_reader _ _ _ _ _ _ _ C _ _ eq_refl) as (K1 & K2 & ap & K3).
    assert (Ow : owned ts (n_fd nm)) by (exists k, (mkTs (Some (nm, buf)) w); split; auto; left; exists nm, buf; auto).
    destruct buf as [|b0 buf].
    + unfold sys_read, sys_desc in H. rewrite K2, K3 in H.
      destruct (cap <=? n); injection H as <- <- <-;
        (eapply nothing_use; [exact N|exact Ow|exact K2|exact K3|..]; try reflexivity; cbn;
         [eexists; split; [upds; reflexivity|reflexivity]|intros; upds; congruence|eapply rd_set; eauto|eapply rd_set; eauto]).
    + injection H as <- <- <-. eapply nothing_use; [exact N|exact Ow|exact K2|exact K3|eauto|..]; try reflexivity; eapply rd_set; eauto.
  - destruct (nth_error ts k) as [[[[nm buf]|] w]|] eqn:Et; try discriminate.
    destruct (linv_get _ _ _ _ _ _ _ L Et) as (f & i & d1 & d2 & Ef & Eg & C).
    destruct (ce_reader _ _ _ _ _ _ _ C _ _ eq_refl) as (K1 & K2 & ap & K3).
    assert (Ow : owned ts (n_fd nm)) by (exists k, (mkTs (Some (nm, buf)) w); split; auto; left; exists nm, buf; auto).
    unfold sys_seek, sys_desc in H. rewrite K2, K3 in H. injection H as <- <- <-.
    eapply nothing_use; [exact N|exact Ow|exact K2|exact K3|..]; try reflexivity; cbn;
      [eexists; split; [upds; reflexivity|reflexivity]|intros; upds; congruence|eapply rd_set; eauto|eapply rd_set; eauto].
  - destruct (nth_error ts k) as [[[[nm buf]|] w]|] eqn:Et; try discriminate.
    destruct (linv_get _ _ _ _ _ _ _ L Et) as (f & i & d1 & d2 & Ef & Eg & C).
    destruct (ce_reader _ _ _ _ _ _ _ C _ _ eq_refl) as (K1 & K2 & ap & K3).
    assert (Ow : owned ts (n_fd nm)) by (exists k, (mkTs (Some (nm, buf)) w); split; auto; left; exists nm, buf; auto).
    unfold sys_off, sys_seek, sys_desc in H. rewrite K2, K3 in H. injection H as <- <- <-.
    eapply nothing_use; [exact N|exact Ow|exact K2|exact K3|..]; try reflexivity; cbn;
      [eexists; split; [upds; reflexivity|reflexivity]|intros; upds; congruence|eapply rd_set; eauto|eapply rd_set; eauto].
  - destruct (nth_error ts k) as [[rr [w|]]|] eqn:Et; try discriminate.
    destruct (linv_get _ _ _ _ _ _ _ L Et) as (f & i & d1 & d2 & Ef & Eg & C).
    destruct (ce_writer _ _ _ _ _ _ _ C _ eq_refl) as (K1 & K2).
    assert (Ow : owned ts w) by (exists k, (mkTs rr (Some w)); split; auto).
    unfold sys_write, sys_desc in H. rewrite K1, K2 in H. destruct bs as [|b0 bs]; injection H as <- <- <-; [exact N|].
    eapply nothing_use; [exact N|exact Ow|exact K1|exact K2|..]; try reflexivity; cbn;
      [eexists; split; [upds; reflexivity|reflexivity]|intros; upds; congruence|intros; upds; congruence].
  - destruct (nth_error ts k) as [[rr [w|]]|] eqn:Et; try discriminate.
    destruct (linv_get _ _ _ _ _ _ _ L Et) as (f & i & d1 & d2 & Ef & Eg & C).
    destruct (ce_writer _ _ _ _ _ _ _ C _ eq_refl) as (K1 & K2).
    assert (Ow : owned ts w) by (exists k, (mkTs rr (Some w)); split; auto).
    unfold sys_seek, sys_desc in H. rewrite K1, K2 in H. injection H as <- <- <-.
    eapply nothing_use; [exact N|exact Ow|exact K1|exact K2|..]; try reflexivity; cbn;
      [eexists; split; [upds; reflexivity|reflexivity]|intros; upds; congruence].
  - destruct (nth_error ts k) as [[[[nm buf]|] w]|] eqn:Et; try discriminate.
    destruct (linv_get _ _ _ _ _ _ _ L Et) as (f & i & d1 & d2 & Ef & Eg & C).
    destruct (ce_reader _ _ _ _ _ _ _ C _ _ eq_refl) as (K1 & K2 & ap & K3).
    assert (Ow : owned ts (n_fd nm)) by (exists k, (mkTs (Some (nm, buf)) w); split; auto; left; exists nm, buf; auto).
    assert (Lk : k < length ts) by (apply nth_error_Some; congruence).
    injection H as <- <- <-. destruct N as [N1 N2 N3 N4 N5 N6 N7 N8].
    assert (Rk : rd ts k nm) by (exists (mkTs (Some (nm, buf)) w), buf; auto).
    destruct (N2 _ _ Rk) as (P1 & P2 & P3). destruct (N5 _ Ow) as (P4 & dd & ee & P5 & P6 & P7 & P8).
    assert (dd = d1) by congruence. subst dd.
    unfold drop_named. rewrite P3.
    rewrite (close_eq (sys_unlink o (n_path nm)) (n_fd nm) d1 (mkDescr i (f_off f) ap 1)) by (cbn; auto).
    assert (R : forall j x, rd (set_nth ts k (mkTs None w)) j x <-> rd ts j x /\ j <> k).
    { intros j x. unfold rd. destruct (Nat.eq_dec j k) as [->|Hj].
      - rewrite set_nth_same by auto. split; [intros (t & b & [= <-] & Q); discriminate|intros [_ Q]; congruence].
      - rewrite set_nth_other by auto. tauto. }
    assert (W : forall y, owned (set_nth ts k (mkTs None w)) y -> owned ts y /\ y <> n_fd nm).
    { intros y (j & t & Q1 & Q2). assert (Hy : owned ts y).
      { destruct (Nat.eq_dec j k) as [->|Hj].
        - rewrite set_nth_same in Q1 by auto. injection Q1 as <-. cbn in Q2. destruct Q2 as [(? & ? & Q & _)|Q]; [discriminate|].
          eexists; eexists; split; [exact Et|right; exact Q].
        - rewrite set_nth_other in Q1 by auto. exists j, t. auto. }
      split; auto. intros ->. destruct (Nat.eq_dec j k) as [->|Hj].
      - rewrite set_nth_same in Q1 by auto. injection Q1 as <-. cbn in Q2. destruct Q2 as [(? & ? & Q & _)|Q]; [discriminate|].
        destruct (ce_writer _ _ _ _ _ _ _ C _ Q) as (Q3 & _). pose proof (ce_ne _ _ _ _ _ _ _ C). congruence.
      - rewrite set_nth_other in Q1 by auto.
        destruct (linv_get _ _ _ _ _ _ _ L Q1) as (f' & i' & e1 & e2 & Ef' & Eg' & C').
        destruct (li_apart _ _ _ _ _ L _ _ _ _ Eg' Eg Hj) as (_ & X1 & X2 & X3 & X4).
        destruct Q2 as [(nm' & buf' & Q & Q')|Q].
        + destruct (ce_reader _ _ _ _ _ _ _ C' _ _ Q) as (_ & Z & _). congruence.
        + destruct (ce_writer _ _ _ _ _ _ _ C' _ Q) as (Z & _). congruence. }
    assert (W' : forall y, owned ts y -> y <> n_fd nm -> owned (set_nth ts k (mkTs None w)) y).
    { intros y (j & t & Q1 & Q2) Hy. destruct (Nat.eq_dec j k) as [->|Hj].
      - exists k, (mkTs None w). rewrite set_nth_same by auto. split; auto. rewrite Et in Q1. injection Q1 as <-.
        destruct Q2 as [(nm' & buf' & Q & Q')|Q]; [|auto]. cbn in Q. injection Q as <- <-. congruence.
      - exists j, t. rewrite set_nth_other by auto. auto. }
    constructor; cbn.
    + lia.
    + intros j x Q. apply R in Q. destruct Q as [Q Q']. destruct (N2 _ _ Q) as (Z1 & Z2 & Z3). split; auto. split; auto.
      upds; auto. destruct Q'. eapply N4; eauto.
    + intros p Q. upds; [congruence|]. apply N3. intros j x Z E0. destruct (Nat.eq_dec j k) as [->|Hj].
      * destruct Z as (t & b & Z1 & Z2). rewrite Et in Z1. injection Z1 as <-. cbn in Z2. injection Z2 as <- <-. congruence.
      * apply (Q j x); auto. apply R. auto.
    + intros j j' x x' Q Q'. apply R in Q, Q'. destruct Q, Q'. eauto.
    + intros y Hy. destruct (W _ Hy) as [Q Q']. destruct (N5 _ Q) as (Z0 & d & e & Z1 & Z2 & Z3 & Z4). split; auto.
      exists d, e. assert (d <> d1) by (intros ->; apply Q'; eapply (own_one _ _ _ _ _ L); eauto).
      unfold upd. destruct (Nat.eqb_spec y (n_fd nm)); [congruence|]. destruct (Nat.eqb_spec d d1); [congruence|]. auto.
    + intros y. unfold upd. destruct (Nat.eqb_spec y (n_fd nm)) as [->|Hy].
      * right. symmetry. apply (proj1 T0). auto.
      * destruct (N6 y); auto.
    + intros y. unfold upd. destruct (Nat.eqb_spec y d1) as [->|Hy].
      * right. symmetry. apply (proj1 T0). auto.
      * destruct (N7 y) as [(z & Z1 & Z2)|Z]; auto. left. exists z. assert (z <> n_fd nm) by congruence.
        split; auto. destruct (Nat.eqb_spec z (n_fd nm)); congruence.
    + auto.
  - destruct (nth_error ts k) as [[rr [w|]]|] eqn:Et; try discriminate.
    destruct (linv_get _ _ _ _ _ _ _ L Et) as (f & i & d1 & d2 & Ef & Eg & C).
    destruct (ce_writer _ _ _ _ _ _ _ C _ eq_refl) as (K1 & K2).
    assert (Ow : owned ts w) by (exists k, (mkTs rr (Some w)); split; auto).
    assert (Lk : k < length ts) by (apply nth_error_Some; congruence).
    injection H as <- <- <-. destruct N as [N1 N2 N3 N4 N5 N6 N7 N8].
    destruct (N5 _ Ow) as (P4 & dd & ee & P5 & P6 & P7 & P8).
    assert (dd = d2) by congruence. subst dd.
    rewrite (close_eq _ _ _ _ K1 K2).
    assert (R : forall j x, rd (set_nth ts k (mkTs rr None)) j x <-> rd ts j x).
    { intros j x. unfold rd. destruct (Nat.eq_dec j k) as [->|Hj].
      - rewrite set_nth_same by auto. rewrite Et. split; intros (t & b & [= <-] & Q); eexists; exists b; split; [reflexivity|exact Q|reflexivity|exact Q].
      - rewrite set_nth_other by auto. tauto. }
    assert (W : forall y, owned (set_nth ts k (mkTs rr None)) y -> owned ts y /\ y <> w).
    { intros y (j & t & Q1 & Q2). assert (Hy : owned ts y).
      { destruct (Nat.eq_dec j k) as [->|Hj].
        - rewrite set_nth_same in Q1 by auto. injection Q1 as <-. cbn in Q2. destruct Q2 as [Q|Q]; [|discriminate].
          eexists; eexists; split; [exact Et|left; exact Q].
        - rewrite set_nth_other in Q1 by auto. exists j, t. auto. }
      split; auto. intros ->. destruct (Nat.eq_dec j k) as [->|Hj].
      - rewrite set_nth_same in Q1 by auto. injection Q1 as <-. cbn in Q2. destruct Q2 as [(nm & b & Q & Q')|Q]; [|discriminate].
        destruct (ce_reader _ _ _ _ _ _ _ C _ _ Q) as (_ & Q3 & _). pose proof (ce_ne _ _ _ _ _ _ _ C). congruence.
      - rewrite set_nth_other in Q1 by auto.
        destruct (linv_get _ _ _ _ _ _ _ L Q1) as (f' & i' & e1 & e2 & Ef' & Eg' & C').
        destruct (li_apart _ _ _ _ _ L _ _ _ _ Eg' Eg Hj) as (_ & X1 & X2 & X3 & X4).
        destruct Q2 as [(nm' & buf' & Q & Q')|Q].
        + destruct (ce_reader _ _ _ _ _ _ _ C' _ _ Q) as (_ & Z & _). congruence.
        + destruct (ce_writer _ _ _ _ _ _ _ C' _ Q) as (Z & _). congruence. }
    assert (W' : forall y, owned ts y -> y <> w -> owned (set_nth ts k (mkTs rr None)) y).
    { intros y (j & t & Q1 & Q2) Hy. destruct (Nat.eq_dec j k) as [->|Hj].
      - exists k, (mkTs rr None). rewrite set_nth_same by auto. split; auto. rewrite Et in Q1. injection Q1 as <-.
        destruct Q2 as [Q|Q]; [auto|]. cbn in Q. congruence.
      - exists j, t. rewrite set_nth_other by auto. auto. }
    constructor; cbn.
    + lia.
    + intros j x Q. apply R in Q. eauto.
    + intros p Q. apply N3. intros j x Z. apply (Q j). apply R. auto.
    + intros j j' x x' Q Q'. apply R in Q, Q'. eauto.
    + intros y Hy. destruct (W _ Hy) as [Q Q']. destruct (N5 _ Q) as (Z0 & d & e & Z1 & Z2 & Z3 & Z4). split; auto.
      exists d, e. assert (d <> d2) by (intros ->; apply Q'; eapply (own_one _ _ _ _ _ L); eauto).
      unfold upd. destruct (Nat.eqb_spec y w); [congruence|]. destruct (Nat.eqb_spec d d2); [congruence|]. auto.
    + intros y. unfold upd. destruct (Nat.eqb_spec y w) as [->|Hy].
      * right. symmetry. apply (proj1 T0). auto.
      * destruct (N6 y); auto.
    + intros y. unfold upd. destruct (Nat.eqb_spec y d2) as [->|Hy].
      * right. symmetry. apply (proj1 T0). auto.
      * destruct (N7 y) as [(z & Z1 & Z2)|Z]; auto. left. exists z. assert (z <> w) by congruence.
        split; auto. destruct (Nat.eqb_spec z w); congruence.
    + auto.
Qed.

Lemma tquiet_nothing : forall cap o h o' ts, tidy o -> tquiet cap o h o' ts -> cleans_up h -> nothing o o' ts.
Proof.
  intros cap o h o' ts T H. induction H as [|h o1 ts1 a r o2 ts2 H IH E]; intros Hc.
  - constructor; auto.
    + intros k nm (t & b & K & _). destruct k; discriminate.
    + intros k k' nm nm' (t & b & K & _). destruct k; discriminate.
    + intros fd (k & t & K & _). destruct k; discriminate.
  - destruct (truns_linv _ _ _ _ _ T (tquiet_truns _ _ _ _ _ H)) as [gs L].
    eapply nothing_step; eauto.
    + apply IH. intros t x rs r0 Hin. eapply Hc. apply in_or_app. left. exact Hin.
    + intros t x rs ->. eapply Hc. apply in_or_app. right. left. reflexivity.
Qed.

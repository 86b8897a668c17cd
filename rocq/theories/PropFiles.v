(** * Temporary-file storages: the property theorems (C95)

    [Files.v] has the system calls of storage/temp.rs, [FilesSpec.v] the words used here. *)

From Coq Require Import Arith Lia Bool String List.
From Verif Require Import Base ListFacts Storage Files FilesSpec FilesFacts.
Import ListNotations.
Local Open Scope nat_scope.
Local Open Scope list_scope.

(** ** C95: any number of temporary-file storages at once *)

(** Every result is the one the file model of [Storage.v] has, with one file for each storage
    created: the two halves share the data and nothing else, storages do not mix, and what
    other processes do to names, directories and other files makes no difference. *)
Theorem C95_like_the_model : forall cap o h o' ts, tidy o -> truns cap o h o' ts ->
  forall h1 a r h2, h = h1 ++ (a, r) :: h2 -> expected (files cap h1) a r.
Proof. exact truns_expected. Qed.

(** What a storage reads depends only on what was done with that storage. *)
Lemma own_file : forall cap h k f, nth_error (files cap h) k = Some f ->
  f = fold_left (fun f a => match a with
      | TRead _ n => snd (file_read n f)
      | TRseek _ p => file_rseek p f
      | TTell _ => file_rseek (file_rpos f) f
      | TWrite _ bs => file_write bs f
      | TWseek _ p => file_wseek p f
      | _ => f end) (own_ops k h) (file_new cap) \/
  exists h1 a r h2, h = h1 ++ (a, r) :: h2 /\ concerns k a = true /\ ~ nth_error (files cap h1) k <> None.
Proof.
  intros cap h. induction h as [|[a r] h IH] using rev_ind; intros k f H.
  - destruct k; discriminate.
  - rewrite files_snoc in H. unfold own_ops. rewrite map_app, filter_app, fold_left_app. cbn [map filter fst].
    fold (own_ops k h).
    destruct (nth_error (files cap h) k) as [f0|] eqn:E0.
    + destruct (IH _ _ E0) as [IH1|(h1 & a1 & r1 & h2 & E1 & E2)].
      * left. rewrite <- IH1.
        assert (Lk : k < length (files cap h)) by (apply nth_error_Some; congruence).
        assert (On : forall j g, nth_error (on_nth (files cap h) j g) k = Some f ->
          f = if j =? k then g f0 else f0).
        { intros j g Hj. unfold on_nth in Hj. destruct (Nat.eqb_spec j k) as [->|Hn].
          - rewrite E0, set_nth_same in Hj by auto. congruence.
          - destruct (nth_error (files cap h) j) eqn:Ej; [|congruence].
            rewrite set_nth_other in Hj; [congruence|apply nth_error_Some; congruence|auto]. }
        destruct a as [t x rs|j n|j p|j|j bs|j p|j|j]; cbn [file_op fst snd concerns] in *;
          try (apply On in H; destruct (j =? k); exact H);
          try (destruct (j =? k); cbn; congruence).
        destruct r as [[|]| | |]; try (cbn; congruence). rewrite nth_error_app1 in H by auto. cbn. congruence.
      * right. exists h1, a1, r1, (h2 ++ [(a, r)]). split; auto. rewrite E1, <- app_assoc. reflexivity.
    + destruct (existsb (concerns k) (map fst h)) eqn:Ex.
      * right. apply existsb_exists in Ex. destruct Ex as (a1 & I1 & I2). apply in_map_iff in I1.
        destruct I1 as ([a2 r1] & <- & I1). apply in_split in I1. destruct I1 as (h1 & h2 & E1). cbn in I2.
        exists h1, a2, r1, (h2 ++ [(a, r)]). split; [rewrite E1, <- app_assoc; reflexivity|]. split; auto.
        assert (M : forall l fs, nth_error fs k <> None -> nth_error (fold_left (file_op cap) l fs) k <> None).
        { induction l as [|x l IHl]; intros fs Hfs; cbn; auto. apply IHl.
          assert (On : forall j g, nth_error (on_nth fs j g) k <> None).
          { intros j g. unfold on_nth. destruct (nth_error fs j) eqn:Ej; auto.
            apply nth_error_Some. apply nth_error_Some in Hfs. rewrite set_nth_length; auto. apply nth_error_Some. congruence. }
          destruct x as [[] y]; cbn; auto. destruct y as [[|]| | |]; auto.
          apply nth_error_Some. apply nth_error_Some in Hfs. rewrite app_length. lia. }
        intros K. apply (M ((a2, r1) :: h2)) in K. apply K. rewrite <- E0, E1. unfold files. rewrite fold_left_app. reflexivity.
      * assert (Nil : own_ops k h = []).
        { unfold own_ops. destruct (filter (concerns k) (map fst h)) as [|y l] eqn:El; auto. exfalso.
          assert (In y (filter (concerns k) (map fst h))) by (rewrite El; left; auto).
          apply filter_In in H0. assert (existsb (concerns k) (map fst h) = true) by (apply existsb_exists; exists y; tauto). congruence. }
        rewrite Nil. cbn [fold_left].
        assert (On : forall j g, nth_error (on_nth (files cap h) j g) k = None).
        { intros j g. unfold on_nth. destruct (nth_error (files cap h) j) eqn:Ej; auto.
          apply nth_error_None. apply nth_error_None in E0. rewrite set_nth_length; auto. apply nth_error_Some. congruence. }
        destruct a as [t x rs|j n|j p|j|j bs|j p|j|j]; cbn [file_op fst snd concerns] in *;
          try (rewrite On in H; discriminate); try congruence.
        destruct r as [[|]| | |]; try congruence. apply nth_error_None in E0.
        rewrite nth_error_app2 in H by auto. destruct (k - length (files cap h)) as [|[|q]]; cbn in H; try discriminate.
        left. cbn. congruence.
Qed.

Theorem C95_isolated : forall cap o1 h1 o1' ts1 o2 h2 o2' ts2 k n r1 r2,
  tidy o1 -> truns cap o1 (h1 ++ [(TRead k n, r1)]) o1' ts1 ->
  tidy o2 -> truns cap o2 (h2 ++ [(TRead k n, r2)]) o2' ts2 ->
  own_ops k h1 = own_ops k h2 -> r1 = r2.
Proof.
  intros cap o1 h1 o1' ts1 o2 h2 o2' ts2 k n r1 r2 T1 H1 T2 H2 E.
  assert (G : forall o h o' ts r, tidy o -> truns cap o (h ++ [(TRead k n, r)]) o' ts ->
    exists bs, r = RBytes bs /\ fst (file_read n (fold_left (fun f a => match a with
      | TRead _ n => snd (file_read n f)
      | TRseek _ p => file_rseek p f
      | TTell _ => file_rseek (file_rpos f) f
      | TWrite _ bs => file_write bs f
      | TWseek _ p => file_wseek p f
      | _ => f end) (own_ops k h) (file_new cap))) = Ok bs).
  { intros o h o' ts r T H.
    destruct (truns_expected _ _ _ _ _ T H h (TRead k n) r [] eq_refl) as (f & bs & E1 & E2 & E3).
    exists bs. split; auto. destruct (own_file _ _ _ _ E1) as [Ef|(a1 & a & r' & a2 & Eh & Ea & Ek)].
    - rewrite <- Ef. exact E2.
    - exfalso. apply Ek. rewrite Eh, <- app_assoc in H.
      pose proof (truns_expected _ _ _ _ _ T H a1 a r' (a2 ++ [(TRead k n, r)]) eq_refl) as X.
      destruct a as [t x rs|j m|j p|j|j b|j p|j|j]; cbn in Ea, X; try discriminate;
        apply Nat.eqb_eq in Ea; subst j.
      + destruct X as (f' & bs' & X & _). congruence.
      + tauto.
      + destruct X as (f' & X & _). congruence.
      + tauto.
      + tauto.
      + tauto.
      + tauto. }
  destruct (G _ _ _ _ _ T1 H1) as (b1 & -> & G1). destruct (G _ _ _ _ _ T2 H2) as (b2 & -> & G2). congruence.
Qed.

(** Operations on halves that have not been dropped do not fail, whatever happened to the
    other half, to other storages or to the name of the file. *)
Theorem C95_never_fails : forall cap o h o' ts a, tidy o -> truns cap o h o' ts -> usable ts a ->
  exists r o'' ts'', texec cap o' ts a = Some (r, o'', ts'').
Proof.
  intros cap o h o' ts a T H U. destruct (truns_linv _ _ _ _ _ T H) as [gs L].
  destruct (texec cap o' ts a) as [[[r o''] ts'']|] eqn:E; eauto. destruct (texec_total _ _ _ _ _ _ L U E).
Qed.

(** A storage can be created as long as the system calls work and one of the names tried is
    not in use. *)
Theorem C95_created : forall t rs o, tidy o ->
  (exists r, In r rs /\ o_name o (temp_path (builder_of t) r) = None) ->
  exists nm w o', temp_open t (mkFaults false false false) rs o = (Some (nm, w), o').
Proof.
  intros t rs o [T1 T2] (r & R1 & R2).
  assert (E : exists nm o1, tempfile o (builder_of t) rs = Some (nm, o1)).
  { clear T1 T2. revert R1. induction rs as [|r0 rs IH]; intros R1; [destruct R1|]. cbn.
    unfold sys_create at 1. destruct (o_name o (temp_path (builder_of t) r0)) eqn:En.
    - destruct R1 as [->|R1]; [congruence|]. apply IH. exact R1.
    - cbn. eauto. }
  destruct E as (nm & o1 & E). unfold temp_open. cbn [x_create x_reopen x_clone]. rewrite E.
  destruct (tempfile_inv _ _ _ _ _ E) as (r' & _ & _ & _ & Ec).
  unfold sys_create in Ec. destruct (o_name o (n_path nm)) eqn:En; [discriminate|]. cbn in Ec. injection Ec as Efd <-.
  unfold reopen, sys_open_path. cbn. unfold upd_name at 1.
  destruct (path_eqb_spec (n_path nm) (n_path nm)) as [_|?]; [|congruence]. rewrite <- Efd.
  unfold same_file, sys_desc. cbn. unfold upd.
  repeat (rewrite Nat.eqb_refl || match goal with |- context [?a =? ?b] => destruct (Nat.eqb_spec a b); try lia end; cbn).
  unfold sys_dup. cbn. unfold upd.
  repeat (rewrite Nat.eqb_refl || match goal with |- context [?a =? ?b] => destruct (Nat.eqb_spec a b); try lia end; cbn).
  all: eauto.
Qed.

(** The file lies where the provider was told to put it. *)
Theorem C95_place : forall t x rs o nm w o', tidy o -> temp_open t x rs o = (Some (nm, w), o') ->
  exists r, In r rs /\
    (t = temp_new -> n_path nm = (default_dir, String.append ".tmp" r)) /\
    (forall dir, t = temp_new_in dir -> n_path nm = (dir, String.append ".tmp" r)) /\
    (forall pre, t = temp_with_prefix pre -> n_path nm = (default_dir, String.append pre r)) /\
    (forall pre dir, t = temp_with_prefix_in pre dir -> n_path nm = (dir, String.append pre r)) /\
    (forall b, t = temp_with_builder b -> n_path nm = temp_path b r /\ n_keep nm = b_keep b).
Proof.
  intros t x rs o nm w o' T H. destruct (temp_open_spec _ _ _ _ _ _ T H) as (_ & _ & _ & K & r & R1 & R2).
  assert (App : forall s, String.append s "" = s) by (induction s; cbn; congruence).
  exists r. split; auto. repeat split; intros; subst t; rewrite ?R2, ?K; unfold temp_path; cbn; rewrite ?App; reflexivity.
Qed.

(** While storages are in use, no other name, descriptor or file is touched: not by creating
    one, successfully or not, nor by using or dropping one. *)
Theorem C95_others_untouched : forall cap o h o' ts, tidy o -> tquiet cap o h o' ts -> cleans_up h ->
  (forall p, (forall k t nm buf, nth_error ts k = Some t -> ts_reader t = Some (nm, buf) -> n_path nm <> p) ->
     o_name o' p = o_name o p) /\
  (forall p i, o_name o p = Some i -> o_name o' p = Some i /\ o_data o' i = o_data o i) /\
  (forall fd, sys_desc o fd <> None -> sys_desc o' fd = sys_desc o fd).
Proof.
  intros cap o h o' ts T H Hc. destruct (tquiet_nothing _ _ _ _ _ T H Hc) as [N1 N2 N3 N4 N5 N6 N7 N8].
  split; [|split].
  - intros p K. apply N3. intros k nm (t & b & K1 & K2). eauto.
  - intros p i E. split; [|apply N8; apply (proj2 T p); auto]. rewrite <- E. apply N3.
    intros k nm R <-. destruct (N2 _ _ R) as (Q & _). congruence.
  - intros fd. unfold sys_desc. destruct (o_fd o fd) as [d|] eqn:Ed; [|congruence].
    destruct (o_desc o d) as [e|] eqn:Ee; [|congruence]. intros _.
    assert (Lf : fd < o_fresh o).
    { destruct (Nat.lt_ge_cases fd (o_fresh o)); auto. destruct (proj1 T fd); auto. congruence. }
    assert (Ld : d < o_fresh o).
    { destruct (Nat.lt_ge_cases d (o_fresh o)); auto. destruct (proj1 T d); auto. congruence. }
    destruct (N6 fd) as [Ow|E1]; [destruct (N5 _ Ow); lia|]. rewrite E1, Ed.
    destruct (N7 d) as [(z & Z1 & Z2)|E2]; [|rewrite E2, Ee; auto].
    destruct (N5 _ Z1) as (_ & d' & e' & Q1 & _ & Q3 & _). assert (d' = d) by congruence. lia.
Qed.

(** Once both halves of every storage have been dropped nothing is left of them. *)
Theorem C95_nothing_left : forall cap o h o' ts, tidy o -> tquiet cap o h o' ts -> cleans_up h ->
  all_dropped ts -> untouched o o'.
Proof.
  intros cap o h o' ts T H Hc Ha. destruct (tquiet_nothing _ _ _ _ _ T H Hc) as [N1 N2 N3 N4 N5 N6 N7 N8].
  assert (No : forall fd, ~ owned ts fd).
  { intros fd (k & t & K1 & K2). apply nth_error_In in K1. destruct (Ha _ K1) as [A1 A2].
    destruct K2 as [(nm & buf & K2 & _)|K2]; congruence. }
  split; [|split].
  - intros p. apply N3. intros k nm (t & b & K1 & K2). apply nth_error_In in K1. destruct (Ha _ K1). congruence.
  - intros p i E. apply N8. apply (proj2 T p). exact E.
  - intros fd. unfold sys_desc. destruct (N6 fd) as [Ow| ->]; [destruct (No _ Ow)|].
    destruct (o_fd o fd) as [d|]; auto. destruct (N7 d) as [(z & Z1 & _)| ->]; auto. destruct (No _ Z1).
Qed.

(** The name is gone with the reading half already. *)
Theorem C95_name_goes_with_reader : forall cap o h o' ts k t o'' ts'' nm buf r, tidy o ->
  tquiet cap o h o' ts -> cleans_up h -> nth_error ts k = Some t -> ts_reader t = Some (nm, buf) ->
  texec cap o' ts (TDropReader k) = Some (r, o'', ts'') -> o_name o'' (n_path nm) = None.
Proof.
  intros cap o h o' ts k t o'' ts'' nm buf r T H Hc Et Er E.
  destruct (tquiet_nothing _ _ _ _ _ T H Hc) as [N1 N2 N3 N4 N5 N6 N7 N8].
  destruct (N2 k nm) as (_ & _ & Kp); [exists t, buf; auto|].
  destruct (truns_linv _ _ _ _ _ T (tquiet_truns _ _ _ _ _ H)) as [gs L].
  cbn in E. rewrite Et in E. destruct t as [rr w]. cbn in Er. subst rr. injection E as <- <- <-.
  destruct (linv_get _ _ _ _ _ _ _ L Et) as (f & i & d1 & d2 & Ef & Eg & C).
  destruct (ce_reader _ _ _ _ _ _ _ C _ _ eq_refl) as (K1 & K2 & ap & K3).
  unfold drop_named. rewrite Kp. rewrite (close_eq (sys_unlink o' (n_path nm)) (n_fd nm) d1 (mkDescr i (f_off f) ap 1)) by (cbn; auto).
  cbn. upds; congruence.
Qed.

(** A process that is killed leaves its temporary files behind: they have names.  (An
    unnamed file would be gone with its last descriptor.) *)
Lemma killed_names : forall ts o, o_name (killed o ts) = o_name o.
Proof.
  assert (Cl : forall o fd, o_name (sys_close o fd) = o_name o).
  { intros o fd. unfold sys_close. destruct (o_fd o fd); reflexivity. }
  unfold killed. induction ts as [|t ts IH]; intros o; cbn; auto. rewrite IH.
  unfold close_writer, close_reader. destruct (ts_writer t), (ts_reader t) as [[? ?]|]; rewrite ?Cl; reflexivity.
Qed.

Theorem C95_killed_leaves_files : forall cap o h o' ts, tidy o -> tquiet cap o h o' ts -> cleans_up h ->
  forall k t nm buf, nth_error ts k = Some t -> ts_reader t = Some (nm, buf) ->
  o_name o (n_path nm) = None /\ o_name (killed o' ts) (n_path nm) <> None.
Proof.
  intros cap o h o' ts T H Hc k t nm buf Et Er. rewrite killed_names.
  destruct (tquiet_nothing _ _ _ _ _ T H Hc) as [N1 N2 N3 N4 N5 N6 N7 N8].
  destruct (N2 k nm) as (A & B & _); [exists t, buf; auto|auto].
Qed.

(** ** Cases *)

(** A system with a file that has one of the names that will be tried. *)
Definition some_os : os :=
  mkOs (fun i => if i =? 0 then [x07; x07] else [])
       (fun p => if path_eqb p ("/tmp", ".tmpA")%string then Some 0 else None)
       (fun _ => None) (fun _ => None) 1.

Lemma some_tidy : tidy some_os.
Proof.
  split; [auto|]. intros p i. cbn. destruct (path_eqb p ("/tmp", ".tmpA")%string); [intros [= <-]; lia|discriminate].
Qed.

Fixpoint all_ops (cap : nat) (o : os) (ts : list tstore) (l : list top)
  : option (list (top * tres) * os * list tstore) :=
  match l with
  | [] => Some ([], o, ts)
  | a :: l =>
      match texec cap o ts a with
      | Some (r, o1, ts1) =>
          match all_ops cap o1 ts1 l with
          | Some (h, o2, ts2) => Some ((a, r) :: h, o2, ts2)
          | None => None
          end
      | None => None
      end
  end.

Lemma all_ops_quiet : forall cap o l o1 ts1 h1 h o2 ts2, tquiet cap o h1 o1 ts1 ->
  all_ops cap o1 ts1 l = Some (h, o2, ts2) -> tquiet cap o (h1 ++ h) o2 ts2.
Proof.
  induction l as [|a l IH]; intros o1 ts1 h1 h o2 ts2 Q H; cbn in H.
  - injection H as <- <- <-. rewrite app_nil_r. exact Q.
  - destruct (texec cap o1 ts1 a) as [[[r o3] ts3]|] eqn:E; [|discriminate].
    destruct (all_ops cap o3 ts3 l) as [[[h3 o4] ts4]|] eqn:E2; [|discriminate].
    injection H as <- <- <-. replace (h1 ++ (a, r) :: h3) with ((h1 ++ [(a, r)]) ++ h3) by (rewrite <- app_assoc; reflexivity).
    eapply IH; eauto. econstructor; eauto.
Qed.

(** Two storages, one of them with a builder that appends, and one that could not be created;
    the name tried first is in use. *)
Definition session : list top :=
  let ok := mkFaults false false false in
  [ TNew temp_new ok ["A"; "B"]%string;
    TNew (temp_new_in "/var") (mkFaults false true false) ["A"]%string;
    TNew (temp_with_builder (mkBuilder (Some "/var") "x" ".mp3" true false)%string) ok ["A"]%string;
    TWrite 0 [x01; x02; x03; x04; x05]; TWrite 1 [x09; x08]; TRead 0 2; TRead 1 5; TWseek 1 0; TWrite 1 [x06];
    TTell 0; TRseek 0 3; TRead 0 9; TRseek 1 0; TRead 1 9 ].
Definition goodbye : list top := [TDropReader 0; TWrite 0 [x01]; TDropWriter 0; TDropWriter 1; TDropReader 1].

Example C95_case :
  exists h o ts h' o' ts', tquiet 4 some_os h o ts /\ tquiet 4 some_os (h ++ h') o' ts' /\
    map fst h = session /\ map fst h' = goodbye /\ cleans_up (h ++ h') /\ all_dropped ts' /\
    map snd h = [ROpened true; ROpened false; ROpened true; RDone; RDone; RBytes [x01; x02]; RBytes [x09; x08];
                 RPos 0; RDone; RPos 2; RPos 3; RBytes [x04; x05]; RPos 0; RBytes [x06; x08]] /\
    o_name o ("/tmp", ".tmpB")%string <> None /\ o_name o ("/var", "xA.mp3")%string <> None /\
    o_name o' ("/tmp", ".tmpB")%string = None /\ o_name o' ("/var", "xA.mp3")%string = None /\
    o_name o' ("/tmp", ".tmpA")%string = Some 0 /\ o_data o' 0 = [x07; x07].
Proof.
  destruct (all_ops 4 some_os [] session) as [[[h o] ts]|] eqn:E; [|vm_compute in E; discriminate].
  destruct (all_ops 4 o ts goodbye) as [[[h' o'] ts']|] eqn:E'.
  2:{ exfalso. revert E'. apply (f_equal (option_map (fun x => all_ops 4 (snd (fst x)) (snd x) goodbye))) in E.
      cbn [option_map fst snd] in E. intros E'. rewrite E' in E. vm_compute in E. discriminate. }
  exists h, o, ts, h', o', ts'.
  pose proof (all_ops_quiet 4 some_os session _ _ [] _ _ _ (tq_start _ _) E) as Q. cbn [app] in Q.
  split; [exact Q|]. split; [exact (all_ops_quiet _ _ _ _ _ _ _ _ _ Q E')|].
  vm_compute in E. injection E as <- <- <-. vm_compute in E'. injection E' as <- <- <-.
  split; [reflexivity|]. split; [reflexivity|]. split.
  { intros t x rs r K. cbn in K. repeat (destruct K as [K|K]; [try discriminate; injection K; intros; subst; reflexivity|]). destruct K. }
  split. { intros t K. cbn in K. repeat (destruct K as [<-|K]; [auto|]). destruct K. }
  split; [reflexivity|]. vm_compute. repeat split; congruence.
Qed.

(** The claim that the files go however the process ends is false. *)
Theorem C95_killed_not_clean : exists cap o h o' ts,
  tidy o /\ tquiet cap o h o' ts /\ cleans_up h /\ ~ untouched o (killed o' ts).
Proof.
  destruct C95_case as (h & o & ts & h' & o' & ts' & Q & _ & _ & _ & C & _ & _ & N & _).
  exists 4, some_os, h, o, ts. split; [exact some_tidy|]. split; [exact Q|]. split.
  - intros t x rs r K. eapply C. apply in_or_app. left. exact K.
  - intros (U & _). specialize (U ("/tmp", ".tmpB")%string). rewrite killed_names in U. apply N. rewrite U. reflexivity.
Qed.

(** What others do meanwhile: the name of the file in use is removed, and the file can still
    be read. *)
Example C95_else_case : exists h o ts, truns 4 some_os h o ts /\
  o_name o ("/tmp", ".tmpB")%string = None /\ usable ts (TRead 0 2) /\ h <> [].
Proof.
  destruct (all_ops 4 some_os [] session) as [[[h o] ts]|] eqn:E; [|vm_compute in E; discriminate].
  pose proof (all_ops_quiet 4 some_os session _ _ [] _ _ _ (tq_start _ _) E) as Q. cbn [app] in Q.
  exists h, (sys_unlink o ("/tmp", ".tmpB")%string), ts.
  destruct (truns_linv _ _ _ _ _ some_tidy (tquiet_truns _ _ _ _ _ Q)) as [gs L].
  split; [|split; [|split]].
  - eapply tr_else; [apply tquiet_truns; exact Q|]. destruct (li_tidy _ _ _ _ _ L) as [T1 T2]. constructor; cbn; auto.
    split; cbn; auto. intros p i. upds; [discriminate|eauto].
  - cbn. upds; congruence.
  - vm_compute in E. injection E as <- <- <-. cbn. eexists. split; [reflexivity|discriminate].
  - vm_compute in E. injection E as <- <- <-. discriminate.
Qed.

Print Assumptions C95_like_the_model.
Print Assumptions C95_isolated.
Print Assumptions C95_never_fails.
Print Assumptions C95_created.
Print Assumptions C95_place.
Print Assumptions C95_others_untouched.
Print Assumptions C95_nothing_left.
Print Assumptions C95_name_goes_with_reader.
Print Assumptions C95_killed_leaves_files.
Print Assumptions C95_killed_not_clean.

(** * Progress: with unbounded storage and a transport that makes progress, the download
    task terminates, so every blocked call is released. *)

From Coq Require Import List Arith Lia ZArith Bool.
From Verif Require Import Base ListFacts RangeSet RangeSetFacts Storage StorageFacts
  System Spec StepTac InvSync InvTrace InvCore Alive LifeFacts Exec.
Import ListNotations.

(** The bytes the current activity of the task is going to record as downloaded. *)
Definition seg (c : cfg) (s : gstate) : nat * nat :=
  match g_dpc s with
  | DSelect => (if g_pfc s then g_scur s else g_pfs s, g_send s)
  | DPre _ _ => (g_pfs s, g_send s)
  | DWTop _ _ pos | DWBatch _ _ pos _ | DWPost _ _ pos _ | DWCheck _ _ pos _
  | DWNotify _ _ pos _ => (pos, g_send s)
  | DSeeking a b => (a, match body_window c a b with Some (_, y) => y | None => a end)
  | _ => (0, 0)
  end.

Definition accounted (c : cfg) (s : gstate) (x : nat) : bool :=
  match rs_get x (g_down s) with Some _ => true | None => false end ||
  ((fst (seg c s) <=? x) && (x <? snd (seg c s))).

Lemma accounted_iff : forall c s x, accounted c s x = true <->
  covered (g_down s) x \/ fst (seg c s) <= x < snd (seg c s).
Proof.
  intros c s x. unfold accounted. rewrite orb_true_iff, andb_true_iff, Nat.leb_le, Nat.ltb_lt.
  destruct (rs_get x (g_down s)) as [[a b]|] eqn:E.
  - apply rs_get_some in E as [E1 E2]. split; auto. left. exists a, b; auto.
  - apply rs_get_none in E. split; [intros [H|H]; [discriminate|auto]|intros [H|H]; [contradiction|auto]].
Qed.

Definition missing (c : cfg) (s : gstate) : nat :=
  match c_clen c with
  | Some cl => length (filter (fun x => negb (accounted c s x)) (seq 0 cl))
  | None => 0
  end.

(** Actions left until the body is used up, for a body that delivers byte by byte. *)
Definition work (c : cfg) (s : gstate) : nat :=
  match g_dpc s with
  | DSelect => 10 * (g_send s - g_scur s)
  | DPre b w => 10 * (g_send s - g_scur s) + (length b - w) + 1
  | DWTop b w _ => 10 * (g_send s - g_scur s) + (if w <? length b then length b - w + 7 else 1)
  | DWBatch b w _ nw => 10 * (g_send s - g_scur s) + (length b - (w + nw)) + 6
  | DWPost _ _ _ _ => 10 * (g_send s - g_scur s) + 5
  | DWCheck _ _ _ _ => 10 * (g_send s - g_scur s) + 4
  | DWNotify _ _ _ _ => 10 * (g_send s - g_scur s) + 3
  | DSeeking a b => 1 + 10 * (snd (seg c s) - a)
  | _ => 0
  end.

Definition unit (c : cfg) : nat := 11 * length (c_content c) + 20.

Definition measure (c : cfg) (s : gstate) : nat :=
  match g_dpc s with
  | DFinish => 6 | DReport => 5 | DOnFinish _ => 4 | DSetFailed => 3 | DSignal => 2
  | DCancelTok => 1 | DEnd | DPanic | DWWait _ _ _ => 0
  | _ => 7 + ((match g_chan s with Some _ => S (length (c_content c)) | None => 0 end +
               missing c s) * unit c + work c s)
  end.

Lemma filter_le : forall (f g : nat -> bool) l, (forall x, In x l -> f x = true -> g x = true) ->
  length (filter f l) <= length (filter g l).
Proof.
  induction l as [|a l IH]; intros H; cbn; auto.
  assert (IH' : length (filter f l) <= length (filter g l)) by (apply IH; intros; apply H; cbn; auto).
  destruct (f a) eqn:Ef; [rewrite (H a) by (cbn; auto); cbn; lia|].
  destruct (g a); cbn; lia.
Qed.

Lemma filter_lt : forall (f g : nat -> bool) l y, (forall x, In x l -> f x = true -> g x = true) ->
  In y l -> f y = false -> g y = true -> length (filter f l) < length (filter g l).
Proof.
  induction l as [|a l IH]; intros y H Hy Hf Hg; [inversion Hy|]. cbn.
  assert (IH' : length (filter f l) <= length (filter g l)) by (apply filter_le; intros; apply H; cbn; auto).
  destruct Hy as [->|Hy].
  - rewrite Hf, Hg. cbn. lia.
  - assert (length (filter f l) < length (filter g l)) by (apply (IH y); auto; intros; apply H; cbn; auto).
    destruct (f a) eqn:Ef; [rewrite (H a) by (cbn; auto); cbn; lia|].
    destruct (g a); cbn; lia.
Qed.

Lemma missing_le : forall c s s',
  (forall x, covered (g_down s) x \/ fst (seg c s) <= x < snd (seg c s) ->
             covered (g_down s') x \/ fst (seg c s') <= x < snd (seg c s')) ->
  missing c s' <= missing c s.
Proof.
  intros c s s' H. unfold missing. destruct (c_clen c); auto. apply filter_le.
  intros x _ Hx. apply negb_true_iff in Hx. apply negb_true_iff.
  destruct (accounted c s x) eqn:E; auto. apply accounted_iff in E. apply H in E.
  apply accounted_iff in E. congruence.
Qed.

Lemma missing_lt : forall c s s' cl y, c_clen c = Some cl ->
  (forall x, covered (g_down s) x \/ fst (seg c s) <= x < snd (seg c s) ->
             covered (g_down s') x \/ fst (seg c s') <= x < snd (seg c s')) ->
  y < cl -> ~ (covered (g_down s) y \/ fst (seg c s) <= y < snd (seg c s)) ->
  (covered (g_down s') y \/ fst (seg c s') <= y < snd (seg c s')) ->
  missing c s' < missing c s.
Proof.
  intros c s s' cl y Hc H Hy H1 H2. unfold missing. rewrite Hc. apply filter_lt with y.
  - intros x _ Hx. apply negb_true_iff in Hx. apply negb_true_iff.
    destruct (accounted c s x) eqn:E; auto. apply accounted_iff in E. apply H in E.
    apply accounted_iff in E. congruence.
  - apply in_seq. lia.
  - apply negb_false_iff. apply accounted_iff; auto.
  - apply negb_true_iff. destruct (accounted c s y) eqn:E; auto. apply accounted_iff in E. contradiction.
Qed.

Lemma missing_bound : forall c s, sane c -> missing c s <= length (c_content c).
Proof.
  intros c s Hs. unfold missing. destruct (c_clen c) as [cl|] eqn:E; [|lia].
  destruct Hs as [Hs _]. rewrite <- (Hs cl E).
  assert (H : forall (f : nat -> bool) l, length (filter f l) <= length l).
  { induction l as [|a l IH]; cbn; auto. destruct (f a); cbn; lia. }
  rewrite H, seq_length. auto.
Qed.

(** A seek in flight does not go behind the start of the prefetch it began. *)
Definition seek_ahead (s : gstate) : Prop :=
  match g_dpc s with DSeeking a _ => g_pfc s = false -> g_pfs s <= a | _ => True end.

Lemma seek_ahead_reach : forall c allow s, reach c allow s -> seek_ahead s.
Proof.
  intros c allow s H. induction H as [s H|s l s' Hr IH Hl H].
  - unfold init in H. destruct (into_rw _ _); [|discriminate]. injection H as <-. exact I.
  - unfold seek_ahead in *. destruct l; step_cases H; gsimpl; auto; try exact I; try discriminate; try lia;
      rewrite ?Heqd in *; auto; try congruence;
      try (repeat match goal with
        | |- context [if ?b then _ else _] => destruct b; gsimpl end; auto; exact I).
Qed.

(** Facts about a reachable state the measure relies on. *)
Record moving (c : cfg) (s : gstate) (u : ustore) : Prop := mkMoving
  { mo_core : exists W, coreT c s W u; mo_alive : alive c s u; mo_ahead : seek_ahead s }.

Lemma moving_reach : forall c s, sane c -> unbounded_store c -> honours_ranges c ->
  reach c no_empty_chunk s -> exists u, moving c s u.
Proof.
  intros c s Hs Hu Hh H.
  destruct (core_reach c no_empty_chunk s Hs Hu Hh) as (W & u & K & _); auto.
  { intros s0 l A. destruct l; cbn in *; auto. }
  destruct (alive_reach c s (proj2 (proj2 Hs)) Hu H) as [u' A].
  assert (u' = u) as -> by (pose proof (al_store _ _ _ A); pose proof (co_store _ _ _ _ K); congruence).
  exists u. split; eauto. eapply seek_ahead_reach; eauto.
Qed.

Lemma window_bound : forall c a b x y, honours_ranges c -> body_window c a b = Some (x, y) ->
  x = a /\ y - a <= length (c_content c).
Proof.
  intros c a b x y [Hh _] H. unfold body_window in H. destruct (inverted c a b).
  - destruct (c_inv c); try congruence. injection H as <- <-. lia.
  - injection H as <- <-. split; auto. destruct b; lia.
Qed.

Lemma work_unit : forall c s u, honours_ranges c -> moving c s u -> work c s < unit c.
Proof.
  intros c s u Hh [[W K] A _]. unfold work, unit.
  destruct (al_body _ _ _ A) as [B1 B2]. pose proof (co_task _ _ _ _ K) as T. unfold task_ok in T.
  destruct (g_dpc s) eqn:Ed; try lia; unfold writing in T.
  - destruct (_ <? _); lia.
  - lia.
  - unfold seg. rewrite Ed. cbn [snd fst].
    destruct (body_window c start stop) as [[x y]|] eqn:E; [|lia].
    destruct (window_bound _ _ _ _ _ Hh E). lia.
Qed.

Definition downloading (d : dpc) : bool :=
  match d with
  | DSelect | DPre _ _ | DWTop _ _ _ | DWBatch _ _ _ _ | DWPost _ _ _ _ | DWCheck _ _ _ _
  | DWNotify _ _ _ _ | DSeeking _ _ => true
  | _ => false
  end.

(** Ways to show that the measure decreases. *)
Lemma measure_stop : forall c s s', downloading (g_dpc s) = true -> downloading (g_dpc s') = false ->
  measure c s' < measure c s.
Proof.
  intros c s s' H1 H2. unfold measure.
  destruct (g_dpc s); try discriminate H1; destruct (g_dpc s'); try discriminate H2; lia.
Qed.

Lemma measure_downloading : forall c s, downloading (g_dpc s) = true ->
  measure c s = 7 + ((match g_chan s with Some _ => S (length (c_content c)) | None => 0 end +
               missing c s) * unit c + work c s).
Proof. intros c s H. unfold measure. destruct (g_dpc s); try discriminate H; reflexivity. Qed.

Lemma measure_work : forall c s s', downloading (g_dpc s) = true -> downloading (g_dpc s') = true ->
  g_chan s' = g_chan s ->
  (forall x, covered (g_down s) x \/ fst (seg c s) <= x < snd (seg c s) ->
             covered (g_down s') x \/ fst (seg c s') <= x < snd (seg c s')) ->
  work c s' < work c s -> measure c s' < measure c s.
Proof.
  intros c s s' H1 H2 H3 H4 H5. rewrite !measure_downloading by auto. rewrite H3.
  apply missing_le in H4. nia.
Qed.

Lemma measure_missing : forall c s s' u, honours_ranges c -> moving c s' u ->
  downloading (g_dpc s) = true -> downloading (g_dpc s') = true ->
  g_chan s' = g_chan s -> missing c s' < missing c s -> measure c s' < measure c s.
Proof.
  intros c s s' u Hh Hm H1 H2 H3 H4. rewrite !measure_downloading by auto. rewrite H3.
  pose proof (work_unit c s' u Hh Hm). nia.
Qed.

Lemma measure_chan : forall c s s' u, sane c -> honours_ranges c -> moving c s' u ->
  downloading (g_dpc s) = true -> downloading (g_dpc s') = true ->
  g_chan s <> None -> g_chan s' = None -> measure c s' < measure c s.
Proof.
  intros c s s' u Hs Hh Hm H1 H2 H3 H4. rewrite !measure_downloading by auto. rewrite H4.
  pose proof (work_unit c s' u Hh Hm). pose proof (missing_bound c s' Hs).
  destruct (g_chan s); [|congruence]. nia.
Qed.

Lemma measure_step : forall c s l s' u u', sane c -> honours_ranges c ->
  moving c s u -> moving c s' u' -> productive s l -> task_label l = true ->
  step c s l = Some s' -> measure c s' < measure c s.
Proof.
  intros c s l s' u u' Hs Hh Hm Hm' Hp Hl H.
  destruct Hm as [[W K] A Hah]. pose proof (co_task _ _ _ _ K) as T. unfold task_ok in T.
  pose proof (co_wf _ _ _ _ K) as Hwf.
  destruct A as [A1 A2 [A3 A3'] A4]. unfold alive_at in A4.
  destruct l; try discriminate Hl; cbn [step] in H; cbn in Hp; try contradiction.
  - (* LDSeek *)
    destruct (g_dpc s) eqn:Ed; try discriminate. destruct (g_chan s) as [p|] eqn:Ec; [|discriminate].
    injection H as <-.
    apply (measure_chan c s _ u'); auto; try (rewrite ?Ed, ?Ec; reflexivity || discriminate).
    + unfold handle_seek. destruct (should_seek _ _ _); gsimpl; rewrite ?Ed; auto.
      destruct (g_pfc s); gsimpl; destruct (c_clen c); gsimpl;
      try (destruct (rs_next_gap _ _ _) as [[? ?]|]); gsimpl; rewrite ?Ed; auto.
    + unfold handle_seek. destruct (should_seek _ _ _); gsimpl; auto.
      destruct (g_pfc s); gsimpl; destruct (c_clen c); gsimpl;
      try (destruct (rs_next_gap _ _ _) as [[? ?]|]); gsimpl; auto.
  - (* LDChunk *)
    destruct (g_dpc s) eqn:Ed; try discriminate. destruct (Nat.leb_spec (g_scur s + k) (g_send s)); [|discriminate].
    injection H as <-. destruct T as (T1 & T2 & T3).
    apply measure_work; unfold handle_bytes; gsimpl; rewrite ?Ed, ?A2; destruct (g_pfc s) eqn:Ep; gsimpl; auto.
    + intros x. unfold seg; gsimpl. rewrite Ed, Ep. cbn [fst snd]. rewrite A1. cbn [st_wpos]. rewrite <- T2. auto.
    + intros x. unfold seg; gsimpl. rewrite Ed, Ep. cbn [fst snd]. auto.
    + unfold work; gsimpl. rewrite Ed, length_slice.
      match goal with |- context [if ?b then _ else _] => destruct b end; lia.
    + unfold work; gsimpl. rewrite Ed, length_slice. lia.
  - (* LDEof *)
    destruct (g_dpc s) eqn:Ed; try discriminate. injection H as <-. destruct T as (T1 & T2 & T3).
    set (s1 := if g_pfc s then s else set_down s (rs_add (g_pfs s) (u_wpos u) (g_down s))).
    revert Hm'. unfold handle_bytes. gsimpl. rewrite A2, A1. cbn [st_wpos].
    intros Hm'.
    destruct (downloading (g_dpc (if g_pfc s
      then finish_or_find_next_gap c (set_rem (set_send s (g_scur s)) None)
      else finish_or_find_next_gap c (set_down (set_pfc (set_send s (g_scur s)) true)
             (rs_add (g_pfs s) (u_wpos u) (g_down s)))))) eqn:Edl;
    [|apply measure_stop; [rewrite Ed; reflexivity|exact Edl]].
    apply (measure_missing c s _ u'); auto; [rewrite Ed; reflexivity| |].
    { unfold finish_or_find_next_gap. destruct (g_pfc s), (c_seekable c), (c_clen c); gsimpl; auto;
        destruct (rs_next_gap _ _ _) as [[? ?]|]; gsimpl; auto. }
    clear Hm'. unfold finish_or_find_next_gap in *. destruct (g_pfc s) eqn:Ep; gsimpl;
      (destruct (c_seekable c); [|discriminate Edl]); (destruct (c_clen c) as [cl|] eqn:Ec; [|discriminate Edl]);
      (destruct (rs_next_gap _ _ _) as [[a b]|] eqn:Eg; [|discriminate Edl]).
    + destruct (rs_next_gap_some _ _ _ _ _ _ Hwf Eg) as (G1 & G2 & G3 & G4 & G5 & G6).
      apply (missing_lt c s _ cl a); auto; try lia.
      * intros x. unfold seg; gsimpl. rewrite Ed, Ep. cbn [fst snd]. intros [Hx|Hx]; [auto|lia].
      * unfold seg. rewrite Ed, Ep. cbn [fst snd]. intros [Hx|Hx]; [|lia]. apply (G5 a); auto; lia.
      * right. unfold seg; gsimpl. cbn [fst snd]. unfold body_window, inverted.
        destruct Hs as [Hs _]. pose proof (Hs cl Ec).
        destruct (Nat.leb_spec b a); [lia|]. cbn. lia.
    + assert (Hwf' : rs_wf (rs_add (g_pfs s) (u_wpos u) (g_down s))) by (apply rs_add_wf; auto).
      destruct (rs_next_gap_some _ _ _ _ _ _ Hwf' Eg) as (G1 & G2 & G3 & G4 & G5 & G6).
      apply (missing_lt c s _ cl a); auto; try lia.
      * intros x. unfold seg; gsimpl. rewrite Ed, Ep. cbn [fst snd]. rewrite rs_add_covered.
        intros [Hx|Hx]; [auto|]. left; right. lia.
      * unfold seg. rewrite Ed, Ep. cbn [fst snd].
        intros Hx. apply (G5 a); [lia|]. apply rs_add_covered. destruct Hx as [Hx|Hx]; [auto|right; lia].
      * right. unfold seg; gsimpl. cbn [fst snd]. unfold body_window, inverted.
        destruct Hs as [Hs _]. pose proof (Hs cl Ec).
        destruct (Nat.leb_spec b a); [lia|]. cbn. lia.
  - (* LDCancel *)
    destruct (g_dpc s) eqn:Ed; try discriminate. destruct (g_cancel s); [|discriminate]. injection H as <-.
    apply measure_stop; [rewrite Ed|]; reflexivity.
  - (* LDStep *)
    unfold d_step in H. destruct (g_dpc s) eqn:Ed; try discriminate; try contradiction.
    + (* DPre *)
      destruct T as (T1 & T2 & T3 & T4 & T5 & T6 & T7 & T8).
      unfold write_once in H. rewrite A1 in H. cbn [st_write] in H. rewrite length_slice in H.
      set (z := Nat.min (Nat.min (c_batch c) (length bytes - w)) (length bytes - w)) in *.
      destruct (Nat.eqb_spec z 0) as [Ez|Ez]; injection H as <-.
      * assert (w = length bytes) by (destruct Hs as (_ & _ & Hb); lia). subst w.
        revert Hm'. unfold prefetch_done. gsimpl. rewrite Nat.ltb_irrefl, orb_false_r. cbn [st_wpos].
        replace (slice bytes (length bytes) _) with (@nil byte) by (rewrite slice_empty; auto).
        assert (Ew : u_wpos (u_write [] u) = u_wpos u) by (rewrite u_write_wpos; cbn; lia).
        rewrite Ew. intros Hm'.
        apply measure_work; gsimpl; try (rewrite Ed); try reflexivity;
          destruct (Nat.leb_spec (g_pfs s + c_prefetch c) (u_wpos u)); gsimpl; try reflexivity.
        -- intros x. unfold seg; gsimpl. rewrite Ed. cbn [fst snd]. rewrite rs_add_covered.
           intros [Hx|Hx]; [auto|]. destruct (Nat.lt_ge_cases x (u_wpos u)); [left; right; lia|right; lia].
        -- intros x. unfold seg; gsimpl. rewrite Ed, T2. cbn [fst snd]. auto.
        -- unfold work; gsimpl. rewrite Ed. lia.
        -- unfold work; gsimpl. rewrite Ed. lia.
      * apply measure_work; gsimpl; rewrite ?Ed; auto.
        -- intros x. unfold seg; gsimpl. rewrite Ed. cbn [fst snd]. auto.
        -- unfold work; gsimpl. rewrite Ed. lia.
    + (* DWTop *)
      unfold writing in T. destruct T as (T1 & T2 & T3 & T4 & T5 & T6 & T7 & T8 & T9).
      destruct (Nat.ltb_spec w (length bytes)); injection H as <-.
      * apply measure_work; gsimpl; rewrite ?Ed; auto.
        -- intros x. unfold seg; gsimpl. rewrite Ed. cbn [fst snd]. auto.
        -- unfold work; gsimpl. rewrite Ed. destruct (Nat.ltb_spec w (length bytes)); lia.
      * unfold report_downloading in *.
        destruct (st_wpos (g_store s)) as [|q] eqn:Eq; [apply measure_stop; [rewrite Ed|]; reflexivity|].
        destruct (rs_get q (g_down s)) as [ch|]; [|apply measure_stop; [rewrite Ed|]; reflexivity].
        apply measure_work; gsimpl; rewrite ?Ed; auto.
        -- intros x. unfold seg; gsimpl. rewrite Ed, T2. cbn [fst snd].
           intros [Hx|Hx]; [auto|]. destruct (Nat.lt_ge_cases x (g_scur s)); [|right; lia].
           left. apply T9. lia.
        -- unfold work; gsimpl. rewrite Ed. destruct (_ <? _); lia.
    + (* DWBatch *)
      unfold writing in T. destruct T as (T1 & T2 & T3 & T4 & T5 & T6 & T7 & T8 & T9).
      unfold write_once in H. rewrite A1 in H. cbn [st_write] in H. rewrite length_slice in H.
      set (z := Nat.min (Nat.min (c_batch c) (length bytes - (w + nw))) (length bytes - (w + nw))) in *.
      destruct (Nat.eqb_spec z 0) as [Ez|Ez]; injection H as <-.
      * apply measure_work; gsimpl; rewrite ?Ed; auto.
        -- intros x. unfold seg; gsimpl. rewrite Ed. cbn [fst snd]. auto.
        -- unfold work; gsimpl. rewrite Ed. lia.
      * apply measure_work; gsimpl; rewrite ?Ed; auto.
        -- intros x. unfold seg; gsimpl. rewrite Ed. cbn [fst snd]. auto.
        -- unfold work; gsimpl. rewrite Ed. lia.
    + (* DWPost *)
      injection H as <-. apply measure_work; gsimpl; rewrite ?Ed; auto.
      * intros x. unfold seg; gsimpl. rewrite Ed. cbn [fst snd]. rewrite rs_add_covered. tauto.
      * unfold work; gsimpl. rewrite Ed. lia.
    + (* DWCheck *)
      destruct A4 as (A4 & _ & A5 & _). destruct (Nat.eqb_spec nw 0); [lia|].
      destruct (g_req s); [destruct (_ <=? _)|]; injection H as <-;
        apply measure_work; gsimpl; rewrite ?Ed; auto;
        try (intros x; unfold seg; gsimpl; rewrite Ed; cbn [fst snd]; auto);
        unfold work; gsimpl; rewrite Ed; try destruct (Nat.ltb_spec w (length bytes)); lia.
    + (* DWNotify *)
      destruct A4 as (A4 & _ & A5 & _). destruct (Nat.eqb_spec nw 0); [lia|].
      injection H as <-; apply measure_work; gsimpl; rewrite ?Ed; auto.
      * intros x; unfold seg; gsimpl; rewrite Ed; cbn [fst snd]; auto.
      * unfold work; gsimpl; rewrite Ed; destruct (Nat.ltb_spec w (length bytes)); lia.
    + injection H as <-. unfold measure; gsimpl. rewrite Ed. lia.
    + injection H as <-. unfold measure, report_complete; gsimpl. rewrite Ed. lia.
    + injection H as <-. unfold measure; gsimpl. rewrite Ed. lia.
    + injection H as <-. unfold measure; gsimpl. rewrite Ed. lia.
    + injection H as <-. unfold measure; gsimpl. rewrite Ed. lia.
  - (* LDSeekRes *)
    destruct (g_dpc s) eqn:Ed; try discriminate. unfold seek_done in H. destruct ok.
    + destruct (body_window c start stop) as [[a b]|] eqn:Ew; [|discriminate].
      rewrite A1 in H. cbn [st_wseek] in H. injection H as <-.
      destruct (window_bound _ _ _ _ _ Hh Ew) as [-> _].
      apply measure_work; gsimpl; rewrite ?Ed; auto.
      * intros x. unfold seg; gsimpl. rewrite Ed, Ew. cbn [fst snd].
        destruct (g_pfc s) eqn:Ep; [tauto|]. intros [Hx|Hx]; [auto|].
        right. split; [|lia]. unfold seek_ahead in Hah. rewrite Ed in Hah. specialize (Hah Ep). lia.
      * unfold work, seg; gsimpl. rewrite Ed, Ew. cbn [fst snd]. lia.
    + injection H as <-. apply measure_stop; [rewrite Ed|]; reflexivity.
  - destruct (g_dpc s) eqn:Ed; try discriminate; injection H as <-;
      try (apply measure_stop; gsimpl; rewrite ?Ed; reflexivity);
      unfold measure; gsimpl; rewrite Ed; lia.
  - destruct (g_dpc s) eqn:Ed; try discriminate; injection H as <-. unfold measure; gsimpl. rewrite Ed.
    destruct (_ && _); lia.
  - (* LDStale *)
    destruct (g_dpc s) eqn:Ed; try discriminate.
    destruct A4 as (A4 & _ & A5 & _). destruct (Nat.eqb_spec nw 0); [lia|].
    injection H as <-. apply measure_work; gsimpl; rewrite ?Ed; auto.
    + intros x; unfold seg; gsimpl; rewrite Ed; cbn [fst snd]; auto.
    + unfold work; gsimpl; rewrite Ed; destruct (Nat.ltb_spec w (length bytes)); lia.
  - (* LDAgain *)
    destruct (g_dpc s); try discriminate. destruct A4.
  - (* LDShort *)
    destruct (g_dpc s) eqn:Ed; try discriminate.
    + destruct (write_short c s bytes w k) as [[k' s1]|] eqn:E; [|discriminate H]. injection H as <-.
      apply write_short_inv in E as (-> & st & E1 & E2 & ->). apply measure_work; gsimpl; rewrite ?Ed; auto.
      * intros x. unfold seg; gsimpl. rewrite Ed. cbn [fst snd]. auto.
      * unfold work; gsimpl. rewrite Ed. lia.
    + destruct (write_short c s bytes (w + nw) k) as [[k' s1]|] eqn:E; [|discriminate H]. injection H as <-.
      apply write_short_inv in E as (-> & st & E1 & E2 & ->). apply measure_work; gsimpl; rewrite ?Ed; auto.
      * intros x. unfold seg; gsimpl. rewrite Ed. cbn [fst snd]. rewrite A1 in *. cbn [st_write] in E1.
        injection E1 as E1 <-. cbn [st_wpos]. auto.
      * unfold work; gsimpl. rewrite Ed. lia.
Qed.

Lemma measure_bound : forall c s u, sane c -> honours_ranges c -> moving c s u ->
  measure c s <= work_bound (length (c_content c)).
Proof.
  intros c s u Hs Hh Hm. destruct (downloading (g_dpc s)) eqn:E.
  - rewrite measure_downloading by auto. pose proof (work_unit c s u Hh Hm).
    pose proof (missing_bound c s Hs). unfold work_bound. unfold unit in *.
    destruct (g_chan s); nia.
  - unfold measure, work_bound. destruct (g_dpc s); try discriminate E; nia.
Qed.

(** Reads and seeks of the client leave the measure alone, except that sending a seek
    message costs another round. *)
Definition before_send (r : rpc) : bool :=
  match r with RSCheck _ | RSGet _ _ | RSSet _ _ | RSSend _ _ => true | _ => false end.

Definition potential (c : cfg) (s : gstate) : nat :=
  measure c s + if before_send (g_rpc s) then work_bound (length (c_content c)) else 0.

Lemma measure_ext : forall c s s', g_dpc s' = g_dpc s -> g_chan s' = g_chan s ->
  g_down s' = g_down s -> g_pfc s' = g_pfc s -> g_pfs s' = g_pfs s ->
  g_scur s' = g_scur s -> g_send s' = g_send s -> measure c s' = measure c s.
Proof.
  intros c s s' H1 H2 H3 H4 H5 H6 H7.
  assert (Hseg : seg c s' = seg c s) by (unfold seg; rewrite H1, H4, H5, H6, H7; reflexivity).
  assert (Hm : missing c s' = missing c s).
  { unfold missing, accounted. rewrite H3, Hseg. reflexivity. }
  unfold measure, work. rewrite H1, H2, H6, H7, Hm, Hseg. reflexivity.
Qed.

Lemma measure_send : forall c s p, g_chan s = None ->
  measure c (set_chan s p) <= measure c s + work_bound (length (c_content c)).
Proof.
  intros c s p H. unfold measure, work_bound.
  assert (E1 : missing c (set_chan s p) = missing c s) by reflexivity.
  assert (E2 : work c (set_chan s p) = work c s) by reflexivity.
  rewrite E1, E2. gsimpl. rewrite H. unfold unit. destruct (g_dpc s), p; nia.
Qed.

Lemma user_step_potential : forall c s l s', task_label l = false -> step c s l = Some s' ->
  potential c s' <= potential c s +
    match l with LOp (OSeek _) => work_bound (length (c_content c)) | _ => 0 end.
Proof.
  intros c s l s' Hl H. unfold potential.
  destruct l; try discriminate Hl; cbn [step] in H.
  - unfold r_step in H.
    destruct (g_rpc s) eqn:Er; try discriminate H;
    repeat (split_match H; try discriminate H; gsimpl); injection H as <-; gsimpl;
      repeat (match goal with |- context [if ?b then set_permit _ _ else _] => destruct b; gsimpl end);
      rewrite ?Er; cbn [before_send];
      try (rewrite (measure_ext c s) by reflexivity; lia).
    + pose proof (measure_send c s (Some p) Heqo) as M.
      rewrite (measure_ext c (set_chan s (Some p))) by reflexivity. lia.
  - unfold r_error in H.
    destruct (g_rpc s) eqn:Er; try discriminate H;
    repeat (split_match H; try discriminate H; gsimpl); injection H as <-; gsimpl;
      cbn [before_send]; rewrite (measure_ext c s) by reflexivity; lia.
  - destruct (g_rpc s) eqn:Er; try discriminate; injection H as <-; gsimpl. destruct o; cbn [before_send];
      rewrite (measure_ext c s) by reflexivity; lia.
  - injection H as <-; gsimpl. rewrite (measure_ext c s) by reflexivity. lia.
  - destruct (g_rpc s) eqn:Er; try discriminate; injection H as <-; destruct (c_cancel_on_drop c); gsimpl; cbn [before_send];
      rewrite (measure_ext c s) by reflexivity; lia.
Qed.

Lemma task_step_rpc : forall c s l s', task_label l = true -> step c s l = Some s' -> g_rpc s' = g_rpc s.
Proof.
  intros c s l s' Hl H. destruct l; try discriminate Hl; step_cases H; gsimpl; auto;
   repeat match goal with
        | |- context [if ?b then _ else _] => destruct b; gsimpl end; auto.
Qed.

Lemma productive_chunks : forall s l, productive s l -> no_empty_chunk s l.
Proof. intros s l H. destruct l; exact H || exact I. Qed.

(** The whole download: however the client behaves, the task executes a bounded number
    of actions. *)
Lemma task_bounded : forall c ls s s', sane c -> unbounded_store c -> honours_ranges c ->
  reach c no_empty_chunk s -> allowed c productive s ls -> run c s ls = Some s' ->
  task_steps ls + potential c s' <=
    potential c s + seek_calls ls * work_bound (length (c_content c)).
Proof.
  induction ls as [|l ls IH]; intros s s' Hs Hu Hh Hr Ha H;
    cbn [run allowed task_steps seek_calls] in *.
  - injection H as <-. lia.
  - destruct Ha as [Ha1 Ha2]. destruct (step c s l) as [s1|] eqn:E; [|discriminate].
    assert (Hr1 : reach c no_empty_chunk s1).
    { apply (reach_step c _ s l s1); auto. apply productive_chunks; auto. }
    specialize (IH s1 s' Hs Hu Hh Hr1 Ha2 H).
    destruct (task_label l) eqn:El.
    + destruct (moving_reach c s Hs Hu Hh Hr) as [u Hm].
      destruct (moving_reach c s1 Hs Hu Hh Hr1) as [u1 Hm1].
      pose proof (measure_step c s l s1 u u1 Hs Hh Hm Hm1 Ha1 El E).
      pose proof (task_step_rpc c s l s1 El E) as Erp.
      unfold potential in *. rewrite Erp in *.
      assert (Eq : match l with LOp (OSeek _) => S (seek_calls ls) | _ => seek_calls ls end = seek_calls ls)
        by (destruct l; try discriminate El; reflexivity).
      rewrite Eq. lia.
    + pose proof (user_step_potential c s l s1 El E).
      generalize dependent (work_bound (length (c_content c))). intros B HB1 HB2.
      destruct l; try discriminate El; try (destruct o); try rewrite Nat.mul_succ_l; lia.
Qed.

Lemma potential_bound : forall c s, sane c -> unbounded_store c -> honours_ranges c ->
  reach c no_empty_chunk s -> potential c s <= 2 * work_bound (length (c_content c)).
Proof.
  intros c s Hs Hu Hh Hr. destruct (moving_reach c s Hs Hu Hh Hr) as [u Hm].
  pose proof (measure_bound c s u Hs Hh Hm). unfold potential. destruct (before_send _); lia.
Qed.

Lemma download_terminates : forall c ls s s', sane c -> unbounded_store c -> honours_ranges c ->
  reach c no_empty_chunk s -> allowed c productive s ls -> run c s ls = Some s' ->
  task_steps ls <= (2 + seek_calls ls) * work_bound (length (c_content c)).
Proof.
  intros c ls s s' Hs Hu Hh Hr Ha H.
  pose proof (task_bounded c ls s s' Hs Hu Hh Hr Ha H).
  pose proof (potential_bound c s Hs Hu Hh Hr). lia.
Qed.

(** Until the task has ended it has an action that a productive transport allows. *)
Lemma task_enabled : forall c s, sane c -> unbounded_store c -> honours_ranges c ->
  reach c no_empty_chunk s -> g_dpc s <> DEnd ->
  exists l s', task_label l = true /\ productive s l /\ step c s l = Some s'.
Proof.
  intros c s Hs Hu Hh Hr Hd. destruct (moving_reach c s Hs Hu Hh Hr) as [u [[W K] [A1 A2 [A3 A3'] A4] _]].
  unfold alive_at in A4.
  destruct (g_dpc s) eqn:Ed; try congruence; try contradiction;
    try (exists LDStep; cbn [step]; unfold d_step; rewrite Ed; cbn; eexists; repeat split; reflexivity).
  - destruct (Nat.eq_dec (g_scur s) (g_send s)) as [E|E].
    + exists LDEof. cbn. rewrite Ed. eexists. repeat split; auto.
    + exists (LDChunk 1). cbn [step]. rewrite Ed. destruct (Nat.leb_spec (g_scur s + 1) (g_send s)); [|lia].
      eexists. repeat split. cbn. lia.
  - exists LDStep; cbn [step]; unfold d_step; rewrite Ed. destruct (write_once _ _ _ _) as [k s1]. destruct (_ =? _); eexists; repeat split.
  - exists LDStep; cbn [step]; unfold d_step; rewrite Ed. destruct (_ <? _); eexists; repeat split.
  - exists LDStep; cbn [step]; unfold d_step; rewrite Ed. destruct (write_once _ _ _ _) as [k s1]. destruct (_ =? _); eexists; repeat split.
  - exists LDStep; cbn [step]; unfold d_step; rewrite Ed. destruct (g_req s); [destruct (_ <=? _)|]; eexists; repeat split.
  - exists (LDSeekRes false). cbn. rewrite Ed. eexists; repeat split.
  - exists (LDFinishRes true). cbn. rewrite Ed. eexists; repeat split.
Qed.

(** A blocked call is released after a bounded number of actions of the task. *)
Lemma waits_bounded : forall c n s s', sane c -> unbounded_store c -> honours_ranges c ->
  reach c no_empty_chunk s -> waits c productive n s s' ->
  reach c no_empty_chunk s' /\ blocked c s' /\ n + measure c s' <= measure c s.
Proof.
  intros c n s s' Hs Hu Hh Hr H. induction H as [s Hb|n s s1 l s2 Hw IH Ha He Hb].
  - repeat split; auto; apply Hb.
  - destruct (IH Hr) as (Hr1 & Hb1 & IHm).
    assert (Hr2 : reach c no_empty_chunk s2).
    { apply (reach_step c _ s1 l s2); auto. apply productive_chunks; auto. }
    split; [auto|split; [auto|]].
    destruct (task_label l) eqn:El.
    + destruct (moving_reach c s1 Hs Hu Hh Hr1) as [u1 Hm1].
      destruct (moving_reach c s2 Hs Hu Hh Hr2) as [u2 Hm2].
      pose proof (measure_step c s1 l s2 u1 u2 Hs Hh Hm1 Hm2 Ha El He). lia.
    + destruct Hb1 as [Hc Hbl]. destruct l; try discriminate El; try congruence; cbn [step] in He;
        unfold in_call in Hc; try (destruct (g_rpc s1); try discriminate He; contradiction).
      * exfalso. cbn [step] in Hbl. unfold r_error in He. unfold r_step in Hbl.
        destruct (g_rpc s1); try discriminate He; repeat (split_match Hbl; try discriminate Hbl).
      * injection He as <-. rewrite (measure_ext c s1) by reflexivity. lia.
Qed.

Lemma blocked_released : forall c n s s', sane c -> unbounded_store c -> honours_ranges c ->
  reach c no_empty_chunk s -> waits c productive n s s' ->
  n <= work_bound (length (c_content c)) /\
  exists l s'', task_label l = true /\ productive s' l /\ step c s' l = Some s''.
Proof.
  intros c n s s' Hs Hu Hh Hr H.
  destruct (waits_bounded c n s s' Hs Hu Hh Hr H) as (Hr' & Hb & Hm).
  destruct (moving_reach c s Hs Hu Hh Hr) as [u Hmo].
  pose proof (measure_bound c s u Hs Hh Hmo). split; [lia|].
  apply task_enabled; auto. intros E.
  pose proof (sy_final _ (sync_reach _ _ _ Hr')) as Hf. rewrite E in Hf. specialize (Hf I).
  destruct (blocked_wait c s' Hb) as (B & _). congruence.
Qed.

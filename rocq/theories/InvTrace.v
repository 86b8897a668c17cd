(** * The client's position and the storage position agree. *)

From Coq Require Import List Arith Lia ZArith Bool.
From Verif Require Import Base ListFacts RangeSet Storage StorageFacts System Spec StepTac.
Import ListNotations.

(** ** Storage level: read positions *)

(** The buffered part of a temporary file lies before its offset. *)
Definition store_u (s : store) : ustore :=
  match s with SPlain u => u | SBnd b => b_inner b end.

Definition st_wf (s : store) : Prop := u_inv [] [] (store_u s).

Lemma u_wf_write : forall bs u, u_inv [] [] u -> u_inv [] [] (u_write bs u).
Proof.
  intros bs u [H1 H2 H3 H4]. constructor; [constructor|intros x []| |].
  - destruct u; cbn in *; auto. lia.
  - destruct u; cbn in *; auto. destruct bs; cbn; auto.
Qed.

Lemma u_read_length : forall n u bs u', u_read n u = (Ok bs, u') -> length bs <= n.
Proof.
  intros n u bs u' H. destruct u as [m|f]; cbn in H.
  - unfold mem_read in H. destruct (_ <? _); [discriminate|].
    injection H as <- _. rewrite length_slice. lia.
  - unfold file_read in H. destruct (f_buf f) as [|b0 l].
    + pose proof (file_limit_le n f).
      destruct (_ <=? _); injection H as <- _; rewrite ?firstn_length, ?length_slice; lia.
    + injection H as <- _. rewrite firstn_length. lia.
Qed.

Lemma u_read_exact_wf : forall fuel k u r u', u_inv [] [] u ->
  u_read_exact fuel k u = (r, u') ->
  u_inv [] [] u' /\ u_data u' = u_data u /\ u_wpos u' = u_wpos u /\
  (forall bs, r = Ok bs -> length bs = k).
Proof.
  induction fuel as [|fuel IH]; intros k u r u' Hu H; destruct k; cbn in H.
  - injection H as <- <-. split; [auto|split; [auto|split; [auto|]]]. intros bs [= <-]; auto.
  - injection H as <- <-. split; [auto|split; [auto|split; [auto|]]]. intros bs [=].
  - injection H as <- <-. split; [auto|split; [auto|split; [auto|]]]. intros bs [= <-]; auto.
  - destruct (u_read (S k) u) as [[bs|e|] u1] eqn:E.
    + destruct (u_read_frame [] [] u (S k) _ _ Hu E) as (A1 & A2 & A3 & A4).
      destruct bs as [|b bs].
      * injection H as <- <-. split; [auto|split; [auto|split; [auto|]]]. intros bs [=].
      * destruct (u_read_exact fuel (S k - length (b :: bs)) u1) as [r2 u2] eqn:E2.
        destruct (IH _ _ _ _ A1 E2) as (B1 & B2 & B3 & B4).
        destruct r2 as [bs2|e|]; injection H as <- <-;
          (split; [exact B1|split; [congruence|split; [congruence|]]]); intros bs' [=].
        subst bs'. rewrite app_comm_cons, app_length, (B4 bs2 eq_refl).
        pose proof (u_read_length _ _ _ _ E).
        lia.
    + injection H as <- <-. exfalso. eapply u_read_not_err; eauto.
    + injection H as <- <-.
      destruct (u_read_frame [] [] u (S k) _ _ Hu E) as (A1 & A2 & A3 & A4).
      split; [auto|split; [auto|split; [auto|]]]. intros bs [=].
Qed.

Lemma bnd_read_mapped_wf : forall k b r u', u_inv [] [] (b_inner b) ->
  bnd_read_mapped k b = (r, u') ->
  u_inv [] [] u' /\ u_data u' = u_data (b_inner b) /\ forall bs, r = Ok bs -> length bs = k.
Proof.
  intros k b r u' Hu E. unfold bnd_read_mapped in E.
  set (start := mapped_read_position b 0) in *.
  set (size := Nat.min (b_size b) (b_wpos b)) in *.
  assert (Hu0 : u_inv [] [] (u_rseek start (b_inner b))) by (apply u_inv_rseek; auto).
  destruct (start <? _).
  - destruct (u_read_exact_wf _ _ _ _ _ Hu0 E) as (A1 & A2 & _ & A4).
    rewrite u_rseek_data in A2. auto.
  - destruct (size <? start) eqn:E1; cbn [orb] in E.
    { injection E as <- <-. rewrite u_rseek_data. split; [auto|split; auto]. intros ? [=]. }
    destruct (Nat.ltb_spec k (size - start)).
    { injection E as <- <-. rewrite u_rseek_data. split; [auto|split; auto]. intros ? [=]. }
    destruct (u_read_exact _ _ (u_rseek start (b_inner b))) as [r2 u2] eqn:E2.
    destruct (u_read_exact_wf _ _ _ _ _ Hu0 E2) as (A1 & A2 & _ & A4).
    rewrite u_rseek_data in A2.
    destruct r2; [|injection E as <- <-; split; [auto|split; auto]; intros ? [=] ..].
    destruct (u_read_exact _ _ (u_rseek 0 u2)) as [r3 u3] eqn:E3.
    destruct (u_read_exact_wf _ _ _ _ _ (u_inv_rseek _ _ _ 0 A1) E3) as (B1 & B2 & _ & B4).
    rewrite u_rseek_data in B2.
    destruct r3; injection E as <- <-; (split; [auto|split; [congruence|]]); intros ? [=].
    subst bs. rewrite app_length, (A4 _ eq_refl), (B4 _ eq_refl). lia.
Qed.

Lemma bnd_read_rpos : forall n b r b', u_inv [] [] (b_inner b) -> bnd_read n b = (r, b') ->
  u_inv [] [] (b_inner b') /\ b_wpos b' = b_wpos b /\
  b_rpos b' = b_rpos b + match r with Ok bs => length bs | _ => 0 end.
Proof.
  intros n b r b' Hu H. unfold bnd_read in H.
  destruct (b_size b <? n); [injection H as <- <-; auto|].
  destruct (b_size b <? b_wpos b - b_rpos b); [injection H as <- <-; auto|].
  destruct (b_written b <=? b_read b)%Z; [injection H as <- <-; cbn; auto|].
  destruct (_ =? 0); [injection H as <- <-; cbn; auto|].
  destruct (bnd_read_mapped _ b) as [r1 u1] eqn:E.
  destruct (bnd_read_mapped_wf _ _ _ _ Hu E) as (K1 & _ & K2).
  destruct r1; injection H as <- <-; cbn;
    (split; [exact K1|split; [auto|]]); rewrite ?(K2 _ eq_refl); auto.
Qed.

Lemma st_read_rpos : forall n s r s', st_wf s -> st_read n s = (r, s') ->
  st_wf s' /\ st_wpos s' = st_wpos s /\
  st_rpos s' = st_rpos s + match r with Ok bs => length bs | _ => 0 end.
Proof.
  intros n [u|b] r s' Hw H; cbn in *.
  - destruct (u_read n u) as [r1 u1] eqn:E. injection H as <- <-.
    destruct (u_read_frame _ _ _ _ _ _ Hw E) as (A1 & A2 & A3 & A4). cbn. auto.
  - destruct (bnd_read n b) as [r1 b1] eqn:E. injection H as <- <-.
    destruct (bnd_read_rpos _ _ _ _ Hw E) as (A1 & A2 & A3). cbn; auto.
Qed.

Lemma st_write_rpos : forall bs s k s', st_wf s -> st_write bs s = (k, s') ->
  st_wf s' /\ st_rpos s' = st_rpos s /\ st_wpos s' = st_wpos s + k.
Proof.
  intros bs [u|b] k s' Hw H; cbn in *.
  - injection H as <- <-. cbn. rewrite u_write_rpos, u_write_wpos.
    split; [apply u_wf_write; exact Hw|auto].
  - destruct (bnd_write bs b) as [k1 b1] eqn:E. injection H as <- <-.
    unfold bnd_write in E. cbn.
    destruct (Nat.eqb_spec (Nat.min (b_size b - (b_wpos b - b_rpos b)) (length bs)) 0) as [Z|Z].
    + injection E as <- <-. rewrite Nat.add_0_r. auto.
    + injection E as <- <-. cbn. split; [|auto].
      unfold bnd_write_mapped. destruct (_ <? _); repeat apply u_wf_write; repeat apply u_inv_wseek;
        repeat apply u_wf_write; repeat apply u_inv_wseek; auto.
Qed.

Lemma st_wseek_rpos : forall p s r s', st_wf s -> st_wseek p s = (r, s') ->
  st_wf s' /\ st_rpos s' = st_rpos s /\ (forall q, r = Ok q -> st_wpos s' = p).
Proof.
  intros p [u|b] r s' Hw H; cbn in *.
  - injection H as <- <-. cbn. rewrite u_wseek_rpos, u_wseek_wpos.
    split; [apply u_inv_wseek; exact Hw|auto].
  - unfold bnd_wseek in H. destruct (counter_sub _ _ _); cbn in H; injection H as <- <-;
      cbn; (split; [exact Hw|split; [auto|]]); intros; auto; discriminate.
Qed.

Lemma st_rseek_rpos : forall p s r s', st_wf s -> st_rseek p s = (r, s') ->
  st_wf s' /\ st_wpos s' = st_wpos s /\
  ((r = Ok p /\ st_rpos s' = p) \/ (r = Panic /\ st_rpos s' = st_rpos s)).
Proof.
  intros p [u|b] r s' Hw H; cbn in *.
  - injection H as <- <-. cbn. rewrite u_rseek_rpos, u_rseek_wpos.
    split; [apply u_inv_rseek; exact Hw|auto].
  - unfold bnd_rseek in H. destruct (counter_sub _ _ _); cbn in H; injection H as <- <-;
      cbn; split; auto.
Qed.

Lemma st_tell_rpos : forall s, st_wf s ->
  st_wf (st_tell s) /\ st_rpos (st_tell s) = st_rpos s /\ st_wpos (st_tell s) = st_wpos s.
Proof.
  intros [u|b] Hw; cbn in *; auto. unfold u_tell.
  rewrite u_rseek_rpos, u_rseek_wpos. split; auto. apply u_inv_rseek; auto.
Qed.

Lemma into_rw_init : forall p clen s, into_rw p clen = Some s ->
  st_wf s /\ st_rpos s = 0 /\ st_wpos s = 0.
Proof.
  intros p clen s H.
  assert (P : forall q cl u, plain_rw q cl = Some u ->
              u_inv [] [] u /\ u_rpos u = 0 /\ u_wpos u = 0).
  { intros q cl u E. apply (u_inv_new []) in E. tauto. }
  assert (B : forall ck q n cl st, bounded_rw ck q n cl = Some st ->
              st_wf st /\ st_rpos st = 0 /\ st_wpos st = 0).
  { intros ck q n cl st E. unfold bounded_rw in E.
    destruct (plain_rw q _) eqn:E1; [|discriminate]. injection E as <-.
    apply P in E1. cbn. tauto. }
  destruct p; cbn in H.
  - destruct (plain_rw p clen) eqn:E; [|discriminate]. injection H as <-.
    apply P in E; cbn; tauto.
  - eapply B; eauto.
  - destruct clen as [len|]; [|eapply B; eauto].
    destruct (len <=? buffer_size).
    + destruct (plain_rw fixed (Some len)) eqn:E; [|discriminate]. injection H as <-.
      apply P in E; cbn; tauto.
    + destruct (plain_rw variable (Some len)) eqn:E; [|discriminate]. injection H as <-.
      apply P in E; cbn; tauto.
Qed.

(** ** System level *)

Lemma faithful_slice : forall c pos n, faithful c pos n (slice (c_content c) pos n).
Proof. intros c pos n. exists n. auto. Qed.

Lemma faithful_prefix : forall c pos n bs, faithful c pos n bs ->
  bs = slice (c_content c) pos (length bs) /\ length bs <= n.
Proof.
  intros c pos n bs (k & -> & H & _). rewrite length_slice. split; [|lia]. apply slice_min.
Qed.

Lemma faithful_whole : forall c pos n bs, faithful c pos n bs -> short_reads (c_provider c) = false ->
  bs = slice (c_content c) pos n.
Proof. intros c pos n bs (k & -> & _ & _ & H) Hp. rewrite (H Hp). reflexivity. Qed.

Lemma faithful_some : forall c pos n bs, faithful c pos n bs -> 0 < n -> pos < length (c_content c) -> 0 < length bs.
Proof. intros c pos n bs (k & -> & _ & H & _) Hn Hp. rewrite length_slice. specialize (H Hn). lia. Qed.

Fixpoint all_events (P : list event -> event -> Prop) (tr : list event) : Prop :=
  match tr with [] => True | e :: t => P t e /\ all_events P t end.

Lemma all_events_every : forall P tr, all_events P tr -> every_event P tr.
Proof.
  intros P tr H newer. revert tr H. induction newer as [|a newer IH]; intros tr H e older E.
  - subst tr. cbn in H. tauto.
  - subst tr. cbn in H. eapply IH; [|reflexivity]. tauto.
Qed.

(** Position a read or seek in progress started from, resp. is going to. *)
Definition reader_at (r : rpc) (cur rpos : nat) : Prop :=
  match r with
  | RRGet _ pos _ | RRSet _ pos _ | RRNotify _ pos _ | RRWait _ pos _ | RRCheck2 _ pos _
  | RRRead _ pos _ _ => cur = pos /\ rpos = pos
  | RRDone _ pos _ res =>
      cur = pos /\ rpos = pos + match res with Ok bs => length bs | _ => 0 end
  | _ => cur = rpos
  end.

Definition reader_seeks (c : cfg) (r : rpc) (rpos : nat) : Prop :=
  match r with
  | RSGet from p | RSSet from p | RSSend from p | RSWait from p | RSCheck2 from p
  | RSSeek from p =>
      forall t, seek_target c rpos from = Some t -> (0 <= t < two64)%Z ->
        Z.of_nat p = match c_clen c with Some n => Z.min t (Z.of_nat n) | None => t end
  | _ => True
  end.

(** Reads of the storage are not cut short. *)
Definition st_whole (st : store) : Prop :=
  match st with SPlain u => u_whole u | SBnd _ => True end.

Lemma into_rw_whole : forall p clen st, into_rw p clen = Some st -> short_reads p = false -> st_whole st.
Proof.
  intros p clen st H E.
  assert (P : forall q cl u, plain_rw q cl = Some u -> match q with PlCustom _ => true | _ => false end = false ->
              u_whole u).
  { intros q cl u H1 H2. destruct q; cbn in H1; try discriminate; injection H1 as <-; cbn; auto. }
  destruct p; cbn in H, E.
  - destruct (plain_rw p clen) eqn:E1; [|discriminate]. injection H as <-. cbn. eauto.
  - unfold bounded_rw in H. destruct (plain_rw p _); [|discriminate]. injection H as <-. exact I.
  - apply orb_false_elim in E as [E1 E2]. destruct clen as [len|].
    + destruct (len <=? buffer_size).
      * destruct (plain_rw fixed _) eqn:E3; [|discriminate]. injection H as <-. cbn. eauto.
      * destruct (plain_rw variable _) eqn:E3; [|discriminate]. injection H as <-. cbn. eauto.
    + unfold bounded_rw in H. destruct (plain_rw fixed _); [|discriminate]. injection H as <-. exact I.
Qed.

Lemma u_whole_rseek : forall p u, u_whole u -> u_whole (u_rseek p u).
Proof. intros p [m|f] H; cbn in *; auto. Qed.

Lemma st_whole_tell : forall st, st_whole st -> st_whole (st_tell st).
Proof. intros [u|b] H; cbn in *; auto. apply u_whole_rseek; auto. Qed.

Lemma st_whole_read : forall n st r st', st_whole st -> st_read n st = (r, st') -> st_whole st'.
Proof.
  intros n [[m|f]|b] r st' H E; cbn in *.
  - destruct (mem_read n m). injection E as <- <-. exact I.
  - unfold file_read in E. rewrite H in E. cbn in E.
    destruct (f_buf f); [destruct (_ <=? _)|]; injection E as <- <-; reflexivity.
  - destruct (bnd_read n b). injection E as <- <-. exact I.
Qed.

Lemma st_whole_rseek : forall p st r st', st_whole st -> st_rseek p st = (r, st') -> st_whole st'.
Proof.
  intros p [u|b] r st' H E; cbn in *.
  - injection E as <- <-. cbn. apply u_whole_rseek; auto.
  - destruct (bnd_rseek p b). injection E as <- <-. exact I.
Qed.

Lemma st_whole_write : forall bs st k st', st_whole st -> st_write bs st = (k, st') -> st_whole st'.
Proof.
  intros bs [[m|f]|b] k st' H E; cbn in *.
  - injection E as <- <-. exact I.
  - injection E as <- <-. destruct bs; cbn; auto.
  - destruct (bnd_write bs b). injection E as <- <-. exact I.
Qed.

Lemma st_whole_wseek : forall p st r st', st_whole st -> st_wseek p st = (r, st') -> st_whole st'.
Proof.
  intros p [[m|f]|b] r st' H E; cbn in *; try (injection E as <- <-; cbn; auto).
  destruct (bnd_wseek p b). injection E as <- <-. exact I.
Qed.

Lemma st_whole_step : forall c s l s', st_whole (g_store s) -> step c s l = Some s' -> st_whole (g_store s').
Proof.
  intros c s l s' H1 H.
  step_cases H; gsimpl; auto using st_whole_tell;
    eauto using st_whole_read, st_whole_rseek, st_whole_write, st_whole_wseek.
Qed.

Record traced (c : cfg) (s : gstate) : Prop := mkTraced
  { tr_wf : st_wf (g_store s);
    tr_at : reader_at (g_rpc s) (cursor (g_trace s)) (st_rpos (g_store s));
    tr_seek : reader_seeks c (g_rpc s) (st_rpos (g_store s));
    tr_read : all_events read_position_ok (g_trace s);
    tr_seeks : all_events (seek_result_ok c) (g_trace s);
    tr_whole : short_reads (c_provider c) = false -> st_whole (g_store s) }.

Lemma traced_init : forall c s, init c = Some s -> traced c s.
Proof.
  intros c s H. unfold init in H. destruct (into_rw _ _) eqn:E; [|discriminate].
  injection H as <-. pose proof (into_rw_whole _ _ _ E). apply into_rw_init in E as (A1 & A2 & A3).
  constructor; cbn; auto.
Qed.

Lemma absolute_target : forall c rpos from z t,
  absolute_seek_position c rpos from = Ok z -> seek_target c rpos from = Some t ->
  (0 <= t < two64)%Z -> z = t.
Proof.
  intros c rpos from z t H1 H2 H3. destruct from; cbn in *.
  - congruence.
  - injection H1 as <-. injection H2 as <-. apply Z.mod_small; auto.
  - destruct (c_clen c); cbn in *; [|discriminate]. injection H1 as <-. injection H2 as <-.
    apply Z.mod_small; auto.
Qed.

Lemma normalize_target : forall c t, (0 <= t)%Z ->
  Z.of_nat (Z.to_nat (normalize c t)) =
  match c_clen c with Some n => Z.min t (Z.of_nat n) | None => t end.
Proof. intros c t H. unfold normalize. destruct (c_clen c); lia. Qed.

Lemma traced_step : forall c s l s', traced c s -> step c s l = Some s' -> traced c s'.
Proof.
  intros c s l s' [H1 H2 H3 H4 H5 H6] H.
  assert (H7 : short_reads (c_provider c) = false -> st_whole (g_store s'))
    by (intros Hp; eapply st_whole_step; eauto).
  clear H6.
  step_cases H;
    repeat match goal with
    | E : st_write _ (g_store s) = _ |- _ =>
        destruct (st_write_rpos _ _ _ _ H1 E) as (? & ? & ?); clear E
    | E : st_wseek _ (g_store s) = _ |- _ =>
        destruct (st_wseek_rpos _ _ _ _ H1 E) as (? & ? & ?); clear E
    | E : st_rseek _ (g_store s) = _ |- _ =>
        destruct (st_rseek_rpos _ _ _ _ H1 E) as (? & ? & ?); clear E
    | E : st_read _ (g_store s) = _ |- _ =>
        destruct (st_read_rpos _ _ _ _ H1 E) as (? & ? & ?); clear E
    end;
    try (destruct (st_tell_rpos _ H1) as (T1 & T2 & T3));
    (constructor; [| | | | |exact H7]); clear H7; gsimpl;
    repeat match goal with
    | E : g_rpc _ = _ |- _ => rewrite E in *; clear E
    end; cbn [reader_at reader_seeks all_events cursor read_position_ok seek_result_ok] in *;
    auto; try congruence;
    try solve [intuition (try congruence; try lia)].
  all: try match goal with E : ?x = ?y |- context [?x] => rewrite E in * end;
    try assumption; try solve [intuition (try congruence; try lia)].
  - destruct r; lia.
  - destruct r; lia.
  - intros t Ht1 Ht2. rewrite (absolute_target _ _ _ _ _ Heqr0 Ht1 Ht2).
    apply normalize_target; lia.
  - intuition (subst; auto).
  - intuition (subst; auto).
Qed.

Lemma traced_reach : forall c allow s, reach c allow s -> traced c s.
Proof. induction 1; eauto using traced_init, traced_step. Qed.


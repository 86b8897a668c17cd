(** * Facts about the downloaded-range set: it behaves as a set of positions. *)

From Coq Require Import List Arith Lia Bool.
From Verif Require Import RangeSet.
Import ListNotations.

(** Position [p] is in the set. *)
Definition covered (l : rset) (p : nat) : Prop :=
  exists c d, In (c, d) l /\ c <= p < d.

(** Every position of [a, b) is in the set. *)
Definition covers (l : rset) (a b : nat) : Prop :=
  forall p, a <= p < b -> covered l p.

(** Sorted, non-empty, non-touching ranges starting at [lo] or later. *)
Fixpoint wf_from (lo : nat) (l : rset) : Prop :=
  match l with
  | [] => True
  | (c, d) :: t => lo <= c /\ c < d /\ wf_from (S d) t
  end.

Definition rs_wf (l : rset) : Prop := wf_from 0 l.

Lemma wf_from_weaken : forall l lo lo', lo' <= lo -> wf_from lo l -> wf_from lo' l.
Proof. destruct l as [|[c d] t]; cbn; intros; [trivial|]. intuition lia. Qed.

Lemma covered_nil : forall p, ~ covered [] p.
Proof. intros p (c & d & H & _). inversion H. Qed.

Lemma covered_cons : forall c d t p,
  covered ((c, d) :: t) p <-> (c <= p < d) \/ covered t p.
Proof.
  intros; split.
  - intros (c' & d' & [E|H] & Hp).
    + inversion E; subst; auto.
    + right; exists c', d'; auto.
  - intros [H|(c' & d' & H & Hp)].
    + exists c, d; cbn; auto.
    + exists c', d'; cbn; auto.
Qed.

Lemma wf_from_lower : forall l lo p, wf_from lo l -> covered l p -> lo <= p.
Proof.
  induction l as [|[c d] t IH]; intros lo p Hw Hc.
  - destruct (covered_nil _ Hc).
  - cbn in Hw. destruct Hw as (H1 & H2 & H3).
    apply covered_cons in Hc as [Hc|Hc]; [lia|].
    apply IH with (lo := S d) in Hc; auto; lia.
Qed.

Lemma rs_insert_wf : forall l lo a b,
  wf_from lo l -> lo <= a -> a < b -> wf_from lo (rs_insert a b l).
Proof.
  induction l as [|[c d] t IH]; intros lo a b Hw Hlo Hab; cbn [rs_insert].
  - cbn; auto.
  - cbn in Hw. destruct Hw as (H1 & H2 & H3).
    destruct (Nat.ltb_spec d a).
    + cbn. split; [lia|split; [lia|]]. apply IH; auto; lia.
    + destruct (Nat.ltb_spec b c).
      * cbn. repeat split; auto; lia.
      * apply IH; try lia. apply wf_from_weaken with (lo := S d); auto; lia.
Qed.

Lemma rs_insert_covered : forall l a b p,
  a < b ->
  (covered (rs_insert a b l) p <-> covered l p \/ a <= p < b).
Proof.
  induction l as [|[c d] t IH]; intros a b p Hab; cbn [rs_insert].
  - rewrite covered_cons. split; [intros [H|H]; auto|intros [H|H]; auto].
  - destruct (Nat.ltb_spec d a).
    + rewrite !covered_cons, IH by auto. tauto.
    + destruct (Nat.ltb_spec b c).
      * rewrite !covered_cons. tauto.
      * rewrite covered_cons, IH by lia. split.
        -- intros [Hc|Hc]; [tauto|].
           destruct (Nat.lt_ge_cases p c); [right; lia|].
           destruct (Nat.lt_ge_cases p d); [left; left; lia|right; lia].
        -- intros [[Hc|Hc]|Hc]; [right; lia|left; auto|right; lia].
Qed.

Lemma rs_add_wf : forall l a b, rs_wf l -> rs_wf (rs_add a b l).
Proof.
  intros; unfold rs_add. destruct (Nat.ltb_spec a b); auto.
  apply rs_insert_wf; auto; lia.
Qed.

Lemma rs_add_covered : forall l a b p,
  covered (rs_add a b l) p <-> covered l p \/ a <= p < b.
Proof.
  intros; unfold rs_add. destruct (Nat.ltb_spec a b).
  - apply rs_insert_covered; auto.
  - split; [auto|]. intros [Hc|Hc]; [auto|lia].
Qed.

Lemma rs_get_some : forall l p c d,
  rs_get p l = Some (c, d) -> In (c, d) l /\ c <= p < d.
Proof.
  induction l as [|[c' d'] t IH]; intros p c d H; cbn [rs_get] in H; [discriminate|].
  destruct ((c' <=? p) && (p <? d')) eqn:E.
  - inversion H; subst. apply andb_prop in E as [E1 E2].
    apply Nat.leb_le in E1. apply Nat.ltb_lt in E2. split; [left; reflexivity|lia].
  - apply IH in H as [H1 H2]. split; [right; exact H1|lia].
Qed.

Lemma rs_get_covers : forall l p c d,
  rs_get p l = Some (c, d) -> c <= p < d /\ covers l c d.
Proof.
  intros l p c d H. apply rs_get_some in H as [H1 H2]. split; auto.
  intros q Hq. exists c, d; auto.
Qed.

Lemma rs_get_none : forall l p, rs_get p l = None <-> ~ covered l p.
Proof.
  induction l as [|[c d] t IH]; intros p; cbn [rs_get].
  - split; auto using covered_nil.
  - rewrite covered_cons. destruct ((c <=? p) && (p <? d)) eqn:E.
    + apply andb_prop in E as [E1 E2]. apply Nat.leb_le in E1. apply Nat.ltb_lt in E2.
      split; [discriminate|intros N; exfalso; apply N; left; lia].
    + rewrite IH. apply andb_false_iff in E. rewrite Nat.leb_gt, Nat.ltb_ge in E.
      split; [intros N [H|H]; [lia|auto]|tauto].
Qed.

Lemma rs_get_covered : forall l p, covered l p -> exists c d, rs_get p l = Some (c, d).
Proof.
  intros l p H. destruct (rs_get p l) as [[c d]|] eqn:E; eauto.
  apply rs_get_none in E. contradiction.
Qed.

Lemma wf_in_bound : forall l lo c d, wf_from lo l -> In (c, d) l ->
  lo <= c /\ c < d /\ ~ covered l d /\ (lo < c -> ~ covered l (c - 1)).
Proof.
  induction l as [|[c' d'] t IH]; intros lo c d Hw Hin; [inversion Hin|].
  cbn in Hw. destruct Hw as (H1 & H2 & H3). rewrite !covered_cons.
  destruct Hin as [E|Hin].
  - inversion E; subst. repeat split; auto.
    + intros [H|H]; [lia|]. apply wf_from_lower with (lo := S d) in H; auto; lia.
    + intros Hlt [H|H]; [lia|]. apply wf_from_lower with (lo := S d) in H; auto; lia.
  - destruct (IH (S d') c d H3 Hin) as (A1 & A2 & A3 & A4). repeat split; try lia.
    + intros [H|H]; [lia|auto].
    + intros _ [H|H]; [lia|]. destruct (Nat.eq_dec c (S d')); [|apply A4; auto; lia].
      apply wf_from_lower with (lo := S d') in H; auto; lia.
Qed.

(** The range returned by [rs_get] is a maximal run of covered positions. *)
Lemma rs_get_maximal : forall l p c d,
  rs_wf l -> rs_get p l = Some (c, d) ->
  c <= p < d /\ covers l c d /\ ~ covered l d /\ (0 < c -> ~ covered l (c - 1)).
Proof.
  intros l p c d Hw H. destruct (rs_get_covers _ _ _ _ H) as [H1 H2].
  apply rs_get_some in H as [H3 H4].
  destruct (wf_in_bound l 0 c d Hw H3) as (_ & A2 & A3 & A4). auto.
Qed.

Lemma rs_next_gap_some : forall l lo0 lo hi g h,
  wf_from lo0 l -> rs_next_gap lo hi l = Some (g, h) ->
  lo <= g /\ g < h /\ h <= hi /\
  (forall p, lo <= p < g -> covered l p) /\
  (forall p, g <= p < h -> ~ covered l p) /\
  (h = hi \/ covered l h).
Proof.
  induction l as [|[c d] t IH]; intros lo0 lo hi g h Hw H; cbn [rs_next_gap] in H.
  - destruct (Nat.leb_spec hi lo); [discriminate|]. inversion H; subst.
    repeat split; auto; try lia. intros p _. apply covered_nil.
  - cbn in Hw. destruct Hw as (W1 & W2 & W3).
    destruct (Nat.leb_spec hi lo); [discriminate|].
    destruct (Nat.leb_spec d lo).
    + destruct (IH _ _ _ _ _ W3 H) as (A1 & A2 & A3 & A4 & A5 & A6).
      repeat split; auto.
      * intros p Hp. apply covered_cons. auto.
      * intros p Hp Hc. apply covered_cons in Hc as [Hc|Hc]; [lia|]. eapply A5; eauto.
      * destruct A6; auto. right. apply covered_cons; auto.
    + destruct (Nat.ltb_spec lo c).
      * inversion H; subst. repeat split; auto; try lia.
        -- intros p Hp Hc. apply covered_cons in Hc as [Hc|Hc]; [lia|].
           apply wf_from_lower with (lo := S d) in Hc; auto; lia.
        -- destruct (Nat.le_ge_cases hi c); [left; lia|right].
           apply covered_cons; left; lia.
      * destruct (IH _ _ _ _ _ W3 H) as (A1 & A2 & A3 & A4 & A5 & A6).
        repeat split; auto; try lia.
        -- intros p Hp. apply covered_cons.
           destruct (Nat.lt_ge_cases p d); [left; lia|right; apply A4; lia].
        -- intros p Hp Hc. apply covered_cons in Hc as [Hc|Hc]; [lia|]. eapply A5; eauto.
        -- destruct A6; auto. right. apply covered_cons; auto.
Qed.

Lemma rs_next_gap_none : forall l lo hi,
  rs_next_gap lo hi l = None -> forall p, lo <= p < hi -> covered l p.
Proof.
  induction l as [|[c d] t IH]; intros lo hi H p Hp; cbn [rs_next_gap] in H.
  - destruct (Nat.leb_spec hi lo); [lia|discriminate].
  - destruct (Nat.leb_spec hi lo); [lia|]. apply covered_cons.
    destruct (Nat.leb_spec d lo).
    + right. eapply IH; eauto.
    + destruct (Nat.ltb_spec lo c); [discriminate|].
      destruct (Nat.lt_ge_cases p d); [left; lia|right; eapply IH; eauto; lia].
Qed.

Lemma rs_next_gap_none_iff : forall l lo hi, rs_wf l ->
  (rs_next_gap lo hi l = None <-> covers l lo hi).
Proof.
  intros l lo hi Hw; split.
  - intros H p Hp. eapply rs_next_gap_none; eauto.
  - intros H. destruct (rs_next_gap lo hi l) as [[g h]|] eqn:E; auto. exfalso.
    destruct (rs_next_gap_some _ _ _ _ _ _ Hw E) as (A1 & A2 & A3 & A4 & A5 & _).
    apply (A5 g); [lia|]. apply H; lia.
Qed.

Lemma covers_sub : forall l a b a' b', covers l a b -> a <= a' -> b' <= b -> covers l a' b'.
Proof. intros l a b a' b' H H1 H2 p Hp. apply H; lia. Qed.

(** * Facts about slices and overwriting. *)

From Coq Require Import List Arith Lia Bool.
From Verif Require Import Base.
Import ListNotations.

Lemma list_ext : forall {A} (l l' : list A),
  (forall i, nth_error l i = nth_error l' i) -> l = l'.
Proof.
  induction l as [|x l IH]; intros [|y l'] H; auto.
  - specialize (H 0); discriminate.
  - specialize (H 0); discriminate.
  - f_equal; [specialize (H 0); cbn in H; congruence|].
    apply IH. intros i. exact (H (S i)).
Qed.

Lemma nth_error_firstn : forall {A} (l : list A) n i,
  nth_error (firstn n l) i = if i <? n then nth_error l i else None.
Proof.
  induction l as [|x l IH]; intros n i.
  - rewrite firstn_nil. destruct i; cbn; destruct (_ <? _); auto.
  - destruct n; cbn [firstn].
    + destruct i; cbn; auto.
    + destruct i; cbn [nth_error]; [auto|]. rewrite IH.
      destruct (Nat.ltb_spec i n), (Nat.ltb_spec (S i) (S n)); auto; lia.
Qed.

Lemma nth_error_skipn : forall {A} (l : list A) n i,
  nth_error (skipn n l) i = nth_error l (n + i).
Proof.
  induction l as [|x l IH]; intros n i.
  - rewrite skipn_nil. destruct i, (n + 0); destruct n; cbn; auto; destruct (_ + _); auto.
  - destruct n; cbn [skipn plus]; [auto|]. rewrite IH. auto.
Qed.

Lemma nth_error_slice : forall {A} (l : list A) o n i,
  nth_error (slice l o n) i = if i <? n then nth_error l (o + i) else None.
Proof.
  intros; unfold slice. rewrite nth_error_firstn. destruct (i <? n); auto.
  apply nth_error_skipn.
Qed.

Lemma length_slice : forall {A} (l : list A) o n,
  length (slice l o n) = Nat.min n (length l - o).
Proof. intros; unfold slice. rewrite firstn_length, skipn_length. auto. Qed.

Lemma slice_ext : forall {A} (l l' : list A) o n,
  (forall i, o <= i < o + n -> nth_error l i = nth_error l' i) ->
  slice l o n = slice l' o n.
Proof.
  intros A l l' o n H. apply list_ext; intros i. rewrite !nth_error_slice.
  destruct (Nat.ltb_spec i n); auto. apply H; lia.
Qed.

Lemma slice_min : forall {A} (l : list A) o n,
  slice l o n = slice l o (Nat.min n (length l - o)).
Proof.
  intros. apply list_ext; intros i. rewrite !nth_error_slice.
  destruct (Nat.ltb_spec i n), (Nat.ltb_spec i (Nat.min n (length l - o))); auto.
  - apply nth_error_None. lia.
  - lia.
Qed.

Lemma slice_app : forall {A} (l : list A) o n m,
  slice l o (n + m) = slice l o n ++ slice l (o + n) m.
Proof.
  intros A l o n m. apply list_ext; intros i.
  destruct (Nat.lt_ge_cases i (length (slice l o n))) as [H|H].
  - rewrite nth_error_app1 by auto. rewrite !nth_error_slice.
    rewrite length_slice in H.
    destruct (Nat.ltb_spec i n), (Nat.ltb_spec i (n + m)); auto; lia.
  - rewrite nth_error_app2 by auto. rewrite !nth_error_slice, length_slice.
    rewrite length_slice in H.
    destruct (Nat.le_ge_cases n (length l - o)).
    + rewrite Nat.min_l by lia.
      destruct (Nat.ltb_spec i (n + m)), (Nat.ltb_spec (i - n) m); auto; try lia.
      f_equal; lia.
    + rewrite Nat.min_r by lia.
      destruct (Nat.ltb_spec i (n + m)), (Nat.ltb_spec (i - (length l - o)) m); auto.
      all: rewrite ?(proj2 (nth_error_None l _)) by lia; auto.
Qed.

Lemma slice_slice : forall {A} (l : list A) o n o' n',
  slice (slice l o n) o' n' = slice l (o + o') (Nat.min n' (n - o')).
Proof.
  intros. apply list_ext; intros i. rewrite !nth_error_slice.
  destruct (Nat.ltb_spec i n'), (Nat.ltb_spec (o' + i) n),
    (Nat.ltb_spec i (Nat.min n' (n - o'))); auto; try lia.
  f_equal; lia.
Qed.

Lemma firstn_slice : forall {A} (l : list A) o n k,
  firstn k (slice l o n) = slice l o (Nat.min k n).
Proof. intros; unfold slice. apply firstn_firstn. Qed.

Lemma skipn_slice : forall {A} (l : list A) o n k,
  skipn k (slice l o n) = slice l (o + k) (n - k).
Proof.
  intros. apply list_ext; intros i. rewrite nth_error_skipn, !nth_error_slice.
  destruct (Nat.ltb_spec (k + i) n), (Nat.ltb_spec i (n - k)); auto; try lia.
  f_equal; lia.
Qed.

Lemma slice_full : forall {A} (l : list A) n, length l <= n -> slice l 0 n = l.
Proof. intros; unfold slice. cbn. apply firstn_all2; auto. Qed.

Lemma slice_empty : forall {A} (l : list A) o n, length l <= o -> slice l o n = [].
Proof. intros; unfold slice. rewrite skipn_all2 by auto. apply firstn_nil. Qed.

Lemma slice_0 : forall {A} (l : list A) o, slice l o 0 = [].
Proof. intros; reflexivity. Qed.

Lemma slice_nil_inv : forall {A} (l : list A) o n,
  slice l o n = [] -> n = 0 \/ length l <= o.
Proof.
  intros A l o n H. apply (f_equal (@length A)) in H. rewrite length_slice in H.
  cbn in H. lia.
Qed.

Lemma length_overwrite : forall d p bs,
  length (overwrite d p bs) = Nat.max (length d) (p + length bs).
Proof.
  intros; unfold overwrite.
  rewrite !app_length, firstn_length, app_length, repeat_length, skipn_length. lia.
Qed.

Lemma overwrite_prefix_length : forall d p,
  length (firstn p (d ++ repeat x00 (p - length d))) = p.
Proof. intros. rewrite firstn_length, app_length, repeat_length. lia. Qed.

Lemma nth_overwrite_in : forall d p bs i,
  p <= i < p + length bs -> nth_error (overwrite d p bs) i = nth_error bs (i - p).
Proof.
  intros d p bs i H. unfold overwrite.
  rewrite nth_error_app2; rewrite overwrite_prefix_length; [|lia].
  rewrite nth_error_app1 by lia. auto.
Qed.

Lemma nth_overwrite_out : forall d p bs i,
  i < length d -> ~ (p <= i < p + length bs) ->
  nth_error (overwrite d p bs) i = nth_error d i.
Proof.
  intros d p bs i H1 H2. unfold overwrite.
  destruct (Nat.lt_ge_cases i p).
  - rewrite nth_error_app1 by (rewrite overwrite_prefix_length; lia).
    rewrite nth_error_firstn. destruct (Nat.ltb_spec i p); [|lia].
    apply nth_error_app1; auto.
  - rewrite nth_error_app2; rewrite overwrite_prefix_length; [|lia].
    rewrite nth_error_app2 by lia. rewrite nth_error_skipn. f_equal; lia.
Qed.

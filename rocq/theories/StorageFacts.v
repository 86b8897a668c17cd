(** * Facts about memory and temporary-file storage. *)

From Coq Require Import List Arith Lia ZArith Bool.
From Verif Require Import Base ListFacts Storage.
Import ListNotations.

(** Ghost view of an unbounded store: [W] lists (without repetition) positions whose
    stored byte is the byte of [content] at that position. *)
Record u_inv (content : list byte) (W : list nat) (u : ustore) : Prop := mkUInv
  { ui_nodup : NoDup W;
    ui_data : forall x, In x W ->
        x < length content /\ nth_error (u_data u) x = nth_error content x;
    ui_count : match u with UMem m => length W <= m_written m | UFile _ => True end;
    ui_buf : match u with UMem _ => True | UFile f => length (f_buf f) <= f_off f end }.

(** The read buffer of a temporary file is empty. *)
Definition buf_empty (u : ustore) : Prop :=
  match u with UMem _ => True | UFile f => f_buf f = [] end.

Lemma In_dec_nat : forall (x : nat) l, In x l \/ ~ In x l.
Proof. intros. destruct (in_dec Nat.eq_dec x l); auto. Qed.

Lemma seq_incl_length : forall W a k,
  NoDup W -> (forall x, a <= x < a + k -> In x W) -> k <= length W.
Proof.
  intros W a k Hn Hi. rewrite <- (seq_length k a).
  apply NoDup_incl_length; [apply seq_NoDup|].
  intros x Hx. apply in_seq in Hx. apply Hi; lia.
Qed.

(** Adding the positions of [a, a+k) to a duplicate-free list. *)
Definition add_range (W : list nat) (a k : nat) : list nat :=
  W ++ filter (fun x => if in_dec Nat.eq_dec x W then false else true) (seq a k).

Lemma add_range_in : forall W a k x, In x (add_range W a k) <-> In x W \/ a <= x < a + k.
Proof.
  intros; unfold add_range. rewrite in_app_iff, filter_In, in_seq.
  destruct (in_dec Nat.eq_dec x W); intuition congruence.
Qed.

Lemma filter_le_length : forall {A} (f : A -> bool) l, length (filter f l) <= length l.
Proof. induction l; cbn; auto. destruct (f a); cbn; lia. Qed.

Lemma NoDup_app_intro : forall {A} (l l' : list A),
  NoDup l -> NoDup l' -> (forall x, In x l -> In x l' -> False) -> NoDup (l ++ l').
Proof.
  induction l as [|a l IH]; intros l' H1 H2 H3; cbn; auto.
  inversion H1; subst. constructor.
  - rewrite in_app_iff. intros [H|H]; [auto|]. apply (H3 a); cbn; auto.
  - apply IH; auto. intros x Hx Hx'. apply (H3 x); cbn; auto.
Qed.

Lemma add_range_nodup : forall W a k, NoDup W -> NoDup (add_range W a k).
Proof.
  intros; unfold add_range. apply NoDup_app_intro; auto.
  - apply NoDup_filter. apply seq_NoDup.
  - intros x H1 H2. apply filter_In in H2 as [_ H2].
    destruct (in_dec Nat.eq_dec x W); [discriminate|auto].
Qed.

Lemma add_range_length : forall W a k, length (add_range W a k) <= length W + k.
Proof.
  intros; unfold add_range. rewrite app_length.
  pose proof (filter_le_length
    (fun x => if in_dec Nat.eq_dec x W then false else true) (seq a k)) as H.
  rewrite seq_length in H. lia.
Qed.

(** ** Positions *)

Lemma u_write_wpos : forall bs u, u_wpos (u_write bs u) = u_wpos u + length bs.
Proof. destruct u; cbn; auto. destruct bs; cbn; lia. Qed.

Lemma u_write_rpos : forall bs u, u_rpos (u_write bs u) = u_rpos u.
Proof. destruct u; cbn; auto. destruct bs; cbn; auto. Qed.

Lemma u_write_buf : forall bs u, buf_empty u -> buf_empty (u_write bs u).
Proof. destruct u; cbn; auto. destruct bs; cbn; auto. Qed.

Lemma u_wseek_wpos : forall p u, u_wpos (u_wseek p u) = p.
Proof. destruct u; cbn; auto. Qed.

Lemma u_wseek_rpos : forall p u, u_rpos (u_wseek p u) = u_rpos u.
Proof. destruct u; cbn; auto. Qed.

Lemma u_wseek_data : forall p u, u_data (u_wseek p u) = u_data u.
Proof. destruct u; cbn; auto. Qed.

Lemma u_wseek_buf : forall p u, buf_empty u -> buf_empty (u_wseek p u).
Proof. destruct u; cbn; auto. Qed.

Lemma u_rseek_rpos : forall p u, u_rpos (u_rseek p u) = p.
Proof. destruct u; cbn; auto. unfold file_rpos; cbn; lia. Qed.

Lemma u_rseek_wpos : forall p u, u_wpos (u_rseek p u) = u_wpos u.
Proof. destruct u; cbn; auto. Qed.

Lemma u_rseek_data : forall p u, u_data (u_rseek p u) = u_data u.
Proof. destruct u; cbn; auto. Qed.

Lemma u_rseek_buf : forall p u, buf_empty (u_rseek p u).
Proof. destruct u; cbn; auto. Qed.

(** ** Preservation of the ghost view *)

Lemma u_inv_wseek : forall content W u p, u_inv content W u -> u_inv content W (u_wseek p u).
Proof.
  intros content W u p [H1 H2 H3 H4].
  constructor; auto; destruct u; cbn in *; auto.
Qed.

Lemma u_inv_rseek : forall content W u p, u_inv content W u -> u_inv content W (u_rseek p u).
Proof.
  intros content W u p [H1 H2 H3 H4].
  constructor; auto; destruct u; cbn in *; auto; lia.
Qed.

Lemma u_data_write : forall bs u, bs <> [] ->
  u_data (u_write bs u) = overwrite (u_data u) (u_wpos u) bs.
Proof. intros bs u H. destruct u; [reflexivity|]. destruct bs; [congruence|reflexivity]. Qed.

Lemma nth_error_some_length : forall {A} (l : list A) x v,
  nth_error l x = Some v -> x < length l.
Proof. intros A l x v H. apply nth_error_Some. congruence. Qed.

(** A correct write keeps all positions correct and adds the written ones. *)
Lemma u_inv_write : forall content W u bs,
  u_inv content W u ->
  bs = slice content (u_wpos u) (length bs) ->
  u_inv content (add_range W (u_wpos u) (length bs)) (u_write bs u).
Proof.
  intros content W u bs [H1 H2 H3 H4] Hbs.
  assert (Hlen : bs <> [] -> u_wpos u + length bs <= length content).
  { intros Hne. pose proof (f_equal (@length byte) Hbs) as E.
    rewrite length_slice in E. destruct bs; [congruence|]. cbn in *. lia. }
  constructor.
  - apply add_range_nodup; auto.
  - intros x Hx. apply add_range_in in Hx.
    destruct bs as [|b0 bs0] eqn:Eb.
    + destruct Hx as [Hx|Hx]; [|cbn in Hx; lia].
      destruct (H2 x Hx) as [Hl Hd]. split; auto.
      destruct u; cbn in *; auto.
      rewrite <- Hd. apply nth_overwrite_out; [|cbn; lia].
      apply nth_error_Some. rewrite Hd. apply nth_error_Some; auto.
    + rewrite <- Eb in *. assert (Hne : bs <> []) by (subst bs; discriminate).
      specialize (Hlen Hne). rewrite u_data_write by auto.
      destruct (le_lt_dec (u_wpos u) x) as [Hle|Hgt];
        [destruct (lt_dec x (u_wpos u + length bs)) as [Hlt|Hge]|].
      * split; [lia|]. rewrite nth_overwrite_in by lia.
        rewrite Hbs at 1. rewrite nth_error_slice.
        destruct (Nat.ltb_spec (x - u_wpos u) (length bs)); [|lia].
        f_equal; lia.
      * destruct Hx as [Hx|Hx]; [|lia]. destruct (H2 x Hx) as [Hl Hd]. split; auto.
        rewrite <- Hd. apply nth_overwrite_out; [|lia].
        apply nth_error_Some. rewrite Hd. apply nth_error_Some; auto.
      * destruct Hx as [Hx|Hx]; [|lia]. destruct (H2 x Hx) as [Hl Hd]. split; auto.
        rewrite <- Hd. apply nth_overwrite_out; [|lia].
        apply nth_error_Some. rewrite Hd. apply nth_error_Some; auto.
  - destruct u; cbn in *; auto.
    pose proof (add_range_length W (m_wpos m) (length bs)). lia.
  - destruct u; cbn in *; auto. destruct bs; cbn; auto.
Qed.

Lemma u_write_data_length : forall bs u N,
  length (u_data u) <= N -> u_wpos u + length bs <= N ->
  length (u_data (u_write bs u)) <= N.
Proof.
  intros bs u N H1 H2. destruct u as [m|f]; cbn in *.
  - rewrite length_overwrite. lia.
  - destruct bs; cbn [f_data file_write] in *; auto. rewrite length_overwrite. lia.
Qed.

(** Reads of the storage are not cut short. *)
Definition u_whole (u : ustore) : Prop :=
  match u with UMem _ => True | UFile f => f_lim f = [] end.

Lemma file_limit_le : forall n f, file_limit n f <= n.
Proof. intros n f. unfold file_limit. destruct (f_lim f); lia. Qed.

Lemma file_limit_pos : forall n f, 0 < n -> 0 < file_limit n f.
Proof. intros n f H. unfold file_limit. destruct (f_lim f); lia. Qed.

(** Reading where everything wanted is correct gives the content. *)
Lemma u_read_ok : forall content W u n bs u',
  u_inv content W u -> buf_empty u -> length (u_data u) <= length content ->
  (forall x, u_rpos u <= x < u_rpos u + n -> x < length content -> In x W) ->
  u_read n u = (Ok bs, u') ->
  exists k, bs = slice content (u_rpos u) k /\ k <= n /\ (0 < n -> 0 < k) /\ (u_whole u -> k = n).
Proof.
  intros content W u n bs u' [H1 H2 H3 H4] Hb Hl Hr Hu.
  assert (Hdata : forall x, u_rpos u <= x < u_rpos u + n ->
                            nth_error (u_data u) x = nth_error content x).
  { intros x Hx. destruct (Nat.lt_ge_cases x (length content)) as [Hc|Hc].
    - apply H2. auto.
    - rewrite (proj2 (nth_error_None _ _)) by lia.
      rewrite (proj2 (nth_error_None _ _)) by lia. auto. }
  assert (Hs : slice (u_data u) (u_rpos u) n = slice content (u_rpos u) n).
  { apply slice_ext. auto. }
  destruct u as [m|f]; cbn in *.
  - unfold mem_read in Hu. destruct (Nat.ltb_spec (length (m_vec m)) (m_rpos m)).
    + discriminate.
    + injection Hu as Hu _. subst bs.
      assert (K : Nat.min n (length (m_vec m) - m_rpos m) <= length W).
      { apply seq_incl_length with (a := m_rpos m); auto.
        intros x Hx. apply Hr; lia. }
      exists n. repeat split; auto. rewrite <- Hs, (slice_min (m_vec m) _ n). f_equal. lia.
  - unfold file_read in Hu. rewrite Hb in Hu.
    unfold file_rpos in *. rewrite Hb in *. cbn in *. rewrite Nat.sub_0_r in *.
    pose proof (file_limit_le n f). pose proof (file_limit_le (f_cap f) f).
    pose proof (file_limit_pos n f). pose proof (file_limit_pos (f_cap f) f).
    destruct (Nat.leb_spec (f_cap f) n).
    + injection Hu as Hu _. subst bs. exists (file_limit n f). repeat split; auto.
      * apply slice_ext. intros x Hx. apply Hdata. lia.
      * intros Hw. unfold file_limit. rewrite Hw. reflexivity.
    + injection Hu as Hu _. subst bs. rewrite firstn_slice.
      exists (Nat.min n (file_limit (f_cap f) f)). repeat split; try lia.
      * apply slice_ext. intros x Hx. apply Hdata. lia.
      * intros Hw. unfold file_limit. rewrite Hw. lia.
Qed.

(** Effect of a read on everything but the read position. *)
Lemma u_read_frame : forall content W u n r u',
  u_inv content W u -> u_read n u = (r, u') ->
  u_inv content W u' /\ u_data u' = u_data u /\ u_wpos u' = u_wpos u /\
  u_rpos u' = u_rpos u + match r with Ok bs => length bs | _ => 0 end.
Proof.
  intros content W u n r u' [H1 H2 H3 H4] Hu. destruct u as [m|f]; cbn in *.
  - unfold mem_read in Hu. destruct (Nat.ltb_spec (length (m_vec m)) (m_rpos m)).
    + injection Hu as <- <-. repeat split; cbn; auto; try (apply H2; auto).
    + injection Hu as <- <-. repeat split; cbn; auto; try (apply H2; auto).
      rewrite length_slice. lia.
  - unfold file_read in Hu. destruct (f_buf f) as [|b0 bf] eqn:Eb.
    + destruct (Nat.leb_spec (f_cap f) n); injection Hu as <- <-.
      * repeat split; cbn; auto; try (apply H2; auto); try lia.
        unfold file_rpos; cbn. rewrite Eb; cbn. lia.
      * repeat split; cbn; auto; try (apply H2; auto).
        -- rewrite skipn_length. lia.
        -- unfold file_rpos; cbn. rewrite Eb, skipn_length, firstn_length; cbn. lia.
    + injection Hu as <- <-.
      repeat split; cbn [u_data u_wpos f_data f_wpos f_buf f_off]; auto; try (apply H2; auto).
      * rewrite skipn_length. cbn in *; lia.
      * unfold u_rpos, file_rpos; cbn [f_off f_buf].
        rewrite Eb, skipn_length, firstn_length. cbn in *; lia.
Qed.

Lemma u_read_not_err : forall n u e u', u_read n u <> (Err e, u').
Proof.
  intros n u e u' H. destruct u as [m|f]; cbn in H.
  - unfold mem_read in H. destruct (_ <? _); discriminate.
  - unfold file_read in H. destruct (f_buf f); [destruct (_ <=? _)|]; discriminate.
Qed.

Lemma u_inv_new : forall content p clen u, plain_rw p clen = Some u ->
  u_inv content [] u /\ u_wpos u = 0 /\ u_rpos u = 0 /\ buf_empty u /\
  length (u_data u) <= match clen with Some n => n | None => 0 end.
Proof.
  intros content p clen u H. destruct p; cbn in H; try discriminate; injection H as <-.
  - repeat split; cbn; auto; try constructor; try contradiction; try lia.
    rewrite repeat_length. auto.
  - repeat split; cbn; auto; try constructor; try contradiction; lia.
  - repeat split; cbn; auto; try constructor; try contradiction; lia.
Qed.

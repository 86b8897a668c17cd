(** * C76: position arithmetic. *)

From Coq Require Import List Arith Lia ZArith Bool.
From Verif Require Import Base RangeSet Storage System Spec InvCore Exec Machine.
Import ListNotations.
Local Open Scope Z_scope.

(** The ranges of the machine types. *)
Definition is_u64 (z : Z) : Prop := 0 <= z < two64.
Definition is_i64 (z : Z) : Prop := - two63 <= z < two63.

Lemma two64_63 : two64 = 2 * two63. Proof. reflexivity. Qed.
Lemma two63_pos : 0 < two63. Proof. reflexivity. Qed.

Lemma cast_i64_low : forall z, is_u64 z -> z < two63 -> cast_i64 z = z.
Proof. intros z H1 H2. unfold is_u64 in *. unfold cast_i64. rewrite Z.mod_small; lia || (rewrite two64_63 in *; lia). Qed.

Lemma cast_i64_high : forall z, is_u64 z -> two63 <= z -> cast_i64 z = z - two64.
Proof.
  intros z H1 H2. unfold is_u64 in *. unfold cast_i64. rewrite two64_63 in *.
  assert (E : (z + two63) mod (2 * two63) = z - two63).
  { symmetry. apply Z.mod_unique with 1; lia. }
  rewrite E. lia.
Qed.

Lemma cast_round : forall z, is_u64 z -> cast_u64 (cast_i64 z) = z.
Proof.
  intros z H. unfold cast_u64. destruct (Z.lt_ge_cases z two63) as [L|G].
  - rewrite cast_i64_low by auto. apply Z.mod_small. exact H.
  - rewrite cast_i64_high by auto. unfold is_u64 in *. symmetry. apply Z.mod_unique with (-1); lia.
Qed.

(** Both casts agree modulo 2^64. *)
Lemma cast_sum : forall p d, cast_u64 (cast_i64 (cast_i64 p + d)) = (p + d) mod two64.
Proof.
  intros p d. unfold cast_u64, cast_i64.
  rewrite Zminus_mod, Z.mod_mod by (vm_compute; discriminate). rewrite <- Zminus_mod.
  replace ((p + two63) mod two64 - two63 + d + two63 - two63)
    with ((p + two63) mod two64 + (d - two63)) by lia.
  rewrite Zplus_mod, Z.mod_mod by (vm_compute; discriminate). rewrite <- Zplus_mod.
  f_equal. lia.
Qed.

Lemma cast_sum' : forall p d, cast_u64 (cast_i64 p + d) = (p + d) mod two64.
Proof.
  intros p d. unfold cast_u64, cast_i64.
  replace ((p + two63) mod two64 - two63 + d) with ((p + two63) mod two64 + (d - two63)) by lia.
  rewrite Zplus_mod, Z.mod_mod by (vm_compute; discriminate). rewrite <- Zplus_mod. f_equal. lia.
Qed.

(** ** C76: position arithmetic is exact *)

(** Without overflow checks a relative seek computes the target modulo 2^64, in particular
    exactly whenever the target is a [u64]; this is what the system model uses. *)
Theorem C76_wrapping_seek : forall base d, is_u64 base -> is_i64 d ->
  relative_position Wrapping base d = Ok ((base + d) mod two64) /\
  (is_u64 (base + d) -> relative_position Wrapping base d = Ok (base + d)).
Proof.
  intros base d Hb Hd.
  assert (E : relative_position Wrapping base d = Ok ((base + d) mod two64)).
  { unfold relative_position, i64_add. destruct (_ && _); f_equal; [apply cast_sum'|apply cast_sum]. }
  split; auto. intros H. rewrite E. f_equal. apply Z.mod_small. exact H.
Qed.

Theorem C76_model_agrees : forall c rpos d, is_i64 d ->
  relative_position Wrapping (Z.of_nat rpos) d = absolute_seek_position c rpos (FromCurrent d) /\
  (forall len, c_clen c = Some len ->
     relative_position Wrapping (Z.of_nat len) d = absolute_seek_position c rpos (FromEnd d)).
Proof.
  assert (E : forall n d, relative_position Wrapping (Z.of_nat n) d = Ok (as_u64 (Z.of_nat n + d))).
  { intros n d. unfold relative_position, i64_add, as_u64. destruct (_ && _); f_equal; [apply cast_sum'|apply cast_sum]. }
  intros c rpos d Hd. split; [|intros len Hl]; cbn [absolute_seek_position]; rewrite ?Hl; apply E.
Qed.

(** Violated with overflow checks: a relative seek whose target is a valid [u64] panics. *)
Theorem C76_checked_seek_refuted : exists base d, is_u64 base /\ is_i64 d /\ is_u64 (base + d) /\
  relative_position Checked base d = Panic.
Proof. exists 1, (two63 - 1). repeat split; vm_compute; auto; discriminate. Qed.

(** What does hold there: from a position below 2^63, a seek is exact, or wraps for a
    negative target as without checks, and it panics exactly if the target is 2^63 or more. *)
Theorem C76_checked_seek_partial : forall base d, 0 <= base < two63 -> is_i64 d ->
  (base + d < two63 -> relative_position Checked base d = relative_position Wrapping base d) /\
  (0 <= base + d < two63 -> relative_position Checked base d = Ok (base + d)) /\
  (two63 <= base + d <-> relative_position Checked base d = Panic).
Proof.
  intros base d Hb Hd. unfold is_i64 in Hd.
  assert (Hu : is_u64 base) by (unfold is_u64; rewrite two64_63; lia).
  unfold relative_position, i64_add. rewrite (cast_i64_low base Hu) by lia.
  destruct (Z.leb_spec (- two63) (base + d)); [|lia].
  destruct (Z.ltb_spec (base + d) two63); cbn [andb].
  - split; auto. split; [|split; [lia|discriminate]].
    intros H1. f_equal. unfold cast_u64. apply Z.mod_small. rewrite two64_63. lia.
  - split; [lia|]. split; [lia|]. split; auto.
Qed.

(** A read from a position below 2^63 into any buffer (a slice has less than 2^63 bytes)
    asks for the right position, in every build. *)
Theorem C76_read_exact : forall bd pos len, 0 <= pos < two63 -> 0 <= len < two63 ->
  read_end bd pos len = Ok (pos + len).
Proof.
  intros bd pos len H1 H2. unfold read_end, u64_add. destruct (Z.ltb_spec (pos + len) two64); auto.
  rewrite two64_63 in *. lia.
Qed.

(** With a known length the reader is always at such a position. *)
Theorem C76_known_length : forall c s len, sane c -> unbounded_store c -> honours_ranges c ->
  c_clen c = Some len -> reach c (no_empty_chunk_past_end c) s ->
  0 <= Z.of_nat (st_rpos (g_store s)) <= Z.of_nat len /\ Z.of_nat len < two63.
Proof.
  intros c s len Hs Hu Hh Hc Hr.
  destruct (core_reach c _ s Hs Hu Hh (fun s0 l A => A) Hr) as (W & u & K1 & K2).
  pose proof (co_rpos _ _ _ _ K2 len Hc) as R. rewrite (co_store _ _ _ _ K1). cbn [st_rpos].
  destruct Hs as (S1 & S2 & _). rewrite (S1 len Hc) in *.
  change (two64 / 2) with two63 in S2. lia.
Qed.

(** The prefetch target is exact if it is a [u64]. *)
Theorem C76_prefetch_partial : forall bd start prefetch pos,
  is_u64 (start + prefetch) ->
  prefetch_reached bd start prefetch pos = Ok (start + prefetch <=? pos).
Proof.
  intros bd start prefetch pos [_ H]. unfold prefetch_reached, u64_add.
  destruct (Z.ltb_spec (start + prefetch) two64); auto. lia.
Qed.

(** Violated otherwise: with the largest prefetch size, meant to download everything first,
    the check after a seek panics, or without overflow checks succeeds at once. *)
Theorem C76_prefetch_refuted : forall start, 0 < start < two64 ->
  let prefetch := two64 - 1 in
  prefetch_reached Checked start prefetch start = Panic /\
  prefetch_reached Wrapping start prefetch start = Ok true.
Proof.
  intros start H. cbv zeta. unfold prefetch_reached, u64_add, cast_u64.
  destruct (Z.ltb_spec (start + (two64 - 1)) two64); [lia|]. split; auto.
  replace ((start + (two64 - 1)) mod two64) with (start - 1).
  - destruct (Z.leb_spec (start - 1) start); auto. lia.
  - apply Z.mod_unique with 1; lia.
Qed.

(** The storages compute relative positions in the same way; the bounded one does not
    support seeking from the end. *)
Theorem C76_storage_seeks : forall bd len cur d, is_i64 d -> 0 <= cur < two63 -> 0 <= len < two63 ->
  (0 <= cur + d < two63 -> bounded_handle_seek bd (ZCurrent d) cur = Ok (cur + d) /\
                           memory_seek bd (ZCurrent d) len cur = Ok (cur + d)) /\
  (0 <= len + d < two63 -> memory_seek bd (ZEnd d) len cur = Ok (len + d)) /\
  bounded_handle_seek bd (ZEnd d) cur = Err EUnsupported.
Proof.
  assert (E : forall bd b d, 0 <= b < two63 -> is_i64 d -> 0 <= b + d < two63 ->
    relative_position bd b d = Ok (b + d)).
  { intros bd b d Hb Hd H. destruct bd; [apply C76_checked_seek_partial; auto|].
    apply C76_wrapping_seek; auto; unfold is_u64; rewrite two64_63; lia. }
  intros bd len cur d Hd Hc Hl. repeat split; intros; try apply E; auto.
Qed.

(** Ordinary seeks and reads, and the two sides of the limit. *)
Example C76_case :
  relative_position Checked 10 (-3) = Ok 7 /\
  relative_position Checked (two63 - 2) 1 = Ok (two63 - 1) /\
  relative_position Checked (two63 - 2) 2 = Panic /\
  relative_position Wrapping (two63 - 2) 2 = Ok two63 /\
  relative_position Checked 3 (-5) = Ok (two64 - 2) /\
  read_end Checked (two63 - 1) (two63 - 1) = Ok (two64 - 2) /\
  prefetch_reached Checked 5 10 15 = Ok true /\ prefetch_reached Checked 5 10 14 = Ok false.
Proof. repeat split. Qed.

Local Close Scope Z_scope.

(** A reader that has read 5 of 12 bytes meets the hypotheses of [C76_known_length]. *)
Example C76_known_length_case : let c := mk (Some 12) true 0 4 (PPlain PlMem) in
  sane c /\ unbounded_store c /\ honours_ranges c /\ c_clen c = Some 12 /\
  exists s, reach c (no_empty_chunk_past_end c) s /\ st_rpos (g_store s) = 5.
Proof.
  cbv zeta. split; [apply mk_sane; auto; lia|]. split; [exact I|]. split; [apply mk_honours; auto|].
  split; [reflexivity|]. eexists.
  split; [reach_tac (past_end_b (mk (Some 12) true 0 4 (PPlain PlMem))) ([LDChunk 6] ++ Tk 7 ++ [LOp (ORead 5)] ++ Rd 4)%list|].
  vm_compute. reflexivity.
Qed.

Print Assumptions C76_wrapping_seek.
Print Assumptions C76_model_agrees.
Print Assumptions C76_checked_seek_refuted.
Print Assumptions C76_checked_seek_partial.
Print Assumptions C76_read_exact.
Print Assumptions C76_known_length.
Print Assumptions C76_prefetch_partial.
Print Assumptions C76_prefetch_refuted.
Print Assumptions C76_storage_seeks.

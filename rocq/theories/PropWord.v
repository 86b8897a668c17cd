(** * PropWord: C99, the storage layer where [usize] is narrower than a stream position.

    [M] is the number of values of [usize]: [2^32] on a 32-bit target. *)

From Coq Require Import List Arith Lia ZArith Bool.
From Verif Require Import Base Storage StoreSpec ListFacts BoundedFacts StoreFacts Word WordFacts.
Import ListNotations.

(** C99, the part that holds.  As long as the farthest position sought plus what was read, and
    plus what was written, stay below [M], every operation on every storage the crate offers
    returns what it returns where [usize] never overflows.  In a build without overflow checks
    this is said of the histories in which the other build does not panic.  The buffer of
    bounded storage may take half the address space. *)
Theorem C99_partial : forall M ck p clen st st_ck os evs st',
  buffer_fits M p ->
  into_rw (in_build true p) clen = Some st -> into_rw (in_build ck p) clen = Some st_ck ->
  ops_run os st [] = (evs, st') ->
  fits M evs -> ck = true \/ none_panicked evs ->
  fst (wops_run M os st_ck []) = map Ev evs.
Proof.
  intros M ck p clen st st_ck os evs st' B H1 H2 Hr F P.
  rewrite start_build, H1 in H2. injection H2 as <-.
  destruct (word_run M ck os st [] evs st' Hr) as [E _]; auto.
  - eapply wordly_start; eauto.
  - destruct P as [P|P]; [auto|]. right. intros e He. specialize (P e He).
    destruct e as [n [?|?|]|q [?|?|]| |bs k|q [?|?|]]; cbn; auto; contradiction.
  - cbn in E. rewrite E. reflexivity.
Qed.

(** A temporary file, or storage of the user's own that keeps [u64] positions, has no such
    limit: any history is the one of the unlimited machine. *)
Theorem C99_file : forall M q clen st os, (exists cap, q = PlTemp cap) \/ (exists lim, q = PlCustom lim) ->
  into_rw (PPlain q) clen = Some st ->
  w_into_rw M (PPlain q) clen = Some st /\
  fst (wops_run M os st []) = map Ev (fst (ops_run os st [])).
Proof.
  intros M q clen st os Hq H.
  assert (Hf : (exists f, st = SPlain (UFile f)) /\ w_into_rw M (PPlain q) clen = Some st).
  { destruct Hq as [[c ->]|[c ->]]; cbn in *; injection H as <-; eauto. }
  destruct Hf as [[f ->] Hw]. split; [exact Hw|]. clear H Hw Hq.
  change (@nil wev) with (map Ev []). generalize (@nil sev) as evs. revert f.
  induction os as [|o os IH]; intros f evs; [reflexivity|].
  assert (G : exists e f', wop_run M o (SPlain (UFile f)) = (Ev e, SPlain (UFile f')) /\
    sop_run o (SPlain (UFile f)) = (e, SPlain (UFile f'))).
  { destruct o; cbn; try (do 2 eexists; split; reflexivity).
    destruct (file_read n f). do 2 eexists. split; reflexivity. }
  destruct G as (e & f' & E1 & E2). cbn [wops_run ops_run]. rewrite E1, E2. apply (IH f' (e :: evs)).
Qed.

(** The storage is created, and is the storage of the unlimited machine, unless all of an
    announced length that does not fit [usize] is to be held in memory; then creation is
    refused with an error. *)
Theorem C99_created : forall M p clen, 0 < M -> buffer_fits M p ->
  (forall len, clen = Some len -> M <= len -> whole_in_memory p clen ->
     w_into_rw M p clen = None) /\
  ((forall len, clen = Some len -> M <= len -> ~ whole_in_memory p clen) ->
     w_into_rw M p clen = into_rw p clen).
Proof.
  intros M p clen HM B.
  assert (Hp : forall q c, (forall len, c = Some len -> M <= len -> q <> PlMem) ->
    w_plain_rw M q c = plain_rw q c).
  { intros [|cap| |lim] [c|] H; cbn; auto.
    destruct (Nat.ltb_spec c M); auto. destruct (H c eq_refl); auto. }
  assert (Hb : forall ck q n c, 2 * n <= M -> w_bounded_rw M ck q n c = bounded_rw ck q n c).
  { intros ck q n c Hn. unfold w_bounded_rw, bounded_rw.
    set (size := match c with Some c0 => Nat.min c0 n | None => n end).
    assert (Hs : size < M) by (unfold size; destruct c; lia).
    rewrite Hp by (intros len E Hl; injection E as <-; lia).
    destruct (plain_rw q (Some size)); auto. destruct (Nat.ltb_spec size M); auto. lia. }
  split.
  - intros len -> Hl Hw. destruct p as [q|ck q n|ck f v n]; cbn in Hw; try contradiction.
    + subst q. cbn. destruct (Nat.ltb_spec len M); [lia|reflexivity].
    + cbn [w_into_rw]. cbn [buffer_fits] in B.
      destruct (len <=? n) eqn:E; [apply Nat.leb_le in E; lia|]. subst v.
      cbn. destruct (Nat.ltb_spec len M); [lia|reflexivity].
  - intros Hn. destruct p as [q|ck q n|ck f v n]; cbn [w_into_rw into_rw]; cbn [buffer_fits] in B.
    + rewrite Hp; auto. intros len -> Hl. apply (Hn len); auto.
    + apply Hb. auto.
    + destruct clen as [len|]; [|apply Hb; auto].
      destruct (len <=? n) eqn:E.
      * rewrite Hp; auto. intros l El Hl. injection El as <-. apply Nat.leb_le in E. lia.
      * rewrite Hp; auto. intros l El Hl. injection El as <-.
        specialize (Hn len eq_refl Hl). cbn in Hn. rewrite E in Hn. exact Hn.
Qed.

(** C99 fails for an endless stream in bounded storage, however it is held and whatever the
    buffer size: a listener who reads every byte as it arrives gets the first [M - 1] bytes.
    Then a build with overflow checks panics in the write, and one without stores the next
    byte, reports it as written and tells the reader that the stream has ended. *)
Theorem C99_endless_refuted : forall M ck q n x, q <> PlFail -> 0 < n -> 2 * n <= M ->
  exists st s1,
    w_into_rw M (PBounded ck q n) None = Some st /\
    wops_run M (radio x (M - 1)) st [] = (map Ev (played x (M - 1)), s1) /\
    fst (wops_run M [OpWrite [x]; OpRead 1] s1 []) =
      if ck then [Ev (SvRead 1 (Ok [])); PanickedWrite [x]]
      else [Ev (SvRead 1 (Ok [])); Ev (SvWrite [x] 1)].
Proof.
  intros M ck q n x Hq Hn HM.
  assert (Hst : exists st, into_rw (PBounded true q n) None = Some st).
  { cbn. unfold bounded_rw. destruct q; cbn; eauto. congruence. }
  destruct Hst as [st Hst].
  destruct (C99_created M (PBounded ck q n) None) as [_ Hc]; [lia|exact HM|].
  rewrite Hc by discriminate.
  pose proof (start_build ck (PBounded true q n) None) as Hb. cbn [in_build] in Hb.
  rewrite Hb, Hst. cbn [option_map].
  assert (C0 : counted n [] st).
  { destruct (bounded_start _ _ _ _ _ Hst) as (b0 & -> & _ & _ & Hb0 & _).
    split; [eapply (bounded_appended true q n None); eauto|]. cbn. auto. }
  destruct (radio_plays x n st (M - 1) Hn C0) as (b & Er & C).
  destruct (played_facts x (M - 1)) as (F1 & F2 & F3 & F4 & F5 & F6 & F7).
  assert (W0 : wordly M [] st).
  { eapply (wordly_start M (PBounded true q n)); eauto. }
  destruct (word_run M ck _ _ _ _ _ Er W0) as [Ew W]; auto.
  { unfold fits. rewrite F4, F5, F6. lia. }
  cbn [map] in Ew. exists (set_build ck st), (set_build ck (SBnd b)).
  split; [reflexivity|]. split; [exact Ew|].
  destruct C as ((b' & Eb & R & Hs & _ & Hr & Hw) & _ & Hrd). injection Eb as <-.
  rewrite F3 in Hrd. rewrite F2 in Hr. rewrite F1, repeat_length in Hw.
  pose proof (rg_wpos _ _ R) as Hwp. rewrite F1, repeat_length in Hwp.
  assert (Hs0 : b_size (set_checks ck b) = n) by exact Hs.
  destruct (w_write_one M (set_checks ck b) x) as [u Eu]; [lia|lia|].
  cbn [wops_run wop_run set_build].
  unfold w_bnd_write. cbn [set_checks b_size b_wpos b_rpos b_written b_read b_checks b_inner].
  rewrite Hs, Hwp, Hr, Nat.sub_diag, Nat.sub_0_r. cbn [length].
  replace (Nat.min n 1) with 1 by lia. change (1 =? 0) with false. cbn [firstn].
  fold (set_checks ck b). rewrite Eu. unfold w_advance, w_add.
  rewrite Hw, Nat2Z.id.
  replace (M - 1 + 1) with M by lia. rewrite Nat.ltb_irrefl.
  destruct ck.
  - cbn [wops_run wop_run]. unfold w_bnd_read.
    cbn [b_size b_wpos b_rpos b_written b_read b_checks b_inner].
    rewrite Hrd. rewrite (proj2 (Nat.ltb_ge n 1)) by lia.
    rewrite (proj2 (Nat.ltb_ge n (_ - _))) by lia. rewrite Z.leb_refl. reflexivity.
  - rewrite Nat.mod_same by lia. cbn [wops_run wop_run]. unfold w_bnd_read.
    cbn [b_size b_wpos b_rpos b_written b_read b_checks b_inner].
    rewrite Hrd. rewrite (proj2 (Nat.ltb_ge n 1)) by lia.
    rewrite (proj2 (Nat.ltb_ge n (0 - _))) by lia.
    rewrite (proj2 (Z.leb_le _ _)) by lia. reflexivity.
Qed.

(** C99 fails for a position that does not fit [usize] in storage held in memory: the writer is
    sent to position [M], is told that it is at position 0, and overwrites what a reader of
    position 0 gets. *)
Theorem C99_position_refuted : forall M a c, 3 <= M ->
  let os := [OpWrite [a]; OpWSeek M; OpWrite [c]; OpSeek 0; OpRead 1] in
  exists st,
    w_into_rw M (PPlain PlMem) None = Some st /\ into_rw (PPlain PlMem) None = Some st /\
    fst (wops_run M os st []) =
      [Ev (SvRead 1 (Ok [c])); Ev (SvSeek 0 (Ok 0)); Ev (SvWrite [c] 1);
       Ev (SvWSeek M (Ok 0)); Ev (SvWrite [a] 1)] /\
    fst (ops_run os st []) =
      [SvRead 1 (Ok [a]); SvSeek 0 (Ok 0); SvWrite [c] 1; SvWSeek M (Ok M); SvWrite [a] 1].
Proof.
  intros M a c HM os. unfold os. eexists. split; [reflexivity|]. split; [reflexivity|]. split.
  - assert (E1 : wop_run M (OpWrite [a]) (SPlain (UMem (mem_new None))) =
      (Ev (SvWrite [a] 1), SPlain (UMem (mkMem [a] 1 0 1)))).
    { cbn. unfold w_mem_write. cbn [mem_new m_wpos m_vec m_written m_rpos repeat length Nat.add].
      rewrite (proj2 (Nat.ltb_lt 1 M)), Nat.mod_small by lia. reflexivity. }
    assert (E2 : wop_run M (OpWSeek M) (SPlain (UMem (mkMem [a] 1 0 1))) =
      (Ev (SvWSeek M (Ok 0)), SPlain (UMem (mkMem [a] 1 0 0)))).
    { cbn. unfold w_cast. rewrite Nat.mod_same by lia. reflexivity. }
    assert (E3 : wop_run M (OpWrite [c]) (SPlain (UMem (mkMem [a] 1 0 0))) =
      (Ev (SvWrite [c] 1), SPlain (UMem (mkMem [c] 2 0 1)))).
    { cbn. unfold w_mem_write. cbn [m_wpos m_vec m_written m_rpos length Nat.add].
      rewrite (proj2 (Nat.ltb_lt 1 M)), Nat.mod_small by lia. reflexivity. }
    assert (E4 : wop_run M (OpSeek 0) (SPlain (UMem (mkMem [c] 2 0 1))) =
      (Ev (SvSeek 0 (Ok 0)), SPlain (UMem (mkMem [c] 2 0 1)))).
    { cbn. unfold w_cast. rewrite Nat.mod_small by lia. reflexivity. }
    cbn [wops_run]. rewrite E1, E2, E3, E4. reflexivity.
  - assert (Eo : exists t, overwrite [a] M [c] = a :: t).
    { destruct M as [|M]; [lia|]. unfold overwrite. cbn [firstn app length Nat.sub repeat]. eauto. }
    destruct Eo as [t Eo].
    cbn [ops_run sop_run st_write st_wseek st_rseek u_write u_wseek u_rseek mem_new].
    unfold mem_write, mem_wseek, mem_rseek.
    cbn [mem_new m_wpos m_vec m_written m_rpos length Nat.add repeat].
    change (overwrite [] 0 [a]) with [a]. rewrite Eo.
    unfold st_read, u_read, mem_read. cbn [m_wpos m_vec m_written m_rpos length].
    rewrite (proj2 (Nat.ltb_ge (S (length t)) 0)) by lia.
    replace (Nat.min (Nat.min (S (length t) - 0) 2) 1) with 1 by lia. reflexivity.
Qed.

(** C99 fails for memory into which [M] bytes have been stored in total, also when they were
    stored at the same places again and again, as seeks back and forth make the download do:
    the reader is told that the stream has ended although the byte is there. *)
Theorem C99_rewritten_refuted : forall M x, 2 <= M ->
  exists st,
    w_into_rw M (PPlain PlMem) None = Some st /\
    fst (wops_run M (rewrites x M ++ [OpRead 1]) st []) =
      Ev (SvRead 1 (Ok [])) :: map Ev (rewritten x M).
Proof.
  intros M x HM. eexists. split; [reflexivity|].
  destruct (rewritten_facts x (M - 1)) as (F1 & F2 & F3 & F4).
  destruct (word_run M true (rewrites x (M - 1)) (SPlain (UMem (mem_new None))) [] _ _
    (rewrites_run x (M - 1) ltac:(lia))) as [E _].
  - cbn. auto.
  - unfold fits. rewrite F1, F2, F3. lia.
  - auto.
  - cbn [map set_build] in E. remember (M - 1) as k eqn:Ek. replace M with (S k) at 2 3 by lia.
    cbn [rewrites rewritten]. rewrite <- app_assoc, wops_run_app, E.
    assert (E1 : wop_run M (OpWSeek 0) (SPlain (UMem (mkMem [x] k 0 1))) =
      (Ev (SvWSeek 0 (Ok 0)), SPlain (UMem (mkMem [x] k 0 0)))).
    { cbn. unfold w_cast. rewrite Nat.mod_small by lia. reflexivity. }
    assert (E2 : wop_run M (OpWrite [x]) (SPlain (UMem (mkMem [x] k 0 0))) =
      (Ev (SvWrite [x] 1), SPlain (UMem (mkMem [x] 0 0 1)))).
    { cbn. unfold w_mem_write. cbn [m_wpos m_vec m_written m_rpos length Nat.add].
      rewrite (proj2 (Nat.ltb_lt 1 M)) by lia. replace (k + 1) with M by lia.
      rewrite Nat.mod_same by lia. reflexivity. }
    cbn [app wops_run]. rewrite E1, E2. reflexivity.
Qed.

(** ** Concrete cases *)

(** A machine with 16 words, bounded storage of 4 bytes: 6 bytes through the buffer, with a
    step back, are what the unlimited machine returns; the positions fit. *)
Example C99_case :
  let os := [OpWrite [x01; x02; x03; x04; x05]; OpRead 3; OpWrite [x05; x06]; OpSeek 2; OpRead 4] in
  let evs := [SvRead 4 (Ok [x03; x04; x05; x06]); SvSeek 2 (Ok 2); SvWrite [x05; x06] 2;
              SvRead 3 (Ok [x01; x02; x03]); SvWrite [x01; x02; x03; x04; x05] 4] in
  buffer_fits 16 (PBounded true PlMem 4) /\ fits 16 evs /\ none_panicked evs /\
  match into_rw (PBounded true PlMem 4) None with
  | Some st => fst (ops_run os st []) = evs /\ fst (wops_run 16 os st []) = map Ev evs
  | None => False
  end.
Proof.
  cbn zeta. split; [cbn; lia|]. split; [unfold fits; cbn; lia|]. split; [|vm_compute; auto].
  intros e He. repeat (destruct He as [<-|He]; [exact I|]). contradiction.
Qed.

(** Creation on the same machine: 20 announced bytes are refused in memory, accepted in a
    temporary file and in a bounded buffer. *)
Example C99_created_case :
  w_into_rw 16 (PPlain PlMem) (Some 20) = None /\
  w_into_rw 16 (PPlain (PlTemp 8)) (Some 20) = into_rw (PPlain (PlTemp 8)) (Some 20) /\
  w_into_rw 16 (PBounded true PlMem 4) (Some 20) = into_rw (PBounded true PlMem 4) (Some 20) /\
  w_into_rw 16 (PAdaptive true PlMem PlMem 4) (Some 20) = None.
Proof. repeat split. Qed.

(** A file on this machine, written and read at positions its words do not hold. *)
Example C99_file_case :
  match into_rw (PPlain (PlTemp 8)) (Some 40) with
  | Some st =>
      fst (wops_run 16 [OpWSeek 33; OpWrite [x01; x02]; OpSeek 33; OpRead 2] st []) =
        map Ev [SvRead 2 (Ok [x01; x02]); SvSeek 33 (Ok 33); SvWrite [x01; x02] 2; SvWSeek 33 (Ok 33)]
  | None => False
  end.
Proof. vm_compute. auto. Qed.

(** The 16th byte of an endless stream on this machine, in either build. *)
Example C99_endless_case :
  match w_into_rw 16 (PBounded false PlMem 4) None, w_into_rw 16 (PBounded true PlMem 4) None with
  | Some wrapping, Some checked =>
      hd_error (fst (wops_run 16 (radio x01 15) wrapping [])) = Some (Ev (SvRead 1 (Ok [x01]))) /\
      hd_error (fst (wops_run 16 (radio x01 16) wrapping [])) = Some (Ev (SvRead 1 (Ok []))) /\
      nth_error (fst (wops_run 16 (radio x01 16) checked [])) 1 = Some (PanickedWrite [x01])
  | _, _ => False
  end.
Proof. vm_compute. auto. Qed.

Print Assumptions C99_partial.
Print Assumptions C99_file.
Print Assumptions C99_created.
Print Assumptions C99_endless_refuted.
Print Assumptions C99_position_refuted.
Print Assumptions C99_rewritten_refuted.

(** * Properties of the storages themselves (C23-C26, C34-C36). *)

From Coq Require Import List Arith Lia ZArith Bool.
From Verif Require Import Base ListFacts RangeSet Storage StorageFacts System Spec StepTac InvTrace
  LifeFacts Alive Exec BoundedFacts StoreSpec StoreFacts.
Import ListNotations.

(** ** C23: bounded storage stays within its size *)

Theorem C23_footprint : forall ck p n clen st os evs st',
  into_rw (PBounded ck p n) clen = Some st -> ops_run os st [] = (evs, st') ->
  footprint st' <= ring_size clen n.
Proof. exact bounded_footprint. Qed.

(** Twelve bytes through a file bounded to five, with seeks of both halves. *)
Example C23_case : exists st evs st',
  into_rw (PBounded true (PlTemp 8) 5) None = Some st /\
  ops_run [OpWrite demo; OpRead 3; OpWrite demo; OpWSeek 9; OpWrite demo; OpSeek 9; OpWrite demo]
          st [] = (evs, st') /\
  footprint st' = 5 /\ In (SvWrite demo 3) evs.
Proof.
  eexists. eexists. eexists. split; [reflexivity|split; [vm_compute; reflexivity|]].
  split; [vm_compute; reflexivity|vm_compute; tauto].
Qed.

(** ** C24: bounded storage never returns overwritten data *)

Theorem C24_reads_are_history : forall ck p n clen st os evs st',
  append_only os ->
  into_rw (PBounded ck p n) clen = Some st -> ops_run os st [] = (evs, st') ->
  every_result read_is_history evs.
Proof.
  intros ck p n clen st os evs st' Ha Hi H.
  destruct (bounded_append _ _ _ _ _ _ _ _ Ha Hi H) as [R _].
  eapply every_impl; [|exact R]. intros older e [A _]. exact A.
Qed.

Definition c24_ops : list sop :=
  [OpWrite (firstn 4 demo); OpRead 3; OpWrite (skipn 4 demo); OpSeek 2; OpRead 4; OpSeek 4; OpRead 3].

(** Reads across the wrap-around, a read after seeking back, and a refused read of data
    that has been overwritten. *)
Example C24_case :
  append_only c24_ops /\ exists st evs st',
  into_rw (PBounded true PlMem 5) (Some 12) = Some st /\ ops_run c24_ops st [] = (evs, st') /\
  evs = [SvRead 3 (Ok [x05; x06; x07]);
         SvSeek 4 (Ok 4); SvRead 4 (Err EInvalidInput); SvSeek 2 (Ok 2);
         SvWrite (skipn 4 demo) 4; SvRead 3 (Ok [x01; x02; x03]); SvWrite (firstn 4 demo) 4].
Proof.
  split.
  - intros o Ho. repeat (destruct Ho as [<-|Ho]; [exact I|]). destruct Ho.
  - eexists. eexists. eexists. split; [reflexivity|split; [vm_compute; reflexivity|]]. reflexivity.
Qed.

(** ** C25: bounded storage never overwrites unread data *)

(** A write accepts exactly what fits beside the unread bytes. *)
Theorem C25_write_fits : forall ck p n clen st os evs st',
  append_only os ->
  into_rw (PBounded ck p n) clen = Some st -> ops_run os st [] = (evs, st') ->
  every_result (write_fits (ring_size clen n)) evs.
Proof.
  intros ck p n clen st os evs st' Ha Hi H.
  destruct (bounded_append _ _ _ _ _ _ _ _ Ha Hi H) as [R _].
  eapply every_impl; [|exact R]. intros older e [_ A]. exact A.
Qed.

(** In every state whatsoever, a write leaves the slot of every unread byte that is still
    buffered as it is. *)
Theorem C25_unread_kept : forall b bs k b' x v,
  bnd_write bs b = (k, b') ->
  b_rpos b <= x < b_wpos b -> b_wpos b <= b_rpos b + b_size b ->
  nth_error (u_data (b_inner b)) (x mod b_size b) = Some v ->
  nth_error (u_data (b_inner b')) (x mod b_size b') = Some v.
Proof.
  intros b bs k b' x v E Hx Hr Hv.
  pose proof (bnd_write_spec _ _ _ _ E) as (_ & _ & _ & Es & _). rewrite Es.
  eapply write_keeps_window; eauto; lia.
Qed.

(** After three of five bytes were read, a large write takes three bytes; the unread
    fourth byte stays in slot three. *)
Example C25_case : exists st b evs,
  into_rw (PBounded false PlMem 5) None = Some st /\
  ops_run [OpWrite demo; OpRead 3; OpWrite (skipn 5 demo)] st [] = (evs, SBnd b) /\
  In (SvWrite (skipn 5 demo) 3) evs /\
  b_rpos b <= 3 < b_wpos b /\ b_wpos b <= b_rpos b + b_size b /\
  nth_error (u_data (b_inner b)) (3 mod b_size b) = Some x04.
Proof.
  eexists. eexists. eexists. split; [reflexivity|split; [vm_compute; reflexivity|]].
  split; [vm_compute; tauto|]. cbn. repeat split; lia.
Qed.

(** ** C26: seeks inside the buffered window are harmless *)

(** With overflow checks, a forward seek followed by a backward seek, both inside the
    buffered window, panics. *)
Theorem C26_refuted : exists st os evs st' p,
  into_rw (PBounded true PlMem 8) None = Some st /\ append_only os /\
  ops_run os st [] = (evs, st') /\ every_result (seeks_in_window 8) evs /\
  In (SvSeek p Panic) evs.
Proof.
  eexists. exists [OpWrite (firstn 8 demo); OpSeek 5; OpSeek 2]. eexists. eexists. exists 2.
  split; [reflexivity|]. split; [intros o Ho; repeat (destruct Ho as [<-|Ho]; [exact I|]); destruct Ho|].
  split; [vm_compute; reflexivity|]. split; [|cbn; auto].
  intros newer e older E.
  do 3 (destruct newer as [|? newer]; [injection E as <- <-; cbn; lia|injection E as _ E]).
  destruct newer; discriminate.
Qed.

(** Without overflow checks, the same seeks make the next read return zero bytes, which
    means end of file, although six bytes are buffered. *)
Theorem C26_wrap_refuted : exists st os evs st' older,
  into_rw (PBounded false PlMem 8) None = Some st /\ append_only os /\
  ops_run os st [] = (evs, st') /\ every_result (seeks_in_window 8) evs /\
  evs = SvRead 4 (Ok []) :: older /\ length (history older) - rcursor older = 6.
Proof.
  eexists. exists [OpWrite (firstn 8 demo); OpSeek 5; OpSeek 2; OpRead 4]. eexists. eexists. eexists.
  split; [reflexivity|]. split; [intros o Ho; repeat (destruct Ho as [<-|Ho]; [exact I|]); destruct Ho|].
  split; [vm_compute; reflexivity|]. split; [|split; [reflexivity|reflexivity]].
  intros newer e older E.
  do 4 (destruct newer as [|? newer]; [injection E as <- <-; cbn; try lia; auto|injection E as _ E]).
  destruct newer; discriminate.
Qed.

(** What holds: as long as no seek goes back over more bytes than were read (net), every
    seek succeeds and every read returns all that was asked for and is buffered. *)
Theorem C26_partial : forall ck p n clen st os evs st',
  append_only os ->
  into_rw (PBounded ck p n) clen = Some st -> ops_run os st [] = (evs, st') ->
  every_result seeks_within_credit evs ->
  every_result (window_served (ring_size clen n)) evs.
Proof. exact bounded_window. Qed.

(** In particular for readers that only seek backwards ... *)
Theorem C26_backward_partial : forall ck p n clen st os evs st',
  append_only os ->
  into_rw (PBounded ck p n) clen = Some st -> ops_run os st [] = (evs, st') ->
  every_result seeks_back evs ->
  every_result (window_served (ring_size clen n)) evs.
Proof. exact bounded_window_back. Qed.

(** ... and for readers that only seek forwards. *)
Theorem C26_forward_partial : forall ck p n clen st os evs st',
  append_only os ->
  into_rw (PBounded ck p n) clen = Some st -> ops_run os st [] = (evs, st') ->
  every_result seeks_ahead evs ->
  every_result (window_served (ring_size clen n)) evs.
Proof.
  intros ck p n clen st os evs st' Ha Hi H Hb. eapply C26_partial; eauto.
  eapply every_impl; [|exact Hb]. intros older e He. destruct e; cbn in *; auto. lia.
Qed.

Example C26_case : exists st evs st',
  into_rw (PBounded true PlMem 8) None = Some st /\
  append_only [OpWrite demo; OpRead 5; OpSeek 2; OpRead 4; OpSeek 1; OpRead 8] /\
  ops_run [OpWrite demo; OpRead 5; OpSeek 2; OpRead 4; OpSeek 1; OpRead 8] st [] = (evs, st') /\
  every_result seeks_back evs /\
  In (SvRead 8 (Ok [x02; x03; x04; x05; x06; x07; x08])) evs.
Proof.
  eexists. eexists. eexists. split; [reflexivity|].
  split; [intros o Ho; repeat (destruct Ho as [<-|Ho]; [exact I|]); destruct Ho|].
  split; [vm_compute; reflexivity|]. split; [|vm_compute; tauto].
  intros newer e older E.
  do 6 (destruct newer as [|? newer]; [injection E as <- <-; cbn; try lia; auto|injection E as _ E]).
  destruct newer; discriminate.
Qed.

(** ** C34: adaptive storage picks the documented storage *)

(** For a known length the system behaves exactly as with the chosen plain storage:
    the same states are reachable with the same schedules, whatever the environment. *)
Theorem C34_known_length : forall c ck fixed variable n len allow s,
  c_clen c = Some len ->
  (reach (with_provider c (PAdaptive ck fixed variable n)) allow s <->
   reach (with_provider c (PPlain (if len <=? n then fixed else variable))) allow s).
Proof.
  intros c ck fixed variable n len allow s Hl.
  assert (I : init (with_provider c (PAdaptive ck fixed variable n)) =
              init (with_provider c (PPlain (if len <=? n then fixed else variable)))).
  { unfold init. cbn. rewrite Hl. destruct (len <=? n); reflexivity. }
  split; induction 1.
  - apply reach_init. rewrite <- I. auto.
  - eapply reach_step; eauto.
  - apply reach_init. rewrite I. auto.
  - eapply reach_step; eauto.
Qed.

(** For an unknown length it behaves exactly as with bounded storage, for clients that
    stay within its capacity (for others see C35). *)
Theorem C34_unknown_length : forall c ck fixed variable n allow s,
  c_clen c = None ->
  (reach (with_provider c (PAdaptive ck fixed variable n)) (both (within_capacity c n) allow) s <->
   reach (with_provider c (PBounded ck fixed n)) (both (within_capacity c n) allow) s).
Proof. exact adaptive_bounded. Qed.

(** The storages are different ones. *)
Example C34_case :
  (exists s b, init (mk None true 0 4 (PAdaptive true PlMem (PlTemp 8) 6)) = Some s /\
     g_store s = SBnd b /\ b_size b = 6) /\
  (exists s m, init (mk (Some 12) true 0 4 (PAdaptive true PlMem (PlTemp 8) 12)) = Some s /\
     g_store s = SPlain (UMem m)) /\
  (exists s f, init (mk (Some 12) true 0 4 (PAdaptive true PlMem (PlTemp 8) 11)) = Some s /\
     g_store s = SPlain (UFile f)).
Proof. repeat split; eexists; eexists; repeat split. Qed.

(** A client within the capacity, through the wrap-around. *)
Example C34_case_run :
  let c := mk None true 0 4 (PAdaptive true PlMem (PlTemp 8) 6) in
  exists s, reach c (both (within_capacity c 6) any) s /\
    In (EvRead 0 4 false (Ok [x01; x02; x03; x04])) (g_trace s) /\
    In (EvRead 4 6 true (Ok [x05; x06; x07; x08; x09; x0a])) (g_trace s).
Proof.
  cbv zeta. eexists.
  split; [reach_tac (both_b (capacity_b 6) any_b) ([LDChunk 5] ++ Tk 7 ++ [LOp (ORead 4)] ++ Rd 4 ++ [LDChunk 4] ++ Tk 6 ++
    [LOp (ORead 6)] ++ Rd 4 ++ [LDChunk 3] ++ Tk 7 ++ Rd 4)|].
  vm_compute; tauto.
Qed.

(** ** C35: adaptive storage does not hang on large reads *)

(** Violated: adaptive storage does not announce the capacity of the bounded storage it
    uses for streams of unknown length, so an oversized read is not refused.  The reader
    waits for more data than the buffer can hold and the writer for space, for ever. *)
Theorem C35_refuted : exists c s n,
  c_clen c = None /\ c_provider c = PAdaptive true PlMem PlMem 4 /\
  reach c productive s /\ g_rpc s = RRWait n 0 n /\ n = 6 /\
  forall allow s', steps c allow s s' ->
    blocked c s' /\ ~ task_can_move c s' /\ g_trace s' = g_trace s.
Proof.
  exists (mk None true 0 4 (PAdaptive true PlMem PlMem 4)). eexists. exists 6.
  split; [reflexivity|split; [reflexivity|]].
  split; [reach_tac productive_b ([LOp (ORead 6)] ++ Rd 4 ++ [LDChunk 6] ++ Tk 9)|].
  split; [reflexivity|split; [reflexivity|]].
  intros allow s' H. apply (deadlock_stays _ allow _ s' [x01; x02; x03; x04; x05; x06] 4 0); auto.
  exact I.
Qed.

(** The same read with bounded storage chosen directly is refused at once (C28), and with
    a known length it is served. *)
Theorem C35_partial : forall c ck fixed variable n len allow s,
  c_clen c = Some len -> c_provider c = PAdaptive ck fixed variable n ->
  sane c -> reach c (both no_empty_chunk allow) s -> blocked c s -> task_can_move c s.
Proof.
  intros c ck fixed variable n len allow s Hl Hp Hc Hr Hb.
  apply (unbounded_no_deadlock c s); auto.
  - apply Hc.
  - unfold unbounded_store. rewrite Hp, Hl. discriminate.
  - eapply reach_weaken; [|exact Hr]. intros s0 l [A _]. exact A.
Qed.

(** A read of six bytes blocked on adaptive storage with a threshold of four. *)
Example C35_case :
  let c := mk (Some 12) true 0 4 (PAdaptive true PlMem PlMem 4) in
  exists s, reach c (both no_empty_chunk any) s /\ blocked c s /\
    g_rpc s = RRWait 6 0 6 /\ st_wpos (g_store s) = 5.
Proof.
  cbv zeta. eexists.
  split; [reach_tac (both_b empty_b any_b) ([LOp (ORead 6)] ++ Rd 4 ++ [LDChunk 5] ++ Tk 6)|].
  split; [apply blocked_b; reflexivity|]. split; reflexivity.
Qed.

(** ** C36: temp-file reads are never stale *)

(** The library asks for the position before it reads.  Whatever happened before and
    whatever is written between these two calls, the read returns exactly the current
    contents of the file at the current position. *)
Theorem C36_reads_fresh : forall cap clen st os1 os2 n evs st' r st'',
  into_rw (PPlain (PlTemp cap)) clen = Some st -> writer_only os2 ->
  ops_run (os1 ++ OpTell :: os2) st [] = (evs, st') -> st_read n st' = (r, st'') ->
  r = Ok (slice (fst (file_after evs)) (rcursor evs) n).
Proof. exact file_fresh. Qed.

(** A short read at the end of the file leaves an exhausted or partly filled buffer
    behind; the data written next is seen nevertheless. *)
Example C36_case : exists st evs st' st'',
  into_rw (PPlain (PlTemp 8)) None = Some st /\
  ops_run ([OpWrite (firstn 5 demo); OpRead 2; OpWSeek 3] ++ OpTell :: [OpWrite [x20; x21; x22]])
          st [] = (evs, st') /\
  st_read 6 st' = (Ok [x03; x20; x21; x22], st'').
Proof.
  eexists. eexists. eexists. eexists. split; [reflexivity|split; [vm_compute; reflexivity|]].
  vm_compute; reflexivity.
Qed.

(** Without asking for the position first the read would be stale. *)
Theorem C36_position_needed : exists cap st os evs st' bs st'',
  into_rw (PPlain (PlTemp cap)) None = Some st /\ ops_run os st [] = (evs, st') /\
  st_read 2 st' = (Ok bs, st'') /\ bs <> slice (fst (file_after evs)) (rcursor evs) 2.
Proof.
  exists 8. eexists. exists [OpWrite (firstn 5 demo); OpRead 2; OpWSeek 3; OpWrite [x20; x21; x22]].
  eexists. eexists. eexists. eexists.
  split; [reflexivity|split; [vm_compute; reflexivity|split; [vm_compute; reflexivity|]]].
  vm_compute. discriminate.
Qed.

Print Assumptions C23_footprint.
Print Assumptions C24_reads_are_history.
Print Assumptions C25_write_fits.
Print Assumptions C25_unread_kept.
Print Assumptions C26_refuted.
Print Assumptions C26_wrap_refuted.
Print Assumptions C26_partial.
Print Assumptions C26_backward_partial.
Print Assumptions C26_forward_partial.
Print Assumptions C34_known_length.
Print Assumptions C34_unknown_length.
Print Assumptions C35_refuted.
Print Assumptions C35_partial.
Print Assumptions C36_reads_fresh.
Print Assumptions C36_position_needed.

(** * Property theorems: jumping ahead in bounded storage.

    Vocabulary: Spec.v and ForwardSpec.v. *)

From Coq Require Import List Arith Lia ZArith Bool.
From Verif Require Import Base ListFacts RangeSet Storage System Spec StoreSpec Exec InvTrace LifeFacts
  BoundedInv BoundedContent ArcFacts BoundedForward ForwardSpec PropReads PropBounded.
Import ListNotations.

(** ** C58: reads after seeks to data that is still to be downloaded *)

(** A client that jumps ahead, to downloaded data or not, and goes back and forth in the
    stretch it then works on, gets the bytes of its position from every read that succeeds,
    and an empty answer only at the end; no call panics; a read is refused only if the buffer
    is larger than the storage, or if the client has gone back so far that the bytes may have
    been overwritten.  This holds while no response body ends after a seek has left a hole,
    while no seek is taken up with part of a chunk left over from the prefetch, and while the
    client does not go back further than the storage's counter of read bytes, which does not
    count what was jumped over; all of this is needed, see below. *)
Theorem C58_ranging_partial : forall c ck p n s,
  c_provider c = PBounded ck p n -> sane c -> c_rec c = RecRange ->
  (c_seekable c = true -> c_clen c <> None) ->
  reach c (ranging_env c) s ->
  every_event (ranging_call_ok c (match c_clen c with Some len => Nat.min len n | None => n end)) (g_trace s).
Proof.
  intros c ck p n s Hp Hs Hrec Hk H. destruct (fwd_reach c ck p n s Hp Hs Hrec Hk H) as (lo & W & R & F).
  apply all_events_every. exact (fw_trace _ _ _ _ _ _ F).
Qed.

(** A client that reads and only seeks ahead, to downloaded data or not, gets the bytes of its
    position from every read that succeeds, an empty answer only at the end, and no call
    panics or is refused unless the buffer is larger than the storage.  This holds while no
    response body ends after a seek has left a hole, and while no seek is taken up with part
    of a chunk left over from the prefetch; both are needed, see below. *)
Theorem C58_forward_partial : forall c ck p n s,
  c_provider c = PBounded ck p n -> sane c -> c_rec c = RecRange ->
  (c_seekable c = true -> c_clen c <> None) ->
  reach c (jumping_env c) s ->
  every_event (forward_call_ok c (match c_clen c with Some len => Nat.min len n | None => n end)) (g_trace s).
Proof.
  intros c ck p n s Hp Hs Hrec Hk H.
  pose proof (C58_ranging_partial c ck p n s Hp Hs Hrec Hk (reach_weaken _ _ _ _ (jumping_ranges c) H)) as Q.
  pose proof (oa_trace _ _ (ahead_reach c ck p n s Hp Hs Hrec Hk H)) as Q2.
  assert (Q3 : every_event read_position_ok (g_trace s)).
  { apply all_events_every. apply (tr_read c). eapply traced_reach; eauto. }
  apply all_events_every in Q2. intros newer e older E. specialize (Q newer e older E). specialize (Q2 newer e older E). specialize (Q3 newer e older E).
  destruct Q as [Q0 Q]. split; [exact Q0|]. destruct e; auto. destruct r as [|[]|]; auto.
  destruct Q as [|[Q _]]; auto. cbn in Q2, Q3. lia.
Qed.

(** Likewise, what was received and is not yet stored belongs to the position at which it
    will be stored (C29), also when the storage was full in between. *)
Theorem C29_forward_partial : forall c ck p n s bs,
  c_provider c = PBounded ck p n -> sane c -> c_rec c = RecRange ->
  (c_seekable c = true -> c_clen c <> None) ->
  reach c (ranging_env c) s -> pending s = Some bs ->
  bs = slice (c_content c) (st_wpos (g_store s)) (length bs).
Proof.
  intros c ck p n s bs Hp Hs Hrec Hk H Hb. destruct (fwd_reach c ck p n s Hp Hs Hrec Hk H) as (lo & W & R & F).
  rewrite (ast_wpos _ _ _ _ _ _ _ (fw_store _ _ _ _ _ _ F)). apply (fw_pend _ _ _ _ _ _ F bs Hb).
Qed.

(** Decision procedures for the examples. *)
Definition holes_b : gstate -> label -> bool :=
  fun s l => match l with LDEof => accepted_total (g_trace s) =? st_wpos (g_store s) | _ => true end.
Lemma holes_decides : decides holes_b ends_without_holes.
Proof. intros s l H. destruct l; cbn in *; auto. apply Nat.eqb_eq. auto. Qed.
Definition seek_leftover_b : gstate -> label -> bool :=
  fun s l => match l with LDSeek => match g_rem s with None => true | _ => false end | _ => true end.
Lemma seek_leftover_decides : decides seek_leftover_b no_seek_with_leftover.
Proof. intros s l H. destruct l; cbn in *; auto. destruct (g_rem s); congruence. Qed.

Ltac jump_decides :=
  repeat first [apply forward_decides | apply silent_decides | apply leftover_decides
               | apply holes_decides | apply seek_leftover_decides | apply both_decides].
Definition jumping_b (c : cfg) :=
  both_b (forward_b c) (both_b (both_b holes_b (silent_b c)) (both_b seek_leftover_b leftover_b)).
Lemma jumping_decides : forall c, decides (jumping_b c) (jumping_env c).
Proof. intros c. unfold jumping_b, jumping_env, jumping_transport. jump_decides. Qed.

Definition counted_b (c : cfg) : gstate -> label -> bool :=
  fun s l =>
    match l with
    | LOp (OSeek from) =>
        match seek_target c (cursor (g_trace s)) from with
        | Some t => (Z.of_nat (cursor (g_trace s)) <=? t)%Z || (skipped (g_trace s) <=? clamp c t)
        | None => true
        end
    | _ => true
    end.
Lemma counted_decides : forall c, decides (counted_b c) (counted_client c).
Proof.
  intros c s l H. unfold counted_client, counted_b in *. destruct l; auto. destruct o; auto. intros t Et. rewrite Et in H.
  apply orb_true_iff in H as [H|H]; [left; apply Z.leb_le; auto|right; apply Nat.leb_le; auto].
Qed.
Definition ranging_client_b (c : cfg) := both_b (roaming_b c) (counted_b c).
Lemma ranging_client_decides : forall c, decides (ranging_client_b c) (ranging_client c).
Proof. intros c. apply both_decides; [apply roaming_decides|apply counted_decides]. Qed.
Definition ranging_b (c : cfg) :=
  both_b (ranging_client_b c) (both_b (both_b holes_b (silent_b c)) (both_b seek_leftover_b leftover_b)).
Lemma ranging_decides : forall c, decides (ranging_b c) (ranging_env c).
Proof.
  intros c. unfold ranging_b, ranging_env, jumping_transport.
  apply both_decides; [apply ranging_client_decides|jump_decides].
Qed.

(** Two jumps, each past everything downloaded, and reads round the end of a ring of four. *)
Example C58_forward_case :
  let c := mk (Some 12) true 0 4 (PBounded true PlMem 4) in
  exists s, sane c /\ reach c (jumping_env c) s /\ refused_data (g_trace s) /\
    In (EvRead 0 2 false (Ok [x01; x02])) (g_trace s) /\
    In (EvSeek (FromStart 5) (Ok 5)) (g_trace s) /\
    In (EvRead 5 2 true (Ok [x06; x07])) (g_trace s) /\
    In (EvSeek (FromStart 10) (Ok 10)) (g_trace s) /\
    In (EvRead 10 1 false (Ok [x0b])) (g_trace s).
Proof.
  cbv zeta. eexists. split; [apply mk_sane; auto; lia|].
  split; [eapply (exec_b_reach _ (jumping_b (mk (Some 12) true 0 4 (PBounded true PlMem 4))) _
    ([LDChunk 2] ++ Tk 6 ++ [LOp (ORead 2)] ++ Rd 4 ++ [seek_to 5] ++ Rd 4 ++ [LDSeek; LDSeekRes true; LDChunk 1] ++
     Tk 2 ++ [LDChunk 1] ++ Tk 5 ++ Rd 3 ++ [LOp (ORead 2)] ++ Rd 4 ++ Tk 7 ++ Rd 4 ++ [seek_to 10] ++ Rd 4 ++
     Tk 1 ++ [LDSeek; LDSeekRes true; LDChunk 1] ++ Tk 2 ++ [LDChunk 1] ++ Tk 5 ++ Rd 3 ++
     [LOp (ORead 1)] ++ Rd 4)); [apply jumping_decides|vm_compute; reflexivity]|].
  split; [exists 1, 0; split; [vm_compute; auto 30|lia]|]. vm_compute; auto 30.
Qed.

(** After the jump to byte five the client goes back to byte six; the writer goes on to byte
    ten, so a read back at byte five is refused, and one at byte eight is not. *)
Example C58_ranging_case :
  let c := mk (Some 12) true 0 4 (PBounded true PlMem 4) in
  exists s, sane c /\ reach c (ranging_env c) s /\ refused_data (g_trace s) /\
    In (EvRead 5 2 true (Ok [x06; x07])) (g_trace s) /\
    In (EvSeek (FromStart 6) (Ok 6)) (g_trace s) /\
    In (EvRead 6 1 false (Ok [x07])) (g_trace s) /\
    In (EvRead 5 1 false (Err EInvalidInput)) (g_trace s) /\
    In (EvRead 8 2 false (Ok [x09; x0a])) (g_trace s).
Proof.
  cbv zeta. eexists. split; [apply mk_sane; auto; lia|].
  split; [eapply (exec_b_reach _ (ranging_b (mk (Some 12) true 0 4 (PBounded true PlMem 4))) _
    ([LDChunk 2] ++ Tk 6 ++ [LOp (ORead 2)] ++ Rd 4 ++ [seek_to 5] ++ Rd 4 ++ [LDSeek; LDSeekRes true; LDChunk 1] ++
     Tk 2 ++ [LDChunk 1] ++ Tk 5 ++ Rd 3 ++ [LOp (ORead 2)] ++ Rd 4 ++ Tk 7 ++ Rd 4 ++ [seek_to 6] ++ Rd 3 ++
     [LOp (ORead 1)] ++ Rd 4 ++ Tk 1 ++ [LDChunk 3] ++ Tk 6 ++ [seek_to 5] ++ Rd 3 ++ [LOp (ORead 1)] ++ Rd 4 ++
     [seek_to 8] ++ Rd 3 ++ [LOp (ORead 2)] ++ Rd 4)); [apply ranging_decides|vm_compute; reflexivity]|].
  split; [exists 1, 0; split; [vm_compute; auto 40|lia]|]. vm_compute; auto 40.
Qed.

(** After a jump to byte five the ring takes one byte of a chunk of three; the other two
    are put in front of the next chunk. *)
Example C29_forward_case :
  let c := mk (Some 12) true 0 4 (PBounded true PlMem 4) in
  exists s, sane c /\ reach c (jumping_env c) s /\ refused_data (g_trace s) /\
    pending s = Some [x07; x08; x09] /\ st_wpos (g_store s) = 6.
Proof.
  cbv zeta. eexists. split; [apply mk_sane; auto; lia|].
  split; [eapply (exec_b_reach _ (jumping_b (mk (Some 12) true 0 4 (PBounded true PlMem 4))) _
    ([LDChunk 2] ++ Tk 6 ++ [LOp (ORead 2)] ++ Rd 4 ++ [seek_to 5] ++ Rd 4 ++ [LDSeek; LDSeekRes true; LDChunk 3] ++
     Tk 2 ++ [LDChunk 1])); [apply jumping_decides|vm_compute; reflexivity]|].
  split; [exists 2, 0; split; [vm_compute; auto 30|lia]|]. split; reflexivity.
Qed.

(** Without seeking past the end of the download, the end of the resource is reached: a body
    that is cut off is resumed where the writer is, and the last read is empty. *)
Example C58_forward_end_case :
  let c := mk (Some 12) true 0 4 (PBounded true PlMem 4) in
  exists s, sane c /\ reach c (jumping_env c) s /\ g_done s = true /\
    In (EvSeekRange 2 (Some 12)) (g_trace s) /\
    In (EvSeek (FromStart 1) (Ok 1)) (g_trace s) /\
    In (EvRead 1 3 false (Ok [x02; x03; x04])) (g_trace s) /\
    In (EvRead 12 3 true (Ok [])) (g_trace s).
Proof.
  cbv zeta. eexists. split; [apply mk_sane; auto; lia|].
  split; [eapply (exec_b_reach _ (jumping_b (mk (Some 12) true 0 4 (PBounded true PlMem 4))) _
    ([LDChunk 2] ++ Tk 6 ++ [LDEof; LDSeekRes true; LDChunk 2] ++ Tk 6 ++ [seek_to 1] ++ Rd 3 ++
     [LOp (ORead 3)] ++ Rd 4 ++ [LDChunk 4] ++ Tk 6 ++ [LOp (ORead 4)] ++ Rd 4 ++ [LDChunk 4] ++ Tk 6 ++
     [LOp (ORead 4)] ++ Rd 4 ++ [LDEof] ++ Tk 1 ++ [LOp (ORead 3)] ++ Rd 8)); [apply jumping_decides|vm_compute; reflexivity]|].
  vm_compute; auto 40.
Qed.

(** *** The conditions are needed *)

(** A client that goes back, forward and back again: the second time back, the counter of
    read bytes would become negative. *)
Theorem C58_counter_needed : exists c s,
  c_provider c = PBounded true PlMem 4 /\ c_clen c = Some 12 /\ sane c /\ c_rec c = RecRange /\
  reach c (both (roaming_client c) (jumping_transport c)) s /\
  In (EvSeek (FromStart 0) Panic) (g_trace s).
Proof.
  exists (mk (Some 12) true 0 4 (PBounded true PlMem 4)). eexists.
  do 2 (split; [reflexivity|]). split; [apply mk_sane; auto; lia|]. split; [reflexivity|].
  split; [eapply (exec_b_reach _ (both_b (roaming_b (mk (Some 12) true 0 4 (PBounded true PlMem 4)))
     (both_b (both_b holes_b (silent_b (mk (Some 12) true 0 4 (PBounded true PlMem 4)))) (both_b seek_leftover_b leftover_b))) _
   ([LDChunk 4] ++ Tk 6 ++ [LOp (ORead 3)] ++ Rd 4 ++ [seek_to 0] ++ Rd 3 ++ [seek_to 3] ++ Rd 3 ++
    [seek_to 0] ++ Rd 3)); [apply both_decides; [apply roaming_decides|unfold jumping_transport; jump_decides]|vm_compute; reflexivity]|].
  vm_compute; auto 30.
Qed.

(** A client that goes back behind the place it has jumped to, and then forward again: the
    writer has gone back as well, and a read of data that is recorded as downloaded returns
    nothing. *)
Theorem C58_stretch_needed : exists c s,
  c_provider c = PBounded true PlMem 4 /\ c_clen c = Some 12 /\ sane c /\ c_rec c = RecRange /\
  reach c (both (counted_client c) (jumping_transport c)) s /\ is_downloaded s 5 /\
  In (EvRead 5 1 false (Ok [])) (g_trace s) /\ slice (c_content c) 5 1 = [x06].
Proof.
  exists (mk (Some 12) true 0 4 (PBounded true PlMem 4)). eexists.
  do 2 (split; [reflexivity|]). split; [apply mk_sane; auto; lia|]. split; [reflexivity|].
  split; [eapply (exec_b_reach _ (both_b (counted_b (mk (Some 12) true 0 4 (PBounded true PlMem 4)))
     (both_b (both_b holes_b (silent_b (mk (Some 12) true 0 4 (PBounded true PlMem 4)))) (both_b seek_leftover_b leftover_b))) _
   ([LDChunk 2] ++ Tk 6 ++ [LOp (ORead 2)] ++ Rd 4 ++ [seek_to 5] ++ Rd 4 ++ [LDSeek; LDSeekRes true; LDChunk 1] ++
    Tk 2 ++ [LDChunk 1] ++ Tk 5 ++ Rd 3 ++ [LOp (ORead 2)] ++ Rd 4 ++ Tk 7 ++ Rd 4 ++ [seek_to 3] ++ Rd 4 ++ Tk 1 ++
    [LDSeek; LDSeekRes true; LDChunk 1] ++ Tk 2 ++ [LDChunk 1] ++ Tk 6 ++ Rd 3 ++ [seek_to 5] ++ Rd 3 ++
    [LOp (ORead 1)] ++ Rd 4)); [apply both_decides; [apply counted_decides|unfold jumping_transport; jump_decides]|vm_compute; reflexivity]|].
  split; [exists 3, 7; split; [vm_compute; tauto|lia]|]. vm_compute; auto 40.
Qed.

(** A body that ends after a seek has left a hole. *)
Theorem C58_holes_needed : exists c s,
  c_provider c = PBounded true PlMem 8 /\ c_clen c = Some 12 /\ sane c /\ c_rec c = RecRange /\
  reach c (both (forward_client c) (both (no_silent_truncation c)
    (both no_seek_with_leftover no_reconnect_with_leftover))) s /\
  In (EvRead 10 2 false (Ok [])) (g_trace s).
Proof.
  exists (mk (Some 12) true 0 4 (PBounded true PlMem 8)). eexists.
  do 2 (split; [reflexivity|]). split; [apply mk_sane; auto; lia|]. split; [reflexivity|].
  split; [eapply (exec_b_reach _ (both_b (forward_b (mk (Some 12) true 0 4 (PBounded true PlMem 8)))
     (both_b (silent_b (mk (Some 12) true 0 4 (PBounded true PlMem 8))) (both_b seek_leftover_b leftover_b))) _
   ([LDChunk 8] ++ Tk 7 ++ [LOp (ORead 8)] ++ Rd 4 ++ [seek_to 10] ++ Rd 4 ++ [LDSeek; LDSeekRes true; LDChunk 2] ++
    Tk 2 ++ [LDEof; LDSeekRes true; LDChunk 2] ++ Tk 7 ++ Rd 3 ++ [LOp (ORead 2)] ++ Rd 4));
    [jump_decides|vm_compute; reflexivity]|].
  vm_compute; tauto.
Qed.

(** A seek taken up with part of a chunk left over: the rest is stored at the target. *)
Theorem C58_seek_leftover_needed : exists c s,
  c_provider c = PBounded true PlMem 4 /\ c_clen c = Some 12 /\ sane c /\ c_rec c = RecRange /\
  reach c (both (forward_client c) (both (both ends_without_holes (no_silent_truncation c))
    no_reconnect_with_leftover)) s /\
  In (EvRead 5 2 true (Ok [x06; x05])) (g_trace s) /\ slice (c_content c) 5 2 = [x06; x07].
Proof.
  exists (mk (Some 12) true 1 4 (PBounded true PlMem 4)). eexists.
  do 2 (split; [reflexivity|]). split; [apply mk_sane; auto; lia|]. split; [reflexivity|].
  split; [eapply (exec_b_reach _ (both_b (forward_b (mk (Some 12) true 1 4 (PBounded true PlMem 4)))
     (both_b (both_b holes_b (silent_b (mk (Some 12) true 1 4 (PBounded true PlMem 4)))) leftover_b)) _
   ([LDChunk 6] ++ Tk 2 ++ [LOp (ORead 2)] ++ Rd 4 ++ [seek_to 5] ++ Rd 4 ++ [LDSeek; LDSeekRes true; LDChunk 1] ++
    Tk 2 ++ [LDChunk 1] ++ Tk 5 ++ Rd 3 ++ [LOp (ORead 2)] ++ Rd 4 ++ Tk 7 ++ Rd 4));
    [jump_decides|vm_compute; reflexivity]|].
  vm_compute; auto 30.
Qed.

(** A source that can seek but does not know its length: a seek message that is taken up
    after the target has been downloaded takes the writer back, and a read of data that is
    recorded as downloaded returns nothing. *)
Theorem C58_unknown_length_needed : exists c s,
  c_provider c = PBounded true PlMem 4 /\ c_clen c = None /\ c_seekable c = true /\
  sane c /\ c_rec c = RecRange /\
  reach c (jumping_env c) s /\ is_downloaded s 4 /\
  In (EvRead 4 1 false (Ok [])) (g_trace s) /\ slice (c_content c) 4 1 = [x05].
Proof.
  exists (mk None true 0 4 (PBounded true PlMem 4)). eexists.
  do 3 (split; [reflexivity|]). split; [apply mk_sane; auto; lia|]. split; [reflexivity|].
  split; [eapply (exec_b_reach _ (jumping_b (mk None true 0 4 (PBounded true PlMem 4))) _
   ([LDChunk 2] ++ Tk 6 ++ [LOp (ORead 2)] ++ Rd 4 ++ [seek_to 3] ++ Rd 4 ++ [LDChunk 3] ++ Tk 7 ++ Rd 3 ++
    [LOp (ORead 1)] ++ Rd 4 ++ [LDSeek; LDSeekRes true] ++ [LOp (ORead 1)] ++ Rd 4));
    [apply jumping_decides|vm_compute; reflexivity]|].
  split; [exists 0, 5; split; [vm_compute; tauto|lia]|]. vm_compute; auto 30.
Qed.

Print Assumptions C58_ranging_partial.
Print Assumptions C58_counter_needed.
Print Assumptions C58_stretch_needed.
Print Assumptions C58_forward_partial.
Print Assumptions C29_forward_partial.
Print Assumptions C58_holes_needed.
Print Assumptions C58_seek_leftover_needed.
Print Assumptions C58_unknown_length_needed.

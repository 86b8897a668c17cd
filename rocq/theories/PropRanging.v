(** * Property theorems: the task of a client that jumps ahead in bounded storage.

    Vocabulary: Spec.v and ForwardSpec.v. *)

From Coq Require Import List Arith Lia ZArith Bool.
From Verif Require Import Base ListFacts RangeSet RangeSetFacts Storage StorageFacts
  System Spec StepTac InvSync InvTrace InvCore InvFront LifeFacts Alive Exec Progress ReadFacts BoundedFacts StoreSpec
  BoundedInv BoundedContent ArcFacts ForwardSpec BoundedForward BoundedWake RangingWake PropReads PropBounded PropForward.
Import ListNotations.

(** The chunk at hand is not empty, and what has been stored of it came after the last jump. *)
Definition chunk_at (lo : nat) (s : gstate) : Prop :=
  match g_dpc s with
  | DPre _ _ => True
  | DWTop b w _ | DWWait b w _ | DWCheck b w _ _ | DWNotify b w _ _ =>
      0 < length b /\ lo + w <= st_wpos (g_store s)
  | DWBatch b w _ nw | DWPost b w _ nw =>
      0 < length b /\ lo + (w + nw) <= st_wpos (g_store s)
  | DPanic => False
  | _ => True
  end /\ match g_rem s with Some r => 0 < length r | None => True end.

Lemma chunk_task : forall c size s lo W R l s', sane c -> fwd c size s lo W R -> chunk_at lo s ->
  st_wf (g_store s) -> no_empty_chunk s l -> task_label l = true -> step c s l = Some s' -> chunk_at lo s'.
Proof.
  intros c size s lo W R l s' Hs F [K1 K2] Hwf Hn Et H.
  pose proof (ast_wpos _ _ _ _ _ _ _ (fw_store _ _ _ _ _ _ F)) as Hw.
  pose proof (fw_task _ _ _ _ _ _ F) as A5. unfold fat in A5.
  pose proof (fw_send _ _ _ _ _ _ F) as [A2 _].
  pose proof (ast_le _ _ _ _ _ _ _ (fw_store _ _ _ _ _ _ F)) as [_ Hle].
  unfold chunk_at.
  destruct l; try discriminate Et; step_cases H; gsimpl;
    repeat match goal with E : g_dpc _ = _ |- _ => rewrite E in * end;
    repeat match goal with E : g_rem _ = _ |- _ => rewrite E in * end; auto;
    try (split; [exact I|exact I]); try (split; [auto|auto]; fail).
  all: try (destruct K1 as [K0 K1]; split; [split; lia|auto]; fail).
  all: try (split; [exact I|auto]; fail).
  - cbn in Hn. split; [|exact I]. rewrite app_length, length_slice.
    match goal with E : (_ <=? _) = true |- _ => apply Nat.leb_le in E end. split; lia.
  - cbn in Hn. split; [|exact I]. rewrite length_slice.
    match goal with E : (_ <=? _) = true |- _ => apply Nat.leb_le in E end. split; lia.
  - split; [exact I|]. rewrite skipn_length.
    match goal with E : (_ <? _) = true |- _ => apply Nat.ltb_lt in E end. lia.
  - split; [exact I|]. rewrite skipn_length.
    match goal with E : (_ <? _) = true |- _ => apply Nat.ltb_lt in E end. lia.
  - match goal with E : (_ <? _) = false |- _ => apply Nat.ltb_ge in E end. lia.
  - match goal with E : (_ <? _) = false |- _ => apply Nat.ltb_ge in E end.
    exfalso. match goal with E : rs_get ?q _ = None |- _ => apply rs_get_none in E; apply E end.
    apply A5. lia.
  - match goal with E : st_write _ _ = _ |- _ => apply (st_write_rpos _ _ _ _ Hwf) in E as (_ & _ & E); rewrite E end.
    split; [split; lia|auto].
  - match goal with E : st_write _ _ = _ |- _ => apply (st_write_rpos _ _ _ _ Hwf) in E as (_ & _ & E); rewrite E end.
    split; [split; lia|auto].
  - exfalso. destruct A5 as (_ & A5 & _ & _).
    match goal with E : st_wseek ?q _ = _ |- _ =>
      destruct (Nat.eq_dec q (st_wpos (g_store s))) as [->|Hne];
      [destruct (ast_wstay _ _ _ _ _ _ _ _ _ (fw_store _ _ _ _ _ _ F) E) as [Q _]; discriminate Q|];
      assert (Hlt : st_wpos (g_store s) < q) by lia;
      destruct (ast_wjump _ _ _ _ _ _ _ _ _ _ (fw_store _ _ _ _ _ _ F) Hlt (proj2 A5) E) as [Q _]; discriminate Q
    end.
  - exfalso. rewrite (ast_plain _ _ _ _ _ _ _ (fw_store _ _ _ _ _ _ F)) in *. discriminate.
Qed.

Lemma chunk_reach : forall c ck pl n s, c_provider c = PBounded ck pl n -> sane c ->
  c_rec c = RecRange -> (c_seekable c = true -> c_clen c <> None) ->
  reach c (both (ranging_env c) no_empty_chunk) s ->
  exists lo W R, fwd c (ring_size (c_clen c) n) s lo W R /\ chunk_at lo s.
Proof.
  intros c ck pl n s Hp Hs Hrec Hk H.
  induction H as [s H|s l s' Hr (lo & W & R & F & K) [[Hl1 Hl2] Hn] H].
  - exists 0, 0, 0. split; [eapply fwd_init; eauto|].
    unfold init in H. destruct (into_rw _ _); [|discriminate]. injection H as <-. split; exact I.
  - pose proof (sync_reach _ _ _ Hr) as Hsy. pose proof (traced_reach _ _ _ Hr) as Htr.
    destruct (task_label l) eqn:Et.
    + pose proof (chunk_task _ _ _ _ _ _ _ _ Hs F K (tr_wf _ _ Htr) Hn Et H) as K'.
      destruct (fwd_task c ck pl n s lo W R l s' Hp Hs Hrec Hk F Hsy Hl2 Et H) as (lo' & W' & F' & [->|E]).
      * eauto 6.
      * exists lo', W', R. split; auto. unfold chunk_at in *. rewrite E in *. tauto.
    + destruct (fwd_reader c ck pl n s lo W R l s' Hp Hs F Hsy Htr Hl1 Et H) as (R' & F').
      exists lo, W, R'. split; auto. unfold chunk_at in *.
      rewrite (ast_wpos _ _ _ _ _ _ _ (fw_store _ _ _ _ _ _ F')).
      rewrite (ast_wpos _ _ _ _ _ _ _ (fw_store _ _ _ _ _ _ F)) in K.
      assert (E : g_dpc s' = g_dpc s /\ g_rem s' = g_rem s).
      { destruct l; try discriminate Et; step_cases H; gsimpl; auto. }
      destruct E as [-> ->]. exact K.
Qed.

(** ** C32 with bounded storage: the download task does not panic *)

(** For clients that jump ahead and go back in their stretch, under the conditions of
    [C58_ranging_partial], and for sources that yield no empty chunk. *)
Theorem C32_ranging : forall c ck p n s,
  c_provider c = PBounded ck p n -> sane c -> c_rec c = RecRange ->
  (c_seekable c = true -> c_clen c <> None) ->
  reach c (both (ranging_env c) no_empty_chunk) s -> g_dpc s <> DPanic.
Proof.
  intros c ck p n s Hp Hs Hrec Hk H E.
  destruct (chunk_reach c ck p n s Hp Hs Hrec Hk H) as (lo & W & R & _ & [K _]). rewrite E in K. exact K.
Qed.

(** So a call can be stuck for good only because the task waits for room (C19). *)
Theorem C19_ranging_partial : forall c ck p n s,
  c_provider c = PBounded ck p n -> sane c -> c_rec c = RecRange ->
  (c_seekable c = true -> c_clen c <> None) ->
  reach c (both (ranging_env c) no_empty_chunk) s -> blocked c s ->
  task_can_move c s \/ waits_for_room s.
Proof.
  intros c ck p n s Hp Hs Hrec Hk H Hb.
  destruct (C19_partial _ _ _ H Hb) as [|[|E]]; auto.
  destruct (C32_ranging c ck p n s Hp Hs Hrec Hk H E).
Qed.

(** If the task sees the position a waiting reader has requested ([fenced]), a waiting read is
    never stuck for good, only a seek can be.  Missing: seeks, for which C19_refuted and C19_race_refuted hold. *)
Theorem C19_ranging_reads_partial : forall c ck p n s,
  c_provider c = PBounded ck p n -> sane c -> c_rec c = RecRange ->
  (c_seekable c = true -> c_clen c <> None) ->
  reach c (both (both (ranging_env c) no_empty_chunk) fenced) s -> blocked c s ->
  task_can_move c s \/ exists from t, g_rpc s = RSWait from t.
Proof.
  intros c ck p n s Hp Hs Hrec Hk H Hb.
  destruct (C19_ranging_partial c ck p n s Hp Hs Hrec Hk (unfenced _ _ _ H) Hb) as [|Hw]; auto.
  destruct (blocked_wait _ _ Hb) as (_ & _ & t & D3 & _).
  pose proof (proj2 Hb) as Hn. cbn [step] in Hn. unfold r_step in Hn.
  destruct (g_rpc s) eqn:Er; try discriminate D3; try discriminate Hn; eauto.
  left. right. apply (ranging_read_wakes c ck p n s); auto.
  - revert H. apply reach_weaken. intros s0 l [[A _] B]. split; assumption.
  - rewrite Er. exact I.
Qed.

(** The task waits for room when a jump is served, which makes room but does not wake it; the
    read that follows does. *)
Example C19_ranging_reads_case :
  let c := mk (Some 12) true 0 4 (PBounded true PlMem 4) in
  exists s, sane c /\ reach c (both (both (ranging_env c) no_empty_chunk) fenced) s /\ blocked c s /\
    waits_for_room s /\ refused_data (g_trace s) /\ g_rpc s = RRWait 3 5 8 /\
    In (EvSeek (FromStart 5) (Ok 5)) (g_trace s).
Proof.
  cbv zeta. eexists. split; [apply mk_sane; auto; lia|].
  split; [eapply (exec_b_reach _ (both_b (both_b (ranging_b (mk (Some 12) true 0 4 (PBounded true PlMem 4))) empty_b) fenced_b) _
    ([LDChunk 2] ++ Tk 6 ++ [LOp (ORead 2)] ++ Rd 4 ++ [seek_to 5] ++ Rd 4 ++ [LDSeek; LDSeekRes true; LDChunk 1] ++
     Tk 2 ++ [LDChunk 6] ++ Tk 8 ++ Rd 3 ++ Tk 2 ++ [LOp (ORead 3)] ++ Rd 4));
    [apply both_decides; [apply both_decides; [apply ranging_decides|apply empty_decides]|apply fenced_decides]|vm_compute; reflexivity]|].
  split; [apply blocked_b; reflexivity|]. split; [exact I|]. split; [|split; [reflexivity|vm_compute; tauto]].
  eexists _, 0. split; [vm_compute; tauto|lia].
Qed.

(** A jump past the downloaded data and a seek back, both served, and a seek that waits. *)
Example C32_ranging_case :
  let c := mk (Some 12) true 0 4 (PBounded true PlMem 4) in
  exists s, sane c /\ reach c (both (ranging_env c) no_empty_chunk) s /\ blocked c s /\ task_can_move c s /\
    In (EvRead 5 2 true (Ok [x06; x07])) (g_trace s) /\
    In (EvSeek (FromStart 6) (Ok 6)) (g_trace s) /\
    g_rpc s = RSWait (FromStart 9) 9.
Proof.
  cbv zeta. eexists. split; [apply mk_sane; auto; lia|].
  split; [eapply (exec_b_reach _ (both_b (ranging_b (mk (Some 12) true 0 4 (PBounded true PlMem 4))) empty_b) _
    ([LDChunk 2] ++ Tk 6 ++ [LOp (ORead 2)] ++ Rd 4 ++ [seek_to 5] ++ Rd 4 ++ [LDSeek; LDSeekRes true; LDChunk 1] ++
     Tk 2 ++ [LDChunk 1] ++ Tk 5 ++ Rd 3 ++ [LOp (ORead 2)] ++ Rd 4 ++ Tk 7 ++ Rd 4 ++ [seek_to 6] ++ Rd 3 ++
     [seek_to 9] ++ Rd 4)); [apply both_decides; [apply ranging_decides|apply empty_decides]|vm_compute; reflexivity]|].
  split; [apply blocked_b; reflexivity|]. split; [first [left; exact I | right; eexists; reflexivity]|].
  vm_compute; auto 30.
Qed.

(** An empty chunk right after a jump makes the task panic, also after data was received. *)
Theorem C32_ranging_empty_chunk_panics : exists c s,
  c_provider c = PBounded true PlMem 4 /\ c_clen c = Some 12 /\ sane c /\ c_rec c = RecRange /\
  reach c (ranging_env c) s /\ In (EvRead 0 2 false (Ok [x01; x02])) (g_trace s) /\ g_dpc s = DPanic.
Proof.
  exists (mk (Some 12) true 0 4 (PBounded true PlMem 4)). eexists.
  do 2 (split; [reflexivity|]). split; [apply mk_sane; auto; lia|]. split; [reflexivity|].
  split; [eapply (exec_b_reach _ (ranging_b (mk (Some 12) true 0 4 (PBounded true PlMem 4))) _
    ([LDChunk 2] ++ Tk 6 ++ [LOp (ORead 2)] ++ Rd 4 ++ [seek_to 5] ++ Rd 4 ++ [LDSeek; LDSeekRes true; LDChunk 0] ++
     Tk 1 ++ [LDChunk 0] ++ Tk 1)); [apply ranging_decides|vm_compute; reflexivity]|].
  vm_compute; auto 30.
Qed.

Print Assumptions C32_ranging.
Print Assumptions C19_ranging_partial.
Print Assumptions C19_ranging_reads_partial.
Print Assumptions C32_ranging_empty_chunk_panics.

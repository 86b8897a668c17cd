(** * C58 over HTTP: jumping ahead in bounded storage that is filled by an HTTP server. *)

From Coq Require Import String List Arith Lia ZArith Bool.
From Verif Require Import Base ListFacts Storage System Spec Exec
  Http HttpSpec Source SourceSpec SourceFacts SourceImpl
  BoundedInv BoundedForward ForwardSpec PropReads PropBounded PropSource PropSourceLive PropSourceLoop PropForward.
Import ListNotations.

(** The conditions of [jumping_env] as far as the server does not guarantee them; a reconnect
    finds nothing left over, whatever its outcome. *)
Definition jumping_http_env (c : cfg) : gstate -> label -> Prop :=
  both (forward_client c)
       (both ends_without_holes
             (both no_seek_with_leftover
                   (fun s l => match l with LDTimeout _ => g_rem s = None | _ => True end))).

Lemma blind_jumping : forall c, outcome_blind (jumping_http_env c).
Proof.
  intros c s. split; [|split]; intros r r' H; try exact H; repeat split; try exact I.
Qed.

Theorem C58_http_forward_partial : forall server resource len v x0 c0 ck p n cs,
  let c := over (http_source server) x0 c0 in
  http_setup server resource (Some len) (Some v) x0 c0 -> v <> "none"%string ->
  c_provider c0 = PBounded ck p n ->
  creach (http_source server) x0 c (jumping_http_env c) cs ->
  c_content c = resource /\
  every_event (forward_call_ok c (Nat.min (length resource) n)) (g_trace (cs_sys cs)).
Proof.
  intros server resource len v x0 c0 ck p n cs c Hs Hv Hp H.
  assert (Ec : c_content c = resource) by apply Hs. split; [exact Ec|].
  destruct (setup_known _ _ _ _ _ _ Hs) as [K1 K2]. fold c in K1, K2.
  assert (Hsane : sane c) by (eapply setup_sane; exact Hs).
  assert (D : delivers (http_source server) x0 c (jumping_http_env c) (http_ok (Some len) (Some v)) hs_body).
  { eapply setup_delivers; [exact Hs| |].
    - intros s _. left. split; assumption.
    - intros s rc _. exists v. auto. }
  destruct (refine (http_source server) x0 c (jumping_http_env c) _ _ D (blind_jumping c)
              eq_refl eq_refl (proj1 Hsane) cs H) as [_ R].
  assert (R' : reach c (jumping_env c) (cs_sys cs)).
  { revert R. apply reach_weaken. intros s l [(A1 & A2 & A3 & A4) _].
    split; [exact A1|]. split; [split; [exact A2|]|split; [exact A3|]].
    - destruct l; try exact I. left. split; assumption.
    - destruct l; try exact I. destruct rc; [exact A4|exact I|exact I]. }
  pose proof (C58_forward_partial c ck p n (cs_sys cs) Hp Hsane eq_refl (fun _ => K2) R') as Q.
  destruct (c_clen c) as [N|] eqn:En; [|contradiction].
  rewrite (proj1 Hsane N En), Ec in Q. exact Q.
Qed.

(** The same for a client that also goes back and forth in the stretch it works on. *)
Definition ranging_http_env (c : cfg) : gstate -> label -> Prop :=
  both (ranging_client c)
       (both ends_without_holes
             (both no_seek_with_leftover
                   (fun s l => match l with LDTimeout _ => g_rem s = None | _ => True end))).

Lemma blind_ranging : forall c, outcome_blind (ranging_http_env c).
Proof.
  intros c s. split; [|split]; intros r r' H; try exact H; repeat split; try exact I.
Qed.

Theorem C58_http_ranging_partial : forall server resource len v x0 c0 ck p n cs,
  let c := over (http_source server) x0 c0 in
  http_setup server resource (Some len) (Some v) x0 c0 -> v <> "none"%string ->
  c_provider c0 = PBounded ck p n ->
  creach (http_source server) x0 c (ranging_http_env c) cs ->
  c_content c = resource /\
  every_event (ranging_call_ok c (Nat.min (length resource) n)) (g_trace (cs_sys cs)).
Proof.
  intros server resource len v x0 c0 ck p n cs c Hs Hv Hp H.
  assert (Ec : c_content c = resource) by apply Hs. split; [exact Ec|].
  destruct (setup_known _ _ _ _ _ _ Hs) as [K1 K2]. fold c in K1, K2.
  assert (Hsane : sane c) by (eapply setup_sane; exact Hs).
  assert (D : delivers (http_source server) x0 c (ranging_http_env c) (http_ok (Some len) (Some v)) hs_body).
  { eapply setup_delivers; [exact Hs| |].
    - intros s _. left. split; assumption.
    - intros s rc _. exists v. auto. }
  destruct (refine (http_source server) x0 c (ranging_http_env c) _ _ D (blind_ranging c)
              eq_refl eq_refl (proj1 Hsane) cs H) as [_ R].
  assert (R' : reach c (ranging_env c) (cs_sys cs)).
  { revert R. apply reach_weaken. intros s l [(A1 & A2 & A3 & A4) _].
    split; [exact A1|]. split; [split; [exact A2|]|split; [exact A3|]].
    - destruct l; try exact I. left. split; assumption.
    - destruct l; try exact I. destruct rc; [exact A4|exact I|exact I]. }
  pose proof (C58_ranging_partial c ck p n (cs_sys cs) Hp Hsane eq_refl (fun _ => K2) R') as Q.
  destruct (c_clen c) as [N|] eqn:En; [|contradiction].
  rewrite (proj1 Hsane N En), Ec in Q. exact Q.
Qed.

Definition jumping_http_b (c : cfg) : gstate -> label -> bool :=
  both_b (forward_b c) (both_b holes_b (both_b seek_leftover_b
    (fun s l => match l, g_rem s with LDTimeout _, Some _ => false | _, _ => true end))).
Lemma jumping_http_decides : forall c, decides (jumping_http_b c) (jumping_http_env c).
Proof.
  intros c. apply both_decides; [apply forward_decides|]. apply both_decides; [apply holes_decides|].
  apply both_decides; [apply seek_leftover_decides|].
  intros s l H. destruct l; auto. destruct (g_rem s); [discriminate|reflexivity].
Qed.

(** Two jumps over HTTP through a ring of four, and a reconnect after the first. *)
Example C58_http_forward_case :
  let c := over (http_source demo_server) demo_http (ring_cfg 0) in
  exists cs, creach (http_source demo_server) demo_http c (jumping_http_env c) cs /\
    In (EvSeekRange 5 (Some 12)) (g_trace (cs_sys cs)) /\
    In (EvReconnect 6 RcOk) (g_trace (cs_sys cs)) /\
    In (EvRead 5 2 true (Ok [x06; x07])) (g_trace (cs_sys cs)) /\
    In (EvSeek (FromStart 10) (Ok 10)) (g_trace (cs_sys cs)) /\
    In (EvRead 10 1 false (Ok [x0b])) (g_trace (cs_sys cs)).
Proof.
  cbv zeta. eexists.
  split; [eapply (crun_b_reach _ _ _ (jumping_http_b (over (http_source demo_server) demo_http (ring_cfg 0))) _
    ([LDChunk 2] ++ Tk 6 ++ [LOp (ORead 2)] ++ Rd 4 ++ [seek_to 5] ++ Rd 4 ++ [LDSeek; LDSeekRes true; LDChunk 1] ++
     Tk 2 ++ [LDTimeout RcOk; LDChunk 1] ++ Tk 5 ++ Rd 3 ++ [LOp (ORead 2)] ++ Rd 4 ++ Tk 7 ++ Rd 4 ++ [seek_to 10] ++ Rd 4 ++
     Tk 1 ++ [LDSeek; LDSeekRes true; LDChunk 1] ++ Tk 2 ++ [LDChunk 1] ++ Tk 5 ++ Rd 3 ++
     [LOp (ORead 1)] ++ Rd 4)); [apply jumping_http_decides|vm_compute; reflexivity|vm_compute; reflexivity]|].
  vm_compute; auto 40.
Qed.

Definition ranging_http_b (c : cfg) : gstate -> label -> bool :=
  both_b (ranging_client_b c) (both_b holes_b (both_b seek_leftover_b
    (fun s l => match l, g_rem s with LDTimeout _, Some _ => false | _, _ => true end))).
Lemma ranging_http_decides : forall c, decides (ranging_http_b c) (ranging_http_env c).
Proof.
  intros c. apply both_decides; [apply ranging_client_decides|]. apply both_decides; [apply holes_decides|].
  apply both_decides; [apply seek_leftover_decides|].
  intros s l H. destruct l; auto. destruct (g_rem s); [discriminate|reflexivity].
Qed.

(** A jump to byte five, a reconnect, back to byte six, and too far back to byte five. *)
Example C58_http_ranging_case :
  let c := over (http_source demo_server) demo_http (ring_cfg 0) in
  exists cs, creach (http_source demo_server) demo_http c (ranging_http_env c) cs /\
    In (EvSeekRange 5 (Some 12)) (g_trace (cs_sys cs)) /\
    In (EvReconnect 6 RcOk) (g_trace (cs_sys cs)) /\
    In (EvRead 6 1 false (Ok [x07])) (g_trace (cs_sys cs)) /\
    In (EvRead 5 1 false (Err EInvalidInput)) (g_trace (cs_sys cs)) /\
    In (EvRead 8 2 false (Ok [x09; x0a])) (g_trace (cs_sys cs)).
Proof.
  cbv zeta. eexists.
  split; [eapply (crun_b_reach _ _ _ (ranging_http_b (over (http_source demo_server) demo_http (ring_cfg 0))) _
    ([LDChunk 2] ++ Tk 6 ++ [LOp (ORead 2)] ++ Rd 4 ++ [seek_to 5] ++ Rd 4 ++ [LDSeek; LDSeekRes true; LDChunk 1] ++
     Tk 2 ++ [LDTimeout RcOk; LDChunk 1] ++ Tk 5 ++ Rd 3 ++ [LOp (ORead 2)] ++ Rd 4 ++ Tk 7 ++ Rd 4 ++ [seek_to 6] ++ Rd 3 ++
     [LOp (ORead 1)] ++ Rd 4 ++ Tk 1 ++ [LDChunk 3] ++ Tk 6 ++ [seek_to 5] ++ Rd 3 ++ [LOp (ORead 1)] ++ Rd 4 ++
     [seek_to 8] ++ Rd 3 ++ [LOp (ORead 2)] ++ Rd 4)); [apply ranging_http_decides|vm_compute; reflexivity|vm_compute; reflexivity]|].
  vm_compute; auto 40.
Qed.

Print Assumptions C58_http_ranging_partial.
Print Assumptions C58_http_forward_partial.

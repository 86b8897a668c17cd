(** * Facts about downloads from running pipelines: they refine the process source of
    Source.v, for which a process is the list of bytes it writes. *)

From Coq Require Import List Arith Lia ZArith Bool.
From Verif Require Import Base ListFacts Storage System Spec StepTac Process ProcessSpec Pipes PipesSpec
  PipesFacts Stderr Source SourceSpec SourceFacts SourceImpl Progress PropSource PropSourceLive
  Pipeline PipelineSpec.
Import ListNotations.

(** The task is past [on_finish]. *)
Definition past (d : dpc) : Prop :=
  match d with DSetFailed | DSignal | DCancelTok | DEnd | DPanic => True | _ => False end.

Lemma past_step c s l s' : step c s l = Some s' -> past (g_dpc s) -> past (g_dpc s').
Proof.
  intros H P. step_cases H; gsimpl; try exact I; try assumption; try (exact (False_ind _ P));
    try (match goal with E : g_dpc s = _ |- _ => rewrite E in P end; exact (False_ind _ P)).
Qed.

Lemma finish_blind e ok env : Source.process_finish e ok env = ok && env.
Proof. destruct e, ok, env; reflexivity. Qed.

(** ** The kernel *)

Lemma kreads n : forall k k', krun k (repeat KRead n) = Some k' -> 0 < n ->
  n <= length (k_pipes k (k_last k)) ->
  k_got k' = k_got k ++ firstn n (k_pipes k (k_last k)) /\ k_eof k' = false /\
  k_closed k' = k_closed k /\ k_last k' = k_last k /\
  k_pipes k' (k_last k) = skipn n (k_pipes k (k_last k)).
Proof.
  induction n as [|n IH]; intros k k' H Hn L; [lia|]. cbn [repeat krun kstep] in H.
  destruct (k_eof k || k_closed k) eqn:E; [discriminate|].
  destruct (k_pipes k (k_last k)) as [|b rest] eqn:Ep; [cbn in L; lia|].
  set (k1 := set_got (set_pipe k (k_last k) rest) (k_got k ++ [b]) false) in *.
  assert (Ep1 : k_pipes k1 (k_last k1) = rest) by (cbn; apply upd_same).
  destruct n as [|n].
  - cbn in H. injection H as <-. cbn. rewrite upd_same. auto.
  - destruct (IH k1 k' H) as (A & B & C & D & F); [lia|rewrite Ep1; cbn in L; lia|].
    rewrite Ep1 in A, F. cbn [k_last k1 set_got set_pipe] in D, F. rewrite A. cbn [firstn skipn].
    split; [cbn; rewrite <- app_assoc; reflexivity|]. split; [exact B|]. split; [exact C|]. auto.
Qed.

Lemma kreads_exist n : forall k, k_eof k = false -> k_closed k = false ->
  n <= length (k_pipes k (k_last k)) -> exists k', krun k (repeat KRead n) = Some k'.
Proof.
  induction n as [|n IH]; intros k He Hc L; [exists k; reflexivity|]. cbn [repeat krun kstep].
  rewrite He, Hc. cbn [orb]. destruct (k_pipes k (k_last k)) as [|b rest] eqn:E; [cbn in L; lia|].
  apply IH; [reflexivity|exact Hc|]. cbn. rewrite upd_same. cbn in L. lia.
Qed.

Lemma frame_proc k i k' : kstep k (KProc i) = Some k' ->
  k_eof k' = k_eof k /\ k_last k' = k_last k /\ (k_last k <> i -> last_proc k' = last_proc k) /\
  is_running (k_procs k i) = true.
Proof.
  intros H. cbn [kstep] in H. unfold kstep_proc in H.
  destruct ((i <? k_n k) && is_running (k_procs k i)) eqn:Ei; [|discriminate H].
  apply andb_prop in Ei.
  repeat (match type of H with context [match ?x with _ => _ end] => destruct x end; try discriminate H);
    injection H as <-; unfold last_proc; cbn [set_proc set_pipe set_stdin k_procs k_last k_eof];
    (split; [reflexivity|]); (split; [reflexivity|]);
    (split; [|tauto]); intros N; unfold upd; (destruct (Nat.eqb_spec (k_last k) i); [contradiction|reflexivity]).
Qed.

(** A kernel state of the pipeline. *)
Definition kgood (out : list byte) (ok : bool) (bound : nat) (k : kernel) : Prop :=
  shape k /\ (k_eof k = true -> kp_status (last_proc k) = Exited ok) /\
  exists m w s, sound out ok k m w s /\ weight k m w <= bound.

Lemma kgood_step out ok n k l k' : kgood out ok n k -> kstep k l = Some k' ->
  (l = KKill -> kgood out ok n k') /\ (l <> KKill -> exists n', n = S n' /\ kgood out ok n' k').
Proof.
  intros (Sh & Ex & m & w & s & So & W) H.
  destruct (step_sound _ _ _ _ _ _ _ _ Sh So H) as (Sh' & m' & w' & So' & W1 & W2).
  assert (Ex' : k_eof k' = true -> kp_status (last_proc k') = Exited ok).
  { intros E. destruct l as [|i|].
    - destruct (so_eof _ _ _ _ _ _ So' E) as (A & _).
      assert (C : k_closed k' = false).
      { cbn [kstep] in H. destruct (k_eof k); [discriminate H|]. destruct (k_closed k) eqn:Ec; [discriminate H|].
        cbn [orb] in H. destruct (k_pipes k (k_last k)); [destruct (is_running _); [discriminate H|]|];
          injection H as <-; exact Ec. }
      apply (so_status _ _ _ _ _ _ So' C A).
    - destruct (frame_proc _ _ _ H) as (F1 & F2 & F3 & F4). rewrite F1 in E. specialize (Ex E).
      rewrite F3; [exact Ex|]. intros <-. unfold is_running in F4. unfold last_proc in Ex. rewrite Ex in F4. discriminate.
    - cbn [kstep] in H. injection H as <-. cbn in E. specialize (Ex E). unfold last_proc in *.
      cbn. rewrite upd_same. unfold is_running. rewrite Ex. exact Ex. }
  split; intros E.
  - split; [exact Sh'|]. split; [exact Ex'|]. exists m', w', s. split; [exact So'|lia].
  - specialize (W1 E). destruct n as [|n]; [lia|]. exists n. split; [reflexivity|].
    split; [exact Sh'|]. split; [exact Ex'|]. exists m', w', s. split; [exact So'|lia].
Qed.

Lemma kgood_weaken out ok n n' k : kgood out ok n k -> n <= n' -> kgood out ok n' k.
Proof.
  intros (Sh & Ex & m & w & s & So & W) L. split; [exact Sh|]. split; [exact Ex|].
  exists m, w, s. split; [exact So|lia].
Qed.

Lemma kgood_run out ok ls : forall n k k', kgood out ok n k -> krun k ls = Some k' -> kgood out ok n k'.
Proof.
  induction ls as [|l ls IH]; intros n k k' G H; cbn [krun] in H; [injection H as <-; exact G|].
  destruct (kstep k l) as [k1|] eqn:E; [|discriminate].
  destruct (kgood_step _ _ _ _ _ _ G E) as [A B].
  destruct l as [|i|]; [| |apply (IH n k1 k'); [apply A; reflexivity|exact H]];
    (destruct B as (n' & -> & G'); [discriminate|]); apply (IH _ k1 k'); auto;
    eapply kgood_weaken; eauto.
Qed.

Lemma kgood_got out ok n k : kgood out ok n k -> prefix_of (k_got k) out.
Proof. intros (_ & _ & m & w & s & So & _). apply (so_got _ _ _ _ _ _ So). Qed.

Lemma kgood_eof out ok n k : kgood out ok n k -> k_eof k = true ->
  k_got k = out /\ is_running (last_proc k) = false /\ kp_status (last_proc k) = Exited ok.
Proof.
  intros (_ & Ex & m & w & s & So & _) E. destruct (so_eof _ _ _ _ _ _ So E) as (A & _ & B). auto.
Qed.

(** ** Simulation *)

Section Sim.
Context (out : list byte) (ok : bool) (clen : option nat) (c : cfg).

Definition related (cs : csys kernel) (ds : csys async_stream) : Prop :=
  cs_sys cs = cs_sys ds /\
  (past (g_dpc (cs_sys cs)) \/
   (k_closed (cs_src cs) = false /\
    cs_src ds = mkAr (skipn (length (k_got (cs_src cs))) out) (negb (k_eof (cs_src cs))) clen)).

Lemma got_prefix k n k' N : kgood out ok N k -> krun k (repeat KRead n) = Some k' -> 0 < n ->
  n <= length (k_pipes k (k_last k)) ->
  skipn (length (k_got k)) out = firstn n (k_pipes k (k_last k)) ++ skipn (length (k_got k')) out.
Proof.
  intros G H Hn L. pose proof (kgood_got _ _ _ _ (kgood_run _ _ _ _ _ _ G H)) as [z Hz].
  destruct (kreads n k k' H Hn L) as (E & _). rewrite Hz, E, <- !app_assoc.
  rewrite skipn_app, skipn_all, Nat.sub_diag. cbn [skipn app]. f_equal.
  rewrite app_assoc, skipn_app, skipn_all, Nat.sub_diag. reflexivity.
Qed.

Lemma sim_step N cs ds l cs' : kgood out ok N (cs_src cs) -> related cs ds -> l <> LDErr ->
  pstep clen c cs (PSys l) = Some cs' ->
  exists ds', cstep (process_source ok) c ds l = Some ds' /\ related cs' ds' /\
    kgood out ok N (cs_src cs').
Proof.
  intros G [Es Rl] Nl H. destruct cs as [s k], ds as [s2 x]. cbn [cs_sys cs_src] in *. subst s2.
  unfold pstep in H. destruct (must_wait _ l); [discriminate|].
  destruct (cstep (pipeline_source clen) c (mkC s k) l) as [cs1|] eqn:E; [|discriminate].
  assert (Plain : source_label l = false ->
    exists ds', cstep (process_source ok) c (mkC s x) l = Some ds' /\ related cs' ds' /\
                kgood out ok N (cs_src cs')).
  { intros Hl. assert (Ek : kills (mkC s k) l = false) by (destruct l; try reflexivity; discriminate).
    rewrite Ek in H. injection H as ->.
    assert (F : forall Y (src : source Y) y, cstep src c (mkC s y) l = option_map (fun s' => mkC s' y) (step c s l)).
    { intros. destruct l; try reflexivity; discriminate. }
    rewrite F in E. rewrite F. destruct (step c s l) as [s'|] eqn:E2; [|discriminate].
    cbn in E. injection E as <-. eexists. split; [reflexivity|]. cbn [cs_src]. split; [|exact G].
    split; [reflexivity|]. cbn [cs_sys cs_src]. destruct Rl as [P|R]; [left|right; exact R].
    eapply past_step; eassumption. }
  destruct l as [|n| | |rc| | |okr| |okr| | |ks| | |op| | ]; try (apply Plain; reflexivity); clear Plain;
    try congruence; cbn [cstep cs_sys cs_src] in *.
  all: try (cbn [kills] in H; injection H as ->).
  - (* chunk *)
    destruct (g_dpc s) eqn:Ed; try discriminate E.
    destruct Rl as [P|[Rc Rx]]; [exact (False_ind _ P)|].
    cbn [pipeline_source src_poll] in E. rewrite Rc in E.
    destruct (k_eof k) eqn:Ee; [discriminate E|]. cbn [negb andb] in E.
    destruct (Nat.ltb_spec 0 n) as [L1|L1]; [|discriminate E]. cbn [andb] in E.
    destruct (Nat.leb_spec n (Nat.min ar_capacity (length (k_pipes k (k_last k))))) as [L2|L2]; [|discriminate E].
    destruct (krun k (repeat KRead n)) as [k1|] eqn:Ek; [|discriminate E]. cbn [option_map] in E.
    injection E as <-.
    assert (L3 : n <= length (k_pipes k (k_last k))) by lia.
    destruct (kreads n k k1 Ek L1 L3) as (K1 & K2 & K3 & _).
    pose proof (got_prefix k n k1 N G Ek L1 L3) as K4.
    subst x. cbn [process_source async_source src_poll ar_live ar_rest ar_content_length negb andb].
    assert (K5 : length (firstn n (k_pipes k (k_last k))) = n) by (rewrite firstn_length; lia).
    destruct (Nat.ltb_spec 0 n) as [_|X]; [|lia]. cbn [andb].
    destruct (Nat.leb_spec n (Nat.min ar_capacity (length (skipn (length (k_got k)) out)))) as [_|X];
      [|rewrite K4, app_length, K5 in X; lia].
    assert (K6 : firstn n (skipn (length (k_got k)) out) = firstn n (k_pipes k (k_last k))).
    { rewrite K4, firstn_app, K5, Nat.sub_diag. cbn [firstn]. rewrite app_nil_r.
      apply firstn_all2. lia. }
    assert (K7 : skipn n (skipn (length (k_got k)) out) = skipn (length (k_got k1)) out).
    { rewrite K4, skipn_app, K5, Nat.sub_diag. cbn [skipn]. rewrite skipn_all2 by lia. reflexivity. }
    rewrite K6, K7. eexists. split; [reflexivity|]. cbn [cs_src].
    split; [|eapply kgood_run; eassumption].
    split; [reflexivity|]. right. cbn [cs_src]. rewrite K2, K3. auto.
  - (* end *)
    destruct (g_dpc s) eqn:Ed; try discriminate E.
    destruct Rl as [P|[Rc Rx]]; [exact (False_ind _ P)|]. subst x.
    cbn [pipeline_source src_end] in E. rewrite Rc in E.
    cbn [process_source async_source src_end ar_live ar_rest ar_content_length].
    destruct (k_eof k) eqn:Ee; cbn [orb negb] in *.
    + injection E as <-. eexists. split; [reflexivity|]. cbn [cs_src]. split; [|exact G].
      split; [reflexivity|]. right. cbn [cs_src]. rewrite Ee. auto.
    + destruct (k_pipes k (k_last k)) as [|b rest] eqn:Ep; [|discriminate E].
      destruct (kstep k KRead) as [k1|] eqn:Ek; [|discriminate E]. injection E as <-.
      destruct (proj2 (kgood_step _ _ _ _ _ _ G Ek)) as (N' & -> & G1); [discriminate|].
      assert (X : k1 = set_got k (k_got k) true).
      { cbn [kstep] in Ek. rewrite Ee, Rc, Ep in Ek. cbn [orb] in Ek.
        destruct (is_running _); [discriminate|]. injection Ek as <-. reflexivity. }
      destruct (kgood_eof _ _ _ _ G1) as [Y _]; [subst k1; reflexivity|].
      assert (Z : k_got k = out) by (subst k1; exact Y).
      rewrite Z, skipn_all. cbn [length Nat.eqb orb]. eexists. split; [reflexivity|]. cbn [cs_src].
      split; [|eapply kgood_weaken; [exact G1|lia]].
      split; [reflexivity|]. right. subst k1. cbn. rewrite Z, skipn_all. auto.
  - (* timeout *)
    destruct rc; cbn [pipeline_source process_source async_source src_reconnect] in E |- *;
      (destruct (g_dpc s) eqn:Ed; try discriminate E); injection E as <-;
      (eexists; split; [reflexivity|]; cbn [cs_src]; split; [|exact G];
       split; [reflexivity|]; cbn [cs_sys cs_src]; gsimpl; rewrite Ed;
       destruct Rl as [P|R]; [exact (False_ind _ P)|right; exact R]).
  - (* range request *)
    destruct (g_dpc s) eqn:Ed; try discriminate E.
    cbn [pipeline_source process_source async_source src_seek_range] in E |- *. injection E as <-.
    eexists. split; [reflexivity|]. cbn [cs_src]. split; [|exact G].
    split; [reflexivity|]. cbn [cs_sys cs_src]. destruct Rl as [P|R]; [exact (False_ind _ P)|right; exact R].
  - (* finish *)
    destruct (g_dpc s) eqn:Ed; try discriminate E.
    cbn [pipeline_source process_source async_source src_on_finish] in E |- *.
    rewrite finish_blind in E. rewrite finish_blind. injection E as <-.
    assert (P : past (if ok0 && okr then DSignal else DSetFailed)) by (destruct (ok0 && okr); exact I).
    destruct (kills (mkC s k) (LDFinishRes okr)) eqn:Ek.
    + cbn [cs_src kstep option_map] in H. injection H as <-.
      eexists. split; [reflexivity|]. cbn [cs_src]. split.
      * split; [reflexivity|]. left. cbn [cs_sys]. gsimpl. exact P.
      * apply (proj1 (kgood_step _ _ _ _ KKill _ G eq_refl)). reflexivity.
    + injection H as <-. eexists. split; [reflexivity|]. cbn [cs_src]. split; [|exact G].
      split; [reflexivity|]. left. cbn [cs_sys]. gsimpl. exact P.
Qed.

(** ** Runs *)

Lemma kstep_eof k l k' : kstep k l = Some k' -> l <> KRead -> k_eof k' = k_eof k.
Proof.
  intros H N. destruct l as [|i|]; [congruence| |].
  - cbn [kstep] in H. unfold kstep_proc in H.
    repeat (match type of H with context [match ?x with _ => _ end] => destruct x end; try discriminate H);
      injection H as <-; reflexivity.
  - cbn [kstep] in H. injection H as <-. reflexivity.
Qed.

Lemma kstep_proc_frame k i k' : kstep k (KProc i) = Some k' ->
  k_closed k' = k_closed k /\ k_got k' = k_got k /\ k_eof k' = k_eof k.
Proof.
  intros H. cbn [kstep] in H. unfold kstep_proc in H.
  repeat (match type of H with context [match ?x with _ => _ end] => destruct x end; try discriminate H);
    injection H as <-; auto.
Qed.

(** Success is only reported after the end of the output. *)
Definition fin (d : dpc) : Prop :=
  match d with DFinish | DReport | DOnFinish true => True | _ => False end.
Definition ended_first (s : gstate) (e : bool) : Prop :=
  (fin (g_dpc s) -> e = true) /\ (g_done s = true -> g_failed s = true \/ e = true) /\
  (g_dpc s = DSignal -> g_failed s = true \/ e = true).

Lemma ended_true s : ended_first s true.
Proof. split; [|split]; auto. Qed.

Lemma ended_plain s l s' e : c_seekable c = false -> step c s l = Some s' -> source_label l = false ->
  ended_first s e -> ended_first s' e.
Proof.
  intros Hk H Hl (A & B & C).
  assert (Hq : forall s p, should_seek c s p = false) by (intros; unfold should_seek; rewrite Hk; reflexivity).
  unfold ended_first. step_cases H; gsimpl; try discriminate Hl; try (rewrite Hq in *; discriminate);
    repeat match goal with E : g_dpc s = _ |- _ => rewrite E in * end; cbn [fin] in *;
    repeat split; intros; try contradiction; try discriminate; auto.
  all: try (destruct (B ltac:(assumption)) as [Y|Y]; [discriminate Y|right; exact Y]).
  all: try (destruct (C ltac:(assumption)) as [Y|Y]; [discriminate Y|right; exact Y]).
  all: congruence.
Qed.

Lemma ended_pstep N cs ds pl cs' : c_seekable c = false -> kgood out ok N (cs_src cs) -> related cs ds ->
  match pl with PSys LDErr => False | _ => True end ->
  pstep clen c cs pl = Some cs' ->
  ended_first (cs_sys cs) (k_eof (cs_src cs)) -> ended_first (cs_sys cs') (k_eof (cs_src cs')).
Proof.
  intros Hk G [_ Rl] Hl H J. destruct cs as [s k]. cbn [cs_sys cs_src] in *.
  destruct pl as [l|i|]; cbn [pstep cs_sys cs_src] in H.
  2:{ destruct (kstep k (KProc i)) as [k1|] eqn:E; [|discriminate H]. apply kstep_eof in E; [|discriminate].
      injection H as <-. cbn [cs_sys cs_src]. rewrite E. exact J. }
  2:{ destruct (g_dpc s) eqn:Ed; try discriminate H.
      destruct (kstep k KKill) as [k1|] eqn:E; [|discriminate H]. apply kstep_eof in E; [|discriminate].
      injection H as <-. cbn [cs_sys cs_src]. rewrite E. exact J. }
  destruct (must_wait _ l); [discriminate|].
  destruct (cstep (pipeline_source clen) c (mkC s k) l) as [cs1|] eqn:E; [|discriminate].
  assert (Plain : source_label l = false -> ended_first (cs_sys cs') (k_eof (cs_src cs'))).
  { intros Hs. assert (Ek : kills (mkC s k) l = false) by (destruct l; try reflexivity; discriminate).
    rewrite Ek in H. injection H as ->.
    assert (F : cstep (pipeline_source clen) c (mkC s k) l = option_map (fun s' => mkC s' k) (step c s l))
      by (destruct l; try reflexivity; discriminate).
    rewrite F in E. destruct (step c s l) as [s'|] eqn:E2; [|discriminate].
    cbn in E. injection E as <-. cbn [cs_sys cs_src]. eapply ended_plain; eassumption. }
  destruct J as (J1 & J2 & J3).
  destruct l as [|n| | |rc| | |okr| |okr| | |ks| | |op| | ]; try (apply Plain; reflexivity); clear Plain;
    try contradiction; cbn [cstep cs_sys cs_src] in *.
  all: try (cbn [kills] in H; injection H as ->).
  - destruct (g_dpc s) eqn:Ed; try discriminate E.
    destruct (src_poll (pipeline_source clen) k n) as [[bs k1]|] eqn:Ep; [|discriminate E]. injection E as <-.
    cbn [cs_sys cs_src]. cbn [pipeline_source src_poll] in Ep.
    destruct (k_eof k) eqn:Ee; [discriminate Ep|].
    assert (X : forall e s2, g_done s2 = g_done s -> g_failed s2 = g_failed s -> ~ fin (g_dpc s2) ->
                 g_dpc s2 <> DSignal -> ended_first s2 e).
    { intros e s2 X1 X2 X3 X4. split; [contradiction|]. split; [|contradiction]. rewrite X1, X2. intros Hd.
      destruct (J2 Hd) as [Y|Y]; [auto|discriminate]. }
    unfold handle_bytes. gsimpl. destruct (g_pfc s); [destruct (g_rem s)|];
      apply X; gsimpl; auto; solve [discriminate | intros []].
  - destruct (g_dpc s) eqn:Ed; try discriminate E.
    destruct Rl as [P|[Rc _]]; [exact (False_ind _ P)|].
    cbn [pipeline_source src_end] in E. rewrite Rc in E.
    destruct (k_eof k) eqn:Ee; cbn [orb] in E.
    + injection E as <-. cbn [cs_sys cs_src]. rewrite Ee. apply ended_true.
    + destruct (k_pipes k (k_last k)) as [|b rest] eqn:Ep; [|discriminate E].
      cbn [kstep] in E. rewrite Ee, Rc, Ep in E. cbn [orb] in E.
      destruct (is_running _); [discriminate|]. injection E as <-. cbn [cs_sys cs_src set_got k_eof].
      apply ended_true.
  - destruct rc; cbn [pipeline_source src_reconnect] in E;
      (destruct (g_dpc s) eqn:Ed; try discriminate E); injection E as <-; cbn [cs_sys cs_src];
      unfold ended_first; gsimpl; rewrite Ed; repeat split; intros; try contradiction; try discriminate; auto.
  - destruct (g_dpc s) eqn:Ed; try discriminate E.
    cbn [pipeline_source src_seek_range] in E. injection E as <-. cbn [cs_sys cs_src].
    unfold ended_first, seek_done; gsimpl; repeat split; intros; try contradiction; try discriminate; auto.
  - destruct (g_dpc s) eqn:Ed; try discriminate E.
    cbn [pipeline_source src_on_finish] in E. injection E as <-.
    rewrite finish_blind in H. destruct ok0.
    + assert (Ee : k_eof k = true) by (apply J1; exact I).
      assert (Ek : kills (mkC s k) (LDFinishRes okr) = false) by (cbn; rewrite Ed; destruct okr; reflexivity).
      rewrite Ek in H. injection H as <-. cbn [cs_sys cs_src]. rewrite Ee. apply ended_true.
    + cbn [andb] in H.
      assert (X : k_eof (cs_src cs') = k_eof k /\
                  cs_sys cs' = set_dpc (emit s (EvFinish false)) DSetFailed).
      { destruct (kills _ _); [|injection H as <-; auto].
        cbn [cs_src cs_sys] in H. destruct (kstep k KKill) as [k1|] eqn:Ek; [|discriminate H].
        apply kstep_eof in Ek; [|discriminate]. injection H as <-. auto. }
      destruct X as [X1 X2]. rewrite X1, X2. unfold ended_first. gsimpl.
      repeat split; intros; try contradiction; try discriminate; auto.
Qed.
End Sim.

Lemma sim_run out ok clen c : c_seekable c = false -> forall pls n cs ds cs' (P : gstate -> label -> Prop),
  kgood out ok n (cs_src cs) -> related out clen cs ds ->
  ended_first (cs_sys cs) (k_eof (cs_src cs)) ->
  (forall s l, P s l -> l <> LDErr) ->
  pallowed clen c P cs pls -> prun clen c cs pls = Some cs' ->
  exists ds' n', crun (process_source ok) c ds (sys_labels pls) = Some ds' /\
    callowed (process_source ok) c (fun ds => P (cs_sys ds)) ds (sys_labels pls) /\
    related out clen cs' ds' /\ kgood out ok n' (cs_src cs') /\ n' + process_steps pls <= n /\
    ended_first (cs_sys cs') (k_eof (cs_src cs')).
Proof.
  intros Hk. induction pls as [|pl t IH]; intros n cs ds cs' P G R J HP Ha H.
  { cbn in H. injection H as <-. exists ds, n. cbn. rewrite Nat.add_0_r. auto 8. }
  cbn [prun pallowed] in *. destruct (pstep clen c cs pl) as [cs1|] eqn:E; [|discriminate H].
  destruct Ha as [Ha1 Ha2].
  assert (J1 : ended_first (cs_sys cs1) (k_eof (cs_src cs1))).
  { eapply ended_pstep; try eassumption. destruct pl as [l|i|]; auto.
    specialize (HP _ _ Ha1). destruct l; auto. }
  destruct pl as [l|i|].
  - destruct (sim_step out ok clen c n cs ds l cs1 G R (HP _ _ Ha1) E) as (ds1 & S1 & S2 & S3).
    destruct (IH n cs1 ds1 cs' P S3 S2 J1 HP Ha2 H) as (ds' & n' & A1 & A2 & A3 & A4 & A5 & A6).
    exists ds', n'. cbn [sys_labels flat_map app]. fold (sys_labels t).
    cbn [crun callowed]. rewrite S1. destruct R as [<- _]. auto 9.
  - cbn [pstep] in E. destruct (kstep (cs_src cs) (KProc i)) as [k1|] eqn:Ek; [|discriminate E].
    injection E as <-.
    destruct (proj2 (kgood_step _ _ _ _ _ _ G Ek)) as (n1 & -> & G1); [discriminate|].
    assert (R1 : related out clen (mkC (cs_sys cs) k1) ds).
    { destruct R as [R1 R2]. split; [exact R1|]. cbn [cs_sys cs_src].
      destruct R2 as [R2|[R2 R3]]; [left; exact R2|right].
      destruct (kstep_proc_frame _ _ _ Ek) as (F1 & F2 & F3). rewrite F1, F2, F3. auto. }
    destruct (IH n1 (mkC (cs_sys cs) k1) ds cs' P G1 R1 J1 HP Ha2 H) as (ds' & n' & A1 & A2 & A3 & A4 & A5 & A6).
    exists ds', n'. cbn [sys_labels flat_map app]. fold (sys_labels t).
    repeat (split; [assumption|]). split; [|assumption].
    unfold process_steps in *. cbn [filter length]. lia.
  - cbn [pstep] in E. destruct (g_dpc (cs_sys cs)) eqn:Ed; try discriminate E.
    destruct (kstep (cs_src cs) KKill) as [k1|] eqn:Ek; [|discriminate E].
    injection E as <-.
    pose proof (proj1 (kgood_step _ _ _ _ _ _ G Ek) eq_refl) as G1.
    assert (R1 : related out clen (mkC (cs_sys cs) k1) ds).
    { destruct R as [R1 R2]. split; [exact R1|]. cbn [cs_sys cs_src]. left. rewrite Ed. exact I. }
    destruct (IH n (mkC (cs_sys cs) k1) ds cs' P G1 R1 J1 HP Ha2 H) as (ds' & n' & A1 & A2 & A3 & A4 & A5 & A6).
    exists ds', n'. cbn [sys_labels flat_map app]. fold (sys_labels t). auto 9.
Qed.

Lemma callowed_enabled {X} (src : source X) c (P Q : csys X -> label -> Prop) :
  (forall cs l cs', P cs l -> cstep src c cs l = Some cs' -> Q cs l) ->
  forall ls cs cs', callowed src c P cs ls -> crun src c cs ls = Some cs' -> callowed src c Q cs ls.
Proof.
  intros HPQ. induction ls as [|l ls IH]; intros cs cs' Ha H; cbn [callowed crun] in *; [exact I|].
  destruct Ha as [A B]. destruct (cstep src c cs l) as [cs1|] eqn:E; [|discriminate].
  split; eauto.
Qed.

Lemma crun_creach {X} (src : source X) x0 c (P : gstate -> label -> Prop) : forall ls cs cs',
  creach src x0 c P cs -> callowed src c (fun cs => P (cs_sys cs)) cs ls -> crun src c cs ls = Some cs' ->
  creach src x0 c P cs'.
Proof.
  induction ls as [|l ls IH]; intros cs cs' Hr Ha H; cbn [callowed crun] in *; [injection H as <-; exact Hr|].
  destruct Ha as [A B]. destruct (cstep src c cs l) as [cs1|] eqn:E; [|discriminate].
  apply (IH cs1 cs'); auto. eapply creach_step; eassumption.
Qed.

Lemma callowed_weaken {X} (src : source X) c (P Q : csys X -> label -> Prop) :
  (forall cs l, P cs l -> Q cs l) -> forall ls cs, callowed src c P cs ls -> callowed src c Q cs ls.
Proof.
  intros HPQ. induction ls as [|l ls IH]; intros cs Ha; cbn [callowed] in *; [exact I|].
  destruct Ha as [A B]. split; [auto|]. destruct (cstep src c cs l); auto.
Qed.

(** * C91: downloading the output of a pipeline that is running. *)

From Coq Require Import String List Arith Lia ZArith Bool.
From Verif Require Import Base Storage System Spec StepTac Exec Progress Process ProcessSpec PropProcess
  Pipes PipesSpec PipesFacts PropPipes Stderr Source SourceSpec SourceFacts SourceImpl PropSource
  PropSourceLive PropSourceLoop Pipeline PipelineSpec PipelineFacts.
Import ListNotations.
Open Scope nat_scope.

Section Setup.
Context (sem : command -> prog) (own : command -> errdest) (cap : nat) (input : list byte)
  (open : bool) (o : os) (c1 : command) (cs1 : list command) (sp : spawned) (log : list os_call)
  (out : list byte) (ok : bool) (clen : option nat) (c0 : cfg).
Context (S : pipeline_setup sem own cap input open o c1 cs1 sp log out ok clen c0).

Let k0 := boot sem own cap input open sp log.
Let c := over (pipeline_source clen) k0 c0.

Lemma start_good : exists N, kgood out ok N k0.
Proof.
  destruct (boot_sound sem own cap input open o c1 cs1 sp log out ok (ps_spawn _ _ _ _ _ _ _ _ _ _ _ _ _ _ S)
              (ps_cap _ _ _ _ _ _ _ _ _ _ _ _ _ _ S) (ps_stderr _ _ _ _ _ _ _ _ _ _ _ _ _ _ S)
              (ps_means _ _ _ _ _ _ _ _ _ _ _ _ _ _ S)) as (Sh & m & w & s & So).
  exists (weight k0 m w). split; [exact Sh|]. split; [discriminate|]. exists m, w, s. auto.
Qed.

Lemma start_related s0 : related out clen (mkC s0 k0) (mkC s0 (ar_new out clen)).
Proof. split; [reflexivity|]. right. split; reflexivity. Qed.

Lemma start_ended s0 : init c = Some s0 -> ended_first s0 false.
Proof.
  intros H. unfold init in H. destruct (into_rw _ _); [|discriminate]. injection H as <-.
  repeat split; cbn; try discriminate; contradiction.
Qed.

(** A run of the pipeline, seen from the task. *)
Lemma pipeline_run N s0 pls cs (P : gstate -> label -> Prop) :
  kgood out ok N k0 ->
  init c = Some s0 -> (forall s l, P s l -> l <> LDErr) ->
  pallowed clen c P (mkC s0 k0) pls -> prun clen c (mkC s0 k0) pls = Some cs ->
  exists ds n', crun (process_source ok) c (mkC s0 (ar_new out clen)) (sys_labels pls) = Some ds /\
    callowed (process_source ok) c (fun ds => P (cs_sys ds)) (mkC s0 (ar_new out clen)) (sys_labels pls) /\
    related out clen cs ds /\ kgood out ok n' (cs_src cs) /\ n' + process_steps pls <= N /\
    ended_first (cs_sys cs) (k_eof (cs_src cs)).
Proof.
  intros G Hi HP Ha H.
  apply (sim_run out ok clen c eq_refl pls N (mkC s0 k0) (mkC s0 (ar_new out clen)) cs P); auto.
  - apply start_related.
  - apply start_ended. exact Hi.
Qed.

Lemma as_process s0 ds ls (P : gstate -> label -> Prop) :
  init c = Some s0 -> (forall s l, P s l -> l <> LDErr) ->
  callowed (process_source ok) c (fun ds => P (cs_sys ds)) (mkC s0 (ar_new out clen)) ls ->
  crun (process_source ok) c (mkC s0 (ar_new out clen)) ls = Some ds ->
  creach (process_source ok) (ar_new out clen) c no_error_item ds.
Proof.
  intros Hi HP Ha H. eapply crun_creach; [apply creach_init; exact Hi| |exact H].
  eapply callowed_weaken; [|exact Ha]. intros cs l K. apply HP in K. destruct l; cbn; auto.
Qed.

End Setup.

(** Successful reads return the bytes the pipeline writes, whatever the client, the task and
    the processes do and in whatever order; when the download is complete, all of them are
    stored and the last process has ended by itself, with its own exit status. *)
Theorem C91_reads : forall sem own cap input open o c1 cs1 sp log out ok clen c0 s0 pls cs,
  pipeline_setup sem own cap input open o c1 cs1 sp log out ok clen c0 ->
  let k0 := boot sem own cap input open sp log in
  let c := over (pipeline_source clen) k0 c0 in
  unbounded_store c -> init c = Some s0 ->
  pallowed clen c no_error_item (mkC s0 k0) pls ->
  prun clen c (mkC s0 k0) pls = Some cs ->
  every_event (read_ok c) (g_trace (cs_sys cs)) /\
  (completed (cs_sys cs) ->
   (forall x, x < length out -> stored_byte (cs_sys cs) x = nth_error out x) /\
   k_got (cs_src cs) = out /\ kp_status (last_proc (cs_src cs)) = Exited ok).
Proof.
  intros sem own cap input open o c1 cs1 sp log out ok clen c0 s0 pls cs S k0 c Hu Hi Ha H.
  destruct (start_good _ _ _ _ _ _ _ _ _ _ _ _ _ _ S) as [N G].
  assert (HP : forall s l, no_error_item s l -> l <> LDErr) by (intros s l K ->; exact K).
  destruct (pipeline_run sem own cap input open sp log out ok clen c0 N s0 pls cs no_error_item G Hi HP Ha H)
    as (ds & n' & A1 & A2 & A3 & A4 & _ & A6).
  pose proof (as_process sem own cap input open sp log out ok clen c0 s0 ds _ no_error_item Hi HP A2 A1) as R.
  destruct (C70_process ok out clen c0 ds (ps_clen _ _ _ _ _ _ _ _ _ _ _ _ _ _ S)
     (ps_content _ _ _ _ _ _ _ _ _ _ _ _ _ _ S) (ps_size _ _ _ _ _ _ _ _ _ _ _ _ _ _ S)
     (ps_batch _ _ _ _ _ _ _ _ _ _ _ _ _ _ S) Hu R) as [B1 B2].
  destruct A3 as [E _]. rewrite E in *. split; [exact B1|]. intros K. split; [apply B2; exact K|].
  destruct A6 as (_ & J & _). destruct K as [K1 K2]. destruct (J K1) as [X|X]; [congruence|].
  destruct (kgood_eof _ _ _ _ A4 X) as (Y1 & _ & Y2). auto.
Qed.

(** Through bounded storage of any size: a client that reads on to the end has received
    exactly what the pipeline has written. *)
Theorem C91_bounded : forall sem own cap input open o c1 cs1 sp log out ok clen c0 ck p n s0 pls cs,
  pipeline_setup sem own cap input open o c1 cs1 sp log out ok clen c0 ->
  let k0 := boot sem own cap input open sp log in
  let c := over (pipeline_source clen) k0 c0 in
  c_provider c0 = PBounded ck p n -> init c = Some s0 ->
  pallowed clen c streams_only (mkC s0 k0) pls ->
  prun clen c (mkC s0 k0) pls = Some cs ->
  every_event (read_ok c) (g_trace (cs_sys cs)) /\
  (~ in_call (cs_sys cs) -> reads_succeed (g_trace (cs_sys cs)) -> length out <= calls (sys_labels pls) ->
   delivered (g_trace (cs_sys cs)) = out).
Proof.
  intros sem own cap input open o c1 cs1 sp log out ok clen c0 ck p n s0 pls cs S k0 c Hp Hi Ha H.
  destruct (start_good _ _ _ _ _ _ _ _ _ _ _ _ _ _ S) as [N G].
  assert (HP : forall s l, streams_only s l -> l <> LDErr) by (intros s l K ->; exact K).
  destruct (pipeline_run sem own cap input open sp log out ok clen c0 N s0 pls cs streams_only G Hi HP Ha H)
    as (ds & n' & A1 & A2 & A3 & _).
  destruct S as [S1 S2 S3 S4 S5 S6 S7 S8].
  assert (B : every_event (read_ok c) (g_trace (cs_sys ds)) /\
    (~ in_call (cs_sys ds) -> reads_succeed (g_trace (cs_sys ds)) -> length out <= calls (sys_labels pls) ->
     delivered (g_trace (cs_sys ds)) = out)).
  { apply (C83_process_bounded ok out clen c0 ck p n s0 (sys_labels pls) ds); auto.
    assert (D : delivers (process_source ok) (ar_new out clen) c (both no_empty_chunk no_error_item) ar_ok ar_body).
    { apply async_delivers; auto; [apply process_finish_error|]. intros s [_ K]. exact K. }
    assert (Hsa : sane c) by (apply (async_sane (Source.process_finish ok) out clen c0); auto).
    assert (Gen : forall ls ds0, creach (process_source ok) (ar_new out clen) c no_error_item ds0 ->
       callowed (process_source ok) c (fun ds => streams_only (cs_sys ds)) ds0 ls ->
       crun (process_source ok) c ds0 ls = Some ds ->
       callowed (process_source ok) c (fun cs => both (streaming_env c) no_error_item (cs_sys cs)) ds0 ls).
    { induction ls as [|l ls IH]; intros ds0 R Hal Hr; cbn [callowed crun] in *; [exact I|].
      destruct Hal as [L1 L2]. destruct (cstep (process_source ok) c ds0 l) as [ds1|] eqn:E; [|discriminate Hr].
      assert (L3 : no_error_item (cs_sys ds0) l) by (destruct l; cbn in *; auto).
      split; [|apply IH; auto; eapply creach_step; eassumption].
      split; [|exact L3].
      destruct (refine _ _ c _ _ _ D blind_items eq_refl eq_refl (proj1 Hsa) ds0 (async_chunks _ _ _ _ R)) as [Cp _].
      unfold streaming_env, both.
      destruct l; cbn in L1 |- *; auto; try contradiction.
      + repeat split; auto. cbn in E. destruct k; [|lia]. rewrite andb_false_r in E.
        destruct (g_dpc (cs_sys ds0)); discriminate E.
      + repeat split; auto. right. apply (coupled_end _ _ _ _ _ Cp).
        cbn in E. unfold ar_body. destruct (g_dpc (cs_sys ds0)); try discriminate E.
        destruct (ar_live (cs_src ds0)); [|reflexivity].
        destruct (ar_rest (cs_src ds0)); [reflexivity|discriminate E].
    }
    apply Gen; auto. apply creach_init. exact Hi. }
  destruct A3 as [-> _]. exact B.
Qed.

(** Whatever the pipes hold: the processes take a bounded number of steps, the task and the
    reader too for each call of the client; and as long as a call is pending or the task has
    not ended, one of them can go on.  When the stream has been dropped, the processes end. *)
Theorem C91_ends : forall sem own cap input open o c1 cs1 sp log out ok clen c0,
  pipeline_setup sem own cap input open o c1 cs1 sp log out ok clen c0 ->
  let k0 := boot sem own cap input open sp log in
  let c := over (pipeline_source clen) k0 c0 in
  unbounded_store c ->
  exists N, forall s0 pls cs, init c = Some s0 ->
  pallowed clen c patient (mkC s0 k0) pls ->
  prun clen c (mkC s0 k0) pls = Some cs ->
  process_steps pls <= N /\
  actions (sys_labels pls) <=
    (2 + seek_calls (sys_labels pls)) * work_bound (length out) + 8 * (1 + calls (sys_labels pls)) /\
  (in_call (cs_sys cs) \/ g_dpc (cs_sys cs) <> DEnd ->
   exists pl cs', moves cs pl /\ pstep clen c cs pl = Some cs') /\
  (k_closed (cs_src cs) = true ->
   all_ended (cs_src cs) \/ exists i cs', pstep clen c cs (PProc i) = Some cs').
Proof.
  intros sem own cap input open o c1 cs1 sp log out ok clen c0 S k0 c Hu.
  destruct (start_good _ _ _ _ _ _ _ _ _ _ _ _ _ _ S) as [N G].
  exists N. intros s0 pls cs Hi Ha H.
  assert (HP : forall s l, patient s l -> l <> LDErr) by (intros s l K ->; exact K).
  destruct (pipeline_run sem own cap input open sp log out ok clen c0 N s0 pls cs patient G Hi HP Ha H)
    as (ds & n' & A1 & A2 & [A3 A3'] & A4 & A5 & A6).
  destruct S as [S1 S2 S3 S4 S5 S6 S7 S8].
  split; [lia|].
  assert (A2' : callowed (process_source ok) c (keeps_going ar_body) (mkC s0 (ar_new out clen)) (sys_labels pls)).
  { eapply callowed_enabled; [|exact A2|exact A1]. intros d l d' L E.
    destruct l; cbn in L |- *; auto; try contradiction.
    - destruct k; [|lia]. cbn in E. rewrite andb_false_r in E. destruct (g_dpc (cs_sys d)); discriminate E.
    - cbn in E. unfold ar_body. destruct (g_dpc (cs_sys d)); try discriminate E.
      destruct (ar_live (cs_src d)); [|reflexivity]. destruct (ar_rest (cs_src d)); [reflexivity|discriminate E]. }
  destruct (C82_process_ends ok out clen c0 (mkC s0 (ar_new out clen)) (sys_labels pls) ds S5 S6 S7 S8 Hu
              (creach_init _ _ _ _ _ Hi) A2' A1) as [B1 B2].
  change (over (process_source ok) (ar_new out clen) c0) with c in B2.
  split; [exact B1|].
  assert (CM : k_eof (cs_src cs) = false -> k_closed (cs_src cs) = false ->
     g_dpc (cs_sys cs) = DSelect -> exists pl cs', moves cs pl /\ pstep clen c cs pl = Some cs').
  { intros Ee Ec Ed. destruct A4 as (Sh & Ex & m & w & s & So & _).
    destruct (can_move_or_done _ _ _ _ _ _ Sh So) as [(l & Nl & Hl)|[_ X]]; [|rewrite (X Ec) in Ee; discriminate].
    destruct (kstep (cs_src cs) l) as [k'|] eqn:Ek; [|congruence].
    destruct l as [|i|]; [| |congruence].
    - destruct (k_pipes (cs_src cs) (k_last (cs_src cs))) as [|b rest] eqn:Ep.
      + exists (PSys LDEof). eexists. split; [split; [reflexivity|exact I]|].
        cbn [pstep must_wait kills cstep]. rewrite Ed. cbn [pipeline_source src_end].
        rewrite Ee, Ec, Ep, Ek. cbn [orb]. reflexivity.
      + exists (PSys (LDChunk 1)). eexists. split; [split; [reflexivity|exact I]|].
        cbn [pstep must_wait kills cstep]. rewrite Ed. cbn [pipeline_source src_poll].
        rewrite Ee, Ec, Ep. cbn [repeat krun]. rewrite Ek.
        replace (1 <=? Nat.min ar_capacity (length (b :: rest))) with true
          by (symmetry; apply Nat.leb_le; unfold ar_capacity; cbn; lia).
        cbn [negb andb Nat.ltb Nat.leb option_map]. reflexivity.
    - exists (PProc i). eexists. split; [exact I|]. cbn [pstep]. rewrite Ek. reflexivity. }
  split.
  - intros K. rewrite A3 in K. destruct (B2 K) as (l & ds' & L1 & L2 & L3).
    assert (Plain : source_label l = false -> exists pl cs', moves cs pl /\ pstep clen c cs pl = Some cs').
    { intros Hl. destruct cs as [s k], ds as [s2 x]. cbn [cs_sys cs_src] in *. subst s2.
      assert (F : forall Y (src : source Y) y, cstep src c (mkC s y) l = option_map (fun s' => mkC s' y) (step c s l)).
      { intros. destruct l; try reflexivity; discriminate. }
      rewrite F in L3. destruct (step c s l) as [s'|] eqn:E; [|discriminate L3].
      exists (PSys l), (mkC s' k). split; [split; [exact L1|destruct l; cbn in *; auto]|].
      cbn [pstep]. assert (Ew : must_wait (mkC s k) l = false) by (destruct l; try reflexivity; discriminate).
      assert (Ek : kills (mkC s k) l = false) by (destruct l; try reflexivity; discriminate).
      rewrite Ew, F, Ek. reflexivity. }
    destruct l as [|n| | |rc| | |okr| |okr| | |ks| | |op| | ]; try (apply Plain; reflexivity); clear Plain;
      try contradiction; cbn [cstep] in L3.
    + destruct (g_dpc (cs_sys ds)) eqn:Ed; try discriminate L3. rewrite <- A3 in Ed.
      destruct A3' as [P|[Ec _]]; [rewrite Ed in P; exact (False_ind _ P)|].
      destruct (k_eof (cs_src cs)) eqn:Ee; [|apply CM; auto].
      exists (PSys LDEof). eexists. split; [split; [reflexivity|exact I]|].
      cbn [pstep must_wait kills cstep]. rewrite Ed. cbn [pipeline_source src_end]. rewrite Ee. reflexivity.
    + destruct (g_dpc (cs_sys ds)) eqn:Ed; try discriminate L3. rewrite <- A3 in Ed.
      destruct A3' as [P|[Ec _]]; [rewrite Ed in P; exact (False_ind _ P)|].
      destruct (k_eof (cs_src cs)) eqn:Ee; [|apply CM; auto].
      exists (PSys LDEof). eexists. split; [split; [reflexivity|exact I]|].
      cbn [pstep must_wait kills cstep]. rewrite Ed. cbn [pipeline_source src_end]. rewrite Ee. reflexivity.
    + destruct (g_dpc (cs_sys ds)) eqn:Ed; try discriminate L3. rewrite <- A3 in Ed.
      exists (PSys (LDSeekRes okr)). eexists. split; [split; [reflexivity|exact I]|].
      cbn [pstep must_wait kills cstep]. rewrite Ed. cbn [pipeline_source src_seek_range]. reflexivity.
    + destruct (g_dpc (cs_sys ds)) eqn:Ed; try discriminate L3. rewrite <- A3 in Ed.
      assert (W : must_wait cs (LDFinishRes okr) = false).
      { cbn [must_wait]. rewrite Ed. destruct okr; [|reflexivity]. destruct ok0; [|reflexivity].
        destruct A6 as (J & _). rewrite Ed in J. apply (kgood_eof _ _ _ _ A4 (J I)). }
      exists (PSys (LDFinishRes okr)). cbn [pstep]. rewrite W. cbn [cstep]. rewrite Ed.
      destruct (kills cs (LDFinishRes okr)); eexists; (split; [split; [reflexivity|exact I]|]); reflexivity.
  - intros Ec. destruct A4 as (Sh & Ex & m & w & s & So & _).
    destruct (can_move_or_done _ _ _ _ _ _ Sh So) as [(l & Nl & Hl)|[X _]]; [right|left; exact X].
    destruct (kstep (cs_src cs) l) as [k'|] eqn:Ek; [|congruence].
    destruct l as [|i|]; [| |congruence].
    + cbn [kstep] in Ek. rewrite Ec, orb_true_r in Ek. discriminate Ek.
    + exists i. eexists. cbn [pstep]. rewrite Ek. reflexivity.
Qed.

(** The task ends with the whole output stored, if nothing fails and nobody cancels. *)
Theorem C91_completes : forall sem own cap input open o c1 cs1 sp log out ok clen c0 s0 pls cs,
  pipeline_setup sem own cap input open o c1 cs1 sp log out ok clen c0 ->
  let k0 := boot sem own cap input open sp log in
  let c := over (pipeline_source clen) k0 c0 in
  unbounded_store c -> init c = Some s0 ->
  pallowed clen c (fun _ => untroubled c) (mkC s0 k0) pls ->
  prun clen c (mkC s0 k0) pls = Some cs ->
  g_dpc (cs_sys cs) = DEnd ->
  completed (cs_sys cs) /\
  (forall x, x < length out -> stored_byte (cs_sys cs) x = nth_error out x).
Proof.
  intros sem own cap input open o c1 cs1 sp log out ok clen c0 s0 pls cs S k0 c Hu Hi Ha H Hd.
  destruct (start_good _ _ _ _ _ _ _ _ _ _ _ _ _ _ S) as [N G].
  assert (HP : forall (s : gstate) l, untroubled c l -> l <> LDErr) by (intros s l K ->; exact K).
  destruct (pipeline_run sem own cap input open sp log out ok clen c0 N s0 pls cs _ G Hi HP Ha H)
    as (ds & n' & A1 & A2 & [A3 _] & _).
  destruct S as [S1 S2 S3 S4 S5 S6 S7 S8]. rewrite A3 in *.
  apply (C82_process_completes ok out clen c0 s0 (sys_labels pls) ds); auto.
Qed.

(** ** Cases *)

(** The first action that is possible, reads of [m] bytes until [n] have been made. *)
Fixpoint demo_sched (c : cfg) (fuel m n : nat) (cs : csys kernel) : list plabel :=
  match fuel with
  | 0 => []
  | S fuel =>
      let idle := match g_rpc (cs_sys cs) with RIdle => true | _ => false end in
      let cands := map PSys [LRStep; LDStep; LDChunk 1; LDEof; LDFinishRes true] ++
                   [PProc 1; PProc 0] in
      let able := filter (fun pl => match pstep None c cs pl with Some _ => true | None => false end) cands in
      if idle && (0 <? n) then
        match pstep None c cs (PSys (LOp (ORead m))) with
        | Some cs' => PSys (LOp (ORead m)) :: demo_sched c fuel m (n - 1) cs'
        | None => []
        end
      else match able with
           | pl :: _ => match pstep None c cs pl with
                        | Some cs' => pl :: demo_sched c fuel m n cs'
                        | None => []
                        end
           | [] => []
           end
  end.

Fixpoint pallowed_b (clen : option nat) (c : cfg) (P : gstate -> label -> bool) (cs : csys kernel)
    (pls : list plabel) : bool :=
  match pls with
  | [] => true
  | pl :: t =>
      match pl with PSys l => P (cs_sys cs) l | _ => true end &&
      match pstep clen c cs pl with Some cs' => pallowed_b clen c P cs' t | None => true end
  end.

Lemma pallowed_decides clen c pb (P : gstate -> label -> Prop) : decides pb P -> forall pls cs,
  pallowed_b clen c pb cs pls = true -> pallowed clen c P cs pls.
Proof.
  intros D. induction pls as [|pl t IH]; intros cs H; cbn [pallowed pallowed_b] in *; [exact I|].
  apply andb_prop in H. destruct H as [A B]. split.
  - destruct pl; auto.
  - destruct (pstep clen c cs pl); auto.
Qed.

Definition pipe_out : list byte := [x01; x01; x02; x02; x03; x03].
Definition pipe_cfg (p : provider) : cfg := mkCfg pipe_out None false 0 4 true InvEmpty RecRange p.
Definition pipe_start : list command := [cmd_new "twice"%string].
Definition pipe_spawn := builder_spawn all_ok (fold_left builder_pipe pipe_start (builder_new (cmd_new "gen"%string))).
Definition pipe_sp : spawned := Eval vm_compute in match fst pipe_spawn with Ok sp => sp | _ => mkSpawned 0 0 end.
Definition pipe_log : list os_call := Eval vm_compute in snd pipe_spawn.

(** [gen | twice] through pipes that hold one byte. *)
Lemma pipe_setup p : pipeline_setup demo_sem (fun _ => ErrPipe) 1 [] true all_ok (cmd_new "gen"%string) pipe_start
  pipe_sp pipe_log pipe_out true None (pipe_cfg p).
Proof.
  split; try reflexivity; try (cbn; lia).
  - intros x [<-|[<-|[]]]; discriminate.
  - exact gen_twice_means.
  - left. reflexivity.
Qed.

Definition pipe_k0 : kernel := boot demo_sem (fun _ => ErrPipe) 1 [] true pipe_sp pipe_log.

(** The client reads all the output while it is produced, the download completes, and the
    second process has complained three times. *)
Example C91_case :
  let c := over (pipeline_source None) pipe_k0 (pipe_cfg (PPlain PlMem)) in
  exists s0 cs, unbounded_store c /\ init c = Some s0 /\
    let pls := demo_sched c 300 4 2 (mkC s0 pipe_k0) ++ [PDropStream] in
    pallowed None c no_error_item (mkC s0 pipe_k0) pls /\
    pallowed None c patient (mkC s0 pipe_k0) pls /\
    pallowed None c (fun _ => untroubled c) (mkC s0 pipe_k0) pls /\
    prun None c (mkC s0 pipe_k0) pls = Some cs /\
    In (EvRead 0 4 true (Ok (firstn 4 pipe_out))) (g_trace (cs_sys cs)) /\
    In (EvRead 4 4 true (Ok (skipn 4 pipe_out))) (g_trace (cs_sys cs)) /\
    completed (cs_sys cs) /\ g_dpc (cs_sys cs) = DEnd /\ k_closed (cs_src cs) = true /\
    kp_errout (last_proc (cs_src cs)) = [x2a; x2a; x2a].
Proof.
  cbv zeta. do 2 eexists. split; [exact I|]. split; [vm_compute; reflexivity|].
  split; [apply (pallowed_decides _ _ (fun _ l => match l with LDErr => false | _ => true end));
          [intros s l K; destruct l; try exact I; discriminate K|vm_compute; reflexivity]|].
  split; [apply (pallowed_decides _ _ (fun _ l => match l with LDErr | LDTimeout _ => false | _ => true end));
          [intros s l K; destruct l; try exact I; discriminate K|vm_compute; reflexivity]|].
  split; [apply (pallowed_decides _ _ (fun _ l => match l with
              | LDChunk k => 0 <? k | LDFinishRes e => e
              | LDErr | LDIoErr | LUserCancel | LDrop => false | _ => true end));
          [intros s l K; destruct l; try exact I; try discriminate K; [apply Nat.ltb_lt; exact K|exact K]|
           vm_compute; reflexivity]|].
  split; [vm_compute; reflexivity|]. vm_compute. repeat split; tauto.
Qed.

(** The same through a ring of three bytes. *)
Example C91_case_bounded :
  let c := over (pipeline_source None) pipe_k0 (pipe_cfg (PBounded true PlMem 3)) in
  exists s0 cs, init c = Some s0 /\
    let pls := demo_sched c 400 2 6 (mkC s0 pipe_k0) in
    pallowed None c streams_only (mkC s0 pipe_k0) pls /\
    prun None c (mkC s0 pipe_k0) pls = Some cs /\
    ~ in_call (cs_sys cs) /\ reads_succeed (g_trace (cs_sys cs)) /\ length pipe_out <= calls (sys_labels pls).
Proof.
  cbv zeta. do 2 eexists. split; [vm_compute; reflexivity|].
  split; [apply (pallowed_decides _ _ (fun _ l => match l with LDErr | LDTimeout _ | LOp (OSeek _) => false | _ => true end));
          [intros s l K; destruct l; try exact I; try discriminate K; destruct o; try exact I; discriminate K|vm_compute; reflexivity]|].
  split; [vm_compute; reflexivity|].
  split; [intros F; exact F|].
  split; [intros e F; vm_compute in F; repeat (destruct F as [<-|F]; [try exact I; cbn; lia|]); contradiction|].
  vm_compute. lia.
Qed.

Print Assumptions C91_reads.
Print Assumptions C91_bounded.
Print Assumptions C91_ends.
Print Assumptions C91_completes.

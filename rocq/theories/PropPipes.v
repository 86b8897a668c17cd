(** * C81, C61: running pipelines *)

From Coq Require Import String List Arith Lia Bool Strings.Byte.
From Verif Require Import Base Process ProcessSpec ProcessFacts PropProcess Pipes PipesSpec PipesFacts.
Import ListNotations.
Local Open Scope list_scope.

(** ** C81: a pipeline delivers the composition of its commands and never stalls

    The commands turn the library's stdin [input] (which [open] says may go on) into [out].
    Stderr is left to the library, or given a handle that does not block.  However the
    processes and the library are scheduled and whatever the size of the pipes, what has
    been read is a beginning of [out]; at the end of the stream it is all of [out] and the
    last process has exited with its status. *)
Theorem C81_delivers : forall sem own cap input open o c cs sp log out ok ls k,
  builder_spawn o (fold_left builder_pipe cs (builder_new c)) = (Ok sp, log) ->
  0 < cap -> (forall x, In x (c :: cs) -> cmd_own_stderr x = true -> own x = ErrFile) ->
  pipes_through sem (negb open) (c :: cs) input out ok ->
  krun (boot sem own cap input open sp log) ls = Some k -> 
  prefix_of (k_got k) out /\
  (k_eof k = true -> k_got k = out /\
     (not_killed ls -> kp_status (k_procs k (sp_child sp)) = Exited ok)).
Proof.
  intros sem own cap input open o c cs sp log out ok ls k Hb Hcap Hown Hpt Hr.
  destruct (boot_sound sem own cap input open o c cs sp log out ok Hb Hcap Hown Hpt)
    as (Sh & m & w & s & So).
  destruct (run_sound _ _ _ _ _ _ _ _ Sh So Hr) as (Sh' & m' & w' & So' & _).
  split; [apply (so_got _ _ _ _ _ _ So')|]. intros He.
  destruct (so_eof _ _ _ _ _ _ So' He) as (E1 & _ & E3). split; [exact E3|]. intros Hk.
  assert (El : forall ls k k', krun k ls = Some k' -> k_last k' = k_last k /\
                 (not_killed ls -> k_closed k' = k_closed k)).
  { clear. induction ls as [|l ls IH]; intros k k' H; cbn [krun] in H.
    - injection H as <-. auto.
    - destruct (kstep k l) as [k1|] eqn:E; [|discriminate]. destruct (IH _ _ H) as [A B].
      assert (X : k_last k1 = k_last k /\ (l <> KKill -> k_closed k1 = k_closed k)).
      { clear -E. destruct l as [|i|]; cbn [kstep] in E.
        - destruct (k_eof k || k_closed k); [discriminate|].
          destruct (k_pipes k (k_last k)); [destruct (is_running _); [discriminate|]|];
            injection E as <-; auto.
        - unfold kstep_proc in E. destruct (_ && _); [|discriminate].
          repeat match type of E with
                 | context [match ?x with _ => _ end] => destruct x
                 end; try discriminate E; injection E as <-; auto.
        - injection E as <-. split; [reflexivity|congruence]. }
      destruct X as [X1 X2]. split; [congruence|]. intros Hn. rewrite B, X2; [reflexivity| |].
      + intros ->. apply Hn. left. reflexivity.
      + intros Hi. apply Hn. right. exact Hi. }
  destruct (El _ _ _ Hr) as [El1 El2].
  replace (sp_child sp) with (k_last k) by exact El1.
  apply (so_status _ _ _ _ _ _ So'); [rewrite El2 by exact Hk; reflexivity|exact E1].
Qed.

(** The number of steps is bounded, and as long as the stream has not ended and has not been
    killed something can happen: the stream ends after finitely many steps. *)
Theorem C81_never_stalls : forall sem own cap input open o c cs sp log out ok,
  builder_spawn o (fold_left builder_pipe cs (builder_new c)) = (Ok sp, log) ->
  0 < cap -> (forall x, In x (c :: cs) -> cmd_own_stderr x = true -> own x = ErrFile) ->
  pipes_through sem (negb open) (c :: cs) input out ok ->
  exists N, forall ls k,
    krun (boot sem own cap input open sp log) ls = Some k ->
    work ls <= N /\
    (k_eof k = false -> k_closed k = false -> can_move k).
Proof.
  intros sem own cap input open o c cs sp log out ok Hb Hcap Hown Hpt.
  destruct (boot_sound sem own cap input open o c cs sp log out ok Hb Hcap Hown Hpt)
    as (Sh & m & w & s & So).
  eexists. intros ls k Hr.
  destruct (run_sound _ _ _ _ _ _ _ _ Sh So Hr) as (Sh' & m' & w' & So' & W).
  split; [eapply Nat.le_trans; [|exact W]; lia|]. intros He Hc.
  destruct (can_move_or_done _ _ _ _ _ _ Sh' So') as [X|[_ X]]; [exact X|].
  rewrite (X Hc) in He. discriminate.
Qed.

(** ** Demonstration programs *)

CoFixpoint cat : prog := PRead (fun x => match x with Some b => PWrite b cat | None => PExit true end).

(** [n] bytes to stderr. *)
Fixpoint noise (n : nat) (k : prog) : prog :=
  match n with 0 => k | S n => PErr x21 (noise n k) end.

(** Every byte twice, a complaint about each. *)
CoFixpoint twice : prog :=
  PRead (fun x => match x with Some b => PErr x2a (PWrite b (PWrite b twice)) | None => PExit true end).

Fixpoint emit (l : list byte) (k : prog) : prog :=
  match l with [] => k | b :: l => PWrite b (emit l k) end.

Definition demo_sem (c : command) : prog :=
  if String.eqb (cmd_program c) "gen" then emit [x01; x02; x03] (PExit true)
  else if String.eqb (cmd_program c) "twice" then twice
  else cat.

Lemma prog_unfold p : p = match p with PExit ok => PExit ok | PWrite b k => PWrite b k
                                     | PErr b k => PErr b k | PRead f => PRead f end.
Proof. destruct p; reflexivity. Qed.

Definition gen_twice : list command := [cmd_new "gen"; cmd_new "twice"].

Lemma gen_twice_means : pipes_through demo_sem false gen_twice [] [x01; x01; x02; x02; x03; x03] true.
Proof.
  eapply pt_more with (y := [x01; x02; x03]) (ok := true).
  - cbn. repeat constructor.
  - apply pt_one. change (demo_sem (cmd_new "twice")) with twice.
    do 3 (rewrite (prog_unfold twice); cbn; apply tr_read; repeat apply tr_write || apply tr_err).
    rewrite (prog_unfold twice); cbn; apply tr_eof; [reflexivity|apply tr_exit].
Qed.

(** The hypotheses are met by [gen | twice] with pipes of one byte, and a run reaches the
    end of the stream. *)
Example C81_case : exists sp log,
  builder_spawn all_ok (fold_left builder_pipe [cmd_new "twice"] (builder_new (cmd_new "gen"))) = (Ok sp, log) /\
  pipes_through demo_sem (negb true) [cmd_new "gen"; cmd_new "twice"] [] [x01; x01; x02; x02; x03; x03] true /\
  let one := [KProc 1; KProc 1; KProc 1; KRead; KProc 1; KRead] in
  exists k, krun (boot demo_sem (fun _ => ErrPipe) 1 [] true sp log)
     ([KProc 0] ++ one ++ [KProc 0] ++ one ++ [KProc 0] ++ one ++ [KProc 0; KProc 1; KProc 1; KRead])
     = Some k /\ k_eof k = true /\ k_got k = [x01; x01; x02; x02; x03; x03] /\
     kp_errout (k_procs k 1) = [x2a; x2a; x2a].
Proof.
  eexists. eexists. split; [reflexivity|]. split; [exact gen_twice_means|].
  eexists. split; [vm_compute; reflexivity|]. repeat split.
Qed.

(** The condition on stderr is needed: with a handle that is a pipe nobody reads, a command
    that complains more than the pipe holds stops for ever, whatever the size of the pipe,
    although its output is well defined. *)
Theorem C81_stderr_needed : forall cap, exists sem own c sp log out ok ls k,
  builder_spawn all_ok (fold_left builder_pipe [] (builder_new c)) = (Ok sp, log) /\
  pipes_through sem false [c] [] out ok /\ out <> [] /\
  krun (boot sem own cap [] true sp log) ls = Some k /\
  k_got k = [] /\ k_eof k = false /\ not_killed ls /\ ~ can_move k.
Proof.
  intros cap. set (p := PWrite x07 (PExit true)).
  exists (fun _ => noise (S cap) p), (fun _ => ErrPipe), (cmd_stderr_handle (cmd_new "a")).
  eexists. eexists. exists [x07], true, (repeat (KProc 0) cap).
  assert (G : forall n k, k_n k = 1 -> k_last k = 0 -> k_cap k = cap -> k_pipes k 0 = [] ->
    k_got k = [] -> k_eof k = false -> k_closed k = false ->
    kp_prog (k_procs k 0) = noise (S n) p -> kp_err (k_procs k 0) = ErrPipe ->
    kp_status (k_procs k 0) = Running -> List.length (kp_errout (k_procs k 0)) + n = cap ->
    exists k', krun k (repeat (KProc 0) n) = Some k' /\ k_got k' = [] /\ k_eof k' = false /\
               ~ can_move k').
  { induction n as [|n IH]; intros k En El Ec Epi Eg Ee Ecl Ep Er Es Hlen.
    - exists k. cbn [repeat krun]. repeat split; auto. intros (l & Hl & H). apply H.
      destruct l as [|i|]; [| |congruence]; cbn [kstep].
      + rewrite Ee, Ecl, El, Epi. cbn [orb]. unfold is_running. rewrite Es. reflexivity.
      + unfold kstep_proc. rewrite En. destruct i as [|i]; [|reflexivity].
        unfold is_running. rewrite Es, Ep, Er. cbn [noise Nat.ltb Nat.leb andb].
        destruct (Nat.ltb_spec (List.length (kp_errout (k_procs k 0))) (k_cap k)); [lia|reflexivity].
    - cbn [repeat krun kstep]. unfold kstep_proc. rewrite En. unfold is_running.
      rewrite Es, Ep, Er. cbn [noise Nat.ltb Nat.leb andb].
      destruct (Nat.ltb_spec (List.length (kp_errout (k_procs k 0))) (k_cap k)); [|lia].
      apply IH; cbn [set_proc k_procs]; rewrite ?upd_same; auto.
      cbn [with_errout kp_errout]. rewrite app_length. cbn. lia. }
  edestruct (G cap) as (k & Hk & Hg & He & Hm);
    [| | | | | | | | | | |exists k; split; [reflexivity|]; split; [|split; [discriminate|]; split;
       [exact Hk|]; repeat split; auto]]; try reflexivity.
  - apply pt_one. clear. induction cap as [|n IH]; [repeat constructor|]. apply tr_err. exact IH.
  - intros Hin. apply repeat_spec in Hin. discriminate.
Qed.

(** ** C61: what becomes of the processes in front of the last one

    Killing the last process ends the ones in front of it too, if they terminate on their
    input: they are stopped when they write, and they do not wait for a reader that is
    gone.  The kill may come at any time. *)
Theorem C61_upstream_partial : forall sem own cap input open o c cs sp log out ok,
  builder_spawn o (fold_left builder_pipe cs (builder_new c)) = (Ok sp, log) ->
  0 < cap -> (forall x, In x (c :: cs) -> cmd_own_stderr x = true -> own x = ErrFile) ->
  pipes_through sem (negb open) (c :: cs) input out ok ->
  exists N, forall ls k,
    krun (boot sem own cap input open sp log) ls = Some k -> In KKill ls ->
    work ls <= N /\ (can_move k \/ all_ended k).
Proof.
  intros sem own cap input open o c cs sp log out ok Hb Hcap Hown Hpt.
  destruct (boot_sound sem own cap input open o c cs sp log out ok Hb Hcap Hown Hpt)
    as (Sh & m & w & s & So).
  eexists. intros ls k Hr Hk.
  destruct (run_sound _ _ _ _ _ _ _ _ Sh So Hr) as (Sh' & m' & w' & So' & W).
  split; [eapply Nat.le_trans; [|exact W]; lia|].
  destruct (can_move_or_done _ _ _ _ _ _ Sh' So') as [X|[X _]]; auto.
Qed.

(** Not otherwise: a process in front that waits for the library's own stdin stays when the
    stream is gone. *)
Theorem C61_upstream_refuted : exists sem own cap c cs sp log ls k,
  builder_spawn all_ok (fold_left builder_pipe cs (builder_new c)) = (Ok sp, log) /\ 0 < cap /\
  krun (boot sem own cap [] true sp log) ls = Some k /\ In KKill ls /\
  ~ can_move k /\ kp_status (k_procs k 0) = Running.
Proof.
  exists (fun _ => cat), (fun _ => ErrFile), 4, (cmd_new "a"), [cmd_new "b"].
  eexists. eexists. exists [KKill]. eexists. split; [reflexivity|]. split; [lia|].
  split; [reflexivity|]. split; [left; reflexivity|]. split; [|reflexivity].
  intros (l & Hl & H). apply H. destruct l as [|[|[|i]]|]; [reflexivity..|congruence].
Qed.

(** [gen | twice] killed in the middle: [gen] dies of its next write. *)
Example C61_upstream_case : exists sp log,
  builder_spawn all_ok (fold_left builder_pipe [cmd_new "twice"] (builder_new (cmd_new "gen"))) = (Ok sp, log) /\
  exists k, krun (boot demo_sem (fun _ => ErrPipe) 1 [] true sp log)
     [KProc 0; KProc 1; KKill; KProc 0] = Some k /\
     map (fun i => kp_status (k_procs k i)) [0; 1] = [Died; Died] /\ all_ended k.
Proof.
  eexists. eexists. split; [reflexivity|]. eexists. split; [vm_compute; reflexivity|].
  split; [reflexivity|]. intros [|[|i]] Hi; [reflexivity..|]. cbn in Hi. lia.
Qed.

Print Assumptions C81_delivers.
Print Assumptions C81_never_stalls.
Print Assumptions C81_stderr_needed.
Print Assumptions C61_upstream_partial.
Print Assumptions C61_upstream_refuted.

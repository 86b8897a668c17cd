(** * Property C90: the error output of a failed command is reported. *)

From Coq Require Import String List Arith Lia Bool.
From Verif Require Import Base Process ProcessSpec ProcessFacts PropProcess Pipes PipesSpec PipesFacts
  Utf8 Stderr StderrSpec.
Import ListNotations.

Lemma prefix_refl {A} (a : list A) : prefix_of a a.
Proof. exists []. rewrite app_nil_r. reflexivity. Qed.
Lemma prefix_trans {A} (a b c : list A) : prefix_of a b -> prefix_of b c -> prefix_of a c.
Proof. intros [x ->] [y ->]. exists (x ++ y). rewrite app_assoc. reflexivity. Qed.
Lemma prefix_anti {A} (a b : list A) : prefix_of a b -> prefix_of b a -> a = b.
Proof.
  intros [x ->] [y E]. rewrite <- app_assoc in E. rewrite <- (app_nil_r a) in E at 1.
  apply app_inv_head in E. symmetry in E. apply app_eq_nil in E. destruct E as [-> _].
  rewrite app_nil_r. reflexivity.
Qed.

(** ** Processes only add to their stderr, and nothing after their end *)

Lemma upd_cases {A} (f : nat -> A) i x j (P : A -> Prop) :
  (i = j -> P x) -> P (f j) -> P (upd f i x j).
Proof. intros H1 H2. unfold upd. destruct (Nat.eqb_spec j i) as [->|]; auto. Qed.

Lemma kstep_written k l k' i : kstep k l = Some k' ->
  prefix_of (written k i) (written k' i) /\
  (ended k i -> ended k' i /\ written k' i = written k i) /\ k_last k' = k_last k.
Proof.
  intros H.
  assert (G : k_last k' = k_last k /\ (k_procs k' i = k_procs k i \/
    is_running (k_procs k i) = true /\ prefix_of (written k i) (written k' i))).
  { destruct l as [|j|]; cbn [kstep] in H.
    - destruct (k_eof k || k_closed k); [discriminate|].
      destruct (k_pipes k (k_last k)); [destruct (is_running _); [discriminate|]|];
        injection H as <-; cbn; auto.
    - unfold kstep_proc in H. destruct (j <? k_n k); [|discriminate].
      destruct (is_running (k_procs k j)) eqn:Er; [|discriminate]. cbn [andb] in H.
      assert (W : forall p (q : kproc), k_procs k' = upd (k_procs k) j p -> k_last k' = k_last k ->
        prefix_of (kp_errout (k_procs k j)) (kp_errout p) ->
        k_last k' = k_last k /\ (k_procs k' i = k_procs k i \/
        is_running (k_procs k i) = true /\ prefix_of (written k i) (written k' i))).
      { intros p _ E EL P. split; [exact EL|]. unfold written. rewrite E. unfold upd.
        destruct (Nat.eqb_spec i j) as [->|]; auto. }
      pose proof (prefix_refl (kp_errout (k_procs k j))) as PR.
      destruct (kp_prog (k_procs k j)) as [ok|b x|b x|f].
      + injection H as <-. eapply W; [exact (k_procs k j)|reflexivity|reflexivity|exact PR].
      + destruct (has_reader k j); [destruct (length (k_pipes k j) <? k_cap k); [|discriminate]|];
          injection H as <-; (eapply W; [exact (k_procs k j)|reflexivity|reflexivity|exact PR]).
      + assert (PA : prefix_of (kp_errout (k_procs k j)) (kp_errout (k_procs k j) ++ [b]))
          by (exists [b]; reflexivity).
        destruct (kp_err (k_procs k j)); [|destruct (length _ <? _); [|discriminate]];
          injection H as <-; (eapply W; [exact (k_procs k j)|reflexivity|reflexivity|exact PA]).
      + destruct (kp_in (k_procs k j)) as [|m].
        * destruct (k_stdin k); [destruct (k_stdin_open k); [discriminate|]|];
            injection H as <-; (eapply W; [exact (k_procs k j)|reflexivity|reflexivity|exact PR]).
        * destruct (k_pipes k m); [destruct (is_running (k_procs k m)); [discriminate|]|];
            injection H as <-; (eapply W; [exact (k_procs k j)|reflexivity|reflexivity|exact PR]).
    - injection H as <-. split; [reflexivity|]. cbn [set_closed set_proc k_procs]. unfold written.
      cbn [set_closed set_proc k_procs]. unfold upd. destruct (Nat.eqb_spec i (k_last k)) as [->|]; auto.
      destruct (is_running (k_procs k (k_last k))) eqn:E; auto. right.
      split; [reflexivity|]. apply prefix_refl. }
  destruct G as [EL [E|[R P]]].
  - unfold written, ended. rewrite E. split; [apply prefix_refl|]. auto.
  - split; [exact P|]. split; [|exact EL]. intros En. exfalso. apply En. apply done_running. exact R.
Qed.

Lemma krun_written ls : forall k k' i, krun k ls = Some k' ->
  prefix_of (written k i) (written k' i) /\
  (ended k i -> ended k' i /\ written k' i = written k i) /\ k_last k' = k_last k.
Proof.
  induction ls as [|l ls IH]; intros k k' i H; cbn [krun] in H.
  - injection H as <-. split; [apply prefix_refl|auto].
  - destruct (kstep k l) as [k1|] eqn:E; [|discriminate].
    destruct (kstep_written _ _ _ i E) as (P1 & E1 & L1). destruct (IH _ _ i H) as (P2 & E2 & L2).
    split; [eapply prefix_trans; eassumption|]. split; [|congruence]. intros En.
    destruct (E1 En) as [A1 B1]. destruct (E2 A1) as [A2 B2]. split; [exact A2|congruence].
Qed.

(** ** Which files there are *)

Lemma flags_started log : forall sem,
  started_procs sem (fun _ => ErrPipe) log = map (proc_of sem (fun _ => ErrPipe)) (started log) ->
  file_flags log = map (fun x => negb (cmd_own_stderr (fst x))) (started log).
Proof.
  intros sem. induction log as [|a log IH]; [reflexivity|]. destruct a as [|c i f kl]; [exact IH|].
  unfold started_procs, started, file_flags in *. cbn [flat_map app map]. intros H.
  injection H as E H. rewrite (IH H). f_equal. unfold proc_of in E. cbn [fst] in *.
  destruct f, (cmd_own_stderr c); congruence || discriminate || reflexivity.
Qed.

Lemma filter_ext_in' {A} (f g : A -> bool) l : (forall x, In x l -> f x = g x) -> filter f l = filter g l.
Proof.
  induction l as [|a l IH]; intros H; cbn; [reflexivity|].
  rewrite (H a (or_introl eq_refl)), IH; [reflexivity|]. intros x Hx. apply H. right. exact Hx.
Qed.

Lemma pipeline_commands cs : forall n i, map fst (piped n i cs) = cs.
Proof. induction cs as [|c cs IH]; intros n i; cbn; [reflexivity|]. rewrite IH. reflexivity. Qed.

Lemma files_managed o c cs sp log :
  builder_spawn o (fold_left builder_pipe cs (builder_new c)) = (Ok sp, log) ->
  stderr_files log = managed (c :: cs).
Proof.
  intros H. pose proof (C48_wired_in_order _ _ _ _ _ H) as (St & _).
  pose proof (builder_procs (fun _ => PExit true) (fun _ => ErrPipe) _ _ _ _ H) as P.
  apply flags_started in P. rewrite St in P.
  rewrite <- (map_map fst (fun c => negb (cmd_own_stderr c))) in P. unfold pipeline in P.
  rewrite pipeline_commands in P.
  unfold stderr_files, managed. rewrite P, map_length. apply filter_ext_in'.
  intros i Hi. apply in_seq in Hi.
  destruct (nth_error (c :: cs) i) as [x|] eqn:E.
  - apply nth_error_nth. rewrite nth_error_map, E. reflexivity.
  - apply nth_error_None in E. lia.
Qed.

(** ** Reading the files *)

Lemma messages_app a b : messages (a ++ b) = messages a ++ messages b.
Proof. apply flat_map_app. Qed.

Lemma close_messages e files : forall j, messages (close_stderr_files e j files) = [].
Proof.
  induction files as [|i files IH]; intros j; cbn [close_stderr_files]; [reflexivity|].
  rewrite messages_app, IH. destruct (io_close _); reflexivity.
Qed.

Lemma check_fine content : exists text,
  messages (check_file content io_fine) = [text] /\ logged_as content text.
Proof.
  unfold check_file, read_to_string. cbn [io_flush io_open io_read io_fine app].
  destruct (utf8_b content) eqn:E; cbn.
  - eexists. split; [reflexivity|]. left. apply utf8_spec in E. auto.
  - eexists. split; [reflexivity|]. right. split; [|reflexivity].
    intros X. apply utf8_spec in X. congruence.
Qed.

Definition reported (k k' : kernel) (i : nat) (text : list byte) : Prop :=
  exists content, prefix_of (written k i) content /\ prefix_of content (written k' i) /\
    logged_as content text.

Lemma check_reports e files : (forall j, e_io e j = io_fine) ->
  forall j k k' ls, check_stderr_files e j files k = Some (k', ls) ->
  Forall2 (reported k k') files (messages ls) /\
  (forall i, prefix_of (written k i) (written k' i)) /\
  (forall i, ended k i -> ended k' i /\ written k' i = written k i).
Proof.
  intros He. induction files as [|i files IH]; intros j k k' ls H; cbn [check_stderr_files] in H.
  - injection H as <- <-. split; [constructor|]. split; [intros; apply prefix_refl|auto].
  - destruct (krun k (e_steps e j)) as [k1|] eqn:E1; [|discriminate].
    destruct (check_stderr_files e (S j) files k1) as [[k2 l2]|] eqn:E2; [|discriminate].
    injection H as <- <-. destruct (IH _ _ _ _ E2) as (F & P & En). rewrite He.
    pose proof (fun i => krun_written _ _ _ i E1) as W.
    destruct (check_fine (kp_errout (k_procs k1 i))) as (t & Et & Lt).
    split; [|split].
    + rewrite messages_app, Et. cbn [app]. constructor.
      * exists (written k1 i). split; [apply W|]. split; [apply P|exact Lt].
      * clear -F W. induction F as [|a b l m (ct & P1 & P2 & L) F IHF]; constructor; [|exact IHF].
        exists ct. split; [|auto]. eapply prefix_trans; [apply W|exact P1].
    + intros a. eapply prefix_trans; [apply W|apply P].
    + intros a Ha. destruct (W a) as (_ & Wa & _). destruct (Wa Ha) as [A1 B1].
      destruct (En a A1) as [A2 B2]. split; [exact A2|congruence].
Qed.

(** The whole of [on_finish] when the stream has ended badly. *)
Lemma finish_reports sem own cap input open o c cs sp log ls k res out e r k' left lines :
  builder_spawn o (fold_left builder_pipe cs (builder_new c)) = (Ok sp, log) ->
  krun (boot sem own cap input open sp log) ls = Some k ->
  process_finish res out k (stderr_files log) e = Some (r, k', left, lines) ->
  healthy e -> ended_badly res out k ->
  Forall2 (reported k k') (managed (c :: cs)) (messages lines) /\
  (ended k' (sp_child sp) /\ written k' (sp_child sp) = written k (sp_child sp)) /\
  r = res /\ left = [].
Proof.
  intros Hb Hr Hf (Hw & Hk & Hio) Bad.
  rewrite <- (files_managed _ _ _ _ _ Hb). unfold process_finish in Hf. rewrite Hw, Hk in Hf.
  assert (EL : k_last k = sp_child sp) by exact (proj2 (proj2 (krun_written _ _ _ 0 Hr))).
  assert (Fin : forall k1 l0,
    (forall i, prefix_of (written k i) (written k1 i)) -> messages l0 = [] ->
    ended k1 (sp_child sp) -> written k1 (sp_child sp) = written k (sp_child sp) ->
    forall st, finish_act e (finish_act e (Some (k1, stderr_files log, l0)) FLogStderr) FCloseFiles = st ->
    match st with
    | Some (k', lft, lines) => Forall2 (reported k k') (stderr_files log) (messages lines) /\
        (ended k' (sp_child sp) /\ written k' (sp_child sp) = written k (sp_child sp)) /\ lft = []
    | None => True
    end).
  { intros k1 l0 P0 M0 En Wr st <-. cbn [finish_act].
    destruct (check_stderr_files e 0 (stderr_files log) k1) as [[k2 l2]|] eqn:E; [|exact I].
    cbn [finish_act]. rewrite !messages_app, M0, close_messages, app_nil_r. cbn [app].
    destruct (check_reports e _ Hio _ _ _ _ E) as (F & _ & X). split.
    - clear -F P0. induction F as [|a b l m (ct & P1 & P2 & L) F IHF]; constructor; [|exact IHF].
      exists ct. split; [|auto]. eapply prefix_trans; [apply P0|exact P1].
    - split; [|reflexivity]. destruct (X _ En) as [A B]. split; [exact A|congruence]. }
  destruct Bad as [[-> St]|[[x ->] ->]]; cbn [on_finish] in Hf.
  - assert (Es : succeeded_b (last_proc k) = false).
    { unfold succeeded_b, last_proc. destruct (kp_status _) as [|[]|]; congruence. }
    rewrite Es in Hf. cbn [negb app] in Hf. cbn [fold_left] in Hf. unfold finish_act at 3 in Hf.
    rewrite Hw in Hf. destruct (is_running (last_proc k)) eqn:Er; [discriminate|].
    rewrite Es in Hf. cbn [app] in Hf.
    assert (En : ended k (sp_child sp)).
    { rewrite <- EL. unfold ended, is_running, last_proc in *. intros X. rewrite X in Er. discriminate. }
    pose proof (Fin k [LExitStatus] (fun i => prefix_refl _) eq_refl En eq_refl _ eq_refl) as G.
    destruct (finish_act e (finish_act e _ _) _) as [[[k2 f2] l2]|] eqn:E; [|discriminate].
    injection Hf as <- <- <- <-. destruct G as (A & B & C). auto.
  - cbn [app] in Hf. cbn [fold_left] in Hf. unfold finish_act at 3 in Hf. rewrite Hk in Hf.
    destruct (kstep k KKill) as [k1|] eqn:E1; [|discriminate].
    assert (En : ended k1 (sp_child sp) /\ written k1 (sp_child sp) = written k (sp_child sp)).
    { rewrite <- EL. cbn [kstep] in E1. injection E1 as <-. unfold ended, written.
      cbn [set_closed set_proc k_procs]. rewrite upd_same. unfold is_running.
      destruct (kp_status (k_procs k (k_last k))) eqn:Es; cbn; rewrite ?Es; split; congruence || reflexivity. }
    pose proof (Fin k1 [] (fun i => proj1 (kstep_written _ _ _ i E1)) eq_refl (proj1 En) (proj2 En) _ eq_refl)
      as G.
    destruct (finish_act e (finish_act e _ _) _) as [[[k2 f2] l2]|] eqn:E; [|discriminate].
    injection Hf as <- <- <- <-. destruct G as (A & B & C). auto.
Qed.

(** ** C90 *)

(** When a pipeline has ended badly, the log gets one message for every command whose stderr
    is the library's, in the order of the commands.  It holds everything the command had
    written when the stream ended, and nothing the command has not written, provided it is
    text.  Missing with respect to C90: the message of a command whose output is not UTF-8
    is empty ([C90_not_text_refuted]), commands in front of the last one need not have
    finished writing ([C90_unfinished_refuted]). *)
Theorem C90_messages_partial : forall sem own cap input open o c cs sp log ls k res out e r k' left lines,
  builder_spawn o (fold_left builder_pipe cs (builder_new c)) = (Ok sp, log) ->
  krun (boot sem own cap input open sp log) ls = Some k ->
  process_finish res out k (stderr_files log) e = Some (r, k', left, lines) ->
  healthy e -> ended_badly res out k ->
  Forall2 (fun i text => exists content,
      prefix_of (written k i) content /\ prefix_of content (written k' i) /\ logged_as content text)
    (managed (c :: cs)) (messages lines).
Proof.
  intros sem own cap input open o c cs sp log ls k res out e r k' lft lines Hb Hr Hf He Bad.
  exact (proj1 (finish_reports _ _ _ _ _ _ _ _ _ _ _ _ _ _ _ _ _ _ _ Hb Hr Hf He Bad)).
Qed.

Lemma managed_last c cs : cmd_own_stderr (last (c :: cs) c) = false ->
  exists l, managed (c :: cs) = l ++ [List.length cs].
Proof.
  intros H. unfold managed. cbn [List.length]. rewrite seq_S, filter_app. eexists. f_equal.
  cbn [Nat.add filter].
  assert (E : nth_error (c :: cs) (List.length cs) = Some (last (c :: cs) c)).
  { clear H. generalize c at 3 as d. revert c. induction cs as [|x cs IH]; intros c d; [reflexivity|].
    exact (IH x d). }
  rewrite E, H. reflexivity.
Qed.

(** The last message is exactly what the last command, whose exit decides, has written
    to stderr in all its life, if it is text. *)
Theorem C90_last_partial : forall sem own cap input open o c cs sp log ls k res out e r k' left lines,
  builder_spawn o (fold_left builder_pipe cs (builder_new c)) = (Ok sp, log) ->
  krun (boot sem own cap input open sp log) ls = Some k ->
  process_finish res out k (stderr_files log) e = Some (r, k', left, lines) ->
  healthy e -> ended_badly res out k ->
  cmd_own_stderr (last (c :: cs) c) = false -> utf8 (written k (sp_child sp)) ->
  last (messages lines) [] = written k (sp_child sp) /\
  forall more k2, krun k' more = Some k2 -> written k2 (sp_child sp) = written k (sp_child sp).
Proof.
  intros sem own cap input open o c cs sp log ls k res out e r k' lft lines Hb Hr Hf He Bad Own U.
  destruct (finish_reports _ _ _ _ _ _ _ _ _ _ _ _ _ _ _ _ _ _ _ Hb Hr Hf He Bad)
    as (F & (En & Wr) & _).
  pose proof (C48_wired_in_order _ _ _ _ _ Hb) as (_ & Ec & _). split.
  - destruct (managed_last c cs Own) as [l El]. rewrite El in F.
    apply Forall2_app_inv_l in F. destruct F as (m1 & m2 & _ & F & ->).
    inversion F as [|a b ? ? (ct & P1 & P2 & L) F']; subst. inversion F'; subst. rewrite last_last.
    rewrite <- Ec in *. rewrite Wr in P2. pose proof (prefix_anti _ _ P1 P2) as <-.
    destruct L as [[_ ->]|[N _]]; [reflexivity|contradiction].
  - intros more k2 H2. destruct (krun_written _ _ _ (sp_child sp) H2) as (_ & X & _).
    destruct (X En) as [_ ->]. exact Wr.
Qed.

(** Whatever goes wrong with the files, the result of the stream is not changed by
    reporting, and the files are gone afterwards, unless the child cannot be waited for or
    killed; then the result is an error. *)
Theorem C90_result : forall res out k files e r k' left lines,
  process_finish res out k files e = Some (r, k', left, lines) -> res <> Panic ->
  e_wait e <> Panic -> e_kill e <> Panic ->
  (r = res /\ left = []) \/
  (exists x, r = Err x /\ ((res = Ok tt /\ e_wait e = Err x) \/ (res <> Ok tt /\ e_kill e = Err x))).
Proof.
  intros res out k files e r k' lft lines H NP NW NK. unfold process_finish in H.
  destruct res as [[]|x|]; [| |congruence]; cbn [on_finish] in H.
  - destruct (e_wait e) as [[]|y|] eqn:Ew; [|right|congruence].
    + left. destruct (fold_left _ _ _) as [[[k1 f1] l1]|] eqn:E; [|discriminate].
      injection H as <- <- <- <-. split; [reflexivity|].
      rewrite <- app_comm_cons in E. cbn [app] in E. rewrite app_comm_cons, fold_left_app in E.
      cbn [fold_left finish_act] in E. destruct (fold_left _ _ _) as [[[k0 f0] l0]|]; [|discriminate].
      injection E as _ <- _. reflexivity.
    + destruct (fold_left _ _ _) as [[[k1 f1] l1]|] eqn:E; [|discriminate].
      injection H as <- <- <- <-. exists y. auto.
  - destruct (e_kill e) as [[]|y|] eqn:Ew; [left|right|congruence].
    + destruct (fold_left _ _ _) as [[[k1 f1] l1]|] eqn:E; [|discriminate].
      injection H as <- <- <- <-. split; [reflexivity|].
      rewrite <- app_comm_cons in E. cbn [app] in E. rewrite app_comm_cons, fold_left_app in E.
      cbn [fold_left finish_act] in E. destruct (fold_left _ _ _) as [[[k0 f0] l0]|]; [|discriminate].
      injection E as _ <- _. reflexivity.
    + destruct (fold_left _ _ _) as [[[k1 f1] l1]|] eqn:E; [|discriminate].
      injection H as <- <- <- <-. exists y. split; [reflexivity|]. right. split; [discriminate|reflexivity].
Qed.

(** Two commands: the first complains and goes on, the second complains twice and fails. *)
Definition grumble_sem (c : command) : prog :=
  if (cmd_program c =? "first")%string then PErr x41 (PWrite x01 (PErr x42 (PExit true)))
  else PErr xc3 (PErr xa9 (PRead (fun _ => PExit false))).

Definition quiet_end (steps : nat -> list klabel) : ending :=
  mkEnding (Ok tt) (Ok tt) steps (fun _ => io_fine).

Example C90_case : exists sp log k k' lines,
  let c := cmd_new "first" in let d := cmd_new "second" in
  builder_spawn all_ok (fold_left builder_pipe [d] (builder_new c)) = (Ok sp, log) /\
  krun (boot grumble_sem (fun _ => ErrPipe) 4 [] true sp log)
    [KProc 0; KProc 1; KProc 0; KProc 1; KProc 1; KProc 1; KRead] = Some k /\
  process_finish (Ok tt) Completed k (stderr_files log) (quiet_end (fun _ => [])) =
    Some (Ok tt, k', [], lines) /\
  healthy (quiet_end (fun _ => [])) /\ ended_badly (Ok tt) Completed k /\
  cmd_own_stderr (last [c; d] c) = false /\ utf8 (written k (sp_child sp)) /\
  managed [c; d] = [0; 1] /\ lines = [LExitStatus; LStderr [x41]; LStderr [xc3; xa9]].
Proof.
  eexists. eexists. eexists. eexists. eexists. split; [reflexivity|]. split; [vm_compute; reflexivity|].
  split; [vm_compute; reflexivity|]. split; [repeat split|]. split; [left; split; [reflexivity|discriminate]|].
  split; [reflexivity|]. split; [apply utf8_spec; reflexivity|]. split; reflexivity.
Qed.

(** A broken pipe reader: the stream has failed, reading the first file fails as well. *)
Example C90_result_case : exists sp log k k' lines e,
  let c := cmd_new "first" in let d := cmd_new "second" in
  builder_spawn all_ok (fold_left builder_pipe [d] (builder_new c)) = (Ok sp, log) /\
  krun (boot grumble_sem (fun _ => ErrPipe) 4 [] true sp log) [KProc 0; KProc 1; KProc 1] = Some k /\
  e_io e 0 = mkIo true true (Some 0) false /\
  process_finish (Err EOther) Completed k (stderr_files log) e =
    Some (Err EOther, k', [], lines) /\
  lines = [LReadError; LStderr []; LStderr [xc3; xa9]; LCloseError].
Proof.
  eexists. eexists. eexists. eexists. eexists.
  exists (mkEnding (Ok tt) (Ok tt) (fun _ => [])
            (fun j => match j with 0 => mkIo true true (Some 0) false | _ => io_fine end)).
  split; [reflexivity|]. split; [vm_compute; reflexivity|]. split; [reflexivity|].
  split; [vm_compute; reflexivity|reflexivity].
Qed.

(** The full claim is that the error output of a command that fails gets into the log.  It
    does not: a command in front of the last one fails, the last one copes, and what the
    first one said is deleted unread (process/mod.rs:286-304). *)
Theorem C90_upstream_refuted : exists sem sp log ls k k' left lines,
  let c := cmd_new "first" in let d := cmd_new "second" in
  builder_spawn all_ok (fold_left builder_pipe [d] (builder_new c)) = (Ok sp, log) /\
  krun (boot sem (fun _ => ErrPipe) 4 [] true sp log) ls = Some k /\ k_eof k = true /\ not_killed ls /\
  kp_status (k_procs k 0) = Exited false /\ written k 0 = [x41; x42] /\
  process_finish (Ok tt) Completed k (stderr_files log) (quiet_end (fun _ => [])) =
    Some (Ok tt, k', left, lines) /\
  lines = [] /\ left = [].
Proof.
  exists (fun c => if (cmd_program c =? "first")%string then PErr x41 (PErr x42 (PExit false))
                   else PRead (fun _ => PExit true)).
  eexists. eexists. exists [KProc 0; KProc 0; KProc 0; KProc 1; KProc 1; KRead].
  eexists. eexists. eexists. eexists. split; [reflexivity|]. split; [vm_compute; reflexivity|].
  split; [reflexivity|]. split; [intros H; repeat (destruct H as [H|H]; [discriminate|]); destruct H|].
  split; [reflexivity|]. split; [reflexivity|].
  split; [vm_compute; reflexivity|]. split; reflexivity.
Qed.

(** A single byte that is not UTF-8 loses all a failed command has said. *)
Theorem C90_not_text_refuted : exists sem sp log ls k k' left lines,
  let c := cmd_new "only" in
  builder_spawn all_ok (fold_left builder_pipe [] (builder_new c)) = (Ok sp, log) /\
  krun (boot sem (fun _ => ErrPipe) 4 [] true sp log) ls = Some k /\ k_eof k = true /\ not_killed ls /\
  kp_status (k_procs k 0) = Exited false /\ written k 0 = [x41; x42; x43; xff] /\
  process_finish (Ok tt) Completed k (stderr_files log) (quiet_end (fun _ => [])) =
    Some (Ok tt, k', left, lines) /\
  messages lines = [[]].
Proof.
  exists (fun _ => PErr x41 (PErr x42 (PErr x43 (PErr xff (PExit false))))).
  eexists. eexists. exists [KProc 0; KProc 0; KProc 0; KProc 0; KProc 0; KRead].
  eexists. eexists. eexists. eexists. split; [reflexivity|]. split; [vm_compute; reflexivity|].
  split; [reflexivity|]. split; [intros H; repeat (destruct H as [H|H]; [discriminate|]); destruct H|].
  split; [reflexivity|]. split; [reflexivity|].
  split; [vm_compute; reflexivity|reflexivity].
Qed.

(** The commands in front of the last one are not waited for: what makes the pipeline fail
    may be said after the files have been read. *)
Theorem C90_unfinished_refuted : exists sem sp log ls k k' left lines more k2,
  let c := cmd_new "first" in let d := cmd_new "second" in
  builder_spawn all_ok (fold_left builder_pipe [d] (builder_new c)) = (Ok sp, log) /\
  krun (boot sem (fun _ => ErrPipe) 4 [] true sp log) ls = Some k /\ k_eof k = true /\ not_killed ls /\
  process_finish (Ok tt) Completed k (stderr_files log) (quiet_end (fun _ => [])) =
    Some (Ok tt, k', left, lines) /\
  ended_badly (Ok tt) Completed k /\ messages lines = [[]; [x43]] /\
  krun k' more = Some k2 /\ not_killed more /\
  kp_status (k_procs k2 0) = Exited false /\ written k2 0 = [x41].
Proof.
  exists (fun c => if (cmd_program c =? "first")%string then PWrite x01 (PErr x41 (PExit false))
                   else PRead (fun _ => PErr x43 (PExit false))).
  eexists. eexists. exists [KProc 0; KProc 1; KProc 1; KProc 1; KRead].
  eexists. eexists. eexists. eexists. exists [KProc 0; KProc 0]. eexists.
  split; [reflexivity|]. split; [vm_compute; reflexivity|].
  split; [reflexivity|]. split; [intros H; repeat (destruct H as [H|H]; [discriminate|]); destruct H|].
  split; [vm_compute; reflexivity|]. split; [left; split; [reflexivity|discriminate]|].
  split; [reflexivity|]. split; [vm_compute; reflexivity|].
  split; [intros H; repeat (destruct H as [H|H]; [discriminate|]); destruct H|].
  split; reflexivity.
Qed.

Print Assumptions C90_messages_partial.
Print Assumptions C90_last_partial.
Print Assumptions C90_result.
Print Assumptions C90_upstream_refuted.
Print Assumptions C90_not_text_refuted.
Print Assumptions C90_unfinished_refuted.

(** * Properties of process streams (C48-C50, C60, C61). *)

From Coq Require Import String List Arith Lia Bool.
From Verif Require Import Base Process ProcessSpec ProcessFacts.
Import ListNotations.
Local Open Scope string_scope.

(** ** C48: pipelines are wired in order *)

Theorem C48_wired_in_order : forall o c cs sp log,
  builder_spawn o (fold_left builder_pipe cs (builder_new c)) = (Ok sp, log) ->
  started log = pipeline (c :: cs) /\ sp_child sp = List.length cs /\
  sp_files sp = default_stderr (c :: cs).
Proof.
  intros o c cs sp log H. apply builder_spawn_spec in H. destruct H as (A & B & C & _). auto.
Qed.

(** The spawn never panics; it fails if a command cannot be started, and then only commands
    in front of the failing one, in order, have been started; it succeeds if the system
    grants everything. *)
Theorem C48_failure : forall o c cs r log,
  builder_spawn o (fold_left builder_pipe cs (builder_new c)) = (r, log) ->
  r <> Panic /\
  (exists k, started log = firstn k (pipeline (c :: cs))) /\
  (forall m, m <= List.length cs -> os_start_ok o m = false -> exists k, r = Err k) /\
  ((forall m, os_temp_ok o m = true) -> (forall m, m <= List.length cs -> os_start_ok o m = true) ->
   exists sp, r = Ok sp).
Proof.
  intros o c cs r log H. apply builder_spawn_spec in H. destruct r as [sp|k|]; [| |destruct H].
  - destruct H as (A & B & C & D). split; [discriminate|]. split.
    { exists (List.length (pipeline (c :: cs))). rewrite firstn_all. exact A. }
    split; [intros m Hm X; rewrite (D m Hm) in X; discriminate|eauto].
  - destruct H as (A & B). split; [discriminate|]. split; [exact A|]. split; [eauto|].
    intros Ht Hs. destruct B as [[m B]|(m & Hm & B)]; [rewrite Ht in B|rewrite Hs in B by exact Hm];
      discriminate.
Qed.

Definition all_ok : os := mkOs (fun _ => true) (fun _ => true).

Example C48_case :
  let cat := cmd_new "cat" in let sort := cmd_stderr_handle (cmd_new "sort") in
  let uniq := cmd_arg (cmd_new "uniq") "-c" in
  let b := fold_left builder_pipe [sort; uniq] (builder_new cat) in
  (exists log, builder_spawn all_ok b = (Ok (mkSpawned 2 2), log) /\
     started log = [(cat, StdinInherited); (sort, StdinPipe 0); (uniq, StdinPipe 1)]) /\
  exists log, builder_spawn (mkOs (fun _ => true) (fun n => Nat.ltb n 1)) b = (Err EOther, log) /\
     started log = [(cat, StdinInherited); (sort, StdinPipe 0)].
Proof. split; eexists; split; reflexivity. Qed.

(** ** C49: ffmpeg always writes to stdout last *)

Theorem C49_command_line : forall format calls,
  ffmpeg format calls =
  Some (mkCmd (last (paths calls) "ffmpeg")
          (["-i"; "pipe:"; "-map"; "a"; "-f"; format; "-loglevel"; "error"]
           ++ user_args calls ++ ["-"])%list false).
Proof.
  intros format calls. unfold ffmpeg, ffmpeg_new. rewrite cmd_add_args_spec. cbn [cmd_new cmd_program
    cmd_args cmd_own_stderr app].
  exact (ffmpeg_steps_spec calls "ffmpeg" false
           ["-i"; "pipe:"; "-map"; "a"; "-f"; format; "-loglevel"; "error"] "-").
Qed.

Example C49_case :
  option_map cmd_args (ffmpeg "adts" [FfArg "-ac"; FfPath "/bin/ff"; FfArgs ["2"; "-b"]]) =
  Some ["-i"; "pipe:"; "-map"; "a"; "-f"; "adts"; "-loglevel"; "error"; "-ac"; "2"; "-b"; "-"] /\
  option_map cmd_program (ffmpeg "adts" [FfArg "-ac"; FfPath "/bin/ff"]) = Some "/bin/ff".
Proof. split; reflexivity. Qed.

(** ** C50: a failing subprocess is reported *)

(** It is not: a download that ended well stays a success although the child exited with an
    error status; only a log line tells (process/mod.rs:286-306). *)
Theorem C50_refuted : exists out wait kill,
  wait = Ok false /\ fst (on_finish (Ok tt) out wait kill) = Ok tt.
Proof. exists Completed, (Ok false), (Ok tt). split; reflexivity. Qed.

(** Missing with respect to C50: an error status turns into a failure.  What does hold: a
    successful end waits for the child, an unsuccessful one kills it, an error is never
    turned into success, failing to wait or to kill is an error, the child's messages are
    logged whenever it failed by itself, and the stderr files are closed otherwise. *)
Theorem C50_partial : forall res out wait kill r acts,
  on_finish res out wait kill = (r, acts) ->
  (In FWait acts <-> res = Ok tt) /\
  (In FKill acts <-> exists k, res = Err k) /\
  (forall k, res = Err k -> r <> Ok tt) /\
  (forall k, res = Ok tt -> wait = Err k -> r = Err k) /\
  (forall k, res = Err k -> kill = Ok tt -> r = Err k) /\
  (forall k k', res = Err k -> kill = Err k' -> r = Err k') /\
  (res = Ok tt -> wait = Ok false -> In FLogStderr acts) /\
  (forall k, res = Err k -> kill = Ok tt -> (In FLogStderr acts <-> out = Completed)) /\
  ((res = Ok tt /\ exists b, wait = Ok b) \/ (exists k, res = Err k) /\ kill = Ok tt ->
   In FCloseFiles acts).
Proof.
  intros res out wait kill r acts. unfold on_finish.
  destruct res as [[]|k|]; [destruct wait as [[]|kw|]|destruct kill as [[]|kk|]|];
    try destruct out; intros H; injection H as <- <-; cbn;
    repeat split; intros; cbn in *;
    repeat match goal with
    | H : exists _, _ |- _ => destruct H
    | H : _ /\ _ |- _ => destruct H
    | H : _ \/ _ |- _ => destruct H
    end; try discriminate; try tauto; try congruence; eauto.
Qed.

Example C50_case :
  on_finish (Ok tt) Completed (Ok true) (Ok tt) = (Ok tt, [FWait; FCloseFiles]) /\
  on_finish (Err EOther) CancelledByUser (Ok true) (Ok tt) = (Err EOther, [FKill; FCloseFiles]) /\
  on_finish (Err EOther) Completed (Ok true) (Ok tt) = (Err EOther, [FKill; FLogStderr; FCloseFiles]).
Proof. repeat split. Qed.

(** ** C60: yt-dlp command lines *)

(** Whatever the order of the builder calls: the URL first, output to stdout, [-x] exactly
    when audio extraction was last switched on, the last format given. *)
Theorem C60_command_line : forall url calls,
  ytdlp_command (fold_left ytdlp_step calls (ytdlp_new url)) =
  mkCmd (last (yt_paths calls) "yt-dlp")
    ([url; "--quiet"; "--no-part"; "--no-continue"; "-o"; "-"]
     ++ (if last (yt_extracts calls) false then ["-x"] else [])
     ++ match last (yt_formats calls) None with Some f => ["-f"; f] | None => [] end)%list false.
Proof.
  intros url calls. rewrite ytdlp_steps. unfold ytdlp_command. cbn [yt_url yt_cmd yt_extract yt_format
    ytdlp_new].
  rewrite cmd_add_args_spec. cbn [cmd_new cmd_args cmd_program cmd_own_stderr app].
  destruct (last (yt_extracts calls) false), (last (yt_formats calls) None) as [f|];
    rewrite ?cmd_add_args_spec; reflexivity.
Qed.

Example C60_case :
  cmd_args (ytdlp_command (fold_left ytdlp_step
     [YtFormat "m4a"; YtExtract true; YtFormat "mp3"; YtPath "/opt/yt"] (ytdlp_new "http://x/"))) =
  ["http://x/"; "--quiet"; "--no-part"; "--no-continue"; "-o"; "-"; "-x"; "-f"; "mp3"].
Proof. reflexivity. Qed.

(** ** C61: the processes of a pipeline end with the stream *)

(** Only the last process is killed with the stream; the ones in front of it are not
    ([std::process::Child], command_builder.rs:43-66). *)
Theorem C61_refuted : exists o c cs sp log,
  builder_spawn o (fold_left builder_pipe cs (builder_new c)) = (Ok sp, log) /\
  In false (killed_with_stream log).
Proof.
  exists all_ok, (cmd_new "yt-dlp"), [cmd_new "ffmpeg"]. eexists. eexists.
  split; [reflexivity|]. left. reflexivity.
Qed.

(** Missing with respect to C61: all processes but the last. *)
Theorem C61_last_partial : forall o c cs sp log,
  builder_spawn o (fold_left builder_pipe cs (builder_new c)) = (Ok sp, log) ->
  List.length (killed_with_stream log) = S (List.length cs) /\
  nth_error (killed_with_stream log) (sp_child sp) = Some true.
Proof.
  intros o c cs sp log H. pose proof (C48_wired_in_order _ _ _ _ _ H) as (_ & -> & _).
  apply builder_spawn_kill in H. rewrite H, app_length, repeat_length. split; [cbn; lia|].
  rewrite nth_error_app2; rewrite repeat_length; [rewrite Nat.sub_diag; reflexivity|lia].
Qed.

(** A single command is killed with the stream. *)
Theorem C61_single_partial : forall o c sp log,
  command_spawn o c = (Ok sp, log) -> killed_with_stream log = [true].
Proof.
  intros o c sp log H. unfold command_spawn, spawned_new in H.
  destruct (start_one o c None true 0 []) as [[[x f]|k|] l] eqn:E; try discriminate.
  injection H as _ <-. apply start_one_kill in E. exact E.
Qed.

Example C61_case : exists sp log,
  builder_spawn all_ok (fold_left builder_pipe [cmd_new "b"; cmd_new "c"] (builder_new (cmd_new "a")))
    = (Ok sp, log) /\ killed_with_stream log = [false; false; true].
Proof. eexists. eexists. split; reflexivity. Qed.

Print Assumptions C48_wired_in_order.
Print Assumptions C48_failure.
Print Assumptions C49_command_line.
Print Assumptions C50_refuted.
Print Assumptions C50_partial.
Print Assumptions C60_command_line.
Print Assumptions C61_refuted.
Print Assumptions C61_last_partial.
Print Assumptions C61_single_partial.

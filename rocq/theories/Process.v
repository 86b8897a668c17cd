(** * Process: command pipelines, ffmpeg and yt-dlp, end of a process stream
    (crates/stream-download/src/process). *)

From Coq Require Import List Arith Bool String.
From Verif Require Import Base.
Import ListNotations.
Local Open Scope string_scope.

(** ** Commands (process/mod.rs:49-113)

    [cmd_own_stderr] says whether the caller supplied a stderr handle. *)
Record command := mkCmd {
  cmd_program : string;
  cmd_args : list string;
  cmd_own_stderr : bool }.

(** [Command::new] (process/mod.rs:57-66). *)
Definition cmd_new (program : string) : command := mkCmd program [] false.
(** [Command::arg] (process/mod.rs:83-89). *)
Definition cmd_arg (c : command) (a : string) : command :=
  mkCmd (cmd_program c) (cmd_args c ++ [a])%list (cmd_own_stderr c).
(** [Command::args] (process/mod.rs:70-79). *)
Definition cmd_add_args (c : command) (l : list string) : command := fold_left cmd_arg l c.
(** [Vec::insert] (process/mod.rs:96): [None] is the panic for an index beyond the length. *)
Definition vec_insert (l : list string) (n : nat) (a : string) : option (list string) :=
  if Nat.leb n (List.length l) then Some (firstn n l ++ a :: skipn n l)%list else None.
(** [Command::insert_arg] (process/mod.rs:92-98). *)
Definition cmd_insert_arg (c : command) (n : nat) (a : string) : option command :=
  option_map (fun l => mkCmd (cmd_program c) l (cmd_own_stderr c)) (vec_insert (cmd_args c) n a).
(** [Command::stderr_handle] (process/mod.rs:106-112). *)
Definition cmd_stderr_handle (c : command) : command := mkCmd (cmd_program c) (cmd_args c) true.

(** ** Spawning

    What the operating system is asked to do, in order.  A child is known by the number
    of its start. *)
Inductive stdin_from := StdinInherited | StdinPipe (child : nat).

Inductive os_call :=
| OsTempFile                                           (* a file for stderr *)
| OsStart (c : command) (input : stdin_from) (stderr_to_file : bool) (kill_on_drop : bool).

(** The operating system: whether the n-th temporary file and the n-th process start
    succeed. *)
Record os := mkOs { os_temp_ok : nat -> bool; os_start_ok : nat -> bool }.

(** Number of earlier calls of each sort. *)
Definition is_temp (c : os_call) : bool := match c with OsTempFile => true | _ => false end.
Definition temps (log : list os_call) : nat := List.length (filter is_temp log).
Definition starts (log : list os_call) : nat :=
  List.length (filter (fun c => negb (is_temp c)) log).

(** A spawned command: the child whose stdout is read, and the number of stderr files
    ([SpawnedCommand], process/mod.rs:123-126). *)
Record spawned := mkSpawned { sp_child : nat; sp_files : nat }.

(** The common part of both spawn functions: stderr (process/mod.rs:137-143,
    command_builder.rs:47-53), stdin (process/mod.rs:145-147, command_builder.rs:62-64),
    start (process/mod.rs:157, command_builder.rs:65).  [log] is in order of time. *)
Definition start_one (o : os) (c : command) (prev : option nat) (kill : bool) (files : nat)
    (log : list os_call) : result (nat * nat) * list os_call :=
  let input := match prev with Some k => StdinPipe k | None => StdinInherited end in
  let go files log file :=
    let log' := (log ++ [OsStart c input file kill])%list in
    if os_start_ok o (starts log) then (Ok (starts log, files), log') else (Err EOther, log') in
  if cmd_own_stderr c then go files log false
  else
    let log' := (log ++ [OsTempFile])%list in
    if os_temp_ok o (temps log) then go (S files) log' true else (Err EOther, log').

(** [SpawnedCommand::new] (process/mod.rs:129-160). *)
Definition spawned_new (o : os) (c : command) (prev : option nat) (files : nat)
    (log : list os_call) : result spawned * list os_call :=
  match start_one o c prev true files log with
  | (Ok (child, files), log) => (Ok (mkSpawned child files), log)
  | (Err k, log) => (Err k, log)
  | (Panic, log) => (Panic, log)
  end.

(** [Command::spawn] (process/mod.rs:115-119). *)
Definition command_spawn (o : os) (c : command) : result spawned * list os_call :=
  spawned_new o c None 0 [].

(** [CommandBuilder] (command_builder.rs:9-34): the list of commands. *)
Definition builder_new (c : command) : list command := [c].
Definition builder_pipe (b : list command) (c : command) : list command := (b ++ [c])%list.

(** The loop of [CommandBuilder::spawn] (command_builder.rs:42-67) followed by the last
    command (command_builder.rs:68).  The children started in the loop are
    [std::process::Child]ren, which are not killed when dropped. *)
Fixpoint spawn_loop (o : os) (cs : list command) (last : command) (prev : option nat)
    (files : nat) (log : list os_call) : result spawned * list os_call :=
  match cs with
  | [] => spawned_new o last prev files log
  | c :: cs =>
      match start_one o c prev false files log with
      | (Ok (child, files), log) => spawn_loop o cs last (Some child) files log
      | (Err k, log) => (Err k, log)
      | (Panic, log) => (Panic, log)
      end
  end.

(** [CommandBuilder::spawn] (command_builder.rs:36-69). *)
Definition builder_spawn (o : os) (b : list command) : result spawned * list os_call :=
  match rev b with
  | [] => (Panic, [])
  | last :: front => spawn_loop o (rev front) last None 0 []
  end.

(** ** ffmpeg (process/ffmpeg.rs) *)

(** [FfmpegConvertAudioCommand::new] (ffmpeg.rs:19-38). *)
Definition ffmpeg_new (format : string) : command :=
  cmd_add_args (cmd_new "ffmpeg")
    ["-i"; "pipe:"; "-map"; "a"; "-f"; format; "-loglevel"; "error"; "-"].

Inductive ffmpeg_call := FfPath (p : string) | FfArg (a : string) | FfArgs (l : list string).

(** [arg] (ffmpeg.rs:52-60): [len() - 1] panics on an empty list. *)
Definition ffmpeg_arg (c : option command) (a : string) : option command :=
  match c with
  | Some c => match List.length (cmd_args c) with
              | 0 => None
              | S n => cmd_insert_arg c n a
              end
  | None => None
  end.

(** [ffmpeg_path], [arg], [args] (ffmpeg.rs:42-74). *)
Definition ffmpeg_step (c : option command) (k : ffmpeg_call) : option command :=
  match k with
  | FfPath p => option_map (fun c => mkCmd p (cmd_args c) (cmd_own_stderr c)) c
  | FfArg a => ffmpeg_arg c a
  | FfArgs l => fold_left ffmpeg_arg l c
  end.

(** A chain of builder calls; [None] is a panic. *)
Definition ffmpeg (format : string) (calls : list ffmpeg_call) : option command :=
  fold_left ffmpeg_step calls (Some (ffmpeg_new format)).

(** ** yt-dlp (process/yt_dlp.rs) *)

(** [YtDlpCommand] (yt_dlp.rs:8-13). *)
Record ytdlp := mkYt {
  yt_url : string; yt_cmd : string; yt_extract : bool; yt_format : option string }.

(** [YtDlpCommand::new] (yt_dlp.rs:29-39). *)
Definition ytdlp_new (url : string) : ytdlp := mkYt url "yt-dlp" false None.

Inductive ytdlp_call := YtExtract (b : bool) | YtFormat (f : string) | YtPath (p : string).

(** [extract_audio], [format], [yt_dlp_path] (yt_dlp.rs:66-90). *)
Definition ytdlp_step (y : ytdlp) (k : ytdlp_call) : ytdlp :=
  match k with
  | YtExtract b => mkYt (yt_url y) (yt_cmd y) b (yt_format y)
  | YtFormat f => mkYt (yt_url y) (yt_cmd y) (yt_extract y) (Some f)
  | YtPath p => mkYt (yt_url y) p (yt_extract y) (yt_format y)
  end.

(** [into_command] (yt_dlp.rs:43-62). *)
Definition ytdlp_command (y : ytdlp) : command :=
  let c := cmd_add_args (cmd_new (yt_cmd y))
             [yt_url y; "--quiet"; "--no-part"; "--no-continue"; "-o"; "-"] in
  let c := if yt_extract y then cmd_arg c "-x" else c in
  match yt_format y with Some f => cmd_add_args c ["-f"; f] | None => c end.

(** ** End of a process stream ([on_finish], process/mod.rs:281-307) *)

Inductive outcome := Completed | CancelledByUser.

(** What the call does to the child and to the stderr files. *)
Inductive finish_action := FWait | FKill | FLogStderr | FCloseFiles.

(** [wait] is the result of waiting for the child ([Ok true]: success status), [kill] that
    of killing it. *)
Definition on_finish (res : result unit) (out : outcome) (wait : result bool) (kill : result unit) :
    result unit * list finish_action :=
  let tail (check : bool) acts :=
    (res, (acts ++ (if check then [FLogStderr] else []) ++ [FCloseFiles])%list) in
  match res with
  | Ok _ =>
      match wait with
      | Ok success => tail (negb success) [FWait]
      | Err k => (Err k, [FWait])
      | Panic => (Panic, [FWait])
      end
  | Err _ =>
      match kill with
      | Ok _ => tail (match out with Completed => true | CancelledByUser => false end) [FKill]
      | Err k => (Err k, [FKill])
      | Panic => (Panic, [FKill])
      end
  | Panic => (Panic, [])
  end.

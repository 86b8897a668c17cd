(** * Specification: reporting the error output of commands. *)

From Coq Require Import List Arith Bool.
From Verif Require Import Base Process Pipes PipesSpec Utf8 Stderr.
Import ListNotations.

(** The places of the commands whose stderr the caller left to the library. *)
Definition managed (cs : list command) : list nat :=
  filter (fun i => match nth_error cs i with Some c => negb (cmd_own_stderr c) | None => false end)
         (seq 0 (length cs)).

(** What command number [i] has written to stderr so far. *)
Definition written (k : kernel) (i : nat) : list byte := kp_errout (k_procs k i).

Definition ended (k : kernel) (i : nat) : Prop := kp_status (k_procs k i) <> Running.

(** The texts of the log that come from stderr. *)
Definition messages (ls : list line) : list (list byte) :=
  flat_map (fun l => match l with LStderr t => [t] | _ => [] end) ls.

(** The operating system does what it is asked for. *)
Definition healthy (e : ending) : Prop :=
  e_wait e = Ok tt /\ e_kill e = Ok tt /\ forall j, e_io e j = io_fine.

(** The stream ended well but the last command did not, or the stream failed and the user
    has not cancelled it. *)
Definition ended_badly (res : result unit) (out : outcome) (k : kernel) : Prop :=
  (res = Ok tt /\ kp_status (k_procs k (k_last k)) <> Exited true) \/
  ((exists x, res = Err x) /\ out = Completed).

(** What becomes of the contents of a file in the log: text is kept, other bytes are lost. *)
Definition logged_as (content text : list byte) : Prop :=
  (utf8 content /\ text = content) \/ (~ utf8 content /\ text = []).

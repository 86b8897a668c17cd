(** * Specification of how a source is used by the download task. *)

From Coq Require Import List.
From Verif Require Import Base System Process Calls.
Import ListNotations.

(** The user has cancelled the download, or dropped a reader that cancels it. *)
Definition user_cancelled (c : cfg) (ls : list label) : Prop :=
  In LUserCancel ls \/ (c_cancel_on_drop c = true /\ In LDrop ls).

(** The storage or a range request has failed. *)
Definition something_failed (ls : list label) : Prop :=
  In LDIoErr ls \/ In (LDSeekRes false) ls.

(** What the source is told at the end is how the download went, [before] being the calls
    made before. *)
Definition truthful (c : cfg) (ls : list label) (before : list call) (r : finish_arg) (o : outcome) : Prop :=
  match o, r with
  | CancelledByUser, FInterrupted => user_cancelled c ls
  | Completed, FOk => exists k, before = k ++ [CNext NEnd]
  | Completed, FError => something_failed ls
  | _, _ => False
  end.

(** The task has come to its end, not by a panic. *)
Definition task_over (s : gstate) : Prop := g_dpc s = DEnd.

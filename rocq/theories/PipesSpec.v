(** * Specification of running pipelines. *)

From Coq Require Import List Arith Bool.
From Verif Require Import Base Process Pipes.
Import ListNotations.

(** The program terminates on the input, with this output and exit status.  It need not
    read all of the input; it may read the end of the input only if the input [ends]. *)
Inductive transforms (ends : bool) : prog -> list byte -> list byte -> bool -> Prop :=
| tr_exit : forall ok input, transforms ends (PExit ok) input [] ok
| tr_write : forall b k input output ok,
    transforms ends k input output ok -> transforms ends (PWrite b k) input (b :: output) ok
| tr_err : forall b k input output ok,
    transforms ends k input output ok -> transforms ends (PErr b k) input output ok
| tr_read : forall f b input output ok,
    transforms ends (f (Some b)) input output ok -> transforms ends (PRead f) (b :: input) output ok
| tr_eof : forall f output ok, ends = true ->
    transforms ends (f None) [] output ok -> transforms ends (PRead f) [] output ok.

(** [c1 | c2 | ...] turns [input] into [output], and the last command exits with [ok]. *)
Inductive pipes_through (sem : command -> prog) :
  bool -> list command -> list byte -> list byte -> bool -> Prop :=
| pt_one : forall ends c x y ok, transforms ends (sem c) x y ok -> pipes_through sem ends [c] x y ok
| pt_more : forall ends c cs x y ok z ok', transforms ends (sem c) x y ok ->
    pipes_through sem true cs y z ok' -> pipes_through sem ends (c :: cs) x z ok'.

(** The library has not killed the pipeline. *)
Definition not_killed (ls : list klabel) : Prop := ~ In KKill ls.

(** The steps other than killing. *)
Definition work (ls : list klabel) : nat :=
  length (filter (fun l => match l with KKill => false | _ => true end) ls).

(** Something other than killing can happen. *)
Definition can_move (k : kernel) : Prop :=
  exists l, l <> KKill /\ kstep k l <> None.

(** All processes have ended. *)
Definition all_ended (k : kernel) : Prop :=
  forall i, i < k_n k -> is_running (k_procs k i) = false.

Definition prefix_of {A} (a b : list A) : Prop := exists c, b = a ++ c.

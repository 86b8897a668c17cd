(** * Specification of downloads from running pipelines. *)

From Coq Require Import List Arith ZArith Bool.
From Verif Require Import Base Storage System Spec Process ProcessSpec Pipes PipesSpec Source Pipeline.
Import ListNotations.

(** The commands [c | cs], which turn [input] into [out] and end with status [ok], have been
    started, and the stream over them is downloaded with the configuration [c0] and, if
    any, the announced length [clen], which is right.  Handles the caller has given for
    stderr do not block. *)
Record pipeline_setup (sem : command -> prog) (own : command -> errdest) (cap : nat)
    (input : list byte) (open : bool) (o : os) (c : command) (cs : list command) (sp : spawned)
    (log : list os_call) (out : list byte) (ok : bool) (clen : option nat) (c0 : cfg) : Prop := mkSetup {
  ps_spawn : builder_spawn o (fold_left builder_pipe cs (builder_new c)) = (Ok sp, log);
  ps_cap : 0 < cap;
  ps_stderr : forall x, In x (c :: cs) -> cmd_own_stderr x = true -> own x = ErrFile;
  ps_means : pipes_through sem (negb open) (c :: cs) input out ok;
  ps_clen : clen = None \/ clen = Some (length out);
  ps_content : c_content c0 = out;
  ps_size : (Z.of_nat (length out) < two64 / 2)%Z;
  ps_batch : 0 < c_batch c0 }.

(** The actions of the task and the reader, and the number of actions of the processes. *)
Definition sys_labels (pls : list plabel) : list label :=
  flat_map (fun pl => match pl with PSys l => [l] | _ => [] end) pls.
Definition process_steps (pls : list plabel) : nat :=
  length (filter (fun pl => match pl with PProc _ => true | _ => false end) pls).

(** Every action of the task or the reader satisfies [P] in the state it is taken in. *)
Fixpoint pallowed (clen : option nat) (c : cfg) (P : gstate -> label -> Prop) (cs : csys kernel)
    (pls : list plabel) : Prop :=
  match pls with
  | [] => True
  | pl :: t =>
      match pl with PSys l => P (cs_sys cs) l | _ => True end /\
      match pstep clen c cs pl with Some cs' => pallowed clen c P cs' t | None => True end
  end.

(** Reading the pipe does not fail and the processes are never given up for silent. *)
Definition patient : gstate -> label -> Prop :=
  fun _ l => match l with LDErr | LDTimeout _ => False | _ => True end.

(** The client reads and never seeks; the processes may be silent for a while, but not while
    a chunk is waiting to be stored. *)
Definition streams_only : gstate -> label -> Prop :=
  fun s l =>
    match l with
    | LDErr | LOp (OSeek _) => False
    | LDTimeout _ => g_rem s = None
    | _ => True
    end.

(** An action that somebody takes of their own accord: the task, the reader or a process. *)
Definition moves (cs : csys kernel) (pl : plabel) : Prop :=
  match pl with
  | PSys l => action l = true /\ patient (cs_sys cs) l
  | PProc _ => True
  | PDropStream => False
  end.

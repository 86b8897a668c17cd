(** * Specification of the requested position, the settings and initialisation.

    Independent of the functions of Config.v: only its operation types are used. *)

From Coq Require Import List ZArith Bool.
From Verif Require Import Base Config.
Import ListNotations.

(** What the most recent operation registered: the position, or nothing. *)
Definition registered (ops : list rp_op) : option Z :=
  match rev ops with
  | RpSet p :: _ => Some p
  | RpClear :: _ => None
  | [] => None
  end.

(** All registered positions are 64-bit values other than the largest one. *)
Definition proper_positions (ops : list rp_op) : Prop :=
  forall p, In (RpSet p) ops -> (0 <= p < 2 ^ 64 - 1)%Z.

(** The values passed, in order, to the builder method of one setting. *)
Definition given {F G A} (kind : setter F G -> option A) (cs : list (setter F G)) : list A :=
  flat_map (fun c => match kind c with Some a => [a] | None => [] end) cs.

Definition to_prefetch {F G} (c : setter F G) := match c with SetPrefetch n => Some n | _ => None end.
Definition to_batch {F G} (c : setter F G) := match c with SetBatch n => Some (Npos n) | _ => None end.
Definition to_timeout {F G} (c : setter F G) := match c with SetTimeout n => Some n | _ => None end.
Definition to_cancel {F G} (c : setter F G) := match c with SetCancel b => Some b | _ => None end.
Definition to_progress {F G} (c : setter F G) :=
  match c with SetProgress f => Some (Some f) | _ => None end.
Definition to_reconnect {F G} (c : setter F G) :=
  match c with SetReconnect f => Some (Some f) | _ => None end.

(** * Synchronisation invariant: requested position, waiter flags and program counters.

    Holds in every reachable state, whatever the storage, client and transport. *)

From Coq Require Import List Arith Lia ZArith Bool.
From Verif Require Import Base RangeSet Storage System Spec StepTac.
Import ListNotations.

(** The task has cleared the requested position and is about to notify. *)
Definition is_notify (d : dpc) : bool :=
  match d with DWNotify _ _ _ _ => true | _ => false end.

(** The task has stopped transferring data. *)
Definition is_final (d : dpc) : bool :=
  match d with
  | DReport | DOnFinish _ | DSetFailed | DSignal | DCancelTok | DEnd => true
  | _ => false
  end.

Definition sync_wait (s : gstate) : Prop :=
  match wait_target (g_rpc s) with
  | Some t =>
      (g_req s = Some t /\ g_reached s = false /\ is_notify (g_dpc s) = false) \/
      (g_req s = None /\ g_reached s = true /\ is_notify (g_dpc s) = false) \/
      (g_req s = None /\ g_reached s = false /\ is_notify (g_dpc s) = true)
  | None => g_req s = None /\ g_reached s = false /\ is_notify (g_dpc s) = false
  end.

Record sync (s : gstate) : Prop := mkSync
  { sy_done : g_done s = true -> is_final (g_dpc s) = true;
    sy_final : (match g_dpc s with
                | DReport | DOnFinish true | DCancelTok | DEnd => True | _ => False end) ->
               g_done s = true;
    sy_fail : g_failed s = true ->
              match g_dpc s with DSignal | DCancelTok | DEnd => True | _ => False end;
    sy_succ : match g_dpc s with DSignal | DCancelTok | DEnd => True | _ => False end ->
              g_failed s = true \/ g_done s = true;
    sy_wait : g_done s = false -> sync_wait s }.

Lemma sync_init : forall c s, init c = Some s -> sync s.
Proof.
  intros c s H. unfold init in H. destruct (into_rw _ _); [|discriminate].
  injection H as <-. constructor; cbn; try discriminate; try contradiction.
  intros _. unfold sync_wait; cbn; auto.
Qed.

Lemma sync_step : forall c s l s', sync s -> step c s l = Some s' -> sync s'.
Proof.
  intros c s l s' [H1 H2 H3 H4 H5] H.
  step_cases H; constructor; gsimpl; unfold sync_wait in *; gsimpl;
    repeat match goal with
    | E : g_dpc _ = _ |- _ => rewrite E in *; clear E
    | E : g_rpc _ = _ |- _ => rewrite E in *; clear E
    | E : g_req _ = _ |- _ => rewrite E in *; clear E
    | E : g_reached _ = _ |- _ => rewrite E in *; clear E
    | E : g_done _ = _ |- _ => rewrite E in *; clear E
    | E : g_failed _ = _ |- _ => rewrite E in *; clear E
    end; cbn [is_notify is_final wait_target] in *; auto; try discriminate;
    try solve [intuition (try discriminate; try congruence)].
  all: intros; try match goal with |- context [if ?b then _ else _] => destruct b end;
    cbn [is_notify is_final wait_target] in *;
    try solve [intuition (try discriminate; try congruence)].
  all: try match goal with H : (_ && ?b)%bool = true |- _ => apply andb_prop in H as [_ H]; subst b end;
    try match goal with |- context [wait_target ?r] => destruct (wait_target r) end;
    intuition (try discriminate; try congruence).
Qed.

Lemma sync_reach : forall c allow s, reach c allow s -> sync s.
Proof. induction 1; eauto using sync_init, sync_step. Qed.

(** * Properties of the requested position, the settings and initialisation (C52, C54, C55). *)

From Coq Require Import List Arith Lia ZArith Bool.
From Verif Require Import Base Storage Config ConfigSpec.
Import ListNotations.

(** ** C52: requested positions survive the atomic encoding *)

Lemma registered_app ops o :
  registered (ops ++ [o]) = match o with RpSet p => Some p | RpClear => None end.
Proof. unfold registered. rewrite rev_app_distr. destruct o; reflexivity. Qed.

Theorem C52_request_round_trip : forall ops,
  proper_positions ops ->
  rp_get (fold_left rp_step ops rp_default) = registered ops.
Proof.
  intros ops H. destruct ops as [|o ops _] using rev_ind; [reflexivity|].
  rewrite fold_left_app, registered_app. destruct o as [p|]; [|reflexivity].
  assert (Hp : (0 <= p < 2 ^ 64 - 1)%Z) by (apply H; apply in_or_app; right; left; reflexivity).
  cbn [fold_left rp_step]. unfold rp_set, rp_get, as_i64, as_u64.
  destruct (p <? 2 ^ 63)%Z eqn:E1; [apply Z.ltb_lt in E1|apply Z.ltb_ge in E1].
  - destruct (p =? -1)%Z eqn:E2; [apply Z.eqb_eq in E2; lia|].
    destruct (p <? 0)%Z eqn:E3; [apply Z.ltb_lt in E3; lia|reflexivity].
  - destruct (p - 2 ^ 64 =? -1)%Z eqn:E2; [apply Z.eqb_eq in E2; lia|].
    destruct (p - 2 ^ 64 <? 0)%Z eqn:E3; [|apply Z.ltb_ge in E3; lia].
    f_equal. lia.
Qed.

(** The bound is sharp: the largest 64-bit position reads as absent. *)
Theorem C52_largest_is_lost : forall cell, rp_get (rp_set cell (2 ^ 64 - 1)) = None.
Proof. reflexivity. Qed.

(** Positions on both sides of the sign bit, and the largest admissible one. *)
Example C52_case :
  proper_positions [RpSet 7; RpClear; RpSet (2 ^ 63); RpSet (2 ^ 64 - 2)]%Z /\
  rp_get (fold_left rp_step [RpSet 7; RpClear; RpSet (2 ^ 63); RpSet (2 ^ 64 - 2)]%Z rp_default)
    = Some (2 ^ 64 - 2)%Z /\
  rp_get (fold_left rp_step [RpSet 7; RpClear; RpSet (2 ^ 63)]%Z rp_default) = Some (2 ^ 63)%Z /\
  rp_get (fold_left rp_step [RpSet 7; RpClear]%Z rp_default) = None.
Proof.
  split; [|repeat split; vm_compute; reflexivity].
  intros p Hp. cbn [In] in Hp.
  repeat (destruct Hp as [Hp|Hp]; [try discriminate Hp; injection Hp as <-; lia|]). destruct Hp.
Qed.

(** ** C54: settings builders are independent *)

Lemma last_app {A} (l : list A) a d : last (l ++ [a]) d = a.
Proof. induction l as [|b l IH]; [reflexivity|]. cbn. destruct (l ++ [a]) eqn:E; [destruct l; discriminate|exact IH]. Qed.

Lemma given_snoc {F G A} (k : setter F G -> option A) cs c :
  given k (cs ++ [c]) = given k cs ++ match k c with Some a => [a] | None => [] end.
Proof.
  unfold given. rewrite flat_map_app. cbn. rewrite app_nil_r. reflexivity.
Qed.

(** After any chain of builder calls every setting has the value of the last call of its
    own method, or its default if that method was not called. *)
Theorem C54_last_call_wins : forall F G (cs : list (setter F G)),
  prefetch_bytes (build cs) = last (given to_prefetch cs) 262144%N /\
  batch_write_size (build cs) = last (given to_batch cs) 4096%N /\
  retry_timeout_ms (build cs) = last (given to_timeout cs) 5000%N /\
  cancel_on_drop (build cs) = last (given to_cancel cs) true /\
  on_progress (build cs) = last (given to_progress cs) None /\
  on_reconnect (build cs) = last (given to_reconnect cs) None /\
  get_prefetch_bytes (build cs) = last (given to_prefetch cs) 262144%N /\
  get_write_batch_size (build cs) = last (given to_batch cs) 4096%N.
Proof.
  intros F G cs. unfold build, get_prefetch_bytes, get_write_batch_size.
  induction cs as [|c cs IH] using rev_ind; [repeat split|].
  rewrite fold_left_app. cbn [fold_left].
  rewrite !given_snoc.
  destruct IH as (A & B & C & D & E & H & I & J).
  destruct c; cbn [to_prefetch to_batch to_timeout to_cancel to_progress to_reconnect];
    rewrite ?app_nil_r, ?last_app; cbn; repeat split; assumption.
Qed.

(** The batch size is never zero, so every write makes progress. *)
Theorem C54_batch_positive : forall F G (cs : list (setter F G)),
  (0 < get_write_batch_size (build cs))%N.
Proof.
  intros F G cs. unfold build, get_write_batch_size.
  induction cs as [|c cs IH] using rev_ind; [reflexivity|].
  rewrite fold_left_app. cbn [fold_left]. destruct c; cbn; try exact IH. lia.
Qed.

Example C54_case :
  let s := build (F := nat) (G := nat)
             [SetPrefetch 7; SetBatch 3; SetCancel false; SetPrefetch 0; SetProgress 4;
              SetProgress 5] in
  (prefetch_bytes s, batch_write_size s, retry_timeout_ms s, cancel_on_drop s,
   on_progress s, on_reconnect s) = (0%N, 3%N, 5000%N, false, Some 5, None).
Proof. reflexivity. Qed.

(** ** C55: initialisation errors are classified and leave nothing running *)

Theorem C55_classification : forall S E R F G (create : S + E) (content_length : S -> option nat)
    capacity (provider : option nat -> R + io_kind) (st : settings F G) res acts,
  from_create_stream create content_length capacity provider st = (res, acts) ->
  (forall e, res = inr (StreamCreationFailure e) <-> create = inr e) /\
  (forall k, res = inr (StorageCreationFailure k) <->
             exists s, create = inl s /\ provider (content_length s) = inr k) /\
  ((exists err, res = inr err) <-> ~ In ISpawnTask acts) /\
  (forall e, create = inr e -> forall l, ~ In (ICreateStorage l) acts) /\
  (forall d, res = inl d -> exists s r,
     create = inl s /\ provider (content_length s) = inl r /\
     sd_storage d = r /\ sd_content_length d = content_length s /\ sd_capacity d = capacity /\
     sd_cancel_on_drop d = cancel_on_drop st /\
     acts = [ICreateStream; ICreateStorage (content_length s); ISpawnTask]).
Proof.
  intros S E R F G create cl cap provider st res acts. unfold from_create_stream.
  destruct create as [s|e].
  - destruct (provider (cl s)) as [r|k] eqn:Ep; intros H; injection H as <- <-.
    + split; [intros e; split; intros X; discriminate X|].
      split; [intros k; split; [intros X; discriminate X|
              intros (s' & X & Y); injection X as <-; congruence]|].
      split; [split; [intros [x X]; discriminate X|intros X; exfalso; apply X; cbn; tauto]|].
      split; [intros e X; discriminate X|].
      intros d X. injection X as <-. exists s, r. repeat split. exact Ep.
    + split; [intros e; split; intros X; discriminate X|].
      split; [intros k'; split; [intros X; injection X as <-; exists s; auto|
              intros (s' & X & Y); injection X as <-; congruence]|].
      split; [split; [intros _ [X|[X|[]]]; discriminate X|intros _; eexists; reflexivity]|].
      split; [intros e X; discriminate X|]. intros d X; discriminate X.
  - intros H; injection H as <- <-.
    split; [intros e'; split; intros X; injection X as <-; reflexivity|].
    split; [intros k; split; [intros X; discriminate X|intros (s & X & _); discriminate X]|].
    split; [split; [intros _ [X|[]]; discriminate X|intros _; eexists; reflexivity]|].
    split; [intros e' _ l [X|[]]; discriminate X|]. intros d X; discriminate X.
Qed.

(** All three outcomes occur. *)
Example C55_case :
  let run c p := fst (from_create_stream (E := nat) (F := nat) (G := nat) c (fun s => s) None p
                        settings_default) in
  run (inr 3) (fun _ => inl 1) = inr (StreamCreationFailure 3) /\
  run (inl (Some 9)) (fun _ => inr EOther) = inr (StorageCreationFailure EOther) /\
  run (inl (Some 9)) (fun _ => inl 1) = inl (mkSD 1 (Some 9) None true).
Proof. repeat split. Qed.

Print Assumptions C52_request_round_trip.
Print Assumptions C52_largest_is_lost.
Print Assumptions C54_last_call_wins.
Print Assumptions C54_batch_positive.
Print Assumptions C55_classification.

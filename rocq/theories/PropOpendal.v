(** * Properties of OpenDAL streaming (C51). *)

From Coq Require Import List Arith Lia Bool.
From Verif Require Import Base HttpSpec Opendal OpendalSpec System Exec.
Import ListNotations.

Definition od_inv (object : list byte) (p : od_params) (s : od_stream) (tr : list od_event) : Prop :=
  od_buf s = [] /\ od_buf_cap s <= od_capacity s /\ od_capacity s = op_chunk_size p /\
  asked_for object tr = delivered tr ++ od_reader s.

Lemma od_poll_facts s r q s' :
  od_buf s = [] -> od_buf_cap s <= od_capacity s -> 0 < od_capacity s ->
  od_read_ok s (od_room (od_reserve s)) r = true -> od_poll_next s r = (q, s') ->
  od_buf s' = [] /\ od_buf_cap s' <= od_capacity s' /\ od_capacity s' = od_capacity s /\
  match q with
  | OPChunk bs => bs <> [] /\ length bs <= od_capacity s /\ od_reader s = bs ++ od_reader s'
  | OPNone => od_reader s = [] /\ od_reader s' = []
  | _ => od_reader s' = od_reader s
  end.
Proof.
  intros Hb Hc Hp Hr H. unfold od_poll_next in H.
  assert (Hres : od_buf (od_reserve s) = [] /\ od_buf_cap (od_reserve s) <= od_capacity s /\
                 0 < od_buf_cap (od_reserve s) /\ od_capacity (od_reserve s) = od_capacity s /\
                 od_reader (od_reserve s) = od_reader s).
  { unfold od_reserve. destruct (Nat.eqb_spec (od_buf_cap s) 0); cbn; repeat split; auto; lia. }
  destruct Hres as (Rb & Rc & Rp & Rq & Rr).
  assert (Hroom : od_room (od_reserve s) = od_buf_cap (od_reserve s)).
  { unfold od_room. rewrite Rb. cbn [length]. rewrite Nat.sub_0_r.
    destruct (Nat.eqb_spec (od_buf_cap (od_reserve s)) 0); lia. }
  destruct r as [|k|[|k]].
  - injection H as <- <-. repeat split; auto. lia.
  - injection H as <- <-. repeat split; auto. lia.
  - injection H as <- <-. cbn in Hr. apply Nat.eqb_eq in Hr.
    assert (od_reader s = []) by (destruct (od_reader s); [reflexivity|cbn in Hr; lia]).
    rewrite Rb, Rq, Rr. repeat split; auto.
  - apply pair_equal_spec in H. destruct H as [<- <-]. cbn [od_read_ok] in Hr. apply andb_true_iff in Hr. destruct Hr as [Hr _].
    apply Nat.leb_le in Hr. rewrite Rb, Rr. cbn [od_buf od_buf_cap od_capacity od_reader app].
    assert (L : length (firstn (S k) (od_reader s)) = S k) by (rewrite firstn_length; lia).
    rewrite L. repeat split; [lia|exact Rq| |lia|symmetry; apply firstn_skipn].
    intros E. rewrite E in L. discriminate.
Qed.

Lemma od_reach_inv object p s tr : 0 < op_chunk_size p -> od_reach object p s tr ->
  od_inv object p s tr.
Proof.
  intros Hp. induction 1 as [s H|s tr r q s' _ IH Hr H|s tr start e ok r s' _ IH H].
  - unfold od_new in H. injection H as <-. repeat split; cbn; lia.
  - destruct IH as (A & B & C & D).
    destruct (od_poll_facts _ _ _ _ A B ltac:(lia) Hr H) as (A' & B' & C' & E).
    repeat split; try assumption; try congruence. cbn [asked_for delivered].
    destruct q as [| |k|bs].
    + rewrite E. exact D.
    + destruct E as [E E']. rewrite D, E, E'. reflexivity.
    + rewrite E. exact D.
    + destruct E as (_ & _ & E). rewrite D, E, app_assoc. reflexivity.
  - destruct IH as (A & B & C & D). unfold od_seek_range in H. destruct ok; injection H as <- <-.
    + repeat split; cbn; assumption.
    + repeat split; assumption.
Qed.

(** ** C51: OpenDAL streaming is lossless *)

(** What has been delivered is always the beginning of what was asked for. *)
Theorem C51_prefix : forall object p s tr,
  0 < op_chunk_size p -> od_reach object p s tr ->
  exists rest, asked_for object tr = delivered tr ++ rest.
Proof.
  intros object p s tr Hp H. destruct (od_reach_inv _ _ _ _ Hp H) as (_ & _ & _ & D). eauto.
Qed.

(** The stream ends only when everything asked for has been delivered. *)
Theorem C51_ends_at_end : forall object p s tr,
  0 < op_chunk_size p -> od_reach object p s (OEPoll OPNone :: tr) ->
  delivered tr = asked_for object tr.
Proof.
  intros object p s tr Hp H. inversion H as [|s0 tr0 r q s' Hs Hr Hn Eq Etr|]; subst.
  destruct (od_reach_inv _ _ _ _ Hp Hs) as (A & B & C & D).
  destruct (od_poll_facts _ _ _ _ A B ltac:(lia) Hr Hn) as (_ & _ & _ & E & _).
  rewrite D, E, app_nil_r. reflexivity.
Qed.

(** Chunks are not empty and not larger than the chunk size. *)
Theorem C51_chunk_size : forall object p s tr bs,
  0 < op_chunk_size p -> od_reach object p s tr -> In (OEPoll (OPChunk bs)) tr ->
  0 < length bs <= op_chunk_size p.
Proof.
  intros object p s tr bs Hp H. induction H as [s H|s tr r q s' Hs IH Hr H|s tr start e ok r s' _ IH H].
  - intros [].
  - intros [E|X]; [|exact (IH X)]. injection E as ->.
    destruct (od_reach_inv _ _ _ _ Hp Hs) as (A & B & C & D).
    destruct (od_poll_facts _ _ _ _ A B ltac:(lia) Hr H) as (_ & _ & _ & E & F & _).
    rewrite C in F. split; [|exact F]. destruct bs; [contradiction|cbn; lia].
  - intros [E|X]; [discriminate|exact (IH X)].
Qed.

(** As long as something is missing, a poll that the reader answers with data delivers it:
    the stream does not stall. *)
Theorem C51_progress : forall object p s tr k,
  0 < op_chunk_size p -> od_reach object p s tr -> delivered tr <> asked_for object tr ->
  od_read_ok s (od_room (od_reserve s)) (ODData k) = true ->
  exists bs s', od_poll_next s (ODData k) = (OPChunk bs, s') /\ length bs = k.
Proof.
  intros object p s tr k Hp H Hn Hr. destruct (od_reach_inv _ _ _ _ Hp H) as (A & B & C & D).
  destruct (od_poll_next s (ODData k)) as [q s'] eqn:E.
  destruct (od_poll_facts _ _ _ _ A B ltac:(lia) Hr E) as (_ & _ & _ & F).
  unfold od_poll_next in E. destruct k as [|k].
  - injection E as <- <-. destruct F as [F _]. destruct Hn. rewrite D, F, app_nil_r. reflexivity.
  - apply pair_equal_spec in E. destruct E as [<- <-]. eexists. eexists. split; [reflexivity|].
    assert (Rb : od_buf (od_reserve s) = []) by (unfold od_reserve; destruct (Nat.eqb _ _); exact A).
    assert (Rr : od_reader (od_reserve s) = od_reader s)
      by (unfold od_reserve; destruct (Nat.eqb _ _); reflexivity).
    rewrite Rb, Rr. cbn [app]. cbn [od_read_ok] in Hr. apply andb_true_iff in Hr.
    destruct Hr as [Hr _]. apply Nat.leb_le in Hr. rewrite firstn_length. lia.
Qed.

(** Chunk size 5 over twelve bytes: a short read leaves a capacity of 2 for the next one; a
    poll that is not ready; a seek in the middle; and the end of the range. *)
Example C51_case : exists s tr,
  od_reach demo (od_set_chunk_size od_params_new 4) s tr /\
  tr = [OEPoll OPNone; OEPoll (OPChunk [x09; x0a]); OESeek 8 (Some 10) (Ok tt);
        OEPoll (OPChunk [x06]); OEPoll OPPending; OEPoll (OPChunk [x04; x05]);
        OEPoll (OPChunk [x01; x02; x03])] /\
  delivered (skipn 3 tr) = [x01; x02; x03; x04; x05; x06] /\ asked_for demo tr = [x09; x0a].
Proof.
  eexists. eexists. split.
  - eapply or_poll with (r := ODData 0);
    [eapply or_poll with (r := ODData 2);
     [eapply or_seek with (start := 8) (e := Some 10) (ok := true);
      [eapply or_poll with (r := ODData 1);
       [eapply or_poll with (r := ODPending);
        [eapply or_poll with (r := ODData 2);
         [eapply or_poll with (r := ODData 3);
          [apply or_new; reflexivity|vm_compute; reflexivity|vm_compute; reflexivity]|vm_compute; reflexivity|vm_compute; reflexivity]|vm_compute; reflexivity|vm_compute; reflexivity]|vm_compute; reflexivity|vm_compute; reflexivity]|reflexivity]|vm_compute; reflexivity|vm_compute; reflexivity]|vm_compute; reflexivity|vm_compute; reflexivity].
  - repeat split.
Qed.

Print Assumptions C51_prefix.
Print Assumptions C51_ends_at_end.
Print Assumptions C51_chunk_size.
Print Assumptions C51_progress.

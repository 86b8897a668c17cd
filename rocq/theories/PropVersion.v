(** * PropVersion: C88, servers that change with time. *)

From Coq Require Import String List Arith Lia ZArith Bool Nnat Strings.Byte.
From Verif Require Import Base ListFacts Storage System Spec Exec Http HttpSpec HttpFacts
  Source SourceSpec SourceFacts SourceImpl PropReads PropSource StepTac.
Import ListNotations.

(** ** C88: all bytes come from one version of the resource *)

(** The task and the reader do not see the number of requests. *)
Lemma at_delivers : forall server resource clen ranges c0 n0 (allow : gstate -> label -> Prop),
  (forall n, serves (server n) resource clen ranges) -> c_content c0 = resource ->
  let x0 := http_fresh resource clen ranges in
  let c := over (http_source_at server) (x0, n0) c0 in
  (forall s, allow s LDEof -> no_silent_truncation c s LDEof) ->
  (forall s rc, allow s (LDTimeout rc) -> exists v, ranges = Some v /\ v <> "none"%string) ->
  delivers (http_source_at server) (x0, n0) c allow
    (fun x => http_ok clen ranges (fst x)) (fun x => hs_body (fst x)).
Proof.
  intros server resource clen ranges c0 n0 allow Hs Hc x0 c Ht Hr.
  assert (D : forall n, delivers (http_source (server n)) x0
                 (over (http_source (server n)) x0 c0) allow (http_ok clen ranges) hs_body).
  { intros n. apply http_delivers; auto. }
  constructor.
  - split; [apply (dv_start _ _ _ _ _ _ (D 0))|exact (proj2 (dv_start _ _ _ _ _ _ (D 0)))].
  - intros [x n] k bs [x' n'] O H. cbn [http_source_at src_poll fst snd] in H.
    destruct (src_poll (http_source (server 0)) x k) as [[bs1 x1]|] eqn:E; [|discriminate].
    cbn in H. injection H as <- <- <-. exact (dv_poll _ _ _ _ _ _ (D 0) x k _ _ O E).
  - intros s [x n] [x' n'] O Ha H. cbn [http_source_at src_end fst snd] in H.
    destruct (src_end (http_source (server 0)) x) as [x1|] eqn:E; [|discriminate].
    cbn in H. injection H as <- <-. exact (dv_end _ _ _ _ _ _ (D 0) s x _ O Ha E).
  - intros s [x n] [x' n'] O Ha H. cbn [http_source_at src_fail fst snd] in H.
    destruct (src_fail (http_source (server 0)) x) as [x1|] eqn:E; [|discriminate].
    cbn in H. injection H as <- <-. exact (dv_fail _ _ _ _ _ _ (D 0) s x _ O Ha E).
  - intros [x n] a b net O K Q. pose proof (dv_seek _ _ _ _ _ _ (D n) x a b net O eq_refl Q) as P.
    cbn [http_source_at http_source src_seek_range fst snd] in *.
    destruct (http_seek_range _ _ _ _) as [[r x'] reqs]. exact P.
  - intros s rc [x n] pos net Ha O. pose proof (dv_reconnect _ _ _ _ _ _ (D n) s rc x pos net Ha O) as P.
    cbn [http_source_at http_source src_reconnect fst snd] in *.
    destruct (http_reconnect _ _ _) as [[r x'] reqs]. exact P.
  - intros [x n] net O. exact (dv_finish _ _ _ _ _ _ (D n) x net O).
  - right. split.
    + intros [x n] a b net [x' n'] O Q L E.
      destruct (dv_chunk _ _ _ _ _ _ (D n)) as [P|[P _]].
      * apply (P x [] (set_body x (hs_body x)) O). cbn. destruct x. reflexivity.
      * apply (P x a b net x' O Q L). cbn [http_source_at http_source src_seek_range fst snd] in *.
        destruct (http_seek_range _ _ _ _) as [[r x1] reqs]. cbn. congruence.
    + intros s rc [x n] pos net [x' n'] Ha O L E.
      destruct (dv_chunk _ _ _ _ _ _ (D n)) as [P|[_ P]].
      * apply (P x [] (set_body x (hs_body x)) O). cbn. destruct x. reflexivity.
      * apply (P s rc x pos net x' Ha O L). cbn [http_source_at http_source src_reconnect fst snd] in *.
        destruct (http_reconnect _ _ _) as [[r x1] reqs]. cbn. congruence.
Qed.

(** A server whose answers to the same request vary (one request fails, the next is
    answered) as long as all of them are about the same resource. *)
Definition opened (server : nat -> http_client) (x0 : http_stream) (c0 : cfg) : Prop :=
  http_new (server 0) = inl x0 /\ c_content c0 = hs_body x0 /\
  (Z.of_nat (length (c_content c0)) < two64 / 2)%Z /\ 0 < c_batch c0.

Lemma opened_sane : forall server resource clen ranges x0 c0 n0,
  serves (server 0) resource clen ranges -> opened server x0 c0 ->
  x0 = http_fresh resource clen ranges /\ c_content c0 = resource /\
  sane (over (http_source_at server) (x0, n0) c0).
Proof.
  intros server resource clen ranges x0 c0 n0 Hs (Ho & Hc & Hl & Hb).
  pose proof Ho as Hx. rewrite (http_new_fresh _ _ _ _ Hs) in Hx. injection Hx as <-.
  split; [reflexivity|split; [exact Hc|]]. split; [|split].
  - intros n E. cbn in E. destruct Hs as (_ & [Hn|Hn] & _); rewrite Hn in E; [discriminate|].
    cbn in E. rewrite Nat2N.id in E. cbn. rewrite Hc. cbn. congruence.
  - exact Hl.
  - exact Hb.
Qed.

Theorem C88_varying_answers : forall server resource n v x0 c0 cs,
  let c := over (http_source_at server) (x0, 1) c0 in
  (forall k, serves (server k) resource (Some n) (Some v)) -> v <> "none"%string ->
  opened server x0 c0 -> unbounded_store c ->
  creach (http_source_at server) (x0, 1) c (roaming_client c) cs ->
  every_event (read_ok c) (g_trace (cs_sys cs)) /\ every_event (eof_ok c) (g_trace (cs_sys cs)).
Proof.
  intros server resource n v x0 c0 cs c Hs Hv Ho Hu H.
  destruct (opened_sane _ _ _ _ _ _ 1 (Hs 0) Ho) as (Hx & Hc & Hsa).
  eapply C67_roaming_reads; [exact Hsa|exact Hu| |exact H].
  unfold c. rewrite Hx. eapply at_delivers; [exact Hs|exact Hc| |].
  - intros s _. left. split; [reflexivity|discriminate].
  - intros s rc _. exists v. auto.
Qed.

(** Any client: when the download is reported complete, all bytes are stored. *)
Theorem C88_completion : forall server resource n v x0 c0 cs x,
  let c := over (http_source_at server) (x0, 1) c0 in
  (forall k, serves (server k) resource (Some n) (Some v)) -> v <> "none"%string ->
  opened server x0 c0 -> unbounded_store c ->
  creach (http_source_at server) (x0, 1) c any cs ->
  completed (cs_sys cs) -> x < length resource ->
  stored_byte (cs_sys cs) x = nth_error resource x.
Proof.
  intros server resource n v x0 c0 cs x c Hs Hv Ho Hu H Hd Hx.
  destruct (opened_sane _ _ _ _ _ _ 1 (Hs 0) Ho) as (Hf & Hc & Hsa).
  assert (E : resource = c_content c) by (symmetry; exact Hc). rewrite E in Hx |- *.
  eapply C67_completion with (allow := any); try eassumption.
  - unfold c. rewrite Hf. reflexivity.
  - unfold c. rewrite Hf. discriminate.
  - apply blind_any.
  - unfold c. rewrite Hf. eapply at_delivers; [exact Hs|exact Hc| |].
    + intros s _. left. split; [reflexivity|discriminate].
    + intros s rc _. exists v. auto.
Qed.

(** *** The resource changes *)

(** A client only sends a request it counts. *)
Lemma seek_unsent : forall client client' x a b r x',
  http_seek_range client x a b = (r, x', []) -> http_seek_range client' x a b = (r, x', []).
Proof.
  intros client client' x a b r x' H. unfold http_seek_range in *.
  destruct (at_content_length _ _); [exact H|]. destruct (inclusive_end b); try exact H.
  destruct (client _) as [rp|]; [destruct (resp_success rp)|]; discriminate H.
Qed.
Lemma reconnect_unsent : forall client client' x pos r x',
  http_reconnect client x pos = (r, x', []) -> http_reconnect client' x pos = (r, x', []).
Proof.
  intros client client' x pos r x' H. unfold http_reconnect in *.
  destruct (supports_range_request x); [eapply seek_unsent; eassumption|].
  destruct (client HGet); discriminate H.
Qed.

(** The server up to request [m], and one that refuses afterwards. *)
Definition until (m : nat) (server : nat -> http_client) (rest : http_client) : nat -> http_client :=
  fun k => if k <? m then server k else rest.

Lemma until_step : forall m server rest c cs l cs', 0 < m ->
  cstep (http_source_at server) c cs l = Some cs' -> snd (cs_src cs') <= m ->
  snd (cs_src cs) <= snd (cs_src cs') /\
  cstep (http_source_at (until m server rest)) c cs l = Some cs'.
Proof.
  intros m server rest c [s [x k]] l [s' [x' k']] Hm H L. cbn [cs_src snd] in *.
  assert (Hlt : forall k1, k1 < m -> until m server rest k1 = server k1).
  { intros k1 K. unfold until. destruct (Nat.ltb_spec k1 m); [reflexivity|lia]. }
  assert (Hseek : forall net a b r x1 n1,
     src_seek_range (http_source_at server) (x, k) a b net = (r, (x1, n1)) -> n1 <= m ->
     k <= n1 /\ src_seek_range (http_source_at (until m server rest)) (x, k) a b net = (r, (x1, n1))).
  { intros net a b r x1 n1 E K. cbn [http_source_at src_seek_range fst snd] in *.
    destruct (http_seek_range (over_network net (server k)) x (N.of_nat a) (option_map N.of_nat b))
      as [[r0 x2] reqs] eqn:E1. injection E as <- <- <-. split; [lia|].
    destruct reqs as [|q reqs].
    - rewrite (seek_unsent _ (over_network net (until m server rest k)) _ _ _ _ _ E1). reflexivity.
    - cbn [length] in K. rewrite (Hlt k) by lia. rewrite E1. reflexivity. }
  assert (Hrec : forall net pos r x1 n1,
     src_reconnect (http_source_at server) (x, k) pos net = (r, (x1, n1)) -> n1 <= m ->
     k <= n1 /\ src_reconnect (http_source_at (until m server rest)) (x, k) pos net = (r, (x1, n1))).
  { intros net pos r x1 n1 E K. cbn [http_source_at src_reconnect fst snd] in *.
    destruct (http_reconnect (over_network net (server k)) x (N.of_nat pos))
      as [[r0 x2] reqs] eqn:E1. injection E as <- <- <-. split; [lia|].
    destruct reqs as [|q reqs].
    - rewrite (reconnect_unsent _ (over_network net (until m server rest k)) _ _ _ _ E1). reflexivity.
    - cbn [length] in K. rewrite (Hlt k) by lia. rewrite E1. reflexivity. }
  destruct l; cbn [cstep cs_sys cs_src] in H |- *;
    try (destruct (step c s _) as [s1|] eqn:E in H |- *; [|discriminate]; cbn in H |- *;
         injection H as <- <- <-; split; [lia|reflexivity]).
  - cbn [http_source_at src_poll] in *. destruct (g_dpc s); try discriminate H.
    cbn [fst snd] in *. destruct (src_poll (http_source (server 0)) x k0) as [[bs x1]|] eqn:E; [|discriminate].
    change (src_poll (http_source (until m server rest 0)) x k0) with (src_poll (http_source (server 0)) x k0).
    rewrite E. cbn in *. injection H as <- <- <-. split; [lia|reflexivity].
  - cbn [http_source_at src_end] in *. destruct (g_dpc s); try discriminate H.
    cbn in *. injection H as <- <- <-. split; [lia|reflexivity].
  - cbn [http_source_at src_fail] in *. destruct (g_dpc s); try discriminate H.
    cbn in *. injection H as <- <- <-. split; [lia|reflexivity].
  - destruct rc.
    + destruct (g_dpc s); try discriminate H.
      destruct (src_reconnect (http_source_at server) (x, k) _ true) as [r [x1 n1]] eqn:E.
      assert (n1 <= m) by (destruct r; injection H as <- <- <-; exact L).
      destruct (Hrec _ _ _ _ _ E H0) as [K1 K2]. rewrite K2.
      destruct r; injection H as <- <- <-; auto.
    + destruct (g_dpc s); try discriminate H.
      destruct (src_reconnect (http_source_at server) (x, k) _ false) as [r [x1 n1]] eqn:E.
      assert (n1 <= m) by (destruct r; injection H as <- <- <-; exact L).
      destruct (Hrec _ _ _ _ _ E H0) as [K1 K2]. rewrite K2.
      destruct r; injection H as <- <- <-; auto.
    + destruct (g_dpc s); try discriminate H. injection H as <- <- <-. auto.
  - destruct (g_dpc s) eqn:D; try discriminate H.
    destruct (src_seek_range (http_source_at server) (x, k) _ _ ok) as [r [x1 n1]] eqn:E.
    assert (n1 = k').
    { destruct r; [|injection H as <- <- <-; reflexivity|injection H as <- <- <-; reflexivity].
      destruct (seek_done c s _ _ true); [|discriminate H]. cbn in H. injection H as <- <- <-. reflexivity. }
    subst n1. destruct (Hseek _ _ _ _ _ _ E L) as [K1 K2]. rewrite K2. auto.
  - destruct (g_dpc s); try discriminate H. injection H as <- <- <-. split; [lia|reflexivity].
Qed.

Lemma until_reach : forall m server rest x0 c allow cs, 0 < m ->
  creach (http_source_at server) (x0, 1) c allow cs -> snd (cs_src cs) <= m ->
  creach (http_source_at (until m server rest)) (x0, 1) c allow cs.
Proof.
  intros m server rest x0 c allow cs Hm H. induction H as [s H|cs l cs' H IH Ha H2]; intros L.
  - apply creach_init. exact H.
  - destruct (until_step m server rest c cs l cs' Hm H2 L) as [K1 K2].
    eapply creach_step; [apply IH; lia|exact Ha|exact K2].
Qed.

(** Until the server has been asked after the change, what the client reads is the version
    the first response belongs to. *)
Theorem C88_before_change_partial : forall server m resource n v x0 c0 cs,
  let c := over (http_source_at server) (x0, 1) c0 in
  0 < m -> (forall k, k < m -> serves (server k) resource (Some n) (Some v)) -> v <> "none"%string ->
  opened server x0 c0 -> unbounded_store c ->
  creach (http_source_at server) (x0, 1) c (roaming_client c) cs -> snd (cs_src cs) <= m ->
  every_event (read_ok c) (g_trace (cs_sys cs)) /\ every_event (eof_ok c) (g_trace (cs_sys cs)).
Proof.
  intros server m resource n v x0 c0 cs c Hm Hs Hv Ho Hu H L.
  set (rest := fun req : http_request =>
         match req with HGet => Some (mkResp true (Some n) (Some v) resource) | HGetRange _ => None end).
  apply (C88_varying_answers (until m server rest) resource n v x0 c0 cs); auto.
  - intros k. unfold until. destruct (Nat.ltb_spec k m) as [K|K]; [apply Hs; exact K|].
    split; [reflexivity|]. split; [exact (proj1 (proj2 (Hs 0 Hm)))|]. intros h r E. discriminate E.
  - destruct Ho as (O1 & O2). split; [|exact O2]. unfold until.
    destruct (Nat.ltb_spec 0 m); [exact O1|lia].
  - apply until_reach; auto.
Qed.

(** Afterwards it is not: range requests carry no validator (no [If-Range], the client does
    not look at [ETag] or [Last-Modified]: http/reqwest_client.rs:113-124).  The resource is
    replaced by another one of the same length after the first response.  The client only
    reads; the connection breaks after three bytes; the rest is requested, stored and
    reported as a complete download, a mixture of both. *)
Definition replaced : list byte := [x11; x12; x13; x14; x15; x16; x17; x18; x19; x1a; x1b; x1c].
Definition replacing_server : nat -> http_client :=
  until 1 (fun _ => demo_server) (range_server replaced (Some "bytes"%string)).
Definition mixed_run : list label :=
  [LDChunk 3] ++ Tk 6 ++ [LDEof; LDSeekRes true; LDChunk 9] ++ Tk 8 ++ [LDEof] ++ Tk 2 ++
  [LDFinishRes true] ++ Tk 2 ++ [LOp (ORead 12)] ++ Rd 4.

Theorem C88_refuted : exists server old new n v x0 c0 cs,
  let c := over (http_source_at server) (x0, 1) c0 in
  serves (server 0) old (Some n) (Some v) /\
  (forall k, 0 < k -> serves (server k) new (Some n) (Some v)) /\
  opened server x0 c0 /\ unbounded_store c /\
  creach (http_source_at server) (x0, 1) c sequential_client cs /\ completed (cs_sys cs) /\
  forall k, delivered (g_trace (cs_sys cs)) <> firstn k old /\
            delivered (g_trace (cs_sys cs)) <> firstn k new.
Proof.
  exists replacing_server, demo, replaced, 12%N, "bytes"%string, demo_http, (demo_cfg 0).
  eexists. cbv zeta.
  split; [exact (range_server_serves demo (Some "bytes"%string))|].
  split.
  { intros k Hk. unfold replacing_server, until. destruct (Nat.ltb_spec k 1); [lia|].
    exact (range_server_serves replaced (Some "bytes"%string)). }
  split; [split; [reflexivity|split; [reflexivity|split; [reflexivity|cbn; lia]]]|].
  split; [exact I|].
  split; [creach_tac sequential_b mixed_run|].
  split; [vm_compute; auto|].
  intros k. set (d := delivered _). vm_compute in d. subst d.
  split; intros E;
    do 13 (destruct k as [|k]; [discriminate E|cbn [firstn demo replaced] in E]); discriminate E.
Qed.

(** A server that refuses every other request, and one that has changed but was not asked. *)
Definition moody_server : nat -> http_client :=
  fun k req => if Nat.even k then demo_server req else
                 match req with HGet => demo_server HGet | HGetRange _ => None end.

Example C88_case :
  let c := over (http_source_at moody_server) (demo_http, 1) (demo_cfg 0) in
  (forall k, serves (moody_server k) demo (Some 12%N) (Some "bytes"%string)) /\
  opened moody_server demo_http (demo_cfg 0) /\
  exists cs, creach (http_source_at moody_server) (demo_http, 1) c (roaming_client c) cs /\
    In (EvReconnect 3 RcErr) (g_trace (cs_sys cs)) /\ In (EvReconnect 3 RcOk) (g_trace (cs_sys cs)) /\
    In (EvRead 0 5 false (Ok [x01; x02; x03; x04; x05])) (g_trace (cs_sys cs)).
Proof.
  cbv zeta. split; [|split; [split; [reflexivity|split; [reflexivity|split; [reflexivity|cbn; lia]]]|]].
  { intros k. unfold moody_server. destruct (range_server_serves demo (Some "bytes"%string)) as (S1 & S2 & S3).
    destruct (Nat.even k); [split; [exact S1|split; [exact S2|exact S3]]|].
    split; [exact S1|split; [exact S2|]]. intros h r E. discriminate E. }
  eexists. split.
  - creach_tac (roaming_b (over (http_source_at moody_server) (demo_http, 1) (demo_cfg 0)))
      ([LDChunk 3] ++ Tk 6 ++ [LDTimeout RcOk; LDTimeout RcOk; LDChunk 4] ++ Tk 6 ++ [LOp (ORead 5)] ++ Rd 4).
  - vm_compute. tauto.
Qed.

Example C88_before_case :
  let c := over (http_source_at replacing_server) (demo_http, 1) (demo_cfg 0) in
  (forall k, k < 1 -> serves (replacing_server k) demo (Some 12%N) (Some "bytes"%string)) /\
  opened replacing_server demo_http (demo_cfg 0) /\
  exists cs, creach (http_source_at replacing_server) (demo_http, 1) c (forward_client c) cs /\
    snd (cs_src cs) = 1 /\ In (EvRead 0 3 false (Ok [x01; x02; x03])) (g_trace (cs_sys cs)).
Proof.
  cbv zeta. split; [|split; [split; [reflexivity|split; [reflexivity|split; [reflexivity|cbn; lia]]]|]].
  { intros k Hk. unfold replacing_server, until. destruct (Nat.ltb_spec k 1); [|lia].
    exact (range_server_serves demo (Some "bytes"%string)). }
  eexists. split.
  - creach_tac (forward_b (over (http_source_at replacing_server) (demo_http, 1) (demo_cfg 0)))
      ([LDChunk 5] ++ Tk 7 ++ [LOp (ORead 3)] ++ Rd 4).
  - vm_compute. tauto.
Qed.

Print Assumptions C88_varying_answers.
Print Assumptions C88_completion.
Print Assumptions C88_before_change_partial.
Print Assumptions C88_refuted.

(** * Properties of the download over a given source (C67-C71). *)

From Coq Require Import String List Arith Lia ZArith Bool Nnat.
From Verif Require Import Base ListFacts Storage System Spec Exec ReadFacts LifeFacts DoneFacts Alive
  Http HttpSpec HttpFacts Opendal OpendalSpec Process Source SourceSpec SourceFacts SourceImpl
  PropReads PropMore PropLife StepTac.
Import ListNotations.

(** ** Executable runs *)

Fixpoint crun_b {X} (src : source X) (c : cfg) (ab : gstate -> label -> bool) (cs : csys X)
    (ls : list label) : option (csys X) :=
  match ls with
  | [] => Some cs
  | l :: t =>
      if ab (cs_sys cs) l then
        match cstep src c cs l with Some cs' => crun_b src c ab cs' t | None => None end
      else None
  end.

Lemma crun_b_reach : forall {X} (src : source X) x0 c ab allow ls s cs',
  decides ab allow -> init c = Some s -> crun_b src c ab (mkC s x0) ls = Some cs' ->
  creach src x0 c allow cs'.
Proof.
  intros X src x0 c ab allow ls s cs' Hd Hi H.
  assert (K : forall ls cs, creach src x0 c allow cs -> crun_b src c ab cs ls = Some cs' ->
              creach src x0 c allow cs').
  { clear ls H. induction ls as [|l ls IH]; intros cs Hr H; cbn in H; [injection H as <-; exact Hr|].
    destruct (ab (cs_sys cs) l) eqn:Ea; [|discriminate].
    destruct (cstep src c cs l) as [cs1|] eqn:Es; [|discriminate].
    apply (IH cs1); [|exact H]. eapply creach_step; [exact Hr|apply Hd; exact Ea|exact Es]. }
  apply (K ls (mkC s x0)); [apply creach_init; exact Hi|exact H].
Qed.

Ltac creach_tac ab ls :=
  eapply (crun_b_reach _ _ _ ab _ ls); [decides_tac|vm_compute; reflexivity|vm_compute; reflexivity].

Lemma blind_roaming : forall c, outcome_blind (roaming_client c).
Proof. intros c s. repeat split; intros; exact I. Qed.
Lemma blind_any : outcome_blind any.
Proof. intros s. repeat split; intros; exact I. Qed.

Lemma reach_weaken : forall c (p q : gstate -> label -> Prop) s,
  (forall s l, p s l -> q s l) -> reach c p s -> reach c q s.
Proof.
  intros c p q s Hpq H. induction H as [s H|s l s' Hr IH Hl H]; [apply reach_init; exact H|].
  eapply reach_step; [exact IH|apply Hpq; exact Hl|exact H].
Qed.

Lemma over_honours : forall {X} (src : source X) x0 c0, honours_ranges (over src x0 c0).
Proof. intros. split; [discriminate|reflexivity]. Qed.

(** ** C67: a source that keeps the promises of the trait gives faithful reads *)

Theorem C67_roaming_reads : forall X (src : source X) x0 c0 ok rest cs,
  let c := over src x0 c0 in
  sane c -> unbounded_store c -> delivers src x0 c (roaming_client c) ok rest ->
  creach src x0 c (roaming_client c) cs ->
  every_event (read_ok c) (g_trace (cs_sys cs)) /\ every_event (eof_ok c) (g_trace (cs_sys cs)).
Proof.
  intros X src x0 c0 ok rest cs c Hs Hu D H.
  destruct (refine src x0 c _ ok rest D (blind_roaming c) eq_refl eq_refl (proj1 Hs) cs H) as [_ R].
  assert (R' : reach c (roaming_env c) (cs_sys cs)).
  { revert R. apply reach_weaken. intros s l [A [B C]]. repeat split; assumption. }
  split; [apply roaming_reads|apply roaming_eof]; auto; apply over_honours.
Qed.

Theorem C67_unseekable_reads : forall X (src : source X) x0 c0 (allow : gstate -> label -> Prop) ok rest cs,
  let c := over src x0 c0 in
  sane c -> unbounded_store c -> src_supports_seek src x0 = false -> outcome_blind allow ->
  delivers src x0 c allow ok rest -> creach src x0 c allow cs ->
  every_event (read_ok c) (g_trace (cs_sys cs)).
Proof.
  intros X src x0 c0 allow ok rest cs c Hs Hu Hk Hb D H.
  destruct (refine src x0 c _ ok rest D Hb eq_refl eq_refl (proj1 Hs) cs H) as [_ R].
  apply C06_unseekable_reads_faithful; auto; [apply over_honours|].
  revert R. apply reach_weaken. intros s l [_ A]. exact A.
Qed.

(** Completion means that everything was stored, whatever the client did. *)
Theorem C67_completion : forall X (src : source X) x0 c0 (allow : gstate -> label -> Prop) ok rest cs x,
  let c := over src x0 c0 in
  sane c -> unbounded_store c -> src_supports_seek src x0 = true ->
  src_content_length src x0 <> None -> outcome_blind allow ->
  delivers src x0 c allow ok rest -> creach src x0 c allow cs ->
  completed (cs_sys cs) -> x < length (c_content c) ->
  stored_byte (cs_sys cs) x = nth_error (c_content c) x.
Proof.
  intros X src x0 c0 allow ok rest cs x c Hs Hu Hk Hl Hb D H Hd Hx.
  destruct (refine src x0 c _ ok rest D Hb eq_refl eq_refl (proj1 Hs) cs H) as [_ R].
  apply (C08_completion_means_everything c (cs_sys cs) x); auto; [apply over_honours|].
  revert R. apply reach_weaken. intros s l [_ [A _]]. exact A.
Qed.

(** ** C68: streaming over HTTP *)

Lemma setup_fresh : forall server resource clen ranges x0 c0,
  http_setup server resource clen ranges x0 c0 -> x0 = http_fresh resource clen ranges.
Proof.
  intros server resource clen ranges x0 c0 (H1 & H2 & _).
  rewrite (http_new_fresh _ _ _ _ H1) in H2. congruence.
Qed.

Lemma setup_sane : forall server resource clen ranges x0 c0,
  http_setup server resource clen ranges x0 c0 -> sane (over (http_source server) x0 c0).
Proof.
  intros server resource clen ranges x0 c0 H. rewrite (setup_fresh _ _ _ _ _ _ H).
  destruct H as (Hs & _ & Hc & Hl & Hb). split; [|split].
  - intros n E. cbn in E. destruct Hs as (_ & [Hn|Hn] & _); rewrite Hn in E; [discriminate|].
    cbn in E. rewrite Nat2N.id in E. cbn. rewrite Hc. congruence.
  - cbn. rewrite Hc. exact Hl.
  - exact Hb.
Qed.

Lemma setup_delivers : forall server resource clen ranges x0 c0 (allow : gstate -> label -> Prop),
  http_setup server resource clen ranges x0 c0 ->
  (forall s, allow s LDEof -> no_silent_truncation (over (http_source server) x0 c0) s LDEof) ->
  (forall s rc, allow s (LDTimeout rc) -> exists v, ranges = Some v /\ v <> "none"%string) ->
  delivers (http_source server) x0 (over (http_source server) x0 c0) allow (http_ok clen ranges) hs_body.
Proof.
  intros server resource clen ranges x0 c0 allow H Ha Hr. pose proof (setup_fresh _ _ _ _ _ _ H) as ->.
  destruct H as (Hs & _ & Hc & _). apply http_delivers; auto.
Qed.

Lemma setup_known : forall server resource n ranges x0 c0,
  http_setup server resource (Some n) ranges x0 c0 ->
  c_seekable (over (http_source server) x0 c0) = true /\
  c_clen (over (http_source server) x0 c0) <> None.
Proof.
  intros server resource n ranges x0 c0 H. rewrite (setup_fresh _ _ _ _ _ _ H).
  split; [reflexivity|discriminate].
Qed.

(** A client that never goes back behind the place it last jumped to, any server that supports ranges and announces
    the length, any failures of the network, breaking connections, reconnects: every
    successful read returns the bytes of the resource at the client's position, and the
    end is reported only at the end. *)
Theorem C68_http_reads : forall server resource n v x0 c0 cs,
  let c := over (http_source server) x0 c0 in
  http_setup server resource (Some n) (Some v) x0 c0 -> v <> "none"%string ->
  unbounded_store c -> creach (http_source server) x0 c (roaming_client c) cs ->
  every_event (read_ok c) (g_trace (cs_sys cs)) /\ every_event (eof_ok c) (g_trace (cs_sys cs)).
Proof.
  intros server resource n v x0 c0 cs c Hs Hv Hu H.
  eapply C67_roaming_reads; [eapply setup_sane; exact Hs|exact Hu| |exact H].
  eapply setup_delivers; [exact Hs| |].
  - intros s _. left. exact (setup_known _ _ _ _ _ _ Hs).
  - intros s rc _. exists v. auto.
Qed.

(** Without an announced length the same holds as long as no connection breaks silently. *)
Theorem C68_http_unknown_length : forall server resource v x0 c0 cs,
  let c := over (http_source server) x0 c0 in
  http_setup server resource None (Some v) x0 c0 -> v <> "none"%string -> unbounded_store c ->
  creach (http_source server) x0 c (both (roaming_client c) (no_silent_truncation c)) cs ->
  every_event (read_ok c) (g_trace (cs_sys cs)) /\ every_event (eof_ok c) (g_trace (cs_sys cs)).
Proof.
  intros server resource v x0 c0 cs c Hs Hv Hu H. pose proof (setup_sane _ _ _ _ _ _ Hs) as Hsa.
  assert (D : delivers (http_source server) x0 c (both (roaming_client c) (no_silent_truncation c))
                (http_ok None (Some v)) hs_body).
  { eapply setup_delivers; [exact Hs| |].
    - intros s [_ A]. exact A.
    - intros s rc _. exists v. auto. }
  assert (HB : outcome_blind (both (roaming_client c) (no_silent_truncation c)))
    by (intros s; repeat split; intros; exact I).
  destruct (refine _ x0 c _ _ _ D HB eq_refl eq_refl (proj1 Hsa) cs H) as [_ R].
  assert (R' : reach c (roaming_env c) (cs_sys cs)).
  { revert R. apply reach_weaken. intros s l [[A _] [B C]]. repeat split; assumption. }
  split; [apply roaming_reads|apply roaming_eof]; auto; apply over_honours.
Qed.

(** Any client, including one that seeks backwards: when the download is reported
    complete, all bytes of the resource are stored. *)
Theorem C68_http_completion : forall server resource n v x0 c0 cs x,
  let c := over (http_source server) x0 c0 in
  http_setup server resource (Some n) (Some v) x0 c0 -> v <> "none"%string ->
  unbounded_store c -> creach (http_source server) x0 c any cs ->
  completed (cs_sys cs) -> x < length resource ->
  stored_byte (cs_sys cs) x = nth_error resource x.
Proof.
  intros server resource n v x0 c0 cs x c Hs Hv Hu H Hd Hx.
  assert (Hc : resource = c_content c) by (symmetry; apply Hs).
  rewrite Hc in Hx |- *.
  destruct (setup_known _ _ _ _ _ _ Hs) as [K1 K2].
  eapply C67_completion with (allow := any); try eassumption.
  - eapply setup_sane; exact Hs.
  - apply blind_any.
  - eapply setup_delivers; [exact Hs| |].
    + intros s _. left. split; assumption.
    + intros s rc _. exists v. auto.
Qed.

(** The task never panics over HTTP, in particular it never asks for a range ending at 0
    (see C43): empty chunks aside, see C32. *)
Theorem C68_http_no_panic : forall server resource n v x0 c0 cs,
  let c := over (http_source server) x0 c0 in
  http_setup server resource (Some n) (Some v) x0 c0 -> v <> "none"%string ->
  unbounded_store c -> creach (http_source server) x0 c no_empty_chunk cs ->
  g_dpc (cs_sys cs) <> DPanic.
Proof.
  intros server resource n v x0 c0 cs c Hs Hv Hu H. pose proof (setup_sane _ _ _ _ _ _ Hs) as Hsa.
  assert (D : delivers (http_source server) x0 c no_empty_chunk (http_ok (Some n) (Some v)) hs_body).
  { eapply setup_delivers; [exact Hs| |].
    - intros s _. left. exact (setup_known _ _ _ _ _ _ Hs).
    - intros s rc _. exists v. auto. }
  assert (HB : outcome_blind no_empty_chunk) by (intros s; repeat split; intros; exact I).
  destruct (refine _ x0 c _ _ _ D HB eq_refl eq_refl (proj1 Hsa) cs H) as [_ R].
  apply (C32_task_no_panic c); [apply Hsa|exact Hu|].
  revert R. apply reach_weaken. intros s l [A _]. exact A.
Qed.

(** A server that does not announce range support (or announces "none"): the same as long
    as the connection does not stall, for then nothing is reconnected. *)
Theorem C68_http_no_ranges : forall server resource n ranges x0 c0 cs,
  let c := over (http_source server) x0 c0 in
  http_setup server resource (Some n) ranges x0 c0 ->
  unbounded_store c -> creach (http_source server) x0 c (both (roaming_client c) no_stall) cs ->
  every_event (read_ok c) (g_trace (cs_sys cs)).
Proof.
  intros server resource n ranges x0 c0 cs c Hs Hu H. pose proof (setup_sane _ _ _ _ _ _ Hs) as Hsa.
  assert (D : delivers (http_source server) x0 c (both (roaming_client c) no_stall)
                (http_ok (Some n) ranges) hs_body).
  { eapply setup_delivers; [exact Hs| |].
    - intros s _. left. exact (setup_known _ _ _ _ _ _ Hs).
    - intros s rc [_ []]. }
  assert (HB : outcome_blind (both (roaming_client c) no_stall))
    by (intros s; split; [|split]; intros r r' [A B]; split; [exact I|exact I|exact I|destruct B|exact I|exact I]).
  destruct (refine _ x0 c _ _ _ D HB eq_refl eq_refl (proj1 Hsa) cs H) as [_ R].
  apply roaming_reads; auto; [apply over_honours|].
  revert R. apply reach_weaken. intros s l [[A _] [B C]]. repeat split; assumption.
Qed.

Lemma range_server_serves : forall resource ranges,
  serves (range_server resource ranges) resource (Some (N.of_nat (length resource))) ranges.
Proof.
  intros resource ranges. split; [reflexivity|]. split; [right; reflexivity|].
  intros h r H Hok. cbn in H. destruct (parse_range h) as [[first lst]|] eqn:E.
  - exists first, lst. split; [reflexivity|].
    destruct (N.ltb_spec first (N.of_nat (length resource))) as [L|L].
    + split; [exact L|]. injection H as <-. cbn [resp_body]. destruct lst; reflexivity.
    + injection H as <-. discriminate.
  - injection H as <-. discriminate.
Qed.

Definition demo_server : http_client := range_server demo (Some "bytes"%string).
Definition demo_http : http_stream := http_fresh demo (Some 12%N) (Some "bytes"%string).
Definition demo_cfg (pre : nat) : cfg := mk None false pre 4 (PPlain PlMem).

Lemma demo_setup : forall pre,
  http_setup demo_server demo (Some 12%N) (Some "bytes"%string) demo_http (demo_cfg pre).
Proof.
  intros pre. split; [exact (range_server_serves demo (Some "bytes"%string))|].
  split; [reflexivity|split; [reflexivity|split; [reflexivity|cbn; lia]]].
Qed.

(** The promises of C67 are met, here by an HTTP stream (an execution is in [C68_case]). *)
Example C67_case :
  let c := over (http_source demo_server) demo_http (demo_cfg 2) in
  sane c /\ unbounded_store c /\ src_supports_seek (http_source demo_server) demo_http = true /\
  delivers (http_source demo_server) demo_http c (roaming_client c)
    (http_ok (Some 12%N) (Some "bytes"%string)) hs_body.
Proof.
  cbv zeta. split; [eapply setup_sane; apply demo_setup|split; [exact I|split; [reflexivity|]]].
  eapply setup_delivers; [apply demo_setup| |].
  - intros s _. left. split; [reflexivity|discriminate].
  - intros s rc _. eexists. split; [reflexivity|discriminate].
Qed.

(** Prefetch, read, forward seek served by a range request, a reconnect that fails, one that
    succeeds, the hole filled by a second range request. *)
Definition http_run : list label :=
  [LDChunk 3] ++ Tk 2 ++ [LOp (ORead 2)] ++ Rd 4 ++ [LOp (OSeek (FromStart 6))] ++ Rd 4 ++
  [LDSeek; LDSeekRes true; LDChunk 4] ++ Tk 2 ++ [LDChunk 1] ++ Tk 7 ++ Rd 3 ++
  [LOp (ORead 4)] ++ Rd 4 ++ [LDTimeout RcErr; LDTimeout RcOk; LDChunk 1] ++ Tk 6 ++
  [LDErr; LDEof; LDSeekRes true; LDChunk 3] ++ Tk 6 ++ [LDEof] ++ Tk 2.

Example C68_case :
  let c := over (http_source demo_server) demo_http (demo_cfg 2) in
  exists cs, creach (http_source demo_server) demo_http c (roaming_client c) cs /\
    In (EvRead 0 2 false (Ok [x01; x02])) (g_trace (cs_sys cs)) /\
    In (EvSeekRange 6 (Some 12)) (g_trace (cs_sys cs)) /\
    In (EvSeekRange 3 (Some 6)) (g_trace (cs_sys cs)) /\
    In (EvReconnect 11 RcErr) (g_trace (cs_sys cs)) /\ In (EvReconnect 11 RcOk) (g_trace (cs_sys cs)) /\
    In (EvRead 6 4 false (Ok [x07; x08; x09; x0a])) (g_trace (cs_sys cs)) /\
    completed (cs_sys cs).
Proof.
  cbv zeta. eexists.
  split; [creach_tac (roaming_b (over (http_source demo_server) demo_http (demo_cfg 2))) http_run|].
  vm_compute. repeat (split; [tauto|]). auto.
Qed.

(** The hypothesis that successful range requests return what they denote is needed: over a
    server that ignores invalid ranges, a client that only moves forward reads wrong bytes. *)
Theorem C68_ignoring_server : exists x0 c0 cs,
  let server := ignoring_server demo (Some "bytes"%string) in
  let c := over (http_source server) x0 c0 in
  http_new server = inl x0 /\ c_content c0 = demo /\ sane c /\ unbounded_store c /\
  creach (http_source server) x0 c (forward_client c) cs /\
  nth_error (g_trace (cs_sys cs)) 0 = Some (EvRead 9 3 false (Ok [x01; x02; x03])).
Proof.
  exists demo_http, (demo_cfg 0). eexists. cbv zeta.
  split; [reflexivity|split; [reflexivity|split; [|split; [exact I|]]]].
  - split; [intros n E; injection E as <-; reflexivity|split; [reflexivity|cbn; lia]].
  - split; [creach_tac (forward_b (over (http_source (ignoring_server demo (Some "bytes"%string)))
               demo_http (demo_cfg 0))) inverted_run|].
    reflexivity.
Qed.

(** ** C69: streaming from OpenDAL *)

(** Same as over HTTP; the object may be empty, in which case no length is announced. *)
Theorem C69_opendal_reads : forall object p x0 c0 cs,
  let c := over (opendal_source object) x0 c0 in
  od_new p object true = Some x0 -> 0 < op_chunk_size p -> c_content c0 = object ->
  (Z.of_nat (length object) < two64 / 2)%Z -> 0 < c_batch c0 ->
  unbounded_store c -> creach (opendal_source object) x0 c (roaming_client c) cs ->
  every_event (read_ok c) (g_trace (cs_sys cs)) /\ every_event (eof_ok c) (g_trace (cs_sys cs)).
Proof.
  intros object p x0 c0 cs c Hn Hp Hc Hl Hb Hu H. rewrite od_new_fresh in Hn. apply some_inj in Hn.
  eapply C67_roaming_reads; [|exact Hu| |exact H].
  - subst x0. split; [|split; [cbn; rewrite Hc; exact Hl|exact Hb]].
    intros n E. cbn in *. rewrite Hc. destruct (Nat.ltb 0 (length object)); [injection E as <-; reflexivity|discriminate].
  - subst x0. unfold c. apply opendal_delivers; auto.
Qed.

Theorem C69_opendal_completion : forall object p x0 c0 cs x,
  let c := over (opendal_source object) x0 c0 in
  od_new p object true = Some x0 -> 0 < op_chunk_size p -> c_content c0 = object ->
  (Z.of_nat (length object) < two64 / 2)%Z -> 0 < c_batch c0 ->
  unbounded_store c -> creach (opendal_source object) x0 c any cs ->
  completed (cs_sys cs) -> x < length object ->
  stored_byte (cs_sys cs) x = nth_error object x.
Proof.
  intros object p x0 c0 cs x c Hn Hp Hc Hl Hb Hu H Hd Hx. rewrite od_new_fresh in Hn. apply some_inj in Hn.
  assert (Ho : object = c_content c) by (symmetry; exact Hc).
  assert (Hne : 0 < length object) by lia.
  subst x0. rewrite Ho in Hx |- *.
  eapply C67_completion with (allow := any); try eassumption; try reflexivity.
  - split; [|split; [cbn; rewrite Hc; exact Hl|exact Hb]].
    intros n E. cbn in *. rewrite Hc. destruct (Nat.ltb 0 (length object)); [injection E as <-; reflexivity|discriminate].
  - cbn. destruct (Nat.ltb_spec 0 (length object)); [discriminate|lia].
  - apply blind_any.
  - unfold c. apply opendal_delivers; auto.
Qed.

(** Chunks of at most three bytes; a seek ahead; the hole is filled. *)
Definition demo_od : od_stream := od_fresh demo 3.
Definition opendal_run : list label :=
  [LDChunk 3] ++ Tk 6 ++ [LOp (OSeek (FromStart 8))] ++ Rd 4 ++
  [LDSeek; LDSeekRes true; LDChunk 3] ++ Tk 2 ++ [LDChunk 1] ++ Tk 7 ++ Rd 3 ++
  [LOp (ORead 4)] ++ Rd 4 ++ [LDEof; LDSeekRes true; LDChunk 2] ++ Tk 6 ++ [LDChunk 3] ++ Tk 6 ++
  [LDEof] ++ Tk 2.

Example C69_case :
  let c := over (opendal_source demo) demo_od (demo_cfg 0) in
  od_new (od_set_chunk_size od_params_new 2) demo true = Some demo_od /\
  exists cs, creach (opendal_source demo) demo_od c (roaming_client c) cs /\
    In (EvSeekRange 8 (Some 12)) (g_trace (cs_sys cs)) /\
    In (EvSeekRange 3 (Some 8)) (g_trace (cs_sys cs)) /\
    In (EvRead 8 4 false (Ok [x09; x0a; x0b; x0c])) (g_trace (cs_sys cs)) /\
    completed (cs_sys cs).
Proof.
  cbv zeta. split; [reflexivity|]. eexists.
  split; [creach_tac (roaming_b (over (opendal_source demo) demo_od (demo_cfg 0))) opendal_run|].
  vm_compute. repeat (split; [tauto|]). auto.
Qed.

(** ** C70: streaming from an asynchronous reader or a process *)

Lemma unseekable_truncation : forall {X} (src : source X) x0 c0 s l,
  src_supports_seek src x0 = false ->
  no_silent_truncation (over src x0 c0) s l -> no_truncation s l.
Proof.
  intros X src x0 c0 s l Hk H. destruct l; try exact I. cbn in *.
  destruct H as [[H _]|H]; [congruence|exact H].
Qed.

(** Any client, seeking to and fro: as long as the reader reports no error, successful reads
    are faithful, and completion means that the whole input is stored.  [exit] is the
    process's exit status. *)
Theorem C70_reader : forall input clen c0 cs,
  let c := over reader_source (ar_new input clen) c0 in
  (clen = None \/ clen = Some (length input)) -> c_content c0 = input ->
  (Z.of_nat (length input) < two64 / 2)%Z -> 0 < c_batch c0 -> unbounded_store c ->
  creach reader_source (ar_new input clen) c no_error_item cs ->
  every_event (read_ok c) (g_trace (cs_sys cs)) /\
  (completed (cs_sys cs) -> forall x, x < length input -> stored_byte (cs_sys cs) x = nth_error input x).
Proof.
  intros input clen c0 cs c Hcl Hc Hl Hb Hu H.
  assert (Hsa : sane c).
  { split; [|split; [cbn; rewrite Hc; exact Hl|exact Hb]].
    intros n E. cbn in *. rewrite Hc. destruct Hcl; congruence. }
  assert (D : delivers reader_source (ar_new input clen) c no_error_item ar_ok ar_body)
    by (apply async_delivers; auto).
  assert (HB : outcome_blind no_error_item) by (intros s; repeat split; intros; exact I).
  split; [eapply C67_unseekable_reads; eauto|].
  intros Hd x Hx.
  destruct (refine _ _ c _ _ _ D HB eq_refl eq_refl (proj1 Hsa) cs H) as [_ R].
  replace input with (c_content c) in * by exact Hc.
  apply (C64_completion_without_seeking c (both no_error_item (honest_env c)) (cs_sys cs) x); auto.
  - apply over_honours.
  - intros s l [_ [A B]]. split; [|exact A]. eapply unseekable_truncation; [|exact B]. reflexivity.
Qed.

Theorem C70_process : forall exit input clen c0 cs,
  let c := over (process_source exit) (ar_new input clen) c0 in
  (clen = None \/ clen = Some (length input)) -> c_content c0 = input ->
  (Z.of_nat (length input) < two64 / 2)%Z -> 0 < c_batch c0 -> unbounded_store c ->
  creach (process_source exit) (ar_new input clen) c no_error_item cs ->
  every_event (read_ok c) (g_trace (cs_sys cs)) /\
  (completed (cs_sys cs) -> forall x, x < length input -> stored_byte (cs_sys cs) x = nth_error input x).
Proof.
  intros exit input clen c0 cs c Hcl Hc Hl Hb Hu H.
  assert (Hsa : sane c).
  { split; [|split; [cbn; rewrite Hc; exact Hl|exact Hb]].
    intros n E. cbn in *. rewrite Hc. destruct Hcl; congruence. }
  assert (D : delivers (process_source exit) (ar_new input clen) c no_error_item ar_ok ar_body)
    by (apply async_delivers; auto; apply process_finish_error).
  assert (HB : outcome_blind no_error_item) by (intros s; repeat split; intros; exact I).
  split; [eapply C67_unseekable_reads; eauto|].
  intros Hd x Hx.
  destruct (refine _ _ c _ _ _ D HB eq_refl eq_refl (proj1 Hsa) cs H) as [_ R].
  replace input with (c_content c) in * by exact Hc.
  apply (C64_completion_without_seeking c (both no_error_item (honest_env c)) (cs_sys cs) x); auto.
  - apply over_honours.
  - intros s l [_ [A B]]. split; [|exact A]. eapply unseekable_truncation; [|exact B]. reflexivity.
Qed.

(** Output read in pieces, a seek back, the end; the process failed ([exit = false]) and the
    download completes all the same, see C50. *)
Definition process_run : list label :=
  [LDChunk 5] ++ Tk 7 ++ [LOp (ORead 4)] ++ Rd 4 ++ [LOp (OSeek (FromStart 1))] ++ Rd 3 ++
  [LDTimeout RcOk; LDChunk 7] ++ Tk 7 ++ [LOp (ORead 12)] ++ Rd 4 ++ [LDEof] ++ Tk 2 ++ Rd 4 ++
  [LDFinishRes true] ++ Tk 2.

Example C70_case :
  let c := over (process_source false) (ar_new demo None) (demo_cfg 0) in
  exists cs, creach (process_source false) (ar_new demo None) c no_error_item cs /\
    In (EvRead 0 4 false (Ok [x01; x02; x03; x04])) (g_trace (cs_sys cs)) /\
    In (EvReconnect 5 RcErr) (g_trace (cs_sys cs)) /\
    In (EvRead 1 12 true (Ok (skipn 1 demo))) (g_trace (cs_sys cs)) /\
    In (EvFinish true) (g_trace (cs_sys cs)) /\ completed (cs_sys cs).
Proof.
  cbv zeta. eexists.
  split; [eapply (crun_b_reach _ _ _ (fun _ l => match l with LDErr => false | _ => true end) _ process_run);
          [intros s [] E; try exact I; discriminate E|vm_compute; reflexivity|vm_compute; reflexivity]|].
  vm_compute. repeat (split; [tauto|]). auto.
Qed.

(** The hypothesis is needed: after an error the adapter reports the end of the stream, and
    a truncated download is reported as complete. *)
Theorem C70_error_item : exists cs,
  let c := over reader_source (ar_new demo None) (demo_cfg 0) in
  creach reader_source (ar_new demo None) c any cs /\ completed (cs_sys cs) /\
  nth_error (g_trace (cs_sys cs)) 0 = Some (EvRead 5 4 true (Ok [])) /\ length demo = 12.
Proof.
  eexists. cbv zeta.
  split; [creach_tac any_b ([LDChunk 5] ++ Tk 7 ++ [LOp (ORead 5)] ++ Rd 4 ++
            [LDErr; LDEof] ++ Tk 2 ++ [LDFinishRes true; LOp (ORead 4)] ++ Rd 8)|].
  vm_compute. repeat (split; [tauto|]). auto.
Qed.

Print Assumptions C67_roaming_reads.
Print Assumptions C67_unseekable_reads.
Print Assumptions C67_completion.
Print Assumptions C68_http_reads.
Print Assumptions C68_http_unknown_length.
Print Assumptions C68_http_completion.
Print Assumptions C68_http_no_panic.
Print Assumptions C68_http_no_ranges.
Print Assumptions C68_ignoring_server.
Print Assumptions C69_opendal_reads.
Print Assumptions C69_opendal_completion.
Print Assumptions C70_reader.
Print Assumptions C70_process.
Print Assumptions C70_error_item.

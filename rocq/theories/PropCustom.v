(** * C94: storages of the user's own *)

From Coq Require Import List Arith Lia ZArith Bool.
From Verif Require Import Base ListFacts RangeSet Storage System Spec Exec DoneFacts
  BoundedProgress Custom CustomFacts PropReturn.
Import ListNotations.

(** ** Claims *)

(** Whatever storage is plugged in: if it keeps what is written and positions its two halves
    independently, a client that never goes back behind the place it last jumped to reads the bytes of the resource at
    its position, however the storage cuts reads and writes short and whichever of its
    operations fail. *)
Theorem C94_reads : forall St (I : custom St) view c s st,
  honours I view -> sane c -> own_storage c -> honours_ranges c ->
  creach I c (roaming_env c) s st -> every_event (read_ok c) (g_trace s).
Proof. intros St I view c s st. apply custom_roaming. Qed.

(** If the source cannot be repositioned, so does any client. *)
Theorem C94_unseekable_reads : forall St (I : custom St) view c s st,
  honours I view -> sane c -> own_storage c -> honours_ranges c -> c_seekable c = false ->
  creach I c (honest_env c) s st -> every_event (read_ok c) (g_trace s).
Proof. intros St I view c s st. apply custom_unseekable. Qed.

(** A client that only reads has received a prefix of the resource, and all of it once it
    was told that the end is reached. *)
Theorem C94_read_to_end : forall St (I : custom St) view c s st,
  honours I view -> sane c -> own_storage c -> honours_ranges c ->
  creach I c (both sequential_client (honest_env c)) s st ->
  (exists k, delivered (g_trace s) = firstn k (c_content c)) /\
  (forall newer pos n waited older,
     g_trace s = newer ++ EvRead pos n waited (Ok []) :: older -> 0 < n ->
     delivered (g_trace s) = c_content c).
Proof. intros St I view c s st. apply custom_delivered. Qed.

(** What the library believes to be downloaded is in the storage, and is right. *)
Theorem C94_stored : forall St (I : custom St) view c s st x,
  honours I view -> sane c -> own_storage c -> honours_ranges c ->
  creach I c (roaming_env c) s st -> is_downloaded s x ->
  exists b, nth_error (view st) x = Some (Some b) /\ nth_error (c_content c) x = Some b.
Proof. intros St I view c s st x. apply custom_stored. Qed.

(** What happens with such a storage, except for the contents of the store itself, is what
    happens with a file whose reads are cut short at certain lengths ([PlCustom] of
    Storage.v).  So what the other properties say about the events of all executions with
    unbounded storage holds here too. *)
Theorem C94_like_a_file : forall St (I : custom St) view c (allow : gstate -> label -> Prop) ls s st,
  honours I view -> sane c -> own_storage c -> honours_ranges c ->
  (forall s l, allow s l -> honest_env c s l) ->
  (c_seekable c = false \/ forall s l, allow s l -> roaming_client c s l) ->
  (forall s u l, allow s l -> allow (set_store s u) l) ->
  cpath I c allow ls s st ->
  exists limits f s0, let c' := with_provider c (PPlain (PlCustom limits)) in
    init c' = Some s0 /\ allowed c' allow s0 ls /\
    run c' s0 ls = Some (set_store s (SPlain (UFile f))).
Proof.
  intros St I view c allow ls s st H1 H2 H3 H4 H5 H6 H7 H8.
  destruct (custom_refines I view c allow ls s st) as (L & f & s0 & _ & K); auto. exists L, f, s0. exact K.
Qed.

(** When the download has completed, the whole resource is in the storage. *)
Theorem C94_complete : forall St (I : custom St) view c s st x,
  honours I view -> sane c -> own_storage c -> honours_ranges c ->
  c_seekable c = true -> c_clen c <> None ->
  creach I c (roaming_env c) s st -> completed s -> x < length (c_content c) ->
  exists b, nth_error (view st) x = Some (Some b) /\ nth_error (c_content c) x = Some b.
Proof.
  intros St I view c s st x Hi Hs Ho Hh Hk Hl H Hc Hx.
  eapply custom_stored; eauto.
  destruct (creach_path _ _ _ _ _ H) as [ls P].
  destruct (custom_refines I view c (roaming_env c) ls s st) as (L & f & s0 & _ & E1 & E2 & E3); auto.
  { intros ? ? [_ A]. exact A. }
  { right. intros ? ? [A _]. exact A. }
  { intros ? ? ? A. exact A. }
  assert (R : reach (on_file c L) (no_empty_chunk_past_end (on_file c L)) (on s f)).
  { eapply (allowed_reach _ (roaming_env c)); [intros ? ? (_ & A & _); exact A|constructor; exact E1|exact E2|exact E3]. }
  destruct (completed_stored (on_file c L) (on s f) x) as [K _]; auto.
  - exact Logic.I.
Qed.

(** Every call returns: the actions of the task and the reader are bounded in terms of the
    length of the resource and the number of calls, and while a call is in progress there
    is one to execute, whatever the storage answers. *)
Theorem C94_calls_return : forall St (I : custom St) view c ls s st,
  honours I view -> sane c -> own_storage c -> honours_ranges c ->
  cpath I c (both (roaming_env c) productive) ls s st ->
  actions ls <= (2 + seek_calls ls) * work_bound (length (c_content c)) + 8 * (1 + calls ls) /\
  (in_call s -> exists l bs l' st' s',
     action l = true /\ answered I c s st l = Some (bs, l', st') /\
     action l' = true /\ productive s l' /\ step c (facing I s st bs) l' = Some s').
Proof.
  intros St I view c ls s st Hi Hs Ho Hh P.
  destruct (custom_refines I view c (both (roaming_env c) productive) ls s st)
    as (L & f & s0 & R & E1 & E2 & E3); auto.
  { intros ? ? [[_ A] _]. exact A. }
  { right. intros ? ? [[A _] _]. exact A. }
  { intros ? ? ? A. exact A. }
  assert (A2 : allowed (on_file c L) productive s0 ls).
  { eapply allowed_less; [|exact E2]. intros ? ? [_ A]. exact A. }
  destruct (C74_calls_return (on_file c L) s0 ls (on s f)) as [K1 K2]; auto.
  - exact Logic.I.
  - constructor. exact E1.
  - split; [exact K1|]. intros Hc. destruct (K2 Hc) as (l & s2 & B1 & B2 & B3).
    rewrite step_on_file in B3 by auto. eapply custom_moves; eauto.
Qed.

(** ** A storage that does all the contract allows *)

(** It reserves the announced length, reads two bytes at a time and writes at most three;
    every third operation fails.  State: what is stored, the two positions, operations so
    far.  Where nothing was written it reads the byte 255. *)
Record picky := mkPicky { k_view : list (option byte); k_rpos : nat; k_wpos : nat; k_ops : nat }.

Definition k_fails (st : picky) : bool := k_ops st mod 3 =? 2.

Definition picky_storage : custom picky := mkCustom
  (fun clen => mkPicky (repeat None (match clen with Some n => n | None => 0 end)) 0 0 0)
  k_rpos k_wpos
  (fun n st =>
     if k_fails st then (Err EOther, mkPicky (k_view st) (k_rpos st) (k_wpos st) (S (k_ops st)))
     else
       let bs := map (fun o => match o with Some b => b | None => xff end)
                     (slice (k_view st) (k_rpos st) (Nat.min n 2)) in
       (Ok bs, mkPicky (k_view st) (k_rpos st + length bs) (k_wpos st) (S (k_ops st))))
  (fun p st => (true, mkPicky (k_view st) p (k_wpos st) (S (k_ops st))))
  (fun bs st =>
     let k := Nat.min (length bs) 3 in
     (Ok k, mkPicky (patch (k_view st) (k_wpos st) (firstn k bs)) (k_rpos st) (k_wpos st + k) (k_ops st)))
  (fun p st => (true, mkPicky (k_view st) (k_rpos st) p (k_ops st))).

Lemma picky_honours : honours picky_storage k_view.
Proof.
  constructor; cbn.
  - intros clen. split; [|auto]. eexists. split; [reflexivity|]. auto.
  - intros n st r st' E. destruct (k_fails st); injection E as <- <-; cbn; [auto|].
    split; [auto|split; [auto|]]. rewrite map_length, length_slice.
    split; [reflexivity|split; [lia|split]].
    + intros i b Hb. rewrite nth_error_map, nth_error_slice in Hb.
      destruct (i <? Nat.min n 2); [|discriminate].
      destruct (nth_error (k_view st) (k_rpos st + i)) as [[b'|]|]; cbn in Hb; try discriminate; auto.
      injection Hb as ->. auto.
    + intros Hn [b Hb] E. apply map_eq_nil, slice_nil_inv in E.
      assert (k_rpos st < length (k_view st)) by (apply nth_error_Some; congruence). lia.
  - intros p st ok st' E. injection E as <- <-. cbn. auto.
  - intros bs st r st' E. injection E as <- <-. cbn.
    split; [auto|]. split; [lia|split; [|auto]]. destruct bs; [congruence|cbn; lia].
  - intros p st ok st' E. injection E as <- <-. cbn. auto.
Qed.

Definition picky_cfg : cfg := mk (Some 12) true 0 4 (PPlain (PlCustom [])).

(** A chunk of five bytes is stored in two writes.  Reads of three bytes return two; one
    fails and is repeated.  A forward seek starts a range request; what it brings is read. *)
Definition picky_run : list label :=
  [LDChunk 5] ++ Tk 7 ++ [LOp (ORead 3)] ++ Rd 4 ++ [LOp (ORead 3)] ++ Rd 4 ++
  [LOp (ORead 1)] ++ Rd 4 ++ [LOp (ORead 1)] ++ Rd 4 ++
  [LOp (OSeek (FromStart 8))] ++ Rd 4 ++ [LDSeek; LDSeekRes true; LDChunk 3] ++ Tk 2 ++
  [LDChunk 1] ++ Tk 7 ++ Rd 3 ++
  [LOp (ORead 4)] ++ Rd 4 ++ [LOp (ORead 4)] ++ Rd 4 ++ [LOp (ORead 4)] ++ Rd 4.

Example C94_case :
  honours picky_storage k_view /\ sane picky_cfg /\ own_storage picky_cfg /\
  honours_ranges picky_cfg /\
  exists s st, creach picky_storage picky_cfg (roaming_env picky_cfg) s st /\
    (forall e, In e [EvWrite 4 3; EvRead 0 3 false (Ok [x01; x02]); EvRead 2 3 false (Ok [x03; x04]);
         EvRead 4 1 false (Err EOther); EvRead 4 1 false (Ok [x05]); EvSeekRange 8 (Some 12);
         EvRead 8 4 false (Ok [x09; x0a]); EvRead 10 4 false (Ok [x0b; x0c])] -> In e (g_trace s)) /\
    is_downloaded s 9 /\ nth_error (k_view st) 9 = Some (Some x0a) /\
    nth_error (k_view st) 6 = Some None.
Proof.
  split; [apply picky_honours|split; [apply mk_sane; [auto|lia]|split; [reflexivity|split; [apply mk_honours|]]]].
  assert (E : exists s st, cexec picky_storage picky_cfg (roaming_env_b picky_cfg) picky_run = Some (s, st) /\
    (forall e, In e [EvWrite 4 3; EvRead 0 3 false (Ok [x01; x02]); EvRead 2 3 false (Ok [x03; x04]);
         EvRead 4 1 false (Err EOther); EvRead 4 1 false (Ok [x05]); EvSeekRange 8 (Some 12);
         EvRead 8 4 false (Ok [x09; x0a]); EvRead 10 4 false (Ok [x0b; x0c])] -> In e (g_trace s)) /\
    is_downloaded s 9 /\ nth_error (k_view st) 9 = Some (Some x0a) /\
    nth_error (k_view st) 6 = Some None).
  { eexists. eexists. split; [vm_compute; reflexivity|]. split; [|split; [|split; reflexivity]].
    - cbn [In g_trace]. intros e He. tauto.
    - exists 8, 12. split; [vm_compute; tauto|lia]. }
  destruct E as (s & st & E & K). exists s, st. split; [|exact K].
  eapply cexec_reach; [|exact E]. decides_tac.
Qed.

(** The download of the same run completes: the gap is fetched too.  A call is in progress. *)
Definition picky_complete_run : list label :=
  picky_run ++ [LDEof; LDSeekRes true; LDChunk 3] ++ Tk 6 ++ [LDEof] ++ Tk 2 ++
  [LDFinishRes true] ++ Tk 1 ++ [LOp (ORead 3)].

Example C94_complete_case :
  c_seekable picky_cfg = true /\ c_clen picky_cfg <> None /\
  exists ls s st, cpath picky_storage picky_cfg (both (roaming_env picky_cfg) productive) ls s st /\
    creach picky_storage picky_cfg (roaming_env picky_cfg) s st /\
    completed s /\ in_call s /\ k_view st = map Some (c_content picky_cfg).
Proof.
  split; [reflexivity|split; [discriminate|]].
  assert (E : exists s st, cexec picky_storage picky_cfg (both_b (roaming_env_b picky_cfg) productive_b)
      picky_complete_run = Some (s, st) /\
    cexec picky_storage picky_cfg (roaming_env_b picky_cfg) picky_complete_run = Some (s, st) /\
    completed s /\ in_call s /\ k_view st = map Some (c_content picky_cfg)).
  { eexists. eexists. split; [vm_compute; reflexivity|]. split; [vm_compute; reflexivity|].
    split; [split; reflexivity|]. split; [exact Logic.I|reflexivity]. }
  destruct E as (s & st & E1 & E2 & K).
  assert (R : creach picky_storage picky_cfg (both (roaming_env picky_cfg) productive) s st).
  { eapply cexec_reach; [|exact E1]. decides_tac. }
  destruct (creach_path _ _ _ _ _ R) as [ls P]. exists ls, s, st. split; [exact P|split; [|exact K]].
  eapply cexec_reach; [|exact E2]. decides_tac.
Qed.

(** ** The contract is needed *)

(** A storage with one position for both halves, otherwise faultless. *)
Definition shared_storage : custom (list (option byte) * nat) := mkCustom
  (fun _ => ([], 0)) snd snd
  (fun n st =>
     let bs := map (fun o => match o with Some b => b | None => xff end)
                   (slice (fst st) (snd st) n) in
     (Ok bs, (fst st, snd st + length bs)))
  (fun p st => (true, (fst st, p)))
  (fun bs st => (Ok (length bs), (patch (fst st) (snd st) bs, snd st + length bs)))
  (fun p st => (true, (fst st, p))).

(** With it a client that only reads is told at the first read that the resource has
    ended. *)
Theorem C94_independent_positions_needed : exists c s st,
  sane c /\ own_storage c /\ honours_ranges c /\ c_content c <> [] /\
  creach shared_storage c (both sequential_client (honest_env c)) s st /\
  In (EvRead 0 3 true (Ok [])) (g_trace s) /\ delivered (g_trace s) = [].
Proof.
  set (c := mk (Some 12) true 0 4 (PPlain (PlCustom []))).
  assert (E : exists s st, cexec shared_storage c (both_b sequential_b (honest_env_b c))
      ([LOp (ORead 3)] ++ Rd 4 ++ [LDChunk 5] ++ Tk 7 ++ Rd 4) = Some (s, st) /\
    In (EvRead 0 3 true (Ok [])) (g_trace s) /\ delivered (g_trace s) = []).
  { eexists. eexists. split; [vm_compute; reflexivity|]. split; [cbn [In g_trace]; tauto|reflexivity]. }
  destruct E as (s & st & E & K). exists c, s, st.
  split; [apply mk_sane; [auto|lia]|split; [reflexivity|split; [apply mk_honours|split; [discriminate|]]]].
  split; [|exact K]. eapply cexec_reach; [|exact E]. decides_tac.
Qed.

Print Assumptions C94_reads.
Print Assumptions C94_unseekable_reads.
Print Assumptions C94_read_to_end.
Print Assumptions C94_stored.
Print Assumptions C94_like_a_file.
Print Assumptions C94_complete.
Print Assumptions C94_calls_return.
Print Assumptions C94_independent_positions_needed.

(** * The stream behind adaptors of the standard library (C98). *)

From Coq Require Import List Arith Lia ZArith Bool.
From Verif Require Import Base ListFacts RangeSet Storage StorageFacts System Spec StepTac InvTrace InvCore InvFront ReadFacts BoundedContent Exec Adaptors AdaptorFacts PropReturn PropReads.
Import ListNotations.

(** ** C98: [BufReader], [read_exact] and [read_to_end] *)

(** What the user of a [BufReader] with [cap] bytes sees: reads return the bytes of the
    resource from their position on, at least one unless they are at its end, and seeks
    return the position asked for.  The user may go back and forth between jumps. *)
Theorem C98_buffered : forall c cap st,
  sane c -> unbounded_store c -> honours_ranges c -> (Z.of_nat cap <= two64 / 2)%Z ->
  breach c cap (roaming_env c) (roaming_user c) st ->
  every_event (some_read_ok c) (b_hist st) /\ every_event (eof_ok c) (b_hist st) /\
  every_event (seek_result_ok c) (b_hist st).
Proof.
  intros c cap st H1 H2 H3 Hc H.
  pose proof (binv_reach _ _ _ _ _ Hc (roaming_serves c H1 H2 H3) H) as I.
  split; [apply all_events_every; apply I|]. split; [|apply all_events_every; apply I].
  intros newer e older E. pose proof (all_events_every _ _ (bi_read _ _ _ _ _ I) newer e older E) as K.
  destruct e as [pos n w [bs| |]| | | | | | |]; try exact I0; try exact Logic.I.
  cbn in *. destruct bs; [|exact Logic.I]. destruct K as [_ (k & K1 & K2 & K3)].
  symmetry in K1. apply slice_nil_inv in K1. lia.
Qed.

(** The calls the reader itself makes of the stream are those of a client that goes back and
    forth between jumps. *)
Theorem C98_inner : forall c cap st,
  sane c -> unbounded_store c -> honours_ranges c -> (Z.of_nat cap <= two64 / 2)%Z ->
  breach c cap (roaming_env c) (roaming_user c) st -> reach c (roaming_env c) (b_s st).
Proof.
  intros c cap st H1 H2 H3 Hc H.
  apply (bi_reach _ _ _ _ _ (binv_reach _ _ _ _ _ Hc (roaming_serves c H1 H2 H3) H)).
Qed.

(** The same for bounded storage and users that only read. *)
Theorem C98_buffered_bounded : forall c ck p n cap st,
  c_provider c = PBounded ck p n -> sane c -> c_rec c = RecRange -> (Z.of_nat cap <= two64 / 2)%Z ->
  breach c cap (bounded_env c) reading_user st ->
  every_event (some_read_ok c) (b_hist st) /\ every_event (eof_ok c) (b_hist st).
Proof.
  intros c ck p n cap st H1 H2 H3 Hc H.
  pose proof (binv_reach _ _ _ _ _ Hc (bounded_serves c ck p n H1 H2 H3) H) as I.
  split; [apply all_events_every; apply I|].
  intros newer e older E. pose proof (all_events_every _ _ (bi_read _ _ _ _ _ I) newer e older E) as K.
  destruct e as [pos m w [bs| |]| | | | | | |]; try exact Logic.I.
  cbn in *. destruct bs; [|exact Logic.I]. destruct K as [_ (k & K1 & K2 & K3)].
  symmetry in K1. apply slice_nil_inv in K1. lia.
Qed.

(** But a buffer larger than the capacity of the storage never gets a byte: every read of
    the user fails, whatever its size, whoever the user and whatever the transport.  (The
    default buffer has 8192 bytes.) *)
Theorem C98_buffer_too_large : forall c ck p size cap allow user st,
  c_provider c = PBounded ck p size -> size < cap -> breach c cap allow user st ->
  forall pos n w r, In (EvRead pos n w r) (b_hist st) -> r = Err EInvalidInput \/ r = Err EOther.
Proof.
  intros c ck p size cap allow user st H1 H2 H3.
  destruct (starved_reach _ _ _ _ _ _ _ _ H1 H2 H3) as (_ & _ & _ & _ & H). exact H.
Qed.

(** Every call of the user returns: the actions of the task and of the stream are bounded in
    terms of the length of the resource and the number of the user's calls, and while a call
    is in progress there is one to execute. *)
Theorem C98_buffered_calls_return : forall c cap user st ls st',
  sane c -> unbounded_store c -> honours_ranges c ->
  breach c cap no_empty_chunk user st -> ballowed c cap productive st ls -> brun c cap st ls = Some st' ->
  sys_actions ls <= (3 + 2 * user_calls ls) * work_bound (length (c_content c)) + 8 * (2 + 2 * user_calls ls) /\
  (b_pc st' <> BIdle ->
     exists l st'', action l = true /\ productive (b_s st') l /\ bstep c cap st' (BSys l) = Some st'').
Proof.
  intros c cap user st ls st' H1 H2 H3 H Ha Hrun.
  pose proof (matched_reach _ _ _ _ _ H) as Hm.
  destruct (brun_calls c cap ls st st' Hm Hrun) as (M & ls' & R1 & R2 & R3 & R4).
  assert (Hr : reach c no_empty_chunk (b_s st)) by (eapply breach_inner; eauto; intros; exact I).
  specialize (R4 productive ltac:(intros; exact I) Ha).
  destruct (C74_calls_return c (b_s st) ls' (b_s st') H1 H2 H3 Hr R4 R1) as [K1 K2]. split.
  - rewrite R2 in K1. assert (Hs : seek_calls ls' <= calls ls').
    { clear. induction ls' as [|l t IH]; [auto|]. destruct l; cbn; try lia. destruct o; lia. }
    assert (Hg : going_back (b_pc st) <= 1) by (destruct (b_pc st); cbn; lia).
    assert (seek_calls ls' <= 1 + 2 * user_calls ls) by lia.
    assert (calls ls' <= 1 + 2 * user_calls ls) by lia.
    eapply Nat.le_trans; [exact K1|]. apply Nat.add_le_mono; [apply Nat.mul_le_mono_r; lia|lia].
  - intros Hp. unfold matched in M.
    assert (Hin : in_call (b_s st')).
    { unfold in_call. destruct (b_pc st') as [|n|n|[]|d]; try contradiction; destruct (g_rpc (b_s st')); cbn in M; try discriminate; exact I. }
    destruct (K2 Hin) as (l & s'' & L1 & L2 & L3). exists l.
    assert (Hl : forall o, l <> LOp o) by (intros o ->; discriminate).
    rewrite bsys_step, L3 by exact Hl. destruct (call_step c (b_s st') l s'' Hl L3) as [(Q1 & _ & _)|(Q1 & e & Q2 & Q3)].
    + destruct (b_pc st') as [|n|n|from|d]; [contradiction| | | |];
        (destruct (g_rpc s''); [exfalso; rewrite M in Q1; cbn in Q1; try discriminate; destruct from; discriminate|..]; eauto).
    + rewrite M in Q3.
      destruct (b_return_calls c cap s'' (b_buf st') (b_pc st') (b_hist st') e Q1 Q3) as (st1 & B1 & _ & _).
      exists st1. rewrite Q1, Q2. split; [exact L1|]. split; [exact L2|]. destruct (b_pc st'); auto. contradiction.
Qed.

(** [read_exact] and [read_to_end]: what they return, for a piece of a history in which they
    make the calls.  [read_exact] returns the next [n] bytes of the resource, or fails with
    [UnexpectedEof] if there are fewer; [read_to_end] returns all that is left.  Any other
    failure is that of one of the calls. *)
Definition exact_ok (c : cfg) (at_ n : nat) (calls : list (nat * result (list byte))) (r : result (list byte)) : Prop :=
  match r with
  | Ok bs => length bs = n /\ bs = slice (c_content c) at_ n
  | Err e => e = EUnexpectedEof /\ length (c_content c) < at_ + n \/ exists m, In (m, Err e) calls
  | Panic => True
  end.
Definition to_end_ok (c : cfg) (at_ : nat) (calls : list (nat * result (list byte))) (r : result (list byte)) : Prop :=
  match r with
  | Ok bs => bs = skipn at_ (c_content c)
  | Err e => exists m, In (m, Err e) calls
  | Panic => True
  end.

Lemma some_reads : forall c tr, every_event (read_ok c) tr -> every_event (some_read_ok c) tr.
Proof.
  intros c tr H newer e older E. specialize (H newer e older E). destruct e as [pos n w [bs| |]| | | | | | |]; auto.
  destruct H as [A (k & B1 & B2 & B3 & _)]. split; [exact A|]. exists k. auto.
Qed.

Theorem C98_loops : forall c s piece older,
  sane c -> unbounded_store c -> honours_ranges c -> reach c (roaming_env c) s ->
  g_trace s = piece ++ older -> only_reads piece ->
  (forall n r, read_exact n (calls_of piece) r -> exact_ok c (cursor older) n (calls_of piece) r) /\
  (forall r, read_to_end (calls_of piece) r -> to_end_ok c (cursor older) (calls_of piece) r).
Proof.
  intros c s piece older H1 H2 H3 H E Ho. pose proof (some_reads _ _ (roaming_reads c s H1 H2 H3 H)) as K. rewrite E in K.
  split.
  - intros n r Hx. pose proof (read_exact_ok c n _ r Hx piece older K Ho eq_refl) as L. destruct r; cbn; tauto.
  - intros r Hx. pose proof (read_to_end_ok c _ r Hx piece older K Ho eq_refl) as L. destruct r; cbn; tauto.
Qed.

Theorem C98_buffered_loops : forall c cap st piece older,
  sane c -> unbounded_store c -> honours_ranges c -> (Z.of_nat cap <= two64 / 2)%Z ->
  breach c cap (roaming_env c) (roaming_user c) st -> b_hist st = piece ++ older -> only_reads piece ->
  (forall n r, read_exact n (calls_of piece) r -> exact_ok c (cursor older) n (calls_of piece) r) /\
  (forall r, read_to_end (calls_of piece) r -> to_end_ok c (cursor older) (calls_of piece) r).
Proof.
  intros c cap st piece older H1 H2 H3 Hc H E Ho. pose proof (proj1 (C98_buffered c cap st H1 H2 H3 Hc H)) as K. rewrite E in K.
  split.
  - intros n r Hx. pose proof (read_exact_ok c n _ r Hx piece older K Ho eq_refl) as L. destruct r; cbn; tauto.
  - intros r Hx. pose proof (read_to_end_ok c _ r Hx piece older K Ho eq_refl) as L. destruct r; cbn; tauto.
Qed.

(** ** Examples *)

Definition roaming_user_b (c : cfg) (h : list event) (u : uop) : bool :=
  let ok from :=
    match from with
    | FromStart p => (0 <=? p)%Z && (p <? two64)%Z
    | FromCurrent d | FromEnd d => (- (two64 / 2) <=? d)%Z && (d <? two64 / 2)%Z
    end && (Z.of_nat (cursor h) <? two64)%Z &&
    match seek_target c (cursor h) from with
    | Some t => (Z.of_nat (fst (stretch h)) <=? t)%Z && (t <? two64)%Z
    | None => true
    end in
  match u with URead _ => true | USeek from => ok from | URel d => ok (FromCurrent d) end.

Definition reading_b (h : list event) (u : uop) : bool := match u with URead _ => true | _ => false end.

Lemma roaming_user_decides : forall c h u, roaming_user_b c h u = true -> roaming_user c h u.
Proof.
  intros c h u H.
  assert (K : forall from, roaming_user_b c h (USeek from) = true -> roaming_user c h (USeek from)).
  { intros from K. cbn in K. apply andb_true_iff in K as [K B]. apply andb_true_iff in K as [A K]. split; [|split].
    - destruct from; cbn; apply andb_true_iff in A as [A1 A2]; apply Z.leb_le in A1; apply Z.ltb_lt in A2; split; auto.
    - apply Z.ltb_lt. exact K.
    - intros t E. rewrite E in B. apply andb_true_iff in B as [B1 B2]. apply Z.leb_le in B1. apply Z.ltb_lt in B2. auto. }
  destruct u; [exact I|apply K; exact H|apply (K (FromCurrent d)); exact H].
Qed.

Lemma reading_decides : forall h u, reading_b h u = true -> reading_user h u.
Proof. intros h [n| |] H; try discriminate. exact I. Qed.

Fixpoint brun_b (c : cfg) (cap : nat) (ab : gstate -> label -> bool) (ub : list event -> uop -> bool) (st : bstate) (ls : list blabel) : option bstate :=
  match ls with
  | [] => Some st
  | l :: t =>
      if match l with BSys l => ab (b_s st) l | BUser u => ub (b_hist st) u end
      then match bstep c cap st l with Some st' => brun_b c cap ab ub st' t | None => None end
      else None
  end.
Definition bexec (c : cfg) (cap : nat) ab ub (ls : list blabel) : option bstate :=
  match init c with Some s => brun_b c cap ab ub (mkB s no_buf BIdle []) ls | None => None end.

Lemma bexec_reach : forall c cap ab ub (allow : gstate -> label -> Prop) (user : list event -> uop -> Prop) ls st,
  decides ab allow -> (forall h u, ub h u = true -> user h u) -> bexec c cap ab ub ls = Some st ->
  breach c cap allow user st.
Proof.
  intros c cap ab ub allow user ls st H1 H2 H. unfold bexec in H. destruct (init c) as [s|] eqn:E; [|discriminate].
  assert (K : breach c cap allow user (mkB s no_buf BIdle [])) by (constructor; exact E). revert K H.
  generalize (mkB s no_buf BIdle []). clear E. induction ls as [|l ls IH]; intros st0 K H; cbn in H.
  - injection H as <-. exact K.
  - destruct (match l with BSys _ => _ | BUser _ => _ end) eqn:Eb; [|discriminate].
    destruct (bstep c cap st0 l) as [st1|] eqn:Es; [|discriminate].
    apply (IH st1); [|exact H]. eapply breach_step; eauto. destruct l; auto.
Qed.

Definition Sy (ls : list label) : list blabel := map BSys ls.

(** A user who never goes back, with a buffer of four: it reads one byte (the reader fetches
    four), skips one in the buffer, reads one, and seeks two further; for this the reader
    makes the stream go forward by one only.  Then it skips one, which makes the stream go
    back by two, and reads the rest. *)
Definition buffered_run : list blabel :=
  Sy ([LDChunk 6] ++ Tk 7) ++
  [BUser (URead 1)] ++ Sy (Rd 4) ++ [BUser (URel 1); BUser (URead 1)] ++
  [BUser (USeek (FromCurrent 2))] ++ Sy (Rd 3 ++ [LDChunk 6] ++ Tk 7) ++
  [BUser (URead 1)] ++ Sy (Rd 4) ++ [BUser (USeek (FromCurrent 1))] ++ Sy (Rd 3) ++
  [BUser (URead 9)] ++ Sy (Rd 4) ++ [BUser (URead 2)] ++ Sy (Rd 4 ++ [LDEof] ++ Tk 2 ++ [LDFinishRes true] ++ Tk 2 ++ Rd 4).

Example C98_case :
  let c := mk (Some 12) true 0 4 (PPlain PlMem) in
  sane c /\ unbounded_store c /\ honours_ranges c /\ (Z.of_nat 4 <= two64 / 2)%Z /\
  exists st, breach c 4 (roaming_env c) (roaming_user c) st /\
    b_hist st =
      [ EvRead 12 2 true (Ok []);
        EvRead 7 9 false (Ok [x08; x09; x0a; x0b; x0c]);
        EvSeek (FromCurrent 1) (Ok 7); EvRead 5 1 false (Ok [x06]); EvSeek (FromCurrent 2) (Ok 5);
        EvRead 2 1 false (Ok [x03]); EvSeek (FromCurrent 1) (Ok 2); EvRead 0 1 false (Ok [x01]) ] /\
    In (EvSeek (FromCurrent (-2)) (Ok 7)) (g_trace (b_s st)).
Proof.
  cbv zeta. split; [apply mk_sane; auto; lia|split; [exact I|split; [apply mk_honours|split; [discriminate|]]]].
  eexists. split.
  - eapply (bexec_reach _ _ (roaming_env_b (mk (Some 12) true 0 4 (PPlain PlMem)))
             (roaming_user_b (mk (Some 12) true 0 4 (PPlain PlMem))) _ _ buffered_run);
      [decides_tac|apply roaming_user_decides|vm_compute; reflexivity].
  - vm_compute. tauto.
Qed.

(** The last two reads of this history are those of [read_to_end], the last read but one and
    the one before it those of [read_exact] for one byte, and of a failing one for three. *)
Example C98_loops_case :
  let calls := [(9, Ok [x08; x09; x0a; x0b; x0c]); (2, Ok [])] in
  let piece := [EvRead 12 2 true (Ok []); EvRead 7 9 false (Ok [x08; x09; x0a; x0b; x0c])] in
  calls_of piece = calls /\ only_reads piece /\
  read_to_end calls (Ok [x08; x09; x0a; x0b; x0c]) /\
  read_exact 1 (calls_of [EvRead 5 1 false (Ok [x06])]) (Ok [x06]) /\
  read_exact 2 (calls_of [EvRead 12 2 true (Ok [])]) (Err EUnexpectedEof).
Proof.
  cbv zeta. split; [reflexivity|]. split; [intros f r [H|[H|[]]]; discriminate|]. split; [|split].
  - apply (re_more 9 [x08; x09; x0a; x0b; x0c] [(2, Ok [])] (Ok [])); [lia|discriminate|]. apply re_end. lia.
  - apply (rx_more 1 [x06] [] (Ok [])); [lia|discriminate|]. apply rx_full.
  - apply rx_end. lia.
Qed.

(** A read of one byte through a buffer of two, with a ring of three; the same through a
    buffer of five. *)
Example C98_bounded_case :
  let c := mk (Some 12) true 0 4 (PBounded true PlMem 3) in
  sane c /\ c_rec c = RecRange /\
  (exists st, breach c 2 (bounded_env c) reading_user st /\
     b_hist st = [EvRead 0 1 false (Ok [x01])] /\ br_buf (b_buf st) = [x01; x02]) /\
  exists st, breach c 5 (bounded_env c) reading_user st /\
     b_hist st = [EvRead 0 7 false (Err EInvalidInput); EvRead 0 1 false (Err EInvalidInput)].
Proof.
  cbv zeta. split; [apply mk_sane; auto; lia|split; [reflexivity|split]].
  - eexists. split.
    + eapply (bexec_reach _ _ (bounded_env_b (mk (Some 12) true 0 4 (PBounded true PlMem 3))) reading_b _ _
               (Sy ([LDChunk 6] ++ Tk 6) ++ [BUser (URead 1)] ++ Sy (Rd 4)));
        [decides_tac|apply reading_decides|vm_compute; reflexivity].
    + vm_compute. auto.
  - eexists. split.
    + eapply (bexec_reach _ _ (bounded_env_b (mk (Some 12) true 0 4 (PBounded true PlMem 3))) reading_b _ _
               (Sy ([LDChunk 6] ++ Tk 6) ++ [BUser (URead 1)] ++ Sy (Rd 1) ++ [BUser (URead 7)] ++ Sy (Rd 1)));
        [decides_tac|apply reading_decides|vm_compute; reflexivity].
    + vm_compute. auto.
Qed.

(** A call in progress: the schedule is one of those of [C98_buffered_calls_return]. *)
Example C98_return_case :
  let c := mk (Some 12) true 0 4 (PPlain PlMem) in
  exists st st', breach c 4 no_empty_chunk (fun _ _ => True) st /\
    ballowed c 4 productive st [BUser (USeek (FromCurrent (-2)))] /\
    brun c 4 st [BUser (USeek (FromCurrent (-2)))] = Some st' /\
    b_pc st' = BSeek (FromCurrent (-2)) /\ g_rpc (b_s st') = RSCheck (FromCurrent (-4)).
Proof.
  cbv zeta. eexists. eexists. split.
  - eapply (bexec_reach _ _ empty_b (fun _ _ => true) _ _ (Sy ([LDChunk 6] ++ Tk 7) ++ [BUser (URead 2)] ++ Sy (Rd 4)));
      [decides_tac|auto|vm_compute; reflexivity].
  - vm_compute. repeat split; reflexivity.
Qed.

Print Assumptions C98_buffered.
Print Assumptions C98_inner.
Print Assumptions C98_buffered_bounded.
Print Assumptions C98_buffer_too_large.
Print Assumptions C98_buffered_calls_return.
Print Assumptions C98_loops.
Print Assumptions C98_buffered_loops.

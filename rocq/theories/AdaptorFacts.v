(** * Facts about the adaptors of the standard library. *)

From Coq Require Import List Arith Lia ZArith Bool.
From Verif Require Import Base ListFacts RangeSet Storage StorageFacts System Spec StepTac InvTrace InvCore InvFront ReadFacts CallFacts BoundedContent Exec Adaptors.
Import ListNotations.

(** ** Calls of the stream *)

(** The call in progress. *)
Definition rpc_call (r : rpc) : option op :=
  match r with
  | RIdle | RDropped => None
  | RRCheck n | RRGet n _ _ | RRSet n _ _ | RRNotify n _ _ | RRWait n _ _ | RRCheck2 n _ _
  | RRRead n _ _ _ | RRDone n _ _ _ => Some (ORead n)
  | RSCheck from | RSGet from _ | RSSet from _ | RSSend from _ | RSWait from _ | RSCheck2 from _
  | RSSeek from _ => Some (OSeek from)
  end.

Definition answers (o : option op) (e : event) : Prop :=
  match o, e with
  | Some (ORead n), EvRead _ m _ _ => m = n
  | Some (OSeek from), EvSeek from' _ => from' = from
  | _, _ => False
  end.

(** A step leaves the call alone, or it is the end of it. *)
Lemma call_step : forall c s l s', (forall o, l <> LOp o) -> step c s l = Some s' ->
  (rpc_call (g_rpc s') = rpc_call (g_rpc s) /\ cursor (g_trace s') = cursor (g_trace s) /\
   stretch (g_trace s') = stretch (g_trace s)) \/
  (g_rpc s' = RIdle /\ exists e, g_trace s' = e :: g_trace s /\ answers (rpc_call (g_rpc s)) e).
Proof.
  intros c s l s' Hl H. step_cases H; gsimpl;
    repeat match goal with E : g_rpc _ = _ |- _ => rewrite E in *; clear E end;
    cbn [rpc_call cursor stretch answers]; auto;
    try (exfalso; eapply Hl; reflexivity);
    try (right; split; [reflexivity|eexists; split; [reflexivity|reflexivity]]).
Qed.

Lemma rpc_call_idle : forall r, rpc_call r = None -> r = RIdle \/ r = RDropped.
Proof. destruct r; cbn; intros H; try discriminate; auto. Qed.

Lemma issue_step : forall c s o s', step c s (LOp o) = Some s' ->
  rpc_call (g_rpc s') = Some o /\ g_trace s' = g_trace s.
Proof. intros c s o s' H. cbn in H. destruct (g_rpc s); try discriminate. injection H as <-. destruct o; auto. Qed.

(** ** [BufReader] *)

Record tracks (c : cfg) (tr h : list event) (b : bufr) : Prop := mkTracks
  { tk_pos : br_pos b <= length (br_buf b);
    tk_cur : cursor h + rest b = cursor tr;
    tk_len : length (br_buf b) <= cursor tr;
    tk_buf : br_buf b = slice (c_content c) (cursor tr - length (br_buf b)) (length (br_buf b));
    tk_lo : fst (stretch tr) <= fst (stretch h);
    tk_hi : snd (stretch h) <= snd (stretch tr) }.

(** The call the reader has made. *)
Definition pc_call (cap : nat) (b : bufr) (pc : bpc) : option op :=
  match pc with
  | BIdle => None
  | BFill _ => Some (ORead cap)
  | BDirect n => Some (ORead n)
  | BSeek (FromCurrent d) => Some (OSeek (FromCurrent (d - Z.of_nat (rest b))))
  | BSeek from => Some (OSeek from)
  | BBack _ => Some (OSeek (FromCurrent (- Z.of_nat (rest b))))
  end.

(** The user has asked for this seek. *)
Definition asked (U : list event -> uop -> Prop) (h : list event) (from : seek_from) : Prop :=
  U h (USeek from) \/ exists d, from = FromCurrent d /\ U h (URel d).

Record binv (c : cfg) (cap : nat) (E : gstate -> label -> Prop) (U : list event -> uop -> Prop) (st : bstate) : Prop := mkBinv
  { bi_reach : reach c E (b_s st);
    bi_cap : length (br_buf (b_buf st)) <= cap;
    bi_tracks : tracks c (g_trace (b_s st)) (b_hist st) (b_buf st);
    bi_call : rpc_call (g_rpc (b_s st)) = pc_call cap (b_buf st) (b_pc st);
    bi_pc : match b_pc st with
            | BIdle => True
            | BFill n => rest (b_buf st) = 0 /\ n < cap
            | BDirect n => b_buf st = no_buf
            | BSeek from => asked U (b_hist st) from
            | BBack d => asked U (b_hist st) (FromCurrent d)
            end;
    bi_read : all_events (some_read_ok c) (b_hist st);
    bi_seek : all_events (seek_result_ok c) (b_hist st) }.

(** The user's calls, as the reader makes them, are calls the environment allows. *)
Record serves (c : cfg) (E : gstate -> label -> Prop) (U : list event -> uop -> Prop) : Prop := mkServes
  { sv_reads : forall s, reach c E s -> every_event (read_ok c) (g_trace s);
    sv_read : forall s n, E s (LOp (ORead n));
    sv_user : forall h u, U h u -> roaming_user c h u;
    sv_seek : forall s h from o, asked U h from -> seek_arg_ok o ->
      (forall t, seek_target c (cursor (g_trace s)) o = Some t ->
         (Z.of_nat (fst (stretch (g_trace s))) <= t < two64)%Z) -> E s (LOp (OSeek o));
    sv_len : forall s h from n, asked U h from -> reach c E s -> c_clen c = Some n ->
      cursor (g_trace s) <= n }.

Lemma tracks_none : forall c tr h, cursor h = cursor tr -> fst (stretch tr) <= fst (stretch h) ->
  snd (stretch h) <= snd (stretch tr) -> tracks c tr h no_buf.
Proof. intros c tr h H1 H2 H3. constructor; unfold rest; cbn; auto; lia. Qed.

Lemma tracks_same : forall c tr tr' h b, tracks c tr h b -> cursor tr' = cursor tr -> stretch tr' = stretch tr -> tracks c tr' h b.
Proof. intros c tr tr' h b [] H1 H2. constructor; rewrite ?H1, ?H2; auto. Qed.

Lemma rest_slice : forall c tr h b, tracks c tr h b ->
  skipn (br_pos b) (br_buf b) = slice (c_content c) (cursor h) (rest b).
Proof.
  intros c tr h b [H1 H2 H3 H4 H5 H6]. rewrite H4 at 1. rewrite skipn_slice. unfold rest in *. f_equal; lia.
Qed.

(** Bytes are handed out of the buffer. *)
Lemma hand_out_ok : forall c s h b n w, tracks c (g_trace s) h b ->
  (0 < n -> exists k, 0 < k /\ skipn (br_pos b) (br_buf b) = slice (c_content c) (cursor h) k) ->
  let st := hand_out s b n w h in
  tracks c (g_trace s) (b_hist st) (b_buf st) /\
  exists e, b_hist st = e :: h /\ some_read_ok c h e /\ seek_result_ok c h e.
Proof.
  intros c s h b n w T Hk. pose proof (rest_slice _ _ _ _ T) as Hs. pose proof T as [H1 H2 H3 H4 H5 H6].
  cbv zeta. unfold hand_out. cbn [b_hist b_buf].
  set (bs := firstn n (skipn (br_pos b) (br_buf b))).
  assert (Hl : length bs <= rest b)
    by (unfold bs, rest; rewrite firstn_length, skipn_length; lia).
  pose proof (stretch_cursor (g_trace s)). split.
  - constructor; cbn [br_buf br_pos cursor stretch fst snd]; auto; unfold rest in *; cbn [br_buf br_pos] in *; lia.
  - eexists. split; [reflexivity|]. split; [|exact I]. cbn [some_read_ok]. split; [reflexivity|].
    destruct n as [|n]. { exists 0. cbn. repeat split; auto. }
    destruct (Hk ltac:(lia)) as (k & K1 & K2). exists (Nat.min (S n) k).
    split; [unfold bs; rewrite K2; apply firstn_slice|]. lia.
Qed.

Lemma all_events_head : forall P e tr, every_event P (e :: tr) -> P tr e.
Proof. intros P e tr H. exact (H [] e tr eq_refl). Qed.

Lemma asked_roams : forall c E U h from, serves c E U -> asked U h from -> roaming_user c h (USeek from).
Proof. intros c E U h from S [H|(d & -> & H)]; apply (sv_user _ _ _ S) in H; exact H. Qed.

(** The reader makes a seek that is allowed. *)
Lemma seek_issued : forall c cap E U s h b pc o st' from, serves c E U ->
  reach c E s -> length (br_buf b) <= cap -> tracks c (g_trace s) h b -> asked U h from ->
  issue c s (OSeek o) b pc h = Some st' -> pc_call cap b pc = Some (OSeek o) ->
  match pc with BSeek f => f = from | BBack d => FromCurrent d = from | _ => False end ->
  seek_arg_ok o ->
  (forall t, seek_target c (cursor (g_trace s)) o = Some t ->
     seek_target c (cursor h) from = Some t \/ t = Z.of_nat (cursor h)) ->
  all_events (some_read_ok c) h -> all_events (seek_result_ok c) h ->
  binv c cap E U st'.
Proof.
  intros c cap E U s h b pc o st' from S Hr Hc T Ha H Hp Hf Ho Ht R1 R2.
  pose proof (asked_roams _ _ _ _ _ S Ha) as (Hu1 & Hu2 & Hu3). destruct T as [T1 T2 T3 T4 T5 T6] eqn:ET. clear ET.
  pose proof (stretch_cursor h). unfold issue in H. destruct (step c s (LOp (OSeek o))) as [s'|] eqn:Hs; [|discriminate].
  injection H as <-. destruct (issue_step _ _ _ _ Hs) as [I1 I2].
  constructor; cbn [b_s b_hist b_buf b_pc]; rewrite ?I2; auto.
  - eapply reach_step; [exact Hr| |exact Hs]. apply (sv_seek _ _ _ S s h from); auto.
    intros t Et. destruct (Ht t Et) as [K|K]; [specialize (Hu3 t K); lia|subst t; lia].
  - rewrite Hp. exact I1.
  - destruct pc; try contradiction; subst; auto.
Qed.

Lemma binv_init : forall c cap E U s, init c = Some s -> binv c cap E U (mkB s no_buf BIdle []).
Proof.
  intros c cap E U s H. pose proof H as H0. unfold init in H. destruct (into_rw _ _) eqn:Ei; [|discriminate].
  injection H as <-. constructor; cbn; auto.
  - constructor. exact H0.
  - lia.
  - apply tracks_none; auto.
Qed.

Lemma b_seek_ok : forall c cap E U st from st', (Z.of_nat cap <= two64 / 2)%Z -> serves c E U ->
  binv c cap E U st -> asked U (b_hist st) from -> b_seek c st from = Some st' -> binv c cap E U st'.
Proof.
  intros c cap E U st from st' Hcap S [I1 I0 I2 I3 I4 I5 I6] Ha H. unfold b_seek in H.
  pose proof (asked_roams _ _ _ _ _ S Ha) as (Hu1 & Hu2 & Hu3). pose proof (tk_cur _ _ _ _ I2) as Hc.
  assert (Hre : rest (b_buf st) <= cap) by (unfold rest; lia).
  destruct from as [p|d|d].
  - eapply seek_issued; eauto; cbn; auto.
  - destruct (fits_i64 _) eqn:Ef.
    + eapply seek_issued; eauto; cbn; auto.
      * unfold fits_i64 in Ef. apply andb_prop in Ef as [F1 F2]. apply Z.leb_le in F1. apply Z.ltb_lt in F2. auto.
      * intros t [= <-]. left. f_equal. lia.
    + eapply seek_issued; eauto; cbn; auto.
      * change (two64 / 2)%Z with 9223372036854775808%Z in *. lia.
      * intros t [= <-]. right. lia.
  - eapply seek_issued; eauto; cbn; auto.
Qed.

Lemma hand_out_inv : forall c cap E U s h b n w, reach c E s -> rpc_call (g_rpc s) = None ->
  length (br_buf b) <= cap -> tracks c (g_trace s) h b ->
  (0 < n -> exists k, 0 < k /\ skipn (br_pos b) (br_buf b) = slice (c_content c) (cursor h) k) ->
  all_events (some_read_ok c) h -> all_events (seek_result_ok c) h ->
  binv c cap E U (hand_out s b n w h).
Proof.
  intros c cap E U s h b n w H1 H2 H3 H4 H5 H6 H7.
  destruct (hand_out_ok c s h b n w H4 H5) as (A & e & B1 & B2 & B3).
  constructor; auto; try exact I; rewrite B1; cbn; auto.
Qed.

(** What the reader does with the result. *)
Lemma b_return_ok : forall c cap E U s l s' st e st', (Z.of_nat cap <= two64 / 2)%Z -> serves c E U ->
  binv c cap E U st -> s = b_s st -> (forall o, l <> LOp o) -> E s l -> step c s l = Some s' ->
  g_rpc s' = RIdle -> g_trace s' = e :: g_trace s -> answers (pc_call cap (b_buf st) (b_pc st)) e ->
  b_return c s' (b_buf st) (b_pc st) (b_hist st) e = Some st' -> binv c cap E U st'.
Proof.
  intros c cap E U s l s' st e st' Hcap S [I1 I0 I2 I3 I4 I5 I6] Es Hl He Hs Hi Ht Ha H. subst s.
  assert (Hr : reach c E s') by (eapply reach_step; eauto).
  pose proof (sv_reads _ _ _ S s' Hr) as Hok. rewrite Ht in Hok. apply all_events_head in Hok.
  pose proof (tr_seeks _ _ (traced_reach _ _ _ Hr)) as Hsk. rewrite Ht in Hsk. apply proj1 in Hsk.
  assert (Hidle : rpc_call (g_rpc s') = None) by (rewrite Hi; reflexivity).
  pose proof (stretch_cursor (g_trace (b_s st))) as Hsc. pose proof (stretch_cursor (b_hist st)) as Hsh.
  destruct st as [s b pc h]. cbn [b_s b_buf b_pc b_hist] in *. set (tr := g_trace s) in *.
  destruct I2 as [T1 T2 T3 T4 T5 T6] eqn:ET. clear ET.
  destruct pc as [|n|n|from|d]; cbn [pc_call answers b_return] in *; try contradiction.
  - (* fill *)
    destruct e as [pos m w r| | | | | | |]; try contradiction. cbn in Ha. subst m. destruct I4 as [Hz Hn].
    assert (Hc : cursor h = cursor tr) by (unfold rest in *; lia).
    destruct r as [bs|k|]; cbn in Hok.
    + injection H as <-. destruct Hok as [-> Hf]. pose proof Hf as (k & -> & K1 & K2 & _).
      assert (Hlen : length (slice (c_content c) (cursor tr) k) <= cap) by (rewrite length_slice; lia).
      assert (T : tracks c (g_trace s') h (mkBuf (slice (c_content c) (cursor tr) k) 0)).
      { rewrite Ht. constructor; unfold rest; cbn [br_buf br_pos cursor stretch fst snd]; try lia.
        fold tr. replace (cursor tr + _ - _) with (cursor tr) by lia.
        rewrite length_slice. apply slice_min. }
      apply hand_out_inv; auto. intros _. exists k. cbn. split; [lia|]. rewrite Hc. reflexivity.
    + injection H as <-. constructor; cbn [b_s b_buf b_pc b_hist br_buf no_buf length]; auto; try lia;
        try (cbn; split; [exact I|assumption]).
      rewrite Ht. apply tracks_none; cbn [cursor stretch]; auto.
    + injection H as <-. constructor; cbn [b_s b_buf b_pc b_hist br_buf no_buf length]; auto; try lia;
        try (cbn; split; [exact I|assumption]).
      rewrite Ht. apply tracks_none; cbn [cursor stretch]; auto.
  - (* direct *)
    destruct e as [pos m w r| | | | | | |]; try contradiction. cbn in Ha. subst m b.
    assert (Hc : cursor h = cursor tr) by (unfold rest in T2; cbn in T2; lia).
    injection H as <-. constructor; cbn [b_s b_buf b_pc b_hist br_buf no_buf length]; auto; try lia.
    + rewrite Ht. destruct r; apply tracks_none; cbn [cursor stretch fst snd]; auto; lia.
    + cbn. split; auto. destruct r as [bs| |]; auto. destruct Hok as [-> (k & K1 & K2 & K3 & _)].
      split; auto. exists k. rewrite Hc. auto.
    + cbn. auto.
  - (* seek *)
    assert (exists f r, e = EvSeek f r /\ forall t, seek_target c (cursor tr) f = Some t <-> seek_target c (cursor h) from = Some t)
      as (f & r & -> & Hft).
    { destruct from as [p|d|d]; destruct e as [ |f r| | | | | |]; try contradiction; cbn in Ha; subst f;
        eexists; eexists; (split; [reflexivity|]); cbn; try tauto.
      intros t. split; intros [= <-]; f_equal; lia. }
    destruct r as [p| |].
    + injection H as <-. constructor; cbn [b_s b_buf b_pc b_hist br_buf no_buf length]; auto; try lia.
      * rewrite Ht. destruct (asked_roams _ _ _ _ _ S I4) as (U1 & U2 & U3).
        assert (Hp : fst (stretch tr) <= p).
        { destruct (seek_target c (cursor tr) f) as [t|] eqn:Et.
          - pose proof (U3 t (proj1 (Hft t) eq_refl)) as K. cbn in Hsk. specialize (Hsk t Et ltac:(lia)).
            destruct (c_clen c) as [n|] eqn:Ec; [|lia].
            pose proof (sv_len _ _ _ S s h from n I4 I1 Ec) as Kn. fold tr in Kn. lia.
          - exfalso. destruct f as [q|q|q]; cbn in Et; try discriminate.
            destruct (c_clen c) as [n|] eqn:Ec; [discriminate|].
            pose proof (end_unknown c E s' Ec Hr) as K. rewrite Ht in K.
            apply all_events_head in K. cbn in K. intuition discriminate. }
        apply tracks_none; cbn [cursor stretch]; auto; unfold enter;
          destruct (Nat.leb_spec (fst (stretch tr)) p), (Nat.leb_spec p (snd (stretch tr))),
            (Nat.leb_spec (fst (stretch h)) p), (Nat.leb_spec p (snd (stretch h))); cbn [andb fst snd]; lia.
      * cbn. auto.
      * cbn [all_events]. split; auto. cbn. intros t Et. cbn in Hsk. apply Hsk. apply Hft. exact Et.
    + injection H as <-. constructor; cbn [b_s b_buf b_pc b_hist]; auto; try (cbn; split; [exact I|assumption]).
      rewrite Ht. constructor; cbn [cursor stretch]; auto.
    + injection H as <-. constructor; cbn [b_s b_buf b_pc b_hist]; auto; try (cbn; split; [exact I|assumption]).
      rewrite Ht. constructor; cbn [cursor stretch]; auto.
  - (* back *)
    destruct e as [ |f r| | | | | |]; try contradiction. cbn in Ha. subst f.
    destruct r as [p| |].
    + pose proof (asked_roams _ _ _ _ _ S I4) as (U1 & U2 & U3). cbn in Hsk.
      specialize (Hsk _ eq_refl ltac:(lia)).
      assert (p = cursor h).
      { destruct (c_clen c) as [n|] eqn:Ec; [|lia].
        pose proof (sv_len _ _ _ S s h _ n I4 I1 Ec) as K. fold tr in K. lia. }
      subst p. eapply (seek_issued c cap E U s' h no_buf _ (FromCurrent d) st' (FromCurrent d)); eauto; cbn; auto; try lia.
      * rewrite Ht. unfold rest in T2. apply tracks_none; cbn [cursor stretch]; auto; unfold enter;
          (replace (fst (stretch tr) <=? cursor h) with true by (symmetry; apply Nat.leb_le; lia));
          (replace (cursor h <=? snd (stretch tr)) with true by (symmetry; apply Nat.leb_le; lia)); cbn [andb]; auto.
      * rewrite Z.sub_0_r. reflexivity.
      * rewrite Ht. cbn. auto.
    + injection H as <-. constructor; cbn [b_s b_buf b_pc b_hist]; auto; try (cbn; split; [exact I|assumption]).
      rewrite Ht. constructor; cbn [cursor stretch]; auto.
    + injection H as <-. constructor; cbn [b_s b_buf b_pc b_hist]; auto; try (cbn; split; [exact I|assumption]).
      rewrite Ht. constructor; cbn [cursor stretch]; auto.
Qed.

Lemma b_user_ok : forall c cap E U st u st', (Z.of_nat cap <= two64 / 2)%Z -> serves c E U ->
  binv c cap E U st -> U (b_hist st) u -> b_user c cap st u = Some st' -> binv c cap E U st'.
Proof.
  intros c cap E U st u st' Hcap S I Hu H. unfold b_user in H.
  destruct (b_pc st) eqn:Ep; try discriminate. destruct (g_rpc (b_s st)) eqn:Er; try discriminate.
  destruct u as [n|from|d].
  - destruct I as [I1 I0 I2 I3 I4 I5 I6]. destruct (Nat.eqb_spec (rest (b_buf st)) 0) as [Hz|Hz].
    + pose proof (tk_cur _ _ _ _ I2) as Hc. destruct (Nat.leb_spec cap n); unfold issue in H.
      * destruct (step c (b_s st) (LOp (ORead n))) as [s'|] eqn:Hs; [|discriminate]. injection H as <-.
        destruct (issue_step _ _ _ _ Hs) as [J1 J2]. constructor; cbn [b_s b_buf b_pc b_hist br_buf no_buf length]; auto; try lia.
        -- eapply reach_step; eauto. apply (sv_read _ _ _ S).
        -- rewrite J2. apply tracks_none; [lia|apply I2|apply I2].
      * destruct (step c (b_s st) (LOp (ORead cap))) as [s'|] eqn:Hs; [|discriminate]. injection H as <-.
        destruct (issue_step _ _ _ _ Hs) as [J1 J2]. constructor; cbn [b_s b_buf b_pc b_hist]; auto.
        -- eapply reach_step; eauto. apply (sv_read _ _ _ S).
        -- rewrite J2. auto.
    + injection H as <-. apply hand_out_inv; auto.
      * rewrite Er. reflexivity.
      * intros _. exists (rest (b_buf st)). split; [lia|]. eapply rest_slice; eauto.
  - eapply b_seek_ok; eauto. left. exact Hu.
  - assert (Ha : asked U (b_hist st) (FromCurrent d)) by (right; eauto).
    destruct (_ && _) eqn:Eq; [|eapply b_seek_ok; eauto].
    apply andb_prop in Eq as [Q1 Q2]. apply Z.leb_le in Q1, Q2. injection H as <-.
    pose proof (asked_roams _ _ _ _ _ S Ha) as (U1 & U2 & U3). specialize (U3 _ eq_refl).
    destruct I as [I1 I0 I2 I3 I4 I5 I6]. destruct I2 as [T1 T2 T3 T4 T5 T6].
    pose proof (stretch_cursor (g_trace (b_s st))). pose proof (stretch_cursor (b_hist st)).
    unfold rest in T2.
    constructor; cbn [b_s b_buf b_pc b_hist br_buf]; auto.
    + constructor; unfold rest; cbn [br_buf br_pos cursor stretch]; auto; try lia; unfold enter;
        destruct (Nat.leb_spec (fst (stretch (b_hist st))) (Z.to_nat (Z.of_nat (cursor (b_hist st)) + d))),
          (Nat.leb_spec (Z.to_nat (Z.of_nat (cursor (b_hist st)) + d)) (snd (stretch (b_hist st)))); cbn [andb fst snd]; lia.
    + rewrite Er. reflexivity.
    + cbn. auto.
    + cbn [all_events]. split; auto. cbn. intros t [= <-] Ht.
      destruct (c_clen c) as [k|] eqn:Ec; [|lia].
      pose proof (sv_len _ _ _ S (b_s st) _ _ k Ha I1 Ec). lia.
Qed.

Lemma bstep_ok : forall c cap E U st bl st', (Z.of_nat cap <= two64 / 2)%Z -> serves c E U ->
  binv c cap E U st -> match bl with BSys l => E (b_s st) l | BUser u => U (b_hist st) u end ->
  bstep c cap st bl = Some st' -> binv c cap E U st'.
Proof.
  intros c cap E U st bl st' Hcap S I Hu H. destruct bl as [l|u]; [|eapply b_user_ok; eauto].
  unfold bstep in H. destruct (match l with LOp _ => true | _ => false end) eqn:El.
  { destruct l; discriminate. }
  assert (Hl : forall o, l <> LOp o) by (intros o ->; discriminate).
  assert (H' : match step c (b_s st) l with
      | Some s' =>
          match b_pc st, g_rpc s' with
          | BIdle, _ => Some (mkB s' (b_buf st) BIdle (b_hist st))
          | pc, RIdle =>
              match g_trace s' with
              | e :: _ => b_return c s' (b_buf st) pc (b_hist st) e
              | [] => None
              end
          | pc, _ => Some (mkB s' (b_buf st) pc (b_hist st))
          end
      | None => None
      end = Some st') by (destruct l; try discriminate El; exact H).
  clear H. destruct (step c (b_s st) l) as [s'|] eqn:Hs; [|discriminate].
  assert (Hr : reach c E s') by (eapply reach_step; eauto; apply I).
  destruct (call_step c (b_s st) l s' Hl Hs) as [(K1 & K2 & K3)|(K1 & e & K2 & K3)].
  - assert (Hk : binv c cap E U (mkB s' (b_buf st) (b_pc st) (b_hist st))).
    { destruct I as [I1 I0 I2 I3 I4 I5 I6]. constructor; cbn [b_s b_buf b_pc b_hist]; auto.
      - eapply tracks_same; eauto.
      - congruence. }
    pose proof (bi_call _ _ _ _ _ Hk) as Hc. cbn [b_s b_buf b_pc b_hist] in Hc.
    destruct (b_pc st) as [|n|n|from|d] eqn:Ep;
      [injection H' as <-; exact Hk| | | |];
      (destruct (g_rpc s') eqn:Er; [exfalso; cbn in Hc; try discriminate; destruct from; discriminate| .. ]; injection H' as <-; exact Hk).
  - pose proof (bi_call _ _ _ _ _ I) as Hc. rewrite Hc in K3.
    rewrite K1 in H'. rewrite K2 in H'.
    assert (Hb : b_return c s' (b_buf st) (b_pc st) (b_hist st) e = Some st').
    { destruct (b_pc st); auto. contradiction. }
    eapply b_return_ok; eauto.
Qed.

Lemma binv_reach : forall c cap E U st, (Z.of_nat cap <= two64 / 2)%Z -> serves c E U ->
  breach c cap E U st -> binv c cap E U st.
Proof.
  intros c cap E U st Hcap S H. induction H as [s H|st bl st' H IH Ha Hs].
  - apply binv_init. exact H.
  - eapply bstep_ok; eauto.
Qed.

(** ** Environments *)

Lemma roaming_serves : forall c, sane c -> unbounded_store c -> honours_ranges c ->
  serves c (roaming_env c) (roaming_user c).
Proof.
  intros c H1 H2 H3. constructor.
  - intros s H. apply roaming_reads; auto.
  - intros s n. repeat split; exact I.
  - auto.
  - intros s h from o _ Ho Ht. split; [split; assumption|]. split; exact I.
  - intros s h from n _ Hr Hn.
    destruct (front_reach true c (roaming_env c) s H1 H2 H3) as (W & u & [K0 K] & _); auto; [discriminate| |].
    { intros s0 l (A1 & A2 & A3). split; [exact A2|split; [exact A3|auto]]. }
    pose proof (co_rpos _ _ _ _ K n Hn) as Hp. pose proof (tr_at _ _ (traced_reach _ _ _ Hr)) as Ha.
    rewrite (co_store _ _ _ _ K0) in Ha. cbn [st_rpos] in Ha. destruct (g_rpc s); cbn in Ha; lia.
Qed.

Lemma bounded_serves : forall c ck p n, c_provider c = PBounded ck p n -> sane c -> c_rec c = RecRange ->
  serves c (bounded_env c) reading_user.
Proof.
  intros c ck p n H1 H2 H3. constructor.
  - intros s H. apply (bounded_reads c ck p n s); auto.
  - intros s k. repeat split; exact I.
  - intros h [k| |] H; try contradiction. exact I.
  - intros s h from o [[]|(d & _ & [])].
  - intros s h from k [[]|(d & _ & [])].
Qed.

(** A buffer larger than the ring of a bounded storage stays empty. *)
Definition starved (cap : nat) (st : bstate) : Prop :=
  br_buf (b_buf st) = [] /\ rpc_call (g_rpc (b_s st)) = pc_call cap (b_buf st) (b_pc st) /\
  match b_pc st with BDirect n => cap <= n | _ => True end /\
  forall pos n w r, In (EvRead pos n w r) (b_hist st) -> r = Err EInvalidInput \/ r = Err EOther.

Lemma starved_reach : forall c ck p size cap allow user st,
  c_provider c = PBounded ck p size -> size < cap -> breach c cap allow user st ->
  reach c any (b_s st) /\ starved cap st.
Proof.
  intros c ck p size cap allow user st Hp Hc H. induction H as [s H|st bl st' H [Hr IH] Ha Hs].
  - split; [constructor; exact H|]. unfold starved. cbn. unfold init in H.
    destruct (into_rw _ _); [|discriminate]. injection H as <-. cbn. repeat split; auto. contradiction.
  - destruct IH as (I1 & I2 & I3 & I4).
    assert (Hz : rest (b_buf st) = 0) by (unfold rest; rewrite I1; reflexivity).
    assert (Hissue : forall s o b pc h st1, reach c any s -> issue c s o b pc h = Some st1 ->
              br_buf b = [] -> pc_call cap b pc = Some o -> match pc with BDirect n => cap <= n | _ => True end ->
              (forall pos n w r, In (EvRead pos n w r) h -> r = Err EInvalidInput \/ r = Err EOther) ->
              reach c any (b_s st1) /\ starved cap st1).
    { intros s o b pc h st1 K0 K1 K2 K3 K4 K5. unfold issue in K1.
      destruct (step c s (LOp o)) as [s'|] eqn:Es; [|discriminate]. injection K1 as <-.
      destruct (issue_step _ _ _ _ Es) as [J1 J2]. split; [eapply reach_step; eauto; exact I|].
      unfold starved; cbn. rewrite K3. auto. }
    assert (Hseek : forall from, b_seek c st from = Some st' -> reach c any (b_s st') /\ starved cap st').
    { intros from K. unfold b_seek in K. destruct from as [q|d|d]; [| destruct (fits_i64 _) |];
        (eapply Hissue; [exact Hr|exact K|exact I1|reflexivity|exact I|exact I4]). }
    destruct bl as [l|u].
    + unfold bstep in Hs. destruct (match l with LOp _ => true | _ => false end) eqn:El.
      { destruct l; discriminate. }
      assert (Hl : forall o, l <> LOp o) by (intros o ->; discriminate).
      destruct (step c (b_s st) l) as [s'|] eqn:Es; [|destruct l; discriminate].
      assert (Hs' : match b_pc st, g_rpc s' with
          | BIdle, _ => Some (mkB s' (b_buf st) BIdle (b_hist st))
          | pc, RIdle =>
              match g_trace s' with
              | e :: _ => b_return c s' (b_buf st) pc (b_hist st) e
              | [] => None
              end
          | pc, _ => Some (mkB s' (b_buf st) pc (b_hist st))
          end = Some st') by (destruct l; try discriminate El; exact Hs).
      clear Hs. assert (Hr' : reach c any s') by (eapply reach_step; eauto; exact I).
      destruct (call_step c (b_s st) l s' Hl Es) as [(K1 & _ & _)|(K1 & e & K2 & K3)].
      * assert (Hk : starved cap (mkB s' (b_buf st) (b_pc st) (b_hist st)))
          by (unfold starved; cbn; rewrite K1; auto).
        pose proof I2 as Hcall. rewrite <- K1 in Hcall.
        destruct (b_pc st) as [|n|n|from|d] eqn:Ep; [injection Hs' as <-; auto| | | |];
          (destruct (g_rpc s') eqn:Er; [exfalso; cbn in Hcall; try discriminate; destruct from; discriminate| .. ];
           injection Hs' as <-; auto).
      * rewrite I2 in K3. rewrite K1, K2 in Hs'.
        assert (Hb : b_return c s' (b_buf st) (b_pc st) (b_hist st) e = Some st')
          by (destruct (b_pc st); auto; contradiction).
        clear Hs'. assert (Hmax : max_capacity (c_provider c) = Some size) by (rewrite Hp; reflexivity).
        pose proof (oversized c any s' size Hmax Hr') as Ho. rewrite K2 in Ho. apply all_events_head in Ho.
        destruct (b_pc st) as [|n|n|from|d]; cbn [pc_call answers b_return] in *; try contradiction.
        -- destruct e as [pos m w r| | | | | | |]; try contradiction. subst m. cbn in Ho.
           destruct (Ho Hc) as [_ Hre]. destruct r; try (intuition discriminate). injection Hb as <-.
           split; [exact Hr'|]. unfold starved; cbn. rewrite K1. repeat split; auto.
           intros pos' n' w' r' [E|E]; [injection E as <- <- <- <-; auto|eauto].
        -- destruct e as [pos m w r| | | | | | |]; try contradiction. subst m. cbn in Ho.
           destruct (Ho ltac:(lia)) as [_ Hre]. injection Hb as <-.
           split; [exact Hr'|]. unfold starved; cbn. rewrite K1. repeat split; auto.
           intros pos' n' w' r' [E|E]; [injection E as <- <- <- <-; auto|eauto].
        -- assert (exists f r, e = EvSeek f r) as (f & r & ->)
             by (destruct from, e; try contradiction; eauto).
           destruct r; injection Hb as <-; (split; [exact Hr'|]); unfold starved; cbn; rewrite K1; repeat split; auto;
             intros pos' n' w' r' [E|E]; try discriminate E; eauto.
        -- destruct e as [ |f r| | | | | |]; try contradiction. destruct r as [q| |].
           ++ eapply Hissue; eauto; cbn; rewrite ?Z.sub_0_r; reflexivity.
           ++ injection Hb as <-; (split; [exact Hr'|]); unfold starved; cbn; rewrite K1; repeat split; auto;
                intros pos' n' w' r' [E|E]; try discriminate E; eauto.
           ++ injection Hb as <-; (split; [exact Hr'|]); unfold starved; cbn; rewrite K1; repeat split; auto;
                intros pos' n' w' r' [E|E]; try discriminate E; eauto.
    + cbn [bstep] in Hs. unfold b_user in Hs.
      destruct (b_pc st) eqn:Ep; try discriminate. destruct (g_rpc (b_s st)) eqn:Er; try discriminate.
      destruct u as [n|from|d]; [| eauto |].
      * rewrite Hz in Hs. change (0 =? 0) with true in Hs. cbv iota in Hs. destruct (Nat.leb_spec cap n).
        -- eapply Hissue; [exact Hr|exact Hs|reflexivity|reflexivity|exact H0|exact I4].
        -- eapply Hissue; [exact Hr|exact Hs|exact I1|reflexivity|exact I|exact I4].
      * destruct (_ && _); [|eauto]. injection Hs as <-. split; [exact Hr|]. unfold starved; cbn. rewrite Er.
        repeat split; auto. intros pos' n' w' r' [E|E]; try discriminate E; eauto.
Qed.

(** ** Loops *)

Lemma calls_split : forall tr n r calls, calls_of tr = (n, r) :: calls ->
  exists newer pos w older, tr = newer ++ EvRead pos n w r :: older /\ calls_of newer = calls /\ calls_of older = [].
Proof.
  induction tr as [|e tr IH]; intros n r calls H; [discriminate|].
  assert (Hskip : calls_of tr = (n, r) :: calls -> (forall l, calls_of (e :: l) = calls_of l) ->
     exists newer pos w older, e :: tr = newer ++ EvRead pos n w r :: older /\ calls_of newer = calls /\ calls_of older = []).
  { intros K1 K2. destruct (IH _ _ _ K1) as (a & pos & w & b & -> & B & C). exists (e :: a), pos, w, b. rewrite K2. auto. }
  destruct e as [pos m w r'| | | | | | |]; try (apply Hskip; auto; fail).
  cbn in H. destruct (calls_of tr) as [|[n1 r1] cs] eqn:Ec.
  - injection H as <- <- <-. exists [], pos, w, tr. auto.
  - injection H as <- <- <-. destruct (IH _ _ _ eq_refl) as (a & pos' & w' & b & -> & B & C).
    exists (EvRead pos m w r' :: a), pos', w', b. cbn. rewrite B. auto.
Qed.

Lemma calls_none : forall tr older, calls_of tr = [] -> only_reads tr -> cursor (tr ++ older) = cursor older.
Proof.
  induction tr as [|e tr IH]; intros older H Ho; auto.
  assert (Ho' : only_reads tr) by (intros f r K; apply (Ho f r); right; exact K).
  destruct e as [pos n w r|from r| | | | | |]; cbn in *; auto.
  - destruct (calls_of tr); discriminate.
  - exfalso. apply (Ho from r). left. reflexivity.
Qed.

Lemma every_older : forall P newer tr, every_event P (newer ++ tr) -> every_event P tr.
Proof. intros P newer tr H a e b ->. apply (H (newer ++ a) e b). rewrite <- app_assoc. reflexivity. Qed.

(** The oldest read of a piece of history, and the rest of it. *)
Lemma piece_split : forall c piece older n r calls, every_event (some_read_ok c) (piece ++ older) ->
  only_reads piece -> calls_of piece = (n, r) :: calls ->
  exists newer older', piece ++ older = newer ++ older' /\ only_reads newer /\ calls_of newer = calls /\
    cursor older' = cursor older + match r with Ok bs => length bs | _ => 0 end /\
    forall bs, r = Ok bs -> exists k, bs = slice (c_content c) (cursor older) k /\ k <= n /\ (0 < n -> 0 < k).
Proof.
  intros c piece older n r calls H Ho Hc. destruct (calls_split _ _ _ _ Hc) as (a & pos & w & b & -> & B & C).
  exists a, (EvRead pos n w r :: b ++ older).
  assert (Hb : cursor (b ++ older) = cursor older).
  { apply calls_none; auto. intros f q K. apply (Ho f q). apply in_or_app. right. right. exact K. }
  rewrite <- app_assoc in H. cbn [app] in H.
  split; [rewrite <- app_assoc; reflexivity|]. split; [|split; [exact B|split]].
  - intros f q K. apply (Ho f q). apply in_or_app. left. exact K.
  - cbn. destruct r; rewrite Hb; lia.
  - intros bs ->. pose proof (H a _ _ eq_refl) as K. cbn in K. destruct K as [-> K]. rewrite Hb in K. exact K.
Qed.

Lemma read_exact_ok : forall c n calls r, read_exact n calls r -> forall piece older,
  every_event (some_read_ok c) (piece ++ older) -> only_reads piece -> calls_of piece = calls ->
  match r with
  | Ok bs => length bs = n /\ bs = slice (c_content c) (cursor older) n /\ cursor (piece ++ older) = cursor older + n
  | Err e => e = EUnexpectedEof /\ length (c_content c) < cursor older + n \/ exists m, In (m, Err e) calls
  | Panic => True
  end.
Proof.
  intros c n calls r H.
  induction H as [|n bs calls r Hn Hb H IH|n Hn|n calls r Hn H IH|n e Hn He]; intros piece older Hp Ho Hc.
  - split; auto. split; [reflexivity|]. rewrite calls_none; auto.
  - destruct (piece_split c piece older n _ _ Hp Ho Hc) as (newer & older' & K1 & K2 & K3 & K4 & K5).
    destruct (K5 bs eq_refl) as (k & B1 & B2 & B3). rewrite K1 in *. specialize (IH newer older' Hp K2 K3).
    assert (Hl : length bs <= n /\ bs = slice (c_content c) (cursor older) (length bs)).
    { rewrite B1, length_slice. split; [lia|]. apply slice_min. }
    destruct r as [t|e|]; auto; rewrite K4 in IH.
    + destruct IH as (A1 & A2 & A3). rewrite app_length. split; [lia|]. split; [|lia].
      destruct Hl as [L1 L2]. replace n with (length bs + (n - length bs)) by lia. rewrite slice_app, <- L2, <- A2. reflexivity.
    + destruct IH as [(A1 & A2)|(m & A)]; [left; split; [auto|lia]|right; exists m; right; exact A].
  - destruct (piece_split c piece older n _ _ Hp Ho Hc) as (newer & older' & K1 & K2 & K3 & K4 & K5).
    destruct (K5 [] eq_refl) as (k & B1 & B2 & B3). left. split; auto.
    symmetry in B1. apply slice_nil_inv in B1. lia.
  - destruct (piece_split c piece older n _ _ Hp Ho Hc) as (newer & older' & K1 & K2 & K3 & K4 & K5).
    rewrite K1 in *. specialize (IH newer older' Hp K2 K3). rewrite K4, Nat.add_0_r in IH.
    destruct r; auto. destruct IH as [A|(m & A)]; [left; exact A|right; exists m; right; exact A].
  - right. exists n. left. reflexivity.
Qed.

Lemma skipn_add : forall {A} (l : list A) a b, skipn (a + b) l = skipn b (skipn a l).
Proof. intros A l a b. apply list_ext. intros i. rewrite !nth_error_skipn. f_equal. lia. Qed.

Lemma read_to_end_ok : forall c calls r, read_to_end calls r -> forall piece older,
  every_event (some_read_ok c) (piece ++ older) -> only_reads piece -> calls_of piece = calls ->
  match r with
  | Ok bs => bs = skipn (cursor older) (c_content c) /\ cursor (piece ++ older) = cursor older + length bs
  | Err e => exists m, In (m, Err e) calls
  | Panic => True
  end.
Proof.
  intros c calls r H.
  induction H as [n Hn|n bs calls r Hn Hb H IH|n calls r Hn H IH|n e Hn He]; intros piece older Hp Ho Hc;
    destruct (piece_split c piece older n _ _ Hp Ho Hc) as (newer & older' & K1 & K2 & K3 & K4 & K5).
  - destruct (K5 [] eq_refl) as (k & B1 & B2 & B3). symmetry in B1. apply slice_nil_inv in B1.
    rewrite skipn_all2 by lia. split; auto. rewrite K1, calls_none; auto.
  - destruct (K5 bs eq_refl) as (k & B1 & B2 & B3). rewrite K1 in *. specialize (IH newer older' Hp K2 K3).
    assert (Hl : bs = firstn (length bs) (skipn (cursor older) (c_content c))).
    { rewrite B1 at 1. rewrite B1, length_slice. apply slice_min. }
    destruct r as [t|e|]; auto.
    + rewrite K4 in IH. destruct IH as [A1 A2]. split; [|rewrite app_length; lia].
      rewrite Hl at 1. rewrite A1, skipn_add. apply firstn_skipn.
    + destruct IH as (m & A). exists m. right. exact A.
  - rewrite K1 in *. specialize (IH newer older' Hp K2 K3). 
    destruct r; auto. { rewrite K4, Nat.add_0_r in IH. exact IH. } destruct IH as (m & A). exists m. right. exact A.
  - exists n. rewrite <- Hc. rewrite Hc. left. reflexivity.
Qed.

(** ** Every call of the user returns *)

Lemma bsys_step : forall c cap st l, (forall o, l <> LOp o) ->
  bstep c cap st (BSys l) =
  match step c (b_s st) l with
  | Some s' =>
      match b_pc st, g_rpc s' with
      | BIdle, _ => Some (mkB s' (b_buf st) BIdle (b_hist st))
      | pc, RIdle =>
          match g_trace s' with
          | e :: _ => b_return c s' (b_buf st) pc (b_hist st) e
          | [] => None
          end
      | pc, _ => Some (mkB s' (b_buf st) pc (b_hist st))
      end
  | None => None
  end.
Proof. intros c cap st l Hl. destruct l; try reflexivity. exfalso. eapply Hl. reflexivity. Qed.

Definition matched (cap : nat) (st : bstate) : Prop :=
  rpc_call (g_rpc (b_s st)) = pc_call cap (b_buf st) (b_pc st).

Definition going_back (pc : bpc) : nat := match pc with BBack _ => 1 | _ => 0 end.

Lemma issue_calls : forall c cap s o b pc h st', issue c s o b pc h = Some st' -> pc_call cap b pc = Some o ->
  step c s (LOp o) = Some (b_s st') /\ matched cap st' /\ b_pc st' = pc.
Proof.
  intros c cap s o b pc h st' H Hp. unfold issue in H. destruct (step c s (LOp o)) as [s'|] eqn:E; [|discriminate].
  injection H as <-. destruct (issue_step _ _ _ _ E) as [J _]. split; [reflexivity|]. split; [|reflexivity].
  unfold matched. cbn. rewrite Hp. exact J.
Qed.

(** A result is dealt with; at most one more call is made. *)
Lemma b_return_calls : forall c cap s b pc h e, g_rpc s = RIdle -> answers (pc_call cap b pc) e ->
  exists st', b_return c s b pc h e = Some st' /\ matched cap st' /\
    (b_s st' = s /\ b_pc st' = BIdle \/
     pc <> BIdle /\ going_back pc = 1 /\ going_back (b_pc st') = 0 /\ exists o, step c s (LOp o) = Some (b_s st')).
Proof.
  intros c cap s b pc h e Hi Ha.
  destruct pc as [|n|n|from|d]; cbn [pc_call answers b_return going_back] in *; try contradiction.
  - destruct e as [pos m w r| | | | | | |]; try contradiction.
    destruct r; eexists; (split; [reflexivity|]); unfold matched; cbn; rewrite Hi; auto.
  - destruct e as [pos m w r| | | | | | |]; try contradiction.
    eexists; (split; [reflexivity|]); unfold matched; cbn; rewrite Hi; auto.
  - assert (exists f r, e = EvSeek f r) as (f & r & ->) by (destruct from, e; try contradiction; eauto).
    destruct r; eexists; (split; [reflexivity|]); unfold matched; cbn; rewrite Hi; auto.
  - destruct e as [ |f r| | | | | |]; try contradiction. destruct r as [q| |].
    + unfold issue. cbn [step]. rewrite Hi. eexists. split; [reflexivity|]. split.
      * unfold matched. cbn. rewrite Z.sub_0_r. reflexivity.
      * right. repeat split; try discriminate. exists (OSeek (FromCurrent d)). reflexivity.
    + eexists; (split; [reflexivity|]); unfold matched; cbn; rewrite Hi; auto.
    + eexists; (split; [reflexivity|]); unfold matched; cbn; rewrite Hi; auto.
Qed.

Lemma b_seek_calls : forall c cap st from st', b_seek c st from = Some st' ->
  matched cap st' /\ exists o, step c (b_s st) (LOp o) = Some (b_s st').
Proof.
  intros c cap st from st' H. unfold b_seek in H.
  destruct from as [q|d|d]; [|destruct (fits_i64 _)|];
    (eapply (issue_calls c cap) in H as (A & B & _); [eauto|reflexivity]).
Qed.

(** A step of the composition as steps of the stream. *)
Lemma bstep_calls : forall c cap st bl st', matched cap st -> bstep c cap st bl = Some st' ->
  matched cap st' /\
  exists ls, run c (b_s st) ls = Some (b_s st') /\
    actions ls = sys_actions [bl] /\ calls ls + going_back (b_pc st') <= 2 * user_calls [bl] + going_back (b_pc st) /\
    forall P : gstate -> label -> Prop, (forall s o, P s (LOp o)) ->
      match bl with BSys l => P (b_s st) l | _ => True end -> allowed c P (b_s st) ls.
Proof.
  intros c cap st bl st' Hm H. destruct bl as [l|u].
  - assert (Hl : forall o, l <> LOp o) by (intros o ->; discriminate).
    rewrite bsys_step in H by exact Hl. destruct (step c (b_s st) l) as [s'|] eqn:Es; [|discriminate].
    assert (H1 : run c (b_s st) [l] = Some s' /\ actions [l] = sys_actions [BSys l] /\ calls [l] = 0).
    { cbn. rewrite Es. repeat split. destruct l; try reflexivity. exfalso. eapply Hl. reflexivity. }
    destruct H1 as (R1 & R2 & R3).
    assert (Hsame : forall b h, rpc_call (g_rpc s') = pc_call cap b (b_pc st) ->
      matched cap (mkB s' b (b_pc st) h) /\
      exists ls, run c (b_s st) ls = Some s' /\
        actions ls = sys_actions [BSys l] /\ calls ls + going_back (b_pc st) <= 2 * user_calls [BSys l] + going_back (b_pc st) /\
        forall P : gstate -> label -> Prop, (forall s o, P s (LOp o)) -> P (b_s st) l -> allowed c P (b_s st) ls).
    { intros b h K. split; [exact K|]. exists [l]. rewrite R3. split; [exact R1|]. split; [exact R2|].
      split; [cbn; lia|]. intros P _ HP. cbn. rewrite Es. auto. }
    destruct (call_step c (b_s st) l s' Hl Es) as [(K1 & _ & _)|(K1 & e & K2 & K3)].
    + unfold matched in Hm. rewrite <- K1 in Hm. specialize (Hsame (b_buf st) (b_hist st) Hm).
      destruct (b_pc st) as [|n|n|from|d] eqn:Ep; [injection H as <-; exact Hsame| | | |];
        (destruct (g_rpc s') eqn:Er; [exfalso; cbn in Hm; try discriminate; destruct from; discriminate| .. ];
         injection H as <-; exact Hsame).
    + unfold matched in Hm. rewrite Hm in K3. rewrite K1, K2 in H.
      destruct (b_return_calls c cap s' (b_buf st) (b_pc st) (b_hist st) e K1 K3) as (st1 & B1 & B2 & B3).
      assert (st1 = st') as ->.
      { assert (Hb : b_return c s' (b_buf st) (b_pc st) (b_hist st) e = Some st')
          by (destruct (b_pc st); auto; contradiction).
        rewrite B1 in Hb. injection Hb as ->. reflexivity. }
      split; [exact B2|]. destruct B3 as [[B3 B4]|(B3 & B4 & B5 & o & B6)].
      * exists [l]. rewrite R3, B3, B4. split; [exact R1|]. split; [exact R2|]. split; [cbn; lia|].
        intros P _ HP. cbn. rewrite Es. auto.
      * exists [l; LOp o]. split; [cbn [run]; rewrite Es; rewrite B6; reflexivity|]. split; [|split].
        -- cbn. lia.
        -- assert (calls [l; LOp o] = 1) as -> by (destruct l; try reflexivity; exfalso; eapply Hl; reflexivity). lia.
        -- intros P HP HP'. cbn [allowed]. rewrite Es. split; [exact HP'|]. split; [apply HP|]. rewrite B6. exact I.
  - assert (Hone : forall o, matched cap st' -> step c (b_s st) (LOp o) = Some (b_s st') ->
      matched cap st' /\
      exists ls, run c (b_s st) ls = Some (b_s st') /\
        actions ls = 0 /\ calls ls + going_back (b_pc st') <= 2 + going_back (b_pc st) /\
        forall P : gstate -> label -> Prop, (forall s o, P s (LOp o)) -> True -> allowed c P (b_s st) ls).
    { intros o K1 K2. split; [exact K1|]. exists [LOp o]. cbn [run]. rewrite K2. split; [reflexivity|].
      split; [reflexivity|]. split; [cbn; destruct (b_pc st'); cbn; lia|]. intros P HP _. cbn [allowed]. rewrite K2. auto. }
    assert (Hnone : matched cap st' -> b_s st' = b_s st -> b_pc st' = BIdle ->
      matched cap st' /\
      exists ls, run c (b_s st) ls = Some (b_s st') /\
        actions ls = 0 /\ calls ls + going_back (b_pc st') <= 2 + going_back (b_pc st) /\
        forall P : gstate -> label -> Prop, (forall s o, P s (LOp o)) -> True -> allowed c P (b_s st) ls).
    { intros K1 K2 K3. split; [exact K1|]. exists []. rewrite K2, K3. repeat split; cbn; auto; lia. }
    cbn [bstep] in H. unfold b_user in H. unfold matched in Hm.
    destruct (b_pc st) eqn:Ep; try discriminate. destruct (g_rpc (b_s st)) eqn:Er; try discriminate.
    destruct u as [n|from|d].
    + destruct (rest (b_buf st) =? 0).
      * destruct (cap <=? n); eapply (issue_calls c cap) in H as (A & B & _); try reflexivity; eapply Hone; eauto.
      * injection H as <-. apply Hnone; auto. unfold matched, hand_out; cbn. rewrite Er. reflexivity.
    + eapply (b_seek_calls c cap) in H as (A & o & B). eapply Hone; eauto.
    + destruct (_ && _); [|eapply (b_seek_calls c cap) in H as (A & o & B); eapply Hone; eauto].
      injection H as <-. apply Hnone; auto. unfold matched; cbn. rewrite Er. reflexivity.
Qed.

Lemma matched_reach : forall c cap allow user st, breach c cap allow user st -> matched cap st.
Proof.
  intros c cap allow user st H. induction H as [s H|st bl st' H IH Ha Hs].
  - unfold init in H. destruct (into_rw _ _); [|discriminate]. injection H as <-. reflexivity.
  - eapply bstep_calls; eauto.
Qed.

Lemma breach_inner : forall c cap (allow : gstate -> label -> Prop) user st, (forall s o, allow s (LOp o)) ->
  breach c cap allow user st -> reach c allow (b_s st).
Proof.
  intros c cap allow user st Ho H. induction H as [s H|st bl st' H IH Ha Hs].
  - constructor. exact H.
  - destruct (bstep_calls c cap st bl st' (matched_reach _ _ _ _ _ H) Hs) as (_ & ls & R & _ & _ & A).
    eapply run_reach; [exact IH| |exact R]. apply A; [exact Ho|]. destruct bl; auto.
Qed.

Lemma allowed_app : forall c P ls1 ls2 s s1, run c s ls1 = Some s1 -> allowed c P s ls1 -> allowed c P s1 ls2 ->
  allowed c P s (ls1 ++ ls2).
Proof.
  induction ls1 as [|l ls1 IH]; intros ls2 s s1 H H1 H2; cbn in *.
  - injection H as <-. exact H2.
  - destruct (step c s l) as [s'|]; [|discriminate]. destruct H1 as [A B]. split; auto. eapply IH; eauto.
Qed.

Lemma run_app : forall c ls1 ls2 s s1, run c s ls1 = Some s1 -> run c s (ls1 ++ ls2) = run c s1 ls2.
Proof.
  induction ls1 as [|l ls1 IH]; intros ls2 s s1 H; cbn in *; [injection H as <-; reflexivity|].
  destruct (step c s l); [auto|discriminate].
Qed.

Lemma counts_app : forall ls1 ls2, actions (ls1 ++ ls2) = actions ls1 + actions ls2 /\
  calls (ls1 ++ ls2) = calls ls1 + calls ls2.
Proof.
  induction ls1 as [|l ls1 IH]; intros ls2; [auto|]. destruct (IH ls2) as [A B]. cbn. rewrite A.
  split; [lia|]. destruct l; auto. rewrite B. reflexivity.
Qed.

Lemma brun_calls : forall c cap ls st st', matched cap st -> brun c cap st ls = Some st' ->
  matched cap st' /\
  exists ls', run c (b_s st) ls' = Some (b_s st') /\ actions ls' = sys_actions ls /\
    calls ls' + going_back (b_pc st') <= 2 * user_calls ls + going_back (b_pc st) /\
    forall P : gstate -> label -> Prop, (forall s o, P s (LOp o)) -> ballowed c cap P st ls -> allowed c P (b_s st) ls'.
Proof.
  induction ls as [|bl ls IH]; intros st st' Hm H; cbn [brun ballowed] in *.
  - injection H as <-. split; [exact Hm|]. exists []. cbn. repeat split; auto; lia.
  - destruct (bstep c cap st bl) as [st1|] eqn:Es; [|discriminate].
    destruct (bstep_calls c cap st bl st1 Hm Es) as (M1 & l1 & A1 & A2 & A3 & A4).
    destruct (IH st1 st' M1 H) as (M2 & l2 & B1 & B2 & B3 & B4). split; [exact M2|].
    exists (l1 ++ l2). destruct (counts_app l1 l2) as [C1 C2].
    split; [rewrite (run_app _ _ _ _ _ A1); exact B1|].
    split; [rewrite C1, A2, B2; destruct bl; cbn; lia|].
    split; [rewrite C2; destruct bl; cbn in *; lia|].
    intros P HP [K1 K2]. eapply allowed_app; eauto.
Qed.

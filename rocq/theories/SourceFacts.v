(** * Facts about the composition: the composed system refines the system model. *)

From Coq Require Import List Arith Lia ZArith Bool.
From Verif Require Import Base ListFacts RangeSet RangeSetFacts Storage System Spec StepTac
  RequestFacts Source SourceSpec.
Import ListNotations.

(** A request in flight is one the task makes. *)
Lemma seeking_request : forall c allow s a b, reach c allow s -> g_dpc s = DSeeking a b ->
  c_seekable c = true /\ request_made c a b.
Proof.
  intros c allow s a b H.
  assert (K : forall a b, g_dpc s = DSeeking a b -> c_seekable c = true /\
              (c_clen c = None -> b = None) /\ In (EvSeekRange a b) (g_trace s)).
  { clear a b. induction H as [s H|s l s' Hr IH Hl H].
    - unfold init in H. destruct (into_rw _ _); [|discriminate]. injection H as <-. discriminate.
    - intros a b E. clear Hr Hl.
      step_cases H; gsimpl; try discriminate E; try (exact (IH _ _ E)); try congruence;
        try (destruct (IH _ _ E) as (A & B & C); split; [exact A|split; [exact B|]];
             simpl; auto; fail).
      all: try (injection E as <- <-; split; [unfold should_seek in *; destruct (c_seekable c); congruence|];
                split; [congruence|left; reflexivity]).
      all: idtac. }
  intros E. destruct (K _ _ E) as (A & B & C). split; [exact A|]. unfold request_made.
  destruct (c_clen c) as [cl|] eqn:Ec; [|auto].
  pose proof (ranged_reach _ _ _ _ Ec H) as [_ _ _ R].
  rewrite Forall_forall in R. exact (R _ C).
Qed.

(** The bookkeeping of the response body matches what the source has still to yield. *)
Definition coupled {X} (src : source X) (c : cfg) (ok : X -> Prop) (rest : X -> list byte)
    (cs : csys X) : Prop :=
  ok (cs_src cs) /\
  rest (cs_src cs) = slice (c_content c) (g_scur (cs_sys cs)) (g_send (cs_sys cs) - g_scur (cs_sys cs)) /\
  g_scur (cs_sys cs) <= g_send (cs_sys cs) <= Nat.max (g_scur (cs_sys cs)) (length (c_content c)) /\
  ((forall x bs x', ok x -> src_poll src x 0 = Some (bs, x') -> False) \/
   g_scur (cs_sys cs) <= length (c_content c)).

Definition source_label (l : label) : bool :=
  match l with
  | LDChunk _ | LDEof | LDErr | LDTimeout _ | LDSeekRes _ | LDFinishRes _ => true
  | _ => false
  end.

Lemma body_frame : forall c s l s', step c s l = Some s' ->
  match l with LDChunk _ | LDEof | LDTimeout _ | LDSeekRes _ => False | _ => True end ->
  g_scur s' = g_scur s /\ g_send s' = g_send s.
Proof. intros c s l s' H Hl. step_cases H; gsimpl; auto; contradiction. Qed.

Lemma handle_bytes_body : forall c s b, 
  g_scur (handle_bytes c s b) = g_scur s /\ g_send (handle_bytes c s b) = g_send s.
Proof.
  intros c s b. unfold handle_bytes, finish_or_find_next_gap.
  repeat (match goal with |- context [match ?x with _ => _ end] => destruct x end); gsimpl; auto.
Qed.

Lemma slice_split_at : forall (l : list byte) a n k, k <= length (slice l a n) ->
  slice l a n = slice l a k ++ slice l (a + k) (n - k).
Proof.
  intros l a n k H. rewrite length_slice in H. rewrite <- slice_app. f_equal. lia.
Qed.

Lemma app_eq_lengths : forall (a b c d : list byte), a ++ b = c ++ d -> length a = length c ->
  a = c /\ b = d.
Proof.
  induction a as [|x a IH]; intros b [|y c] d H L; try discriminate L; [auto|].
  cbn in H. injection H as -> H. destruct (IH _ _ _ H ltac:(cbn in L; lia)) as [-> ->]. auto.
Qed.

(** The step of the system model that a step of the composition amounts to. *)
Definition is_ok {A} (r : result A) : bool := match r with Ok _ => true | _ => false end.
Definition sys_label {X} (src : source X) (cs : csys X) (l : label) : label :=
  match l with
  | LDSeekRes net =>
      match g_dpc (cs_sys cs) with
      | DSeeking a b => LDSeekRes (is_ok (fst (src_seek_range src (cs_src cs) a b net)))
      | _ => l
      end
  | LDTimeout RcElapsed => l
  | LDTimeout rc =>
      let net := match rc with RcOk => true | _ => false end in
      LDTimeout (if is_ok (fst (src_reconnect src (cs_src cs) (st_wpos (g_store (cs_sys cs))) net))
                 then RcOk else RcErr)
  | LDFinishRes env =>
      match g_dpc (cs_sys cs) with
      | DOnFinish b => LDFinishRes (src_on_finish src (cs_src cs) b env)
      | _ => l
      end
  | _ => l
  end.

Section Refinement.
Context {X : Type} (src : source X) (x0 : X) (c : cfg) (allow : gstate -> label -> Prop)
  (ok : X -> Prop) (rest : X -> list byte).
Context (D : delivers src x0 c allow ok rest) (HB : outcome_blind allow)
  (Hinv : c_inv c = InvEmpty) (Hrec : c_rec c = RecRange)
  (Hclen : forall n, c_clen c = Some n -> n = length (c_content c)).

Lemma refine_step : forall cs l cs', coupled src c ok rest cs ->
  reach c (both allow (honest_env c)) (cs_sys cs) -> allow (cs_sys cs) l ->
  cstep src c cs l = Some cs' ->
  coupled src c ok rest cs' /\
  both allow (honest_env c) (cs_sys cs) (sys_label src cs l) /\
  step c (cs_sys cs) (sys_label src cs l) = Some (cs_sys cs').
Proof.
  intros [s x] l [s' x'] (C1 & C2 & C3 & C4) Hr Ha H. cbn [cs_sys cs_src] in *.
  assert (Hon : forall l, match l with LDEof | LDChunk _ => False | _ => True end ->
                honest_env c s l).
  { intros [] Hl; try contradiction; split; exact I. }
  destruct (source_label l) eqn:Hl.
  2: { assert (E : step c s l = Some s' /\ x' = x).
       { destruct l; try discriminate Hl; cbn [cstep cs_sys cs_src] in H;
           match type of H with option_map _ ?st = _ => destruct st eqn:Est end;
           try discriminate H; cbn in H; injection H as <- <-; auto. }
       destruct E as [E ->].
       destruct (body_frame _ _ _ _ E) as [B1 B2]; [destruct l; try discriminate Hl; exact I|].
       split.
       - repeat split; cbn [cs_sys cs_src]; rewrite ?B1, ?B2; try assumption; lia.
       - replace (sys_label src (mkC s x) l) with l by (destruct l; try discriminate Hl; reflexivity).
         split; [split; [exact Ha|apply Hon; destruct l; try discriminate Hl; exact I]|exact E]. }
  destruct l; try discriminate Hl; cbn [cstep cs_sys cs_src] in H.
  - (* chunk *)
    destruct (g_dpc s) eqn:Ed; try discriminate H.
    destruct (src_poll src x k) as [[bs x1]|] eqn:Ep; [|discriminate H].
    injection H as <- <-.
    destruct (dv_poll _ _ _ _ _ _ D _ _ _ _ C1 Ep) as (P1 & P2 & P3).
    assert (Lk : k <= length (slice (c_content c) (g_scur s) (g_send s - g_scur s))).
    { rewrite <- C2, P3, app_length. lia. }
    assert (Lk' : g_scur s + k <= g_send s /\ g_scur s + k <= Nat.max (g_scur s) (length (c_content c))).
    { unfold slice in Lk. rewrite firstn_length, skipn_length in Lk. lia. }
    rewrite C2, (slice_split_at _ _ _ _ Lk) in P3.
    assert (Eb : slice (c_content c) (g_scur s) k = bs /\
                 slice (c_content c) (g_scur s + k) (g_send s - g_scur s - k) = rest x1).
    { apply app_eq_lengths in P3; [exact P3|].
      rewrite P2. unfold slice in *. rewrite firstn_length, skipn_length in *. lia. }
    destruct Eb as [Eb1 Eb2]. rewrite <- Eb1.
    destruct (handle_bytes_body c (set_scur s (g_scur s + k)) (Some (slice (c_content c) (g_scur s) k)))
      as [B1 B2]. gsimpl.
    split.
    + repeat split; cbn [cs_sys cs_src]; rewrite ?B1, ?B2.
      * exact P1.
      * rewrite <- Eb2. f_equal. lia.
      * lia.
      * lia.
      * destruct C4 as [C4|C4]; [left; exact C4|right; lia].
    + cbn [sys_label]. split.
      * split; [exact Ha|]. split; [|exact I]. cbn.
        destruct k; [right|left; lia]. destruct C4 as [C4|C4]; [|exact C4].
        destruct (C4 _ _ _ C1 Ep).
      * cbn. rewrite Ed. replace (g_scur s + k <=? g_send s) with true by (symmetry; apply Nat.leb_le; lia).
        reflexivity.
  - (* end *)
    destruct (g_dpc s) eqn:Ed; try discriminate H.
    destruct (src_end src x) as [x1|] eqn:Ep; [|discriminate H].
    injection H as <- <-.
    destruct (dv_end _ _ _ _ _ _ D _ _ _ C1 Ha Ep) as (P1 & P2 & P3).
    destruct (handle_bytes_body c (set_send s (g_scur s)) None) as [B1 B2]. gsimpl.
    split.
    + repeat split; cbn [cs_sys cs_src]; rewrite ?B1, ?B2; try assumption; try lia.
      rewrite P2, Nat.sub_diag. reflexivity.
    + cbn [sys_label]. split; [|cbn; rewrite Ed; reflexivity].
      split; [exact Ha|]. split; [exact I|]. destruct P3 as [P3|P3]; [exact P3|right].
      rewrite P3 in C2. apply (f_equal (@length byte)) in C2. unfold slice in C2.
      rewrite firstn_length, skipn_length in C2. cbn [length] in C2. lia.
  - (* error *)
    destruct (g_dpc s) eqn:Ed; try discriminate H.
    destruct (src_fail src x) as [x1|] eqn:Ep; [|discriminate H].
    injection H as <- <-.
    destruct (dv_fail _ _ _ _ _ _ D _ _ _ C1 Ha Ep) as (P1 & P2).
    split.
    + repeat split; cbn [cs_sys cs_src]; try assumption; try lia. congruence.
    + cbn [sys_label]. split; [split; [exact Ha|apply Hon; exact I]|]. cbn. rewrite Ed. reflexivity.
  - (* timeout *)
    destruct (HB s) as (_ & HB2 & _).
    assert (K : g_dpc s = DSelect) by (destruct rc, (g_dpc s); try discriminate H; reflexivity).
    assert (Hcon : rc = RcElapsed \/ exists net,
      sys_label src (mkC s x) (LDTimeout rc) =
        LDTimeout (if is_ok (fst (src_reconnect src x (st_wpos (g_store s)) net)) then RcOk else RcErr) /\
      match src_reconnect src x (st_wpos (g_store s)) net with
          | (Ok _, x') =>
              Some (mkC (emit (set_send (set_scur (emit s (EvReconnect (st_wpos (g_store s)) RcOk)) (st_wpos (g_store s)))
                                        (Nat.max (st_wpos (g_store s)) (length (c_content c)))) EvOnReconnect) x')
          | (Err _, x') => Some (mkC (emit (emit s (EvReconnect (st_wpos (g_store s)) RcErr)) EvOnReconnect) x')
          | (Panic, x') => Some (mkC (set_dpc s DPanic) x')
          end = Some (mkC s' x')).
    { destruct rc; [right; exists true|right; exists false|left; reflexivity]; (split; [reflexivity|]); rewrite K in H; exact H. }
    destruct Hcon as [->|[net [El Hc]]].
    + rewrite K in H. injection H as <- <-. split.
      * repeat split; cbn [cs_sys cs_src]; gsimpl; try assumption; lia.
      * cbn [sys_label]. split; [split; [exact Ha|apply Hon; exact I]|].
        cbn. rewrite K. reflexivity.
    + pose proof (dv_reconnect _ _ _ _ _ _ D s rc x (st_wpos (g_store s)) net Ha C1) as P.
      destruct (src_reconnect src x (st_wpos (g_store s)) net) as [[u|e|] x1] eqn:Ep; [| |contradiction];
        injection Hc as <- <-; destruct P as [P1 P2].
      * split.
        -- repeat split; cbn [cs_sys cs_src]; gsimpl; try assumption; try lia.
           ++ rewrite P2. unfold slice. rewrite firstn_all2; [reflexivity|]. rewrite skipn_length. lia.
           ++ destruct (dv_chunk _ _ _ _ _ _ D) as [Dc|[_ Dc]]; [left; exact Dc|right].
              destruct (Nat.le_gt_cases (st_wpos (g_store s)) (length (c_content c))) as [Hle|Hgt]; [exact Hle|].
              destruct u. destruct (Dc _ _ _ _ _ _ Ha C1 Hgt Ep).
        -- rewrite El. cbn [fst is_ok]. split; [split; [eapply HB2; exact Ha|apply Hon; exact I]|].
           cbn. rewrite K. unfold handle_reconnect. rewrite Hrec. reflexivity.
      * split.
        -- repeat split; cbn [cs_sys cs_src]; gsimpl; try assumption; try lia. congruence.
        -- rewrite El. cbn [fst is_ok]. split; [split; [eapply HB2; exact Ha|apply Hon; exact I]|].
           cbn. rewrite K. reflexivity.
  - (* seek *)
    destruct (g_dpc s) eqn:Ed; try discriminate H.
    destruct (HB s) as (HB1 & _ & _).
    destruct (seeking_request _ _ _ _ _ Hr Ed) as [Hs Hq].
    pose proof (dv_seek _ _ _ _ _ _ D x start stop ok0 C1 Hs Hq) as P.
    destruct (src_seek_range src x start stop ok0) as [[u|e|] x1] eqn:Ep; [| |contradiction];
      destruct P as [P1 P2].
    + destruct (seek_done c s start stop true) as [s1|] eqn:E; [|discriminate H].
      cbn in H. injection H as <- <-.
      split; [|cbn [sys_label cs_sys cs_src]; rewrite Ed, Ep; cbn [fst is_ok]; split;
               [split; [eapply HB1; exact Ha|apply Hon; exact I]|cbn; rewrite Ed; exact E]].
      assert (W : exists a e, body_window c start stop = Some (a, e) /\ a = start /\
                  start <= e <= Nat.max start (length (c_content c)) /\
                  rest x1 = slice (c_content c) start (e - start)).
      { unfold body_window, request_made in *. rewrite P2. destruct (c_clen c) as [cl|] eqn:Ec.
        - destruct Hq as (Q1 & e & -> & Q2). pose proof (Hclen _ eq_refl) as Hcl.
          unfold requested, inverted. rewrite Ec, Hinv.
          destruct (Nat.leb_spec e start) as [He|He]; cbn [andb].
          + destruct (Nat.eqb_spec start cl) as [Hscl|Hscl]; cbn [negb].
            * do 2 eexists. split; [reflexivity|]. split; [reflexivity|]. split; [lia|].
              rewrite Hcl in *. f_equal; lia.
            * do 2 eexists. split; [reflexivity|]. split; [reflexivity|]. split; [lia|]. f_equal; lia.
          + do 2 eexists. split; [reflexivity|]. split; [reflexivity|]. split; [lia|]. f_equal; lia.
        - subst stop. cbn [inverted requested]. do 2 eexists. split; [reflexivity|].
          split; [reflexivity|]. split; [lia|]. unfold slice. rewrite firstn_all2; [reflexivity|].
          rewrite skipn_length. lia. }
      destruct W as (a & e & W1 & -> & W3 & W4).
      assert (B : g_scur s1 = start /\ g_send s1 = e).
      { unfold seek_done in E. rewrite W1 in E.
        destruct (st_wseek start (g_store s)) as [[?|?|] ?]; injection E as <-; gsimpl; auto. }
      destruct B as [B1 B2].
      repeat split; cbn [cs_sys cs_src]; rewrite ?B1, ?B2; try assumption; try lia.
      destruct (dv_chunk _ _ _ _ _ _ D) as [Dc|[Dc _]]; [left; exact Dc|right].
      destruct (Nat.le_gt_cases start (length (c_content c))) as [Hle|Hgt]; [exact Hle|].
      destruct u. destruct (Dc _ _ _ _ _ C1 Hq Hgt Ep).
    + injection H as <- <-. split.
      * repeat split; cbn [cs_sys cs_src]; gsimpl; try assumption; try lia. congruence.
      * cbn [sys_label cs_sys cs_src]; rewrite Ed, Ep; cbn [fst is_ok]. split; [split; [eapply HB1; exact Ha|apply Hon; exact I]|].
        cbn. rewrite Ed. reflexivity.
  - (* finish *)
    destruct (g_dpc s) eqn:Ed; try discriminate H.
    destruct (HB s) as (_ & _ & HB3). injection H as <- <-.
    split.
    + repeat split; cbn [cs_sys cs_src]; gsimpl; try assumption; lia.
    + cbn [sys_label cs_sys cs_src]; rewrite Ed.
      split; [split; [eapply HB3; exact Ha|apply Hon; exact I]|].
      cbn. rewrite Ed. destruct ok1.
      * rewrite andb_true_r. reflexivity.
      * rewrite (dv_finish _ _ _ _ _ _ D _ _ C1). reflexivity.
Qed.

Lemma refine : forall cs, creach src x0 c allow cs ->
  coupled src c ok rest cs /\ reach c (both allow (honest_env c)) (cs_sys cs).
Proof.
  intros cs H. induction H as [s H|cs l cs' H IH Ha Hs].
  - split; [|apply reach_init; exact H].
    destruct (dv_start _ _ _ _ _ _ D) as [S1 S2].
    unfold init in H. destruct (into_rw _ _); [|discriminate]. injection H as <-.
    repeat split; cbn [cs_sys cs_src g_scur g_send]; try assumption; try lia.
    rewrite S2, Nat.sub_0_r. unfold slice. cbn [skipn]. rewrite firstn_all. reflexivity.
  - destruct IH as [IH1 IH2].
    destruct (refine_step _ _ _ IH1 IH2 Ha Hs) as (K & A & B).
    split; [exact K|]. eapply reach_step; eassumption.
Qed.

End Refinement.

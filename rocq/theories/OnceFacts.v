(** * Every position is stored at most once.

    Supports C71. *)

From Coq Require Import List Arith Lia ZArith Bool.
From Verif Require Import Base ListFacts RangeSet RangeSetFacts Storage StorageFacts
  System Spec StepTac InvSync InvTrace InvCore LifeFacts RequestFacts LifeMore.
Import ListNotations.

(** Stored by the task and not yet added to the downloaded ranges. *)
Definition unrecorded (s : gstate) (x : nat) : Prop :=
  let w := st_wpos (g_store s) in
  match g_dpc s with
  | DSelect | DPre _ _ => if g_pfc s then False else g_pfs s <= x < w
  | DWBatch _ _ pos _ | DWPost _ _ pos _ => pos <= x < w
  | DSeeking a _ => if g_pfc s then False else g_pfs s <= x < a
  | _ => False
  end.

(** What the current response may still deliver. *)
Definition coming (s : gstate) (x : nat) : Prop :=
  let w := st_wpos (g_store s) in
  match g_dpc s with
  | DSelect | DPre _ _ | DWTop _ _ _ | DWBatch _ _ _ _ | DWPost _ _ _ _ | DWCheck _ _ _ _
  | DWNotify _ _ _ _ | DWWait _ _ _ => w <= x < g_send s
  | DSeeking a (Some b) => a <= x < b
  | _ => False
  end.

Definition downloading (s : gstate) : bool :=
  match g_dpc s with
  | DSelect | DPre _ _ | DWTop _ _ _ | DWBatch _ _ _ _ | DWPost _ _ _ _ | DWCheck _ _ _ _
  | DWNotify _ _ _ _ | DWWait _ _ _ | DSeeking _ _ => true
  | _ => false
  end.

Record once (c : cfg) (s : gstate) (W : list nat) : Prop := mkOnce
  { on_nodup : NoDup W;
    on_count : length W = accepted_total (g_trace s);
    on_bound : forall x, In x W -> x < length (c_content c);
    on_cov : forall x, covered (g_down s) x -> In x W;
    on_all : downloading s = true -> forall x, In x W -> covered (g_down s) x \/ unrecorded s x;
    on_seg : forall x, unrecorded s x -> In x W;
    on_new : forall x, coming s x -> ~ In x W;
    on_pfs : if g_pfc s then True else
      match g_dpc s with
      | DSelect | DPre _ _ => g_pfs s <= st_wpos (g_store s) \/
          (g_send s <= st_wpos (g_store s) /\
           forall x, st_wpos (g_store s) <= x < length (c_content c) -> In x W)
      | DSeeking a _ => g_pfs s <= a
      | _ => True
      end;
    on_stop : match g_dpc s with DSeeking _ None => False | _ => True end }.

Lemma window_bound : forall c a b x y, c_inv c <> InvServeAll ->
  body_window c a (Some b) = Some (x, y) -> x = a /\ y <= Nat.max a b.
Proof.
  intros c a b x y Hi H. unfold body_window in H.
  destruct (inverted c a (Some b)); [destruct (c_inv c); try congruence|]; injection H as <- <-; lia.
Qed.

Lemma reader_frame_pfs : forall c s l s', task_label l = false -> step c s l = Some s' ->
  g_pfs s' = g_pfs s.
Proof. intros c s l s' Hl H. step_cases H; try discriminate Hl; gsimpl; reflexivity. Qed.

Lemma accepted_app : forall a b, accepted_total (a ++ b) = accepted_total a + accepted_total b.
Proof. induction a as [|[] a IH]; intros b; cbn; rewrite ?IH; lia. Qed.

Lemma accepted_calls : forall l,
  Forall (fun e => match e with EvRead _ _ _ _ | EvSeek _ _ => True | _ => False end) l ->
  accepted_total l = 0.
Proof. induction 1 as [|[] l H]; cbn; tauto. Qed.

Lemma covered_or : forall l x, covered l x \/ ~ covered l x.
Proof.
  induction l as [|[a b] l IH]; intros x.
  - right. apply covered_nil.
  - destruct (IH x) as [H|H]; [left; apply covered_cons; auto|].
    destruct (Nat.le_gt_cases a x); destruct (Nat.lt_ge_cases x b);
      try (left; apply covered_cons; left; lia); right; intros K; apply covered_cons in K; intuition lia.
Qed.

Lemma imp_false : forall (P Q : Prop), ~ Q -> (P -> Q) -> P -> False.
Proof. tauto. Qed.

Lemma imp_not_false : forall (P Q : Prop), Q -> (P -> ~ Q) -> P -> False.
Proof. tauto. Qed.

Lemma imp_or : forall (P A B : Prop), ~ A -> (P -> A \/ B) -> P -> B.
Proof. tauto. Qed.

Lemma imp_not_or : forall (P A B : Prop), (P -> ~ (A \/ B)) -> P -> ~ B.
Proof. tauto. Qed.

(** Decide by membership in the written positions and in the downloaded ranges. *)
Ltac by_position x W l :=
  let I := fresh "I" in let C := fresh "C" in
  destruct (In_dec_nat x W) as [I|I]; destruct (covered_or l x) as [C|C];
  intros; repeat match goal with
  | K : In x W -> _ |- _ => first [specialize (K I)|clear K]
  | K : covered l x -> _ |- _ => first [specialize (K C)|clear K]
  | K : _ -> In x W |- _ => first [generalize (imp_false _ _ I K); clear K; intros K|clear K]
  | K : _ -> ~ In x W |- _ => first [generalize (imp_not_false _ _ I K); clear K; intros K|clear K]
  | K : _ -> covered l x |- _ => first [generalize (imp_false _ _ C K); clear K; intros K|clear K]
  | K : _ -> ~ covered l x |- _ => first [generalize (imp_not_false _ _ C K); clear K; intros K|clear K]
  | K : _ -> covered l x \/ _ |- _ =>
      first [match type of C with ~ _ => generalize (imp_or _ _ _ C K); clear K; intros K end|clear K]
  | K : _ -> ~ (covered l x \/ _) |- _ =>
      first [generalize (imp_not_false _ _ (or_introl C) K); clear K; intros K
            |generalize (imp_not_or _ _ _ K); clear K; intros K]
  | K : _ \/ _ |- _ => destruct K as [K|K]
  | |- ~ _ => intro
  | K : ?A, N : ~ ?A |- _ => contradiction
  | K : False |- _ => contradiction
  end;
  try (left; assumption); try (left; left; assumption); try assumption;
  try (right; lia); try (left; right; lia); try lia.

Lemma once_step : forall c s l s' W Wc u,
  sane c -> honours_ranges c -> (c_seekable c = false \/ c_clen c <> None) ->
  coreW c s Wc u -> g_rem s = None ->
  (l = LDTimeout RcOk -> forall x, is_downloaded s x -> x < st_wpos (g_store s)) ->
  task_label l = true -> once c s W -> step c s l = Some s' -> exists W', once c s' W'.
Proof.
  intros c s l s' W Wc u Hs Hh Hk [[C1 _ _ C4 _ C6 C7 C8 _] _] Hrem Hrc Hl [O1 O2 O3 O4 O5 O6 O7 O8 O9] H.
  unfold task_ok, writing, body_ok in *. destruct C6 as (B1 & B2 & B3). rewrite C1 in *. cbn [st_wpos] in *.
  assert (Hclen : forall n, c_clen c = Some n -> n = length (c_content c)) by (intros; apply Hs; auto).
  assert (Hrc' : forall x, l = LDTimeout RcOk -> covered (g_down s) x -> x < u_wpos u)
    by (intros x E Hx; apply Hrc; auto). clear Hrc.
  assert (Hch : forall s0 p, should_seek c s0 p = true -> c_seekable c = true)
    by (intros s0 p; unfold should_seek; destruct (c_seekable c); auto; discriminate).
  assert (Hinv : c_inv c <> InvServeAll /\ c_rec c = RecRange) by exact Hh. destruct Hinv as [Hinv Hrec].
  step_cases H; try discriminate Hl; unfold unrecorded, coming, downloading in *; gsimpl;
    try congruence; try (exfalso; destruct Hk as [Hk|Hk]; [match goal with E : should_seek _ _ _ = true |- _ => apply Hch in E; congruence end|congruence]).
  all: try match goal with E : g_dpc ?s = _ |- _ =>
      rewrite ?E in C7; rewrite ?E in O5; rewrite ?E in O6; rewrite ?E in O7; rewrite ?E in O8; rewrite ?E in O9 end;
    rewrite ?C1 in *; cbn [st_wpos st_write st_wseek] in *.
  all: try match type of O9 with match ?stop with _ => _ end => destruct stop; [|contradiction] end.
  all: repeat match goal with
    | E : body_window _ _ _ = Some _ |- _ => apply (window_bound _ _ _ _ _ Hinv) in E
    | E : (_, SPlain _) = _ |- _ => apply pair_equal_spec in E as [E ?]; subst
    | E : _ && _ = true |- _ => apply andb_true_iff in E as [? ?]
    | E : (_ =? _) = true |- _ => apply Nat.eqb_eq in E
    | E : (_ =? _) = false |- _ => apply Nat.eqb_neq in E
    | E : (_ <=? _) = true |- _ => apply Nat.leb_le in E
    | E : (_ <=? _) = false |- _ => apply Nat.leb_gt in E
    | E : (_ <? _) = true |- _ => apply Nat.ltb_lt in E
    | E : (_ <? _) = false |- _ => apply Nat.ltb_ge in E
    | E : rs_next_gap _ _ _ = Some _ |- _ =>
        apply rs_next_gap_some with (lo0 := 0) in E; [|first [exact C4|apply rs_add_wf; exact C4]];
        destruct E as (? & ? & ? & ? & ? & _)
    | E : rs_next_gap _ _ _ = None |- _ => pose proof (rs_next_gap_none _ _ _ E); clear E
    | E : g_pfc _ = _ |- _ => rewrite E in *|-; revert E
    | E : c_clen _ = Some _, K : forall n, Some _ = Some n -> _ |- _ => specialize (K _ eq_refl)
    | K : Some _ <> None -> _ |- _ => specialize (K ltac:(discriminate))
    | K : true = false -> _ |- _ => clear K
    | K : covers _ _ _ |- _ => unfold covers in K
    | K : ?x = ?x -> _ |- _ => specialize (K eq_refl)
    | K : _ /\ _ |- _ => destruct K
    end; intros.
  all: try match goal with
    | |- context [EvWrite _ (length (slice ?bytes ?w ?n))] => let k := constr:(length (slice bytes w n)) in
        pose proof (length_slice bytes w n);
        let E := fresh "Ek" in remember k as kk eqn:E
    end.
  all: match goal with
    | |- context [EvWrite _ ?k] => exists (W ++ seq (u_wpos u) k)
    | |- _ => exists W
    end.
  all: clear Hs Hh Hk Hinv Hl; clear Hch; try clear Hrem; try clear C8.
  all: constructor; unfold unrecorded, coming, downloading; gsimpl; cbn [accepted_total st_wpos];
       try match goal with E : g_dpc _ = _ |- _ => rewrite E end;
       try match goal with E : g_pfc _ = _ |- _ => rewrite E end;
       rewrite ?C1, ?u_write_wpos, ?u_wseek_wpos; cbn [st_wpos];
       try match goal with E : _ = length (slice _ _ _) |- _ => rewrite <- ?E in *; clear E end;
       auto; try discriminate; try tauto.
  all: try (intros _; match goal with |- forall _ : nat, _ => idtac end).
  all: try lia.
  all: try (intros x; specialize (O3 x); specialize (O4 x); specialize (O5 x); specialize (O6 x); specialize (O7 x);
    repeat match goal with
    | K : forall y, _ |- _ => specialize (K x)
    end;
    try (specialize (Hrc' eq_refl)); try destruct (g_pfc _);
    rewrite ?in_app_iff, ?in_seq, ?rs_add_covered in *).
  all: try match goal with x : nat, O : covered (g_down ?s) ?x -> In ?x ?W |- _ => by_position x W (g_down s) end.
  all: try (rewrite app_length, seq_length; lia).
  all: try (apply NoDup_app_intro; [assumption|apply seq_NoDup|
         intros x Hx Hx'; apply in_seq in Hx'; apply (O7 x); [lia|exact Hx]]).
  all: try (destruct (g_pfc s); exact I).
  - destruct (Nat.le_gt_cases n (u_wpos u)) as [L|L]; [left; exact L|right].
    assert (K : forall x, u_wpos u <= x < length (c_content c) -> In x W)
      by (intros x Hx; apply O4, H; lia).
    split; [|exact K]. destruct (Nat.le_gt_cases (g_send s) (u_wpos u)) as [L1|L1]; auto.
    exfalso. apply (O7 (u_wpos u)); [lia|]. apply K. lia.
  - destruct (g_pfc s); [exact I|]. destruct O8 as [O8|[O8 K]]; [left; exact O8|right].
    split; [|exact K]. destruct (Nat.le_gt_cases (length (c_content c)) (u_wpos u)) as [L|L]; [lia|].
    exfalso. destruct (O5 (u_wpos u) (K (u_wpos u) ltac:(lia))) as [C|C]; [|lia].
    specialize (Hrc' _ eq_refl C). lia.
  - destruct O8 as [O8|[O8 K]]; [left; lia|right]. split; [lia|].
    intros x Hx. apply in_app_iff. left. apply K. lia.
  - destruct (g_pfc s); [exact I|left; exact O8].
Qed.

(** The once-invariant in every reachable state. *)
Lemma once_reach : forall c (allow : gstate -> label -> Prop) s,
  sane c -> unbounded_store c -> honours_ranges c ->
  (c_seekable c = false \/ c_clen c <> None) ->
  (forall s l, allow s l -> no_empty_chunk_past_end c s l) ->
  (forall s l, allow s l -> reconnect_at_front s l) ->
  reach c allow s -> exists W, once c s W.
Proof.
  intros c allow s Hs Hu Hh Hk Ha1 Ha2 H. induction H as [s H|s l s' Hr [W IH] Hl H].
  - exists []. unfold init in H. destruct (into_rw _ _) eqn:E; [|discriminate]. injection H as <-.
    apply into_rw_init in E as (E1 & E2 & E3).
    constructor; unfold unrecorded, coming; cbn; rewrite ?E3; auto; try (constructor; fail); try tauto.
    + intros x Hx. destruct (covered_nil _ Hx).
    + intros x Hx. destruct (c_prefetch c =? 0); [contradiction|lia].
    + destruct (c_prefetch c =? 0); [exact I|left; lia].
  - destruct (task_label l) eqn:Hl'.
    + destruct (core_reach c allow s Hs Hu Hh Ha1 Hr) as (Wc & u & HC).
      eapply (once_step c s l s' W Wc u); eauto.
      * eapply no_leftover; eauto. apply Hs.
      * apply (Ha2 _ _ Hl).
    + exists W. pose proof (tr_wf _ _ (traced_reach _ _ _ Hr)) as Hw.
      destruct (LifeMore.reader_frame c s l s' Hw Hl' H) as
        (F1 & F2 & F3 & F4 & F5 & F6 & F7 & F8 & F9 & nw & F10 & F11).
      pose proof (reader_frame_pfs c s l s' Hl' H) as F12.
      destruct IH as [O1 O2 O3 O4 O5 O6 O7 O8 O9].
      constructor; unfold unrecorded, coming, downloading in *;
        rewrite ?F1, ?F2, ?F5, ?F8, ?F9, ?F10, ?F12, ?accepted_app, ?(accepted_calls nw F11); auto.
Qed.

Lemma once_bound : forall c s W, once c s W -> accepted_total (g_trace s) <= length (c_content c).
Proof.
  intros c s W [O1 O2 O3 _ _ _ _ _ _]. rewrite <- O2, <- (seq_length (length (c_content c)) 0).
  apply NoDup_incl_length; auto. intros x Hx. apply in_seq. specialize (O3 x Hx). lia.
Qed.

(** Without seeks, everything downloaded lies before the write position. *)
Lemma straight_front : forall c allow s, unbounded_store c -> straight c allow -> reach c allow s ->
  (forall x, covered (g_down s) x -> x < st_wpos (g_store s)) /\
  (forall a b x, g_dpc s = DSeeking a b -> covered (g_down s) x -> x < a).
Proof.
  intros c allow s Hu Ha H. induction H as [s H|s l s' Hr IH Hl H].
  - unfold init in H. destruct (into_rw _ _) eqn:E; [|discriminate]. injection H as <-. cbn.
    split; intros; exfalso; eapply covered_nil; eauto.
  - destruct IH as [I1 I2].
    pose proof (straight_chan c allow s Ha Hr) as N.
    pose proof (straight_pfs c allow s Ha Hr) as Hp.
    pose proof (tr_wf _ _ (traced_reach _ _ _ Hr)) as Hw.
    pose proof (wf_reach c _ s Hr) as Hwf.
    pose proof (seq_cov_reach c allow s Ha Hr) as Hcov. unfold seq_cov, upto in Hcov.
    destruct (plain_reach c allow s Hu Hr) as (u & Eu).
    clear Hr Hl Ha. destruct (task_label l) eqn:Htl.
    2:{ destruct (LifeMore.reader_frame c s l s' Hw Htl H) as (F1 & F2 & _ & _ & _ & _ & _ & _ & F9 & _).
        rewrite F1, F2, F9. auto. }
    step_cases H; gsimpl; auto; try discriminate Htl; try (rewrite (N _ _ eq_refl) in *; congruence);
      try (rewrite (N _ _ Heqo) in *; congruence);
      match goal with E : g_dpc s = _ |- _ => rewrite E in Hcov | _ => idtac end;
      rewrite ?Eu in *; cbn [st_wpos st_write st_wseek st_read st_rseek st_tell] in *;
      repeat match goal with
      | E : (_, SPlain _) = _ |- _ => apply pair_equal_spec in E as [E ?]; subst
      end; rewrite ?u_write_wpos, ?u_wseek_wpos in *; cbn [st_wpos] in *;
      rewrite ?u_write_wpos, ?u_wseek_wpos in *.
    all: try (split; [|intros; congruence]).
    all: try (intros x Hx; first [apply I1 in Hx; lia | eapply I2 in Hx; eauto; lia]).
    all: repeat match goal with
      | E : g_pfc _ = _ |- _ => rewrite E in *|-; clear E
      | E : rs_next_gap _ _ _ = Some _ |- _ =>
        apply rs_next_gap_some with (lo0 := 0) in E; [|first [exact Hwf|apply rs_add_wf; exact Hwf]];
        destruct E as (? & ? & ? & ? & ? & _)
      end; rewrite ?Hp, ?rs_add_covered in *.
    all: try (intros x Hx; apply rs_add_covered in Hx as [Hx|Hx]; [apply I1 in Hx|]; lia).
    all: try (split; [try (intros x Hx; rewrite ?rs_add_covered in Hx; destruct Hx as [Hx|Hx];
                           [apply I1 in Hx|]; lia); auto|]).
    all: try (intros a b x E; injection E as <- <-; intros Hx; rewrite ?rs_add_covered in Hx;
      destruct (Nat.le_gt_cases (u_wpos u) n0) as [L|L];
      [try destruct Hx as [Hx|Hx]; try apply I1 in Hx; lia|
       exfalso; apply (H3 n0); [lia|]; first [apply Hcov; lia|right; lia]]).
    intros a b x E. injection E as <- <-. intros Hx. apply rs_add_covered in Hx.
    destruct (Nat.le_gt_cases (u_wpos u) n0) as [L|L].
    + destruct Hx as [Hx|Hx]; [apply I1 in Hx|]; lia.
    + exfalso. apply (H3 n0); [lia|]. apply rs_add_covered. right. lia.
Qed.

(** * The sources the crates provide keep the promises of the trait. *)

From Coq Require Import String List Arith Lia ZArith Bool Nnat.
From Verif Require Import Base ListFacts Storage System Spec Http HttpSpec HttpFacts Opendal
  OpendalSpec PropOpendal Process Source SourceSpec.
Import ListNotations.

Lemma some_inj : forall {A} (a b : A), Some a = Some b -> a = b.
Proof. intros A a b H. congruence. Qed.

(** ** HTTP *)

Definition http_fresh (resource : list byte) (clen : option N) (ranges : option string)
  : http_stream := mkHttp resource clen ranges.

Definition http_ok (clen : option N) (ranges : option string) (x : http_stream) : Prop :=
  hs_content_length x = clen /\ hs_accept_ranges x = ranges.

Lemma http_new_fresh : forall server resource clen ranges,
  serves server resource clen ranges ->
  http_new server = inl (http_fresh resource clen ranges).
Proof. intros server resource clen ranges [H _]. unfold http_new. rewrite H. reflexivity. Qed.

(** A range request that succeeds. *)
Lemma http_seek_ok : forall server resource clen ranges net x a b r x',
  serves server resource clen ranges -> http_ok clen ranges x ->
  (match b with Some e => 0 < e | None => True end) ->
  fst (http_seek_range (over_network net server) x (N.of_nat a) (option_map N.of_nat b)) = (r, x') ->
  match r with
  | Ok _ => http_ok clen ranges x' /\ a <= length resource /\
            hs_body x' = match b with Some e => slice resource a (e - a) | None => skipn a resource end
  | Err _ => x' = x
  | Panic => False
  end.
Proof.
  intros server resource clen ranges net x a b r x' (S1 & S2 & S3) [O1 O2] Hb H.
  unfold http_seek_range in H. rewrite O1 in H.
  destruct (at_content_length (N.of_nat a) clen) eqn:Ea.
  - cbn in H. injection H as <- <-. split; [split; [exact O1|exact O2]|].
    unfold at_content_length in Ea. destruct clen as [n|]; [|discriminate].
    apply N.eqb_eq in Ea. destruct S2 as [S2|S2]; [discriminate|]. injection S2 as ->.
    apply Nat2N.inj in Ea. subst a. split; [lia|]. cbn [set_body hs_body].
    destruct b; [symmetry; apply slice_empty; lia|]. symmetry. apply skipn_all.
  - assert (Hi : exists lst, inclusive_end (option_map N.of_nat b) = Ok lst /\
              lst = option_map (fun e => N.of_nat (e - 1)) b).
    { destruct b as [e|]; [|eexists; split; reflexivity].
      destruct e as [|e]; [lia|]. cbn [option_map inclusive_end].
      destruct (N.of_nat (S e)) eqn:E; [lia|]. rewrite <- E. eexists. split; [reflexivity|]. cbn. f_equal. lia. }
    destruct Hi as (lst & Hi & El). rewrite Hi in H.
    unfold over_network in H. destruct net; [|cbn in H; injection H as <- <-; reflexivity].
    match type of H with context [server ?q] => destruct (server q) as [rp|] eqn:Es end; [|cbn in H; injection H as <- <-; reflexivity].
    destruct (resp_success rp) eqn:Ep; [|cbn in H; injection H as <- <-; reflexivity].
    cbn in H. injection H as <- <-. split; [split; [exact O1|exact O2]|].
    destruct (S3 _ _ Es Ep) as (first & last & P1 & P2 & P3).
    cbn [set_body hs_body].
    destruct b as [e|]; subst lst; cbn [option_map] in P1.
    + destruct (Nat.le_gt_cases a (e - 1)) as [Hle|Hgt].
      * rewrite parse_format in P1 by lia. injection P1 as <- <-.
        split; [lia|]. rewrite P3. unfold slice. cbn. rewrite !Nat2N.id. f_equal. lia.
      * rewrite parse_format_inverted in P1 by lia. discriminate.
    + rewrite parse_format in P1 by exact I. injection P1 as <- <-.
      split; [lia|]. rewrite P3. cbn. rewrite Nat2N.id. reflexivity.
Qed.

Lemma http_delivers : forall server resource clen ranges c0 (allow : gstate -> label -> Prop),
  serves server resource clen ranges -> c_content c0 = resource ->
  (forall s, allow s LDEof ->
     no_silent_truncation (over (http_source server) (http_fresh resource clen ranges) c0) s LDEof) ->
  (forall s rc, allow s (LDTimeout rc) -> exists v, ranges = Some v /\ v <> "none"%string) ->
  delivers (http_source server) (http_fresh resource clen ranges)
    (over (http_source server) (http_fresh resource clen ranges) c0) allow
    (http_ok clen ranges) hs_body.
Proof.
  intros server resource clen ranges c0 allow Hs Hc Ht Hr.
  assert (Hrec : forall x pos net, http_ok clen ranges x ->
            (exists v, ranges = Some v /\ v <> "none"%string) ->
            fst (http_reconnect (over_network net server) x (N.of_nat pos)) =
            fst (http_seek_range (over_network net server) x (N.of_nat pos) None)).
  { intros x pos net [O1 O2] (v & Hv & Hn). unfold http_reconnect, supports_range_request.
    rewrite O2, Hv. destruct (String.eqb_spec v "none"); [contradiction|reflexivity]. }
  constructor; cbn [http_source src_poll src_end src_fail src_seek_range src_reconnect src_on_finish
                    over c_content c_seekable c_clen].
  - split; [split; reflexivity|]. cbn. auto.
  - intros x k bs x' [O1 O2] H. destruct (Nat.leb_spec k (length (hs_body x))) as [L|]; [|discriminate].
    apply some_inj, pair_equal_spec in H. destruct H as [<- <-].
    split; [split; assumption|]. split; [rewrite firstn_length; lia|].
    cbn [set_body hs_body]. symmetry. apply firstn_skipn.
  - intros s x x' [O1 O2] Ha H. injection H as <-. split; [split; assumption|].
    split; [reflexivity|left; apply Ht; exact Ha].
  - intros s x x' O _ H. injection H as <-. auto.
  - intros x a b net O _ Hq.
    destruct (fst (http_seek_range (over_network net server) x (N.of_nat a) (option_map N.of_nat b)))
      as [r x'] eqn:E.
    assert (Hb : match b with Some e => 0 < e | None => True end).
    { unfold request_made in Hq. cbn [over c_clen] in Hq.
      destruct (src_content_length _ _); [destruct Hq as (_ & e & -> & ?); lia|subst b; exact I]. }
    pose proof (http_seek_ok _ _ _ _ _ _ _ _ _ _ Hs O Hb E) as P.
    destruct r; [|subst x'; auto|contradiction].
    destruct P as (P1 & _ & P2). split; [exact P1|]. rewrite Hc. exact P2.
  - intros s rc x pos net Ha O. rewrite (Hrec _ _ _ O (Hr _ _ Ha)).
    destruct (fst (http_seek_range (over_network net server) x (N.of_nat pos) None)) as [r x'] eqn:E.
    pose proof (http_seek_ok _ _ _ _ _ _ pos None _ _ Hs O I E) as P.
    destruct r; [|subst x'; auto|contradiction].
    destruct P as (P1 & _ & P2). split; [exact P1|]. rewrite Hc. exact P2.
  - reflexivity.
  - right. split.
    + intros x a b net x' O Hq Hl E.
      assert (Hb : match b with Some e => 0 < e | None => True end).
      { unfold request_made in Hq. cbn [over c_clen] in Hq.
        destruct (src_content_length _ _); [destruct Hq as (_ & e & -> & ?); lia|subst b; exact I]. }
      pose proof (http_seek_ok _ _ _ _ _ _ _ _ _ _ Hs O Hb E) as (_ & P & _).
      rewrite Hc in Hl. lia.
    + intros s rc x pos net x' Ha O Hl E. rewrite (Hrec _ _ _ O (Hr _ _ Ha)) in E.
      pose proof (http_seek_ok _ _ _ _ _ _ pos None _ _ Hs O I E) as (_ & P & _).
      rewrite Hc in Hl. lia.
Qed.

(** ** OpenDAL *)

Definition od_fresh (object : list byte) (chunk : nat) : od_stream :=
  mkOd object [] chunk chunk (if Nat.ltb 0 (length object) then Some (length object) else None).

Lemma od_new_fresh : forall object p, od_new p object true = Some (od_fresh object (op_chunk_size p)).
Proof. reflexivity. Qed.

Definition od_ok (x : od_stream) : Prop :=
  od_buf x = [] /\ od_buf_cap x <= od_capacity x /\ 0 < od_capacity x.

Lemma opendal_delivers : forall object chunk c0 (allow : gstate -> label -> Prop),
  0 < chunk -> c_content c0 = object ->
  delivers (opendal_source object) (od_fresh object chunk)
    (over (opendal_source object) (od_fresh object chunk) c0) allow od_ok od_reader.
Proof.
  intros object chunk c0 allow Hk Hc.
  assert (Hmeta : forall x r q x', od_ok x -> od_read_ok x (od_room (od_reserve x)) r = true ->
            od_poll_next x r = (q, x') -> od_ok x' /\
            match q with
            | OPChunk bs => bs <> [] /\ length bs <= od_capacity x /\ od_reader x = bs ++ od_reader x'
            | OPNone => od_reader x = [] /\ od_reader x' = []
            | _ => od_reader x' = od_reader x
            end).
  { intros x r q x' (A & B & C) Hr H.
    destruct (od_poll_facts _ _ _ _ A B C Hr H) as (A' & B' & C' & E).
    split; [|exact E]. split; [exact A'|split; [exact B'|lia]]. }
  constructor; cbn [opendal_source src_poll src_end src_fail src_seek_range src_reconnect src_on_finish
                    over c_content c_seekable c_clen].
  - split; [|cbn; auto]. split; [reflexivity|split; cbn; lia].
  - intros x k bs x' O H. destruct (od_can x k) eqn:Ek; [|discriminate].
    destruct (od_poll_next x (ODData k)) as [q x1] eqn:E.
    destruct (Hmeta _ _ _ _ O Ek E) as [M1 M2].
    destruct q as [| |e|bs']; try discriminate H. injection H as <- <-.
    destruct M2 as (M2 & M3 & M4). split; [exact M1|]. split; [|exact M4].
    unfold od_poll_next in E. destruct k as [|k]; [discriminate E|].
    apply pair_equal_spec in E. destruct E as [E _]. 
    assert (Rb : od_buf (od_reserve x) = []) by (unfold od_reserve; destruct (Nat.eqb _ _); apply O).
    assert (Rr : od_reader (od_reserve x) = od_reader x)
      by (unfold od_reserve; destruct (Nat.eqb _ _); reflexivity).
    rewrite Rb, Rr in E. cbn [app] in E.
    assert (Eb : bs' = firstn (S k) (od_reader x)) by congruence. rewrite Eb.
    unfold od_can in Ek. cbn [od_read_ok] in Ek. apply andb_true_iff in Ek. destruct Ek as [Ek _].
    apply Nat.leb_le in Ek. rewrite firstn_length. lia.
  - intros s x x' O _ H. destruct (od_can x 0) eqn:Ek; [|discriminate]. apply some_inj in H.
    destruct (od_poll_next x (ODData 0)) as [q x1] eqn:E. cbn [snd] in H. subst x1.
    destruct (Hmeta _ _ _ _ O Ek E) as [M1 M2].
    assert (Q : q = OPNone) by (unfold od_poll_next in E; congruence). subst q.
    destruct M2 as [M2 M3]. auto.
  - intros s x x' O _ H. apply some_inj in H.
    destruct (od_poll_next x (ODErr EOther)) as [q x1] eqn:E. cbn [snd] in H. subst x1.
    destruct (Hmeta x (ODErr EOther) _ _ O eq_refl E) as [M1 M2].
    assert (Q : q = OPErr EOther) by (unfold od_poll_next in E; congruence). subst q. auto.
  - intros x a b net O _ _. unfold od_seek_range. destruct net; [|auto].
    split; [exact O|]. rewrite Hc. reflexivity.
  - intros s rc x pos net _ O. unfold od_reconnect, od_seek_range. destruct net; [|auto].
    split; [exact O|]. rewrite Hc. reflexivity.
  - reflexivity.
  - left. intros x bs x' O H. destruct (od_can x 0); [|discriminate]. cbn in H. discriminate.
Qed.

(** ** Asynchronous readers and processes *)

Definition ar_ok (x : async_stream) : Prop := True.
Definition ar_body (x : async_stream) : list byte := if ar_live x then ar_rest x else [].

Lemma async_delivers : forall finish input clen c0 (allow : gstate -> label -> Prop),
  (forall env, finish false env = false) -> c_content c0 = input ->
  (forall s, ~ allow s LDErr) ->
  delivers (async_source finish) (ar_new input clen)
    (over (async_source finish) (ar_new input clen) c0) allow ar_ok ar_body.
Proof.
  intros finish input clen c0 allow Hf Hc Ha.
  constructor; cbn [async_source src_poll src_end src_fail src_seek_range src_reconnect src_on_finish
                    over c_content c_seekable c_clen].
  - split; [exact I|]. cbn. auto.
  - intros x k bs x' _ H. destruct (ar_live x) eqn:El; [|discriminate]. cbn [andb] in H.
    destruct (Nat.ltb_spec 0 k) as [L|L]; [|discriminate].
    destruct (Nat.leb_spec k (Nat.min ar_capacity (length (ar_rest x)))) as [L2|L2]; [|discriminate].
    cbn [andb] in H.
    apply some_inj, pair_equal_spec in H. destruct H as [<- <-]. split; [exact I|].
    split; [rewrite firstn_length; lia|]. unfold ar_body. rewrite El. cbn [ar_live ar_rest].
    symmetry. apply firstn_skipn.
  - intros s x x' _ _ H. unfold ar_body.
    destruct (ar_live x) eqn:El; cbn [negb orb] in H.
    + destruct (Nat.eqb_spec (length (ar_rest x)) 0) as [L|L]; [|discriminate].
      injection H as <-. split; [exact I|]. split; [reflexivity|right].
      destruct (ar_rest x); [reflexivity|discriminate].
    + injection H as <-. split; [exact I|]. auto.
  - intros s x x' _ H. destruct (Ha _ H).
  - auto.
  - auto.
  - auto.
  - left. intros x bs x' _ H. destruct (ar_live x); discriminate.
Qed.

Lemma process_finish_error : forall exit env, process_finish exit false env = false.
Proof. intros exit env. destruct exit, env; reflexivity. Qed.

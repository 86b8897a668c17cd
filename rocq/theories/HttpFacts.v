(** * Facts about range headers and the HTTP source. *)

From Coq Require Import List Arith Lia ZArith Bool String Ascii.
From Coq Require Import Decimal DecimalString DecimalN.
From Verif Require Import Base ListFacts Http HttpSpec.
Import ListNotations.
Local Open Scope string_scope.

(** Value of a digit string, most significant digit first. *)
Fixpoint dval (acc : N) (d : Decimal.uint) : N :=
  match d with
  | Nil => acc
  | D0 d => dval (10 * acc + 0) d
  | D1 d => dval (10 * acc + 1) d
  | D2 d => dval (10 * acc + 2) d
  | D3 d => dval (10 * acc + 3) d
  | D4 d => dval (10 * acc + 4) d
  | D5 d => dval (10 * acc + 5) d
  | D6 d => dval (10 * acc + 6) d
  | D7 d => dval (10 * acc + 7) d
  | D8 d => dval (10 * acc + 8) d
  | D9 d => dval (10 * acc + 9) d
  end%N.

Lemma dval_acc d : forall p, dval (Npos p) d = Npos (Pos.of_uint_acc d p).
Proof.
  induction d as [|d IH|d IH|d IH|d IH|d IH|d IH|d IH|d IH|d IH|d IH]; intros p;
    [reflexivity| | | | | | | | | |];
    cbn [dval Pos.of_uint_acc]; rewrite <- IH; f_equal; lia.
Qed.

Lemma dval_of_uint d : dval 0 d = N.of_uint d.
Proof.
  unfold N.of_uint.
  induction d as [|d IH|d IH|d IH|d IH|d IH|d IH|d IH|d IH|d IH|d IH];
    [reflexivity|exact IH| | | | | | | | |];
    cbn [dval Pos.of_uint]; apply dval_acc.
Qed.

Lemma digits_dval d rest : forall acc,
  starts_with_digit rest = false ->
  digits_from acc (NilEmpty.string_of_uint d ++ rest) = (dval acc d, rest).
Proof.
  intros acc Hr. revert acc.
  induction d as [|d IH|d IH|d IH|d IH|d IH|d IH|d IH|d IH|d IH|d IH]; intros acc.
  1: { cbn. destruct rest as [|c r]; [reflexivity|]. cbn in *.
       destruct (digit_value c); [discriminate|reflexivity]. }
  all: cbn [NilEmpty.string_of_uint append digits_from dval];
       match goal with |- context [digit_value ?c] =>
         let v := eval vm_compute in (digit_value c) in
         replace (digit_value c) with v by reflexivity end;
       apply IH.
Qed.

Lemma to_uint_not_nil n : N.to_uint n <> Nil.
Proof.
  intros E. assert (X : n = 0%N).
  { rewrite <- (DecimalN.Unsigned.of_to n), E. reflexivity. }
  subst n. discriminate E.
Qed.

Lemma read_u64 n rest : starts_with_digit rest = false ->
  read_number (u64_to_string n ++ rest) = Some (n, rest).
Proof.
  intros Hr. unfold read_number, u64_to_string, NilZero.string_of_uint.
  pose proof (to_uint_not_nil n) as Hn.
  assert (E : digits_from 0 (NilEmpty.string_of_uint (N.to_uint n) ++ rest) = (n, rest)).
  { rewrite digits_dval by exact Hr. rewrite dval_of_uint, DecimalN.Unsigned.of_to. reflexivity. }
  destruct (N.to_uint n) eqn:En; [contradiction| | | | | | | | | |]; rewrite E;
    match goal with |- (if ?b then _ else _) = _ => replace b with true; [reflexivity|] end;
    reflexivity.
Qed.

Lemma append_nil_r s : s ++ "" = s.
Proof. induction s as [|c s IH]; [reflexivity|]. cbn. rewrite IH. reflexivity. Qed.

Lemma u64_not_empty n : u64_to_string n <> "".
Proof.
  unfold u64_to_string, NilZero.string_of_uint. destruct (N.to_uint n); discriminate.
Qed.

Lemma expect_app p s : expect p (p ++ s) = Some s.
Proof.
  induction p as [|c p IH]; [reflexivity|]. cbn. rewrite Ascii.eqb_refl. exact IH.
Qed.

Lemma parse_format start lst : (match lst with Some l => (start <= l)%N | None => True end) ->
  parse_range (format_range_header_bytes start lst) = Some (start, lst).
Proof.
  intros H. unfold parse_range, format_range_header_bytes. rewrite expect_app.
  rewrite read_u64 by reflexivity. rewrite expect_app.
  destruct lst as [l|]; [|reflexivity].
  destruct (u64_to_string l) eqn:E; [destruct (u64_not_empty l E)|]. rewrite <- E.
  rewrite <- (append_nil_r (u64_to_string l)), read_u64 by reflexivity.
  destruct (N.ltb_spec l start); [lia|reflexivity].
Qed.

(** An inverted range is never accepted by the parser. *)
Lemma parse_format_inverted start l : (l < start)%N ->
  parse_range (format_range_header_bytes start (Some l)) = None.
Proof.
  intros H. unfold parse_range, format_range_header_bytes. rewrite expect_app.
  rewrite read_u64 by reflexivity. rewrite expect_app.
  destruct (u64_to_string l) eqn:E; [destruct (u64_not_empty l E)|]. rewrite <- E.
  rewrite <- (append_nil_r (u64_to_string l)), read_u64 by reflexivity.
  destruct (N.ltb_spec l start); [reflexivity|lia].
Qed.

(** ** The stream *)

Lemma seek_range_meta client s start e r s' reqs :
  http_seek_range client s start e = (r, s', reqs) ->
  hs_content_length s' = hs_content_length s /\ hs_accept_ranges s' = hs_accept_ranges s.
Proof.
  unfold http_seek_range. intros H.
  destruct (at_content_length start (hs_content_length s)); [injection H as <- <- <-; auto|].
  destruct (inclusive_end e) as [l|k|]; [|injection H as <- <- <-; auto|injection H as <- <- <-; auto].
  destruct (client _) as [rp|]; [|injection H as <- <- <-; auto].
  destruct (resp_success rp); injection H as <- <- <-; auto.
Qed.

Lemma reconnect_meta client s pos r s' reqs :
  http_reconnect client s pos = (r, s', reqs) ->
  hs_content_length s' = hs_content_length s /\ hs_accept_ranges s' = hs_accept_ranges s.
Proof.
  unfold http_reconnect. intros H. destruct (supports_range_request s).
  - eapply seek_range_meta; exact H.
  - destruct (client HGet); injection H as <- <- <-; auto.
Qed.

(** Content length and headers are those of the first response, for good. *)
Lemma reachable_meta client s : http_reachable client s ->
  exists r, client HGet = Some r /\ hs_content_length s = resp_content_length r /\
            hs_accept_ranges s = resp_accept_ranges r.
Proof.
  induction 1 as [s H|s k _ IH|s start e r s' reqs _ IH H|s pos r s' reqs _ IH H].
  - unfold http_new in H. destruct (client HGet) as [r|]; [|discriminate].
    destruct (resp_success r); [|discriminate]. injection H as <-. exists r. auto.
  - exact IH.
  - apply seek_range_meta in H. destruct H as [-> ->]. exact IH.
  - apply reconnect_meta in H. destruct H as [-> ->]. exact IH.
Qed.

Lemma range_server_meta res ranges s : http_reachable (range_server res ranges) s ->
  hs_content_length s = Some (N.of_nat (List.length res)) /\ hs_accept_ranges s = ranges.
Proof.
  intros H. apply reachable_meta in H. destruct H as (r & Hr & -> & ->).
  cbn in Hr. injection Hr as <-. auto.
Qed.

Lemma inclusive_end_ok start e : end_ok start e ->
  inclusive_end e = Ok (option_map (fun e => (e - 1)%N) e).
Proof.
  intros He. destruct e as [[|p]|]; [unfold end_ok in He; lia| |reflexivity].
  unfold inclusive_end, option_map. rewrite N.sub_1_r. reflexivity.
Qed.

Lemma header_of_seek client s start e r s' reqs :
  end_ok start e -> http_seek_range client s start e = (r, s', reqs) ->
  (reqs = [] /\ hs_content_length s = Some start) \/
  exists h, reqs = [HGetRange h] /\
            parse_range h = Some (start, option_map (fun e => (e - 1)%N) e).
Proof.
  unfold http_seek_range. intros He H.
  destruct (at_content_length start (hs_content_length s)) eqn:Ea.
  { left. injection H as <- <- <-. split; [reflexivity|].
    unfold at_content_length in Ea. destruct (hs_content_length s); [|discriminate].
    apply N.eqb_eq in Ea. congruence. }
  right. exists (format_range_header_bytes start (option_map (fun e => (e - 1)%N) e)).
  assert (Ei : inclusive_end e = Ok (option_map (fun e => (e - 1)%N) e)).
  { exact (inclusive_end_ok _ _ He). }
  rewrite Ei in H.
  split.
  - destruct (client _) as [rp|]; [destruct (resp_success rp)|]; injection H as <- <- <-; reflexivity.
  - apply parse_format. destruct e; unfold end_ok, option_map in *; lia.
Qed.

Lemma seek_range_server res ranges s start e :
  http_reachable (range_server res ranges) s ->
  (start < N.of_nat (List.length res))%N -> end_ok start e ->
  exists h, http_seek_range (range_server res ranges) s start e =
    (Ok tt, mkHttp (bytes_between res (N.to_nat start) (nat_opt e)) (hs_content_length s)
                   (hs_accept_ranges s), [HGetRange h]).
Proof.
  intros Hs Hl He. destruct (range_server_meta _ _ _ Hs) as [Hc _].
  unfold http_seek_range. rewrite Hc. cbn [at_content_length].
  destruct (N.eqb_spec start (N.of_nat (List.length res))) as [X|_]; [lia|].
  assert (Ei : inclusive_end e = Ok (option_map (fun e => (e - 1)%N) e)).
  { exact (inclusive_end_ok _ _ He). }
  rewrite Ei. eexists. unfold range_server at 1.
  rewrite parse_format by (destruct e; unfold end_ok, option_map in *; lia).
  destruct (N.ltb_spec start (N.of_nat (List.length res))) as [_|X]; [|lia].
  cbn [resp_success resp_body]. unfold set_body. rewrite Hc. do 4 f_equal.
  destruct e as [e|]; [|reflexivity]. unfold end_ok, nat_opt, option_map in *. f_equal. lia.
Qed.

Lemma seek_range_beyond res ranges s start e :
  http_reachable (range_server res ranges) s ->
  (N.of_nat (List.length res) < start)%N -> end_ok start e ->
  exists reqs, http_seek_range (range_server res ranges) s start e = (Err EOther, s, reqs).
Proof.
  intros Hs Hl He. destruct (range_server_meta _ _ _ Hs) as [Hc _].
  unfold http_seek_range. rewrite Hc. cbn [at_content_length].
  destruct (N.eqb_spec start (N.of_nat (List.length res))) as [X|_]; [lia|].
  assert (Ei : inclusive_end e = Ok (option_map (fun e => (e - 1)%N) e)).
  { exact (inclusive_end_ok _ _ He). }
  rewrite Ei. eexists. unfold range_server at 1.
  rewrite parse_format by (destruct e; unfold end_ok, option_map in *; lia).
  destruct (N.ltb_spec start (N.of_nat (List.length res))) as [X|_]; [lia|].
  reflexivity.
Qed.

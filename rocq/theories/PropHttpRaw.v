(** * C77, C78: HTTP messages and error texts. *)

From Coq Require Import String Ascii List Arith Lia ZArith Nnat Bool.
From Verif Require Import Base ListFacts Http HttpSpec HttpFacts HttpRaw HttpRawSpec Exec.
Import ListNotations.
Local Open Scope string_scope.

(** ** Names and values *)

Lemma ascii_N_inj : forall a b, N_of_ascii a = N_of_ascii b -> a = b.
Proof. intros a b H. rewrite <- (ascii_N_embedding a), <- (ascii_N_embedding b), H. reflexivity. Qed.

Lemma N_of_lower : forall c, N_of_ascii (lower c) =
  (if ((65 <=? N_of_ascii c) && (N_of_ascii c <=? 90))%N then N_of_ascii c + 32 else N_of_ascii c)%N.
Proof.
  intros c. unfold lower. destruct (_ && _)%bool eqn:E; [|reflexivity].
  apply andb_true_iff in E as [_ E]. apply N.leb_le in E. apply N_ascii_embedding. lia.
Qed.

Lemma lower_same : forall a b, lower a = lower b <-> same_letter a b.
Proof.
  intros a b. unfold same_letter. split; intros H.
  - apply (f_equal N_of_ascii) in H. rewrite !N_of_lower in H.
    destruct (N.leb_spec 65 (N_of_ascii a)), (N.leb_spec (N_of_ascii a) 90),
             (N.leb_spec 65 (N_of_ascii b)), (N.leb_spec (N_of_ascii b) 90); cbn [andb] in H; lia.
  - apply ascii_N_inj. rewrite !N_of_lower.
    destruct (N.leb_spec 65 (N_of_ascii a)), (N.leb_spec (N_of_ascii a) 90),
             (N.leb_spec 65 (N_of_ascii b)), (N.leb_spec (N_of_ascii b) 90); cbn [andb]; lia.
Qed.

Lemma lower_string_same : forall s t, lower_string s = lower_string t <-> same_name s t.
Proof.
  induction s as [|a s IH]; intros [|b t]; cbn [lower_string]; split; intros H;
    try discriminate H; try solve [inversion H]; try constructor.
  - injection H as H1 H2. apply lower_same; auto.
  - injection H as H1 H2. apply IH; auto.
  - inversion H; subst. f_equal; [apply lower_same|apply IH]; auto.
Qed.

Lemma header_get_spec : forall hs key v, header_get hs key = Some v <-> first_value hs key v.
Proof.
  intros hs key v. unfold first_value. induction hs as [|(n, w) hs IH]; cbn [header_get].
  - split; [discriminate|]. intros (b & n & a & H & _). destruct b; discriminate H.
  - destruct (String.eqb_spec (lower_string n) (lower_string key)) as [E|E].
    + split.
      * intros [= <-]. exists [], n, hs. split; auto. split; [apply lower_string_same; auto|].
        intros ? ? [].
      * intros ([|(n', w') b] & n0 & a & H & S & F); injection H as H1 H2 H3; [congruence|].
        exfalso. subst. apply (F n' w'); [left; auto|]. apply lower_string_same; auto.
    + rewrite IH. split.
      * intros (b & n0 & a & H & S & F). exists ((n, w) :: b), n0, a. subst. split; auto.
        split; auto. intros n1 w1 [[= <- <-]|I]; [|eauto]. intros X. apply E.
        apply lower_string_same; auto.
      * intros ([|(n', w') b] & n0 & a & H & S & F); injection H as H1 H2 H3.
        { exfalso. subst. apply E. apply lower_string_same; auto. }
        subst. exists b, n0, a. split; auto. split; auto. intros n1 w1 I. apply (F n1 w1). right; auto.
Qed.

Lemma visible_text : forall s, all_visible s = true <-> is_text s.
Proof.
  unfold is_text. induction s as [|c s IH]; cbn [all_visible].
  - split; auto. intros _ i c H. destruct i; discriminate H.
  - rewrite andb_true_iff, IH. unfold visible. rewrite orb_true_iff, andb_true_iff.
    rewrite N.leb_le, N.ltb_lt, N.eqb_eq. split.
    + intros [H1 H2] [|i] d G; cbn in G; [injection G as <-; lia|eauto].
    + intros H. split; [specialize (H 0 c eq_refl); lia|]. intros i d G. apply (H (S i)). exact G.
Qed.

Lemma header_str_spec : forall hs key v,
  get_header_str hs key = Some v <-> first_value hs key v /\ is_text v.
Proof.
  intros hs key v. unfold get_header_str. destruct (header_get hs key) as [w|] eqn:E.
  - destruct (all_visible w) eqn:V.
    + split.
      * intros [= <-]. split; [apply header_get_spec|apply visible_text]; auto.
      * intros [F _]. apply header_get_spec in F. congruence.
    + split; [discriminate|]. intros [F T]. apply header_get_spec in F.
      apply visible_text in T. congruence.
  - split; [discriminate|]. intros [F _]. apply header_get_spec in F. congruence.
Qed.

(** ** Numbers *)

Lemma digits_mono : forall s acc n r, digits_from acc s = (n, r) -> (acc <= n)%N.
Proof.
  induction s as [|c s IH]; cbn [digits_from]; intros acc n r H; [injection H as <- <-; lia|].
  destruct (digit_value c); [apply IH in H; lia|injection H as <- <-; lia].
Qed.

Lemma from_digits_spec : forall s acc n, (acc < 18446744073709551616)%N ->
  from_digits acc s = Some n <-> digits_from acc s = (n, "") /\ (n < 18446744073709551616)%N.
Proof.
  induction s as [|c s IH]; intros acc n Ha; cbn [from_digits digits_from].
  - split; [intros [= <-]; auto|]. intros [[= <-] _]. reflexivity.
  - change (digit c) with (digit_value c). destruct (digit_value c) as [d|].
    + destruct (N.ltb_spec (10 * acc + d) 18446744073709551616) as [L|L]; [apply IH; auto|].
      split; [discriminate|]. intros [H1 H2]. apply digits_mono in H1. lia.
    + split; [discriminate|]. intros [[= _ H] _].
Qed.

Lemma from_str_spec : forall v n, u64_from_str v = Some n <->
  (n < 18446744073709551616)%N /\ (decimal v n \/ exists w, v = "+" ++ w /\ decimal w n).
Proof.
  intros v n. unfold decimal, read_number.
  assert (K : forall c s, from_digits 0 (String c s) = Some n <->
    (n < 18446744073709551616)%N /\
    (if starts_with_digit (String c s) then Some (digits_from 0 (String c s)) else None) = Some (n, "")).
  { intros c s. rewrite from_digits_spec by reflexivity. cbn [starts_with_digit digits_from].
    destruct (digit_value c) as [d|].
    - split; [intros [-> H]; auto|]. intros [H1 [= H2]]. split; [exact H2|auto].
    - split; [intros [[= _ H] _]|intros [_ H]]; discriminate H. }
  destruct v as [|c v]; cbn [u64_from_str].
  - split; [discriminate|]. intros [_ [H|(w & H & _)]]; discriminate H.
  - destruct (Ascii.eqb_spec c "+") as [->|Nc].
    + destruct v as [|d v].
      * split; [discriminate|]. intros [_ [H|(w & H & D)]]; [discriminate H|].
        destruct w; [|discriminate H]. discriminate D.
      * rewrite K. split.
        -- intros [H1 H2]. split; auto. right. exists (String d v). auto.
        -- intros [H1 [H2|(w & H2 & H3)]]; [discriminate H2|]. injection H2 as ->. auto.
    + rewrite K. split.
      * intros [H1 H2]. split; auto.
      * intros [H1 [H2|(w & H2 & H3)]]; [auto|]. injection H2 as H2 _. contradiction.
Qed.

(** ** C77: HTTP messages are understood correctly *)

(** Looking up a header: the value of its first occurrence, in any letter case, if that is
    text. *)
Theorem C77_header : forall hs key v,
  get_header_str hs key = Some v <-> first_value hs key v /\ is_text v.
Proof. exact header_str_spec. Qed.

(** The content length is the number the header denotes, or unknown: never another number. *)
Theorem C77_content_length : forall r n,
  raw_content_length r = Some n <->
  exists v, first_value (raw_headers r) "Content-Length" v /\ is_text v /\
    (n < 18446744073709551616)%N /\ (decimal v n \/ exists w, v = "+" ++ w /\ decimal w n).
Proof.
  intros r n. unfold raw_content_length.
  assert (E : get_header_str (raw_headers r) "content-length" =
              get_header_str (raw_headers r) "Content-Length").
  { unfold get_header_str. f_equal. induction (raw_headers r) as [|(a, b) l IH]; auto.
    cbn [header_get]. change (lower_string "Content-Length") with (lower_string "content-length").
    destruct (_ =? _)%string; auto. }
  rewrite E. clear E. split.
  - intros H. destruct (get_header_str (raw_headers r) "Content-Length") as [v|] eqn:G; [|discriminate H].
    apply header_str_spec in G as [G1 G2]. apply from_str_spec in H. exists v. tauto.
  - intros (v & H1 & H2 & H3).
    assert (G : get_header_str (raw_headers r) "Content-Length" = Some v)
      by (apply header_str_spec; auto).
    rewrite G. apply from_str_spec. exact H3.
Qed.

Lemma decimal_text : forall n, is_text (u64_to_string n).
Proof.
  intros n. apply visible_text. unfold u64_to_string, DecimalString.NilZero.string_of_uint.
  assert (K : forall d, all_visible (DecimalString.NilEmpty.string_of_uint d) = true).
  { induction d; cbn [DecimalString.NilEmpty.string_of_uint all_visible]; auto. }
  destruct (N.to_uint n); try apply K. reflexivity.
Qed.

(** A length a server writes in decimal is read back exactly. *)
Theorem C77_length_round_trip : forall r n,
  first_value (raw_headers r) "Content-Length" (u64_to_string n) ->
  (n < 18446744073709551616)%N -> raw_content_length r = Some n.
Proof.
  intros r n H1 H3. apply C77_content_length. eexists. repeat split; eauto using decimal_text. left.
  unfold decimal. rewrite <- (append_nil_r (u64_to_string n)). apply read_u64. reflexivity.
Qed.

(** A response is an error exactly for a client or server error status. *)
Theorem C77_status : forall r, resp_success (response_of r) = false <-> error_status (raw_status r).
Proof.
  intros r. cbn [response_of resp_success]. unfold raw_success, error_status.
  rewrite negb_false_iff, andb_true_iff, N.leb_le, N.ltb_lt. lia.
Qed.

Lemma reachable_length : forall client s n,
  http_reachable client s ->
  (forall r, client HGet = Some r -> resp_success r = true -> resp_content_length r = n) ->
  hs_content_length s = n.
Proof.
  intros client s n H Hn. induction H.
  - unfold http_new in H. destruct (client HGet) as [r|] eqn:E; [|discriminate H].
    destruct (resp_success r) eqn:Es; [|discriminate H]. injection H as <-. eauto.
  - exact IHhttp_reachable.
  - apply seek_range_meta in H0 as [-> _]. exact IHhttp_reachable.
  - unfold http_reconnect in H0. destruct (supports_range_request s).
    + apply seek_range_meta in H0 as [-> _]. exact IHhttp_reachable.
    + destruct (client HGet); injection H0 as <- <- <-; exact IHhttp_reachable.
Qed.

(** A server that supports ranges, at the level of messages: opening gives the length and
    the whole resource, and a seek from any state the stream can be in gives exactly the
    bytes asked for. *)
Theorem C77_ranges_delivered : forall resource server,
  (N.of_nat (List.length resource) < 18446744073709551616)%N -> serves_ranges resource server ->
  (exists s, http_new (client_of server) = inl s /\
     hs_content_length s = Some (N.of_nat (List.length resource)) /\ hs_body s = resource) /\
  (forall s start e, http_reachable (client_of server) s ->
     (start < N.of_nat (List.length resource))%N -> end_ok start e ->
     exists s' reqs, http_seek_range (client_of server) s start e = (Ok tt, s', reqs) /\
       hs_body s' = bytes_between resource (N.to_nat start) (nat_opt e)).
Proof.
  intros resource server Hlen [(r & v & G1 & G2 & G3 & G4 & G5 & G6) Hr].
  assert (Lr : raw_content_length r = Some (N.of_nat (List.length resource))).
  { apply C77_content_length. exists v. auto. }
  assert (Sr : forall q, ~ error_status (raw_status q) -> resp_success (response_of q) = true).
  { intros q Hq. destruct (resp_success (response_of q)) eqn:E; auto.
    apply C77_status in E. contradiction. }
  split.
  - unfold http_new, client_of. rewrite G1. cbn [option_map]. rewrite (Sr r G2).
    eexists. split; [reflexivity|]. cbn [hs_content_length hs_body response_of resp_content_length resp_body].
    auto.
  - intros s start e Hs Hl He.
    assert (Ls : hs_content_length s = Some (N.of_nat (List.length resource))).
    { apply (reachable_length _ _ _ Hs). unfold client_of. rewrite G1.
      intros r0 [= <-] _. exact Lr. }
    assert (Ie : exists l, inclusive_end e = Ok l /\
              l = option_map N.pred e /\ match l with Some l => (start <= l)%N | None => True end).
    { destruct e as [e|]; [|exists None; auto]. cbn in He. destruct e; [lia|].
      exists (Some (N.pred (Npos p))). cbn [option_map]. repeat split; auto. lia. }
    destruct Ie as (l & Ie & El & Hl').
    destruct (Hr (format_range_header_bytes start l) start l (parse_format start l Hl') Hl)
      as (q & Q1 & Q2 & Q3).
    unfold http_seek_range. rewrite Ls. cbn [at_content_length].
    destruct (N.eqb_spec start (N.of_nat (List.length resource))); [lia|].
    rewrite Ie. unfold client_of. rewrite Q1. cbn [option_map]. rewrite (Sr q Q2).
    eexists. eexists. split; [reflexivity|]. cbn [set_body hs_body response_of resp_body].
    rewrite Q3. subst l. destruct e as [e|]; [|reflexivity]. cbn [option_map nat_opt].
    cbn in He. replace (S (N.to_nat (N.pred e))) with (N.to_nat e) by lia. reflexivity.
Qed.

(** Violated: range units are case-insensitive (RFC 9110, 14.1), but a server that declines
    ranges with a capital letter is sent a range request on reconnect. *)
Theorem C77_declined_refuted : exists server r v s s' reqs h,
  server HGet = Some r /\ first_value (raw_headers r) "Accept-Ranges" v /\ same_name v "none" /\
  http_new (client_of server) = inl s /\
  http_reconnect (client_of server) s 5 = (Ok tt, s', reqs) /\ reqs = [HGetRange h].
Proof.
  pose (r := mkRaw 200 [("accept-ranges", "None")] demo).
  exists (fun _ => Some r), r, "None". eexists. eexists. eexists. eexists.
  split; [reflexivity|]. split; [apply header_get_spec; reflexivity|].
  split; [apply lower_string_same; reflexivity|].
  split; [reflexivity|]. split; [vm_compute; reflexivity|reflexivity].
Qed.

Lemma reachable_ranges : forall client s,
  http_reachable client s ->
  exists r, client HGet = Some r /\ hs_accept_ranges s = resp_accept_ranges r.
Proof.
  intros client s H. induction H.
  - unfold http_new in H. destruct (client HGet) as [r|] eqn:E; [|discriminate H].
    destruct (resp_success r) eqn:Es; [|discriminate H]. injection H as <-. eauto.
  - exact IHhttp_reachable.
  - apply seek_range_meta in H0 as [_ ->]. exact IHhttp_reachable.
  - unfold http_reconnect in H0. destruct (supports_range_request s).
    + apply seek_range_meta in H0 as [_ ->]. exact IHhttp_reachable.
    + destruct (client HGet); injection H0 as <- <- <-; exact IHhttp_reachable.
Qed.

(** The other direction: a reconnect below the end asks for the remaining bytes exactly if
    the first [Accept-Ranges] field of the response that opened the stream, whatever its
    letter case and its place among the fields, is text other than ["none"]; otherwise it
    asks for everything. *)
Theorem C77_declined_partial : forall server opening s pos res s' reqs,
  http_reachable (client_of server) s -> server HGet = Some opening ->
  hs_content_length s <> Some pos ->
  http_reconnect (client_of server) s pos = (res, s', reqs) ->
  let offers v := first_value (raw_headers opening) "Accept-Ranges" v /\ is_text v /\ v <> "none" in
  ((exists v, offers v) -> exists h, reqs = [HGetRange h] /\ parse_range h = Some (pos, None)) /\
  ((forall v, ~ offers v) -> reqs = [HGet]).
Proof.
  intros server opening s pos res s' reqs Hr Ho Hl E offers.
  destruct (reachable_ranges _ _ Hr) as (r & Hg & Ha).
  unfold client_of in Hg. rewrite Ho in Hg. injection Hg as <-. cbn [resp_accept_ranges response_of] in Ha.
  assert (K : supports_range_request s = true <-> exists v, offers v).
  { unfold supports_range_request. rewrite Ha. subst offers. cbn beta.
    destruct (get_header_str (raw_headers opening) "Accept-Ranges") as [w|] eqn:G.
    - split.
      + intros T. exists w. apply header_str_spec in G as [F X]. repeat split; auto.
        intros ->. discriminate T.
      + intros (v & F & X & N). assert (G' : get_header_str (raw_headers opening) "Accept-Ranges" = Some v)
          by (apply header_str_spec; auto). rewrite G in G'. injection G' as ->.
        destruct (String.eqb_spec v "none"); [contradiction|reflexivity].
    - split; [discriminate|]. intros (v & F & X & N).
      assert (G' : get_header_str (raw_headers opening) "Accept-Ranges" = Some v)
        by (apply header_str_spec; auto). congruence. }
  unfold http_reconnect in E. split.
  - intros V. apply K in V. rewrite V in E. unfold http_seek_range in E.
    replace (at_content_length pos (hs_content_length s)) with false in E.
    + cbn [inclusive_end] in E.
      exists (format_range_header_bytes pos None). split; [|apply parse_format; exact I].
      destruct (client_of server _) as [r|]; [destruct (resp_success r)|]; injection E as _ _ <-; reflexivity.
    + unfold at_content_length. destruct (hs_content_length s) as [n|]; [|reflexivity].
      symmetry. apply N.eqb_neq. congruence.
  - intros V. destruct (supports_range_request s) eqn:T.
    + destruct (proj1 K eq_refl) as [v Hv]. destruct (V v Hv).
    + destruct (client_of server HGet); injection E as _ _ <-; reflexivity.
Qed.

Example C77_declined_case :
  let server v := fun _ : http_request => Some (mkRaw 200 [("Date", "today"); ("accept-RANGES", v)] demo) in
  let again v := match http_new (client_of (server v)) with
                 | inl s => snd (http_reconnect (client_of (server v)) s 5)
                 | inr _ => []
                 end in
  again "bytes" = [HGetRange "bytes=5-"] /\ again "none" = [HGet].
Proof. split; vm_compute; reflexivity. Qed.

(** A server with redirected statuses, odd letter case, a second length and other fields. *)
Definition odd_server (resource : list byte) : raw_server := fun req =>
  let len := u64_to_string (N.of_nat (List.length resource)) in
  match req with
  | HGet => Some (mkRaw 203 [("Date", "today"); ("cOnTeNt-LeNgTh", len); ("Content-Length", "7")] resource)
  | HGetRange h =>
      match parse_range h with
      | Some (first, lst) =>
          Some (mkRaw 206 [] (bytes_between resource (N.to_nat first)
                      (match lst with Some l => Some (S (N.to_nat l)) | None => None end)))
      | None => Some (mkRaw 416 [] [])
      end
  end.

Example C77_case :
  serves_ranges demo (odd_server demo) /\
  (exists s, http_new (client_of (odd_server demo)) = inl s /\ hs_content_length s = Some 12%N) /\
  raw_content_length (mkRaw 200 [("content-length", "18446744073709551615")] []) = Some 18446744073709551615%N /\
  raw_content_length (mkRaw 200 [("content-length", "18446744073709551616")] []) = None /\
  raw_content_length (mkRaw 200 [("content-length", "12 ")] []) = None /\
  raw_content_length (mkRaw 200 [("content-length", "")] []) = None /\
  raw_content_length (mkRaw 200 [("content-length", "+12")] []) = Some 12%N /\
  get_header_str [("X", "a"); ("x", "b")] "X" = Some "a".
Proof.
  split; [|split; [eexists; split; reflexivity|repeat split]].
  split.
  - exists (mkRaw 203 [("Date", "today"); ("cOnTeNt-LeNgTh", "12"); ("Content-Length", "7")] demo), "12".
    split; [reflexivity|]. split; [unfold error_status; cbn; lia|].
    split; [apply header_get_spec; reflexivity|]. split; [apply visible_text; reflexivity|].
    split; reflexivity.
  - intros h first lst H _. unfold odd_server. rewrite H. eexists. split; [reflexivity|].
    split; [unfold error_status; cbn; lia|reflexivity].
Qed.

(** ** C78: HTTP errors say what went wrong *)

Lemma contains_r : forall a t, contains (a ++ t) t.
Proof. intros a t. exists a, "". rewrite append_nil_r. reflexivity. Qed.

Lemma append_assoc' : forall a b c : string, (a ++ b) ++ c = a ++ (b ++ c).
Proof. induction a as [|x a IH]; intros b c; cbn; [reflexivity|]. rewrite IH. reflexivity. Qed.

Lemma contains_app : forall a s t, contains s t -> contains (a ++ s) t.
Proof. intros a s t (x & y & ->). exists (a ++ x), y. rewrite append_assoc'. reflexivity. Qed.

Lemma contains_app_l : forall s b t, contains s t -> contains (s ++ b) t.
Proof. intros s b t (x & y & ->). exists x, (y ++ b). rewrite !append_assoc'. reflexivity. Qed.

(** What the client or the server said about a failed request. *)
Definition cause (f : request_failure) : string :=
  match f with
  | NoResponse e => e
  | ErrorStatus _ (inl text) => text
  | ErrorStatus source (inr _) => source
  end.

Lemma decode_cause : forall source text,
  contains (decode_fetch_error source text) (cause (ErrorStatus source text)).
Proof.
  intros source [t|e]; cbn [decode_fetch_error cause].
  - do 2 apply contains_app. exists "", "". rewrite append_nil_r. reflexivity.
  - exists "", (". Error decoding response: " ++ e). reflexivity.
Qed.

(** The error of a failed seek names the URL and contains the client's error or the text of
    the server's reply. *)
Theorem C78_seek_error : forall url f,
  contains (snd (seek_range_error url f)) url /\ contains (snd (seek_range_error url f)) (cause f).
Proof.
  intros url f. destruct f as [e|source text]; cbn [seek_range_error wrap_err snd]; split.
  - apply contains_app_l. apply contains_r.
  - do 2 apply contains_app. exists "", "". cbn. rewrite append_nil_r. reflexivity.
  - apply contains_app_l. apply contains_r.
  - do 2 apply contains_app. apply decode_cause.
Qed.

(** So does the error of a failed reconnect. *)
Theorem C78_reconnect_error : forall url e,
  contains (snd (reconnect_error url e)) url /\ contains (snd (reconnect_error url e)) e.
Proof.
  intros url e. cbn [reconnect_error wrap_err snd]. split.
  - apply contains_app_l. apply contains_r.
  - do 2 apply contains_app. exists "", "". rewrite append_nil_r. reflexivity.
Qed.

(** A decoded error of a failed opening contains the cause, too, and a failure of the storage
    is told apart. *)
Theorem C78_opening_error :
  (forall f, contains (initialization_error (inr f)) (cause f)) /\
  (forall e, initialization_error (inl e) = "Storage creation failure: " ++ e).
Proof.
  split; auto. intros f. cbn [initialization_error]. destruct f as [e|source text]; cbn [creation_error].
  - apply contains_app. exists "", "". cbn. rewrite append_nil_r. reflexivity.
  - apply decode_cause.
Qed.

(** Adding context to an error keeps its kind and its text. *)
Theorem C78_context : forall msg err,
  fst (wrap_err msg err) = fst err /\ contains (snd (wrap_err msg err)) msg /\
  contains (snd (wrap_err msg err)) (snd err).
Proof.
  intros msg err. cbn [wrap_err fst snd]. split; auto. split.
  - exists "", (": " ++ snd err). reflexivity.
  - do 2 apply contains_app. exists "", "". rewrite append_nil_r. reflexivity.
Qed.

Example C78_case :
  seek_range_error "http://x/a" (ErrorStatus "416" (inl "no such range")) =
    (EOther, "error getting HTTP range response from http://x/a: 416: no such range") /\
  initialization_error (inr (ErrorStatus "404" (inl "gone"))) = "404: gone".
Proof. split; reflexivity. Qed.

(** ** C79: default middleware *)

(** Every client has the middleware registered before it was created, in that order. *)
Theorem C79_middleware : forall (M : Type) (ops : list (mw_op M)) before after,
  ops = (before ++ MwCreate :: after)%list ->
  nth_error (snd (mw_run [] ops)) (created before) = Some (registered before).
Proof.
  intros M ops before after ->.
  assert (K : forall d, nth_error (snd (mw_run d (before ++ MwCreate :: after)%list)) (created before) =
    Some (d ++ registered before)%list).
  { induction before as [|[m|] before IH]; intros d; cbn [app mw_run created registered].
    - destruct (mw_run d after). cbn. rewrite app_nil_r. reflexivity.
    - rewrite IH, <- app_assoc. reflexivity.
    - specialize (IH d). destruct (mw_run d (before ++ MwCreate :: after)%list). cbn [snd] in *. exact IH. }
  apply K.
Qed.

Example C79_case : snd (mw_run [] [MwAdd 1; MwCreate; MwAdd 2; MwAdd 3; MwCreate]) = [[1]; [1; 2; 3]].
Proof. reflexivity. Qed.

Print Assumptions C77_header.
Print Assumptions C77_content_length.
Print Assumptions C77_length_round_trip.
Print Assumptions C77_status.
Print Assumptions C77_ranges_delivered.
Print Assumptions C77_declined_refuted.
Print Assumptions C77_declined_partial.
Print Assumptions C78_seek_error.
Print Assumptions C78_reconnect_error.
Print Assumptions C78_opening_error.
Print Assumptions C78_context.
Print Assumptions C79_middleware.

(** * Properties of the HTTP source (C42-C44). *)

From Coq Require Import List Arith Lia ZArith Nnat Bool String.
From Verif Require Import Base ListFacts Http HttpSpec HttpFacts System Exec.
Import ListNotations.
Local Open Scope string_scope.

(** ** C42: HTTP range headers are exact *)

(** The header text, read by the RFC 9110 grammar, gives back both positions. *)
Theorem C42_header_round_trip : forall start last,
  (match last with Some l => (start <= l)%N | None => True end) ->
  parse_range (format_range_header_bytes start last) = Some (start, last).
Proof. exact parse_format. Qed.

(** A seek to [start, end) sends exactly one request whose header denotes the bytes
    [start] to [end - 1] inclusive, or no request at all when [start] is the content length. *)
Theorem C42_request_sent : forall client s start e r s' reqs,
  end_ok start e -> http_seek_range client s start e = (r, s', reqs) ->
  (reqs = [] /\ hs_content_length s = Some start) \/
  exists h, reqs = [HGetRange h] /\
            parse_range h = Some (start, option_map (fun e => (e - 1)%N) e).
Proof. exact header_of_seek. Qed.

(** An inverted interval yields a header no server can take for a valid range. *)
Theorem C42_inverted_is_invalid : forall start last,
  (last < start)%N -> parse_range (format_range_header_bytes start (Some last)) = None.
Proof. exact parse_format_inverted. Qed.

Example C42_case :
  format_range_header_bytes 200 (Some 400%N) = "bytes=200-400" /\
  format_range_header_bytes 0 None = "bytes=0-" /\
  parse_range "bytes=18446744073709551614-18446744073709551615" =
    Some (18446744073709551614, Some 18446744073709551615)%N /\
  parse_range "bytes=7-3" = None /\ parse_range "bytes=-3" = None /\ parse_range "items=1-2" = None.
Proof. repeat split. Qed.

(** ** C43: HTTP seeking delivers the requested range *)

Theorem C43_seek_delivers : forall resource ranges s start e,
  http_reachable (range_server resource ranges) s ->
  (start < N.of_nat (List.length resource))%N -> end_ok start e ->
  exists s' reqs,
    http_seek_range (range_server resource ranges) s start e = (Ok tt, s', reqs) /\
    hs_body s' = bytes_between resource (N.to_nat start) (nat_opt e).
Proof.
  intros resource ranges s start e Hs Hl He.
  destruct (seek_range_server _ _ _ _ _ Hs Hl He) as [h H].
  eexists. eexists. split; [exact H|reflexivity].
Qed.

(** Seeking to the content length: an empty stream and no request, whatever the server. *)
Theorem C43_seek_to_end : forall client s start e,
  hs_content_length s = Some start ->
  exists s', http_seek_range client s start e = (Ok tt, s', []) /\ hs_body s' = [].
Proof.
  intros client s start e H. unfold http_seek_range. rewrite H. cbn [at_content_length].
  rewrite N.eqb_refl. eexists. split; reflexivity.
Qed.

(** Seeking past the end is refused, and the stream is left as it was. *)
Theorem C43_past_end_fails : forall resource ranges s start e,
  http_reachable (range_server resource ranges) s ->
  (N.of_nat (List.length resource) < start)%N -> end_ok start e ->
  exists reqs, http_seek_range (range_server resource ranges) s start e = (Err EOther, s, reqs).
Proof. exact seek_range_beyond. Qed.

(** Whatever the server: a seek succeeds only with a successful response, and a transport
    failure or an error status is an error that leaves the stream as it was. *)
Theorem C43_failures_reported : forall client s start e r s' req,
  http_seek_range client s start e = (r, s', [req]) ->
  match client req with
  | Some resp => if resp_success resp then r = Ok tt /\ hs_body s' = resp_body resp
                 else r = Err EOther /\ s' = s
  | None => r = Err EOther /\ s' = s
  end.
Proof.
  unfold http_seek_range. intros client s start e r s' req H.
  destruct (at_content_length start (hs_content_length s)); [discriminate H|].
  destruct (inclusive_end e) as [l|k|]; [|discriminate H|discriminate H].
  destruct (client (HGetRange (format_range_header_bytes start l))) as [rp|] eqn:Ec.
  - destruct (resp_success rp) eqn:Es; injection H as <- <- <-; rewrite Ec, Es; auto.
  - injection H as <- <- <-; rewrite Ec; auto.
Qed.

(** Opening the stream: it succeeds only with a successful response, and what the stream
    then knows is what that response said. *)
Theorem C43_created : forall client,
  match client HGet with
  | None => http_new client = inr FetchFailure
  | Some r =>
      if resp_success r
      then exists s, http_new client = inl s /\ hs_body s = resp_body r /\
             hs_content_length s = resp_content_length r /\
             hs_accept_ranges s = resp_accept_ranges r
      else http_new client = inr ResponseFailure
  end.
Proof.
  intros client. unfold http_new. destruct (client HGet) as [r|]; auto.
  destruct (resp_success r); auto. eexists. repeat split.
Qed.

Example C43_created_case :
  (exists s, http_new (range_server demo (Some "bytes")) = inl s /\ hs_content_length s = Some 12%N) /\
  http_new (fun _ => Some (mkResp false None None [x0a])) = inr ResponseFailure.
Proof. split; [eexists; split|]; reflexivity. Qed.

(** A seek into the middle after part of the body has been consumed and another seek. *)
Example C43_case : exists s,
  http_reachable (range_server demo (Some "bytes")) s /\ hs_body s = skipn 11 demo /\
  exists s' reqs,
    http_seek_range (range_server demo (Some "bytes")) s 3 (Some 7%N) = (Ok tt, s', reqs) /\
    hs_body s' = [x04; x05; x06; x07] /\ reqs = [HGetRange "bytes=3-6"].
Proof.
  eexists. split.
  - eapply (hr_consume _ _ 2). eapply (hr_seek _ _ 9%N None); [apply hr_new; reflexivity|].
    vm_compute. reflexivity.
  - split; [reflexivity|]. eexists. eexists. split; [vm_compute; reflexivity|split; reflexivity].
Qed.

(** ** C44: HTTP reconnect continues the transfer *)

(** Without an Accept-Ranges header a reconnect restarts at byte 0 although it reports
    success: http/mod.rs:346-355. *)
Theorem C44_restart_refuted : exists resource s pos s' reqs,
  http_reachable (plain_server resource) s /\ (pos <= N.of_nat (List.length resource))%N /\
  http_reconnect (plain_server resource) s pos = (Ok tt, s', reqs) /\
  hs_body s' <> skipn (N.to_nat pos) resource.
Proof.
  exists demo. eexists. exists 5%N. eexists. eexists. split; [apply hr_new; reflexivity|].
  split; [vm_compute; discriminate|]. split; [vm_compute; reflexivity|]. discriminate.
Qed.

(** A server that answers the reconnect request with an error page. *)
Definition flaky : http_client := fun req =>
  Some (mkResp false None None [x0a; x0a]).

(** In that branch an error status is not noticed either: the error page becomes the
    content. *)
Theorem C44_error_page_refuted : exists client s pos s' reqs,
  http_reachable (plain_server demo) s /\
  (forall req, exists resp, client req = Some resp /\ resp_success resp = false) /\
  http_reconnect client s pos = (Ok tt, s', reqs) /\ hs_body s' = [x0a; x0a].
Proof.
  exists flaky. eexists. exists 5%N. eexists. eexists. split; [apply hr_new; reflexivity|].
  split; [intros req; eexists; split; reflexivity|]. split; [vm_compute; reflexivity|reflexivity].
Qed.

(** What a reconnect asks for: the rest of the resource, if the server announced that it
    supports ranges (an Accept-Ranges header with a value other than "none"), and the whole
    resource otherwise. *)
Theorem C44_request : forall client s pos r s' reqs,
  http_reconnect client s pos = (r, s', reqs) ->
  (announces_ranges s ->
     (reqs = [] /\ hs_content_length s = Some pos) \/
     exists h, reqs = [HGetRange h] /\ parse_range h = Some (pos, None)) /\
  (~ announces_ranges s -> reqs = [HGet]).
Proof.
  intros client s pos r s' reqs H. unfold http_reconnect, supports_range_request in H.
  destruct (hs_accept_ranges s) as [v|] eqn:E.
  - destruct (String.eqb_spec v "none") as [Ev|Ev]; cbn [negb] in H.
    + split; [intros (v' & F & G); congruence|]. intros _.
      destruct (client HGet); injection H as <- <- <-; reflexivity.
    + split; [|intros F; exfalso; apply F; exists v; auto]. intros _.
      exact (header_of_seek client s pos None r s' reqs I H).
  - split; [intros (v' & F & G); congruence|]. intros _.
    destruct (client HGet); injection H as <- <- <-; reflexivity.
Qed.

(** Missing with respect to C44: servers that do not announce range support, and servers
    that announce it and ignore the header. *)
Theorem C44_reconnect_partial : forall resource ranges s pos,
  http_reachable (range_server resource (Some ranges)) s -> ranges <> "none" ->
  exists r s' reqs,
    http_reconnect (range_server resource (Some ranges)) s pos = (r, s', reqs) /\
    ((pos <= N.of_nat (List.length resource))%N ->
       r = Ok tt /\ hs_body s' = skipn (N.to_nat pos) resource) /\
    ((N.of_nat (List.length resource) < pos)%N -> r = Err EOther /\ s' = s).
Proof.
  intros resource ranges s pos Hs Hn. destruct (range_server_meta _ _ _ Hs) as [Hc Ha].
  unfold http_reconnect, supports_range_request. rewrite Ha.
  destruct (String.eqb_spec ranges "none") as [X|_]; [contradiction|]. cbn [negb].
  destruct (N.lt_trichotomy pos (N.of_nat (List.length resource))) as [L|[E|G]].
  - destruct (seek_range_server _ _ _ _ None Hs L I) as [h H]. rewrite H.
    eexists. eexists. eexists. split; [reflexivity|]. split; [intros _; split; reflexivity|lia].
  - destruct (C43_seek_to_end (range_server resource (Some ranges)) s pos None) as (s' & H & B);
      [congruence|]. rewrite H. eexists. eexists. eexists. split; [reflexivity|].
    split; [|lia]. intros _. split; [reflexivity|]. rewrite B, E, Nat2N.id, skipn_all. reflexivity.
  - destruct (seek_range_beyond _ _ _ _ None Hs G I) as [h H]. rewrite H.
    eexists. eexists. eexists. split; [reflexivity|]. split; [lia|intros _; split; reflexivity].
Qed.

Example C44_request_case : exists s s' reqs,
  http_new (range_server demo (Some "none")) = inl s /\ ~ announces_ranges s /\
  http_reconnect (range_server demo (Some "none")) s 10 = (Ok tt, s', reqs) /\ reqs = [HGet].
Proof.
  eexists. eexists. eexists. split; [reflexivity|].
  split; [intros (v & [= <-] & F); apply F; reflexivity|]. split; reflexivity.
Qed.

Example C44_case : exists s s' reqs,
  http_reachable (range_server demo (Some "bytes")) s /\
  http_reconnect (range_server demo (Some "bytes")) s 10 = (Ok tt, s', reqs) /\
  hs_body s' = [x0b; x0c] /\ reqs = [HGetRange "bytes=10-"].
Proof.
  eexists. eexists. eexists. split; [apply hr_new; reflexivity|].
  split; [vm_compute; reflexivity|split; reflexivity].
Qed.

Print Assumptions C42_header_round_trip.
Print Assumptions C42_request_sent.
Print Assumptions C42_inverted_is_invalid.
Print Assumptions C43_seek_delivers.
Print Assumptions C43_seek_to_end.
Print Assumptions C43_past_end_fails.
Print Assumptions C43_failures_reported.
Print Assumptions C43_created.
Print Assumptions C44_request.
Print Assumptions C44_restart_refuted.
Print Assumptions C44_error_page_refuted.
Print Assumptions C44_reconnect_partial.

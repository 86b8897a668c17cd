(** * C92: the content type reported for an HTTP stream. *)

From Coq Require Import List Arith ZArith Bool String Ascii Lia.
From Verif Require Import Base Http HttpRaw HttpRawSpec PropHttpRaw ContentType ContentTypeSpec.
Import ListNotations.
Local Open Scope string_scope.

Lemma split_first_app p a b : all_chars (fun c => negb (p c)) a = true ->
  split_first p (a ++ b) = (a ++ fst (split_first p b), snd (split_first p b)).
Proof.
  induction a as [|c a IH]; cbn [all_chars append split_first]; intros H.
  - destruct (split_first p b); reflexivity.
  - apply andb_prop in H as [H1 H2]. destruct (p c); [discriminate|]. rewrite (IH H2). reflexivity.
Qed.

Lemma split_first_eq p s : s = fst (split_first p s) ++ snd (split_first p s).
Proof.
  induction s as [|c s IH]; [reflexivity|]. cbn [split_first]. destruct (p c); [reflexivity|].
  destruct (split_first p s); cbn in *. congruence.
Qed.

Lemma split_first_stops p s : match snd (split_first p s) with String c _ => p c = true | EmptyString => True end.
Proof.
  induction s as [|c s IH]; [exact I|]. cbn [split_first]. destruct (p c) eqn:E; [exact E|].
  destruct (split_first p s); exact IH.
Qed.

Lemma append_nil s : s ++ "" = s.
Proof. induction s as [|c s IH]; [reflexivity|]. cbn. rewrite IH. reflexivity. Qed.

Lemma append_assoc (a b c : string) : (a ++ b) ++ c = a ++ b ++ c.
Proof. induction a as [|x a IH]; [reflexivity|]. cbn. rewrite IH. reflexivity. Qed.

Lemma split_plus_some s : forall a b, split_plus s = Some (a, b) -> s = a ++ "+" ++ b.
Proof.
  induction s as [|c s IH]; cbn [split_plus]; intros a b H; [discriminate|].
  destruct (split_plus s) as [[a' b']|].
  - injection H as <- <-. cbn. rewrite (IH a' b' eq_refl). reflexivity.
  - destruct (Ascii.eqb_spec c "+"); [|discriminate]. injection H as <- <-. subst. reflexivity.
Qed.

Lemma split_plus_none s : all_chars (fun c => negb (Ascii.eqb c "+")) s = true -> split_plus s = None.
Proof.
  induction s as [|c s IH]; cbn [split_plus all_chars]; intros H; [reflexivity|].
  apply andb_prop in H as [H1 H2]. rewrite (IH H2). destruct (Ascii.eqb c "+"); [discriminate|reflexivity].
Qed.

Lemma all_chars_weaken (p q : ascii -> bool) s : (forall c, p c = true -> q c = true) ->
  all_chars p s = true -> all_chars q s = true.
Proof.
  intros H. induction s as [|c s IH]; cbn; intros A; [reflexivity|].
  apply andb_prop in A as [A1 A2]. rewrite (H _ A1), (IH A2). reflexivity.
Qed.

Lemma ascii_cases (q : ascii -> bool) :
  forallb (fun n => q (ascii_of_nat n)) (seq 0 256) = true -> forall c, q c = true.
Proof.
  intros H c. rewrite forallb_forall in H. rewrite <- (ascii_nat_embedding c). apply H.
  apply in_seq. pose proof (nat_ascii_bounded c). lia.
Qed.

Lemma in_chars c s : In c (chars s) <-> existsb (Ascii.eqb c) (chars s) = true.
Proof.
  rewrite existsb_exists. split; [intros H; exists c; split; [exact H|apply Ascii.eqb_refl]|].
  intros (x & H & E). apply Ascii.eqb_eq in E. subst. exact H.
Qed.

Lemma alnum_spec c : In c (chars letters_and_digits) <-> alnum c = true.
Proof.
  rewrite in_chars.
  assert (E : forall c, Bool.eqb (existsb (Ascii.eqb c) (chars letters_and_digits)) (alnum c) = true)
    by (apply ascii_cases; vm_compute; reflexivity).
  specialize (E c). apply Bool.eqb_prop in E. rewrite E. reflexivity.
Qed.

Lemma name_char_spec c : In c (chars name_characters) <-> name_char c = true.
Proof.
  rewrite in_chars.
  assert (E : forall c, Bool.eqb (existsb (Ascii.eqb c) (chars name_characters)) (name_char c) = true)
    by (apply ascii_cases; vm_compute; reflexivity).
  specialize (E c). apply Bool.eqb_prop in E. rewrite E. reflexivity.
Qed.

Lemma all_chars_spec p s : all_chars p s = true <-> forall x, In x (chars s) -> p x = true.
Proof.
  induction s as [|c s IH]; cbn [all_chars chars]; [split; [intros _ x []|reflexivity]|].
  rewrite andb_true_iff, IH. split.
  - intros [A B] x [<-|H]; auto.
  - intros H. split; [apply H; left; reflexivity|]. intros x Hx. apply H. right. exact Hx.
Qed.

(** [name]s of the specification are what the parser accepts as names. *)
Lemma name_spec s : name s <-> name_ok s = true.
Proof.
  unfold name. destruct s as [|c r]; cbn [chars name_ok]; [split; [contradiction|discriminate]|].
  rewrite andb_true_iff, alnum_spec, all_chars_spec.
  split; intros [A B]; (split; [exact A|]); intros x Hx; apply name_char_spec; auto.
Qed.

Lemma parameters_spec s : parameters s <-> fst (split_first ends_name s) = "".
Proof.
  destruct s as [|c s]; cbn [parameters split_first]; [split; auto|].
  assert (E : ends_name c = existsb (Ascii.eqb c) [";"; " "; "009"]%char).
  { unfold ends_name. cbn [existsb]. rewrite !orb_assoc, orb_false_r. reflexivity. }
  assert (F : In c [";"; " "; "009"]%char <-> existsb (Ascii.eqb c) [";"; " "; "009"]%char = true).
  { rewrite existsb_exists. split; [intros H; exists c; split; [exact H|apply Ascii.eqb_refl]|].
    intros (x & H & K). apply Ascii.eqb_eq in K. subst. exact H. }
  rewrite F, <- E. destruct (ends_name c); [split; auto|]. destruct (split_first ends_name s).
  split; discriminate.
Qed.

Lemma name_no (q : ascii -> bool) s : (forall c, name_char c = true -> q c = true) -> name s ->
  all_chars q s = true.
Proof.
  intros H N. apply name_spec in N. destruct s as [|c r]; [reflexivity|]. cbn [name_ok] in N.
  apply andb_prop in N as [A B]. cbn [all_chars]. rewrite (H c), (all_chars_weaken _ _ _ H B); [reflexivity|].
  unfold name_char. rewrite A. reflexivity.
Qed.

Lemma name_plain (q : ascii -> bool) :
  forallb (fun n => implb (name_char (ascii_of_nat n)) (q (ascii_of_nat n))) (seq 0 256) = true ->
  forall s, name s -> all_chars q s = true.
Proof.
  intros H s. apply name_no. intros c Hc.
  pose proof (ascii_cases (fun c => implb (name_char c) (q c)) H c) as K. cbn beta in K.
  rewrite Hc in K. exact K.
Qed.

Lemma parse_names params_ok t u tail : name t -> name u -> parameters tail -> params_ok tail = true ->
  media_parse params_ok (t ++ "/" ++ u ++ tail) = Some (mkMedia t u None).
Proof.
  intros Ht Hu Hp Ho. unfold media_parse.
  rewrite split_first_app by (apply name_plain; [vm_compute; reflexivity|exact Ht]).
  cbn [append split_first is_slash Ascii.eqb Bool.eqb fst snd].
  rewrite split_first_app by (apply name_plain; [vm_compute; reflexivity|exact Hu]).
  pose proof Hp as Hp'. apply parameters_spec in Hp'. pose proof (split_first_eq ends_name tail) as E.
  rewrite Hp' in E |- *. cbn [append] in E. rewrite <- E.
  rewrite !append_nil. rewrite (proj1 (name_spec t) Ht), Ho. cbn [andb].
  rewrite split_plus_none by (apply name_plain; [vm_compute; reflexivity|exact Hu]).
  rewrite (proj1 (name_spec u) Hu). reflexivity.
Qed.

(** A header of the form [type/subtype], with or without parameters, is reported as it is.
    [_partial]: names with a plus sign are missing, see C92_suffix_refuted. *)
Theorem C92_reported_partial : forall params_ok r t u tail,
  first_value (raw_headers r) "content-type" (t ++ "/" ++ u ++ tail) ->
  is_text (t ++ "/" ++ u ++ tail) -> name t -> name u -> parameters tail -> params_ok tail = true ->
  content_type params_ok r = Some (t, u).
Proof.
  intros params_ok r t u tail Hf Hi Ht Hu Hp Ho. unfold content_type.
  rewrite (proj2 (header_str_spec _ _ _) (conj Hf Hi)), parse_names; auto.
Qed.

(** Nothing else is reported: the first field of that name starts with the type and the
    subtype, both are well-formed, and what follows is nothing, a parameter or a suffix. *)
Theorem C92_from_header : forall params_ok r t u,
  content_type params_ok r = Some (t, u) ->
  name t /\ name u /\
  exists rest, first_value (raw_headers r) "content-type" (t ++ "/" ++ u ++ rest) /\
    (parameters rest \/ exists suffix rest', rest = "+" ++ suffix ++ rest' /\ name suffix /\ parameters rest').
Proof.
  intros params_ok r t u H. unfold content_type in H.
  destruct (get_header_str (raw_headers r) "content-type") as [v|] eqn:E; [|discriminate].
  apply header_str_spec in E. destruct E as [Hf _].
  destruct (media_parse params_ok v) as [m|] eqn:Em; [|discriminate]. injection H as <- <-.
  unfold media_parse in Em.
  pose proof (split_first_eq is_slash v) as E1. pose proof (split_first_stops is_slash v) as E2.
  destruct (split_first is_slash v) as [ty r1]. cbn [fst snd] in *. destruct r1 as [|c r1]; [discriminate|].
  unfold is_slash in E2. apply Ascii.eqb_eq in E2. subst c.
  pose proof (split_first_eq ends_name r1) as E3. pose proof (split_first_stops ends_name r1) as E4.
  destruct (split_first ends_name r1) as [sub tail]. cbn [fst snd] in *.
  destruct (name_ok ty) eqn:Et; [|discriminate]. cbn [andb] in Em.
  destruct (params_ok tail); [|discriminate].
  assert (Hp : parameters tail).
  { destruct tail as [|c tail]; [exact I|]. cbn [parameters]. unfold ends_name in E4.
    rewrite !orb_true_iff, !Ascii.eqb_eq in E4. cbn. destruct E4 as [[->| ->]| ->]; auto. }
  destruct (split_plus sub) as [[a b]|] eqn:Es.
  - destruct (name_ok a) eqn:Ea; [|discriminate]. destruct (name_ok b) eqn:Eb; [|discriminate].
    injection Em as <-. cbn [mt_ty mt_subty]. apply split_plus_some in Es.
    split; [apply name_spec; exact Et|]. split; [apply name_spec; exact Ea|].
    exists ("+" ++ b ++ tail). split.
    + replace (a ++ "+" ++ b ++ tail) with r1; [cbn in E1 |- *; rewrite <- E1; exact Hf|].
      rewrite E3, Es, !append_assoc. reflexivity.
    + right. exists b, tail. split; [reflexivity|]. split; [apply name_spec; exact Eb|exact Hp].
  - destruct (name_ok sub) eqn:Eu; [|discriminate]. injection Em as <-. cbn [mt_ty mt_subty].
    split; [apply name_spec; exact Et|]. split; [apply name_spec; exact Eu|].
    exists tail. split; [|left; exact Hp]. rewrite <- E3. cbn. rewrite <- E1. exact Hf.
Qed.

(** The structured suffix of a subtype is lost: [image/svg+xml] is reported as [image/svg],
    and cannot be told from it. *)
Theorem C92_suffix_refuted : forall params_ok, params_ok "" = true -> exists r v t u,
  first_value (raw_headers r) "content-type" v /\ is_text v /\ v = t ++ "/" ++ u /\ name t /\
  u = "svg+xml" /\ content_type params_ok r = Some (t, "svg").
Proof.
  intros params_ok H. exists (mkRaw 200 [("Content-Type", "image/svg+xml")] []), "image/svg+xml", "image", "svg+xml".
  split; [apply header_get_spec; reflexivity|]. split; [apply visible_text; reflexivity|].
  split; [reflexivity|]. split; [apply name_spec; reflexivity|]. split; [reflexivity|].
  unfold content_type. cbn -[media_parse]. unfold media_parse. cbn. rewrite H. reflexivity.
Qed.

(** Two fields of that name, odd case, parameters. *)
Example C92_case :
  let r := mkRaw 200 [("Server", "x"); ("CONTENT-type", "Audio/mpeg; q=1"); ("Content-Type", "text/html")] [] in
  first_value (raw_headers r) "content-type" ("Audio" ++ "/" ++ "mpeg" ++ "; q=1") /\
  is_text ("Audio" ++ "/" ++ "mpeg" ++ "; q=1") /\ name "Audio" /\ name "mpeg" /\ parameters "; q=1" /\
  content_type (fun _ => true) r = Some ("Audio", "mpeg") /\
  content_type (fun _ => true) (mkRaw 200 [("Content-Type", "mp3")] []) = None.
Proof.
  cbv zeta. split; [apply header_get_spec; reflexivity|]. split; [apply visible_text; reflexivity|].
  split; [apply name_spec; reflexivity|]. split; [apply name_spec; reflexivity|].
  split; [cbn; auto|]. split; reflexivity.
Qed.

Print Assumptions C92_reported_partial.
Print Assumptions C92_from_header.
Print Assumptions C92_suffix_refuted.

(** * Properties of the registry (C45-C47, C59). *)

From Coq Require Import List Arith Lia Bool String.
From Verif Require Import Base Registry RegistrySpec RegistryFacts.
Import ListNotations.
Local Open Scope string_scope.

(** ** C45: entries are tried by priority, then insertion order *)

(** [es] is the list of entries in the order they were added. *)
Theorem C45_selected_first : forall U es (it : input_type U) e i,
  find_match (registry es) it = Some (e, i) ->
  exists n, nth_error es n = Some e /\ entry_matches e it /\
            forall m e', nth_error es m = Some e' -> entry_matches e' it -> no_later n e m e'.
Proof. intros U es it e i H. exact (proj2 (find_match_first _ _ _ _ H)). Qed.

Theorem C45_none_iff : forall U es (it : input_type U),
  find_match (registry es) it = None <-> forall e, In e es -> ~ entry_matches e it.
Proof. intros U. exact find_match_none_iff. Qed.

(** Four entries; the two matching ones of smallest priority are the second and the fourth. *)
Definition c45_entries : list entry :=
  [mkEntry 9 [rule_any_http] 0; mkEntry 3 [rule_string (MString "x"); rule_any_http] 1;
   mkEntry 1 [rule_prefix "yt:"] 2; mkEntry 3 [rule_any_url] 3].

Example C45_case :
  option_map (fun r => e_handler (fst r))
    (find_match (U := mini_url) (registry c45_entries) (IRaw "https://a.b/c")) = Some 1 /\
  entry_matches (U := mini_url) (mkEntry 3 [rule_any_url] 3) (IRaw "https://a.b/c") /\
  find_match (U := mini_url) (registry c45_entries) (IRaw "zz") = None.
Proof.
  split; [reflexivity|split; [|reflexivity]].
  exists rule_any_url. split; [left; reflexivity|]. cbn.
  exists (SUrl (U := mini_url) ("https", "a.b", "/c")). split; [reflexivity|split; exact I].
Qed.

(** ** C46: prefixes are stripped exactly once *)

(** The handler of the selected entry gets the prefix and what follows it if one of its
    prefix rules applies, else the whole input and no prefix. *)
Theorem C46_stripped_once : forall U es s e (i : input U),
  find_match (registry es) (IRaw s) = Some (e, i) ->
  (exists p rest, In (RPrefix p) (e_rules e) /\ s = p ++ rest /\ in_prefix i = Some p /\
                  understood rest (in_source i)) \/
  ((forall p rest, In (RPrefix p) (e_rules e) -> s <> p ++ rest) /\
   in_prefix i = None /\ understood s (in_source i)).
Proof.
  intros U es s e i H. apply try_entry_raw. exact (proj1 (find_match_first _ _ _ _ H)).
Qed.

(** [into_raw] does not give back the original when the source is a URL in a spelling
    the URL library normalises: the "/" of an empty path is added. *)
Theorem C46_into_raw_refuted : exists es s e (i : input mini_url),
  find_match (registry es) (IRaw s) = Some (e, i) /\ in_prefix i = Some "get:" /\ into_raw i <> s.
Proof.
  exists [mkEntry 0 [rule_prefix "get:"] 0]. exists "get:http://a.b". eexists. eexists.
  split; [vm_compute; reflexivity|]. split; [reflexivity|vm_compute; discriminate].
Qed.

(** Missing with respect to C46: sources that are URLs in a non-normalised spelling. *)
Theorem C46_into_raw_partial : forall U es s e (i : input U),
  find_match (registry es) (IRaw s) = Some (e, i) ->
  (forall t u, url_parse U t = Some u -> in_source i = SUrl u -> url_show U u = t) ->
  into_raw i = s.
Proof.
  intros U es s e i H. eapply into_raw_restores. exact (proj1 (find_match_first _ _ _ _ H)).
Qed.

(** The prefix occurs twice; only the first occurrence goes away. *)
Example C46_case : exists e,
  let i := mkInput (U := mini_url) (Some "yt:") (SString "yt:abc") in
  find_match (registry [mkEntry 4 [rule_any_url; rule_prefix "v:"; rule_prefix "yt:"] 7])
             (IRaw "yt:yt:abc") = Some (e, i) /\ into_raw i = "yt:yt:abc".
Proof. eexists. split; vm_compute; reflexivity. Qed.

(** ** C47: matching a parsed input again *)

(** Another entry of smaller priority with a rule for the stripped text takes over. *)
Theorem C47_refuted : exists es s e (i : input mini_url) e' i',
  find_match (registry es) (IRaw s) = Some (e, i) /\
  find_match (registry es) (IParsed i) = Some (e', i') /\ e_handler e <> e_handler e'.
Proof.
  exists [mkEntry 1 [rule_string (MString "song")] 0; mkEntry 2 [rule_prefix "yt:"] 1].
  exists "yt:song". do 4 eexists.
  split; [vm_compute; reflexivity|split; [vm_compute; reflexivity|discriminate]].
Qed.

(** Missing with respect to C47: inputs matched through a prefix rule when another entry of
    no larger priority has a rule that accepts the stripped source. *)
Theorem C47_partial : forall U es s e (i : input U),
  find_match (registry es) (IRaw s) = Some (e, i) ->
  (in_prefix i = None \/
   forall x, In x es -> x <> e -> e_priority x <= e_priority e ->
             forall r, In r (e_rules x) -> ~ accepts_source r (in_source i)) ->
  find_match (registry es) (IParsed i) = Some (e, i).
Proof.
  intros U es s e i H Hc. eapply parsed_again; [apply registry_sorted|exact H|].
  destruct Hc as [Hc|Hc]; [left; exact Hc|right]. intros x Hx. apply Hc, registry_In, Hx.
Qed.

Example C47_case : exists e (i : input mini_url),
  let es := [mkEntry 2 [rule_prefix "yt:"] 1; mkEntry 3 [rule_any_string] 0] in
  find_match (registry es) (IRaw "yt:song") = Some (e, i) /\
  (forall x, In x es -> x <> e -> e_priority x <= e_priority e ->
     forall r, In r (e_rules x) -> ~ accepts_source r (in_source i)) /\
  find_match (registry es) (IParsed i) = Some (e, i) /\ e_handler e = 1.
Proof.
  eexists. eexists. split; [vm_compute; reflexivity|]. split; [|split; reflexivity].
  intros x [<-|[<-|[]]] Hn Hp; [contradiction|cbn in Hp; lia].
Qed.

(** ** C59: the rule constructors accept what their documentation says *)

Lemma http_regex_spec s : http_regex s = true <-> s = "http" \/ s = "https".
Proof. unfold http_regex. rewrite orb_true_iff, !String.eqb_eq. tauto. Qed.

Lemma constructors_spec : forall U (src : source U) (m md : matcher),
  (accepts_source rule_any_string src <-> exists s, src = SString s) /\
  (accepts_source (rule_string m) src <-> exists s, src = SString s /\ matcher_accepts m s) /\
  (accepts_source rule_any_url src <-> exists u, src = SUrl u) /\
  (accepts_source (rule_url_scheme m) src <->
     exists u, src = SUrl u /\ matcher_accepts m (url_scheme U u)) /\
  (accepts_source rule_any_http src <->
     exists u, src = SUrl u /\ (url_scheme U u = "http" \/ url_scheme U u = "https")) /\
  (accepts_source (rule_url_domain m) src <->
     exists u d, src = SUrl u /\ url_domain U u = Some d /\ matcher_accepts m d) /\
  (accepts_source (rule_http_domain m) src <->
     exists u d, src = SUrl u /\ (url_scheme U u = "http" \/ url_scheme U u = "https") /\
                 url_domain U u = Some d /\ matcher_accepts m d) /\
  (accepts_source (rule_url m md) src <->
     exists u d, src = SUrl u /\ matcher_accepts m (url_scheme U u) /\
                 url_domain U u = Some d /\ matcher_accepts md d).
Proof.
  intros U src m md.
  destruct src as [u|s]; cbn [accepts_source rule_any_string rule_string rule_any_url
    rule_url_scheme rule_any_http rule_url_domain rule_http_domain rule_url condition_accepts].
  - repeat split;
      repeat match goal with
      | |- _ -> _ => intro
      | H : exists _, _ |- _ => destruct H
      | H : _ /\ _ |- _ => destruct H
      | H : SUrl _ = SUrl _ |- _ => injection H as ->
      | H : SUrl _ = SString _ |- _ => discriminate H
      | H : Some _ = Some _ |- _ => injection H as ->
      | H : False |- _ => destruct H
      | H : matcher_accepts (MRegex http_regex) _ |- _ => apply http_regex_spec in H
      | |- matcher_accepts (MRegex http_regex) _ => apply http_regex_spec
      | |- exists _, _ => eexists
      | |- _ /\ _ => split
      end; try reflexivity; try eassumption; try exact I.
  - repeat split;
      repeat match goal with
      | |- _ -> _ => intro
      | H : exists _, _ |- _ => destruct H
      | H : _ /\ _ |- _ => destruct H
      | H : SString _ = SString _ |- _ => injection H as ->
      | H : SString _ = SUrl _ |- _ => discriminate H
      | H : Some _ = Some _ |- _ => injection H as ->
      | H : False |- _ => destruct H
      | |- exists _, _ => eexists
      | |- _ /\ _ => split
      end; try reflexivity; try eassumption; try exact I.
Qed.

(** A registry with this one rule finds a match for the source. *)
Definition selected {U} (r : rule) (src : source U) : Prop :=
  exists x, find_match (registry [mkEntry 0 [r] 0]) (IParsed (mkInput None src)) = Some x.

Lemma selected_accepts : forall U r (it : input_type U),
  (exists x, find_match (registry [mkEntry 0 [r] 0]) it = Some x) <-> rule_accepts r it.
Proof.
  intros U r it. pose proof (C45_none_iff U [mkEntry 0 [r] 0] it) as K.
  destruct (find_match _ it) as [x|] eqn:E.
  - split; [intros _|eauto]. pose proof E as E'. destruct x as [e i].
    apply C45_selected_first in E' as (n & Hn & (r' & Hr & Ha) & _).
    destruct n as [|[|n]]; cbn in Hn; try discriminate. injection Hn as <-.
    destruct Hr as [<-|[]]. exact Ha.
  - split; [intros [x X]; discriminate|]. intros Ha. exfalso.
    apply (proj1 K eq_refl (mkEntry 0 [r] 0)); [left; reflexivity|]. exists r. split; [left; reflexivity|exact Ha].
Qed.

Theorem C59_constructors : forall U (src : source U) (m md : matcher),
  (selected rule_any_string src <-> exists s, src = SString s) /\
  (selected (rule_string m) src <-> exists s, src = SString s /\ matcher_accepts m s) /\
  (selected rule_any_url src <-> exists u, src = SUrl u) /\
  (selected (rule_url_scheme m) src <->
     exists u, src = SUrl u /\ matcher_accepts m (url_scheme U u)) /\
  (selected rule_any_http src <->
     exists u, src = SUrl u /\ (url_scheme U u = "http" \/ url_scheme U u = "https")) /\
  (selected (rule_url_domain m) src <->
     exists u d, src = SUrl u /\ url_domain U u = Some d /\ matcher_accepts m d) /\
  (selected (rule_http_domain m) src <->
     exists u d, src = SUrl u /\ (url_scheme U u = "http" \/ url_scheme U u = "https") /\
                 url_domain U u = Some d /\ matcher_accepts m d) /\
  (selected (rule_url m md) src <->
     exists u d, src = SUrl u /\ matcher_accepts m (url_scheme U u) /\
                 url_domain U u = Some d /\ matcher_accepts md d).
Proof.
  assert (K : forall U r (src : source U), (forall p, r <> RPrefix p) -> selected r src <-> accepts_source r src).
  { intros U r src Hp. unfold selected. rewrite selected_accepts. cbn [rule_accepts in_prefix in_source].
    destruct r as [p| |]; [destruct (Hp p eq_refl)|reflexivity|reflexivity]. }
  intros U src m md. rewrite !K by discriminate. apply constructors_spec.
Qed.

(** Together the two "any" rules accept every raw input. *)
Theorem C59_any_accepts_everything : forall U (s : string),
  (exists x, find_match (U := U) (registry [mkEntry 0 [rule_any_string] 0]) (IRaw s) = Some x) \/
  (exists x, find_match (U := U) (registry [mkEntry 0 [rule_any_url] 0]) (IRaw s) = Some x).
Proof.
  intros U s. rewrite !selected_accepts. cbn. destruct (url_parse U s) as [u|] eqn:E.
  - right. exists (SUrl u). split; [exact E|split; exact I].
  - left. exists (SString s). split; [split; [reflexivity|exact E]|exact I].
Qed.

(** A prefix rule accepts exactly the texts that start with it, and the rest of the text is
    what the handler gets. *)
Theorem C59_prefix : forall U p s,
  ((exists x, find_match (U := U) (registry [mkEntry 0 [rule_prefix p] 0]) (IRaw s) = Some x) <->
   exists rest, s = p ++ rest) /\
  (forall e i, find_match (U := U) (registry [mkEntry 0 [rule_prefix p] 0]) (IRaw s) = Some (e, i) ->
     exists rest, s = p ++ rest /\ in_prefix i = Some p /\ understood rest (in_source i)).
Proof.
  intros U p s. split; [apply selected_accepts|]. intros e i H.
  pose proof (C45_selected_first _ _ _ _ _ H) as (n & Hn & (r & Hr & Ha) & _).
  destruct n as [|[|n]]; cbn in Hn; try discriminate. injection Hn as <-.
  destruct Hr as [<-|[]]. destruct Ha as [rest Hs].
  destruct (C46_stripped_once _ _ _ _ _ H) as [(q & r & [Hq|[]] & E & Hi & Hu)|(K & _)].
  - injection Hq as ->. eauto.
  - exfalso. exact (K p rest (or_introl eq_refl) Hs).
Qed.

Example C59_case :
  map (fun r => match find_match (U := mini_url) [mkEntry 0 [r] 0] (IRaw "https://a.b/c") with
                | Some _ => true | None => false end)
    [rule_any_string; rule_any_url; rule_any_http; rule_url_scheme (MString "ftp");
     rule_http_domain (MString "a.b"); rule_url_domain (MString "a.c"); rule_prefix "http";
     rule_string (MString "https://a.b/c")]
  = [false; true; true; false; true; false; true; false].
Proof. reflexivity. Qed.

(** ** C85: handlers get the kind of input their rules ask for *)

Lemma raw_case : forall U es s e (i : input U),
  find_match (registry es) (IRaw s) = Some (e, i) ->
  (forall r, In r (e_rules e) -> ~ prefix_rule r) ->
  in_prefix i = None /\ understood s (in_source i).
Proof.
  intros U es s e i H Hr. destruct (C46_stripped_once _ _ _ _ _ H) as [(p & rest & Hp & _)|(_ & A)].
  - exfalso. exact (Hr _ Hp I).
  - exact A.
Qed.

Lemma understood_unique : forall U s (a b : source U), understood s a -> understood s b -> a = b.
Proof.
  intros U s [u|t] [v|w]; cbn; [intros A B|intros A [B C]|intros [B C] A|intros [A B] [C D]];
    congruence.
Qed.

Lemma accepted_source : forall U es (it : input_type U) e i,
  find_match (registry es) it = Some (e, i) ->
  (forall r, In r (e_rules e) -> ~ prefix_rule r) ->
  exists r, In r (e_rules e) /\ accepts_source r (in_source i).
Proof.
  intros U es it e i H Hr. destruct (C45_selected_first _ _ _ _ _ H) as (n & _ & (r & Hin & Ha) & _).
  exists r. split; [exact Hin|]. destruct it as [s|j].
  - destruct (raw_case _ _ _ _ _ H Hr) as [_ Hu].
    destruct r as [p|t|sch dom]; [exfalso; exact (Hr _ Hin I)| |];
      destruct Ha as (src & Hs & Ha); rewrite (understood_unique _ _ _ _ Hu Hs); exact Ha.
  - assert (E : i = j); [|subst j; destruct r; [exfalso; exact (Hr _ Hin I)|exact Ha|exact Ha]].
    apply find_match_first in H. destruct H as [H _]. unfold try_entry in H. cbn in H.
    destruct (match_parsed_prefix U (e_rules e) j); [congruence|].
    destruct (match_source (e_rules e) (in_source j)); congruence.
Qed.

(** A handler all of whose rules are URL rules always gets a URL, so [into_url] does not
    panic, and the URL is one that its rules accept; for raw input it is the one that the
    text denotes. *)
Theorem C85_url_handler : forall U es (it : input_type U) e i,
  find_match (registry es) it = Some (e, i) ->
  (forall r, In r (e_rules e) -> url_rule r) ->
  exists u, into_url (in_source i) = Some u /\ try_into_string (in_source i) = None /\
    (exists r, In r (e_rules e) /\ accepts_source r (SUrl u)) /\
    (forall s, it = IRaw s -> in_prefix i = None /\ url_parse U s = Some u).
Proof.
  intros U es it e i H Hr.
  assert (Hp : forall r, In r (e_rules e) -> ~ prefix_rule r).
  { intros r K. specialize (Hr r K). destruct r; cbn in *; tauto. }
  destruct (accepted_source _ _ _ _ _ H Hp) as (r & Hin & Ha).
  specialize (Hr r Hin). destruct r; try contradiction.
  destruct (in_source i) as [u|s] eqn:E; [|contradiction]. exists u.
  split; [reflexivity|split; [reflexivity|split; [eauto|]]].
  intros s ->. destruct (raw_case _ _ _ _ _ H Hp) as [A B]. rewrite E in B. auto.
Qed.

(** A handler all of whose rules are string rules always gets a string that is not a URL. *)
Theorem C85_string_handler : forall U es (it : input_type U) e i,
  find_match (registry es) it = Some (e, i) ->
  (forall r, In r (e_rules e) -> string_rule r) ->
  exists t, into_string (in_source i) = Some t /\ try_into_url (in_source i) = None /\
    (exists r, In r (e_rules e) /\ accepts_source r (SString (U := U) t)) /\
    (forall s, it = IRaw s -> t = s /\ url_parse U s = None).
Proof.
  intros U es it e i H Hr.
  assert (Hp : forall r, In r (e_rules e) -> ~ prefix_rule r).
  { intros r K. specialize (Hr r K). destruct r; cbn in *; tauto. }
  destruct (accepted_source _ _ _ _ _ H Hp) as (r & Hin & Ha).
  specialize (Hr r Hin). destruct r; try contradiction.
  destruct (in_source i) as [u|t'] eqn:E; [contradiction|]. exists t'.
  split; [reflexivity|split; [reflexivity|split; [eauto|]]].
  intros s ->. destruct (raw_case _ _ _ _ _ H Hp) as [A B]. rewrite E in B. exact B.
Qed.

(** With a prefix rule the handler may get either, whatever its other rules are. *)
Theorem C85_prefix_refuted : exists es s e (i : input mini_url) s' e' (i' : input mini_url),
  (forall r, In r (e_rules e) -> url_rule r \/ prefix_rule r) /\
  find_match (registry es) (IRaw s) = Some (e, i) /\ into_url (in_source i) = None /\
  find_match (registry es) (IRaw s') = Some (e', i') /\ e' = e /\ into_url (in_source i') <> None.
Proof.
  exists [mkEntry 1 [rule_any_http; rule_prefix "get:"] 0]. exists "get:song". do 2 eexists.
  exists "get:http://a.b/c". do 2 eexists.
  split; [|split; [vm_compute; reflexivity|split; [reflexivity|split; [vm_compute; reflexivity|
    split; [reflexivity|vm_compute; discriminate]]]]].
  intros r [<-|[<-|[]]]; [left|right]; exact I.
Qed.

(** Exactly one of the conversions works, and both texts are the same; with a prefix rule
    the source is how the text behind the prefix is understood.  Missing with respect to
    C85: which one it is when a prefix rule was used. *)
Theorem C85_partial : forall U es s e (i : input U),
  find_match (registry es) (IRaw s) = Some (e, i) ->
  ((exists u, into_url (in_source i) = Some u /\ into_string (in_source i) = None /\
              string_from (in_source i) = url_show U u) \/
   (exists t, into_string (in_source i) = Some t /\ into_url (in_source i) = None /\
              string_from (in_source i) = t)) /\
  (exists p rest, s = p ++ rest /\ (in_prefix i = Some p \/ (in_prefix i = None /\ p = "")) /\
     into_url (in_source i) = url_parse U rest).
Proof.
  intros U es s e i H. split.
  - destruct (in_source i) as [u|t]; [left; exists u|right; exists t]; auto.
  - destruct (C46_stripped_once _ _ _ _ _ H) as [(p & rest & _ & E & Hp & Hu)|(_ & Hp & Hu)].
    + exists p, rest. split; [exact E|split; [auto|]].
      destruct (in_source i); cbn in *; [congruence|destruct Hu; congruence].
    + exists "", s. split; [reflexivity|split; [auto|]].
      destruct (in_source i); cbn in *; [congruence|destruct Hu; congruence].
Qed.

(** An HTTP handler in front of a catch-all for strings, as in the documentation. *)
Example C85_case :
  let es := [mkEntry 1 [rule_any_http; rule_url_scheme (MString "ftp")] 0; mkEntry 2 [rule_any_string] 1] in
  exists e1 i1 e2 i2,
    find_match (U := mini_url) (registry es) (IRaw "ftp://a.b/c") = Some (e1, i1) /\
    (forall r, In r (e_rules e1) -> url_rule r) /\
    into_url (in_source i1) = Some ("ftp", "a.b", "/c") /\
    find_match (U := mini_url) (registry es) (IRaw "a song") = Some (e2, i2) /\
    (forall r, In r (e_rules e2) -> string_rule r) /\
    into_string (in_source i2) = Some "a song".
Proof.
  do 4 eexists. split; [vm_compute; reflexivity|]. split; [intros r [<-|[<-|[]]]; exact I|].
  split; [reflexivity|]. split; [vm_compute; reflexivity|]. split; [intros r [<-|[]]; exact I|].
  reflexivity.
Qed.

Print Assumptions C45_selected_first.
Print Assumptions C45_none_iff.
Print Assumptions C46_stripped_once.
Print Assumptions C46_into_raw_refuted.
Print Assumptions C46_into_raw_partial.
Print Assumptions C47_refuted.
Print Assumptions C47_partial.
Print Assumptions C59_constructors.
Print Assumptions C59_any_accepts_everything.
Print Assumptions C59_prefix.
Print Assumptions C85_url_handler.
Print Assumptions C85_string_handler.
Print Assumptions C85_prefix_refuted.
Print Assumptions C85_partial.

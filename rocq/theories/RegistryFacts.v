(** * Facts about registry matching. *)

From Coq Require Import List Arith Lia Bool String Ascii Sorted.
From Verif Require Import Base Registry RegistrySpec.
Import ListNotations.
Local Open Scope string_scope.

(** ** Prefixes *)

Lemma strip_prefix_spec p : forall s rest, strip_prefix p s = Some rest <-> s = p ++ rest.
Proof.
  induction p as [|a p IH]; intros s rest; cbn.
  - split; congruence.
  - destruct s as [|b s]; [split; discriminate|].
    destruct (Ascii.eqb_spec a b) as [->|N].
    + rewrite IH. split; [intros ->; reflexivity|intros H; injection H as ->; reflexivity].
    + split; [discriminate|intros H; injection H as -> _; contradiction].
Qed.

Lemma remove_first_prefix p rest : remove_first p (p ++ rest) = rest.
Proof.
  assert (E : strip_prefix p (p ++ rest) = Some rest) by (apply strip_prefix_spec; reflexivity).
  destruct (p ++ rest) eqn:Ep; cbn [remove_first]; rewrite E; reflexivity.
Qed.

Lemma prefix_match_some p s rest : prefix_match_input p s = Some rest <-> s = p ++ rest.
Proof.
  unfold prefix_match_input. destruct (strip_prefix p s) as [r|] eqn:E.
  - apply strip_prefix_spec in E. subst s. rewrite remove_first_prefix. split.
    + intros H; injection H as ->; reflexivity.
    + intros H. f_equal. clear -H. induction p as [|a p IH]; [exact H|]. injection H as H. apply IH, H.
  - split; [discriminate|]. intros H. apply strip_prefix_spec in H. congruence.
Qed.

(** ** Rules *)

Lemma is_match_spec m s : is_match m s = true <-> matcher_accepts m s.
Proof. destruct m; cbn; [tauto|]. apply String.eqb_eq. Qed.

Lemma type_matches_spec t v : type_matches t v = true <-> condition_accepts t v.
Proof.
  destruct t as [|m]; cbn; [tauto|]. destruct v as [s|].
  - rewrite is_match_spec. split; [intros H; exists s; auto|intros (x & E & H); congruence].
  - split; [discriminate|intros (x & E & H); discriminate].
Qed.

Lemma match_source_spec {U} rules (src : source U) :
  match_source rules src = true <-> exists r, In r rules /\ accepts_source r src.
Proof.
  induction rules as [|r rules IH]; cbn [match_source].
  { split; [discriminate|intros (r & [] & _)]. }
  destruct r as [p|t|sch dom], src as [u|s].
  1,2,3,6: rewrite IH; split; [intros (r & A & B); exists r; split; [right; exact A|exact B]|
           intros (r & [<-|A] & B); [destruct B|exists r; auto]].
  - rewrite orb_true_iff, type_matches_spec, IH. split.
    + intros [A|(r & A & B)]; [exists (RString t); split; [left; reflexivity|exact A]|
        exists r; split; [right; exact A|exact B]].
    + intros (r & [<-|A] & B); [left; exact B|right; exists r; auto].
  - unfold url_matches. rewrite orb_true_iff, andb_true_iff, !type_matches_spec, IH. split.
    + intros [A|(r & A & B)]; [exists (RUrl sch dom); split; [left; reflexivity|exact A]|
        exists r; split; [right; exact A|exact B]].
    + intros (r & [<-|A] & B); [left; exact B|right; exists r; auto].
Qed.

Lemma match_raw_prefix_some U rules s i : match_raw_prefix U rules s = Some i ->
  exists p rest, In (RPrefix p) rules /\ s = p ++ rest /\
                 i = mkInput (Some p) (source_from U rest).
Proof.
  induction rules as [|r rules IH]; cbn; [discriminate|]. intros H.
  assert (R : match_raw_prefix U rules s = Some i ->
              exists p rest, In (RPrefix p) (r :: rules) /\ s = p ++ rest /\
                 i = mkInput (Some p) (source_from U rest)).
  { intros X. destruct (IH X) as (p & rest & A & B). exists p, rest. split; [right; exact A|exact B]. }
  destruct r as [p|t|sch dom]; [|exact (R H)|exact (R H)].
  destruct (prefix_match_input p s) as [rest|] eqn:E; [|exact (R H)].
  apply prefix_match_some in E. injection H as <-. exists p, rest.
  split; [left; reflexivity|]. auto.
Qed.

Lemma match_raw_prefix_none U rules s : match_raw_prefix U rules s = None ->
  forall p rest, In (RPrefix p) rules -> s <> p ++ rest.
Proof.
  induction rules as [|r rules IH]; cbn; [intros _ p rest []|]. intros H p rest Hin E.
  destruct r as [q|t|sch dom].
  - destruct (prefix_match_input q s) as [x|] eqn:Eq; [discriminate|].
    destruct Hin as [X|Hin]; [|exact (IH H p rest Hin E)].
    injection X as ->. apply (prefix_match_some p s rest) in E. congruence.
  - destruct Hin as [X|Hin]; [discriminate|exact (IH H p rest Hin E)].
  - destruct Hin as [X|Hin]; [discriminate|exact (IH H p rest Hin E)].
Qed.

Lemma match_parsed_prefix_spec {U} rules (i : input U) :
  match_parsed_prefix U rules i = true <-> exists p, In (RPrefix p) rules /\ in_prefix i = Some p.
Proof.
  induction rules as [|r rules IH]; cbn.
  { split; [discriminate|intros (p & [] & _)]. }
  assert (R : (exists p, In (RPrefix p) rules /\ in_prefix i = Some p) ->
              exists p, (r = RPrefix p \/ In (RPrefix p) rules) /\ in_prefix i = Some p).
  { intros (p & A & B). exists p. auto. }
  destruct r as [q|t|sch dom].
  - rewrite orb_true_iff, IH. unfold prefix_matches_parsed. split.
    + intros [H|H]; [|exact (R H)]. destruct (in_prefix i) as [p|] eqn:E; [|discriminate].
      apply String.eqb_eq in H. subst p. exists q. auto.
    + intros (p & [E|A] & B); [|right; exists p; auto]. injection E as ->. left.
      rewrite B. apply String.eqb_refl.
  - rewrite IH. split; [exact R|intros (p & [E|A] & B); [discriminate|exists p; auto]].
  - rewrite IH. split; [exact R|intros (p & [E|A] & B); [discriminate|exists p; auto]].
Qed.

Lemma source_from_understood U s : understood s (source_from U s).
Proof. unfold source_from. destruct (url_parse U s) eqn:E; cbn; auto. Qed.

Lemma understood_unique U s (a : source U) : understood s a -> a = source_from U s.
Proof.
  unfold understood, source_from. destruct a as [u|t].
  - intros ->. reflexivity.
  - intros [-> ->]. reflexivity.
Qed.

(** ** One entry *)

Lemma try_entry_matches {U} e (it : input_type U) :
  (exists i, try_entry e it = Some i) <-> entry_matches e it.
Proof.
  unfold try_entry, entry_matches. destruct it as [s|i0].
  - cbn [parsed_of in_source]. destruct (match_raw_prefix U (e_rules e) s) as [i|] eqn:E.
    + apply match_raw_prefix_some in E. destruct E as (p & rest & A & B & _).
      split; [intros _; exists (RPrefix p); split; [exact A|exists rest; exact B]|eauto].
    + pose proof (match_raw_prefix_none _ _ _ E) as Hn.
      destruct (match_source (e_rules e) (source_from U s)) eqn:M.
      * split; [intros _|eauto]. apply match_source_spec in M. destruct M as (r & A & B).
        exists r. split; [exact A|]. cbn. destruct r as [p|t|sch dom]; [destruct B| |];
          exists (source_from U s); (split; [apply source_from_understood|exact B]).
      * split; [intros [i X]; discriminate X|]. intros (r & A & B).
        exfalso. assert (X : match_source (e_rules e) (source_from U s) = true); [|congruence].
        apply match_source_spec. exists r. split; [exact A|]. cbn in B.
        destruct r as [p|t|sch dom].
        -- destruct B as [rest B]. destruct (Hn p rest A B).
        -- destruct B as (src & Hu & B). rewrite <- (understood_unique _ _ _ Hu). exact B.
        -- destruct B as (src & Hu & B). rewrite <- (understood_unique _ _ _ Hu). exact B.
  - cbn [parsed_of]. destruct (match_parsed_prefix U (e_rules e) i0) eqn:E.
    + apply match_parsed_prefix_spec in E. destruct E as (p & A & B).
      split; [intros _; exists (RPrefix p); split; [exact A|exact B]|eauto].
    + destruct (match_source (e_rules e) (in_source i0)) eqn:M.
      * split; [intros _|eauto]. apply match_source_spec in M. destruct M as (r & A & B).
        exists r. split; [exact A|]. cbn. destruct r; [destruct B|exact B|exact B].
      * split; [intros [i X]; discriminate X|]. intros (r & A & B). exfalso.
        destruct r as [p|t|sch dom].
        -- assert (X : match_parsed_prefix U (e_rules e) i0 = true); [|congruence].
           apply match_parsed_prefix_spec. exists p. auto.
        -- assert (X : match_source (e_rules e) (in_source i0) = true); [|congruence].
           apply match_source_spec. eexists. split; [exact A|exact B].
        -- assert (X : match_source (e_rules e) (in_source i0) = true); [|congruence].
           apply match_source_spec. eexists. split; [exact A|exact B].
Qed.

Lemma try_entry_none {U} e (it : input_type U) : try_entry e it = None -> ~ entry_matches e it.
Proof.
  intros H M. apply try_entry_matches in M. destruct M as [i M]. congruence.
Qed.

(** ** Order *)

Definition key_is (k : nat) (e : entry) : bool := Nat.eqb (e_priority e) k.
Definition le_prio (a b : entry) : Prop := e_priority a <= e_priority b.

Lemma insert_filter k x l :
  filter (key_is k) (insert_by_key x l) = filter (key_is k) (x :: l).
Proof.
  induction l as [|y l IH]; [reflexivity|]. cbn [insert_by_key].
  destruct (Nat.leb_spec (e_priority x) (e_priority y)); [reflexivity|].
  cbn [filter] in *. rewrite IH. unfold key_is in *.
  destruct (Nat.eqb_spec (e_priority y) k), (Nat.eqb_spec (e_priority x) k); try reflexivity; lia.
Qed.

Lemma sort_filter k l : filter (key_is k) (sort_by_key l) = filter (key_is k) l.
Proof.
  unfold sort_by_key. induction l as [|x l IH]; [reflexivity|].
  cbn [fold_right]. rewrite insert_filter. cbn [filter]. rewrite IH. reflexivity.
Qed.

Lemma insert_In x l e : In e (insert_by_key x l) <-> e = x \/ In e l.
Proof.
  induction l as [|y l IH]; cbn; [firstorder congruence|].
  destruct (Nat.leb (e_priority x) (e_priority y)); cbn.
  - firstorder congruence.
  - rewrite IH. tauto.
Qed.

Lemma insert_sorted x l : StronglySorted le_prio l -> StronglySorted le_prio (insert_by_key x l).
Proof.
  induction 1 as [|y l Hs IH Hy]; cbn; [repeat constructor|].
  destruct (Nat.leb_spec (e_priority x) (e_priority y)) as [L|G].
  - constructor; [constructor; assumption|]. constructor; [exact L|].
    eapply Forall_impl; [|exact Hy]. intros a Ha. unfold le_prio in *. lia.
  - constructor; [exact IH|]. apply Forall_forall. intros e He. apply insert_In in He.
    destruct He as [->|He]; [unfold le_prio; lia|]. rewrite Forall_forall in Hy. apply Hy, He.
Qed.

Lemma sort_sorted l : StronglySorted le_prio (sort_by_key l).
Proof.
  unfold sort_by_key. induction l as [|x l IH]; [constructor|]. apply insert_sorted, IH.
Qed.

Lemma registry_snoc es e : registry (es ++ [e]) = sort_by_key (registry es ++ [e]).
Proof. unfold registry. rewrite fold_left_app. reflexivity. Qed.

Lemma registry_filter k es : filter (key_is k) (registry es) = filter (key_is k) es.
Proof.
  induction es as [|e es IH] using rev_ind; [reflexivity|].
  rewrite registry_snoc, sort_filter, !filter_app, IH. reflexivity.
Qed.

Lemma registry_sorted es : StronglySorted le_prio (registry es).
Proof.
  destruct es as [|e es _] using rev_ind; [constructor|]. rewrite registry_snoc. apply sort_sorted.
Qed.

Lemma registry_In e es : In e (registry es) <-> In e es.
Proof.
  pose proof (registry_filter (e_priority e) es) as H.
  assert (R : forall l, In e l <-> In e (filter (key_is (e_priority e)) l)).
  { intros l. rewrite filter_In. unfold key_is. rewrite Nat.eqb_refl. tauto. }
  rewrite (R (registry es)), H. symmetry. apply R.
Qed.

Lemma filter_split {A} (f : A -> bool) l : forall a x b,
  filter f l = (a ++ x :: b)%list ->
  exists l1 l2, l = (l1 ++ x :: l2)%list /\ filter f l1 = a.
Proof.
  induction l as [|y l IH]; intros a x b H; cbn in H; [destruct a; discriminate|].
  destruct (f y) eqn:E.
  - destruct a as [|z a]; cbn in H; injection H as -> H.
    + exists [], l. auto.
    + destruct (IH _ _ _ H) as (l1 & l2 & -> & F). exists (z :: l1), l2.
      split; [reflexivity|]. cbn. rewrite E, F. reflexivity.
  - destruct (IH _ _ _ H) as (l1 & l2 & -> & F). exists (y :: l1), l2.
    split; [reflexivity|]. cbn. rewrite E. exact F.
Qed.

Lemma find_match_some {U} g (it : input_type U) e i :
  find_match g it = Some (e, i) ->
  exists pre post, g = (pre ++ e :: post)%list /\ (forall x, In x pre -> try_entry x it = None) /\
                   try_entry e it = Some i.
Proof.
  induction g as [|x g IH]; cbn; [discriminate|]. destruct (try_entry x it) as [j|] eqn:E.
  - intros H. injection H as <- <-. exists [], g. split; [reflexivity|]. split; [intros y []|exact E].
  - intros H. destruct (IH H) as (pre & post & -> & A & B). exists (x :: pre), post.
    split; [reflexivity|]. split; [intros y [<-|Hy]; [exact E|apply A, Hy]|exact B].
Qed.

Lemma find_match_none {U} g (it : input_type U) :
  find_match g it = None <-> forall x, In x g -> try_entry x it = None.
Proof.
  induction g as [|x g IH]; cbn; [split; [intros _ y []|reflexivity]|].
  destruct (try_entry x it) as [j|] eqn:E.
  - split; [discriminate|]. intros H. rewrite (H x (or_introl eq_refl)) in E. discriminate.
  - rewrite IH. split; [intros H y [<-|Hy]; [exact E|apply H, Hy]|intros H y Hy; apply H; right; exact Hy].
Qed.

(** Among entries in priority order the first that matches is the one with the smallest
    priority, and the earliest inserted among equals. *)
Lemma find_match_first {U} es (it : input_type U) e i :
  find_match (registry es) it = Some (e, i) ->
  try_entry e it = Some i /\
  exists n, nth_error es n = Some e /\ entry_matches e it /\
            forall m e', nth_error es m = Some e' -> entry_matches e' it -> no_later n e m e'.
Proof.
  intros H. destruct (find_match_some _ _ _ _ H) as (pre & post & Eg & Hpre & He).
  split; [exact He|].
  pose proof (registry_filter (e_priority e) es) as F. rewrite Eg, filter_app in F.
  cbn [filter] in F. unfold key_is at 2 in F. rewrite Nat.eqb_refl in F. symmetry in F.
  destruct (filter_split _ _ _ _ _ F) as (l1 & l2 & -> & F1).
  exists (List.length l1). split; [rewrite nth_error_app2, Nat.sub_diag by lia; reflexivity|].
  split; [apply try_entry_matches; eauto|]. intros m e' Hm Hm'.
  assert (Hin : In e' (registry (l1 ++ e :: l2))) by (apply registry_In; eapply nth_error_In, Hm).
  assert (Hnp : forall x, In x pre -> ~ entry_matches x it).
  { intros x Hx. apply try_entry_none, Hpre, Hx. }
  assert (Hle : e_priority e <= e_priority e').
  { pose proof (registry_sorted (l1 ++ e :: l2)) as Hs. rewrite Eg in Hin, Hs.
    apply in_app_or in Hin. destruct Hin as [Hin|[->|Hin]]; [destruct (Hnp _ Hin Hm')|lia|].
    clear -Hs Hin. induction pre as [|y pre IH]; cbn in Hs.
    - apply StronglySorted_inv in Hs. destruct Hs as [_ Hs]. rewrite Forall_forall in Hs. apply Hs, Hin.
    - apply StronglySorted_inv in Hs. apply IH, Hs. }
  unfold no_later. destruct (Nat.eq_dec (e_priority e) (e_priority e')) as [E|N]; [|left; lia].
  right. split; [exact E|]. destruct (Nat.le_gt_cases (List.length l1) m) as [L|L]; [exact L|].
  exfalso. rewrite nth_error_app1 in Hm by exact L. apply nth_error_In in Hm.
  assert (X : In e' (filter (key_is (e_priority e)) l1)).
  { apply filter_In. split; [exact Hm|]. unfold key_is. apply Nat.eqb_eq. lia. }
  rewrite F1 in X. apply filter_In in X. exact (Hnp _ (proj1 X) Hm').
Qed.

Lemma find_match_none_iff {U} es (it : input_type U) :
  find_match (registry es) it = None <-> forall e, In e es -> ~ entry_matches e it.
Proof.
  rewrite find_match_none. split.
  - intros H e He. apply try_entry_none, H, registry_In, He.
  - intros H e He. rewrite registry_In in He. destruct (try_entry e it) eqn:E; [|reflexivity].
    destruct (H e He). apply try_entry_matches. eauto.
Qed.

(** ** The input handed to the handler *)

Lemma try_entry_raw {U} e s (i : input U) : try_entry e (IRaw s) = Some i ->
  (exists p rest, In (RPrefix p) (e_rules e) /\ s = p ++ rest /\ in_prefix i = Some p /\
                  understood rest (in_source i)) \/
  ((forall p rest, In (RPrefix p) (e_rules e) -> s <> p ++ rest) /\
   in_prefix i = None /\ understood s (in_source i)).
Proof.
  unfold try_entry. cbn [parsed_of in_source].
  destruct (match_raw_prefix U (e_rules e) s) as [j|] eqn:E.
  - intros H. injection H as ->. apply match_raw_prefix_some in E.
    destruct E as (p & rest & A & B & ->). left. exists p, rest. cbn.
    repeat split; [exact A|exact B|]. apply source_from_understood.
  - destruct (match_source (e_rules e) (source_from U s)); [|discriminate].
    intros H. injection H as <-. right. cbn. split; [exact (match_raw_prefix_none _ _ _ E)|].
    split; [reflexivity|]. apply source_from_understood.
Qed.

Lemma try_entry_parsed {U} e (i j : input U) : try_entry e (IParsed i) = Some j -> j = i.
Proof.
  unfold try_entry. cbn [parsed_of]. destruct (match_parsed_prefix U (e_rules e) i);
    [congruence|]. destruct (match_source (e_rules e) (in_source i)); congruence.
Qed.

Lemma into_raw_restores {U} e s (i : input U) : try_entry e (IRaw s) = Some i ->
  (forall t u, url_parse U t = Some u -> in_source i = SUrl u -> url_show U u = t) ->
  into_raw i = s.
Proof.
  intros H Hs. apply try_entry_raw in H. unfold into_raw.
  destruct H as [(p & rest & _ & -> & -> & Hu)|(_ & -> & Hu)].
  - f_equal. destruct (in_source i) as [u|t] eqn:E; cbn in *; [exact (Hs _ _ Hu eq_refl)|apply Hu].
  - cbn. destruct (in_source i) as [u|t] eqn:E; cbn in *; [exact (Hs _ _ Hu eq_refl)|apply Hu].
Qed.

(** ** Matching a parsed input *)

Lemma app_same_prefix p (a b : string) : p ++ a = p ++ b -> a = b.
Proof. induction p as [|c p IH]; cbn; [auto|]. intros H. injection H as H. apply IH, H. Qed.

(** An entry that did not match the raw input matches the parsed one only through a rule
    on the stripped source. *)
Lemma parsed_again_none {U} e s p rest : s = p ++ rest ->
  try_entry e (@IRaw U s) = None ->
  match_source (e_rules e) (source_from U rest) = false ->
  try_entry e (IParsed (mkInput (Some p) (source_from U rest))) = None.
Proof.
  intros -> H Hm. apply try_entry_none in H. unfold try_entry. cbn [parsed_of in_source].
  rewrite Hm. destruct (match_parsed_prefix U (e_rules e) _) eqn:E; [|reflexivity].
  apply match_parsed_prefix_spec in E. destruct E as (q & A & B). cbn in B. injection B as <-.
  destruct H. exists (RPrefix p). split; [exact A|]. exists rest. reflexivity.
Qed.

Lemma find_match_skip {U} pre e post (it : input_type U) i :
  (forall x, In x pre -> try_entry x it = None) -> try_entry e it = Some i ->
  find_match (pre ++ e :: post)%list it = Some (e, i).
Proof.
  intros H He. induction pre as [|x pre IH]; cbn; [rewrite He; reflexivity|].
  rewrite (H x (or_introl eq_refl)). apply IH. intros y Hy. apply H. right. exact Hy.
Qed.

Lemma parsed_again {U} g s e (i : input U) :
  StronglySorted le_prio g ->
  find_match g (IRaw s) = Some (e, i) ->
  (in_prefix i = None \/
   forall x, In x g -> x <> e -> e_priority x <= e_priority e ->
             forall r, In r (e_rules x) -> ~ accepts_source r (in_source i)) ->
  find_match g (IParsed i) = Some (e, i).
Proof.
  intros Hs H Hc. destruct (find_match_some _ _ _ _ H) as (pre & post & -> & Hpre & He).
  assert (Hu : ~ In e pre) by (intros X; specialize (Hpre e X); congruence).
  assert (Hle : forall x, In x pre -> e_priority x <= e_priority e).
  { clear -Hs. induction pre as [|y pre IH]; intros x []; cbn in Hs; apply StronglySorted_inv in Hs;
      destruct Hs as [Hs Hf].
    - subst y. rewrite Forall_forall in Hf. apply (Hf e). apply in_or_app. right. left. reflexivity.
    - apply IH; assumption. }
  pose proof He as Hi. unfold try_entry in Hi. cbn [parsed_of in_source] in Hi.
  destruct (match_raw_prefix U (e_rules e) s) as [j|] eqn:E.
  - injection Hi as ->. destruct (match_raw_prefix_some _ _ _ _ E) as (p & rest & A & B & ->).
    cbn in Hc. destruct Hc as [Hc|Hc]; [discriminate|].
    apply find_match_skip.
    + intros x Hx. apply parsed_again_none with s; [exact B|apply Hpre, Hx|].
      destruct (match_source (e_rules x) (source_from U rest)) eqn:M; [|reflexivity].
      apply match_source_spec in M. destruct M as (r & Hr & Ha). exfalso.
      apply (Hc x) with r; [apply in_or_app; auto| |apply Hle, Hx|exact Hr|exact Ha].
      intros ->. contradiction.
    + unfold try_entry.
      replace (match_parsed_prefix U (e_rules e) (mkInput (Some p) (source_from U rest))) with true;
        [reflexivity|]. symmetry. apply match_parsed_prefix_spec. exists p. auto.
  - destruct (match_source (e_rules e) (source_from U s)) eqn:M; [|discriminate].
    injection Hi as <-. apply find_match_skip.
    + intros x Hx. specialize (Hpre x Hx). unfold try_entry in Hpre |- *.
      cbn [parsed_of in_source] in *.
      destruct (match_raw_prefix U (e_rules x) s); [discriminate|].
      destruct (match_source (e_rules x) (source_from U s)); [discriminate|].
      destruct (match_parsed_prefix U (e_rules x) _) eqn:Ex; [|reflexivity].
      apply match_parsed_prefix_spec in Ex. destruct Ex as (q & _ & X). discriminate X.
    + unfold try_entry. cbn [parsed_of in_source]. rewrite M.
      destruct (match_parsed_prefix U (e_rules e) _); reflexivity.
Qed.

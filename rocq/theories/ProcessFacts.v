(** * Facts about pipelines and command lines. *)

From Coq Require Import String List Arith Lia Bool.
From Verif Require Import Base Process ProcessSpec.
Import ListNotations.

Definition input_of (prev : option nat) : stdin_from :=
  match prev with Some k => StdinPipe k | None => StdinInherited end.

Lemma starts_app a b : starts (a ++ b) = starts a + starts b.
Proof. unfold starts. rewrite filter_app, app_length. reflexivity. Qed.

Lemma started_app a b : started (a ++ b) = started a ++ started b.
Proof. unfold started. apply flat_map_app. Qed.

Lemma start_one_spec o c prev kill files log r log' :
  start_one o c prev kill files log = (r, log') ->
  exists added, log' = log ++ added /\
    match r with
    | Ok (child, files') =>
        child = starts log /\ files' = files + default_stderr [c] /\
        started added = [(c, input_of prev)] /\ starts added = 1 /\ os_start_ok o (starts log) = true
    | Err _ =>
        (started added = [] /\ exists m, os_temp_ok o m = false) \/
        (started added = [(c, input_of prev)] /\ os_start_ok o (starts log) = false)
    | Panic => False
    end.
Proof.
  unfold start_one, default_stderr. cbn [filter]. destruct (cmd_own_stderr c) eqn:Ec; cbn [negb].
  - destruct (os_start_ok o (starts log)) eqn:Es; intros H; injection H as <- <-;
      (eexists; split; [reflexivity|]); cbn; repeat split; auto.
  - destruct (os_temp_ok o (temps log)) eqn:Et.
    + assert (E : starts (log ++ [OsTempFile]) = starts log) by (rewrite starts_app; cbn; lia).
      rewrite E. destruct (os_start_ok o (starts log)) eqn:Es; intros H; injection H as <- <-;
        rewrite <- app_assoc; (eexists; split; [reflexivity|]); cbn;
        [repeat split; auto; lia|right; auto].
    + intros H; injection H as <- <-. eexists; split; [reflexivity|]. left. cbn. eauto.
Qed.

Lemma spawn_loop_spec o cs last : forall prev files log r log',
  spawn_loop o cs last prev files log = (r, log') ->
  exists added, log' = log ++ added /\
    match r with
    | Ok sp =>
        started added = piped (starts log) (input_of prev) (cs ++ [last]) /\
        sp_child sp = starts log + length cs /\
        sp_files sp = files + default_stderr (cs ++ [last]) /\
        forall i, starts log <= i <= starts log + length cs -> os_start_ok o i = true
    | Err _ =>
        (exists k, started added = firstn k (piped (starts log) (input_of prev) (cs ++ [last]))) /\
        ((exists m, os_temp_ok o m = false) \/
         exists m, m <= starts log + length cs /\ os_start_ok o m = false)
    | Panic => False
    end.
Proof.
  induction cs as [|c cs IH]; intros prev files log r log'; cbn [spawn_loop].
  - unfold spawned_new. destruct (start_one o last prev true files log) as [x l1] eqn:E1.
    apply start_one_spec in E1. destruct E1 as (added & -> & H1).
    destruct x as [[child files']|k|]; [| |destruct H1]; intros H; injection H as <- <-;
      exists added; (split; [reflexivity|]).
    + destruct H1 as (A & B & C & D & E). cbn in *. rewrite C. repeat split; [lia|exact B|].
      intros i Hi. replace i with (starts log) by lia. exact E.
    + destruct H1 as [[A [m B]]|[A B]].
      * split; [exists 0; exact A|left; eauto].
      * split; [exists 1; exact A|right; exists (starts log); split; [lia|exact B]].
  - destruct (start_one o c prev false files log) as [x l1] eqn:E1.
    apply start_one_spec in E1. destruct E1 as (added & -> & H1).
    destruct x as [[child files']|k|]; [| |destruct H1].
    + destruct H1 as (A & B & C & D & E). intros H. apply IH in H.
      destruct H as (added2 & -> & H). exists (added ++ added2). rewrite app_assoc.
      split; [reflexivity|]. rewrite starts_app, D, started_app, C in *. subst child.
      replace (starts log + 1) with (S (starts log)) in H by lia.
      destruct r as [sp|k|]; [| |exact H].
      * destruct H as (Ha & Hb & Hc & Hd). cbn [app piped length].
        cbn [input_of] in Ha. rewrite Ha. split; [reflexivity|]. split; [lia|].
        split; [rewrite Hc, B; unfold default_stderr; cbn [filter];
                destruct (negb (cmd_own_stderr c)); cbn [length]; lia|].
        intros i Hi. destruct (Nat.eq_dec i (starts log)) as [->|N]; [exact E|]. apply Hd. lia.
      * destruct H as [[j Ha] Hb]. cbn [app piped length]. split.
        -- exists (S j). cbn [firstn]. f_equal. exact Ha.
        -- destruct Hb as [Hb|(m & Hm & Hb)]; [left; exact Hb|right; exists m; split; [lia|exact Hb]].
    + intros H; injection H as <- <-. exists added. split; [reflexivity|]. cbn [app piped length].
      destruct H1 as [[A [m B]]|[A B]].
      * split; [exists 0; exact A|left; eauto].
      * split; [exists 1; exact A|right; exists (starts log); split; [lia|exact B]].
Qed.

Lemma builder_list c cs : fold_left builder_pipe cs (builder_new c) = c :: cs.
Proof.
  unfold builder_new, builder_pipe.
  assert (G : forall l, fold_left (fun b x => b ++ [x]) cs l = l ++ cs).
  { induction cs as [|x cs IH]; intros l; cbn; [rewrite app_nil_r; reflexivity|].
    rewrite IH, <- app_assoc. reflexivity. }
  rewrite G. reflexivity.
Qed.

Lemma builder_spawn_spec o c cs r log :
  builder_spawn o (fold_left builder_pipe cs (builder_new c)) = (r, log) ->
  match r with
  | Ok sp =>
      started log = pipeline (c :: cs) /\ sp_child sp = length cs /\
      sp_files sp = default_stderr (c :: cs) /\ forall i, i <= length cs -> os_start_ok o i = true
  | Err _ =>
      (exists k, started log = firstn k (pipeline (c :: cs))) /\
      ((exists m, os_temp_ok o m = false) \/ exists m, m <= length cs /\ os_start_ok o m = false)
  | Panic => False
  end.
Proof.
  rewrite builder_list. unfold builder_spawn, pipeline.
  destruct (@exists_last _ (c :: cs)) as (front & last & E); [discriminate|]. rewrite E.
  rewrite rev_app_distr. cbn [rev app]. rewrite rev_involutive. intros H.
  apply spawn_loop_spec in H. destruct H as (added & -> & H). cbn [app] in *.
  assert (L : length cs = length front).
  { apply (f_equal (@length _)) in E. rewrite app_length in E. cbn in E. lia. }
  rewrite L. cbn [starts filter length plus Nat.add input_of] in H.
  destruct r as [sp|k|]; [|exact H|exact H].
  destruct H as (A & B & C & D). repeat split; try assumption. intros i Hi. apply D. cbn. lia.
Qed.

(** ** Command lines *)

Lemma cmd_add_args_spec l : forall c,
  cmd_add_args c l = mkCmd (cmd_program c) (cmd_args c ++ l) (cmd_own_stderr c).
Proof.
  unfold cmd_add_args. induction l as [|a l IH]; intros c; cbn.
  - rewrite app_nil_r. destruct c; reflexivity.
  - rewrite IH. cbn. rewrite <- app_assoc. reflexivity.
Qed.

Lemma ffmpeg_arg_spec prog own l dash a :
  ffmpeg_arg (Some (mkCmd prog (l ++ [dash]) own)) a = Some (mkCmd prog (l ++ [a] ++ [dash]) own).
Proof.
  unfold ffmpeg_arg, cmd_insert_arg, vec_insert. cbn [cmd_args]. rewrite app_length. cbn [length].
  replace (length l + 1) with (S (length l)) by lia. cbn [cmd_program cmd_own_stderr].
  destruct (Nat.leb_spec (length l) (S (length l))) as [_|X]; [|lia]. cbn [option_map].
  rewrite firstn_app, firstn_all, Nat.sub_diag, skipn_app, skipn_all, Nat.sub_diag.
  cbn. rewrite app_nil_r. reflexivity.
Qed.

Lemma ffmpeg_args_spec l2 : forall prog own l dash,
  fold_left ffmpeg_arg l2 (Some (mkCmd prog (l ++ [dash]) own)) =
  Some (mkCmd prog (l ++ l2 ++ [dash]) own).
Proof.
  induction l2 as [|a l2 IH]; intros prog own l dash; [reflexivity|].
  cbn [fold_left]. rewrite ffmpeg_arg_spec, app_assoc, IH. cbn. rewrite <- app_assoc. reflexivity.
Qed.

Lemma ffmpeg_steps_spec calls : forall prog own l dash,
  fold_left ffmpeg_step calls (Some (mkCmd prog (l ++ [dash]) own)) =
  Some (mkCmd (last (paths calls) prog) (l ++ user_args calls ++ [dash]) own).
Proof.
  induction calls as [|k calls IH]; intros prog own l dash; [reflexivity|].
  assert (L : forall (x : string) xs d, last (x :: xs) d = last xs x).
  { intros x xs. revert x. induction xs as [|y xs IHx]; intros x d; [reflexivity|].
    change (last (y :: xs) d = last (y :: xs) x). rewrite !IHx. reflexivity. }
  cbn [fold_left]. destruct k as [p|a|l2]; cbn [ffmpeg_step option_map cmd_args cmd_own_stderr].
  - rewrite IH. cbn [paths user_args flat_map app].
    fold (paths calls). fold (user_args calls). rewrite L. reflexivity.
  - rewrite ffmpeg_arg_spec, app_assoc, IH. cbn [paths user_args flat_map app].
    fold (paths calls). fold (user_args calls). rewrite <- app_assoc. reflexivity.
  - rewrite ffmpeg_args_spec, app_assoc, IH. cbn [paths user_args flat_map app].
    fold (paths calls). fold (user_args calls). rewrite <- !app_assoc. reflexivity.
Qed.

(** ** Which processes die with the stream *)

Lemma kws_app a b : killed_with_stream (a ++ b) = killed_with_stream a ++ killed_with_stream b.
Proof. unfold killed_with_stream. apply flat_map_app. Qed.

Lemma start_one_kill o c prev kill files log x log' :
  start_one o c prev kill files log = (Ok x, log') ->
  killed_with_stream log' = killed_with_stream log ++ [kill].
Proof.
  unfold start_one. destruct (cmd_own_stderr c).
  - destruct (os_start_ok o (starts log)); intros H; [|discriminate H]. injection H as _ <-.
    apply kws_app.
  - destruct (os_temp_ok o (temps log)); [|discriminate].
    destruct (os_start_ok o _); intros H; [|discriminate H]. injection H as _ <-.
    rewrite !kws_app. cbn. rewrite app_nil_r. reflexivity.
Qed.

Lemma spawn_loop_kill o cs last : forall prev files log sp log',
  spawn_loop o cs last prev files log = (Ok sp, log') ->
  killed_with_stream log' = killed_with_stream log ++ repeat false (length cs) ++ [true].
Proof.
  induction cs as [|c cs IH]; intros prev files log sp log'; cbn [spawn_loop].
  - unfold spawned_new. destruct (start_one o last prev true files log) as [x l1] eqn:E1.
    destruct x as [[child f]|k|]; try discriminate. intros H; injection H as _ <-.
    apply start_one_kill in E1. exact E1.
  - destruct (start_one o c prev false files log) as [x l1] eqn:E1.
    destruct x as [[child f]|k|]; try discriminate. intros H. apply IH in H.
    apply start_one_kill in E1. rewrite H, E1, <- app_assoc. reflexivity.
Qed.

Lemma builder_spawn_kill o c cs sp log :
  builder_spawn o (fold_left builder_pipe cs (builder_new c)) = (Ok sp, log) ->
  killed_with_stream log = repeat false (length cs) ++ [true].
Proof.
  rewrite builder_list. unfold builder_spawn.
  destruct (@exists_last _ (c :: cs)) as (front & last & E); [discriminate|]. rewrite E.
  rewrite rev_app_distr. cbn [rev app]. rewrite rev_involutive. intros H.
  apply spawn_loop_kill in H. rewrite H.
  apply (f_equal (@length _)) in E. rewrite app_length in E. cbn in E.
  replace (length front) with (length cs) by lia. reflexivity.
Qed.

(** ** yt-dlp *)

Lemma last_cons {A} (x : A) xs d : last (x :: xs) d = last xs x.
Proof.
  revert x d. induction xs as [|y xs IH]; intros x d; [reflexivity|].
  change (last (y :: xs) d = last (y :: xs) x). rewrite !IH. reflexivity.
Qed.

Lemma ytdlp_steps calls : forall y,
  fold_left ytdlp_step calls y =
  mkYt (yt_url y) (last (yt_paths calls) (yt_cmd y)) (last (yt_extracts calls) (yt_extract y))
       (last (yt_formats calls) (yt_format y)).
Proof.
  induction calls as [|k calls IH]; intros y; [destruct y; reflexivity|].
  cbn [fold_left]. rewrite IH.
  destruct k; cbn [ytdlp_step yt_url yt_cmd yt_extract yt_format yt_paths yt_extracts yt_formats
    flat_map app];
    fold (yt_paths calls); fold (yt_extracts calls); fold (yt_formats calls);
    rewrite ?last_cons; reflexivity.
Qed.

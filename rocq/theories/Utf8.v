(** * Utf8: which byte strings are text.

    [String] methods of the standard library that the code calls (process/mod.rs:227-230,
    [read_to_string]) accept only UTF-8.  [utf8_b] is the check of
    [core::str::from_utf8]; [utf8] is the definition of the encoding (RFC 3629). *)

From Coq Require Import List Arith NArith ZArith Lia Bool.
From Coq Require Import Strings.Byte.
Import ListNotations.

Local Open Scope N_scope.

Definition within (lo hi : N) (b : byte) : bool :=
  (lo <=? Byte.to_N b) && (Byte.to_N b <=? hi).

(** The check: one sequence after the other, by the table of lead bytes. *)
Fixpoint utf8_b (l : list byte) : bool :=
  match l with
  | [] => true
  | a :: l1 =>
      if within 0 127 a then utf8_b l1
      else
        match l1 with
        | [] => false
        | b :: l2 =>
            if within 194 223 a then within 128 191 b && utf8_b l2
            else
              match l2 with
              | [] => false
              | c :: l3 =>
                  if within 224 239 a then
                    (if within 224 224 a then within 160 191 b
                     else if within 237 237 a then within 128 159 b else within 128 191 b)
                    && within 128 191 c && utf8_b l3
                  else
                    match l3 with
                    | [] => false
                    | d :: l4 =>
                        within 240 244 a
                        && (if within 240 240 a then within 144 191 b
                            else if within 244 244 a then within 128 143 b else within 128 191 b)
                        && within 128 191 c && within 128 191 d && utf8_b l4
                    end
              end
        end
  end.

(** A Unicode scalar value, and its bytes. *)
Definition scalar (c : N) : Prop := c < 55296 \/ (57344 <= c /\ c < 1114112).

Definition encode (c : N) : list N :=
  if c <? 128 then [c]
  else if c <? 2048 then [192 + c / 64; 128 + c mod 64]
  else if c <? 65536 then [224 + c / 4096; 128 + (c / 64) mod 64; 128 + c mod 64]
  else [240 + c / 262144; 128 + (c / 4096) mod 64; 128 + (c / 64) mod 64; 128 + c mod 64].

(** A byte string is text if it is the encoding of a list of scalar values. *)
Definition utf8 (l : list byte) : Prop :=
  exists cs, Forall scalar cs /\ map Byte.to_N l = flat_map encode cs.

(** ** The check is right *)

Lemma within_spec lo hi b : within lo hi b = true <-> lo <= Byte.to_N b /\ Byte.to_N b <= hi.
Proof. unfold within. rewrite andb_true_iff, !N.leb_le. reflexivity. Qed.

Lemma within_false lo hi b : within lo hi b = false <-> Byte.to_N b < lo \/ hi < Byte.to_N b.
Proof. unfold within. rewrite andb_false_iff, !N.leb_gt. reflexivity. Qed.

Lemma utf8_cons c l l' : scalar c -> map Byte.to_N l = encode c -> utf8 l' -> utf8 (l ++ l').
Proof.
  intros S E (cs & F & E'). exists (c :: cs). split; [auto|]. cbn [flat_map]. rewrite map_app, E, E'.
  reflexivity.
Qed.

Lemma divmod a b q r : a = b * q + r -> r < b -> q = a / b /\ r = a mod b.
Proof.
  intros E L. split; [apply (N.div_unique a b q r L E)|apply (N.mod_unique a b q r L E)].
Qed.

Lemma utf8_sound : forall n l, (length l <= n)%nat -> utf8_b l = true -> utf8 l.
Proof.
  induction n as [|n IH]; intros l L H.
  { destruct l; [|cbn in L; lia]. exists []. auto. }
  destruct l as [|a l1]; [exists []; auto|]. cbn [utf8_b length] in *.
  destruct (within 0 127 a) eqn:Wa.
  { apply within_spec in Wa. apply (utf8_cons (Byte.to_N a) [a]).
    - left. lia.
    - unfold encode. destruct (N.ltb_spec (Byte.to_N a) 128); [reflexivity|lia].
    - apply IH; [lia|exact H]. }
  apply within_false in Wa. destruct l1 as [|b l2]; [discriminate|]. cbn [length] in L.
  destruct (within 194 223 a) eqn:W2.
  { apply andb_true_iff in H. destruct H as [Hb H]. apply within_spec in W2, Hb.
    apply (utf8_cons ((Byte.to_N a - 192) * 64 + (Byte.to_N b - 128)) [a; b]).
    - left. lia.
    - unfold encode. set (x := Byte.to_N a) in *. set (y := Byte.to_N b) in *.
      destruct (N.ltb_spec ((x - 192) * 64 + (y - 128)) 128); [lia|].
      destruct (N.ltb_spec ((x - 192) * 64 + (y - 128)) 2048); [|lia].
      cbn [map]. fold x y. clearbody x y.
      destruct (divmod ((x - 192) * 64 + (y - 128)) 64 (x - 192) (y - 128)) as [<- <-]; [lia|lia|].
      f_equal; [lia|]. f_equal. lia.
    - apply IH; [lia|exact H]. }
  apply within_false in W2. destruct l2 as [|c l3]; [discriminate|]. cbn [length] in L.
  destruct (within 224 239 a) eqn:W3.
  { rewrite !andb_true_iff in H. destruct H as [[Hb Hc] H]. apply within_spec in W3, Hc.
    apply (utf8_cons ((Byte.to_N a - 224) * 4096 + (Byte.to_N b - 128) * 64 + (Byte.to_N c - 128))
             [a; b; c]); [| |apply IH; [lia|exact H]].
    - set (x := Byte.to_N a) in *. unfold scalar.
      destruct (within 224 224 a) eqn:E; [|destruct (within 237 237 a) eqn:E'];
        apply within_spec in Hb;
        repeat match goal with
               | H : within _ _ _ = true |- _ => apply within_spec in H
               | H : within _ _ _ = false |- _ => apply within_false in H
               end; fold x in E; try fold x in E'; lia.
    - assert (B : 128 <= Byte.to_N b <= 191 /\ (Byte.to_N a = 224 -> 160 <= Byte.to_N b)).
      { destruct (within 224 224 a) eqn:E; [|destruct (within 237 237 a) eqn:E'];
        apply within_spec in Hb;
        repeat match goal with
               | H : within _ _ _ = true |- _ => apply within_spec in H
               | H : within _ _ _ = false |- _ => apply within_false in H
               end; lia. }
      clear Hb IH H L Wa W2. cbn [map]. set (x := Byte.to_N a) in *. set (y := Byte.to_N b) in *.
      set (z := Byte.to_N c) in *. clearbody x y z. unfold encode.
      destruct (N.ltb_spec ((x - 224) * 4096 + (y - 128) * 64 + (z - 128)) 128); [lia|].
      destruct (N.ltb_spec ((x - 224) * 4096 + (y - 128) * 64 + (z - 128)) 2048); [lia|].
      destruct (N.ltb_spec ((x - 224) * 4096 + (y - 128) * 64 + (z - 128)) 65536); [|lia].
      set (v := (x - 224) * 4096 + (y - 128) * 64 + (z - 128)) in *.
      destruct (divmod v 64 ((x - 224) * 64 + (y - 128)) (z - 128)) as [<- <-]; [lia|lia|].
      destruct (divmod v 4096 (x - 224) ((y - 128) * 64 + (z - 128))) as [<- _]; [lia|lia|].
      destruct (divmod ((x - 224) * 64 + (y - 128)) 64 (x - 224) (y - 128)) as [_ <-]; [lia|lia|].
      f_equal; [lia|]. f_equal; [lia|]. f_equal. lia. }
  apply within_false in W3. destruct l3 as [|d l4]; [discriminate|]. cbn [length] in L.
  rewrite !andb_true_iff in H. destruct H as [[[[Ha Hb] Hc] Hd] H]. apply within_spec in Ha, Hc, Hd.
  assert (B : 128 <= Byte.to_N b <= 191 /\ (Byte.to_N a = 240 -> 144 <= Byte.to_N b) /\
              (Byte.to_N a = 244 -> Byte.to_N b <= 143)).
  { destruct (within 240 240 a) eqn:E; [|destruct (within 244 244 a) eqn:E'];
    apply within_spec in Hb;
    repeat match goal with
           | H : within _ _ _ = true |- _ => apply within_spec in H
           | H : within _ _ _ = false |- _ => apply within_false in H
           end; lia. }
  apply (utf8_cons ((Byte.to_N a - 240) * 262144 + (Byte.to_N b - 128) * 4096
                    + (Byte.to_N c - 128) * 64 + (Byte.to_N d - 128)) [a; b; c; d]);
    [| |apply IH; [lia|exact H]].
  - right. lia.
  - clear Hb IH H L Wa W2 W3. cbn [map]. set (x := Byte.to_N a) in *. set (y := Byte.to_N b) in *.
    set (z := Byte.to_N c) in *. set (t := Byte.to_N d) in *. clearbody x y z t. unfold encode.
    set (v := (x - 240) * 262144 + (y - 128) * 4096 + (z - 128) * 64 + (t - 128)).
    destruct (N.ltb_spec v 128); [lia|]. destruct (N.ltb_spec v 2048); [lia|].
    destruct (N.ltb_spec v 65536); [lia|].
    destruct (divmod v 64 ((x - 240) * 4096 + (y - 128) * 64 + (z - 128)) (t - 128)) as [<- <-];
      [lia|lia|].
    destruct (divmod v 4096 ((x - 240) * 64 + (y - 128)) ((z - 128) * 64 + (t - 128))) as [<- _];
      [lia|lia|].
    destruct (divmod v 262144 (x - 240) ((y - 128) * 4096 + (z - 128) * 64 + (t - 128)))
      as [<- _]; [lia|lia|].
    destruct (divmod ((x - 240) * 4096 + (y - 128) * 64 + (z - 128)) 64
                ((x - 240) * 64 + (y - 128)) (z - 128)) as [_ <-]; [lia|lia|].
    destruct (divmod ((x - 240) * 64 + (y - 128)) 64 (x - 240) (y - 128)) as [_ <-]; [lia|lia|].
    f_equal; [lia|]. f_equal; [lia|]. f_equal; [lia|]. f_equal. lia.
Qed.

Lemma cons_eq (a b : N) l m : a :: l = b :: m -> a = b /\ l = m.
Proof. intros H. injection H as -> ->. auto. Qed.

Lemma digits c : exists q2 r2 r1 r0, c / 262144 = q2 /\ (c / 4096) mod 64 = r2 /\
  (c / 64) mod 64 = r1 /\ c mod 64 = r0 /\ c / 4096 = q2 * 64 + r2 /\
  c / 64 = q2 * 4096 + r2 * 64 + r1 /\
  c = q2 * 262144 + r2 * 4096 + r1 * 64 + r0 /\ r2 < 64 /\ r1 < 64 /\ r0 < 64.
Proof.
  exists (c / 262144), ((c / 4096) mod 64), ((c / 64) mod 64), (c mod 64).
  assert (A : c / 4096 = c / 64 / 64) by (rewrite N.div_div by lia; reflexivity).
  assert (B : c / 262144 = c / 4096 / 64) by (rewrite N.div_div by lia; reflexivity).
  pose proof (N.div_mod c 64). pose proof (N.div_mod (c / 64) 64).
  pose proof (N.div_mod (c / 4096) 64). pose proof (N.mod_lt c 64).
  pose proof (N.mod_lt (c / 64) 64). pose proof (N.mod_lt (c / 4096) 64). rewrite A, B in *.
  repeat split; lia.
Qed.

Ltac split_digits c :=
  let q2 := fresh "q" in let r2 := fresh "r" in let r1 := fresh "r" in let r0 := fresh "r" in
  let E1 := fresh in let E2 := fresh in let E3 := fresh in let E4 := fresh in
  let E5 := fresh in let E6 := fresh in let E7 := fresh in
  destruct (digits c) as (q2 & r2 & r1 & r0 & E1 & E2 & E3 & E4 & E5 & E6 & E7 & ? & ? & ?);
  rewrite ?E1, ?E2, ?E3, ?E4, ?E5, ?E6 in *; clear E1 E2 E3 E4 E5 E6.
Ltac in_range := apply within_spec; lia.
Ltac out_range := apply within_false; lia.

Lemma utf8_complete : forall cs l, Forall scalar cs -> map Byte.to_N l = flat_map encode cs ->
  utf8_b l = true.
Proof.
  induction cs as [|c cs IH]; intros l F E.
  { cbn in E. destruct l; [reflexivity|discriminate]. }
  inversion F as [|? ? Sc F']; subst. cbn [flat_map] in E. unfold encode in E.
  destruct (N.ltb_spec c 128) as [L1|L1]; [|destruct (N.ltb_spec c 2048) as [L2|L2];
    [|destruct (N.ltb_spec c 65536) as [L3|L3]]]; cbn [app] in E.
  - destruct l as [|a l]; [discriminate|]. cbn [map] in E. apply cons_eq in E as [Ea E].
    cbn [utf8_b]. assert (W : within 0 127 a = true) by in_range. rewrite W. auto.
  - destruct l as [|a [|b l]]; try discriminate. cbn [map] in E. apply cons_eq in E as [Ea E].
    apply cons_eq in E as [Eb E].
    cbn [utf8_b]. split_digits c.
    assert (W : within 0 127 a = false) by out_range.
    assert (W2 : within 194 223 a = true) by in_range.
    assert (W3 : within 128 191 b = true) by in_range. rewrite W, W2, W3. cbn [andb]. auto.
  - destruct l as [|a [|b [|d l]]]; try discriminate. cbn [map] in E. apply cons_eq in E as [Ea E].
    apply cons_eq in E as [Eb E]. apply cons_eq in E as [Ed E].
    cbn [utf8_b]. split_digits c.
    assert (W : within 0 127 a = false) by out_range.
    assert (W2 : within 194 223 a = false) by out_range.
    assert (W3 : within 224 239 a = true) by in_range.
    assert (W4 : within 128 191 d = true) by in_range. rewrite W, W2, W3, W4.
    assert (W5 : (if within 224 224 a then within 160 191 b
                  else if within 237 237 a then within 128 159 b else within 128 191 b) = true).
    { unfold scalar in Sc. destruct (within 224 224 a) eqn:X; [|destruct (within 237 237 a) eqn:Y];
      rewrite ?within_spec, ?within_false in *; lia. }
    rewrite W5. cbn [andb]. auto.
  - destruct l as [|a [|b [|d [|e l]]]]; try discriminate. cbn [map] in E. apply cons_eq in E as [Ea E].
    apply cons_eq in E as [Eb E]. apply cons_eq in E as [Ed E]. apply cons_eq in E as [Ee E].
    unfold scalar in Sc. cbn [utf8_b]. split_digits c.
    assert (W : within 0 127 a = false) by out_range.
    assert (W2 : within 194 223 a = false) by out_range.
    assert (W3 : within 224 239 a = false) by out_range.
    assert (W4 : within 240 244 a = true) by in_range.
    assert (W6 : within 128 191 d = true) by in_range.
    assert (W7 : within 128 191 e = true) by in_range. rewrite W, W2, W3, W4, W6, W7.
    assert (W5 : (if within 240 240 a then within 144 191 b
                  else if within 244 244 a then within 128 143 b else within 128 191 b) = true).
    { destruct (within 240 240 a) eqn:X; [|destruct (within 244 244 a) eqn:Y];
      rewrite ?within_spec, ?within_false in *; lia. }
    rewrite W5. cbn [andb]. auto.
Qed.

Theorem utf8_spec l : utf8_b l = true <-> utf8 l.
Proof.
  split; [apply (utf8_sound (length l)); reflexivity|]. intros (cs & F & E).
  exact (utf8_complete cs l F E).
Qed.

(** * RangeSet: the record of downloaded byte ranges.

    Models [Downloaded] (crates/stream-download/src/source/handle.rs:152-170),
    a wrapper of [rangemap::RangeSet<u64>].  The third-party range set is
    modelled by a sorted list of half-open ranges that is kept coalesced. *)

From Coq Require Import List Arith Lia Bool.
Import ListNotations.

Definition range := (nat * nat)%type.
Definition rset := list range.

(** [RangeSet::insert] of a non-empty range: overlapping and touching ranges are
    merged (rangemap's documented behaviour; handle.rs:159). *)
Fixpoint rs_insert (a b : nat) (l : rset) : rset :=
  match l with
  | [] => [(a, b)]
  | (c, d) :: t =>
      if d <? a then (c, d) :: rs_insert a b t
      else if b <? c then (a, b) :: l
      else rs_insert (Nat.min a c) (Nat.max b d) t
  end.

(** [Downloaded::add] (handle.rs:156-161): empty or inverted ranges are ignored. *)
Definition rs_add (a b : nat) (l : rset) : rset :=
  if a <? b then rs_insert a b l else l.

(** [Downloaded::get] (handle.rs:163-165): the stored range containing [p]. *)
Fixpoint rs_get (p : nat) (l : rset) : option range :=
  match l with
  | [] => None
  | (c, d) :: t => if (c <=? p) && (p <? d) then Some (c, d) else rs_get p t
  end.

(** [Downloaded::next_gap] (handle.rs:167-169): first element of
    [RangeSet::gaps(lo..hi)]. *)
Fixpoint rs_next_gap (lo hi : nat) (l : rset) : option range :=
  if hi <=? lo then None else
  match l with
  | [] => Some (lo, hi)
  | (c, d) :: t =>
      if d <=? lo then rs_next_gap lo hi t
      else if lo <? c then Some (lo, Nat.min c hi)
      else rs_next_gap d hi t
  end.

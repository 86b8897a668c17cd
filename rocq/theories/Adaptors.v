(** * Adaptors of the standard library on top of [StreamDownload].

    The README and the examples read a stream with [read_to_end] and [read_exact], and
    decoders put a [std::io::BufReader] in front of it.  None of this is code of the crate;
    it is modelled from the documentation and source of the standard library, to see what the
    guarantees of the crate amount to for its users.

    [BufReader] makes its own calls of [read] and [seek] (lib.rs:427-491, 533-636): it reads
    ahead, and a relative seek takes back what is left in the buffer, so that a client which
    never goes back makes the stream below it go back. *)

From Coq Require Import List Arith Lia ZArith Bool.
From Verif Require Import Base Storage System Spec.
Import ListNotations.

(** ** Loops *)

(** [Read::read_exact] for a buffer of [n] bytes (default implementation): the calls of
    [read] it makes with their results, in order, and what it returns. *)
Inductive read_exact : nat -> list (nat * result (list byte)) -> result (list byte) -> Prop :=
| rx_full : read_exact 0 [] (Ok [])
| rx_more : forall n bs calls r, 0 < n -> bs <> [] -> read_exact (n - length bs) calls r ->
    read_exact n ((n, Ok bs) :: calls) (match r with Ok t => Ok (bs ++ t) | r => r end)
| rx_end : forall n, 0 < n -> read_exact n [(n, Ok [])] (Err EUnexpectedEof)
| rx_again : forall n calls r, 0 < n -> read_exact n calls r -> read_exact n ((n, Err EInterrupted) :: calls) r
| rx_fail : forall n e, 0 < n -> e <> EInterrupted -> read_exact n [(n, Err e)] (Err e).

(** [Read::read_to_end] (default implementation): the sizes of its reads depend on the
    allocator and the version of the library; here they are any positive numbers. *)
Inductive read_to_end : list (nat * result (list byte)) -> result (list byte) -> Prop :=
| re_end : forall n, 0 < n -> read_to_end [(n, Ok [])] (Ok [])
| re_more : forall n bs calls r, 0 < n -> bs <> [] -> read_to_end calls r ->
    read_to_end ((n, Ok bs) :: calls) (match r with Ok t => Ok (bs ++ t) | r => r end)
| re_again : forall n calls r, 0 < n -> read_to_end calls r -> read_to_end ((n, Err EInterrupted) :: calls) r
| re_fail : forall n e, 0 < n -> e <> EInterrupted -> read_to_end [(n, Err e)] (Err e).

(** The calls of [read] in a piece of history (newest event first), oldest first. *)
Fixpoint calls_of (tr : list event) : list (nat * result (list byte)) :=
  match tr with
  | [] => []
  | EvRead _ n _ r :: t => calls_of t ++ [(n, r)]
  | _ :: t => calls_of t
  end.

Definition only_reads (tr : list event) : Prop := forall from r, ~ In (EvSeek from r) tr.

(** ** [BufReader] *)

(** The buffer: the bytes filled in and the position in them. *)
Record bufr := mkBuf { br_buf : list byte; br_pos : nat }.
Definition no_buf : bufr := mkBuf [] 0.
Definition rest (b : bufr) : nat := length (br_buf b) - br_pos b.

(** Calls of the user; [URel]: [seek_relative]. *)
Inductive uop := URead (n : nat) | USeek (from : seek_from) | URel (d : Z).

(** What the reader does with the result of the call it has made.
    - [BFill n]: [fill_buf], then hand out up to [n] bytes.
    - [BDirect n]: a read as large as the buffer goes past it.
    - [BSeek from]: the last seek of a [seek].
    - [BBack d]: the first of the two seeks for an offset that cannot be corrected. *)
Inductive bpc := BIdle | BFill (n : nat) | BDirect (n : nat) | BSeek (from : seek_from) | BBack (d : Z).

(** The stream, the buffer, what the reader is doing, and the history of the user's calls. *)
Record bstate := mkB { b_s : gstate; b_buf : bufr; b_pc : bpc; b_hist : list event }.

Definition fits_i64 (z : Z) : bool := (- (two64 / 2) <=? z)%Z && (z <? two64 / 2)%Z.

(** A call of the stream. *)
Definition issue (c : cfg) (s : gstate) (o : op) (b : bufr) (pc : bpc) (h : list event) : option bstate :=
  match step c s (LOp o) with Some s' => Some (mkB s' b pc h) | None => None end.

(** [Read::read] of the buffer: up to [n] bytes of what is left. *)
Definition hand_out (s : gstate) (b : bufr) (n : nat) (waited : bool) (h : list event) : bstate :=
  let bs := firstn n (skipn (br_pos b) (br_buf b)) in
  mkB s (mkBuf (br_buf b) (br_pos b + length bs)) BIdle (EvRead (cursor h) n waited (Ok bs) :: h).

(** [BufReader::seek] *)
Definition b_seek (c : cfg) (st : bstate) (from : seek_from) : option bstate :=
  let b := b_buf st in
  match from with
  | FromCurrent d =>
      let o := (d - Z.of_nat (rest b))%Z in
      if fits_i64 o
      then issue c (b_s st) (OSeek (FromCurrent o)) b (BSeek from) (b_hist st)
      else issue c (b_s st) (OSeek (FromCurrent (- Z.of_nat (rest b)))) b (BBack d) (b_hist st)
  | _ => issue c (b_s st) (OSeek from) b (BSeek from) (b_hist st)
  end.

(** The user calls [read], [seek] or [seek_relative] of a [BufReader] with [cap] bytes. *)
Definition b_user (c : cfg) (cap : nat) (st : bstate) (u : uop) : option bstate :=
  let b := b_buf st in
  match b_pc st, g_rpc (b_s st) with
  | BIdle, RIdle =>
      match u with
      | URead n =>
          if rest b =? 0
          then if cap <=? n
               then issue c (b_s st) (ORead n) no_buf (BDirect n) (b_hist st)
               else issue c (b_s st) (ORead cap) b (BFill n) (b_hist st)
          else Some (hand_out (b_s st) b n false (b_hist st))
      | USeek from => b_seek c st from
      | URel d =>
          let q := (Z.of_nat (br_pos b) + d)%Z in
          if (0 <=? q)%Z && (q <=? Z.of_nat (length (br_buf b)))%Z
          then Some (mkB (b_s st) (mkBuf (br_buf b) (Z.to_nat q)) BIdle
                         (EvSeek (FromCurrent d) (Ok (Z.to_nat (Z.of_nat (cursor (b_hist st)) + d))) :: b_hist st))
          else b_seek c st (FromCurrent d)
      end
  | _, _ => None
  end.

(** The call of the stream has returned, with event [e]. *)
Definition b_return (c : cfg) (s : gstate) (b : bufr) (pc : bpc) (h : list event) (e : event) : option bstate :=
  match pc, e with
  | BFill n, EvRead _ _ w (Ok bs) => Some (hand_out s (mkBuf bs 0) n w h)
  | BFill n, EvRead _ _ w r => Some (mkB s no_buf BIdle (EvRead (cursor h) n w r :: h))
  | BDirect n, EvRead _ _ w r => Some (mkB s b BIdle (EvRead (cursor h) n w r :: h))
  | BSeek from, EvSeek _ (Ok p) => Some (mkB s no_buf BIdle (EvSeek from (Ok p) :: h))
  | BSeek from, EvSeek _ r => Some (mkB s b BIdle (EvSeek from r :: h))
  | BBack d, EvSeek _ (Ok _) => issue c s (OSeek (FromCurrent d)) no_buf (BSeek (FromCurrent d)) h
  | BBack d, EvSeek _ r => Some (mkB s b BIdle (EvSeek (FromCurrent d) r :: h))
  | _, _ => None
  end.

(** [BSys l]: a step of the stream or of its task; [BUser u]: a call of the user. *)
Inductive blabel := BSys (l : label) | BUser (u : uop).

Definition bstep (c : cfg) (cap : nat) (st : bstate) (bl : blabel) : option bstate :=
  match bl with
  | BUser u => b_user c cap st u
  | BSys (LOp _) => None
  | BSys l =>
      match step c (b_s st) l with
      | Some s' =>
          match b_pc st, g_rpc s' with
          | BIdle, _ => Some (mkB s' (b_buf st) BIdle (b_hist st))
          | pc, RIdle =>
              match g_trace s' with
              | e :: _ => b_return c s' (b_buf st) pc (b_hist st) e
              | [] => None
              end
          | pc, _ => Some (mkB s' (b_buf st) pc (b_hist st))
          end
      | None => None
      end
  end.

Inductive breach (c : cfg) (cap : nat) (allow : gstate -> label -> Prop) (user : list event -> uop -> Prop) : bstate -> Prop :=
| breach_init : forall s, init c = Some s -> breach c cap allow user (mkB s no_buf BIdle [])
| breach_step : forall st bl st', breach c cap allow user st ->
    match bl with BSys l => allow (b_s st) l | BUser u => user (b_hist st) u end ->
    bstep c cap st bl = Some st' -> breach c cap allow user st'.

(** ** Users *)

(** As [roaming_client], for the calls of the user of the adaptor; positions fit 64 bits. *)
Definition roaming_user (c : cfg) (h : list event) (u : uop) : Prop :=
  let ok from :=
    seek_arg_ok from /\ (Z.of_nat (cursor h) < two64)%Z /\
    forall t, seek_target c (cursor h) from = Some t ->
      (Z.of_nat (fst (stretch h)) <= t < two64)%Z in
  match u with URead _ => True | USeek from => ok from | URel d => ok (FromCurrent d) end.

Definition reading_user (h : list event) (u : uop) : Prop :=
  match u with URead _ => True | _ => False end.

(** A read returns bytes of the resource from the client's position on, at most [n], and at
    least one unless there are none left. *)
Definition some_read_ok (c : cfg) (older : list event) (e : event) : Prop :=
  match e with
  | EvRead pos n _ (Ok bs) =>
      pos = cursor older /\ exists k, bs = slice (c_content c) pos k /\ k <= n /\ (0 < n -> 0 < k)
  | _ => True
  end.

(** ** Schedules *)

Fixpoint brun (c : cfg) (cap : nat) (st : bstate) (ls : list blabel) : option bstate :=
  match ls with
  | [] => Some st
  | l :: t => match bstep c cap st l with Some st' => brun c cap st' t | None => None end
  end.

Fixpoint ballowed (c : cfg) (cap : nat) (allow : gstate -> label -> Prop) (st : bstate) (ls : list blabel) : Prop :=
  match ls with
  | [] => True
  | l :: t => match l with BSys l => allow (b_s st) l | BUser _ => True end /\
              match bstep c cap st l with Some st' => ballowed c cap allow st' t | None => False end
  end.

(** Actions of the task and of the stream, and calls of the user, in a schedule. *)
Fixpoint sys_actions (ls : list blabel) : nat :=
  match ls with [] => 0 | BSys l :: t => (if action l then 1 else 0) + sys_actions t | _ :: t => sys_actions t end.
Fixpoint user_calls (ls : list blabel) : nat :=
  match ls with [] => 0 | BUser _ :: t => S (user_calls t) | _ :: t => user_calls t end.

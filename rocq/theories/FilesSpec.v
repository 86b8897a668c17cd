(** * What temporary-file storages promise, without the operating system *)

From Coq Require Import Arith Bool String List.
From Verif Require Import Base Storage Files.
Import ListNotations.
Local Open Scope nat_scope.
Local Open Scope list_scope.

(** Nothing from [o_fresh] on is in use. *)
Definition tidy (o : os) : Prop :=
  (forall x, o_fresh o <= x -> o_fd o x = None /\ o_desc o x = None) /\
  (forall p i, o_name o p = Some i -> i < o_fresh o).

(** [fd] belongs to one of the storages. *)
Definition owned (ts : list tstore) (fd : nat) : Prop :=
  exists k t, nth_error ts k = Some t /\
    ((exists nm buf, ts_reader t = Some (nm, buf) /\ n_fd nm = fd) \/ ts_writer t = Some fd).

(** What other processes, and the rest of this one, can do meanwhile: anything, including
    removing and reusing names, but they do not use the descriptors of the storages or write
    to their files. *)
Record elsewhere (ts : list tstore) (o o' : os) : Prop := mkElsewhere
  { el_tidy : tidy o'; el_fresh : o_fresh o <= o_fresh o';
    el_own : forall fd d e, owned ts fd -> o_fd o fd = Some d -> o_desc o d = Some e ->
      o_fd o' fd = Some d /\ o_desc o' d = Some e /\ o_data o' (d_file e) = o_data o (d_file e) }.

(** Executions: the operations on the storages with their results, oldest first. *)
Inductive truns (cap : nat) (o : os) : list (top * tres) -> os -> list tstore -> Prop :=
| tr_start : truns cap o [] o []
| tr_op : forall h o1 ts1 a r o2 ts2, truns cap o h o1 ts1 ->
    texec cap o1 ts1 a = Some (r, o2, ts2) -> truns cap o (h ++ [(a, r)]) o2 ts2
| tr_else : forall h o1 ts1 o2, truns cap o h o1 ts1 -> elsewhere ts1 o1 o2 ->
    truns cap o h o2 ts1.

(** Only the storages act. *)
Inductive tquiet (cap : nat) (o : os) : list (top * tres) -> os -> list tstore -> Prop :=
| tq_start : tquiet cap o [] o []
| tq_op : forall h o1 ts1 a r o2 ts2, tquiet cap o h o1 ts1 ->
    texec cap o1 ts1 a = Some (r, o2, ts2) -> tquiet cap o (h ++ [(a, r)]) o2 ts2.

(** ** The storages as Storage.v sees them: a list of files *)

Definition on_nth (fs : list tfile) (k : nat) (g : tfile -> tfile) : list tfile :=
  match nth_error fs k with Some f => set_nth fs k (g f) | None => fs end.

Definition file_op (cap : nat) (fs : list tfile) (ar : top * tres) : list tfile :=
  match fst ar with
  | TNew _ _ _ => match snd ar with ROpened true => fs ++ [file_new cap] | _ => fs end
  | TRead k n => on_nth fs k (fun f => snd (file_read n f))
  | TRseek k p => on_nth fs k (file_rseek p)
  | TTell k => on_nth fs k (fun f => file_rseek (file_rpos f) f)
  | TWrite k bs => on_nth fs k (file_write bs)
  | TWseek k p => on_nth fs k (file_wseek p)
  | TDropReader _ | TDropWriter _ => fs
  end.

(** The files after a history. *)
Definition files (cap : nat) (h : list (top * tres)) : list tfile :=
  fold_left (file_op cap) h [].

(** The result an operation has on those files. *)
Definition expected (fs : list tfile) (a : top) (r : tres) : Prop :=
  match a with
  | TNew _ _ _ => exists ok, r = ROpened ok
  | TRead k n =>
      exists f bs, nth_error fs k = Some f /\ fst (file_read n f) = Ok bs /\ r = RBytes bs
  | TRseek k p => nth_error fs k <> None /\ r = RPos p
  | TTell k => exists f, nth_error fs k = Some f /\ r = RPos (file_rpos f)
  | TWrite k bs => nth_error fs k <> None /\ r = RDone
  | TWseek k p => nth_error fs k <> None /\ r = RPos p
  | TDropReader k | TDropWriter k => nth_error fs k <> None /\ r = RDone
  end.

(** No builder keeps its files. *)
Definition cleans_up (h : list (top * tres)) : Prop :=
  forall t x rs r, In (TNew t x rs, r) h -> b_keep (builder_of t) = false.

(** The process is killed: its descriptors are closed, and that is all. *)
Definition close_reader (o : os) (t : tstore) : os :=
  match ts_reader t with Some (nm, _) => sys_close o (n_fd nm) | None => o end.
Definition close_writer (o : os) (t : tstore) : os :=
  match ts_writer t with Some w => sys_close o w | None => o end.
Definition killed (o : os) (ts : list tstore) : os :=
  fold_left (fun o t => close_writer (close_reader o t) t) ts o.

(** The half an operation needs has not been dropped. *)
Definition usable (ts : list tstore) (a : top) : Prop :=
  match a with
  | TNew _ _ _ => True
  | TRead k _ | TRseek k _ | TTell k | TDropReader k =>
      exists t, nth_error ts k = Some t /\ ts_reader t <> None
  | TWrite k _ | TWseek k _ | TDropWriter k =>
      exists t, nth_error ts k = Some t /\ ts_writer t <> None
  end.

(** The operations on the storage [k], and the file they make of an empty one. *)
Definition concerns (k : nat) (a : top) : bool :=
  match a with
  | TNew _ _ _ => false
  | TRead j _ | TRseek j _ | TTell j | TWrite j _ | TWseek j _ | TDropReader j | TDropWriter j => j =? k
  end.
Definition own_ops (k : nat) (h : list (top * tres)) : list top :=
  filter (concerns k) (map fst h).

(** Every half has been dropped. *)
Definition all_dropped (ts : list tstore) : Prop :=
  forall t, In t ts -> ts_reader t = None /\ ts_writer t = None.

(** As far as anyone can tell, nothing has happened: the same names for the same files with
    the same contents, the same descriptors with the same offsets. *)
Definition untouched (o o' : os) : Prop :=
  (forall p, o_name o' p = o_name o p) /\
  (forall p i, o_name o p = Some i -> o_data o' i = o_data o i) /\
  (forall fd, sys_desc o' fd = sys_desc o fd).

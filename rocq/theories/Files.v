(** * The files below temporary-file storage

    [Storage.v] takes for granted that the two halves of a temporary-file storage share their
    data, have positions of their own and touch nothing else.  Here this is what the
    operating system makes of the system calls of storage/temp.rs.  Trusted: the calls behave
    as POSIX says, and the crate [tempfile] as its documentation says. *)

From Coq Require Import Arith Bool String List.
From Verif Require Import Base Storage.
Import ListNotations.
Local Open Scope nat_scope.
Local Open Scope list_scope.

(** ** Files, names and descriptors (POSIX) *)

(** A directory and a name in it. *)
Definition path : Type := string * string.
Definition path_eqb (p q : path) : bool :=
  String.eqb (fst p) (fst q) && String.eqb (snd p) (snd q).

(** An open file description: the file, the offset, whether it was opened for appending, and
    how many descriptors refer to it. *)
Record descr := mkDescr { d_file : nat; d_off : nat; d_append : bool; d_refs : nat }.

(** Contents of the files, names, open file descriptions, descriptors; everything from
    [o_fresh] on is unused. *)
Record os := mkOs
  { o_data : nat -> list byte; o_name : path -> option nat; o_desc : nat -> option descr;
    o_fd : nat -> option nat; o_fresh : nat }.

Definition upd {V} (f : nat -> V) (k : nat) (v : V) : nat -> V :=
  fun x => if x =? k then v else f x.
Definition upd_name (f : path -> option nat) (k : path) (v : option nat) : path -> option nat :=
  fun x => if path_eqb x k then v else f x.

(** A descriptor and a description for the file [i], as [open] makes them. *)
Definition sys_open (o : os) (i : nat) (append : bool) : nat * os :=
  (o_fresh o,
   mkOs (o_data o) (o_name o)
        (upd (o_desc o) (S (o_fresh o)) (Some (mkDescr i 0 append 1)))
        (upd (o_fd o) (o_fresh o) (Some (S (o_fresh o)))) (S (S (o_fresh o)))).

(** [open(p, O_CREAT | O_EXCL | O_RDWR)], and [O_APPEND] if asked for. *)
Definition sys_create (o : os) (p : path) (append : bool) : option (nat * os) :=
  match o_name o p with
  | Some _ => None
  | None =>
      let i := o_fresh o in
      Some (sys_open (mkOs (upd (o_data o) i []) (upd_name (o_name o) p (Some i)) (o_desc o)
                           (o_fd o) (S i)) i append)
  end.

(** [open(p, O_RDWR)]. *)
Definition sys_open_path (o : os) (p : path) : option (nat * os) :=
  match o_name o p with Some i => Some (sys_open o i false) | None => None end.

(** [dup(fd)]: a second descriptor for the same description. *)
Definition sys_dup (o : os) (fd : nat) : option (nat * os) :=
  match o_fd o fd with
  | Some d =>
      match o_desc o d with
      | Some e =>
          Some (o_fresh o,
                mkOs (o_data o) (o_name o)
                     (upd (o_desc o) d (Some (mkDescr (d_file e) (d_off e) (d_append e) (S (d_refs e)))))
                     (upd (o_fd o) (o_fresh o) (Some d)) (S (o_fresh o)))
      | None => None
      end
  | None => None
  end.

(** [close(fd)]: the description goes with its last descriptor. *)
Definition sys_close (o : os) (fd : nat) : os :=
  match o_fd o fd with
  | Some d =>
      mkOs (o_data o) (o_name o)
           (match o_desc o d with
            | Some e =>
                upd (o_desc o) d
                    (if d_refs e <=? 1 then None
                     else Some (mkDescr (d_file e) (d_off e) (d_append e) (d_refs e - 1)))
            | None => o_desc o
            end)
           (upd (o_fd o) fd None) (o_fresh o)
  | None => o
  end.

(** [unlink(p)]. *)
Definition sys_unlink (o : os) (p : path) : os :=
  mkOs (o_data o) (upd_name (o_name o) p None) (o_desc o) (o_fd o) (o_fresh o).

(** The description behind a descriptor. *)
Definition sys_desc (o : os) (fd : nat) : option (nat * descr) :=
  match o_fd o fd with
  | Some d => match o_desc o d with Some e => Some (d, e) | None => None end
  | None => None
  end.

Definition set_off (o : os) (d : nat) (e : descr) (p : nat) : os :=
  mkOs (o_data o) (o_name o)
       (upd (o_desc o) d (Some (mkDescr (d_file e) p (d_append e) (d_refs e))))
       (o_fd o) (o_fresh o).

(** [read(fd, n)]. *)
Definition sys_read (o : os) (fd n : nat) : option (list byte * os) :=
  match sys_desc o fd with
  | Some (d, e) =>
      let bs := slice (o_data o (d_file e)) (d_off e) n in
      Some (bs, set_off o d e (d_off e + length bs))
  | None => None
  end.

(** [write(fd, bs)]: at the offset, or at the end of the file if it was opened for
    appending.  What lies between the end and the offset becomes zeros. *)
Definition sys_write (o : os) (fd : nat) (bs : list byte) : option os :=
  match sys_desc o fd with
  | Some (d, e) =>
      match bs with
      | [] => Some o
      | _ =>
          let at_ := if d_append e then length (o_data o (d_file e)) else d_off e in
          let o1 := set_off o d e (at_ + length bs) in
          Some (mkOs (upd (o_data o) (d_file e) (overwrite (o_data o (d_file e)) at_ bs))
                     (o_name o1) (o_desc o1) (o_fd o1) (o_fresh o1))
      end
  | None => None
  end.

(** [lseek(fd, p, SEEK_SET)], and the current offset. *)
Definition sys_seek (o : os) (fd p : nat) : option os :=
  match sys_desc o fd with Some (d, e) => Some (set_off o d e p) | None => None end.
Definition sys_off (o : os) (fd : nat) : option nat :=
  match sys_desc o fd with Some (_, e) => Some (d_off e) | None => None end.

(** ** The crate [tempfile] *)

(** [tempfile::Builder]: directory (none: the default one), prefix, suffix, whether to open
    for appending, whether to keep the file. *)
Record builder := mkBuilder
  { b_dir : option string; b_prefix : string; b_suffix : string; b_append : bool; b_keep : bool }.

Definition new_builder : builder := mkBuilder None ".tmp"%string ""%string false false.

(** [NamedTempFile]: descriptor, name, whether the name stays when it is dropped. *)
Record named := mkNamed { n_fd : nat; n_path : path; n_keep : bool }.

Definition default_dir : string := "/tmp"%string.

Definition temp_path (b : builder) (random : string) : path :=
  (match b_dir b with Some d => d | None => default_dir end,
   String.append (b_prefix b) (String.append random (b_suffix b))).

(** [Builder::tempfile]: names are made up ([randoms]) until one is not in use. *)
Fixpoint tempfile (o : os) (b : builder) (randoms : list string) : option (named * os) :=
  match randoms with
  | [] => None
  | r :: t =>
      match sys_create o (temp_path b r) (b_append b) with
      | Some (fd, o') => Some (mkNamed fd (temp_path b r) (b_keep b), o')
      | None => tempfile o b t
      end
  end.

(** The file behind a descriptor. *)
Definition same_file (o : os) (fd1 fd2 : nat) : bool :=
  match sys_desc o fd1, sys_desc o fd2 with
  | Some (_, e1), Some (_, e2) => d_file e1 =? d_file e2
  | _, _ => false
  end.

(** [NamedTempFile::reopen]: opens the name again; an error if it names another file by
    now. *)
Definition reopen (o : os) (nm : named) : option nat * os :=
  match sys_open_path o (n_path nm) with
  | Some (fd, o') =>
      if same_file o' fd (n_fd nm) then (Some fd, o') else (None, sys_close o' fd)
  | None => (None, o)
  end.

(** Dropping a [NamedTempFile] removes the name and closes the file. *)
Definition drop_named (o : os) (nm : named) : os :=
  sys_close (if n_keep nm then o else sys_unlink o (n_path nm)) (n_fd nm).

(** ** storage/temp.rs *)

(** [TempStorageProvider] (temp.rs:26-31).  Simplification: the function given to
    [with_tempfile_builder] configures a [tempfile::Builder] and calls it, as in the example
    of the documentation. *)
Record temp_provider := mkTemp
  { t_dir : option string; t_prefix : option string; t_fn : option builder }.

(** The constructors (temp.rs:33-101). *)
Definition temp_new : temp_provider := mkTemp None None None.
Definition temp_new_in (dir : string) : temp_provider := mkTemp (Some dir) None None.
Definition temp_with_prefix (prefix : string) : temp_provider := mkTemp None (Some prefix) None.
Definition temp_with_prefix_in (prefix dir : string) : temp_provider :=
  mkTemp (Some dir) (Some prefix) None.
Definition temp_with_builder (b : builder) : temp_provider := mkTemp None None (Some b).

(** How the file is made (temp.rs:111-123). *)
Definition builder_of (t : temp_provider) : builder :=
  match t_fn t with
  | Some b => b
  | None =>
      mkBuilder (t_dir t)
                (match t_prefix t with Some p => p | None => b_prefix new_builder end)
                (b_suffix new_builder) (b_append new_builder) (b_keep new_builder)
  end.

(** Which of the system calls fail for reasons of their own. *)
Record faults := mkFaults { x_create : bool; x_reopen : bool; x_clone : bool }.

(** [into_reader_writer] (temp.rs:107-134): the reading half is the [NamedTempFile], the
    writing half a duplicate of a second opening of it, which is closed at the end.  On an
    error what has been opened is dropped. *)
Definition temp_open (t : temp_provider) (x : faults) (randoms : list string) (o : os)
  : option (named * nat) * os :=
  match (if x_create x then None else tempfile o (builder_of t) randoms) with
  | None => (None, o)
  | Some (nm, o1) =>
      match (if x_reopen x then (None, o1) else reopen o1 nm) with
      | (None, o2) => (None, drop_named o2 nm)
      | (Some h, o2) =>
          match (if x_clone x then None else sys_dup o2 h) with
          | None => (None, sys_close (drop_named o2 nm) h)
          | Some (w, o3) => (Some (nm, w), sys_close o3 h)
          end
      end
  end.

(** A storage: the reading half ([BufReader] over the file: its unread buffer) and the writing
    half, as long as they have not been dropped. *)
Record tstore := mkTs { ts_reader : option (named * list byte); ts_writer : option nat }.

(** ** A process with any number of storages *)

Inductive top :=
| TNew (t : temp_provider) (x : faults) (randoms : list string)
| TRead (k n : nat) | TRseek (k p : nat) | TTell (k : nat)
| TWrite (k : nat) (bs : list byte) | TWseek (k p : nat)
| TDropReader (k : nat) | TDropWriter (k : nat).

Inductive tres := ROpened (ok : bool) | RBytes (bs : list byte) | RPos (p : nat) | RDone.

Definition set_nth {A} (l : list A) (k : nat) (a : A) : list A :=
  firstn k l ++ a :: skipn (S k) l.

(** One operation on one storage.  [cap]: the capacity of a [BufReader].
    [TRead] (temp.rs:143-147, [BufReader::read]), [TRseek] and [TTell] (temp.rs:149-153,
    [BufReader::seek] from the start, and by 0 from the current position), [TWrite] and
    [TWseek] ([File]), the drops. *)
Definition texec (cap : nat) (o : os) (ts : list tstore) (a : top)
  : option (tres * os * list tstore) :=
  match a with
  | TNew t x randoms =>
      match temp_open t x randoms o with
      | (Some (nm, w), o') => Some (ROpened true, o', ts ++ [mkTs (Some (nm, [])) (Some w)])
      | (None, o') => Some (ROpened false, o', ts)
      end
  | TRead k n =>
      match nth_error ts k with
      | Some (mkTs (Some (nm, buf)) w) =>
          match buf with
          | [] =>
              if cap <=? n then
                match sys_read o (n_fd nm) n with
                | Some (bs, o') => Some (RBytes bs, o', set_nth ts k (mkTs (Some (nm, [])) w))
                | None => None
                end
              else
                match sys_read o (n_fd nm) cap with
                | Some (bs, o') =>
                    Some (RBytes (firstn n bs), o', set_nth ts k (mkTs (Some (nm, skipn n bs)) w))
                | None => None
                end
          | _ => Some (RBytes (firstn n buf), o, set_nth ts k (mkTs (Some (nm, skipn n buf)) w))
          end
      | _ => None
      end
  | TRseek k p =>
      match nth_error ts k with
      | Some (mkTs (Some (nm, _)) w) =>
          match sys_seek o (n_fd nm) p with
          | Some o' => Some (RPos p, o', set_nth ts k (mkTs (Some (nm, [])) w))
          | None => None
          end
      | _ => None
      end
  | TTell k =>
      match nth_error ts k with
      | Some (mkTs (Some (nm, buf)) w) =>
          match sys_off o (n_fd nm) with
          | Some off =>
              match sys_seek o (n_fd nm) (off - length buf) with
              | Some o' =>
                  Some (RPos (off - length buf), o', set_nth ts k (mkTs (Some (nm, [])) w))
              | None => None
              end
          | None => None
          end
      | _ => None
      end
  | TWrite k bs =>
      match nth_error ts k with
      | Some (mkTs _ (Some w)) =>
          match sys_write o w bs with Some o' => Some (RDone, o', ts) | None => None end
      | _ => None
      end
  | TWseek k p =>
      match nth_error ts k with
      | Some (mkTs _ (Some w)) =>
          match sys_seek o w p with Some o' => Some (RPos p, o', ts) | None => None end
      | _ => None
      end
  | TDropReader k =>
      match nth_error ts k with
      | Some (mkTs (Some (nm, _)) w) => Some (RDone, drop_named o nm, set_nth ts k (mkTs None w))
      | _ => None
      end
  | TDropWriter k =>
      match nth_error ts k with
      | Some (mkTs r (Some w)) => Some (RDone, sys_close o w, set_nth ts k (mkTs r None))
      | _ => None
      end
  end.

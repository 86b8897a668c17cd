(** * Specification of registry matching. *)

From Coq Require Import List Arith Bool String Ascii.
From Verif Require Import Registry.
Import ListNotations.
Local Open Scope string_scope.

(** What a single condition accepts. *)
Definition matcher_accepts (m : matcher) (s : string) : Prop :=
  match m with MRegex f => f s = true | MString t => t = s end.

(** An "any" condition accepts everything, even a missing value; the others need one. *)
Definition condition_accepts (t : match_type) (v : option string) : Prop :=
  match t with
  | MTAny => True
  | MTValue m => exists s, v = Some s /\ matcher_accepts m s
  end.

(** A rule other than a prefix rule accepts a URL, or a string that is not a URL. *)
Definition accepts_source {U} (r : rule) (src : source U) : Prop :=
  match r, src with
  | RUrl sch dom, SUrl u =>
      condition_accepts sch (Some (url_scheme U u)) /\ condition_accepts dom (url_domain U u)
  | RString t, SString s => condition_accepts t (Some s)
  | _, _ => False
  end.

(** [src] is how the text [s] is understood: as the URL it denotes, else as itself. *)
Definition understood {U} (s : string) (src : source U) : Prop :=
  match src with
  | SUrl u => url_parse U s = Some u
  | SString t => t = s /\ url_parse U s = None
  end.

(** A rule accepts an input. *)
Definition rule_accepts {U} (r : rule) (it : input_type U) : Prop :=
  match it with
  | IRaw s =>
      match r with
      | RPrefix p => exists rest, s = p ++ rest
      | _ => exists src : source U, understood s src /\ accepts_source r src
      end
  | IParsed i =>
      match r with
      | RPrefix p => in_prefix i = Some p
      | _ => accepts_source r (in_source i)
      end
  end.

(** An entry matches if one of its rules accepts. *)
Definition entry_matches {U} (e : entry) (it : input_type U) : Prop :=
  exists r, In r (e_rules e) /\ rule_accepts r it.

(** Rules for URLs, for strings that are not URLs, and for prefixes. *)
Definition url_rule (r : rule) : Prop := match r with RUrl _ _ => True | _ => False end.
Definition string_rule (r : rule) : Prop := match r with RString _ => True | _ => False end.
Definition prefix_rule (r : rule) : Prop := match r with RPrefix _ => True | _ => False end.

(** Entry [e], inserted as number [i], comes before the others: smaller priority, or equal priority and inserted no later. *)
Definition no_later (i : nat) (e : entry) : nat -> entry -> Prop :=
  fun j e' => e_priority e < e_priority e' \/ (e_priority e = e_priority e' /\ i <= j).

(** A fragment of the WHATWG URL rules, enough to exhibit behaviour of the [url] crate:
    [scheme://host] or [scheme://host/path] with a non-empty host of letters and dots;
    printing adds the "/" of an empty path, as the [url] crate does. *)
Definition letter (c : ascii) : bool :=
  let n := nat_of_ascii c in (Nat.leb 97 n && Nat.leb n 122) || Nat.eqb n 46.

Fixpoint take_letters (s : string) : string * string :=
  match s with
  | String c s' => if letter c then let (a, b) := take_letters s' in (String c a, b) else ("", s)
  | EmptyString => ("", "")
  end.

Definition mini_parse (s : string) : option (string * string * string) :=
  let (scheme, r) := take_letters s in
  if String.eqb scheme "" then None else
  match strip_prefix "://" r with
  | None => None
  | Some r =>
      let (host, r) := take_letters r in
      if String.eqb host "" then None else
      match r with
      | EmptyString => Some (scheme, host, "/")
      | String "/" _ => Some (scheme, host, r)
      | _ => None
      end
  end.

Definition mini_url : url_lib :=
  mkUrlLib (string * string * string) mini_parse
    (fun u => let '(s, h, p) := u in s ++ "://" ++ h ++ p)
    (fun u => let '(s, _, _) := u in s)
    (fun u => let '(_, h, _) := u in Some h).

(** * ContentType: the content type of an HTTP stream (http/mod.rs:94-101, 204-242).

    The header value is parsed by the crate [mediatype] (version 0.23), which is not part of
    the repository: [media_parse] follows its documentation (names of RFC 6838, a structured
    suffix kept apart from the subtype).  Its check of the parameters is left open:
    [params_ok] says whether it accepts what follows the names. *)

From Coq Require Import List Arith ZArith Bool String Ascii.
From Verif Require Import Base Http HttpRaw.
Import ListNotations.
Local Open Scope string_scope.

(** RFC 6838, section 4.2: a letter or digit, then letters, digits and a few signs. *)
Definition alnum (c : ascii) : bool :=
  let n := N_of_ascii c in
  ((48 <=? n) && (n <=? 57) || (65 <=? n) && (n <=? 90) || (97 <=? n) && (n <=? 122))%N.
Definition sign (c : ascii) : bool :=
  existsb (Ascii.eqb c) ["!"; "#"; "$"; "&"; "-"; "^"; "_"; "."]%char.
Definition name_char (c : ascii) : bool := alnum c || sign c.
Fixpoint all_chars (p : ascii -> bool) (s : string) : bool :=
  match s with EmptyString => true | String c s => p c && all_chars p s end.
Definition name_ok (s : string) : bool :=
  match s with EmptyString => false | String c r => alnum c && all_chars name_char r end.

(** The text before the first character with [p], and the rest from it on. *)
Fixpoint split_first (p : ascii -> bool) (s : string) : string * string :=
  match s with
  | EmptyString => (EmptyString, EmptyString)
  | String c r => if p c then (EmptyString, s)
                  else let '(a, b) := split_first p r in (String c a, b)
  end.

(** The text before and after the last plus sign. *)
Fixpoint split_plus (s : string) : option (string * string) :=
  match s with
  | EmptyString => None
  | String c r =>
      match split_plus r with
      | Some (a, b) => Some (String c a, b)
      | None => if Ascii.eqb c "+" then Some (EmptyString, r) else None
      end
  end.

Record media_type := mkMedia { mt_ty : string; mt_subty : string; mt_suffix : option string }.

Definition is_slash (c : ascii) : bool := Ascii.eqb c "/".
Definition ends_name (c : ascii) : bool :=
  Ascii.eqb c ";" || Ascii.eqb c " " || Ascii.eqb c "009".

(** [MediaTypeBuf::from_str], used at http/mod.rs:227. *)
Definition media_parse (params_ok : string -> bool) (s : string) : option media_type :=
  let '(ty, r) := split_first is_slash s in
  match r with
  | EmptyString => None
  | String _ r =>
      let '(sub, tail) := split_first ends_name r in
      if name_ok ty && params_ok tail then
        match split_plus sub with
        | None => if name_ok sub then Some (mkMedia ty sub None) else None
        | Some (a, b) =>
            if name_ok a && name_ok b then Some (mkMedia ty a (Some b)) else None
        end
      else None
  end.

(** [ContentType] (http/mod.rs:94-101): type and subtype, as filled in by [HttpStream::new]
    (http/mod.rs:220-241) from the header (http/reqwest_client.rs:71-73). *)
Definition content_type (params_ok : string -> bool) (r : raw_response) : option (string * string) :=
  match get_header_str (raw_headers r) "content-type" with
  | None => None
  | Some v => match media_parse params_ok v with
              | Some m => Some (mt_ty m, mt_subty m)
              | None => None
              end
  end.

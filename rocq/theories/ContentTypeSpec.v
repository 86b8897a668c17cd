(** * Specification of content types (RFC 6838, RFC 9110 section 8.3). *)

From Coq Require Import List Bool String Ascii.
From Verif Require Import Base HttpRaw HttpRawSpec.
Import ListNotations.
Local Open Scope string_scope.

(** The characters of type and subtype names (RFC 6838, section 4.2), without the plus sign,
    which separates the structured suffix. *)
Definition letters_and_digits : string :=
  "abcdefghijklmnopqrstuvwxyzABCDEFGHIJKLMNOPQRSTUVWXYZ0123456789".
Definition name_characters : string := letters_and_digits ++ "!#$&-^_.".

Fixpoint chars (s : string) : list ascii :=
  match s with EmptyString => [] | String c s => c :: chars s end.

Definition name (s : string) : Prop :=
  match chars s with
  | [] => False
  | c :: r => In c (chars letters_and_digits) /\ forall x, In x r -> In x (chars name_characters)
  end.

(** What may follow the names in a header value: nothing, or parameters. *)
Definition parameters (s : string) : Prop :=
  match s with EmptyString => True | String c _ => In c [";"; " "; "009"]%char end.

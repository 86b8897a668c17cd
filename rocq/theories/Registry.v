(** * Registry: rules, inputs and entry selection (crates/stream-download/src/registry).

    The crates [url] and [regex] are parameters: a [url_lib] is any parser and printer
    of URLs, a regex any predicate on strings.  Handlers are identified by a number, and
    a handler call is represented by the entry and the input it gets. *)

From Coq Require Import List Arith Bool String Ascii.
Import ListNotations.
Local Open Scope string_scope.

(** What the crate uses of [url::Url]: [Url::parse], [Display], [scheme()], [domain()]
    (registry/mod.rs:108, 118; matcher.rs:214). *)
Record url_lib := mkUrlLib {
  url : Type;
  url_parse : string -> option url;
  url_show : url -> string;
  url_scheme : url -> string;
  url_domain : url -> option string }.

(** [Matcher] (matcher.rs:29-34). *)
Inductive matcher := MRegex (f : string -> bool) | MString (s : string).

(** [Matcher::is_match] (matcher.rs:37-42). *)
Definition is_match (m : matcher) (search : string) : bool :=
  match m with MRegex f => f search | MString s => String.eqb s search end.

(** [MatchType] (matcher.rs:7-10). *)
Inductive match_type := MTAny | MTValue (m : matcher).

(** [MatchType::matches_input] (matcher.rs:13-24). *)
Definition type_matches (t : match_type) (input : option string) : bool :=
  match t with
  | MTAny => true
  | MTValue m => match input with Some s => is_match m s | None => false end
  end.

(** [Rule] with its three matcher structs (matcher.rs:65-72, 174-176, 194-196, 207-210). *)
Inductive rule :=
| RPrefix (prefix : string)
| RString (t : match_type)
| RUrl (scheme domain : match_type).

(** [http_regex], [^https?$] (matcher.rs:167-170). *)
Definition http_regex (s : string) : bool := String.eqb s "http" || String.eqb s "https".

(** The constructors of [Rule] (matcher.rs:77-164). *)
Definition rule_prefix (p : string) := RPrefix p.
Definition rule_string (m : matcher) := RString (MTValue m).
Definition rule_any_string := RString MTAny.
Definition rule_any_url := RUrl MTAny MTAny.
Definition rule_url_scheme (m : matcher) := RUrl (MTValue m) MTAny.
Definition rule_any_http := RUrl (MTValue (MRegex http_regex)) MTAny.
Definition rule_url_domain (m : matcher) := RUrl MTAny (MTValue m).
Definition rule_http_domain (m : matcher) := RUrl (MTValue (MRegex http_regex)) (MTValue m).
Definition rule_url (s d : matcher) := RUrl (MTValue s) (MTValue d).

(** [str::starts_with], returning the rest on success (matcher.rs:180). *)
Fixpoint strip_prefix (p s : string) : option string :=
  match p, s with
  | EmptyString, _ => Some s
  | String a p', String b s' => if Ascii.eqb a b then strip_prefix p' s' else None
  | String _ _, EmptyString => None
  end.

(** [s.replacen(pat, "", 1)]: removes the first occurrence of [pat], wherever it is
    (matcher.rs:181). *)
Fixpoint remove_first (pat s : string) : string :=
  match strip_prefix pat s with
  | Some rest => rest
  | None => match s with
            | EmptyString => EmptyString
            | String c s' => String c (remove_first pat s')
            end
  end.

(** [PrefixMatcher::match_input] (matcher.rs:179-185). *)
Definition prefix_match_input (prefix input : string) : option string :=
  match strip_prefix prefix input with
  | Some _ => Some (remove_first prefix input)
  | None => None
  end.

Section WithUrls.
Variable U : url_lib.

(** [Source] (registry/mod.rs:99-104). *)
Inductive source := SUrl (u : url U) | SString (s : string).

(** [From<String> for Source] (registry/mod.rs:106-113). *)
Definition source_from (s : string) : source :=
  match url_parse U s with Some u => SUrl u | None => SString s end.

(** [Display for Source] (registry/mod.rs:115-122). *)
Definition source_show (s : source) : string :=
  match s with SUrl u => url_show U u | SString s => s end.

(** [Source::try_into_url] and [try_into_string] (registry/mod.rs:135-140, 152-157), and
    [into_url] and [into_string] (147-149, 164-166), for which [None] is a panic. *)
Definition try_into_url (s : source) : option (url U) :=
  match s with SUrl u => Some u | SString _ => None end.
Definition try_into_string (s : source) : option string :=
  match s with SString s => Some s | SUrl _ => None end.
Definition into_url (s : source) : option (url U) := try_into_url s.
Definition into_string (s : source) : option string := try_into_string s.

(** [From<Source> for String] (registry/mod.rs:124-131). *)
Definition string_from (s : source) : string :=
  match s with SUrl u => url_show U u | SString s => s end.

(** [Input] (registry/mod.rs:171-176). *)
Record input := mkInput { in_prefix : option string; in_source : source }.

(** [Input::into_raw] and [Display for Input] (registry/mod.rs:180-192). *)
Definition into_raw (i : input) : string :=
  match in_prefix i with Some p => p | None => "" end ++ source_show (in_source i).

(** [InputType] (registry/mod.rs:196-201). *)
Inductive input_type := IRaw (s : string) | IParsed (i : input).

(** [From<Input>] and [From<T: Into<String>>] for [InputType] (registry/mod.rs:203-217):
    the two constructors.  [find_match] uses them (line 259). *)

(** [PrefixMatcher::matches_parsed] (matcher.rs:187-189). *)
Definition prefix_matches_parsed (prefix : string) (i : input) : bool :=
  match in_prefix i with Some p => String.eqb p prefix | None => false end.

(** [UrlMatcher::matches_input] (matcher.rs:213-215). *)
Definition url_matches (scheme domain : match_type) (u : url U) : bool :=
  type_matches scheme (Some (url_scheme U u)) && type_matches domain (url_domain U u).

(** A registry entry: priority, rules, and the identity of its handler
    ([RegistryEntry], registry/mod.rs:87-95). *)
Record entry := mkEntry { e_priority : nat; e_rules : list rule; e_handler : nat }.

(** [Vec::sort_by_key]: a stable sort; here by insertion (registry/mod.rs:254). *)
Fixpoint insert_by_key (x : entry) (l : list entry) : list entry :=
  match l with
  | [] => [x]
  | y :: l' => if Nat.leb (e_priority x) (e_priority y) then x :: l else y :: insert_by_key x l'
  end.
Definition sort_by_key (l : list entry) : list entry := fold_right insert_by_key [] l.

(** [Registry::entry] (registry/mod.rs:249-256). *)
Definition add_entry (generators : list entry) (e : entry) : list entry :=
  sort_by_key (generators ++ [e]).

(** [Registry::new] followed by a chain of [entry] calls. *)
Definition registry (es : list entry) : list entry := fold_left add_entry es [].

(** The loop over the prefix rules for raw input (registry/mod.rs:275-283). *)
Fixpoint match_raw_prefix (rules : list rule) (raw : string) : option input :=
  match rules with
  | [] => None
  | RPrefix p :: rules' =>
      match prefix_match_input p raw with
      | Some rest => Some (mkInput (Some p) (source_from rest))
      | None => match_raw_prefix rules' raw
      end
  | _ :: rules' => match_raw_prefix rules' raw
  end.

(** The loop over the prefix rules for parsed input (registry/mod.rs:285-291). *)
Fixpoint match_parsed_prefix (rules : list rule) (i : input) : bool :=
  match rules with
  | [] => false
  | RPrefix p :: rules' => prefix_matches_parsed p i || match_parsed_prefix rules' i
  | _ :: rules' => match_parsed_prefix rules' i
  end.

(** [handle]: the URL or the string rules, depending on the source
    (registry/mod.rs:302-326). *)
Fixpoint match_source (rules : list rule) (s : source) : bool :=
  match rules with
  | [] => false
  | RUrl sch dom :: rules' =>
      match s with
      | SUrl u => url_matches sch dom u || match_source rules' s
      | SString _ => match_source rules' s
      end
  | RString t :: rules' =>
      match s with
      | SString id => type_matches t (Some id) || match_source rules' s
      | SUrl _ => match_source rules' s
      end
  | RPrefix _ :: rules' => match_source rules' s
  end.

(** The parsed form of the input (registry/mod.rs:264-270). *)
Definition parsed_of (it : input_type) : input :=
  match it with IRaw s => mkInput None (source_from s) | IParsed i => i end.

(** One round of the loop over the generators (registry/mod.rs:271-296): the input the
    handler of [e] is called with, if it is called. *)
Definition try_entry (e : entry) (it : input_type) : option input :=
  let by_prefix :=
    match it with
    | IRaw s => match_raw_prefix (e_rules e) s
    | IParsed i => if match_parsed_prefix (e_rules e) i then Some i else None
    end in
  match by_prefix with
  | Some i => Some i
  | None => if match_source (e_rules e) (in_source (parsed_of it)) then Some (parsed_of it) else None
  end.

(** [Registry::find_match] (registry/mod.rs:259-299). *)
Fixpoint find_match (generators : list entry) (it : input_type) : option (entry * input) :=
  match generators with
  | [] => None
  | e :: es => match try_entry e it with
               | Some i => Some (e, i)
               | None => find_match es it
               end
  end.
End WithUrls.

Arguments SUrl {U}.
Arguments SString {U}.
Arguments mkInput {U}.
Arguments in_prefix {U}.
Arguments in_source {U}.
Arguments IRaw {U}.
Arguments IParsed {U}.
Arguments find_match {U}.
Arguments try_entry {U}.
Arguments into_raw {U}.
Arguments try_into_url {U}.
Arguments try_into_string {U}.
Arguments into_url {U}.
Arguments into_string {U}.
Arguments string_from {U}.
Arguments parsed_of {U}.
Arguments source_show {U}.
Arguments match_source {U}.

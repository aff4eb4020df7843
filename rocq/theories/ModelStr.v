(** Strings used by Haiku for names: model of the regular expressions and
    string functions of [haiku/_src/module.py], [utils.py], [base.py].

    Python strings are modelled as Coq [string]s (sequences of 8-bit
    characters).  Characters outside ASCII are not modelled specially; every
    character class below is the ASCII one written in the source. *)
From Coq Require Import String Ascii List Bool NArith Decimal DecimalString DecimalN.
Import ListNotations.
Local Open Scope string_scope.
Local Open Scope bool_scope.

Definition between (lo hi c : ascii) : bool :=
  (N.leb (N_of_ascii lo) (N_of_ascii c)) && (N.leb (N_of_ascii c) (N_of_ascii hi)).

(** The character classes [a-z], [A-Z], [0-9] of the regular expressions. *)
Definition is_lower (c : ascii) : bool := between "a" "z" c.
Definition is_upper (c : ascii) : bool := between "A" "Z" c.
Definition is_digit (c : ascii) : bool := between "0" "9" c.
Definition is_alpha (c : ascii) : bool := is_lower c || is_upper c.
Definition is_under (c : ascii) : bool := Ascii.eqb c "_".

(** [a-zA-Z_] and [a-zA-Z0-9_]. *)
Definition ident_start (c : ascii) : bool := is_alpha c || is_under c.
Definition ident_char (c : ascii) : bool := is_alpha c || is_digit c || is_under c.

Definition newline : ascii := ascii_of_N 10.

(** Python's [$] (without MULTILINE) matches at the end of the string and also
    just before a newline that ends the string; [chomp] removes that newline. *)
Fixpoint chomp (s : string) : string :=
  match s with
  | EmptyString => EmptyString
  | String c EmptyString => if Ascii.eqb c newline then EmptyString else s
  | String c t => String c (chomp t)
  end.

Fixpoint all_chars (f : ascii -> bool) (s : string) : bool :=
  match s with
  | EmptyString => true
  | String c t => f c && all_chars f t
  end.

(** [^[a-zA-Z_]([a-zA-Z0-9_])*$] on a string without trailing newline. *)
Definition ident (s : string) : bool :=
  match s with
  | EmptyString => false
  | String c t => ident_start c && all_chars ident_char t
  end.

(** module.py:442-443 [_VALID_IDENTIFIER_R], [valid_identifier]. *)
Definition valid_identifier (name : string) : bool := ident (chomp name).

(** Decimal printing of a natural number, Python's [f"{n}"] for int n >= 0. *)
Definition str_of_N (n : N) : string := NilEmpty.string_of_uint (N.to_uint n).

(** [\d+] up to the end followed by [int(...)]. *)
Definition parse_digits (s : string) : option N :=
  match s with
  | EmptyString => None
  | _ => match NilEmpty.uint_of_string s with
         | Some d => Some (N.of_uint d)
         | None => None
         end
  end.

(** Leftmost match of [_(\d+)$] in a string without trailing newline:
    the text before the match and the number. *)
Fixpoint split_suffix (s : string) : option (string * N) :=
  match s with
  | EmptyString => None
  | String c t =>
      let rest := match split_suffix t with
                  | Some (b, n) => Some (String c b, n)
                  | None => None
                  end in
      if is_under c then
        match parse_digits t with
        | Some n => Some (EmptyString, n)
        | None => rest
        end
      else rest
  end.

(** module.py:576-583: [re.split(r"_(\d+)$", name, 3)] and the test on the
    number of pieces.  [Some (base, n)] if the user numbered the name.  A
    trailing newline (tolerated by [$]) ends up in the third piece and is
    dropped, hence [chomp]. *)
Definition explicit_number (name : string) : option (string * N) :=
  split_suffix (chomp name).

(** Python [str.lower] on ASCII. *)
Definition lower (c : ascii) : ascii :=
  if is_upper c then ascii_of_N (N_of_ascii c + 32) else c.

(** utils.py:245-246 [camel_to_snake]: an underscore is inserted before every
    upper-case letter that follows [a-z0-9], or that is not at the start and is
    followed by [a-z]; then everything is lower-cased.  [prev] is the previous
    character of the original string. *)
Fixpoint camel_aux (prev : option ascii) (s : string) : string :=
  match s with
  | EmptyString => EmptyString
  | String c t =>
      let after_lower := match prev with
                         | Some p => is_lower p || is_digit p
                         | None => false
                         end in
      let not_start := match prev with Some _ => true | None => false end in
      let before_lower := match t with String d _ => is_lower d | EmptyString => false end in
      let hit := is_upper c && (after_lower || (not_start && before_lower)) in
      if hit then String "_" (String (lower c) (camel_aux (Some c) t))
      else String (lower c) (camel_aux (Some c) t)
  end.
Definition camel_to_snake (s : string) : string := camel_aux None s.

(** Python [s.split("/")]: always at least one piece. *)
Fixpoint split_slash (s : string) : list string :=
  match s with
  | EmptyString => [EmptyString]
  | String c t =>
      if Ascii.eqb c "/" then EmptyString :: split_slash t
      else match split_slash t with
           | h :: r => String c h :: r
           | [] => [String c EmptyString]
           end
  end.

(** Python [s.rsplit("/", 1)] when it yields two pieces: the text before and
    after the last slash ([None]: no slash, unpacking raises). *)
Fixpoint rsplit_slash (s : string) : option (string * string) :=
  match s with
  | EmptyString => None
  | String c t =>
      match rsplit_slash t with
      | Some (a, b) => Some (String c a, b)
      | None => if Ascii.eqb c "/" then Some (EmptyString, t) else None
      end
  end.

(** Python [s.startswith(p)] and [s[len(p):]] together. *)
Fixpoint strip_prefix (p s : string) : option string :=
  match p, s with
  | EmptyString, _ => Some s
  | String a p', String b s' => if Ascii.eqb a b then strip_prefix p' s' else None
  | String _ _, EmptyString => None
  end.
Definition starts_with (p s : string) : bool :=
  match strip_prefix p s with Some _ => true | None => false end.

Definition has_char (c : ascii) (s : string) : bool :=
  negb (all_chars (fun d => negb (Ascii.eqb d c)) s).

(** What the regular expressions of [module.py] and [utils.py] mean, written with
    the character classes spelled out and with positions in the string; nothing here
    refers to [ModelStr]. *)
From Coq Require Import String Ascii List Bool NArith.
Import ListNotations.
Local Open Scope string_scope.

Definition lowers : string := "abcdefghijklmnopqrstuvwxyz".
Definition uppers : string := "ABCDEFGHIJKLMNOPQRSTUVWXYZ".
Definition digits : string := "0123456789".

(** [c] is one of the characters of [cls]. *)
Definition one_of (cls : string) (c : ascii) : bool := existsb (Ascii.eqb c) (list_ascii_of_string cls).

(** [re.match("^[a-zA-Z_]([a-zA-Z0-9_])*$", s)] when [$] is the end of [s]. *)
Definition identifier (s : string) : Prop :=
  exists c t, s = String c t /\ one_of (lowers ++ uppers ++ "_") c = true /\
    forall i d, String.get i t = Some d -> one_of (lowers ++ uppers ++ digits ++ "_") d = true.

(** The character of [s] at position [i] is in the class. *)
Definition at_ (s : string) (i : nat) (cls : string) : bool :=
  match String.get i s with Some c => one_of cls c | None => false end.

(** utils.py:245: position [i] is matched by
    [((?<=[a-z0-9])[A-Z]|(?!^)[A-Z](?=[a-z]))]. *)
Definition boundary (s : string) (i : nat) : bool :=
  at_ s i uppers &&
  match i with
  | 0 => false
  | S j => at_ s j (lowers ++ digits) || at_ s (S i) lowers
  end.

(** [str.lower] on one character: the letter at the same place of the alphabet. *)
Fixpoint same_place (from to : string) (c : ascii) : ascii :=
  match from, to with
  | String a f, String b t => if Ascii.eqb c a then b else same_place f t c
  | _, _ => c
  end.

Definition snake_piece (s : string) (i : nat) : string :=
  match String.get i s with
  | Some c => (if boundary s i then "_" else "") ++ String (same_place uppers lowers c) ""
  | None => ""
  end.

(** The value of a string of digits, most significant first. *)
Fixpoint place (cls : string) (c : ascii) : N :=
  match cls with
  | EmptyString => 0
  | String a t => if Ascii.eqb c a then 0 else N.succ (place t c)
  end.
Fixpoint decimal (ds : string) (acc : N) : N :=
  match ds with
  | EmptyString => acc
  | String c t => decimal t (10 * acc + place digits c)
  end.
Definition all_digits (s : string) : Prop := forall i d, String.get i s = Some d -> one_of digits d = true.

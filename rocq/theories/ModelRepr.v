(** The text of modules and of parameter mappings: [utils.auto_repr], [utils.fancy_repr], [utils.indent] (haiku/_src/utils.py:41-118),
    [FlatMapping.__str__], [_repr_item], [KeysOnlyKeysView.__repr__] (haiku/_src/data_structures.py:85-95, 123-126, 208-219, 277-289) and
    what they use of Python: [repr], [str.splitlines], [str.strip] and [pprint.pformat] of numbers, strings, lists and tuples.

    Simplifications.  Strings are sequences of characters below 256 (Latin-1).  A float is given by the decimal digits Python prints;
    floats printed with an exponent, [inf] and [nan] are not values of the model.  Every other object ([VOther]: functions, arrays,
    dictionaries) is given by its [repr], which is also its [pformat].  Objects contained in themselves are not modelled. *)
From Coq Require Import String Ascii List Bool Arith ZArith NArith.
From Verif Require Import ModelStr ModelUtils.
Import ListNotations.
Local Open Scope string_scope.
Local Open Scope nat_scope.
Local Open Scope bool_scope.

(** ** Strings of Python *)
Definition code (c : ascii) : nat := nat_of_ascii c.
Definition lf : string := String newline "".
Fixpoint spaces (n : nat) : string := match n with O => "" | S n => String " " (spaces n) end.
(** The line boundaries of [str.splitlines] below 256. *)
Definition line_break (c : ascii) : bool := ((10 <=? code c) && (code c <=? 13)) || ((28 <=? code c) && (code c <=? 30)) || (code c =? 133).
(** [str.isspace] of one character, also [\s] of regular expressions. *)
Definition is_space (c : ascii) : bool := line_break c || (code c =? 9) || (code c =? 31) || (code c =? 32) || (code c =? 160).
(** [str.splitlines(keep)]; [cur] is the beginning of the current line. *)
Fixpoint lines (keep : bool) (cur s : string) : list string :=
  match s with
  | "" => match cur with "" => [] | _ => [cur] end
  | String c t =>
      if line_break c then
        match t with
        | String d u => if (code c =? 13) && (code d =? 10) then (if keep then cur ++ String c (String d "") else cur) :: lines keep "" u
                        else (if keep then cur ++ String c "" else cur) :: lines keep "" t
        | "" => [if keep then cur ++ String c "" else cur]
        end
      else lines keep (cur ++ String c "") t
  end.
Definition splitlines (keep : bool) (s : string) : list string := lines keep "" s.
Fixpoint lstrip (s : string) : string := match s with "" => "" | String c t => if is_space c then lstrip t else s end.
Fixpoint rstrip (s : string) : string :=
  match s with
  | "" => ""
  | String c t => match rstrip t with "" => if is_space c then "" else String c "" | u => String c u end
  end.
Definition strip (s : string) : string := rstrip (lstrip s).
(** utils.py:115-118 [indent]. *)
Definition indent (amount : nat) (s : string) : string := String.concat lf (map (append (spaces amount)) (splitlines false s)).

(** ** [repr] of a string *)
Definition quote : ascii := "'".
Definition dquote : ascii := ascii_of_nat 34.
Definition backslash : ascii := "\".
Fixpoint contains (c : ascii) (s : string) : bool := match s with "" => false | String d t => Ascii.eqb d c || contains c t end.
Definition printable (c : ascii) : bool := ((32 <=? code c) && (code c <=? 126)) || ((161 <=? code c) && negb (code c =? 173)).
Definition hex (n : nat) : ascii := match String.get n "0123456789abcdef" with Some c => c | None => " " end.
Definition escape (q c : ascii) : string :=
  if Ascii.eqb c q || Ascii.eqb c backslash then String backslash (String c "")
  else if code c =? 10 then String backslash "n"
  else if code c =? 13 then String backslash "r"
  else if code c =? 9 then String backslash "t"
  else if printable c then String c ""
  else String backslash (String "x" (String (hex (code c / 16)) (String (hex (code c mod 16)) ""))).
Fixpoint escapes (q : ascii) (s : string) : string := match s with "" => "" | String c t => escape q c ++ escapes q t end.
Definition repr_str (s : string) : string :=
  let q := if contains quote s && negb (contains dquote s) then dquote else quote in String q (escapes q s) ++ String q "".

(** ** Values *)
Inductive value :=
| VNone
| VBool (b : bool)
| VInt (z : Z)
| VFloat (neg : bool) (whole : N) (fraction : string)
| VStr (s : string)
| VList (l : list value)
| VTuple (l : list value)
(** A module, by the name of its class and [names_and_values] of its construction (utils.py:79-86; [None] stands for the name ""). *)
| VModule (cls : string) (args : list (option string * value))
(** A [FlatMapping] (or [frozendict]), by the name of its class and its items. *)
| VMap (cls : string) (items : list (value * value))
| VOther (text : string).

Definition str_of_Z (z : Z) : string := (if (z <? 0)%Z then "-" else "") ++ str_of_N (Z.abs_N z).
Definition str_of_float (neg : bool) (whole : N) (fraction : string) : string := (if neg then "-" else "") ++ str_of_N whole ++ "." ++ fraction.

(** ** [pprint.pformat], with the default width of 80 and one space of indentation
    The text of a value is its [repr] and what [PrettyPrinter._format] writes for it, given the current indentation, the columns to keep
    free behind it and whether it is the value given to [pformat] itself. *)
Definition layout := nat -> nat -> bool -> string.
(** [_format] (here for the types it has a function for): the [repr] if there is room for it. *)
Definition fits (rep : string) (i allowance : nat) : bool := String.length rep + i + allowance <=? 80.
(** [_format_items]. *)
Fixpoint format_items (l : list layout) (i allowance : nat) : string :=
  match l with
  | [] => ""
  | [f] => f i allowance false
  | f :: l => f i 1 false ++ "," ++ lf ++ spaces i ++ format_items l i allowance
  end.
(** [re.findall(r'\S*\s*', line)] without the last, empty match; [gap] tells whether white space has begun. *)
Fixpoint words (cur : string) (gap : bool) (s : string) : list string :=
  match s with
  | "" => match cur with "" => [] | _ => [cur] end
  | String c t => if gap && negb (is_space c) then cur :: words (String c "") false t else words (cur ++ String c "") (is_space c) t
  end.
(** The pieces of a line that does not fit; [extra] is what is kept free behind the last one. *)
Fixpoint fill (i extra : nat) (current : string) (parts : list string) : list string :=
  match parts with
  | [] => match current with "" => [] | _ => [current] end
  | part :: parts =>
      let candidate := current ++ part in
      if String.length (repr_str candidate) + i + (match parts with [] => extra | _ => 0 end) <=? 80 then fill i extra candidate parts
      else match current with "" => fill i extra part parts | _ => current :: fill i extra part parts end
  end.
Fixpoint chunks (i allowance : nat) (ls : list string) : list string :=
  match ls with
  | [] => []
  | line :: ls =>
      let extra := match ls with [] => allowance | _ => 0 end in
      ((if String.length (repr_str line) + i + extra <=? 80 then [line] else fill i extra "" (words "" false line)) ++ chunks i allowance ls)%list
  end.
(** [_pprint_str]; [top] is [level == 1]. *)
Definition pprint_str (s : string) (i allowance : nat) (top : bool) : string :=
  match s with
  | "" => repr_str s
  | _ => let i := if top then S i else i in
         let allowance := if top then S allowance else allowance in
         let cs := map repr_str (chunks i allowance (splitlines true s)) in
         match cs with
         | [c] => c
         | _ => (if top then "(" else "") ++ String.concat (lf ++ spaces i) cs ++ (if top then ")" else "")
         end
  end.
Definition plain (rep : string) : string * layout := (rep, fun _ _ _ => rep).

(** ** The text of a constructor call
    utils.py:99-108 [fancy_repr]. *)
Definition fancy_repr (name : option string) (t : string * layout) : string :=
  let v := snd t 0 0 true in
  match name with
  | Some n => let n := n ++ "=" in n ++ strip (indent (String.length n) v)
  | None => v
  end.
Definition named (name : option string) (rep : string) : string := match name with Some n => n ++ "=" ++ rep | None => rep end.
(** utils.py:88-96, the end of [auto_repr]. *)
Definition call_text (cls : string) (args : list (option string * (string * layout))) : string :=
  let single_line := cls ++ "(" ++ String.concat ", " (map (fun p => named (fst p) (fst (snd p))) args) ++ ")" in
  if String.length single_line <=? 80 then single_line
  else cls ++ "(" ++ lf ++ indent 4 (String.concat ("," ++ lf) (map (fun p => fancy_repr (fst p) (snd p)) args)) ++ "," ++ lf ++ ")".
(** data_structures.py:123-126 [_repr_item]. *)
Definition repr_item (k v : string * layout) : string :=
  let k := fst k ++ ": " in k ++ lstrip (indent (String.length k) (snd v 0 0 true)).
(** data_structures.py:208-217 and 277-287. *)
Definition map_text (cls : string) (items : list ((string * layout) * (string * layout))) : string :=
  let single_line := cls ++ "({" ++ String.concat ", " (map (fun p => fst (fst p) ++ ": " ++ fst (snd p)) items) ++ "})" in
  if String.length single_line <=? 80 then single_line
  else cls ++ "({" ++ lf ++ indent 2 (String.concat ("," ++ lf) (map (fun p => repr_item (fst p) (snd p)) items)) ++ "," ++ lf ++ "})".

(** The [repr] and the [pformat] of a value. *)
Fixpoint render (v : value) : string * layout :=
  match v with
  | VNone => plain "None"
  | VBool b => plain (if b then "True" else "False")
  | VInt z => plain (str_of_Z z)
  | VFloat neg whole fraction => plain (str_of_float neg whole fraction)
  | VStr s => (repr_str s, fun i a top => if fits (repr_str s) i a then repr_str s else pprint_str s i a top)
  | VList l =>
      let ts := map render l in
      let rep := "[" ++ String.concat ", " (map fst ts) ++ "]" in
      (rep, fun i a _ => if fits rep i a then rep else "[" ++ format_items (map snd ts) (S i) (S a) ++ "]")
  | VTuple l =>
      let ts := map render l in
      let close := match l with [_] => ",)" | _ => ")" end in
      let rep := "(" ++ String.concat ", " (map fst ts) ++ close in
      (rep, fun i a _ => if fits rep i a then rep else "(" ++ format_items (map snd ts) (S i) (a + String.length close) ++ close)
  | VModule cls args => plain (call_text cls (map (fun p => let '(n, v) := p in (n, render v)) args))
  | VMap cls items => plain (map_text cls (map (fun p => let '(k, v) := p in (render k, render v)) items))
  | VOther text => plain text
  end.
Definition repr (v : value) : string := fst (render v).
Definition pformat (v : value) : string := snd (render v) 0 0 true.

(** data_structures.py:92-93, [KeysOnlyKeysView.__repr__]. *)
Definition keys_text (cls : string) (keys : list value) : string := cls ++ "(" ++ repr (VList keys) ++ ")".

(** ** [compare_or_false] (utils.py:30-38)
    Booleans, integers and floats are compared as numbers, a list is never equal to a tuple.  Modules compare by identity, and the
    default of a parameter is not a module made by the caller. *)
Definition number (v : value) : option (bool * N * string) :=
  match v with
  | VBool b => Some (false, if b then 1%N else 0%N, "0")
  | VInt z => Some ((z <? 0)%Z, Z.abs_N z, "0")
  | VFloat neg whole fraction => Some (neg && negb ((whole =? 0)%N && (fraction =? "0")%string), whole, fraction)
  | _ => None
  end.
Fixpoint same (v w : value) : bool :=
  match number v, number w with
  | Some (n1, w1, f1), Some (n2, w2, f2) => Bool.eqb n1 n2 && (w1 =? w2)%N && (f1 =? f2)%string
  | None, None =>
      match v, w with
      | VNone, VNone => true
      | VStr s, VStr t => (s =? t)%string
      | VList l, VList m | VTuple l, VTuple m =>
          (fix all (l m : list value) : bool := match l, m with
           | [], [] => true
           | v :: l, w :: m => same v w && all l m
           | _, _ => false
           end) l m
      | VMap _ l, VMap _ m =>
          (fix all (l m : list (value * value)) : bool := match l, m with
           | [], [] => true
           | (k, v) :: l, (j, w) :: m => same k j && same v w && all l m
           | _, _ => false
           end) l m
      | VOther s, VOther t => (s =? t)%string
      | _, _ => false
      end
  | _, _ => false
  end.

(** utils.py:41-96 [auto_repr]; [None] where [inspect.getcallargs] raises. *)
Definition auto_repr (cls : string) (s : signature value) (args : list value) (kwargs : list (string * value)) : option string :=
  option_map (fun l => repr (VModule cls l)) (shown same s args kwargs).

(** integration/checkpoint_utils.py:32-35, [module_name]: [str.split("\n")] of the text. *)
Fixpoint split_newline (cur s : string) : list string :=
  match s with "" => [cur] | String c t => if Ascii.eqb c newline then cur :: split_newline "" t else split_newline (cur ++ String c "") t end.

(** ** Reading such a text
    The part of Python's grammar that these texts use: names, numbers, string literals (with escapes; adjacent literals are joined),
    lists, tuples, expressions in parentheses, calls [Name(...)] and [Name({...})]; white space between tokens is skipped. *)
Inductive token := TName (s : string) | TNum (s : string) | TStr (s : string) | TSym (c : ascii).
Inductive mode := MSkip | MName (s : string) | MNum (s : string) | MStr (q : ascii) (s : string) | MEsc (q : ascii) (s : string)
| MHex (q : ascii) (s : string) (high : option nat).
Definition symbol (c : ascii) : bool := contains c "()[]{},:=-".
Definition blank (c : ascii) : bool := (code c =? 32) || (code c =? 10).
Definition hex_value (c : ascii) : option nat :=
  if is_digit c then Some (code c - 48) else if between "a" "f" c then Some (code c - 87) else None.
Definition begin (c : ascii) : option (list token * mode) :=
  if blank c then Some ([], MSkip)
  else if ident_start c then Some ([], MName (String c ""))
  else if is_digit c then Some ([], MNum (String c ""))
  else if Ascii.eqb c quote || Ascii.eqb c dquote then Some ([], MStr c "")
  else if symbol c then Some ([TSym c], MSkip)
  else None.
Definition step (m : mode) (c : ascii) : option (list token * mode) :=
  match m with
  | MSkip => begin c
  | MName s => if ident_char c then Some ([], MName (s ++ String c "")) else option_map (fun p => (TName s :: fst p, snd p)) (begin c)
  | MNum s => if is_digit c || Ascii.eqb c "." then Some ([], MNum (s ++ String c "")) else option_map (fun p => (TNum s :: fst p, snd p)) (begin c)
  | MStr q s => if line_break c then None
                else if Ascii.eqb c q then Some ([TStr s], MSkip)
                else if Ascii.eqb c backslash then Some ([], MEsc q s) else Some ([], MStr q (s ++ String c ""))
  | MEsc q s => if Ascii.eqb c quote || Ascii.eqb c dquote || Ascii.eqb c backslash then Some ([], MStr q (s ++ String c ""))
                else if Ascii.eqb c "n" then Some ([], MStr q (s ++ lf))
                else if Ascii.eqb c "r" then Some ([], MStr q (s ++ String (ascii_of_nat 13) ""))
                else if Ascii.eqb c "t" then Some ([], MStr q (s ++ String (ascii_of_nat 9) ""))
                else if Ascii.eqb c "x" then Some ([], MHex q s None) else None
  | MHex q s None => option_map (fun h => ([], MHex q s (Some h))) (hex_value c)
  | MHex q s (Some h) => option_map (fun l => ([], MStr q (s ++ String (ascii_of_nat (16 * h + l)) ""))) (hex_value c)
  end.
Fixpoint scan (m : mode) (s : string) : option (list token * mode) :=
  match s with
  | "" => Some ([], m)
  | String c t => match step m c with
                  | None => None
                  | Some (a, m) => option_map (fun p => ((a ++ fst p)%list, snd p)) (scan m t)
                  end
  end.
Definition flush (m : mode) : option (list token) :=
  match m with MSkip => Some [] | MName s => Some [TName s] | MNum s => Some [TNum s] | _ => None end.
Definition lex (s : string) : option (list token) :=
  match scan MSkip s with Some (a, m) => option_map (app a) (flush m) | None => None end.

(** Elements up to the closing token; the flag tells whether they end with a comma. *)
Fixpoint p_seq {A} (p : list token -> option (A * list token)) (close : ascii) (fuel : nat) (ts : list token) : option (list A * bool * list token) :=
  match fuel with
  | O => None
  | S fuel =>
      let element := match p ts with
        | Some (a, TSym c :: r) =>
            if Ascii.eqb c close then Some ([a], false, r)
            else if Ascii.eqb c "," then
              match p_seq p close fuel r with
              | Some ([], _, r) => Some ([a], true, r)
              | Some (l, b, r) => Some (a :: l, b, r)
              | None => None
              end
            else None
        | _ => None
        end in
      match ts with
      | TSym c :: r => if Ascii.eqb c close then Some ([], false, r) else element
      | _ => element
      end
  end.
Fixpoint split_dot (s : string) : option (string * string) :=
  match s with "" => None | String c t => if Ascii.eqb c "." then Some ("", t) else option_map (fun p => (String c (fst p), snd p)) (split_dot t) end.
Definition digits (s : string) : bool := negb (s =? "")%string && all_chars is_digit s.
Definition p_number (neg : bool) (s : string) : option value :=
  match split_dot s with
  | None => option_map (fun n => VInt (if neg then (- Z.of_N n)%Z else Z.of_N n)) (parse_digits s)
  | Some (a, b) => if digits b then option_map (fun n => VFloat neg n b) (parse_digits a) else None
  end.
Fixpoint p_strings (s : string) (ts : list token) : string * list token :=
  match ts with TStr t :: ts => p_strings (s ++ t) ts | _ => (s, ts) end.
Fixpoint p_value (fuel : nat) (ts : list token) : option (value * list token) :=
  match fuel with
  | O => None
  | S fuel =>
      let seq {A} (p : list token -> option (A * list token)) close r := p_seq p close (S (List.length r)) r in
      let item ts := match p_value fuel ts with
        | Some (k, TSym ":" :: r) => match p_value fuel r with Some (v, r) => Some ((k, v), r) | None => None end
        | _ => None
        end in
      let arg ts := match ts with
        | TName n :: TSym "=" :: r => option_map (fun p => ((Some n, fst p), snd p)) (p_value fuel r)
        | _ => option_map (fun p => ((None, fst p), snd p)) (p_value fuel ts)
        end in
      match ts with
      | TStr s :: r => let '(s, r) := p_strings s r in Some (VStr s, r)
      | TNum s :: r => option_map (fun v => (v, r)) (p_number false s)
      | TSym "-" :: TNum s :: r => option_map (fun v => (v, r)) (p_number true s)
      | TName n :: TSym "(" :: TSym "{" :: r =>
          match seq item "}"%char r with Some (l, _, TSym ")" :: r) => Some (VMap n l, r) | _ => None end
      | TName n :: TSym "(" :: r => match seq arg ")"%char r with Some (l, _, r) => Some (VModule n l, r) | None => None end
      | TName n :: r => if (n =? "None")%string then Some (VNone, r) else if (n =? "True")%string then Some (VBool true, r)
                        else if (n =? "False")%string then Some (VBool false, r) else None
      | TSym "[" :: r => match seq (p_value fuel) "]"%char r with Some (l, _, r) => Some (VList l, r) | None => None end
      | TSym "(" :: r => match seq (p_value fuel) ")"%char r with
                         | Some ([v], false, r) => Some (v, r)
                         | Some (l, _, r) => Some (VTuple l, r)
                         | None => None
                         end
      | _ => None
      end
  end.
Definition read (s : string) : option value :=
  match lex s with
  | Some ts => match p_value (S (List.length ts)) ts with Some (v, []) => Some v | _ => None end
  | None => None
  end.

(** * haiku/_src/utils.py and the tables of haiku/_src/summarise.py *)
From Coq Require Import String Ascii NArith ZArith List Bool.
From Verif Require Import ModelStr.
Import ListNotations.
Local Open Scope string_scope.

(** ** [get_channel_index] (utils.py:133-171) *)
Definition no_char (c : ascii) (s : string) : bool := all_chars (fun d => negb (Ascii.eqb d c)) s.
(** [[^c]*c] and nothing more: one [c], at the end. *)
Fixpoint ends_with_only (c : ascii) (s : string) : bool :=
  match s with
  | EmptyString => false
  | String d EmptyString => Ascii.eqb d c
  | String d s => negb (Ascii.eqb d c) && ends_with_only c s
  end.
(** [^NC[^C]*$]; [[^C]*] takes everything up to the end. *)
Definition spatial_first (s : string) : bool := match strip_prefix "NC" s with Some t => no_char "C" t | None => false end.
(** [^N[^C]*C$] and [^((BT)|(TB))[^D]*D$]; [$] also matches before a newline at the end. *)
Definition spatial_last (s : string) : bool := match strip_prefix "N" (chomp s) with Some t => ends_with_only "C" t | None => false end.
Definition sequential_format (s : string) : bool :=
  match strip_prefix "BT" (chomp s) with
  | Some t => ends_with_only "D" t
  | None => match strip_prefix "TB" (chomp s) with Some t => ends_with_only "D" t | None => false end
  end.
(** [None] stands for the [ValueError]. *)
Definition get_channel_index (s : string) : option Z :=
  if s =? "channels_first" then Some 1%Z
  else if s =? "channels_last" then Some (-1)%Z
  else if spatial_first s then Some 1%Z
  else if spatial_last s then Some (-1)%Z
  else if sequential_format s then Some (-1)%Z
  else None.

(** ** [format_bytes] (utils.py:265-273)
    For an integer; [decimal.Decimal] is exact here up to 28 digits. [scale] is what the number has been divided by. *)
Fixpoint bytes_loop (n scale : N) (suffix : string) (suffixes : list string) : N * string :=
  match suffixes with
  | [] => (scale, suffix)
  | s :: rest => if (1000 * scale <=? n)%N then bytes_loop n (1000 * scale) s rest else (scale, suffix)
  end.
(** [:.2f] of n / scale, in hundredths: to the nearest, halves to the even neighbour. *)
Definition hundredths (n scale : N) : N :=
  let q := (100 * n / scale)%N in let r := (100 * n mod scale)%N in
  if (2 * r <? scale)%N then q else if (scale <? 2 * r)%N then (q + 1)%N else if N.even q then q else (q + 1)%N.
Definition two_digits (n : N) : string := str_of_N (n / 10) ++ str_of_N (n mod 10).
Definition format_bytes (n : N) : string :=
  let '(scale, suffix) := bytes_loop n 1 "B" ["KB"; "MB"; "GB"; "TB"] in
  let h := hundredths n scale in
  str_of_N (h / 100) ++ "." ++ two_digits (h mod 100) ++ " " ++ suffix.

(** ** [simple_dtype], [format_array] (utils.py:249-262) *)
Inductive dtype := Bool | Uint8 | Uint16 | Uint32 | Uint64 | Int8 | Int16 | Int32 | Int64 | Bfloat16 | Float16 | Float32 | Float64 | Complex64 | Complex128.
Definition dtype_name (d : dtype) : string :=
  match d with
  | Bool => "bool" | Uint8 => "uint8" | Uint16 => "uint16" | Uint32 => "uint32" | Uint64 => "uint64"
  | Int8 => "int8" | Int16 => "int16" | Int32 => "int32" | Int64 => "int64"
  | Bfloat16 => "bfloat16" | Float16 => "float16" | Float32 => "float32" | Float64 => "float64"
  | Complex64 => "complex64" | Complex128 => "complex128"
  end.
Definition itemsize (d : dtype) : N :=
  match d with
  | Bool | Uint8 | Int8 => 1 | Uint16 | Int16 | Bfloat16 | Float16 => 2 | Uint32 | Int32 | Float32 => 4
  | Uint64 | Int64 | Float64 | Complex64 => 8 | Complex128 => 16
  end%N.
(** [s.replace(old, new)]: occurrences from left to right ([old] is not empty). [skip] characters of an occurrence are left out. *)
Fixpoint replace_from (old new : string) (skip : nat) (s : string) : string :=
  match s with
  | EmptyString => EmptyString
  | String c t =>
      match skip with
      | S k => replace_from old new k t
      | O => if starts_with old s then new ++ replace_from old new (String.length old - 1) t else String c (replace_from old new 0 t)
      end
  end.
Definition replace (old new s : string) : string := replace_from old new 0 s.
Definition simple_dtype (d : dtype) : string :=
  replace "int" "s" (replace "uint" "u" (replace "float" "f" (replace "double" "d" (replace "complex" "c" (dtype_name d))))).
Definition format_array (d : dtype) (shape : list N) : string := simple_dtype d ++ "[" ++ String.concat "," (map str_of_N shape) ++ "]".

(** ** [tree_size], [tree_bytes] (utils.py:182-243) on the leaves of a tree *)
Definition spec := (dtype * list N)%type.
Definition size (x : spec) : N := fold_right N.mul 1%N (snd x).
Definition tree_size (leaves : list spec) : N := fold_right N.add 0%N (map size leaves).
Definition tree_bytes (leaves : list spec) : N := fold_right N.add 0%N (map (fun x => size x * itemsize (fst x))%N leaves).

(** ** [auto_repr] (utils.py:41-96): which arguments are shown
    [V] are the values, [same] is [compare_or_false]. *)
Section Repr.
Context {V : Type} (same : V -> V -> bool).
(** [inspect.getfullargspec(cls.__init__)]: names without [self], the defaults of the last ones, whether there is [*args], keyword-only
    parameters with their defaults, whether there is [**kwargs]. *)
Record signature := Sig { s_args : list string; s_defaults : list V; s_varargs : bool; s_kwonly : list (string * option V); s_varkw : bool }.
Definition lookup {A} (n : string) (l : list (string * A)) : option A := option_map snd (find (fun p => fst p =? n) l).
Definition has (l : list string) (n : string) : bool := existsb (String.eqb n) l.
(** [dict(zip(argspec.args[-len(defaults):], defaults))] (utils.py:74-75). *)
Definition default_of (s : signature) (n : string) : option V :=
  lookup n (combine (skipn (List.length (s_args s) - List.length (s_defaults s)) (s_args s)) (s_defaults s)).
(** [inspect.getcallargs]: the values of the parameters, the remaining positional and the remaining keyword arguments; [None] where it
    raises. *)
Record bound := Bound { b_args : list (string * V); b_var : list V; b_kwonly : list (string * V); b_kw : list (string * V) }.
Fixpoint bind_args (s : signature) (names : list string) (args : list V) (kwargs : list (string * V)) : option (list (string * V) * list V) :=
  match names with
  | [] => Some ([], args)
  | n :: names =>
      let first := match args, lookup n kwargs with
                   | _ :: _, Some _ => None
                   | a :: args, None => Some (a, args)
                   | [], Some v => Some (v, [])
                   | [], None => option_map (fun d => (d, [])) (default_of s n)
                   end in
      match first with
      | None => None
      | Some (v, args) => match bind_args s names args kwargs with Some (l, rest) => Some ((n, v) :: l, rest) | None => None end
      end
  end.
Fixpoint bind_kwonly (l : list (string * option V)) (kwargs : list (string * V)) : option (list (string * V)) :=
  match l with
  | [] => Some []
  | (n, d) :: l =>
      match (match lookup n kwargs with Some v => Some v | None => d end), bind_kwonly l kwargs with
      | Some v, Some r => Some ((n, v) :: r)
      | _, _ => None
      end
  end.
Definition getcallargs (s : signature) (args : list V) (kwargs : list (string * V)) : option bound :=
  match bind_args s (s_args s) args kwargs, bind_kwonly (s_kwonly s) kwargs with
  | Some (l, rest), Some k =>
      let other := filter (fun p => negb (has ("self" :: (s_args s ++ map fst (s_kwonly s))%list) (fst p))) kwargs in
      if has (map fst kwargs) "self" || (negb (s_varargs s) && negb (match rest with [] => true | _ => false end))
         || (negb (s_varkw s) && negb (match other with [] => true | _ => false end))
      then None else Some (Bound l rest k other)
  | _, _ => None
  end.
(** [names_and_values] (utils.py:67-86); [None] for the name of a positional argument. *)
Definition shown (s : signature) (args : list V) (kwargs : list (string * V)) : option (list (option string * V)) :=
  match getcallargs s args kwargs with
  | None => None
  | Some b =>
      let arg_names := (firstn (List.length args) (s_args s) ++ filter (has (map fst kwargs)) (s_args s))%list in
      let is_default n v := match default_of s n with Some d => same v d | None => false end in
      Some ((flat_map (fun n => match lookup n (b_args b) with
                               | Some v => if is_default n v then [] else [(Some n, v)]
                               | None => []
                               end) arg_names
            ++ map (fun v => (None, v)) (skipn (List.length (s_args s)) args)
            ++ map (fun p => (Some (fst p), snd p)) (filter (fun p => negb (has ("self" :: s_args s) (fst p))) kwargs))%list)
  end.
End Repr.
Arguments signature V : clear implicits.
Arguments bound V : clear implicits.

(** ** [owned_params] (summarise.py:219-225); the keys of [params_dict] always contain a slash *)
Definition owned_params {A} (module_name : string) (params : list (string * A)) : list (string * A) :=
  flat_map (fun p => match rsplit_slash (fst p) with
                     | Some (m, n) => if m =? module_name then [(n, snd p)] else []
                     | None => []
                     end) params.
(** [format_owned_params] (summarise.py:228-233): sorted by size (descending), then name. Insertion sort stands for [sorted]. *)
Definition owned_before (a b : string * spec) : bool :=
  (size (snd b) <? size (snd a))%N || ((size (snd b) =? size (snd a))%N && match String.compare (fst a) (fst b) with Gt => false | _ => true end).
Fixpoint insert_owned (x : string * spec) (l : list (string * spec)) : list (string * spec) :=
  match l with [] => [x] | y :: l => if owned_before x y then x :: y :: l else y :: insert_owned x l end.
Definition sort_owned (l : list (string * spec)) : list (string * spec) := fold_right insert_owned [] l.
Definition format_owned (l : list (string * spec)) : string :=
  String.concat (String newline "") (map (fun p => fst p ++ ": " ++ format_array (fst (snd p)) (snd (snd p))) (sort_owned l)).
(** [tabulate] (summarise.py:344-383): the names are checked before anything runs; rows and the message when there are none.
    [invocations] is what [eval_summary] returns. *)
Inductive table {Row : Type} := BadColumns (l : list string) | BadFilters (l : list string) | NoModules | Rows (r : list (list Row)).
Arguments table : clear implicits.
Definition tabulate {Inv Row} (all_columns : list (string * (Inv -> Row))) (all_filters : list (string * (Inv -> bool)))
    (columns filters : option (list string)) (invocations : list Inv) : table Row :=
  let columns := match columns with Some c => c | None => map fst all_columns end in
  let filters := match filters with Some f => f | None => map fst all_filters end in
  match filter (fun c => negb (has (map fst all_columns) c)) columns with
  | (_ :: _) as bad => BadColumns bad
  | [] =>
      match filter (fun c => negb (has (map fst all_filters) c)) filters with
      | (_ :: _) as bad => BadFilters bad
      | [] =>
          let keep i := forallb (fun f => match lookup f all_filters with Some p => p i | None => true end) filters in
          let rows := map (fun i => flat_map (fun c => match lookup c all_columns with Some g => [g i] | None => [] end) columns) (filter keep invocations) in
          match rows with [] => NoModules | _ => Rows rows end
      end
  end.

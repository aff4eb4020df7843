(** test_utils.py:86-156. Objects of the interpreter are numbers. Not modelled: attributes that raise or change when they are read. *)
From Coq Require Import String Ascii List Bool Arith NArith.
From Verif Require Import ModelStr.
Import ListNotations.
Local Open Scope string_scope.
Local Open Scope list_scope.

(** What [find_internal_python_modules] looks at: the objects that the names in [dir(mod)] stand for, in that order; whether an object is a module;
    a module's [__name__]. *)
Record interp := Interp { attrs : nat -> list nat; is_module : nat -> bool; mod_name : nat -> string }.

Fixpoint prefix_of (p s : string) : bool :=
  match p, s with EmptyString, _ => true | String a p, String b s => Ascii.eqb a b && prefix_of p s | _, _ => false end.
Definition haiku_module (I : interp) (o : nat) : bool := is_module I o && prefix_of "haiku" (mod_name I o).
Definition mem (x : nat) (l : list nat) : bool := existsb (Nat.eqb x) l.

(** test_utils.py:98-103: one round of the inner loop; [visited] is not changed in it. The top of [to_visit] is its head. *)
Fixpoint look (I : interp) (visited : list nat) (objs : list nat) (to_visit modules : list nat) : list nat * list nat :=
  match objs with
  | [] => (to_visit, modules)
  | o :: objs =>
      if is_module I o && negb (mem o visited) && prefix_of "haiku" (mod_name I o)
      then look I visited objs (o :: to_visit) (if mem o modules then modules else o :: modules)
      else look I visited objs to_visit modules
  end.
(** test_utils.py:90-103: the loop. [None]: not finished after [fuel] rounds. *)
Fixpoint search (I : interp) (fuel : nat) (visited to_visit modules : list nat) : option (list nat) :=
  match to_visit with
  | [] => Some modules
  | m :: rest =>
      match fuel with
      | O => None
      | S fuel =>
          let visited := m :: visited in
          let '(to_visit, modules) := look I visited (attrs I m) rest modules in
          search I fuel visited to_visit modules
      end
  end.

(** test_utils.py:105 [sorted(modules)]: pairs are compared by name; for equal names Python goes on to compare the module objects, which raises. *)
Fixpoint str_leb (a b : string) : bool :=
  match a, b with
  | EmptyString, _ => true
  | String _ _, EmptyString => false
  | String x a, String y b => N.ltb (N_of_ascii x) (N_of_ascii y) || (N.eqb (N_of_ascii x) (N_of_ascii y) && str_leb a b)
  end.
Fixpoint insert (I : interp) (m : nat) (l : list nat) : option (list nat) :=
  match l with
  | [] => Some [m]
  | x :: l =>
      if String.eqb (mod_name I m) (mod_name I x) then None
      else if str_leb (mod_name I m) (mod_name I x) then Some (m :: x :: l) else option_map (cons x) (insert I m l)
  end.
Fixpoint sorted (I : interp) (l : list nat) : option (list nat) :=
  match l with [] => Some [] | m :: l => match sorted I l with Some l => insert I m l | None => None end end.
(** The outer option is the fuel, the inner one the [TypeError] of [sorted]. *)
Definition find_internal_python_modules (I : interp) (fuel : nat) (root : nat) : option (option (list nat)) :=
  option_map (sorted I) (search I fuel [] [root] [root]).

(** test_utils.py:108-119 [find_subclasses]: [values] lists the values of a module's [__dict__]; [sub v]: [v] is a class and a subclass of
    [base_class]. *)
Fixpoint new_ones (sub : nat -> bool) (seen : list nat) (vs : list nat) : list nat * list nat :=
  match vs with
  | [] => ([], seen)
  | v :: vs =>
      if sub v && negb (mem v seen) then let '(out, seen) := new_ones sub (v :: seen) vs in (v :: out, seen) else new_ones sub seen vs
  end.
Fixpoint subclasses (sub : nat -> bool) (values : nat -> list nat) (seen : list nat) (mods : list nat) : list nat :=
  match mods with
  | [] => []
  | m :: mods => let '(out, seen) := new_ones sub seen (values m) in out ++ subclasses sub values seen mods
  end.
Definition find_subclasses (I : interp) (fuel root : nat) (sub : nat -> bool) (values : nat -> list nat) : option (option (list nat)) :=
  option_map (option_map (subclasses sub values [])) (find_internal_python_modules I fuel root).

(** test_utils.py:122-146: a parameter is a name and the arguments. [reduce] of an empty tuple raises. *)
Section Named.
Context {A : Type}.
Definition param : Type := string * list A.
Definition combine2 (a b : param) : param := ((fst a ++ "_" ++ fst b)%string, (snd a ++ snd b)%list).
(** [itertools.product] *)
Fixpoint product {X} (ls : list (list X)) : list (list X) :=
  match ls with [] => [[]] | l :: ls => flat_map (fun x => map (cons x) (product ls)) l end.
Definition reduce1 (r : list param) : option param := match r with [] => None | a :: r => Some (fold_left combine2 r a) end.
Fixpoint all_some {X} (l : list (option X)) : option (list X) :=
  match l with [] => Some [] | None :: _ => None | Some x :: l => option_map (cons x) (all_some l) end.
Definition combined_named_parameters (ps : list (list param)) : option (list param) := all_some (map reduce1 (product ps)).
End Named.
(** test_utils.py:149-156 *)
Definition named_bools (name : string) : list (@param bool) := [(name, [true]); (("not_" ++ name)%string, [false])].
Definition named_range (name : string) (stop : nat) : list (@param nat) :=
  map (fun i => ((name ++ "_" ++ str_of_N (N.of_nat i))%string, [i])) (seq 0 stop).

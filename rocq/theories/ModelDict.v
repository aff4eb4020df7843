(** Python dictionaries and haiku/_src/filtering.py. *)
From stdpp Require Import base list strings option.
From Coq Require Import String.
Local Open Scope string_scope.
Local Open Scope list_scope.

(** A [dict] with string keys in insertion order. Keys are unique ([wf_dict]). *)
Definition pydict (V : Type) := list (string * V).
Definition d_keys {V} (d : pydict V) : list string := List.map fst d.
Definition wf_dict {V} (d : pydict V) : Prop := NoDup (d_keys d).

(** [d.get(k)] *)
Fixpoint d_get {V} (k : string) (d : pydict V) : option V :=
  match d with
  | [] => None
  | (k', v) :: d => if String.eqb k k' then Some v else d_get k d
  end.
(** [d[k] = v]: an existing key keeps its position, a new one goes last. *)
Fixpoint d_set {V} (k : string) (v : V) (d : pydict V) : pydict V :=
  match d with
  | [] => [(k, v)]
  | (k', v') :: d => if String.eqb k k' then (k', v) :: d else (k', v') :: d_set k v d
  end.

(** A parameter or state structure: module name -> name -> value. *)
Definition structure (V : Type) := pydict (pydict V).
Definition wf_structure {V} (s : structure V) : Prop := wf_dict s /\ Forall (fun b => wf_dict (snd b)) s.

Section Filtering.
Context {V : Type}.

(** [out[module_name][name] = value] where [out = collections.defaultdict(dict)]. *)
Definition put {W} (m n : string) (v : W) (out : structure W) : structure W :=
  d_set m (d_set n v (default [] (d_get m out))) out.

(** The two nested loops over a structure that all four functions have. *)
Definition each {A} (f : string -> string -> V -> A -> A) (s : structure V) (acc : A) : A :=
  fold_left (fun acc mb => fold_left (fun acc nv => f (fst mb) (fst nv) (snd nv) acc) (snd mb) acc) s acc.

(** filtering.py:58-70 [partition]. The final [to_immutable_dict] of all functions here
    copies (see ModelHeap.v) and is the identity on this view of the contents. *)
Definition partition (predicate : string -> string -> V -> bool) (s : structure V) : structure V * structure V :=
  each (fun m n v out => if predicate m n v then (put m n v (fst out), snd out) else (fst out, put m n v (snd out))) s ([], []).

(** filtering.py:96-103 [filter]. *)
Definition filter_ (predicate : string -> string -> V -> bool) (s : structure V) : structure V :=
  each (fun m n v out => if predicate m n v then put m n v out else out) s [].

(** filtering.py:129-135 [map]. *)
Definition map_ {W} (fn : string -> string -> V -> W) (s : structure V) : structure W :=
  each (fun m n v out => put m n (fn m n v) out) s [].

(** filtering.py:162-167 [merge]. *)
Definition merge_ (ss : list (structure V)) : structure V :=
  fold_left (fun out s => each put s out) ss [].

End Filtering.

(** What the structures contain. *)
Definition entry {V} (s : structure V) (m n : string) : option V :=
  match d_get m s with Some b => d_get n b | None => None end.

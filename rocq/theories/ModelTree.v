(** Pytrees as JAX flattens them, and haiku/_src/data_structures.py:134-231
    [FlatMapping]. *)
From stdpp Require Import base list strings option.
From Coq Require Import String ZArith.
From Verif Require Import ModelDict.
Local Open Scope string_scope.
Local Open Scope list_scope.

(** Trees: leaves, [None], tuples, [dict], [collections.OrderedDict], [FlatMapping].
    A [FlatMapping] is given by the items of its [_mapping]; its [_leaves] and
    [_structure] are those of that dictionary (data_structures.py:149-165): [leaves]
    and [struct] of the corresponding [PDict]. *)
Inductive pt : Type :=
| PLeaf (x : Z)
| PNone
| PTup (l : list pt)
| PDict (items : list (string * pt))
| PODict (items : list (string * pt))
| PFlat (items : list (string * pt)).

(** Tree definitions. The children of a [FlatMapping] node are its leaves, so only
    their number is recorded. *)
Inductive td : Type :=
| TLeaf
| TNone
| TTup (l : list td)
| TDict (items : list (string * td))
| TODict (items : list (string * td))
| TFlat (structure : td) (n : nat).

(** Sorting by key, as [jax.tree_flatten] does for [dict]. *)
Fixpoint ins {V} (kv : string * V) (l : pydict V) : pydict V :=
  match l with
  | [] => [kv]
  | kv' :: l' => if String.leb (fst kv) (fst kv') then kv :: l else kv' :: ins kv l'
  end.
Fixpoint sort_keys {V} (l : pydict V) : pydict V :=
  match l with
  | [] => []
  | kv :: l => ins kv (sort_keys l)
  end.

(** [jax.tree_flatten]: leaves and structure. *)
Fixpoint leaves (p : pt) : list Z :=
  match p with
  | PLeaf x => [x]
  | PNone => []
  | PTup l => List.concat (List.map leaves l)
  | PDict items | PFlat items => List.concat (List.map snd (sort_keys (List.map (fun kv => (fst kv, leaves (snd kv))) items)))
  | PODict items => List.concat (List.map (fun kv => leaves (snd kv)) items)
  end.
Fixpoint struct (p : pt) : td :=
  match p with
  | PLeaf _ => TLeaf
  | PNone => TNone
  | PTup l => TTup (List.map struct l)
  | PDict items => TDict (sort_keys (List.map (fun kv => (fst kv, struct (snd kv))) items))
  | PODict items => TODict (List.map (fun kv => (fst kv, struct (snd kv))) items)
  | PFlat items => TFlat (TDict (sort_keys (List.map (fun kv => (fst kv, struct (snd kv))) items)))
                         (List.length (leaves p))
  end.

(** [jax.tree_unflatten], consuming the replacements for the leaves from the front of
    a list. For [FlatMapping] (data_structures.py:149-158, 229-231) the contents are
    the unflattened dictionary, computed immediately or on first use. *)
Fixpoint unflatten (t : td) (ls : list pt) : option (pt * list pt) :=
  match t with
  | TLeaf => match ls with x :: ls => Some (x, ls) | [] => None end
  | TNone => Some (PNone, ls)
  | TTup l =>
      (fix go l ls := match l with
       | [] => Some ([], ls)
       | t :: l => match unflatten t ls with
                   | Some (p, ls) => match go l ls with Some (ps, ls) => Some (p :: ps, ls) | None => None end
                   | None => None
                   end
       end) l ls ≫= fun r => Some (PTup (fst r), snd r)
  | TDict items =>
      (fix go l ls := match l with
       | [] => Some ([], ls)
       | (k, t) :: l => match unflatten t ls with
                   | Some (p, ls) => match go l ls with Some (ps, ls) => Some ((k, p) :: ps, ls) | None => None end
                   | None => None
                   end
       end) items ls ≫= fun r => Some (PDict (fst r), snd r)
  | TODict items =>
      (fix go l ls := match l with
       | [] => Some ([], ls)
       | (k, t) :: l => match unflatten t ls with
                   | Some (p, ls) => match go l ls with Some (ps, ls) => Some ((k, p) :: ps, ls) | None => None end
                   | None => None
                   end
       end) items ls ≫= fun r => Some (PODict (fst r), snd r)
  | TFlat s n =>
      if decide (List.length ls < n) then None
      else match unflatten s (take n ls) with
           | Some (PDict items, []) => Some (PFlat items, drop n ls)
           | _ => None
           end
  end.

(** [jax.tree_map] for one tree. *)
Definition tree_map (f : Z -> pt) (p : pt) : option pt :=
  match unflatten (struct p) (List.map f (leaves p)) with Some (q, []) => Some q | _ => None end.

(** Python's [==], with data_structures.py:176-182 [FlatMapping.__eq__]: mappings are
    compared as dictionaries, in order only if both are [OrderedDict]s. *)
Definition is_od (p : pt) : bool := match p with PODict _ => true | _ => false end.
Definition items_of (p : pt) : option (list (string * pt)) :=
  match p with PDict i | PODict i | PFlat i => Some i | _ => None end.
Fixpoint py_eq (a b : pt) : bool :=
  match a with
  | PLeaf x => match b with PLeaf y => Z.eqb x y | _ => false end
  | PNone => match b with PNone => true | _ => false end
  | PTup l => match b with
      | PTup l' => (fix go l l' := match l, l' with
                    | [], [] => true
                    | x :: l, y :: l' => py_eq x y && go l l'
                    | _, _ => false
                    end) l l'
      | _ => false
      end
  | PDict ia | PODict ia | PFlat ia => match items_of b with
      | Some ib =>
          Nat.eqb (List.length ia) (List.length ib)
          && forallb (fun kv => match d_get (fst kv) ib with Some v => py_eq (snd kv) v | None => false end) ia
          && (if is_od a && is_od b then bool_decide (List.map fst ia = List.map fst ib) else true)
      | None => false
      end
  end.

(** Dictionaries have unique keys, at all levels. *)
Fixpoint wf_pt (p : pt) : Prop :=
  match p with
  | PLeaf _ | PNone => True
  | PTup l => (fix go l := match l with [] => True | x :: l => wf_pt x /\ go l end) l
  | PDict i | PODict i | PFlat i =>
      NoDup (List.map fst i) /\ (fix go (l : list (string * pt)) := match l with [] => True | kv :: l => wf_pt (snd kv) /\ go l end) i
  end.
(** All mappings at all levels are [FlatMapping]s, as returned by [to_immutable_dict]. *)
Fixpoint all_flat (p : pt) : Prop :=
  match p with
  | PLeaf _ | PNone => True
  | PTup l => (fix go l := match l with [] => True | x :: l => all_flat x /\ go l end) l
  | PDict i | PODict i => False
  | PFlat i => (fix go (l : list (string * pt)) := match l with [] => True | kv :: l => all_flat (snd kv) /\ go l end) i
  end.

(** data_structures.py:98-108 [to_immutable_dict] on contents: nested [dict]s - not
    other mappings - become [FlatMapping]s. (Aliasing: ModelHeap.v.) *)
Fixpoint freeze (p : pt) : pt :=
  match p with
  | PDict i => PFlat (List.map (fun kv => (fst kv, freeze (snd kv))) i)
  | _ => p
  end.
Definition to_immutable (p : pt) : pt :=
  match p with
  | PFlat _ => p
  | PDict i | PODict i => PFlat (List.map (fun kv => (fst kv, freeze (snd kv))) i)
  | _ => p
  end.
(** data_structures.py:112-120 [to_mutable_dict] on contents. *)
Fixpoint thaw (p : pt) : pt :=
  match p with
  | PFlat i => PDict (List.map (fun kv => (fst kv, thaw (snd kv))) i)
  | _ => p
  end.
Definition to_mutable (p : pt) : pt :=
  match p with
  | PDict i | PODict i | PFlat i => PDict (List.map (fun kv => (fst kv, thaw (snd kv))) i)
  | _ => p
  end.

(** Specification of equality: the same contents, whatever the kind of mapping; the
    order of keys counts only between two [OrderedDict]s. *)
Inductive same : pt -> pt -> Prop :=
| S_leaf x : same (PLeaf x) (PLeaf x)
| S_none : same PNone PNone
| S_tup l l' : Forall2 same l l' -> same (PTup l) (PTup l')
| S_map a b ia ib : items_of a = Some ia -> items_of b = Some ib ->
    (is_od a = true -> is_od b = true -> List.map fst ia = List.map fst ib) ->
    (forall k, d_get k ia = None <-> d_get k ib = None) ->
    (forall k v v', d_get k ia = Some v -> d_get k ib = Some v' -> same v v') ->
    same a b.

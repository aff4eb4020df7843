(** haiku/_src/data_structures.py:98-120 [to_immutable_dict], [to_mutable_dict] on a
    heap of mutable and immutable mappings, to see what is shared. *)
From stdpp Require Import base list strings option.
From Coq Require Import String ZArith.
From Verif Require Import ModelDict ModelTree.
Local Open Scope string_scope.
Local Open Scope list_scope.

(** [KDict]: exactly [dict]; [KFlat]: [FlatMapping]; [KOther]: any other mapping, such
    as [collections.OrderedDict] or [defaultdict]. *)
Inductive kind := KDict | KFlat | KOther.
Inductive hval := HLeaf (x : Z) | HRef (l : nat).
Record obj := Obj { o_kind : kind; o_items : list (string * hval) }.
Notation heap := (list obj).

Definition mk (k : kind) (i : list (string * pt)) : pt :=
  match k with KDict => PDict i | KFlat => PFlat i | KOther => PODict i end.

(** The contents of a value, to depth [n]. *)
Fixpoint read (n : nat) (h : heap) (v : hval) : option pt :=
  match v with
  | HLeaf x => Some (PLeaf x)
  | HRef l =>
      match n with
      | O => None
      | S n => match h !! l with
               | None => None
               | Some o => fmap (M := option) (mk (o_kind o))
                   ((fix go i := match i with
                     | [] => Some []
                     | (k, v) :: i => match read n h v, go i with
                                      | Some p, Some ps => Some ((k, p) :: ps)
                                      | _, _ => None
                                      end
                     end) (o_items o))
               end
      end
  end.

(** data_structures.py:98-108. [None]: more than [n] levels (Python: recursion depth
    exceeded) or a dangling reference. *)
Fixpoint imm (n : nat) (h : heap) (l : nat) : option (heap * nat) :=
  match n with
  | O => None
  | S n =>
      match h !! l with
      | None => None
      | Some (Obj KFlat _) => Some (h, l)
      | Some (Obj _ items) =>
          match (fix go h i := match i with
                 | [] => Some (h, [])
                 | (k, v) :: i =>
                     match (match v with
                            | HRef l' => match h !! l' with
                                         | Some (Obj KDict _) =>
                                             match imm n h l' with Some (h, l2) => Some (h, HRef l2) | None => None end
                                         | Some _ => Some (h, v)
                                         | None => None
                                         end
                            | HLeaf _ => Some (h, v)
                            end) with
                     | Some (h, v) => match go h i with Some (h, i) => Some (h, (k, v) :: i) | None => None end
                     | None => None
                     end
                 end) h items with
          | Some (h', items') => Some (h' ++ [Obj KFlat items'], List.length h')
          | None => None
          end
      end
  end.

(** data_structures.py:112-120. *)
Fixpoint mut (n : nat) (h : heap) (l : nat) : option (heap * nat) :=
  match n with
  | O => None
  | S n =>
      match h !! l with
      | None => None
      | Some (Obj _ items) =>
          match (fix go h i := match i with
                 | [] => Some (h, [])
                 | (k, v) :: i =>
                     match (match v with
                            | HRef l' => match h !! l' with
                                         | Some (Obj KFlat _) =>
                                             match mut n h l' with Some (h, l2) => Some (h, HRef l2) | None => None end
                                         | Some _ => Some (h, v)
                                         | None => None
                                         end
                            | HLeaf _ => Some (h, v)
                            end) with
                     | Some (h, v) => match go h i with Some (h, i) => Some (h, (k, v) :: i) | None => None end
                     | None => None
                     end
                 end) h items with
          | Some (h', items') => Some (h' ++ [Obj KDict items'], List.length h')
          | None => None
          end
      end
  end.

(** Objects reachable from a location. *)
Inductive reach (h : heap) (l : nat) : nat -> Prop :=
| RE_self : reach h l l
| RE_step j o k j' : reach h l j -> h !! j = Some o -> In (k, HRef j') (o_items o) -> reach h l j'.

(** Nothing but [dict]s and, through and through, [FlatMapping]s. *)
Fixpoint plain (p : pt) : Prop :=
  match p with
  | PLeaf _ | PNone => True
  | PTup _ | PODict _ => False
  | PDict i => (fix go (l : list (string * pt)) := match l with [] => True | kv :: l => plain (snd kv) /\ go l end) i
  | PFlat _ => all_flat p
  end.

(** What can happen later: anything, except that [FlatMapping]s do not change. *)
Definition later (h h2 : heap) : Prop :=
  forall j items, h !! j = Some (Obj KFlat items) -> h2 !! j = Some (Obj KFlat items).

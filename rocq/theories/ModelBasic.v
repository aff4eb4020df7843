(** * Combinators and dropout of haiku/_src/basic.py *)
From Coq Require Import String Reals ZArith List Bool.
From Verif Require Import ModelStr ModelShape.
Import ListNotations.

(** ** [Sequential] (basic.py:87-127)

    A layer takes its input, further arguments (positional and keyword, here one value of type [X], [none] when there are none) and a
    world (parameters, state, rng and anything else it may change); it returns a value or raises, with the new world. *)
Definition effect (W E V : Type) : Type := W -> (E + V) * W.
Definition layer (W E V X : Type) : Type := V -> X -> effect W E V.
Definition bind {W E V U} (m : effect W E V) (k : V -> effect W E U) : effect W E U :=
  fun w => match m w with (inl e, w) => (inl e, w) | (inr v, w) => k v w end.
Definition return_ {W E V} (v : V) : effect W E V := fun w => (inr v, w).
Section Sequential.
Context {W E V X : Type} (none : X).
(** The loop [for i, layer in enumerate(self.layers)] with [args] for [i = 0] only (basic.py:119-127). *)
Fixpoint seq_loop (i : nat) (layers : list (layer W E V X)) (out : V) (args : X) : effect W E V :=
  match layers with
  | [] => return_ out
  | l :: layers => bind (if Nat.eqb i 0 then l out args else l out none) (fun out => seq_loop (S i) layers out args)
  end.
Definition sequential (layers : list (layer W E V X)) : layer W E V X := fun inputs args => seq_loop 0 layers inputs args.
End Sequential.

(** ** [BatchApply] on any number of array leaves (basic.py:184-257)

    [args] are the leaves of the positional, then of the keyword arguments; [f] gets them merged and returns the leaves of its result. *)
Fixpoint all_some {A} (l : list (option A)) : option (list A) :=
  match l with
  | [] => Some []
  | None :: _ => None
  | Some a :: l => match all_some l with Some r => Some (a :: r) | None => None end
  end.
(** [ndim_at_least], [arbitrary_mergeable_leaf] (basic.py:184-198). *)
Definition ndim_at_least {A} (k : nat) (x : arr A) : bool := Nat.leb k (List.length (a_shape x)).
Definition mergeable_leaf {A} (k : nat) (args : list (arr A)) : option (arr A) := find (ndim_at_least k) args.
Definition batch_apply_n {A B} (f : list (arr A) -> option (list (arr B))) (k : nat) (args : list (arr A)) : option (list (arr B)) :=
  match mergeable_leaf k args with
  | None => None
  | Some example =>
      match all_some (map (fun x => merge_leading_dims x k) args) with
      | None => None
      | Some merged =>
          match f merged with
          | None => None
          | Some outputs => all_some (map (fun z => split_leading_dim z (firstn k (a_shape example))) outputs)
          end
      end
  end.

(** ** [expand_apply] (basic.py:260-290): [None] where it raises *)
Definition expand_dims {A} (axis : Z) (x : arr A) : arr A :=
  Arr (if (axis =? 0)%Z then 1%Z :: a_shape x else a_shape x ++ [1%Z]) (a_data x).
Definition squeeze {A} (axis : Z) (x : arr A) : option (arr A) :=
  match a_shape x with
  | [] => None
  | d :: rest =>
      if (axis =? 0)%Z then (if (d =? 1)%Z then Some (Arr rest (a_data x)) else None)
      else (if (last (a_shape x) 0 =? 1)%Z then Some (Arr (removelast (a_shape x)) (a_data x)) else None)
  end.
Definition expand_apply {A B} (f : list (arr A) -> option (list (arr B))) (axis : Z) (args : list (arr A)) : option (list (arr B)) :=
  if (axis =? 0)%Z || (axis =? -1)%Z
  then match f (map (expand_dims axis) args) with
       | None => None
       | Some outputs => all_some (map (squeeze axis) outputs)
       end
  else None.

(** ** [to_module] (basic.py:324-367): the name of the module made by [ToModuleWrapper.__init__]

    [fname] is [f.__name__]; the argument [name] is absent, a string or something else. The check of the name is the one of
    [Module.__init__] (module.py:482-497). *)
Inductive to_module_arg := NoName | StrName (s : string) | OtherName.
Inductive to_module_result := ModuleName (s : string) | RaisesTypeError | RaisesValueError.
Definition to_module_name (fname : string) (arg : to_module_arg) : to_module_result :=
  let check s := if valid_identifier s then ModuleName s else RaisesValueError in
  match arg with NoName => check fname | StrName s => check s | OtherName => RaisesTypeError end.

(** ** [dropout] (basic.py:293-315) in exact arithmetic

    [keep] is what [jax.random.bernoulli] returned: one boolean per element. *)
Local Open Scope R_scope.
Definition b2r (b : bool) : R := if b then 1 else 0.
Definition dropout (rate : R) (keep : list bool) (x : list R) : option (list R) :=
  if Rlt_dec rate 0 then None else if Rle_dec 1 rate then None
  else if Req_EM_T rate 0 then Some x
  else let keep_rate := 1 - rate in Some (map (fun p => b2r (fst p) * snd p / keep_rate) (combine keep x)).

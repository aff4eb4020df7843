(** * Top-k masks and the schedule of examples/mnist_pruning.py (lines 35-76, 300-302) *)
From Coq Require Import List Bool Arith ZArith QArith Qround.
Import ListNotations.

(** [x[p]]: the entries of [x] at the positions [p]. *)
Definition gather {A} (d : A) (p : list nat) (x : list A) : list A := map (fun i => nth i x d) p.
(** [jax.ops.index_update(base, p, vals)], for positions that occur once. *)
Fixpoint put_at {A} (i : nat) (v : A) (l : list A) : list A :=
  match l, i with
  | [], _ => []
  | _ :: l, O => v :: l
  | x :: l, S i => x :: put_at i v l
  end.
Definition scatter {A} (base : list A) (p : list nat) (vals : list A) : list A :=
  fold_left (fun acc iv => put_at (fst iv) (snd iv) acc) (combine p vals) base.

(** [jnp.round]: to the nearest integer, halves to the even one. *)
Definition round_even (q : Q) : Z :=
  let f := Qfloor q in
  match (q - inject_Z f ?= 1 # 2)%Q with
  | Lt => f
  | Gt => (f + 1)%Z
  | Eq => if Z.even f then f else (f + 1)%Z
  end.

Section Topk.
Context {N : Type} (zero : N).
(** [jnp.argsort] and [jax.random.shuffle(PRNGKey(42), arange(n))]: the properties say what is needed of them. *)
Variable argsort : list N -> list nat.
Variable shuffled : nat -> list nat.

(** mnist_pruning.py:52-58 [topk_mask_internal]. Arrays are flat lists; a mask holds booleans where the code holds 0 and 1. *)
Definition topk_mask_internal (density : Q) (value : list N) : list bool :=
  let n := length value in
  let indices := argsort value in
  let k := round_even (density * inject_Z (Z.of_nat n)) in
  let mask := map (fun i => (Z.of_nat n - k <=? Z.of_nat i)%Z) (seq 0 n) in
  scatter (map (fun _ => false) mask) indices mask.
(** mnist_pruning.py:35-71 [topk_mask]. *)
Definition topk_mask (density : Q) (value : list N) : list bool :=
  let shuffled_indices := shuffled (length value) in
  let shuffled_mask := topk_mask_internal density (gather zero shuffled_indices value) in
  scatter (map (fun _ => false) shuffled_mask) shuffled_indices shuffled_mask.
End Topk.

(** mnist_pruning.py:74-76 [zhugupta_func]. *)
Definition zhugupta_func (progress : Q) : Q := (1 - (1 - progress) * (1 - progress) * (1 - progress))%Q.
(** mnist_pruning.py:300 [progress]. *)
Definition Qmin' (x y : Q) : Q := if Qle_bool x y then x else y.
Definition Qmax' (x y : Q) : Q := if Qle_bool x y then y else x.
Definition progress (step : Z) : Q := Qmin' (Qmax' ((inject_Z step - 1000) / 8000) 0) 1.

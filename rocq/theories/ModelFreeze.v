(** * Training a subset of the parameters: docs/notebooks/non_trainable.ipynb

    Parameters are structures (ModelDict) of arrays, an array the list of its numbers in order; [hk.data_structures.partition] and [merge] are those of ModelDict.  Arithmetic is exact. *)
From stdpp Require Import base list strings option.
From Coq Require Import Reals.
From Verif Require Import ModelDict ModelReal.
Local Open Scope R_scope.

Notation weights := (structure (list R)).

(** What [jax.grad] of a function of parameters returns at [p]: a structure with the paths and sizes of [p] that holds the partial derivatives. *)
Definition is_gradient (L : weights -> R) (p g : weights) : Prop :=
  forall m n, match entry p m n with
              | None => entry g m n = None
              | Some v => exists gv, entry g m n = Some gv /\ List.length gv = List.length v
                          /\ forall i x gx, v !! i = Some x -> gv !! i = Some gx ->
                               derivable_pt_lim (fun t => L (put m n (<[i := t]> v) p)) x gx
              end.

(** The cell of [loss_fn]: the two groups are merged, the trainable one first. *)
Definition split_loss (L : weights -> R) (trainable non_trainable : weights) : R :=
  L (merge_ [trainable; non_trainable]).

(** [sgd_step]: [tree_multimap(lambda p, g: p - g * lr, params, grads)]; the two trees have the same paths. *)
Definition sgd_step (params grads : weights) (lr : R) : weights :=
  map_ (fun m n p => match entry grads m n with
                     | Some g => zip_with (fun p g => p - g * lr) p g
                     | None => p
                     end) params.

(** [train_step] and the training loop: a loss for every batch, the gradients taken in the trainable group alone. *)
Inductive trained (lr : R) (non_trainable : weights) : list (weights -> R) -> weights -> weights -> Prop :=
| trained_nil t : trained lr non_trainable [] t t
| trained_cons L Ls t g t' :
    is_gradient (fun s => split_loss L s non_trainable) t g ->
    trained lr non_trainable Ls (sgd_step t g lr) t' ->
    trained lr non_trainable (L :: Ls) t t'.

(** [dataset]: one record, from a permutation of the classes: [x] and [y], the classes themselves; [None]: the reshape to [(batch_size, 1)] raises. *)
Definition record (permutation : list nat) (batch_size : nat) : option (list (R * nat)) :=
  let y := take batch_size permutation in
  if Nat.eqb (List.length y) batch_size then Some (List.map (fun c => (INR c, c)) y) else None.

(** The loss of a batch: [example p x c] is the cross-entropy [- log_softmax(logits)[c]] of one example (the MLP treats rows alone, the labels are one-hot). *)
Definition batch_loss (example : weights -> R -> nat -> R) (batch : list (R * nat)) (p : weights) : R :=
  Rsum (List.map (fun xy => example p (fst xy) (snd xy)) batch) / INR (List.length batch).

(** * examples/mnist_pruning.py: partitions, masks and the training loop (lines 79-170, 199-305) *)
From stdpp Require Import base list strings option.
From Coq Require Import String ZArith QArith.
From Verif Require Import ModelDict ModelTopk.
Local Open Scope string_scope.
Local Open Scope list_scope.
Local Close Scope Q_scope.

(** An array: its shape and its entries in order. *)
Record leaf (A : Type) := Leaf { lf_shape : list nat; lf_vals : list A }.
Arguments Leaf {A}. Arguments lf_shape {A}. Arguments lf_vals {A}.
Definition params (A : Type) := structure (leaf A).

(** Two structures have the same paths: otherwise [jax.tree_util.tree_multimap] raises. Outputs of [partition] have no empty modules. *)
Definition covers {A B} (a : structure A) (b : structure B) : bool :=
  each (fun m n _ acc => acc && match entry b m n with Some _ => true | None => false end) a true.
Definition tree_multimap {A B} (f : A -> B -> A) (a : structure A) (b : structure B) : option (structure A) :=
  if covers a b && covers b a then Some (map_ (fun m n x => match entry b m n with Some y => f x y | None => x end) a) else None.
(** The entries of two arrays of one shape, combined in pairs. *)
Definition leaf2 {A B} (f : A -> B -> A) (x : leaf A) (y : leaf B) : leaf A :=
  Leaf (lf_shape x) (List.map (fun p => f (fst p) (snd p)) (combine (lf_vals x) (lf_vals y))).

Section Pruning.
Context {N : Type} (zero : N) (abs : N -> N) (add ema : N -> N -> N).
Variable argsort : list N -> list nat.
Variable shuffled : nat -> list nat.
Definition predicate := string -> string -> leaf N -> bool.
(** [ModuleSparsity] *)
Definition sparsities := list (predicate * Q).

(** mnist_pruning.py:79-108 [_create_partitions]. *)
Fixpoint create_partitions (ms : sparsities) (tail : params N) : list (params N) * list Q * params N :=
  match ms with
  | [] => ([], [], tail)
  | (pred, sparsity) :: ms =>
      let '(head, tail) := partition pred tail in
      let '(trees, sparsity_list, tail) := create_partitions ms tail in
      (head :: trees, sparsity :: sparsity_list, tail)
  end.

(** [x * y] where [y] is 0 or 1. *)
Definition masked (x : N) (keep : bool) : N := if keep then x else zero.
(** mnist_pruning.py:117-144 [apply_mask]; [zip] stops at the shorter list. *)
Fixpoint mask_all (trees : list (params N)) (masks : list (params bool)) : option (list (params N)) :=
  match trees, masks with
  | value :: trees, mask :: masks =>
      match tree_multimap (leaf2 masked) value mask, mask_all trees masks with Some x, Some l => Some (x :: l) | _, _ => None end
  | _, _ => Some []
  end.
Definition apply_mask (p : params N) (masks : list (params bool)) (ms : sparsities) : option (params N) :=
  let '(params_to_prune, _, params_no_prune) := create_partitions ms p in
  option_map (fun pruned => merge_ (pruned ++ [params_no_prune])) (mask_all params_to_prune masks).
(** mnist_pruning.py:147-161 [update_mask]. *)
Definition update_mask (p : params N) (fraction : Q) (ms : sparsities) : list (params bool) :=
  let '(params_to_prune, sparsity_list, _) := create_partitions ms p in
  List.map (fun ts => map_ (fun _ _ x => Leaf (lf_shape x) (topk_mask zero argsort shuffled (1 - snd ts * fraction)%Q (List.map abs (lf_vals x)))) (fst ts))
    (combine params_to_prune sparsity_list).

(** The training loop (mnist_pruning.py:270-304). [get_updates] is the gradient of the loss and the optimizer, on any batch. *)
Context {Batch Opt : Type}.
Variable get_updates : params N -> Opt -> Batch -> params N * Opt.
Variable ms : sparsities.
Record train := Train { t_params : params N; t_avg : params N; t_masks : list (params bool); t_opt : Opt }.
Definition start (p0 : params N) (o0 : Opt) : train := Train p0 p0 (update_mask p0 0%Q ms) o0.
(** mnist_pruning.py:280-281: what is evaluated. *)
Definition evaluated (s : train) : option (params N) := apply_mask (t_avg s) (t_masks s) ms.
Definition train_step (step : nat) (b : Batch) (s : train) : option train :=
  match (if Nat.eqb (step mod 1000) 0 then evaluated s else Some (t_avg s)), apply_mask (t_params s) (t_masks s) ms with
  | Some avg, Some pruned =>
      let '(updates, opt) := get_updates pruned (t_opt s) b in
      match apply_mask updates (t_masks s) ms with
      | Some updates =>
          match tree_multimap (leaf2 add) (t_params s) updates with
          | Some p =>
              let masks := if Nat.eqb (step mod 200) 0 then update_mask p (zhugupta_func (progress (Z.of_nat step))) ms else t_masks s in
              option_map (fun avg => Train p avg masks opt) (tree_multimap (leaf2 ema) avg p)
          | None => None
          end
      | None => None
      end
  | _, _ => None
  end.
Fixpoint train_from (step : nat) (bs : list Batch) (s : train) : option train :=
  match bs with [] => Some s | b :: bs => match train_step step b s with Some s => train_from (S step) bs s | None => None end end.
End Pruning.
Arguments Train {N Opt}. Arguments t_params {N Opt}. Arguments t_avg {N Opt}. Arguments t_masks {N Opt}. Arguments t_opt {N Opt}.

(** mnist_pruning.py:111-114 [sparsity_ignore] and 205-211 [module_matching]. *)
Fixpoint starts_with (p s : string) : bool :=
  match p, s with EmptyString, _ => true | String a p, String b s => Ascii.eqb a b && starts_with p s | _, _ => false end.
Fixpoint contains (p s : string) : bool := starts_with p s || match s with EmptyString => false | String _ s => contains p s end.
Fixpoint ends_with (p s : string) : bool := String.eqb p s || match s with EmptyString => false | String _ s => ends_with p s end.
Definition sparsity_ignore {A} (m n : string) (v : leaf A) : bool :=
  String.eqb n "b" || Nat.eqb (List.length (lf_shape v)) 1 || contains "batchnorm" m || contains "batch_norm" m.
Definition module_matching {A} (s : string) (m n : string) (v : leaf A) : bool := ends_with s m && negb (sparsity_ignore m n v).
Definition example_sparsity {A} : list ((string -> string -> leaf A -> bool) * Q) :=
  [(module_matching "linear", 98 # 100); (module_matching "linear_1", 9 # 10)]%Q.

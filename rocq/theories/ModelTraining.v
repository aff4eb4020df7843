(** * Losses and schedules of the examples: examples/imagenet/train.py:81-176, 253-254, examples/vae.py:129-178, examples/mnist.py:63-72, 96-102 *)
From Coq Require Import Reals ZArith String List Bool Lia.
From Verif Require Import ModelNets ModelReal ModelLayers ModelTransformer ModelCheckpoint.
Import ListNotations.
Local Open Scope R_scope.

(** ** imagenet *)
(** train.py:81-96 [lr_schedule], the flags as arguments; [if warmup_steps] tests for zero. *)
Definition lr_schedule (init total_batch_size examples epochs warmup_epochs : R) (step : R) : R :=
  let steps_per_epoch := examples / total_batch_size in
  let warmup_steps := warmup_epochs * steps_per_epoch in
  let training_steps := epochs * steps_per_epoch in
  let lr := init * total_batch_size / 256 in
  let scaled_step := Rmax (step - warmup_steps) 0 / (training_steps - warmup_steps) in
  let lr := lr * (1 / 2 * (1 + cos (PI * scaled_step))) in
  if Req_EM_T warmup_steps 0 then lr else lr * Rmin (step / warmup_steps) 1.
(** train.py:253-254 *)
Definition num_train_steps (examples epochs total_batch_size : Z) : Z := (examples * epochs / total_batch_size)%Z.
(** train.py:108-109, 112-117, 120-126; one example. *)
Definition l2_loss (params : list (list R)) : R := 1 / 2 * Rsum (map (fun p => Rsum (map square p)) params).
Definition softmax_cross_entropy (logits labels : list R) : R := - Rsum (zipw Rmult labels (log_softmax logits)).
Definition smooth_labels (labels : list R) (smoothing : R) : list R := map (fun l => (1 - smoothing) * l + smoothing / 1000) labels.
(** train.py:138-139: the parameters that are decayed, by the names of their modules. *)
Definition contains (sub s : string) : bool := match String.index 0 sub s with Some _ => true | None => false end.
Definition l2_params {A} (params : list (string * A)) : list A := map snd (filter (fun p => negb (contains "batchnorm" (fst p))) params).
(** The modules of a ResNet with parameters (haiku/_src/nets/resnet.py:40-103, 125-183, 220-226, 333-362), and whether they are a BatchNorm. *)
Definition block_modules (v2 bottleneck use_projection : bool) : list (string * bool) :=
  (if use_projection then ("shortcut_conv"%string, false) :: (if v2 then [] else [("shortcut_batchnorm"%string, true)]) else []) ++
  [("conv_0"%string, false); ("batchnorm_0"%string, true); ("conv_1"%string, false); ("batchnorm_1"%string, true)] ++
  (if bottleneck then [("conv_2"%string, false); ("batchnorm_2"%string, true)] else []).
Definition under (prefix : string) (ms : list (string * bool)) : list (string * bool) := map (fun m => (prefix ++ "/~/" ++ fst m, snd m)%string) ms.
Definition group_modules (v2 bottleneck use_projection : bool) (num_blocks : nat) : list (string * bool) :=
  flat_map (fun i => under ("block_" ++ decimal (N.of_nat i)) (block_modules v2 bottleneck (Nat.eqb i 0 && use_projection))) (seq 0 num_blocks).
Definition resnet_modules (name : string) (v2 bottleneck : bool) (groups : list (bool * nat)) : list (string * bool) :=
  under name (("initial_conv"%string, false) :: (if v2 then [] else [("initial_batchnorm"%string, true)]) ++
    flat_map (fun g => under ("block_group_" ++ decimal (N.of_nat (fst g))) (group_modules v2 bottleneck (fst (snd g)) (snd (snd g)))) (combine (seq 0 (length groups)) groups) ++
    (if v2 then [("final_batchnorm"%string, true)] else []) ++ [("logits"%string, false)]).

(** train.py:147-176 [train_step] under [jax.pmap]: one step of all replicas; gradients are averaged, the state is not. *)
Section Replicas.
Context {P S O B G : Type} (gradients : P -> S -> B -> G * S) (pmean : list G -> G) (apply_gradients : P -> O -> G -> P * O).
Record replica := Replica { r_params : P; r_state : S; r_opt : O }.
Definition train_step (replicas : list replica) (batches : list B) : list replica :=
  let local := map (fun rb => gradients (r_params (fst rb)) (r_state (fst rb)) (snd rb)) (combine replicas batches) in
  let grads := pmean (map fst local) in
  map (fun rl => let (params, opt) := apply_gradients (r_params (fst rl)) (r_opt (fst rl)) grads in Replica params (snd (snd rl)) opt) (combine replicas local).
End Replicas.
Arguments replica : clear implicits.

(** ** vae *)
(** vae.py:145 for one example, with [jnp.logaddexp(x, y)] = max(x, y) + log1p(exp(-|x - y|)). *)
Definition logaddexp (x y : R) : R := Rmax x y + ln (1 + exp (- Rabs (x - y))).
Definition binary_cross_entropy (x logits : list R) : R := - Rsum (zipw (fun x l => x * l - logaddexp 0 l) x logits).
(** vae.py:162 *)
Definition kl_gaussian (mean var : list R) : R := 1 / 2 * Rsum (zipw (fun m v => - ln v - 1 + v + m ^ 2) mean var).
(** vae.py:169-178; an example is its image and the outputs of the network for it. *)
Definition vae_loss (batch : list (list R * (list R * list R * list R))) : R :=
  - mean (map (fun e => let '(image, (logits, mu, stddev)) := e in - binary_cross_entropy image logits - kl_gaussian mu (map (fun s => s ^ 2) stddev)) batch).

(** ** mnist *)
(** mnist.py:63-72: the loss of a batch of logits with labels, and the parameters *)
Definition mnist_loss (batch : list (list R * Z)) (params : list (list R)) : R :=
  - Rsum (map (fun e => Rsum (zipw Rmult (one_hot 0 1 10 (snd e)) (log_softmax (fst e)))) batch) / INR (length batch) + 1 / 10000 * l2_loss params.
(** mnist.py:96-102, 124-126 for one parameter *)
Definition ema_update (epsilon avg new : R) : R := (1 - epsilon) * avg + epsilon * new.

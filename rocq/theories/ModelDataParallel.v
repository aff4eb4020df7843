(** * Training on several replicas: the gradients that [jax.grad] gives inside [jax.pmap], their mean, and the steps of the imagenet example
    (examples/imagenet/train.py:106-176, 219; haiku/_src/batch_norm.py:164-182)

    Inside [jax.pmap] a replica differentiates its loss with respect to its copy of the parameters; the transpose of [psum] is [psum], so what it
    gets is the derivative of the sum of the losses of all replicas.  Numbers are real numbers. *)
From Coq Require Import Reals ZArith List Bool.
From Verif Require Import ModelNets ModelTransformer ModelTraining ModelReal ModelLayers ModelVqEma ModelGradients.
Import ListNotations.
Local Open Scope R_scope.

(** Variables are renamed; [rename snd] forgets to which replica a variable belongs. *)
Fixpoint rename {A B} (h : A -> B) (e : expr A) : expr B :=
  match e with
  | Const r => Const r
  | Var v => Var (h v)
  | Add a b => Add (rename h a) (rename h b)
  | Sub a b => Sub (rename h a) (rename h b)
  | Mul a b => Mul (rename h a) (rename h b)
  | Div a b => Div (rename h a) (rename h b)
  | Exp a => Exp (rename h a)
  | Ln a => Ln (rename h a)
  | Sqrt a => Sqrt (rename h a)
  | Stop f => Stop (fun env => f (fun v => env (h v)))
  | Pick f l => Pick (fun env => f (fun v => env (h v))) (fun k => rename h (l k))
  end.

Section Replicas.
Context {V : Type} (eqb : V -> V -> bool).
(** The variable [v] of replica [i]. *)
Definition rvar : Type := nat * V.
Definition rvar_eqb (a b : rvar) : bool := (fst a =? fst b)%nat && eqb (snd a) (snd b).
(** train.py:160-161: the gradient on replica [i] of [n], where [losses j] is the loss of replica [j], when all copies of the parameters are [params]. *)
Definition replica_gradient (n : nat) (losses : nat -> expr rvar) (params : V -> R) (i : nat) (v : V) : R :=
  gradient rvar_eqb (fun p => params (snd p)) (esum (map losses (seq 0 n))) (i, v).
(** train.py:164: [jax.lax.pmean(grads, axis_name='i')]. *)
Definition mean_gradient (n : nat) (losses : nat -> expr rvar) (params : V -> R) (v : V) : R := mean (map (fun i => replica_gradient n losses params i v) (seq 0 n)).

(** ** BatchNorm with [cross_replica_axis] and without groups (batch_norm.py:164-182): [scale j] and [offset j] are replica [j]'s copies, [xss] the batches. *)
Definition pmean_e {A} (es : list (expr A)) : expr A := Div (esum es) (Const (INR (length es))).
Definition cross_batch_norm {A} (eps : R) (scale offset : nat -> expr A) (xss : list (list (expr A))) : list (list (expr A)) :=
  let m := pmean_e (map emean xss) in
  let q := pmean_e (map (fun xs => emean (map esq xs)) xss) in
  let var := Sub q (esq m) in
  zip2 (fun j xs => let inv := Mul (scale j) (rsqrt (Add var (Const eps))) in map (fun x => Add (Mul (Sub x m) inv) (offset j)) xs) (seq 0 (length xss)) xss.

(** ** The loss (train.py:106-145) on a batch of logits and labels *)
Definition imagenet_loss {A} (smoothing decay : R) (batch : list (list (expr A) * Z)) (l2_params : list (list (expr A))) : expr A :=
  Add (emean (map (fun e => let labels := ModelNets.one_hot 0 1 1000 (snd e) in exent (if Req_EM_T smoothing 0 then labels else smooth_labels labels smoothing) (fst e)) batch))
      (Mul (Const decay) (el2 l2_params)).
End Replicas.

(** ** The training loop: replicas with their parameters, network state and optimizer state (train.py:148-176)
    The optimizer is arbitrary, and so are the loss, its gradient and the new network state of every replica, given all replicas and their batches. *)
Section Loop.
Context {P S O B G : Type}.
Context (gradients : list (P * S * O) -> list B -> list G) (new_states : list (P * S * O) -> list B -> list S) (pmean_g : list G -> G) (optimizer : G -> O -> P -> P * O).
Definition train_step (rs : list (P * S * O)) (batches : list B) : list (P * S * O) :=
  let g := pmean_g (gradients rs batches) in
  map (fun p => let '(params, _, opt) := fst p in let '(params, opt) := optimizer g opt params in (params, snd p, opt)) (combine rs (new_states rs batches)).
Definition train (rs : list (P * S * O)) (data : list (list B)) : list (P * S * O) := fold_left train_step data rs.
End Loop.

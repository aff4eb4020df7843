(** * Gradients: what JAX's differentiation does with the arithmetic of Haiku's modules and of the examples' losses

    A differentiable computation is an expression in variables; [ev] is its value, [jvp] its directional derivative as forward mode computes it
    ([jax.jvp]: the rule of every operation, nothing through [jax.lax.stop_gradient]) and [vjp] its gradient as reverse mode accumulates it
    ([jax.grad]).  Numbers are real numbers. *)
From Coq Require Import Reals ZArith List Bool.
From Verif Require Import ModelNets ModelTransformer ModelTraining ModelReal ModelLayers ModelVqEma.
Import ListNotations.
Local Open Scope R_scope.

Section Expressions.
Context {V : Type}.
Inductive expr :=
| Const (r : R)
| Var (v : V)
| Add (a b : expr)
| Sub (a b : expr)
| Mul (a b : expr)
| Div (a b : expr)
| Exp (a : expr)
| Ln (a : expr)
| Sqrt (a : expr)
(** A value that is treated as a constant: [jax.lax.stop_gradient] of anything. *)
| Stop (f : (V -> R) -> R)
(** One of several expressions, chosen by an integer (indexing with the result of [argmax]): there is no gradient through the index. *)
| Pick (f : (V -> R) -> nat) (l : nat -> expr).

Fixpoint ev (env : V -> R) (e : expr) : R :=
  match e with
  | Const r => r
  | Var v => env v
  | Add a b => ev env a + ev env b
  | Sub a b => ev env a - ev env b
  | Mul a b => ev env a * ev env b
  | Div a b => ev env a / ev env b
  | Exp a => exp (ev env a)
  | Ln a => ln (ev env a)
  | Sqrt a => sqrt (ev env a)
  | Stop f => f env
  | Pick f l => ev env (l (f env))
  end.
Fixpoint jvp (env dir : V -> R) (e : expr) : R :=
  match e with
  | Const _ => 0
  | Var v => dir v
  | Add a b => jvp env dir a + jvp env dir b
  | Sub a b => jvp env dir a - jvp env dir b
  | Mul a b => jvp env dir a * ev env b + ev env a * jvp env dir b
  | Div a b => (jvp env dir a * ev env b - ev env a * jvp env dir b) / (ev env b * ev env b)
  | Exp a => exp (ev env a) * jvp env dir a
  | Ln a => jvp env dir a / ev env a
  | Sqrt a => jvp env dir a / (2 * sqrt (ev env a))
  | Stop _ => 0
  | Pick f l => jvp env dir (l (f env))
  end.
(** Reverse mode: what is added to the gradient with respect to [v] when the derivative with respect to [e] is [ct]. *)
Fixpoint vjp (eqb : V -> V -> bool) (env : V -> R) (e : expr) (ct : R) (v : V) : R :=
  match e with
  | Const _ => 0
  | Var w => if eqb w v then ct else 0
  | Add a b => vjp eqb env a ct v + vjp eqb env b ct v
  | Sub a b => vjp eqb env a ct v + vjp eqb env b (- ct) v
  | Mul a b => vjp eqb env a (ct * ev env b) v + vjp eqb env b (ev env a * ct) v
  | Div a b => vjp eqb env a (ct / ev env b) v + vjp eqb env b (- (ct * ev env a / (ev env b * ev env b))) v
  | Exp a => vjp eqb env a (ct * exp (ev env a)) v
  | Ln a => vjp eqb env a (ct / ev env a) v
  | Sqrt a => vjp eqb env a (ct / (2 * sqrt (ev env a))) v
  | Stop _ => 0
  | Pick f l => vjp eqb env (l (f env)) ct v
  end.
(** [jax.grad] of a scalar. *)
Definition gradient (eqb : V -> V -> bool) (env : V -> R) (e : expr) (v : V) : R := vjp eqb env e 1 v.

Definition sg (e : expr) : expr := Stop (fun env => ev env e).
Definition esum (l : list expr) : expr := fold_right Add (Const 0) l.
Definition emean (l : list expr) : expr := Div (esum l) (Const (INR (length l))).
Definition esq (e : expr) : expr := Mul e e.
Definition zip2 {A B C} (f : A -> B -> C) (x : list A) (y : list B) : list C := map (fun p => f (fst p) (snd p)) (combine x y).
Definition vals (env : V -> R) (m : list (list expr)) : list (list R) := map (map (ev env)) m.

(** ** VectorQuantizer and VectorQuantizerEMA (haiku/_src/nets/vqvae.py:114-139, 268-322)
    [es] are the embeddings, a matrix [embedding_dim, num_embeddings] as a list of rows; [xs] are the vectors to quantize. *)
Definition nearest (es : list (list expr)) (k : nat) (x : list expr) (env : V -> R) : nat := vq_index (map (ev env) x) (vals env es) k.
Definition quantized (es : list (list expr)) (k : nat) (x : list expr) : list expr :=
  map (fun row => Pick (nearest es k x) (fun j => nth j row (Const 0))) es.
(** vqvae.py:132, 290. *)
Definition e_latent_loss (es : list (list expr)) (k : nat) (xs : list (list expr)) : expr :=
  emean (concat (map (fun x => zip2 (fun q v => esq (Sub (sg q) v)) (quantized es k x) x) xs)).
(** vqvae.py:133. *)
Definition q_latent_loss (es : list (list expr)) (k : nat) (xs : list (list expr)) : expr :=
  emean (concat (map (fun x => zip2 (fun q v => esq (Sub q (sg v))) (quantized es k x) x) xs)).
(** vqvae.py:134. *)
Definition quantizer_loss (commitment_cost : R) (es : list (list expr)) (k : nat) (xs : list (list expr)) : expr :=
  Add (q_latent_loss es k xs) (Mul (Const commitment_cost) (e_latent_loss es k xs)).
(** vqvae.py:312, 315. *)
Definition quantizer_ema_loss (commitment_cost : R) (es : list (list expr)) (k : nat) (xs : list (list expr)) : expr :=
  Mul (Const commitment_cost) (e_latent_loss es k xs).
(** vqvae.py:137, 318. *)
Definition straight_through (es : list (list expr)) (k : nat) (x : list expr) : list expr := zip2 (fun q v => Add v (sg (Sub q v))) (quantized es k x) x.

(** ** SpectralNorm (haiku/_src/spectral_norm.py:127-147) of a matrix with [n] columns and the state [u0] *)
Definition power (steps n : nat) (eps : R) (u0 : list R) (w : list (list expr)) (env : V -> R) : option (list R) * list R := sn_loop steps n eps (vals env w) None u0.
Definition sn_v (steps n : nat) (eps : R) (u0 : list R) (w : list (list expr)) (i : nat) : expr :=
  Stop (fun env => match fst (power steps n eps u0 w env) with Some v => nth i v 0 | None => 0 end).
Definition sn_u (steps n : nat) (eps : R) (u0 : list R) (w : list (list expr)) (j : nat) : expr := Stop (fun env => nth j (snd (power steps n eps u0 w env)) 0).
(** [sigma = v0 @ value @ u0.T]. *)
Definition sn_sigma (steps n : nat) (eps : R) (u0 : list R) (w : list (list expr)) : expr :=
  esum (map (fun j => Mul (esum (map (fun p => Mul (sn_v steps n eps u0 w (fst p)) (nth j (snd p) (Const 0))) (combine (seq 0 (length w)) w))) (sn_u steps n eps u0 w j)) (seq 0 n)).
Definition sn_value (steps n : nat) (eps : R) (u0 : list R) (w : list (list expr)) : list (list expr) := map (map (fun a => Div a (sn_sigma steps n eps u0 w))) w.

(** ** BatchNorm (haiku/_src/batch_norm.py:164-200) and LayerNorm (haiku/_src/layer_norm.py:123-143)
    on the entries [xs] that share their statistics. *)
Definition rsqrt (e : expr) : expr := Div (Const 1) (Sqrt e).
Definition batch_norm (eps : R) (scale offset : expr) (xs : list expr) : list expr :=
  let m := emean xs in
  let var := Sub (emean (map esq xs)) (esq m) in
  let inv := Mul scale (rsqrt (Add var (Const eps))) in
  map (fun x => Add (Mul (Sub x m) inv) offset) xs.
(** With [is_training=False]: the stored averages are constants. *)
Definition batch_norm_eval (eps mean var : R) (scale offset : expr) (xs : list expr) : list expr :=
  let inv := Mul scale (rsqrt (Add (Const var) (Const eps))) in
  map (fun x => Add (Mul (Sub x (Const mean)) inv) offset) xs.
Definition layer_norm (eps : R) (scale offset : expr) (xs : list expr) : list expr :=
  let m := emean xs in
  let var := emean (map (fun x => esq (Sub x m)) xs) in
  let inv := Mul scale (rsqrt (Add var (Const eps))) in
  map (fun x => Add (Mul inv (Sub x m)) offset) xs.

(** ** Losses of the examples *)
(** [jax.nn.log_softmax]: the largest entry is subtracted, without a gradient. *)
Definition elog_softmax (l : list expr) : list expr :=
  let m := Stop (fun env => nth (argmax (map (ev env) l)) (map (ev env) l) 0) in
  map (fun x => Sub (Sub x m) (Ln (esum (map (fun y => Exp (Sub y m)) l)))) l.
(** [-jnp.sum(labels * jax.nn.log_softmax(logits))] (mnist.py:69, imagenet/train.py:118, transformer/train.py:104, rnn/train.py:87). *)
Definition exent (labels : list R) (logits : list expr) : expr := Sub (Const 0) (esum (zip2 (fun y l => Mul (Const y) l) labels (elog_softmax logits))).
(** [0.5 * sum(jnp.sum(jnp.square(p)))] (mnist.py:68, imagenet/train.py:109). *)
Definition el2 (params : list (list expr)) : expr := Mul (Const (1 / 2)) (esum (map (fun p => esum (map esq p)) params)).
(** mnist.py:63-72. *)
Definition emnist_loss (batch : list (list expr * Z)) (params : list (list expr)) : expr :=
  Add (Div (esum (map (fun e => exent (ModelNets.one_hot 0 1 10 (snd e)) (fst e)) batch)) (Const (INR (length batch)))) (Mul (Const (1 / 10000)) (el2 params)).
(** transformer/train.py:104-105; the mask comes from the tokens. *)
Definition elm_loss (vocab : nat) (logits : list (list expr)) (obs target : list Z) : expr :=
  let mask := input_mask obs in
  Div (esum (zip2 (fun e m => Mul e (Const m)) (zip2 (fun l t => exent (ModelNets.one_hot 0 1 vocab t) l) logits target) mask)) (Const (Rsum mask)).
(** vae.py:129-151: for one image, [jnp.logaddexp(0, l)] as [ln (1 + exp l)]. *)
Definition ebinary_cross_entropy (x : list R) (logits : list expr) : expr :=
  Sub (Const 0) (esum (zip2 (fun x l => Sub (Mul (Const x) l) (Ln (Add (Const 1) (Exp l)))) x logits)).
Definition ekl_gaussian (mean var : list expr) : expr :=
  Mul (Const (1 / 2)) (esum (zip2 (fun m v => Add (Add (Sub (Sub (Const 0) (Ln v)) (Const 1)) v) (esq m)) mean var)).
(** impala_lite.py:129-133 with [rlax.policy_gradient_loss]: advantages and weights are constants. *)
Definition epolicy_gradient (logits : list (list expr)) (actions : list nat) (adv w : list R) : expr :=
  emean (map (fun p => let '(l, a, (d, w)) := p in Mul (Const w) (Mul (Const (- d)) (nth a (elog_softmax l) (Const 0)))) (combine (combine logits actions) (combine adv w))).
End Expressions.
Arguments expr : clear implicits.

(** * Layers whose properties are about exact arithmetic: moving averages, batch normalisation, vector quantisation,
    categorical sampling and recurrent cells.

    Numbers are real numbers: rounding, overflow and NaN are not modelled.  Arrays on which the code works elementwise are
    represented by one element. *)
From Coq Require Import Reals ZArith List Bool Lia Lra.
Import ListNotations.
Local Open Scope R_scope.

(** ** ExponentialMovingAverage (haiku/_src/moving_averages.py) *)
(** Module state: every entry is absent or a pair of its initial and its current value (base.py: StatePair). *)
Record ema_state := EmaState {
  e_counter : option (Z * Z);
  e_hidden : option (R * R);
  e_average : option (R * R)
}.
Definition ema_empty : ema_state := EmaState None None None.
(** [hk.get_state] with an initializer: an absent entry is created (base.py:657-721). *)
Definition get_or {A} (o : option (A * A)) (init : A) : A * A := match o with Some p => p | None => (init, init) end.
(** [hk.set_state]: an absent entry gets the value as its initial value too (base.py:724-757). *)
Definition set_to {A} (o : option (A * A)) (v : A) : option (A * A) :=
  match o with Some (i, _) => Some (i, v) | None => Some (v, v) end.

(** [ExponentialMovingAverage.__init__] (moving_averages.py:46-78): which options are accepted. *)
Definition ema_accepts (zero_debias : bool) (warmup : Z) : bool :=
  negb ((warmup <? 0)%Z) && negb (negb (warmup =? 0)%Z && zero_debias).
(** [ExponentialMovingAverage.__call__] (moving_averages.py:92-133) on one element of the value. *)
Definition ema_call (decay : R) (zero_debias : bool) (warmup : Z) (st : ema_state) (value : R) (update_stats : bool) : ema_state * R :=
  let c := get_or (e_counter st) (- warmup)%Z in
  let counter := (snd c + 1)%Z in
  let decay := if (0 <? warmup)%Z then (if (counter <=? 0)%Z then 0 else decay) else decay in
  let h := get_or (e_hidden st) 0 in
  let hidden := snd h * decay + value * (1 - decay) in
  let average := if zero_debias then hidden / (1 - decay ^ (Z.to_nat counter)) else hidden in
  if update_stats
  then (EmaState (Some (fst c, counter)) (Some (fst h, hidden)) (set_to (e_average st) average), average)
  else (EmaState (Some c) (Some h) (e_average st), average).
(** The [average] property (moving_averages.py:135-137): an error when nothing was stored. *)
Definition ema_average (st : ema_state) : option R := option_map snd (e_average st).
(** Any history of calls: values with their [update_stats] flag. *)
Fixpoint ema_run (decay : R) (zero_debias : bool) (warmup : Z) (st : ema_state) (vs : list (R * bool)) : ema_state * list R :=
  match vs with
  | [] => (st, [])
  | (v, u) :: vs => let '(st, a) := ema_call decay zero_debias warmup st v u in
                    let '(st, l) := ema_run decay zero_debias warmup st vs in (st, a :: l)
  end.
(** What [init] returns of the state: the initial values; [apply] starts with them as current values
    (transform.py:88-302, base.py:650-654). *)
Definition restart {A} (o : option (A * A)) : option (A * A) := option_map (fun p => (fst p, fst p)) o.
Definition ema_restart (st : ema_state) : ema_state := EmaState (restart (e_counter st)) (restart (e_hidden st)) (restart (e_average st)).

(** ** BatchNorm (haiku/_src/batch_norm.py)
    For one cell of the reduction: [xs] are the elements of the input that share their statistics. *)
Definition Rsum (l : list R) : R := fold_right Rplus 0 l.
Definition mean (xs : list R) : R := Rsum xs / INR (length xs).
Definition square (x : R) : R := x * x.
Record bn_state := BnState { bn_mean : ema_state; bn_var : ema_state }.
(** [BatchNorm.__call__] (batch_norm.py:122-200) without cross-replica statistics; [scale] and [offset] are the values used for the cell
    (parameter, argument, or 1 and 0). Evaluation without stored averages raises. *)
Definition bn_stats (xs : list R) : R * R :=
  let m := mean xs in (m, mean (map square xs) - square m).
Definition bn_normalize (eps scale offset : R) (stats : R * R) (xs : list R) : list R :=
  let inv := scale * / sqrt (snd stats + eps) in map (fun x => (x - fst stats) * inv + offset) xs.
Definition bn_call (decay eps scale offset : R) (st : bn_state) (xs : list R) (is_training test_local_stats : bool) : option (bn_state * list R) :=
  match (if is_training || test_local_stats then Some (bn_stats xs)
         else match ema_average (bn_mean st), ema_average (bn_var st) with Some m, Some v => Some (m, v) | _, _ => None end) with
  | None => None
  | Some stats =>
      let st := if is_training
                then BnState (fst (ema_call decay true 0 (bn_mean st) (fst stats) true)) (fst (ema_call decay true 0 (bn_var st) (snd stats) true))
                else st in
      Some (st, bn_normalize eps scale offset stats xs)
  end.
(** The statistics with [cross_replica_axis] (batch_norm.py:167-176): means over the replicas of the per-replica means. *)
Definition bn_stats_cross (replicas : list (list R)) : R * R :=
  let m := mean (map mean replicas) in
  (m, mean (map (fun xs => mean (map square xs)) replicas) - square m).
(** The axes that are reduced and the shape of [scale] and [offset] (batch_norm.py:155-162,185): [channel_index] as given by the data format.  The
    parameter shape tests membership of the plain indices in [axis]. *)
Definition bn_axis (channel_index : Z) (ndim : nat) (axis : option (list Z)) : list Z :=
  let c := if (channel_index <? 0)%Z then (channel_index + Z.of_nat ndim)%Z else channel_index in
  match axis with
  | Some a => a
  | None => filter (fun i => negb (i =? c)%Z) (map Z.of_nat (seq 0 ndim))
  end.
Definition bn_w_shape (axis : list Z) (shape : list Z) : list Z :=
  map (fun i => if existsb (Z.eqb (Z.of_nat i)) axis then 1%Z else nth i shape 0%Z) (seq 0 (length shape)).
(** What [jnp.mean(inputs, axis, keepdims=True)] has as its shape: negative axes count from the end. *)
Definition np_mean_shape (axis : list Z) (shape : list Z) : list Z :=
  map (fun i => if existsb (fun a => (if a <? 0 then a + Z.of_nat (length shape) else a) =? Z.of_nat i)%Z axis then 1%Z else nth i shape 0%Z)
      (seq 0 (length shape)).

(** ** VectorQuantizer (haiku/_src/nets/vqvae.py)
    One input row; [embeddings] is the matrix of shape [embedding_dim, num_embeddings], a list of rows. *)
Definition dot (x y : list R) : R := Rsum (map (fun p => fst p * snd p) (combine x y)).
Definition column (j : nat) (m : list (list R)) : list R := map (fun r => nth j r 0) m.
(** [distances] (vqvae.py:114-117). *)
Definition vq_distances (x : list R) (embeddings : list (list R)) (k : nat) : list R :=
  map (fun j => Rsum (map square x) - 2 * dot x (column j embeddings) + Rsum (map square (column j embeddings))) (seq 0 k).
(** [jnp.argmax]: the first position of the largest element. *)
Fixpoint argmax_from (best : nat) (v : R) (i : nat) (l : list R) : nat :=
  match l with
  | [] => best
  | x :: l => if Rlt_dec v x then argmax_from i x (S i) l else argmax_from best v (S i) l
  end.
Definition argmax (l : list R) : nat := match l with [] => 0 | x :: l => argmax_from 0 x 1 l end.
(** [encoding_indices], [quantize] (vqvae.py:119,129-130,150-154) and the straight-through output (137). *)
Definition vq_index (x : list R) (embeddings : list (list R)) (k : nat) : nat := argmax (map Ropp (vq_distances x embeddings k)).
Definition vq_quantize (embeddings : list (list R)) (j : nat) : list R := column j embeddings.
Definition vq_output (x : list R) (embeddings : list (list R)) (k : nat) : list R :=
  map (fun p => fst p + (snd p - fst p)) (combine x (vq_quantize embeddings (vq_index x embeddings k))).

(** ** multinomial (haiku/_src/basic.py:55-83) *)
Definition softmax (logits : list R) : list R := map (fun x => exp x / Rsum (map exp logits)) logits.
Fixpoint cumsum_from (acc : R) (l : list R) : list R := match l with [] => [] | x :: l => (acc + x) :: cumsum_from (acc + x) l end.
Definition cumsum (l : list R) : list R := cumsum_from 0 l.
(** [jnp.argmin] of booleans: the first [False], or position 0 when there is none. *)
Fixpoint first_false (i : nat) (l : list bool) : option nat :=
  match l with [] => None | b :: l => if b then first_false (S i) l else Some i end.
Definition argmin_bool (l : list bool) : nat := match first_false 0 l with Some i => i | None => 0%nat end.
Definition gtb (a p : R) : bool := if Rlt_dec p a then true else false.
(** The category drawn from a vector of logits by the uniform number [a]. *)
Definition draw (cumulative : list R) (a : R) : nat := argmin_bool (map (gtb a) cumulative).
Definition multinomial1 (logits : list R) (a : R) : nat := draw (cumsum (softmax logits)) a.
(** Rank-2 logits: [uniform s b] is the uniform number for sample [s] and row [b]. With one sample the draws have the shape
    of the batch; otherwise samples come first and the result is transposed. Result: one list of samples per row. *)
Definition multinomial2 (logits : list (list R)) (num_samples : nat) (uniform : nat -> nat -> R) : list (list nat) :=
  if (num_samples =? 1)%nat
  then map (fun p => [multinomial1 (snd p) (uniform 0%nat (fst p))]) (combine (seq 0 (length logits)) logits)
  else let out := map (fun s => map (fun p => multinomial1 (snd p) (uniform s (fst p))) (combine (seq 0 (length logits)) logits)) (seq 0 num_samples) in
       map (fun b => map (fun row => nth b row 0%nat) out) (seq 0 (length logits)).

(** ** Recurrent cells (haiku/_src/recurrent.py), rank-1 inputs *)
Definition sigmoid (x : R) : R := / (1 + exp (- x)).
Definition tanh (x : R) : R := (exp x - exp (- x)) / (exp x + exp (- x)).
Definition relu (x : R) : R := Rmax x 0.
Definition zipw (f : R -> R -> R) (x y : list R) : list R := map (fun p => f (fst p) (snd p)) (combine x y).
(** [jnp.matmul(x, w)] for a vector and a matrix with [n] columns given as a list of rows. *)
Definition matmul (n : nat) (x : list R) (w : list (list R)) : list R := map (fun j => dot x (column j w)) (seq 0 n).
(** [hk.Linear] (basic.py:159-183). *)
Definition affine (n : nat) (w : list (list R)) (b : option (list R)) (x : list R) : list R :=
  match b with Some b => zipw Rplus (matmul n x w) b | None => matmul n x w end.
Definition chunk (n k : nat) (l : list R) : list R := firstn n (skipn (k * n) l).
(** [LSTM.__call__] (recurrent.py:292-307); the gates are split in the order input, cell, forget, output. *)
Definition lstm (n : nat) (w : list (list R)) (b : list R) (x : list R) (state : list R * list R) : list R * (list R * list R) :=
  let gated := affine (4 * n) w (Some b) (x ++ fst state) in
  let i := chunk n 0 gated in let g := chunk n 1 gated in let f := chunk n 2 gated in let o := chunk n 3 gated in
  let f := map (fun a => sigmoid (a + 1)) f in
  let c := zipw Rplus (zipw Rmult f (snd state)) (zipw Rmult (map sigmoid i) (map tanh g)) in
  let h := zipw Rmult (map sigmoid o) (map tanh c) in
  (h, (h, c)).
(** [GRU.__call__] (recurrent.py:530-555). [w_h] is split into the columns of the gates and of the candidate. *)
Definition gru (n : nat) (w_i w_h : list (list R)) (b : list R) (x state : list R) : list R * list R :=
  let w_h_z := map (firstn (2 * n)) w_h in let w_h_a := map (skipn (2 * n)) w_h in
  let b_z := firstn (2 * n) b in let b_a := skipn (2 * n) b in
  let gates_x := matmul (3 * n) x w_i in
  let zr_x := firstn (2 * n) gates_x in let a_x := skipn (2 * n) gates_x in
  let zr_h := matmul (2 * n) state w_h_z in
  let zr := map sigmoid (zipw Rplus (zipw Rplus zr_x zr_h) b_z) in
  let z := firstn n zr in let r := skipn n zr in
  let a_h := matmul n (zipw Rmult r state) w_h_a in
  let a := map tanh (zipw Rplus (zipw Rplus a_x a_h) b_a) in
  let next := zipw Rplus (zipw (fun z s => (1 - z) * s) z state) (zipw Rmult z a) in
  (next, next).
(** [VanillaRNN.__call__] (recurrent.py:227-232). *)
Definition vanilla (n : nat) (w_i w_h : list (list R)) (b_i : list R) (b_h : option (list R)) (x state : list R) : list R * list R :=
  let out := map relu (zipw Rplus (affine n w_i (Some b_i) x) (affine n w_h b_h state)) in (out, out).
(** A cell run over a sequence: all outputs and all states after each step. *)
Fixpoint run_cell {St} (cell : list R -> St -> list R * St) (xs : list (list R)) (s : St) : list (list R * St) :=
  match xs with [] => [] | x :: xs => let r := cell x s in r :: run_cell cell xs (snd r) end.

(** * VectorQuantizerEMA (haiku/_src/nets/vqvae.py:157-337) and the perplexity of both quantizers

    Numbers are real numbers.  Entries of an array of averages are separate [ema_state]s (moving_averages.py works
    elementwise; the counter, one scalar in the code, is repeated for every entry).  [cross_replica_axis] is in ModelReplicas. *)
From Coq Require Import Reals ZArith List Bool.
From Verif Require Import ModelReal.
Import ListNotations.
Local Open Scope R_scope.

(** The state: the matrix [embedding_dim, num_embeddings] as a list of rows, the averages of the cluster sizes and of the sums. *)
Record vqe_state := VqeState {
  vqe_embeddings : list (list R);
  vqe_size : nat -> ema_state;
  vqe_dw : nat -> nat -> ema_state
}.
(** [__init__] (vqvae.py:224-225): which decays are accepted. *)
Definition vqe_accepts (decay : R) : bool := if Rle_dec 0 decay then if Rle_dec decay 1 then true else false else false.
(** [ExponentialMovingAverage.initialize] (moving_averages.py:79-90): hidden value and average are zero, no counter yet. *)
Definition ema_initialized : ema_state := EmaState None (Some (0, 0)) (Some (0, 0)).
(** [__init__] (vqvae.py:234-244). *)
Definition vqe_new (embeddings : list (list R)) : vqe_state :=
  VqeState embeddings (fun _ => ema_initialized) (fun _ _ => ema_initialized).
(** [jax.nn.one_hot]. *)
Definition one_hot (k i : nat) : list R := map (fun j => if (j =? i)%nat then 1 else 0) (seq 0 k).
(** [encodings] (vqvae.py:279-282, the same as 119-122) of the rows [xs]. *)
Definition vq_encodings (embeddings : list (list R)) (k : nat) (xs : list (list R)) : list (list R) :=
  map (fun x => one_hot k (vq_index x embeddings k)) xs.
(** [cluster_size] and [dw] (vqvae.py:295, 301). *)
Definition vqe_cluster_size (enc : list (list R)) (j : nat) : R := Rsum (column j enc).
Definition vqe_sums (xs enc : list (list R)) (d j : nat) : R := dot (column d xs) (column j enc).
(** The averages after the update, and the smoothed sizes (vqvae.py:299, 304, 306-308). *)
Definition vqe_smoothed (k : nat) (eps : R) (avg : nat -> R) (j : nat) : R :=
  let n := Rsum (map avg (seq 0 k)) in (avg j + eps) / (n + INR k * eps) * n.
(** [__call__] (vqvae.py:250-331), the state part.  The debiased averages without warmup. *)
Definition vqe_call (dim k : nat) (decay eps : R) (st : vqe_state) (xs : list (list R)) (is_training : bool) : vqe_state :=
  if is_training then
    let enc := vq_encodings (vqe_embeddings st) k xs in
    let size j := ema_call decay true 0 (vqe_size st j) (vqe_cluster_size enc j) true in
    let dw d j := ema_call decay true 0 (vqe_dw st d j) (vqe_sums xs enc d j) true in
    let smoothed := vqe_smoothed k eps (fun j => snd (size j)) in
    VqeState (map (fun d => map (fun j => snd (dw d j) / smoothed j) (seq 0 k)) (seq 0 dim))
             (fun j => fst (size j)) (fun d j => fst (dw d j))
  else st.
(** The output for one row (vqvae.py:290, 318): computed with the embeddings before the update. *)
Definition vqe_output (st : vqe_state) (k : nat) (x : list R) : list R := vq_output x (vqe_embeddings st) k.
(** A history of calls. *)
Fixpoint vqe_run (dim k : nat) (decay eps : R) (st : vqe_state) (calls : list (list (list R) * bool)) : vqe_state :=
  match calls with
  | [] => st
  | (xs, t) :: calls => vqe_run dim k decay eps (vqe_call dim k decay eps st xs t) calls
  end.
(** [perplexity] (vqvae.py:138-139, 319-322); the constant 1e-10 is [delta]. *)
Definition vq_avg_prob (enc : list (list R)) (j : nat) : R := mean (column j enc).
Definition vq_perplexity (delta : R) (enc : list (list R)) (k : nat) : R :=
  exp (- Rsum (map (fun j => vq_avg_prob enc j * ln (vq_avg_prob enc j + delta)) (seq 0 k))).
(** [e_latent_loss] (vqvae.py:132, 291): the mean over all entries of the squared difference. *)
Definition vq_latent_loss (st : list (list R)) (k : nat) (xs : list (list R)) : R :=
  mean (concat (map (fun x => zipw (fun q v => square (q - v)) (vq_quantize st (vq_index x st k)) x) xs)).

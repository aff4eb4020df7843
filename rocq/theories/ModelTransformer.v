(** * The transformer example: examples/transformer/model.py:25-122, examples/transformer/train.py:63-110

    Exact arithmetic, one element of the batch: a sequence of T positions is a list of rows. The exponential inside the attention's
    softmax is a parameter [e]: [exp] in exact arithmetic, and in floating point a function that is 0 below some bound. Random
    draws of the dropout are given as factors. *)
From Coq Require Import Reals ZArith List Bool.
From Verif Require Import ModelNets ModelReal ModelLayers.
Import ListNotations.
Local Open Scope R_scope.

(** [jax.nn.softmax] with exponential [e]. *)
Definition softmax_with (e : R -> R) (l : list R) : list R :=
  let m := nth (argmax l) l 0 in
  let ex := map (fun x => e (x - m)) l in map (fun y => y / Rsum ex) ex.
(** [MultiHeadAttention.__call__] (attention.py:61-84), like [ModelLayers.mha]. *)
Definition mha_with (e : R -> R) (heads query_size key_size value_size model_size : nat) (big : R) (lq lk lv lo : linear)
    (query key value : list (list R)) (mask : nat -> nat -> option (list R)) : option (list (list R)) :=
  if ((query_size =? key_size) && (length key =? length value))%nat then
    Some (map (fun p =>
      affine model_size (l_w lo) (Some (l_b lo))
        (flat_map (fun h =>
            matmul value_size
              (softmax_with e (att_logits key_size big (project heads query_size lq (snd p) h)
                                 (map (fun k => project heads key_size lk k h) key) (mask h (fst p))))
              (map (fun v => project heads value_size lv v h) value)) (seq 0 heads)))
      (combine (seq 0 (length query)) query))
  else None.

(** ** model.py *)
(** Row [t] of [np.tril(np.ones((n, n)))] (model.py:39). *)
Definition tril_row (n t : nat) : list R := map (fun s => if (s <=? t)%nat then 1 else 0) (seq 0 n).
(** [mask * causal_mask], or the causal mask alone (model.py:40). The padding mask has one number per key position. *)
Definition causal_row (pad : option (list R)) (n t : nat) : list R :=
  match pad with None => tril_row n t | Some m => zipw Rmult m (tril_row n t) end.
(** [layer_norm] (model.py:116-122) on one row: axis -1, with scale and offset. *)
Definition ln_row (eps : R) (scale offset row : list R) : list R :=
  map (fun j => nth j scale 0 * / sqrt (variance row + eps) * (nth j row 0 - mean row) + nth j offset 0) (seq 0 (length row)).
(** [DenseBlock.__call__] (model.py:58-63) on one row; [act] is [jax.nn.gelu]. *)
Definition dense_block (act : R -> R) (widening : nat) (l1 l2 : linear) (x : list R) : list R :=
  let hiddens := length x in
  affine hiddens (l_w l2) (Some (l_b l2)) (map act (affine (widening * hiddens) (l_w l1) (Some (l_b l1)) x)).
(** [h + hk.dropout(key, rate, y)] (model.py:105-110): [f t j] is 1 without dropout, and otherwise 0 or 1/keep_rate as drawn. Rows of
    another length do not add up (sizes of 1 are not treated specially). *)
Definition residual (h y : list (list R)) (f : nat -> nat -> R) : list (list R) :=
  map (fun t => map (fun j => nth j (nth t h []) 0 + f t j * nth j (nth t y []) 0) (seq 0 (length (nth t h [])))) (seq 0 (length h)).
Record layer := Layer { y_ln1 : list R * list R; y_q : linear; y_k : linear; y_v : linear; y_o : linear; y_ln2 : list R * list R; y_1 : linear; y_2 : linear;
                        y_drop1 : nat -> nat -> R; y_drop2 : nat -> nat -> R }.
Record setup := Setup { u_heads : nat; u_key : nat; u_eps : R; u_big : R; u_exp : R -> R; u_act : R -> R; u_wide : nat }.
(** One round of the loop (model.py:97-110). The attention gives [key_size * num_heads] numbers for each position. *)
Definition layer_step (u : setup) (pad : option (list R)) (l : layer) (h : list (list R)) : option (list (list R)) :=
  let model_size := (u_key u * u_heads u)%nat in
  let h_norm := map (ln_row (u_eps u) (fst (y_ln1 l)) (snd (y_ln1 l))) h in
  match mha_with (u_exp u) (u_heads u) (u_key u) (u_key u) (u_key u) model_size (u_big u) (y_q l) (y_k l) (y_v l) (y_o l)
          h_norm h_norm h_norm (fun _ t => Some (causal_row pad (length h) t)) with
  | None => None
  | Some h_attn =>
      if forallb (fun r => (length r =? model_size)%nat) h then
        let h := residual h h_attn (y_drop1 l) in
        let h_dense := map (fun r => dense_block (u_act u) (u_wide u) (y_1 l) (y_2 l) (ln_row (u_eps u) (fst (y_ln2 l)) (snd (y_ln2 l)) r)) h in
        Some (residual h h_dense (y_drop2 l))
      else None
  end.
Fixpoint layers (u : setup) (pad : option (list R)) (ls : list layer) (h : list (list R)) : option (list (list R)) :=
  match ls with
  | [] => Some h
  | l :: ls => match layer_step u pad l h with None => None | Some h => layers u pad ls h end
  end.
(** [Transformer.__call__] (model.py:76-113). *)
Definition transformer (u : setup) (ls : list layer) (ln_f : list R * list R) (h : list (list R)) (pad : option (list R)) : option (list (list R)) :=
  option_map (map (ln_row (u_eps u) (fst ln_f) (snd ln_f))) (layers u pad ls h).

(** ** train.py *)
(** [jnp.greater(tokens, 0)]. *)
Definition input_mask (tokens : list Z) : list R := map (fun t => if (0 <? t)%Z then 1 else 0) tokens.
(** [forward_fn] (train.py:67-92). The table of positions has exactly one row for each position. *)
Record model := Model { m_emb : list (list R); m_pos : list (list R); m_layers : list layer; m_lnf : list R * list R; m_out : linear }.
Definition embeddings (m : model) (tokens : list Z) : option (list (list R)) :=
  if (length (m_pos m) =? length tokens)%nat then
    Some (map (fun p => match array_index (m_emb m) (fst p) with Some r => zipw Rplus r (snd p) | None => [] end) (combine tokens (m_pos m)))
  else None.
Definition forward (u : setup) (vocab : nat) (m : model) (tokens : list Z) : option (list (list R)) :=
  match embeddings m tokens with
  | None => None
  | Some h => option_map (map (affine vocab (l_w (m_out m)) (Some (l_b (m_out m))))) (transformer u (m_layers m) (m_lnf m) h (Some (input_mask tokens)))
  end.
(** [jax.nn.log_softmax]: relative to the largest entry. *)
Definition log_softmax (l : list R) : list R :=
  let m := nth (argmax l) l 0 in map (fun x => x - m - ln (Rsum (map (fun y => exp (y - m)) l))) l.
(** [lm_loss_fn] (train.py:95-110) on one sequence; [None] when every position is padding (0/0). *)
Definition cross_entropy (vocab : nat) (logits : list R) (target : Z) : R :=
  - Rsum (zipw Rmult (one_hot 0 1 vocab target) (log_softmax logits)).
Definition lm_loss (vocab : nat) (logits : list (list R)) (obs target : list Z) : option R :=
  let mask := input_mask obs in
  let loss := map (fun p => cross_entropy vocab (fst p) (snd p)) (combine logits target) in
  if Req_EM_T (Rsum mask) 0 then None else Some (Rsum (zipw Rmult loss mask) / Rsum mask).

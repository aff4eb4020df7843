(** * MultiHeadAttention, LayerNorm / InstanceNorm and SpectralNorm, in exact arithmetic (rounding is not modelled) *)
From Coq Require Import Reals ZArith List Bool.
From Verif Require Import ModelReal ModelPool.
Import ListNotations.
Local Open Scope R_scope.

(** ** MultiHeadAttention (haiku/_src/attention.py:36-94), one batch element *)
(** One head and one query position: the logits (attention.py:73-77); [mask] is one number per key position. The constant 1e10 is
    [big]. *)
Definition att_logits (key_size : nat) (big : R) (q : list R) (ks : list (list R)) (mask : option (list R)) : list R :=
  let l := map (fun k => dot q k / sqrt (INR key_size)) ks in
  match mask with
  | None => l
  | Some m => map (fun p => fst p - big * (1 - snd p)) (combine l m)
  end.
(** [jax.nn.softmax]: the exponentials of the differences to the largest logit, divided by their sum. *)
Definition jax_softmax (l : list R) : list R := let m := nth (argmax l) l 0 in softmax (map (fun x => x - m) l).
Definition att_weights (key_size : nat) (big : R) (q : list R) (ks : list (list R)) (mask : option (list R)) : list R :=
  jax_softmax (att_logits key_size big q ks mask).
(** [einsum("bhtT,bThd->bthd")] (attention.py:79-80) for one head and position; [n] is the head size of the values. *)
Definition att_head (key_size n : nat) (big : R) (q : list R) (ks vs : list (list R)) (mask : option (list R)) : list R :=
  matmul n (att_weights key_size big q ks mask) vs.
(** The projections (attention.py:69-71, 86-94): a linear layer whose output is cut into heads. *)
Record linear := Lin { l_w : list (list R); l_b : list R }.
Definition project (heads size : nat) (l : linear) (x : list R) (h : nat) : list R :=
  chunk size h (affine (heads * size) (l_w l) (Some (l_b l)) x).
(** [__call__] (attention.py:61-84): all positions. [mask h t] is the row of the mask for a head and a query position. The einsum of
    line 73 contracts the last axes of the query and key heads, which must agree (sizes of 1 are not treated specially here), and
    the einsum of line 80 needs as many values as keys. *)
Definition mha (heads query_size key_size value_size model_size : nat) (big : R) (lq lk lv lo : linear)
    (query key value : list (list R)) (mask : nat -> nat -> option (list R)) : option (list (list R)) :=
  if ((query_size =? key_size) && (length key =? length value))%nat then
    Some (map (fun p =>
      affine model_size (l_w lo) (Some (l_b lo))
        (flat_map (fun h => att_head key_size value_size big (project heads query_size lq (snd p) h)
                              (map (fun k => project heads key_size lk k h) key)
                              (map (fun v => project heads value_size lv v h) value) (mask h (fst p))) (seq 0 heads)))
      (combine (seq 0 (length query)) query))
  else None.
(** The defaults of the sizes (attention.py:53-58): [or] also replaces 0. *)
Definition or_default (o : option nat) (d : nat) : nat := match o with Some (S n) => S n | _ => d end.

(** ** LayerNorm (haiku/_src/layer_norm.py:36-144)
    An array is its shape and a function from indices. *)
(** [jnp.var]: the mean of the squared differences to the mean. *)
Definition variance (xs : list R) : R := mean (map (fun x => square (x - mean xs)) xs).
(** The indices whose entries are averaged, with [keepdims] and broadcasting back, for the entry [idx] (layer_norm.py:123-124,140). *)
Definition ln_cell (axes : list Z) (shape idx : list nat) : list (list nat) :=
  product (map (fun d => if existsb (Z.eqb (Z.of_nat d)) axes then seq 0 (nth d shape 0%nat) else [nth d idx 0%nat]) (seq 0 (length shape))).
(** Scale and offset (layer_norm.py:126-139): a parameter with one entry for each position along the last axis, an argument
    (broadcast to the shape of the inputs), or the default. *)
Inductive ln_source := LParam (p : list R) | LArg (a : list nat -> R) | LDefault (d : R).
Definition ln_factor (s : ln_source) (idx : list nat) : R :=
  match s with LParam p => nth (last idx 0%nat) p 0 | LArg a => a idx | LDefault d => d end.
(** [__init__] and [__call__]: [create] with an initializer, [given] at call time (layer_norm.py:67-70, 113-118, 127-137). *)
Definition ln_choose (create has_init : bool) (param : list R) (given : option (list nat -> R)) (default : R) : option ln_source :=
  if negb create && has_init then None
  else if create then match given with Some _ => None | None => Some (LParam param) end
  else match given with Some a => Some (LArg a) | None => Some (LDefault default) end.
(** The normalisation (layer_norm.py:142-143). *)
Definition layer_norm (eps : R) (axes : list Z) (shape : list nat) (scale offset : ln_source) (x : list nat -> R) (idx : list nat) : R :=
  let xs := map x (ln_cell axes shape idx) in
  ln_factor scale idx * / sqrt (variance xs + eps) * (x idx - mean xs) + ln_factor offset idx.
(** The axes normalised over (layer_norm.py:119-121) for [axis] given as a list or as the slice [lo:hi]; [range(ndim)[axis]]. *)
Inductive ln_axis := AxList (l : list Z) | AxSlice (lo : nat) (drop_last : bool).
Definition ln_axes (ndim : nat) (a : ln_axis) : list Z :=
  match a with
  | AxList l => map (fun d => if (d <? 0)%Z then (d + Z.of_nat ndim)%Z else d) l
  | AxSlice lo drop => map Z.of_nat (seq lo ((if drop then ndim - 1 else ndim) - lo))
  end.
(** The shape of the parameters (layer_norm.py:126): the last axis only. *)
Definition ln_param_shape (shape : list nat) : list nat := [last shape 0%nat].
(** [InstanceNorm.__init__] (layer_norm.py:182-185). *)
Definition in_axis (channels_first : bool) : ln_axis := if channels_first then AxSlice 2 false else AxSlice 1 true.

(** ** SpectralNorm (haiku/_src/spectral_norm.py:64-138)
    A matrix is a list of rows; [n] is the number of columns. *)
Definition norm_sq (x : list R) : R := dot x x.
(** [_l2_normalize] (spectral_norm.py:45-61). *)
Definition l2_normalize (eps : R) (x : list R) : list R := map (fun a => a * / sqrt (norm_sq x + eps)) x.
(** One step of the power iteration (spectral_norm.py:118-120). *)
Definition sn_step (n : nat) (eps : R) (w : list (list R)) (u : list R) : list R * list R :=
  let v := l2_normalize eps (map (fun r => dot u r) w) in
  (v, l2_normalize eps (matmul n v w)).
(** The loop: [None] when [v0] is never assigned (n_steps = 0, a NameError at line 123). *)
Fixpoint sn_loop (steps : nat) (n : nat) (eps : R) (w : list (list R)) (v : option (list R)) (u : list R) : option (list R) * list R :=
  match steps with
  | O => (v, u)
  | S steps => let '(v, u) := sn_step n eps w u in sn_loop steps n eps w (Some v) u
  end.
(** [__call__] on a matrix: the new [u0], sigma and the normalised matrix (spectral_norm.py:118-134). *)
Definition sn_matrix (n_steps n : nat) (eps : R) (w : list (list R)) (u0 : list R) : option (list R * R * list (list R)) :=
  match sn_loop n_steps n eps w None u0 with
  | (None, _) => None
  | (Some v, u) => let sigma := dot (matmul n v w) u in Some (u, sigma, map (map (fun a => a / sigma)) w)
  end.
(** Which ranks are accepted (spectral_norm.py:98-110), and the matrix shape used. *)
Definition sn_shape (shape : list Z) (error_on_non_matrix : bool) : option (list Z) :=
  match shape with
  | [] | [_] => None
  | [_; _] => Some shape
  | _ => if error_on_non_matrix then None else Some [fold_right Z.mul 1%Z (removelast shape); last shape 0%Z]
  end.

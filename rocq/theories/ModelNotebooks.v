(** * The example notebooks: examples/haiku_lstms.ipynb, examples/mnist_gan.ipynb and examples/vqvae_example.ipynb

    Cells are cited by what they define.  Networks, optimizers and random draws are parameters; shapes are those of ModelShape and ModelConv. *)
From Coq Require Import Reals ZArith List Bool Arith.
From Verif Require Import ModelRng ModelShape ModelConv ModelSampling ModelNets ModelTransformer ModelTraining ModelReal ModelLayers.
Import ListNotations.

(** ** haiku_lstms.ipynb *)
Section Lstm.
(** [core] is [hk.LSTM(32)] and [dense] [hk.Linear(1)], with their parameters, on a batch; [BatchApply] of [dense] maps it (C45). *)
Context {X O S : Type} (core : X -> S -> O * S) (dense : O -> X) (initial : S).
(** [unroll_net]: the outputs. *)
Definition predictions (xs : list X) : list X := map dense (fst (unrolled core xs initial)).
(** [autoregressive_predict]: the whole sequence so far goes through the network again for every new entry.  [None]: [outs] is not bound, as the loop has not run. *)
Fixpoint slow_loop (k : nat) (context ar_outs : list X) (outs : option (list X)) : option (list X) :=
  match k with
  | 0 => outs
  | Datatypes.S k => let o := predictions (context ++ ar_outs) in slow_loop k context (ar_outs ++ skipn (length o - 1) o) (Some o)
  end.
Definition autoregressive_predict (context : list X) (seq_len : nat) : option (list X) := slow_loop (seq_len - length context) context [] None.
(** [fast_autoregressive_predict_fn]: one step at a time from the state after the context.  [None]: no last entry of an empty context, and [jnp.stack] of nothing. *)
Fixpoint fast_loop (k : nat) (x : X) (s : S) : list X :=
  match k with 0 => [] | Datatypes.S k => let (o, s) := core x s in dense o :: fast_loop k (dense o) s end.
Definition fast_autoregressive_predict (context : list X) (seq_len : nat) : option (list X) :=
  let (os, s) := unrolled core context initial in
  match rev (map dense os) with
  | [] => None
  | x :: _ => match fast_loop (seq_len - length context) x s with [] => None | ar_outs => Some (map dense os ++ ar_outs) end
  end.
End Lstm.

(** [Dataset]: columns of the arrays, [batch_size] at a time, from the start again after the last. *)
Record dataset (A : Type) := Dataset { ds_data : list A; ds_batch : nat; ds_idx : nat }.
Arguments Dataset {A}. Arguments ds_data {A}. Arguments ds_batch {A}. Arguments ds_idx {A}.
(** [__init__]; [None] for the ValueError, and for the division by a batch size of 0. *)
Definition ds_new {A} (data : list A) (batch_size : nat) : option (dataset A) :=
  if batch_size =? 0 then None else if length data mod batch_size =? 0 then Some (Dataset data batch_size 0) else None.
(** [__next__]; [None] for the division by the length of no data, and for the assertion. *)
Definition ds_next {A} (d : dataset A) : option (list A * dataset A) :=
  let start := ds_idx d in let stop := start + ds_batch d in
  let xy := firstn (ds_batch d) (skipn start (ds_data d)) in
  if length (ds_data d) <=? stop then
    if length (ds_data d) =? 0 then None else
    let stop := stop mod length (ds_data d) in
    if stop =? 0 then Some (xy, Dataset (ds_data d) (ds_batch d) stop) else None
  else Some (xy, Dataset (ds_data d) (ds_batch d) stop).
Fixpoint ds_draw {A} (n : nat) (d : dataset A) : option (list (list A) * dataset A) :=
  match n with
  | 0 => Some ([], d)
  | S n => match ds_next d with
           | None => None
           | Some (b, d) => match ds_draw n d with None => None | Some (bs, d) => Some (b :: bs, d) end
           end
  end.

(** ** Grids of images *)
(** [make_grid] (mnist_gan.ipynb, [c] = 1) and [convert_batch_to_image_grid] (vqvae_example.ipynb, [c] = 3): reshape to (rows, cols, h, w, c), exchange the second and
    third axis, reshape to (rows * h, cols * w, c); arrays in row-major order. *)
Definition image_grid {A} (cols h w c : nat) (x : nat -> A) (l : nat) : A :=
  let ch := l mod c in let j := (l / c) mod w in let b := (l / c / w) mod cols in let i := (l / c / w / cols) mod h in let a := l / c / w / cols / h in
  x ((((a * cols + b) * h + i) * w + j) * c + ch).

(** ** Sizes of images in the networks *)
Section Sizes.
Local Open Scope Z_scope.
(** [hk.Conv2D] and [hk.Conv2DTranspose] with padding "SAME" along one axis. *)
Definition conv_same (k s n : Z) : Z := let '(lo, hi) := lax_pads PtSame n k s in window_count n lo hi k s.
Definition conv_transpose_same (k s n : Z) : Z := let '(lo, hi) := conv_transpose_padding k s PtSame in conv_transpose_size n lo hi k s.
(** mnist_gan.ipynb [Generator] (from 7), [Discriminator]. *)
Definition generator_size (output_channels : list Z) : Z := fold_left (fun n _ => conv_transpose_same 5 2 n) output_channels 7.
Definition discriminator_size (strides : list Z) (n : Z) : Z := fold_left (fun n s => conv_same 5 s n) strides n.
(** vqvae_example.ipynb [ResidualStack], [Encoder], [Decoder]; [pre_vq_conv1] has a kernel of size 1. *)
Definition residual_size (layers : nat) (n : Z) : Z := Nat.iter layers (fun n => conv_same 1 1 (conv_same 3 1 n)) n.
Definition encoder_size (layers : nat) (n : Z) : Z := residual_size layers (conv_same 3 1 (conv_same 4 2 (conv_same 4 2 n))).
Definition decoder_size (layers : nat) (n : Z) : Z := conv_transpose_same 4 2 (conv_transpose_same 4 2 (residual_size layers (conv_same 3 1 n))).
Definition reconstruction_size (layers : nat) (n : Z) : Z := decoder_size layers (conv_same 1 1 (encoder_size layers n)).
End Sizes.

(** ** mnist_gan.ipynb *)
Section Gan.
(** One step of each optimizer with the gradient of [disc_loss] or [gen_loss]: own parameters and optimizer state, key, the other network's parameters, batch. *)
Context {Pg Pd Og Od B : Type} (gen_step : Pg -> Og -> key -> Pd -> B -> Pg * Og) (disc_step : Pd -> Od -> key -> Pg -> B -> Pd * Od).
Record gan_state := GANState { params_gen : Pg; params_disc : Pd; opt_gen : Og; opt_disc : Od }.
(** [GAN.update] *)
Definition gan_update (rng : key) (s : gan_state) (batch : B) : key * gan_state :=
  let rng' := Split rng 3 0 in let rng_gen := Split rng 3 1 in let rng_disc := Split rng 3 2 in
  let (disc, od) := disc_step (params_disc s) (opt_disc s) rng_disc (params_gen s) batch in
  let (gen, og) := gen_step (params_gen s) (opt_gen s) rng_gen (params_disc s) batch in
  (rng', GANState gen disc og od).
(** The loop: [rng, gan_state, log = gan.update(rng, gan_state, next(dataset))]. *)
Definition gan_train (rng : key) (s : gan_state) (batches : list B) : key * gan_state := fold_left (fun p b => gan_update (fst p) (snd p) b) batches (rng, s).
End Gan.
(** The keys that [n] updates draw with. *)
Fixpoint gan_keys (n : nat) (rng : key) : list key := match n with 0 => [] | S n => Split rng 3 1 :: Split rng 3 2 :: gan_keys n (Split rng 3 0) end.

Section Losses.
Local Open Scope R_scope.
(** [sparse_softmax_cross_entropy] *)
Definition sparse_cross_entropy (logits : list R) (label : Z) : R := - Rsum (zipw Rmult (one_hot 0 1 (length logits) label) (log_softmax logits)).
(** [disc_loss] and [gen_loss] as functions of the discriminator's logits: 1 is real, 0 is fake. *)
Definition disc_loss (real fake : list (list R)) : R :=
  mean (zipw Rplus (map (fun l => sparse_cross_entropy l 1) real) (map (fun l => sparse_cross_entropy l 0) fake)).
Definition gen_loss (fake : list (list R)) : R := mean (map (fun l => - ln (nth 1 (jax_softmax l) 0)) fake).
(** Both batches through the discriminator at once: [jnp.split(disc(concatenate([batch, fake_batch])), 2)]; [None]: the result cannot be split in two equal parts. *)
Definition one_pass {A B} (disc : A -> B) (batch fake : list A) : option (list B * list B) :=
  let out := map disc (batch ++ fake) in
  if Nat.even (length out) then Some (firstn (length out / 2) out, skipn (length out / 2) out) else None.
(** [sine_seq] for one phase: inputs and targets. *)
Definition sine (samples_per_cycle phase : R) (i : nat) : R := sin (INR i * (2 * PI / samples_per_cycle) + phase).
Definition sine_seq (phase : R) (seq_len : nat) (samples_per_cycle : R) : list R * list R :=
  let sine_t := map (sine samples_per_cycle phase) (seq 0 (seq_len + 1)) in (removelast sine_t, tl sine_t).
(** The images: [2.0 * image - 1.0] for training, [(samples + 1.0) / 2.0] for display. *)
Definition preprocess (x : R) : R := 2 * x - 1.
Definition display (x : R) : R := (x + 1) / 2.
End Losses.

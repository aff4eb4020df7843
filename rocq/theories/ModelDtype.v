(** Element types: which types the modules of Haiku give, ask for and store.

    A run is followed with every array replaced by its element type.  [jnp] operations join the types of their operands in JAX's promotion lattice, in which a Python
    number is a weak type below the arrays'; [lax] operations want equal types and raise a TypeError otherwise.  Shapes and values are left out.  Unsigned and complex
    types and integers of other widths are left out. *)
From Coq Require Import String List Bool Arith Lia.
Import ListNotations.
Local Open Scope string_scope.

(** The types, and the weak types of Python's [int] and [float]. *)
Inductive ty := TBool | TWi | TI32 | TI64 | TWf | TBF16 | TF16 | TF32 | TF64.
Definition ty_eqb (a b : ty) : bool :=
  match a, b with TBool, TBool | TWi, TWi | TI32, TI32 | TI64, TI64 | TWf, TWf | TBF16, TBF16 | TF16, TF16 | TF32, TF32 | TF64, TF64 => true | _, _ => false end.
Definition rank (a : ty) : nat := match a with TBool => 0 | TWi => 1 | TI32 => 2 | TI64 => 3 | TWf => 4 | TBF16 | TF16 => 5 | TF32 => 6 | TF64 => 7 end.
(** JAX's promotion: the two half precision types meet in float32, the others are in a line. *)
Definition join (a b : ty) : ty :=
  match a, b with TBF16, TF16 | TF16, TBF16 => TF32 | _, _ => if Nat.ltb (rank a) (rank b) then b else a end.
Definition is_float (a : ty) : bool := Nat.leb 4 (rank a).
(** [x.dtype]: a weak type counts as the default type, which [jax_enable_x64] makes 64 bits wide. *)
Definition dtype (x64 : bool) (a : ty) : ty := match a with TWi => if x64 then TI64 else TI32 | TWf => if x64 then TF64 else TF32 | _ => a end.
(** The default float type, e.g. of [jnp.zeros(shape)], and of [jax.nn.one_hot] whose default is float64 and cut to 32 bits without x64. *)
Definition default (x64 : bool) : ty := dtype x64 TWf.
(** Means, quotients and the like make floats of integers. *)
Definition inexact (x64 : bool) (a : ty) : ty := if is_float a then a else default x64.
Definition div (x64 : bool) (a b : ty) : ty := inexact x64 (join a b).
(** [lax] operations on two arrays (convolutions and [lax.select]): the types have to be equal. *)
Definition lax_same (x64 : bool) (a b : ty) : option ty := if ty_eqb (dtype x64 a) (dtype x64 b) then Some (dtype x64 a) else None.

(** What a run has besides its arrays: the types of the state's entries and the parameters that were asked for, with the types they were asked in. *)
Record world := World { cells : list ((string * string) * ty); asked : list ((string * string) * ty) }.
Definition M (A : Type) : Type := world -> option (A * world).
Definition ret {A} (a : A) : M A := fun w => Some (a, w).
Definition bind {A B} (m : M A) (f : A -> M B) : M B := fun w => match m w with Some (a, w) => f a w | None => None end.
Definition fail {A} : M A := fun _ => None.
Definition lift {A} (o : option A) : M A := fun w => match o with Some a => Some (a, w) | None => None end.
Notation "x <- m ;; f" := (bind m (fun x => f)) (at level 61, m at next level, right associativity).
Notation "m ;;; f" := (bind m (fun _ => f)) (at level 61, right associativity).
Definition key_eqb (a b : string * string) : bool := String.eqb (fst a) (fst b) && String.eqb (snd a) (snd b).
Fixpoint find (k : string * string) (l : list ((string * string) * ty)) : option ty :=
  match l with [] => None | (k', t) :: l => if key_eqb k k' then Some t else find k l end.
Fixpoint put (k : string * string) (t : ty) (l : list ((string * string) * ty)) : list ((string * string) * ty) :=
  match l with [] => [(k, t)] | (k', t') :: l => if key_eqb k k' then (k', t) :: l else (k', t') :: put k t l end.
(** [hk.get_state] with an initializer (base.py:656-722), which gives the type asked for (C96_initializers), and without. *)
Definition get_state (p n : string) (t : ty) : M ty := fun w => match find (p, n) (cells w) with Some t' => Some (t', w) | None => Some (t, World (put (p, n) t (cells w)) (asked w)) end.
Definition read_state (p n : string) : M ty := fun w => match find (p, n) (cells w) with Some t => Some (t, w) | None => None end.
Definition set_state (p n : string) (t : ty) : M unit := fun w => Some (tt, World (put (p, n) t (cells w)) (asked w)).

(** The initializers (initializers.py:51-291): the type of what they return when asked for type [d]. [c] is the type of the constant, mean, standard deviation, scale or gain. *)
Inductive initializer := IConstant (c : ty) | INormal (c : ty) | ITruncated (c : ty) | IUniform | IVariance (distribution : nat) | IUniformScaling | IOrthogonal (c : ty) | IIdentity (c : ty).
Definition init_type (x64 : bool) (i : initializer) (d : ty) : ty :=
  match i with
  | IConstant c => d                                                        (* broadcast_to(c).astype(d) *)
  | INormal c => let m := d in let s := d in join m (join s d)                (* convert, convert, normal(d) *)
  | ITruncated c => let m := d in let s := d in join (join s d) m
  | IUniform | IUniformScaling => d
  | IVariance 0 => join (join d d) d
  | IVariance 1 => join d (join d d)
  | IVariance _ => d
  | IOrthogonal c => let q := join d d in join d q
  | IIdentity c => join d d
  end.

Section Modules.
Context (x64 : bool).
(** What [hk.get_parameter] returns for a module, a name and a type asked for (base.py:238-303): the initializer's or stored array, passed through getters. Only its shape is checked (l. 297-300). *)
Context (stored : string -> string -> ty -> ty).
Definition param (p n : string) (d : ty) : M ty := fun w => Some (stored p n d, World (cells w) (asked w ++ [((p, n), d)])).
Definition inside (p q : string) : string := p ++ "/" ++ q.
Definition opt {A} (b : bool) (m : M A) : M (option A) := if b then a <- m ;; ret (Some a) else ret None.
Definition plus (a : ty) (b : option ty) : ty := match b with Some b => join a b | None => a end.

(** [hk.Linear] (basic.py:159-181). *)
Definition linear (p : string) (with_bias : bool) (x : ty) : M ty :=
  w <- param p "w" (dtype x64 x) ;;
  let out := join x w in
  b <- opt with_bias (param p "b" (dtype x64 x)) ;; ret (plus out b).
(** [hk.Bias] (bias.py:98-131). *)
Definition bias (p : string) (multiplier : option ty) (x : ty) : M ty := b <- param p "b" (dtype x64 x) ;; ret (join x (plus b multiplier)).
(** [hk.ConvND] (conv.py:185-212), [hk.ConvNDTranspose] (conv.py:557-590) and, without mask, [hk.DepthwiseConv2D] (depthwise_conv.py:103-134). *)
Definition conv (p : string) (mask : option ty) (with_bias : bool) (x : ty) : M ty :=
  w <- param p "w" (dtype x64 x) ;;
  out <- lift (lax_same x64 x (plus w mask)) ;;
  b <- opt with_bias (param p "b" (dtype x64 x)) ;; ret (plus out b).
(** [hk.SeparableDepthwiseConv2D] (depthwise_conv.py:174-196). *)
Definition separable (p : string) (with_bias : bool) (x : ty) : M ty :=
  y <- conv (inside p "depthwise_conv2_d") None false x ;; conv (inside p "depthwise_conv2_d_1") None with_bias y.

(** [hk.ExponentialMovingAverage] (moving_averages.py:92-132). The decay and the Python constants are weak; [warmup] says whether [warmup_length > 0]. *)
Definition ema (p : string) (warmup zero_debias update_stats : bool) (x : ty) : M ty :=
  counter <- get_state p "counter" TI32 ;;
  let counter := join counter TWi in
  let v := dtype x64 x in
  decay <- (if warmup then lift (lax_same x64 TWf v) else ret v) ;;
  let one := v in
  hidden <- get_state p "hidden" v ;;
  let hidden := join (join hidden decay) (join x (join one decay)) in
  let average := if zero_debias then div x64 hidden (join one (join decay counter)) else hidden in
  (if update_stats then set_state p "counter" counter ;;; set_state p "hidden" hidden ;;; set_state p "average" average else ret tt) ;;;
  ret average.

(** [hk.BatchNorm] (batch_norm.py:148-200); [scale] and [offset] are the arguments of the call. *)
Definition batch_norm (p : string) (create_scale create_offset is_training test_local_stats : bool) (scale offset : option ty) (x : ty) : M ty :=
  if (create_scale && match scale with Some _ => true | None => false end) || (create_offset && match offset with Some _ => true | None => false end) then fail else
  mv <- (if is_training || test_local_stats then
           let mean := inexact x64 x in let squares := inexact x64 x in ret (mean, join squares mean)
         else m <- read_state (inside p "~/mean_ema") "average" ;; v <- read_state (inside p "~/var_ema") "average" ;; ret (m, v)) ;;
  let (mean, var) := (mv : ty * ty) in
  (if is_training then ema (inside p "~/mean_ema") false true true mean ;;; ema (inside p "~/var_ema") false true true var ;;; ret tt else ret tt) ;;;
  let w := dtype x64 x in
  s <- opt create_scale (param p "scale" w) ;;
  o <- opt create_offset (param p "offset" w) ;;
  let scale := match s with Some s => s | None => match scale with Some s => s | None => w end end in
  let offset := match o with Some o => o | None => match offset with Some o => o | None => w end end in
  let eps := dtype x64 var in
  let inv := join scale (join var eps) in
  ret (join (join (join x mean) inv) offset).
(** [hk.LayerNorm] and [hk.InstanceNorm] (layer_norm.py:113-146). *)
Definition layer_norm (p : string) (create_scale create_offset : bool) (scale offset : option ty) (x : ty) : M ty :=
  if (create_scale && match scale with Some _ => true | None => false end) || (create_offset && match offset with Some _ => true | None => false end) then fail else
  let mean := inexact x64 x in let variance := inexact x64 x in
  s <- opt create_scale (param p "scale" (dtype x64 x)) ;;
  o <- opt create_offset (param p "offset" (dtype x64 x)) ;;
  let scale := match s with Some s => s | None => match scale with Some s => s | None => dtype x64 x end end in
  let offset := match o with Some o => o | None => match offset with Some o => o | None => dtype x64 x end end in
  let inv := join scale (join variance TWf) in
  ret (join (join inv (join x mean)) offset).
(** [hk.GroupNorm] (group_norm.py:161-212). *)
Definition group_norm (p : string) (create_scale create_offset : bool) (scale offset : option ty) (x : ty) : M ty :=
  if (create_scale && match scale with Some _ => true | None => false end) || (create_offset && match offset with Some _ => true | None => false end) then fail else
  s <- opt create_scale (param p "scale" (dtype x64 x)) ;;
  o <- opt create_offset (param p "offset" (dtype x64 x)) ;;
  let scale := match s with Some s => Some s | None => scale end in
  let offset := match o with Some o => Some o | None => offset end in
  let mean := inexact x64 x in let var := inexact x64 x in
  let x := join (join x mean) (join var TWf) in
  ret (plus (plus x scale) offset).

(** [hk.SpectralNorm] (spectral_norm.py:61, 114-151): [steps] power iterations; with none of them the name [v0] is not bound. *)
Definition l2_normalize (v : ty) : ty := join v (join v TWf).
Fixpoint power (steps : nat) (value u : ty) (v : option ty) : ty * option ty :=
  match steps with
  | 0 => (u, v)
  | S n => let v := l2_normalize (join u value) in power n value (l2_normalize (join v value)) (Some v)
  end.
Definition spectral_norm (p : string) (steps : nat) (update_stats : bool) (x : ty) : M ty :=
  u <- get_state p "u0" (dtype x64 x) ;;
  match power steps x u None with
  | (_, None) => fail
  | (u, Some v) =>
      let sigma := join (join v x) u in
      (if update_stats then set_state p "u0" u ;;; set_state p "sigma" sigma else ret tt) ;;;
      ret (div x64 x sigma)
  end.

(** [hk.MultiHeadAttention] (attention.py:61-94). *)
Definition attention (p : string) (mask : option ty) (query key value : ty) : M ty :=
  q <- linear (inside p "query") true query ;; k <- linear (inside p "key") true key ;; v <- linear (inside p "value") true value ;;
  let logits := join q k in
  let sqrt_key_size := dtype x64 key in
  let logits := div x64 logits sqrt_key_size in
  let logits := plus logits (option_map (fun m => join TWf (join TWf m)) mask) in
  let weights := inexact x64 logits in
  linear (inside p "linear") true (join weights v).

(** [hk.Embed] (embed.py:117-169): the parameter is asked for in [get_parameter]'s default type. *)
Inductive lookup := ArrayIndex | OneHot.
Definition embed (p : string) (style : lookup) (ids : ty) : M ty :=
  if is_float ids || ty_eqb ids TBool then fail else
  e <- param p "embeddings" TF32 ;;
  match style with ArrayIndex => ret e | OneHot => ret (join e (default x64)) end.

(** [hk.max_pool], [hk.avg_pool] (pool.py:71-147): [lax.reduce_window] keeps the type. The sizes' product is a NumPy integer. *)
Definition max_pool (x : ty) : M ty := ret x.
Definition avg_pool (valid : bool) (x : ty) : M ty := ret (if valid then div x64 x TI64 else div x64 x x).
(** [hk.dropout] (basic.py:289-314) with a Python float. *)
Definition dropout (zero_rate : bool) (x : ty) : M ty := ret (if zero_rate then x else div x64 (join TBool x) TWf).

(** [hk.nets.VectorQuantizer] (vqvae.py:57-154): the constructor with its argument [dtype], and the call. *)
Record vq_out := VqOut { quantize : ty; loss : ty; perplexity : ty; encodings : ty; distances : ty }.
Definition vq_distances (x e : ty) : ty := join (join x (join TWi (join x e))) e.
Definition vq (p : string) (d : ty) (x : ty) : M vq_out :=
  e <- param p "embeddings" d ;;
  let distances := vq_distances x e in
  let encodings := dtype x64 distances in
  let quantized := e in
  let e_latent := inexact x64 (join quantized x) in let q_latent := inexact x64 (join quantized x) in
  let avg_probs := inexact x64 encodings in
  ret (VqOut (join x (join quantized x)) (join q_latent (join TWf e_latent)) (join avg_probs (join avg_probs TWf)) encodings distances).
(** [hk.nets.VectorQuantizerEMA] (vqvae.py:192-337). *)
Definition ema_initialize (p : string) (d : ty) : M unit := get_state p "hidden" d ;;; get_state p "average" d ;;; ret tt.
Definition vq_ema (p : string) (d : ty) (is_training : bool) (x : ty) : M vq_out :=
  e <- get_state p "embeddings" d ;;
  ema_initialize (inside p "~/ema_cluster_size") d ;;; ema_initialize (inside p "~/ema_dw") e ;;;
  e <- read_state p "embeddings" ;;
  let distances := vq_distances x e in
  let encodings := dtype x64 distances in
  let quantized := e in
  let e_latent := inexact x64 (join quantized x) in
  (if is_training then
     cluster <- ema (inside p "~/ema_cluster_size") false true true encodings ;;
     dw <- ema (inside p "~/ema_dw") false true true (join x encodings) ;;
     let n := cluster in
     let cluster := join (div x64 (join cluster TWf) (join n (join TWi TWf))) n in
     set_state p "embeddings" (div x64 dw cluster)
   else ret tt) ;;;
  let avg_probs := inexact x64 encodings in
  ret (VqOut (join x (join quantized x)) (join TWf e_latent) (join avg_probs (join avg_probs TWf)) encodings distances).

(** Recurrent cores: a state is a list of types. *)
Definition core : Type := ty -> list ty -> M (ty * list ty).
(** [hk.VanillaRNN] (recurrent.py:215-221). *)
Definition vanilla (p : string) (double_bias : bool) : core := fun x s =>
  match s with
  | [h] => a <- linear (inside p "linear") true x ;; b <- linear (inside p "linear_1") double_bias h ;; let out := join a b in ret (out, [out])
  | _ => fail
  end.
Definition lstm_gates (gated cell : ty) : ty * list ty :=
  let f := join gated TWi in
  let c := join (join f cell) (join gated gated) in
  let h := join gated c in (h, [h; c]).
(** [hk.LSTM] (recurrent.py:288-306). *)
Definition lstm (p : string) : core := fun x s =>
  match s with [h; c] => gated <- linear (inside p "linear") true (join x h) ;; ret (lstm_gates gated c) | _ => fail end.
(** [hk.ConvNDLSTM] (recurrent.py:371-394). *)
Definition conv_lstm (p : string) : core := fun x s =>
  match s with
  | [h; c] => a <- conv (inside p "input_to_hidden") None true x ;; b <- conv (inside p "hidden_to_hidden") None true h ;; ret (lstm_gates (join a b) c)
  | _ => fail
  end.
(** [hk.GRU] (recurrent.py:530-562). *)
Definition gru (p : string) : core := fun x s =>
  match s with
  | [h] =>
      w_i <- param p "w_i" (dtype x64 x) ;; w_h <- param p "w_h" (dtype x64 x) ;; b <- param p "b" (dtype x64 x) ;;
      let gates_x := join x w_i in
      let zr := join (join gates_x (join h w_h)) b in
      let a := join (join gates_x (join (join zr h) w_h)) b in
      let next := join (join (join TWi zr) h) (join zr a) in
      ret (next, [next])
  | _ => fail
  end.
(** [hk.IdentityCore] (recurrent.py:578-579). *)
Definition identity_core : core := fun x s => ret (x, s).
(** [hk.ResetCore] (recurrent.py:678-681): the initial state is cast to the types of the state. *)
Definition reset_core (c : core) : core := fun x s => c x (map (fun t => join (dtype x64 t) t) s).
(** [hk.DeepRNN] and [hk.deep_rnn_with_skip_connections] (recurrent.py:713-739): layers are cores with their numbers of state entries, or callables. *)
Inductive layer := Core (size : nat) (c : core) | Callable (f : ty -> M ty).
Fixpoint deep_loop (layers : list layer) (skip : bool) (first : bool) (inputs current : ty) (s : list ty) (outputs : list ty) (states : list ty) : M (ty * list ty * list ty) :=
  match layers with
  | [] => ret (current, outputs, states)
  | l :: layers =>
      let current := if skip && negb first then join inputs current else current in
      match l with
      | Core n c => r <- c current (firstn n s) ;; deep_loop layers skip false inputs (fst r) (skipn n s) (outputs ++ [fst r]) (states ++ snd r)
      | Callable f => y <- f current ;; deep_loop layers skip false inputs y s outputs states
      end
  end.
Definition joins (l : list ty) : option ty := match l with [] => None | a :: l => Some (fold_left join l a) end.
Definition deep_rnn (layers : list layer) (skip : bool) : core := fun x s =>
  r <- deep_loop layers skip true x x s [] [] ;;
  let '(current, outputs, states) := (r : ty * list ty * list ty) in
  if skip then out <- lift (joins outputs) ;; ret (out, states) else ret (current, states).
(** [initial_state] of the cores (recurrent.py:223-227, 308-313, 396-401, 564-568): zeros of the default type. *)
Definition initial_state (size : nat) : list ty := repeat (default x64) size.

(** [hk.static_unroll] (recurrent.py:106-121): [jnp.stack] joins the outputs' types. *)
Fixpoint unroll_loop (steps : nat) (c : core) (x : ty) (s : list ty) (outputs : list ty) : M (list ty * list ty) :=
  match steps with
  | 0 => ret (outputs, s)
  | S n => r <- c x s ;; unroll_loop n c x (snd r) (outputs ++ [fst r])
  end.
Definition static_unroll (steps : nat) (c : core) (x : ty) (s : list ty) : M (ty * list ty) :=
  r <- unroll_loop steps c x s [] ;; out <- lift (joins (fst r)) ;; ret (out, snd r).
(** [jax.lax.scan] in [hk.scan] (stateful.py:482-505): the body is traced once, and carry and Haiku state have to come out with the types they go in with. *)
Fixpoint same_types (l m : list ty) : bool := match l, m with [], [] => true | a :: l, b :: m => ty_eqb (dtype x64 a) (dtype x64 b) && same_types l m | _, _ => false end.
Fixpoint same_cells (l m : list ((string * string) * ty)) : bool := match l, m with [], [] => true | a :: l, b :: m => key_eqb (fst a) (fst b) && ty_eqb (dtype x64 (snd a)) (dtype x64 (snd b)) && same_cells l m | _, _ => false end.
Definition scan (c : core) (x : ty) (s : list ty) : M (ty * list ty) := fun w =>
  match c x s w with
  | Some ((y, s'), w') => if same_types s s' && same_cells (cells w) (cells w') then Some ((y, s'), w') else None
  | None => None
  end.
(** [hk.dynamic_unroll] (recurrent.py:158-174) and [hk.scan]'s first step at init (stateful.py:460-480). *)
Definition dynamic_unroll (init : bool) (steps : nat) (c : core) (x : ty) (s : list ty) : M (ty * list ty) :=
  if init then
    r <- c x s ;;
    match steps with
    | 0 => ret (fst r, s)
    | 1 => ret r
    | _ => q <- scan c x (snd r) ;; ret (join (fst r) (fst q), snd q)
    end
  else scan c x s.

(** [hk.Sequential] (combinators; basic.py:86-109) and [hk.nets.MLP] (mlp.py:101-118) with an activation that keeps the type. *)
Fixpoint chain (fs : list (ty -> M ty)) (x : ty) : M ty := match fs with [] => ret x | f :: fs => y <- f x ;; chain fs y end.
Definition mlp (p : string) (layers : list string) (with_bias : bool) (dropout_rate : option bool) (activate_final : bool) : ty -> M ty :=
  chain (map (fun il x => y <- linear (inside p (snd il)) with_bias x ;;
                       match dropout_rate with Some z => if Nat.ltb (fst il) (List.length layers - 1) || activate_final then dropout z y else ret y | None => ret y end)
             (combine (seq 0 (List.length layers)) layers)).

(** [hk.nets.ResNet] (resnet.py:99-115, 175-187, 213-217, 364-386). *)
Definition bn (p : string) (training local : bool) : ty -> M ty := batch_norm p true true training local None None.
Definition conv0 (p : string) : ty -> M ty := conv p None false.
Definition block_layers (bottleneck : bool) : list string := if bottleneck then ["0"; "1"; "2"] else ["0"; "1"].
Definition block_v1 (p : string) (training local projection bottleneck : bool) (x : ty) : M ty :=
  shortcut <- (if projection then chain [conv0 (inside p "shortcut_conv"); bn (inside p "shortcut_batchnorm") training local] x else ret x) ;;
  out <- chain (map (fun i x => y <- conv0 (inside p ("conv_" ++ i)) x ;; bn (inside p ("batchnorm_" ++ i)) training local y) (block_layers bottleneck)) x ;;
  ret (join out shortcut).
Definition block_v2 (p : string) (training local projection bottleneck : bool) (x : ty) : M ty :=
  y <- bn (inside p "batchnorm_0") training local x ;;
  shortcut <- (if projection then conv0 (inside p "shortcut_conv") y else ret x) ;;
  y <- conv0 (inside p "conv_0") y ;;
  out <- chain (map (fun i x => y <- bn (inside p ("batchnorm_" ++ i)) training local x ;; conv0 (inside p ("conv_" ++ i)) y) (tl (block_layers bottleneck))) y ;;
  ret (join out shortcut).
Definition block (v2 : bool) := if v2 then block_v2 else block_v1.
(** [blocks]: names of the blocks and whether they project. *)
Definition resnet (p : string) (v2 bottleneck training local : bool) (blocks : list (string * bool)) (x : ty) : M ty :=
  out <- conv0 (inside p "initial_conv") x ;;
  out <- (if v2 then ret out else bn (inside p "initial_batchnorm") training local out) ;;
  out <- max_pool out ;;
  out <- chain (map (fun b => block v2 (inside p (fst b)) training local (snd b) bottleneck) blocks) out ;;
  out <- (if v2 then bn (inside p "final_batchnorm") training local out else ret out) ;;
  linear (inside p "logits") true (inexact x64 out).
(** [hk.nets.MobileNetV1] (mobilenetv1.py:64-85, 131-155). *)
Definition mobile_block (p : string) (training use_bn : bool) (x : ty) : M ty :=
  out <- conv (inside p "depthwise_conv") None (negb use_bn) x ;;
  out <- (if use_bn then bn (inside p "batch_norm") training false out else ret out) ;;
  out <- conv (inside p "pointwise_conv") None (negb use_bn) out ;;
  (if use_bn then bn (inside p "batch_norm_1") training false out else ret out).
Definition mobilenet (p : string) (training use_bn : bool) (blocks : list string) (x : ty) : M ty :=
  out <- conv (inside p "conv2_d") None (negb use_bn) x ;;
  out <- (if use_bn then bn (inside p "batch_norm") training false out else ret out) ;;
  out <- chain (map (fun b => mobile_block (inside p b) training use_bn) blocks) out ;;
  linear (inside p "logits") true (inexact x64 out).
End Modules.

(** examples/imagenet/train.py:59-60, 152-176: parameters and state are cast to bfloat16 for the step, and the state back. *)
Definition to_bf16 (t : ty) : ty := match t with TF32 => TBF16 | _ => t end.
Definition from_bf16 (t : ty) : ty := match t with TBF16 => TF32 | _ => t end.
Definition cast_cells (f : ty -> ty) (w : world) : world := World (map (fun c => (fst c, f (snd c))) (cells w)) (asked w).
(** The state after a step of [train_step] with [train_bfloat16], for a network [net] given the parameters' types. *)
Definition bf16_step (net : (string -> string -> ty -> ty) -> ty -> M ty) (stored : string -> string -> ty -> ty) (batch : ty) (w : world) : option (ty * world) :=
  match net (fun p n d => to_bf16 (stored p n d)) batch (cast_cells to_bf16 w) with Some (y, w) => Some (y, cast_cells from_bf16 w) | None => None end.

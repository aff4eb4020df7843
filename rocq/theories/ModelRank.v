(** Ranks: which [jnp] operations of Haiku's modules promote ranks implicitly, and so raise under [jax_numpy_rank_promotion='raise'] (integration/rank_promotion_test.py).

    A run is followed with every array replaced by its rank; sizes and values are left out, so shapes are taken to fit wherever the ranks do.  Elementwise [jnp]
    operations go through [promote]; [jnp.broadcast_to], matrix products, convolutions, reductions and [lax] operations do not promote.  Parameters have the rank
    they are asked for, since [hk.get_parameter] checks their shape (base.py:297-300); the state's entries have the rank that was stored, which nobody checks. *)
From Coq Require Import String List Bool Arith Lia.
Import ListNotations.
Local Open Scope string_scope.
Local Open Scope nat_scope.

(** The state: ranks of entries by module and name. *)
Definition world : Type := list ((string * string) * nat).
Definition M (A : Type) : Type := world -> option (A * world).
Definition ret {A} (a : A) : M A := fun w => Some (a, w).
Definition bind {A B} (m : M A) (f : A -> M B) : M B := fun w => match m w with Some (a, w) => f a w | None => None end.
Definition fail {A} : M A := fun _ => None.
Definition lift {A} (o : option A) : M A := fun w => match o with Some a => Some (a, w) | None => None end.
Notation "x <- m ;; f" := (bind m (fun x => f)) (at level 61, m at next level, right associativity).
Notation "m ;;; f" := (bind m (fun _ => f)) (at level 61, right associativity).
Definition key_eqb (a b : string * string) : bool := String.eqb (fst a) (fst b) && String.eqb (snd a) (snd b).
Fixpoint find (k : string * string) (l : world) : option nat :=
  match l with [] => None | (k', t) :: l => if key_eqb k k' then Some t else find k l end.
Fixpoint put (k : string * string) (t : nat) (l : world) : world :=
  match l with [] => [(k, t)] | (k', t') :: l => if key_eqb k k' then (k', t) :: l else (k', t') :: put k t l end.
(** [hk.get_state] with an initializer (base.py:656-722) and without, [hk.set_state] (base.py:725-755). *)
Definition get_state (p n : string) (t : nat) : M nat := fun w => match find (p, n) w with Some t' => Some (t', w) | None => Some (t, put (p, n) t w) end.
Definition read_state (p n : string) : M nat := fun w => match find (p, n) w with Some t => Some (t, w) | None => None end.
Definition set_state (p n : string) (t : nat) : M unit := fun w => Some (tt, put (p, n) t w).
(** [jnp.broadcast_to] a shape of rank [r]; [jnp.concatenate] of arrays of one rank; [jnp.dot] with a matrix. *)
Definition broadcast_to (a r : nat) : M nat := if a <=? r then ret r else fail.
Definition concat (l : list nat) : M nat := match l with [] => fail | a :: l => if forallb (Nat.eqb a) l then ret a else fail end.
Definition dot (a b : nat) : M nat := if (a =? 0) || (b =? 0) then fail else ret (a + b - 2).
Definition inside (p q : string) : string := p ++ "/" ++ q.
Definition given (o : option nat) : bool := match o with Some _ => true | None => false end.

Section Modules.
Context (strict : bool).
(** JAX's rule for an elementwise operation: the ranks of the operands that are not scalars have to agree when promotion is to raise; the result has the largest rank. *)
Definition promote (l : list nat) : option nat :=
  if strict && negb (forallb (fun r => (r =? 0) || (r =? list_max l)) l) then None else Some (list_max l).
Definition op (a b : nat) : M nat := lift (promote [a; b]).
(** [hk.get_parameter]: the rank asked for. *)
Definition param (r : nat) : M nat := ret r.

(** [hk.Linear] (basic.py:159-181). *)
Definition linear (with_bias : bool) (x : nat) : M nat :=
  if x =? 0 then fail else
  w <- param 2 ;; out <- dot x w ;;
  if with_bias then b <- param 1 ;; b <- broadcast_to b out ;; op out b else ret out.
(** [hk.Bias] (bias.py:98-131). [dims] is the rank of the bias: [None] for all but the first axis. *)
Definition bias (dims : option nat) (multiplier : option nat) (x : nat) : M nat :=
  if x <? 2 then fail else
  b <- param (match dims with Some d => d | None => x - 1 end) ;;
  b <- broadcast_to b x ;;
  b <- match multiplier with Some m => op b m | None => ret b end ;;
  op x b.
(** [hk.ConvND] (conv.py:162-217) and [hk.ConvNDTranspose] (conv.py:540-592); [first] for channels first. The mask's shape is compared with the weights'. *)
Definition conv (ndim : nat) (first : bool) (mask : option nat) (with_bias : bool) (x : nat) : M nat :=
  let unbatched_rank := ndim + 1 in
  if negb ((x =? unbatched_rank) || (x =? unbatched_rank + 1)) then fail else
  let unbatched := x =? unbatched_rank in
  let inputs := if unbatched then x + 1 else x in
  if match mask with Some m => negb (m =? ndim + 2) | None => false end then fail else
  w <- param (ndim + 2) ;;
  w <- match mask with Some m => op w m | None => ret w end ;;
  out <- (if (inputs =? ndim + 2) && (w =? ndim + 2) then ret inputs else fail) ;;
  out <- (if with_bias then b <- param (if first then 1 + ndim else 1) ;; b <- broadcast_to b out ;; op out b else ret out) ;;
  ret (if unbatched then out - 1 else out).
(** [hk.DepthwiseConv2D] (depthwise_conv.py:103-134): no rank but 4 is convolved. *)
Definition depthwise (first with_bias : bool) (x : nat) : M nat :=
  w <- param 4 ;;
  out <- (if (x =? 4) && (w =? 4) then ret x else fail) ;;
  if with_bias then b <- param (if first then 3 else 1) ;; b <- broadcast_to b out ;; op out b else ret out.
(** [hk.SeparableDepthwiseConv2D] (depthwise_conv.py:174-196). *)
Definition separable (first with_bias : bool) (x : nat) : M nat := y <- depthwise first false x ;; depthwise first with_bias y.

(** [hk.ExponentialMovingAverage] (moving_averages.py:92-132), whose decay is a scalar. *)
Definition ema (p : string) (zero_debias update_stats : bool) (x : nat) : M nat :=
  counter <- get_state p "counter" 0 ;;
  counter <- op counter 0 ;;
  hidden <- get_state p "hidden" x ;;
  a <- op hidden 0 ;; rest <- op 0 0 ;; b <- op x rest ;; hidden <- op a b ;;
  average <- (if zero_debias then power <- op 0 counter ;; d <- op 0 power ;; op hidden d else ret hidden) ;;
  (if update_stats then set_state p "counter" counter ;;; set_state p "hidden" hidden ;;; set_state p "average" average else ret tt) ;;;
  ret average.

(** [hk.BatchNorm] (batch_norm.py:148-200): statistics keep their axes, parameters have the inputs' rank. [scale] and [offset] are the call's arguments. *)
Definition batch_norm (p : string) (create_scale create_offset is_training test_local_stats : bool) (scale offset : option nat) (x : nat) : M nat :=
  if (create_scale && given scale) || (create_offset && given offset) then fail else
  mv <- (if is_training || test_local_stats then
           let mean := x in let squares := x in m2 <- op mean 0 ;; var <- op squares m2 ;; ret (mean, var)
         else m <- read_state (inside p "~/mean_ema") "average" ;; v <- read_state (inside p "~/var_ema") "average" ;; ret (m, v)) ;;
  let (mean, var) := (mv : nat * nat) in
  (if is_training then ema (inside p "~/mean_ema") true true mean ;;; ema (inside p "~/var_ema") true true var ;;; ret tt else ret tt) ;;;
  scale <- (if create_scale then param x else ret (match scale with Some s => s | None => 0 end)) ;;
  offset <- (if create_offset then param x else ret (match offset with Some o => o | None => 0 end)) ;;
  v <- op var 0 ;; inv <- op scale v ;;
  y <- op x mean ;; y <- op y inv ;; op y offset.
(** [hk.LayerNorm] and [hk.InstanceNorm] (layer_norm.py:113-146). *)
Definition layer_norm (create_scale create_offset : bool) (scale offset : option nat) (x : nat) : M nat :=
  if (create_scale && given scale) || (create_offset && given offset) then fail else
  let mean := x in let variance := x in
  let param_rank := Nat.min 1 x in
  scale <- (if create_scale then param param_rank else ret (match scale with Some s => s | None => 0 end)) ;;
  offset <- (if create_offset then param param_rank else ret (match offset with Some o => o | None => 0 end)) ;;
  scale <- broadcast_to scale x ;; offset <- broadcast_to offset x ;; mean <- broadcast_to mean x ;;
  v <- op variance 0 ;; inv <- op scale v ;;
  y <- op x mean ;; y <- op inv y ;; op y offset.
(** [hk.GroupNorm] (group_norm.py:161-213), the first call of an instance. [lax.broadcast_to_rank] leaves higher ranks as they are. *)
Definition group_norm (first create_scale create_offset : bool) (scale offset : option nat) (x : nat) : M nat :=
  if (create_scale && given scale) || (create_offset && given offset) then fail else
  if x <? (if first then 2 else 1) then fail else
  let params_rank := if first then 1 + (x - 2) else 1 in
  scale <- (if create_scale then s <- param params_rank ;; ret (Some s) else ret scale) ;;
  offset <- (if create_offset then o <- param params_rank ;; ret (Some o) else ret offset) ;;
  let grouped := Nat.max 3 (x + 1) in
  let mean := grouped in let var := grouped in
  y <- op grouped mean ;; v <- op var 0 ;; y <- op y v ;;
  let y := x in
  y <- match scale with Some s => op y (Nat.max s y) | None => ret y end ;;
  match offset with Some o => op y (Nat.max o y) | None => ret y end.

(** [hk.SpectralNorm] (spectral_norm.py:61, 97-151): [steps] power iterations. *)
Definition l2_normalize (v : nat) : M nat := s <- op v v ;; s <- op s 0 ;; op v s.
Fixpoint power (steps : nat) (value u : nat) (v : option nat) : M (nat * option nat) :=
  match steps with
  | 0 => ret (u, v)
  | S n => a <- dot u value ;; v <- l2_normalize a ;; b <- dot v value ;; u <- l2_normalize b ;; power n value u (Some v)
  end.
Definition spectral_norm (p : string) (steps : nat) (update_stats error_on_non_matrix : bool) (x : nat) : M nat :=
  if (x <=? 1) || ((2 <? x) && error_on_non_matrix) then fail else
  let value := 2 in
  u <- get_state p "u0" 2 ;;
  r <- power steps value u None ;;
  match r with
  | (_, None) => fail
  | (u, Some v) =>
      a <- dot v value ;; a <- dot a u ;;
      sigma <- (if a =? 2 then ret 0 else fail) ;;
      value <- op value sigma ;;
      (if update_stats then set_state p "u0" u ;;; set_state p "sigma" sigma else ret tt) ;;;
      ret x
  end.

(** [hk.MultiHeadAttention] (attention.py:61-94): heads of rank 4 are made of rank 3 inputs. *)
Definition heads (x : nat) : M nat := y <- linear true x ;; if y <? 2 then fail else ret 4.
Definition attention (mask : option nat) (query key value : nat) : M nat :=
  q <- heads query ;; k <- heads key ;; v <- heads value ;;
  let logits := 4 in
  logits <- op logits 0 ;;
  logits <- match mask with Some m => m <- op 0 m ;; m <- op 0 m ;; op logits m | None => ret logits end ;;
  if negb (logits =? 4) then fail else linear true 3.

(** [hk.Embed] (embed.py:117-169). *)
Inductive lookup := ArrayIndex | OneHot.
Definition embed (style : lookup) (ids : nat) : M nat :=
  e <- param 2 ;;
  match style with ArrayIndex => ret (ids + 1) | OneHot => dot (ids + 1) e end.
(** [hk.max_pool], [hk.avg_pool] (pool.py:71-147). *)
Definition max_pool (x : nat) : M nat := ret x.
Definition avg_pool (valid : bool) (x : nat) : M nat := if valid then op x 0 else op x x.
(** [hk.dropout] (basic.py:289-314) with a scalar rate: the mask has the shape of [x]. *)
Definition dropout (zero_rate : bool) (x : nat) : M nat := if zero_rate then ret x else y <- op x x ;; op y 0.

(** [hk.nets.VectorQuantizer] (vqvae.py:112-154); [jax.nn.one_hot] is taken not to promote. The result is the rank of [quantize]. *)
Definition vq_distances : M nat := b <- dot 2 2 ;; b <- op 0 b ;; d <- op 2 b ;; op d 2.
Definition vq_perplexity (encodings : nat) : M nat := let avg := encodings - 1 in a <- op avg 0 ;; a <- op avg a ;; ret 0.
Definition vq (x : nat) : M nat :=
  e <- param 2 ;; d <- vq_distances ;;
  let encodings := d in let indices := x - 1 in let quantized := indices + 1 in
  a <- op quantized x ;; a <- op a 0 ;; b <- op quantized x ;; b <- op b 0 ;;
  l <- op 0 0 ;; l <- op 0 l ;;
  q <- op quantized x ;; q <- op x q ;; vq_perplexity encodings ;;; ret q.
(** [hk.nets.VectorQuantizerEMA] (vqvae.py:192-337). *)
Definition ema_initialize (p : string) (r : nat) : M unit := get_state p "hidden" r ;;; get_state p "average" r ;;; ret tt.
Definition vq_ema (p : string) (is_training : bool) (x : nat) : M nat :=
  e <- get_state p "embeddings" 2 ;;
  ema_initialize (inside p "~/ema_cluster_size") 1 ;;; ema_initialize (inside p "~/ema_dw") e ;;;
  d <- vq_distances ;;
  let encodings := d in let indices := x - 1 in let quantized := indices + 1 in
  a <- op quantized x ;; a <- op a 0 ;;
  (if is_training then
     cluster <- ema (inside p "~/ema_cluster_size") true true (encodings - 1) ;;
     w <- dot 2 encodings ;; dw <- ema (inside p "~/ema_dw") true true w ;;
     let n := 0 in
     c <- op cluster 0 ;; m <- op n 0 ;; c <- op c m ;; c <- op c n ;;
     let reshaped := 2 in
     w <- op dw reshaped ;; set_state p "embeddings" w
   else ret tt) ;;;
  l <- op 0 0 ;; q <- op quantized x ;; q <- op x q ;; vq_perplexity encodings ;;; ret q.

(** Recurrent cores: a state is a list of ranks. *)
Definition core : Type := nat -> list nat -> M (nat * list nat).
(** [hk.VanillaRNN] (recurrent.py:215-221). *)
Definition vanilla (double_bias : bool) : core := fun x s =>
  match s with [h] => a <- linear true x ;; b <- linear double_bias h ;; out <- op a b ;; ret (out, [out]) | _ => fail end.
Definition lstm_gates (gated cell : nat) : M (nat * list nat) :=
  f <- op gated 0 ;; a <- op f cell ;; b <- op gated gated ;; c <- op a b ;; h <- op gated c ;; ret (h, [h; c]).
(** [hk.LSTM] (recurrent.py:288-306). *)
Definition lstm : core := fun x s =>
  match s with
  | [h; c] => if (2 <? x) || (x =? 0) then fail else xh <- concat [x; h] ;; gated <- linear true xh ;; lstm_gates gated c
  | _ => fail
  end.
(** [hk.ConvNDLSTM] (recurrent.py:371-394). *)
Definition conv_lstm (ndim : nat) : core := fun x s =>
  match s with
  | [h; c] => a <- conv ndim false None true x ;; b <- conv ndim false None true h ;; gates <- op a b ;; lstm_gates gates c
  | _ => fail
  end.
(** [hk.GRU] (recurrent.py:530-562). *)
Definition gru : core := fun x s =>
  match s with
  | [h] =>
      if negb ((x =? 1) || (x =? 2)) then fail else
      w_i <- param 2 ;; w_h <- param 2 ;; b <- param 1 ;;
      gates_x <- dot x w_i ;;
      zr_h <- dot h w_h ;;
      zr <- op gates_x zr_h ;; b_z <- broadcast_to b zr_h ;; zr <- op zr b_z ;;
      rs <- op zr h ;; a_h <- dot rs w_h ;;
      a <- op gates_x a_h ;; b_a <- broadcast_to b a_h ;; a <- op a b_a ;;
      z1 <- op 0 zr ;; l <- op z1 h ;; r <- op zr a ;; next <- op l r ;;
      ret (next, [next])
  | _ => fail
  end.
(** [hk.IdentityCore] (recurrent.py:572-582). *)
Definition identity_core : core := fun x s => ret (x, s).
(** [hk.ResetCore] (recurrent.py:585-594, 622-625, 673-693). [unbatched] has the ranks of [core.initial_state(None)], [reset] those of the reset signals of the state's entries. *)
Definition conform (reset state : nat) : M nat := if reset <=? state then ret state else fail.
Fixpoint zipped (reset initial s : list nat) : M (list nat) :=
  match reset, initial, s with
  | [], [], [] => ret []
  | c :: reset, i :: initial, x :: s => c <- conform c x ;; y <- lift (promote [c; i; x]) ;; l <- zipped reset initial s ;; ret (y :: l)
  | _, _, _ => fail
  end.
Definition is_batched (unbatched s : list nat) : bool := match s with [] => false | _ => forallb (fun us => fst us =? snd us - 1) (combine unbatched s) end.
Definition initial_of (unbatched s : list nat) : list nat := if is_batched unbatched s then map S unbatched else unbatched.
Definition reset_core (c : core) (unbatched reset : list nat) : core := fun x s =>
  s <- zipped reset (initial_of unbatched s) s ;; c x s.
(** [hk.DeepRNN] and [hk.deep_rnn_with_skip_connections] (recurrent.py:713-739): layers are cores with their numbers of state entries, or callables. *)
Inductive layer := Core (size : nat) (c : core) | Callable (f : nat -> M nat).
Fixpoint deep_loop (layers : list layer) (skip : bool) (first : bool) (inputs current : nat) (s : list nat) (outputs : list nat) (states : list nat) : M (nat * list nat * list nat) :=
  match layers with
  | [] => ret (current, outputs, states)
  | l :: layers =>
      current <- (if skip && negb first then concat [inputs; current] else ret current) ;;
      match l with
      | Core n c => r <- c current (firstn n s) ;; deep_loop layers skip false inputs (fst r) (skipn n s) (outputs ++ [fst r]) (states ++ snd r)
      | Callable f => y <- f current ;; deep_loop layers skip false inputs y s outputs states
      end
  end.
Definition deep_rnn (layers : list layer) (skip : bool) : core := fun x s =>
  r <- deep_loop layers skip true x x s [] [] ;;
  let '(current, outputs, states) := (r : nat * list nat * list nat) in
  if skip then out <- concat outputs ;; ret (out, states) else ret (current, states).

(** [hk.static_unroll] (recurrent.py:106-121); [x] is the rank of one step's inputs. [jnp.stack] wants equal shapes. *)
Fixpoint unroll_loop (steps : nat) (c : core) (x : nat) (s : list nat) (outputs : list nat) : M (list nat * list nat) :=
  match steps with
  | 0 => ret (outputs, s)
  | S n => r <- c x s ;; unroll_loop n c x (snd r) (outputs ++ [fst r])
  end.
Definition static_unroll (steps : nat) (c : core) (x : nat) (s : list nat) : M (nat * list nat) :=
  r <- unroll_loop steps c x s [] ;; out <- concat (fst r) ;; ret (S out, snd r).
(** [jax.lax.scan] in [hk.scan] (stateful.py:482-505): one trace of the body, whose carry and Haiku state come out with the ranks they go in with. *)
Fixpoint same_ranks (l m : list nat) : bool := match l, m with [], [] => true | a :: l, b :: m => (a =? b) && same_ranks l m | _, _ => false end.
Fixpoint same_cells (l m : world) : bool := match l, m with [], [] => true | a :: l, b :: m => key_eqb (fst a) (fst b) && (snd a =? snd b) && same_cells l m | _, _ => false end.
Definition scan (c : core) (x : nat) (s : list nat) : M (nat * list nat) := fun w =>
  match c x s w with
  | Some ((y, s'), w') => if same_ranks s s' && same_cells w w' then Some ((y, s'), w') else None
  | None => None
  end.
(** [hk.dynamic_unroll] (recurrent.py:158-174) and [hk.scan]'s first step at init (stateful.py:460-480). *)
Definition dynamic_unroll (init : bool) (steps : nat) (c : core) (x : nat) (s : list nat) : M (nat * list nat) :=
  if init then
    r <- c x s ;;
    match steps with
    | 0 => ret (S (fst r), s)
    | 1 => ret (S (fst r), snd r)
    | _ => q <- scan c x (snd r) ;; out <- concat [fst r; fst q] ;; ret (S out, snd q)
    end
  else q <- scan c x s ;; ret (S (fst q), snd q).

(** [hk.Sequential] (basic.py:86-109) and [hk.nets.MLP] (mlp.py:101-118) with an activation that keeps the rank. *)
Fixpoint chain (fs : list (nat -> M nat)) (x : nat) : M nat := match fs with [] => ret x | f :: fs => y <- f x ;; chain fs y end.
Definition mlp (layers : nat) (with_bias : bool) (dropout_rate : option bool) (activate_final : bool) : nat -> M nat :=
  chain (map (fun i x => y <- linear with_bias x ;;
                       match dropout_rate with Some z => if Nat.ltb i (layers - 1) || activate_final then dropout z y else ret y | None => ret y end)
             (seq 0 layers)).

(** [hk.nets.ResNet] (resnet.py:99-115, 175-187, 213-217, 364-386). *)
Definition bn (p : string) (training local : bool) : nat -> M nat := batch_norm p true true training local None None.
Definition conv0 : nat -> M nat := conv 2 false None false.
Definition block_layers (bottleneck : bool) : list string := if bottleneck then ["0"; "1"; "2"] else ["0"; "1"].
Definition block_v1 (p : string) (training local projection bottleneck : bool) (x : nat) : M nat :=
  shortcut <- (if projection then chain [conv0; bn (inside p "shortcut_batchnorm") training local] x else ret x) ;;
  out <- chain (map (fun i x => y <- conv0 x ;; bn (inside p ("batchnorm_" ++ i)) training local y) (block_layers bottleneck)) x ;;
  op out shortcut.
Definition block_v2 (p : string) (training local projection bottleneck : bool) (x : nat) : M nat :=
  y <- bn (inside p "batchnorm_0") training local x ;;
  shortcut <- (if projection then conv0 y else ret x) ;;
  y <- conv0 y ;;
  out <- chain (map (fun i x => y <- bn (inside p ("batchnorm_" ++ i)) training local x ;; conv0 y) (tl (block_layers bottleneck))) y ;;
  op out shortcut.
Definition block (v2 : bool) := if v2 then block_v2 else block_v1.
(** [blocks]: names of the blocks and whether they project. The mean over height and width leaves rank 2. *)
Definition resnet (p : string) (v2 bottleneck training local : bool) (blocks : list (string * bool)) (x : nat) : M nat :=
  out <- conv0 x ;;
  out <- (if v2 then ret out else bn (inside p "initial_batchnorm") training local out) ;;
  out <- max_pool out ;;
  out <- chain (map (fun b => block v2 (inside p (fst b)) training local (snd b) bottleneck) blocks) out ;;
  out <- (if v2 then bn (inside p "final_batchnorm") training local out else ret out) ;;
  if out <? 3 then fail else linear true (out - 2).
(** [hk.nets.MobileNetV1] (mobilenetv1.py:64-85, 131-155). [hk.Flatten] keeps rank 2. *)
Definition mobile_block (p : string) (training use_bn : bool) (x : nat) : M nat :=
  out <- depthwise false (negb use_bn) x ;;
  out <- (if use_bn then bn (inside p "batch_norm") training false out else ret out) ;;
  out <- conv 2 false None (negb use_bn) out ;;
  (if use_bn then bn (inside p "batch_norm_1") training false out else ret out).
Definition mobilenet (p : string) (training use_bn : bool) (blocks : list string) (x : nat) : M nat :=
  out <- conv 2 false None (negb use_bn) x ;;
  out <- (if use_bn then bn (inside p "batch_norm") training false out else ret out) ;;
  out <- chain (map (fun b => mobile_block (inside p b) training use_bn) blocks) out ;;
  if out <? 3 then fail else linear true 2.

(** The initializers (initializers.py:51-291): the ranks of what they return for a shape of rank [r]; [c] is the rank of the constant, mean and standard deviation, or gain. *)
Inductive initializer := IConstant (c : nat) | INormal (c : nat) | ITruncated (c : nat) | IUniform | IVariance (distribution : nat) | IUniformScaling | IOrthogonal (c : nat) | IIdentity (c : nat).
Definition initialize (i : initializer) (r : nat) : M nat :=
  match i with
  | IConstant c => broadcast_to c r
  | INormal c => s <- op c r ;; op c s                                      (* m + s * normal *)
  | ITruncated c => s <- op c r ;; op s c                                   (* s * unscaled + m *)
  | IUniform | IUniformScaling => ret r
  | IVariance 0 => s <- op 0 r ;; op s 0
  | IVariance 1 => s <- op 0 r ;; op 0 s
  | IVariance _ => ret r
  | IOrthogonal c => if r <? 2 then fail else q <- op 2 1 ;; let q := r in op c q     (* q_mat *= sign(diag(r_mat)), l. 259 *)
  | IIdentity c => if r <? 2 then fail else op c r
  end.

(** The transformer example: [CausalSelfAttention] (transformer/model.py:29-43), whose causal mask has rank 2, the stack (l. 66-117) and the forward function (train.py:66-88) on tokens of rank 2.
    [h] of rank 3; [masked] says whether a padding mask is passed, which becomes of rank 4. *)
Definition causal_attention (mask : option nat) (query : nat) : M nat :=
  mask <- match mask with Some m => op m 2 | None => ret 2 end ;; attention (Some mask) query query query.
Definition dense_block (x : nat) : M nat := y <- linear true x ;; linear true y.
Definition transformer_layer (masked zero_rate : bool) (h : nat) : M nat :=
  n <- layer_norm true true None None h ;; a <- causal_attention (if masked then Some 4 else None) n ;; a <- dropout zero_rate a ;; h <- op h a ;;
  n <- layer_norm true true None None h ;; d <- dense_block n ;; d <- dropout zero_rate d ;; op h d.
Definition transformer (layers : nat) (masked zero_rate : bool) (h : nat) : M nat :=
  h <- chain (repeat (transformer_layer masked zero_rate) layers) h ;; layer_norm true true None None h.
Definition forward (layers : nat) (zero_rate : bool) (tokens : nat) : M nat :=
  e <- embed ArrayIndex tokens ;; pos <- param 2 ;; e <- op e pos ;; h <- transformer layers true zero_rate e ;; linear true h.
End Modules.

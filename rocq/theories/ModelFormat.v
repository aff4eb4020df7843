(** The format of checkpoints: names, shapes and element types of the parameters and of the state that the modules of Haiku create (integration/checkpoint_utils.py,
    integration/descriptors.py and the files integration/checkpoints/*.json).

    A module is a program over Haiku's operations in which every array is replaced by its element type and shape; values are left out.  A program that raises gives no
    result, so the order of the operations around a raise is not modelled.  Initializers, activations, regularisation and custom creators and getters are left out. *)
From Coq Require Import String Ascii NArith ZArith List Bool Lia.
From Verif Require Import ModelStr ModelUtils ModelShape ModelPool ModelImageNets ModelConv.
Import ListNotations.
Local Open Scope string_scope.
Local Open Scope Z_scope.

(** An array: element type and shape. *)
Definition array : Type := dtype * list Z.
Definition key : Type := string * string.
Definition key_eqb (a b : key) : bool := String.eqb (fst a) (fst b) && String.eqb (snd a) (snd b).

(** ** Programs *)
(** [Param]: [hk.get_parameter] (base.py:237-302); [GetState]: [hk.get_state] with an initializer (base.py:656-713) for [Some] array and without for [None];
    [SetState]: [hk.set_state] (base.py:716-752); [Name]: [unique_and_canonical_name] (module.py:556-601), called by [Module.__init__] in the scope of the caller;
    [Enter], [Leave]: the scope of a method (module.py:393-440). *)
Inductive prog (A : Type) : Type :=
| Ret (a : A)
| Raise
| Param (n : string) (a : array) (k : prog A)
| GetState (n : string) (init : option array) (k : array -> prog A)
| SetState (n : string) (a : array) (k : prog A)
| Name (n : string) (k : string -> prog A)
| Enter (m meth : string) (k : prog A)
| Leave (k : prog A).
Arguments Ret {A}. Arguments Raise {A}. Arguments Param {A}. Arguments GetState {A}. Arguments SetState {A}. Arguments Name {A}. Arguments Enter {A}. Arguments Leave {A}.
Fixpoint bind {A B} (p : prog A) (f : A -> prog B) : prog B :=
  match p with
  | Ret a => f a
  | Raise => Raise
  | Param n a k => Param n a (bind k f)
  | GetState n i k => GetState n i (fun v => bind (k v) f)
  | SetState n a k => SetState n a (bind k f)
  | Name n k => Name n (fun q => bind (k q) f)
  | Enter m t k => Enter m t (bind k f)
  | Leave k => Leave (bind k f)
  end.
Notation "x <- m ;; f" := (bind m (fun x => f)) (at level 61, m at next level, right associativity).
Notation "m ;;; f" := (bind m (fun _ => f)) (at level 61, right associativity).
Definition lift {A} (o : option A) : prog A := match o with Some a => Ret a | None => Raise end.
Definition check (b : bool) : prog unit := if b then Ret tt else Raise.
Definition param (n : string) (a : array) : prog unit := Param n a (Ret tt).
Definition get_state (n : string) (init : option array) : prog array := GetState n init Ret.
Definition set_state (n : string) (a : array) : prog unit := SetState n a (Ret tt).

(** ** Running them *)
(** One entry of the module stack with its counters and used names; the bottom entry belongs to the transformed function and has no module. *)
Record scope := Scope { sc_module : option (string * string); sc_counters : list (string * N); sc_used : list string }.
Record world := World { w_params : list (key * array); w_state : list (key * (array * array)); w_stack : list scope }.
Fixpoint fetch {V} (k : key) (l : list (key * V)) : option V := match l with [] => None | (k', v) :: l => if key_eqb k k' then Some v else fetch k l end.
Fixpoint put {V} (k : key) (v : V) (l : list (key * V)) : list (key * V) :=
  match l with [] => [(k, v)] | (k', v') :: l => if key_eqb k k' then (k', v) :: l else (k', v') :: put k v l end.
Definition counter (n : string) (l : list (string * N)) : N := match ModelUtils.lookup n l with Some c => c | None => 0%N end.
Definition shape_eqb (s t : list Z) : bool := if list_eq_dec Z.eq_dec s t then true else false.
(** [current_bundle_name] (base.py:141-143). *)
Definition bundle (w : world) : string := match w_stack w with Scope (Some (m, _)) _ _ :: _ => m | _ => "~" end.
(** [unique_and_canonical_name] (module.py:556-601) in the scope [sc] of the caller; [None] for a name that is not unique. *)
Definition scoped (sc : scope) (n : string) : string :=
  match sc_module sc with
  | None => n
  | Some (m, meth) => m ++ "/" ++ (if String.eqb meth "__init__" then "~/" ++ n else if String.eqb meth "__call__" then n else "~" ++ meth ++ "/" ++ n)
  end.
Definition unique_name (sc : scope) (n : string) : option (string * scope) :=
  let full := scoped sc n in
  let '(base, q, c) := match explicit_number full with
                       | Some (b, i) => (b, b ++ "_" ++ str_of_N i, N.max (counter b (sc_counters sc)) (i + 1))
                       | None => let i := counter full (sc_counters sc) in (full, if (i =? 0)%N then full else full ++ "_" ++ str_of_N i, (i + 1)%N)
                       end in
  if existsb (String.eqb q) (sc_used sc) then None
  else Some (q, Scope (sc_module sc) ((base, c) :: sc_counters sc) (q :: sc_used sc)).
(** A run: [frozen] at apply, not at init. *)
Fixpoint run {A} (frozen : bool) (p : prog A) (w : world) : option (A * world) :=
  match p with
  | Ret a => Some (a, w)
  | Raise => None
  | Param n a k =>
      match fetch (bundle w, n) (w_params w) with
      | Some a' => if shape_eqb (snd a') (snd a) then run frozen k w else None
      | None => if frozen then None else run frozen k (World (w_params w ++ [((bundle w, n), a)])%list (w_state w) (w_stack w))
      end
  | GetState n init k =>
      match fetch (bundle w, n) (w_state w), init with
      | Some (_, v), _ => run frozen (k v) w
      | None, Some a => run frozen (k a) (World (w_params w) (w_state w ++ [((bundle w, n), (a, a))])%list (w_stack w))
      | None, None => None
      end
  | SetState n a k =>
      let first := match fetch (bundle w, n) (w_state w) with Some (i, _) => i | None => a end in
      run frozen k (World (w_params w) (put (bundle w, n) (first, a) (w_state w)) (w_stack w))
  | Name n k =>
      match w_stack w with
      | sc :: rest => match unique_name sc n with Some (q, sc) => run frozen (k q) (World (w_params w) (w_state w) (sc :: rest)) | None => None end
      | [] => None
      end
  | Enter m t k => run frozen k (World (w_params w) (w_state w) (Scope (Some (m, t)) [] [] :: w_stack w))
  | Leave k => match w_stack w with _ :: (_ :: _) as rest => run frozen k (World (w_params w) (w_state w) rest) | _ => None end
  end.
(** [init] and [apply] of [hk.transform_with_state] (transform.py:256-361): [init] returns the parameters and the initial state, [apply] starts from them and returns the
    current state. *)
Definition start (params : list (key * array)) (state : list (key * array)) : world :=
  World params (map (fun p => (fst p, (snd p, snd p))) state) [Scope None [] []].
Definition initial (w : world) : list (key * array) := map (fun p => (fst p, fst (snd p))) (w_state w).
Definition current (w : world) : list (key * array) := map (fun p => (fst p, snd (snd p))) (w_state w).
Definition init {A} (p : prog A) : option (list (key * array) * list (key * array)) :=
  match run false p (start [] []) with Some (_, w) => Some (w_params w, initial w) | None => None end.
Definition apply {A} (p : prog A) (params state : list (key * array)) : option (A * list (key * array)) :=
  match run true p (start params state) with Some (a, w) => Some (a, current w) | None => None end.

(** ** Modules *)
(** A method (module.py:393-440) and the construction of a module by its metaclass (module.py:115-140) with [Module.__init__] (module.py:474-497) as its first statement. *)
Definition within {A} (m meth : string) (body : prog A) : prog A := Enter m meth (a <- body ;; Leave (Ret a)).
Definition construct {A} (cls : string) (name : option string) (ctor : prog A) : prog (string * A) :=
  let name := match name with Some n => n | None => camel_to_snake cls end in
  if valid_identifier name then Name name (fun q => a <- within q "__init__" ctor ;; Ret (q, a)) else Raise.
(** A module used as a function of its input: what [__init__] makes is passed to [__call__]. *)
Definition layer : Type := array -> prog array.
Definition module {A X Y} (cls : string) (name : option string) (ctor : prog A) (call : A -> X -> prog Y) : prog (X -> prog Y) :=
  o <- construct cls name ctor ;; let '(q, a) := o in Ret (fun x => within q "__call__" (call a x)).
Definition when (b : bool) (p : prog unit) : prog unit := if b then p else Ret tt.
Fixpoint each {A B} (f : A -> prog B) (l : list A) : prog (list B) := match l with [] => Ret [] | a :: l => b <- f a ;; r <- each f l ;; Ret (b :: r) end.
(** Applying layers one after the other ([hk.Sequential], basic.py:92-99; the loops of networks). *)
Fixpoint chain {X} (l : list (X -> prog X)) (x : X) : prog X := match l with [] => Ret x | f :: l => y <- f x ;; chain l y end.
Definition shape_map (f : list Z -> option (list Z)) : layer := fun x => s <- lift (f (snd x)) ;; Ret (fst x, s).

(** [hk.Linear] (basic.py:130-183). *)
Definition linear (out : Z) (with_bias : bool) (name : option string) : prog layer :=
  module "Linear" name (Ret tt) (fun _ x =>
    let '(t, s) := x in
    match rev s with
    | [] => Raise
    | d :: _ => param "w" (t, [d; out]) ;;; when with_bias (param "b" (t, [out])) ;;; Ret (t, (removelast s ++ [out])%list)
    end).
(** [hk.Sequential] (basic.py:71-100); the layers are made by the caller. *)
Definition sequential (layers : list layer) (name : option string) : prog layer := module "Sequential" name (Ret tt) (fun _ x => chain layers x).
(** [hk.nets.MLP] (nets/mlp.py:41-118). *)
Definition str_of_nat (i : nat) : string := str_of_N (N.of_nat i).
Definition mlp (sizes : list Z) (with_bias : bool) (name : option string) : prog layer :=
  module "MLP" name (each (fun p => linear (snd p) with_bias (Some ("linear_" ++ str_of_nat (fst p)))) (combine (seq 0 (length sizes)) sizes)) (fun layers x => chain layers x).
(** [hk.ConvND] and its subclasses (conv.py:69-418); the mask is left out. *)
Definition conv (cls : string) (c : conv_nd) (with_bias : bool) (name : option string) : prog layer :=
  module cls name (check (negb (Nat.eqb (cv_spatial c) 0))) (fun _ x =>
    let '(t, s) := x in
    r <- lift (conv_call c s) ;; let '(w, b, out) := r in
    param "w" (t, w) ;;; when with_bias (param "b" (t, b)) ;;; Ret (t, out)).
(** [hk.ConvNDTranspose] and its subclasses (conv.py:455-754); [padding] is a string or pairs, [output_shape] may be given. *)
Definition conv_t_call (c : conv_t) (padding : padtype + list (Z * Z)) (output_shape : option (list Z)) (s : list Z) : option (list Z * list Z * list Z) :=
  let unbatched_rank := S (ct_spatial c) in
  if negb (Nat.eqb (length s) unbatched_rank || Nat.eqb (length s) (S unbatched_rank)) then None else
  let unbatched := Nat.eqb (length s) unbatched_rank in
  let x := if unbatched then 1 :: s else s in
  let w := (ct_kernel c ++ [ct_out c; channel_of (ct_last c) x])%list in
  let pads := match padding, output_shape with
              | inl t, Some o => adjusted_pads (spatial_of (ct_last c) x) o (ct_kernel c) (ct_stride c) t
              | inl t, None => Some (map2 (fun k s => conv_transpose_padding k s t) (ct_kernel c) (ct_stride c))
              | inr l, _ => Some l
              end in
  match pads with
  | None => None
  | Some pads =>
      let sizes := map2 (fun n p => conv_transpose_size n (fst (fst p)) (snd (fst p)) (fst (snd p)) (snd (snd p)))
                        (spatial_of (ct_last c) x) (combine pads (combine (ct_kernel c) (ct_stride c))) in
      let out := if ct_last c then hd 0 x :: sizes ++ [ct_out c] else hd 0 x :: ct_out c :: sizes in
      Some (w, if ct_last c then [ct_out c] else ct_out c :: repeat 1 (ct_spatial c), if unbatched then tl out else out)
  end%list.
Definition conv_transpose (cls : string) (c : conv_t) (padding : padtype + list (Z * Z)) (output_shape : option (list Z)) (with_bias : bool) (name : option string) : prog layer :=
  module cls name (check (negb (Nat.eqb (ct_spatial c) 0))) (fun _ x =>
    let '(t, s) := x in
    r <- lift (conv_t_call c padding output_shape s) ;; let '(w, b, out) := r in
    param "w" (t, w) ;;; when with_bias (param "b" (t, b)) ;;; Ret (t, out)).
(** [hk.DepthwiseConv2D] and [hk.SeparableDepthwiseConv2D] (depthwise_conv.py:49-197). *)
Definition depthwise (multiplier : Z) (kernel stride : list Z) (padding : padtype + list (Z * Z)) (last with_bias : bool) (name : option string) : prog layer :=
  module "DepthwiseConv2D" name (Ret tt) (fun _ x =>
    let '(t, s) := x in
    r <- lift (ModelImageNets.depthwise multiplier kernel stride padding last with_bias s) ;;
    match r with
    | (w :: b, out) => param "w" (t, w) ;;; match b with b :: _ => param "b" (t, b) | [] => Ret tt end ;;; Ret (t, out)
    | _ => Raise
    end).
Definition separable (multiplier k0 k1 : Z) (stride : list Z) (padding : padtype + list (Z * Z)) (last with_bias : bool) (name : option string) : prog layer :=
  module "SeparableDepthwiseConv2D" name
    (a <- depthwise multiplier [k0; 1] stride padding last false None ;; b <- depthwise 1 [1; k1] [1; 1] padding last with_bias None ;; Ret (a, b))
    (fun p x => y <- fst p x ;; snd p y).

(** [hk.ExponentialMovingAverage] (moving_averages.py:31-151): the module, [initialize], [__call__] and [average].  The elementwise operations broadcast. *)
Definition broadcast (a b : array) : prog array := s <- lift (broadcast2 (snd a) (snd b)) ;; Ret (fst a, s).
Definition ema (name : option string) : prog string := o <- construct "ExponentialMovingAverage" name (Ret tt) ;; Ret (fst o).
Definition ema_initialize (q : string) (a : array) : prog unit := within q "initialize" (get_state "hidden" (Some a) ;;; get_state "average" (Some a) ;;; Ret tt).
Definition ema_call (q : string) (update_stats : bool) (value : array) : prog array :=
  within q "__call__"
    (counter <- get_state "counter" (Some (Int32, [])) ;;
     hidden <- get_state "hidden" (Some value) ;;
     hidden <- broadcast hidden value ;;
     average <- broadcast hidden counter ;;
     when update_stats (set_state "counter" counter ;;; set_state "hidden" hidden ;;; set_state "average" average) ;;;
     Ret average).
Definition ema_average (q : string) : prog array := within q "average" (get_state "average" None).
(** [hk.BatchNorm] (batch_norm.py:60-200); [scale_init] says whether that initializer was given, [axis] is [None] or a list. *)
Record bn_config := BN { bn_scale : bool; bn_offset : bool; bn_scale_init : bool; bn_axis : option (list Z); bn_last : bool }.
Definition bn_mode : Type := bool * bool.
Definition bn_axes (c : bn_config) (s : list Z) : list Z :=
  match bn_axis c with
  | Some l => l
  | None => let rank := Z.of_nat (length s) in
            filter (fun i => negb (i =? (if bn_last c then rank - 1 else 1))) (map Z.of_nat (seq 0 (length s)))
  end.
Definition keepdims (axes s : list Z) : list Z := map (fun p => if existsb (Z.eqb (Z.of_nat (fst p))) axes then 1 else snd p) (combine (seq 0 (length s)) s).
Definition batch_norm (c : bn_config) (name : option string) : prog (bn_mode -> layer) :=
  m <- construct "BatchNorm" name (check (negb (negb (bn_scale c) && bn_scale_init c)) ;;; a <- ema (Some "mean_ema") ;; b <- ema (Some "var_ema") ;; Ret (a, b)) ;;
  let '(q, (mean_ema, var_ema)) := m in
  Ret (fun mode x => within q "__call__"
    (let '(is_training, test_local_stats) := mode in
     let '(t, s) := x in
     let axes := bn_axes c s in
     stats <- (if is_training || test_local_stats
               then l <- lift (np_axes (Z.of_nat (length s)) axes) ;; Ret ((t, keepdims l s), (t, keepdims l s))
               else m <- ema_average mean_ema ;; v <- ema_average var_ema ;; Ret (m, v)) ;;
     (if is_training then ema_call mean_ema true (fst stats) ;;; ema_call var_ema true (snd stats) ;;; Ret tt else Ret tt) ;;;
     let w := (t, keepdims axes s) in
     when (bn_scale c) (param "scale" w) ;;; when (bn_offset c) (param "offset" w) ;;;
     let w := fun b => if b : bool then w else (t, []) in
     inv <- broadcast (w (bn_scale c)) (snd stats) ;;
     out <- broadcast x (fst stats) ;; out <- broadcast out inv ;; broadcast out (w (bn_offset c)))).
(** [hk.LayerNorm] and [hk.InstanceNorm] (layer_norm.py:32-194); [axis] is what the slice or the integers mean for a rank.  The shape is the input's. *)
Definition layer_norm (cls : string) (axis : Z -> list Z) (scale offset : bool) (name : option string) : prog layer :=
  module cls name (Ret tt) (fun _ x =>
    let '(t, s) := x in
    lift (np_axes (Z.of_nat (length s)) (axis (Z.of_nat (length s)))) ;;;
    let p := (t, match rev s with [] => [] | d :: _ => [d] end) in
    when scale (param "scale" p) ;;; when offset (param "offset" p) ;;; Ret x).
Definition range (a b : Z) : list Z := map (fun i => a + Z.of_nat i) (seq 0 (Z.to_nat (b - a))).
Definition instance_axis (last : bool) (rank : Z) : list Z := if last then range 1 (rank - 1) else range 2 rank.
(** [hk.GroupNorm] (group_norm.py:64-234), called once; [axis] as for [LayerNorm]. *)
Definition group_norm (groups : Z) (axis : Z -> list Z) (scale offset last : bool) (name : option string) : prog layer :=
  module "GroupNorm" name (Ret tt) (fun _ x =>
    let '(t, s) := x in
    r <- lift (gn_call groups last (axis (Z.of_nat (length s))) None s) ;;
    let c := channel_of last s in
    let p := (t, if last then [c] else c :: repeat 1 (length s - 2)) in
    when scale (param "scale" p) ;;; when offset (param "offset" p) ;;; Ret (t, fst r)).
(** [hk.Bias] (bias.py:73-181); the multiplier is left out. *)
Definition bias (output_size : option (list Z)) (dims : option (list Z)) (name : option string) : prog layer :=
  module "Bias" name (Ret tt) (fun _ x =>
    let '(t, s) := x in
    check (Nat.leb 2 (length s)) ;;; check (match output_size with Some o => shape_eqb o (tl s) | None => true end) ;;;
    b <- lift (calculate_bias_shape s dims) ;; param "b" (t, b) ;;; check (broadcast_to b s) ;;; Ret x).
(** [hk.Reshape] and [hk.Flatten] (reshape.py:40-148). *)
Definition reshape (cls : string) (output_shape : list Z) (preserve_dims : nat) (name : option string) : prog layer :=
  module cls name (Ret tt) (fun _ x => s <- lift (option_map a_shape (reshape_call output_shape preserve_dims (Arr (snd x) (@nil unit)))) ;; Ret (fst x, s)).
(** [hk.Embed] (embed.py:51-169); the table is a property. *)
Definition is_integer (t : dtype) : bool := match t with Uint8 | Uint16 | Uint32 | Uint64 | Int8 | Int16 | Int32 | Int64 => true | _ => false end.
Definition embed (vocab_size dim : Z) (name : option string) : prog layer :=
  m <- construct "Embed" name (Ret tt) ;; let '(q, _) := m in
  Ret (fun x => within q "__call__" (check (is_integer (fst x)) ;;; within q "embeddings" (param "embeddings" (Float32, [vocab_size; dim])) ;;; Ret (Float32, (snd x ++ [dim])%list))).
(** [hk.MultiHeadAttention] (attention.py:35-94) without a mask. [_linear_projection] is transparent. Empty batches and sequences are left out. *)
Definition projection (heads size : Z) (name : string) (x : array) : prog (list Z) :=
  l <- linear (heads * size) true (Some name) ;; y <- l x ;;
  let target := (firstn 2 (snd x) ++ [heads; size])%list in
  check (ModelShape.prod (snd y) =? ModelShape.prod target) ;;; Ret target.
Definition attention (heads key_size query_size value_size model_size : Z) (name : option string) : prog (array * array * array -> prog array) :=
  module "MultiHeadAttention" name (Ret tt) (fun _ qkv =>
    let '(query, key, value) := qkv in
    q <- projection heads query_size "query" query ;; k <- projection heads key_size "key" key ;; v <- projection heads value_size "value" value ;;
    match q, k, v with
    | [b; t; h; d], [b'; u; h'; d'], [b''; u'; h''; d''] =>
        check ((b =? b') && (b =? b'') && (h =? h') && (h =? h'') && (d =? d') && (u =? u') && (0 <? b * t)) ;;;
        l <- linear model_size true None ;; l (fst query, [b; t; h * d''])
    | _, _, _ => Raise
    end).
(** [hk.SpectralNorm] (spectral_norm.py:61-137). *)
Definition spectral_norm (n_steps : nat) (name : option string) : prog layer :=
  module "SpectralNorm" name (Ret tt) (fun _ x =>
    let '(t, s) := x in
    match rev s with
    | d :: _ :: _ =>
        u0 <- get_state "u0" (Some (t, [1; d])) ;;
        match snd u0, n_steps with
        | [a; d'], S _ => check ((d =? d') && (0 <? a)) ;;; set_state "u0" (t, [a; d]) ;;; set_state "sigma" (t, []) ;;; Ret x
        | _, _ => Raise
        end
    | _ => Raise
    end).
(** [hk.nets.VectorQuantizer] (nets/vqvae.py:60-160) and [VectorQuantizerEMA] (nets/vqvae.py:162-337): the quantized array. *)
Definition flat_rows (dim : Z) (s : list Z) : option unit :=
  match rev s with d :: _ => if (d =? dim) && (0 <? dim) && (0 <? ModelShape.prod s) then Some tt else None | [] => None end.
Definition vector_quantizer (dim num : Z) (name : option string) : prog layer :=
  module "VectorQuantizer" name (param "embeddings" (Float32, [dim; num])) (fun _ x => lift (flat_rows dim (snd x)) ;;; Ret x).
Definition vector_quantizer_ema (dim num : Z) (name : option string) : prog (bool -> layer) :=
  m <- construct "VectorQuantizerEMA" name
         (e <- get_state "embeddings" (Some (Float32, [dim; num])) ;;
          cluster <- ema (Some "ema_cluster_size") ;; ema_initialize cluster (Float32, [num]) ;;;
          dw <- ema (Some "ema_dw") ;; ema_initialize dw e ;;; Ret (cluster, dw)) ;;
  let '(q, (cluster, dw)) := m in
  Ret (fun is_training x => within q "__call__"
    (lift (flat_rows dim (snd x)) ;;;
     e <- within q "embeddings" (get_state "embeddings" None) ;;
     check (shape_eqb (snd e) [dim; num]) ;;;
     (if is_training : bool
      then c <- ema_call cluster true (Float32, [num]) ;; w <- ema_call dw true (Float32, [dim; num]) ;;
           e <- broadcast w (Float32, 1 :: [ModelShape.prod (snd c)]) ;; set_state "embeddings" e
      else Ret tt) ;;; Ret x)).

(** ** Networks *)
(** [hk.Conv2D] with NHWC images and a square kernel. *)
Definition conv2d (channels kernel stride : Z) (padding : padtype) (with_bias : bool) (name : option string) : prog layer :=
  conv "Conv2D" (ConvND 2 channels [kernel; kernel] [stride; stride] [1; 1] (inl padding) true 1) with_bias name.
(** [BlockV1] and [BlockV2] (nets/resnet.py:38-196); [scale], [offset] come from [bn_config]. Version 1 gives the last normalisation of a bottleneck an initializer. *)
Section ResNet.
Context (scale offset : bool).
Definition net_bn (init : bool) (name : string) : prog (bn_mode -> layer) := batch_norm (BN scale offset init None true) (Some name).
Definition block_convs (channels stride : Z) (bottleneck v1 : bool) : prog (list (layer * (bn_mode -> layer))) :=
  each (fun p => let '(i, (c, k, s)) := p in
          conv_i <- conv2d c k s PtSame false (Some ("conv_" ++ str_of_nat i)) ;;
          bn_i <- net_bn (v1 && Nat.eqb i 2) ("batchnorm_" ++ str_of_nat i) ;; Ret (conv_i, bn_i))
       (combine (seq 0 3) (block_layers channels stride bottleneck)).
Definition block_v1 (channels stride : Z) (use_projection bottleneck : bool) (name : string) : prog (bn_mode -> layer) :=
  m <- construct "BlockV1" (Some name)
         (proj <- (if use_projection
                   then c <- conv2d channels 1 stride PtSame false (Some "shortcut_conv") ;; b <- net_bn false "shortcut_batchnorm" ;; Ret (fun mode => [c; b mode])
                   else Ret (fun _ => [])) ;;
          layers <- block_convs channels stride bottleneck true ;; Ret (proj, layers)) ;;
  let '(q, (proj, layers)) := m in
  Ret (fun mode x => within q "__call__"
    (shortcut <- chain (proj mode) x ;; out <- chain (flat_map (fun l => [fst l; snd l mode]) layers) x ;; broadcast out shortcut)).
Definition block_v2 (channels stride : Z) (use_projection bottleneck : bool) (name : string) : prog (bn_mode -> layer) :=
  m <- construct "BlockV2" (Some name)
         (proj <- (if use_projection then c <- conv2d channels 1 stride PtSame false (Some "shortcut_conv") ;; Ret (Some c) else Ret None) ;;
          layers <- block_convs channels stride bottleneck false ;; Ret (proj, layers)) ;;
  let '(q, (proj, layers)) := m in
  Ret (fun mode x => within q "__call__"
    match layers with
    | [] => Raise
    | (conv_0, bn_0) :: layers =>
        y <- bn_0 mode x ;; shortcut <- match proj with Some c => c y | None => Ret x end ;; y <- conv_0 y ;;
        out <- chain (flat_map (fun l => [snd l mode; fst l]) layers) y ;; broadcast out shortcut
    end).
(** [BlockGroup] (nets/resnet.py:199-217). *)
Definition block_group (v2 : bool) (channels : Z) (num_blocks : nat) (stride : Z) (bottleneck use_projection : bool) (name : string) : prog (bn_mode -> layer) :=
  m <- construct "BlockGroup" (Some name)
         (each (fun i => (if v2 then block_v2 else block_v1) channels (if Nat.eqb i 0 then stride else 1) (Nat.eqb i 0 && use_projection) bottleneck ("block_" ++ str_of_nat i))
               (seq 0 num_blocks)) ;;
  let '(q, blocks) := m in Ret (fun mode x => within q "__call__" (chain (map (fun b => b mode) blocks) x)).
(** [hk.nets.ResNet] (nets/resnet.py:285-386); the logits are a [hk.Linear] with the name "logits". [cls] for the subclasses ResNet18 to ResNet200. *)
Definition net_of (f : ModelImageNets.net) : layer := shape_map (fun s => option_map snd (f s)).
Definition resnet (cls : string) (c : resnet_config) (v2 : bool) (num_classes : Z) (name : option string) : prog (bn_mode -> layer) :=
  match rn_blocks c, rn_channels c, rn_projection c with
  | [b0; b1; b2; b3], [c0; c1; c2; c3], p0 :: p1 :: p2 :: p3 :: _ =>
      m <- construct cls name
             (initial_conv <- conv2d 64 7 2 PtSame false (Some "initial_conv") ;;
              first <- (if v2 then Ret (fun _ => []) else b <- net_bn false "initial_batchnorm" ;; Ret (fun mode => [b mode])) ;;
              groups <- each (fun g => let '(i, ch, n, s, p) := g in block_group v2 ch n s (rn_bottleneck c) p ("block_group_" ++ str_of_nat i))
                             [(0%nat, c0, b0, 1, p0); (1%nat, c1, b1, 2, p1); (2%nat, c2, b2, 2, p2); (3%nat, c3, b3, 2, p3)] ;;
              final <- (if v2 then b <- net_bn false "final_batchnorm" ;; Ret (fun mode => [b mode]) else Ret (fun _ => [])) ;;
              logits <- linear num_classes true (Some "logits") ;; Ret (initial_conv, first, groups, final, logits)) ;;
      let '(q, (initial_conv, first, groups, final, logits)) := m in
      Ret (fun mode x => within q "__call__"
        (chain ([initial_conv] ++ first mode ++ [net_of max_pool_3_2] ++ map (fun g => g mode) groups ++ final mode ++ [net_of mean_1_2; logits])%list x))
  | _, _, _ => Raise
  end.
End ResNet.
(** [hk.nets.MobileNetV1] (nets/mobilenetv1.py:51-155); the submodules are made in [__call__]. *)
Definition mobile_bn (use_bn is_training : bool) : layer := fun x =>
  if use_bn then b <- batch_norm (BN true true false None true) None ;; b (is_training, false) x else Ret x.
Definition mobile_block (channels stride : Z) (use_bn is_training : bool) : prog layer :=
  module "MobileNetV1Block" None (Ret tt) (fun _ x =>
    d <- depthwise 1 [3; 3] [stride; stride] (inr [(1, 1); (1, 1)]) true (negb use_bn) (Some "depthwise_conv") ;;
    p <- conv2d channels 1 1 PtValid (negb use_bn) (Some "pointwise_conv") ;;
    chain [d; mobile_bn use_bn is_training; p; mobile_bn use_bn is_training] x).
Definition mobilenet (strides channels : list Z) (num_classes : Z) (use_bn : bool) (name : option string) : prog (bool -> layer) :=
  m <- construct "MobileNetV1" name (check (Nat.eqb (length strides) (length channels))) ;; let '(q, _) := m in
  Ret (fun is_training x => within q "__call__"
    (c <- conv2d 32 3 2 PtValid (negb use_bn) None ;;
     y <- chain ([c; mobile_bn use_bn is_training] ++ map (fun p x => b <- mobile_block (snd p) (fst p) use_bn is_training ;; b x) (combine strides channels)
                 ++ [net_of mean_1_2])%list x ;;
     f <- reshape "Flatten" [-1] 1 None ;; y <- f y ;; l <- linear num_classes true (Some "logits") ;; l y)).

(** ** Recurrent cores (recurrent.py) *)
(** [initial_state] for an optional batch size, and one step; a state is the list of its leaves. *)
Record core := Core { initial_state : option Z -> list array; step : array -> list array -> prog (array * list array) }.
Definition add_batch (s : list Z) (b : option Z) : array := (Float32, match b with Some b => b :: s | None => s end).
(** [VanillaRNN] (recurrent.py:192-236). *)
Definition vanilla_rnn (hidden : Z) (double_bias : bool) (name : option string) : prog core :=
  m <- construct "VanillaRNN" name (Ret tt) ;; let '(q, _) := m in
  Ret (Core (fun b => [add_batch [hidden] b]) (fun x state => within q "__call__"
    match state with
    | [h] => i <- linear hidden true None ;; r <- linear hidden double_bias None ;; a <- i x ;; b <- r h ;; out <- broadcast a b ;; Ret (out, [out])
    | _ => Raise
    end)).
(** [LSTM] (recurrent.py:251-315): [jnp.concatenate] along the last axis. *)
Definition concat_last (a b : array) : prog array :=
  match rev (snd a), rev (snd b) with
  | d :: s, e :: t => check (shape_eqb s t) ;;; Ret (fst a, (rev s ++ [d + e])%list)
  | _, _ => Raise
  end.
Definition lstm (hidden : Z) (name : option string) : prog core :=
  m <- construct "LSTM" name (Ret tt) ;; let '(q, _) := m in
  Ret (Core (fun b => [add_batch [hidden] b; add_batch [hidden] b]) (fun x state => within q "__call__"
    match state with
    | [h; c] =>
        check (Nat.leb (length (snd x)) 2 && Nat.leb 1 (length (snd x))) ;;;
        xh <- concat_last x h ;; l <- linear (4 * hidden) true None ;; gated <- l xh ;;
        let gate := (fst gated, (removelast (snd gated) ++ [hidden])%list) in
        c <- broadcast gate c ;; h <- broadcast gate c ;; Ret (h, [h; c])
    | _ => Raise
    end)).
(** [GRU] (recurrent.py:490-560): a vector or a batch of vectors. *)
Definition gru (hidden : Z) (name : option string) : prog core :=
  m <- construct "GRU" name (Ret tt) ;; let '(q, _) := m in
  Ret (Core (fun b => [add_batch [hidden] b]) (fun x state => within q "__call__"
    match state, rev (snd x) with
    | [h], d :: s =>
        check (Nat.leb (length s) 1) ;;;
        param "w_i" (fst x, [d; 3 * hidden]) ;;; param "w_h" (fst x, [hidden; 3 * hidden]) ;;; param "b" (fst x, [3 * hidden]) ;;;
        check (match rev (snd h) with e :: _ => e =? hidden | [] => false end) ;;;
        a <- broadcast (fst x, (rev s ++ [hidden])%list) h ;; next <- broadcast h a ;; Ret (next, [next])
    | _, _ => Raise
    end)).
(** [ConvNDLSTM] (recurrent.py:318-480). *)
Definition conv_lstm (cls : string) (spatial : nat) (input_shape : list Z) (out : Z) (kernel : list Z) (name : option string) : prog core :=
  m <- construct cls name (Ret tt) ;; let '(q, _) := m in
  let c := ConvND spatial (4 * out) kernel (repeat 1 spatial) (repeat 1 spatial) (inl PtSame) true 1 in
  Ret (Core (fun b => let s := add_batch (input_shape ++ [out])%list b in [s; s]) (fun x state => within q "__call__"
    match state with
    | [h; cell] =>
        i <- conv "ConvND" c true (Some "input_to_hidden") ;; r <- conv "ConvND" c true (Some "hidden_to_hidden") ;;
        a <- i x ;; b <- r h ;; gates <- broadcast a b ;;
        let gate := (fst gates, (removelast (snd gates) ++ [out])%list) in
        cell <- broadcast gate cell ;; h <- broadcast gate cell ;; Ret (h, [h; cell])
    | _ => Raise
    end)).
(** [IdentityCore] (recurrent.py:563-575). *)
Definition identity_core (name : option string) : prog core :=
  m <- construct "IdentityCore" name (Ret tt) ;; let '(q, _) := m in Ret (Core (fun _ => []) (fun x state => within q "__call__" (Ret (x, state)))).
(** [ResetCore] (recurrent.py:590-676) with a flag for every example of a batch: [resets] is the shape of [should_reset]; the core is made by the caller. *)
Definition reset_core (c : core) (name : option string) : prog (list Z -> core) :=
  m <- construct "ResetCore" name (Ret tt) ;; let '(q, _) := m in
  Ret (fun resets => Core (initial_state c) (fun x state => within q "__call__"
    (check (forallb (fun s => shape_eqb resets (firstn (length resets) (snd s))) state) ;;;
     let batched := negb (Nat.eqb (length state) 0) && forallb (fun p => shape_eqb (tl (snd (fst p))) (tl (snd (snd p)))) (combine (initial_state c (Some 1)) state) in
     batch <- (if batched then match snd x with b :: _ => Ret (Some b) | [] => Raise end else Ret None) ;;
     state <- each (fun p => let '(s, i) := p in
                      r <- broadcast (fst s, (resets ++ repeat 1 (length (snd s) - length resets))%list) i ;; broadcast s r)
                   (combine state (initial_state c batch)) ;;
     step c x state))).
(** [hk.DeepRNN] and [hk.deep_rnn_with_skip_connections] (recurrent.py:679-791): layers are cores or functions; the states of the cores follow each other. *)
Fixpoint deep_steps (skip : bool) (idx : nat) (layers : list (core + layer)) (inputs cur : array) (state : list array) (outputs : list array)
  : prog (array * list array * list array) :=
  match layers with
  | [] => check (Nat.eqb (length state) 0) ;;; Ret (cur, [], outputs)
  | l :: layers =>
      cur <- (if skip && Nat.ltb 0 idx then concat_last inputs cur else Ret cur) ;;
      match l with
      | inl c =>
          let k := length (initial_state c None) in
          r <- step c cur (firstn k state) ;; let '(y, s) := r in
          rest <- deep_steps skip (S idx) layers inputs y (skipn k state) (outputs ++ [y])%list ;; let '(y, ss, outs) := rest in Ret (y, (s ++ ss)%list, outs)
      | inr f => y <- f cur ;; deep_steps skip (S idx) layers inputs y state outputs
      end
  end.
Fixpoint concat_all (a : array) (l : list array) : prog array := match l with [] => Ret a | b :: l => c <- concat_last a b ;; concat_all c l end.
Definition deep_rnn (skip : bool) (layers : list (core + layer)) (name : option string) : prog core :=
  m <- construct (if skip then "_DeepRNN" else "DeepRNN") name
         (check (negb skip || forallb (fun l => match l with inl _ => true | inr _ => false end) layers)) ;; let '(q, _) := m in
  Ret (Core (fun b => flat_map (fun l => match l with inl c => initial_state c b | inr _ => [] end) layers)
    (fun x state => within q "__call__"
      (r <- deep_steps skip 0 layers x x state [] ;; let '(y, s, outs) := r in
       y <- (if skip then match outs with a :: l => concat_all a l | [] => Raise end else Ret y) ;; Ret (y, s)))).

(** [static_unroll] (recurrent.py:79-131) over [n] steps whose inputs have one shape; [jnp.stack] wants outputs of one shape and at least one of them. *)
Fixpoint static_steps (c : core) (n : nat) (x : array) (state : list array) : prog (list array * list array) :=
  match n with
  | O => Ret ([], state)
  | S n => r <- step c x state ;; let '(y, state) := r in rest <- static_steps c n x state ;; let '(ys, state) := rest in Ret (y :: ys, state)
  end.
Definition stacked (n : nat) (a : array) : array := (fst a, Z.of_nat n :: snd a).
Definition static_unroll (c : core) (n : nat) (x : array) (state : list array) : prog (array * list array) :=
  r <- static_steps c n x state ;; let '(ys, state) := r in
  match ys with
  | y :: l => check (forallb (fun z => shape_eqb (snd y) (snd z)) l) ;;; Ret (stacked n y, state)
  | [] => Raise
  end.
(** [dynamic_unroll] (recurrent.py:144-186) through [hk.scan] (stateful.py:449-510): one run of the step for each of its traces, also when there are no steps; the state
    keeps its types and shapes.  (At init the first step is taken in Python and only the others are traced; they are runs of the same step.) *)
Definition array_eqb (a b : array) : bool := String.eqb (dtype_name (fst a)) (dtype_name (fst b)) && shape_eqb (snd a) (snd b).
Fixpoint arrays_eqb (l m : list array) : bool := match l, m with [], [] => true | a :: l, b :: m => array_eqb a b && arrays_eqb l m | _, _ => false end.
Definition dynamic_unroll (c : core) (n : nat) (x : array) (state : list array) : prog (array * list array) :=
  r <- step c x state ;; let '(y, state') := r in check (arrays_eqb state' state) ;;; Ret (stacked n y, state).

(** ** integration/descriptors.py *)
(** [Training], [MultiInput] with 3 inputs, [Recurrent], [DummyCore] and [ResetCoreAdapter] (descriptors.py:27-63, 204-224). *)
Definition training {M} (f : M -> layer) (mode : M) : prog layer := module "Training" None (Ret tt) (fun _ x => f mode x).
Definition multi_input (f : array * array * array -> prog array) : prog layer := module "MultiInput" None (Ret tt) (fun _ x => f (x, x, x)).
Definition unroller : Type := core -> nat -> array -> list array -> prog (array * list array).
Definition recurrent (c : core) (u : unroller) : prog layer :=
  module "Recurrent" None (Ret tt) (fun _ x =>
    match snd x with
    | [] => Raise
    | b :: _ => r <- u c 1%nat x (map (fun s => (fst x, snd s)) (initial_state c (Some b))) ;; Ret (fst r)
    end).
Definition dummy_core : prog core :=
  m <- construct "DummyCore" None (Ret tt) ;; let '(q, _) := m in Ret (Core (fun b => [add_batch [128; 1] b]) (fun x state => within q "__call__" (Ret (x, state)))).
Definition reset_adapter (c : list Z -> core) : prog core :=
  m <- construct "ResetCoreAdapter" None (Ret tt) ;; let '(q, _) := m in
  Ret (Core (initial_state (c [])) (fun x state => within q "__call__" match snd x with b :: _ => step (c [b]) x state | [] => Raise end)).

(** [ModuleDescriptor] (descriptors.py:72-76): [create] as a program giving the function of the input. *)
Record descriptor := Desc { d_name : string; d_create : prog layer; d_input : array }.
Definition ones (n : nat) : list Z := repeat 1 n.
Definition conv_default (cls : string) (n : nat) (out kernel : Z) : prog layer :=
  conv cls (ConvND n out (repeat kernel n) (ones n) (ones n) (inl PtSame) true 1) true None.
Definition conv_t_default (cls : string) (n : nat) (out kernel : Z) : prog layer :=
  conv_transpose cls (ConvT n out (repeat kernel n) (ones n) true) (inl PtSame) None true None.
Definition f32 (s : list Z) : array := (Float32, s).
(** [OPTIONAL_BATCH_MODULES] (descriptors.py:83-133). *)
Definition optional_batch_modules : list descriptor :=
  [Desc "Embed" (embed 6 12 None) (Int32, [8]);
   Desc "Linear" (linear 10 true None) (f32 [8; 1]);
   Desc "Sequential" (sequential [] None) (f32 [8; 2; 2]);
   Desc "nets.MLP" (mlp [3; 4; 5] true None) (f32 [8; 3]);
   Desc "ConvND" (conv_default "ConvND" 1 3 3) (f32 [8; 2; 2]);
   Desc "ConvNDTranspose" (conv_t_default "ConvNDTranspose" 1 3 3) (f32 [8; 2; 2]);
   Desc "Conv1D" (conv_default "Conv1D" 1 3 3) (f32 [8; 2; 2]);
   Desc "Conv1DTranspose" (conv_t_default "Conv1DTranspose" 1 3 3) (f32 [8; 2; 2]);
   Desc "Conv2D" (conv_default "Conv2D" 2 3 3) (f32 [8; 2; 2; 2]);
   Desc "Conv2DTranspose" (conv_t_default "Conv2DTranspose" 2 3 3) (f32 [8; 2; 2; 2]);
   Desc "Conv3D" (conv_default "Conv3D" 3 3 3) (f32 [8; 2; 2; 2; 2]);
   Desc "Conv3DTranspose" (conv_t_default "Conv3DTranspose" 3 3 3) (f32 [8; 2; 2; 2; 2])].
(** [BATCH_MODULES] (descriptors.py:136-201). *)
Definition resnet_default : resnet_config := ResNetConfig [3; 4; 6; 3]%nat true big [true; true; true; true].
Definition batch_modules : list descriptor :=
  [Desc "BatchNorm" (b <- batch_norm (BN true true false None true) None ;; training b (true, false)) (f32 [8; 2; 2; 3]);
   Desc "Bias" (bias None None None) (f32 [8; 3; 3; 3]);
   Desc "Flatten" (reshape "Flatten" [-1] 1 None) (f32 [8; 3; 3; 3]);
   Desc "InstanceNorm" (layer_norm "InstanceNorm" (instance_axis true) true true None) (f32 [8; 3; 2]);
   Desc "GroupNorm" (group_norm 5 (range 1) true true true None) (f32 [8; 4; 4; 10]);
   Desc "LayerNorm" (layer_norm "LayerNorm" (fun _ => [1]) true true None) (f32 [8; 3; 2]);
   Desc "MultiHeadAttention" (a <- attention 8 64 64 64 512 None ;; multi_input a) (f32 [8; 3; 2]);
   Desc "SpectralNorm" (spectral_norm 1 None) (f32 [8; 3; 2]);
   Desc "nets.ResNet" (r <- resnet true true "ResNet" resnet_default false 1000 None ;; training r (true, false)) (f32 [8; 3; 3; 2]);
   Desc "nets.MobileNetV1" (r <- mobilenet [1; 1; 1] [16; 32; 64] 1000 true None ;; training r true) (f32 [8; 64; 64; 2]);
   Desc "nets.VectorQuantizer" (v <- vector_quantizer 64 512 None ;; training (fun _ : unit => v) tt) (f32 [8; 64]);
   Desc "nets.VectorQuantizerEMA" (v <- vector_quantizer_ema 64 512 None ;; training v true) (f32 [8; 64]);
   Desc "DepthwiseConv2D" (depthwise 1 [3; 3] [1; 1] (inl PtSame) true true None) (f32 [8; 2; 2; 2]);
   Desc "SeparableDepthwiseConv2D" (separable 1 3 3 [1; 1] (inl PtSame) true true None) (f32 [8; 2; 2; 2])].
(** [RNN_CORES] (descriptors.py:228-261), [unroll_descriptors] and [ALL_MODULES] (descriptors.py:264-303). *)
Definition conv_lstm_default (cls : string) (n : nat) : prog core := conv_lstm cls n (repeat 2 n) 3 (repeat 3 n) None.
Definition rnn_cores : list (string * prog core * array) :=
  [("ResetCore", (d <- dummy_core ;; r <- reset_core d None ;; reset_adapter r), f32 [8; 128]);
   ("GRU", gru 1 None, f32 [8; 128]);
   ("IdentityCore", identity_core None, f32 [8; 128]);
   ("LSTM", lstm 1 None, f32 [8; 128]);
   ("Conv1DLSTM", conv_lstm_default "Conv1DLSTM" 1, f32 [8; 2; 2]);
   ("Conv2DLSTM", conv_lstm_default "Conv2DLSTM" 2, f32 [8; 2; 2; 2]);
   ("Conv3DLSTM", conv_lstm_default "Conv3DLSTM" 3, f32 [8; 2; 2; 2; 2]);
   ("VanillaRNN", vanilla_rnn 8 true None, f32 [8; 128])].
Definition unroll_descriptors (u : unroller) (u_name : string) : list descriptor :=
  map (fun e => let '(n, c, x) := e in Desc ("Recurrent(" ++ n ++ ", " ++ u_name ++ ")") (c <- c ;; recurrent c u) x) rnn_cores.
Definition all_modules : list descriptor :=
  (optional_batch_modules ++ batch_modules ++ unroll_descriptors dynamic_unroll "dynamic_unroll" ++ unroll_descriptors static_unroll "static_unroll")%list.
(** [to_file_name] (descriptors.py:293-295). *)
Definition to_file_name (d : descriptor) : string := ModelUtils.replace "," "" (ModelUtils.replace ")" "" (ModelUtils.replace "(" "-" (ModelUtils.replace " " "-" (d_name d)))).

(** ** integration/checkpoint_utils.py *)
(** [format_tensor] (checkpoint_utils.py:26-29): the text of a Python list of integers. *)
Definition str_of_Z (z : Z) : string := if z <? 0 then "-" ++ str_of_N (Z.to_N (- z)) else str_of_N (Z.to_N z).
Definition format_tensor (a : array) : string := simple_dtype (fst a) ++ "[" ++ String.concat ", " (map str_of_Z (snd a)) ++ "]".
(** [summarize] (checkpoint_utils.py:38-55) without the line "module": sizes, bytes and the formatted tensors, in the order of sorted keys that [json.dump] writes
    (integration/checkpoint_test.py). *)
Definition size_of (a : array) : Z := ModelShape.prod (snd a).
Definition tree_size (l : list (key * array)) : Z := fold_right Z.add 0 (map (fun p => size_of (snd p)) l).
Definition tree_bytes (l : list (key * array)) : Z := fold_right Z.add 0 (map (fun p => size_of (snd p) * Z.of_N (itemsize (fst (snd p)))) l).
Definition key_leb (a b : key) : bool := match String.compare (fst a) (fst b) with Lt => true | Gt => false | Eq => match String.compare (snd a) (snd b) with Gt => false | _ => true end end.
Fixpoint insert_key {V} (x : key * V) (l : list (key * V)) : list (key * V) :=
  match l with [] => [x] | y :: m => if key_leb (fst x) (fst y) then x :: l else y :: insert_key x m end.
Definition sort_keys {V} (l : list (key * V)) : list (key * V) := fold_right insert_key [] l.
Record tree_summary := Tree { t_size : Z; t_bytes : Z; t_leaves : list (key * string) }.
Record summary := Summary { s_input : string; s_params : option tree_summary; s_state : option tree_summary }.
Definition summarize_tree (l : list (key * array)) : option tree_summary :=
  match l with [] => None | _ => Some (Tree (tree_size l) (tree_bytes l) (map (fun p => (fst p, format_tensor (snd p))) (sort_keys l))) end.
Definition use (create : prog layer) (x : array) : prog array := f <- create ;; f x.
Definition summarize (d : descriptor) : option summary :=
  match init (use (d_create d) (d_input d)) with
  | Some (params, state) => Some (Summary (format_tensor (d_input d)) (summarize_tree params) (summarize_tree state))
  | None => None
  end.

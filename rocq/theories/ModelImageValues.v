(** * Values in nets/resnet.py and nets/mobilenetv1.py

    An array is its shape and a function from indices; numbers are reals. Which shapes are accepted and what comes out is taken from
    ModelImageNets, the values of convolutions from ModelConv and of pooling from ModelPool. Batch normalisation always has a scale and an
    offset (a missing one is 1 or 0); the update of its averages is in ModelReal and has no influence on the result. Means over no elements
    (NaN) are 0. *)
From Coq Require Import Reals ZArith String List Bool.
From Verif Require Import ModelNets ModelShape ModelReal ModelPool ModelConv ModelImageNets ModelCheckpoint.
Import ListNotations.

Definition arr : Type := list Z * (list Z -> R).
Definition vnet := arr -> option arr.
(** A layer from what it does to shapes and what it does to values. *)
Definition layer (f : net) (g : list Z -> (list Z -> R) -> list Z -> R) : vnet := fun x =>
  match f (fst x) with None => None | Some (_, out) => Some (out, g (fst x) (snd x)) end.
Definition identv : vnet := fun x => Some x.
Definition thenv (f g : vnet) : vnet := fun x => match f x with None => None | Some y => g y end.

(** Parameters and state by module name: kernel [w] and bias [b] of convolutions and linear layers; scale, offset and the averages
    [mean_ema] and [var_ema] of batch normalisations, by channel. *)
Record bn := BN { bn_scale : Z -> R; bn_offset : Z -> R; bn_mean : Z -> R; bn_var : Z -> R }.
Record weights := Weights { w_of : string -> list Z -> R; b_of : string -> list Z -> R; bn_of : string -> bn }.

(** [hk.Conv2D], [hk.DepthwiseConv2D] (ModelConv). *)
Definition conv_v (W : weights) (name : string) (channels kernel stride : Z) (padding : padtype) (with_bias : bool) : vnet :=
  layer (conv2d channels kernel stride padding with_bias) (fun shape =>
    conv_values (ConvND 2 channels [kernel; kernel] [stride; stride] [1; 1]%Z (inl padding) true 1) shape (w_of W name) None (if with_bias then Some (b_of W name) else None)).
Definition depthwise_v (W : weights) (name : string) (kernel stride : list Z) (padding : padtype + list (Z * Z)) (with_bias : bool) : vnet :=
  layer (depthwise 1 kernel stride padding true with_bias) (fun shape =>
    depthwise_values 1 kernel stride padding true shape (w_of W name) (if with_bias then Some (b_of W name) else None)).
(** [hk.BatchNorm] (batch_norm.py:155-196): the statistics of the batch when training or with [test_local_stats], else the averages. *)
Definition channel_mean (shape : list Z) (x : list Z -> R) (ch : Z) : R :=
  bsum (removelast shape) (fun l => x (l ++ [ch])) / IZR (ModelShape.prod (removelast shape)).
Definition bn_v (eps : R) (is_training test_local_stats : bool) (W : weights) (name : string) : vnet :=
  layer batchnorm (fun shape x idx =>
    let p := bn_of W name in
    let ch := List.last idx 0%Z in
    let local := is_training || test_local_stats in
    let mean := if local then channel_mean shape x ch else bn_mean p ch in
    let var := if local then channel_mean shape (fun i => x i ^ 2) ch - mean ^ 2 else bn_var p ch in
    let inv := bn_scale p ch * / sqrt (var + eps) in
    (x idx - mean) * inv + bn_offset p ch)%R.
Definition relu_v : vnet := layer ident (fun _ x idx => Rmax (x idx) 0).
(** The sum of two arrays of equal rank: an axis of size 1 is read at 0. *)
Definition clip (shape idx : list Z) : list Z := map (fun p => if (fst p =? 1)%Z then 0%Z else snd p) (combine shape idx).
Definition add_v (a b : arr) : option arr :=
  match broadcast2 (fst a) (fst b) with
  | None => None
  | Some s => Some (s, fun idx => snd a (clip (fst a) idx) + snd b (clip (fst b) idx))%R
  end.

(** ** nets/resnet.py *)
Definition sub (p name : string) : string := (p ++ "/~/" ++ name)%string.
Definition numbered (name : string) (i : nat) : string := (name ++ decimal (N.of_nat i))%string.
Section ResNet.
Context (eps : R) (is_training test_local_stats : bool) (W : weights).
Definition bnv := bn_v eps is_training test_local_stats W.
(** [BlockV1] (resnet.py:97-117). *)
Definition v1_layers (p : string) (layers : list (Z * Z * Z)) : vnet :=
  fold_left (fun f l => let '(i, (c, k, s)) := l in
    thenv f (thenv (conv_v W (sub p (numbered "conv_" i)) c k s PtSame false) (thenv (bnv (sub p (numbered "batchnorm_" i)))
      (if Nat.ltb i (length layers - 1) then relu_v else identv)))) (combine (seq 0 (length layers)) layers) identv.
Definition block_v1_v (p : string) (channels stride : Z) (use_projection bottleneck : bool) : vnet := fun x =>
  let proj := if use_projection then thenv (conv_v W (sub p "shortcut_conv") channels 1 stride PtSame false) (bnv (sub p "shortcut_batchnorm")) else identv in
  match proj x, v1_layers p (block_layers channels stride bottleneck) x with
  | Some shortcut, Some out => match add_v out shortcut with Some s => relu_v s | None => None end
  | _, _ => None
  end.
(** [BlockV2] (resnet.py:183-196): the projection reads the activations after the first batch normalisation. *)
Definition v2_step (p : string) (channels stride : Z) (use_projection : bool) (st : option (arr * arr)) (l : nat * (Z * Z * Z)) : option (arr * arr) :=
  let '(i, (c, k, s)) := l in
  match st with
  | None => None
  | Some (x, shortcut) =>
      match thenv (bnv (sub p (numbered "batchnorm_" i))) relu_v x with
      | None => None
      | Some x =>
          match (if Nat.eqb i 0 && use_projection then conv_v W (sub p "shortcut_conv") channels 1 stride PtSame false x else Some shortcut),
                conv_v W (sub p (numbered "conv_" i)) c k s PtSame false x with
          | Some shortcut, Some x => Some (x, shortcut)
          | _, _ => None
          end
      end
  end.
Definition block_v2_v (p : string) (channels stride : Z) (use_projection bottleneck : bool) : vnet := fun x =>
  let layers := block_layers channels stride bottleneck in
  match fold_left (v2_step p channels stride use_projection) (combine (seq 0 (length layers)) layers) (Some (x, x)) with
  | Some (out, shortcut) => add_v out shortcut
  | None => None
  end.
Definition block_v (v2 : bool) := if v2 then block_v2_v else block_v1_v.
(** [BlockGroup] (resnet.py:214-231). *)
Definition group_v (v2 : bool) (p : string) (channels : Z) (num_blocks : nat) (stride : Z) (bottleneck use_projection : bool) : vnet :=
  fold_left (fun f i => thenv f (block_v v2 (sub p (numbered "block_" i)) channels (if Nat.eqb i 0 then stride else 1%Z) (Nat.eqb i 0 && use_projection) bottleneck)) (seq 0 num_blocks) identv.
(** [hk.max_pool] (resnet.py:371-374); a window always has an element in the image. *)
Definition max_pool_v : vnet := layer max_pool_3_2 (fun shape x idx =>
  match pool_axes shape (inr [1; 3; 3; 1]%Z) (inr [1; 2; 2; 1]%Z) (Some (-1)%Z) with
  | Some axes => match max_pool PtSame axes x idx with Some v => v | None => 0%R end
  | None => 0%R
  end).
Definition mean_v : vnet := layer mean_1_2 (fun shape x idx =>
  match shape, idx with
  | [_; h; w; _], [b; c] => (bsum [h; w] (fun l => x (b :: l ++ [c])) / IZR (h * w))%R
  | _, _ => 0%R
  end).
Definition linear_v (name : string) (n : Z) : vnet := layer (linear n) (fun shape x idx =>
  match shape, idx with
  | [_; c], [b; k] => (zsum c (fun j => x [b; j] * w_of W name [j; k]) + b_of W name [k])%R
  | _, _ => 0%R
  end).
(** [ResNet.__call__] (resnet.py:363-383). *)
Definition resnet_features_v (p : string) (c : resnet_config) (v2 : bool) : option vnet :=
  match rn_blocks c, rn_channels c, rn_projection c with
  | [b0; b1; b2; b3], [c0; c1; c2; c3], p0 :: p1 :: p2 :: p3 :: _ =>
      let g i b c' s p' := group_v v2 (sub p (numbered "block_group_" i)) c' b s (rn_bottleneck c) p' in
      Some (thenv (conv_v W (sub p "initial_conv") 64 7 2 PtSame false)
           (thenv (if v2 then identv else thenv (bnv (sub p "initial_batchnorm")) relu_v) (thenv max_pool_v
           (thenv (g 0%nat b0 c0 1%Z p0) (thenv (g 1%nat b1 c1 2%Z p1) (thenv (g 2%nat b2 c2 2%Z p2) (thenv (g 3%nat b3 c3 2%Z p3)
           (if v2 then thenv (bnv (sub p "final_batchnorm")) relu_v else identv))))))))
  | _, _, _ => None
  end.
Definition resnet_v (p : string) (c : resnet_config) (v2 : bool) (num_classes : Z) : option vnet :=
  option_map (fun f => thenv f (thenv mean_v (linear_v (sub p "logits") num_classes))) (resnet_features_v p c v2).

(** ** nets/mobilenetv1.py *)
(** Modules made in [__call__] have their names after a slash; the second of a name ends in [_1] (module.py). *)
Definition inside_call (p name : string) : string := (p ++ "/" ++ name)%string.
Definition unique (name : string) (i : nat) : string := if Nat.eqb i 0 then name else (name ++ "_" ++ decimal (N.of_nat i))%string.
Definition opt_bn (use_bn : bool) (name : string) : vnet := if use_bn then bnv name else identv.
(** [MobileNetV1Block] (mobilenetv1.py:66-96). *)
Definition mobile_block_v (p : string) (channels stride : Z) (use_bn : bool) : vnet :=
  thenv (depthwise_v W (inside_call p "depthwise_conv") [3; 3]%Z [stride; stride] (inr [(1, 1); (1, 1)]%Z) (negb use_bn))
  (thenv (opt_bn use_bn (inside_call p "batch_norm")) (thenv relu_v
  (thenv (conv_v W (inside_call p "pointwise_conv") channels 1 1 PtValid (negb use_bn))
  (thenv (opt_bn use_bn (inside_call p "batch_norm_1")) relu_v)))).
(** [MobileNetV1.__call__] (mobilenetv1.py:134-155). *)
Definition mobilenet_features_v (p : string) (strides channels : list Z) (use_bn : bool) : option vnet :=
  if negb (Nat.eqb (length strides) (length channels)) then None else
  Some (thenv (conv_v W (inside_call p "conv2_d") 32 3 2 PtValid (negb use_bn)) (thenv (opt_bn use_bn (inside_call p "batch_norm")) (thenv relu_v
       (fold_left (fun f l => let '(i, (s, c)) := l in thenv f (mobile_block_v (inside_call p (unique "mobile_net_v1_block" i)) c s use_bn))
          (combine (seq 0 (length strides)) (combine strides channels)) identv)))).
Definition mobilenet_v (p : string) (strides channels : list Z) (num_classes : Z) (use_bn : bool) : option vnet :=
  option_map (fun f => thenv f (thenv mean_v (linear_v (inside_call p "logits") num_classes))) (mobilenet_features_v p strides channels use_bn).
End ResNet.

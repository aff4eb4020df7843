(** * Shapes in nets/resnet.py, nets/mobilenetv1.py and depthwise_conv.py

    A network takes the shape of a batch of images and gives the shapes of the parameters it creates and the shape of its result;
    [None] when it raises. Values are not modelled. Parameters are listed without their names, those of a projection first. *)
From Coq Require Import ZArith List Bool.
From Verif Require Import ModelShape ModelPool.
Import ListNotations.
Local Open Scope Z_scope.

Definition net := list Z -> option (list (list Z) * list Z).
Definition ident : net := fun x => Some ([], x).
(** One after the other. *)
Definition andthen (f g : net) : net := fun x =>
  match f x with
  | None => None
  | Some (p, y) => match g y with None => None | Some (q, z) => Some (p ++ q, z) end
  end.
(** [hk.Conv2D] with a square kernel, NHWC. *)
Definition conv2d (channels kernel stride : Z) (padding : padtype) (with_bias : bool) : net := fun x =>
  match conv_call (ConvND 2 channels [kernel; kernel] [stride; stride] [1; 1] (inl padding) true 1) x with
  | None => None
  | Some (w, b, out) => Some (w :: (if with_bias then [b] else []), out)
  end.
(** [hk.BatchNorm] with scale and offset (batch_norm.py:159-196): one entry per channel, the shape is kept. *)
Definition batchnorm : net := fun x =>
  let w := repeat 1 (length x - 1) ++ [List.last x 0] in Some ([w; w], x).
(** [jnp] broadcasting of two shapes. *)
Fixpoint broadcast2_rev (s t : list Z) : option (list Z) :=
  match s, t with
  | [], t => Some t
  | s, [] => Some s
  | a :: s, b :: t =>
      match (if a =? b then Some a else if a =? 1 then Some b else if b =? 1 then Some a else None), broadcast2_rev s t with
      | Some c, Some r => Some (c :: r)
      | _, _ => None
      end
  end.
Definition broadcast2 (s t : list Z) : option (list Z) := option_map (@rev Z) (broadcast2_rev (rev s) (rev t)).

(** ** nets/resnet.py *)
(** The convolutions of a block: channels, kernel, stride (resnet.py:69-102, 148-184). *)
Definition block_layers (channels stride : Z) (bottleneck : bool) : list (Z * Z * Z) :=
  let channel_div := if bottleneck then 4 else 1 in
  [(channels / channel_div, if bottleneck then 1 else 3, if bottleneck then 1 else stride);
   (channels / channel_div, 3, if bottleneck then stride else 1)]
  ++ (if bottleneck then [(channels, 1, 1)] else []).
(** [BlockV1] (resnet.py:38-117), [BlockV2] (resnet.py:120-196): the sum broadcasts. *)
Definition block_v1 (channels stride : Z) (use_projection bottleneck : bool) : net := fun x =>
  let proj := if use_projection then andthen (conv2d channels 1 stride PtSame false) batchnorm else ident in
  let main := fold_left (fun f l => let '(c, k, s) := l in andthen f (andthen (conv2d c k s PtSame false) batchnorm)) (block_layers channels stride bottleneck) ident in
  match proj x, main x with
  | Some (p, shortcut), Some (q, out) => match broadcast2 out shortcut with Some r => Some (p ++ q, r) | None => None end
  | _, _ => None
  end.
Definition block_v2 (channels stride : Z) (use_projection bottleneck : bool) : net := fun x =>
  let proj := if use_projection then conv2d channels 1 stride PtSame false else ident in
  let main := fold_left (fun f l => let '(c, k, s) := l in andthen f (andthen batchnorm (conv2d c k s PtSame false))) (block_layers channels stride bottleneck) ident in
  match proj x, main x with
  | Some (p, shortcut), Some (q, out) => match broadcast2 out shortcut with Some r => Some (p ++ q, r) | None => None end
  | _, _ => None
  end.
Definition block (v2 : bool) := if v2 then block_v2 else block_v1.
(** [BlockGroup] (resnet.py:199-231). *)
Definition block_group (v2 : bool) (channels : Z) (num_blocks : nat) (stride : Z) (bottleneck use_projection : bool) : net :=
  fold_left (fun f i => andthen f (block v2 channels (if Nat.eqb i 0 then stride else 1) (Nat.eqb i 0 && use_projection) bottleneck)) (seq 0 num_blocks) ident.
(** [max_pool] with window (1,3,3,1), strides (1,2,2,1), SAME (resnet.py:371-374). *)
Definition max_pool_3_2 : net := fun x =>
  match pool_axes x (inr [1; 3; 3; 1]) (inr [1; 2; 2; 1]) (Some (-1)) with
  | Some axes => Some ([], pool_out PtSame axes)
  | None => None
  end.
(** [jnp.mean(out, axis=[1, 2])] of an array of rank 4 and [hk.Linear]. *)
Definition mean_1_2 : net := fun x => match x with [b; _; _; c] => Some ([], [b; c]) | _ => None end.
Definition linear (n : Z) : net := fun x => match x with [b; c] => Some ([[c; n]; [n]], [b; n]) | _ => None end.
(** [ResNet] (resnet.py:239-383); only two of the three sequences are checked for length, the third is indexed with 0..3. *)
Record resnet_config := ResNetConfig { rn_blocks : list nat; rn_bottleneck : bool; rn_channels : list Z; rn_projection : list bool }.
Definition resnet_features (c : resnet_config) (v2 : bool) : option net :=
  match rn_blocks c, rn_channels c, rn_projection c with
  | [b0; b1; b2; b3], [c0; c1; c2; c3], p0 :: p1 :: p2 :: p3 :: _ =>
      let bn := rn_bottleneck c in
      let g b c s p := block_group v2 c b s bn p in
      Some (andthen (conv2d 64 7 2 PtSame false) (andthen (if v2 then ident else batchnorm) (andthen max_pool_3_2
            (andthen (g b0 c0 1 p0) (andthen (g b1 c1 2 p1) (andthen (g b2 c2 2 p2) (andthen (g b3 c3 2 p3)
            (if v2 then batchnorm else ident))))))))
  | _, _, _ => None
  end.
Definition resnet (c : resnet_config) (v2 : bool) (num_classes : Z) : option net :=
  option_map (fun f => andthen f (andthen mean_1_2 (linear num_classes))) (resnet_features c v2).
(** [ResNet.CONFIGS] (resnet.py:242-279). *)
Definition small : list Z := [64; 128; 256; 512].
Definition big : list Z := [256; 512; 1024; 2048].
Definition configs : list (Z * resnet_config) :=
  [(18, ResNetConfig [2; 2; 2; 2]%nat false small [false; true; true; true]);
   (34, ResNetConfig [3; 4; 6; 3]%nat false small [false; true; true; true]);
   (50, ResNetConfig [3; 4; 6; 3]%nat true big [true; true; true; true]);
   (101, ResNetConfig [3; 4; 23; 3]%nat true big [true; true; true; true]);
   (152, ResNetConfig [3; 8; 36; 3]%nat true big [true; true; true; true]);
   (200, ResNetConfig [3; 24; 36; 3]%nat true big [true; true; true; true])].

(** ** depthwise_conv.py *)
(** [DepthwiseConv2D] (depthwise_conv.py:49-134): input of rank 4, one group per input channel, and [lax] wants a positive number of groups. *)
Definition depthwise (multiplier : Z) (kernel stride : list Z) (padding : padtype + list (Z * Z)) (last with_bias : bool) : net := fun x =>
  let ch := channel_of last x in
  if negb (Nat.eqb (length x) 4) || (ch <=? 0) then None else
  let w := kernel ++ [1; multiplier * ch] in
  let pads := match padding with
              | inl t => string_pads t (spatial_of last x) kernel [1; 1] stride
              | inr l => l
              end in
  match lax_conv_shape x w (to_dimension_numbers 2 last false) pads stride [1; 1] ch with
  | None => None
  | Some out =>
      let b := (multiplier * ch) :: (if last then [] else [1; 1]) in
      if with_bias then (if broadcast_to b out then Some ([w; b], out) else None) else Some ([w], out)
  end.
(** [SeparableDepthwiseConv2D] (depthwise_conv.py:137-197). *)
Definition separable (multiplier k0 k1 : Z) (stride : list Z) (padding : padtype + list (Z * Z)) (last with_bias : bool) : net :=
  andthen (depthwise multiplier [k0; 1] stride padding last false) (depthwise 1 [1; k1] [1; 1] padding last with_bias).

(** ** nets/mobilenetv1.py *)
(** [MobileNetV1Block] (mobilenetv1.py:51-96). *)
Definition mobile_block (channels stride : Z) (use_bn : bool) : net :=
  let bn := if use_bn then batchnorm else ident in
  andthen (depthwise 1 [3; 3] [stride; stride] (inr [(1, 1); (1, 1)]) true (negb use_bn)) (andthen bn
  (andthen (conv2d channels 1 1 PtValid (negb use_bn)) bn)).
(** [MobileNetV1] (mobilenetv1.py:99-155); [Flatten] does nothing to a matrix. *)
Definition mobilenet_features (strides channels : list Z) (use_bn : bool) : option net :=
  if negb (Nat.eqb (length strides) (length channels)) then None else
  Some (andthen (conv2d 32 3 2 PtValid (negb use_bn)) (andthen (if use_bn then batchnorm else ident)
       (fold_left (fun f p => andthen f (mobile_block (snd p) (fst p) use_bn)) (combine strides channels) ident))).
Definition mobilenet (strides channels : list Z) (num_classes : Z) (use_bn : bool) : option net :=
  option_map (fun f => andthen f (andthen mean_1_2 (linear num_classes))) (mobilenet_features strides channels use_bn).
(** The defaults (mobilenetv1.py:105-107). *)
Definition mobile_strides : list Z := [1; 2; 1; 2; 1; 2; 1; 1; 1; 1; 1; 2; 1].
Definition mobile_channels : list Z := [64; 128; 128; 256; 256; 512; 512; 512; 512; 512; 512; 1024; 1024].
(** The number of scalars in a list of parameters. *)
Definition num_params (l : list (list Z)) : Z := fold_right Z.add 0 (map ModelShape.prod l).

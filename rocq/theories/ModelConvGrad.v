(** * Gradients through convolutions and pooling
    (haiku/_src/conv.py:151-215, 528-592; haiku/_src/depthwise_conv.py:100-134, 165-197; haiku/_src/pool.py:79-148)

    The arithmetic of ModelConv and ModelPool as expressions of ModelGradients: an array is a function from indices to expressions.  The mask of a
    convolution is a constant array.  Numbers are real numbers. *)
From Coq Require Import Reals ZArith List Bool.
From Verif Require Import ModelNets ModelTransformer ModelTraining ModelShape ModelReal ModelConv ModelPool ModelGradients.
Import ListNotations.
Local Open Scope R_scope.

Section Arrays.
Context {V : Type}.
Definition earray : Type := list Z -> expr V.
Definition ezsum (n : Z) (f : Z -> expr V) : expr V := esum (map f (zseq n)).
Fixpoint ebsum (sizes : list Z) (f : list Z -> expr V) : expr V :=
  match sizes with
  | [] => f []
  | n :: sizes => ezsum n (fun i => ebsum sizes (fun l => f (i :: l)))
  end.
(** [lax.conv_general_dilated]. *)
Definition elax_conv (lhs rhs : list Z) (dn : conv_dn) (pads : list (Z * Z)) (strides dils rates : list Z) (groups : Z)
    (x w : earray) (idx : list Z) : expr V :=
  match read_spec (out_spec dn) idx, read_spec (lhs_spec dn) lhs, read_spec (rhs_spec dn) rhs with
  | b :: co :: o, _ :: _ :: ns, cout :: cin :: ks =>
      ebsum ks (fun j => ezsum cin (fun ci =>
        Mul (match taps (mk_axes ns ks strides dils rates (map fst pads)) o j with
             | Some p => x (write_spec (lhs_spec dn) (b :: (co / (cout / groups) * cin + ci)%Z :: p))
             | None => Const 0
             end) (w (write_spec (rhs_spec dn) (co :: ci :: j)))))
  | _, _, _ => Const 0
  end.
(** [w * mask] (conv.py:192-193, 564-565) and [out + b] (conv.py:204-211, 581-588). *)
Definition emasked (w : earray) (mask : option (list Z -> R)) : earray := match mask with None => w | Some m => fun i => Mul (w i) (Const (m i)) end.
Definition ebiased (out : expr V) (bias : option earray) (i : list Z) : expr V := match bias with None => out | Some b => Add out (b i) end.
(** [ConvND] (conv.py:151-215) on a batch. *)
Definition econv (c : conv_nd) (shape : list Z) (w : earray) (mask : option (list Z -> R)) (bias : option earray) (x : earray) (idx : list Z) : expr V :=
  let ch := channel_of (cv_last c) shape in
  let w_shape := cv_kernel c ++ [(ch / cv_groups c)%Z; cv_out c] in
  ebiased (elax_conv shape w_shape (to_dimension_numbers (cv_spatial c) (cv_last c) false) (conv_pads c shape)
             (cv_stride c) (repeat 1%Z (cv_spatial c)) (cv_rate c) (cv_groups c) x (emasked w mask) idx)
    bias (bias_index (cv_last c) (cv_spatial c) idx).
(** [ConvNDTranspose] (conv.py:528-592) on a batch. *)
Definition econv_t (c : conv_t) (pads : list (Z * Z)) (shape : list Z) (w : earray) (mask : option (list Z -> R)) (bias : option earray) (x : earray) (idx : list Z) : expr V :=
  let w_shape := ct_kernel c ++ [ct_out c; channel_of (ct_last c) shape] in
  ebiased (elax_conv shape w_shape (to_dimension_numbers (ct_spatial c) (ct_last c) true) pads
             (repeat 1%Z (ct_spatial c)) (ct_stride c) (repeat 1%Z (ct_spatial c)) 1 x (emasked w mask) idx)
    bias (bias_index (ct_last c) (ct_spatial c) idx).
(** [DepthwiseConv2D] (depthwise_conv.py:100-134) and [SeparableDepthwiseConv2D] (depthwise_conv.py:165-197). *)
Definition edepthwise (multiplier : Z) (kernel stride : list Z) (padding : padtype + list (Z * Z)) (last : bool) (shape : list Z)
    (w : earray) (bias : option earray) (x : earray) (idx : list Z) : expr V :=
  let ch := channel_of last shape in
  ebiased (elax_conv shape (kernel ++ [1%Z; (multiplier * ch)%Z]) (to_dimension_numbers 2 last false) (depthwise_pads kernel stride padding last shape)
             stride [1; 1]%Z [1; 1]%Z ch x w idx) bias (bias_index last 2 idx).
Definition eseparable (multiplier k0 k1 : Z) (stride : list Z) (padding : padtype + list (Z * Z)) (last : bool) (shape shape1 : list Z)
    (w1 w2 : earray) (bias : option earray) (x : earray) : earray :=
  edepthwise 1 [1%Z; k1] [1; 1]%Z padding last shape1 w2 bias (edepthwise multiplier [k0; 1%Z] stride padding last shape w1 None x).

(** [avg_pool] (pool.py:128-148). *)
Definition eavg_pool (t : padtype) (axes : list pool_axis) (x : earray) (o : list Z) : expr V :=
  Div (esum (map x (pool_window t axes o)))
    (Const (match t with PtValid => IZR (ModelShape.prod (map pa_k axes)) | PtSame => Rsum (map (fun _ => 1) (pool_window t axes o)) end)).
(** [max_pool] (pool.py:101-102): the derivative of [lax.reduce_window] with [lax.max] goes to the first of the largest entries of the window. *)
Definition emax_pool (t : padtype) (axes : list pool_axis) (x : earray) (o : list Z) : expr V :=
  Pick (fun env => argmax (map (fun i => ev env (x i)) (pool_window t axes o))) (fun k => nth k (map x (pool_window t axes o)) (Const 0)).

(** A scalar whose gradient with respect to the entry [idx] of an array over [sizes] is [ct idx]. *)
Definition weighted (sizes : list Z) (ct : list Z -> R) (y : earray) : expr V := ebsum sizes (fun idx => Mul (Const (ct idx)) (y idx)).
End Arrays.
Arguments earray : clear implicits.

(** * Values of the convolutions: conv.py:60-215, 455-592, depthwise_conv.py:49-197

    An array is a function from indices (with its shape beside it); numbers are reals. [lax.conv_general_dilated] and
    [lax.conv_transpose] are their documented meaning: sums over the window, zeros in the padding and in the holes of a dilated
    input. *)
From Coq Require Import Reals ZArith List Bool.
From Verif Require Import ModelShape ModelReal.
Import ListNotations.

(** Sums over 0..n-1, and over all the indices below given sizes. *)
Definition zseq (n : Z) : list Z := map Z.of_nat (seq 0 (Z.to_nat n)).
Definition zsum (n : Z) (f : Z -> R) : R := Rsum (map f (zseq n)).
Fixpoint bsum (sizes : list Z) (f : list Z -> R) : R :=
  match sizes with
  | [] => f []
  | n :: sizes => zsum n (fun i => bsum sizes (fun l => f (i :: l)))
  end.

(** One spatial axis of a convolution: input size, kernel size, stride, dilation of the input, dilation of the kernel, low padding. *)
Record axis := Axis { ax_n : Z; ax_k : Z; ax_stride : Z; ax_dil : Z; ax_rate : Z; ax_lo : Z }.
(** The input position that kernel element [j] meets at output position [o]; [None] in the padding and in the holes. *)
Definition axis_tap (a : axis) (o j : Z) : option Z :=
  (let p := o * ax_stride a + j * ax_rate a - ax_lo a in
   if (0 <=? p) && (p mod ax_dil a =? 0) && (p / ax_dil a <? ax_n a) then Some (p / ax_dil a) else None)%Z.
Fixpoint taps (l : list axis) (o j : list Z) : option (list Z) :=
  match l, o, j with
  | [], [], [] => Some []
  | a :: l, o :: os, j :: js =>
      match axis_tap a o j, taps l os js with
      | Some p, Some ps => Some (p :: ps)
      | _, _ => None
      end
  | _, _, _ => None
  end.
Fixpoint mk_axes (ns ks strides dils rates los : list Z) : list axis :=
  match ns, ks, strides, dils, rates, los with
  | n :: ns, k :: ks, s :: strides, d :: dils, r :: rates, lo :: los => Axis n k s d r lo :: mk_axes ns ks strides dils rates los
  | _, _, _, _, _, _ => []
  end.
(** [lax.conv_general_dilated] at index [idx] of the result: [lhs] and [rhs] are the shapes of input and kernel, read through the
    dimension numbers; the input features are divided among the groups, and so are the output features. *)
Definition lax_conv (lhs rhs : list Z) (dn : conv_dn) (pads : list (Z * Z)) (strides dils rates : list Z) (groups : Z)
    (x w : list Z -> R) (idx : list Z) : R :=
  match read_spec (out_spec dn) idx, read_spec (lhs_spec dn) lhs, read_spec (rhs_spec dn) rhs with
  | b :: co :: o, _ :: _ :: ns, cout :: cin :: ks =>
      bsum ks (fun j => zsum cin (fun ci =>
        match taps (mk_axes ns ks strides dils rates (map fst pads)) o j with
        | Some p => x (write_spec (lhs_spec dn) (b :: (co / (cout / groups) * cin + ci)%Z :: p))
        | None => 0%R
        end * w (write_spec (rhs_spec dn) (co :: ci :: j))))%R
  | _, _, _ => 0%R
  end.

(** ** [ConvND] (conv.py:151-215) *)
(** The padding that [lax] gets: a string is resolved for the sizes at hand. *)
Definition conv_pads (c : conv_nd) (shape : list Z) : list (Z * Z) :=
  match cv_padding c with
  | inl t => string_pads t (spatial_of (cv_last c) shape) (cv_kernel c) (cv_rate c) (cv_stride c)
  | inr l => l
  end.
(** Where [jnp.broadcast_to] reads the bias of shape [C] or [C, 1, ...] for an index of the result. *)
Definition bias_index (last : bool) (spatial : nat) (idx : list Z) : list Z :=
  if last then [List.last idx 0%Z] else nth 1 idx 0%Z :: repeat 0%Z spatial.
(** The layer on a batch; [mask] and [bias] are optional. *)
Definition conv_batched (c : conv_nd) (shape : list Z) (w : list Z -> R) (mask bias : option (list Z -> R)) (x : list Z -> R) (idx : list Z) : R :=
  let ch := channel_of (cv_last c) shape in
  let w_shape := cv_kernel c ++ [(ch / cv_groups c)%Z; cv_out c] in
  let w := match mask with None => w | Some m => fun i => (w i * m i)%R end in
  let out := lax_conv shape w_shape (to_dimension_numbers (cv_spatial c) (cv_last c) false) (conv_pads c shape)
               (cv_stride c) (repeat 1%Z (cv_spatial c)) (cv_rate c) (cv_groups c) x w idx in
  match bias with None => out | Some b => (out + b (bias_index (cv_last c) (cv_spatial c) idx))%R end.
(** Without a batch axis one is added and removed again (conv.py:170-172, 213-214). *)
Definition conv_values (c : conv_nd) (shape : list Z) (w : list Z -> R) (mask bias : option (list Z -> R)) (x : list Z -> R) (idx : list Z) : R :=
  if Nat.eqb (length shape) (S (cv_spatial c)) then conv_batched c (1%Z :: shape) w mask bias (fun i => x (tl i)) (0%Z :: idx)
  else conv_batched c shape w mask bias x idx.

(** ** [DepthwiseConv2D] and [SeparableDepthwiseConv2D] (depthwise_conv.py:100-134, 165-197) *)
Definition depthwise_pads (kernel stride : list Z) (padding : padtype + list (Z * Z)) (last : bool) (shape : list Z) : list (Z * Z) :=
  match padding with inl t => string_pads t (spatial_of last shape) kernel [1; 1]%Z stride | inr l => l end.
Definition depthwise_values (multiplier : Z) (kernel stride : list Z) (padding : padtype + list (Z * Z)) (last : bool) (shape : list Z)
    (w : list Z -> R) (bias : option (list Z -> R)) (x : list Z -> R) (idx : list Z) : R :=
  let ch := channel_of last shape in
  let out := lax_conv shape (kernel ++ [1%Z; (multiplier * ch)%Z]) (to_dimension_numbers 2 last false) (depthwise_pads kernel stride padding last shape)
               stride [1; 1]%Z [1; 1]%Z ch x w idx in
  match bias with None => out | Some b => (out + b (bias_index last 2 idx))%R end.
(** [shape1] is the shape of what the first convolution gives. *)
Definition separable_values (multiplier k0 k1 : Z) (stride : list Z) (padding : padtype + list (Z * Z)) (last : bool) (shape shape1 : list Z)
    (w1 w2 : list Z -> R) (bias : option (list Z -> R)) (x : list Z -> R) : list Z -> R :=
  depthwise_values 1 [1%Z; k1] [1; 1]%Z padding last shape1 w2 bias (depthwise_values multiplier [k0; 1%Z] stride padding last shape w1 None x).

(** ** [ConvNDTranspose] (conv.py:528-592) with [output_shape]: [lax.conv_transpose] with explicit padding is a convolution with stride 1
    of the input with [stride - 1] zeros between neighbours; the kernel is not flipped. *)
Record conv_t := ConvT { ct_spatial : nat; ct_out : Z; ct_kernel : list Z; ct_stride : list Z; ct_last : bool }.
Definition conv_t_batched (c : conv_t) (pads : list (Z * Z)) (shape : list Z) (w : list Z -> R) (mask bias : option (list Z -> R)) (x : list Z -> R) (idx : list Z) : R :=
  let w_shape := ct_kernel c ++ [ct_out c; channel_of (ct_last c) shape] in
  let w := match mask with None => w | Some m => fun i => (w i * m i)%R end in
  let out := lax_conv shape w_shape (to_dimension_numbers (ct_spatial c) (ct_last c) true) pads
               (repeat 1%Z (ct_spatial c)) (ct_stride c) (repeat 1%Z (ct_spatial c)) 1 x w idx in
  match bias with None => out | Some b => (out + b (bias_index (ct_last c) (ct_spatial c) idx))%R end.
Definition conv_t_values (c : conv_t) (pads : list (Z * Z)) (shape : list Z) (w : list Z -> R) (mask bias : option (list Z -> R)) (x : list Z -> R) (idx : list Z) : R :=
  if Nat.eqb (length shape) (S (ct_spatial c)) then conv_t_batched c pads (1%Z :: shape) w mask bias (fun i => x (tl i)) (0%Z :: idx)
  else conv_t_batched c pads shape w mask bias x idx.
(** The padding for a given [output_shape] (conv.py:567-573). *)
Fixpoint adjusted_pads (ins outs ks strides : list Z) (padding : padtype) : option (list (Z * Z)) :=
  match ins, outs, ks, strides with
  | i :: ins, o :: outs, k :: ks, s :: strides =>
      match compute_adjusted_padding i o k s padding 1, adjusted_pads ins outs ks strides padding with
      | Some p, Some ps => Some (p :: ps)
      | _, _ => None
      end
  | _, _, _, _ => Some []
  end.
(** jax.lax [_conv_transpose_padding]: what the strings mean without an [output_shape]; [k] is the effective kernel size. *)
Definition conv_transpose_padding (k s : Z) (t : padtype) : Z * Z :=
  (match t with
   | PtSame => let pad_len := k + s - 2 in
               let pad_a := if s >? k - 1 then k - 1 else (pad_len + 1) / 2 in (pad_a, pad_len - pad_a)
   | PtValid => let pad_len := k + s - 2 + Z.max (k - s) 0 in let pad_a := k - 1 in (pad_a, pad_len - pad_a)
   end)%Z.

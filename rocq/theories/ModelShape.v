(** Shapes and index arithmetic of the layers: pad.py, conv.py, pool.py, bias.py,
    reshape.py, basic.py (BatchApply), group_norm.py, and the parts of lax they rely on.
    Sizes are unbounded integers [Z] (Python integers; numpy's int64 overflow is not
    modelled). An exception is [None]; its kind and text are not modelled. *)
From Coq Require Import ZArith List Bool Lia.
Import ListNotations.
Local Open Scope Z_scope.

(** ** utils.py:115-130 [replicate] *)

(** A scalar or a sequence. *)
Inductive scalar_or_seq (A : Type) := Scalar (a : A) | Sequence (l : list A).
Arguments Scalar {A}. Arguments Sequence {A}.

(** [num_times] is a non-negative integer here. *)
Definition replicate {A} (element : scalar_or_seq A) (num_times : nat) : option (list A) :=
  match element with
  | Scalar a => Some (repeat a num_times)
  | Sequence [a] => Some (repeat a num_times)
  | Sequence l => if Nat.eqb (length l) num_times then Some l else None
  end.

(** ** pad.py *)

(** pad.py:29-32 [valid]. *)
Definition pad_valid (ek : Z) : Z * Z := (0, 0).
(** pad.py:35-37 [same]; [//] is floor division. *)
Definition pad_same (ek : Z) : Z * Z := ((ek - 1) / 2, ek / 2).
(** pad.py:40-42 [full]. *)
Definition pad_full (ek : Z) : Z * Z := (ek - 1, ek - 1).
(** pad.py:45-47 [causal]. *)
Definition pad_causal (ek : Z) : Z * Z := (ek - 1, 0).
(** pad.py:50-52 [reverse_causal]. *)
Definition pad_reverse_causal (ek : Z) : Z * Z := (0, ek - 1).

(** What may be passed as padding: a function, or an explicit (low, high) pair. *)
Inductive padspec := PadFn (f : Z -> Z * Z) | PadPair (lo hi : Z).

(** pad.py:84-87 [lambda x, y: x(y)]: calling a tuple raises TypeError. *)
Definition call_pad (p : padspec) (ek : Z) : option (Z * Z) :=
  match p with PadFn f => Some (f ek) | PadPair _ _ => None end.

Fixpoint all_some {A} (l : list (option A)) : option (list A) :=
  match l with
  | [] => Some []
  | None :: _ => None
  | Some a :: l => match all_some l with Some l => Some (a :: l) | None => None end
  end.

(** Python's [map] with several sequences stops at the shortest. *)
Fixpoint map2 {A B D} (f : A -> B -> D) (l : list A) (m : list B) : list D :=
  match l, m with
  | a :: l, b :: m => f a b :: map2 f l m
  | _, _ => []
  end.

(** pad.py:81 effective kernel size. *)
Definition effective (kernel rate : Z) : Z := (kernel - 1) * rate + 1.

(** pad.py:55-89 [create]. *)
Definition pad_create (padding : scalar_or_seq padspec) (kernel rate : scalar_or_seq Z) (n : nat)
    : option (list (Z * Z)) :=
  match replicate kernel n, replicate rate n, replicate padding n with
  | Some ks, Some rs, Some ps => all_some (map2 call_pad ps (map2 effective ks rs))
  | _, _, _ => None
  end.

(** ** lax convolutions: sizes and windows *)

(** jax.lax: number of window positions of an [ek]-wide window moved by [stride] over
    [n] elements with [lo], [hi] padding. *)
Definition window_count (n lo hi ek stride : Z) : Z := Z.max 0 ((n + lo + hi - ek) / stride + 1).

(** jax.lax: dilation inserts [d - 1] holes between neighbours. *)
Definition dilate (n d : Z) : Z := if n =? 0 then 0 else (n - 1) * d + 1.

(** jax.lax [padtype_to_pads]. *)
Inductive padtype := PtSame | PtValid.
Definition lax_pads (t : padtype) (n ek stride : Z) : Z * Z :=
  match t with
  | PtValid => (0, 0)
  | PtSame =>
      let out := (n + stride - 1) / stride in
      let needed := Z.max 0 ((out - 1) * stride + ek - n) in
      (needed / 2, needed - needed / 2)
  end.

(** Element [i] of a line of inputs; [None] for a position in the padding. The elements
    are whole slices of the input array (all other axes), so a one-dimensional line
    stands for one spatial axis of an array of any rank. *)
Definition at_pad {A} (x : list A) (i : Z) : option A :=
  if (0 <=? i) && (i <? Z.of_nat (length x)) then nth_error x (Z.to_nat i) else None.

(** The window of output position [t]. *)
Definition window {A} (x : list A) (k : nat) (rate stride lo : Z) (t : nat) : list (option A) :=
  map (fun j => at_pad x (Z.of_nat t * stride + Z.of_nat j * rate - lo)) (seq 0 k).

(** One spatial axis of [lax.conv_general_dilated] (or [lax.reduce_window]): what is
    computed from a window is an arbitrary function [F]. *)
Definition conv1d {A B} (F : list (option A) -> B) (x : list A) (k : nat) (rate stride lo hi : Z) : list B :=
  map (fun t => F (window x k rate stride lo t))
      (seq 0 (Z.to_nat (window_count (Z.of_nat (length x)) lo hi (effective (Z.of_nat k) rate) stride))).

(** ** conv.py:45-66 [to_dimension_numbers] *)

Record conv_dn := ConvDN { lhs_spec : list nat; rhs_spec : list nat; out_spec : list nat }.
Definition to_dimension_numbers (num_spatial_dims : nat) (channels_last transpose : bool) : conv_dn :=
  let num_dims := (num_spatial_dims + 2)%nat in
  let image_dn := if channels_last
                  then 0%nat :: (num_dims - 1)%nat :: seq 1 (num_dims - 2)
                  else 0%nat :: 1%nat :: seq 2 (num_dims - 2) in
  let kernel_dn := if transpose
                   then (num_dims - 2)%nat :: (num_dims - 1)%nat :: seq 0 (num_dims - 2)
                   else (num_dims - 1)%nat :: (num_dims - 2)%nat :: seq 0 (num_dims - 2) in
  ConvDN image_dn kernel_dn image_dn.

(** jax.lax: reading a shape through a specification ([shape[d] for d in spec]) and
    building a shape from one ([permute] in reverse). *)
Definition read_spec (spec : list nat) (shape : list Z) : list Z := map (fun d => nth d shape 0) spec.
Fixpoint index_of (d : nat) (spec : list nat) : nat :=
  match spec with [] => O | e :: spec => if Nat.eqb e d then O else S (index_of d spec) end.
Definition write_spec (spec : list nat) (vals : list Z) : list Z :=
  map (fun d => nth (index_of d spec) vals 0) (seq 0 (length spec)).

(** jax.lax [conv_general_dilated_shape_rule], with [lhs_dilation] and padding given as
    pairs per spatial axis: batch and feature sizes, then one [window_count] per axis.
    Rejected unless input features = kernel input features * groups and output features
    divisible by groups. *)
Fixpoint out_sizes (ns : list Z) (pads : list (Z * Z)) (ks rates strides : list Z) : list Z :=
  match ns, pads, ks, rates, strides with
  | n :: ns, (lo, hi) :: pads, k :: ks, r :: rates, s :: strides =>
      window_count n lo hi (effective k r) s :: out_sizes ns pads ks rates strides
  | _, _, _, _, _ => []
  end.
Definition lax_conv_shape (lhs rhs : list Z) (dn : conv_dn) (pads : list (Z * Z))
    (strides rates : list Z) (groups : Z) : option (list Z) :=
  match read_spec (lhs_spec dn) lhs, read_spec (rhs_spec dn) rhs with
  | batch :: features :: ns, out_features :: in_features :: ks =>
      if (features =? in_features * groups) && (out_features mod groups =? 0)
      then Some (write_spec (out_spec dn) (batch :: out_features :: out_sizes ns pads ks rates strides))
      else None
  | _, _ => None
  end.

(** [jnp.broadcast_to shape target]: shapes aligned at the right. *)
Fixpoint broadcast_rev (s t : list Z) : bool :=
  match s, t with
  | [], _ => true
  | _ :: _, [] => false
  | a :: s, b :: t => ((a =? 1) || (a =? b)) && broadcast_rev s t
  end.
Definition broadcast_to (s t : list Z) : bool := broadcast_rev (rev s) (rev t).

(** conv.py:69-215 [ConvND]. Padding is a string or has been turned into pairs by
    [pad_create]; [None] if the call raises. Returns the shapes of w, b and the output. *)
Record conv_nd := ConvND {
  cv_spatial : nat; cv_out : Z; cv_kernel : list Z; cv_stride : list Z; cv_rate : list Z;
  cv_padding : padtype + list (Z * Z); cv_last : bool; cv_groups : Z }.
Definition channel_of (last : bool) (shape : list Z) : Z :=
  if last then List.last shape 0 else nth 1 shape 0.
Fixpoint string_pads (t : padtype) (ns ks rates strides : list Z) : list (Z * Z) :=
  match ns, ks, rates, strides with
  | n :: ns, k :: ks, r :: rates, s :: strides => lax_pads t n (effective k r) s :: string_pads t ns ks rates strides
  | _, _, _, _ => []
  end.
Definition spatial_of (last : bool) (shape : list Z) : list Z :=
  if last then removelast (tl shape) else tl (tl shape).
Definition conv_call (c : conv_nd) (inputs : list Z) : option (list Z * list Z * list Z) :=
  let unbatched_rank := S (cv_spatial c) in
  let rank := length inputs in
  if negb (Nat.eqb rank unbatched_rank || Nat.eqb rank (S unbatched_rank)) then None else
  let unbatched := Nat.eqb rank unbatched_rank in
  let inputs := if unbatched then 1 :: inputs else inputs in
  let ch := channel_of (cv_last c) inputs in
  if negb (ch mod cv_groups c =? 0) then None else
  let w_shape := cv_kernel c ++ [ch / cv_groups c; cv_out c] in
  let dn := to_dimension_numbers (cv_spatial c) (cv_last c) false in
  let pads := match cv_padding c with
              | inl t => string_pads t (spatial_of (cv_last c) inputs) (cv_kernel c) (cv_rate c) (cv_stride c)
              | inr l => l
              end in
  match lax_conv_shape inputs w_shape dn pads (cv_stride c) (cv_rate c) (cv_groups c) with
  | None => None
  | Some out =>
      let bias_shape := if cv_last c then [cv_out c] else cv_out c :: repeat 1 (cv_spatial c) in
      if broadcast_to bias_shape out
      then Some (w_shape, bias_shape, if unbatched then tl out else out)
      else None
  end.

(** ** Transposed convolution *)

(** conv.py:419-452 [compute_adjusted_padding]; the string [padding] other than
    "VALID", "SAME" is not representable. *)
Definition compute_adjusted_padding (input_size output_size kernel_size stride : Z) (padding : padtype) (dilation : Z)
    : option (Z * Z) :=
  let kernel_size := (kernel_size - 1) * dilation + 1 in
  let expected := match padding with
                  | PtValid => (output_size - kernel_size + stride) / stride
                  | PtSame => (output_size + stride - 1) / stride
                  end in
  if negb (input_size =? expected) then None else
  let padding_before := match padding with
                        | PtValid => 0
                        | PtSame => Z.max 0 ((input_size - 1) * stride + kernel_size - output_size) / 2
                        end in
  let expanded_input_size := (input_size - 1) * stride + 1 in
  let padded_out_size := output_size + kernel_size - 1 in
  let pad_before := kernel_size - 1 - padding_before in
  let pad_after := padded_out_size - expanded_input_size - pad_before in
  Some (pad_before, pad_after).

(** jax.lax [conv_transpose] with explicit padding: a stride-1 convolution of the
    stride-dilated input. *)
Definition conv_transpose_size (n lo hi ek stride : Z) : Z := window_count (dilate n stride) lo hi ek 1.

(** Which input elements and kernel elements an output is made of: output [o] of the
    forward convolution (padding [lo], given stride) multiplies input [i] with kernel
    element [j]; likewise for [conv_transpose]. *)
Definition conv_tap (n k stride lo i o j : Z) : Prop :=
  0 <= i < n /\ 0 <= j < k /\ o * stride + j - lo = i.
Definition conv_transpose_tap (n k stride lo i o j : Z) : Prop :=
  0 <= i < n /\ 0 <= j < k /\ o + j - lo = i * stride.

(** ** pool.py:32-50 [_infer_shape] *)

(** [x.ndim] is [ndim]; sizes are integers or sequences. *)
Definition pool_infer_shape (ndim : nat) (size : Z + list Z) (channel_axis : option Z) : option (list Z) :=
  match size with
  | inl size =>
      match channel_axis with
      | Some a =>
          if negb (a =? 0) && negb (Z.abs a <? Z.of_nat ndim) then None else
          let a := if a <? 0 then Z.of_nat ndim + a else a in
          Some (1 :: map (fun d => if Z.of_nat d =? a then 1 else size) (seq 1 (ndim - 1)))
      | None => Some (1 :: map (fun _ => size) (seq 1 (ndim - 1)))
      end
  | inr l =>
      if Nat.ltb (length l) ndim then Some (repeat 1 (ndim - length l) ++ l)
      else if Nat.eqb ndim (length l) then Some l else None
  end.

(** ** bias.py:134-181 [calculate_bias_shape] *)

(** Python list assignment and indexing with [0 <= i < len]. *)
Fixpoint set_nth {A} (i : nat) (a : A) (l : list A) : list A :=
  match i, l with
  | _, [] => []
  | O, _ :: l => a :: l
  | S i, b :: l => b :: set_nth i a l
  end.
(** bias.py:160-173: the loop over [bias_dims]. *)
Fixpoint fill_bias (input_shape : list Z) (dims : list Z) (bias_shape : list Z) : option (list Z) :=
  match dims with
  | [] => Some bias_shape
  | dim :: dims =>
      let rank := Z.of_nat (length input_shape) in
      let dim := if dim <? 0 then dim mod rank else dim in
      if dim =? 0 then None
      else if dim >=? rank then None
      else fill_bias input_shape dims (set_nth (Z.to_nat dim) (nth (Z.to_nat dim) input_shape 0) bias_shape)
  end.
(** bias.py:174-181: drop the leading ones (the first entry is never looked at). *)
Fixpoint strip_ones (l : list Z) : list Z :=
  match l with
  | [] => []
  | d :: l' => if d =? 1 then strip_ones l' else l
  end.
Definition calculate_bias_shape (input_shape : list Z) (bias_dims : option (list Z)) : option (list Z) :=
  match bias_dims with
  | None => Some (tl input_shape)
  | Some [] => Some []
  | Some dims =>
      match fill_bias input_shape dims (repeat 1 (length input_shape)) with
      | Some bias_shape => Some (strip_ones (tl bias_shape))
      | None => None
      end
  end.

(** ** Arrays: a shape and the elements in row-major order *)

Fixpoint prod (l : list Z) : Z := match l with [] => 1 | d :: l => d * prod l end.

Record arr (A : Type) := Arr { a_shape : list Z; a_data : list A }.
Arguments Arr {A}. Arguments a_shape {A}. Arguments a_data {A}.
Definition wf_arr {A} (x : arr A) : Prop :=
  Forall (fun d => 0 <= d) (a_shape x) /\ Z.of_nat (length (a_data x)) = prod (a_shape x).

(** [jnp.reshape] to a shape without wildcards: the number of elements must agree. *)
Definition np_reshape {A} (x : arr A) (shape : list Z) : option (arr A) :=
  if forallb (fun d => 0 <=? d) shape && (prod shape =? prod (a_shape x)) then Some (Arr shape (a_data x)) else None.

(** ** reshape.py:31-50 [_infer_shape]; numpy's integer division by zero gives 0. *)
Definition np_floordiv (a b : Z) : Z := if b =? 0 then 0 else a / b.
Definition infer_shape (output_shape dimensions : list Z) : list Z :=
  let n := prod dimensions in
  let m := Z.abs (prod output_shape) in
  map (fun d => if d =? -1 then np_floordiv n m else d) output_shape.

(** reshape.py:94-99 the constructor and 101-111 the call. *)
Definition reshape_init (output_shape : list Z) (preserve_dims : Z) : option (list Z * nat) :=
  if preserve_dims <=? 0 then None
  else if Nat.ltb 1 (count_occ Z.eq_dec output_shape (-1)) then None
  else Some (output_shape, Z.to_nat preserve_dims).
Definition reshape_call {A} (output_shape : list Z) (preserve_dims : nat) (x : arr A) : option (arr A) :=
  if Nat.leb (length (a_shape x)) preserve_dims then Some x else
  let reshaped_shape := if existsb (Z.eqb (-1)) output_shape
                        then infer_shape output_shape (skipn preserve_dims (a_shape x))
                        else output_shape in
  np_reshape x (firstn preserve_dims (a_shape x) ++ reshaped_shape).
(** reshape.py:114-148 [Flatten]. *)
Definition flatten_call {A} (preserve_dims : nat) (x : arr A) : option (arr A) := reshape_call [-1] preserve_dims x.

(** ** basic.py:184-264 [BatchApply] *)

(** basic.py:202-210 [merge_leading_dims], 213-215 [split_leading_dim]. *)
Definition merge_leading_dims {A} (x : arr A) (num_dims : nat) : option (arr A) :=
  if Nat.ltb (length (a_shape x)) num_dims then Some x
  else np_reshape x (prod (firstn num_dims (a_shape x)) :: skipn num_dims (a_shape x)).
Definition split_leading_dim {A} (x : arr A) (to_dim : list Z) : option (arr A) :=
  np_reshape x (to_dim ++ tl (a_shape x)).

(** basic.py:249-264: one argument and one result (a tree of arguments is handled leaf by
    leaf); [f] may raise. *)
Definition batch_apply {A B} (f : arr A -> option (arr B)) (num_dims : nat) (x : arr A) : option (arr B) :=
  if Nat.ltb (length (a_shape x)) num_dims then None else
  match merge_leading_dims x num_dims with
  | None => None
  | Some y => match f y with
              | None => None
              | Some z => split_leading_dim z (firstn num_dims (a_shape x))
              end
  end.

(** The [i]-th block of [k] elements, and the element of an array with index [ix]
    counting the leading axes only: row-major order. *)
Definition block {A} (k i : nat) (l : list A) : list A := firstn k (skipn (i * k) l).
Fixpoint flat_index (shape ix : list Z) : Z :=
  match shape, ix with
  | d :: shape, i :: ix => i * prod shape + flat_index shape ix
  | _, _ => 0
  end.
(** [x[ix]]: the sub-array at the leading index [ix]. *)
Definition sub_array {A} (x : arr A) (ix : list Z) : list A :=
  let lead := firstn (length ix) (a_shape x) in
  let size := prod (skipn (length ix) (a_shape x)) in
  block (Z.to_nat size) (Z.to_nat (flat_index lead ix)) (a_data x).

(** ** group_norm.py *)

(** numpy: axes of a reduction over an array of rank [rank]; negative axes count from
    the end, others are rejected. *)
Definition np_axes (rank : Z) (axes : list Z) : option (list Z) :=
  if forallb (fun a => (- rank <=? a) && (a <? rank)) axes
  then Some (map (fun a => if a <? 0 then a + rank else a) axes) else None.

(** group_norm.py:213-234 [_initialize]: the reduction axes of the grouped array. A slice
    has already been turned into axes. *)
Definition gn_axis (rank : Z) (channels_last : bool) (axis : list Z) : list Z :=
  if channels_last
  then map (fun a => if negb (a =? rank - 1) then a else a + 1) axis
  else map (fun a => if a =? 0 then a else a + 1) axis.
Definition gn_group_shape (channels_last : bool) (groups channels : Z) (shape : list Z) : list Z :=
  if channels_last
  then (-1) :: removelast (tl shape) ++ [groups; channels / groups]
  else (-1) :: groups :: (channels / groups) :: tl (tl shape).

(** [x.reshape(shape)] where the first entry of [shape] is -1. *)
Definition np_reshape_lead {A} (x : arr A) (rest : list Z) : option (arr A) :=
  let m := prod rest in
  if (0 <? m) && (prod (a_shape x) mod m =? 0) && forallb (fun d => 0 <=? d) rest
  then Some (Arr (prod (a_shape x) / m :: rest) (a_data x)) else None.

(** The module object after construction: not called yet, or the rank, axes, group shape
    and input shape fixed by the first call. *)
Record gn_obj := GN { gn_rank : nat; gn_axes : list Z; gn_shape : list Z; gn_first : list Z }.

(** group_norm.py:157-211 [__call__], shapes only: the result's shape, or [None] when it
    raises. The normalisation itself keeps the grouped shape; scale and offset are
    broadcast against the result, which must succeed. *)
Definition gn_call (groups : Z) (channels_last : bool) (axis : list Z) (o : option gn_obj) (shape : list Z)
    : option (list Z * gn_obj) :=
  let rank := length shape in
  if match o with Some o => negb (Nat.eqb (gn_rank o) rank) | None => false end then None else
  let channels := channel_of channels_last shape in
  if negb (channels mod groups =? 0) then None else
  let o := match o with
           | Some o => o
           | None => GN rank (gn_axis (Z.of_nat rank) channels_last axis)
                        (tl (gn_group_shape channels_last groups channels shape)) (tl shape)
           end in
  match np_reshape_lead (Arr shape (repeat tt (Z.to_nat (prod shape)))) (gn_shape o) with
  | None => None
  | Some x =>
      match np_axes (Z.of_nat (length (a_shape x))) (gn_axes o) with
      | None => None
      | Some _ =>
          match np_reshape_lead x (gn_first o) with
          | None => None
          | Some y => Some (a_shape y, o)
          end
      end
  end.

(** Index of an element of the input in the grouped array. *)
Definition gn_index (channels_last : bool) (per_group : Z) (ix : list Z) : list Z :=
  if channels_last
  then removelast ix ++ [List.last ix 0 / per_group; List.last ix 0 mod per_group]
  else match ix with
       | b :: c :: rest => b :: c / per_group :: c mod per_group :: rest
       | _ => ix
       end.
(** Two elements of an array are averaged together by a reduction over [axes] when
    their indices agree on every other axis. *)
Definition same_cell (axes : list Z) (i j : list Z) : Prop :=
  length i = length j /\
  forall a, (a < length i)%nat -> ~ In (Z.of_nat a) axes -> nth a i 0 = nth a j 0.

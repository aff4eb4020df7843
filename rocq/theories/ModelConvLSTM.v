(** * [ConvNDLSTM] (recurrent.py:317-405) *)
From Coq Require Import Reals ZArith List Bool.
From Verif Require Import ModelShape ModelReal ModelConv ModelImageNets.
Import ListNotations.

(** The constructor's arguments; [cl_kernel] with an int already expanded. *)
Record convlstm := ConvLSTM { cl_spatial : nat; cl_input_shape : list Z; cl_out : Z; cl_kernel : list Z }.
(** Both convolutions (recurrent.py:378-388): stride 1, rate 1, "SAME", channels last are the defaults of [ConvND] (conv.py:63-76). *)
Definition cl_conv (c : convlstm) : conv_nd :=
  ConvND (cl_spatial c) (4 * cl_out c)%Z (cl_kernel c) (repeat 1%Z (cl_spatial c)) (repeat 1%Z (cl_spatial c)) (inl PtSame) true 1.

(** ** Shapes *)
(** [initial_state] (recurrent.py:399-404); [add_batch] puts the batch size in front. *)
Definition cl_initial_shape (c : convlstm) (batch : option Z) : list Z :=
  let shape := cl_input_shape c ++ [cl_out c] in match batch with None => shape | Some b => b :: shape end.
(** [jnp.split(gates, 4, axis=-1)]: the shape of each part. *)
Definition split4_shape (s : list Z) : option (list Z) :=
  match rev s with l :: r => if (l mod 4 =? 0)%Z then Some (rev ((l / 4)%Z :: r)) else None | [] => None end.
(** The shapes of the new hidden and cell state (recurrent.py:390-396), with broadcasting as [jnp] does it; [None]: the call raises. *)
Definition cl_shape (c : convlstm) (input hidden cell : list Z) : option (list Z * list Z) :=
  match conv_call (cl_conv c) input, conv_call (cl_conv c) hidden with
  | Some (_, _, a), Some (_, _, b) =>
      match broadcast2 a b with
      | None => None
      | Some gates =>
          match split4_shape gates with
          | None => None
          | Some g => match broadcast2 g cell with
                      | None => None
                      | Some s => match broadcast2 g s with None => None | Some h => Some (h, s) end
                      end
          end
      end
  | _, _ => None
  end.

(** ** Values, for states of the shape of the gates *)
Record cl_weights := CLWeights { cw_x : list Z -> R; cb_x : list Z -> R; cw_h : list Z -> R; cb_h : list Z -> R }.
Definition cl_gates (c : convlstm) (w : cl_weights) (xshape hshape : list Z) (x h : list Z -> R) (idx : list Z) : R :=
  (conv_values (cl_conv c) xshape (cw_x w) None (Some (cb_x w)) x idx + conv_values (cl_conv c) hshape (cw_h w) None (Some (cb_h w)) h idx)%R.
(** Where part [k] of the split has element [idx]. *)
Definition part_index (out k : Z) (idx : list Z) : list Z := removelast idx ++ [(List.last idx 0 + k * out)%Z].
(** [__call__] (recurrent.py:373-397): the parts are input, cell, forget and output. *)
Definition cl_step (c : convlstm) (w : cl_weights) (xshape hshape : list Z) (x : list Z -> R) (state : (list Z -> R) * (list Z -> R))
    : (list Z -> R) * ((list Z -> R) * (list Z -> R)) :=
  let gates := cl_gates c w xshape hshape x (fst state) in
  let part k idx := gates (part_index (cl_out c) k idx) in
  let cell idx := (sigmoid (part 2%Z idx + 1) * snd state idx + sigmoid (part 0%Z idx) * tanh (part 1%Z idx))%R in
  let hidden idx := (sigmoid (part 3%Z idx) * tanh (cell idx))%R in
  (hidden, (hidden, cell)).
(** [hk.dynamic_unroll]/[static_unroll] of the core over a sequence of inputs. *)
Fixpoint cl_run (c : convlstm) (w : cl_weights) (xshape hshape : list Z) (xs : list (list Z -> R)) (state : (list Z -> R) * (list Z -> R))
    : list ((list Z -> R) * ((list Z -> R) * (list Z -> R))) :=
  match xs with [] => [] | x :: xs => let r := cl_step c w xshape hshape x state in r :: cl_run c w xshape hshape xs (snd r) end.

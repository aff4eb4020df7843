(** * Values of [GroupNorm] (group_norm.py:140-213), in exact arithmetic

    An array is its shape and a function from indices. The module is called with one shape; what happens with other shapes later is
    [ModelShape.gn_call]. *)
From Coq Require Import Reals ZArith List Bool.
From Verif Require Import ModelShape ModelReal ModelLayers.
Import ListNotations.

(** [x.reshape(group_shape)] (group_norm.py:199, 224-232): the channel axis becomes two, groups and channels of a group; the leading -1 is
    the size of the first axis. *)
Definition gn_grouped_shape (channels_last : bool) (groups : nat) (shape : list nat) : list nat :=
  if channels_last then removelast shape ++ [groups; (List.last shape 0 / groups)%nat]
  else match shape with n :: c :: rest => n :: groups :: (c / groups)%nat :: rest | _ => shape end.
(** The index of an entry before and after, for [pg] channels per group: row-major order is kept. *)
Definition gn_group (channels_last : bool) (pg : nat) (idx : list nat) : list nat :=
  if channels_last then removelast idx ++ [(List.last idx 0 / pg)%nat; (List.last idx 0 mod pg)%nat]
  else match idx with b :: c :: rest => b :: (c / pg)%nat :: (c mod pg)%nat :: rest | _ => idx end.
Definition gn_ungroup (channels_last : bool) (pg : nat) (g : list nat) : list nat :=
  if channels_last then let l := removelast g in removelast l ++ [(List.last l 0 * pg + List.last g 0)%nat]
  else match g with b :: q :: r :: rest => b :: (q * pg + r)%nat :: rest | _ => g end.
Definition gn_channel (channels_last : bool) (idx : list nat) : nat := if channels_last then List.last idx 0%nat else nth 1 idx 0%nat.
(** Scale and offset (group_norm.py:187-197, 205-211): a parameter of shape [C] or [C, 1, ...], an argument, or none. *)
Inductive gn_source := GParam (p : list R) | GArg (a : list nat -> R) | GNone.
Definition gn_factor (channels_last : bool) (default : R) (s : gn_source) (idx : list nat) : R :=
  match s with GParam p => nth (gn_channel channels_last idx) p 0%R | GArg a => a idx | GNone => default end.
(** [jnp.mean] and [jnp.var] with [keepdims], then the normalisation (group_norm.py:199-213); [axis] as a list; [None]: an axis is out of
    range. *)
Definition group_norm (eps : R) (channels_last : bool) (groups : nat) (axis : list Z) (shape : list nat) (scale offset : gn_source)
    (x : list nat -> R) : option (list nat -> R) :=
  let rank := Z.of_nat (length shape) in
  let pg := (gn_channel channels_last shape / groups)%nat in
  let y g := x (gn_ungroup channels_last pg g) in
  match np_axes (rank + 1) (gn_axis rank channels_last axis) with
  | None => None
  | Some axes => Some (fun idx =>
      let xs := map y (ln_cell axes (gn_grouped_shape channels_last groups shape) (gn_group channels_last pg idx)) in
      ((x idx - mean xs) * / sqrt (variance xs + eps) * gn_factor channels_last 1 scale idx + gn_factor channels_last 0 offset idx)%R)
  end.

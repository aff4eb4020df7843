(** * Initializers (haiku/_src/initializers.py), in exact arithmetic

    An array is its shape and a function from indices. Random draws are given: [draw] is the array that [jax.random.normal],
    [truncated_normal] or [uniform] (on [0, 1)) returns for the key. *)
From Coq Require Import Reals ZArith List Bool.
From Verif Require Import ModelReal ModelPool.
Import ListNotations.
Local Open Scope R_scope.

Definition nprod (l : list nat) : nat := fold_right Nat.mul 1%nat l.
(** [_compute_fans] (initializers.py:33-47). *)
Definition compute_fans (shape : list nat) : nat * nat :=
  match shape with
  | [] => (1, 1)
  | [n] => (n, n)
  | [a; b] => (a, b)
  | _ => let receptive := nprod (removelast (removelast shape)) in
         (last (removelast shape) 0 * receptive, last shape 0 * receptive)
  end%nat.

Definition array := list nat -> R.
(** [RandomNormal], [TruncatedNormal], [RandomUniform] (initializers.py:66-122); [jax.random.uniform] is the draw from [0, 1) times the
    difference plus the lower limit, cut off below at the lower limit. *)
Definition random_normal (stddev mean : R) (draw : array) : array := fun i => mean + stddev * draw i.
Definition truncated_normal (stddev mean : R) (draw : array) : array := fun i => stddev * draw i + mean.
Definition random_uniform (lo hi : R) (draw : array) : array := fun i => Rmax lo (draw i * (hi - lo) + lo).
(** [VarianceScaling] (initializers.py:125-199): mode and distribution are among the valid names. *)
Inductive vs_mode := FanIn | FanOut | FanAvg.
Inductive vs_dist := Truncated | Normal | Uniform.
Definition vs_accepts (scale : R) : Prop := ~ scale < 0.
Definition vs_n (mode : vs_mode) (shape : list nat) : R :=
  let '(fan_in, fan_out) := compute_fans shape in
  match mode with
  | FanIn => Rmax 1 (INR fan_in)
  | FanOut => Rmax 1 (INR fan_out)
  | FanAvg => Rmax 1 ((INR fan_in + INR fan_out) / 2)
  end.
Definition truncation : R := 87962566103423978 / 100000000000000000.
Definition variance_scaling (scale : R) (mode : vs_mode) (dist : vs_dist) (shape : list nat) (draw : array) : array :=
  let s := scale / vs_n mode shape in
  match dist with
  | Truncated => truncated_normal (sqrt s / truncation) 0 draw
  | Normal => random_normal (sqrt s) 0 draw
  | Uniform => let limit := sqrt (3 * s) in random_uniform (- limit) limit draw
  end.
(** [UniformScaling] (initializers.py:202-223). *)
Definition uniform_scaling (scale : R) (shape : list nat) (draw : array) : array :=
  let m := sqrt (3 / INR (nprod (removelast shape))) * scale in random_uniform (- m) m draw.

(** [Orthogonal] (initializers.py:226-267).  [q] and [r] are what [jnp.linalg.qr] returns for the draw: [q i j] with orthonormal
    columns, [r j] the diagonal of the triangular factor. *)
Definition sign (x : R) : R := if Rlt_dec 0 x then 1 else if Rlt_dec x 0 then -1 else 0.
Fixpoint ravel (shape idx : list nat) : nat :=
  match shape, idx with _ :: s, i :: l => i * nprod s + ravel s l | _, _ => 0 end%nat.
(** Python's index [axis] of a sequence of length [n]. *)
Definition norm_axis (n : nat) (axis : Z) : option nat :=
  if (- Z.of_nat n <=? axis)%Z && (axis <? Z.of_nat n)%Z then Some (Z.to_nat (if (axis <? 0)%Z then axis + Z.of_nat n else axis)%Z) else None.
Definition delete {A} (d : nat) (l : list A) : list A := firstn d l ++ skipn (S d) l.
Definition ortho_rows (shape : list nat) (d : nat) : nat := nth d shape 0%nat.
Definition ortho_cols (shape : list nat) (d : nat) : nat := (nprod shape / ortho_rows shape d)%nat.
(** The shape of the draw. *)
Definition ortho_draw_shape (shape : list nat) (d : nat) : nat * nat :=
  let rows := ortho_rows shape d in let cols := ortho_cols shape d in if (cols <? rows)%nat then (rows, cols) else (cols, rows).
Definition orthogonal (scale : R) (shape : list nat) (d : nat) (q : nat -> nat -> R) (r : nat -> R) : array :=
  let rows := ortho_rows shape d in let cols := ortho_cols shape d in
  let q' i j := q i j * sign (r j) in
  let mat i j := if (rows <? cols)%nat then q' j i else q' i j in
  (* reshape to (rows, *delete(shape)), then moveaxis(0, axis) *)
  fun idx => scale * mat (nth d idx 0%nat) (ravel (delete d shape) (delete d idx)).
(** [__call__]: at least rank 2, a valid axis. *)
Definition orthogonal_call (scale : R) (axis : Z) (shape : list nat) (q : nat -> nat -> R) (r : nat -> R) : option array :=
  if (length shape <? 2)%nat then None else option_map (fun d => orthogonal scale shape d q r) (norm_axis (length shape) axis).

(** [Identity] (initializers.py:270-291): [eye] of the last two dimensions, repeated. *)
Definition identity (gain : R) (shape : list nat) : option array :=
  if (length shape <? 2)%nat then None
  else Some (fun idx => gain * if (last (removelast idx) 0 =? last idx 0)%nat then 1 else 0).

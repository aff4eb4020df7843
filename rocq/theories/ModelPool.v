(** * pool.py:79-148: max_pool and avg_pool on arrays of any rank

    An array is its shape and a function from indices; [lax.reduce_window] pads with the neutral element, so that it combines
    the entries of the window that lie inside the array. Numbers are reals; minus infinity is [None]. *)
From Coq Require Import Reals ZArith List Bool.
From Verif Require Import ModelShape ModelReal.
Import ListNotations.

(** The positions of a window along one axis: output position [o], window size [k], [lo] padding; those outside are dropped. *)
Definition axis_window (n k stride lo o : Z) : list Z :=
  filter (fun i => (0 <=? i)%Z && (i <? n)%Z) (map (fun j => o * stride + Z.of_nat j - lo)%Z (seq 0 (Z.to_nat k))).
Fixpoint product {A} (l : list (list A)) : list (list A) :=
  match l with
  | [] => [[]]
  | xs :: l => flat_map (fun x => map (cons x) (product l)) xs
  end.
(** One entry per axis: input size, window size, stride. *)
Record pool_axis := PoolAxis { pa_n : Z; pa_k : Z; pa_s : Z }.
Definition pool_lo (t : padtype) (a : pool_axis) : Z := fst (lax_pads t (pa_n a) (pa_k a) (pa_s a)).
Definition pool_window (t : padtype) (axes : list pool_axis) (o : list Z) : list (list Z) :=
  product (map (fun p => axis_window (pa_n (fst p)) (pa_k (fst p)) (pa_s (fst p)) (pool_lo t (fst p)) (snd p)) (combine axes o)).
(** The output shape of [lax.reduce_window]. *)
Definition pool_out (t : padtype) (axes : list pool_axis) : list Z :=
  map (fun a => let p := lax_pads t (pa_n a) (pa_k a) (pa_s a) in window_count (pa_n a) (fst p) (snd p) (pa_k a) (pa_s a)) axes.
(** [avg_pool] (pool.py:128-148): with VALID the sum is divided by the window size, with SAME by the sum of ones. *)
Definition avg_pool (t : padtype) (axes : list pool_axis) (x : list Z -> R) (o : list Z) : R :=
  let pooled := Rsum (map x (pool_window t axes o)) in
  match t with
  | PtValid => pooled / IZR (ModelShape.prod (map pa_k axes))
  | PtSame => pooled / Rsum (map (fun _ => 1) (pool_window t axes o))
  end%R.
(** [max_pool] (pool.py:101-102). *)
Definition max_opt (a : option R) (b : R) : option R := match a with None => Some b | Some a => Some (Rmax a b) end.
Definition max_pool (t : padtype) (axes : list pool_axis) (x : list Z -> R) (o : list Z) : option R :=
  fold_left max_opt (map x (pool_window t axes o)) None.
(** The axes for [window_shape] and [strides] as given by the user (pool.py:100-101, 125-126; [_infer_shape] is in ModelShape). *)
Definition pool_axes (shape : list Z) (size strides : Z + list Z) (channel_axis : option Z) : option (list pool_axis) :=
  match pool_infer_shape (length shape) size channel_axis, pool_infer_shape (length shape) strides channel_axis with
  | Some ks, Some ss => Some (map (fun p => PoolAxis (fst p) (fst (snd p)) (snd (snd p))) (combine shape (combine ks ss)))
  | _, _ => None
  end.

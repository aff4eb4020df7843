(** * C70: initializers, in exact arithmetic *)
From Coq Require Import Reals ZArith List Bool Lia Lra Psatz PeanoNat.
From Verif Require Import ModelReal ModelPool ModelInit Properties14 Properties22 Properties23.
Import ListNotations.
Local Open Scope R_scope.

Lemma nprod_app l m : nprod (l ++ m) = (nprod l * nprod m)%nat.
Proof. unfold nprod. induction l as [|a l IH]; cbn [app fold_right]; [lia|]. rewrite IH. lia. Qed.
(** For weights of two and more axes [..., in, out]: fan_in is the number of entries per output, fan_out that per input. *)
Theorem C70_fans lead a b : let shape := lead ++ [a; b] in
  compute_fans shape = (nprod (lead ++ [a]), nprod (lead ++ [b])) /\
  (fst (compute_fans shape) * b = nprod shape)%nat /\ (snd (compute_fans shape) * a = nprod shape)%nat.
Proof.
  cbv zeta. assert (E : compute_fans (lead ++ [a; b]) = (nprod (lead ++ [a]), nprod (lead ++ [b]))).
  { assert (R1 : removelast (lead ++ [a; b]) = lead ++ [a]) by (rewrite (removelast_app lead) by discriminate; reflexivity).
    assert (R2 : removelast (lead ++ [a]) = lead) by apply removelast_last.
    assert (L1 : last (lead ++ [a; b]) 0%nat = b) by (change [a; b] with ([a] ++ [b]); rewrite app_assoc; apply last_last).
    assert (L2 : last (lead ++ [a]) 0%nat = a) by apply last_last.
    rewrite !nprod_app. cbn [nprod fold_right]. rewrite !Nat.mul_1_r.
    destruct lead as [|x lead]; [cbn; f_equal; lia|]. unfold compute_fans. destruct lead as [|y lead]; [cbn in *; f_equal; lia|].
    cbn [app] in *. cbv zeta. rewrite R1, R2, L1, L2. destruct (lead ++ [a; b]) as [|z t] eqn:Ez; [destruct lead; discriminate Ez|]. f_equal; apply Nat.mul_comm. }
  split; [exact E|]. rewrite E. cbn [fst snd]. rewrite !nprod_app. cbn [nprod fold_right]. lia.
Qed.
Print Assumptions C70_fans.

Lemma vs_n_pos mode shape : 1 <= vs_n mode shape.
Proof. unfold vs_n. destruct (compute_fans shape). destruct mode; apply Rmax_l. Qed.
(** The number that the scale is divided by, as documented, is positive for every shape, also with axes of size 0. *)
Theorem C70_n mode shape : let '(i, o) := compute_fans shape in
  vs_n mode shape = Rmax 1 (match mode with FanIn => INR i | FanOut => INR o | FanAvg => (INR i + INR o) / 2 end) /\ 1 <= vs_n mode shape.
Proof. pose proof (vs_n_pos mode shape) as H. unfold vs_n in *. destruct (compute_fans shape), mode; auto. Qed.
Print Assumptions C70_n.
Lemma uniform_bound lo hi draw i : lo <= hi -> 0 <= draw i < 1 -> lo <= random_uniform lo hi draw i <= hi.
Proof.
  intros H D. unfold random_uniform. split; [apply Rmax_l|]. apply Rmax_lub; [exact H|]. nra.
Qed.
Lemma uniform_value lo hi draw i : lo <= hi -> 0 <= draw i -> random_uniform lo hi draw i = lo + draw i * (hi - lo).
Proof. intros H D. unfold random_uniform. rewrite Rmax_right; [ring|]. nra. Qed.
(** The draws of a standard distribution are moved to the requested mean and deviation or interval; VarianceScaling accepts 0. *)
Theorem C70_draws stddev mean lo hi draw i : stddev <> 0 -> lo <= hi -> 0 <= draw i < 1 ->
  (random_normal stddev mean draw i - mean) / stddev = draw i /\ (truncated_normal stddev mean draw i - mean) / stddev = draw i /\
  lo <= random_uniform lo hi draw i <= hi /\ random_uniform lo hi draw i = (1 - draw i) * lo + draw i * hi /\
  forall scale, vs_accepts scale <-> 0 <= scale.
Proof.
  intros Hs Hl Hd. unfold random_normal, truncated_normal. split; [now field|]. split; [now field|]. split; [now apply uniform_bound|].
  split; [rewrite uniform_value by lra; ring|]. intros scale. unfold vs_accepts. split; lra.
Qed.
Print Assumptions C70_draws.
(** All values of VarianceScaling are within the documented limits; the standard deviation given to the normal distribution is sqrt(scale/n). *)
Theorem C70_variance_scaling scale mode shape draw i : vs_accepts scale ->
  let s := scale / vs_n mode shape in
  variance_scaling scale mode Normal shape draw i = sqrt s * draw i /\
  (Rabs (draw i) <= 2 -> Rabs (variance_scaling scale mode Truncated shape draw i) <= 2 * sqrt s / truncation) /\
  (0 <= draw i < 1 -> Rabs (variance_scaling scale mode Uniform shape draw i) <= sqrt (3 * s) /\
                       variance_scaling scale mode Uniform shape draw i = sqrt (3 * s) * (2 * draw i - 1)).
Proof.
  intros Ha. cbv zeta. set (s := scale / vs_n mode shape). pose proof (vs_n_pos mode shape) as Hn.
  assert (Ht : 0 < truncation) by (unfold truncation; lra). unfold variance_scaling. fold s.
  split; [unfold random_normal; ring|]. split.
  - intros D. unfold truncated_normal. rewrite Rplus_0_r, Rabs_mult. pose proof (sqrt_pos s) as P.
    assert (P' : 0 <= sqrt s / truncation) by (apply Rmult_le_pos; [exact P | left; now apply Rinv_0_lt_compat]). rewrite Rabs_pos_eq by exact P'.
    replace (2 * sqrt s / truncation) with (sqrt s / truncation * 2) by (field; lra). now apply Rmult_le_compat_l.
  - intros D. pose proof (sqrt_pos (3 * s)) as P. split.
    + apply Rabs_le. apply uniform_bound; [lra | exact D].
    + rewrite uniform_value by lra. ring.
Qed.
Print Assumptions C70_variance_scaling.
(** UniformScaling(s) is VarianceScaling(s^2, "fan_in", "uniform") for weights of rank two and more. *)
Theorem C70_uniform_scaling scale lead a b draw i : 0 <= scale -> let shape := lead ++ [a; b] in (0 < nprod (lead ++ [a]))%nat ->
  uniform_scaling scale shape draw i = variance_scaling (scale * scale) FanIn Uniform shape draw i.
Proof.
  intros Hs. cbv zeta. intros Hp. unfold uniform_scaling, variance_scaling, vs_n. destruct (C70_fans lead a b) as [E _]. cbv zeta in E. rewrite E.
  assert (R1 : removelast (lead ++ [a; b]) = lead ++ [a]) by (rewrite (removelast_app lead) by discriminate; reflexivity). rewrite R1.
  assert (N : 1 <= INR (nprod (lead ++ [a]))) by (replace 1 with (INR 1) by reflexivity; apply le_INR; lia). rewrite Rmax_right by exact N. set (n := INR _) in *.
  assert (Q : sqrt (3 / n) * scale = sqrt (3 * (scale * scale / n))).
  { replace (3 * (scale * scale / n)) with (3 / n * (scale * scale)) by (field; lra). rewrite sqrt_mult; [now rewrite sqrt_square by exact Hs | | nra].
    apply Rmult_le_pos; [lra | left; apply Rinv_0_lt_compat; lra]. }
  now rewrite Q.
Qed.
Print Assumptions C70_uniform_scaling.
(** Not for vectors. *)
Theorem C70_uniform_scaling_refuted : ~ (forall scale shape draw i, 0 <= scale -> (0 < nprod shape)%nat ->
  uniform_scaling scale shape draw i = variance_scaling (scale * scale) FanIn Uniform shape draw i).
Proof.
  intros H. specialize (H 1 [4]%nat (fun _ => 1) [0]%nat ltac:(lra) ltac:(cbn; lia)). revert H.
  unfold uniform_scaling, variance_scaling, vs_n. cbn [compute_fans removelast nprod fold_right].
  rewrite !uniform_value by (try apply Rge_le, Rle_ge; pose proof (sqrt_pos (3 / INR 1)); pose proof (sqrt_pos (3 * (1 * 1 / Rmax 1 (INR 4)))); lra).
  rewrite (Rmax_right 1 (INR 4)) by (cbn; lra). replace (3 / INR 1) with (2 * 2 * (3 / 4)) by (cbn; field).
  replace (3 * (1 * 1 / INR 4)) with (3 / 4) by (cbn; field). rewrite sqrt_mult, sqrt_square by lra. pose proof (sqrt_lt_R0 (3 / 4) ltac:(lra)). lra.
Qed.
Print Assumptions C70_uniform_scaling_refuted.

(** ** Orthogonal *)
Definition rsum {A} (l : list A) (f : A -> R) : R := Rsum (map f l).
Definition upto (n : nat) (f : nat -> R) : R := rsum (seq 0 n) f.
Definition delta (i j : nat) : R := if (i =? j)%nat then 1 else 0.
(** The m x k matrix [q] has orthonormal columns. *)
Definition ortho_columns (m k : nat) (q : nat -> nat -> R) : Prop := forall a b, (a < k)%nat -> (b < k)%nat -> upto m (fun i => q i a * q i b) = delta a b.
Lemma rsum_ext {A} (l : list A) f g : (forall x, In x l -> f x = g x) -> rsum l f = rsum l g.
Proof. intros H. unfold rsum. f_equal. now apply map_ext_in. Qed.
Lemma upto_ext n f g : (forall i, (i < n)%nat -> f i = g i) -> upto n f = upto n g.
Proof. intros H. apply rsum_ext. intros x Hx. apply in_seq in Hx. apply H. lia. Qed.
Lemma rsum_plus {A} (l : list A) f g : rsum l (fun x => f x + g x) = rsum l f + rsum l g. Proof. apply Rsum_plus. Qed.
Lemma rsum_scale {A} (l : list A) c f : rsum l (fun x => c * f x) = c * rsum l f.
Proof. unfold rsum. now rewrite <- Rsum_scale, map_map. Qed.
Lemma rsum_0 {A} (l : list A) : rsum l (fun _ => 0) = 0. Proof. unfold rsum. rewrite Rsum_const. ring. Qed.
Lemma rsum_swap {A B} (l : list A) (m : list B) f : rsum l (fun x => rsum m (fun y => f x y)) = rsum m (fun y => rsum l (fun x => f x y)).
Proof.
  induction l as [|a l IH]; [unfold rsum at 1; cbn; now rewrite rsum_0|]. unfold rsum at 1. cbn [map]. rewrite Rsum_cons. fold (rsum l (fun x => rsum m (fun y => f x y))).
  rewrite IH, <- rsum_plus. reflexivity.
Qed.
Lemma upto_S n f : upto (S n) f = upto n f + f n.
Proof. unfold upto, rsum. rewrite seq_S, map_app, Rsum_app. cbn [map Nat.add]. rewrite Rsum_cons, Rsum_nil. ring. Qed.
Lemma upto_swap m k f : upto m (fun l => upto k (fun a => f l a)) = upto k (fun a => upto m (fun l => f l a)). Proof. apply rsum_swap. Qed.
Lemma upto_scale n c f : upto n (fun l => c * f l) = c * upto n f. Proof. apply rsum_scale. Qed.
Lemma upto_plus n f g : upto n (fun l => f l + g l) = upto n f + upto n g. Proof. apply rsum_plus. Qed.
Lemma upto_delta n i f : (i < n)%nat -> upto n (fun j => delta i j * f j) = f i.
Proof.
  induction n as [|n IH]; intros Hi; [lia|]. rewrite upto_S. unfold delta at 2. destruct (Nat.eqb_spec i n) as [->|N].
  - assert (E : upto n (fun j => delta n j * f j) = 0).
    { rewrite (upto_ext n _ (fun _ => 0)); [apply rsum_0|]. intros j Hj. unfold delta. destruct (Nat.eqb_spec n j); [lia | ring]. }
    rewrite E. ring.
  - rewrite IH by lia. ring.
Qed.
Lemma upto_nonneg n f : (forall i, (i < n)%nat -> 0 <= f i) -> 0 <= upto n f.
Proof. intros H. apply Rsum_nonneg, Forall_forall. intros x Hx. apply in_map_iff in Hx as (i & <- & Hi). apply in_seq in Hi. apply H. lia. Qed.
Lemma upto_zero n f : (forall i, (i < n)%nat -> 0 <= f i) -> upto n f = 0 -> forall i, (i < n)%nat -> f i = 0.
Proof.
  induction n as [|n IH]; intros H E i Hi; [lia|]. rewrite upto_S in E. assert (0 <= upto n f) by (apply upto_nonneg; intros; apply H; lia).
  assert (0 <= f n) by (apply H; lia). destruct (Nat.eq_dec i n) as [->|]; [lra|]. apply IH; [intros; apply H; lia | lra | lia].
Qed.
(** A square matrix with orthonormal columns has orthonormal rows: each row i has at most norm 1 by Bessel's inequality, and all n rows
    together have n. *)
Lemma residual m k q i : ortho_columns m k q -> (i < m)%nat ->
  upto m (fun l => square (delta i l - upto k (fun j => q i j * q l j))) = 1 - upto k (fun j => square (q i j)).
Proof.
  intros Ho Hi.
  rewrite (upto_ext m _ (fun l => (delta i l * 1 + -2 * (delta i l * upto k (fun j => q i j * q l j))) + upto k (fun j => q i j * q l j) * upto k (fun j => q i j * q l j))).
  2:{ intros l _. unfold square. assert (D : delta i l * delta i l = delta i l) by (unfold delta; destruct (i =? l)%nat; ring). nra. }
  rewrite !upto_plus, upto_scale. rewrite (upto_delta m i (fun _ => 1)) by exact Hi. rewrite (upto_delta m i (fun l => upto k (fun j => q i j * q l j))) by exact Hi.
  assert (E : upto m (fun l => upto k (fun j => q i j * q l j) * upto k (fun j => q i j * q l j)) = upto k (fun j => q i j * q i j)).
  { rewrite (upto_ext m _ (fun l => upto k (fun a => upto k (fun b => q i a * q i b * (q l a * q l b))))).
    2:{ intros l _. rewrite <- upto_scale. apply upto_ext. intros a _. rewrite Rmult_comm, <- upto_scale. apply upto_ext. intros b _. ring. }
    rewrite upto_swap. apply upto_ext. intros a Hk. rewrite upto_swap.
    rewrite (upto_ext k _ (fun b => delta a b * (q i a * q i b))); [now rewrite upto_delta by exact Hk|].
    intros b Hb. rewrite upto_scale. rewrite Ho by assumption. ring. }
  rewrite E. unfold square. ring.
Qed.
Theorem C70_square_rows n q : ortho_columns n n q -> forall a b, (a < n)%nat -> (b < n)%nat -> upto n (fun j => q a j * q b j) = delta a b.
Proof.
  intros Ho. assert (R : forall i, (i < n)%nat -> 0 <= 1 - upto n (fun j => square (q i j))).
  { intros i Hi. rewrite <- (residual n n q i Ho Hi). apply upto_nonneg. intros. apply Rle_0_sqr. }
  assert (T : upto n (fun i => 1 - upto n (fun j => square (q i j))) = 0).
  { rewrite (upto_ext n _ (fun i => 1 + -1 * upto n (fun j => square (q i j)))) by (intros; ring). unfold upto at 1. rewrite rsum_plus, rsum_scale.
    unfold upto. rewrite rsum_swap. rewrite (rsum_ext (seq 0 n) (fun y => rsum (seq 0 n) (fun x => square (q x y))) (fun _ => 1)).
    - ring.
    - intros y Hy. apply in_seq in Hy. assert (E := Ho y y ltac:(lia) ltac:(lia)). unfold delta in E. rewrite Nat.eqb_refl in E. exact E. }
  intros a b Ha Hb. pose proof (upto_zero n _ R T a Ha) as Z. cbv beta in Z. rewrite <- (residual n n q a Ho Ha) in Z.
  pose proof (upto_zero n _ (fun i _ => Rle_0_sqr _) Z b Hb) as Z2. cbv beta in Z2. apply Rsqr_0_uniq in Z2. lra.
Qed.
Print Assumptions C70_square_rows.

(** The indices of an array of a shape, in row-major order. *)
Definition indices (shape : list nat) : list (list nat) := product (map (seq 0) shape).
Lemma ravel_indices shape : map (ravel shape) (indices shape) = seq 0 (nprod shape).
Proof.
  unfold indices. induction shape as [|n s IH]; [reflexivity|]. cbn [map product nprod fold_right]. fold (nprod s).
  assert (G : forall k o, map (ravel (n :: s)) (flat_map (fun x => map (cons x) (product (map (seq 0) s))) (seq o k)) = seq (o * nprod s) (k * nprod s)).
  { induction k as [|k IHk]; intros o; [reflexivity|]. cbn [seq flat_map]. rewrite map_app, IHk, map_map. cbn [Nat.mul]. rewrite seq_app. f_equal.
    - rewrite (map_ext (fun x => ravel (n :: s) (o :: x)) (fun x => (o * nprod s + ravel s x)%nat)) by reflexivity.
      rewrite <- (map_map (ravel s) (fun y => (o * nprod s + y)%nat)), IH. generalize (o * nprod s)%nat. intros c. clear.
      generalize (nprod s). intros m. rewrite <- (Nat.add_0_r c) at 1. generalize 0%nat. induction m as [|m IHm]; intros z; [reflexivity|]. cbn [seq map]. f_equal.
      rewrite IHm. now replace (c + S z)%nat with (S (c + z))%nat by lia.
    - f_equal. cbn [Nat.mul]. lia. }
  apply (G n 0%nat).
Qed.
Lemma sum_indices shape f : rsum (indices shape) (fun i => f (ravel shape i)) = upto (nprod shape) f.
Proof. unfold rsum, upto. rewrite <- (map_map (ravel shape) f), ravel_indices. reflexivity. Qed.
Lemma ravel_inj shape : forall i j, In i (indices shape) -> In j (indices shape) -> ravel shape i = ravel shape j -> i = j.
Proof.
  assert (N : NoDup (map (ravel shape) (indices shape))) by (rewrite ravel_indices; apply seq_NoDup).
  revert N. generalize (indices shape). intros l. induction l as [|x l IH]; intros N i j Hi Hj E; [destruct Hi|].
  cbn [map] in N. inversion N as [|? ? N1 N2]; subst. destruct Hi as [->|Hi], Hj as [->|Hj]; auto; exfalso; apply N1; [rewrite E | rewrite <- E]; apply in_map; assumption.
Qed.
(** An index with [a] at position [d]. *)
Definition insert (d a : nat) (l : list nat) : list nat := firstn d l ++ a :: skipn d l.
Lemma insert_nth d a l : (d <= length l)%nat -> nth d (insert d a l) 0%nat = a.
Proof. intros H. unfold insert. rewrite app_nth2; rewrite firstn_length_le by exact H; [now rewrite Nat.sub_diag | lia]. Qed.
Lemma insert_delete d a l : (d <= length l)%nat -> delete d (insert d a l) = l.
Proof.
  intros H. unfold insert, delete. rewrite firstn_app, firstn_length_le, Nat.sub_diag by exact H. cbn [firstn]. rewrite app_nil_r, firstn_firstn, Nat.min_id.
  rewrite skipn_app, firstn_length_le by exact H. rewrite skipn_all2 by (rewrite firstn_length_le by exact H; lia). replace (S d - d)%nat with 1%nat by lia. cbn [app skipn].
  apply firstn_skipn.
Qed.
Lemma delete_length {A} d (l : list A) : (d < length l)%nat -> length (delete d l) = (length l - 1)%nat.
Proof. intros H. unfold delete. rewrite app_length, firstn_length_le, skipn_length by lia. lia. Qed.
Lemma delete_prod d l : (d < length l)%nat -> (nth d l 0 * nprod (delete d l) = nprod l)%nat.
Proof.
  intros H. assert (E : l = firstn d l ++ nth d l 0%nat :: skipn (S d) l).
  { rewrite <- (firstn_skipn d l) at 1. f_equal. clear - H. revert l H. induction d as [|d IH]; intros [|x l] H; cbn [length] in H; try lia; [reflexivity|]. cbn [skipn nth]. apply IH. lia. }
  unfold delete. rewrite nprod_app. rewrite E at 4. rewrite nprod_app. cbn [nprod fold_right]. fold (nprod (skipn (S d) l)). lia.
Qed.
Lemma sign_sq x : x <> 0 -> sign x * sign x = 1.
Proof. intros H. unfold sign. destruct (Rlt_dec 0 x); [lra|]. destruct (Rlt_dec x 0); lra. Qed.
Section orthogonal.
  Context (shape : list nat) (d : nat) (q : nat -> nat -> R) (r : nat -> R) (scale : R).
  Context (Hd : (d < length shape)%nat) (Hpos : (0 < nth d shape 0)%nat).
  Let rows := ortho_rows shape d.
  Let cols := ortho_cols shape d.
  Context (Hq : ortho_columns (fst (ortho_draw_shape shape d)) (snd (ortho_draw_shape shape d)) q)
          (Hr : forall j, (j < snd (ortho_draw_shape shape d))%nat -> r j <> 0).
  Lemma cols_eq : cols = nprod (delete d shape).
  Proof. unfold cols, ortho_cols, ortho_rows. rewrite <- (delete_prod d shape Hd), Nat.mul_comm, Nat.div_mul by lia. reflexivity. Qed.
  Let mat i j := if (rows <? cols)%nat then q j i * sign (r i) else q i j * sign (r j).
  Lemma orthogonal_insert a i : length i = (length shape - 1)%nat -> orthogonal scale shape d q r (insert d a i) = scale * mat a (ravel (delete d shape) i).
  Proof. intros L. unfold orthogonal. rewrite insert_nth, insert_delete by lia. reflexivity. Qed.
  Lemma signed m k : ortho_columns m k q -> (forall j, (j < k)%nat -> r j <> 0) -> ortho_columns m k (fun i j => q i j * sign (r j)).
  Proof.
    intros Ho Hn a b Ha Hb. rewrite (upto_ext m _ (fun i => sign (r a) * sign (r b) * (q i a * q i b))) by (intros; ring). unfold upto. rewrite rsum_scale.
    fold (upto m (fun i => q i a * q i b)). rewrite Ho by assumption. unfold delta. destruct (Nat.eqb_spec a b) as [->|]; [rewrite sign_sq by auto|]; ring.
  Qed.
  Lemma index_length i : In i (indices (delete d shape)) -> length i = (length shape - 1)%nat.
  Proof. intros H. apply in_product in H. apply Forall2_len in H. rewrite map_length in H. rewrite <- H. now apply delete_length. Qed.
  Lemma mat_rows a b : (rows <= cols)%nat -> (a < rows)%nat -> (b < rows)%nat -> upto cols (fun j => mat a j * mat b j) = delta a b.
  Proof.
    intros H Ha Hb. unfold mat. unfold ortho_draw_shape in Hq, Hr. fold rows cols in Hq, Hr. destruct (Nat.ltb_spec cols rows); [lia|]. cbn [fst snd] in *.
    destruct (Nat.ltb_spec rows cols).
    - apply (signed cols rows Hq Hr a b Ha Hb).
    - assert (E : rows = cols) by lia. rewrite E in *. apply (C70_square_rows cols (fun i j => q i j * sign (r j)) (signed cols cols Hq Hr) a b Ha Hb).
  Qed.
  Lemma mat_cols i j : (cols <= rows)%nat -> (i < cols)%nat -> (j < cols)%nat -> upto rows (fun a => mat a i * mat a j) = delta i j.
  Proof.
    intros H Hi Hj. unfold mat. unfold ortho_draw_shape in Hq, Hr. fold rows cols in Hq, Hr. destruct (Nat.ltb_spec rows cols); [lia|].
    destruct (Nat.ltb_spec cols rows); cbn [fst snd] in *.
    - apply (signed rows cols Hq Hr i j Hi Hj).
    - assert (E : rows = cols) by lia. rewrite E in *. apply (signed cols cols Hq Hr i j Hi Hj).
  Qed.
  Lemma orthogonal_rows a b : (rows <= cols)%nat -> (a < rows)%nat -> (b < rows)%nat ->
    rsum (indices (delete d shape)) (fun i => orthogonal scale shape d q r (insert d a i) * orthogonal scale shape d q r (insert d b i)) = scale * scale * delta a b.
  Proof.
    intros H Ha Hb. rewrite (rsum_ext _ _ (fun i => scale * scale * (mat a (ravel (delete d shape) i) * mat b (ravel (delete d shape) i)))).
    - rewrite rsum_scale, (sum_indices (delete d shape) (fun j => mat a j * mat b j)), <- cols_eq. now rewrite mat_rows.
    - intros i Hi. rewrite !orthogonal_insert by now apply index_length. ring.
  Qed.
  Lemma orthogonal_columns i j : (cols <= rows)%nat -> In i (indices (delete d shape)) -> In j (indices (delete d shape)) ->
    upto rows (fun a => orthogonal scale shape d q r (insert d a i) * orthogonal scale shape d q r (insert d a j)) = if list_eq_dec Nat.eq_dec i j then scale * scale else 0.
  Proof.
    intros H Hi Hj. assert (B : forall i, In i (indices (delete d shape)) -> (ravel (delete d shape) i < cols)%nat).
    { intros x Hx. apply (in_map (ravel (delete d shape))) in Hx. rewrite ravel_indices, <- cols_eq in Hx. apply in_seq in Hx. lia. }
    rewrite (upto_ext rows _ (fun a => scale * scale * (mat a (ravel (delete d shape) i) * mat a (ravel (delete d shape) j)))).
    - unfold upto. rewrite rsum_scale. fold (upto rows (fun a => mat a (ravel (delete d shape) i) * mat a (ravel (delete d shape) j))). rewrite mat_cols by auto.
      unfold delta. destruct (list_eq_dec Nat.eq_dec i j) as [->|N]; [rewrite Nat.eqb_refl; ring|].
      destruct (Nat.eqb_spec (ravel (delete d shape) i) (ravel (delete d shape) j)) as [E|]; [|ring]. exfalso. apply N, (ravel_inj (delete d shape)); assumption.
    - intros a _. rewrite !orthogonal_insert by now apply index_length. ring.
  Qed.
End orthogonal.
(** [Orthogonal]: provided [qr] returned orthonormal columns and no zero on the diagonal, the slices along the axis are orthogonal and have norm
    [scale] when the axis is not longer than the other axes together; otherwise the fibres along the axis are. *)
Theorem C70_orthogonal scale axis shape q r : (2 <= length shape)%nat -> (- Z.of_nat (length shape) <= axis < Z.of_nat (length shape))%Z ->
  exists d x, norm_axis (length shape) axis = Some d /\ orthogonal_call scale axis shape q r = Some x /\
    let rows := nth d shape 0%nat in let rest := delete d shape in
    ((0 < rows)%nat -> ortho_columns (Nat.max rows (nprod rest)) (Nat.min rows (nprod rest)) q -> (forall j, (j < Nat.min rows (nprod rest))%nat -> r j <> 0) ->
      ((rows <= nprod rest)%nat -> forall a b, (a < rows)%nat -> (b < rows)%nat ->
        rsum (indices rest) (fun i => x (insert d a i) * x (insert d b i)) = scale * scale * delta a b) /\
      ((nprod rest <= rows)%nat -> forall i j, In i (indices rest) -> In j (indices rest) ->
        upto rows (fun a => x (insert d a i) * x (insert d a j)) = if list_eq_dec Nat.eq_dec i j then scale * scale else 0)).
Proof.
  intros HL Ha. unfold orthogonal_call. destruct (Nat.ltb_spec (length shape) 2); [lia|].
  assert (N : exists d, norm_axis (length shape) axis = Some d /\ (d < length shape)%nat).
  { unfold norm_axis. destruct (Z.leb_spec (- Z.of_nat (length shape)) axis), (Z.ltb_spec axis (Z.of_nat (length shape))); try lia. cbn [andb]. eexists. split; [reflexivity|].
    destruct (Z.ltb_spec axis 0); lia. }
  destruct N as (d & -> & Hd). exists d. eexists. split; [reflexivity|]. split; [reflexivity|]. cbv zeta. intros Hp Hq Hr.
  assert (E : ortho_draw_shape shape d = (Nat.max (nth d shape 0%nat) (nprod (delete d shape)), Nat.min (nth d shape 0%nat) (nprod (delete d shape)))).
  { unfold ortho_draw_shape. rewrite (cols_eq shape d Hd Hp). unfold ortho_rows. destruct (Nat.ltb_spec (nprod (delete d shape)) (nth d shape 0%nat)); f_equal; lia. }
  assert (Hq' : ortho_columns (fst (ortho_draw_shape shape d)) (snd (ortho_draw_shape shape d)) q) by (rewrite E; exact Hq).
  assert (Hr' : forall j, (j < snd (ortho_draw_shape shape d))%nat -> r j <> 0) by (rewrite E; exact Hr).
  pose proof (cols_eq shape d Hd Hp) as C. split.
  - intros H1 a b H2 H3. apply orthogonal_rows; auto. now rewrite C.
  - intros H1 i j Hi Hj. apply orthogonal_columns; auto. now rewrite C.
Qed.
Print Assumptions C70_orthogonal.
(** The documentation says that this gives orthonormal rows along the axis if the axis is the larger one: it is the other way round. *)
Theorem C70_larger_axis_refuted : ~ (forall shape d q r, (d < length shape)%nat -> (nprod (delete d shape) < nth d shape 0)%nat ->
  ortho_columns (nth d shape 0%nat) (nprod (delete d shape)) q -> (forall j, (j < nprod (delete d shape))%nat -> r j <> 0) ->
  forall a b, (a < nth d shape 0)%nat -> (b < nth d shape 0)%nat ->
  rsum (indices (delete d shape)) (fun i => orthogonal 1 shape d q r (insert d a i) * orthogonal 1 shape d q r (insert d b i)) = delta a b).
Proof.
  intros H. specialize (H [1; 2]%nat 1%nat (fun i j => if (i =? 0)%nat then 1 else 0) (fun _ => 1) ltac:(cbn; lia) ltac:(cbn; lia)).
  specialize (H ltac:(intros [|a] [|b]; cbn; intros; try lia; unfold upto, rsum, Rsum; cbn; unfold delta; cbn; ring) ltac:(intros; lra) 1%nat 1%nat ltac:(cbn; lia) ltac:(cbn; lia)).
  unfold rsum, Rsum, orthogonal, delta, delete, insert in H. cbn in H. lra.
Qed.
Print Assumptions C70_larger_axis_refuted.
(** When the triangular factor has a zero on its diagonal (a rank-deficient draw), a row is lost. *)
Theorem C70_rank_deficient_refuted : ~ (forall shape d q r, (d < length shape)%nat -> (nth d shape 0 <= nprod (delete d shape))%nat ->
  ortho_columns (nprod (delete d shape)) (nth d shape 0%nat) q -> forall a, (a < nth d shape 0)%nat ->
  rsum (indices (delete d shape)) (fun i => orthogonal 1 shape d q r (insert d a i) * orthogonal 1 shape d q r (insert d a i)) = 1).
Proof.
  intros H. specialize (H [1; 1]%nat 1%nat (fun _ _ => 1) (fun _ => 0) ltac:(cbn; lia) ltac:(cbn; lia)
    ltac:(intros [|a] [|b]; cbn; intros; try lia; unfold upto, rsum, Rsum; cbn; unfold delta; cbn; ring) 0%nat ltac:(cbn; lia)).
  unfold rsum, Rsum, orthogonal, delete, insert, sign in H. cbn in H. destruct (Rlt_dec 0 0); lra.
Qed.
Print Assumptions C70_rank_deficient_refuted.

(** ** Identity *)
(** On square matrices (in batches), multiplication with the result is multiplication with the gain. *)
Theorem C70_identity gain batch n x i : (i < n)%nat -> forall l : array, identity gain (batch ++ [n; n]) = Some l ->
  forall bi, length bi = length batch -> upto n (fun k => x k * l (bi ++ [k; i])) = gain * x i /\ upto n (fun k => l (bi ++ [i; k]) * x k) = gain * x i.
Proof.
  intros Hi l E bi _. unfold identity in E. rewrite app_length in E. cbn [length] in E. destruct (Nat.ltb_spec (length batch + 2) 2); [lia|]. injection E as <-.
  assert (R1 : forall a b, last (removelast (bi ++ [a; b])) 0%nat = a /\ last (bi ++ [a; b]) 0%nat = b).
  { intros a b. rewrite (removelast_app bi) by discriminate. cbn [removelast]. rewrite last_last. split; [reflexivity|]. change [a; b] with ([a] ++ [b]). rewrite app_assoc. apply last_last. }
  split.
  - rewrite (upto_ext n _ (fun k => delta i k * (gain * x k))); [now rewrite upto_delta by exact Hi|]. intros k _. destruct (R1 k i) as [-> ->].
    unfold delta. rewrite (Nat.eqb_sym k i). ring.
  - rewrite (upto_ext n _ (fun k => delta i k * (gain * x k))); [now rewrite upto_delta by exact Hi|]. intros k _. destruct (R1 i k) as [-> ->]. unfold delta. ring.
Qed.
Print Assumptions C70_identity.
(** Both need rank two. *)
Theorem C70_rank scale axis gain shape q r : (length shape < 2)%nat -> orthogonal_call scale axis shape q r = None /\ identity gain shape = None.
Proof. intros H. unfold orthogonal_call, identity. destruct (Nat.ltb_spec (length shape) 2); [auto | lia]. Qed.
Print Assumptions C70_rank.

Example fans_example : compute_fans [3; 3; 16; 32]%nat = (144, 288)%nat. Proof. reflexivity. Qed.
Example fans_vector : compute_fans [7]%nat = (7, 7)%nat. Proof. reflexivity. Qed.
Example draw_shape_example : ortho_draw_shape [2; 3; 4]%nat 1 = (8, 3)%nat. Proof. reflexivity. Qed.
(** A 2 x 2 rotation by a quarter turn. *)
Example ortho_example : let q i j := match i, j with O, S O => -1 | S O, O => 1 | _, _ => 0 end in
  exists x, orthogonal_call 3 (-1) [2; 2]%nat q (fun _ => -5) = Some x /\ map x (indices [2; 2]%nat) = [0; -3; 3; 0].
Proof.
  cbv zeta. eexists (orthogonal 3 [2; 2]%nat 1%nat _ _). split; [reflexivity|]. unfold orthogonal, sign. cbn. destruct (Rlt_dec 0 (-5)); [lra|]. destruct (Rlt_dec (-5) 0); [|lra].
  repeat (apply f_equal2; [ring|]). reflexivity.
Qed.
Example identity_example : option_map (fun l => map l (indices [2; 3]%nat)) (identity 5 [2; 3]%nat) = Some [5 * 1; 5 * 0; 5 * 0; 5 * 0; 5 * 1; 5 * 0].
Proof. reflexivity. Qed.

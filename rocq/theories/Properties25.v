(** * C68: LayerNorm and InstanceNorm, in exact arithmetic *)
From Coq Require Import Reals ZArith List Bool Lia Lra.
From Verif Require Import ModelReal ModelPool ModelLayers Properties14 Properties22 Properties23.
Import ListNotations.
Local Open Scope R_scope.

(** An index fits a shape. *)
Definition fits (shape idx : list nat) : Prop := Forall2 (fun n i => (i < n)%nat) shape idx.
Definition normalised (axes : list Z) (d : nat) : Prop := In (Z.of_nat d) axes.
Lemma existsb_axes axes d : existsb (Z.eqb (Z.of_nat d)) axes = true <-> normalised axes d.
Proof.
  rewrite existsb_exists. split; [intros (x & Hx & E); apply Z.eqb_eq in E; unfold normalised; now rewrite E | intros H; exists (Z.of_nat d); split; [exact H | apply Z.eqb_refl]].
Qed.
Lemma fits_nth shape idx : fits shape idx <-> length idx = length shape /\ forall d, (d < length shape)%nat -> (nth d idx 0 < nth d shape 0)%nat.
Proof.
  unfold fits. split.
  - induction 1 as [|n i s l H1 _ [IH1 IH2]]; [split; [reflexivity | cbn; lia]|]. cbn [length]. split; [now f_equal|].
    intros [|d] Hd; cbn [nth]; [exact H1 | apply IH2; lia].
  - revert idx. induction shape as [|n s IH]; intros [|i l] [HL H]; try discriminate HL; [constructor|]. constructor; [apply (H 0%nat); cbn; lia|].
    apply IH. injection HL as HL. split; [exact HL|]. intros d Hd. apply (H (S d)). cbn. lia.
Qed.
Lemma Forall2_map_seq {A} (f : nat -> list A) (z : A) : forall n s x, Forall2 (fun xs y => In y xs) (map f (seq s n)) x <->
  length x = n /\ forall d, (d < n)%nat -> In (nth d x z) (f (s + d)%nat).
Proof.
  induction n as [|n IH]; intros s x; cbn [seq map].
  - split; [intros H; inversion H; split; [reflexivity | lia] | intros [H _]; destruct x; [constructor | discriminate H]].
  - split.
    + intros H. inversion H as [|? y ? l H1 H2]; subst. apply IH in H2 as [L H2]. cbn [length]. split; [now f_equal|].
      intros [|d] Hd; cbn [nth]; [now rewrite Nat.add_0_r|]. replace (s + S d)%nat with (S s + d)%nat by lia. apply H2. lia.
    + intros [L H]. destruct x as [|y x]; [discriminate L|]. constructor; [specialize (H 0%nat ltac:(lia)); cbn [nth] in H; now rewrite Nat.add_0_r in H|].
      apply IH. injection L as L. split; [exact L|]. intros d Hd. specialize (H (S d) ltac:(lia)). cbn [nth] in H. now replace (s + S d)%nat with (S s + d)%nat in H by lia.
Qed.

(** The entries that share their statistics: those whose index differs only in the normalised axes, each of them once. *)
Theorem C68_cell axes shape idx : fits shape idx ->
  NoDup (ln_cell axes shape idx) /\
  forall i, In i (ln_cell axes shape idx) <-> fits shape i /\ forall d, (d < length shape)%nat -> ~ normalised axes d -> nth d i 0%nat = nth d idx 0%nat.
Proof.
  intros Hf. apply fits_nth in Hf as [HL Hf]. unfold ln_cell. split.
  - apply NoDup_product, Forall_forall. intros l Hl. apply in_map_iff in Hl as (d & <- & _). destruct (existsb _ axes); [apply seq_NoDup | repeat constructor; auto].
  - intros i. rewrite in_product, (Forall2_map_seq _ 0%nat), fits_nth. cbn [Nat.add]. split.
    + intros [L H]. split; [split; [exact L|]|].
      * intros d Hd. specialize (H d Hd). destruct (existsb _ axes) in H; [apply in_seq in H; lia|]. destruct H as [<-|[]]. auto.
      * intros d Hd Hn. specialize (H d Hd). destruct (existsb (Z.eqb (Z.of_nat d)) axes) eqn:E; [apply existsb_axes in E; contradiction|]. destruct H as [H|[]]. congruence.
    + intros [[L H] H']. split; [exact L|]. intros d Hd. destruct (existsb (Z.eqb (Z.of_nat d)) axes) eqn:E; [apply in_seq; specialize (H d Hd); lia|].
      left. symmetry. apply H'; [exact Hd|]. intros N. apply existsb_axes in N. congruence.
Qed.
Print Assumptions C68_cell.
Lemma cell_self axes shape idx : fits shape idx -> In idx (ln_cell axes shape idx).
Proof. intros H. apply C68_cell; [exact H|]. auto. Qed.
Lemma cell_same axes shape idx i : fits shape idx -> In i (ln_cell axes shape idx) -> ln_cell axes shape i = ln_cell axes shape idx.
Proof.
  intros Hf Hi. apply C68_cell in Hi as [_ H]; [|exact Hf]. unfold ln_cell. f_equal. apply map_ext_in. intros d Hd. apply in_seq in Hd.
  destruct (existsb (Z.eqb (Z.of_nat d)) axes) eqn:E; [reflexivity|]. f_equal. apply H; [lia|]. intros N. apply existsb_axes in N. congruence.
Qed.
Lemma cell_nonempty axes shape idx : fits shape idx -> ln_cell axes shape idx <> [].
Proof. intros H E. pose proof (cell_self axes shape idx H) as G. rewrite E in G. destruct G. Qed.

Lemma variance_nonneg xs : 0 <= variance xs.
Proof.
  destruct xs as [|a xs]; [unfold variance, mean; cbn [map Rsum fold_right length INR]; unfold Rdiv; rewrite Rmult_0_l; lra|].
  destruct (C55_variance (a :: xs) ltac:(discriminate)) as [E H]. unfold variance. now rewrite <- E.
Qed.
Lemma variance_affine a b xs : xs <> [] -> variance (map (fun x => a * x + b) xs) = square a * variance xs.
Proof.
  intros H. unfold variance. rewrite mean_affine by exact H. rewrite map_map.
  transitivity (mean (map (fun x => square a * x + 0) (map (fun x => square (x - mean xs)) xs))).
  - f_equal. rewrite map_map. apply map_ext. intros x. unfold square. ring.
  - rewrite mean_affine by (destruct xs; [congruence | discriminate]). ring.
Qed.
(** LayerNorm's variance is the one BatchNorm computes as mean of squares minus squared mean. *)
Theorem C68_variance xs : xs <> [] -> variance xs = mean (map square xs) - square (mean xs) /\ 0 <= variance xs.
Proof. intros H. split; [|apply variance_nonneg]. destruct (C55_variance xs H) as [E _]. unfold variance. rewrite <- E. reflexivity. Qed.
Print Assumptions C68_variance.

(** With scale s and offset o constant over a cell, the outputs of the cell have mean o and variance s^2 var/(var+eps). *)
Theorem C68_moments eps axes shape scale offset x idx s o : 0 < eps -> fits shape idx ->
  (forall i, In i (ln_cell axes shape idx) -> ln_factor scale i = s /\ ln_factor offset i = o) ->
  let v := variance (map x (ln_cell axes shape idx)) in
  let ys := map (layer_norm eps axes shape scale offset x) (ln_cell axes shape idx) in
  mean ys = o /\ variance ys = square s * (v / (v + eps)) /\ variance ys <= square s.
Proof.
  intros He Hf Hc. cbv zeta. set (xs := map x (ln_cell axes shape idx)). set (v := variance xs). set (a := s * / sqrt (v + eps)).
  assert (Hne : xs <> []) by (unfold xs; pose proof (cell_nonempty axes shape idx Hf) as N; destruct (ln_cell axes shape idx); [congruence | discriminate]).
  assert (E : map (layer_norm eps axes shape scale offset x) (ln_cell axes shape idx) = map (fun y => a * y + (o - a * mean xs)) xs).
  { unfold xs at 2. rewrite map_map. apply map_ext_in. intros i Hi. unfold layer_norm. rewrite (cell_same axes shape idx i Hf Hi).
    destruct (Hc i Hi) as [-> ->]. fold xs v a. ring. }
  rewrite E, mean_affine, variance_affine by exact Hne. fold v. pose proof (variance_nonneg xs) as Hv. fold v in Hv.
  assert (Q : square a = square s * / (v + eps)).
  { unfold a, square. replace (s * / sqrt (v + eps) * (s * / sqrt (v + eps))) with (s * s * (/ sqrt (v + eps) * / sqrt (v + eps))) by ring.
    rewrite <- Rinv_mult, sqrt_sqrt by lra. reflexivity. }
  split; [ring|]. split; [rewrite Q; unfold Rdiv; ring|]. rewrite Q.
  replace (square s * / (v + eps) * v) with (square s * (v / (v + eps))) by (unfold Rdiv; ring). rewrite <- (Rmult_1_r (square s)) at 2.
  apply Rmult_le_compat_l; [apply Rle_0_sqr|]. apply (Rmult_le_reg_r (v + eps)); [lra|]. unfold Rdiv. rewrite Rmult_assoc, Rinv_l by lra. lra.
Qed.
Print Assumptions C68_moments.

(** An entry is at most s sqrt(n) away from the offset, n the number of entries of the cell, whatever the inputs. *)
Lemma sq_le_sum : forall l y, In y l -> Forall (fun z => 0 <= z) l -> y <= Rsum l.
Proof.
  induction l as [|a l IH]; intros y Hy HF; [destruct Hy|]. inversion HF as [|? ? Ha HF']; subst. rewrite Rsum_cons. pose proof (Rsum_nonneg l HF').
  destruct Hy as [->|Hy]; [lra|]. specialize (IH y Hy HF'). lra.
Qed.
Theorem C68_bounded eps axes shape scale offset x idx : 0 < eps -> fits shape idx ->
  Rabs (layer_norm eps axes shape scale offset x idx - ln_factor offset idx) <=
  Rabs (ln_factor scale idx) * sqrt (INR (length (ln_cell axes shape idx))).
Proof.
  intros He Hf. unfold layer_norm. set (xs := map x (ln_cell axes shape idx)). set (n := length (ln_cell axes shape idx)).
  set (v := variance xs). pose proof (variance_nonneg xs) as Hv. fold v in Hv.
  assert (Hn : 0 < INR n) by (apply len_pos, cell_nonempty, Hf).
  assert (B : square (x idx - mean xs) <= INR n * v).
  { replace (INR n * v) with (Rsum (map (fun y => square (y - mean xs)) xs)).
    - apply sq_le_sum; [|apply Forall_forall; intros z Hz; apply in_map_iff in Hz as (y & <- & _); apply Rle_0_sqr].
      apply in_map_iff. exists (x idx). split; [reflexivity|]. apply in_map, cell_self, Hf.
    - assert (Ln : length xs = n) by apply map_length. unfold v, variance. generalize (mean xs). intros m. unfold mean. rewrite map_length, Ln. field. lra. }
  match goal with |- Rabs (?a * ?b * ?c + ?d - ?d) <= _ => replace (a * b * c + d - d) with (a * (b * c)) by ring end.
  rewrite Rabs_mult. apply Rmult_le_compat_l; [apply Rabs_pos|].
  rewrite <- (sqrt_Rsqr_abs (/ sqrt (v + eps) * (x idx - mean xs))). apply sqrt_le_1_alt. unfold Rsqr.
  replace (/ sqrt (v + eps) * (x idx - mean xs) * (/ sqrt (v + eps) * (x idx - mean xs))) with ((/ sqrt (v + eps) * / sqrt (v + eps)) * square (x idx - mean xs)) by (unfold square; ring).
  rewrite <- Rinv_mult, sqrt_sqrt by lra. apply (Rmult_le_reg_l (v + eps)); [lra|]. rewrite <- Rmult_assoc, Rinv_r by lra.
  assert (0 <= INR n * eps) by (apply Rmult_le_pos; lra). lra.
Qed.
Print Assumptions C68_bounded.

(** The output depends on the entries of the cell only. *)
Theorem C68_local eps axes shape scale offset x y idx : fits shape idx -> (forall i, In i (ln_cell axes shape idx) -> x i = y i) ->
  layer_norm eps axes shape scale offset x idx = layer_norm eps axes shape scale offset y idx.
Proof.
  intros Hf H. unfold layer_norm. rewrite (map_ext_in x y) by exact H. now rewrite (H idx) by apply cell_self, Hf.
Qed.
Print Assumptions C68_local.
(** Adding a number per cell to the inputs changes nothing; multiplying them by a positive number per cell is dividing eps by its square. *)
Theorem C68_affine eps axes shape scale offset x y idx a b : 0 < a -> 0 < eps -> fits shape idx ->
  (forall i, In i (ln_cell axes shape idx) -> y i = a * x i + b) ->
  layer_norm eps axes shape scale offset y idx = layer_norm (eps / square a) axes shape scale offset x idx.
Proof.
  intros Ha He Hf H. unfold layer_norm. rewrite (map_ext_in y (fun i => a * x i + b)) by exact H.
  rewrite <- (map_map x (fun z => a * z + b)). set (xs := map x (ln_cell axes shape idx)).
  assert (Hne : xs <> []) by (unfold xs; pose proof (cell_nonempty axes shape idx Hf) as N; destruct (ln_cell axes shape idx); [congruence | discriminate]).
  rewrite variance_affine, mean_affine by exact Hne. rewrite (H idx) by (apply cell_self, Hf). pose proof (variance_nonneg xs) as Hv. set (v := variance xs) in *.
  assert (Hs : 0 < square a) by (apply Rmult_lt_0_compat; lra).
  assert (Hq : 0 < eps / square a) by (apply Rdiv_lt_0_compat; lra).
  replace (square a * v + eps) with (square a * (v + eps / square a)) by (field; lra).
  rewrite sqrt_mult by lra. replace (sqrt (square a)) with a by (symmetry; apply sqrt_square; lra).
  assert (0 < sqrt (v + eps / square a)) by (apply sqrt_lt_R0; lra). field. split; lra.
Qed.
Print Assumptions C68_affine.

(** ** Axes *)
(** The axes used: a list counts negative numbers from the end; InstanceNorm normalises over all axes but the batch and the channels. *)
Theorem C68_axes ndim d : (d < ndim)%nat ->
  (forall l, Forall (fun a => - Z.of_nat ndim <= a < Z.of_nat ndim)%Z l ->
     (normalised (ln_axes ndim (AxList l)) d <-> In (Z.of_nat d) l \/ In (Z.of_nat d - Z.of_nat ndim)%Z l)) /\
  (normalised (ln_axes ndim (in_axis true)) d <-> d <> 0%nat /\ d <> 1%nat) /\
  (normalised (ln_axes ndim (in_axis false)) d <-> d <> 0%nat /\ d <> (ndim - 1)%nat).
Proof.
  intros Hd. unfold normalised, ln_axes, in_axis. split; [|split].
  - intros l Hl. rewrite in_map_iff. rewrite Forall_forall in Hl. split.
    + intros (a & E & Ha). destruct (Z.ltb_spec a 0); [right | left]; [replace (Z.of_nat d - Z.of_nat ndim)%Z with a by lia | rewrite <- E]; exact Ha.
    + intros [H|H]; [exists (Z.of_nat d) | exists (Z.of_nat d - Z.of_nat ndim)%Z]; (split; [|exact H]); destruct (Z.ltb_spec (Z.of_nat d) 0), (Z.ltb_spec (Z.of_nat d - Z.of_nat ndim) 0); lia.
  - rewrite in_map_iff. split; [intros (a & E & Ha); apply in_seq in Ha; lia | intros H; exists d; split; [reflexivity|]; apply in_seq; lia].
  - rewrite in_map_iff. split; [intros (a & E & Ha); apply in_seq in Ha; lia | intros H; exists d; split; [reflexivity|]; apply in_seq; lia].
Qed.
Print Assumptions C68_axes.
(** InstanceNorm: entries of other batch elements and other channels do not matter. *)
Theorem C68_instance eps first shape scale offset x y idx : (2 <= length shape)%nat -> fits shape idx ->
  let c := if first : bool then 1%nat else (length shape - 1)%nat in
  (forall i, fits shape i -> nth 0 i 0%nat = nth 0 idx 0%nat -> nth c i 0%nat = nth c idx 0%nat -> x i = y i) ->
  let axes := ln_axes (length shape) (in_axis first) in
  layer_norm eps axes shape scale offset x idx = layer_norm eps axes shape scale offset y idx.
Proof.
  intros HL Hf. cbv zeta. intros H. apply C68_local; [exact Hf|]. intros i Hi. apply C68_cell in Hi as [Hi H']; [|exact Hf].
  apply H; [exact Hi | |]; apply H'; try (destruct first; lia); intros N.
  - destruct (C68_axes (length shape) 0 ltac:(lia)) as (_ & A & B). destruct first; [apply A in N | apply B in N]; lia.
  - destruct (C68_axes (length shape) (if first then 1 else length shape - 1)%nat ltac:(destruct first; lia)) as (_ & A & B). destruct first; [apply A in N | apply B in N]; lia.
Qed.
Print Assumptions C68_instance.
(** Which combinations of creating and passing a scale (offset) are accepted. *)
Theorem C68_choose create has_init param given default :
  (ln_choose create has_init param given default = None <-> (create = false /\ has_init = true) \/ (create = true /\ given <> None)) /\
  (forall s, ln_choose create has_init param given default = Some s ->
     (create = true /\ s = LParam param) \/ (create = false /\ exists a, given = Some a /\ s = LArg a) \/ (create = false /\ given = None /\ s = LDefault default)).
Proof.
  unfold ln_choose. destruct create, has_init, given; cbn [negb andb]; split;
    try (split; [intros H; try discriminate H; auto; right; split; congruence | intros [[? ?]|[? ?]]; congruence]);
    intros s E; try discriminate E; injection E as <-; eauto 8.
Qed.
Print Assumptions C68_choose.
(** The documentation of InstanceNorm says that the scale is per channel; with channels first it is per position of the last axis. *)
Theorem C68_channel_scale_refuted : ~ (forall (first : bool) shape i j p, (2 <= length shape)%nat -> fits shape i -> fits shape j ->
  let c := if first then 1%nat else (length shape - 1)%nat in
  length p = nth 0 (ln_param_shape shape) 0%nat ->
  nth c i 0%nat = nth c j 0%nat -> ln_factor (LParam p) i = ln_factor (LParam p) j).
Proof.
  intros H. specialize (H true [1; 3; 2]%nat [0; 1; 0]%nat [0; 1; 1]%nat [5; 7] ltac:(cbn; lia)
    ltac:(repeat constructor) ltac:(repeat constructor) eq_refl eq_refl). cbn in H. lra.
Qed.
Print Assumptions C68_channel_scale_refuted.
(** With channels last it is. *)
Theorem C68_channel_scale shape i j p : (1 <= length shape)%nat -> fits shape i -> fits shape j ->
  nth (length shape - 1) i 0%nat = nth (length shape - 1) j 0%nat -> ln_factor (LParam p) i = ln_factor (LParam p) j.
Proof.
  intros HL Hi Hj E. cbn [ln_factor]. apply fits_nth in Hi as [Li _]. apply fits_nth in Hj as [Lj _].
  assert (G : forall l : list nat, length l = length shape -> last l 0%nat = nth (length shape - 1) l 0%nat).
  { intros l <-. clear. induction l as [|a l IH]; [reflexivity|]. cbn [last]. destruct l as [|b l]; [reflexivity|]. rewrite IH. cbn [length]. now rewrite !Nat.sub_succ, !Nat.sub_0_r. }
  now rewrite (G i Li), (G j Lj), E.
Qed.
Print Assumptions C68_channel_scale.
(** When there is nothing to average over the inputs are lost: InstanceNorm of a matrix of batch and channels is the offset. *)
Theorem C68_rank_2 eps first n c scale offset x idx : fits [n; c] idx ->
  layer_norm eps (ln_axes 2 (in_axis first)) [n; c] scale offset x idx = ln_factor offset idx.
Proof.
  intros Hf. assert (E : ln_cell (ln_axes 2 (in_axis first)) [n; c] idx = [idx]).
  { inversion Hf as [|? a ? l _ H1]; subst. inversion H1 as [|? b ? l' _ H2]; subst. inversion H2; subst. destruct first; reflexivity. }
  unfold layer_norm. rewrite E. cbn [map]. replace (mean [x idx]) with (x idx) by (unfold mean, Rsum; cbn; field). ring.
Qed.
Print Assumptions C68_rank_2.

(** ** Examples *)
Example ln_example : let x i := match i with [_; 0%nat] => 1 | _ => 3 end in
  layer_norm 3 (ln_axes 2 (AxList [-1]%Z)) [2; 2]%nat (LParam [2; 4]) (LDefault 5) x [1; 1]%nat = 7 /\
  layer_norm 3 (ln_axes 2 (AxList [-1]%Z)) [2; 2]%nat (LParam [2; 4]) (LDefault 5) x [1; 0]%nat = 4.
Proof.
  cbv zeta. unfold layer_norm.
  assert (E : forall k, ln_cell (ln_axes 2 (AxList [-1]%Z)) [2; 2]%nat [1%nat; k] = [[1; 0]; [1; 1]]%nat) by reflexivity.
  rewrite !E. cbn [map]. assert (M : mean [1; 3] = 2) by (unfold mean, Rsum; cbn; field).
  assert (V : variance [1; 3] = 1) by (unfold variance; cbn [map]; rewrite M; unfold mean, Rsum, square; cbn; field).
  rewrite M, V. replace (sqrt (1 + 3)) with 2 by (replace (1 + 3) with (2 * 2) by ring; rewrite sqrt_square; lra).
  cbn [ln_factor last nth]. split; field.
Qed.
Example cell_example : ln_cell (ln_axes 3 (in_axis true)) [2; 3; 2]%nat [1; 2; 0]%nat = [[1; 2; 0]; [1; 2; 1]]%nat. Proof. reflexivity. Qed.
Example cell_example_last : ln_cell (ln_axes 3 (in_axis false)) [2; 3; 2]%nat [1; 2; 0]%nat = [[1; 0; 0]; [1; 1; 0]; [1; 2; 0]]%nat. Proof. reflexivity. Qed.

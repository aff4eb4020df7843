(** * C103: gradients through SpectralNorm, BatchNorm and LayerNorm *)
From Coq Require Import Reals ZArith List Bool Lia Lra.
From Verif Require Import ModelNets ModelTransformer ModelTraining ModelReal ModelLayers ModelVqEma Properties14 Properties22 Properties26 Properties35 Properties80.
From Verif Require Import ModelGradients.
Import ListNotations.
Local Open Scope R_scope.

Lemma weigh {A} (f : A -> R) (w : list A) : forall v : list R, length v = length w -> Rsum (map (fun p => nth (fst p) v 0 * f (snd p)) (combine (seq 0 (length w)) w)) = dot v (map f w).
Proof.
  assert (G : forall (w : list A) (v a : list R), length v = length w -> Rsum (map (fun p => nth (fst p) (a ++ v) 0 * f (snd p)) (combine (seq (length a) (length w)) w)) = dot v (map f w)).
  { clear w. induction w as [|x w IH]; intros [|b v] a L; try discriminate L; [reflexivity|]. injection L as L. cbn [length seq combine map fst snd]. rewrite Rsum_cons, dot_cons.
    replace (nth (length a) (a ++ b :: v) 0) with b by (rewrite app_nth2, Nat.sub_diag by lia; reflexivity). f_equal.
    specialize (IH v (a ++ [b]) L). rewrite app_length, Nat.add_1_r, <- app_assoc in IH. exact IH. }
  intros v L. exact (G w v [] L).
Qed.

Section Spectral.
Context {V : Type}.
Implicit Types (env dir : V -> R) (w : list (list (expr V))).

Lemma sn_loop_sizes k n eps (w : list (list R)) v u : exists v' u', sn_loop (S k) n eps w v u = (Some v', u') /\ length v' = length w /\ length u' = n.
Proof.
  revert v u. induction k as [|k IH]; intros v u.
  - cbn [sn_loop]. unfold sn_step. do 2 eexists. split; [reflexivity|]. unfold l2_normalize. now rewrite !map_length, matmul_length.
  - cbn [sn_loop] in *. destruct (sn_step n eps w u) as [v1 u1]. apply (IH (Some v1) u1).
Qed.
Lemma sigma_sum (F : expr V -> R) (F0 : F (Const 0) = 0) n w (v u : list R) : length v = length w -> length u = n ->
  Rsum (map (fun j => Rsum (map (fun p => nth (fst p) v 0 * F (nth j (snd p) (Const 0))) (combine (seq 0 (length w)) w)) * nth j u 0) (seq 0 n)) = dot (matmul n v (map (map F) w)) u.
Proof.
  intros Lv Lu. rewrite dot_seq by now rewrite matmul_length. rewrite matmul_length. apply Rsum_ext. intros j J. apply in_seq in J. f_equal.
  rewrite (weigh (fun r => F (nth j r (Const 0)))) by exact Lv. unfold matmul. rewrite (seq_nth_map (fun j => dot v (column j (map (map F) w))) 0) by lia. f_equal. unfold column. rewrite map_map. apply map_ext. intros r. now rewrite <- F0, map_nth, F0.
Qed.
(** The expression has the value that the module computes. *)
Theorem C103_spectral_values env k n eps u0 w : exists u, sn_matrix (S k) n eps (vals env w) u0 = Some (u, ev env (sn_sigma (S k) n eps u0 w), vals env (sn_value (S k) n eps u0 w)).
Proof.
  unfold sn_matrix. destruct (sn_loop_sizes k n eps (vals env w) None u0) as (v & u & E & Lv & Lu). rewrite E. exists u.
  assert (S : ev env (sn_sigma (S k) n eps u0 w) = dot (matmul n v (vals env w)) u).
  { unfold vals in Lv. rewrite map_length in Lv. unfold vals. rewrite <- (sigma_sum (ev env) eq_refl n w v u Lv Lu).
    unfold sn_sigma. rewrite ev_esum, map_map. apply Rsum_ext. intros j _. cbn [ev]. rewrite ev_esum, map_map. f_equal.
    - apply Rsum_ext. intros p _. cbn [ev sn_v]. unfold power. now rewrite E.
    - cbn [ev sn_u]. unfold power. now rewrite E. }
  rewrite S. f_equal. f_equal. unfold vals, sn_value. rewrite !map_map. apply map_ext. intros r. rewrite !map_map. apply map_ext. intros a. cbn [ev]. now rewrite S.
Qed.
(** [u0] and [v0] are constants: sigma is differentiated as the bilinear form [v0 @ value @ u0.T] in [value]. *)
Theorem C103_spectral_norm env dir k n eps u0 w : let sigma := ev env (sn_sigma (S k) n eps u0 w) in
  exists v u, sn_loop (S k) n eps (vals env w) None u0 = (Some v, u) /\
  jvp env dir (sn_sigma (S k) n eps u0 w) = dot (matmul n v (map (map (jvp env dir)) w)) u /\
  (sigma <> 0 -> map (map (jvp env dir)) (sn_value (S k) n eps u0 w) =
     map (map (fun a => (jvp env dir a - ev env a / sigma * dot (matmul n v (map (map (jvp env dir)) w)) u) / sigma)) w).
Proof.
  intros sigma. destruct (sn_loop_sizes k n eps (vals env w) None u0) as (v & u & E & Lv & Lu). exists v, u. split; [exact E|].
  assert (S : jvp env dir (sn_sigma (S k) n eps u0 w) = dot (matmul n v (map (map (jvp env dir)) w)) u).
  { unfold vals in Lv. rewrite map_length in Lv. rewrite <- (sigma_sum (jvp env dir) eq_refl n w v u Lv Lu).
    unfold sn_sigma. rewrite jvp_esum, map_map. apply Rsum_ext. intros j _. cbn [jvp]. rewrite jvp_esum, map_map. cbn [jvp ev sn_u]. unfold power. rewrite E. cbn [snd]. rewrite Rmult_0_r, Rplus_0_r. f_equal.
    apply Rsum_ext. intros p _. cbn [jvp ev sn_v]. unfold power. rewrite E. cbn [fst]. ring. }
  split; [exact S|]. intros N. unfold sn_value. rewrite !map_map. apply map_ext. intros r. rewrite !map_map. apply map_ext. intros a. cbn [jvp]. rewrite S. fold sigma. field. exact N.
Qed.
(** Making all weights longer or shorter by the same factor does not change the normalised weights, and the derivative knows it - whatever the state of
    the power iteration. *)
Theorem C103_spectral_scale env dir k n eps u0 w c : ev env (sn_sigma (S k) n eps u0 w) <> 0 ->
  Forall (Forall (fun a => jvp env dir a = c * ev env a)) w -> Forall (Forall (fun a => jvp env dir a = 0)) (sn_value (S k) n eps u0 w).
Proof.
  intros N H. destruct (C103_spectral_norm env dir k n eps u0 w) as (v & u & E & Sj & D).
  assert (Sv : ev env (sn_sigma (S k) n eps u0 w) = dot (matmul n v (vals env w)) u).
  { destruct (C103_spectral_values env k n eps u0 w) as (u' & Q). unfold sn_matrix in Q. rewrite E in Q. injection Q as _ Q _. now symmetry. }
  assert (Sc : jvp env dir (sn_sigma (S k) n eps u0 w) = c * ev env (sn_sigma (S k) n eps u0 w)).
  { rewrite Sj, Sv. replace (map (map (jvp env dir)) w) with (map (map (fun a => c * a)) (vals env w)).
    - assert (M : matmul n v (map (map (fun a => c * a)) (vals env w)) = map (fun a => a * c) (matmul n v (vals env w))).
      { unfold matmul. rewrite map_map. apply map_ext. intros j. unfold column. rewrite map_map. rewrite (dot_comm v), (dot_comm v), Rmult_comm, <- dot_scale, map_map. f_equal. apply map_ext. intros r.
        rewrite <- (Rmult_0_r c) at 1. rewrite (map_nth (fun a => c * a)). ring. }
      now rewrite M, dot_scale.
    - unfold vals. rewrite map_map. apply map_ext_in. intros r R. rewrite map_map. apply map_ext_in. intros a A. rewrite Forall_forall in H. specialize (H r R). rewrite Forall_forall in H. now rewrite (H a A). }
  unfold sn_value. apply Forall_map, Forall_forall. intros r R. apply Forall_map, Forall_forall. intros a A. cbn [jvp]. rewrite Sc.
  rewrite Forall_forall in H. specialize (H r R). rewrite Forall_forall in H. rewrite (H a A). field. exact N.
Qed.
End Spectral.
Print Assumptions C103_spectral_values.
Print Assumptions C103_spectral_norm.
Print Assumptions C103_spectral_scale.

(** ** BatchNorm and LayerNorm on the entries that share their statistics *)
Section Norms.
Context {V : Type}.
Implicit Types (env dir : V -> R) (xs : list (expr V)).

(** What both compute with the mean [m] and the inverse [r] of the standard deviation. *)
Definition normalized env (eps : R) xs (x : expr V) : R := (ev env x - mean (map (ev env) xs)) / sqrt (variance (map (ev env) xs) + eps).
Lemma mean_minus {A} (f g : A -> R) l : mean (map (fun a => f a - g a) l) = mean (map f l) - mean (map g l).
Proof.
  unfold mean. rewrite !map_length. rewrite (Rsum_ext (fun a => f a - g a) (fun a => f a + -1 * g a)) by (intros; ring). rewrite Rsum_plus.
  rewrite <- (map_map g (fun x => -1 * x)), Rsum_scale. unfold Rdiv. ring.
Qed.
Lemma mean_times {A} c (f : A -> R) l : mean (map (fun a => c * f a) l) = c * mean (map f l).
Proof. unfold mean. rewrite !map_length. rewrite <- (map_map f (fun x => c * x)), Rsum_scale. unfold Rdiv. ring. Qed.
Lemma mean_plus {A} (f g : A -> R) l : mean (map (fun a => f a + g a) l) = mean (map f l) + mean (map g l).
Proof. unfold mean. rewrite !map_length, Rsum_plus. unfold Rdiv. ring. Qed.
Lemma mean_const {A} c (l : list A) : l <> [] -> mean (map (fun _ => c) l) = c.
Proof. intros N. unfold mean. rewrite map_length, Rsum_const. field. pose proof (len_pos l N). lra. Qed.
Lemma mean_ext {A} (f g : A -> R) l : (forall a, In a l -> f a = g a) -> mean (map f l) = mean (map g l).
Proof. intros H. unfold mean. rewrite !map_length. f_equal. now apply Rsum_ext. Qed.
Lemma var_moments (l : list R) : l <> [] -> variance l = mean (map square l) - square (mean l).
Proof.
  intros N. unfold variance, square. rewrite (mean_ext (fun x => (x - mean l) * (x - mean l)) (fun x => x * x - (2 * mean l * x - mean l * mean l))) by (intros; ring).
  rewrite mean_minus, mean_minus, mean_times, mean_const, map_id by exact N. ring.
Qed.

Theorem C103_batch_norm_values env eps scale offset xs : map (ev env) (batch_norm eps scale offset xs) = bn_normalize eps (ev env scale) (ev env offset) (bn_stats (map (ev env) xs)) (map (ev env) xs).
Proof.
  unfold batch_norm, bn_normalize, bn_stats. cbv zeta. rewrite !map_map. apply map_ext. intros x. cbn [ev esq rsqrt fst snd]. rewrite !ev_emean, !map_map. cbn [ev esq]. fold (square (mean (map (ev env) xs))).
  unfold square. unfold Rdiv. now rewrite Rmult_1_l.
Qed.
Theorem C103_layer_norm_values env eps scale offset xs : map (ev env) (ModelGradients.layer_norm eps scale offset xs) =
  map (fun a => ev env scale * / sqrt (variance (map (ev env) xs) + eps) * (a - mean (map (ev env) xs)) + ev env offset) (map (ev env) xs).
Proof.
  unfold ModelGradients.layer_norm, variance. cbv zeta. rewrite !map_map. apply map_ext. intros x. cbn [ev esq rsqrt]. rewrite !ev_emean, !map_map. cbn [ev esq]. rewrite !ev_emean. unfold square, Rdiv. now rewrite Rmult_1_l.
Qed.

(** In both modules an entry of the output follows its input, less the mean of the movement and less the part that only stretches the entries. *)
Definition norm_derivative env dir eps (scale offset : expr V) xs (x : expr V) : R :=
  let hat := normalized env eps xs in
  ev env scale / sqrt (variance (map (ev env) xs) + eps) *
    (jvp env dir x - mean (map (jvp env dir) xs) - hat x * mean (map (fun y => hat y * jvp env dir y) xs)) +
  jvp env dir scale * hat x + jvp env dir offset.
Lemma hat_mean env dir eps xs : xs <> [] -> 0 < variance (map (ev env) xs) + eps ->
  mean (map (fun y => normalized env eps xs y * jvp env dir y) xs) = (mean (map (fun y => ev env y * jvp env dir y) xs) - mean (map (ev env) xs) * mean (map (jvp env dir) xs)) / sqrt (variance (map (ev env) xs) + eps).
Proof.
  intros N P. unfold normalized. set (s := sqrt _). set (m := mean (map (ev env) xs)).
  rewrite (mean_ext (fun y => (ev env y - m) / s * jvp env dir y) (fun y => / s * (ev env y * jvp env dir y - m * jvp env dir y))) by (intros; unfold Rdiv; ring).
  rewrite mean_times, mean_minus, mean_times. unfold Rdiv. ring.
Qed.
Theorem C103_batch_norm env dir eps scale offset xs : xs <> [] -> 0 < variance (map (ev env) xs) + eps ->
  map (jvp env dir) (batch_norm eps scale offset xs) = map (norm_derivative env dir eps scale offset xs) xs.
Proof.
  intros N P. unfold batch_norm. cbv zeta. rewrite map_map. apply map_ext. intros x. unfold norm_derivative. cbv zeta. rewrite hat_mean by assumption.
  assert (Ns : map esq xs <> []) by (destruct xs; [congruence | discriminate]).
  assert (SQ : sqrt (variance (map (ev env) xs) + eps) * sqrt (variance (map (ev env) xs) + eps) = variance (map (ev env) xs) + eps) by (apply sqrt_sqrt; lra).
  pose proof (sqrt_lt_R0 _ P) as SP.
  cbn [jvp ev esq rsqrt]. rewrite !ev_emean, !jvp_emean, !map_map by assumption. cbn [jvp ev esq].
  assert (VE : mean (map (fun x => ev env x * ev env x) xs) - mean (map (ev env) xs) * mean (map (ev env) xs) = variance (map (ev env) xs)).
  { rewrite var_moments by (destruct xs; [congruence | discriminate]). now rewrite map_map. }
  rewrite VE.
  rewrite (mean_ext (fun x => jvp env dir x * ev env x + ev env x * jvp env dir x) (fun x => 2 * (ev env x * jvp env dir x))) by (intros; ring). rewrite mean_times.
  unfold normalized. set (s := sqrt _) in *. field. lra.
Qed.
Lemma layer_norm_derivative env dir eps scale offset xs x : xs <> [] -> 0 < variance (map (ev env) xs) + eps ->
  let m := emean xs in let var := emean (map (fun x => esq (Sub x m)) xs) in
  jvp env dir (Add (Mul (Mul scale (rsqrt (Add var (Const eps)))) (Sub x m)) offset) = norm_derivative env dir eps scale offset xs x.
Proof.
  intros N P m var. unfold norm_derivative. cbv zeta. rewrite hat_mean by assumption.
  assert (Ns : map (fun x => esq (Sub x m)) xs <> []) by (destruct xs; [congruence | discriminate]).
  assert (SQ : sqrt (variance (map (ev env) xs) + eps) * sqrt (variance (map (ev env) xs) + eps) = variance (map (ev env) xs) + eps) by (apply sqrt_sqrt; lra).
  pose proof (sqrt_lt_R0 _ P) as SP.
  assert (Em : ev env m = mean (map (ev env) xs)) by apply ev_emean.
  assert (Jm : jvp env dir m = mean (map (jvp env dir) xs)) by now apply jvp_emean.
  assert (Ev : ev env var = variance (map (ev env) xs)).
  { unfold var. rewrite ev_emean, map_map. cbn [ev esq]. rewrite Em. unfold variance. now rewrite map_map. }
  assert (Jv : jvp env dir var = 2 * (mean (map (fun y => ev env y * jvp env dir y) xs) - mean (map (ev env) xs) * mean (map (jvp env dir) xs))).
  { unfold var. rewrite jvp_emean, map_map by exact Ns. cbn [jvp ev esq]. rewrite Em, Jm. set (a := mean (map (ev env) xs)). set (b := mean (map (jvp env dir) xs)).
    rewrite (mean_ext _ (fun y => 2 * (ev env y * jvp env dir y) - (2 * a * jvp env dir y + (2 * b * ev env y - 2 * a * b)))) by (intros; ring).
    rewrite mean_minus, mean_plus, mean_minus, !mean_times, mean_const by exact N. fold a b. ring. }
  cbn [jvp ev rsqrt]. rewrite Em, Jm, Ev, Jv. unfold normalized. set (s := sqrt _) in *. field. lra.
Qed.
Theorem C103_layer_norm env dir eps scale offset xs : xs <> [] -> 0 < variance (map (ev env) xs) + eps ->
  map (jvp env dir) (ModelGradients.layer_norm eps scale offset xs) = map (norm_derivative env dir eps scale offset xs) xs.
Proof. intros N P. unfold ModelGradients.layer_norm. cbv zeta. rewrite map_map. apply map_ext. intros x. now apply layer_norm_derivative. Qed.
(** Adding the same to all entries changes nothing; with [eps] 0, neither does stretching them. *)
Theorem C103_norm_invariance env dir eps scale offset xs c x : xs <> [] -> 0 < variance (map (ev env) xs) + eps -> jvp env dir scale = 0 -> jvp env dir offset = 0 -> In x xs ->
  ((forall y, In y xs -> jvp env dir y = c) -> norm_derivative env dir eps scale offset xs x = 0) /\
  ((forall y, In y xs -> jvp env dir y = c * ev env y) -> norm_derivative env dir eps scale offset xs x =
     c * eps / (variance (map (ev env) xs) + eps) * ev env scale * normalized env eps xs x).
Proof.
  intros N P S O X. assert (SQ : sqrt (variance (map (ev env) xs) + eps) * sqrt (variance (map (ev env) xs) + eps) = variance (map (ev env) xs) + eps) by (apply sqrt_sqrt; lra).
  pose proof (sqrt_lt_R0 _ P) as SP. split; intros H; unfold norm_derivative; cbv zeta; rewrite hat_mean, S, O, (H x X) by assumption.
  - rewrite (mean_ext (jvp env dir) (fun _ => c)), mean_const by assumption. rewrite (mean_ext (fun y => ev env y * jvp env dir y) (fun y => c * ev env y)) by (intros y Y; rewrite (H y Y); ring). rewrite mean_times. unfold Rdiv. ring.
  - rewrite (mean_ext (jvp env dir) (fun y => c * ev env y)), mean_times by assumption.
    rewrite (mean_ext (fun y => ev env y * jvp env dir y) (fun y => c * (ev env y * ev env y))) by (intros y Y; rewrite (H y Y); ring). rewrite mean_times.
    assert (VE : mean (map (fun x => ev env x * ev env x) xs) = variance (map (ev env) xs) + mean (map (ev env) xs) * mean (map (ev env) xs)).
    { rewrite var_moments by (destruct xs; [congruence | discriminate]). rewrite map_map. unfold square. ring. }
    rewrite VE. unfold normalized. set (s := sqrt _) in *. set (v := variance _) in *. rewrite <- SQ. replace v with (s * s - eps) by lra. field. lra.
Qed.
(** The movements of the outputs, weighted equally or by the normalised entries: the first sum is 0 and so, with [eps] 0, is the second. *)
Theorem C103_norm_mean env dir eps scale offset xs : xs <> [] -> 0 < variance (map (ev env) xs) + eps -> jvp env dir offset = 0 ->
  mean (map (norm_derivative env dir eps scale offset xs) xs) = 0.
Proof.
  intros N P O. unfold norm_derivative. cbv zeta. rewrite O. set (k := ev env scale / _). set (a := mean (map (fun y => normalized env eps xs y * jvp env dir y) xs)). set (b := mean (map (jvp env dir) xs)).
  assert (H0 : mean (map (normalized env eps xs) xs) = 0).
  { set (s := sqrt (variance (map (ev env) xs) + eps)). set (m := mean (map (ev env) xs)). rewrite (mean_ext (normalized env eps xs) (fun x => / s * (ev env x - m))) by (intros; unfold normalized, Rdiv; fold m s; ring). rewrite mean_times, mean_minus, mean_const by exact N. fold m. ring. }
  rewrite (mean_ext _ (fun x => k * (jvp env dir x - (b + a * normalized env eps xs x)) + jvp env dir scale * normalized env eps xs x)) by (intros; ring).
  rewrite mean_plus, !mean_times, mean_minus, mean_plus, mean_times, mean_const, H0 by exact N. fold b. ring.
Qed.
(** In evaluation BatchNorm is a linear map of each entry: nothing flows from one entry to another. *)
Theorem C103_batch_norm_eval env dir eps m v scale offset xs : 0 < v + eps ->
  map (jvp env dir) (batch_norm_eval eps m v scale offset xs) = map (fun x => ev env scale / sqrt (v + eps) * jvp env dir x + jvp env dir scale * ((ev env x - m) / sqrt (v + eps)) + jvp env dir offset) xs.
Proof.
  intros P. pose proof (sqrt_lt_R0 _ P) as SP. unfold batch_norm_eval. cbv zeta. rewrite map_map. apply map_ext. intros x. cbn [jvp ev rsqrt]. field. lra.
Qed.
End Norms.
Print Assumptions C103_batch_norm_values.
Print Assumptions C103_layer_norm_values.
Print Assumptions C103_batch_norm.
Print Assumptions C103_layer_norm.
Print Assumptions C103_norm_invariance.
Print Assumptions C103_norm_mean.
Print Assumptions C103_batch_norm_eval.

(** Three entries, 1, 2 and 6, with a normalising standard deviation of 3: what one more at the first entry does to the outputs of the two modules. *)
Example C103_norm_case : let env := fun i : nat => match i with O => 1 | 1%nat => 2 | _ => 6 end in
  let dir := fun i : nat => match i with O => 1 | _ => 0 end in let xs := [Var 0%nat; Var 1%nat; Var 2%nat] in
  let expected := [2 * (2 / 3 - 4 / 27) / 3; 2 * (- (1 / 3) - 2 / 27) / 3; 2 * (- (1 / 3) + 6 / 27) / 3] in
  map (jvp env dir) (batch_norm (13 / 3) (Const 2) (Const 0) xs) = expected /\ map (jvp env dir) (ModelGradients.layer_norm (13 / 3) (Const 2) (Const 0) xs) = expected.
Proof.
  intros env dir xs expected. assert (Vr : variance (map (ev env) xs) = 14 / 3) by (unfold variance, square, mean; cbn; field).
  assert (M : mean (map (ev env) xs) = 3) by (unfold mean; cbn; field).
  assert (Sq : sqrt (variance (map (ev env) xs) + 13 / 3) = 3). { rewrite Vr. replace (14 / 3 + 13 / 3) with (3 * 3) by field. apply sqrt_square. lra. }
  assert (E : map (norm_derivative env dir (13 / 3) (Const 2) (Const 0) xs) xs = expected).
  { unfold norm_derivative, normalized. cbv zeta. rewrite Sq, M. unfold xs, expected. cbn [map ev jvp]. unfold mean. cbn [length map INR]. rewrite !Rsum_cons, !Rsum_nil. unfold env, dir.
    repeat (apply f_equal2; [field|]). reflexivity. }
  split; [rewrite C103_batch_norm | rewrite C103_layer_norm]; try exact E; try discriminate; rewrite Vr; lra.
Qed.
(** One step of the power iteration on the matrix [[3], [4]]: sigma is 5, and moving the first weight moves the normalised weights across. *)
Example C103_spectral_case : let env := fun b : bool => if b then 3 else 4 in let dir := fun b : bool => if b then 1 else 0 in let w := [[Var true]; [Var false]] in
  ev env (sn_sigma 1 1 0 [1] w) = 5 /\ vals env (sn_value 1 1 0 [1] w) = [[3 / 5]; [4 / 5]] /\
  map (map (jvp env dir)) (sn_value 1 1 0 [1] w) = [[16 / 125]; [- (12 / 125)]].
Proof.
  intros env dir w. assert (L : sn_loop 1 1 0 (vals env w) None [1] = (Some [3 / 5; 4 / 5], [1])).
  { cbn [sn_loop]. unfold sn_step, l2_normalize, matmul, norm_sq, dot, column, w, vals. cbn [map ev seq combine fst snd nth env]. rewrite !Rsum_cons, !Rsum_nil.
    replace (1 * 3 + 0) with 3 by ring. replace (1 * 4 + 0) with 4 by ring. replace (3 * 3 + (4 * 4 + 0) + 0) with (5 * 5) by ring. rewrite sqrt_square by lra.
    replace (3 * / 5 * 3 + (4 * / 5 * 4 + 0)) with 5 by field. replace (5 * 5 + 0 + 0) with (5 * 5) by ring. rewrite sqrt_square by lra. f_equal. f_equal. field. }
  assert (S : ev env (sn_sigma 1 1 0 [1] w) = 5).
  { destruct (C103_spectral_values env 0 1 0 [1] w) as (u & E). unfold sn_matrix in E. rewrite L in E. apply (f_equal (fun o => match o with Some p => snd (fst p) | None => 0 end)) in E. cbn [fst snd] in E. rewrite <- E. unfold dot, matmul, column, dot, w, vals. cbn [map ev seq combine fst snd nth env]. rewrite !Rsum_cons, !Rsum_nil. field. }
  split; [exact S|]. split.
  - unfold sn_value, vals, w. cbn [map ev]. fold w. rewrite S. reflexivity.
  - destruct (C103_spectral_norm env dir 0 1 0 [1] w) as (v & u & E & _ & D). rewrite L in E. injection E as <- <-. rewrite D by (rewrite S; lra). rewrite S. unfold w, dot, matmul, column, dot. cbn [map jvp ev seq combine fst snd nth env dir]. rewrite !Rsum_cons, !Rsum_nil.
    apply f_equal2; [|apply f_equal2; [|reflexivity]]; apply f_equal2; try reflexivity; field.
Qed.

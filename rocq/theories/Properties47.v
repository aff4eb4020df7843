(** * C90: losses and schedules of the examples *)
From Coq Require Import Reals ZArith String List Bool Lia Lra.
From Verif Require Import ModelNets ModelReal ModelLayers ModelTransformer ModelCheckpoint ModelTraining Properties14 Properties15 Properties22 Properties24 Properties25 Properties35.
Import ListNotations.
Local Open Scope R_scope.

(** ** The learning rate of the imagenet example *)
Section Schedule.
Context (init batch examples epochs warmup : R) (Hi : 0 <= init) (Hb : 0 < batch) (He : 0 < examples) (Hw : 0 <= warmup < epochs).
Definition at_epoch (e : R) : R := e * (examples / batch).
Definition base : R := init * batch / 256.
Notation lr := (lr_schedule init batch examples epochs warmup).
Lemma spe_pos : 0 < examples / batch. Proof. apply Rdiv_lt_0_compat; assumption. Qed.
Lemma base_nonneg : 0 <= base. Proof. unfold base. assert (0 <= init * batch) by (apply Rmult_le_pos; lra). lra. Qed.
Lemma warm_before : 0 <= at_epoch warmup < at_epoch epochs.
Proof. unfold at_epoch. pose proof spe_pos. split; [apply Rmult_le_pos; lra|apply Rmult_lt_compat_r; lra]. Qed.
Definition scaled (t : R) : R := Rmax (t - at_epoch warmup) 0 / (at_epoch epochs - at_epoch warmup).
Lemma scaled_range t : t <= at_epoch epochs -> 0 <= scaled t <= 1.
Proof.
  intros H. pose proof warm_before. unfold scaled. set (d := at_epoch epochs - at_epoch warmup). assert (D : 0 < d) by (unfold d; lra).
  pose proof (Rmax_r (t - at_epoch warmup) 0) as M. assert (U : Rmax (t - at_epoch warmup) 0 <= d) by (apply Rmax_lub; unfold d; lra).
  split; [apply Rmult_le_pos; [exact M|left; now apply Rinv_0_lt_compat]|]. apply (Rmult_le_reg_r d); [exact D|]. unfold Rdiv. rewrite Rmult_assoc, Rinv_l by lra. lra.
Qed.
Lemma scaled_mono s t : s <= t -> scaled s <= scaled t.
Proof.
  intros H. pose proof warm_before. unfold scaled, Rdiv. apply Rmult_le_compat_r; [left; apply Rinv_0_lt_compat; lra|]. apply Rmax_lub; [|apply Rmax_r]. eapply Rle_trans; [|apply Rmax_l]. lra.
Qed.
Lemma scaled_early t : t <= at_epoch warmup -> scaled t = 0.
Proof. intros H. unfold scaled. rewrite Rmax_right by lra. unfold Rdiv. ring. Qed.
Lemma scaled_strict s t : at_epoch warmup <= s -> s < t -> scaled s < scaled t.
Proof. intros H L. pose proof warm_before. unfold scaled, Rdiv. rewrite !Rmax_left by lra. apply Rmult_lt_compat_r; [apply Rinv_0_lt_compat; lra|lra]. Qed.
Lemma scaled_end : scaled (at_epoch epochs) = 1.
Proof. pose proof warm_before. unfold scaled. rewrite Rmax_left by lra. unfold Rdiv. apply Rinv_r. lra. Qed.
Definition decay (t : R) : R := 1 / 2 * (1 + cos (PI * scaled t)).
Lemma decay_range t : 0 <= decay t <= 1.
Proof. unfold decay. pose proof (COS_bound (PI * scaled t)). lra. Qed.
Lemma decay_mono s t : s <= t -> t <= at_epoch epochs -> decay t <= decay s.
Proof.
  intros H L. unfold decay. pose proof PI_RGT_0 as P. pose proof (scaled_range s ltac:(lra)) as A. pose proof (scaled_range t L) as B. pose proof (scaled_mono s t H) as M.
  assert (C : cos (PI * scaled t) <= cos (PI * scaled s)) by (apply cos_decr_1; try (apply Rmult_le_pos; lra); try (rewrite <- (Rmult_1_r PI) at 2; apply Rmult_le_compat_l; lra); apply Rmult_le_compat_l; lra). lra.
Qed.
Lemma decay_early t : t <= at_epoch warmup -> decay t = 1.
Proof. intros H. unfold decay. rewrite scaled_early by exact H. rewrite Rmult_0_r, cos_0. lra. Qed.
Lemma decay_pos t : t < at_epoch epochs -> 0 < decay t.
Proof.
  intros H. pose proof PI_RGT_0 as P. pose proof (scaled_range t ltac:(lra)) as A. assert (L : scaled t < 1). { destruct (Rle_or_lt t (at_epoch warmup)) as [E|E]; [rewrite scaled_early by exact E; lra|]. rewrite <- scaled_end. apply scaled_strict; lra. }
  assert (C : cos PI < cos (PI * scaled t)) by (apply cos_decreasing_1; try lra; try (apply Rmult_le_pos; lra); try (rewrite <- (Rmult_1_r PI) at 2; first [apply Rmult_le_compat_l|apply Rmult_lt_compat_l]; lra)). rewrite cos_PI in C. unfold decay. lra.
Qed.
Lemma lr_eq t : lr t = base * decay t * (if Req_EM_T warmup 0 then 1 else Rmin (t / at_epoch warmup) 1).
Proof.
  unfold lr_schedule. fold (at_epoch warmup). fold (at_epoch epochs). fold base. fold (scaled t). fold (decay t). pose proof spe_pos as S. destruct (Req_EM_T (at_epoch warmup) 0) as [E|E], (Req_EM_T warmup 0) as [E'|E'].
  - ring.
  - exfalso. unfold at_epoch in E. apply Rmult_integral in E as [E|E]; lra.
  - exfalso. apply E. rewrite E'. unfold at_epoch. ring.
  - reflexivity.
Qed.
Lemma ramp_range t : 0 <= t -> warmup <> 0 -> 0 <= Rmin (t / at_epoch warmup) 1 <= 1.
Proof.
  intros H N. pose proof spe_pos. assert (0 < at_epoch warmup) by (unfold at_epoch; apply Rmult_lt_0_compat; lra). split; [apply Rmin_glb; [apply Rmult_le_pos; [exact H|left; now apply Rinv_0_lt_compat]|lra]|apply Rmin_r].
Qed.
(** The learning rate lies between 0 and the base rate; it rises linearly during the warmup, is the base rate at its end, decreases from then on, and
    reaches 0 at the end of the training. *)
Theorem C90_schedule s t : 0 <= s <= t -> t <= at_epoch epochs ->
  0 <= lr t <= base /\ (0 < warmup -> t <= at_epoch warmup -> lr t = base * (t / at_epoch warmup)) /\ (at_epoch warmup <= s -> lr t <= lr s) /\ lr (at_epoch warmup) = base /\ lr (at_epoch epochs) = 0.
Proof.
  intros [H1 H2] H3. pose proof base_nonneg as B. pose proof warm_before as W. pose proof spe_pos as S. assert (WP : warmup <> 0 -> 0 < at_epoch warmup) by (intros N; unfold at_epoch; apply Rmult_lt_0_compat; lra).
  assert (ONE : at_epoch warmup <= t -> warmup <> 0 -> Rmin (t / at_epoch warmup) 1 = 1).
  { intros H N. apply Rmin_right. apply (Rmult_le_reg_r (at_epoch warmup)); [now apply WP|]. specialize (WP N). unfold Rdiv. rewrite Rmult_assoc, Rinv_l by lra. lra. }
  assert (F : forall r, 0 <= r <= 1 -> 0 <= base * decay t * r <= base).
  { intros r R. pose proof (decay_range t) as D. assert (0 <= decay t * r <= 1). { split; [apply Rmult_le_pos; lra|]. rewrite <- (Rmult_1_r 1). apply Rmult_le_compat; lra. }
    rewrite Rmult_assoc. split; [apply Rmult_le_pos; lra|]. rewrite <- (Rmult_1_r base) at 2. apply Rmult_le_compat_l; lra. }
  split; [|split; [|split; [|split]]].
  - rewrite lr_eq. destruct (Req_EM_T warmup 0) as [E|E]; [apply F; lra|apply F, ramp_range; lra].
  - intros P L. rewrite lr_eq. destruct (Req_EM_T warmup 0) as [E|E]; [lra|]. rewrite decay_early by exact L. rewrite Rmin_left; [ring|].
    specialize (WP E). apply (Rmult_le_reg_r (at_epoch warmup)); [exact WP|]. unfold Rdiv. rewrite Rmult_assoc, Rinv_l by lra. lra.
  - intros L. rewrite !lr_eq. assert (D : decay t <= decay s) by (apply decay_mono; assumption). pose proof (decay_range t). pose proof (decay_range s).
    destruct (Req_EM_T warmup 0) as [E|E]; [rewrite !Rmult_1_r; now apply Rmult_le_compat_l|]. rewrite ONE by (try exact E; lra).
    assert (ONES : Rmin (s / at_epoch warmup) 1 = 1) by (apply Rmin_right; apply (Rmult_le_reg_r (at_epoch warmup)); [now apply WP|]; specialize (WP E); unfold Rdiv; rewrite Rmult_assoc, Rinv_l by lra; lra).
    rewrite ONES, !Rmult_1_r. now apply Rmult_le_compat_l.
  - rewrite lr_eq, decay_early by lra. destruct (Req_EM_T warmup 0) as [E|E]; [ring|]. specialize (WP E). unfold Rdiv. rewrite Rinv_r by lra. rewrite Rmin_left by lra. ring.
  - rewrite lr_eq. unfold decay. rewrite scaled_end, Rmult_1_r, cos_PI. ring.
Qed.
(** Every step but the first learns something; the first one, at step 0, changes nothing when there is a warmup. *)
Theorem C90_first : 0 < init -> (0 < warmup -> lr 0 = 0) /\ forall t, 0 < t < at_epoch epochs -> 0 < lr t.
Proof.
  intros P. pose proof spe_pos as S. split.
  - intros W. rewrite lr_eq. destruct (Req_EM_T warmup 0) as [E|E]; [lra|]. rewrite Rmin_left; [|unfold Rdiv; rewrite Rmult_0_l; lra]. unfold Rdiv. ring.
  - intros t [T1 T2]. rewrite lr_eq. assert (B : 0 < base) by (unfold base; assert (0 < init * batch) by (apply Rmult_lt_0_compat; lra); lra).
    assert (D : 0 < base * decay t) by (apply Rmult_lt_0_compat; [exact B|now apply decay_pos]).
    destruct (Req_EM_T warmup 0) as [E|E]; [lra|]. assert (W : 0 < at_epoch warmup) by (unfold at_epoch; apply Rmult_lt_0_compat; lra).
    apply Rmult_lt_0_compat; [exact D|]. apply Rmin_glb_lt; [apply Rmult_lt_0_compat; [exact T1|now apply Rinv_0_lt_compat]|lra].
Qed.
End Schedule.
(** The loop of [main] stays within the schedule. *)
Theorem C90_steps examples epochs batch k : (0 < batch)%Z -> (0 <= k < num_train_steps examples epochs batch)%Z -> 0 <= IZR k < at_epoch (IZR batch) (IZR examples) (IZR epochs).
Proof.
  intros Hb [K1 K2]. split; [now apply IZR_le|]. unfold num_train_steps in K2. assert (H : (batch * (k + 1) <= examples * epochs)%Z).
  { pose proof (Z.mul_div_le (examples * epochs) batch Hb). assert (batch * (k + 1) <= batch * (examples * epochs / batch))%Z by (apply Z.mul_le_mono_nonneg_l; lia). lia. }
  apply IZR_le in H. rewrite !mult_IZR, plus_IZR in H. apply IZR_lt in Hb. unfold at_epoch. apply (Rmult_lt_reg_l (IZR batch)); [exact Hb|].
  replace (IZR batch * (IZR epochs * (IZR examples / IZR batch))) with (IZR examples * IZR epochs) by (field; lra). nra.
Qed.
(** After the end the cosine rises again: training for longer than the flag says would not keep the rate at 0. *)
Theorem C90_after_end_refuted : ~ (forall s t, 90 <= s <= t -> lr_schedule 1 256 256 90 0 t <= lr_schedule 1 256 256 90 0 s).
Proof.
  intros H. specialize (H 90 180 ltac:(lra)). unfold lr_schedule in H. replace (0 * (256 / 256)) with 0 in H by ring. replace (90 * (256 / 256)) with 90 in H by field. rewrite !Rminus_0_r, !Rmax_left in H by lra.
  destruct (Req_EM_T 0 0) as [_|N]; [|now apply N]. replace (PI * (180 / 90)) with (2 * PI) in H by field. replace (PI * (90 / 90)) with PI in H by field. rewrite cos_2PI, cos_PI in H. lra.
Qed.
Print Assumptions C90_schedule.
Print Assumptions C90_first.
Print Assumptions C90_steps.
Print Assumptions C90_after_end_refuted.

(** ** Cross entropy with smoothed labels *)
Lemma zipw_seq (f : R -> R -> R) : forall x y, length x = length y -> zipw f x y = map (fun i => f (nth i x 0) (nth i y 0)) (seq 0 (length x)).
Proof.
  unfold zipw. induction x as [|a x IH]; intros [|b y] L; cbn in L; try discriminate; [reflexivity|]. cbn [combine map length seq nth fst snd]. f_equal. rewrite IH by lia. rewrite <- seq_shift, map_map. reflexivity.
Qed.
Lemma log_softmax_length l : length (log_softmax l) = length l. Proof. unfold log_softmax. cbv zeta. apply map_length. Qed.
Lemma Rsum_linear {A} (f g : A -> R) a b l : Rsum (map (fun x => a * f x + b * g x) l) = a * Rsum (map f l) + b * Rsum (map g l).
Proof. induction l as [|x l IH]; cbn [map]; [unfold Rsum; cbn; ring|]. rewrite !Rsum_cons, IH. ring. Qed.
(** The labels still sum to 1 for 1000 classes, and are between 0 and 1. *)
Theorem C90_smooth labels s : length labels = (10 * 100)%nat -> Rsum labels = 1 -> Rsum (smooth_labels labels s) = 1 /\ (0 <= s <= 1 -> Forall (fun l => 0 <= l) labels -> Forall (fun l => s / 1000 <= l <= 1 - s + s / 1000) (smooth_labels labels s)).
Proof.
  intros L S. split.
  - unfold smooth_labels. rewrite Rsum_plus. rewrite (Rsum_scale (1 - s)), Rsum_const, S, L, mult_INR. change (INR 10) with (1 + 1 + 1 + 1 + 1 + 1 + 1 + 1 + 1 + 1). rewrite (INR_IZR_INZ 100). change (IZR (Z.of_nat 100)) with 100. field.
  - intros H P. apply Forall_map, Forall_forall. intros l Hl. pose proof (sq_le_sum labels l Hl P) as U. rewrite S in U. rewrite Forall_forall in P. specialize (P l Hl).
    assert (0 <= (1 - s) * l) by (apply Rmult_le_pos; lra). assert ((1 - s) * l <= (1 - s) * 1) by (apply Rmult_le_compat_l; lra). lra.
Qed.
(** The constant 1000 is written into the function: for other numbers of classes the labels do not sum to 1. *)
Theorem C90_classes_refuted : ~ (forall labels s, Rsum labels = 1 -> 0 <= s <= 1 -> Rsum (smooth_labels labels s) = 1).
Proof. intros H. specialize (H [1; 0] 1 ltac:(unfold Rsum; cbn; ring) ltac:(lra)). unfold smooth_labels, Rsum in H. cbn in H. lra. Qed.
(** The smoothed loss is the loss with hard labels, mixed with the average of the losses for all the classes. *)
Theorem C90_mixture logits labels s : length labels = length logits ->
  softmax_cross_entropy logits (smooth_labels labels s) = (1 - s) * softmax_cross_entropy logits labels + s / 1000 * Rsum (map Ropp (log_softmax logits)).
Proof.
  intros L. unfold softmax_cross_entropy. rewrite !zipw_seq by (unfold smooth_labels; rewrite ?map_length, log_softmax_length; exact L). unfold smooth_labels at 2. rewrite map_length.
  rewrite (Rsum_ext _ (fun i => (1 - s) * (nth i labels 0 * nth i (log_softmax logits) 0) + s / 1000 * nth i (log_softmax logits) 0)).
  - rewrite (Rsum_linear (fun i => nth i labels 0 * nth i (log_softmax logits) 0) (fun i => nth i (log_softmax logits) 0)).
    assert (E : Rsum (map Ropp (log_softmax logits)) = - Rsum (map (fun i => nth i (log_softmax logits) 0) (seq 0 (length labels)))).
    { rewrite L, <- (log_softmax_length logits). generalize (log_softmax logits). clear. intros l. transitivity (- Rsum l); [induction l as [|x l IH]; cbn [map]; [unfold Rsum; cbn; ring|]; rewrite !Rsum_cons, IH; ring|].
      f_equal. f_equal. apply (nth_ext _ _ 0 0); [now rewrite map_length, seq_length|]. intros i H. rewrite (nth_map_in _ _ _ 0%nat) by now rewrite seq_length. now rewrite seq_nth. }
    rewrite E. ring.
  - intros i Hin. apply in_seq in Hin. unfold smooth_labels. rewrite (nth_map_in _ _ _ 0) by lia. ring.
Qed.
(** Gibbs: no logits give a smaller loss than the entropy of the labels, and the logarithms of the labels reach it. *)
Theorem C90_gibbs labels logits : Forall (fun l => 0 < l) labels -> Rsum labels = 1 -> length logits = length labels ->
  - Rsum (map (fun l => l * ln l) labels) <= softmax_cross_entropy logits labels /\ softmax_cross_entropy (map ln labels) labels = - Rsum (map (fun l => l * ln l) labels).
Proof.
  intros P S L. assert (N : logits <> []) by (intros ->; destruct labels; [unfold Rsum in S; cbn in S; lra|discriminate L]). rewrite Forall_forall in P.
  assert (E : forall lg, length lg = length labels -> softmax_cross_entropy lg labels = - Rsum (map (fun i => nth i labels 0 * ln (nth i (softmax lg) 0)) (seq 0 (length labels)))).
  { intros lg HL. unfold softmax_cross_entropy. rewrite zipw_seq by now rewrite log_softmax_length. f_equal. apply Rsum_ext. intros i Hin. apply in_seq in Hin. now rewrite log_softmax_nth by lia. }
  assert (Q : map (fun l => l * ln l) labels = map (fun i => nth i labels 0 * ln (nth i labels 0)) (seq 0 (length labels))).
  { apply (nth_ext _ _ 0 0); [now rewrite !map_length, seq_length|]. intros i H. rewrite map_length in H. rewrite (nth_map_in _ _ _ 0) by exact H. rewrite (nth_map_in _ _ _ 0%nat) by now rewrite seq_length. now rewrite seq_nth. }
  split.
  - rewrite E by exact L. rewrite Q. apply Ropp_le_contravar.
    assert (D : Rsum (map (fun i => nth i labels 0 * ln (nth i (softmax logits) 0)) (seq 0 (length labels))) <= Rsum (map (fun i => nth i labels 0 * ln (nth i labels 0) + (nth i (softmax logits) 0 - nth i labels 0)) (seq 0 (length labels)))).
    { apply Rsum_le. intros i Hin. apply in_seq in Hin. assert (Pi : 0 < nth i labels 0) by (apply P, nth_In; lia).
      assert (Si : 0 < nth i (softmax logits) 0) by (pose proof (softmax_pos logits) as F; rewrite Forall_forall in F; apply F, nth_In; rewrite softmax_length; lia).
      set (p := nth i labels 0) in *. set (q := nth i (softmax logits) 0) in *. pose proof (exp_ineq1_le (ln q - ln p)) as X. unfold Rminus in X at 2. rewrite exp_plus, exp_Ropp, !exp_ln in X by assumption.
      assert (Y : p * (1 + (ln q - ln p)) <= p * (q * / p)) by (apply Rmult_le_compat_l; lra). replace (p * (q * / p)) with q in Y by (field; lra). lra. }
    eapply Rle_trans; [exact D|]. rewrite Rsum_plus. assert (Z0 : Rsum (map (fun i => nth i (softmax logits) 0 - nth i labels 0) (seq 0 (length labels))) = 0).
    { assert (SM : forall l n, length l = n -> Rsum (map (fun i => nth i l 0) (seq 0 n)) = Rsum l). { clear. intros l n <-. f_equal. apply (nth_ext _ _ 0 0); [now rewrite map_length, seq_length|]. intros i H. rewrite map_length, seq_length in H. rewrite (nth_map_in _ _ _ 0%nat) by now rewrite seq_length. now rewrite seq_nth. }
      pose proof (Rsum_linear (fun i => nth i (softmax logits) 0) (fun i => nth i labels 0) 1 (-1) (seq 0 (length labels))) as X. rewrite !SM in X by (rewrite ?softmax_length; congruence). rewrite softmax_sum, S in X by exact N.
      rewrite (Rsum_ext _ (fun i => 1 * nth i (softmax logits) 0 + -1 * nth i labels 0)) by (intros; ring). rewrite X. ring. }
    rewrite Z0. lra.
  - rewrite E by apply map_length. f_equal. rewrite Q. apply Rsum_ext. intros i Hin. apply in_seq in Hin. f_equal. f_equal. unfold softmax. rewrite (nth_map_in _ _ _ 0) by (rewrite map_length; lia). rewrite map_map.
    assert (EX : map (fun x => exp (ln x)) labels = labels) by (rewrite <- map_id; apply map_ext_in; intros a Ha; apply exp_ln; auto). rewrite EX, S. rewrite (nth_map_in _ _ _ 0) by lia. rewrite exp_ln by (apply P, nth_In; lia). field.
Qed.
Print Assumptions C90_smooth.
Print Assumptions C90_classes_refuted.
Print Assumptions C90_mixture.
Print Assumptions C90_gibbs.

(** * C108: the losses of the notebooks, in exact arithmetic *)
From Coq Require Import Reals ZArith List Bool Lia Lra.
From Verif Require Import ModelRng ModelShape ModelConv ModelSampling ModelNets ModelTransformer ModelTraining ModelReal ModelLayers ModelNotebooks Properties14 Properties15 Properties24 Properties35.
Import ListNotations.
Local Open Scope R_scope.

Lemma sparse_is l k : (k < length l)%nat -> sparse_cross_entropy l (Z.of_nat k) = - ln (nth k (softmax l) 0).
Proof.
  intros Hk. unfold sparse_cross_entropy. f_equal. rewrite <- log_softmax_nth by exact Hk.
  assert (L : length (log_softmax l) = length l) by (unfold log_softmax; cbv zeta; apply map_length). revert L Hk. generalize (log_softmax l). generalize (length l). clear. intros n l L Hk. unfold one_hot.
  assert (G : forall l a, zipw Rmult (map (fun i => if (Z.of_nat i =? Z.of_nat k)%Z then 1 else 0) (seq a (length l))) l = map (fun i => if (i =? k)%nat then nth (i - a) l 0 else 0) (seq a (length l))).
  { clear. induction l as [|x l IH]; intros a; [reflexivity|]. cbn [length seq map]. unfold zipw in *. cbn [combine map fst snd]. f_equal.
    - destruct (a =? k)%nat eqn:E; [apply Nat.eqb_eq in E; subst; rewrite Z.eqb_refl, Nat.sub_diag; cbn [nth]; ring|]. apply Nat.eqb_neq in E. destruct (Z.eqb_spec (Z.of_nat a) (Z.of_nat k)); [lia | ring].
    - rewrite IH. apply map_ext_in. intros i Hi. apply in_seq in Hi. destruct (i =? k)%nat; [|reflexivity]. replace (i - a)%nat with (S (i - S a)) by lia. reflexivity. }
  rewrite <- L, G. rewrite (Rsum_single _ k) with (l := seq 0 (length l)); [rewrite Nat.eqb_refl; f_equal; lia | apply seq_NoDup | apply in_seq; lia |]. intros j _ N. apply Nat.eqb_neq in N. now rewrite N.
Qed.
(** With two logits, the loss is the softplus of how much the other one is larger. *)
Theorem C108_two_classes a b : sparse_cross_entropy [a; b] 1 = ln (1 + exp (a - b)) /\ sparse_cross_entropy [a; b] 0 = ln (1 + exp (b - a)) /\ gen_loss [[a; b]] = ln (1 + exp (a - b)).
Proof.
  assert (S1 : - ln (nth 1 (softmax [a; b]) 0) = ln (1 + exp (a - b))).
  { unfold softmax. cbn [map nth]. rewrite !Rsum_cons, Rsum_nil, Rplus_0_r. pose proof (exp_pos a). pose proof (exp_pos b). rewrite <- ln_Rinv by (apply Rdiv_lt_0_compat; lra). f_equal. unfold Rminus. rewrite exp_plus, exp_Ropp. field. lra. }
  assert (S0 : - ln (nth 0 (softmax [a; b]) 0) = ln (1 + exp (b - a))).
  { unfold softmax. cbn [map nth]. rewrite !Rsum_cons, Rsum_nil, Rplus_0_r. pose proof (exp_pos a). pose proof (exp_pos b). rewrite <- ln_Rinv by (apply Rdiv_lt_0_compat; lra). f_equal. unfold Rminus. rewrite exp_plus, exp_Ropp. field. lra. }
  split; [|split].
  - change 1%Z with (Z.of_nat 1). rewrite sparse_is by (cbn; lia). exact S1.
  - change 0%Z with (Z.of_nat 0). rewrite sparse_is by (cbn; lia). exact S0.
  - unfold gen_loss, mean. cbn [map length]. rewrite jax_softmax_eq, S1, Rsum_cons, Rsum_nil. cbn [INR]. field.
Qed.
Print Assumptions C108_two_classes.
(** Both losses are positive, and for every fake image the generator's falls exactly as the discriminator's (on it) rises. *)
Theorem C108_opposed a b : 0 < gen_loss [[a; b]] /\ 0 < sparse_cross_entropy [a; b] 0 /\ sparse_cross_entropy [a; b] 0 - gen_loss [[a; b]] = b - a.
Proof.
  destruct (C108_two_classes a b) as (_ & E0 & Eg). rewrite E0, Eg. pose proof (exp_pos (a - b)) as Pa. pose proof (exp_pos (b - a)) as Pb. split; [|split].
  - rewrite <- ln_1. apply ln_increasing; lra.
  - rewrite <- ln_1. apply ln_increasing; lra.
  - replace (1 + exp (b - a)) with (exp (b - a) * (1 + exp (a - b))).
    + rewrite ln_mult, ln_exp by lra. ring.
    + rewrite Rmult_plus_distr_l, <- exp_plus. replace (b - a + (a - b)) with 0 by ring. rewrite exp_0. ring.
Qed.
Print Assumptions C108_opposed.

Lemma pair_bound a b : 2 * ln 2 <= ln (1 + exp (a - b)) + ln (1 + exp (b - a)) /\ (ln (1 + exp (a - b)) + ln (1 + exp (b - a)) = 2 * ln 2 <-> a = b).
Proof.
  set (u := exp (a - b)). assert (Pu : 0 < u) by apply exp_pos. assert (V : exp (b - a) = / u) by (unfold u; rewrite <- exp_Ropp; f_equal; ring). rewrite V. pose proof (Rinv_0_lt_compat u Pu) as Pi.
  rewrite <- ln_mult by lra. replace (2 * ln 2) with (ln 4) by (replace 4 with (2 * 2) by ring; rewrite ln_mult by lra; ring).
  assert (E : (1 + u) * (1 + / u) - 4 = (u - 1) * (u - 1) * / u) by (field; lra).
  assert (Q : 0 <= (u - 1) * (u - 1)) by apply Rle_0_sqr. assert (B : 4 <= (1 + u) * (1 + / u)) by (assert (0 <= (u - 1) * (u - 1) * / u) by (apply Rmult_le_pos; lra); lra).
  split; [destruct (Rle_lt_or_eq_dec _ _ B) as [L| <-]; [left; apply ln_increasing; lra | lra]|]. split; intros H.
  - assert (F : (1 + u) * (1 + / u) = 4) by (apply ln_inv; [nra | lra | exact H]). assert (Z : (u - 1) * (u - 1) = 0).
    { assert ((u - 1) * (u - 1) * / u = 0) by lra. destruct (Rmult_integral _ _ H0); [assumption | lra]. }
    assert (U1 : u = 1) by (destruct (Rmult_integral _ _ Z); lra). assert (D : a - b = 0) by (rewrite <- (ln_exp (a - b)); fold u; rewrite U1; apply ln_1). lra.
  - subst b. unfold u. rewrite Rminus_diag_eq, exp_0 by reflexivity. f_equal. field.
Qed.
(** A discriminator that cannot tell the two batches apart has a loss of at least 2 ln 2, and exactly that where it is undecided about every image. *)
Theorem C108_fooled (logits : list (R * R)) : logits <> [] -> let l := map (fun p => [fst p; snd p]) logits in
  2 * ln 2 <= disc_loss l l /\ (Forall (fun p => fst p = snd p) logits -> disc_loss l l = 2 * ln 2).
Proof.
  intros N. cbv zeta. set (f := fun p : R * R => ln (1 + exp (fst p - snd p)) + ln (1 + exp (snd p - fst p))).
  assert (E : disc_loss (map (fun p => [fst p; snd p]) logits) (map (fun p => [fst p; snd p]) logits) = mean (map f logits)).
  { unfold disc_loss. f_equal. rewrite !map_map. clear N. induction logits as [|[a b] l IH]; [reflexivity|]. cbn [map]. unfold zipw in *. cbn [combine map fst snd]. rewrite IH. f_equal. unfold f. cbn [fst snd].
    destruct (C108_two_classes a b) as (E1 & E0 & _). now rewrite E1, E0. }
  rewrite E. assert (P : 0 < INR (length logits)) by (apply lt_0_INR; destruct logits; [congruence | cbn; lia]).
  assert (C : Rsum (map (fun _ : R * R => 2 * ln 2) logits) = INR (length logits) * (2 * ln 2)) by (rewrite Rsum_const; ring).
  split.
  - unfold mean. rewrite map_length. apply Rmult_le_reg_r with (INR (length logits)); [exact P|]. replace (Rsum (map f logits) / INR (length logits) * INR (length logits)) with (Rsum (map f logits)) by (field; lra). rewrite Rmult_comm, <- C. clear - logits.
    induction logits as [|[a b] l IH]; [cbn [map]; rewrite Rsum_nil; lra|]. cbn [map]. rewrite !Rsum_cons. pose proof (proj1 (pair_bound a b)). unfold f at 1. cbn [fst snd]. lra.
  - intros F. unfold mean. rewrite map_length. replace (Rsum (map f logits)) with (INR (length logits) * (2 * ln 2)); [field; lra|]. rewrite <- C. f_equal. apply map_ext_in. intros [a b] Hp. rewrite Forall_forall in F. specialize (F _ Hp). cbn [fst snd] in F. subst b.
    unfold f. cbn [fst snd]. symmetry. now apply pair_bound.
Qed.
Print Assumptions C108_fooled.
(** The notebook's plot has the line "Discriminator is being fooled" at ln 2: no discriminator that cannot tell the batches apart has that loss. *)
Theorem C108_fooled_line_refuted : ~ (exists logits : list (R * R), logits <> [] /\ let l := map (fun p => [fst p; snd p]) logits in disc_loss l l = ln 2).
Proof.
  intros (logits & N & E). cbv zeta in E. destruct (C108_fooled logits N) as [B _]. cbv zeta in B. rewrite E in B. assert (0 < ln 2) by (rewrite <- ln_1; apply ln_increasing; lra). lra.
Qed.
Print Assumptions C108_fooled_line_refuted.
(** Real and fake images in one pass give what two passes give, for batches of one size. *)
Theorem C108_one_pass {A B} (disc : A -> B) batch fake : length batch = length fake -> one_pass disc batch fake = Some (map disc batch, map disc fake).
Proof.
  intros L. unfold one_pass. cbv zeta. rewrite map_length, app_length, <- L. replace (length batch + length batch)%nat with (length batch * 2)%nat by lia. rewrite Nat.even_mul, orb_true_r, Nat.div_mul by lia. do 2 f_equal; rewrite map_app.
  - rewrite firstn_app, map_length, Nat.sub_diag. cbn [firstn]. rewrite app_nil_r. apply firstn_all2. now rewrite map_length.
  - rewrite skipn_app, map_length, Nat.sub_diag. rewrite skipn_all2 by now rewrite map_length. reflexivity.
Qed.
Print Assumptions C108_one_pass.
(** With batches of different sizes whose sum is even, real images would count as fake. *)
Theorem C108_one_pass_refuted : ~ (forall (disc : nat -> nat) batch fake r f, one_pass disc batch fake = Some (r, f) -> r = map disc batch /\ f = map disc fake).
Proof. intros H. destruct (H (fun x => x) [1; 2; 3]%nat [4]%nat [1; 2]%nat [3; 4]%nat eq_refl) as [E _]. discriminate E. Qed.
Print Assumptions C108_one_pass_refuted.
(** What is displayed is what was preprocessed, and what the generator makes (tanh) is displayed strictly between black and white. *)
Theorem C108_display x : display (preprocess x) = x /\ preprocess (display x) = x /\ (0 <= x <= 1 <-> -1 <= preprocess x <= 1) /\ 0 < display (tanh x) < 1.
Proof.
  unfold display, preprocess. split; [field|]. split; [field|]. split; [lra|]. assert (B : -1 < tanh x < 1).
  { unfold tanh, sinh, cosh. pose proof (exp_pos x). pose proof (exp_pos (- x)). split; [apply Rmult_lt_reg_r with ((exp x + exp (- x)) / 2); [lra|] | apply Rmult_lt_reg_r with ((exp x + exp (- x)) / 2); [lra|]]; unfold Rdiv at 2; rewrite ?Rmult_assoc, ?Rinv_l by lra; unfold Rdiv; field_simplify; lra. }
  lra.
Qed.
Print Assumptions C108_display.

(** ** The sine waves: targets are the inputs one step later *)
Theorem C108_sine phase n spc : let '(x, y) := sine_seq phase n spc in length x = n /\ length y = n /\
  forall i, (i < n)%nat -> nth i x 0 = sine spc phase i /\ nth i y 0 = sine spc phase (i + 1).
Proof.
  unfold sine_seq. cbv zeta. replace (n + 1)%nat with (S n) by lia. assert (R : removelast (map (sine spc phase) (seq 0 (S n))) = map (sine spc phase) (seq 0 n)) by (rewrite seq_S, map_app; apply removelast_last).
  rewrite R. cbn [seq map tl]. rewrite !map_length, !seq_length. split; [reflexivity|]. split; [reflexivity|]. intros i Hi. split.
  - rewrite (nth_indep _ 0 (sine spc phase 0)) by now rewrite map_length, seq_length. rewrite map_nth, seq_nth by exact Hi. reflexivity.
  - rewrite (nth_indep _ 0 (sine spc phase 0)) by now rewrite map_length, seq_length. rewrite map_nth, seq_nth by exact Hi. now rewrite Nat.add_comm.
Qed.
Print Assumptions C108_sine.
(** An entry follows from the two before it, whatever the phase, so that a network with memory can learn the task; from one alone it does not. *)
Theorem C108_sine_recurrence spc phase i : sine spc phase (i + 2) = 2 * cos (2 * PI / spc) * sine spc phase (i + 1) - sine spc phase i.
Proof.
  unfold sine. set (w := 2 * PI / spc). rewrite !plus_INR. change (INR 2) with (1 + 1). change (INR 1) with 1. set (t := (INR i + 1) * w + phase).
  replace ((INR i + (1 + 1)) * w + phase) with (t + w) by (unfold t; ring). replace (INR i * w + phase) with (t - w) by (unfold t; ring). rewrite sin_plus, sin_minus. ring.
Qed.
Print Assumptions C108_sine_recurrence.
Theorem C108_sine_memory_refuted : ~ (exists f : R -> R, forall phase i, sine 4 phase (i + 1) = f (sine 4 phase i)).
Proof.
  intros (f & H). pose proof (H 0 0%nat) as A. pose proof (H PI 0%nat) as B. unfold sine in A, B. cbn [Nat.add INR] in A, B.
  replace (1 * (2 * PI / 4) + 0) with (PI / 2) in A by field. replace (0 * (2 * PI / 4) + 0) with 0 in A by ring.
  replace (1 * (2 * PI / 4) + PI) with (PI / 2 + PI) in B by field. replace (0 * (2 * PI / 4) + PI) with PI in B by ring. rewrite sin_PI2, sin_0 in A. rewrite neg_sin, sin_PI2, sin_PI in B. lra.
Qed.
Print Assumptions C108_sine_memory_refuted.
(** It repeats after [samples_per_cycle] steps. *)
Theorem C108_sine_period spc phase i k : (0 < spc)%nat -> sine (INR spc) phase (i + k * spc) = sine (INR spc) phase i.
Proof.
  intros P. pose proof (lt_0_INR _ P). unfold sine. rewrite plus_INR, mult_INR. replace ((INR i + INR k * INR spc) * (2 * PI / INR spc) + phase) with (INR i * (2 * PI / INR spc) + phase + 2 * INR k * PI) by (field; lra). apply sin_period.
Qed.
Print Assumptions C108_sine_period.
Example C108_losses_case : disc_loss [[0; 0]] [[0; 0]] = 2 * ln 2 /\ gen_loss [[0; 0]; [0; 0]] = ln 2 /\ one_pass S [1; 2]%nat [3; 4]%nat = Some ([2; 3], [4; 5])%nat.
Proof.
  split; [|split; [|reflexivity]].
  - destruct (C108_fooled [(0, 0)] ltac:(discriminate)) as [_ H]. apply H. repeat constructor.
  - destruct (C108_two_classes 0 0) as (_ & _ & G). unfold gen_loss, mean in *. cbn [map length] in *. rewrite !Rsum_cons, Rsum_nil in *. change (INR 1) with 1 in G. change (INR 2) with (1 + 1). set (v := - ln (nth 1 (jax_softmax [0; 0]) 0)) in *.
    replace (1 + exp (0 - 0)) with 2 in G by (rewrite Rminus_diag_eq, exp_0 by reflexivity; ring). replace v with (ln 2) by (rewrite <- G; field). field.
Qed.

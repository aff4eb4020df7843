(** * C105: training on several replicas *)
From Coq Require Import Reals ZArith List Bool Lia Lra.
From Verif Require Import ModelNets ModelTransformer ModelTraining ModelReal ModelLayers ModelVqEma ModelGradients Properties14 Properties15 Properties22 Properties80 Properties81 Properties83 ModelBackprop Properties86 Properties88.
From Verif Require Import ModelDataParallel.
Import ListNotations.
Local Open Scope R_scope.

(** ** Renaming *)
Section Rename.
Context {A B : Type} (h : A -> B).
Lemma rename_ev env (e : expr A) : ev env (rename h e) = ev (fun a => env (h a)) e.
Proof. induction e; cbn [rename ev]; congruence. Qed.
Lemma rename_jvp env dir (e : expr A) : jvp env dir (rename h e) = jvp (fun a => env (h a)) (fun a => dir (h a)) e.
Proof. induction e; cbn [rename jvp]; rewrite ?rename_ev; congruence. Qed.
Lemma rename_good env (e : expr A) : good (fun a => env (h a)) e -> good env (rename h e).
Proof. induction e; cbn [rename good]; rewrite ?rename_ev; intuition. Qed.
End Rename.

(** The variables of an expression, and which it needs for its derivative. *)
Fixpoint over {A} (P : A -> Prop) (e : expr A) : Prop :=
  match e with
  | Const _ | Stop _ => True
  | Var v => P v
  | Add a b | Sub a b | Mul a b | Div a b => over P a /\ over P b
  | Exp a | Ln a | Sqrt a => over P a
  | Pick _ l => forall k, over P (l k)
  end.
Lemma over_jvp {A} (P : A -> Prop) env dir dir' (e : expr A) : over P e -> (forall v, P v -> dir v = dir' v) -> jvp env dir e = jvp env dir' e.
Proof.
  intros O H. induction e; cbn [over jvp] in *; try reflexivity; try (destruct O as [O1 O2]; rewrite (IHe1 O1), (IHe2 O2); reflexivity); try (rewrite (IHe O); reflexivity); auto.
Qed.

Section Gradients.
Context {V : Type} (eqb : V -> V -> bool).
Lemma jvp_zero (env : rvar (V := V) -> R) e : jvp env (fun _ => 0) e = 0.
Proof. pose proof (jvp_linear env (fun _ => 0) (fun _ => 0) 0 0 e) as H. rewrite (jvp_ext env _ (fun _ => 0)) in H by (intros; ring). rewrite H. ring. Qed.
Lemma jvp_sum {I} env (dirs : I -> rvar (V := V) -> R) l e : Rsum (map (fun i => jvp env (dirs i) e) l) = jvp env (fun v => Rsum (map (fun i => dirs i v) l)) e.
Proof.
  induction l as [|i l IH]; cbn [map].
  - rewrite Rsum_nil. symmetry. apply jvp_zero.
  - rewrite Rsum_cons, IH. pose proof (jvp_linear env (dirs i) (fun v => Rsum (map (fun i => dirs i v) l)) 1 1 e) as L. rewrite !Rmult_1_l in L. rewrite <- L. apply jvp_ext. intros v. rewrite Rsum_cons. ring.
Qed.
(** The mean of the replicas' gradients is the gradient of the mean of their losses, as functions of one set of parameters -
    whether or not the replicas exchange values. *)
Theorem C105_mean n losses params v : (0 < n)%nat ->
  (forall j, (j < n)%nat -> over (fun p => (fst p < n)%nat) (losses j) /\ good (fun p => params (snd p)) (losses j)) ->
  mean_gradient eqb n losses params v = gradient eqb params (emean (map (fun j => rename snd (losses j)) (seq 0 n))) v.
Proof.
  intros N H. unfold mean_gradient, replica_gradient, gradient. set (env := fun p : rvar => params (snd p)).
  assert (F : forall j, In j (seq 0 n) -> (j < n)%nat) by (intros j J; apply in_seq in J; lia).
  assert (Ne : map (fun j => rename snd (losses j)) (seq 0 n) <> []) by (destruct n; [lia | discriminate]).
  assert (G : good env (esum (map losses (seq 0 n)))) by (apply good_esum, Forall_map, Forall_forall; intros j J; apply H; auto).
  rewrite (C103_reverse eqb); [|apply good_emean; [exact Ne|]; apply Forall_map, Forall_forall; intros j J; apply rename_good; apply (H j); auto].
  rewrite Rmult_1_l, jvp_emean by exact Ne. unfold mean. rewrite !map_length. f_equal. rewrite map_map.
  rewrite (Rsum_ext _ (fun i => jvp env (basis (rvar_eqb eqb) (i, v)) (esum (map losses (seq 0 n))))) by (intros i _; rewrite C103_reverse by exact G; apply Rmult_1_l).
  rewrite jvp_sum, jvp_esum, map_map. apply Rsum_ext. intros j J. rewrite rename_jvp. apply (over_jvp (fun p => (fst p < n)%nat)); [apply H; auto|].
  intros [k w] K. cbn [fst snd] in *. unfold basis, rvar_eqb. cbn [fst snd].
  rewrite (Rsum_ext _ (fun i => if (i =? k)%nat then if eqb w v then 1 else 0 else 0)) by (intros i _; rewrite (Nat.eqb_sym k i); destruct (i =? k)%nat, (eqb w v); reflexivity).
  now rewrite (Rsum_pick n (fun _ => if eqb w v then 1 else 0) k K).
Qed.
(** Replicas that exchange nothing each get the gradient of their own loss. *)
Theorem C105_own n losses params i v : (i < n)%nat ->
  (forall j, (j < n)%nat -> over (fun p => fst p = j) (losses j) /\ good (fun p => params (snd p)) (losses j)) ->
  replica_gradient eqb n losses params i v = gradient eqb params (rename snd (losses i)) v.
Proof.
  intros Hi H. unfold replica_gradient, gradient. set (env := fun p : rvar => params (snd p)).
  rewrite C103_reverse; [|apply good_esum, Forall_map, Forall_forall; intros j J; apply in_seq in J; apply H; lia].
  rewrite (C103_reverse eqb) by (apply rename_good; now apply H). rewrite !Rmult_1_l, jvp_esum, map_map, rename_jvp.
  rewrite (Rsum_ext _ (fun j => if (j =? i)%nat then jvp env (fun a => basis eqb v (snd a)) (losses j) else 0)).
  - now rewrite (Rsum_pick n (fun j => jvp env (fun a => basis eqb v (snd a)) (losses j)) i Hi).
  - intros j J. apply in_seq in J. destruct (Nat.eqb_spec j i) as [->|Nj].
    + apply (over_jvp (fun p => fst p = i)); [now apply H|]. intros [k w] E. cbn [fst snd] in *. subst k. unfold basis, rvar_eqb. cbn [fst snd]. now rewrite Nat.eqb_refl.
    + rewrite (over_jvp (fun p => fst p = j) env _ (fun _ => 0)); [apply jvp_zero | apply H; lia|]. intros [k w] E. cbn [fst snd] in *. subst k. unfold basis, rvar_eqb. cbn [fst snd]. destruct (Nat.eqb_spec j i); [lia | reflexivity].
Qed.
End Gradients.
Print Assumptions C105_mean.
Print Assumptions C105_own.

(** ** Means of means *)
Section Batches.
Context {A : Type}.
Implicit Types (env dir : A -> R).
Lemma mean_means (ls : list (list R)) m : (0 < m)%nat -> Forall (fun l => length l = m) ls -> mean (map mean ls) = mean (concat ls).
Proof.
  intros M F. assert (L : length (concat ls) = (length ls * m)%nat) by (clear -F; induction F as [|l ls E F IH]; [reflexivity|]; cbn [concat length]; rewrite app_length, IH; lia).
  assert (S : Rsum (map mean ls) = Rsum (concat ls) / INR m).
  { clear L. rewrite Rsum_concat. induction F as [|l ls E F IH]; [cbn [map]; rewrite !Rsum_nil; unfold Rdiv; ring|]. cbn [map]. rewrite !Rsum_cons, IH. unfold mean at 1. rewrite E. unfold Rdiv. ring. }
  assert (INR m <> 0) by (apply not_0_INR; lia). unfold mean at 1 3. rewrite S, L, map_length, mult_INR. destruct ls as [|l ls]; [cbn [concat length INR]; rewrite Rsum_nil; unfold Rdiv; ring|].
  field. split; [assumption | apply not_0_INR; discriminate].
Qed.
Lemma same_pmean env dir (ls : list (list (expr A))) m : (0 < m)%nat -> Forall (fun l => length l = m) ls -> ls <> [] -> same env dir (pmean_e (map emean ls)) (emean (concat ls)).
Proof.
  intros M F N. assert (Nl : Forall (fun l => l <> []) ls) by (eapply Forall_impl; [|exact F]; intros l E; destruct l; [cbn in E; lia | discriminate]).
  assert (Nc : concat ls <> []) by (destruct ls as [|l ls]; [congruence|]; apply Forall_cons_iff in Nl as [Nl _]; destruct l; [congruence | discriminate]).
  change (pmean_e (map emean ls)) with (emean (map emean ls)). split.
  - rewrite !ev_emean, map_map, concat_map. rewrite (map_ext (fun l => ev env (emean l)) (fun l => mean (map (ev env) l))) by (intros; apply ev_emean). rewrite <- (map_map (map (ev env)) mean). apply mean_means with m; [exact M|]. apply Forall_map. eapply Forall_impl; [|exact F]. intros l E. now rewrite map_length.
  - rewrite (jvp_emean env dir (concat ls) Nc), (jvp_emean env dir (map emean ls)) by (destruct ls; [congruence | discriminate]). rewrite map_map, concat_map.
    rewrite (map_ext_in (fun l => jvp env dir (emean l)) (fun l => mean (map (jvp env dir) l))) by (intros l I; rewrite Forall_forall in Nl; apply jvp_emean; now apply Nl).
    rewrite <- (map_map (map (jvp env dir)) mean). apply mean_means with m; [exact M|]. apply Forall_map. eapply Forall_impl; [|exact F]. intros l E. now rewrite map_length.
Qed.
Lemma same_sub env dir (a a' b b' : expr A) : same env dir a a' -> same env dir b b' -> same env dir (Sub a b) (Sub a' b').
Proof. intros [E1 D1] [E2 D2]. split; cbn [ev jvp]; congruence. Qed.
Lemma same_rsqrt env dir (a b : expr A) : same env dir a b -> same env dir (rsqrt a) (rsqrt b).
Proof. intros [E D]. unfold rsqrt. split; cbn [ev jvp]; congruence. Qed.
(** BatchNorm that shares statistics: values and derivatives of all outputs are those of BatchNorm on all batches together, given one scale and offset. *)
Theorem C105_batch_norm env dir eps scale offset (xss : list (list (expr A))) m : (0 < m)%nat -> Forall (fun l => length l = m) xss -> xss <> [] ->
  Forall2 (same env dir) (concat (cross_batch_norm eps (fun _ => scale) (fun _ => offset) xss)) (batch_norm eps scale offset (concat xss)).
Proof.
  intros M F N. unfold cross_batch_norm, batch_norm. cbv zeta. set (m1 := pmean_e (map emean xss)). set (q1 := pmean_e (map (fun xs => emean (map esq xs)) xss)).
  set (m2 := emean (concat xss)). set (q2 := emean (map esq (concat xss))).
  assert (Em : same env dir m1 m2) by (apply same_pmean with m; assumption).
  assert (Eq : same env dir q1 q2).
  { unfold q1, q2. rewrite concat_map, <- (map_map (map esq) emean). apply same_pmean with m; [exact M | apply Forall_map; eapply Forall_impl; [|exact F]; intros l E; now rewrite map_length | destruct xss; [congruence | discriminate]]. }
  clearbody m1 q1 m2 q2. clear F N. set (inv1 := Mul scale _). set (inv2 := Mul scale _).
  assert (Ei : same env dir inv1 inv2) by (apply same_mul; [apply same_refl|]; apply same_rsqrt, same_add; [|apply same_refl]; apply same_sub; [exact Eq | now apply same_mul]). clearbody inv1 inv2.
  rewrite concat_map. generalize 0%nat. induction xss as [|xs xss IH]; intros k; [constructor|]. unfold zip2 in *. cbn [length seq combine map concat fst snd]. apply Forall2_app; [|apply IH].
  clear IH. induction xs as [|x xs IH]; [constructor|]. cbn [map]. constructor; [|exact IH]. apply same_add; [|apply same_refl]. apply same_mul; [apply same_sub; [apply same_refl | exact Em] | exact Ei].
Qed.
(** The loss of the imagenet example on batches of one size: the mean of the replicas' losses is the loss on all of them. *)
Theorem C105_imagenet_loss env dir smoothing decay (batches : list (list (list (expr A) * Z))) params m : (0 < m)%nat -> Forall (fun b => length b = m) batches -> batches <> [] ->
  same env dir (emean (map (fun b => imagenet_loss smoothing decay b params) batches)) (imagenet_loss smoothing decay (concat batches) params).
Proof.
  intros M F N. unfold imagenet_loss. set (f := fun e : list (expr A) * Z => exent _ _).
  assert (E : same env dir (emean (map (fun b => emean (map f b)) batches)) (emean (map f (concat batches)))).
  { rewrite concat_map, <- (map_map (map f) emean). apply (same_pmean env dir (map (map f) batches) m); [exact M | apply Forall_map; eapply Forall_impl; [|exact F]; intros l L; now rewrite map_length | destruct batches; [congruence | discriminate]]. }
  set (r := Mul (Const decay) (el2 params)). assert (Nb : INR (length batches) <> 0) by (apply not_0_INR; destruct batches; [congruence | discriminate]).
  assert (S : forall (g : list (list (expr A) * Z) -> R) c, mean (map (fun b => g b + c) batches) = mean (map g batches) + c).
  { intros g c. unfold mean. rewrite !map_length, Rsum_plus, Rsum_const. field. exact Nb. }
  assert (Ne : forall (T : Type) (g : list (list (expr A) * Z) -> T), map g batches <> []) by (intros T g; destruct batches; [congruence | discriminate]).
  destruct E as [E D]. rewrite ev_emean, map_map in E. rewrite jvp_emean, map_map in D by apply Ne. split; cbn [ev jvp].
  - rewrite ev_emean, map_map. cbn [ev]. rewrite (S (fun b => ev env (emean (map f b)))). now rewrite E.
  - rewrite jvp_emean, map_map by apply Ne. cbn [jvp]. rewrite (S (fun b => jvp env dir (emean (map f b)))). now rewrite D.
Qed.
End Batches.
Print Assumptions C105_batch_norm.
Print Assumptions C105_imagenet_loss.
(** Its value: the mean cross entropy against the labels, smoothed if there is a smoothing, plus the decay times the squares of the parameters. *)
Theorem C105_imagenet_value {B} env smoothing decay (batch : list (list (expr B) * Z)) params :
  ev env (imagenet_loss smoothing decay batch params) =
  mean (map (fun e => softmax_cross_entropy (map (ev env) (fst e)) (let labels := ModelNets.one_hot 0 1 1000 (snd e) in if Req_EM_T smoothing 0 then labels else smooth_labels labels smoothing)) batch) +
  decay * l2_loss (vals env params).
Proof.
  unfold imagenet_loss. cbn [ev]. rewrite ev_emean, map_map. apply f_equal2.
  - f_equal. apply map_ext. intros e. cbv zeta. apply C103_cross_entropy_values.
  - f_equal. apply ev_el2.
Qed.
Print Assumptions C105_imagenet_value.
(** With a smoothing of 1/10, labels lose a tenth and every class gets a ten-thousandth. *)
Example C105_smoothing_case : nth 0 (let labels := ModelNets.one_hot 0 1 1000 0%Z in if Req_EM_T (1 / 10) 0 then labels else smooth_labels labels (1 / 10)) 0 = 9 / 10 + 1 / 10000.
Proof. cbv zeta. destruct (Req_EM_T (1 / 10) 0) as [E|_]; [lra|]. unfold smooth_labels, ModelNets.one_hot. cbn [seq map nth]. change (Z.of_nat 0 =? 0)%Z with true. cbv iota. field. Qed.
(** Smoothed labels still sum to 1, so the gradient of the loss with respect to the logits is the softmax less the smoothed labels (C103). *)
Theorem C105_smooth_labels smoothing id : (0 <= id < 1000)%Z ->
  Rsum (smooth_labels (ModelNets.one_hot 0 1 1000 id) smoothing) = 1.
Proof.
  intros H. unfold smooth_labels. rewrite Rsum_plus, Rsum_const. unfold ModelNets.one_hot. rewrite map_length, seq_length.
  rewrite map_map. rewrite (Rsum_ext _ (fun k => if (k =? Z.to_nat id)%nat then 1 - smoothing else 0)).
  - rewrite (Rsum_pick 1000 (fun _ => 1 - smoothing)) by lia. rewrite INR_IZR_INZ. change (Z.of_nat 1000) with 1000%Z. field.
  - intros k _. destruct (Z.eqb_spec (Z.of_nat k) id), (Nat.eqb_spec k (Z.to_nat id)); try lia; ring.
Qed.
Print Assumptions C105_smooth_labels.

(** ** The loop *)
Section Loop.
Context {P S O B G : Type}.
Context (gradients : list (P * S * O) -> list B -> list G) (new_states : list (P * S * O) -> list B -> list S) (pmean_g : list G -> G) (optimizer : G -> O -> P -> P * O).
(** After any number of steps all replicas have the same parameters and the same optimizer state. *)
Theorem C105_in_step data rs p0 o0 : Forall (fun r => fst (fst r) = p0 /\ snd r = o0) rs -> exists p o, Forall (fun r => fst (fst r) = p /\ snd r = o) (train gradients new_states pmean_g optimizer rs data).
Proof.
  revert rs p0 o0. induction data as [|b data IH]; intros rs p0 o0 F; [exists p0, o0; exact F|]. change (train gradients new_states pmean_g optimizer rs (b :: data)) with (train gradients new_states pmean_g optimizer (train_step gradients new_states pmean_g optimizer rs b) data).
  set (g := pmean_g (gradients rs b)). apply IH with (fst (optimizer g o0 p0)) (snd (optimizer g o0 p0)).
  unfold train_step. fold g. apply Forall_map, Forall_forall. intros [[[p s] o] s'] I. apply in_combine_l in I. rewrite Forall_forall in F. destruct (F _ I) as [E1 E2]. cbn [fst snd] in *. subst p o. destruct (optimizer g o0 p0). cbn. auto.
Qed.
End Loop.
Print Assumptions C105_in_step.
(** The network state is not kept in step: averages of BatchNorm without [cross_replica_axis] differ after a step. *)
Theorem C105_state_refuted : ~ (forall (new_states : list (R * R * R) -> list R -> list R) data rs s0,
  (forall rs bs, new_states rs bs = map (fun p => 9 / 10 * snd (fst (fst p)) + 1 / 10 * snd p) (combine rs bs)) ->
  Forall (fun r => snd (fst r) = s0) rs -> exists s, Forall (fun r => snd (fst r) = s) (train (fun _ bs => bs) new_states mean (fun g o p => (p - g, o)) rs data)).
Proof.
  intros H. destruct (H (fun rs bs => map (fun p => 9 / 10 * snd (fst (fst p)) + 1 / 10 * snd p) (combine rs bs)) [[0; 10]] [(0, 0, 0); (0, 0, 0)] 0) as [s Hs]; [reflexivity | repeat constructor|].
  unfold train, train_step in Hs. cbn [fold_left map combine fst snd] in Hs. apply Forall_cons_iff in Hs as [H1 Hs]. apply Forall_cons_iff in Hs as [H2 _]. cbn [fst snd] in H1, H2. lra.
Qed.
Print Assumptions C105_state_refuted.
(** Two replicas that share a mean: the loss of replica [j] is [(w_j * x_j - mean)^2] with the mean over both. *)
Example C105_case : let mean2 : expr rvar := Div (Add (Mul (Var (0%nat, tt)) (Const 1)) (Mul (Var (1%nat, tt)) (Const 3))) (Const 2) in
  let losses j := esq (Sub (Mul (Var (j, tt)) (Const (if (j =? 0)%nat then 1 else 3))) mean2) in
  mean_gradient (fun _ _ => true) 2 losses (fun _ => 5) tt = 10 /\
  gradient (fun _ _ => true) (fun _ => 5) (emean (map (fun j => rename snd (losses j)) (seq 0 2))) tt = 10 /\
  replica_gradient (fun _ _ => true) 2 losses (fun _ => 5) 0%nat tt = -10.
Proof.
  cbv zeta. split; [|split].
  - unfold mean_gradient, replica_gradient, gradient, mean, rvar_eqb. cbn. rewrite ?Rsum_cons, ?Rsum_nil. cbn. field.
  - unfold gradient. cbn. field.
  - unfold replica_gradient, gradient, rvar_eqb. cbn. field.
Qed.

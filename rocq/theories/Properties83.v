(** * C103: gradients of the examples' losses *)
From Coq Require Import Reals ZArith List Bool Lia Lra.
From Verif Require Import ModelNets ModelTransformer ModelTraining ModelReal ModelLayers ModelVqEma Properties14 Properties15 Properties22 Properties24 Properties26 Properties35 Properties48 Properties80.
From Verif Require Import ModelGradients Properties81.
From Verif Require ModelVtrace.
Import ListNotations.
Local Open Scope R_scope.

Lemma zipw_zip2 (f : R -> R -> R) x y : zipw f x y = zip2 f x y. Proof. reflexivity. Qed.
Lemma dot_zip2 x y : dot x y = Rsum (zip2 Rmult x y). Proof. reflexivity. Qed.
Lemma zip2_map_r {A B B' C} (h : B -> B') (g : A -> B' -> C) (a : list A) b : zip2 g a (map h b) = zip2 (fun x y => g x (h y)) a b.
Proof. unfold zip2. revert b. induction a as [|x a IH]; intros [|y b]; try reflexivity. cbn [map combine]. now rewrite IH. Qed.

Lemma sum_pos {A} (f : A -> R) l : l <> [] -> 0 < Rsum (map (fun x => exp (f x)) l).
Proof. intros N. rewrite <- (map_map f exp). apply exp_sum_pos. destruct l; [congruence | discriminate]. Qed.

Lemma zip_self {A} (f g : A -> R) Z l : Rsum (zip2 (fun x y => f x / Z * g y) l l) = / Z * Rsum (map (fun x => f x * g x) l).
Proof. rewrite <- Rsum_scale, map_map. f_equal. unfold zip2. induction l as [|a l IH]; [reflexivity|]. cbn [combine map fst snd]. rewrite IH. f_equal. unfold Rdiv. ring. Qed.

Lemma Rsum_opp {A} (f : A -> R) l : - Rsum (map f l) = Rsum (map (fun x => - f x) l).
Proof. induction l as [|a l IH]; cbn [map]; [cbn; ring|]. rewrite !Rsum_cons, <- IH. ring. Qed.

Section Losses.
Context {V : Type}.
Implicit Types (env dir : V -> R) (l logits : list (expr V)).

(** ** log_softmax and the cross entropy *)
Theorem C103_log_softmax_values env l : map (ev env) (elog_softmax l) = log_softmax (map (ev env) l).
Proof.
  unfold elog_softmax, log_softmax. cbv zeta. rewrite !map_map. apply map_ext. intros x. cbn [ev]. rewrite ev_esum, !map_map. reflexivity.
Qed.
Lemma exp_shift m : forall L : list R, Rsum (map (fun y => exp (y - m)) L) = exp (- m) * Rsum (map exp L).
Proof. intros L. rewrite <- Rsum_scale, map_map. apply Rsum_ext. intros y _. rewrite <- exp_plus. f_equal. ring. Qed.
(** The derivative does not depend on the number that is subtracted for numerical reasons. *)
Theorem C103_log_softmax env dir l : l <> [] ->
  map (jvp env dir) (elog_softmax l) = map (fun x => jvp env dir x - dot (softmax (map (ev env) l)) (map (jvp env dir) l)) l.
Proof.
  intros N. unfold elog_softmax. cbv zeta. rewrite map_map. apply map_ext. intros x. cbn [jvp ev]. rewrite jvp_esum, ev_esum, !map_map. cbn [jvp ev].
  set (m := nth (argmax (map (ev env) l)) (map (ev env) l) 0). rewrite Rminus_0_r. f_equal.
  rewrite <- (map_map (ev env) (fun y => exp (y - m))), exp_shift, map_map.
  rewrite (Rsum_ext (fun x => exp (ev env x - m) * (jvp env dir x - 0)) (fun x => exp (- m) * (exp (ev env x) * jvp env dir x))).
  2: { intros y _. unfold Rminus at 1. rewrite exp_plus. ring. }
  rewrite <- (map_map (fun x => exp (ev env x) * jvp env dir x) (fun a => exp (- m) * a)), Rsum_scale.
  unfold softmax. rewrite map_map. rewrite dot_zip2, zip2_map_l, zip2_map_r, map_map.
  pose proof (sum_pos (ev env) l N) as P. pose proof (exp_pos (- m)) as Pm. set (Z := Rsum (map (fun x => exp (ev env x)) l)) in *.
  assert (E : Rsum (zip2 (fun x y => exp (ev env x) / Z * jvp env dir y) l l) = / Z * Rsum (map (fun x => exp (ev env x) * jvp env dir x) l)) by apply (zip_self (fun x => exp (ev env x))).
  rewrite E. field. lra.
Qed.
(** The derivative of the cross entropy in the direction [dl]: every logit is pulled by the difference between its probability (times the sum of the
    labels, 1 for a label in range) and its label. *)
Definition pull (labels L dl : list R) : R := dot (zipw (fun p y => Rsum labels * p - y) (softmax L) labels) dl.
Lemma dot_minus : forall x y z, length x = length y -> dot (zipw Rminus x y) z = dot x z - dot y z.
Proof. induction x as [|a x IH]; intros [|b y] [|c z] H; try discriminate H; try (unfold dot; cbn; ring). change (zipw Rminus (a :: x) (b :: y)) with ((a - b) :: zipw Rminus x y). rewrite !dot_cons, IH by now injection H. ring. Qed.
Theorem C103_cross_entropy_values env labels logits : ev env (exent labels logits) = softmax_cross_entropy (map (ev env) logits) labels.
Proof. unfold exent, softmax_cross_entropy. cbn [ev]. rewrite ev_esum, zip2_map. cbn [ev]. rewrite <- C103_log_softmax_values, zipw_zip2, zip2_map_r. ring. Qed.
Theorem C103_cross_entropy env dir labels logits : logits <> [] -> length labels = length logits ->
  jvp env dir (exent labels logits) = pull labels (map (ev env) logits) (map (jvp env dir) logits).
Proof.
  intros N L. unfold exent. cbn [jvp]. rewrite jvp_esum, zip2_map. cbn [jvp ev].
  rewrite (zip2_ext _ (fun y a => y * jvp env dir a)) by (intros; ring). rewrite <- (zip2_map_r (jvp env dir) Rmult), C103_log_softmax by exact N.
  unfold pull. set (d := dot (softmax (map (ev env) logits)) (map (jvp env dir) logits)).
  assert (E : Rsum (zip2 Rmult labels (map (fun x => jvp env dir x - d) logits)) = dot labels (map (jvp env dir) logits) - Rsum labels * d).
  { clear - L. clearbody d. revert logits L. induction labels as [|y labels IH]; intros [|x logits] L; try discriminate L; [unfold dot; cbn; ring|].
    cbn [map]. unfold zip2. cbn [combine map fst snd]. rewrite !Rsum_cons, dot_cons. fold (zip2 Rmult labels (map (fun x => jvp env dir x - d) logits)). rewrite IH by now injection L. ring. }
  rewrite E. assert (Lp : length (softmax (map (ev env) logits)) = length labels) by now rewrite softmax_length, map_length.
  assert (Q : dot (zipw (fun p y => Rsum labels * p - y) (softmax (map (ev env) logits)) labels) (map (jvp env dir) logits) = Rsum labels * d - dot labels (map (jvp env dir) logits)); [|lra].
  replace (zipw (fun p y => Rsum labels * p - y) (softmax (map (ev env) logits)) labels) with (zipw Rminus (map (fun p => p * Rsum labels) (softmax (map (ev env) logits))) labels).
  - rewrite dot_minus by now rewrite map_length. now rewrite dot_scale.
  - rewrite !zipw_zip2, zip2_map_l. apply zip2_ext. intros. ring.
Qed.
(** It is the derivative of the value, wherever the logits themselves have one: subtracting the largest logit without differentiating it does no harm. *)
Theorem C103_cross_entropy_sound env dir labels logits : logits <> [] -> length labels = length logits -> Forall (good env) logits -> Forall (settled env dir) logits ->
  derivable_pt_lim (fun t => softmax_cross_entropy (map (ev (line env dir t)) logits) labels) 0 (jvp env dir (exent labels logits)).
Proof.
  intros N L G S. set (e := Sub (Const 0) (esum (zip2 (fun y x => Mul (Const y) (Sub x (Ln (esum (map Exp logits))))) labels logits))).
  assert (Gx : forall (P : expr V -> Prop) y x, Forall P logits -> In (y, x) (combine labels logits) -> P x).
  { intros P y x F I. rewrite Forall_forall in F. apply F. now apply in_combine_r in I. }
  assert (GE : good env (esum (map Exp logits))) by (apply good_esum, Forall_map; exact G).
  assert (PE : 0 < ev env (esum (map Exp logits))) by (rewrite ev_esum, map_map; cbn [ev]; now apply sum_pos).
  assert (D : derivable_pt_lim (fun t => ev (line env dir t) e) 0 (jvp env dir e)).
  { apply C103_sound; unfold e; cbn [good settled]; (split; [exact I|]).
    - apply good_esum. unfold zip2. apply Forall_map, Forall_forall. intros [y x] I. cbn [fst snd good]. pose proof (Gx _ y x G I). tauto.
    - apply settled_esum. unfold zip2. apply Forall_map, Forall_forall. intros [y x] I. cbn [fst snd settled]. pose proof (Gx _ y x S I). split; [exact Logic.I|]. split; [assumption|]. apply settled_esum, Forall_map. exact S. }
  assert (J : jvp env dir e = jvp env dir (exent labels logits)).
  { unfold e, exent. cbn [jvp]. f_equal. rewrite !jvp_esum, !zip2_map. cbn [jvp ev]. f_equal. rewrite <- (zip2_map_r (jvp env dir) (fun y a => 0 * 0 + y * a)) || idtac.
    rewrite (zip2_ext (fun x y => 0 * ev env y + x * jvp env dir y) (fun y a => y * jvp env dir a)) by (intros; ring).
    rewrite <- (zip2_map_r (jvp env dir) Rmult labels (elog_softmax logits)), C103_log_softmax, zip2_map_r by exact N. apply zip2_ext. intros y x _.
    rewrite jvp_esum, ev_esum, !map_map. cbn [jvp ev]. unfold softmax. rewrite map_map, dot_zip2, zip2_map_l, zip2_map_r, map_map.
    pose proof (sum_pos (ev env) logits N) as P. set (Z := Rsum (map (fun x => exp (ev env x)) logits)) in *.
    assert (E : Rsum (zip2 (fun x y => exp (ev env x) / Z * jvp env dir y) logits logits) = / Z * Rsum (map (fun x => exp (ev env x) * jvp env dir x) logits)) by apply (zip_self (fun x => exp (ev env x))).
    rewrite E. field. lra. }
  rewrite <- J. eapply derivable_local; [|exact D]. apply locally_all. intros t. set (env' := line env dir t).
  unfold softmax_cross_entropy, e. cbn [ev]. rewrite ev_esum, zip2_map. cbn [ev]. rewrite <- C103_log_softmax_values, zipw_zip2, zip2_map_r.
  unfold elog_softmax. cbv zeta. rewrite zip2_map_r. rewrite Rminus_0_l. f_equal. f_equal. apply zip2_ext. intros y x _. cbn [ev]. rewrite !ev_esum, !map_map. cbn [ev].
  set (m := nth (argmax (map (ev env') logits)) (map (ev env') logits) 0). rewrite <- (map_map (ev env') (fun y => exp (y - m))), exp_shift, map_map, ln_mult, ln_exp by (apply exp_pos || now apply sum_pos). ring.
Qed.
(** Raising all logits by the same amount changes nothing, and the loss is stationary exactly if the probabilities are proportional to the labels. *)
Theorem C103_cross_entropy_stationary labels L : L <> [] -> length labels = length L ->
  (forall c, pull labels L (map (fun _ => c) L) = 0) /\
  ((forall dl, length dl = length L -> pull labels L dl = 0) <-> labels = map (fun p => Rsum labels * p) (softmax L)).
Proof.
  intros N E. assert (Lp : length (softmax L) = length labels) by now rewrite softmax_length.
  assert (F : forall dl, pull labels L dl = Rsum labels * dot (softmax L) dl - dot labels dl).
  { intros dl. unfold pull. replace (zipw (fun p y => Rsum labels * p - y) (softmax L) labels) with (zipw Rminus (map (fun p => p * Rsum labels) (softmax L)) labels).
    - rewrite dot_minus by now rewrite map_length. now rewrite dot_scale.
    - rewrite !zipw_zip2, zip2_map_l. apply zip2_ext. intros. ring. }
  assert (Dc : forall (x : list R) c, length x = length L -> dot x (map (fun _ => c) L) = c * Rsum x).
  { clear. intros x c. revert L. induction x as [|a x IH]; intros [|b L] H; try discriminate H; [unfold dot; cbn; ring|]. cbn [map]. rewrite dot_cons, Rsum_cons, IH by now injection H. ring. }
  split; [|split].
  - intros c. rewrite F, !Dc, softmax_sum by (assumption || now rewrite softmax_length). ring.
  - intros H. apply (nth_ext _ _ 0 0); [now rewrite map_length|]. intros i Hi.
    set (b := map (fun k => if (k =? i)%nat then 1 else 0) (seq 0 (length L))). assert (Lb : length b = length L) by (unfold b; now rewrite map_length, seq_length).
    specialize (H b Lb). rewrite F in H.
    assert (B : forall x, length x = length L -> dot x b = nth i x 0).
    { intros x Hx. rewrite dot_seq by congruence. rewrite Hx. rewrite (Rsum_ext _ (fun k => if (k =? i)%nat then nth k x 0 else 0)).
      - apply Rsum_pick. lia.
      - intros k K. apply in_seq in K. unfold b. rewrite (seq_nth_map (fun k => if (k =? i)%nat then 1 else 0) 0) by lia. destruct (k =? i)%nat; ring. }
    rewrite !B in H by (assumption || now rewrite softmax_length). rewrite (nth_indep (map (fun p => Rsum labels * p) (softmax L)) 0 (Rsum labels * 0)) by (rewrite map_length; lia). rewrite (map_nth (fun p => Rsum labels * p)). lra.
  - intros H dl Hd. rewrite F. rewrite H at 2. assert (S : map (fun p => Rsum labels * p) (softmax L) = map (fun p => p * Rsum labels) (softmax L)) by (apply map_ext; intros; ring). rewrite S, dot_scale. ring.
Qed.

(** ** The losses of the examples *)
Lemma one_hot_length z w k t : length (ModelNets.one_hot z w k t : list R) = k.
Proof. unfold ModelNets.one_hot. now rewrite map_length, seq_length. Qed.
Lemma ev_el2 env ps : ev env (el2 ps) = l2_loss (vals env ps).
Proof. unfold el2, l2_loss, vals. cbn [ev]. rewrite ev_esum, !map_map. f_equal. apply Rsum_ext. intros p _. rewrite ev_esum, !map_map. reflexivity. Qed.
Lemma jvp_el2 env dir ps : jvp env dir (el2 ps) = Rsum (map (fun p => Rsum (map (fun a => ev env a * jvp env dir a) p)) ps).
Proof.
  unfold el2. cbn [jvp ev]. rewrite jvp_esum, map_map. rewrite (Rsum_ext _ (fun p => 2 * Rsum (map (fun a => ev env a * jvp env dir a) p))).
  - rewrite <- (map_map (fun p => Rsum (map (fun a => ev env a * jvp env dir a) p)) (fun x => 2 * x)), Rsum_scale. field.
  - intros p _. rewrite jvp_esum, map_map, <- Rsum_scale, map_map. apply Rsum_ext. intros a _. cbn [jvp esq]. ring.
Qed.
(** mnist.py: the mean of the cross entropies, and every parameter pulled towards 0. *)
Theorem C103_mnist env dir batch params : batch <> [] -> Forall (fun e => length (fst e) = 10%nat) batch ->
  ev env (emnist_loss batch params) = mnist_loss (map (fun e => (map (ev env) (fst e), snd e)) batch) (vals env params) /\
  jvp env dir (emnist_loss batch params) =
    mean (map (fun e => pull (ModelNets.one_hot 0 1 10 (snd e)) (map (ev env) (fst e)) (map (jvp env dir) (fst e))) batch) +
    1 / 10000 * Rsum (map (fun p => Rsum (map (fun a => ev env a * jvp env dir a) p)) params).
Proof.
  intros N L. pose proof (len_pos batch N) as P. split.
  - unfold emnist_loss, mnist_loss. cbn [ev]. rewrite ev_el2, ev_esum, !map_map, map_length. f_equal. f_equal. rewrite Rsum_opp. apply Rsum_ext.
    intros e _. cbn [fst snd]. rewrite C103_cross_entropy_values. unfold softmax_cross_entropy. ring.
  - unfold emnist_loss. cbn [jvp ev]. rewrite jvp_el2, jvp_esum, map_map. unfold mean. rewrite map_length.
    rewrite (Rsum_ext (fun e => jvp env dir (exent (ModelNets.one_hot 0 1 10 (snd e)) (fst e))) (fun e => pull (ModelNets.one_hot 0 1 10 (snd e)) (map (ev env) (fst e)) (map (jvp env dir) (fst e)))).
    + field. lra.
    + intros e E. rewrite Forall_forall in L. specialize (L e E). apply C103_cross_entropy; [intros Z; rewrite Z in L; discriminate L|]. now rewrite one_hot_length.
Qed.
(** transformer/train.py: only positions with a token that is no padding pull on their logits. *)
Theorem C103_lm env dir vocab (logits : list (list (expr V))) obs target : (0 < vocab)%nat -> Forall (fun l => length l = vocab) logits -> length target = length logits -> length obs = length logits -> Rsum (input_mask obs) <> 0 ->
  lm_loss vocab (vals env logits) obs target = Some (ev env (elm_loss vocab logits obs target)) /\
  jvp env dir (elm_loss vocab logits obs target) =
    Rsum (map (fun p => pull (ModelNets.one_hot 0 1 vocab (snd (fst p))) (map (ev env) (fst (fst p))) (map (jvp env dir) (fst (fst p)))) (filter (fun p => (0 <? snd p)%Z) (combine (combine logits target) obs))) / Rsum (input_mask obs).
Proof.
  intros HV L Lt Lo M. split.
  - unfold lm_loss. cbv zeta. destruct (Req_EM_T _ _) as [|_]; [contradiction|]. unfold elm_loss. cbv zeta. cbn [ev]. rewrite ev_esum, zip2_map. cbn [ev].
    assert (E : zipw Rmult (map (fun p => cross_entropy vocab (fst p) (snd p)) (combine (vals env logits) target)) (input_mask obs) = zip2 (fun x y => ev env x * y) (zip2 (fun l t => exent (ModelNets.one_hot 0 1 vocab t) l) logits target) (input_mask obs)); [|now rewrite E].
    unfold zipw, zip2, input_mask. clear. revert obs target. induction logits as [|l logits IH]; intros [|o obs] [|t target]; try reflexivity. cbn [vals map combine fst snd]. f_equal; [|apply IH].
    rewrite C103_cross_entropy_values. reflexivity.
  - unfold elm_loss. cbv zeta. cbn [jvp ev]. rewrite jvp_esum, zip2_map. cbn [jvp ev].
    assert (E : Rsum (zip2 (fun x y => jvp env dir x * y + ev env x * 0) (zip2 (fun l t => exent (ModelNets.one_hot 0 1 vocab t) l) logits target) (input_mask obs)) =
      Rsum (map (fun p => pull (ModelNets.one_hot 0 1 vocab (snd (fst p))) (map (ev env) (fst (fst p))) (map (jvp env dir) (fst (fst p)))) (filter (fun p => (0 <? snd p)%Z) (combine (combine logits target) obs)))).
    { clear M. revert target obs Lt Lo. induction logits as [|l logits IH]; intros [|t target] [|o obs] Lt Lo; try discriminate Lt; try discriminate Lo; [reflexivity|]. apply Forall_cons_iff in L as [Ll L].
      unfold zip2, input_mask. cbn [combine map fst snd filter]. rewrite Rsum_cons. injection Lt as Lt. injection Lo as Lo. specialize (IH L target obs Lt Lo). unfold zip2, input_mask in IH. rewrite IH.
      destruct (0 <? o)%Z; [|ring]. cbn [map fst snd]. rewrite Rsum_cons, C103_cross_entropy; [ring | intros Z; rewrite Z in Ll; cbn in Ll; lia | now rewrite one_hot_length]. }
    rewrite E. field. exact M.
Qed.
(** vae.py: the logits are pulled by the difference between the probability of a pixel and the pixel; the mean towards 0 and the variance towards 1. *)
Theorem C103_binary_cross_entropy env dir x logits :
  ev env (ebinary_cross_entropy x logits) = binary_cross_entropy x (map (ev env) logits) /\
  jvp env dir (ebinary_cross_entropy x logits) = Rsum (zip2 (fun a b => (1 / (1 + exp (- ev env b)) - a) * jvp env dir b) x logits).
Proof.
  split.
  - unfold ebinary_cross_entropy, binary_cross_entropy. cbn [ev]. rewrite ev_esum, zip2_map. cbn [ev]. rewrite zipw_zip2, zip2_map_r. rewrite Rminus_0_l. f_equal. f_equal. apply zip2_ext. intros a b _. now rewrite logaddexp_0.
  - unfold ebinary_cross_entropy. cbn [jvp]. rewrite jvp_esum, zip2_map. cbn [jvp ev]. unfold zip2. induction (combine x logits) as [|[a b] ps IH]; [cbn; ring|]. cbn [map fst snd]. rewrite !Rsum_cons.
    assert (P : 0 < exp (ev env b)) by apply exp_pos. rewrite exp_Ropp. set (e := exp (ev env b)) in *.
    assert (F : 1 / (1 + / e) = e / (1 + e)) by (field; lra). rewrite F. unfold zip2 in IH. rewrite <- IH. field. lra.
Qed.
Theorem C103_kl_gaussian env dir mu var : Forall (fun v => 0 < ev env v) var ->
  ev env (ekl_gaussian mu var) = kl_gaussian (map (ev env) mu) (map (ev env) var) /\
  jvp env dir (ekl_gaussian mu var) = Rsum (zip2 (fun m v => ev env m * jvp env dir m + (1 - / ev env v) / 2 * jvp env dir v) mu var).
Proof.
  intros P. split.
  - unfold ekl_gaussian, kl_gaussian. cbn [ev]. f_equal. rewrite ev_esum, zip2_map, zipw_zip2, zip2_map_l, zip2_map_r. f_equal. apply zip2_ext. intros m v _. cbn [ev esq]. ring.
  - unfold ekl_gaussian. cbn [jvp ev]. rewrite jvp_esum, zip2_map. rewrite Rmult_0_l, Rplus_0_l, <- Rsum_scale. f_equal. rewrite zip2_map. apply zip2_ext. intros m v I. cbn [jvp ev esq].
    rewrite Forall_forall in P. pose proof (P v (in_combine_r _ _ _ _ I)). field. lra.
Qed.
(** impala: the logits are pulled towards the action taken, in proportion to the advantage, where the weight is not 0. *)
Theorem C103_policy_gradient env dir (logits : list (list (expr V))) actions adv w : let n := length logits in (0 < n)%nat -> length actions = n -> length adv = n -> length w = n ->
  Forall (fun p => (snd p < length (fst p))%nat) (combine logits actions) ->
  ev env (epolicy_gradient logits actions adv w) = ModelVtrace.rlax_policy_gradient_loss (vals env logits) actions adv w /\
  jvp env dir (epolicy_gradient logits actions adv w) =
    mean (map (fun p => let '(l, a, (d, w)) := p in w * d * (dot (softmax (map (ev env) l)) (map (jvp env dir) l) - jvp env dir (nth a l (Const 0)))) (combine (combine logits actions) (combine adv w))).
Proof.
  intros n N La Ld Lw H. split.
  - unfold epolicy_gradient, ModelVtrace.rlax_policy_gradient_loss. rewrite ev_emean, map_map. f_equal. unfold n in *. clear N n. revert actions adv w La Ld Lw H.
    induction logits as [|l logits IH]; intros [|a actions] [|d adv] [|x w] La Ld Lw H; try discriminate La; try discriminate Ld; try discriminate Lw; [reflexivity|].
    cbn [vals map combine] in *. apply Forall_cons_iff in H as [H1 H]. cbn [fst snd] in H1. unfold zipw. cbn [map combine fst snd ev]. fold (zipw Rmult).
    f_equal; [|apply IH; auto].
    unfold ModelVtrace.log_prob. rewrite <- C103_log_softmax_values. rewrite (map_nth (ev env) (elog_softmax l) (Const 0) a : nth a (map (ev env) (elog_softmax l)) 0 = _). ring.
  - unfold epolicy_gradient. rewrite jvp_emean, map_map.
    + f_equal. apply map_ext_in. intros [[l a] [d x]] I. cbn [jvp ev].
      assert (Ha : (a < length l)%nat). { rewrite Forall_forall in H. apply (H (l, a)). now apply in_combine_l in I. }
      assert (Nl : l <> []) by (intros ->; cbn in Ha; lia).
      assert (E : jvp env dir (nth a (elog_softmax l) (Const 0)) = jvp env dir (nth a l (Const 0)) - dot (softmax (map (ev env) l)) (map (jvp env dir) l)).
      { rewrite <- (map_nth (jvp env dir)), C103_log_softmax by exact Nl.
        rewrite (nth_indep _ _ ((fun x => jvp env dir x - dot (softmax (map (ev env) l)) (map (jvp env dir) l)) (Const 0))) by now rewrite map_length. now rewrite (map_nth (fun x => jvp env dir x - dot (softmax (map (ev env) l)) (map (jvp env dir) l))). }
      rewrite E. ring.
    + intros E. apply map_eq_nil in E. unfold n in *. destruct logits, actions, adv, w; cbn in *; try lia; discriminate.
Qed.
End Losses.
Print Assumptions C103_log_softmax_values.
Print Assumptions C103_log_softmax.
Print Assumptions C103_cross_entropy_values.
Print Assumptions C103_cross_entropy.
Print Assumptions C103_cross_entropy_sound.
Print Assumptions C103_cross_entropy_stationary.
Print Assumptions C103_mnist.
Print Assumptions C103_lm.
Print Assumptions C103_binary_cross_entropy.
Print Assumptions C103_kl_gaussian.
Print Assumptions C103_policy_gradient.

(** Logits 0 and 0 for the label 1: the first is pushed down and the second up by a half. *)
Example C103_cross_entropy_case : let env := fun _ : bool => 0 in let logits := [Var true; Var false] in let labels := [0; 1] in
  jvp env (fun b : bool => if b then 1 else 0) (exent labels logits) = 1 / 2 /\ jvp env (fun b : bool => if b then 0 else 1) (exent labels logits) = - (1 / 2) /\
  ev env (exent labels logits) = ln 2.
Proof.
  cbv zeta. rewrite !C103_cross_entropy, C103_cross_entropy_values by (discriminate || reflexivity). unfold pull, softmax, dot, zipw. cbn [map combine fst snd ev jvp]. rewrite !Rsum_cons, !Rsum_nil, exp_0.
  split; [field|]. split; [field|].
  unfold softmax_cross_entropy, zipw, log_softmax. cbv zeta. assert (A : nth (argmax [0; 0]) [0; 0] 0 = 0) by (destruct (argmax [0; 0]) as [|[|[|]]]; reflexivity).
  rewrite A. cbn [map combine fst snd]. rewrite !Rsum_cons, !Rsum_nil. replace (0 - 0) with 0 by ring. rewrite exp_0. replace (1 + (1 + 0)) with 2 by ring. ring.
Qed.
(** The pixel 1 with the logit 0; the mean 3 and the variance 1/2 of a latent variable. *)
Example C103_vae_case : jvp (fun _ : unit => 0) (fun _ => 1) (ebinary_cross_entropy [1] [Var tt]) = - (1 / 2) /\
  let env := fun b : bool => if b then 3 else 1 / 2 in
  jvp env (fun b => if b then 1 else 0) (ekl_gaussian [Var true] [Var false]) = 3 /\ jvp env (fun b => if b then 0 else 1) (ekl_gaussian [Var true] [Var false]) = - (1 / 2).
Proof.
  split.
  - rewrite (proj2 (C103_binary_cross_entropy _ _ _ _)). unfold zip2. cbn [combine map fst snd ev jvp]. rewrite Rsum_cons, Rsum_nil, Ropp_0, exp_0. field.
  - cbv zeta. assert (P : Forall (fun v : expr bool => 0 < ev (fun b : bool => if b then 3 else 1 / 2) v) [Var false]) by (constructor; [cbn; lra | constructor]).
    rewrite !(fun dir => proj2 (C103_kl_gaussian _ dir _ _ P)). unfold zip2. cbn [combine map fst snd ev jvp]. rewrite !Rsum_cons, !Rsum_nil. split; field.
Qed.
(** Two positions, of which the second is padding: only the logits of the first are pulled. *)
Example C103_lm_case : let logits := [[Var 0%nat; Var 1%nat]; [Var 2%nat; Var 3%nat]] in
  map (fun v => jvp (fun _ => 0) (fun w => if (w =? v)%nat then 1 else 0) (elm_loss 2 logits [1; 0]%Z [1; 0]%Z)) [0; 1; 2; 3]%nat = [1 / 2; - (1 / 2); 0; 0].
Proof.
  intros logits. assert (M : Rsum (input_mask [1; 0]%Z) = 1) by (cbn; ring).
  assert (E : forall dir, jvp (fun _ : nat => 0) dir (elm_loss 2 logits [1; 0]%Z [1; 0]%Z) = 1 / 2 * dir 0%nat - 1 / 2 * dir 1%nat).
  { intros dir. destruct (C103_lm (fun _ : nat => 0) dir 2 logits [1; 0]%Z [1; 0]%Z) as [_ J]; try lia; try reflexivity; try (rewrite M; lra).
    - unfold logits. constructor; [reflexivity|]. constructor; [reflexivity | constructor].
    - rewrite J, M. unfold logits. cbn [combine filter map fst snd Z.ltb Z.compare]. rewrite Rsum_cons, Rsum_nil. unfold pull, softmax, dot, zipw, ModelNets.one_hot.
      cbn [seq map combine fst snd ev jvp Z.of_nat Z.eqb Pos.eqb Pos.of_succ_nat]. rewrite !Rsum_cons, !Rsum_nil, exp_0. field. }
  cbn [map]. rewrite !E. cbn [Nat.eqb]. repeat (apply f_equal2; [field|]). reflexivity.
Qed.
(** One step with equal logits, the first action and the advantage 2. *)
Example C103_policy_gradient_case : let logits := [[Var true; Var false]] in
  jvp (fun _ => 0) (fun b : bool => if b then 1 else 0) (epolicy_gradient logits [0%nat] [2] [1]) = -1 /\ jvp (fun _ => 0) (fun b : bool => if b then 0 else 1) (epolicy_gradient logits [0%nat] [2] [1]) = 1.
Proof.
  intros logits. assert (E : forall dir, jvp (fun _ : bool => 0) dir (epolicy_gradient logits [0%nat] [2] [1]) = dir false - dir true).
  { intros dir. destruct (C103_policy_gradient (fun _ : bool => 0) dir logits [0%nat] [2] [1]) as [_ J]; try (cbn; lia); try reflexivity.
    - unfold logits. cbn [combine]. constructor; [cbn; lia | constructor].
    - rewrite J. unfold logits, mean, softmax, dot. cbn [combine map fst snd nth ev jvp length INR]. rewrite !Rsum_cons, !Rsum_nil, exp_0. field. }
  rewrite !E. split; ring.
Qed.
(** Ten equal logits for the label 0 and the parameter 3. *)
Example C103_mnist_case : let logits := map Var (seq 0 10) in let env := fun i => if (i =? 10)%nat then 3 else 0 in
  map (fun v => jvp env (fun w => if (w =? v)%nat then 1 else 0) (emnist_loss [(logits, 0%Z)] [[Var 10%nat]])) [0; 1; 10]%nat = [- (9 / 10); 1 / 10; 3 / 10000].
Proof.
  intros logits env.
  assert (E : forall dir, jvp env dir (emnist_loss [(logits, 0%Z)] [[Var 10%nat]]) = Rsum (map dir (seq 0 10)) / 10 - dir 0%nat + 3 / 10000 * dir 10%nat).
  { intros dir. destruct (C103_mnist env dir [(logits, 0%Z)] [[Var 10%nat]]) as [_ J]; [discriminate | constructor; [reflexivity | constructor]|].
    rewrite J. unfold logits, mean, pull, softmax, dot, zipw, ModelNets.one_hot, env. cbn [seq map combine fst snd ev jvp length INR Z.of_nat Z.eqb Pos.eqb Pos.of_succ_nat Nat.eqb]. rewrite !Rsum_cons, !Rsum_nil, exp_0. field. }
  cbn [map]. rewrite !E. cbn [seq map Nat.eqb]. rewrite !Rsum_cons, !Rsum_nil. repeat (apply f_equal2; [field|]). reflexivity.
Qed.

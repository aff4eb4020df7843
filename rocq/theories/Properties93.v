(** * C107: the gradients of one attention head in closed form *)
From Coq Require Import Reals ZArith List Bool Lia Lra.
From Verif Require Import ModelNets ModelTransformer ModelTraining ModelReal ModelLayers ModelGradients ModelBackprop ModelAttGrad Properties14 Properties15 Properties22 Properties24 Properties80 Properties81 Properties83 Properties86 Properties88 Properties92.
Import ListNotations.
Local Open Scope R_scope.

Definition ssum (n : nat) (f : nat -> R) : R := Rsum (map f (seq 0 n)).
Lemma ssum_ext n f g : (forall i, (i < n)%nat -> f i = g i) -> ssum n f = ssum n g.
Proof. intros H. unfold ssum. apply Rsum_ext. intros i Hi. apply H. apply in_seq in Hi. lia. Qed.
Lemma ssum_plus n f g : ssum n (fun i => f i + g i) = ssum n f + ssum n g. Proof. apply Rsum_plus. Qed.
Lemma ssum_scale n c f : ssum n (fun i => c * f i) = c * ssum n f. Proof. unfold ssum. now rewrite <- Rsum_scale, map_map. Qed.
Lemma ssum_zero n : ssum n (fun _ => 0) = 0. Proof. unfold ssum. rewrite Rsum_const. ring. Qed.
Lemma ssum_swap n m f : ssum n (fun i => ssum m (f i)) = ssum m (fun j => ssum n (fun i => f i j)).
Proof.
  unfold ssum. induction (seq 0 n) as [|i l IH].
  - cbn [map]. rewrite Rsum_nil. symmetry. transitivity (Rsum (map (fun _ : nat => 0) (seq 0 m))); [now apply Rsum_ext|]. rewrite Rsum_const. ring.
  - cbn [map]. rewrite Rsum_cons, IH, <- Rsum_plus. apply Rsum_ext. intros j _. now rewrite Rsum_cons.
Qed.
Lemma ssum_delta n k f : (k < n)%nat -> ssum n (fun i => if (i =? k)%nat then f i else 0) = f k.
Proof.
  intros H. unfold ssum. assert (G : forall a m, (a <= k < a + m)%nat -> Rsum (map (fun i => if (i =? k)%nat then f i else 0) (seq a m)) = f k).
  { intros a m. revert a. induction m as [|m IH]; intros a L; [lia|]. cbn [seq map]. rewrite Rsum_cons. destruct (a =? k)%nat eqn:E.
    - apply Nat.eqb_eq in E. subst a. rewrite (Rsum_ext _ (fun _ => 0)), Rsum_const; [ring|]. intros i Hi. apply in_seq in Hi. destruct (i =? k)%nat eqn:F; [apply Nat.eqb_eq in F; lia | reflexivity].
    - apply Nat.eqb_neq in E. rewrite IH by lia. ring. }
  apply G. lia.
Qed.
Lemma ssum_abs n f : Rabs (ssum n f) <= ssum n (fun i => Rabs (f i)).
Proof. unfold ssum. induction (seq 0 n) as [|i l IH]; cbn [map]; rewrite ?Rsum_nil, ?Rsum_cons; [rewrite Rabs_R0; lra|]. eapply Rle_trans; [apply Rabs_triang | lra]. Qed.
Lemma ssum_le n f g : (forall i, (i < n)%nat -> f i <= g i) -> ssum n f <= ssum n g.
Proof.
  intros H. unfold ssum. assert (G : forall i, In i (seq 0 n) -> f i <= g i) by (intros i Hi; apply H; apply in_seq in Hi; lia). clear H. induction (seq 0 n) as [|i l IH]; cbn [map]; rewrite ?Rsum_nil, ?Rsum_cons; [lra|].
  pose proof (G i (or_introl eq_refl)). specialize (IH (fun j Hj => G j (or_intror Hj))). lra.
Qed.
Lemma avar_eqb_spec a b : avar_eqb a b = true <-> a = b.
Proof. destruct a, b; cbn; rewrite ?andb_true_iff, ?Nat.eqb_eq; split; intros H; try discriminate H; try (injection H; auto; fail); try (destruct H); congruence. Qed.

Section Head.
Context (S d n : nat) (big : R) (mask : option (list R)) (ct : nat -> R) (env : avar -> R).
Context (HS : (0 < S)%nat) (Hd : (0 < d)%nat) (Hm : match mask with Some m => length m = S | None => True end).
(** The weight of position [s] *)
Definition weights : list R := att_weights d big (map (fun e => env (AQ e)) (seq 0 d)) (map (fun s => map (fun e => env (AK s e)) (seq 0 d)) (seq 0 S)) mask.
Definition weight (s : nat) : R := nth s weights 0.
(** ... what an output of that position alone would be worth, and the worth of the output, *)
Definition worth (s : nat) : R := ssum n (fun j => ct j * env (AV s j)).
Definition mean_worth : R := ssum S (fun s => weight s * worth s).
(** ... and the gradient of the logit of that position. *)
Definition glogit (s : nat) : R := weight s * (worth s - mean_worth).

Let ls := eatt_logits d big (aq d) (ak S d) mask.
Lemma vals_ak : vals env (ak S d) = map (fun s => map (fun e => env (AK s e)) (seq 0 d)) (seq 0 S).
Proof. unfold vals, ak. rewrite map_map. apply map_ext. intros s. now rewrite map_map. Qed.
Lemma vals_aq : map (ev env) (aq d) = map (fun e => env (AQ e)) (seq 0 d).
Proof. unfold aq. now rewrite map_map. Qed.
Lemma ev_weights : map (ev env) (esoftmax ls) = weights.
Proof. unfold ls. rewrite ev_softmax, ev_logits, vals_ak, vals_aq. reflexivity. Qed.
Lemma ls_length : length ls = S.
Proof.
  unfold ls, eatt_logits. assert (L : forall f : list (expr avar) -> expr avar, length (map f (ak S d)) = S) by (intros f; unfold ak; now rewrite !map_length, seq_length).
  destruct mask as [m|]; [|apply L]. unfold zip2. rewrite map_length, combine_length, L. rewrite Hm. apply Nat.min_id.
Qed.
Lemma weights_facts : length weights = S /\ Forall (fun p => 0 < p) weights /\ Rsum weights = 1.
Proof.
  unfold weights. destruct (C67_weights d big (map (fun e => env (AQ e)) (seq 0 d)) (map (fun s => map (fun e => env (AK s e)) (seq 0 d)) (seq 0 S)) mask) as (L & P & T).
  - destruct S; [lia | discriminate].
  - unfold mask_fits. destruct mask; [now rewrite map_length, seq_length | exact I].
  - rewrite map_length, seq_length in L. split; [exact L|]. split; [|exact T]. eapply Forall_impl; [|exact P]. now intros p [].
Qed.
Lemma as_seq {A} (l : list A) (x : A) : l = map (fun s => nth s l x) (seq 0 (length l)).
Proof.
  induction l as [|a l IH]; [reflexivity|]. cbn [length seq map nth]. f_equal. rewrite <- seq_shift, map_map. exact IH.
Qed.
Lemma weights_sum : ssum S weight = 1.
Proof. destruct weights_facts as (L & _ & T). unfold ssum, weight. rewrite <- L, <- as_seq. exact T. Qed.
Lemma weight_pos s : (s < S)%nat -> 0 < weight s.
Proof. destruct weights_facts as (L & P & _). intros H. rewrite Forall_forall in P. apply P, nth_In. lia. Qed.
(** The gradients of the logits add up to nothing. *)
Lemma glogit_sum : ssum S glogit = 0.
Proof.
  unfold glogit. rewrite (ssum_ext _ _ (fun s => weight s * worth s + (- mean_worth) * weight s)) by (intros; ring). rewrite ssum_plus, ssum_scale, weights_sum. unfold mean_worth. ring.
Qed.

(** The derivative of a logit *)
Definition dlogit (dir : avar -> R) (s : nat) : R := ssum d (fun e => dir (AQ e) * env (AK s e) + env (AQ e) * dir (AK s e)) / sqrt (INR d).
Lemma sqrt_d : 0 < sqrt (INR d). Proof. now apply sqrt_lt_R0, lt_0_INR. Qed.
Lemma jvp_ls dir : map (jvp env dir) ls = map (dlogit dir) (seq 0 S).
Proof.
  assert (G : map (jvp env dir) (map (fun k => Div (edot (aq d) k) (Const (sqrt (INR d)))) (ak S d)) = map (dlogit dir) (seq 0 S)).
  { unfold ak. rewrite !map_map. apply map_ext. intros s. cbn [jvp ev]. rewrite jvp_edot, !dot_zip2. unfold aq. rewrite !map_map, !zip2_seq. cbn [jvp ev]. unfold dlogit, ssum. rewrite Rsum_plus. pose proof sqrt_d. field. lra. }
  unfold ls, eatt_logits. destruct mask as [m|]; [|exact G]. rewrite <- G.
  assert (L : length (map (fun k => Div (edot (aq d) k) (Const (sqrt (INR d)))) (ak S d)) = length m) by (unfold ak; now rewrite !map_length, seq_length, Hm).
  revert L. generalize (map (fun k => Div (edot (aq d) k) (Const (sqrt (INR d)))) (ak S d)). clear. intros l. revert m. induction l as [|x l IH]; intros [|b m] L; try discriminate L; [reflexivity|].
  unfold zip2 in *. cbn [combine map fst snd jvp]. rewrite IH by now injection L. f_equal. ring.
Qed.
Lemma head_nth j : (j < n)%nat -> nth j (eatt_head d n big (aq d) (ak S d) (av S n) mask) (Const 0) = esum (zip2 Mul (esoftmax ls) (map (fun s => Var (AV s j)) (seq 0 S))).
Proof.
  intros Hj. unfold eatt_head, eatt_head_with, ematmul. fold ls. rewrite (nth_indep _ (Const 0) (esum (zip2 Mul (esoftmax ls) (ecolumn 0 (av S n))))) by now rewrite map_length, seq_length.
  rewrite (map_nth (fun j => esum (zip2 Mul (esoftmax ls) (ecolumn j (av S n))))), seq_nth by exact Hj. cbn [Nat.add]. unfold ecolumn, av. rewrite map_map. do 2 f_equal. apply map_ext. intros s.
  rewrite (nth_indep _ (Const 0) (Var (AV s 0))) by now rewrite map_length, seq_length. rewrite (map_nth (fun j => Var (AV s j))), seq_nth by exact Hj. reflexivity.
Qed.
(** The value of the head. *)
Definition headv (j : nat) : R := ssum S (fun s => weight s * env (AV s j)).
Lemma weights_seq : weights = map weight (seq 0 S).
Proof. destruct weights_facts as (L & _). rewrite (as_seq weights 0) at 1. now rewrite L. Qed.
Lemma mean_worth_head : mean_worth = ssum n (fun j => ct j * headv j).
Proof.
  unfold mean_worth, worth, headv. rewrite (ssum_ext S _ (fun s => ssum n (fun j => weight s * (ct j * env (AV s j))))) by (intros; now rewrite ssum_scale).
  rewrite ssum_swap. apply ssum_ext. intros j _. rewrite <- ssum_scale. apply ssum_ext. intros s _. ring.
Qed.
(** The derivative of the loss: of the logits with their gradients, of the values with the weights. *)
Lemma jvp_aloss dir : jvp env dir (aloss S d n big mask ct) = ssum S (fun s => glogit s * dlogit dir s) + ssum n (fun j => ct j * ssum S (fun s => weight s * dir (AV s j))).
Proof.
  unfold aloss. rewrite jvp_esum, map_map. cbn [jvp ev]. change (ssum n (fun j => 0 * ev env (nth j (eatt_head d n big (aq d) (ak S d) (av S n) mask) (Const 0)) + ct j * jvp env dir (nth j (eatt_head d n big (aq d) (ak S d) (av S n) mask) (Const 0))) =
    ssum S (fun s => glogit s * dlogit dir s) + ssum n (fun j => ct j * ssum S (fun s => weight s * dir (AV s j)))).
  set (D := ssum S (fun s => weight s * dlogit dir s)).
  rewrite (ssum_ext n _ (fun j => ssum S (fun s => (weight s * (dlogit dir s - D)) * (ct j * env (AV s j))) + ct j * ssum S (fun s => weight s * dir (AV s j)))).
  2: { intros j Hj. rewrite head_nth by exact Hj. rewrite Rmult_0_l, Rplus_0_l. change (esum (zip2 Mul (esoftmax ls) (map (fun s => Var (AV s j)) (seq 0 S)))) with (edot (esoftmax ls) (map (fun s => Var (AV s j)) (seq 0 S))).
    rewrite jvp_edot, C107_softmax, jvp_ls, ev_weights. rewrite <- ev_softmax, ev_weights.
    assert (E : dot weights (map (dlogit dir) (seq 0 S)) = D) by (rewrite weights_seq, dot_zip2, zip2_seq; reflexivity). rewrite E. rewrite weights_seq, zipw_zip2, zip2_seq, !map_map, !dot_zip2, !zip2_seq. cbn [ev jvp].
    rewrite Rmult_plus_distr_l. f_equal. fold (ssum S (fun i => weight i * (dlogit dir i - D) * env (AV i j))). rewrite <- ssum_scale. apply ssum_ext. intros s _. ring. }
  rewrite ssum_plus. f_equal. rewrite <- (ssum_swap S n (fun s j => (weight s * (dlogit dir s - D)) * (ct j * env (AV s j)))).
  rewrite (ssum_ext S _ (fun s => weight s * worth s * dlogit dir s + (- D) * (weight s * worth s))) by (intros s _; rewrite ssum_scale; fold (worth s); ring).
  rewrite ssum_plus, ssum_scale. fold mean_worth. unfold glogit.
  rewrite (ssum_ext S (fun s => weight s * (worth s - mean_worth) * dlogit dir s) (fun s => weight s * worth s * dlogit dir s + (- mean_worth) * (weight s * dlogit dir s))) by (intros; ring).
  rewrite ssum_plus, ssum_scale. fold D. ring.
Qed.
Lemma good_aloss : good env (aloss S d n big mask ct).
Proof.
  unfold aloss. apply good_esum, Forall_map, Forall_forall. intros j Hj. apply in_seq in Hj. split; [exact I|]. rewrite head_nth by lia. apply good_esum.
  assert (L : Forall (good env) ls).
  { unfold ls, eatt_logits. assert (L0 : Forall (good env) (map (fun k => Div (edot (aq d) k) (Const (sqrt (INR d)))) (ak S d))).
    { unfold ak. rewrite map_map. apply Forall_map, Forall_forall. intros s _. cbn [good ev]. split; [|split; [exact I | pose proof sqrt_d; lra]]. unfold edot, aq. rewrite zip2_seq. apply good_esum, Forall_map, Forall_forall. intros e _. now split. }
    destruct mask as [m|]; [|exact L0]. clear - L0. revert m. induction L0 as [|e l E F IH]; intros [|b m]; try constructor; [split; [exact E | exact I] | apply IH]. }
  assert (W : Forall (good env) (esoftmax ls)).
  { unfold esoftmax. cbv zeta. apply Forall_map, Forall_forall. intros e He. pose proof L as L'. rewrite Forall_forall in L'. cbn [good]. split; [split; [now apply L' | exact I]|]. split.
    - apply good_esum, Forall_map. eapply Forall_impl; [|exact L]. intros a A. split; [exact A | exact I].
    - rewrite ev_esum, map_map. cbn [ev]. set (m := nth (argmax (map (ev env) ls)) (map (ev env) ls) 0). assert (N : ls <> []) by (intros N; rewrite N in He; destruct He).
      rewrite <- (map_map (ev env) (fun y => exp (y - m))), exp_shift, map_map. pose proof (sum_pos (ev env) ls N). pose proof (exp_pos (- m)). nra. }
  assert (X : forall ys : list (expr avar), Forall (good env) ys -> Forall (good env) (zip2 Mul (esoftmax ls) ys)).
  { clear - W. induction W as [|x l X W IH]; intros ys Y; [constructor|]. destruct Y as [|y ys Y Ys]; [constructor|]. unfold zip2 in *. cbn [combine map fst snd]. constructor; [now split | now apply IH]. }
  apply X, Forall_map, Forall_forall. intros s _. exact I.
Qed.
Lemma grad_is v : gradient avar_eqb env (aloss S d n big mask ct) v = jvp env (basis avar_eqb v) (aloss S d n big mask ct).
Proof. unfold gradient. rewrite C103_reverse by apply good_aloss. apply Rmult_1_l. Qed.

(** The gradient with respect to the value of a position: its weight, times the gradient of the output. *)
Theorem C107_value_gradient s j : (s < S)%nat -> (j < n)%nat -> gradient avar_eqb env (aloss S d n big mask ct) (AV s j) = weight s * ct j.
Proof.
  intros Hs Hj. rewrite grad_is, jvp_aloss. rewrite (ssum_ext S _ (fun _ => 0)), ssum_zero, Rplus_0_l.
  - rewrite (ssum_ext n _ (fun j' => if (j' =? j)%nat then weight s * ct j' else 0)).
    + now rewrite ssum_delta.
    + intros j' _. rewrite (ssum_ext S _ (fun s' => if (s' =? s)%nat then (if (j' =? j)%nat then weight s' else 0) else 0)).
      * rewrite ssum_delta by exact Hs. destruct (j' =? j)%nat; ring.
      * intros s' _. unfold basis. cbn [avar_eqb]. destruct (s' =? s)%nat, (j' =? j)%nat; cbn [andb]; ring.
  - intros s' _. unfold dlogit. rewrite (ssum_ext d _ (fun _ => 0)), ssum_zero; [unfold Rdiv; ring|]. intros e _. unfold basis. cbn [avar_eqb]. ring.
Qed.
(** ... to the key of a position: the query, times the gradient of the logit, *)
Theorem C107_key_gradient s e : (s < S)%nat -> (e < d)%nat -> gradient avar_eqb env (aloss S d n big mask ct) (AK s e) = glogit s * (env (AQ e) / sqrt (INR d)).
Proof.
  intros Hs He. rewrite grad_is, jvp_aloss. rewrite (ssum_ext n _ (fun _ => 0)), ssum_zero, Rplus_0_r.
  - rewrite (ssum_ext S _ (fun s' => if (s' =? s)%nat then glogit s' * (env (AQ e) / sqrt (INR d)) else 0)).
    + now rewrite ssum_delta.
    + intros s' _. unfold dlogit. rewrite (ssum_ext d _ (fun e' => if (e' =? e)%nat then (if (s' =? s)%nat then env (AQ e') else 0) else 0)).
      * rewrite ssum_delta by exact He. destruct (s' =? s)%nat; unfold Rdiv; ring.
      * intros e' _. unfold basis. cbn [avar_eqb]. destruct (s' =? s)%nat, (e' =? e)%nat; cbn [andb]; ring.
  - intros j _. rewrite (ssum_ext S _ (fun _ => 0)), ssum_zero; [ring|]. intros s' _. unfold basis. cbn [avar_eqb]. ring.
Qed.
(** ... and to the query: the keys, weighted by the gradients of their logits. *)
Theorem C107_query_gradient e : (e < d)%nat -> gradient avar_eqb env (aloss S d n big mask ct) (AQ e) = ssum S (fun s => glogit s * (env (AK s e) / sqrt (INR d))).
Proof.
  intros He. rewrite grad_is, jvp_aloss. rewrite (ssum_ext n _ (fun _ => 0)), ssum_zero, Rplus_0_r.
  - apply ssum_ext. intros s _. f_equal. unfold dlogit. rewrite (ssum_ext d _ (fun e' => if (e' =? e)%nat then env (AK s e') else 0)).
    + now rewrite ssum_delta.
    + intros e' _. unfold basis. cbn [avar_eqb]. destruct (e' =? e)%nat; ring.
  - intros j _. rewrite (ssum_ext S _ (fun _ => 0)), ssum_zero; [ring|]. intros s' _. unfold basis. cbn [avar_eqb]. ring.
Qed.
(** Moving all keys together changes nothing: their gradients add up to zero.  Those of the values add up to the gradient of the output. *)
Theorem C107_conserves : (forall e, (e < d)%nat -> ssum S (fun s => gradient avar_eqb env (aloss S d n big mask ct) (AK s e)) = 0) /\
  (forall j, (j < n)%nat -> ssum S (fun s => gradient avar_eqb env (aloss S d n big mask ct) (AV s j)) = ct j).
Proof.
  split.
  - intros e He. rewrite (ssum_ext S _ (fun s => (env (AQ e) / sqrt (INR d)) * glogit s)) by (intros s Hs; rewrite C107_key_gradient by assumption; ring). rewrite ssum_scale, glogit_sum. ring.
  - intros j Hj. rewrite (ssum_ext S _ (fun s => ct j * weight s)) by (intros s Hs; rewrite C107_value_gradient by assumption; ring). rewrite ssum_scale, weights_sum. ring.
Qed.
(** A masked position takes part only by as much as [C67_masked] bounds: in particular its value and its key get a gradient of at most [exp (2 B - big)] times
    something that does not depend on [big]. *)
Theorem C107_masked m s B A : mask = Some m -> (s < S)%nat -> nth s m 1 = 0 -> In 1 m ->
  (forall s, (s < S)%nat -> Rabs (ssum d (fun e => env (AQ e) * env (AK s e)) / sqrt (INR d)) <= B) ->
  (forall s, (s < S)%nat -> Rabs (worth s) <= A) ->
  (forall j, (j < n)%nat -> Rabs (gradient avar_eqb env (aloss S d n big mask ct) (AV s j)) <= exp (2 * B - big) * Rabs (ct j)) /\
  (forall e, (e < d)%nat -> Rabs (gradient avar_eqb env (aloss S d n big mask ct) (AK s e)) <= exp (2 * B - big) * (2 * A) * (Rabs (env (AQ e)) / sqrt (INR d))).
Proof.
  intros Em Hs Hz Hin HB HA.
  assert (W : weight s <= exp (2 * B - big)).
  { unfold weight, weights. rewrite Em. apply C67_masked; [rewrite map_length, seq_length; now rewrite Em in Hm | now rewrite map_length, seq_length | exact Hz | exact Hin |].
    apply Forall_map, Forall_forall. intros s' H'. apply in_seq in H'. rewrite dot_zip2, zip2_seq. apply HB. lia. }
  pose proof (weight_pos s Hs) as P. split.
  - intros j Hj. rewrite C107_value_gradient by assumption. rewrite Rabs_mult, (Rabs_pos_eq (weight s)) by lra. apply Rmult_le_compat_r; [apply Rabs_pos | exact W].
  - intros e He. rewrite C107_key_gradient by assumption. unfold glogit. rewrite !Rabs_mult, (Rabs_pos_eq (weight s)) by lra. pose proof sqrt_d as Q. unfold Rdiv at 1. rewrite Rabs_mult, (Rabs_pos_eq (/ sqrt (INR d))) by (left; now apply Rinv_0_lt_compat). fold (Rabs (env (AQ e)) / sqrt (INR d)).
    assert (M : Rabs mean_worth <= A).
    { unfold mean_worth. eapply Rle_trans; [apply ssum_abs|]. eapply Rle_trans; [apply (ssum_le S _ (fun s => A * weight s))|].
      - intros i Hi. rewrite Rabs_mult, (Rabs_pos_eq (weight i)) by (left; now apply weight_pos). rewrite Rmult_comm. apply Rmult_le_compat_r; [left; now apply weight_pos | now apply HA].
      - rewrite ssum_scale, weights_sum. lra. }
    assert (D : Rabs (worth s - mean_worth) <= 2 * A) by (specialize (HA s Hs); unfold Rabs in *; repeat destruct Rcase_abs; lra).
    apply Rmult_le_compat_r; [apply Rmult_le_pos; [apply Rabs_pos | left; now apply Rinv_0_lt_compat]|]. apply Rmult_le_compat; [lra | apply Rabs_pos | exact W | exact D].
Qed.
End Head.
Print Assumptions C107_value_gradient.
Print Assumptions C107_key_gradient.
Print Assumptions C107_query_gradient.
Print Assumptions C107_conserves.
Print Assumptions C107_masked.

(** In exact arithmetic a masked position is not without a gradient, however large the number subtracted from its logit. *)
Theorem C107_masked_refuted : ~ (exists big, forall env, gradient avar_eqb env (aloss 2 1 1 big (Some [1; 0]) (fun _ => 1)) (AV 1 0) = 0).
Proof.
  intros (big & H). specialize (H (fun _ => 0)). rewrite C107_value_gradient in H by (cbn; lia || reflexivity). pose proof (weight_pos 2 1 big (Some [1; 0]) (fun _ => 0) ltac:(lia) ltac:(lia) eq_refl 1%nat ltac:(lia)). lra.
Qed.
Print Assumptions C107_masked_refuted.
(** Two positions with equal logits, values 3 and 5: each gets half of the gradient of the output, and the logits get -1/2 and 1/2. *)
Definition case_env (v : avar) : R := match v with AQ _ => 2 | AK s e => if (s =? e)%nat then 1 else 0 | AV 0 _ => 3 | AV _ _ => 5 end.
Example C107_case :
  let g := gradient avar_eqb case_env (aloss 2 4 1 1 None (fun _ => 1)) in
  g (AV 0 0) = 1 / 2 /\ g (AV 1 0) = 1 / 2 /\ g (AK 0 0) = - (1 / 2) /\ g (AK 1 3) = 1 / 2 /\ g (AQ 0) = - (1 / 4) /\ g (AQ 1) = 1 / 4 /\ g (AQ 2) = 0.
Proof.
  assert (Q : sqrt (INR 4) = 2) by (replace (INR 4) with (2 * 2) by (cbn; ring); apply sqrt_square; lra).
  assert (W : weights 2 4 1 None case_env = [1 / 2; 1 / 2]).
  { unfold weights, att_weights. rewrite jax_softmax_eq. unfold att_logits. rewrite Q. cbn [map seq]. unfold dot, zipw. cbn [combine map fst snd case_env Nat.eqb]. unfold softmax. cbn [map].
    rewrite !Rsum_cons, !Rsum_nil. match goal with |- [exp ?a / _; exp ?b / _] = _ => replace a with 1 by field; replace b with 1 by field end. pose proof (exp_pos 1). repeat (apply f_equal2; [field; lra|]). reflexivity. }
  cbv zeta. rewrite !C107_value_gradient, !C107_key_gradient, !C107_query_gradient by (lia || exact I). unfold glogit, mean_worth, weight, worth. rewrite W, Q. unfold ssum. cbn [seq map nth case_env Nat.eqb]. rewrite !Rsum_cons, !Rsum_nil.
  repeat (split; [field|]). field.
Qed.

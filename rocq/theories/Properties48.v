(** * C90: weight decay, replicas, the VAE's loss and the average of mnist.py *)
From Coq Require Import Reals ZArith String Ascii List Bool Lia Lra.
From Verif Require Import ModelNets ModelReal ModelLayers ModelTransformer ModelCheckpoint ModelTraining Properties14 Properties15 Properties22 Properties24 Properties25 Properties35 Properties47.
Import ListNotations.
Local Open Scope R_scope.

(** ** Weight decay leaves out exactly the batch norms *)
Definition has_char (c : ascii) (s : string) : Prop := In c (list_ascii_of_string s).
Lemma chars_app s t : list_ascii_of_string (s ++ t) = (list_ascii_of_string s ++ list_ascii_of_string t)%list.
Proof. induction s as [|c s IH]; [reflexivity|]. cbn. now rewrite IH. Qed.
Lemma has_char_app c s t : has_char c (s ++ t) <-> has_char c s \/ has_char c t.
Proof. unfold has_char. rewrite chars_app. apply in_app_iff. Qed.
Lemma substring_chars s : forall n m c, has_char c (substring n m s) -> has_char c s.
Proof.
  induction s as [|d s IH]; intros [|n] [|m] c H; cbn in H; try (now destruct H).
  - destruct H as [->|H]; [now left|right; now apply (IH 0%nat m)].
  - right. now apply (IH n 0%nat).
  - right. now apply (IH n (S m)).
Qed.
Lemma contains_char sub s c : contains sub s = true -> has_char c sub -> has_char c s.
Proof.
  unfold contains. destruct (String.index 0 sub s) as [n|] eqn:E; [|discriminate]. intros _ H. apply index_correct1 in E. rewrite <- E in H. now apply substring_chars in H.
Qed.
Lemma substring_app p : forall s t, substring (String.length p) (String.length s) (p ++ s ++ t) = s.
Proof.
  induction p as [|c p IH]; intros s t; [|exact (IH s t)]. cbn [String.length String.append]. induction s as [|c s IH]; [destruct t; reflexivity|]. cbn. now rewrite IH.
Qed.
Lemma contains_middle p s t : s <> ""%string -> contains s (p ++ s ++ t) = true.
Proof.
  intros N. unfold contains. destruct (String.index 0 s (p ++ s ++ t)) as [n|] eqn:E; [reflexivity|]. exfalso. apply (index_correct3 0 (String.length p) s (p ++ s ++ t)) in E; [|exact N|apply Nat.le_0_l]. apply E, substring_app.
Qed.
Lemma append_assoc s t u : ((s ++ t) ++ u = s ++ t ++ u)%string. Proof. induction s as [|c s IH]; [reflexivity|]. cbn. now rewrite IH. Qed.
(** A name in which the decision is right, whatever it is prefixed with, if the prefix has no letter m. *)
Definition clean (p : string) : Prop := ~ has_char "m"%char p.
Definition judged (m : string * bool) : Prop := if snd m then exists p t, fst m = (p ++ "batchnorm" ++ t)%string else clean (fst m).
Lemma judged_contains m : judged m -> contains "batchnorm" (fst m) = snd m.
Proof.
  destruct m as [n [|]]; unfold judged; cbn [fst snd].
  - intros (p & t & ->). now apply contains_middle.
  - intros C. destruct (contains "batchnorm" n) eqn:E; [|reflexivity]. exfalso. apply C. apply (contains_char _ _ _ E). unfold has_char. cbn. tauto.
Qed.
Lemma judged_under p ms : clean p -> Forall judged ms -> Forall judged (under p ms).
Proof.
  intros C F. unfold under. apply Forall_map. apply (Forall_impl _ (P := judged)); [|exact F]. intros [n [|]]; unfold judged; cbn [fst snd].
  - intros (q & t & ->). exists (p ++ "/~/" ++ q)%string, t. now rewrite !append_assoc.
  - intros Cn H. apply has_char_app in H as [H|H]; [auto|]. apply (has_char_app _ "/~/") in H as [H|H]; [|auto]. unfold has_char in H. cbn in H. destruct H as [H|[H|[H|[]]]]; discriminate H.
Qed.
Lemma clean_decimal n : clean (decimal n).
Proof.
  assert (G : forall f n acc, clean acc -> clean (digits_of f n acc)).
  { induction f as [|f IH]; intros k acc C; [exact C|]. cbn [digits_of]. assert (C' : clean (String (digit (k mod 10)) acc)).
    { intros [H|H]; [|auto]. unfold digit in H. assert (B : (k mod 10 < 10)%N) by (apply N.mod_lt; lia). apply (f_equal N_of_ascii) in H. rewrite N_ascii_embedding in H by lia. change (N_of_ascii "m") with 109%N in H. lia. }
    destruct (k <? 10)%N; [exact C'|now apply IH]. }
  apply G. intros [].
Qed.
Ltac clean := let H := fresh in intros H; unfold has_char in H; cbn in H; repeat destruct H as [H|H]; first [discriminate H|destruct H].
Lemma block_judged v2 bottleneck proj : Forall judged (block_modules v2 bottleneck proj).
Proof.
  assert (B : forall p t, judged ((p ++ "batchnorm" ++ t)%string, true)) by (intros p t; exists p, t; reflexivity).
  destruct v2, bottleneck, proj; unfold block_modules; cbn [app]; repeat constructor;
    first [exact (B ""%string "_0"%string)|exact (B ""%string "_1"%string)|exact (B ""%string "_2"%string)|exact (B "shortcut_"%string ""%string)|unfold judged; cbn [snd fst]; clean].
Qed.
(** In every ResNet the decayed parameters are those of the modules that are no BatchNorm. *)
Theorem C90_weight_decay name v2 bottleneck groups : clean name -> Forall (fun m => contains "batchnorm" (fst m) = snd m) (resnet_modules name v2 bottleneck groups).
Proof.
  intros C. apply (Forall_impl _ judged_contains). apply judged_under; [exact C|]. constructor; [unfold judged; cbn [snd fst]; clean|].
  apply Forall_app. split; [destruct v2; repeat constructor; now exists "initial_"%string, ""%string|]. apply Forall_app. split; [|apply Forall_app; split; [destruct v2; repeat constructor; now exists "final_"%string, ""%string|repeat constructor; unfold judged; cbn [snd fst]; clean]].
  apply Forall_flat_map, Forall_forall. intros g _. apply judged_under; [intros H; apply has_char_app in H as [H|H]; [revert H; clean|now apply clean_decimal in H]|].
  unfold group_modules. apply Forall_flat_map, Forall_forall. intros i _. apply judged_under; [intros H; apply has_char_app in H as [H|H]; [revert H; clean|now apply clean_decimal in H]|]. apply block_judged.
Qed.
(** So the decayed arrays of a ResNet are those of the modules that are no BatchNorm, in order, whatever arrays each module has. *)
Theorem C90_decayed {A} (arrays : string -> list A) name v2 bottleneck groups : clean name ->
  let modules := resnet_modules name v2 bottleneck groups in
  l2_params (flat_map (fun m => map (pair (fst m)) (arrays (fst m))) modules) = flat_map (fun m => arrays (fst m)) (filter (fun m => negb (snd m)) modules).
Proof.
  intros C modules. pose proof (C90_weight_decay name v2 bottleneck groups C) as F. change (resnet_modules name v2 bottleneck groups) with modules in F.
  induction F as [|[n b] ms H _ IH]; [reflexivity|]. cbn [flat_map fst]. unfold l2_params in *. rewrite filter_app, map_app, IH. cbn [filter snd]. cbn [fst snd] in H.
  assert (G : forall l : list A, map snd (filter (fun p => negb (contains "batchnorm" (fst p))) (map (pair n) l)) = if b then [] else l).
  { intros l. rewrite <- H. induction l as [|a l IHl]; [now destruct (contains _ n)|]. cbn [map filter fst]. destruct (contains "batchnorm" n) eqn:E; cbn [negb map snd]; [exact IHl|now rewrite IHl]. }
  rewrite G. now destruct b.
Qed.
Example C90_decayed_case : let modules := resnet_modules "res_net18" false false [(true, 1%nat)] in
  l2_params (map (fun m => (fst m, fst m)) modules) = ["res_net18/~/initial_conv"; "res_net18/~/block_group_0/~/block_0/~/shortcut_conv"; "res_net18/~/block_group_0/~/block_0/~/conv_0"; "res_net18/~/block_group_0/~/block_0/~/conv_1"; "res_net18/~/logits"]%string.
Proof. vm_compute. reflexivity. Qed.
Print Assumptions C90_decayed.
(** But a network inside a module whose name contains the word is not decayed at all. *)
Theorem C90_decay_name_refuted : ~ (forall name v2 bottleneck groups, Forall (fun m => contains "batchnorm" (fst m) = snd m) (resnet_modules name v2 bottleneck groups)).
Proof. intros H. specialize (H "no_batchnorm/res_net"%string true false []). vm_compute in H. apply Forall_inv in H. discriminate H. Qed.
Print Assumptions C90_weight_decay.
Print Assumptions C90_decay_name_refuted.

(** ** Replicas *)
Section Replicas.
Context {P S O B G : Type} (gradients : P -> S -> B -> G * S) (pmean : list G -> G) (apply_gradients : P -> O -> G -> P * O).
Definition in_sync (p : P) (o : O) (rs : list (replica P S O)) : Prop := Forall (fun r => r_params r = p /\ r_opt r = o) rs.
(** Parameters and optimizer states of all replicas stay equal, and change as those of one machine that gets the mean of the gradients. *)
Theorem C90_sync p o rs batches : length batches = length rs -> in_sync p o rs ->
  let grads := pmean (map (fun rb => fst (gradients p (r_state (fst rb)) (snd rb))) (combine rs batches)) in
  let (p', o') := apply_gradients p o grads in
  in_sync p' o' (train_step gradients pmean apply_gradients rs batches) /\ length (train_step gradients pmean apply_gradients rs batches) = length rs.
Proof.
  intros L F grads. unfold in_sync in F. assert (E : map fst (map (fun rb => gradients (r_params (fst rb)) (r_state (fst rb)) (snd rb)) (combine rs batches)) = map (fun rb => fst (gradients p (r_state (fst rb)) (snd rb))) (combine rs batches)).
  { rewrite map_map. apply map_ext_in. intros [r b] H. apply in_combine_l in H. rewrite Forall_forall in F. cbn [fst snd]. now rewrite (proj1 (F r H)). }
  unfold train_step. rewrite E. fold grads. destruct (apply_gradients p o grads) as [p' o'] eqn:A. split.
  - apply Forall_map, Forall_forall. intros [r l] H. apply in_combine_l in H. rewrite Forall_forall in F. destruct (F r H) as [E1 E2]. cbn [fst]. rewrite E1, E2, A. auto.
  - rewrite map_length, !combine_length, map_length, combine_length. lia.
Qed.
End Replicas.
(** The state is not averaged: the replicas' batch norm statistics drift apart, and [evaluate] uses those of the first device only. Here the state is the
    last batch. *)
Theorem C90_state_refuted : ~ (forall (gradients : unit -> nat -> nat -> unit * nat) rs batches, length batches = length rs -> (forall r r', In r rs -> In r' rs -> r_state r = r_state r') ->
  forall r r', In r (train_step gradients (fun _ => tt) (fun p o _ => (p, o)) rs batches) -> In r' (train_step gradients (fun _ => tt) (fun p o _ => (p, o)) rs batches) -> r_state (O := unit) r = r_state r').
Proof.
  intros H. specialize (H (fun _ _ b => (tt, b)) [Replica tt 0%nat tt; Replica tt 0%nat tt] [1%nat; 2%nat] eq_refl). cbn in H.
  specialize (H ltac:(intros r r' [<-|[<-|[]]] [<-|[<-|[]]]; reflexivity) (Replica tt 1%nat tt) (Replica tt 2%nat tt) ltac:(auto) ltac:(auto)). discriminate H.
Qed.
(** With batches of the same size on all devices, the mean of the devices' means is the mean over the whole batch. *)
Theorem C90_pmean (batches : list (list R)) n : (0 < n)%nat -> Forall (fun b => length b = n) batches -> mean (map mean batches) = mean (concat batches).
Proof.
  intros Hn F. unfold mean. assert (N : INR n <> 0) by (apply not_0_INR; lia).
  assert (L : length (concat batches) = (length batches * n)%nat) by (clear -F; induction F as [|b l Hb F IH]; [reflexivity|]; cbn [concat length]; rewrite app_length, IH, Hb; lia).
  rewrite L, map_length, mult_INR, Rsum_concat. assert (E : Rsum (map (fun xs => Rsum xs / INR (length xs)) batches) = Rsum (map Rsum batches) / INR n).
  { clear -F N. induction F as [|b l Hb F IH]; cbn [map]; [unfold Rsum; cbn; unfold Rdiv; ring|]. rewrite !Rsum_cons, IH, Hb. field. exact N. }
  rewrite E. destruct batches as [|b l]; [unfold Rsum; cbn; unfold Rdiv; ring|]. field. split; [exact N|]. apply not_0_INR. cbn. lia.
Qed.
Print Assumptions C90_sync.
Print Assumptions C90_state_refuted.
Print Assumptions C90_pmean.

(** ** The VAE *)
Lemma logaddexp_0 l : logaddexp 0 l = ln (1 + exp l).
Proof.
  unfold logaddexp. replace (0 - l) with (- l) by ring. rewrite Rabs_Ropp. assert (P : forall x, 0 < 1 + exp x) by (intros x; pose proof (exp_pos x); lra). destruct (Rle_or_lt 0 l) as [H|H].
  - rewrite Rmax_right, Rabs_right by lra. rewrite <- (ln_exp l) at 1. rewrite <- ln_mult by (apply exp_pos || apply P). f_equal. rewrite Rmult_plus_distr_l, <- exp_plus. replace (l + - l) with 0 by ring. rewrite exp_0. ring.
  - rewrite Rmax_left, Rabs_left by lra. rewrite Ropp_involutive. ring.
Qed.
Lemma zipw_ext (f g : R -> R -> R) x y : (forall a b, In (a, b) (combine x y) -> f a b = g a b) -> zipw f x y = zipw g x y.
Proof. intros H. unfold zipw. apply map_ext_in. intros [a b] I. now apply H. Qed.
(** The probability of a binary image under independent pixels with the given log odds. *)
Definition pixel_probability (x : bool) (p : R) : R := if x then p else 1 - p.
Definition image_probability (image : list bool) (logits : list R) : R := fold_right Rmult 1 (map (fun xl => pixel_probability (fst xl) (sigmoid (snd xl))) (combine image logits)).
Lemma pixel_term (x : bool) l : 0 < pixel_probability x (sigmoid l) /\ ln (pixel_probability x (sigmoid l)) = (if x then 1 else 0) * l - logaddexp 0 l.
Proof.
  rewrite logaddexp_0. unfold pixel_probability, sigmoid. pose proof (exp_pos l) as E. pose proof (exp_pos (- l)) as E'.
  assert (A : / (1 + exp (- l)) = exp l * / (1 + exp l)). { rewrite exp_Ropp. field. split; lra. }
  assert (B : 1 - / (1 + exp (- l)) = / (1 + exp l)). { rewrite A. field. lra. }
  assert (I : 0 < / (1 + exp l)) by (apply Rinv_0_lt_compat; lra). destruct x.
  - rewrite A. split; [now apply Rmult_lt_0_compat|]. rewrite ln_mult, ln_exp, ln_Rinv by (assumption || lra). ring.
  - rewrite B. split; [exact I|]. rewrite ln_Rinv by lra. ring.
Qed.
(** The binary cross entropy is the negative log likelihood of the image. *)
Theorem C90_likelihood image logits : binary_cross_entropy (map (fun b : bool => if b then 1 else 0) image) logits = - ln (image_probability image logits) /\ 0 < image_probability image logits <= 1.
Proof.
  unfold binary_cross_entropy, image_probability, zipw. revert logits. induction image as [|x image IH]; intros [|l logits]; cbn [map combine fold_right fst snd]; try (unfold Rsum; cbn [fold_right]; rewrite ln_1; split; [ring|lra]).
  rewrite Rsum_cons. destruct (IH logits) as [IH1 [IH2 IH3]]. destruct (pixel_term x l) as [P1 P2]. rewrite ln_mult by assumption. rewrite P2. split; [lra|].
  split; [now apply Rmult_lt_0_compat|]. assert (P3 : pixel_probability x (sigmoid l) <= 1).
  { unfold pixel_probability, sigmoid. pose proof (exp_pos (- l)). assert (0 < / (1 + exp (- l)) <= 1). { split; [apply Rinv_0_lt_compat; lra|]. rewrite <- Rinv_1 at 2. apply Rinv_le_contravar; lra. } destruct x; lra. }
  apply Rle_trans with (1 * 1); [apply Rmult_le_compat; lra|lra].
Qed.
(** For gray values too it is not negative. *)
Theorem C90_bce_nonneg x logits : Forall (fun v => 0 <= v <= 1) x -> 0 <= binary_cross_entropy x logits.
Proof.
  intros F. unfold binary_cross_entropy. assert (H : Rsum (zipw (fun x l => x * l - logaddexp 0 l) x logits) <= 0); [|lra]. unfold zipw. revert logits. induction F as [|v x Hv F IH]; intros [|l logits]; cbn [combine map fst snd]; try (unfold Rsum; cbn; lra).
  rewrite Rsum_cons. specialize (IH logits). assert (T : v * l <= logaddexp 0 l).
  { rewrite logaddexp_0. destruct (Rle_or_lt 0 l) as [H|H].
    - apply Rle_trans with l; [rewrite <- (Rmult_1_l l) at 2; apply Rmult_le_compat_r; lra|]. rewrite <- (ln_exp l) at 1. left. apply ln_increasing; [apply exp_pos|]. lra.
    - apply Rle_trans with 0; [rewrite <- (Rmult_0_r v); apply Rmult_le_compat_l; lra|]. rewrite <- ln_1. left. apply ln_increasing; pose proof (exp_pos l); lra. }
  lra.
Qed.
(** The divergence is not negative, and 0 only for the standard distribution. *)
Lemma kl_term m v : 0 < v -> 0 <= - ln v - 1 + v + m ^ 2 /\ (- ln v - 1 + v + m ^ 2 = 0 <-> m = 0 /\ v = 1).
Proof.
  intros V. pose proof (exp_ineq1_le (ln v)) as E. rewrite exp_ln in E by exact V. assert (M : 0 <= m ^ 2) by (apply pow2_ge_0). split; [lra|]. split; [|intros [-> ->]; rewrite ln_1; ring].
  intros Z. assert (M0 : m ^ 2 = 0) by lra. split; [apply Rsqr_0_uniq; unfold Rsqr; lra|]. destruct (Req_dec (ln v) 0) as [L|L]; [rewrite <- (exp_ln v V), L; apply exp_0|]. pose proof (exp_ineq1 (ln v) L) as X. rewrite exp_ln in X by exact V. lra.
Qed.
Theorem C90_kl mu var : length mu = length var -> Forall (fun v => 0 < v) var -> 0 <= kl_gaussian mu var /\ (kl_gaussian mu var = 0 <-> Forall (fun m => m = 0) mu /\ Forall (fun v => v = 1) var).
Proof.
  intros L F. unfold kl_gaussian. assert (G : 0 <= Rsum (zipw (fun m v => - ln v - 1 + v + m ^ 2) mu var) /\ (Rsum (zipw (fun m v => - ln v - 1 + v + m ^ 2) mu var) = 0 <-> Forall (fun m => m = 0) mu /\ Forall (fun v => v = 1) var)).
  { unfold zipw. revert mu L. induction F as [|v var V F IH]; intros [|m mu] L; cbn in L; try discriminate; cbn [combine map fst snd]; [unfold Rsum; cbn [fold_right]; split; [lra|split; [intros _; split; constructor|reflexivity]]|].
    rewrite Rsum_cons. destruct (IH mu ltac:(lia)) as [I1 I2]. destruct (kl_term m v V) as [K1 K2]. split; [lra|]. rewrite !Forall_cons_iff. split.
    - intros Z. assert (Z1 : - ln v - 1 + v + m ^ 2 = 0) by lra. apply K2 in Z1 as [-> ->]. assert (Z2 : Rsum (map (fun p => - ln (snd p) - 1 + snd p + fst p ^ 2) (combine mu var)) = 0) by lra. apply I2 in Z2 as [? ?]. auto.
    - intros [[-> ?] [-> ?]]. rewrite (proj2 K2) by auto. rewrite (proj2 I2) by auto. ring. }
  destruct G as [G1 G2]. split; [lra|]. rewrite <- G2. split; intros; lra.
Qed.
(** The loss is the mean of the cross entropies and divergences, so it is not negative. *)
Theorem C90_vae_loss batch : Forall (fun e => Forall (fun v => 0 <= v <= 1) (fst e) /\ length (snd (fst (snd e))) = length (snd (snd e)) /\ Forall (fun s => 0 < s) (snd (snd e))) batch ->
  vae_loss batch = mean (map (fun e => binary_cross_entropy (fst e) (fst (fst (snd e))) + kl_gaussian (snd (fst (snd e))) (map (fun s => s ^ 2) (snd (snd e)))) batch) /\ 0 <= vae_loss batch.
Proof.
  intros F. assert (E : vae_loss batch = mean (map (fun e => binary_cross_entropy (fst e) (fst (fst (snd e))) + kl_gaussian (snd (fst (snd e))) (map (fun s => s ^ 2) (snd (snd e)))) batch)).
  { unfold vae_loss, mean. rewrite !map_length. unfold Rdiv. rewrite <- Ropp_mult_distr_l_reverse. f_equal. clear F. induction batch as [|[im [[lg mu] sd]] batch IH]; cbn [map fst snd]; [unfold Rsum; cbn; ring|]. rewrite !Rsum_cons, <- IH. ring. }
  split; [exact E|]. rewrite E. unfold mean. apply Rmult_le_pos.
  - apply Rsum_nonneg, Forall_map. apply (Forall_impl _ (P := fun e => Forall (fun v => 0 <= v <= 1) (fst e) /\ length (snd (fst (snd e))) = length (snd (snd e)) /\ Forall (fun s => 0 < s) (snd (snd e)))); [|exact F].
    intros e (H1 & H2 & H3). pose proof (C90_bce_nonneg (fst e) (fst (fst (snd e))) H1). assert (K : 0 <= kl_gaussian (snd (fst (snd e))) (map (fun s => s ^ 2) (snd (snd e)))).
    { apply C90_kl; [now rewrite map_length|]. apply Forall_map. apply (Forall_impl _ (P := fun s => 0 < s)); [|exact H3]. intros s Hs. now apply pow_lt. } lra.
  - destruct batch as [|e l]; cbn [map length]; [cbn [INR]; rewrite Rinv_0; lra|]. left. apply Rinv_0_lt_compat. apply lt_0_INR. lia.
Qed.
Print Assumptions C90_likelihood.
Print Assumptions C90_bce_nonneg.
Print Assumptions C90_kl.
Print Assumptions C90_vae_loss.

(** ** mnist.py *)
Theorem C90_mnist batch params : batch <> [] -> Forall (fun e => length (fst e) = 10%nat /\ (0 <= snd e < 10)%Z) batch ->
  mnist_loss batch params = mean (map (fun e => - ln (nth (Z.to_nat (snd e)) (softmax (fst e)) 0)) batch) + 1 / 20000 * Rsum (map square (concat params)) /\ 0 <= mnist_loss batch params.
Proof.
  intros N F. assert (L2 : l2_loss params = 1 / 2 * Rsum (map square (concat params))).
  { unfold l2_loss. f_equal. rewrite concat_map, Rsum_concat, map_map. reflexivity. }
  assert (L0 : 0 <= Rsum (map square (concat params))). { apply Rsum_nonneg, Forall_map, Forall_forall. intros x _. unfold square. apply Rle_0_sqr. }
  assert (E : forall e, In e batch -> - Rsum (zipw Rmult (one_hot 0 1 10 (snd e)) (log_softmax (fst e))) = - ln (nth (Z.to_nat (snd e)) (softmax (fst e)) 0) /\ 0 <= - ln (nth (Z.to_nat (snd e)) (softmax (fst e)) 0)).
  { intros e H. rewrite Forall_forall in F. destruct (F e H) as [H1 H2]. destruct (C79_cross_entropy 10 (fst e) (snd e) H1 H2) as [C1 C2]. unfold cross_entropy in C1, C2. rewrite C1 in C2. auto. }
  assert (M : - Rsum (map (fun e => Rsum (zipw Rmult (one_hot 0 1 10 (snd e)) (log_softmax (fst e)))) batch) / INR (length batch) = mean (map (fun e => - ln (nth (Z.to_nat (snd e)) (softmax (fst e)) 0)) batch)).
  { unfold mean. rewrite map_length. unfold Rdiv. f_equal. clear N F. induction batch as [|e batch IH]; [unfold Rsum; cbn; ring|]. cbn [map]. rewrite !Rsum_cons. rewrite <- IH by (intros e' H; apply E; now right). destruct (E e (or_introl eq_refl)) as [<- _]. ring. }
  assert (V : mnist_loss batch params = mean (map (fun e => - ln (nth (Z.to_nat (snd e)) (softmax (fst e)) 0)) batch) + 1 / 20000 * Rsum (map square (concat params))).
  { unfold mnist_loss. rewrite M, L2. lra. }
  split; [exact V|]. rewrite V. assert (0 <= mean (map (fun e => - ln (nth (Z.to_nat (snd e)) (softmax (fst e)) 0)) batch)); [|lra].
  unfold mean. apply Rmult_le_pos; [apply Rsum_nonneg, Forall_map, Forall_forall; intros e H; now apply E|]. left. apply Rinv_0_lt_compat, lt_0_INR. rewrite map_length. destruct batch; [congruence|cbn; lia].
Qed.
(** The average of the parameters: the weights of all values so far sum to 1, older ones weigh less by the factor 1 - epsilon. *)
Theorem C90_average epsilon p0 ps : fold_left (ema_update epsilon) ps p0 =
  (1 - epsilon) ^ length ps * p0 + Rsum (map (fun i => epsilon * (1 - epsilon) ^ (length ps - 1 - i) * nth i ps 0) (seq 0 (length ps))) /\
  (1 - epsilon) ^ length ps + Rsum (map (fun i => epsilon * (1 - epsilon) ^ (length ps - 1 - i)) (seq 0 (length ps))) = 1.
Proof.
  induction ps as [|p ps [IH1 IH2]] using rev_ind; [unfold Rsum; cbn; split; ring|]. rewrite fold_left_app. cbn [fold_left]. rewrite IH1, app_length. cbn [length]. replace (length ps + 1)%nat with (S (length ps)) by lia. set (n := length ps) in *.
  rewrite seq_S, !map_app, !Rsum_app. cbn [map plus]. rewrite !Rsum_cons, !Rsum_nil. replace (S n - 1 - n)%nat with 0%nat by lia. rewrite app_nth2 by (unfold n; lia). replace (n - length ps)%nat with 0%nat by (unfold n; lia). cbn [nth pow].
  assert (A : Rsum (map (fun i => epsilon * (1 - epsilon) ^ (S n - 1 - i) * nth i (ps ++ [p]) 0) (seq 0 n)) = (1 - epsilon) * Rsum (map (fun i => epsilon * (1 - epsilon) ^ (n - 1 - i) * nth i ps 0) (seq 0 n))).
  { rewrite <- Rsum_scale, map_map. apply Rsum_ext. intros i H. apply in_seq in H. rewrite app_nth1 by (fold n; lia). replace (S n - 1 - i)%nat with (S (n - 1 - i)) by lia. cbn [pow]. ring. }
  assert (B : Rsum (map (fun i => epsilon * (1 - epsilon) ^ (S n - 1 - i)) (seq 0 n)) = (1 - epsilon) * Rsum (map (fun i => epsilon * (1 - epsilon) ^ (n - 1 - i)) (seq 0 n))).
  { rewrite <- Rsum_scale, map_map. apply Rsum_ext. intros i H. apply in_seq in H. replace (S n - 1 - i)%nat with (S (n - 1 - i)) by lia. cbn [pow]. ring. }
  rewrite A, B. split; [unfold ema_update; ring|]. replace ((1 - epsilon) * (1 - epsilon) ^ n + ((1 - epsilon) * Rsum (map (fun i => epsilon * (1 - epsilon) ^ (n - 1 - i)) (seq 0 n)) + (epsilon * 1 + 0))) with ((1 - epsilon) * ((1 - epsilon) ^ n + Rsum (map (fun i => epsilon * (1 - epsilon) ^ (n - 1 - i)) (seq 0 n))) + epsilon) by ring. rewrite IH2. ring.
Qed.
Print Assumptions C90_mnist.
Print Assumptions C90_average.

(** ** Examples *)
Example C90_schedule_case : lr_schedule (1 / 10) 512 1024 10 2 2 = 1 / 10 /\ lr_schedule (1 / 10) 512 1024 10 2 4 = 2 / 10 /\ num_train_steps 1281167 90 4096 = 28150%Z.
Proof.
  split; [|split; [|reflexivity]]; unfold lr_schedule; replace (2 * (1024 / 512)) with 4 by field; replace (10 * (1024 / 512)) with 20 by field; (destruct (Req_EM_T 4 0) as [E|_]; [lra|]); rewrite Rmax_right by lra; unfold Rdiv at 4; rewrite Rmult_0_l, Rmult_0_r, cos_0.
  - rewrite Rmin_left by lra. lra.
  - rewrite Rmin_left by lra. lra.
Qed.
Example C90_modules_case : map fst (resnet_modules "res_net" true false [(true, 1%nat)]) =
  ["res_net/~/initial_conv"; "res_net/~/block_group_0/~/block_0/~/shortcut_conv"; "res_net/~/block_group_0/~/block_0/~/conv_0"; "res_net/~/block_group_0/~/block_0/~/batchnorm_0";
   "res_net/~/block_group_0/~/block_0/~/conv_1"; "res_net/~/block_group_0/~/block_0/~/batchnorm_1"; "res_net/~/final_batchnorm"; "res_net/~/logits"]%string.
Proof. vm_compute. reflexivity. Qed.
Example C90_kl_case : kl_gaussian [2; 0] [1; 1] = 2 /\ binary_cross_entropy [0; 1] [0; 0] = 2 * ln 2.
Proof.
  split; [unfold kl_gaussian, zipw, Rsum; cbn; rewrite ln_1; lra|]. unfold binary_cross_entropy, zipw, Rsum. cbn [combine map fold_right fst snd]. rewrite logaddexp_0, exp_0. replace (1 + 1) with 2 by ring. ring.
Qed.
Example C90_average_case : fold_left (ema_update (1 / 2)) [4; 8] 0 = 5.
Proof. unfold ema_update. cbn [fold_left]. lra. Qed.

(** * C103: gradients of the vector quantizers *)
From Coq Require Import Reals ZArith List Bool Lia Lra Arith.
From Verif Require Import ModelNets ModelTransformer ModelTraining ModelReal ModelLayers ModelVqEma ModelGradients Properties14 Properties15 Properties22 Properties80.
Import ListNotations.
Local Open Scope R_scope.

Lemma zip2_map {A B C D} (f : B -> C) (g : A -> D -> B) a (d : list D) : map f (zip2 g a d) = zip2 (fun x y => f (g x y)) a d.
Proof. unfold zip2. now rewrite map_map. Qed.
Lemma zip2_map_l {A A' B C} (h : A -> A') (g : A' -> B -> C) a (b : list B) : zip2 g (map h a) b = zip2 (fun x y => g (h x) y) a b.
Proof. unfold zip2. revert b. induction a as [|x a IH]; intros [|y b]; try reflexivity. cbn [map combine]. now rewrite IH. Qed.
Lemma zip2_ext {A B C} (f g : A -> B -> C) a b : (forall x y, In (x, y) (combine a b) -> f x y = g x y) -> zip2 f a b = zip2 g a b.
Proof. intros H. unfold zip2. apply map_ext_in. intros [x y] I. now apply H. Qed.
Lemma concat_nil_iff {A} (l : list (list A)) : concat l <> [] -> l <> []. Proof. now destruct l. Qed.


Section Quantizer.
Context {V : Type}.
Implicit Types (env dir : V -> R) (es : list (list (expr V))) (x : list (expr V)) (xs : list (list (expr V))).

(** What the expressions compute is what the modules compute (C53, C65). *)
Theorem C103_quantizer_values env es k x : map (ev env) (straight_through es k x) = vq_output (map (ev env) x) (vals env es) k.
Proof.
  unfold straight_through, vq_output. rewrite zip2_map. unfold quantized. rewrite zip2_map_l. unfold vq_quantize, column, vals.
  rewrite map_map. fold (nearest es k x env). set (j := nearest es k x env). change (vq_index (map (ev env) x) (map (map (ev env)) es) k) with j.
  cbn [ev sg]. fold j. clearbody j. revert x. induction es as [|row es IH]; intros [|a x]; try reflexivity. unfold zip2 in *. cbn [map combine fst snd]. rewrite IH.
  f_equal. replace (nth j (map (ev env) row) 0) with (ev env (nth j row (Const 0))); [reflexivity|]. symmetry. exact (map_nth (ev env) row (Const 0) j).
Qed.
Theorem C103_latent_values env es k xs : ev env (e_latent_loss es k xs) = vq_latent_loss (vals env es) k (vals env xs) /\ ev env (q_latent_loss es k xs) = vq_latent_loss (vals env es) k (vals env xs).
Proof.
  unfold e_latent_loss, q_latent_loss, vq_latent_loss. rewrite !ev_emean, !concat_map. replace (vals env xs) with (map (map (ev env)) xs) by reflexivity. rewrite !map_map.
  assert (K : forall x, zip2 (fun row v => square (ev env (nth (nearest es k x env) row (Const 0)) - ev env v)) es x =
    zipw (fun q v => square (q - v)) (vq_quantize (vals env es) (vq_index (map (ev env) x) (vals env es) k)) (map (ev env) x)).
  { intros x. fold (nearest es k x env). set (j := nearest es k x env). clearbody j. unfold vq_quantize, column, vals, zipw. rewrite map_map.
    revert x. induction es as [|row es IH]; intros [|a x]; try reflexivity. unfold zip2 in *. cbn [map combine fst snd]. rewrite IH.
    f_equal. replace (nth j (map (ev env) row) 0) with (ev env (nth j row (Const 0))); [reflexivity|]. symmetry. exact (map_nth (ev env) row (Const 0) j). }
  split; do 2 f_equal; apply map_ext; intros x; rewrite zip2_map; unfold quantized; rewrite zip2_map_l; rewrite <- K; apply zip2_ext; intros row v _; reflexivity.
Qed.

(** The straight-through estimator: whatever reaches the quantized output reaches the input unchanged, and nothing reaches the embeddings. *)
Theorem C103_straight_through env dir es k x : length es = length x -> map (jvp env dir) (straight_through es k x) = map (jvp env dir) x.
Proof.
  intros L. unfold straight_through. rewrite zip2_map. unfold quantized. rewrite zip2_map_l. cbn [jvp sg]. revert x L.
  induction es as [|row es IH]; intros [|a x] L; try discriminate L; [reflexivity|]. unfold zip2 in *. cbn [combine map fst snd]. rewrite IH by now injection L. f_equal. ring.
Qed.
(** The derivatives of the losses. *)
Definition loss_terms env dir (c_e c_x : R) es k x : list R :=
  let j := nearest es k x env in
  zip2 (fun row v => 2 * (ev env (nth j row (Const 0)) - ev env v) * (c_e * jvp env dir (nth j row (Const 0)) - c_x * jvp env dir v)) es x.
Lemma mean_scale c l : c * mean l = mean (map (fun a => c * a) l).
Proof. unfold mean. rewrite Rsum_scale, map_length. unfold Rdiv. ring. Qed.
Lemma mean_add {A} (f g : A -> R) l : mean (map f l) + mean (map g l) = mean (map (fun a => f a + g a) l).
Proof. unfold mean. rewrite !map_length, Rsum_plus. unfold Rdiv. ring. Qed.
Lemma jvp_e_latent env dir es k xs : concat (map (fun x => zip2 (fun q v => (q, v)) (quantized es k x) x) xs) <> [] ->
  jvp env dir (e_latent_loss es k xs) = mean (concat (map (loss_terms env dir 0 1 es k) xs)).
Proof.
  intros N. unfold e_latent_loss. rewrite jvp_emean.
  - rewrite concat_map, map_map. do 2 f_equal. apply map_ext. intros x. rewrite zip2_map. unfold quantized. rewrite zip2_map_l. unfold loss_terms. cbv zeta. apply zip2_ext. intros row v _. cbn [jvp ev esq sg]. ring.
  - intros E. apply N. clear -E. induction xs as [|x xs IH]; [reflexivity|]. cbn [map concat] in *. apply app_eq_nil in E as [E1 E2]. rewrite (IH E2), app_nil_r. unfold zip2 in *. apply map_eq_nil in E1. now rewrite E1.
Qed.
Lemma jvp_q_latent env dir es k xs : concat (map (fun x => zip2 (fun q v => (q, v)) (quantized es k x) x) xs) <> [] ->
  jvp env dir (q_latent_loss es k xs) = mean (concat (map (loss_terms env dir 1 0 es k) xs)).
Proof.
  intros N. unfold q_latent_loss. rewrite jvp_emean.
  - rewrite concat_map, map_map. do 2 f_equal. apply map_ext. intros x. rewrite zip2_map. unfold quantized. rewrite zip2_map_l. unfold loss_terms. cbv zeta. apply zip2_ext. intros row v _. cbn [jvp ev esq sg]. ring.
  - intros E. apply N. clear -E. induction xs as [|x xs IH]; [reflexivity|]. cbn [map concat] in *. apply app_eq_nil in E as [E1 E2]. rewrite (IH E2), app_nil_r. unfold zip2 in *. apply map_eq_nil in E1. now rewrite E1.
Qed.
Lemma loss_terms_lin env dir es k xs c : concat (map (loss_terms env dir 1 c es k) xs) = zipw Rplus (concat (map (loss_terms env dir 1 0 es k) xs)) (map (fun a => c * a) (concat (map (loss_terms env dir 0 1 es k) xs))).
Proof.
  assert (Z : forall (a b a' b' : list R), length a = length b -> zipw Rplus (a ++ a') (b ++ b') = zipw Rplus a b ++ zipw Rplus a' b').
  { intros a b a' b'. revert b. induction a as [|y a IH]; intros [|z b] L; try discriminate L; [reflexivity|]. unfold zipw in *. cbn [app combine map fst snd]. rewrite IH by now injection L. reflexivity. }
  induction xs as [|x xs IH]; [reflexivity|]. cbn [map concat]. rewrite map_app, Z, IH; [f_equal|].
  - unfold loss_terms. cbv zeta. set (j := nearest es k x env). clearbody j. clear IH. revert x. induction es as [|row es IH]; intros [|a x]; try reflexivity. unfold zip2, zipw in *. cbn [combine map fst snd]. rewrite IH. f_equal. ring.
  - unfold loss_terms, zip2. rewrite !map_length. reflexivity.
Qed.
Lemma mean_zip_plus (a b : list R) : length a = length b -> mean (zipw Rplus a b) = mean a + mean b.
Proof.
  intros L. unfold mean. assert (S : Rsum (zipw Rplus a b) = Rsum a + Rsum b).
  { revert b L. induction a as [|x a IH]; intros [|y b] L; try discriminate L; [cbn; ring|]. unfold zipw in *. cbn [combine map fst snd]. rewrite !Rsum_cons, IH by now injection L. ring. }
  rewrite S. unfold zipw. rewrite map_length, combine_length, <- L, Nat.min_id. unfold Rdiv. ring.
Qed.
Theorem C103_quantizer_loss env dir cost es k xs : concat (map (fun x => zip2 (fun q v => (q, v)) (quantized es k x) x) xs) <> [] ->
  jvp env dir (quantizer_loss cost es k xs) = mean (concat (map (loss_terms env dir 1 cost es k) xs)) /\
  jvp env dir (quantizer_ema_loss cost es k xs) = cost * mean (concat (map (loss_terms env dir 0 1 es k) xs)).
Proof.
  intros N. unfold quantizer_loss, quantizer_ema_loss. cbn [jvp ev]. rewrite jvp_e_latent, jvp_q_latent by exact N. split; [|ring].
  rewrite (loss_terms_lin env dir es k xs cost), mean_zip_plus.
  - rewrite <- mean_scale. ring.
  - rewrite map_length. clear. induction xs as [|x xs IH]; [reflexivity|]. cbn [map concat]. rewrite !app_length, IH. unfold loss_terms, zip2. now rewrite !map_length.
Qed.
End Quantizer.
Print Assumptions C103_quantizer_values.
Print Assumptions C103_latent_values.
Print Assumptions C103_straight_through.
Print Assumptions C103_quantizer_loss.

(** ** Gradients with respect to every input and every embedding *)
Inductive vq_var := Input (n d : nat) | Embedding (d j : nat).
Definition vq_eqb (v w : vq_var) : bool :=
  match v, w with
  | Input n d, Input n' d' => (n =? n')%nat && (d =? d')%nat
  | Embedding d j, Embedding d' j' => (d =? d')%nat && (j =? j')%nat
  | _, _ => false
  end.
(** [N] vectors of [D] numbers and [K] codes. *)
Definition inputs (N D : nat) : list (list (expr vq_var)) := map (fun n => map (fun d => Var (Input n d)) (seq 0 D)) (seq 0 N).
Definition codes (D K : nat) : list (list (expr vq_var)) := map (fun d => map (fun j => Var (Embedding d j)) (seq 0 K)) (seq 0 D).
(** The code the vector [n] is assigned to. *)
Definition code_of (D K : nat) (env : vq_var -> R) (n : nat) : nat := vq_index (map (fun d => env (Input n d)) (seq 0 D)) (map (fun d => map (fun j => env (Embedding d j)) (seq 0 K)) (seq 0 D)) K.

Lemma zip2_seq {A B C} (f : A -> B -> C) (g : nat -> A) (h : nat -> B) l : zip2 f (map g l) (map h l) = map (fun i => f (g i) (h i)) l.
Proof. induction l as [|i l IH]; [reflexivity|]. unfold zip2 in *. cbn [map combine fst snd]. now rewrite IH. Qed.
Lemma nearest_code D K env n : nearest (codes D K) K (map (fun d => Var (Input n d)) (seq 0 D)) env = code_of D K env n.
Proof. unfold nearest, code_of, vals, codes. rewrite !map_map. cbn [ev]. f_equal. apply map_ext. intros d. rewrite map_map. reflexivity. Qed.
Lemma code_of_lt D K env n : (0 < K)%nat -> (code_of D K env n < K)%nat.
Proof. intros H. unfold code_of. apply C53_nearest; [exact H|]. now rewrite !map_length. Qed.
Lemma Rsum_pick N f n : (n < N)%nat -> Rsum (map (fun i => if (i =? n)%nat then f i else 0) (seq 0 N)) = f n.
Proof.
  intros H. assert (G : forall a m, Rsum (map (fun i => if (i =? n)%nat then f i else 0) (seq a m)) = if ((a <=? n) && (n <? a + m))%nat then f n else 0).
  { intros a m. revert a. induction m as [|m IH]; intros a; cbn [seq map]; [rewrite Rsum_nil; destruct (Nat.leb_spec a n); cbn [andb]; [destruct (Nat.ltb_spec n (a + 0)); [lia|]|]; reflexivity|].
    rewrite Rsum_cons, IH. destruct (Nat.eqb_spec a n) as [->|E].
    - destruct (Nat.leb_spec (S n) n); [lia|]. destruct (Nat.leb_spec n n); [|lia]. destruct (Nat.ltb_spec n (n + S m)); [|lia]. cbn [andb]. ring.
    - destruct (Nat.leb_spec (S a) n), (Nat.leb_spec a n); try lia; cbn [andb]; [|ring]. destruct (Nat.ltb_spec n (S a + m)), (Nat.ltb_spec n (a + S m)); try lia; ring. }
  rewrite G. destruct (Nat.ltb_spec n (0 + N)); [reflexivity | lia].
Qed.
Lemma Rsum_zero {A} (l : list A) : Rsum (map (fun _ => 0) l) = 0. Proof. rewrite Rsum_const. ring. Qed.
Lemma terms_length D K env dir ce cx N : length (concat (map (loss_terms env dir ce cx (codes D K) K) (inputs N D))) = (N * D)%nat.
Proof.
  unfold inputs. rewrite map_map. assert (G : forall l, length (concat (map (fun n => loss_terms env dir ce cx (codes D K) K (map (fun d => Var (Input n d)) (seq 0 D))) l)) = (length l * D)%nat).
  { induction l as [|n l IH]; [reflexivity|]. cbn [map concat length]. rewrite app_length, IH. unfold loss_terms, codes. cbv zeta. rewrite zip2_seq, map_length, seq_length. lia. }
  now rewrite G, seq_length.
Qed.
Lemma terms_sum D K env dir ce cx N : (0 < K)%nat -> mean (concat (map (loss_terms env dir ce cx (codes D K) K) (inputs N D))) =
  Rsum (map (fun n => Rsum (map (fun d => let j := code_of D K env n in 2 * (env (Embedding d j) - env (Input n d)) * (ce * dir (Embedding d j) - cx * dir (Input n d))) (seq 0 D))) (seq 0 N)) / INR (N * D).
Proof.
  intros HK. unfold mean. rewrite terms_length. f_equal. rewrite Rsum_concat. unfold inputs. rewrite !map_map. apply Rsum_ext. intros n _.
  unfold loss_terms. cbv zeta. rewrite nearest_code. unfold codes. rewrite zip2_seq. apply Rsum_ext. intros d _.
  pose proof (code_of_lt D K env n HK) as J. rewrite (seq_nth_map (fun j => Var (Embedding d j)) (Const 0)) by exact J. reflexivity.
Qed.
Lemma vq_nonempty N D K (env : vq_var -> R) : (0 < N)%nat -> (0 < D)%nat -> concat (map (fun x => zip2 (fun q v => (q, v)) (quantized (codes D K) K x) x) (inputs N D)) <> [].
Proof.
  intros HN HD. destruct N as [|N]; [lia|]. destruct D as [|D]; [lia|]. unfold inputs. cbn [seq map concat]. unfold quantized, codes. discriminate.
Qed.
Lemma good_quantizer N D K cost env : (0 < N)%nat -> (0 < D)%nat -> (0 < K)%nat -> good env (quantizer_loss cost (codes D K) K (inputs N D)) /\ good env (quantizer_ema_loss cost (codes D K) K (inputs N D)).
Proof.
  intros HN HD HK. assert (Gq : forall n, Forall (good env) (quantized (codes D K) K (map (fun d => Var (Input n d)) (seq 0 D)))).
  { intros n. unfold quantized, codes. rewrite map_map. apply Forall_map, Forall_forall. intros d _. cbn [good]. fold (codes D K). rewrite nearest_code.
    rewrite (seq_nth_map (fun j => Var (Embedding d j)) (Const 0)) by now apply code_of_lt. exact I. }
  assert (NE : forall f : expr vq_var -> expr vq_var -> expr vq_var, concat (map (fun x => zip2 f (quantized (codes D K) K x) x) (inputs N D)) <> []).
  { intros f. destruct N as [|N]; [lia|]. destruct D as [|D]; [lia|]. unfold inputs. cbn [seq map concat]. unfold quantized, codes. discriminate. }
  assert (GE : good env (e_latent_loss (codes D K) K (inputs N D))).
  { unfold e_latent_loss. apply good_emean; [apply NE|]. apply Forall_concat, Forall_map, Forall_forall. intros x X. unfold inputs in X. apply in_map_iff in X as (n & <- & _).
    unfold zip2. apply Forall_map, Forall_forall. intros [q v] I. cbn [fst snd esq sg good]. apply in_combine_r, in_map_iff in I as (d & <- & _). cbn [good]. tauto. }
  assert (GQ : good env (q_latent_loss (codes D K) K (inputs N D))).
  { unfold q_latent_loss. apply good_emean; [apply NE|]. apply Forall_concat, Forall_map, Forall_forall. intros x X. unfold inputs in X. apply in_map_iff in X as (n & <- & _).
    unfold zip2. apply Forall_map, Forall_forall. intros [q v] I. cbn [fst snd esq sg good]. apply in_combine_l in I. pose proof (Gq n) as G. rewrite Forall_forall in G. specialize (G q I). tauto. }
  unfold quantizer_loss, quantizer_ema_loss. cbn [good]. tauto.
Qed.
(** An input is pulled towards its code with the commitment cost as strength, a code towards the inputs assigned to it. *)
Theorem C103_quantizer_gradient N D K cost env : (0 < N)%nat -> (0 < D)%nat -> (0 < K)%nat ->
  (forall n d, (n < N)%nat -> (d < D)%nat -> gradient vq_eqb env (quantizer_loss cost (codes D K) K (inputs N D)) (Input n d) = 2 * cost * (env (Input n d) - env (Embedding d (code_of D K env n))) / INR (N * D)) /\
  (forall d j, (d < D)%nat -> gradient vq_eqb env (quantizer_loss cost (codes D K) K (inputs N D)) (Embedding d j) =
     Rsum (map (fun n => if (code_of D K env n =? j)%nat then 2 * (env (Embedding d j) - env (Input n d)) else 0) (seq 0 N)) / INR (N * D)).
Proof.
  intros HN HD HK. destruct (good_quantizer N D K cost env HN HD HK) as [G _].
  assert (E : forall v, gradient vq_eqb env (quantizer_loss cost (codes D K) K (inputs N D)) v = Rsum (map (fun n => Rsum (map (fun d => let j := code_of D K env n in 2 * (env (Embedding d j) - env (Input n d)) * (1 * basis vq_eqb v (Embedding d j) - cost * basis vq_eqb v (Input n d))) (seq 0 D))) (seq 0 N)) / INR (N * D)).
  { intros v. unfold gradient. rewrite C103_reverse by exact G. rewrite Rmult_1_l. rewrite (proj1 (C103_quantizer_loss env (basis vq_eqb v) cost (codes D K) K (inputs N D) (vq_nonempty N D K env HN HD))). now apply terms_sum. }
  split.
  - intros n d Hn Hd. rewrite E. f_equal. cbv zeta. unfold basis. cbn [vq_eqb].
    rewrite (Rsum_ext _ (fun n' => if (n' =? n)%nat then 2 * cost * (env (Input n d) - env (Embedding d (code_of D K env n))) else 0)).
    + now apply (Rsum_pick N (fun _ => 2 * cost * (env (Input n d) - env (Embedding d (code_of D K env n))))).
    + intros n' _. destruct (Nat.eqb_spec n' n) as [->|Ne]; cbn [andb].
      * rewrite (Rsum_ext _ (fun d' => if (d' =? d)%nat then 2 * cost * (env (Input n d) - env (Embedding d (code_of D K env n))) else 0)).
        -- now apply (Rsum_pick D (fun _ => 2 * cost * (env (Input n d) - env (Embedding d (code_of D K env n))))).
        -- intros d' _. destruct (Nat.eqb_spec d' d) as [->|]; ring.
      * rewrite (Rsum_ext _ (fun _ => 0)) by (intros; ring). apply Rsum_zero.
  - intros d j Hd. rewrite E. f_equal. cbv zeta. unfold basis. cbn [vq_eqb]. apply Rsum_ext. intros n _.
    rewrite (Rsum_ext _ (fun d' => if (d' =? d)%nat then (if (code_of D K env n =? j)%nat then 2 * (env (Embedding d j) - env (Input n d)) else 0) else 0)).
    + now apply (Rsum_pick D (fun _ => if (code_of D K env n =? j)%nat then 2 * (env (Embedding d j) - env (Input n d)) else 0)).
    + intros d' _. destruct (Nat.eqb_spec d' d) as [->|]; cbn [andb]; [|ring]. destruct (Nat.eqb_spec (code_of D K env n) j) as [->|]; ring.
Qed.
Print Assumptions C103_quantizer_gradient.
(** The codes move through their own loss only: [VectorQuantizerEMA] has the same gradient for the inputs and none for the codes. *)
Theorem C103_quantizer_ema_gradient N D K cost env : (0 < N)%nat -> (0 < D)%nat -> (0 < K)%nat ->
  (forall n d, (n < N)%nat -> (d < D)%nat -> gradient vq_eqb env (quantizer_ema_loss cost (codes D K) K (inputs N D)) (Input n d) = gradient vq_eqb env (quantizer_loss cost (codes D K) K (inputs N D)) (Input n d)) /\
  (forall d j, gradient vq_eqb env (quantizer_ema_loss cost (codes D K) K (inputs N D)) (Embedding d j) = 0).
Proof.
  intros HN HD HK. destruct (good_quantizer N D K cost env HN HD HK) as [G1 G2].
  split; intros; unfold gradient; rewrite !C103_reverse by assumption; rewrite !Rmult_1_l; rewrite ?(proj1 (C103_quantizer_loss env _ cost (codes D K) K (inputs N D) (vq_nonempty N D K env HN HD))), ?(proj2 (C103_quantizer_loss env _ cost (codes D K) K (inputs N D) (vq_nonempty N D K env HN HD))), ?terms_sum by exact HK; cbv zeta; unfold basis; cbn [vq_eqb].
  - unfold Rdiv. rewrite <- Rmult_assoc, <- Rsum_scale, map_map. f_equal. apply Rsum_ext. intros n' _. rewrite <- Rsum_scale, map_map. apply Rsum_ext. intros d' _. ring.
  - rewrite (Rsum_ext _ (fun _ => 0)); [rewrite Rsum_zero; unfold Rdiv; ring|]. intros n' _. rewrite (Rsum_ext _ (fun _ => 0)) by (intros; ring). apply Rsum_zero.
Qed.
Print Assumptions C103_quantizer_ema_gradient.
(** A code stays where it is exactly if it is the mean of the vectors assigned to it, or has none. *)
Theorem C103_quantizer_stationary N D K cost env j : (0 < N)%nat -> (0 < D)%nat -> (0 < K)%nat ->
  let assigned := filter (fun n => (code_of D K env n =? j)%nat) (seq 0 N) in
  (forall d, (d < D)%nat -> gradient vq_eqb env (quantizer_loss cost (codes D K) K (inputs N D)) (Embedding d j) = 0) <->
  (assigned = [] \/ forall d, (d < D)%nat -> env (Embedding d j) = mean (map (fun n => env (Input n d)) assigned)).
Proof.
  intros HN HD HK assigned. destruct (C103_quantizer_gradient N D K cost env HN HD HK) as [_ G].
  assert (ND : INR (N * D) <> 0) by (apply not_0_INR; nia).
  assert (S : forall d, Rsum (map (fun n => if (code_of D K env n =? j)%nat then 2 * (env (Embedding d j) - env (Input n d)) else 0) (seq 0 N)) = 2 * (INR (length assigned) * env (Embedding d j) - Rsum (map (fun n => env (Input n d)) assigned))).
  { intros d. unfold assigned. clear G. induction (seq 0 N) as [|n l IH]; [cbn; ring|]. cbn [map filter]. rewrite Rsum_cons, IH. destruct (code_of D K env n =? j)%nat; [|ring]. cbn [map]. rewrite Rsum_cons. cbn [length]. rewrite S_INR. ring. }
  assert (Z : forall d, (d < D)%nat -> (gradient vq_eqb env (quantizer_loss cost (codes D K) K (inputs N D)) (Embedding d j) = 0 <-> INR (length assigned) * env (Embedding d j) = Rsum (map (fun n => env (Input n d)) assigned))).
  { intros d Hd. rewrite (G d j Hd), S. split; intros H; [|rewrite H; unfold Rdiv; ring]. apply Rmult_integral in H as [H|H]; [lra|]. now apply Rinv_neq_0_compat in H. }
  destruct assigned as [|a l] eqn:A.
  - split; [now left|]. intros _ d Hd. apply Z; [exact Hd|]. cbn. ring.
  - assert (L : INR (length (a :: l)) <> 0) by (apply not_0_INR; discriminate). split.
    + intros H. right. intros d Hd. apply (Z d Hd) in H; [|exact Hd]. unfold mean. rewrite map_length, <- H. field. exact L.
    + intros [H|H]; [discriminate H|]. intros d Hd. apply (Z d Hd). rewrite (H d Hd). unfold mean. rewrite map_length. field. exact L.
Qed.
Print Assumptions C103_quantizer_stationary.

(** ** The index does not change where one code is strictly nearest *)
Lemma positive_locally (f : R -> R) l : derivable_pt_lim f 0 l -> 0 < f 0 -> locally (fun t => 0 < f t).
Proof.
  intros D P. assert (C : continuity_pt f 0) by (apply derivable_continuous_pt; now exists l).
  destruct (C (f 0) P) as (a & A & H). exists a. split; [exact A|]. intros t T. destruct (Req_dec t 0) as [->|N]; [exact P|].
  assert (Q : Rabs (f t - f 0) < f 0). { apply (H t). split; [split; [exact I | now apply not_eq_sym] |]. unfold dist. cbn. unfold R_dist. now rewrite Rminus_0_r. }
  apply Rabs_def2 in Q. lra.
Qed.
Lemma locally_below (P : nat -> R -> Prop) k : (forall m, (m < k)%nat -> locally (P m)) -> locally (fun t => forall m, (m < k)%nat -> P m t).
Proof.
  induction k as [|k IH]; intros H; [apply locally_all; intros; lia|].
  eapply locally_impl; [|apply (locally_and _ _ (H k (Nat.lt_succ_diag_r k)) (IH (fun m M => H m (Nat.lt_lt_succ_r _ _ M))))].
  intros t [A B] m M. destruct (Nat.eq_dec m k) as [->|]; [exact A | apply B; lia].
Qed.
Definition code_distance (D : nat) (n m : nat) : expr vq_var := esum (map (fun d => esq (Sub (Var (Input n d)) (Var (Embedding d m)))) (seq 0 D)).
Lemma code_distance_value D K env n m : (m < K)%nat -> sq_distance (map (fun d => env (Input n d)) (seq 0 D)) (column m (map (fun d => map (fun j => env (Embedding d j)) (seq 0 K)) (seq 0 D))) = ev env (code_distance D n m).
Proof.
  intros M. unfold sq_distance, column, code_distance. rewrite ev_esum, !map_map.
  rewrite (map_ext (fun d => nth m (map (fun j => env (Embedding d j)) (seq 0 K)) 0) (fun d => env (Embedding d m))) by (intros d; now rewrite (seq_nth_map (fun j => env (Embedding d j)) 0)).
  pose proof (zip2_seq (fun a b => square (a - b)) (fun d => env (Input n d)) (fun d => env (Embedding d m)) (seq 0 D)) as Z. unfold zip2 in Z. rewrite Z. reflexivity.
Qed.
Theorem C103_code_settled D K env dir n : (0 < K)%nat ->
  let x := map (fun d => env (Input n d)) (seq 0 D) in
  let es := map (fun d => map (fun j => env (Embedding d j)) (seq 0 K)) (seq 0 D) in
  (forall m, (m < K)%nat -> m <> code_of D K env n -> sq_distance x (column (code_of D K env n) es) < sq_distance x (column m es)) ->
  locally (fun t => code_of D K (line env dir t) n = code_of D K env n).
Proof.
  intros HK x es H. set (j := code_of D K env n) in *. assert (J : (j < K)%nat) by now apply code_of_lt.
  assert (L : forall m, (m < K)%nat -> locally (fun t => m <> j -> 0 < ev (line env dir t) (Sub (code_distance D n m) (code_distance D n j)))).
  { intros m M. destruct (Nat.eq_dec m j) as [->|Ne]; [apply locally_all; intros; contradiction|].
    eapply locally_impl; [intros t T _; exact T|]. apply (positive_locally _ (jvp env dir (Sub (code_distance D n m) (code_distance D n j)))).
    - assert (G : forall i, good env (code_distance D n i) /\ settled env dir (code_distance D n i)).
      { intros i. unfold code_distance. rewrite good_esum, settled_esum, !Forall_map. split; apply Forall_forall; intros d _; cbn; tauto. }
      apply C103_sound; cbn [good settled]; split; apply G.
    - specialize (H m M Ne). unfold x, es in H. rewrite !code_distance_value in H by assumption. cbn [ev].
      assert (E : forall i, ev (line env dir 0) (code_distance D n i) = ev env (code_distance D n i)).
      { intros i. unfold code_distance. rewrite !ev_esum, !map_map. apply Rsum_ext. intros d _. cbn [ev esq]. now rewrite !line_0. }
      rewrite !E. lra. }
  eapply locally_impl; [|exact (locally_below _ K L)]. intros t T. cbv beta in T.
  destruct (C53_nearest (map (fun d => line env dir t (Input n d)) (seq 0 D)) (map (fun d => map (fun j => line env dir t (Embedding d j)) (seq 0 K)) (seq 0 D)) K HK) as (A & B & _); [now rewrite !map_length|].
  fold (code_of D K (line env dir t) n) in A, B. destruct (Nat.eq_dec (code_of D K (line env dir t) n) j) as [E|E]; [exact E|].
  specialize (B j J). rewrite !code_distance_value in B by assumption. specialize (T _ A E). cbn [ev] in T. lra.
Qed.
Print Assumptions C103_code_settled.
(** So is the gradient of the loss [q_latent_loss] with respect to the codes: the real one, while the inputs are not moved. *)
Theorem C103_codebook_gradient N D K env d j : (0 < N)%nat -> (0 < D)%nat -> (0 < K)%nat ->
  (forall n m, (n < N)%nat -> (m < K)%nat -> m <> code_of D K env n ->
     sq_distance (map (fun d => env (Input n d)) (seq 0 D)) (column (code_of D K env n) (map (fun d => map (fun j => env (Embedding d j)) (seq 0 K)) (seq 0 D))) <
     sq_distance (map (fun d => env (Input n d)) (seq 0 D)) (column m (map (fun d => map (fun j => env (Embedding d j)) (seq 0 K)) (seq 0 D)))) ->
  derivable_pt_lim (fun t => ev (line env (basis vq_eqb (Embedding d j)) t) (q_latent_loss (codes D K) K (inputs N D))) 0
    (gradient vq_eqb env (q_latent_loss (codes D K) K (inputs N D)) (Embedding d j)).
Proof.
  intros HN HD HK H. apply C103_gradient.
  - destruct (good_quantizer N D K 1 env HN HD HK) as [G _]. unfold quantizer_loss in G. cbn [good] in G. tauto.
  - unfold q_latent_loss, emean. cbn [settled]. split; [|exact I]. apply settled_esum, Forall_concat, Forall_map, Forall_forall. intros x X. unfold inputs in X.
    apply in_map_iff in X as (n & <- & X). apply in_seq in X. unfold zip2. apply Forall_map, Forall_forall. intros [q v] Q. cbn [fst snd esq sg settled].
    assert (V : locally (fun t => ev (line env (basis vq_eqb (Embedding d j)) t) v = ev env v)).
    { apply in_combine_r, in_map_iff in Q as (d' & <- & _). apply locally_all. intros t. cbn. unfold line, basis. cbn [vq_eqb]. ring. }
    assert (S : settled env (basis vq_eqb (Embedding d j)) q); [|tauto]. apply in_combine_l in Q. unfold quantized, codes in Q. rewrite map_map in Q. apply in_map_iff in Q as (d' & <- & _).
    cbn [settled]. fold (codes D K). split.
    + eapply locally_impl; [|apply (C103_code_settled D K env (basis vq_eqb (Embedding d j)) n HK); intros m M Ne; apply H; [lia | exact M | exact Ne]]. intros t T. now rewrite !nearest_code.
    + rewrite nearest_code, (seq_nth_map (fun j => Var (Embedding d' j)) (Const 0)) by now apply code_of_lt. exact I.
Qed.
Print Assumptions C103_codebook_gradient.
(** But the loss as a whole is not the function the gradients belong to: one input, one code, [commitment_cost] 1. *)
Theorem C103_quantizer_loss_refuted : ~ (forall N D K cost env v, (0 < N)%nat -> (0 < D)%nat -> (0 < K)%nat ->
  derivable_pt_lim (fun t => ev (line env (basis vq_eqb v) t) (quantizer_loss cost (codes D K) K (inputs N D))) 0 (gradient vq_eqb env (quantizer_loss cost (codes D K) K (inputs N D)) v)).
Proof.
  intros H. set (env := fun v : vq_var => match v with Input _ _ => 1 | Embedding _ _ => 0 end).
  specialize (H 1 1 1 1%R env (Input 0 0))%nat. specialize (H ltac:(lia) ltac:(lia) ltac:(lia)).
  rewrite (proj1 (C103_quantizer_gradient 1 1 1 1 env ltac:(lia) ltac:(lia) ltac:(lia))) in H by lia.
  assert (C : forall e, code_of 1 1 e 0 = 0%nat) by (intros e; pose proof (code_of_lt 1 1 e 0 ltac:(lia)); lia).
  rewrite C in H.
  set (f := Mul (Const 2) (esq (Sub (Var (Embedding 0 0)) (Var (Input 0 0))))).
  assert (F : derivable_pt_lim (fun t => ev (line env (basis vq_eqb (Input 0 0)) t) f) 0 (jvp env (basis vq_eqb (Input 0 0)) f)) by (apply C103_sound; cbn; tauto).
  assert (J : jvp env (basis vq_eqb (Input 0 0)) f = 4) by (cbn; ring). rewrite J in F.
  assert (H2 : derivable_pt_lim (fun t => ev (line env (basis vq_eqb (Input 0 0)) t) (quantizer_loss 1 (codes 1 1) 1 (inputs 1 1))) 0 4).
  { eapply derivable_local; [|exact F]. apply locally_all. intros t. unfold quantizer_loss. cbn [ev]. destruct (C103_latent_values (line env (basis vq_eqb (Input 0 0)) t) (codes 1 1) 1 (inputs 1 1)) as [E1 E2]. rewrite E2, <- E2.
    assert (Q : ev (line env (basis vq_eqb (Input 0 0)) t) (q_latent_loss (codes 1 1) 1 (inputs 1 1)) = Rsqr (line env (basis vq_eqb (Input 0 0)) t (Embedding 0 0) - line env (basis vq_eqb (Input 0 0)) t (Input 0 0))).
    { unfold q_latent_loss, inputs. cbn [seq map concat]. rewrite ev_emean. unfold quantized. cbn [codes seq map zip2 combine app fst snd]. unfold mean. cbn [map length ev esq sg].
      assert (NC : nearest [[Var (Embedding 0 0)]] 1 [Var (Input 0 0)] (line env (basis vq_eqb (Input 0 0)) t) = 0%nat) by exact (eq_trans (nearest_code 1 1 _ 0) (C _)).
      rewrite NC. cbn [nth ev]. rewrite Rsum_cons, Rsum_nil. cbn [INR]. unfold Rsqr. field. }
    rewrite E1, <- E2, Q. unfold f. cbn [ev esq]. unfold Rsqr. ring. }
  pose proof (uniqueness_limite _ _ _ _ H H2) as U. cbn in U. lra.
Qed.
Print Assumptions C103_quantizer_loss_refuted.
(** Two numbers and two codes: 0 is assigned to the code 1, 4 to the code 5. *)
Example C103_quantizer_gradient_case : let env := fun v : vq_var => match v with Input O _ => 0 | Input _ _ => 4 | Embedding _ O => 1 | Embedding _ _ => 5 end in
  map (gradient vq_eqb env (quantizer_loss (1 / 4) (codes 1 2) 2 (inputs 2 1))) [Input 0 0; Input 1 0; Embedding 0 0; Embedding 0 1] = [- (1 / 4); - (1 / 4); 1; 1].
Proof.
  intros env. assert (C : code_of 1 2 env 0 = 0%nat /\ code_of 1 2 env 1 = 1%nat).
  { destruct (C53_nearest [0] [[1; 5]] 2) as (A0 & B0 & _); [lia | reflexivity|]. destruct (C53_nearest [4] [[1; 5]] 2) as (A1 & B1 & _); [lia | reflexivity|].
    change (vq_index [0] [[1; 5]] 2) with (code_of 1 2 env 0) in *. change (vq_index [4] [[1; 5]] 2) with (code_of 1 2 env 1) in *.
    specialize (B0 0%nat ltac:(lia)). specialize (B1 1%nat ltac:(lia)). unfold sq_distance, column, square in *.
    destruct (code_of 1 2 env 0) as [|[|]]; [|cbn in B0; lra|lia]. destruct (code_of 1 2 env 1) as [|[|]]; [cbn in B1; lra|auto|lia]. }
  destruct C as [C0 C1]. destruct (C103_quantizer_gradient 2 1 2 (1 / 4) env) as [GI GE]; try lia.
  cbn [map]. rewrite !GI, !GE, ?C0, ?C1 by lia. cbn [seq map Nat.mul Nat.add]. rewrite C0, C1. cbn [Nat.eqb]. rewrite !Rsum_cons, !Rsum_nil. cbn [INR env].
  repeat (apply f_equal2; [lra|]). reflexivity.
Qed.

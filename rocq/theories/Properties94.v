(** * C108: the example notebooks *)
From Coq Require Import Reals ZArith List Bool Arith Lia.
From Verif Require Import ModelRng ModelShape ModelConv ModelSampling ModelNets ModelTransformer ModelTraining ModelReal ModelLayers ModelNotebooks Properties09 Properties34.
Import ListNotations.

(** ** haiku_lstms.ipynb: "The plots should be equivalent!" *)
Section Lstm.
Context {X O S : Type} (core : X -> S -> O * S) (dense : O -> X) (initial : S).
Lemma unrolled_app xs ys : forall s, unrolled core (xs ++ ys) s = (fst (unrolled core xs s) ++ fst (unrolled core ys (snd (unrolled core xs s))), snd (unrolled core ys (snd (unrolled core xs s)))).
Proof.
  induction xs as [|x xs IH]; intros s; cbn [app unrolled]; [cbn [fst snd app]; now destruct (unrolled core ys s)|].
  destruct (core x s) as [o s']. rewrite IH. destruct (unrolled core xs s') as [os s'']. reflexivity.
Qed.
Lemma unrolled_length xs : forall s, length (fst (unrolled core xs s)) = length xs.
Proof. induction xs as [|x xs IH]; intros s; cbn [unrolled]; [reflexivity|]. destruct (core x s) as [o s']. specialize (IH s'). destruct (unrolled core xs s'). cbn [fst length] in *. now rewrite IH. Qed.
Lemma fast_loop_length k : forall x s, length (fast_loop core dense k x s) = k.
Proof. induction k as [|k IH]; intros x s; cbn [fast_loop]; [reflexivity|]. destruct (core x s). cbn [length]. now rewrite IH. Qed.
Lemma fast_loop_snoc k : forall x s, exists y, fast_loop core dense (Datatypes.S k) x s = fast_loop core dense k x s ++ [y].
Proof.
  induction k as [|k IH]; intros x s.
  - cbn [fast_loop]. destruct (core x s). eexists. reflexivity.
  - cbn [fast_loop]. destruct (core x s) as [o s']. destruct (IH (dense o) s') as [y E]. exists y. change (dense o :: fast_loop core dense (Datatypes.S k) (dense o) s' = dense o :: fast_loop core dense k (dense o) s' ++ [y]). now rewrite E.
Qed.
Lemma refeed k : forall x s, map dense (fst (unrolled core (x :: fast_loop core dense k x s) s)) = fast_loop core dense (Datatypes.S k) x s.
Proof.
  induction k as [|k IH]; intros x s.
  - cbn [fast_loop unrolled]. destruct (core x s). reflexivity.
  - cbn [fast_loop]. destruct (core x s) as [o s'] eqn:E. change (unrolled core (x :: dense o :: fast_loop core dense k (dense o) s') s) with (let (l, t) := core x s in let (ls, t) := unrolled core (dense o :: fast_loop core dense k (dense o) s') t in (l :: ls, t)).
    rewrite E. specialize (IH (dense o) s'). destruct (unrolled core (dense o :: fast_loop core dense k (dense o) s') s') as [ls t]. cbn [fst map] in *. rewrite IH. reflexivity.
Qed.
Lemma skipn_last {A} (l : list A) y : skipn (length (l ++ [y]) - 1) (l ++ [y]) = [y].
Proof. rewrite app_length. cbn [length]. replace (length l + 1 - 1) with (length l) by lia. rewrite skipn_app, skipn_all, Nat.sub_diag. reflexivity. Qed.

(** For a non-empty context the two ways to generate agree: the slow one returns what the fast one returns without its last entry (which is how the notebook plots them). *)
Theorem C108_predict context seq_len : context <> [] -> length context < seq_len ->
  exists out x, autoregressive_predict core dense initial context seq_len = Some out /\ fast_autoregressive_predict core dense initial context seq_len = Some (out ++ [x]) /\
                length out = seq_len - 1 /\ firstn (length context) out = predictions core dense initial context.
Proof.
  intros Hc Hl. unfold autoregressive_predict, fast_autoregressive_predict. destruct (unrolled core context initial) as [os s] eqn:E.
  assert (Lo : length os = length context) by (rewrite <- (unrolled_length context initial), E; reflexivity).
  assert (P : predictions core dense initial context = map dense os) by (unfold predictions; now rewrite E).
  destruct (exists_last (l := map dense os)) as (init & x & Eo); [destruct os, context; try discriminate; now elim Hc|].
  rewrite Eo, rev_app_distr. cbn [rev app]. rewrite <- Eo.
  destruct (seq_len - length context) as [|k] eqn:K; [lia|]. destruct (fast_loop_snoc k x s) as [y Ey].
  exists (map dense os ++ fast_loop core dense k x s), y.
  set (feed := fun i => match i with 0 => [] | Datatypes.S j => x :: fast_loop core dense j x s end).
  assert (Q : forall i, predictions core dense initial (context ++ feed i) = map dense os ++ fast_loop core dense i x s).
  { intros i. unfold predictions. rewrite unrolled_app, E. cbn [fst snd]. rewrite map_app. f_equal. destruct i as [|j]; [reflexivity | apply refeed]. }
  assert (R : forall i, feed i ++ skipn (length (predictions core dense initial (context ++ feed i)) - 1) (predictions core dense initial (context ++ feed i)) = feed (Datatypes.S i)).
  { intros i. rewrite Q. destruct i as [|j].
    - cbn [fast_loop feed]. rewrite app_nil_r, Eo, skipn_last. reflexivity.
    - destruct (fast_loop_snoc j x s) as [z Ez]. rewrite Ez, app_assoc, skipn_last. cbn [feed]. rewrite Ez. reflexivity. }
  assert (L : forall n i o, slow_loop core dense initial (Datatypes.S n) context (feed i) o = Some (map dense os ++ fast_loop core dense (i + n) x s)).
  { induction n as [|n IH]; intros i o.
    - cbn [slow_loop]. now rewrite Q, Nat.add_0_r.
    - change (slow_loop core dense initial (Datatypes.S (Datatypes.S n)) context (feed i) o) with
        (let o := predictions core dense initial (context ++ feed i) in slow_loop core dense initial (Datatypes.S n) context (feed i ++ skipn (length o - 1) o) (Some o)). cbv zeta. rewrite R, IH. do 3 f_equal. lia. }
  split; [exact (L k 0 None)|]. split.
  - rewrite Ey, <- app_assoc. destruct (fast_loop core dense k x s); reflexivity.
  - split; [rewrite app_length, map_length, fast_loop_length; lia|]. rewrite P, firstn_app, map_length, Lo, Nat.sub_diag. cbn [firstn]. rewrite app_nil_r. apply firstn_all2. now rewrite map_length, Lo.
Qed.
(** Asking for no more than the context, both raise. *)
Theorem C108_predict_raises context seq_len : seq_len <= length context ->
  autoregressive_predict core dense initial context seq_len = None /\ fast_autoregressive_predict core dense initial context seq_len = None.
Proof.
  intros H. unfold autoregressive_predict, fast_autoregressive_predict. replace (seq_len - length context) with 0 by lia. split; [reflexivity|].
  destruct (unrolled core context initial) as [os s]. destruct (rev (map dense os)); reflexivity.
Qed.
End Lstm.
Print Assumptions C108_predict.
Print Assumptions C108_predict_raises.
(** A core that adds what it has seen. *)
Example C108_predict_case : let core (x s : nat) := (x + s, x + s) in
  autoregressive_predict core (fun o => o) 0 [1; 2] 5 = Some [1; 3; 6; 12] /\ fast_autoregressive_predict core (fun o => o) 0 [1; 2] 5 = Some [1; 3; 6; 12; 24].
Proof. split; reflexivity. Qed.

(** ** [Dataset]: an epoch is the data, batch after batch, and the next begins where the first did *)
Section Data.
Context {A : Type}.
Lemma ds_draw_from (data : list A) b (Hb : 0 < b) (Hn : data <> []) : forall k m, length data = (m + k) * b -> 0 < k ->
  exists bs, ds_draw k (Dataset data b (m * b)) = Some (bs, Dataset data b 0) /\ concat bs = skipn (m * b) data /\ Forall (fun x => length x = b) bs /\ length bs = k.
Proof.
  induction k as [|k IH]; intros m L K; [lia|]. cbn [ds_draw]. unfold ds_next. cbn [ds_idx ds_data ds_batch].
  assert (LB : length (firstn b (skipn (m * b) data)) = b) by (rewrite firstn_length, skipn_length; lia).
  destruct (length data <=? m * b + b) eqn:G.
  - apply Nat.leb_le in G. assert (k = 0) by nia. subst k. destruct (length data =? 0) eqn:Z; [apply Nat.eqb_eq in Z; destruct data; [congruence | discriminate Z]|].
    replace (m * b + b) with (length data) by lia. rewrite Nat.mod_same by (apply Nat.eqb_neq in Z; exact Z). rewrite Nat.eqb_refl. cbn [ds_draw]. eexists. split; [reflexivity|]. cbn [concat]. rewrite app_nil_r.
    split; [apply firstn_all2; rewrite skipn_length; lia|]. split; [constructor; [exact LB | constructor] | reflexivity].
  - apply Nat.leb_gt in G. assert (0 < k) by nia. replace (m * b + b) with (S m * b) by lia. destruct (IH (S m)) as (bs & E & C & F & N); [lia | assumption|]. rewrite E. eexists. split; [reflexivity|]. cbn [concat]. rewrite C.
    split; [|split; [constructor; assumption | cbn [length]; now rewrite N]]. replace (S m * b) with (b + m * b) by lia. rewrite <- (firstn_skipn b (skipn (m * b) data)) at 2. f_equal.
    clear. generalize (m * b). intros n. revert data. induction n as [|n IH]; intros data; [now rewrite Nat.add_0_r|]. rewrite Nat.add_succ_r. destruct data as [|x data]; [now rewrite !skipn_nil|]. cbn [skipn]. apply IH.
Qed.
Lemma ds_draw_app n : forall m (d : dataset A), ds_draw (n + m) d = match ds_draw n d with None => None | Some (xs, d) => match ds_draw m d with None => None | Some (ys, d) => Some (xs ++ ys, d) end end.
Proof.
  induction n as [|n IH]; intros m d; cbn [ds_draw Nat.add]; [destruct (ds_draw m d) as [[]|]; reflexivity|]. destruct (ds_next d) as [[b d']|]; [|reflexivity]. rewrite IH. destruct (ds_draw n d') as [[xs d'']|]; [|reflexivity]. destruct (ds_draw m d'') as [[]|]; reflexivity.
Qed.
Theorem C108_dataset (data : list A) b d : ds_new data b = Some d -> data <> [] ->
  exists bs, concat bs = data /\ Forall (fun x => length x = b) bs /\ forall epochs, ds_draw (epochs * (length data / b)) d = Some (concat (repeat bs epochs), d).
Proof.
  unfold ds_new. intros N Hn. destruct (b =? 0) eqn:B; [discriminate N|]. apply Nat.eqb_neq in B. destruct (length data mod b =? 0) eqn:M; [|discriminate N]. apply Nat.eqb_eq in M. injection N as <-.
  assert (L : length data = (0 + length data / b) * b) by (pose proof (Nat.div_mod (length data) b B); lia).
  destruct (ds_draw_from data b ltac:(lia) Hn (length data / b) 0 L) as (bs & E & C & F & _); [destruct data; [congruence | cbn [length] in L |- *]; destruct (S (length data) / b); lia|].
  exists bs. split; [exact C|]. split; [exact F|]. change (0 * b) with 0 in E. induction epochs as [|n IH]; [reflexivity|]. cbn [Nat.mul repeat concat]. now rewrite ds_draw_app, E, IH.
Qed.
(** A batch size that does not divide the number of columns is rejected. *)
Theorem C108_dataset_new (data : list A) b : ds_new data b = None <-> b = 0 \/ length data mod b <> 0.
Proof.
  unfold ds_new. destruct (b =? 0) eqn:B; [apply Nat.eqb_eq in B | apply Nat.eqb_neq in B; destruct (length data mod b =? 0) eqn:M; [apply Nat.eqb_eq in M | apply Nat.eqb_neq in M]]; intuition (congruence || lia).
Qed.
End Data.
Print Assumptions C108_dataset.
Print Assumptions C108_dataset_new.
Example C108_dataset_case : option_map fst (match ds_new [1; 2; 3; 4] 2 with Some d => ds_draw 5 d | None => None end) = Some [[1; 2]; [3; 4]; [1; 2]; [3; 4]; [1; 2]].
Proof. reflexivity. Qed.

(** ** Grids: sample [n] stands in row [n / cols], column [n mod cols] *)
Lemma div_part a b c : c < b -> (a * b + c) / b = a. Proof. intros H. rewrite Nat.add_comm, Nat.div_add by lia. rewrite Nat.div_small by exact H. reflexivity. Qed.
Lemma mod_part a b c : c < b -> (a * b + c) mod b = c. Proof. intros H. rewrite Nat.add_comm, Nat.mod_add by lia. now apply Nat.mod_small. Qed.
Theorem C108_grid {A} cols h w c (x : nat -> A) n i j ch : 0 < cols -> i < h -> j < w -> ch < c ->
  image_grid cols h w c x ((((n / cols) * h + i) * (cols * w) + ((n mod cols) * w + j)) * c + ch) = x (((n * h + i) * w + j) * c + ch).
Proof.
  intros Hc Hi Hj Hch. unfold image_grid. cbv zeta. rewrite mod_part, div_part by exact Hch. set (r := (n / cols) * h + i). set (b := n mod cols). assert (Hb : b < cols) by (apply Nat.mod_upper_bound; lia).
  replace (r * (cols * w) + (b * w + j)) with ((r * cols + b) * w + j) by lia. rewrite (div_part (r * cols + b)), (mod_part (r * cols + b)) by exact Hj. rewrite (div_part r), (mod_part r) by exact Hb.
  unfold r at 1 2. rewrite div_part, mod_part by exact Hi. f_equal. pose proof (Nat.div_mod n cols ltac:(lia)). unfold b. nia.
Qed.
Print Assumptions C108_grid.
Example C108_grid_case : map (image_grid 2 2 2 1 (fun i => i)) (seq 0 16) = [0; 1; 4; 5; 2; 3; 6; 7; 8; 9; 12; 13; 10; 11; 14; 15].
Proof. reflexivity. Qed.

(** ** Sizes *)
Section Sizes.
Local Open Scope Z_scope.
Lemma conv_same_size k s n : 1 <= n -> 1 <= k -> 1 <= s -> conv_same k s n = (n + s - 1) / s.
Proof. intros Hn Hk Hs. unfold conv_same. destruct (C40_same_strided n k s Hn Hk Hs) as (_ & H & _). exact H. Qed.
Lemma conv_transpose_same_size k s n : 1 <= n -> 1 <= k -> 1 <= s -> conv_transpose_same k s n = n * s.
Proof. intros Hn Hk Hs. unfold conv_transpose_same. destruct (C78_default_shape n k s PtSame Hn Hk Hs) as (_ & H). cbv zeta in H. destruct (conv_transpose_padding k s PtSame). exact H. Qed.
Lemma residual_same l n : 1 <= n -> residual_size l n = n.
Proof.
  intros Hn. unfold residual_size. induction l as [|l IH]; [reflexivity|]. change (conv_same 1 1 (conv_same 3 1 (Nat.iter l (fun n => conv_same 1 1 (conv_same 3 1 n)) n)) = n). rewrite IH. replace (conv_same 3 1 n) with n by (rewrite conv_same_size, Z.div_1_r by lia; lia). rewrite conv_same_size, Z.div_1_r by lia. lia.
Qed.
(** The reconstruction is as large as the image, rounded up to a multiple of 4, however deep the residual stacks. *)
Theorem C108_reconstruction layers n : 1 <= n -> reconstruction_size layers n = 4 * ((n + 3) / 4) /\ (reconstruction_size layers n = n <-> n mod 4 = 0).
Proof.
  intros Hn. assert (E : reconstruction_size layers n = 4 * ((n + 3) / 4)).
  { unfold reconstruction_size, encoder_size, decoder_size. rewrite (conv_same_size 4 2 n) by lia. set (a := (n + 2 - 1) / 2). assert (Ha : 1 <= a) by (apply Z.div_le_lower_bound; lia).
    rewrite (conv_same_size 4 2 a) by lia. set (b := (a + 2 - 1) / 2). assert (Hb : 1 <= b) by (apply Z.div_le_lower_bound; lia).
    assert (I3 : conv_same 3 1 b = b) by (rewrite conv_same_size, Z.div_1_r by lia; lia). assert (I1 : conv_same 1 1 b = b) by (rewrite conv_same_size, Z.div_1_r by lia; lia).
    rewrite I3, (residual_same layers b Hb), I1, I3, (residual_same layers b Hb). rewrite (conv_transpose_same_size 4 2 b), conv_transpose_same_size by lia.
    assert (b = (n + 3) / 4); [|lia]. unfold b, a. Z.to_euclidean_division_equations. lia. }
  split; [exact E|]. rewrite E. Z.to_euclidean_division_equations. lia.
Qed.
(** The generator makes images of 7 times a power of two; the discriminator's last feature map is the image divided by its strides, rounded up. *)
Theorem C108_gan_sizes : (forall cs, generator_size cs = 7 * 2 ^ Z.of_nat (length cs)) /\
  (forall strides n, 1 <= n -> Forall (fun s => 1 <= s) strides -> let p := fold_left Z.mul strides 1 in discriminator_size strides n = (n + p - 1) / p).
Proof.
  split.
  - intros cs. unfold generator_size. enough (G : forall n, 1 <= n -> fold_left (fun n (_ : Z) => conv_transpose_same 5 2 n) cs n = n * 2 ^ Z.of_nat (length cs)) by (apply G; lia).
    induction cs as [|c cs IH]; intros n Hn; [cbn [fold_left length]; change (2 ^ Z.of_nat 0) with 1; lia|]. cbn [fold_left length]. rewrite conv_transpose_same_size by lia. rewrite IH by lia. rewrite Nat2Z.inj_succ, Z.pow_succ_r by lia. lia.
  - intros strides n Hn F. cbv zeta. unfold discriminator_size.
    enough (G : forall q, 1 <= q -> forall m, m = (n + q - 1) / q -> let p := fold_left Z.mul strides q in fold_left (fun n s => conv_same 5 s n) strides m = (n + p - 1) / p).
    { apply (G 1); [lia|]. rewrite Z.div_1_r. lia. }
    induction F as [|s strides Hs F IH]; intros q Hq m Em; [exact Em|]. cbv zeta. cbn [fold_left]. apply IH; [nia|]. assert (1 <= m) by (rewrite Em; apply Z.div_le_lower_bound; lia). rewrite conv_same_size by lia. rewrite Em.
    replace ((n + q - 1) / q + s - 1) with ((n + q - 1 + (s - 1) * q) / q) by (rewrite Z.div_add; lia). rewrite Z.div_div by lia. f_equal. lia.
Qed.
End Sizes.
Print Assumptions C108_reconstruction.
Print Assumptions C108_gan_sizes.
(** CIFAR and MNIST images fit; an image of 30 by 30 would be reconstructed with 32 by 32, and the error of one of 1 by 1 would broadcast. *)
Example C108_sizes_case : (reconstruction_size 2 32 = 32 /\ reconstruction_size 2 30 = 32 /\ reconstruction_size 2 1 = 4 /\ generator_size [32; 1] = 28 /\ discriminator_size [2; 1; 2; 1; 2] 28 = 4)%Z.
Proof. repeat split; reflexivity. Qed.

(** ** The keys and updates of the GAN *)
Fixpoint depth (k : key) : nat := match k with Seed _ => 0 | Split k _ _ => S (depth k) end.
Lemma gan_keys_depth n : forall rng k, In k (gan_keys n rng) -> depth rng < depth k.
Proof. induction n as [|n IH]; intros rng k H; [destruct H|]. cbn [gan_keys] in H. destruct H as [<-|[<-|H]]; cbn [depth]; try lia. apply IH in H. cbn [depth] in H. lia. Qed.
Lemma gan_keys_not n rng a i : i <> 0 -> ~ In (Split rng a i) (gan_keys n (Split rng 3 0)).
Proof.
  intros Hi H. destruct n as [|n]; [destruct H|]. cbn [gan_keys] in H. destruct H as [E|[E|H]].
  - apply (f_equal depth) in E. cbn [depth] in E. lia.
  - apply (f_equal depth) in E. cbn [depth] in E. lia.
  - apply gan_keys_depth in H. cbn [depth] in H. lia.
Qed.
(** No key is drawn with twice, however long the training. *)
Theorem C108_gan_keys n rng : NoDup (rng :: gan_keys n rng).
Proof.
  constructor; [intros H; apply gan_keys_depth in H; lia|]. revert rng. induction n as [|n IH]; intros rng; [constructor|]. cbn [gan_keys]. constructor.
  - cbn [In]. intros [E|H]; [discriminate E | revert H; apply gan_keys_not; lia].
  - constructor; [apply gan_keys_not; lia | apply IH].
Qed.
Print Assumptions C108_gan_keys.
Section Gan.
Context {Pg Pd Og Od B : Type} (gen_step : Pg -> Og -> key -> Pd -> B -> Pg * Og) (disc_step : Pd -> Od -> key -> Pg -> B -> Pd * Od).
(** Although written one after the other, the two updates are simultaneous: each sees the parameters that the other had before the step. *)
Theorem C108_simultaneous rng s batches last_batch : let '(rng1, s1) := gan_train gen_step disc_step rng s batches in
  let '(rng2, s2) := gan_train gen_step disc_step rng s (batches ++ [last_batch]) in
  rng2 = Split rng1 3 0 /\
  (params_gen s2, opt_gen s2) = gen_step (params_gen s1) (opt_gen s1) (Split rng1 3 1) (params_disc s1) last_batch /\
  (params_disc s2, opt_disc s2) = disc_step (params_disc s1) (opt_disc s1) (Split rng1 3 2) (params_gen s1) last_batch.
Proof.
  unfold gan_train. rewrite fold_left_app. cbn [fold_left]. destruct (fold_left _ batches (rng, s)) as [rng1 s1]. cbn [fst snd]. unfold gan_update.
  destruct (disc_step _ _ _ _ _) as [d od]. destruct (gen_step _ _ _ _ _) as [g og]. repeat split.
Qed.
End Gan.
Print Assumptions C108_simultaneous.
(** ... which is not what training the generator against the discriminator just updated would give. *)
Theorem C108_alternating_refuted : ~ (forall (gen_step disc_step : nat -> unit -> key -> nat -> unit -> nat * unit) rng s batch,
  params_gen (snd (gan_update gen_step disc_step rng s batch)) =
  fst (gen_step (params_gen s) (opt_gen s) (Split rng 3 1) (fst (disc_step (params_disc s) (opt_disc s) (Split rng 3 2) (params_gen s) batch)) batch)).
Proof. intros H. discriminate (H (fun g o _ d _ => (d, o)) (fun d o _ _ _ => (S d, o)) (Seed 0) (GANState 0 0 tt tt) tt). Qed.
Print Assumptions C108_alternating_refuted.

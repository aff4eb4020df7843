(** * C87: examples/imagenet - shards partition a split, evaluation sees every example once, crops lie in the image *)
From Coq Require Import String List Bool Arith ZArith Lia Permutation.
From Verif Require Import ModelImagenet.
Import ListNotations.

(** ** Shards *)
Lemma sections_nth sizes : forall start i, (i < length sizes)%nat ->
  exists a b, nth_error (sections start sizes) i = Some (a, b) /\ (a = start + fold_right Z.add 0 (firstn i sizes) /\ b = a + nth i sizes 0)%Z.
Proof.
  induction sizes as [|s sizes IH]; intros start [|i] H; cbn [length] in H; try lia.
  - exists start, (start + s)%Z. split; [reflexivity|]. cbn. lia.
  - destruct (IH (start + s)%Z i ltac:(lia)) as (a & b & E & EA & EB). exists a, b. split; [exact E|]. cbn [firstn fold_right nth]. lia.
Qed.
Lemma sum_repeat x n : fold_right Z.add 0%Z (repeat x n) = (Z.of_nat n * x)%Z.
Proof. induction n as [|n IH]; cbn [repeat fold_right]; [reflexivity|]. rewrite IH. lia. Qed.
Lemma firstn_repeat {A} (x : A) n i : firstn i (repeat x n) = repeat x (Nat.min i n).
Proof. revert i. induction n as [|n IH]; intros [|i]; cbn; try reflexivity. now rewrite IH. Qed.
Lemma nth_repeat' {A} (x d : A) n i : (i < n)%nat -> nth i (repeat x n) d = x.
Proof. revert i. induction n as [|n IH]; intros [|i] H; cbn; try lia; [reflexivity|]. apply IH. lia. Qed.
Lemma section_bounds n k i : (0 <= n)%Z -> (i < k)%nat ->
  let each := (n / Z.of_nat k)%Z in let extras := (n mod Z.of_nat k)%Z in let from j := (Z.of_nat j * each + Z.min (Z.of_nat j) extras)%Z in
  nth_error (sections 0 (section_sizes n k)) i = Some (from i, from (S i)).
Proof.
  intros Hn Hi each extras from. pose proof (Z.mod_pos_bound n (Z.of_nat k) ltac:(lia)) as EX. fold extras in EX.
  unfold section_sizes. fold each. fold extras.
  assert (L : length (repeat (each + 1)%Z (Z.to_nat extras) ++ repeat each (k - Z.to_nat extras)) = k) by (rewrite app_length, !repeat_length; lia).
  destruct (sections_nth _ 0%Z i ltac:(rewrite L; exact Hi)) as (a & b & E & EA & EB). rewrite E. f_equal.
  rewrite firstn_app, !firstn_repeat, repeat_length, fold_right_app in EA.
  assert (FR : forall l x, fold_right Z.add x l = (fold_right Z.add 0 l + x)%Z) by (clear; induction l as [|y l IH]; intros x; cbn; [reflexivity|]; rewrite IH; lia).
  rewrite FR, !sum_repeat in EA.
  assert (A' : a = from i).
  { unfold from. rewrite EA. destruct (Z.min_spec (Z.of_nat i) extras) as [[H ->]|[H ->]].
    - replace (Nat.min i (Z.to_nat extras)) with i by lia. replace (Nat.min (i - Z.to_nat extras) (k - Z.to_nat extras)) with 0%nat by lia. lia.
    - replace (Nat.min i (Z.to_nat extras)) with (Z.to_nat extras) by lia. replace (Nat.min (i - Z.to_nat extras) (k - Z.to_nat extras)) with (i - Z.to_nat extras)%nat by lia.
      rewrite Nat2Z.inj_sub, Z2Nat.id by lia. lia. }
  rewrite A' in EB |- *. f_equal. rewrite EB. destruct (Nat.lt_ge_cases i (Z.to_nat extras)) as [H|H].
  - rewrite app_nth1 by (now rewrite repeat_length). rewrite nth_repeat' by exact H. unfold from. lia.
  - rewrite app_nth2 by (now rewrite repeat_length). rewrite repeat_length, nth_repeat' by lia. unfold from. lia.
Qed.
(** The examples of TFDS that a split is meant to cover. *)
Definition covered (s : split) (x : Z) : Prop := match s with TRAIN => 10000 <= x < 1281167 | TRAIN_AND_VALID => 0 <= x < 1281167 | VALID => 0 <= x < 10000 | TEST => 0 <= x < 50000 end%Z.
Definition in_range (x : Z) (r : Z * Z) : Prop := (fst r <= x < snd r)%Z.

(** With at most as many hosts as examples, every host gets a shard, the shards are disjoint, in order and of almost the same size, and together
    they are exactly the split. *)
Theorem C87_shards s k : (0 < k)%nat -> (Z.of_nat k <= num_examples s)%Z ->
  exists shards, length shards = k /\ (forall i, (i < k)%nat -> shard s i k = nth_error shards i) /\
    (forall x, covered s x <-> exists i r, nth_error shards i = Some r /\ in_range x r) /\
    (forall i j r r' x, nth_error shards i = Some r -> nth_error shards j = Some r' -> in_range x r -> in_range x r' -> i = j) /\
    (forall i r, nth_error shards i = Some r -> (num_examples s / Z.of_nat k <= snd r - fst r <= num_examples s / Z.of_nat k + 1)%Z).
Proof.
  intros Hk Hn. set (n := num_examples s) in *. set (off := match s with TRAIN => num_examples VALID | _ => 0%Z end).
  set (each := (n / Z.of_nat k)%Z). set (extras := (n mod Z.of_nat k)%Z). set (from j := (Z.of_nat j * each + Z.min (Z.of_nat j) extras)%Z).
  assert (K0 : (0 < Z.of_nat k)%Z) by lia. pose proof (Z.mod_pos_bound n (Z.of_nat k) K0) as EX. fold extras in EX.
  assert (E1 : (1 <= each)%Z) by (apply Z.div_le_lower_bound; lia). pose proof (Z.div_mod n (Z.of_nat k) ltac:(lia)) as D. fold each extras in D.
  assert (FS : forall j, (from j + each <= from (S j) <= from j + each + 1)%Z) by (intros j; unfold from; lia).
  assert (F0 : from 0%nat = 0%Z) by (unfold from; lia). assert (FK : from k = n) by (unfold from; rewrite Z.min_r by lia; lia).
  assert (FM : forall i j, (i <= j)%nat -> (from i <= from j)%Z).
  { intros i j H. induction H as [|j H IH]; [lia|]. specialize (FS j). lia. }
  exists (map (fun i => (from i + off, from (S i) + off)%Z) (seq 0 k)).
  assert (NE : forall i, (i < k)%nat -> nth_error (map (fun i => (from i + off, from (S i) + off)%Z) (seq 0 k)) i = Some (from i + off, from (S i) + off)%Z).
  { intros i Hi. rewrite nth_error_map, (nth_error_nth' _ 0%nat) by now rewrite seq_length. now rewrite seq_nth. }
  assert (NI : forall i r, nth_error (map (fun i => (from i + off, from (S i) + off)%Z) (seq 0 k)) i = Some r -> (i < k)%nat /\ r = (from i + off, from (S i) + off)%Z).
  { intros i r E. assert (Hi : (i < k)%nat) by (rewrite <- (seq_length k 0), <- (map_length (fun i => (from i + off, from (S i) + off)%Z)); apply nth_error_Some; congruence).
    split; [exact Hi|]. rewrite NE in E by exact Hi. congruence. }
  split; [now rewrite map_length, seq_length|]. split; [|split; [|split]].
  - intros i Hi. rewrite NE by exact Hi. unfold shard. fold n. destruct (Nat.ltb_spec i k); [|lia]. rewrite section_bounds by (unfold n; destruct s; cbn; lia). fold each extras.
    change (Z.of_nat i * each + Z.min (Z.of_nat i) extras)%Z with (from i). change (Z.of_nat (S i) * each + Z.min (Z.of_nat (S i)) extras)%Z with (from (S i)).
    specialize (FS i). destruct (Z.ltb_spec (from i) (from (S i))); [|lia]. reflexivity.
  - intros x. assert (CX : covered s x <-> (off <= x < n + off)%Z) by (unfold off, n; destruct s; cbn; lia). rewrite CX. split.
    + intros Hx. assert (EXI : forall m, (m <= k)%nat -> (from 0%nat <= x - off < from m)%Z -> exists i, (i < m)%nat /\ (from i <= x - off < from (S i))%Z).
      { induction m as [|m IH]; intros Hm H; [lia|]. destruct (Z.lt_ge_cases (x - off) (from m)) as [L|L]; [destruct (IH ltac:(lia) ltac:(lia)) as (i & Hi & R); exists i; split; [lia|exact R]|].
        exists m. split; [lia|]. lia. }
      destruct (EXI k (le_n k) ltac:(lia)) as (i & Hi & R). exists i. eexists. split; [apply NE; exact Hi|]. unfold in_range. cbn [fst snd]. lia.
    + intros (i & r & E & R). apply NI in E as [Hi ->]. unfold in_range in R. cbn [fst snd] in R. pose proof (FM 0%nat i ltac:(lia)). pose proof (FM (S i) k ltac:(lia)). lia.
  - intros i j r r' x E E' R R'. apply NI in E as [Hi ->]. apply NI in E' as [Hj ->]. unfold in_range in *. cbn [fst snd] in *.
    destruct (Nat.lt_trichotomy i j) as [L|[L|L]]; [|exact L|]; [pose proof (FM (S i) j ltac:(lia))|pose proof (FM (S j) i ltac:(lia))]; lia.
  - intros i r E. apply NI in E as [Hi ->]. cbn [fst snd]. specialize (FS i). fold each. lia.
Qed.
(** TRAIN and VALID share no example, together they are TRAIN_AND_VALID, and TEST comes from other files. *)
Theorem C87_splits : (forall x, covered TRAIN x -> ~ covered VALID x) /\ (forall x, covered TRAIN_AND_VALID x <-> covered TRAIN x \/ covered VALID x) /\
  (num_examples TRAIN + num_examples VALID = num_examples TRAIN_AND_VALID)%Z /\ (forall s, to_tfds_split s = to_tfds_split TEST <-> s = TEST).
Proof. cbn. repeat split; try lia; intros H; destruct s; cbn in H |- *; congruence. Qed.
(** The default split for training with VALID for evaluation: every example that is evaluated was trained on. Nothing in the code prevents it. *)
Theorem C87_leak_refuted : ~ (forall s s' x, s <> s' -> to_tfds_split s = to_tfds_split s' -> covered s x -> ~ covered s' x).
Proof. intros H. apply (H TRAIN_AND_VALID VALID 5%Z); [discriminate|reflexivity|cbn; lia..]. Qed.
(** More hosts than examples: the last ones fail. *)
Theorem C87_too_many_hosts k : (num_examples VALID < Z.of_nat k)%Z -> shard VALID (k - 1) k = None.
Proof.
  intros H. unfold shard. destruct (Nat.ltb_spec (k - 1) k) as [L|]; [|reflexivity]. rewrite section_bounds by (cbn in *; lia). cbn [num_examples] in *.
  rewrite Z.div_small, Z.mod_small by lia. destruct (Z.ltb_spec (Z.of_nat (k - 1) * 0 + Z.min (Z.of_nat (k - 1)) 10000) (Z.of_nat (S (k - 1)) * 0 + Z.min (Z.of_nat (S (k - 1))) 10000)); [lia|reflexivity].
Qed.
Print Assumptions C87_shards.
Print Assumptions C87_splits.
Print Assumptions C87_leak_refuted.
Print Assumptions C87_too_many_hosts.

(** ** Batches *)
Section Batches.
Context {A : Type}.
Fixpoint leaves (x : nest A) : list A := match x with One a => [a] | Many l => flat_map leaves l end.
(** An array of the given shape. *)
Fixpoint shaped (dims : list nat) (x : nest A) : Prop :=
  match dims, x with
  | [], One _ => True
  | d :: dims, Many l => length l = d /\ Forall (shaped dims) l
  | _, _ => False
  end.
Lemma chunks_spec {B} b q : forall fuel (l : list B), (0 < b)%nat -> length l = (q * b)%nat -> (length l <= fuel)%nat ->
  length (chunks fuel b l) = q /\ concat (chunks fuel b l) = l /\ Forall (fun c => length c = b) (chunks fuel b l).
Proof.
  induction q as [|q IH]; intros fuel l Hb L F.
  - destruct l; [|discriminate L]. destruct fuel; repeat split; constructor.
  - destruct l as [|x l']; [cbn in L; lia|]. set (l := x :: l') in *. destruct fuel as [|fuel]; [cbn in L, F; lia|].
    change (chunks (S fuel) b l) with (firstn b l :: chunks fuel b (skipn b l)).
    assert (LS : length (skipn b l) = (q * b)%nat) by (rewrite skipn_length; cbn [Nat.mul] in L; lia).
    destruct (IH fuel (skipn b l) Hb LS) as (I1 & I2 & I3); [rewrite skipn_length; lia|].
    split; [cbn; congruence|]. split; [cbn [concat]; rewrite I2; apply firstn_skipn|]. constructor; [|exact I3]. rewrite firstn_length. cbn [Nat.mul] in L. lia.
Qed.
Lemma concat_leaves (l : list (list (nest A))) : flat_map leaves (map Many l) = flat_map leaves (concat l).
Proof. induction l as [|x l IH]; [reflexivity|]. cbn [map flat_map concat]. rewrite flat_map_app, IH. reflexivity. Qed.
Lemma concat_Forall {B} (P : B -> Prop) (l : list (list B)) : Forall P (concat l) -> Forall (Forall P) l.
Proof. induction l as [|x l IH]; intros H; constructor; cbn in H; apply Forall_app in H as [H1 H2]; auto. Qed.
Lemma batch_up_spec rev_dims : forall inner ds q, Forall (fun d => 0 < d)%nat rev_dims -> length ds = (q * fold_right Nat.mul 1 rev_dims)%nat -> Forall (shaped inner) ds ->
  length (batch_up rev_dims ds) = q /\ flat_map leaves (batch_up rev_dims ds) = flat_map leaves ds /\ Forall (shaped (rev rev_dims ++ inner)) (batch_up rev_dims ds).
Proof.
  induction rev_dims as [|b dims IH]; intros inner ds q P L F.
  - cbn in *. repeat split; [lia|exact F].
  - apply Forall_cons_iff in P as [Pb P]. cbn [fold_right] in L.
    destruct (chunks_spec b (q * fold_right Nat.mul 1 dims) (length ds) ds Pb) as (C1 & C2 & C3); [rewrite L; ring|lia|].
    cbn [batch_up]. destruct (IH (b :: inner) (map Many (chunks (length ds) b ds)) q P) as (I1 & I2 & I3).
    + now rewrite map_length, C1.
    + apply Forall_map. rewrite <- C2 in F. apply concat_Forall in F. apply Forall_forall. intros c Hc. rewrite Forall_forall in C3, F. cbn. split; [now apply C3|now apply F].
    + split; [exact I1|]. split; [rewrite I2, concat_leaves, C2; reflexivity|]. cbn [rev]. rewrite <- app_assoc. exact I3.
Qed.
(** Evaluation batches: each has the shape [batch_dims], and together they hold every example once and in order. Otherwise loading raises. *)
Theorem C87_batches dims (ds : list A) : Forall (fun d => 0 < d)%nat dims ->
  let total := fold_right Nat.mul 1 dims in
  (eval_batches dims ds = None <-> ~ exists q, length ds = q * total)%nat /\
  forall bs, eval_batches dims ds = Some bs -> Forall (shaped dims) bs /\ flat_map leaves bs = ds /\ (length bs * total = length ds)%nat.
Proof.
  intros P total. assert (T : (0 < total)%nat) by (unfold total; clear -P; induction P as [|d l Hd P IH]; cbn [fold_right]; nia).
  assert (TR : fold_right Nat.mul 1 (rev dims) = total).
  { unfold total. clear. assert (H : forall l x, fold_right Nat.mul x l = (fold_right Nat.mul 1 l * x)%nat) by (clear; induction l as [|y l IH]; intros x; cbn [fold_right]; [lia|]; rewrite IH; lia).
    induction dims as [|d l IH]; [reflexivity|]. cbn [rev]. rewrite fold_right_app, H, IH. cbn [fold_right]. lia. }
  unfold eval_batches. fold total. destruct (Nat.eqb_spec (length ds mod total) 0) as [E|E].
  - apply Nat.mod_divides in E as [q E]; [|lia]. split; [split; [discriminate|intros H; destruct H; exists q; lia]|]. intros bs [= <-].
    destruct (batch_up_spec (rev dims) [] (map One ds) q) as (B1 & B2 & B3).
    + now apply Forall_rev.
    + rewrite map_length, TR. lia.
    + apply Forall_map, Forall_forall. intros; exact I.
    + rewrite rev_involutive, app_nil_r in B3. split; [exact B3|]. split; [|rewrite B1; lia]. rewrite B2. clear. induction ds as [|a l IH]; [reflexivity|]. cbn. now rewrite IH.
  - split; [split; [|reflexivity]|discriminate]. intros _ [q H]. apply E. rewrite H. now apply Nat.mod_mul; lia.
Qed.
(** The accuracy is the fraction of correct examples, however they are batched. *)
Theorem C87_evaluate (correct : A -> bool) batches : evaluate correct batches = (length (filter correct (concat batches)), length (concat batches)).
Proof.
  unfold evaluate. assert (H : forall acc, fold_left (fun acc b => (fst acc + length (filter correct b), snd acc + length b)%nat) batches acc =
    (fst acc + length (filter correct (concat batches)), snd acc + length (concat batches))%nat).
  { induction batches as [|b l IH]; intros [x y]; cbn [fold_left concat fst snd]; [cbn; f_equal; lia|]. rewrite IH. cbn [fst snd]. rewrite filter_app, !app_length. f_equal; lia. }
  now rewrite H.
Qed.
(** A repeated dataset in batches that divide it: the i-th batch is a block of it, the same after each round. With one batch per round, as for the test
    set of mnist.py (10000 images in batches of 10000), every batch is the whole dataset. *)
Theorem C87_repeat d b q (ds : list A) i : (0 < b)%nat -> (0 < q)%nat -> length ds = (q * b)%nat -> stream_batch b (repeated d ds) i = firstn b (skipn ((i mod q) * b) ds).
Proof.
  intros Hb Hq L. unfold stream_batch, repeated. assert (HR : (i mod q < q)%nat) by (apply Nat.mod_upper_bound; lia).
  assert (LF : length (firstn b (skipn (i mod q * b) ds)) = b) by (rewrite firstn_length, skipn_length, L; nia).
  apply (nth_ext _ _ d d); [rewrite map_length, seq_length; congruence|]. intros j Hj. rewrite map_length, seq_length in Hj.
  rewrite (nth_indep _ d (nth ((i * b + 0) mod length ds) ds d)) by now rewrite map_length, seq_length.
  rewrite (map_nth (fun j => nth ((i * b + j) mod length ds) ds d) (seq 0 b) 0%nat j), seq_nth by exact Hj. cbn [plus].
  assert (E : ((i * b + j) mod length ds = i mod q * b + j)%nat).
  { rewrite L. symmetry. apply Nat.mod_unique with (q := (i / q)%nat); [nia|]. pose proof (Nat.div_mod i q ltac:(lia)). nia. }
  rewrite E.
  transitivity (nth j (skipn (i mod q * b) ds) d).
  - rewrite <- (firstn_skipn (i mod q * b) ds) at 1. rewrite app_nth2 by (rewrite firstn_length, L; nia). rewrite firstn_length, L. f_equal. nia.
  - rewrite <- (firstn_skipn b (skipn (i mod q * b) ds)) at 1. rewrite app_nth1 by (rewrite LF; exact Hj). reflexivity.
Qed.
End Batches.
Print Assumptions C87_batches.
Print Assumptions C87_evaluate.
Print Assumptions C87_repeat.

(** ** Crops *)
(** The crop is a square inside the image with margins that differ by at most one, of at most 7/8 of the smaller side and less than a pixel short of it.
    It has a pixel unless the image is one pixel wide or high. *)
Theorem C87_crop h w y x p : (0 < h)%Z -> (0 < w)%Z -> center_crop h w = (y, x, p) ->
  (0 <= y /\ y + p <= h /\ 0 <= x /\ x + p <= w /\ 0 <= y - (h - (y + p)) <= 1 /\ 0 <= x - (w - (x + p)) <= 1 /\
   8 * p <= 7 * Z.min h w < 8 * (p + 1) /\ (0 < p <-> 2 <= Z.min h w))%Z.
Proof.
  intros Hh Hw E. unfold center_crop in E. remember (7 * Z.min h w / 8)%Z as p0 eqn:EP. injection E as <- <- <-. set (m := Z.min h w) in *. pose proof (Z.div_mod (7 * m) 8 ltac:(lia)). pose proof (Z.mod_pos_bound (7 * m) 8 ltac:(lia)). rewrite <- EP in *. rename p0 into p. clear EP.
  pose proof (Z.div_mod (h - p + 1) 2 ltac:(lia)). pose proof (Z.mod_pos_bound (h - p + 1) 2 ltac:(lia)). pose proof (Z.div_mod (w - p + 1) 2 ltac:(lia)). pose proof (Z.mod_pos_bound (w - p + 1) 2 ltac:(lia)).
  unfold m in *. repeat split; try lia.
Qed.
Print Assumptions C87_crop.

(** ** Examples *)
Example C87_shard_case : shard TRAIN 0 3 = Some (10000, 433723)%Z /\ shard TRAIN 1 3 = Some (433723, 857445)%Z /\ shard TRAIN 2 3 = Some (857445, 1281167)%Z /\ shard TRAIN 3 3 = None.
Proof. repeat split; vm_compute; reflexivity. Qed.
Example C87_names_case : from_string "train" = Some TRAIN /\ from_string "Validation" = Some VALID /\ from_string "valid" = Some VALID /\ from_string "dev" = None.
Proof. repeat split. Qed.
Example C87_batches_case : eval_batches [2; 3] (seq 0 12) = Some [Many [Many [One 0; One 1; One 2]; Many [One 3; One 4; One 5]]; Many [Many [One 6; One 7; One 8]; Many [One 9; One 10; One 11]]] /\
  eval_batches [2; 3] (seq 0 13) = None.
Proof. split; reflexivity. Qed.
Example C87_repeat_case : map (stream_batch 2 (repeated 9 [0; 1; 2; 3])) [0; 1; 2] = [[0; 1]; [2; 3]; [0; 1]] /\ stream_batch 3 (repeated 9 [0; 1; 2; 3]) 1 = [3; 0; 1].
Proof. split; reflexivity. Qed.
Example C87_crop_case : center_crop 375 500 = (24, 86, 328)%Z /\ center_crop 1 9 = (1, 5, 0)%Z.
Proof. split; reflexivity. Qed.
Example C87_evaluate_case : evaluate Nat.even [[0; 1]; [2; 3]; [4]] = (3, 5)%nat.
Proof. reflexivity. Qed.

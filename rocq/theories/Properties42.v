(** * C86, first part: the masks of examples/mnist_pruning.py keep exactly k entries, and the largest ones *)
From Coq Require Import List Bool Arith ZArith QArith Qround Lia Lqa Permutation Sorted FinFun.
From Verif Require Import ModelTopk.
Import ListNotations.

(** ** What a top-k mask is *)
Definition kept (mask : list bool) : nat := length (filter (fun b => b) mask).
Definition is_topk {N} (le : N -> N -> Prop) (k : nat) (value : list N) (mask : list bool) : Prop :=
  length mask = length value /\ kept mask = k /\
  forall i j x y, nth_error mask i = Some true -> nth_error mask j = Some false -> nth_error value i = Some x -> nth_error value j = Some y -> le y x.
(** A permutation of the positions below [n], and one that sorts. *)
Definition positions (p : list nat) (n : nat) : Prop := Permutation p (seq 0 n).
Definition sorts {N} (le : N -> N -> Prop) (argsort : list N -> list nat) : Prop :=
  forall v, positions (argsort v) (length v) /\
    forall i j a b x y, (i < j)%nat -> nth_error (argsort v) i = Some a -> nth_error (argsort v) j = Some b -> nth_error v a = Some x -> nth_error v b = Some y -> le x y.

(** ** Scatter and gather *)
Lemma put_at_length {A} i (v : A) l : length (put_at i v l) = length l.
Proof. revert i. induction l as [|x l IH]; intros [|i]; cbn; auto. Qed.
Lemma put_at_same {A} i (v : A) l : (i < length l)%nat -> nth_error (put_at i v l) i = Some v.
Proof. revert i. induction l as [|x l IH]; intros [|i] H; cbn in *; try lia; [reflexivity|]. apply IH. lia. Qed.
Lemma put_at_other {A} i j (v : A) l : i <> j -> nth_error (put_at i v l) j = nth_error l j.
Proof. revert i j. induction l as [|x l IH]; intros [|i] [|j] H; cbn; try reflexivity; try congruence. apply IH. lia. Qed.
Lemma scatter_length {A} p (vals base : list A) : length (scatter base p vals) = length base.
Proof. unfold scatter. revert base. induction (combine p vals) as [|[i v] l IH]; intros base; cbn; [reflexivity|]. now rewrite IH, put_at_length. Qed.
Lemma scatter_other {A} p (vals base : list A) j : ~ In j p -> nth_error (scatter base p vals) j = nth_error base j.
Proof.
  unfold scatter. revert vals base. induction p as [|i p IH]; intros [|v vals] base H; cbn; try reflexivity.
  rewrite IH by (intros C; apply H; now right). apply put_at_other. intros ->. apply H. now left.
Qed.
Lemma scatter_at {A} p (vals base : list A) k i v : NoDup p -> Forall (fun i => i < length base)%nat p ->
  nth_error p k = Some i -> nth_error vals k = Some v -> nth_error (scatter base p vals) i = Some v.
Proof.
  revert vals base k. induction p as [|i0 p IH]; intros vals base k ND F E V; [now destruct k|].
  inversion ND as [|? ? NI ND']; subst. apply Forall_cons_iff in F as [F0 F]. destruct vals as [|v0 vals]; [now destruct k|].
  change (nth_error (scatter (put_at i0 v0 base) p vals) i = Some v). destruct k as [|k]; cbn in E, V.
  - injection E as <-. injection V as <-. rewrite scatter_other by assumption. now apply put_at_same.
  - refine (IH vals _ k ND' _ E V). now rewrite put_at_length.
Qed.
Lemma positions_facts p n : positions p n -> NoDup p /\ Forall (fun i => i < n)%nat p /\ length p = n /\ forall i, (i < n)%nat -> exists k, (k < n)%nat /\ nth_error p k = Some i.
Proof.
  intros P. assert (L : length p = n) by (rewrite (Permutation_length P); apply seq_length).
  split; [apply (Permutation_NoDup (Permutation_sym P)), seq_NoDup|]. split; [|split; [exact L|]].
  - apply Forall_forall. intros i Hi. apply (Permutation_in _ P) in Hi. apply in_seq in Hi. lia.
  - intros i Hi. assert (I : In i p) by (apply (Permutation_in _ (Permutation_sym P)), in_seq; lia).
    apply In_nth_error in I as [k E]. exists k. split; [|exact E]. rewrite <- L. apply nth_error_Some. congruence.
Qed.
Lemma map_nth_seq {A} (d : A) l : map (fun i => nth i l d) (seq 0 (length l)) = l.
Proof.
  apply nth_ext with (d := d) (d' := d); [now rewrite map_length, seq_length|]. intros i Hi. rewrite map_length, seq_length in Hi.
  rewrite nth_indep with (d' := nth 0 l d) by (now rewrite map_length, seq_length).
  rewrite (map_nth (fun i => nth i l d) _ 0%nat i), seq_nth by assumption. reflexivity.
Qed.
Lemma gather_perm {A} (d : A) p l : positions p (length l) -> Permutation (gather d p l) l.
Proof. intros P. apply Permutation_trans with (map (fun i => nth i l d) (seq 0 (length l))); [now apply Permutation_map|]. now rewrite map_nth_seq. Qed.
Lemma gather_at {A} (d : A) p l k i : nth_error p k = Some i -> (i < length l)%nat -> nth_error (gather d p l) k = nth_error l i.
Proof. intros E H. unfold gather. rewrite nth_error_map, E. cbn. symmetry. now apply nth_error_nth'. Qed.
Lemma nth_error_ext' {A} (l l' : list A) : (forall i, nth_error l i = nth_error l' i) -> l = l'.
Proof.
  revert l'. induction l as [|x l IH]; intros [|y l'] H; [reflexivity|specialize (H 0%nat); discriminate|specialize (H 0%nat); discriminate|].
  pose proof (H 0%nat) as H0. injection H0 as ->. f_equal. apply IH. intros i. apply (H (S i)).
Qed.
Lemma gather_scatter {A} (d : A) p (vals base : list A) : positions p (length base) -> length vals = length base -> gather d p (scatter base p vals) = vals.
Proof.
  intros P L. destruct (positions_facts _ _ P) as (ND & F & LP & _). apply nth_error_ext'. intros k.
  destruct (nth_error p k) as [i|] eqn:E.
  - assert (Hi : (i < length base)%nat) by (rewrite Forall_forall in F; apply F; eapply nth_error_In; exact E).
    rewrite (gather_at d p _ k i E) by now rewrite scatter_length.
    assert (HV : (k < length vals)%nat) by (rewrite L, <- LP; apply nth_error_Some; congruence).
    destruct (nth_error vals k) as [v|] eqn:V; [|apply nth_error_None in V; lia]. now apply scatter_at with (k := k).
  - apply nth_error_None in E. transitivity (@None A); [|symmetry]; apply nth_error_None; [unfold gather; rewrite map_length|]; lia.
Qed.
Lemma scatter_perm {A} (d : A) p (vals base : list A) : positions p (length base) -> length vals = length base -> Permutation (scatter base p vals) vals.
Proof.
  intros P L. rewrite <- (gather_scatter d p vals base P L) at 2. symmetry. apply gather_perm. now rewrite scatter_length.
Qed.
Lemma kept_perm a b : Permutation a b -> kept a = kept b.
Proof. unfold kept. induction 1 as [|x a b P IH|x y a|a b c P IH P' IH']; cbn; try congruence; destruct x; try destruct y; cbn; congruence. Qed.

(** ** Counting the last k positions *)
Definition clamp (k : Z) (n : nat) : nat := Z.to_nat (Z.min k (Z.of_nat n)).
Lemma kept_app a b : kept (a ++ b) = (kept a + kept b)%nat.
Proof. unfold kept. now rewrite filter_app, app_length. Qed.
Lemma kept_last k n m : (m <= n)%nat -> kept (map (fun i => (Z.of_nat n - k <=? Z.of_nat i)%Z) (seq 0 m)) = Z.to_nat (Z.min k (Z.of_nat n) - (Z.of_nat n - Z.of_nat m)).
Proof.
  intros H. induction m as [|m IH]; [cbn; lia|]. rewrite seq_S, map_app, kept_app, IH by lia. cbn [map plus]. unfold kept. cbn [filter].
  destruct (Z.leb_spec (Z.of_nat n - k) (Z.of_nat m)); cbn; lia.
Qed.

(** ** The masks *)
Section Masks.
Context {N : Type} (zero : N) (le : N -> N -> Prop) (argsort : list N -> list nat) (shuffled : nat -> list nat).
Hypothesis argsort_sorts : sorts le argsort.
Hypothesis shuffled_positions : forall n, positions (shuffled n) n.

Lemma internal_topk d value : is_topk le (clamp (round_even (d * inject_Z (Z.of_nat (length value)))) (length value)) value (topk_mask_internal argsort d value).
Proof.
  unfold topk_mask_internal. set (n := length value). set (k := round_even _). set (mask := map _ (seq 0 n)).
  destruct (argsort_sorts value) as [P S]. fold n in P. assert (LM : length mask = n) by (unfold mask; now rewrite map_length, seq_length).
  assert (P' : positions (argsort value) (length (map (fun _ : bool => false) mask))) by (now rewrite map_length, LM).
  split; [|split].
  - now rewrite scatter_length, map_length.
  - rewrite (kept_perm _ mask) by (apply (scatter_perm false); [exact P'|now rewrite map_length]). unfold mask. rewrite kept_last by lia. unfold clamp. f_equal. lia.
  - intros i j x y Hi Hj X Y. destruct (positions_facts _ _ P) as (ND & F & LP & ALL).
    assert (I : (i < n)%nat) by (apply nth_error_Some; fold n; congruence). assert (J : (j < n)%nat) by (apply nth_error_Some; fold n; congruence).
    destruct (ALL i I) as (a & HA & EA). destruct (ALL j J) as (b & HB & EB).
    assert (M : forall c q, (c < n)%nat -> nth_error (argsort value) c = Some q -> nth_error (scatter (map (fun _ => false) mask) (argsort value) mask) q = Some (Z.of_nat n - k <=? Z.of_nat c)%Z).
    { intros c q HC EC. apply scatter_at with (k := c); [exact ND|now rewrite map_length, LM|exact EC|]. unfold mask. rewrite nth_error_map.
      rewrite nth_error_nth' with (d := 0%nat) by now rewrite seq_length. cbn. now rewrite seq_nth. }
    rewrite (M a i HA EA) in Hi. rewrite (M b j HB EB) in Hj. injection Hi as Hi. injection Hj as Hj. apply Z.leb_le in Hi. apply Z.leb_gt in Hj.
    refine (S b a j i y x _ EB EA Y X). lia.
Qed.
(** [topk_mask] keeps exactly round(density * size) entries, none smaller than one that is dropped: whatever the shuffle and however the sort breaks ties. *)
Theorem C86_topk d value : is_topk le (clamp (round_even (d * inject_Z (Z.of_nat (length value)))) (length value)) value (topk_mask zero argsort shuffled d value).
Proof.
  unfold topk_mask. set (n := length value). set (p := shuffled n). assert (P : positions p n) by apply shuffled_positions.
  destruct (positions_facts _ _ P) as (ND & F & LP & ALL).
  pose proof (internal_topk d (gather zero p value)) as (L & K & T). set (m := topk_mask_internal argsort d (gather zero p value)) in *.
  assert (LG : length (gather zero p value) = n) by (unfold gather; now rewrite map_length). rewrite LG in *.
  assert (P' : positions p (length (map (fun _ : bool => false) m))) by (now rewrite map_length, L).
  split; [|split].
  - now rewrite scatter_length, map_length.
  - rewrite (kept_perm _ m); [exact K|]. apply (scatter_perm false); [exact P'|now rewrite map_length].
  - intros i j x y Hi Hj X Y. assert (I : (i < n)%nat) by (apply nth_error_Some; fold n; congruence). assert (J : (j < n)%nat) by (apply nth_error_Some; fold n; congruence).
    destruct (ALL i I) as (a & HA & EA). destruct (ALL j J) as (b & HB & EB).
    assert (M : forall c q, (c < n)%nat -> nth_error p c = Some q -> nth_error (scatter (map (fun _ => false) m) p m) q = nth_error m c).
    { intros c q HC EC. destruct (nth_error m c) as [v|] eqn:V; [|apply nth_error_None in V; lia].
      apply scatter_at with (k := c); [exact ND|now rewrite map_length, L|exact EC|exact V]. }
    rewrite (M a i HA EA) in Hi. rewrite (M b j HB EB) in Hj.
    refine (T a b x y Hi Hj _ _); [rewrite (gather_at zero p value a i EA I)|rewrite (gather_at zero p value b j EB J)]; assumption.
Qed.
End Masks.
Print Assumptions C86_topk.

(** ** How many are kept *)
Lemma round_even_near q : (-(1 # 2) <= inject_Z (round_even q) - q <= 1 # 2)%Q.
Proof.
  unfold round_even. pose proof (Qfloor_le q) as L. pose proof (Qlt_floor q) as U. rewrite inject_Z_plus in U. change (inject_Z 1) with 1%Q in U.
  destruct (Qcompare_spec (q - inject_Z (Qfloor q)) (1 # 2)) as [E|E|E]; [destruct (Z.even _)|..]; rewrite ?inject_Z_plus; change (inject_Z 1) with 1%Q; split; lra.
Qed.
(** For a density between 0 and 1 the number of kept entries is density * size, rounded to the nearest integer. *)
Theorem C86_count d n : (0 <= d <= 1)%Q ->
  Z.of_nat (clamp (round_even (d * inject_Z (Z.of_nat n))) n) = round_even (d * inject_Z (Z.of_nat n)) /\
  (-(1 # 2) <= inject_Z (Z.of_nat (clamp (round_even (d * inject_Z (Z.of_nat n))) n)) - d * inject_Z (Z.of_nat n) <= 1 # 2)%Q.
Proof.
  intros [D0 D1]. set (q := (d * inject_Z (Z.of_nat n))%Q). pose proof (round_even_near q) as [A B]. set (k := round_even q) in *.
  assert (N0 : (0 <= inject_Z (Z.of_nat n))%Q) by (change 0%Q with (inject_Z 0); rewrite <- Zle_Qle; lia).
  assert (Q0 : (0 <= q)%Q) by (unfold q; now apply Qmult_le_0_compat).
  assert (Q1 : (q <= inject_Z (Z.of_nat n))%Q) by (unfold q; nra).
  assert (K0 : (0 <= k)%Z). { apply Z.lt_succ_r. unfold Z.succ. rewrite Zlt_Qlt, inject_Z_plus. change (inject_Z 0) with 0%Q. change (inject_Z 1) with 1%Q. lra. }
  assert (K1 : (k <= Z.of_nat n)%Z). { apply Z.lt_succ_r. unfold Z.succ. rewrite Zlt_Qlt, inject_Z_plus. change (inject_Z 1) with 1%Q. lra. }
  assert (E : Z.of_nat (clamp k n) = k) by (unfold clamp; lia). split; [exact E|]. rewrite E. split; assumption.
Qed.
Print Assumptions C86_count.

(** ** The schedule *)
(** [x <= y] for the clipped progress; the fraction that [zhugupta_func] makes of it grows from 0 to 1. *)
Lemma progress_spec step : ((step <= 1000)%Z -> progress step == 0)%Q /\ ((1000 <= step <= 9000)%Z -> progress step == (inject_Z step - 1000) / 8000)%Q /\ ((9000 <= step)%Z -> progress step == 1)%Q.
Proof.
  unfold progress, Qmin', Qmax'. set (x := inject_Z step).
  assert (T : forall c, (step <= c)%Z -> (x <= inject_Z c)%Q) by (intros c; unfold x; now rewrite <- Zle_Qle).
  assert (G : forall c, (c <= step)%Z -> (inject_Z c <= x)%Q) by (intros c; unfold x; now rewrite <- Zle_Qle).
  assert (DV : (((x - 1000) / 8000) == x * (1 # 8000) - (1 # 8))%Q) by (field).
  destruct (Qle_bool ((x - 1000) / 8000) 0) eqn:E1; [apply Qle_bool_iff in E1|assert (E1' : ~ ((x - 1000) / 8000 <= 0)%Q) by (rewrite <- Qle_bool_iff; congruence)]; rewrite DV in *.
  - assert (x <= 1000)%Q by lra. change (Qle_bool 0 1) with true. cbn [Qle_bool]. repeat split; intros H'; try reflexivity.
    + pose proof (G 1000%Z ltac:(lia)) as H2. change (inject_Z 1000) with 1000%Q in H2. lra.
    + pose proof (G 9000%Z ltac:(lia)) as H2. change (inject_Z 9000) with 9000%Q in H2. lra.
  - assert (1000 < x)%Q by lra.
    destruct (Qle_bool ((x - 1000) / 8000) 1) eqn:E2; [apply Qle_bool_iff in E2|assert (E2' : ~ ((x - 1000) / 8000 <= 1)%Q) by (rewrite <- Qle_bool_iff; congruence)]; rewrite DV in *.
    + repeat split; intros H'; rewrite ?DV; try reflexivity.
      * pose proof (T 1000%Z ltac:(lia)) as H2. change (inject_Z 1000) with 1000%Q in H2. lra.
      * pose proof (G 9000%Z ltac:(lia)) as H2. change (inject_Z 9000) with 9000%Q in H2. lra.
    + repeat split; intros H'; rewrite ?DV; try reflexivity.
      * pose proof (T 1000%Z ltac:(lia)) as H2. change (inject_Z 1000) with 1000%Q in H2. lra.
      * pose proof (T 9000%Z ltac:(lia)) as H2. change (inject_Z 9000) with 9000%Q in H2. lra.
Qed.
Lemma progress_range step : (0 <= progress step <= 1)%Q.
Proof.
  destruct (progress_spec step) as (A & B & C). destruct (Z_le_gt_dec step 1000) as [H|H]; [rewrite A by lia; lra|]. destruct (Z_le_gt_dec 9000 step) as [H'|H']; [rewrite C by lia; lra|].
  rewrite B by lia. assert (1000 <= inject_Z step <= 9000)%Q; [|split; [apply Qle_shift_div_l|apply Qle_shift_div_r]; lra].
  change 1000%Q with (inject_Z 1000). change 9000%Q with (inject_Z 9000). rewrite <- !Zle_Qle. lia.
Qed.
Lemma progress_mono a b : (a <= b)%Z -> (progress a <= progress b)%Q.
Proof.
  intros H. destruct (progress_spec a) as (A1 & A2 & A3), (progress_spec b) as (B1 & B2 & B3). pose proof (progress_range a). pose proof (progress_range b).
  destruct (Z_le_gt_dec a 1000) as [Ha|Ha]; [rewrite A1 by lia; lra|]. destruct (Z_le_gt_dec 9000 b) as [Hb|Hb]; [rewrite B3 by lia; lra|]. rewrite A2, B2 by lia.
  assert (inject_Z a <= inject_Z b)%Q by (rewrite <- Zle_Qle; lia). apply Qmult_le_compat_r; [lra|]. unfold Qle; cbn; lia.
Qed.
Lemma zhugupta_range p : (0 <= p <= 1)%Q -> (0 <= zhugupta_func p <= 1)%Q.
Proof. intros [A B]. unfold zhugupta_func. assert (0 <= (1 - p) * (1 - p))%Q by nra. assert ((1 - p) * (1 - p) <= 1)%Q by nra. split; nra. Qed.
Lemma zhugupta_mono p q : (0 <= p)%Q -> (p <= q)%Q -> (q <= 1)%Q -> (zhugupta_func p <= zhugupta_func q)%Q.
Proof.
  intros A B C. unfold zhugupta_func. assert ((1 - q) * (1 - q) <= (1 - p) * (1 - p))%Q by nra. assert (0 <= (1 - q) * (1 - q))%Q by nra.
  assert ((1 - q) * (1 - q) * (1 - q) <= (1 - p) * (1 - p) * (1 - p))%Q by nra. lra.
Qed.
(** What the masks made at a step keep, for a leaf of final sparsity [s]: everything up to step 1000, ever less until step 9000, 1 - s from then on. *)
Theorem C86_schedule s : (0 <= s <= 1)%Q -> forall a b, (a <= b)%Z ->
  let density step := (1 - s * zhugupta_func (progress step))%Q in
  (1 - s <= density b)%Q /\ (density b <= density a)%Q /\ (density a <= 1)%Q /\ ((b <= 1000)%Z -> density b == 1)%Q /\ ((9000 <= a)%Z -> density a == 1 - s)%Q.
Proof.
  intros S a b H density. pose proof (zhugupta_range _ (progress_range a)). pose proof (zhugupta_range _ (progress_range b)).
  pose proof (zhugupta_mono _ _ (proj1 (progress_range a)) (progress_mono a b H) (proj2 (progress_range b))). unfold density.
  split; [nra|]. split; [nra|]. split; [nra|]. split; intros L.
  - destruct (progress_spec b) as (E & _). unfold zhugupta_func. rewrite E by lia. ring.
  - destruct (progress_spec a) as (_ & _ & E). unfold zhugupta_func. rewrite E by lia. ring.
Qed.
(** mnist_pruning.py:299 says that pruning ends at iteration 8000. It goes on until 9000: the masks made at step 8000 keep 450 more weights of the first layer. *)
Theorem C86_end_refuted :
  let count step := round_even ((1 - (98 # 100) * zhugupta_func (progress step)) * inject_Z 235200) in
  count 8000%Z = 5154%Z /\ count 8800%Z = 4708%Z /\ count 9000%Z = 4704%Z /\ (progress 8000 == 7 # 8)%Q.
Proof. vm_compute. repeat split; reflexivity. Qed.
Print Assumptions C86_schedule.
Print Assumptions C86_end_refuted.

(** * C72: the distribution of dropout and of multinomial over their random draws, in exact arithmetic *)
From Coq Require Import Reals ZArith List Bool Lia Lra FinFun.
From Verif Require Import ModelShape ModelReal ModelBasic Properties14 Properties15.
Import ListNotations.
Local Open Scope R_scope.

(** ** Dropout *)
(** All the masks of length [n], the probability of one when the elements are independent and kept with probability [p], and the
    expectation of [h] of the mask. *)
Fixpoint masks (n : nat) : list (list bool) :=
  match n with O => [[]] | S n => map (cons true) (masks n) ++ map (cons false) (masks n) end.
Fixpoint mask_prob (p : R) (m : list bool) : R :=
  match m with [] => 1 | b :: m => (if b then p else 1 - p) * mask_prob p m end.
Definition expect (p : R) (n : nat) (h : list bool -> R) : R := Rsum (map (fun m => mask_prob p m * h m) (masks n)).

Lemma expect_ext p n h k : (forall m, length m = n -> h m = k m) -> expect p n h = expect p n k.
Proof.
  intros H. unfold expect. f_equal. apply map_ext_in. intros m Hm. rewrite H; [reflexivity|]. revert m Hm. clear. induction n as [|n IH]; intros m Hm; cbn [masks] in Hm.
  - destruct Hm as [<-|[]]. reflexivity.
  - apply in_app_or in Hm as [Hm|Hm]; apply in_map_iff in Hm as (t & <- & Ht); cbn [length]; now rewrite IH.
Qed.
Lemma expect_S p n h : expect p (S n) h = p * expect p n (fun m => h (true :: m)) + (1 - p) * expect p n (fun m => h (false :: m)).
Proof.
  unfold expect. cbn [masks]. rewrite map_app, Rsum_app, !map_map. cbn [mask_prob]. rewrite <- !Rsum_scale, !map_map.
  f_equal; f_equal; apply map_ext; intros m; ring.
Qed.
Lemma expect_scale p n c h : expect p n (fun m => c * h m) = c * expect p n h.
Proof. unfold expect. rewrite <- Rsum_scale, map_map. f_equal. apply map_ext. intros m. ring. Qed.
Lemma expect_const p n c : expect p n (fun _ => c) = c.
Proof.
  induction n as [|n IH].
  - unfold expect. cbn [masks map mask_prob]. rewrite Rsum_cons, Rsum_nil. ring.
  - rewrite expect_S, IH. ring.
Qed.
Lemma expect_one p : forall n i h, (i < n)%nat -> expect p n (fun m => h (nth i m false)) = p * h true + (1 - p) * h false.
Proof.
  induction n as [|n IH]; intros i h Hi; [lia|]. rewrite expect_S. destruct i as [|i]; cbn [nth].
  - rewrite !expect_const. ring.
  - rewrite !IH by lia. ring.
Qed.
Lemma expect_two p : forall n i j h k, (i < n)%nat -> (j < n)%nat -> i <> j ->
  expect p n (fun m => h (nth i m false) * k (nth j m false)) = (p * h true + (1 - p) * h false) * (p * k true + (1 - p) * k false).
Proof.
  induction n as [|n IH]; intros i j h k Hi Hj Hij; [lia|]. rewrite expect_S. destruct i as [|i], j as [|j]; cbn [nth]; [lia| | |].
  - rewrite !expect_scale, !(expect_one p n j k) by lia. ring.
  - rewrite (expect_ext p n (fun m => h (nth i m false) * k true) (fun m => k true * h (nth i m false))) by (intros; ring).
    rewrite (expect_ext p n (fun m => h (nth i m false) * k false) (fun m => k false * h (nth i m false))) by (intros; ring).
    rewrite !expect_scale, !(expect_one p n i h) by lia. ring.
  - rewrite !IH by lia. ring.
Qed.

(** Exactly the rates in [0, 1) are accepted; rate 0 changes nothing, whatever was drawn. *)
Theorem C72_dropout_accepts rate keep x : dropout rate keep x <> None <-> 0 <= rate < 1.
Proof.
  unfold dropout. destruct (Rlt_dec rate 0); [split; [congruence | lra]|]. destruct (Rle_dec 1 rate); [split; [congruence | lra]|].
  destruct (Req_EM_T rate 0); split; try discriminate; intros; lra.
Qed.
Theorem C72_dropout_zero keep x : dropout 0 keep x = Some x.
Proof. unfold dropout. destruct (Rlt_dec 0 0); [lra|]. destruct (Rle_dec 1 0); [lra|]. destruct (Req_EM_T 0 0); [reflexivity | contradiction]. Qed.
(** Every element is dropped or scaled by the inverse of the keep rate, by its own draw. *)
Theorem C72_dropout_element rate keep x : 0 < rate < 1 -> length keep = length x ->
  exists y, dropout rate keep x = Some y /\ length y = length x /\
  forall i, (i < length x)%nat -> nth i y 0 = if nth i keep false then nth i x 0 / (1 - rate) else 0.
Proof.
  intros Hr L. unfold dropout. destruct (Rlt_dec rate 0); [lra|]. destruct (Rle_dec 1 rate); [lra|]. destruct (Req_EM_T rate 0); [lra|].
  eexists. split; [reflexivity|]. split; [rewrite map_length, combine_length; lia|]. intros i Hi.
  rewrite nth_indep with (d' := (fun p => b2r (fst p) * snd p / (1 - rate)) (false, 0)) by (rewrite map_length, combine_length; lia).
  rewrite (map_nth (fun p => b2r (fst p) * snd p / (1 - rate))), combine_nth by exact L. cbn [fst snd]. destruct (nth i keep false); cbn [b2r]; field; lra.
Qed.
Definition drop (rate : R) (x : list R) (i : nat) (keep : list bool) : R := match dropout rate keep x with Some y => nth i y 0 | None => 0 end.
Lemma drop_value rate x i keep : 0 <= rate < 1 -> length keep = length x -> (i < length x)%nat ->
  drop rate x i keep = nth i x 0 * (if Req_EM_T rate 0 then 1 else if nth i keep false then / (1 - rate) else 0).
Proof.
  intros Hr L Hi. unfold drop. destruct (Req_EM_T rate 0) as [->|N]; [rewrite C72_dropout_zero; ring|].
  destruct (C72_dropout_element rate keep x ltac:(lra) L) as (y & -> & _ & Hy). rewrite (Hy i Hi). destruct (nth i keep false); [unfold Rdiv; ring | ring].
Qed.
(** Over the independent draws with keep probability [1 - rate]: the mean of every element is the input, its mean square is that of
    the input divided by the keep rate, and different elements are uncorrelated. *)
Theorem C72_dropout_unbiased rate x i : 0 <= rate < 1 -> (i < length x)%nat ->
  expect (1 - rate) (length x) (fun keep => match dropout rate keep x with Some y => nth i y 0 | None => 0 end) = nth i x 0 /\
  expect (1 - rate) (length x) (fun keep => match dropout rate keep x with Some y => (nth i y 0)² | None => 0 end) =
    (if Req_EM_T rate 0 then (nth i x 0)² else (nth i x 0)² / (1 - rate)) /\
  forall j, (j < length x)%nat -> i <> j ->
    expect (1 - rate) (length x) (fun keep => match dropout rate keep x with Some y => nth i y 0 * nth j y 0 | None => 0 end) = nth i x 0 * nth j x 0.
Proof.
  intros Hr Hi. set (s b := if Req_EM_T rate 0 then 1 else if b : bool then / (1 - rate) else 0).
  assert (M1 : (1 - rate) * s true + (1 - (1 - rate)) * s false = 1) by (unfold s; destruct (Req_EM_T rate 0); [lra | field; lra]).
  split; [|split].
  - rewrite (expect_ext _ _ _ (fun m => nth i x 0 * s (nth i m false))) by (intros m Hm; apply (drop_value rate x i m Hr Hm Hi)).
    rewrite expect_scale, expect_one, M1 by exact Hi. ring.
  - rewrite (expect_ext _ _ _ (fun m => (nth i x 0)² * (s (nth i m false))²)).
    + rewrite expect_scale, (expect_one _ _ i (fun b => (s b)²)) by exact Hi. unfold s, Rsqr. destruct (Req_EM_T rate 0); [lra | field; lra].
    + intros m Hm. pose proof (drop_value rate x i m Hr Hm Hi) as D. unfold drop in D. fold (s (nth i m false)) in D.
      destruct (dropout rate m x) eqn:E; [rewrite D; unfold Rsqr; ring|]. apply C72_dropout_accepts with (keep := m) (x := x) in Hr. congruence.
  - intros j Hj Hij. rewrite (expect_ext _ _ _ (fun m => (nth i x 0 * nth j x 0) * (s (nth i m false) * s (nth j m false)))).
    + rewrite expect_scale, (expect_two _ _ i j s s Hi Hj Hij), M1. ring.
    + intros m Hm. pose proof (drop_value rate x i m Hr Hm Hi) as D. pose proof (drop_value rate x j m Hr Hm Hj) as D2. unfold drop in D, D2.
      fold (s (nth i m false)) in D. fold (s (nth j m false)) in D2.
      destruct (dropout rate m x) eqn:E; [rewrite D, D2; ring|]. apply C72_dropout_accepts with (keep := m) (x := x) in Hr. congruence.
Qed.
(** The probabilities used are those of a distribution, and each element is kept with probability [p]. *)
Theorem C72_masks p n : 0 <= p <= 1 -> expect p n (fun _ => 1) = 1 /\ Forall (fun m => 0 <= mask_prob p m) (masks n) /\
  NoDup (masks n) /\ (forall m, In m (masks n) <-> length m = n) /\
  forall i, (i < n)%nat -> expect p n (fun m => b2r (nth i m false)) = p.
Proof.
  intros Hp. split; [apply expect_const|]. split; [|split; [|split]].
  - apply Forall_forall. intros m _. induction m as [|b m IH]; cbn [mask_prob]; [lra|]. destruct b; apply Rmult_le_pos; lra.
  - induction n as [|n IH]; cbn [masks]; [repeat constructor; tauto|].
    assert (NM : forall b, NoDup (map (cons b) (masks n))) by (intros b; apply Injective_map_NoDup; [intros u v; congruence | exact IH]).
    assert (A : forall (l1 l2 : list (list bool)), NoDup l1 -> NoDup l2 -> (forall a, In a l1 -> ~ In a l2) -> NoDup (l1 ++ l2)).
    { clear. induction l1 as [|a l IH]; intros l2 H1 H2 H; [exact H2|]. inversion H1; subst. cbn [app]. constructor.
      - rewrite in_app_iff. intros [X|X]; [contradiction | apply (H a); [now left | exact X]].
      - apply IH; auto. intros b Hb. apply H. now right. }
    apply A; auto. intros a H1 H2. apply in_map_iff in H1 as (u & <- & _). apply in_map_iff in H2 as (v & E & _). discriminate E.
  - induction n as [|n IH]; intros m; cbn [masks].
    + destruct m; cbn; split; auto; [intros [H|[]]; discriminate | discriminate].
    + rewrite in_app_iff, !in_map_iff. split.
      * intros [(u & <- & Hu)|(u & <- & Hu)]; cbn [length]; f_equal; now apply IH.
      * destruct m as [|b m]; [discriminate|]. cbn [length]. intros [= Hm]. apply IH in Hm. destruct b; [left | right]; eauto.
  - intros i Hi. rewrite (expect_one p n i b2r Hi). cbn [b2r]. ring.
Qed.
Example C72_dropout_case : dropout (1/2) [true; false] [3; 5] = Some [6; 0] /\ dropout 1 [true] [3] = None.
Proof.
  unfold dropout. split.
  - destruct (Rlt_dec (1/2) 0); [lra|]. destruct (Rle_dec 1 (1/2)); [lra|]. destruct (Req_EM_T (1/2) 0); [lra|]. cbn [combine map fst snd b2r]. do 2 f_equal; [lra|]. f_equal. lra.
  - destruct (Rlt_dec 1 0); [lra|]. destruct (Rle_dec 1 1); [reflexivity | lra].
Qed.
Print Assumptions C72_dropout_accepts.
Print Assumptions C72_dropout_element.
Print Assumptions C72_dropout_unbiased.
Print Assumptions C72_masks.

(** ** Multinomial *)
(** [jax.random.uniform] returns multiples of [1 / N] in [0, 1) ([N = 2^23] in single precision), each as often as the others. *)
Fixpoint below (s : R) (n : nat) : nat := match n with O => 0 | S n => below s n + (if Rle_dec (INR n) s then 1 else 0) end.
Lemma below_bounds s : 0 <= s -> forall n, Rmin s (INR n) <= INR (below s n) <= s + 1 /\ (below s n <= n)%nat.
Proof.
  intros Hs. induction n as [|n [[IH1 IH2] IH3]]; cbn [below].
  - split; [split|lia]; [rewrite Rmin_right; cbn; lra | cbn; lra].
  - apply le_INR in IH3 as IH4. destruct (Rle_dec (INR n) s) as [C|C].
    + rewrite Rmin_right in IH1 by exact C. rewrite Nat.add_1_r, !S_INR. split; [split; [|lra]|lia]. pose proof (Rmin_r s (INR n + 1)). lra.
    + rewrite Nat.add_0_r, S_INR. rewrite Rmin_left in IH1 by lra. split; [split; [|lra]|lia]. pose proof (Rmin_l s (INR n + 1)). lra.
Qed.

(** Over the [N] possible draws a category comes out as often as its probability says, up to one draw. *)
Theorem C72_multinomial_frequency logits N c : logits <> [] -> (0 < N)%nat -> (c < length logits)%nat ->
  Rabs (INR (length (filter (fun k => Nat.eqb (multinomial1 logits (INR k / INR N)) c) (seq 0 N))) / INR N - exp (nth c logits 0) / Rsum (map exp logits)) <= / INR N.
Proof.
  intros Hne HN Hc. set (cum m := Rsum (firstn m (softmax logits))).
  assert (PN : 0 < INR N) by now apply lt_0_INR.
  assert (Spec : forall k, (k < N)%nat -> multinomial1 logits (INR k / INR N) = c <-> INR k <= INR N * cum (S c) /\ ((0 < c)%nat -> INR N * cum c < INR k)).
  { intros k Hk. assert (Ha : 0 <= INR k / INR N < 1).
    { split; [apply Rle_mult_inv_pos; [apply pos_INR | exact PN]|]. apply lt_INR in Hk. apply Rmult_lt_reg_r with (INR N); [exact PN|]. unfold Rdiv. rewrite Rmult_assoc, Rinv_l by lra. lra. }
    assert (Ek : INR k = INR N * (INR k / INR N)) by (field; lra).
    destruct (C56_inverse_cdf logits (INR k / INR N) Hne Ha) as (A & B & C & D & _ & _ & _). fold (cum (S (multinomial1 logits (INR k / INR N)))) in B.
    set (a := INR k / INR N) in *. split.
    - intros <-. rewrite Ek. split; [apply Rmult_le_compat_l; lra|]. intros Hp. apply Rmult_lt_compat_l; [exact PN | now apply C].
    - intros [H1 H2]. symmetry. apply (D c Hc); fold (cum c) (cum (S c)).
      + rewrite Ek in H1. apply Rmult_le_reg_l with (INR N); assumption.
      + intros Hp. specialize (H2 Hp). rewrite Ek in H2. apply Rmult_lt_reg_l with (INR N); assumption. }
  destruct (C56_inverse_cdf logits 0 Hne ltac:(lra)) as (_ & _ & _ & _ & St & C0 & C1). fold (cum 0%nat) in C0. fold (cum (length logits)) in C1.
  assert (Step : forall m, (m < length logits)%nat -> cum (S m) - cum m = exp (nth m logits 0) / Rsum (map exp logits) /\ cum m < cum (S m)) by (intros m Hm; apply (St m Hm)).
  assert (Mono : forall q p, (p <= q)%nat -> (q <= length logits)%nat -> cum p <= cum q).
  { induction q as [|q IH]; intros p Hp Hq; [replace p with 0%nat by lia; lra|]. destruct (Nat.eq_dec p (S q)) as [->|]; [lra|].
    specialize (IH p ltac:(lia) ltac:(lia)). destruct (Step q ltac:(lia)). lra. }
  assert (Bc : 0 <= cum c) by (rewrite <- C0; apply Mono; lia). assert (Bs : cum (S c) <= 1) by (rewrite <- C1; apply Mono; lia).
  destruct (Step c Hc) as [Pc Lt]. rewrite <- Pc.
  assert (Cnt : forall n, (n <= N)%nat -> INR (length (filter (fun k => Nat.eqb (multinomial1 logits (INR k / INR N)) c) (seq 0 n)))
    = INR (below (INR N * cum (S c)) n) - (if Nat.eqb c 0 then 0 else INR (below (INR N * cum c) n))).
  { induction n as [|n IH]; intros Hn; [cbn; destruct (Nat.eqb c 0); lra|]. rewrite seq_S, filter_app, app_length, plus_INR, IH by lia. cbn [filter below Nat.add].
    rewrite !plus_INR. specialize (Spec n ltac:(lia)). assert (Le : INR N * cum c <= INR N * cum (S c)) by (apply Rmult_le_compat_l; lra).
    destruct (Nat.eqb_spec (multinomial1 logits (INR n / INR N)) c) as [E|E]; cbn [length].
    - apply Spec in E as [E1 E2]. destruct (Rle_dec (INR n) (INR N * cum (S c))); [|lra]. destruct (Nat.eqb_spec c 0) as [->|Nc]; [cbn; lra|].
      specialize (E2 ltac:(lia)). destruct (Rle_dec (INR n) (INR N * cum c)); [lra|]. cbn. lra.
    - destruct (Rle_dec (INR n) (INR N * cum (S c))) as [R1|R1].
      + destruct (Nat.eqb_spec c 0) as [->|Nc]; [exfalso; apply E, Spec; split; [exact R1 | lia]|].
        destruct (Rle_dec (INR n) (INR N * cum c)) as [R2|R2]; [cbn; lra|]. exfalso. apply E, Spec. split; [exact R1 | intros _; lra].
      + destruct (Nat.eqb c 0); [cbn; lra|]. destruct (Rle_dec (INR n) (INR N * cum c)); [lra | cbn; lra]. }
  rewrite (Cnt N (le_n _)).
  assert (Bd : forall t, 0 <= t <= 1 -> INR N * t <= INR (below (INR N * t) N) <= INR N * t + 1).
  { intros t Ht. assert (N0 : 0 <= INR N * t) by (apply Rmult_le_pos; lra). destruct (below_bounds (INR N * t) N0 N) as [[X Y] _]. split; [|exact Y].
    rewrite Rmin_left in X; [exact X|]. rewrite <- (Rmult_1_r (INR N)) at 2. apply Rmult_le_compat_l; lra. }
  pose proof (Bd (cum (S c)) ltac:(lra)) as B1. pose proof (Bd (cum c) ltac:(lra)) as B2.
  assert (Q : forall u v, Rabs (u - INR N * v) <= 1 -> Rabs (u / INR N - v) <= / INR N).
  { intros u v H. replace (u / INR N - v) with ((u - INR N * v) * / INR N) by (field; lra). rewrite Rabs_mult, (Rabs_pos_eq (/ INR N)) by (left; now apply Rinv_0_lt_compat).
    rewrite <- (Rmult_1_l (/ INR N)) at 2. apply Rmult_le_compat_r; [left; now apply Rinv_0_lt_compat | exact H]. }
  apply Q, Rabs_le. destruct (Nat.eqb_spec c 0) as [->|Nc]; [rewrite C0 in *; rewrite Rmult_minus_distr_l; lra|]. rewrite Rmult_minus_distr_l. lra.
Qed.
Print Assumptions C72_multinomial_frequency.
(** Probabilities may be 0 (a logit of minus infinity). A positive draw never selects such a category ... *)
Theorem C72_multinomial_support probs a : 0 < a -> a <= Rsum probs -> 0 < nth (draw (cumsum probs) a) probs 0.
Proof.
  intros Ha Hs. assert (Hl : (0 < length probs)%nat) by (destruct probs; [cbn in Hs; lra | cbn; lia]).
  destruct (draw_first probs a) as (A & B & C).
  { exists (length probs - 1)%nat. split; [lia|]. replace (S (length probs - 1)) with (length probs) by lia. now rewrite firstn_all. }
  set (i := draw (cumsum probs) a) in *.
  assert (E : firstn (S i) probs = firstn i probs ++ [nth i probs 0]).
  { revert A. generalize i. clear. induction probs as [|x l IH]; intros [|m] Hm; cbn [length] in Hm; try lia; [reflexivity|].
    change (x :: firstn (S m) l = x :: firstn m l ++ [nth m l 0]). f_equal. apply IH. lia. }
  rewrite E, Rsum_app, Rsum_cons, Rsum_nil in B. destruct i as [|i]; [cbn in B; lra|]. specialize (C i ltac:(lia)). lra.
Qed.
Print Assumptions C72_multinomial_support.
(** ... but the draw 0 selects the first category even when its probability is 0. *)
Theorem C72_multinomial_zero_refuted : ~ (forall probs a, Forall (fun p => 0 <= p) probs -> Rsum probs = 1 -> 0 <= a < 1 ->
  0 < nth (draw (cumsum probs) a) probs 0).
Proof.
  intros H. specialize (H [0; 1] 0 ltac:(repeat constructor; lra) ltac:(unfold Rsum; cbn; lra) ltac:(lra)).
  assert (E : draw (cumsum [0; 1]) 0 = 0%nat).
  { unfold draw, cumsum, gtb. cbn [cumsum_from map]. destruct (Rlt_dec (0 + 0) 0); [lra|]. reflexivity. }
  rewrite E in H. cbn in H. lra.
Qed.
Print Assumptions C72_multinomial_zero_refuted.
(** Of the draws 0, 1/4, 1/2, 3/4 three select the first of two equally likely categories, within one draw of the half. *)
Example C72_frequency_case : multinomial1 [0; 0] 0 = 0%nat /\ multinomial1 [0; 0] (1/4) = 0%nat /\ multinomial1 [0; 0] (1/2) = 0%nat /\ multinomial1 [0; 0] (3/4) = 1%nat.
Proof.
  assert (E : softmax [0; 0] = [1/2; 1/2]) by (unfold softmax, Rsum; cbn; rewrite exp_0; repeat f_equal; lra).
  unfold multinomial1. rewrite E. unfold draw, cumsum, gtb. cbn [cumsum_from map]. repeat split; repeat (destruct (Rlt_dec _ _); [try lra|try lra]); reflexivity.
Qed.

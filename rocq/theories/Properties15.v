(** * C53 (VectorQuantizer), C56 (multinomial) and C57 (recurrent cells), in exact arithmetic *)
From Coq Require Import Reals ZArith List Bool Lia Lra.
From Verif Require Import ModelReal Properties14.
Import ListNotations.
Local Open Scope R_scope.

(** ** C53 VectorQuantizer *)
(** Squared Euclidean distance. *)
Definition sq_distance (x y : list R) : R := Rsum (map (fun p => square (fst p - snd p)) (combine x y)).
Lemma sq_distance_expand : forall x y, length x = length y ->
  Rsum (map square x) - 2 * dot x y + Rsum (map square y) = sq_distance x y.
Proof.
  unfold sq_distance, dot. induction x as [|a x IH]; intros [|b y] H; try discriminate H; cbn [map combine fst snd]; rewrite ?Rsum_cons, ?Rsum_nil.
  - lra.
  - injection H as H. rewrite <- (IH y H). unfold square. lra.
Qed.
Lemma argmax_from_spec : forall l best v i, (best < i)%nat ->
  let j := argmax_from best v i l in
  (j = best /\ Forall (fun y => y <= v) l) \/
  ((i <= j < i + length l)%nat /\ v < nth (j - i) l 0 /\ Forall (fun y => y <= nth (j - i) l 0) l /\
   forall m, (m < j - i)%nat -> nth m l 0 < nth (j - i) l 0).
Proof.
  induction l as [|x l IH]; intros best v i Hb; cbn [argmax_from].
  - left. split; [reflexivity | constructor].
  - destruct (Rlt_dec v x) as [Hx|Hx].
    + destruct (IH i x (S i)) as [[E F] | (B & G & F & M)]; [lia| |]; right; cbv zeta in *.
      * rewrite E, Nat.sub_diag. cbn [nth length]. split; [lia|]. split; [exact Hx|]. split; [constructor; [lra | exact F] | intros; lia].
      * set (j := argmax_from i x (S i) l) in *. replace (j - i)%nat with (S (j - S i)) by lia. cbn [nth length].
        split; [lia|]. split; [lra|]. split; [constructor; [lra | exact F]|]. intros [|m] Hm; cbn [nth]; [exact G | apply M; lia].
    + destruct (IH best v (S i)) as [[E F] | (B & G & F & M)]; [lia| |]; cbv zeta in *.
      * left. split; [exact E | constructor; [lra | exact F]].
      * right. set (j := argmax_from best v (S i) l) in *. replace (j - i)%nat with (S (j - S i)) by lia. cbn [nth length].
        split; [lia|]. split; [exact G|]. split; [constructor; [lra | exact F]|]. intros [|m] Hm; cbn [nth]; [lra | apply M; lia].
Qed.
Lemma argmax_spec l : l <> [] -> (argmax l < length l)%nat /\ (forall m, (m < length l)%nat -> nth m l 0 <= nth (argmax l) l 0) /\
  (forall m, (m < argmax l)%nat -> nth m l 0 < nth (argmax l) l 0).
Proof.
  destruct l as [|x l]; [congruence|]. intros _. unfold argmax. destruct (argmax_from_spec l 0%nat x 1%nat) as [[E F] | (B & G & F & M)]; [lia| |]; cbv zeta in *.
  - rewrite E. cbn [nth length]. split; [lia|]. split; [|intros; lia]. intros [|m] Hm; cbn [nth]; [lra|]. rewrite Forall_forall in F. apply F, nth_In. cbn [length] in Hm. lia.
  - set (j := argmax_from 0 x 1 l) in *. clearbody j. destruct j as [|j]; [lia|]. cbn [nth length]. replace (S j - 1)%nat with j in * by lia.
    split; [lia|]. rewrite Forall_forall in F. split; intros [|m] Hm; cbn [nth]; try lra.
    + apply F, nth_In. cbn [length] in Hm. lia.
    + apply M. lia.
Qed.
(** The chosen code is the first of the nearest codes, and the quantized output of the row is that code. *)
Theorem C53_nearest x embeddings k : (0 < k)%nat -> length embeddings = length x ->
  let j := vq_index x embeddings k in
  (j < k)%nat /\
  (forall m, (m < k)%nat -> sq_distance x (column j embeddings) <= sq_distance x (column m embeddings)) /\
  (forall m, (m < j)%nat -> sq_distance x (column j embeddings) < sq_distance x (column m embeddings)) /\
  vq_output x embeddings k = column j embeddings.
Proof.
  intros Hk HL. cbv zeta. set (l := map Ropp (vq_distances x embeddings k)).
  assert (Ll : length l = k) by (unfold l, vq_distances; now rewrite !map_length, seq_length).
  assert (N : forall m, (m < k)%nat -> nth m l 0 = - sq_distance x (column m embeddings)).
  { intros m Hm. unfold l, vq_distances. rewrite map_map.
    rewrite nth_indep with (d' := (fun x0 => - (Rsum (map square x) - 2 * dot x (column x0 embeddings) + Rsum (map square (column x0 embeddings)))) 0%nat)
      by (rewrite map_length, seq_length; exact Hm).
    rewrite (map_nth (fun x0 => - (Rsum (map square x) - 2 * dot x (column x0 embeddings) + Rsum (map square (column x0 embeddings))))).
    rewrite seq_nth by exact Hm. cbn [Nat.add]. f_equal. apply sq_distance_expand. unfold column. now rewrite map_length. }
  destruct (argmax_spec l) as (A & B & C); [intros E; rewrite E in Ll; cbn in Ll; lia|].
  unfold vq_index. fold l. set (j := argmax l) in *. rewrite Ll in *. split; [exact A|]. split; [|split].
  - intros m Hm. specialize (B m Hm). rewrite !N in B by assumption. lra.
  - intros m Hm. specialize (C m Hm). rewrite !N in C by lia. lra.
  - unfold vq_output, vq_index. fold l. fold j. unfold vq_quantize. assert (HL' : length (column j embeddings) = length x) by (unfold column; now rewrite map_length).
    generalize (column j embeddings) HL'. clear. induction x as [|a x IH]; intros [|b y] H; try discriminate H; [reflexivity|].
    cbn [combine map fst snd]. f_equal; [lra | apply IH; now injection H].
Qed.
Print Assumptions C53_nearest.
(** Codes (0,0), (3,4) and (1,1): the row (1,2) is nearest to the third. *)
Example C53_values : vq_index [1; 2] [[0; 3; 1]; [0; 4; 1]] 3 = 2%nat /\ vq_output [1; 2] [[0; 3; 1]; [0; 4; 1]] 3 = [1; 1].
Proof.
  destruct (C53_nearest [1; 2] [[0; 3; 1]; [0; 4; 1]] 3) as (A & B & _ & D); [lia | reflexivity |]. set (j := vq_index _ _ _) in *.
  assert (E : j = 2%nat).
  { pose proof (B 2%nat ltac:(lia)) as B2. destruct j as [|[|[|j]]]; [| |reflexivity|lia]; exfalso; unfold sq_distance, column, Rsum, square in B2; cbn in B2; lra. }
  split; [exact E|]. rewrite D, E. reflexivity.
Qed.

(** ** C56 multinomial *)
Lemma exp_sum_pos l : l <> [] -> 0 < Rsum (map exp l).
Proof.
  destruct l as [|a l]; [congruence|]. intros _. cbn [map]. rewrite Rsum_cons. pose proof (exp_pos a).
  assert (0 <= Rsum (map exp l)). { apply Rsum_nonneg, Forall_forall. intros y Hy. apply in_map_iff in Hy as (z & <- & _). left. apply exp_pos. }
  lra.
Qed.
Lemma softmax_pos l : Forall (fun p => 0 < p) (softmax l).
Proof.
  apply Forall_forall. intros y Hy. apply in_map_iff in Hy as (z & <- & Hz). apply Rdiv_lt_0_compat; [apply exp_pos|]. apply exp_sum_pos.
  now destruct l.
Qed.
Lemma softmax_sum l : l <> [] -> Rsum (softmax l) = 1.
Proof.
  intros H. unfold softmax. replace (map (fun x => exp x / Rsum (map exp l)) l) with (map (fun y => / Rsum (map exp l) * y) (map exp l)).
  - rewrite Rsum_scale. apply Rinv_l. pose proof (exp_sum_pos l H). lra.
  - rewrite map_map. apply map_ext. intros x. unfold Rdiv. lra.
Qed.
Lemma cumsum_from_nth : forall l acc i, (i < length l)%nat -> nth i (cumsum_from acc l) 0 = acc + Rsum (firstn (S i) l).
Proof.
  induction l as [|x l IH]; intros acc i Hi; cbn [length] in Hi; [lia|]. cbn [cumsum_from firstn]. rewrite Rsum_cons. destruct i as [|i]; cbn [nth].
  - cbn [firstn]. rewrite Rsum_nil. lra.
  - rewrite IH by lia. lra.
Qed.
Lemma cumsum_from_length : forall l acc, length (cumsum_from acc l) = length l.
Proof. induction l as [|x l IH]; intros acc; cbn; [reflexivity | now rewrite IH]. Qed.
Lemma first_false_spec : forall l i, match first_false i l with
  | Some j => (i <= j < i + length l)%nat /\ nth (j - i) l true = false /\ forall m, (m < j - i)%nat -> nth m l true = true
  | None => forall m, (m < length l)%nat -> nth m l true = true end.
Proof.
  induction l as [|b l IH]; intros i; cbn [first_false].
  - intros m Hm. cbn in Hm. lia.
  - destruct b.
    + specialize (IH (S i)). destruct (first_false (S i) l) as [j|].
      * destruct IH as (A & B & C). replace (j - i)%nat with (S (j - S i)) by lia. cbn [nth length]. split; [lia|]. split; [exact B|].
        intros [|m] Hm; cbn [nth]; [reflexivity | apply C; lia].
      * intros [|m] Hm; cbn [nth length] in *; [reflexivity | apply IH; lia].
    + rewrite Nat.sub_diag. cbn [nth length]. split; [lia|]. split; [reflexivity | intros; lia].
Qed.
Lemma gtb_nth a l i : (i < length l)%nat -> nth i (map (gtb a) l) true = true <-> nth i l 0 < a.
Proof.
  intros Hi. rewrite nth_indep with (d' := gtb a 0) by now rewrite map_length. rewrite map_nth. unfold gtb. destruct (Rlt_dec (nth i l 0) a); intuition congruence.
Qed.
(** Drawing from any list of probabilities of which some cumulative sum reaches the draw: the result is the least such index. *)
Lemma draw_first probs a : (exists i, (i < length probs)%nat /\ a <= Rsum (firstn (S i) probs)) ->
  let i := draw (cumsum probs) a in
  (i < length probs)%nat /\ a <= Rsum (firstn (S i) probs) /\ forall m, (m < i)%nat -> Rsum (firstn (S m) probs) < a.
Proof.
  intros (w & Hw & Ha). cbv zeta. unfold draw, argmin_bool. pose proof (first_false_spec (map (gtb a) (cumsum probs)) 0) as F.
  assert (L : length (map (gtb a) (cumsum probs)) = length probs) by (unfold cumsum; now rewrite map_length, cumsum_from_length).
  assert (G : forall m, (m < length probs)%nat -> nth m (map (gtb a) (cumsum probs)) true = true <-> Rsum (firstn (S m) probs) < a).
  { intros m Hm. rewrite gtb_nth by (unfold cumsum; now rewrite cumsum_from_length). unfold cumsum. rewrite cumsum_from_nth by assumption. now rewrite Rplus_0_l. }
  rewrite L in F. destruct (first_false 0 (map (gtb a) (cumsum probs))) as [j|].
  - rewrite Nat.sub_0_r in F. destruct F as (A & B & C). split; [lia|]. split.
    + destruct (Rlt_dec (Rsum (firstn (S j) probs)) a) as [X|X]; [|lra]. apply G in X; [congruence | lia].
    + intros m Hm. apply G; [lia|]. apply C. lia.
  - exfalso. specialize (F w Hw). apply G in F; [lra | exact Hw].
Qed.

(** The category drawn by [a] in [0,1) is the unique one whose interval between successive cumulative probabilities contains [a];
    the length of the interval is its softmax probability. *)
Theorem C56_inverse_cdf logits a : logits <> [] -> 0 <= a < 1 ->
  let i := multinomial1 logits a in let cum m := Rsum (firstn m (softmax logits)) in
  (i < length logits)%nat /\ a <= cum (S i) /\ ((0 < i)%nat -> cum i < a) /\
  (forall m, (m < length logits)%nat -> a <= cum (S m) -> ((0 < m)%nat -> cum m < a) -> m = i) /\
  (forall m, (m < length logits)%nat -> cum (S m) - cum m = exp (nth m logits 0) / Rsum (map exp logits) /\ cum m < cum (S m)) /\
  cum 0%nat = 0 /\ cum (length logits) = 1.
Proof.
  intros H Ha. cbv zeta. assert (L : length (softmax logits) = length logits) by (unfold softmax; now rewrite map_length).
  assert (Full : Rsum (firstn (length logits) (softmax logits)) = 1) by (rewrite <- L, firstn_all; now apply softmax_sum).
  assert (Hl : (0 < length logits)%nat) by (destruct logits; [congruence | cbn; lia]).
  assert (Step : forall m, (m < length logits)%nat -> Rsum (firstn (S m) (softmax logits)) - Rsum (firstn m (softmax logits)) = exp (nth m logits 0) / Rsum (map exp logits)).
  { intros m Hm. assert (E : firstn (S m) (softmax logits) = firstn m (softmax logits) ++ [nth m (softmax logits) 0]).
    { rewrite <- L in Hm. revert m Hm. generalize (softmax logits). clear. induction l as [|x l IH]; intros [|m] Hm; cbn [length] in Hm; try lia; [reflexivity|].
      change (x :: firstn (S m) l = x :: firstn m l ++ [nth m l 0]). f_equal. apply IH. lia. }
    rewrite E, Rsum_app, Rsum_cons, Rsum_nil.
    replace (nth m (softmax logits) 0) with (exp (nth m logits 0) / Rsum (map exp logits)); [lra|].
    rewrite <- (map_nth (fun x => exp x / Rsum (map exp logits))). apply nth_indep. now rewrite L. }
  assert (Inc : forall m, (m < length logits)%nat -> Rsum (firstn m (softmax logits)) < Rsum (firstn (S m) (softmax logits))).
  { intros m Hm. specialize (Step m Hm). pose proof (Rdiv_lt_0_compat _ _ (exp_pos (nth m logits 0)) (exp_sum_pos logits H)). lra. }
  destruct (draw_first (softmax logits) a) as (A & B & C).
  { exists (length logits - 1)%nat. rewrite L. split; [lia|]. replace (S (length logits - 1)) with (length logits) by lia. rewrite Full. lra. }
  fold (multinomial1 logits a) in A, B, C. set (i := multinomial1 logits a) in *. rewrite L in A.
  split; [exact A|]. split; [exact B|]. split; [|split; [|split; [|split]]].
  - intros Hi. specialize (C (i - 1)%nat ltac:(lia)). now replace (S (i - 1)) with i in C by lia.
  - intros m Hm Hm1 Hm2. assert (Mono : forall p q, (p <= q)%nat -> (q <= length logits)%nat -> Rsum (firstn p (softmax logits)) <= Rsum (firstn q (softmax logits))).
    { intros p q Hpq. induction Hpq as [|q Hpq IH]; intros Hq; [lra|]. specialize (Inc q ltac:(lia)). specialize (IH ltac:(lia)). lra. }
    destruct (Nat.lt_trichotomy m i) as [X|[X|X]]; [|exact X|].
    + specialize (C m X). lra.
    + specialize (Hm2 ltac:(lia)). pose proof (Mono (S i) m ltac:(lia) ltac:(lia)). lra.
  - intros m Hm. auto.
  - reflexivity.
  - exact Full.
Qed.
Print Assumptions C56_inverse_cdf.
(** Rank-2 logits: the entry for row [b] and sample [s] is drawn from row [b] alone, by its own uniform number. *)
Theorem C56_batch logits num_samples uniform : (0 < num_samples)%nat ->
  length (multinomial2 logits num_samples uniform) = length logits /\
  forall b s, (b < length logits)%nat -> (s < num_samples)%nat ->
    length (nth b (multinomial2 logits num_samples uniform) []) = num_samples /\
    nth s (nth b (multinomial2 logits num_samples uniform) []) 0%nat = multinomial1 (nth b logits []) (uniform s b).
Proof.
  intros Hn. assert (Cb : forall {A B} (f : nat * A -> B) l d d' b, (b < length l)%nat -> nth b (map f (combine (seq 0 (length l)) l)) d = f (b, nth b l d')).
  { intros A B f l d d' b Hb. rewrite nth_indep with (d' := f (0%nat, d')) by (rewrite map_length, combine_length, seq_length; lia).
    rewrite map_nth. rewrite combine_nth by now rewrite seq_length. now rewrite seq_nth. }
  unfold multinomial2. destruct (Nat.eqb_spec num_samples 1) as [->|Hne].
  - split; [now rewrite map_length, combine_length, seq_length, Nat.min_id|]. intros b s Hb Hs. rewrite (Cb _ _ _ _ _ [] b Hb). cbn [fst snd length].
    replace s with 0%nat by lia. auto.
  - split; [now rewrite map_length, seq_length|]. intros b s Hb Hs. set (out := map _ (seq 0 num_samples)).
    rewrite nth_indep with (d' := (fun b => map (fun row => nth b row 0%nat) out) 0%nat) by now rewrite map_length, seq_length.
    rewrite (map_nth (fun b => map (fun row => nth b row 0%nat) out)), seq_nth by exact Hb. cbn [Nat.add].
    split; [unfold out; now rewrite !map_length, seq_length|].
    rewrite nth_indep with (d' := (fun row => nth b row 0%nat) []) by (unfold out; now rewrite !map_length, seq_length).
    rewrite (map_nth (fun row => nth b row 0%nat)). unfold out.
    rewrite nth_indep with (d' := (fun s => map (fun p => multinomial1 (snd p) (uniform s (fst p))) (combine (seq 0 (length logits)) logits)) 0%nat) by now rewrite map_length, seq_length.
    rewrite (map_nth (fun s => map (fun p => multinomial1 (snd p) (uniform s (fst p))) (combine (seq 0 (length logits)) logits))), seq_nth by exact Hs.
    cbn [Nat.add]. rewrite (Cb _ _ _ _ _ [] b Hb). reflexivity.
Qed.
(** When the cumulative sums fall short of the draw, as rounding can make them, the first category is returned, however unlikely. *)
Theorem C56_short_refuted : ~ (forall probs a, 0 <= a < 1 -> probs <> [] -> Forall (fun p => 0 <= p) probs -> Rsum probs <= 1 ->
  a <= Rsum (firstn (S (draw (cumsum probs) a)) probs) \/ draw (cumsum probs) a = (length probs - 1)%nat).
Proof.
  intros H. specialize (H [0; 1/4; 1/2] (7/8)).
  assert (E : draw (cumsum [0; 1/4; 1/2]) (7/8) = 0%nat).
  { unfold draw, cumsum, gtb. cbn [cumsum_from map]. repeat (destruct (Rlt_dec _ _); [|lra]). reflexivity. }
  rewrite E in H. cbn in H. destruct H as [H|H]; [lra | discriminate | repeat constructor; lra | unfold Rsum; cbn; lra | unfold Rsum in H; cbn in H; lra | discriminate].
Qed.
(** Equal logits: the draw 3/4 gives the second of two categories. *)
Example C56_values : multinomial1 [0; 0] (3/4) = 1%nat.
Proof.
  assert (E : softmax [0; 0] = [1/2; 1/2]) by (unfold softmax, Rsum; cbn; rewrite exp_0; repeat f_equal; lra).
  unfold multinomial1. rewrite E. unfold draw, cumsum, gtb. cbn [cumsum_from map]. destruct (Rlt_dec _ _); [|lra]. destruct (Rlt_dec _ _); [lra|]. reflexivity.
Qed.

(** ** C57 recurrent cells *)
Lemma sigmoid_range x : 0 < sigmoid x < 1.
Proof.
  unfold sigmoid. pose proof (exp_pos (- x)). split; [apply Rinv_0_lt_compat; lra|].
  rewrite <- Rinv_1. apply Rinv_lt_contravar; lra.
Qed.
Lemma tanh_range x : -1 < tanh x < 1.
Proof.
  unfold tanh. pose proof (exp_pos x). pose proof (exp_pos (- x)). set (a := exp x) in *. set (b := exp (- x)) in *. clearbody a b.
  split; (apply Rmult_lt_reg_r with (a + b); [lra|]); unfold Rdiv; rewrite Rmult_assoc, Rinv_l by lra; lra.
Qed.
Lemma zipw_Forall (P Q S : R -> Prop) f : (forall a b, P a -> Q b -> S (f a b)) -> forall x y, Forall P x -> Forall Q y -> Forall S (zipw f x y).
Proof.
  intros H x y Hx. revert y. unfold zipw. induction Hx as [|a x Ha _ IH]; intros y Hy; [constructor|]. destruct Hy as [|b y Hb Hy]; [constructor|].
  cbn [combine map fst snd]. constructor; auto.
Qed.
Lemma map_Forall {A} (P : R -> Prop) (f : A -> R) l : (forall a, P (f a)) -> Forall P (map f l).
Proof. intros H. apply Forall_forall. intros y Hy. apply in_map_iff in Hy as (z & <- & _). apply H. Qed.
Lemma firstn_Forall {A} (P : A -> Prop) n l : Forall P l -> Forall P (firstn n l).
Proof. intros H. apply Forall_forall. intros x Hx. rewrite Forall_forall in H. apply H. rewrite <- (firstn_skipn n l). apply in_or_app. auto. Qed.
Lemma mult_bound a b : 0 < a < 1 -> -1 < b < 1 -> -1 < a * b < 1.
Proof.
  intros Ha Hb. split; nra.
Qed.
Lemma lstm_step n w b x h c M : Forall (fun v => Rabs v <= M) c -> 
  let r := lstm n w b x (h, c) in
  fst r = fst (snd r) /\ Forall (fun v => Rabs v < 1) (fst r) /\ Forall (fun v => Rabs v <= M + 1) (snd (snd r)).
Proof.
  intros Hc. cbv zeta. unfold lstm. cbn [fst snd]. split; [reflexivity|]. split.
  - apply zipw_Forall with (P := fun a => 0 < a < 1) (Q := fun a => -1 < a < 1).
    + intros a b0 Ha Hb. apply Rabs_def1; apply mult_bound with (a := a) (b := b0) in Ha; lra.
    + apply map_Forall. apply sigmoid_range.
    + apply map_Forall. apply tanh_range.
  - apply zipw_Forall with (P := fun a => Rabs a <= M) (Q := fun a => Rabs a <= 1).
    + intros a b0 Ha Hb. eapply Rle_trans; [apply Rabs_triang | lra].
    + apply zipw_Forall with (P := fun a => 0 < a < 1) (Q := fun a => Rabs a <= M).
      * intros a b0 Ha Hb. rewrite Rabs_mult, (Rabs_right a) by lra. pose proof (Rabs_pos b0). nra.
      * apply map_Forall. intros a. apply sigmoid_range.
      * exact Hc.
    + apply zipw_Forall with (P := fun a => 0 < a < 1) (Q := fun a => -1 < a < 1).
      * intros a b0 Ha Hb. left. apply Rabs_def1; apply mult_bound with (a := a) (b := b0) in Ha; lra.
      * apply map_Forall. apply sigmoid_range.
      * apply map_Forall. apply tanh_range.
Qed.
(** LSTM: whatever the weights, inputs and initial state, all outputs lie strictly between -1 and 1, the hidden state is the output, and
    the cell state grows by at most one per step. *)
Theorem C57_lstm n w b xs h c M : Forall (fun v => Rabs v <= M) c ->
  forall t, (t < length xs)%nat -> let r := nth t (run_cell (lstm n w b) xs (h, c)) ([], ([], [])) in
  Forall (fun v => Rabs v < 1) (fst r) /\ fst (snd r) = fst r /\ Forall (fun v => Rabs v <= M + INR (S t)) (snd (snd r)).
Proof.
  revert h c M. induction xs as [|x xs IH]; intros h c M Hc t Ht; cbn [length] in Ht; [lia|]. cbn [run_cell].
  destruct (lstm_step n w b x h c M Hc) as (E & A & B). cbv zeta in E, A, B. destruct (lstm n w b x (h, c)) as [o [h' c']]. cbn [fst snd] in E, A, B. subst o.
  destruct t as [|t]; cbn [nth fst snd].
  - split; [exact A|]. split; [reflexivity|]. cbn [INR]. exact B.
  - cbv zeta. destruct (IH h' c' (M + 1) B t ltac:(lia)) as (I1 & I2 & I3). split; [exact I1|]. split; [exact I2|].
    eapply Forall_impl; [|exact I3]. intros a Ha. cbv beta in *. rewrite (S_INR (S t)). lra.
Qed.
Print Assumptions C57_lstm.
Lemma gru_mix : forall z s a, Forall (fun v => 0 < v < 1) z -> Forall (fun v => Rabs v <= 1) s -> Forall (fun v => -1 < v < 1) a ->
  Forall (fun v => Rabs v < 1) (zipw Rplus (zipw (fun z s => (1 - z) * s) z s) (zipw Rmult z a)).
Proof.
  unfold zipw. intros z s a Hz. revert s a. induction Hz as [|z0 z Hz0 _ IH]; intros s a Hs Ha; [constructor|].
  destruct Hs as [|s0 s Hs0 Hs]; [constructor|]. destruct Ha as [|a0 a Ha0 Ha]; [constructor|].
  cbn [combine map fst snd]. constructor; [|apply IH; assumption].
  assert (Hs1 : -1 <= s0 <= 1) by (pose proof (Rle_abs s0); pose proof (Rle_abs (- s0)); rewrite Rabs_Ropp in *; lra).
  apply Rabs_def1; nra.
Qed.
Lemma gru_step n w_i w_h b x s : Forall (fun v => Rabs v <= 1) s ->
  let r := gru n w_i w_h b x s in fst r = snd r /\ Forall (fun v => Rabs v < 1) (fst r).
Proof.
  intros Hs. unfold gru. cbv zeta. cbn [fst snd]. split; [reflexivity|]. apply gru_mix; [|exact Hs|].
  - apply firstn_Forall, map_Forall. apply sigmoid_range.
  - apply map_Forall. apply tanh_range.
Qed.
(** GRU: started within [-1,1], every output (which is also the next state) lies strictly between -1 and 1. *)
Theorem C57_gru n w_i w_h b xs s : Forall (fun v => Rabs v <= 1) s ->
  forall t, (t < length xs)%nat -> let r := nth t (run_cell (gru n w_i w_h b) xs s) ([], []) in
  fst r = snd r /\ Forall (fun v => Rabs v < 1) (fst r).
Proof.
  revert s. induction xs as [|x xs IH]; intros s Hs t Ht; cbn [length] in Ht; [lia|]. cbn [run_cell].
  destruct (gru_step n w_i w_h b x s Hs) as (E & A). cbv zeta in E, A. destruct (gru n w_i w_h b x s) as [o s']. cbn [fst snd] in E, A. subst o.
  destruct t as [|t]; cbn [nth fst snd]; [auto|]. apply IH; [|lia]. eapply Forall_impl; [|exact A]. cbv beta. intros; lra.
Qed.
(** The start matters: from a state outside [-1,1] the output can stay outside. *)
Theorem C57_gru_start_refuted : ~ (forall n w_i w_h b x s, Forall (fun v => Rabs v < 1) (fst (gru n w_i w_h b x s))).
Proof.
  intros H. specialize (H 1%nat [[0;0;0]] [[0;0;0]] [0;0;0] [0] [4]).
  assert (E : fst (gru 1 [[0;0;0]] [[0;0;0]] [0;0;0] [0] [4]) = [2]).
  { unfold gru, matmul, dot, column, zipw, Rsum. cbn. unfold sigmoid, tanh. 
    replace (- (0 * 0 + 0 + (4 * 0 + 0) + 0)) with 0 by lra. rewrite exp_0.
    match goal with |- context [(exp ?u - exp (- ?u)) / _] => replace u with 0 by lra end. rewrite Ropp_0, exp_0. f_equal. lra. }
  rewrite E in H. inversion H as [|? ? Hh]; subst. rewrite Rabs_right in Hh by lra. lra.
Qed.
(** VanillaRNN: outputs are the next state and never negative, and unlike the gated cells unbounded: with unit weights the state is the
    running sum of non-negative inputs. *)
Theorem C57_vanilla n w_i w_h b_i b_h xs s :
  forall t, (t < length xs)%nat -> let r := nth t (run_cell (vanilla n w_i w_h b_i b_h) xs s) ([], []) in
  fst r = snd r /\ Forall (fun v => 0 <= v) (fst r).
Proof.
  revert s. induction xs as [|x xs IH]; intros s t Ht; cbn [length] in Ht; [lia|]. cbn [run_cell]. destruct t as [|t]; cbn [nth].
  - unfold vanilla. cbn [fst snd]. split; [reflexivity|]. apply map_Forall. intros a. apply Rmax_r.
  - apply IH. lia.
Qed.
Theorem C57_vanilla_unbounded (M : R) : exists xs, Forall (fun v => M < v) (fst (last (run_cell (vanilla 1 [[1]] [[1]] [0] None) xs [0]) ([], []))) /\
  Forall (Forall (fun v => v = 1)) xs /\ fst (last (run_cell (vanilla 1 [[1]] [[1]] [0] None) xs [0]) ([], [])) <> [].
Proof.
  assert (St : forall s, 0 <= s -> vanilla 1 [[1]] [[1]] [0] None [1] [s] = ([s + 1], [s + 1])).
  { intros s Hs. unfold vanilla, affine, matmul, dot, column, zipw, Rsum, relu. cbn. rewrite Rmax_left by lra. f_equal; f_equal; lra. }
  assert (G : forall k s, 0 <= s -> last (run_cell (vanilla 1 [[1]] [[1]] [0] None) (repeat [1] (S k)) [s]) ([], []) = ([s + INR (S k)], [s + INR (S k)])).
  { induction k as [|k IH]; intros s Hs.
    - cbn [repeat run_cell]. rewrite St by assumption. reflexivity.
    - change (repeat [1] (S (S k))) with ([1] :: repeat [1] (S k)). cbn [run_cell]. rewrite St by assumption. cbn [snd].
      transitivity (last (run_cell (vanilla 1 [[1]] [[1]] [0] None) (repeat [1] (S k)) [s + 1]) ([], [])); [reflexivity|].
      rewrite IH by lra. rewrite (S_INR (S k)). f_equal; f_equal; lra. }
  assert (exists k, M < INR k) as [k Hk].
  { exists (Z.to_nat (up M)). rewrite INR_IZR_INZ. destruct (archimed M) as [Hu _]. assert (IZR (up M) <= IZR (Z.of_nat (Z.to_nat (up M)))) by (apply IZR_le; lia). lra. }
  exists (repeat [1] (S k)). rewrite G by lra. cbn [fst]. split; [|split].
  - constructor; [|constructor]. rewrite S_INR. lra.
  - apply Forall_forall. intros y Hy. apply repeat_spec in Hy. subst. repeat constructor.
  - discriminate.
Qed.
(** One GRU step of size 1 from state 1 with zero weights: half of the state. *)
Example C57_values : fst (gru 1 [[0;0;0]] [[0;0;0]] [0;0;0] [0] [1]) = [1/2].
Proof.
  unfold gru, matmul, dot, column, zipw, Rsum. cbn. unfold sigmoid, tanh.
  replace (- (0 * 0 + 0 + (1 * 0 + 0) + 0)) with 0 by lra. rewrite exp_0.
  match goal with |- context [(exp ?u - exp (- ?u)) / _] => replace u with 0 by lra end. rewrite Ropp_0, exp_0. f_equal. lra.
Qed.

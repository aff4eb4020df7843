(** C40-C46, C63: padding, convolution, pooling, bias, reshape, BatchApply and GroupNorm
    index arithmetic. *)
From Coq Require Import ZArith List Bool Lia.
From Verif Require Import ModelShape ProofsShape.
Import ListNotations.
Local Open Scope Z_scope.

(** ** C40: padding functions *)

(** Output sizes of a stride-1 convolution with effective kernel size [ek]. *)
Theorem C40_sizes n ek : 0 <= n -> 1 <= ek ->
  (let '(lo, hi) := pad_valid ek in window_count n lo hi ek 1 = Z.max 0 (n - ek + 1)) /\
  (let '(lo, hi) := pad_same ek in window_count n lo hi ek 1 = n) /\
  (let '(lo, hi) := pad_full ek in window_count n lo hi ek 1 = n + ek - 1) /\
  (let '(lo, hi) := pad_causal ek in window_count n lo hi ek 1 = n) /\
  (let '(lo, hi) := pad_reverse_causal ek in window_count n lo hi ek 1 = n).
Proof.
  intros Hn Hk. pose proof (same_total ek) as H. cbn in H.
  unfold pad_valid, pad_same, pad_full, pad_causal, pad_reverse_causal, window_count. rewrite !Z.div_1_r. repeat split; lia.
Qed.
Print Assumptions C40_sizes.

(** With a stride, [same] gives the size of "SAME" padding, ceil(n / stride); with
    stride 1 it is exactly "SAME" padding. *)
Theorem C40_same_strided n ek s : 1 <= n -> 1 <= ek -> 1 <= s ->
  (let '(lo, hi) := pad_same ek in window_count n lo hi ek s = (n + s - 1) / s) /\
  (let '(lo, hi) := lax_pads PtSame n ek s in window_count n lo hi ek s = (n + s - 1) / s) /\
  pad_same ek = lax_pads PtSame n ek 1.
Proof.
  intros Hn Hk Hs. pose proof (same_total ek) as H. cbn in H. split; [|split].
  - cbn. unfold window_count. replace (n + (ek - 1) / 2 + ek / 2 - ek) with (n - 1) by lia.
    rewrite <- ceil_pred by lia. assert (0 <= (n - 1) / s) by (apply Z.div_pos; lia). lia.
  - apply lax_same_count; lia.
  - unfold lax_pads, pad_same. rewrite Z.div_1_r.
    replace (Z.max 0 ((n + 1 - 1 - 1) * 1 + ek - n)) with (ek - 1) by lia. f_equal. lia.
Qed.
Print Assumptions C40_same_strided.
Example C40_sizes_case : map (fun f => window_count 10 (fst (f 5)) (snd (f 5)) 5 1)
  [pad_valid; pad_same; pad_full; pad_causal; pad_reverse_causal] = [6; 10; 14; 10; 10] /\
  window_count 10 2 2 5 3 = 4 /\ lax_pads PtSame 10 5 3 = (2, 2) /\ lax_pads PtSame 10 2 3 = (0, 1).
Proof. now vm_compute. Qed.

(** [causal]: output [t] is computed from inputs 0 .. t*stride, whatever is computed
    from a window (any weights, channels, other axes, bias, mask). *)
Theorem C40_causal {A B} (F : list (option A) -> B) x x' (k : nat) rate (stride t : nat) :
  let '(lo, hi) := pad_causal (effective (Z.of_nat k) rate) in
  (1 <= k)%nat -> 1 <= rate -> length x = length x' ->
  (forall i, (i <= t * stride)%nat -> nth_error x i = nth_error x' i) ->
  nth_error (conv1d F x k rate (Z.of_nat stride) lo hi) t = nth_error (conv1d F x' k rate (Z.of_nat stride) lo hi) t.
Proof.
  cbn. intros Hk Hr L H. rewrite !conv1d_nth, L. erewrite window_same; [reflexivity|assumption|].
  intros j i Hj -> Hi. apply H. unfold effective in *. nia.
Qed.
Print Assumptions C40_causal.
Theorem C40_reverse_causal {A B} (F : list (option A) -> B) x x' (k : nat) rate (stride t : nat) :
  let '(lo, hi) := pad_reverse_causal (effective (Z.of_nat k) rate) in
  1 <= rate -> length x = length x' ->
  (forall i, (t * stride <= i)%nat -> nth_error x i = nth_error x' i) ->
  nth_error (conv1d F x k rate (Z.of_nat stride) lo hi) t = nth_error (conv1d F x' k rate (Z.of_nat stride) lo hi) t.
Proof.
  cbn. intros Hr L H. rewrite !conv1d_nth, L. erewrite window_same; [reflexivity|assumption|].
  intros j i Hj -> Hi. apply H. nia.
Qed.
Print Assumptions C40_reverse_causal.
(** The bound is sharp: the last (first) kernel element of output [t] meets input
    [t] itself. *)
Theorem C40_causal_sharp {A} (x : list A) (k : nat) rate t a : (1 <= k)%nat -> nth_error x t = Some a ->
  nth_error (window x k rate 1 (fst (pad_causal (effective (Z.of_nat k) rate))) t) (k - 1) = Some (Some a) /\
  nth_error (window x k rate 1 (fst (pad_reverse_causal (effective (Z.of_nat k) rate))) t) 0 = Some (Some a).
Proof.
  intros Hk Ha. assert (Ht : (t < length x)%nat) by (apply nth_error_Some; congruence).
  rewrite !window_nth by lia. cbn [fst pad_causal pad_reverse_causal]. unfold effective.
  replace (Z.of_nat t * 1 + Z.of_nat (k - 1) * rate - ((Z.of_nat k - 1) * rate + 1 - 1)) with (Z.of_nat t)
    by (rewrite Nat2Z.inj_sub by lia; ring).
  replace (Z.of_nat t * 1 + Z.of_nat 0 * rate - 0) with (Z.of_nat t) by lia.
  unfold at_pad. rewrite (proj2 (Z.leb_le _ _)) by lia. rewrite (proj2 (Z.ltb_lt _ _)) by lia. cbn [andb].
  rewrite Nat2Z.id, Ha. auto.
Qed.
Print Assumptions C40_causal_sharp.
Example C40_causal_case :
  let '(lo, hi) := pad_causal (effective 3 2) in
  conv1d (fun w => w) [10; 11; 12; 13; 14; 15] 3 2 1 lo hi =
  [ [None; None; Some 10]; [None; None; Some 11]; [None; Some 10; Some 12];
    [None; Some 11; Some 13]; [Some 10; Some 12; Some 14]; [Some 11; Some 13; Some 15] ].
Proof. now vm_compute. Qed.
(** The other paddings do look at later inputs. *)
Example C40_same_not_causal : exists x x' : list Z,
  length x = length x' /\ nth_error x 0 = nth_error x' 0 /\
  let '(lo, hi) := pad_same (effective 3 1) in
  nth_error (conv1d (fun w => w) x 3 1 1 lo hi) 0 <> nth_error (conv1d (fun w => w) x' 3 1 1 lo hi) 0.
Proof. exists [0; 0], [0; 1]. repeat split. vm_compute. discriminate. Qed.

(** [create]: one padding per axis, each from its own function, kernel and rate. *)
Theorem C40_create padding kernel rate n : 
  (forall l, pad_create padding kernel rate n = Some l ->
     length l = n /\ forall i, (i < n)%nat -> exists f k r,
       entry padding i = Some (PadFn f) /\ entry kernel i = Some k /\ entry rate i = Some r /\
       nth_error l i = Some (f ((k - 1) * r + 1))) /\
  ((exists l, pad_create padding kernel rate n = Some l) <->
   fits padding n /\ fits kernel n /\ fits rate n /\
   forall i, (i < n)%nat -> exists f, entry padding i = Some (PadFn f)).
Proof.
  unfold pad_create.
  pose proof (replicate_fits kernel n) as FK. pose proof (replicate_fits rate n) as FR. pose proof (replicate_fits padding n) as FP.
  destruct (replicate kernel n) as [ks|] eqn:EK; [|split; [discriminate|]; split; [intros [l H]; discriminate H|];
    intros (_ & H & _); apply FK in H as [? H]; discriminate H].
  destruct (replicate rate n) as [rs|] eqn:ER; [|split; [discriminate|]; split; [intros [l H]; discriminate H|];
    intros (_ & _ & H & _); apply FR in H as [? H]; discriminate H].
  destruct (replicate padding n) as [ps|] eqn:EP; [|split; [discriminate|]; split; [intros [l H]; discriminate H|];
    intros (H & _); apply FP in H as [? H]; discriminate H].
  apply replicate_spec in EK as [LK EK]. apply replicate_spec in ER as [LR ER]. apply replicate_spec in EP as [LP EP].
  assert (N : forall i, (i < n)%nat -> exists p k r, entry padding i = Some p /\ entry kernel i = Some k /\ entry rate i = Some r /\
            nth_error (map2 call_pad ps (map2 effective ks rs)) i = Some (call_pad p ((k - 1) * r + 1))).
  { intros i Hi.
    destruct (nth_error ks i) as [k|] eqn:Ek; [|apply nth_error_None in Ek; lia].
    destruct (nth_error rs i) as [r|] eqn:Er; [|apply nth_error_None in Er; lia].
    destruct (nth_error ps i) as [p|] eqn:Ep; [|apply nth_error_None in Ep; lia].
    exists p, k, r. rewrite <- EK, <- ER, <- EP by assumption. repeat split; try assumption.
    apply map2_nth; [assumption|]. exact (map2_nth effective _ _ _ _ _ Ek Er). }
  assert (L : length (map2 call_pad ps (map2 effective ks rs)) = n) by (rewrite !map2_length; lia).
  split.
  - intros l H. apply all_some_Some in H. split.
    + rewrite <- L, H. now rewrite map_length.
    + intros i Hi. destruct (N i Hi) as (p & k & r & H1 & H2 & H3 & H4). rewrite H in H4. rewrite nth_error_map in H4.
      destruct (nth_error l i) as [x|]; [|discriminate]. cbn in H4. injection H4 as H4.
      destruct p as [f|]; [|discriminate]. cbn in H4. injection H4 as ->. exists f, k, r. auto.
  - split.
    + intros [l H]. apply all_some_Some in H. repeat split; try (apply FK; eauto); try (apply FR; eauto); try (apply FP; eauto).
      intros i Hi. destruct (N i Hi) as (p & k & r & H1 & H2 & H3 & H4). rewrite H in H4. rewrite nth_error_map in H4.
      destruct (nth_error l i) as [x|]; [|discriminate]. cbn in H4. injection H4 as H4.
      destruct p as [f|]; [|discriminate]. eauto.
    + intros (_ & _ & _ & H). assert (H' : forall i, (i < n)%nat -> exists x, nth_error (map2 call_pad ps (map2 effective ks rs)) i = Some (Some x)).
      { intros i Hi. destruct (N i Hi) as (p & k & r & H1 & H2 & H3 & H4). destruct (H i Hi) as [f Hf].
        rewrite H1 in Hf. injection Hf as ->. eauto. }
      clear - L H'. revert n L H'. generalize (map2 call_pad ps (map2 effective ks rs)) as l.
      induction l as [|o l IH]; intros n L H; [cbn; eauto|]. destruct n as [|n]; [discriminate|]. cbn in L.
      destruct (H 0%nat ltac:(lia)) as [x Hx]. injection Hx as ->.
      destruct (IH n ltac:(lia)) as [l' E]; [|cbn; rewrite E; eauto].
      intros i Hi. apply (H (S i)). lia.
Qed.
Print Assumptions C40_create.
Example C40_create_case :
  pad_create (Sequence [PadFn pad_causal; PadFn pad_full]) (Scalar 3) (Sequence [1; 2]) 2 = Some [(2, 0); (4, 4)].
Proof. reflexivity. Qed.
(** Explicit (low, high) pairs, which the documentation of [ConvND] allows, are rejected:
    [create] calls every entry as a function. *)
Theorem C40_pairs_refuted :
  ~ (forall pairs n, length pairs = n -> (0 < n)%nat ->
       pad_create (Sequence (map (fun p => PadPair (fst p) (snd p)) pairs)) (Scalar 3) (Scalar 1) n = Some pairs).
Proof. intros H. specialize (H [(1, 1); (2, 2)] 2%nat eq_refl ltac:(lia)). discriminate H. Qed.
Print Assumptions C40_pairs_refuted.

(** ** C63: shapes of [ConvND] *)

(** Batched input, channels last: batch and rank are kept, the channels become
    [output_channels], and each spatial axis has its own window count. *)
Theorem C63_channels_last c batch ns ch : cv_last c = true -> length ns = cv_spatial c ->
  length (cv_kernel c) = cv_spatial c -> length (cv_stride c) = cv_spatial c -> length (cv_rate c) = cv_spatial c ->
  (forall l, cv_padding c = inr l -> length l = cv_spatial c) -> cv_groups c <> 0 ->
  ch mod cv_groups c = 0 -> cv_out c mod cv_groups c = 0 ->
  let pads := match cv_padding c with inl t => string_pads t ns (cv_kernel c) (cv_rate c) (cv_stride c) | inr l => l end in
  let sizes := out_sizes ns pads (cv_kernel c) (cv_rate c) (cv_stride c) in
  length sizes = cv_spatial c /\
  conv_call c (batch :: ns ++ [ch]) =
    Some (cv_kernel c ++ [ch / cv_groups c; cv_out c], [cv_out c], batch :: sizes ++ [cv_out c]) /\
  (batch = 1 -> conv_call c (ns ++ [ch]) =
    Some (cv_kernel c ++ [ch / cv_groups c; cv_out c], [cv_out c], sizes ++ [cv_out c])).
Proof.
  intros CL LN LK LS LR LP G0 GC GO pads sizes.
  assert (Lpads : length pads = length ns).
  { unfold pads. destruct (cv_padding c) as [t|l]; [apply string_pads_length; congruence|]. rewrite LN. now apply LP. }
  assert (Lsizes : length sizes = cv_spatial c) by (unfold sizes; rewrite out_sizes_length; congruence).
  split; [assumption|].
  assert (M : forall b, lax_conv_shape (b :: ns ++ [ch]) (cv_kernel c ++ [ch / cv_groups c; cv_out c])
              (to_dimension_numbers (cv_spatial c) true false) pads (cv_stride c) (cv_rate c) (cv_groups c)
            = Some (b :: sizes ++ [cv_out c])).
  { intros b. unfold lax_conv_shape, to_dimension_numbers. cbn [lhs_spec rhs_spec out_spec].
    replace (cv_spatial c + 2 - 1)%nat with (cv_spatial c + 1)%nat by lia.
    replace (cv_spatial c + 2 - 2)%nat with (cv_spatial c) by lia.
    rewrite <- LN at 1 2. rewrite read_image_last. rewrite <- LK at 1 2 3. rewrite read_kernel.
    fold sizes.
    assert (E : ch =? ch / cv_groups c * cv_groups c = true).
    { apply Z.eqb_eq. pose proof (Z.div_mod ch (cv_groups c) G0). lia. }
    rewrite E, GO. cbn [Z.eqb andb]. now rewrite write_last by assumption. }
  assert (B : forall b, broadcast_to [cv_out c] (b :: sizes ++ [cv_out c]) = true).
  { intros b. unfold broadcast_to. cbn [rev]. rewrite rev_app_distr. cbn. rewrite Z.eqb_refl, orb_true_r. reflexivity. }
  assert (S1 : forall b, spatial_of true (b :: ns ++ [ch]) = ns) by (intros b; unfold spatial_of; cbn [tl]; apply removelast_snoc).
  assert (C1 : forall b, channel_of true (b :: ns ++ [ch]) = ch).
  { intros b. unfold channel_of. rewrite app_comm_cons. apply last_app. }
  split.
  - unfold conv_call. replace (length (batch :: ns ++ [ch])) with (S (S (cv_spatial c))) by (cbn; rewrite app_length; cbn; lia).
    assert (U : Nat.eqb (S (S (cv_spatial c))) (S (cv_spatial c)) = false) by (apply Nat.eqb_neq; lia).
    rewrite U, Nat.eqb_refl, CL. cbn [orb negb]. rewrite C1, GC, S1. cbn [Z.eqb negb].
    fold pads. rewrite M, B. reflexivity.
  - intros ->. unfold conv_call. replace (length (ns ++ [ch])) with (S (cv_spatial c)) by (rewrite app_length; cbn; lia).
    rewrite Nat.eqb_refl, CL. cbn [orb negb]. rewrite C1, GC, S1. cbn [Z.eqb negb].
    fold pads. rewrite M, B. reflexivity.
Qed.
Print Assumptions C63_channels_last.
Theorem C63_channels_first c batch ns ch : cv_last c = false -> length ns = cv_spatial c ->
  length (cv_kernel c) = cv_spatial c -> length (cv_stride c) = cv_spatial c -> length (cv_rate c) = cv_spatial c ->
  (forall l, cv_padding c = inr l -> length l = cv_spatial c) -> cv_groups c <> 0 ->
  ch mod cv_groups c = 0 -> cv_out c mod cv_groups c = 0 ->
  let pads := match cv_padding c with inl t => string_pads t ns (cv_kernel c) (cv_rate c) (cv_stride c) | inr l => l end in
  let sizes := out_sizes ns pads (cv_kernel c) (cv_rate c) (cv_stride c) in
  length sizes = cv_spatial c /\
  conv_call c (batch :: ch :: ns) =
    Some (cv_kernel c ++ [ch / cv_groups c; cv_out c], cv_out c :: repeat 1 (cv_spatial c), batch :: cv_out c :: sizes) /\
  (batch = 1 -> conv_call c (ch :: ns) =
    Some (cv_kernel c ++ [ch / cv_groups c; cv_out c], cv_out c :: repeat 1 (cv_spatial c), cv_out c :: sizes)).
Proof.
  intros CL LN LK LS LR LP G0 GC GO pads sizes.
  assert (Lpads : length pads = length ns).
  { unfold pads. destruct (cv_padding c) as [t|l]; [apply string_pads_length; congruence|]. rewrite LN. now apply LP. }
  assert (Lsizes : length sizes = cv_spatial c) by (unfold sizes; rewrite out_sizes_length; congruence).
  split; [assumption|].
  assert (M : forall b, lax_conv_shape (b :: ch :: ns) (cv_kernel c ++ [ch / cv_groups c; cv_out c])
              (to_dimension_numbers (cv_spatial c) false false) pads (cv_stride c) (cv_rate c) (cv_groups c)
            = Some (b :: cv_out c :: sizes)).
  { intros b. unfold lax_conv_shape, to_dimension_numbers. cbn [lhs_spec rhs_spec out_spec].
    replace (cv_spatial c + 2 - 1)%nat with (cv_spatial c + 1)%nat by lia.
    replace (cv_spatial c + 2 - 2)%nat with (cv_spatial c) by lia.
    rewrite <- LN at 1. rewrite read_image_first. rewrite <- LK at 1 2 3. rewrite read_kernel.
    fold sizes.
    assert (E : ch =? ch / cv_groups c * cv_groups c = true).
    { apply Z.eqb_eq. pose proof (Z.div_mod ch (cv_groups c) G0). lia. }
    rewrite E, GO. cbn [Z.eqb andb]. now rewrite write_first by assumption. }
  assert (B : forall b, broadcast_to (cv_out c :: repeat 1 (cv_spatial c)) (b :: cv_out c :: sizes) = true).
  { intros b. apply (broadcast_to_app [b]). rewrite broadcast_cons by (rewrite repeat_length; congruence).
    rewrite broadcast_ones by assumption. rewrite Z.eqb_refl, orb_true_r. reflexivity. }
  split.
  - unfold conv_call. replace (length (batch :: ch :: ns)) with (S (S (cv_spatial c))) by (cbn; lia).
    assert (U : Nat.eqb (S (S (cv_spatial c))) (S (cv_spatial c)) = false) by (apply Nat.eqb_neq; lia).
    rewrite U, Nat.eqb_refl, CL. cbn [orb negb channel_of spatial_of nth tl]. rewrite GC. cbn [Z.eqb negb].
    fold pads. rewrite M, B. reflexivity.
  - intros ->. unfold conv_call. replace (length (ch :: ns)) with (S (cv_spatial c)) by (cbn; lia).
    rewrite Nat.eqb_refl, CL. cbn [orb negb channel_of spatial_of nth tl]. rewrite GC. cbn [Z.eqb negb].
    fold pads. rewrite M, B. reflexivity.
Qed.
Print Assumptions C63_channels_first.
Example C63_case :
  conv_call (ConvND 2 16 [3; 3] [2; 1] [1; 2] (inl PtSame) true 1) [8; 32; 31; 3] = Some ([3; 3; 3; 16], [16], [8; 16; 31; 16]) /\
  conv_call (ConvND 2 16 [3; 3] [2; 1] [1; 2] (inr [(0, 0); (0, 0)]) false 2) [8; 6; 32; 31] = Some ([3; 3; 3; 16], [16; 1; 1], [8; 16; 15; 27]).
Proof. now vm_compute. Qed.

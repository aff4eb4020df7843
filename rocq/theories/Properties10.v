(** C41-C46: transposed convolution, pooling, bias, reshape, BatchApply, GroupNorm. *)
From Coq Require Import ZArith List Bool Lia.
From Verif Require Import ModelShape ProofsShape.
Import ListNotations.
Local Open Scope Z_scope.

(** ** C41: transposed convolution with a given output size *)

Theorem C41_size i o k s p d lo hi : 1 <= i -> 0 <= o -> 1 <= s ->
  compute_adjusted_padding i o k s p d = Some (lo, hi) ->
  conv_transpose_size i lo hi (effective k d) s = o.
Proof.
  unfold compute_adjusted_padding, conv_transpose_size, window_count, dilate, effective. intros Hi Ho Hs.
  destruct (negb _); [discriminate|]. intros [= <- <-]. rewrite Z.div_1_r.
  destruct (Z.eqb_spec i 0); [lia|]. lia.
Qed.
Print Assumptions C41_size.

(** The input sizes accepted are exactly the output sizes of the forward convolution
    (with the same kernel, stride, dilation and string padding) of an array of size [o]. *)
Theorem C41_accepts i o k s p d : 1 <= s -> 1 <= k -> 1 <= d -> 0 <= i -> 1 <= o -> (p = PtValid -> effective k d <= o) ->
  (exists pads, compute_adjusted_padding i o k s p d = Some pads) <->
  i = (let '(lo, hi) := lax_pads p o (effective k d) s in window_count o lo hi (effective k d) s).
Proof.
  intros Hs Hk Hd Hi Ho Hv. assert (He : 1 <= effective k d) by (apply effective_pos; lia).
  assert (E : (let '(lo, hi) := lax_pads p o (effective k d) s in window_count o lo hi (effective k d) s)
              = match p with PtValid => (o - effective k d + s) / s | PtSame => (o + s - 1) / s end).
  { destruct p.
    - apply lax_same_count; lia.
    - cbn. unfold window_count. specialize (Hv eq_refl).
      replace (o + 0 + 0 - effective k d) with (o - effective k d) by lia.
      replace (o - effective k d + s) with (o - effective k d + 1 * s) by lia. rewrite Z.div_add by lia.
      assert (0 <= (o - effective k d) / s) by (apply Z.div_pos; lia). lia. }
  rewrite E. unfold compute_adjusted_padding. fold (effective k d).
  destruct (Z.eqb_spec i (match p with PtSame => (o + s - 1) / s | PtValid => (o - effective k d + s) / s end)) as [H|H]; cbn [negb].
  - split; [intros _; destruct p; assumption|eauto].
  - split; [intros [? ?]; discriminate|]. intros ->. exfalso. apply H. now destruct p.
Qed.
Print Assumptions C41_accepts.

(** It is the transpose of that forward convolution with the kernel flipped: input [i]
    and output [o] are combined through kernel element [j] exactly when the forward
    convolution combines its input [o] and output [i] through element [k-1-j]. *)
Theorem C41_transpose i0 o0 k s p lo hi i o j : 1 <= s -> 1 <= k -> 1 <= o0 -> 1 <= i0 ->
  compute_adjusted_padding i0 o0 k s p 1 = Some (lo, hi) -> 0 <= i < i0 -> 0 <= o < o0 ->
  (conv_transpose_tap i0 k s lo i o j <-> conv_tap o0 k s (fst (lax_pads p o0 k s)) o i (k - 1 - j)).
Proof.
  intros Hs Hk Ho Hi0. unfold compute_adjusted_padding. 
  replace ((k - 1) * 1 + 1) with k by lia.
  set (expected := match p with PtSame => _ | PtValid => _ end).
  destruct (Z.eqb_spec i0 expected) as [E|]; cbn [negb]; [|discriminate].
  intros [= <- _] Hi Ho'. unfold conv_transpose_tap, conv_tap.
  assert (F : fst (lax_pads p o0 k s) = match p with PtSame => Z.max 0 ((i0 - 1) * s + k - o0) / 2 | PtValid => 0 end).
  { destruct p; [|reflexivity]. cbn. unfold expected in E. now rewrite <- E. }
  rewrite F. set (before := match p with PtSame => _ | PtValid => _ end). lia.
Qed.
Print Assumptions C41_transpose.
Example C41_case : compute_adjusted_padding 4 8 3 2 PtSame 1 = Some (2, 1) /\
  conv_transpose_size 4 2 1 3 2 = 8 /\ compute_adjusted_padding 4 8 3 2 PtValid 1 = None /\
  compute_adjusted_padding 3 8 3 2 PtValid 1 = Some (2, 3).
Proof. now vm_compute. Qed.
(** An empty axis: the accepted size is not delivered. *)
Theorem C41_empty_refuted :
  ~ (forall i o k s p lo hi, 0 <= i -> 1 <= o -> 1 <= k -> 1 <= s ->
       compute_adjusted_padding i o k s p 1 = Some (lo, hi) -> conv_transpose_size i lo hi k s = o).
Proof. intros H. specialize (H 0 2 3 2 PtValid 2 3 ltac:(lia) ltac:(lia) ltac:(lia) ltac:(lia) eq_refl). vm_compute in H. discriminate H. Qed.
Print Assumptions C41_empty_refuted.

(** ** C42: pooling windows *)

(** One entry per axis; integers leave batch and channels alone. [a] is the channel axis
    counted from the front. *)
Theorem C42_infer_shape ndim size channel_axis l : (1 <= ndim)%nat ->
  pool_infer_shape ndim size channel_axis = Some l ->
  length l = ndim /\
  match size with
  | inl k => nth_error l 0 = Some 1 /\ forall d, (1 <= d < ndim)%nat ->
      nth_error l d = Some (if match channel_axis with
                               | None => false
                               | Some a => (Z.of_nat d =? a) || (Z.of_nat d - Z.of_nat ndim =? a)
                               end then 1 else k)
  | inr s => exists ones, l = repeat 1 ones ++ s
  end.
Proof.
  intros Hn. unfold pool_infer_shape. destruct size as [k|s].
  - assert (G : forall f, length (1 :: map f (seq 1 (ndim - 1))) = ndim /\ nth_error (1 :: map f (seq 1 (ndim - 1))) 0 = Some 1 /\
              forall d, (1 <= d < ndim)%nat -> nth_error (1 :: map f (seq 1 (ndim - 1))) d = Some (f d)).
    { intros f. split; [cbn; rewrite map_length, seq_length; lia|]. split; [reflexivity|].
      intros [|d] Hd; [lia|]. cbn [nth_error]. rewrite map_seq_shift, nth_error_map_seq.
      rewrite (proj2 (Nat.ltb_lt _ _)) by lia. reflexivity. }
    destruct channel_axis as [a|].
    + destruct (negb (a =? 0) && negb (Z.abs a <? Z.of_nat ndim)) eqn:E; [discriminate|]. intros [= <-].
      destruct (G (fun d => if Z.of_nat d =? (if a <? 0 then Z.of_nat ndim + a else a) then 1 else k)) as (G1 & G2 & G3).
      split; [exact G1|]. split; [exact G2|]. intros d Hd. rewrite G3 by assumption. f_equal.
      destruct (Z.ltb_spec a 0).
      * destruct (Z.eqb_spec (Z.of_nat d) (Z.of_nat ndim + a)), (Z.eqb_spec (Z.of_nat d) a), (Z.eqb_spec (Z.of_nat d - Z.of_nat ndim) a); cbn; try reflexivity; lia.
      * destruct (Z.eqb_spec (Z.of_nat d) a), (Z.eqb_spec (Z.of_nat d - Z.of_nat ndim) a); cbn; try reflexivity; lia.
    + intros [= <-]. destruct (G (fun _ => k)) as (G1 & G2 & G3). auto.
  - destruct (Nat.ltb_spec (length s) ndim).
    + intros [= <-]. split; [rewrite app_length, repeat_length; lia|]. eauto.
    + destruct (Nat.eqb_spec ndim (length s)); [|discriminate]. intros [= <-]. split; [congruence|]. now exists 0%nat.
Qed.
Print Assumptions C42_infer_shape.
(** What is rejected. *)
Theorem C42_rejected ndim size channel_axis : (1 <= ndim)%nat ->
  pool_infer_shape ndim size channel_axis = None <->
  match size with
  | inl _ => exists a, channel_axis = Some a /\ (a <= - Z.of_nat ndim \/ Z.of_nat ndim <= a)
  | inr s => (ndim < length s)%nat
  end.
Proof.
  intros Hn. unfold pool_infer_shape. destruct size as [k|s].
  - destruct channel_axis as [a|]; [|split; [discriminate|intros (? & ? & _); discriminate]].
    assert (X : (exists b, Some a = Some b /\ (b <= - Z.of_nat ndim \/ Z.of_nat ndim <= b)) <-> (a <= - Z.of_nat ndim \/ Z.of_nat ndim <= a)).
    { split; [intros (b & H & Hb); injection H as <-; exact Hb|eauto]. }
    rewrite X. destruct (Z.eqb_spec a 0) as [|N]; cbn [negb andb]; [split; [discriminate|lia]|].
    destruct (Z.ltb_spec (Z.abs a) (Z.of_nat ndim)); cbn [negb]; (split; [intros H'; try discriminate H'; lia|intros; try reflexivity; lia]).
  - destruct (Nat.ltb_spec (length s) ndim); [split; [discriminate|lia]|].
    destruct (Nat.eqb_spec ndim (length s)); split; try discriminate; try lia. reflexivity.
Qed.
Print Assumptions C42_rejected.
Example C42_case : pool_infer_shape 4 (inl 3) (Some (-1)) = Some [1; 3; 3; 1] /\ pool_infer_shape 4 (inl 3) (Some 1) = Some [1; 1; 3; 3] /\
  pool_infer_shape 4 (inl 3) None = Some [1; 3; 3; 3] /\ pool_infer_shape 4 (inr [2; 2; 1]) None = Some [1; 2; 2; 1].
Proof. now vm_compute. Qed.

(** A channel axis of 0 means "no channel axis": every axis but the first is pooled, also
    with the channels in front (an unbatched channels-first image). *)
Theorem C42_axis_zero_refuted :
  ~ (forall ndim k a l, (2 <= ndim)%nat -> - Z.of_nat ndim <= a < Z.of_nat ndim -> pool_infer_shape ndim (inl k) (Some a) = Some l ->
       (length (filter (Z.eqb k) l) = ndim - 2)%nat).
Proof. intros H. specialize (H 3%nat 2 0 [1; 2; 2] ltac:(lia) ltac:(lia) eq_refl). discriminate H. Qed.
Print Assumptions C42_axis_zero_refuted.
(** An axis that numpy would accept, [-ndim], is rejected although [0] is accepted. *)
Theorem C42_minus_ndim_refuted :
  ~ (forall ndim k a, (1 <= ndim)%nat -> - Z.of_nat ndim <= a < Z.of_nat ndim -> pool_infer_shape ndim (inl k) (Some a) <> None).
Proof. intros H. now apply (H 3%nat 2 (-3) ltac:(lia) ltac:(lia)). Qed.
Print Assumptions C42_minus_ndim_refuted.

(** Values: with VALID padding no window touches padding; with SAME padding every window
    contains at least one element (so [avg_pool] never divides by zero, and [max_pool]
    never returns minus infinity for finite inputs), and there are ceil(n / stride)
    windows. *)
Theorem C42_windows {A B} (F : list (option A) -> B) (x : list A) (k : nat) s t : (1 <= k)%nat -> 1 <= s -> (1 <= length x)%nat ->
  let ek := Z.of_nat k in
  (let '(lo, hi) := lax_pads PtValid (Z.of_nat (length x)) ek s in
   (t < length (conv1d F x k 1 s lo hi))%nat -> Forall (fun e => e <> None) (window x k 1 s lo t)) /\
  (let '(lo, hi) := lax_pads PtSame (Z.of_nat (length x)) ek s in
   Z.of_nat (length (conv1d F x k 1 s lo hi)) = (Z.of_nat (length x) + s - 1) / s /\
   ((t < length (conv1d F x k 1 s lo hi))%nat -> Exists (fun e => e <> None) (window x k 1 s lo t))).
Proof.
  intros Hk Hs Hx ek. assert (Ee : effective ek 1 = ek) by (unfold effective; lia).
  assert (Hin : forall i, 0 <= i < Z.of_nat (length x) -> at_pad x i <> None).
  { intros i Hi. unfold at_pad. rewrite (proj2 (Z.leb_le _ _)), (proj2 (Z.ltb_lt _ _)) by lia. cbn. apply nth_error_Some. lia. }
  split.
  - cbn. unfold conv1d. rewrite map_length, seq_length. fold ek. rewrite Ee. intros Ht.
    apply Forall_forall. intros e He. unfold window in He. apply in_map_iff in He as (j & <- & Hj). apply in_seq in Hj.
    apply Hin. unfold window_count in Ht.
    assert (H : Z.of_nat t <= (Z.of_nat (length x) + 0 + 0 - ek) / s) by lia.
    pose proof (Z.mul_div_le (Z.of_nat (length x) + 0 + 0 - ek) s ltac:(lia)). nia.
  - pose proof (lax_same_spec (Z.of_nat (length x)) ek s ltac:(lia) ltac:(lia) ltac:(lia)) as P.
    pose proof (lax_same_count (Z.of_nat (length x)) ek s ltac:(lia) ltac:(lia) ltac:(lia)) as Q.
    destruct (lax_pads PtSame _ ek s) as [lo hi]. cbv zeta in P. destruct P as (P1 & P2 & P3 & P4 & P5 & P6 & P7).
    unfold conv1d. rewrite map_length, seq_length. fold ek. rewrite Ee, Q.
    set (out := (Z.of_nat (length x) + s - 1) / s) in *. split; [lia|]. intros Ht.
    apply Exists_exists.
    set (j := Z.to_nat (Z.max 0 (lo - Z.of_nat t * s))).
    assert (Hj : (j < k)%nat) by (unfold j; nia).
    exists (at_pad x (Z.of_nat t * s + Z.of_nat j * 1 - lo)). split.
    + unfold window. apply in_map_iff. exists j. split; [reflexivity|]. apply in_seq. lia.
    + apply Hin. unfold j. nia.
Qed.
Print Assumptions C42_windows.
Example C42_windows_case : let '(lo, hi) := lax_pads PtSame 5 3 2 in
  conv1d (fun w => w) [0; 1; 2; 3; 4] 3 1 2 lo hi = [[None; Some 0; Some 1]; [Some 1; Some 2; Some 3]; [Some 3; Some 4; None]].
Proof. now vm_compute. Qed.

(** ** C43: bias shapes *)

(** Axis [d] (counted from the front) is among the requested dims. *)
Definition wanted (rank : Z) (dims : option (list Z)) (d : Z) : Prop :=
  match dims with
  | None => True
  | Some l => exists x, In x l /\ (x = d \/ x < 0 /\ x mod rank = d)
  end.

Lemma set_nth_length {A} i (a : A) l : length (set_nth i a l) = length l.
Proof. revert i. induction l as [|b l IH]; intros [|i]; cbn; congruence. Qed.
Lemma set_nth_nth i j a (l : list Z) : (i < length l)%nat -> nth j (set_nth i a l) 0 = if Nat.eqb i j then a else nth j l 0.
Proof.
  revert i j. induction l as [|b l IH]; intros [|i] [|j]; cbn; try lia; try reflexivity. intros H. apply IH. lia.
Qed.

Lemma fill_bias_spec shape dims : (1 <= length shape)%nat -> forall acc out, length acc = length shape -> fill_bias shape dims acc = Some out ->
  length out = length shape /\ nth 0 out 0 = nth 0 acc 0 /\
  forall d, (1 <= d < length shape)%nat ->
    (wanted (Z.of_nat (length shape)) (Some dims) (Z.of_nat d) -> nth d out 0 = nth d shape 0) /\
    (~ wanted (Z.of_nat (length shape)) (Some dims) (Z.of_nat d) -> nth d out 0 = nth d acc 0).
Proof.
  intros Hr. induction dims as [|x dims IH]; intros acc out L; cbn [fill_bias].
  - intros [= <-]. split; [assumption|]. split; [reflexivity|]. intros d Hd. split; [intros (? & [] & _)|reflexivity].
  - set (rank := Z.of_nat (length shape)). set (y := if x <? 0 then x mod rank else x).
    destruct (Z.eqb_spec y 0) as [|Y0]; [discriminate|]. destruct (y >=? rank) eqn:Y1; [discriminate|].
    rewrite Z.geb_leb in Y1. apply Z.leb_gt in Y1. intros E.
    assert (Hy : 0 < y < rank).
    { unfold y in *. destruct (Z.ltb_spec x 0); [|lia].
      pose proof (Z.mod_pos_bound x rank). lia. }
    apply IH in E; [|now rewrite set_nth_length]. destruct E as (E1 & E2 & E3).
    split; [assumption|]. split.
    + rewrite E2, set_nth_nth by lia. destruct (Nat.eqb_spec (Z.to_nat y) 0); [lia|reflexivity].
    + intros d Hd. destruct (E3 d Hd) as [E4 E5].
      assert (Dec : forall l, {wanted rank (Some l) (Z.of_nat d)} + {~ wanted rank (Some l) (Z.of_nat d)}).
      { intros l. assert (H : {Exists (fun x => x = Z.of_nat d \/ x < 0 /\ x mod rank = Z.of_nat d) l} + {~ Exists (fun x => x = Z.of_nat d \/ x < 0 /\ x mod rank = Z.of_nat d) l}).
        { apply Exists_dec. intros z. destruct (Z.eq_dec z (Z.of_nat d)), (Z_lt_dec z 0), (Z.eq_dec (z mod rank) (Z.of_nat d)); tauto. }
        destruct H as [H|H]; [left; now apply Exists_exists in H|right; intros H'; apply H; now apply Exists_exists]. }
      assert (W : Z.of_nat d = y \/ (Z.of_nat d <> y /\ (wanted rank (Some (x :: dims)) (Z.of_nat d) -> wanted rank (Some dims) (Z.of_nat d)))).
      { destruct (Z.eq_dec (Z.of_nat d) y) as [|N]; [now left|]. right. split; [assumption|]. intros (z & [<-|Hz] & Hz').
        - exfalso. unfold y in N. destruct (Z.ltb_spec x 0), Hz'; lia.
        - now exists z. }
      destruct (Dec dims) as [D|D].
      * split; [intros _; now apply E4|]. intros N. exfalso. apply N. destruct D as (z & Hz & Hz'). exists z. split; [now right|assumption].
      * rewrite (E5 D), set_nth_nth by lia. destruct W as [W|(W1 & W2)].
        -- destruct (Nat.eqb_spec (Z.to_nat y) d); [|lia]. split; [intros _; f_equal; lia|].
           intros N. exfalso. apply N. exists x. split; [now left|]. unfold y in W. destruct (Z.ltb_spec x 0); [right; split; [assumption|lia]|left; lia].
        -- destruct (Nat.eqb_spec (Z.to_nat y) d); [lia|]. split; [|reflexivity]. intros Hw. exfalso. now apply D, W2.
Qed.

Lemma strip_ones_spec l : exists k, l = repeat 1 k ++ strip_ones l.
Proof.
  induction l as [|d l [k IH]]; [now exists 0%nat|]. cbn. destruct (Z.eqb_spec d 1) as [->|].
  - exists (S k). cbn. now rewrite <- IH.
  - now exists 0%nat.
Qed.

(** The result fits on the right of the input shape; a requested dim has the input's
    extent (or has been stripped because that extent is 1), the others have extent 1. *)
Theorem C43_bias_shape shape dims s : (1 <= length shape)%nat -> calculate_bias_shape shape dims = Some s ->
  exists off, (1 <= off)%nat /\ (off + length s)%nat = length shape /\
  (forall d, (1 <= d < length shape)%nat -> wanted (Z.of_nat (length shape)) dims (Z.of_nat d) ->
     nth d shape 0 = if Nat.ltb d off then 1 else nth (d - off) s 0) /\
  (forall d, (off <= d < length shape)%nat -> ~ wanted (Z.of_nat (length shape)) dims (Z.of_nat d) -> nth (d - off) s 0 = 1) /\
  broadcast_to s (tl shape) = true /\ broadcast_to s shape = true.
Proof.
  intros Hr. unfold calculate_bias_shape.
  assert (Hsh : exists b ns, shape = b :: ns) by (destruct shape as [|b ns]; [cbn in Hr; lia|eauto]). destruct Hsh as (b & ns & ->).
  assert (BB : broadcast_to [] (tl (b :: ns)) = true /\ broadcast_to [] (b :: ns) = true) by (split; reflexivity).
  destruct dims as [[|x dims]|].
  - intros [= <-]. exists (length (b :: ns)). cbn [length]. split; [lia|]. split; [lia|]. split; [intros d _ (? & [] & _)|].
    split; [lia|]. exact BB.
  - destruct (fill_bias (b :: ns) (x :: dims) (repeat 1 (length (b :: ns)))) as [out|] eqn:E; [|discriminate]. intros [= <-].
    apply fill_bias_spec in E; [|assumption|now rewrite repeat_length]. destruct E as (E1 & E2 & E3).
    destruct out as [|o out]; [discriminate|]. cbn [tl]. destruct (strip_ones_spec out) as [k Hk].
    assert (L : length out = (k + length (strip_ones out))%nat) by (rewrite Hk at 1; rewrite app_length, repeat_length; reflexivity).
    cbn [length] in E1. exists (S k). split; [lia|]. split; [cbn [length]; lia|].
    assert (N : forall d, (1 <= d < length (b :: ns))%nat -> nth d (o :: out) 0 = if Nat.ltb d (S k) then 1 else nth (d - S k) (strip_ones out) 0).
    { intros [|d] Hd; [lia|]. cbn [nth]. rewrite Hk at 1. destruct (Nat.ltb_spec (S d) (S k)) as [H|H].
      - rewrite app_nth1 by (rewrite repeat_length; lia). apply nth_error_nth. apply nth_error_repeat'. lia.
      - rewrite app_nth2 by (rewrite repeat_length; lia). rewrite repeat_length. reflexivity. }
    assert (R1 : forall d, nth d (repeat 1 (length (b :: ns))) 0 = 1 \/ (length (b :: ns) <= d)%nat).
    { intros d. destruct (Nat.lt_ge_cases d (length (b :: ns))); [left|now right]. apply nth_error_nth. now apply nth_error_repeat'. }
    split; [|split].
    + intros d Hd Hw. destruct (E3 d Hd) as [H _]. rewrite <- N by assumption. symmetry. now apply H.
    + intros d Hd Hw. destruct (E3 d ltac:(lia)) as [_ H]. specialize (H Hw). rewrite N in H by lia.
      destruct (Nat.ltb_spec d (S k)); [lia|]. rewrite H. destruct (R1 d); [assumption|lia].
    + assert (B : broadcast_to out ns = true).
      { assert (Hall : forall d, (d < length ns)%nat -> nth d out 0 = 1 \/ nth d out 0 = nth d ns 0).
        { intros d Hd. destruct (E3 (S d) ltac:(cbn [length]; lia)) as [H1 H2]. cbn [nth] in H1, H2.
          destruct (R1 (S d)) as [H|H]; [|cbn [length] in H; lia]. cbn [length repeat nth] in H, H2.
          assert (Dec : {Exists (fun z => z = Z.of_nat (S d) \/ z < 0 /\ z mod Z.of_nat (length (b :: ns)) = Z.of_nat (S d)) (x :: dims)} + {~ Exists (fun z => z = Z.of_nat (S d) \/ z < 0 /\ z mod Z.of_nat (length (b :: ns)) = Z.of_nat (S d)) (x :: dims)}).
          { apply Exists_dec. intros z. destruct (Z.eq_dec z (Z.of_nat (S d))), (Z_lt_dec z 0), (Z.eq_dec (z mod Z.of_nat (length (b :: ns))) (Z.of_nat (S d))); tauto. }
          destruct Dec as [D|D]; [right; apply H1; now apply Exists_exists in D|left].
          rewrite H2; [assumption|]. intros H'. apply D. now apply Exists_exists. }
        assert (Ln : length out = length ns) by (cbn in E1; lia). clear - Hall Ln. revert ns Hall Ln.
        induction out as [|a out IH]; intros [|c ns] Hall Ln; try discriminate; [reflexivity|].
        rewrite broadcast_cons by (cbn in Ln; lia). rewrite IH; [| |cbn in Ln; lia].
        - destruct (Hall 0%nat ltac:(cbn; lia)) as [H|H]; cbn in H; rewrite H; cbn; [reflexivity|]. now rewrite Z.eqb_refl, orb_true_r.
        - intros d Hd. apply (Hall (S d)). cbn. lia. }
      assert (B' : broadcast_to (strip_ones out) ns = true).
      { rewrite Hk in B. unfold broadcast_to in *. rewrite rev_app_distr in B. revert B. generalize (rev (strip_ones out)) (rev ns).
        clear. intros s. induction s as [|a s IH]; intros [|c t]; cbn; try reflexivity; try discriminate.
        rewrite !andb_true_iff. intros [H1 H2]. auto. }
      split; [exact B'|]. now apply (broadcast_to_app [b]).
  - intros [= <-]. exists 1%nat. cbn [tl length]. split; [lia|]. split; [lia|]. split; [|split].
    + intros [|d] Hd _; [lia|]. cbn. f_equal. lia.
    + intros d _ H. exfalso. now apply H.
    + split; [apply broadcast_to_refl|]. apply (broadcast_to_app [b]), broadcast_to_refl.
Qed.
Print Assumptions C43_bias_shape.

(** Which dims are accepted. *)
Theorem C43_accepted shape l : (1 <= length shape)%nat ->
  (exists s, calculate_bias_shape shape (Some l) = Some s) <->
  Forall (fun x => 0 < x < Z.of_nat (length shape) \/ x < 0 /\ x mod Z.of_nat (length shape) <> 0) l.
Proof.
  intros Hr. transitivity (exists out, fill_bias shape l (repeat 1 (length shape)) = Some out).
  - destruct l as [|x l]; unfold calculate_bias_shape; [cbn; split; eauto|].
    destruct (fill_bias shape (x :: l) (repeat 1 (length shape))) as [out|]; [split; eauto|].
    split; intros [? H]; discriminate H.
  - generalize (repeat 1 (length shape)) as acc. induction l as [|x l IH]; intros acc; cbn [fill_bias]; [split; [constructor|eauto]|].
    set (rank := Z.of_nat (length shape)) in *.
    pose proof (Z.mod_pos_bound x rank ltac:(lia)) as M.
    destruct (Z.ltb_spec x 0).
    + destruct (Z.eqb_spec (x mod rank) 0) as [E|E].
      { split; [intros [? ?]; discriminate|]. intros H'. inversion H'; subst. lia. }
      destruct (Z.geb_spec (x mod rank) rank); [lia|]. rewrite IH. split; [intros; constructor; [right; auto|assumption]|].
      intros H'. now inversion H'.
    + destruct (Z.eqb_spec x 0) as [E|E].
      { split; [intros [? ?]; discriminate|]. intros H'. inversion H'; subst. lia. }
      destruct (Z.geb_spec x rank). { split; [intros [? ?]; discriminate|]. intros H'. inversion H'; subst. lia. }
      rewrite IH. split; [intros; constructor; [left; lia|assumption]|]. intros H'. now inversion H'.
Qed.
Print Assumptions C43_accepted.
Example C43_case : calculate_bias_shape [2; 5; 6; 7] (Some [1]) = Some [5; 1; 1] /\ calculate_bias_shape [2; 5; 6; 7] (Some [-1]) = Some [7] /\
  calculate_bias_shape [2; 5; 6; 7] None = Some [5; 6; 7] /\ calculate_bias_shape [2; 5; 6; 7] (Some [0]) = None.
Proof. now vm_compute. Qed.
(** A dim below [-rank] is not "out of range": it wraps around. *)
Theorem C43_out_of_range_refuted :
  ~ (forall shape d, (1 <= length shape)%nat -> d < - Z.of_nat (length shape) -> calculate_bias_shape shape (Some [d]) = None).
Proof. intros H. specialize (H [2; 5; 6; 7] (-5) ltac:(cbn; lia) ltac:(cbn; lia)). vm_compute in H. discriminate H. Qed.
Print Assumptions C43_out_of_range_refuted.

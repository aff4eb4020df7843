(** C84: the convolutional LSTM. *)
From Coq Require Import Reals ZArith List Bool Lia Lra.
From Verif Require Import ModelShape ProofsShape ModelReal Properties09 Properties14 Properties15 Properties22 ModelConv ModelImageNets Properties33 ModelConvLSTM.
Import ListNotations.
Local Open Scope R_scope.

(** What the constructor needs: a kernel size of at least one for each spatial axis. *)
Definition wf_cl (c : convlstm) : Prop := length (cl_kernel c) = cl_spatial c /\ Forall (fun k => 1 <= k)%Z (cl_kernel c).

(** ** Shapes *)
Lemma lax_pads_same n k : (1 <= k)%Z -> (0 <= n)%Z -> lax_pads PtSame n k 1 = ((k - 1) / 2, k - 1 - (k - 1) / 2)%Z.
Proof. intros Hk Hn. unfold lax_pads. rewrite Z.div_1_r. replace (Z.max 0 ((n + 1 - 1 - 1) * 1 + k - n))%Z with (k - 1)%Z by lia. reflexivity. Qed.
Lemma same_sizes : forall ns ks, length ks = length ns -> Forall (fun n => 0 <= n)%Z ns -> Forall (fun k => 1 <= k)%Z ks ->
  let ones := repeat 1%Z (length ns) in out_sizes ns (string_pads PtSame ns ks ones ones) ks ones ones = ns.
Proof.
  induction ns as [|n ns IH]; intros [|k ks] L Fn Fk; try discriminate; [reflexivity|]. apply Forall_cons_iff in Fn as [Hn Fn].
  apply Forall_cons_iff in Fk as [Hk Fk]. cbn [length repeat]. cbv zeta. cbn [string_pads].
  replace (effective k 1) with k by (unfold effective; lia). rewrite lax_pads_same by assumption. cbn [out_sizes].
  replace (effective k 1) with k by (unfold effective; lia).
  rewrite IH; [|now injection L|assumption|assumption]. f_equal. unfold window_count. rewrite Z.div_1_r. lia.
Qed.
Lemma broadcast2_rev_refl : forall l, broadcast2_rev l l = Some l.
Proof. induction l as [|a l IH]; [reflexivity|]. cbn. rewrite Z.eqb_refl, IH. reflexivity. Qed.
Lemma broadcast2_refl l : broadcast2 l l = Some l.
Proof. unfold broadcast2. rewrite broadcast2_rev_refl. cbn. now rewrite rev_involutive. Qed.
Lemma split4_snoc l n : split4_shape (l ++ [4 * n]%Z) = Some (l ++ [n]).
Proof.
  unfold split4_shape. rewrite rev_app_distr. cbn [rev app]. replace (4 * n)%Z with (n * 4)%Z by lia. rewrite Z.mod_mul, Z.div_mul by lia. cbn [Z.eqb].
  cbn [rev]. now rewrite rev_involutive.
Qed.

(** With [input_shape] the spatial sizes, the call accepts the initial state, with or without a batch axis, for inputs with any number of
    channels, and the new states have the shape of the initial state; so every later call is accepted too. *)
Theorem C84_shape c batch ns ch : wf_cl c -> cl_input_shape c = ns -> length ns = cl_spatial c -> Forall (fun n => 0 <= n)%Z ns ->
  let s := cl_initial_shape c batch in
  cl_shape c (match batch with None => ns ++ [ch] | Some b => b :: ns ++ [ch] end) s s = Some (s, s).
Proof.
  intros [LK FK] EI LN FN s. set (cv := cl_conv c).
  assert (H : forall b ch, conv_call cv (b :: ns ++ [ch]) = Some (cl_kernel c ++ [ch; 4 * cl_out c]%Z, [4 * cl_out c]%Z, b :: ns ++ [4 * cl_out c]%Z) /\
    conv_call cv (ns ++ [ch]) = Some (cl_kernel c ++ [ch; 4 * cl_out c]%Z, [4 * cl_out c]%Z, ns ++ [4 * cl_out c]%Z)).
  { intros b i. pose proof (fun b => C63_channels_last cv b ns i eq_refl) as T. cbn [cv cl_conv cv_spatial cv_kernel cv_stride cv_rate cv_padding cv_groups cv_out] in T. fold cv in T.
    assert (T' := fun b => T b LN LK (repeat_length _ _) (repeat_length _ _) ltac:(discriminate) ltac:(discriminate) (Z.mod_1_r _) (Z.mod_1_r _)). clear T. cbv zeta in T'.
    rewrite <- LN, same_sizes in T' by (assumption || congruence). rewrite !Z.div_1_r in T'. split; [apply (T' b)|]. destruct (T' 1%Z) as (_ & _ & T). now apply T. }
  unfold cl_shape. fold cv. subst s. unfold cl_initial_shape. rewrite EI.
  destruct batch as [b|].
  - destruct (H b ch) as [H1 _], (H b (cl_out c)) as [H2 _]. rewrite H1, H2, broadcast2_refl.
    change (b :: ns ++ [4 * cl_out c]%Z) with ((b :: ns) ++ [4 * cl_out c]%Z). rewrite split4_snoc. cbn [app]. now rewrite !broadcast2_refl.
  - destruct (H 0%Z ch) as [_ H1], (H 0%Z (cl_out c)) as [_ H2]. rewrite H1, H2, broadcast2_refl, split4_snoc. now rewrite !broadcast2_refl.
Qed.
Print Assumptions C84_shape.
Example C84_shape_example : cl_shape (ConvLSTM 2 [28; 28] 8 [3; 3])%Z [4; 28; 28; 3]%Z [4; 28; 28; 8]%Z [4; 28; 28; 8]%Z = Some ([4; 28; 28; 8], [4; 28; 28; 8])%Z.
Proof. reflexivity. Qed.

(** The docstring asks for the "shape of the inputs excluding batch size", channels included. Then a batched call always raises, *)
Theorem C84_documented_refuted c b ns ch : wf_cl c -> length ns = cl_spatial c -> cl_input_shape c = ns ++ [ch] ->
  forall input, cl_shape c input (cl_initial_shape c (Some b)) (cl_initial_shape c (Some b)) = None.
Proof.
  intros [LK FK] LN EI input. unfold cl_shape. destruct (conv_call (cl_conv c) input) as [[[? ?] ?]|]; [|reflexivity].
  replace (conv_call (cl_conv c) (cl_initial_shape c (Some b))) with (@None (list Z * list Z * list Z)); [reflexivity|].
  unfold conv_call, cl_initial_shape. rewrite EI. cbn [cl_conv cv_spatial length]. rewrite !app_length. cbn [length].
  replace (Nat.eqb _ _) with false by (symmetry; apply Nat.eqb_neq; lia). replace (Nat.eqb _ (S (S (cl_spatial c)))) with false by (symmetry; apply Nat.eqb_neq; lia). reflexivity.
Qed.
Print Assumptions C84_documented_refuted.
(** and a call without a batch axis may be accepted: the state's first axis is taken for a batch, and the result has one axis too many. *)
Theorem C84_documented_accepted_refuted : ~ (forall c ns ch r, wf_cl c -> length ns = cl_spatial c -> cl_input_shape c = ns ++ [ch] ->
  cl_shape c (ns ++ [ch]) (cl_initial_shape c None) (cl_initial_shape c None) = Some r -> r = (ns ++ [cl_out c], ns ++ [cl_out c])).
Proof.
  intros H. specialize (H (ConvLSTM 2 [3; 3; 3] 8 [3; 3])%Z [3; 3]%Z 3%Z ([3; 3; 3; 8], [3; 3; 3; 8])%Z). discriminate H; [|reflexivity..].
  split; [reflexivity|]. repeat constructor; lia.
Qed.
Print Assumptions C84_documented_accepted_refuted.

(** ** Values *)
(** The docstring's equations, at example [b], position [o] and channel [k]; the forget gate has the extra 1. *)
Lemma conv_values_batched c bsize ns ch w bias x idx : length ns = cl_spatial c ->
  conv_values (cl_conv c) (bsize :: ns ++ [ch]) w None bias x idx = conv_batched (cl_conv c) (image_index true bsize ns ch) w None bias x idx.
Proof.
  intros LN. unfold conv_values. cbn [length]. rewrite app_length. cbn [length cl_conv cv_spatial].
  replace (Nat.eqb _ _) with false by (symmetry; apply Nat.eqb_neq; lia). reflexivity.
Qed.
Lemma part_index_snoc out k l i : part_index out k (l ++ [i]) = l ++ [(i + k * out)%Z].
Proof. unfold part_index. now rewrite removelast_last, last_last. Qed.
(** The sum over the window: position [p] of the image is met by kernel element [p - o + (k - 1) / 2]; outside there are zeros. *)
Definition window (c : convlstm) (ns : list Z) (nch : Z) (w : list Z -> R) (x : list Z -> R) (b : Z) (o : list Z) (co : Z) : R :=
  bsum (cl_kernel c) (fun j => zsum nch (fun ci =>
    (let p := position (repeat 1%Z (length ns)) (repeat 1%Z (length ns)) (map (fun k => ((k - 1) / 2)%Z) (cl_kernel c)) o j in
     if inside ns p then x (b :: p ++ [ci]) else 0) * w (j ++ [ci; co]))).
Lemma same_los : forall ns ks, length ks = length ns -> Forall (fun n => 0 <= n)%Z ns -> Forall (fun k => 1 <= k)%Z ks ->
  map fst (string_pads PtSame ns ks (repeat 1%Z (length ns)) (repeat 1%Z (length ns))) = map (fun k => ((k - 1) / 2)%Z) ks.
Proof.
  induction ns as [|n ns IH]; intros [|k ks] L Fn Fk; try discriminate; [reflexivity|]. apply Forall_cons_iff in Fn as [Hn Fn].
  apply Forall_cons_iff in Fk as [Hk Fk]. cbn [length repeat string_pads map]. replace (effective k 1) with k by (unfold effective; lia).
  rewrite lax_pads_same by assumption. cbn [fst]. f_equal. apply IH; [now injection L|assumption|assumption].
Qed.
Lemma conv_window c bsize ns nch w bias x b o co : wf_cl c -> length ns = cl_spatial c -> Forall (fun n => 0 <= n)%Z ns -> length o = length ns -> (0 <= co < 4 * cl_out c)%Z ->
  conv_values (cl_conv c) (bsize :: ns ++ [nch]) w None (Some bias) x (b :: o ++ [co]) = window c ns nch w x b o co + bias [co].
Proof.
  intros [LK FK] LN FN LO Hco. rewrite conv_values_batched by assumption.
  assert (W : wf_conv (cl_conv c) ns) by (unfold wf_conv; cbn; rewrite repeat_length; repeat split; try assumption; discriminate).
  pose proof (C77_formula (cl_conv c) bsize ns nch w None (Some bias) x b o co W LO) as F. cbn [cl_conv cv_last cv_kernel cv_spatial cv_groups cv_out cv_stride cv_rate opt_bias] in F.
  fold (cl_conv c) in F. etransitivity; [exact F|]. clear F. f_equal. unfold window. apply bsum_ext. intros j Hj. rewrite !Z.div_1_r. apply zsum_ext. intros ci Hci.
  unfold pads_for. cbn [cl_conv cv_padding cv_kernel cv_rate cv_stride]. rewrite <- LN, same_los by (assumption || congruence). cbn [opt_mul].
  rewrite (Z.div_small co) by assumption. rewrite Z.mul_0_l, Z.add_0_l. reflexivity.
Qed.
Theorem C84_formula c w bsize ns ch x h cell b o k : wf_cl c -> length ns = cl_spatial c -> Forall (fun n => 0 <= n)%Z ns -> length o = length ns -> (0 <= k < cl_out c)%Z ->
  let gate g := window c ns ch (cw_x w) x b o (k + g * cl_out c) + cb_x w [(k + g * cl_out c)%Z] + (window c ns (cl_out c) (cw_h w) h b o (k + g * cl_out c) + cb_h w [(k + g * cl_out c)%Z]) in
  let i := sigmoid (gate 0%Z) in let g := tanh (gate 1%Z) in let f := sigmoid (gate 2%Z + 1) in let og := sigmoid (gate 3%Z) in
  let '(out, (h', c')) := cl_step c w (bsize :: ns ++ [ch]) (bsize :: ns ++ [cl_out c]) x (h, cell) in
  let at_ a := a (b :: o ++ [k]) in
  out = h' /\ at_ c' = f * at_ cell + i * g /\ at_ h' = og * tanh (at_ c').
Proof.
  intros W LN FN LO Hk gate i g f og. unfold cl_step. cbn [fst snd]. cbv zeta. split; [reflexivity|].
  assert (E : forall q, (0 <= q < 4)%Z -> cl_gates c w (bsize :: ns ++ [ch]) (bsize :: ns ++ [cl_out c]) x h (part_index (cl_out c) q (b :: o ++ [k])) = gate q).
  { intros q Hq. change (b :: o ++ [k]) with ((b :: o) ++ [k]). rewrite part_index_snoc. cbn [app]. unfold cl_gates. rewrite !conv_window by (assumption || nia). reflexivity. }
  rewrite (E 0%Z), (E 1%Z), (E 2%Z), (E 3%Z) by lia. split; reflexivity.
Qed.
Print Assumptions C84_formula.

(** Whatever the weights, the inputs and the initial state, outputs lie strictly between -1 and 1 and are the next hidden state, and the
    cell state grows by at most one per step. *)
Theorem C84_bounded c w xshape hshape xs h cell M idx : Rabs (cell idx) <= M -> forall t, (t < length xs)%nat -> forall d,
  let r := nth t (cl_run c w xshape hshape xs (h, cell)) d in
  fst r = fst (snd r) /\ Rabs (fst r idx) < 1 /\ Rabs (snd (snd r) idx) <= M + INR (S t).
Proof.
  revert h cell M. induction xs as [|x xs IH]; intros h cell M Hc t Ht d; cbn [length] in Ht; [lia|]. cbn [cl_run].
  set (r0 := cl_step c w xshape hshape x (h, cell)).
  assert (B : Rabs (snd (snd r0) idx) <= M + 1).
  { unfold r0, cl_step. cbn [fst snd]. cbv zeta. set (f := cl_gates _ _ _ _ _ _ (part_index _ 2 _)). set (i := cl_gates _ _ _ _ _ _ (part_index _ 0 _)). set (g := cl_gates _ _ _ _ _ _ (part_index _ 1 _)).
    pose proof (sigmoid_range (f + 1)). pose proof (sigmoid_range i). pose proof (tanh_range g). pose proof (mult_bound (sigmoid i) (tanh g) ltac:(assumption) ltac:(assumption)).
    eapply Rle_trans; [apply Rabs_triang|]. assert (Rabs (sigmoid i * tanh g) <= 1) by (left; apply Rabs_def1; lra).
    assert (Rabs (sigmoid (f + 1) * cell idx) <= M); [|lra]. rewrite Rabs_mult, (Rabs_right (sigmoid _)) by lra. pose proof (Rabs_pos (cell idx)). nra. }
  destruct t as [|t]; cbn [nth].
  - cbv zeta. split; [reflexivity|]. split; [|cbn [INR]; exact B]. unfold r0, cl_step. cbn [fst snd]. cbv zeta. 
    match goal with |- Rabs (sigmoid ?a * tanh ?b) < 1 => pose proof (mult_bound (sigmoid a) (tanh b) (sigmoid_range a) (tanh_range b)) end. apply Rabs_def1; lra.
  - cbv zeta. destruct r0 as [out [h' c']]. cbn [fst snd] in B |- *. destruct (IH h' c' (M + 1) B t ltac:(lia) d) as (I1 & I2 & I3). split; [exact I1|]. split; [exact I2|].
    rewrite (S_INR (S t)). eapply Rle_trans; [exact I3|]. lra.
Qed.
Print Assumptions C84_bounded.

(** ** Kernels of size one: [hk.LSTM] at every position *)
Definition at_position (x : list Z -> R) (b : Z) (o : list Z) (n : Z) : list R := map (fun i => x (b :: o ++ [i])) (zseq n).
(** The weights of that LSTM: those of the two convolutions below each other, and the sum of the biases. *)
Definition stacked (n : nat) (ch out : Z) (w : cl_weights) : list (list R) :=
  map (fun ci => map (fun co => cw_x w (repeat 0%Z n ++ [ci; co])) (zseq (4 * out))) (zseq ch) ++
  map (fun ci => map (fun co => cw_h w (repeat 0%Z n ++ [ci; co])) (zseq (4 * out))) (zseq out).
Definition stacked_bias (out : Z) (w : cl_weights) : list R := map (fun co => cb_x w [co] + cb_h w [co]) (zseq (4 * out)).
Lemma zipw_map {A} f (g h : A -> R) : forall l, zipw f (map g l) (map h l) = map (fun a => f (g a) (h a)) l.
Proof. unfold zipw. induction l as [|a l IH]; [reflexivity|]. cbn. now rewrite IH. Qed.
Lemma dot_app : forall a b c d, length a = length c -> dot (a ++ b) (c ++ d) = dot a c + dot b d.
Proof.
  induction a as [|x a IH]; intros b [|y c] d L; try discriminate.
  - cbn [app]. change (dot [] []) with 0. ring.
  - cbn [app]. change (x * y + dot (a ++ b) (c ++ d) = x * y + dot a c + dot b d). rewrite IH by now injection L. ring.
Qed.
Lemma dot_map {A} (f g : A -> R) : forall l, dot (map f l) (map g l) = Rsum (map (fun a => f a * g a) l).
Proof.
  induction l as [|a l IH]; [reflexivity|]. cbn [map]. change (f a * g a + dot (map f l) (map g l) = f a * g a + Rsum (map (fun a => f a * g a) l)). now rewrite IH.
Qed.
Lemma nth_zseq {A} (f : Z -> A) n j d : (j < Z.to_nat n)%nat -> nth j (map f (zseq n)) d = f (Z.of_nat j).
Proof.
  intros H. unfold zseq. rewrite map_map. rewrite (nth_indep _ d (f (Z.of_nat 0))) by (rewrite map_length, seq_length; lia).
  rewrite (map_nth (fun i => f (Z.of_nat i))). rewrite seq_nth by lia. reflexivity.
Qed.
Lemma zseq_length n : length (zseq n) = Z.to_nat n.
Proof. unfold zseq. now rewrite map_length, seq_length. Qed.
Lemma affine_stacked n ch out w x h b o : (0 <= out)%Z ->
  affine (4 * Z.to_nat out) (stacked n ch out w) (Some (stacked_bias out w)) (at_position x b o ch ++ at_position h b o out) =
  map (fun co => zsum ch (fun ci => x (b :: o ++ [ci]) * cw_x w (repeat 0%Z n ++ [ci; co])) + zsum out (fun ci => h (b :: o ++ [ci]) * cw_h w (repeat 0%Z n ++ [ci; co])) + (cb_x w [co] + cb_h w [co])) (zseq (4 * out)).
Proof.
  intros Hout. unfold affine, stacked_bias. rewrite <- (zipw_map Rplus (fun co => _ + _) (fun co => _ + _)). f_equal. unfold matmul.
  unfold zseq at 1. rewrite map_map. replace (Z.to_nat (4 * out)) with (4 * Z.to_nat out)%nat by lia. apply map_ext_in. intros j Hj. apply in_seq in Hj.
  unfold stacked, column. rewrite map_app, !map_map. rewrite dot_app by (unfold at_position; now rewrite !map_length). unfold at_position. rewrite !dot_map.
  unfold zsum. f_equal; f_equal; apply map_ext; intros ci; rewrite nth_zseq by lia; reflexivity.
Qed.
Lemma chunk_zseq (f : Z -> R) out k : (0 <= out)%Z -> (k < 4)%nat ->
  chunk (Z.to_nat out) k (map f (zseq (4 * out))) = map (fun i => f (i + Z.of_nat k * out)%Z) (zseq out).
Proof.
  intros Ho Hk. unfold chunk. rewrite skipn_map, firstn_map. unfold zseq. rewrite skipn_map, firstn_map, !map_map.
  assert (E : firstn (Z.to_nat out) (skipn (k * Z.to_nat out) (seq 0 (Z.to_nat (4 * out)))) = seq (k * Z.to_nat out) (Z.to_nat out)).
  { replace (Z.to_nat (4 * out)) with (k * Z.to_nat out + (Z.to_nat out + (3 - k) * Z.to_nat out))%nat by nia. rewrite seq_app, skipn_app, seq_length, Nat.sub_diag.
    rewrite skipn_all2 by (rewrite seq_length; lia). cbn [app skipn]. rewrite seq_app, firstn_app, seq_length, Nat.sub_diag. rewrite firstn_all2 by (rewrite seq_length; lia). cbn [firstn]. now rewrite app_nil_r. }
  rewrite E. replace (seq (k * Z.to_nat out) (Z.to_nat out)) with (map (Nat.add (k * Z.to_nat out)) (seq 0 (Z.to_nat out))).
  - rewrite map_map. apply map_ext. intros i. f_equal. rewrite Nat2Z.inj_add, Nat2Z.inj_mul, Z2Nat.id by lia. lia.
  - generalize (k * Z.to_nat out)%nat as s. intros s. generalize (Z.to_nat out) as m. clear. intros m. 
    replace s with (s + 0)%nat at 2 by lia. generalize 0%nat as q. induction m as [|m IH]; intros q; [reflexivity|]. cbn [seq map]. f_equal. rewrite IH. f_equal. lia.
Qed.
(** A convolutional LSTM with kernels of size one is the LSTM, applied at every position of every example. *)
Theorem C84_pointwise c w bsize ns ch x h cell b o : length ns = cl_spatial c -> cl_kernel c = repeat 1%Z (cl_spatial c) -> in_box ns o -> (0 <= cl_out c)%Z ->
  let out := cl_out c in let n := Z.to_nat out in
  let '(y, (h', c')) := cl_step c w (bsize :: ns ++ [ch]) (bsize :: ns ++ [out]) x (h, cell) in
  (at_position y b o out, (at_position h' b o out, at_position c' b o out)) =
  lstm n (stacked (cl_spatial c) ch out w) (stacked_bias out w) (at_position x b o ch) (at_position h b o out, at_position cell b o out).
Proof.
  intros LN EK Ho Hout out n. unfold cl_step, lstm. cbn [fst snd]. subst n out. rewrite affine_stacked by assumption.
  set (G := fun co => _ + _ + (_ + _)). rewrite !chunk_zseq by (assumption || lia).
  assert (E : forall q i, (0 <= q < 4)%Z -> (0 <= i < cl_out c)%Z -> cl_gates c w (bsize :: ns ++ [ch]) (bsize :: ns ++ [cl_out c]) x h (part_index (cl_out c) q (b :: o ++ [i])) = G (i + q * cl_out c)%Z).
  { intros q i Hq Hi. change (b :: o ++ [i]) with ((b :: o) ++ [i]). rewrite part_index_snoc. cbn [app]. unfold cl_gates. rewrite !conv_values_batched by assumption.
    unfold cl_conv. rewrite EK. pose proof (fun ch w bias x co => C77_pointwise (cl_spatial c) (4 * cl_out c) (repeat 1%Z (cl_spatial c)) PtSame true bsize ns ch w bias x b o co LN (repeat_length _ _) Ho) as P.
    cbn [image_index] in P |- *. rewrite !P by nia. cbn [opt_bias]. unfold G. ring. }
  assert (EC : map (fun i => sigmoid (G (i + Z.of_nat 2 * cl_out c)%Z + 1) * cell (b :: o ++ [i]) + sigmoid (G (i + Z.of_nat 0 * cl_out c)%Z) * tanh (G (i + Z.of_nat 1 * cl_out c)%Z)) (zseq (cl_out c)) =
    zipw Rplus (zipw Rmult (map (fun a => sigmoid (a + 1)) (map (fun i => G (i + Z.of_nat 2 * cl_out c)%Z) (zseq (cl_out c)))) (at_position cell b o (cl_out c)))
      (zipw Rmult (map sigmoid (map (fun i => G (i + Z.of_nat 0 * cl_out c)%Z) (zseq (cl_out c)))) (map tanh (map (fun i => G (i + Z.of_nat 1 * cl_out c)%Z) (zseq (cl_out c)))))).
  { unfold at_position. rewrite !map_map, !zipw_map. reflexivity. }
  rewrite <- EC. rewrite !map_map, !zipw_map. unfold at_position.
  f_equal; [|f_equal]; apply map_ext_in; intros i Hi; apply in_zseq in Hi; rewrite !E by lia; reflexivity.
Qed.
Print Assumptions C84_pointwise.

(** ** Locality *)
(** Position [p] is within [r] kernel reaches of [o]: (k-1)/2 below and k/2 above, for each axis. *)
Fixpoint within (r : Z) (ks o p : list Z) : Prop :=
  match ks, o, p with
  | [], [], [] => True
  | k :: ks, o :: os, p :: ps => (o - r * ((k - 1) / 2) <= p <= o + r * (k / 2))%Z /\ within r ks os ps
  | _, _, _ => False
  end.
Lemma within_step r : forall ks o p q, (0 <= r)%Z -> within r ks o p -> within 1 ks p q -> within (r + 1) ks o q.
Proof.
  induction ks as [|k ks IH]; intros [|o os] [|p ps] [|q qs] Hr; cbn [within]; try tauto. intros [H1 H2] [H3 H4]. split; [|eauto].
  rewrite !Z.mul_add_distr_r. rewrite Z.mul_1_l in *. lia.
Qed.
Lemma within_refl r : forall ks o, (0 <= r)%Z -> Forall (fun k => 1 <= k)%Z ks -> length o = length ks -> within r ks o o.
Proof.
  induction ks as [|k ks IH]; intros [|o os] Hr F L; try discriminate; [exact I|]. apply Forall_cons_iff in F as [Hk F]. cbn [within].
  assert (0 <= (k - 1) / 2)%Z by (apply Z.div_pos; lia). assert (0 <= k / 2)%Z by (apply Z.div_pos; lia). split; [nia|]. apply IH; [assumption|assumption|now injection L].
Qed.
Lemma position_within : forall (ns ks o j : list Z), length ks = length ns -> length o = length ns -> in_box ks j ->
  within 1 ks o (position (repeat 1%Z (length ns)) (repeat 1%Z (length ns)) (map (fun k => ((k - 1) / 2)%Z) ks) o j).
Proof.
  induction ns as [|n ns IH]; intros [|k ks] [|o os] j L1 L2 Hj; try discriminate; inversion Hj; subst; [exact I|].
  cbn [length repeat map position within]. split; [|apply IH; [now injection L1|now injection L2|assumption]].
  pose proof (Z.div_mod (k - 1) 2 ltac:(lia)). pose proof (Z.mod_pos_bound (k - 1) 2 ltac:(lia)). pose proof (Z.div_mod k 2 ltac:(lia)). pose proof (Z.mod_pos_bound k 2 ltac:(lia)). lia.
Qed.
Lemma inside_in_box : forall ns p, inside ns p = true -> in_box ns p.
Proof.
  induction ns as [|n ns IH]; intros [|p ps] H; try discriminate; [constructor|]. cbn in H. rewrite !andb_true_iff, Z.leb_le, Z.ltb_lt in H. constructor; [lia|]. now apply IH.
Qed.
Lemma window_local c ns nch w x y b o co : wf_cl c -> length ns = cl_spatial c -> length o = length ns ->
  (forall p i, in_box ns p -> within 1 (cl_kernel c) o p -> (0 <= i < nch)%Z -> x (b :: p ++ [i]) = y (b :: p ++ [i])) ->
  window c ns nch w x b o co = window c ns nch w y b o co.
Proof.
  intros [LK FK] LN LO E. unfold window. apply bsum_ext. intros j Hj. apply zsum_ext. intros ci Hci. f_equal. cbv zeta.
  destruct (inside ns _) eqn:I; [|reflexivity]. apply E; [now apply inside_in_box| |assumption]. apply position_within; congruence || assumption.
Qed.
(** The states at time [t] and position [o] depend only on the input at time [s] within [t - s + 1] kernel reaches of [o], on the initial
    hidden state within [t + 1] and on the initial cell state within [t]; and only on the same example. *)
Theorem C84_local c w bsize ns ch b k : wf_cl c -> length ns = cl_spatial c -> Forall (fun n => 0 <= n)%Z ns -> (0 <= k < cl_out c)%Z ->
  let agree nch r o x y := forall p i, in_box ns p -> within r (cl_kernel c) o p -> (0 <= i < nch)%Z -> x (b :: p ++ [i]) = y (b :: p ++ [i]) in
  let run := cl_run c w (bsize :: ns ++ [ch]) (bsize :: ns ++ [cl_out c]) in
  forall xs ys h0 c0 h0' c0' t o dx d, (t < length xs)%nat -> length ys = length xs -> in_box ns o ->
  (forall s, (s <= t)%nat -> agree ch (Z.of_nat (t - s) + 1)%Z o (nth s xs dx) (nth s ys dx)) ->
  agree (cl_out c) (Z.of_nat t + 1)%Z o h0 h0' -> agree (cl_out c) (Z.of_nat t) o c0 c0' ->
  let r := nth t (run xs (h0, c0)) d in let r' := nth t (run ys (h0', c0')) d in
  fst r (b :: o ++ [k]) = fst r' (b :: o ++ [k]) /\ snd (snd r) (b :: o ++ [k]) = snd (snd r') (b :: o ++ [k]).
Proof.
  intros W LN FN Hk0 agree run. pose proof W as [LK FK].
  assert (ST : forall x y h h' cell cell' o k, in_box ns o -> (0 <= k < cl_out c)%Z -> agree ch 1%Z o x y -> agree (cl_out c) 1%Z o h h' -> cell (b :: o ++ [k]) = cell' (b :: o ++ [k]) ->
    let r := cl_step c w (bsize :: ns ++ [ch]) (bsize :: ns ++ [cl_out c]) x (h, cell) in let r' := cl_step c w (bsize :: ns ++ [ch]) (bsize :: ns ++ [cl_out c]) y (h', cell') in
    fst r (b :: o ++ [k]) = fst r' (b :: o ++ [k]) /\ snd (snd r) (b :: o ++ [k]) = snd (snd r') (b :: o ++ [k])).
  { clear k Hk0. intros x y h h' cell cell' o k Ho Hk Ax Ah Ec r r'. pose proof (in_box_length _ _ Ho) as LO.
    pose proof (C84_formula c w bsize ns ch x h cell b o k W LN FN LO Hk) as F1. pose proof (C84_formula c w bsize ns ch y h' cell' b o k W LN FN LO Hk) as F2. cbv zeta in F1, F2.
    fold r in F1. fold r' in F2. destruct r as [out [h1 c1]], r' as [out' [h1' c1']]. destruct F1 as (-> & F1c & F1h), F2 as (-> & F2c & F2h). cbn [fst snd].
    assert (WX : forall co, window c ns ch (cw_x w) x b o co = window c ns ch (cw_x w) y b o co) by (intros; apply window_local; assumption).
    assert (WH : forall co, window c ns (cl_out c) (cw_h w) h b o co = window c ns (cl_out c) (cw_h w) h' b o co) by (intros; apply window_local; assumption).
    assert (EC : c1 (b :: o ++ [k]) = c1' (b :: o ++ [k])) by (rewrite F1c, F2c, !WX, !WH, Ec; reflexivity).
    split; [|exact EC]. rewrite F1h, F2h, !WX, !WH, EC. reflexivity. }
  induction xs as [|x xs IH]; intros [|y ys] h0 c0 h0' c0' t o dx d Ht L Ho Ax Ah Ac; cbn [length] in Ht, L; try lia.
  pose proof (in_box_length _ _ Ho) as LO. unfold run. cbn [cl_run]. destruct t as [|t]; cbn [nth].
  - cbv zeta. apply ST; [assumption|assumption|exact (Ax 0%nat (le_n _))|exact Ah|]. apply Ac; [assumption| |assumption]. apply within_refl; [lia|assumption|congruence].
  - cbv zeta. 
    assert (Hs : forall p i, in_box ns p -> within (Z.of_nat t + 1) (cl_kernel c) o p -> (0 <= i < cl_out c)%Z -> 
      let r := cl_step c w (bsize :: ns ++ [ch]) (bsize :: ns ++ [cl_out c]) x (h0, c0) in let r' := cl_step c w (bsize :: ns ++ [ch]) (bsize :: ns ++ [cl_out c]) y (h0', c0') in
      fst r (b :: p ++ [i]) = fst r' (b :: p ++ [i]) /\ snd (snd r) (b :: p ++ [i]) = snd (snd r') (b :: p ++ [i])).
    { intros p i Hp Wp Hi. apply ST; [assumption|assumption| | |].
      - intros q j Hq Wq Hj. pose proof (Ax 0%nat (Nat.le_0_l _)) as A0. cbn [nth] in A0. apply A0; [assumption| |assumption]. rewrite Nat.sub_0_r, Nat2Z.inj_succ. eapply within_step; [|exact Wp|exact Wq]. lia.
      - intros q j Hq Wq Hj. apply Ah; [assumption| |assumption]. rewrite Nat2Z.inj_succ. eapply within_step; [|exact Wp|exact Wq]. lia.
      - apply Ac; [assumption| |assumption]. rewrite Nat2Z.inj_succ. exact Wp. }
    cbv zeta in Hs. set (r := cl_step c w (bsize :: ns ++ [ch]) (bsize :: ns ++ [cl_out c]) x (h0, c0)) in *. set (r' := cl_step c w (bsize :: ns ++ [ch]) (bsize :: ns ++ [cl_out c]) y (h0', c0')) in *.
    assert (Er : fst r = fst (snd r)) by reflexivity. assert (Er' : fst r' = fst (snd r')) by reflexivity.
    destruct r as [out [h1 c1]], r' as [out' [h1' c1']]. cbn [fst snd] in *. subst out out'.
    apply (IH ys h1 c1 h1' c1' t o dx d); [lia|lia|assumption| | |].
    + intros s Hst. specialize (Ax (S s) ltac:(lia)). cbn [nth] in Ax. exact Ax.
    + intros p i Hp Wp Hi. now apply Hs.
    + intros p i Hp Wp Hi. apply Hs; [assumption| |assumption]. eapply within_step; [lia|exact Wp|]. apply within_refl; [lia|assumption|]. rewrite (in_box_length _ _ Hp). congruence.
Qed.
Print Assumptions C84_local.

(** Examples: one pixel row of three, kernel of size 3, one channel. The middle output sees both neighbours, the first does not see the third
    in one step; but in two steps it does. *)
Example C84_local_example : within 1 [3]%Z [0]%Z [1]%Z /\ ~ within 1 [3]%Z [0]%Z [2]%Z /\ within 2 [3]%Z [0]%Z [2]%Z /\ ~ within 1 [2]%Z [1]%Z [0]%Z /\ within 1 [2]%Z [1]%Z [2]%Z.
Proof. repeat split; cbn; lia. Qed.
Example C84_formula_example : let c := ConvLSTM 1 [3]%Z 1 [3]%Z in
  let w := CLWeights (fun i => IZR (nth 0 i 0%Z) + IZR (nth 2 i 0%Z)) (fun i => IZR (nth 0 i 0%Z)) (fun _ => 0) (fun _ => 1) in
  window c [3]%Z 1 (cw_x w) (fun i => IZR (nth 1 i 0%Z) + 1) 0 [1]%Z 2 = 3 * 2 * 2 + (0 * 1 + 1 * 2 + 2 * 3) /\
  window c [3]%Z 1 (cw_x w) (fun i => IZR (nth 1 i 0%Z) + 1) 0 [0]%Z 0 = 1 * 1 + 2 * 2.
Proof. cbv -[Rplus Rmult IZR]. split; lra. Qed.

(** C94, fourth part: the data flow of the networks written out, and the values of their layers. *)
From Coq Require Import Reals ZArith String List Bool Lia Lra.
From Verif Require Import ModelNets ModelShape ModelReal ModelPool ModelConv ModelImageNets ModelCheckpoint ModelImageValues Properties14 Properties23 Properties32 Properties33 Properties53 Properties54.
Import ListNotations.
Local Open Scope R_scope.

Definition and_then {A B} (o : option A) (f : A -> option B) : option B := match o with Some a => f a | None => None end.
Local Notation "'do' x <- e ; k" := (and_then e (fun x => k)) (at level 200, x name, e at level 100, k at level 200).
Lemma then_flow f g x : thenv f g x = and_then (f x) g. Proof. reflexivity. Qed.
Lemma ident_r o : and_then o identv = o. Proof. now destruct o. Qed.
Lemma flow_assoc {A B C} (o : option A) (f : A -> option B) (g : B -> option C) : and_then (and_then o f) g = and_then o (fun a => and_then (f a) g).
Proof. now destruct o. Qed.
Lemma flow_ext {A B} (o : option A) (f g : A -> option B) : (forall a, f a = g a) -> and_then o f = and_then o g.
Proof. intros H. destruct o; [apply H|reflexivity]. Qed.
Ltac flow := repeat (rewrite then_flow || rewrite flow_assoc || rewrite ident_r || (apply flow_ext; intros ?) || unfold identv at 1; cbn [and_then]); try reflexivity.

(** [BlockV1] line by line: with a bottleneck three convolutions, without one two; a relu follows all but the last, and the sum. *)
Theorem C94_flow_v1 eps tr tl W (p : string) (c s : Z) (up : bool) x :
  let conv name n k s := conv_v W (p ++ "/~/" ++ name)%string n k s PtSame false in
  let bn name := bn_v eps tr tl W (p ++ "/~/" ++ name)%string in
  let shortcut := if up then do y <- conv "shortcut_conv"%string c 1%Z s x; bn "shortcut_batchnorm"%string y else Some x in
  block_v1_v eps tr tl W p c s up true x =
    (do sc <- shortcut;
     do a <- conv "conv_0"%string (c / 4)%Z 1%Z 1%Z x; do a <- bn "batchnorm_0"%string a; do a <- relu_v a;
     do a <- conv "conv_1"%string (c / 4)%Z 3%Z s a; do a <- bn "batchnorm_1"%string a; do a <- relu_v a;
     do a <- conv "conv_2"%string c 1%Z 1%Z a; do a <- bn "batchnorm_2"%string a;
     do a <- add_v a sc; relu_v a) /\
  block_v1_v eps tr tl W p c s up false x =
    (do sc <- shortcut;
     do a <- conv "conv_0"%string c 3%Z s x; do a <- bn "batchnorm_0"%string a; do a <- relu_v a;
     do a <- conv "conv_1"%string c 3%Z 1%Z a; do a <- bn "batchnorm_1"%string a;
     do a <- add_v a sc; relu_v a).
Proof.
  cbv zeta. split; unfold block_v1_v, v1_layers; cbn [block_layers app length seq combine fold_left Nat.ltb Nat.leb Nat.sub]; rewrite ?Z.div_1_r.
  - match goal with |- match ?P with _ => _ end = and_then ?Q _ => replace P with Q by (destruct up; reflexivity); destruct Q as [sc|]; [|reflexivity] end. cbn [and_then].
    match goal with |- match ?P with _ => _ end = ?R => change (and_then P (fun out => and_then (add_v out sc) relu_v) = R) end. flow.
  - match goal with |- match ?P with _ => _ end = and_then ?Q _ => replace P with Q by (destruct up; reflexivity); destruct Q as [sc|]; [|reflexivity] end. cbn [and_then].
    match goal with |- match ?P with _ => _ end = ?R => change (and_then P (fun out => and_then (add_v out sc) relu_v) = R) end. flow.
Qed.
Print Assumptions C94_flow_v1.

(** [BlockV2]: batch normalisation and relu come before each convolution, the projection reads what the first convolution reads, and nothing follows the sum. *)
Theorem C94_flow_v2 eps tr tl W (p : string) (c s : Z) (up : bool) x :
  let conv name n k s := conv_v W (p ++ "/~/" ++ name)%string n k s PtSame false in
  let bn name := bn_v eps tr tl W (p ++ "/~/" ++ name)%string in
  let shortcut a := if up then conv "shortcut_conv"%string c 1%Z s a else Some x in
  block_v2_v eps tr tl W p c s up true x =
    (do a <- bn "batchnorm_0"%string x; do a <- relu_v a; do sc <- shortcut a; do a <- conv "conv_0"%string (c / 4)%Z 1%Z 1%Z a;
     do a <- bn "batchnorm_1"%string a; do a <- relu_v a; do a <- conv "conv_1"%string (c / 4)%Z 3%Z s a;
     do a <- bn "batchnorm_2"%string a; do a <- relu_v a; do a <- conv "conv_2"%string c 1%Z 1%Z a;
     add_v a sc) /\
  block_v2_v eps tr tl W p c s up false x =
    (do a <- bn "batchnorm_0"%string x; do a <- relu_v a; do sc <- shortcut a; do a <- conv "conv_0"%string c 3%Z s a;
     do a <- bn "batchnorm_1"%string a; do a <- relu_v a; do a <- conv "conv_1"%string c 3%Z 1%Z a;
     add_v a sc).
Proof.
  cbv zeta. split; unfold block_v2_v; cbv zeta; cbn [block_layers app length seq combine fold_left]; rewrite ?Z.div_1_r; unfold v2_step; cbn [Nat.eqb andb]; unfold bnv, thenv;
    change (sub p (numbered "conv_" 0)) with (p ++ "/~/conv_0")%string; change (sub p (numbered "conv_" 1)) with (p ++ "/~/conv_1")%string; change (sub p (numbered "conv_" 2)) with (p ++ "/~/conv_2")%string;
    change (sub p (numbered "batchnorm_" 0)) with (p ++ "/~/batchnorm_0")%string; change (sub p (numbered "batchnorm_" 1)) with (p ++ "/~/batchnorm_1")%string;
    change (sub p (numbered "batchnorm_" 2)) with (p ++ "/~/batchnorm_2")%string; change (sub p "shortcut_conv") with (p ++ "/~/shortcut_conv")%string;
    cbn [append].
  - repeat match goal with |- _ = and_then ?o _ => destruct o as [?|]; cbn [and_then]; [|reflexivity] end. reflexivity.
  - repeat match goal with |- _ = and_then ?o _ => destruct o as [?|]; cbn [and_then]; [|reflexivity] end. reflexivity.
Qed.
Print Assumptions C94_flow_v2.

(** [BlockGroup]: blocks named [block_0], [block_1], ...; only the first has a stride and may project. *)
Theorem C94_flow_group eps tr tl W v2 (p : string) c n s bn up x :
  group_v eps tr tl W v2 p c 0 s bn up x = Some x /\
  group_v eps tr tl W v2 p c (S n) s bn up x =
    do y <- group_v eps tr tl W v2 p c n s bn up x;
    (if v2 then block_v2_v eps tr tl W else block_v1_v eps tr tl W) (p ++ "/~/block_" ++ decimal (N.of_nat n))%string c (match n with O => s | _ => 1%Z end) (match n with O => up | _ => false end) bn y.
Proof.
  split; [reflexivity|]. unfold group_v. rewrite seq_S, fold_left_app. cbn [fold_left plus]. unfold thenv at 1, and_then. destruct n; destruct v2; reflexivity.
Qed.
Print Assumptions C94_flow_group.
Theorem C94_flow_resnet eps tr tl W (p : string) b0 b1 b2 b3 bn c0 c1 c2 c3 p0 p1 p2 p3 n x :
  let c := ResNetConfig [b0; b1; b2; b3] bn [c0; c1; c2; c3] [p0; p1; p2; p3] in
  let group v2 i b ch s up := group_v eps tr tl W v2 (p ++ "/~/block_group_" ++ i)%string ch b s bn up in
  let groups v2 a := do a <- group v2 "0"%string b0 c0 1%Z p0 a; do a <- group v2 "1"%string b1 c1 2%Z p1 a; do a <- group v2 "2"%string b2 c2 2%Z p2 a; group v2 "3"%string b3 c3 2%Z p3 a in
  option_map (fun f => f x) (resnet_v eps tr tl W p c false n) = Some (
    do a <- conv_v W (p ++ "/~/initial_conv")%string 64 7 2 PtSame false x; do a <- bn_v eps tr tl W (p ++ "/~/initial_batchnorm")%string a; do a <- relu_v a; do a <- max_pool_v a;
    do a <- groups false a; do a <- mean_v a; linear_v W (p ++ "/~/logits")%string n a) /\
  option_map (fun f => f x) (resnet_v eps tr tl W p c true n) = Some (
    do a <- conv_v W (p ++ "/~/initial_conv")%string 64 7 2 PtSame false x; do a <- max_pool_v a;
    do a <- groups true a; do a <- bn_v eps tr tl W (p ++ "/~/final_batchnorm")%string a; do a <- relu_v a; do a <- mean_v a; linear_v W (p ++ "/~/logits")%string n a).
Proof.
  cbv zeta. unfold resnet_v, resnet_features_v. cbn [rn_blocks rn_channels rn_projection rn_bottleneck option_map]. split; f_equal; flow.
Qed.
Print Assumptions C94_flow_resnet.
(** [MobileNetV1]: the modules are made in [__call__]; the first block has no number in its name, the others have 1, 2, ... *)
Definition mobile_block_name (n : nat) : string := match n with O => "mobile_net_v1_block" | _ => "mobile_net_v1_block_" ++ decimal (N.of_nat n) end%string.
Definition mobile_block_flow (eps : R) (tr tl : bool) (W : weights) (p : string) (c s : Z) (use_bn : bool) (x : arr) : option arr :=
  let bn name a := if use_bn then bn_v eps tr tl W (p ++ "/" ++ name)%string a else Some a in
  do a <- depthwise_v W (p ++ "/depthwise_conv")%string [3; 3]%Z [s; s] (inr [(1, 1); (1, 1)]%Z) (negb use_bn) x; do a <- bn "batch_norm"%string a; do a <- relu_v a;
  do a <- conv_v W (p ++ "/pointwise_conv")%string c 1 1 PtValid (negb use_bn) a; do a <- bn "batch_norm_1"%string a; relu_v a.
Fixpoint mobile_blocks_flow (eps : R) (tr tl : bool) (W : weights) (p : string) (n : nat) (strides channels : list Z) (use_bn : bool) (x : arr) : option arr :=
  match strides, channels with
  | s :: strides, c :: channels => do a <- mobile_block_flow eps tr tl W (p ++ "/" ++ mobile_block_name n)%string c s use_bn x; mobile_blocks_flow eps tr tl W p (S n) strides channels use_bn a
  | _, _ => Some x
  end.
Lemma mobile_block_eq eps tr tl W p c s use_bn x : mobile_block_v eps tr tl W p c s use_bn x = mobile_block_flow eps tr tl W p c s use_bn x.
Proof. unfold mobile_block_v, mobile_block_flow. destruct use_bn; flow. Qed.
Lemma mobile_blocks_eq eps tr tl W p use_bn : forall strides channels n f x, length strides = length channels ->
  fold_left (fun f l => let '(i, (s, c)) := l in thenv f (mobile_block_v eps tr tl W (inside_call p (unique "mobile_net_v1_block" i)) c s use_bn)) (combine (seq n (length strides)) (combine strides channels)) f x =
  and_then (f x) (mobile_blocks_flow eps tr tl W p n strides channels use_bn).
Proof.
  induction strides as [|s strides IH]; intros [|c channels] n f x L; try discriminate L; [symmetry; apply ident_r|]. cbn [length seq combine fold_left]. rewrite IH by (injection L; auto).
  rewrite then_flow, flow_assoc. apply flow_ext. intros y. rewrite mobile_block_eq. cbn [mobile_blocks_flow]. f_equal. unfold inside_call, unique, mobile_block_name. destruct n; reflexivity.
Qed.
Theorem C94_flow_mobile eps tr tl W (p : string) strides channels n use_bn x :
  option_map (fun f => f x) (mobilenet_v eps tr tl W p strides channels n use_bn) =
  if Nat.eqb (length strides) (length channels) then Some (
    do a <- conv_v W (p ++ "/conv2_d")%string 32 3 2 PtValid (negb use_bn) x; do a <- (if use_bn then bn_v eps tr tl W (p ++ "/batch_norm")%string a else Some a); do a <- relu_v a;
    do a <- mobile_blocks_flow eps tr tl W p 0 strides channels use_bn a; do a <- mean_v a; linear_v W (p ++ "/logits")%string n a)
  else None.
Proof.
  unfold mobilenet_v, mobilenet_features_v. destruct (Nat.eqb_spec (length strides) (length channels)) as [E|E]; [|reflexivity]. cbn [negb option_map]. f_equal.
  rewrite !then_flow, !flow_assoc. apply flow_ext. intros a. rewrite !then_flow, !flow_assoc. unfold opt_bn. replace ((if use_bn then bnv eps tr tl W (inside_call p "batch_norm") else identv) a) with (if use_bn then bn_v eps tr tl W (p ++ "/batch_norm") a else Some a) by (destruct use_bn; reflexivity).
  apply flow_ext. intros a'. rewrite !then_flow, !flow_assoc. apply flow_ext. intros a''. rewrite (mobile_blocks_eq eps tr tl W p use_bn strides channels 0 identv a'' E). cbn [identv and_then]. apply flow_ext. intros y. reflexivity.
Qed.
Print Assumptions C94_flow_mobile.

(** ** The values of the layers *)
Lemma zsum_const n c : (0 <= n)%Z -> zsum n (fun _ => c) = c * IZR n.
Proof.
  intros H. unfold zsum, zseq. rewrite map_map. replace (IZR n) with (INR (Z.to_nat n)) by (rewrite INR_IZR_INZ, Z2Nat.id by exact H; reflexivity). generalize (Z.to_nat n). clear. intros n. generalize 0%nat.
  induction n as [|n IH]; intros a; [cbn; ring|]. cbn [seq map]. change (Rsum (?x :: ?l)) with (x + Rsum l). rewrite IH, S_INR. ring.
Qed.
Lemma bsum3_const b h w c : (0 <= b)%Z -> (0 <= h)%Z -> (0 <= w)%Z -> bsum [b; h; w] (fun _ => c) = c * IZR (b * (h * w)).
Proof. intros. cbn [bsum]. rewrite (zsum_const w) by assumption. rewrite (zsum_const h), (zsum_const b) by assumption. rewrite !mult_IZR. ring. Qed.
Section Mean.
Context (b h w ch : Z) (Hb : (0 < b)%Z) (Hh : (0 < h)%Z) (Hw : (0 < w)%Z) (k : Z).
Let N := IZR (b * (h * w)).
Lemma N_pos : 0 < N. Proof. unfold N. apply (IZR_lt 0). nia. Qed.
Definition M (f : list Z -> R) : R := bsum [b; h; w] (fun l => f (l ++ [k])) / N.
Lemma M_mean f : channel_mean [b; h; w; ch] f k = M f.
Proof. unfold channel_mean, M. cbn [removelast]. do 2 f_equal. unfold N. f_equal. unfold ModelShape.prod. cbn [fold_right fold_left]. ring. Qed.
Lemma M_ext f g : (forall l, f (l ++ [k]) = g (l ++ [k])) -> M f = M g.
Proof. intros H. unfold M. f_equal. apply bsum_ext. intros. apply H. Qed.
Lemma M_linear a c f g : M (fun l => a * f l + c * g l) = a * M f + c * M g.
Proof. unfold M. rewrite bsum_plus, !bsum_scale. unfold Rdiv. ring. Qed.
Lemma M_const c : M (fun _ => c) = c.
Proof. unfold M. rewrite bsum3_const by lia. fold N. pose proof N_pos. field. lra. Qed.
End Mean.
Lemma zsum_nonneg n f : (forall i, 0 <= f i) -> 0 <= zsum n f.
Proof. intros H. unfold zsum. induction (zseq n) as [|a l IH]; [cbn; lra|]. cbn [map]. change (Rsum (?x :: ?l)) with (x + Rsum l). specialize (H a). lra. Qed.
(** Batch normalisation with the statistics of the batch: afterwards every channel has the offset as its mean, and the variance is the square of the scale times v / (v + eps)
    where v, which is not negative, was the variance before. *)
Theorem C94_normalised eps tr tl W name b h w ch v k : tr || tl = true -> 0 < eps -> (0 < b)%Z -> (0 < h)%Z -> (0 < w)%Z ->
  let mean f := bsum [b; h; w] (fun l => f (l ++ [k])) / IZR (b * (h * w)) in
  let var f := mean (fun l => (f l - mean f) ^ 2) in
  exists r, bn_v eps tr tl W name ([b; h; w; ch], v) = Some ([b; h; w; ch], r) /\
    mean r = bn_offset (bn_of W name) k /\ 0 <= var v /\ var r = bn_scale (bn_of W name) k ^ 2 * (var v / (var v + eps)).
Proof.
  intros T He Hb Hh Hw. change (fun f : list Z -> R => bsum [b; h; w] (fun l => f (l ++ [k])) / IZR (b * (h * w))) with (M b h w k). intros mean var. unfold bn_v, layer, batchnorm. cbn [fst snd]. rewrite T. eexists. split; [reflexivity|].
  set (s := bn_scale (bn_of W name) k). set (o := bn_offset (bn_of W name) k). set (m := mean v).
  assert (V : var v = mean (fun l => v l ^ 2) - m ^ 2).
  { unfold var. transitivity (mean (fun l => 1 * v l ^ 2 + (- (2 * m) * v l + m ^ 2 * 1))); [apply M_ext; intros; fold m; ring|].
    assert (E : mean (fun l => 1 * v l ^ 2 + (- (2 * m) * v l + m ^ 2 * 1)) = mean (fun l => 1 * v l ^ 2 + 1 * (- (2 * m) * v l + m ^ 2 * 1))) by (apply M_ext; intros; ring).
    rewrite E. unfold mean. rewrite M_linear, (M_linear b h w k (- (2 * m)) (m ^ 2) v (fun _ => 1)), M_const by assumption. fold mean. fold m. ring. }
  assert (P : 0 <= var v).
  { unfold var, mean, M. apply Rmult_le_pos; [|apply Rlt_le, Rinv_0_lt_compat; apply (IZR_lt 0); nia]. cbn [bsum]. repeat (apply zsum_nonneg; intros ?). apply pow2_ge_0. }
  set (i := s * / sqrt (var v + eps)).
  match goal with |- mean ?r = _ /\ _ => assert (R0 : forall l, r (l ++ [k]) = i * v (l ++ [k]) + (o - i * m) * 1) end.
  { intros l. cbv beta. rewrite last_last, !M_mean. fold mean. fold m. rewrite <- V. fold s o. fold i. ring. }
  match goal with |- mean ?r = _ /\ _ => set (rr := r) in * end.
  assert (E1 : mean rr = o).
  { transitivity (mean (fun l => i * v l + (o - i * m) * 1)); [apply M_ext; exact R0|]. unfold mean. rewrite (M_linear b h w k i (o - i * m) v (fun _ => 1)), M_const by assumption. fold mean. fold m. ring. }
  split; [exact E1|]. split; [exact P|]. unfold var at 1. rewrite E1.
  transitivity (mean (fun l => i ^ 2 * (v l - m) ^ 2 + 0 * 1)).
  { apply M_ext. intros l. rewrite R0. ring. }
  unfold mean. rewrite (M_linear b h w k (i ^ 2) 0 (fun l => (v l - m) ^ 2) (fun _ => 1)). fold mean. change (mean (fun l => (v l - m) ^ 2)) with (var v). unfold i.
  assert (Q : 0 < var v + eps) by lra. assert (Q' : sqrt (var v + eps) ^ 2 = var v + eps) by (apply pow2_sqrt; lra). rewrite Rpow_mult_distr, pow_inv, Q' by (apply Rgt_not_eq, sqrt_lt_R0; exact Q). field. lra.
Qed.
Print Assumptions C94_normalised.

(** The head: averages over space, then the last layer. *)
Theorem C94_head W name n b h w ch v : exists r, thenv mean_v (linear_v W name n) ([b; h; w; ch], v) = Some ([b; n], r) /\
  forall i k, r [i; k] = zsum ch (fun j => zsum h (fun y => zsum w (fun x => v [i; y; x; j])) / IZR (h * w) * w_of W name [j; k]) + b_of W name [k].
Proof. eexists. split; reflexivity. Qed.
Print Assumptions C94_head.

(** [hk.max_pool] in front of the groups: the largest of the up to nine values around (2p, 2q); the window starts one earlier when the size is odd. *)
Theorem C94_pool b h w ch v : (0 < b)%Z -> (0 < h)%Z -> (0 < w)%Z -> (0 < ch)%Z -> exists r,
  max_pool_v ([b; h; w; ch], v) = Some ([b; (h + 1) / 2; (w + 1) / 2; ch]%Z, r) /\
  forall i p q k, (0 <= i < b)%Z -> (0 <= p < (h + 1) / 2)%Z -> (0 <= q < (w + 1) / 2)%Z -> (0 <= k < ch)%Z ->
  let window y x := (0 <= y < h)%Z /\ (0 <= x < w)%Z /\ (0 <= y - (2 * p - h mod 2) <= 2)%Z /\ (0 <= x - (2 * q - w mod 2) <= 2)%Z in
  (forall y x, window y x -> v [i; y; x; k] <= r [i; p; q; k]) /\ exists y x, window y x /\ r [i; p; q; k] = v [i; y; x; k].
Proof.
  intros Hb Hh Hw Hch. unfold max_pool_v, layer, max_pool_3_2. cbn [fst snd].
  assert (P : pool_axes [b; h; w; ch] (inr [1; 3; 3; 1]%Z) (inr [1; 2; 2; 1]%Z) (Some (-1)%Z) = Some [PoolAxis b 1 1; PoolAxis h 3 2; PoolAxis w 3 2; PoolAxis ch 1 1]) by reflexivity. rewrite P.
  assert (L : forall n, (0 < n)%Z -> lax_pads PtSame n 3 2 = (n mod 2, 1)%Z).
  { intros n Hn. cbn [lax_pads]. replace (n + 2 - 1)%Z with (n + 1)%Z by lia. pose proof (Z.div_mod n 2 ltac:(lia)) as D. pose proof (Z.mod_pos_bound n 2 ltac:(lia)) as D'. set (d := (n / 2)%Z) in *. set (e := (n mod 2)%Z) in *.
    assert (Q : ((n + 1) / 2 = d + e)%Z) by (symmetry; apply (Z.div_unique (n + 1) 2 (d + e) (1 - e)); lia). rewrite Q. replace (Z.max 0 ((d + e - 1) * 2 + 3 - n)) with (1 + e)%Z by lia.
    assert (e = 0 \/ e = 1)%Z as [->| ->] by lia; reflexivity. }
  assert (U : forall n, (0 < n)%Z -> window_count n (fst (lax_pads PtSame n 3 2)) (snd (lax_pads PtSame n 3 2)) 3 2 = ((n + 1) / 2)%Z).
  { intros n Hn. rewrite (L n Hn). cbn [fst snd]. unfold window_count. pose proof (Z.div_mod n 2 ltac:(lia)) as D. pose proof (Z.mod_pos_bound n 2 ltac:(lia)) as D'. set (d := (n / 2)%Z) in *. set (e := (n mod 2)%Z) in *.
    assert (Q : ((n + 1) / 2 = d + e)%Z) by (symmetry; apply (Z.div_unique (n + 1) 2 (d + e) (1 - e)); lia). rewrite Q.
    assert (Q2 : ((n + e + 1 - 3) / 2 = d + e - 1)%Z) by (symmetry; apply (Z.div_unique _ 2 _ 0); lia). rewrite Q2. lia. }
  assert (U1 : forall n, (0 < n)%Z -> window_count n (fst (lax_pads PtSame n 1 1)) (snd (lax_pads PtSame n 1 1)) 1 1 = n) by (intros n Hn; rewrite lax_pads_unit; unfold window_count; cbn [fst snd]; rewrite Z.div_1_r; lia).
  unfold pool_out. cbn [map pa_n pa_k pa_s]. rewrite !U, !U1 by assumption. eexists. split; [reflexivity|]. intros i p q k Hi Hp Hq Hk. cbv beta.
  set (window := fun y x : Z => (0 <= y < h)%Z /\ (0 <= x < w)%Z /\ (0 <= y - (2 * p - h mod 2) <= 2)%Z /\ (0 <= x - (2 * q - w mod 2) <= 2)%Z).
  set (axes := [PoolAxis b 1 1; PoolAxis h 3 2; PoolAxis w 3 2; PoolAxis ch 1 1]).
  destruct (C66_max PtSame axes v [i; p; q; k]) as (m & Em & Hin & Hle).
  { unfold axes. repeat constructor; cbn; lia. }
  { unfold in_shape, pool_out, axes. cbn [map pa_n pa_k pa_s]. rewrite !U, !U1 by assumption. repeat constructor; lia. }
  rewrite Em. assert (C : forall l, In l (pool_window PtSame axes [i; p; q; k]) <-> exists y x, l = [i; y; x; k] /\ window y x).
  { intros l. unfold pool_window, axes. cbn [combine map fst snd pa_n pa_k pa_s]. rewrite !axis_window_1 by assumption. rewrite in_product. unfold pool_lo. cbn [pa_n pa_k pa_s]. rewrite !L by assumption. cbn [fst]. split.
    - intros F. inversion F as [|? a0 ? l0 H0 F0]; subst. inversion F0 as [|? a1 ? l1 H1 F1]; subst. inversion F1 as [|? a2 ? l2 H2 F2]; subst. inversion F2 as [|? a3 ? l3 H3 F3]; subst. inversion F3; subst.
      apply in_axis_window in H1, H2. destruct H0 as [<-|[]], H3 as [<-|[]]. exists a1, a2. split; [reflexivity|]. unfold window. lia.
    - intros (y & x & -> & H1 & H2 & H3 & H4). repeat (constructor; [first [now left|apply in_axis_window; lia]|]). constructor. }
  unfold entries in Hin, Hle. split.
  - intros y x Hyx. apply Hle. apply in_map_iff. exists [i; y; x; k]. split; [reflexivity|]. apply C. exists y, x. exact (conj eq_refl Hyx).
  - apply in_map_iff in Hin as (l & <- & Hl). apply C in Hl as (y & x & -> & Hyx). exists y, x. exact (conj Hyx eq_refl).
Qed.
Print Assumptions C94_pool.
(** [jax.nn.relu], and the sum of two arrays of one shape. *)
Theorem C94_relu_sum b h w ch u v : exists r s, relu_v ([b; h; w; ch], v) = Some ([b; h; w; ch], r) /\ add_v ([b; h; w; ch], u) ([b; h; w; ch], v) = Some ([b; h; w; ch], s) /\
  (forall idx, r idx = if Rle_dec (v idx) 0 then 0 else v idx) /\
  forall i y x k, (0 <= i < b)%Z -> (0 <= y < h)%Z -> (0 <= x < w)%Z -> (0 <= k < ch)%Z -> s [i; y; x; k] = u [i; y; x; k] + v [i; y; x; k].
Proof.
  unfold add_v. cbn [fst snd]. rewrite broadcast_4. unfold bdim. rewrite !Z.eqb_refl. eexists _, _. split; [reflexivity|]. split; [reflexivity|]. split.
  - intros idx. cbv beta. unfold Rmax. cbn [snd]. reflexivity.
  - intros i y x k Hi Hy Hx Hk. rewrite !clip_4. assert (C : forall n j, (0 <= j < n)%Z -> (if (n =? 1)%Z then 0 else j)%Z = j) by (intros n j Hj; destruct (Z.eqb_spec n 1); lia). now rewrite !C by assumption.
Qed.
Print Assumptions C94_relu_sum.
(** Images of 2 by 3: the window of the second column holds only the last column and the one before. *)
Example C94_pool_case v : exists r, max_pool_v ([1; 2; 3; 1]%Z, v) = Some ([1; 1; 2; 1]%Z, r) /\ r [0; 0; 1; 0]%Z = Rmax (v [0; 0; 1; 0]%Z) (Rmax (v [0; 0; 2; 0]%Z) (Rmax (v [0; 1; 1; 0]%Z) (v [0; 1; 2; 0]%Z))).
Proof. eexists. split; [vm_compute; reflexivity|]. cbv -[Rmax]. now rewrite !Rmax_assoc. Qed.
(** Two pixels 1 and 3 in two images: mean 2, variance 1; with scale 3, offset 5 and eps 1 the variance becomes 9 / 2. *)
Example C94_normalised_case : exists r, bn_v 1 true false (Weights (fun _ _ => 0) (fun _ _ => 0) (fun _ => BN (fun _ => 3) (fun _ => 5) (fun _ => 0) (fun _ => 0))) "b" ([2; 1; 1; 1]%Z, fun idx => match idx with 0%Z :: _ => 1 | _ => 3 end) =
  Some ([2; 1; 1; 1]%Z, r) /\ (r [0; 0; 0; 0]%Z + r [1; 0; 0; 0]%Z) / 2 = 5 /\ ((r [0; 0; 0; 0]%Z - 5) ^ 2 + (r [1; 0; 0; 0]%Z - 5) ^ 2) / 2 = 9 / 2.
Proof.
  destruct (C94_normalised 1 true false (Weights (fun _ _ => 0) (fun _ _ => 0) (fun _ => BN (fun _ => 3) (fun _ => 5) (fun _ => 0) (fun _ => 0))) "b" 2 1 1 1 (fun idx => match idx with 0%Z :: _ => 1 | _ => 3 end) 0) as (r & E & M1 & _ & M2); [reflexivity|lra|reflexivity..|]. exists r. split; [exact E|].
  cbv -[Rplus Rmult Rminus Rdiv IZR Rinv pow] in M1, M2. split; [rewrite <- M1; field|].
  assert (X : (r [0; 0; 0; 0]%Z + r [1; 0; 0; 0]%Z) / 2 = 5) by (rewrite <- M1; field).
  match type of M2 with _ = ?e => replace e with (9 / 2) in M2 by field end. rewrite <- M2, <- M1. field.
Qed.
(** A MobileNet with one block and no batch normalisation, its modules written out. *)
Example C94_flow_mobile_case W x : option_map (fun f => f x) (mobilenet_v 1 true false W "m" [1; 2]%Z [64; 128]%Z 10 false) = Some (
  do a <- conv_v W "m/conv2_d" 32 3 2 PtValid true x; do a <- relu_v a;
  do a <- depthwise_v W "m/mobile_net_v1_block/depthwise_conv" [3; 3]%Z [1; 1]%Z (inr [(1, 1); (1, 1)]%Z) true a; do a <- relu_v a;
  do a <- conv_v W "m/mobile_net_v1_block/pointwise_conv" 64 1 1 PtValid true a; do a <- relu_v a;
  do a <- depthwise_v W "m/mobile_net_v1_block_1/depthwise_conv" [3; 3]%Z [2; 2]%Z (inr [(1, 1); (1, 1)]%Z) true a; do a <- relu_v a;
  do a <- conv_v W "m/mobile_net_v1_block_1/pointwise_conv" 128 1 1 PtValid true a; do a <- relu_v a;
  do a <- mean_v a; linear_v W "m/logits" 10 a).
Proof.
  rewrite C94_flow_mobile. cbn [length Nat.eqb mobile_blocks_flow]. f_equal. apply flow_ext. intros a. cbn [and_then]. apply flow_ext. intros a'. rewrite !flow_assoc.
  unfold mobile_block_flow at 1. cbn [negb]. rewrite !flow_assoc. apply flow_ext. intros a1. cbn [and_then]. rewrite !flow_assoc. apply flow_ext. intros a2. rewrite !flow_assoc. apply flow_ext. intros a3. cbn [and_then]. apply flow_ext. intros a4.
  rewrite flow_assoc. unfold mobile_block_flow. cbn [negb]. flow.
Qed.

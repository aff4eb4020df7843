(** C95, second part: what the torsos compute, in closed form; shapes; [__call__]; CatchNet; [preprocess_step] *)
From Coq Require Import Reals ZArith String List Bool Lia Lra.
From Verif Require Import ModelNets ModelShape ModelReal ModelPool ModelConv ModelImageNets ModelCheckpoint ModelImageValues ModelAtari Properties09 Properties14 Properties23 Properties32 Properties33 Properties40 Properties53 Properties54 Properties56 Properties57.
Import ListNotations.
Local Open Scope R_scope.

(** ** Convolutions *)
Lemma conv_formula W name n k s t bias b h w c x i p q co : (0 <= co < n)%Z ->
  conv_values (ConvND 2 n [k; k] [s; s] [1; 1]%Z (inl t) true 1) [b; h; w; c] (w_of W name) None bias x [i; p; q; co] =
  zsum k (fun a => zsum k (fun e => zsum c (fun ci =>
    (let y := (p * s + a - fst (lax_pads t h k s))%Z in let z := (q * s + e - fst (lax_pads t w k s))%Z in
     if (0 <=? y)%Z && (y <? h)%Z && ((0 <=? z)%Z && (z <? w)%Z) then x [i; y; z; ci] else 0) * w_of W name [a; e; ci; co]))) + opt_bias bias [co].
Proof.
  intros Hco. unfold conv_values. cbn [length cv_spatial Nat.eqb]. set (cv := ConvND 2 n [k; k] [s; s] [1; 1]%Z (inl t) true 1).
  assert (Wf : wf_conv cv [h; w]) by (repeat split; try reflexivity; cbn; discriminate).
  pose proof (C77_formula cv b [h; w] c (w_of W name) None bias x i [p; q] co Wf eq_refl) as F. cbn zeta in F.
  change (cv_last cv) with true in F. change (cv_groups cv) with 1%Z in F. change (cv_out cv) with n in F. change (cv_kernel cv) with [k; k] in F. change (cv_stride cv) with [s; s] in F. change (cv_rate cv) with [1; 1]%Z in F.
  change [b; h; w; c] with (image_index true b [h; w] c). change [i; p; q; co] with (image_index true i [p; q] co). rewrite F. f_equal.
  cbn [bsum]. apply zsum_ext. intros a Ha. apply zsum_ext. intros e He. rewrite Z.div_1_r. apply zsum_ext. intros ci Hci. f_equal.
  change (pads_for cv [h; w]) with (string_pads t [h; w] [k; k] [1; 1]%Z [s; s]). cbn [string_pads map fst position inside]. rewrite !Z.mul_1_r, andb_true_r.
  assert (K : effective k 1 = k) by (unfold effective; lia). rewrite !K, Z.div_1_r, (Z.div_small co n) by exact Hco. reflexivity.
Qed.
(** A convolution over the windows inside an image, and one with a border of zeros that keeps the size. *)
Definition conv_inside (k s c : Z) (w : list Z -> R) (b : list Z -> R) (x : Z -> Z -> Z -> R) (p q co : Z) : R :=
  zsum k (fun a => zsum k (fun e => zsum c (fun ci => x (s * p + a)%Z (s * q + e)%Z ci * w [a; e; ci; co]))) + b [co].
Definition bordered (h w : Z) (x : Z -> Z -> Z -> R) (y z ci : Z) : R := if (0 <=? y)%Z && (y <? h)%Z && ((0 <=? z)%Z && (z <? w)%Z) then x y z ci else 0.
Definition conv_bordered (h w c : Z) (k : list Z -> R) (b : list Z -> R) (x : Z -> Z -> Z -> R) (p q co : Z) : R :=
  zsum 3 (fun a => zsum 3 (fun e => zsum c (fun ci => bordered h w x (p + a - 1) (q + e - 1) ci * k [a; e; ci; co]))) + b [co].
Definition pos (v : R) : R := if Rle_dec v 0 then 0 else v.
(** Image [i] of a batch. *)
Definition image (x : list Z -> R) (i : Z) : Z -> Z -> Z -> R := fun p q k => x [i; p; q; k].

(** A network on batches of images described by what it does to one image. *)
Definition on_images (f : vnet) (b h w c h' w' c' : Z) (F : (Z -> Z -> Z -> R) -> Z -> Z -> Z -> R) : Prop :=
  forall x, exists y, f ([b; h; w; c], x) = Some ([b; h'; w'; c'], y) /\
  forall i p q k, (0 <= i < b)%Z -> (0 <= p < h')%Z -> (0 <= q < w')%Z -> (0 <= k < c')%Z -> y [i; p; q; k] = F (image x i) p q k.
(** [F] looks only at the pixels there are. *)
Definition local (h w c h' w' c' : Z) (F : (Z -> Z -> Z -> R) -> Z -> Z -> Z -> R) : Prop :=
  forall u v, (forall p q k, (0 <= p < h)%Z -> (0 <= q < w)%Z -> (0 <= k < c)%Z -> u p q k = v p q k) ->
  forall p q k, (0 <= p < h')%Z -> (0 <= q < w')%Z -> (0 <= k < c')%Z -> F u p q k = F v p q k.
Lemma on_then f g b h w c h1 w1 c1 h2 w2 c2 F G : on_images f b h w c h1 w1 c1 F -> on_images g b h1 w1 c1 h2 w2 c2 G -> local h1 w1 c1 h2 w2 c2 G ->
  on_images (thenv f g) b h w c h2 w2 c2 (fun x => G (F x)).
Proof.
  intros Hf Hg Lg x. destruct (Hf x) as (y & Ey & Vy). destruct (Hg y) as (z & Ez & Vz). exists z. unfold thenv. rewrite Ey. split; [exact Ez|].
  intros i p q k Hi Hp Hq Hk. rewrite Vz by assumption. apply Lg; [|assumption..]. intros p' q' k' Hp' Hq' Hk'. unfold image at 1. now apply Vy.
Qed.
Lemma local_comp h w c h1 w1 c1 h2 w2 c2 F G : local h w c h1 w1 c1 F -> local h1 w1 c1 h2 w2 c2 G -> local h w c h2 w2 c2 (fun x => G (F x)).
Proof. intros LF LG u v H. apply LG. now apply LF. Qed.
Lemma on_relu b h w c : on_images relu_v b h w c h w c (fun x p q k => pos (x p q k)).
Proof. intros x. eexists. split; [reflexivity|]. intros i p q k _ _ _ _. unfold image, pos, Rmax. reflexivity. Qed.
Lemma local_relu h w c : local h w c h w c (fun x p q k => pos (x p q k)).
Proof. intros u v H p q k Hp Hq Hk. now rewrite H. Qed.
Lemma on_255 b h w c : on_images over_255 b h w c h w c (fun x p q k => x p q k / 255).
Proof. intros x. eexists. split; [reflexivity|]. now intros i p q k _ _ _ _. Qed.
(** How many windows there are. *)
Definition windows (n k s : Z) : Z := Z.max 0 ((n - k) / s + 1).
Lemma window_last n k s p a : (0 < s)%Z -> (0 <= p < windows n k s)%Z -> (0 <= a < k)%Z -> (0 <= s * p + a < n)%Z.
Proof.
  intros Hs Hp Ha. unfold windows in Hp. assert (p <= (n - k) / s)%Z by lia. assert (s * ((n - k) / s) <= n - k)%Z by (apply Z.mul_div_le; lia). nia.
Qed.
Lemma local_inside k s h w c n ker bi : (0 < s)%Z -> local h w c (windows h k s) (windows w k s) n (conv_inside k s c ker bi).
Proof.
  intros Hs u v H p q co Hp Hq Hco. unfold conv_inside. f_equal. apply zsum_ext. intros a Ha. apply zsum_ext. intros e He. apply zsum_ext. intros ci Hci. f_equal.
  apply H; [now apply (window_last h k)|now apply (window_last w k)|assumption].
Qed.
Lemma on_conv_valid W name n k s b h w c : (0 < s)%Z -> (0 <= b)%Z -> (0 <= h)%Z -> (0 <= w)%Z ->
  on_images (conv_v W name n k s PtValid true) b h w c (windows h k s) (windows w k s) n (conv_inside k s c (w_of W name) (b_of W name)).
Proof.
  intros Hs Hb Hh Hw x. unfold conv_v, layer. cbn [fst snd]. rewrite (regular_conv_valid n k s true c b h w Hb Hh Hw). eexists.
  assert (E : forall m, window_count m 0 0 k s = windows m k s) by (intros m; unfold window_count, windows; now rewrite !Z.add_0_r). rewrite !E. split; [reflexivity|].
  intros i p q co Hi Hp Hq Hco. rewrite conv_formula by assumption. unfold conv_inside, image. cbn [lax_pads fst opt_bias]. f_equal.
  apply zsum_ext. intros a Ha. apply zsum_ext. intros e He. apply zsum_ext. intros ci Hci. f_equal. cbv zeta. rewrite !Z.sub_0_r, (Z.mul_comm p s), (Z.mul_comm q s).
  pose proof (window_last h k s p a Hs Hp Ha). pose proof (window_last w k s q e Hs Hq He).
  now replace ((0 <=? s * p + a)%Z && (s * p + a <? h)%Z && ((0 <=? s * q + e)%Z && (s * q + e <? w)%Z)) with true by (symmetry; rewrite !andb_true_iff; lia).
Qed.
Lemma local_bordered h w c n ker bi : local h w c h w n (conv_bordered h w c ker bi).
Proof.
  intros u v H p q co Hp Hq Hco. unfold conv_bordered. f_equal. apply zsum_ext. intros a Ha. apply zsum_ext. intros e He. apply zsum_ext. intros ci Hci. f_equal.
  unfold bordered. destruct (_ && _) eqn:In; [|reflexivity]. rewrite !andb_true_iff in In. apply H; lia.
Qed.
Lemma on_conv_same W name n b h w c : (0 <= b)%Z -> (0 <= h)%Z -> (0 <= w)%Z ->
  on_images (conv_v W name n 3 1 PtSame true) b h w c h w n (conv_bordered h w c (w_of W name) (b_of W name)).
Proof.
  intros Hb Hh Hw x. unfold conv_v, layer. cbn [fst snd]. rewrite (regular_conv_same n 3 1 true c ltac:(lia) ltac:(lia) b h w Hb Hh Hw), !cdiv_1. eexists. split; [reflexivity|].
  intros i p q co Hi Hp Hq Hco. rewrite conv_formula by assumption. unfold conv_bordered, image. rewrite !lax_pads_same by lia. cbn [fst opt_bias]. f_equal.
  apply zsum_ext. intros a Ha. apply zsum_ext. intros e He. apply zsum_ext. intros ci Hci. f_equal. unfold bordered. cbv zeta. rewrite !Z.mul_1_r. reflexivity.
Qed.

(** ** The torsos *)
Lemma zsum_split n m f : (0 <= n)%Z -> (0 <= m)%Z -> zsum (n * m) f = zsum n (fun i => zsum m (fun j => f (i * m + j)%Z)).
Proof.
  intros Hn Hm. pattern n. apply natlike_ind; [reflexivity| |exact Hn]. clear n Hn. intros n Hn IH. rewrite <- Z.add_1_r.
  assert (A : forall a d g, (0 <= a)%Z -> (0 <= d)%Z -> zsum (a + d) g = zsum a g + zsum d (fun j => g (a + j)%Z)).
  { intros a d g Ha Hd. unfold zsum, zseq. rewrite Z2Nat.inj_add, seq_app, !map_app, Rsum_app by assumption. f_equal. cbn [Nat.add]. rewrite <- (Nat.add_0_l (Z.to_nat a)) at 1.
    f_equal. rewrite !map_map. replace (seq (0 + Z.to_nat a) (Z.to_nat d)) with (map (fun j => (Z.to_nat a + j)%nat) (seq 0 (Z.to_nat d))); [rewrite map_map; apply map_ext; intros j; f_equal; lia|].
    generalize (Z.to_nat a) as a0. generalize (Z.to_nat d) as d0. clear. intros d0 a0. rewrite (Nat.add_comm 0 a0). generalize 0%nat as o. induction d0 as [|d0 IH]; intros o; [reflexivity|]. cbn [seq map]. f_equal. rewrite IH. f_equal. lia. }
  rewrite (A n 1%Z) by lia. rewrite zsum_1, Z.add_0_r. rewrite Z.mul_add_distr_r, Z.mul_1_l. rewrite A by nia. now rewrite IH.
Qed.
Lemma flatten_linear W name n b h w c x : (0 <= h)%Z -> (0 <= w)%Z -> (0 <= c)%Z -> exists y, thenv flatten_v (thenv (dense W name n) relu_v) ([b; h; w; c], x) = Some ([b; n], y) /\
  forall i u, y [i; u] = pos (zsum h (fun p => zsum w (fun q => zsum c (fun k => x [i; p; q; k] * w_of W name [((p * w + q) * c + k)%Z; u]))) + b_of W name [u]).
Proof.
  intros Hh Hw Hc. unfold thenv, flatten_v, dense, linear_v, relu_v, layer, ident. cbn [fst snd]. rewrite flatten_shape. cbn [ModelImageNets.linear fst snd tl ModelShape.prod]. eexists. split; [reflexivity|].
  intros i u. unfold pos, Rmax. cbv beta.
  assert (E : zsum (h * (w * (c * 1))) (fun j => x (i :: unravel [h; w; c] j) * w_of W name [j; u]) = zsum h (fun p => zsum w (fun q => zsum c (fun k => x [i; p; q; k] * w_of W name [((p * w + q) * c + k)%Z; u])))).
  { rewrite !Z.mul_1_r. rewrite zsum_split by nia. apply zsum_ext. intros p Hp. rewrite zsum_split by nia. apply zsum_ext. intros q Hq. apply zsum_ext. intros k Hk. cbn [unravel ModelShape.prod]. rewrite !Z.mul_1_r, Z.div_1_r.
    assert (R1 : (0 <= q * c + k < w * c)%Z) by nia. rewrite (Z.div_add_l p (w * c) (q * c + k)) by lia. rewrite (Z.div_small (q * c + k)) by exact R1.
    rewrite (Z.add_comm (p * (w * c))), (Z.mod_add (q * c + k) p (w * c)) by lia. rewrite (Z.mod_small (q * c + k)) by exact R1.
    rewrite (Z.div_add_l q c k) by lia. rewrite (Z.div_small k c) by exact Hk. rewrite (Z.add_comm (q * c) k), (Z.mod_add k q c) by lia. rewrite (Z.mod_small k c) by exact Hk.
    f_equal; [f_equal; repeat (f_equal; try lia)|]. f_equal. f_equal. ring. }
  rewrite E. reflexivity.
Qed.
(** [AtariShallowTorso]: three convolutions over the windows inside the image, with kernels of 8, 4 and 3 pixels and strides 4, 2 and 1, each
    followed by the positive part; then a linear layer on the features in row-major order. *)
Theorem C95_shallow W p b h w c x : (0 <= b)%Z -> (0 <= h)%Z -> (0 <= w)%Z -> exists y, shallow_torso W p ([b; h; w; c], x) = Some ([b; 512%Z], y) /\
  forall i u, (0 <= i < b)%Z -> (0 <= u < 512)%Z ->
  let size n := windows (windows (windows n 8 4) 4 2) 3 1 in
  let named n := (p ++ "/" ++ n)%string in
  let l0 y z k := x [i; y; z; k] / 255 in
  let l1 y z k := pos (conv_inside 8 4 c (w_of W (named "conv2_d"%string)) (b_of W (named "conv2_d"%string)) l0 y z k) in
  let l2 y z k := pos (conv_inside 4 2 32 (w_of W (named "conv2_d_1"%string)) (b_of W (named "conv2_d_1"%string)) l1 y z k) in
  let l3 y z k := pos (conv_inside 3 1 64 (w_of W (named "conv2_d_2"%string)) (b_of W (named "conv2_d_2"%string)) l2 y z k) in
  y [i; u] = pos (zsum (size h) (fun y => zsum (size w) (fun z => zsum 64 (fun k => l3 y z k * w_of W (named "linear"%string) [((y * size w + z) * 64 + k)%Z; u]))) + b_of W (named "linear"%string) [u]).
Proof.
  intros Hb Hh Hw. assert (P : forall n k s, (0 <= windows n k s)%Z) by (intros; unfold windows; lia).
  pose proof (on_255 b h w c) as O0.
  assert (U : forall n ch k s f h0 w0 c0 F name h1 w1, (0 < s)%Z -> (0 <= h1)%Z -> (0 <= w1)%Z -> on_images f b h0 w0 c0 h1 w1 ch F ->
    on_images (thenv (thenv f (conv_v W name n k s PtValid true)) relu_v) b h0 w0 c0 (windows h1 k s) (windows w1 k s) n (fun x p q k' => pos (conv_inside k s ch (w_of W name) (b_of W name) (F x) p q k'))).
  { intros n ch k s f h0 w0 c0 F name h1 w1 Hs H1 W1 Of. eapply (on_then _ _ _ _ _ _ _ _ _ _ _ _ _ (fun x p q k' => pos (x p q k'))); [|apply on_relu|apply local_relu].
    eapply on_then; [exact Of|now apply on_conv_valid|now apply local_inside]. }
  pose proof (U 32%Z c 8%Z 4%Z over_255 h w c _ (inside_call p "conv2_d") h w ltac:(lia) Hh Hw O0) as O1.
  pose proof (U 64%Z 32%Z 4%Z 2%Z _ h w c _ (inside_call p "conv2_d_1") _ _ ltac:(lia) (P _ _ _) (P _ _ _) O1) as O2.
  pose proof (U 64%Z 64%Z 3%Z 1%Z _ h w c _ (inside_call p "conv2_d_2") _ _ ltac:(lia) (P _ _ _) (P _ _ _) O2) as O3. clear O0 O1 O2 U.
  destruct (O3 x) as (f & Ef & Vf). destruct (flatten_linear W (inside_call p "linear") 512 b _ _ 64 f (P (windows (windows h 8 4) 4 2) 3%Z 1%Z) (P (windows (windows w 8 4) 4 2) 3%Z 1%Z) ltac:(lia)) as (y & Ey & Vy).
  exists y. split.
  - unfold shallow_torso. unfold thenv in Ef, Ey |- *.
    destruct (over_255 _) as [a1|]; [|discriminate]. destruct (conv_v W (inside_call p "conv2_d") 32 8 4 PtValid true a1) as [a2|]; [|discriminate]. destruct (relu_v a2) as [a3|]; [|discriminate].
    destruct (conv_v W (inside_call p "conv2_d_1") 64 4 2 PtValid true a3) as [a4|]; [|discriminate]. destruct (relu_v a4) as [a5|]; [|discriminate].
    destruct (conv_v W (inside_call p "conv2_d_2") 64 3 1 PtValid true a5) as [a6|]; [|discriminate]. rewrite Ef. exact Ey.
  - intros i u Hi Hu. cbv zeta. rewrite Vy. f_equal. f_equal. apply zsum_ext. intros y0 Hy. apply zsum_ext. intros z Hz. apply zsum_ext. intros k Hk. f_equal. now apply Vf.
Qed.
Print Assumptions C95_shallow.
(** [ResidualBlock]: the image plus two convolutions of its positive part, with a border of zeros; shape kept. *)
Lemma on_residual W p b h w c : (0 <= b)%Z -> (0 <= h)%Z -> (0 <= w)%Z -> on_images (residual_block W p c) b h w c h w c (fun x y z k =>
  conv_bordered h w c (w_of W (inside_call p "conv2_d_1")) (b_of W (inside_call p "conv2_d_1"))
    (fun y z k => pos (conv_bordered h w c (w_of W (inside_call p "conv2_d")) (b_of W (inside_call p "conv2_d")) (fun y z k => pos (x y z k)) y z k)) y z k + x y z k).
Proof.
  intros Hb Hh Hw x.
  assert (O : on_images (thenv (thenv (thenv relu_v (conv_v W (inside_call p "conv2_d") c 3 1 PtSame true)) relu_v) (conv_v W (inside_call p "conv2_d_1") c 3 1 PtSame true)) b h w c h w c (fun x y z k =>
    conv_bordered h w c (w_of W (inside_call p "conv2_d_1")) (b_of W (inside_call p "conv2_d_1"))
    (fun y z k => pos (conv_bordered h w c (w_of W (inside_call p "conv2_d")) (b_of W (inside_call p "conv2_d")) (fun y z k => pos (x y z k)) y z k)) y z k)).
  { apply (on_then _ _ b h w c h w c h w c (fun x y z k => pos (conv_bordered h w c (w_of W (inside_call p "conv2_d")) (b_of W (inside_call p "conv2_d")) (fun y z k => pos (x y z k)) y z k))
      (conv_bordered h w c (w_of W (inside_call p "conv2_d_1")) (b_of W (inside_call p "conv2_d_1")))); [|now apply on_conv_same|apply local_bordered].
    apply (on_then _ _ b h w c h w c h w c (fun x => conv_bordered h w c (w_of W (inside_call p "conv2_d")) (b_of W (inside_call p "conv2_d")) (fun y z k => pos (x y z k))) (fun x y z k => pos (x y z k))); [|apply on_relu|apply local_relu].
    apply (on_then _ _ b h w c h w c h w c (fun x y z k => pos (x y z k)) (conv_bordered h w c (w_of W (inside_call p "conv2_d")) (b_of W (inside_call p "conv2_d")))); [apply on_relu|now apply on_conv_same|apply local_bordered]. }
  destruct (O x) as (y & Ey & Vy). unfold residual_block. unfold thenv in Ey |- *.
  destruct (relu_v ([b; h; w; c], x)) as [a1|]; [|discriminate]. destruct (conv_v W (inside_call p "conv2_d") c 3 1 PtSame true a1) as [a2|]; [|discriminate]. destruct (relu_v a2) as [a3|]; [|discriminate]. rewrite Ey.
  destruct (C94_relu_sum b h w c y x) as (_ & s & _ & Es & _ & Vs). exists s. split; [exact Es|]. intros i y0 z k Hi Hy Hz Hk. rewrite Vs by assumption. rewrite Vy by assumption. reflexivity.
Qed.
Theorem C95_residual W p b h w c x : (0 <= b)%Z -> (0 <= h)%Z -> (0 <= w)%Z -> exists y, residual_block W p c ([b; h; w; c], x) = Some ([b; h; w; c], y) /\
  forall i u v k, (0 <= i < b)%Z -> (0 <= u < h)%Z -> (0 <= v < w)%Z -> (0 <= k < c)%Z ->
  let named n := (p ++ "/" ++ n)%string in
  let l1 y z k := conv_bordered h w c (w_of W (named "conv2_d"%string)) (b_of W (named "conv2_d"%string)) (fun y z k => pos (x [i; y; z; k])) y z k in
  let l2 y z k := conv_bordered h w c (w_of W (named "conv2_d_1"%string)) (b_of W (named "conv2_d_1"%string)) (fun y z k => pos (l1 y z k)) y z k in
  y [i; u; v; k] = x [i; u; v; k] + l2 u v k.
Proof. intros Hb Hh Hw. destruct (on_residual W p b h w c Hb Hh Hw x) as (y & Ey & Vy). exists y. split; [exact Ey|]. intros i u v k Hi Hu Hv Hk. cbv zeta. rewrite Vy by assumption. apply Rplus_comm. Qed.
Print Assumptions C95_residual.
(** A block whose second convolution is zero changes nothing. *)
Theorem C95_residual_identity W p b h w c x : (0 <= b)%Z -> (0 <= h)%Z -> (0 <= w)%Z ->
  (forall idx, w_of W (p ++ "/conv2_d_1")%string idx = 0) -> (forall idx, b_of W (p ++ "/conv2_d_1")%string idx = 0) ->
  exists y, residual_block W p c ([b; h; w; c], x) = Some ([b; h; w; c], y) /\
  forall i u v k, (0 <= i < b)%Z -> (0 <= u < h)%Z -> (0 <= v < w)%Z -> (0 <= k < c)%Z -> y [i; u; v; k] = x [i; u; v; k].
Proof.
  intros Hb Hh Hw Z1 Z2. destruct (C95_residual W p b h w c x Hb Hh Hw) as (y & Ey & Vy). exists y. split; [exact Ey|]. intros i u v k Hi Hu Hv Hk. rewrite Vy by assumption. cbv zeta.
  change (p ++ "/" ++ "conv2_d_1")%string with (p ++ "/conv2_d_1")%string. unfold conv_bordered at 1. rewrite Z2.
  rewrite (zsum_ext 3 _ (fun _ => 0)); [rewrite zsum_0; ring|]. intros a _. rewrite (zsum_ext 3 _ (fun _ => 0)); [apply zsum_0|]. intros e _. rewrite (zsum_ext c _ (fun _ => 0)); [apply zsum_0|]. intros ci _. rewrite Z1. ring.
Qed.
Print Assumptions C95_residual_identity.

(** ** Shapes *)
Definition shaped (f : vnet) (s s' : list Z) : Prop := forall x, exists y, f (s, x) = Some (s', y).
Lemma shaped_then f g s s1 s2 : shaped f s s1 -> shaped g s1 s2 -> shaped (thenv f g) s s2.
Proof. intros F G x. unfold thenv. destruct (F x) as (y & ->). apply G. Qed.
Lemma shaped_on f b h w c h' w' c' F : on_images f b h w c h' w' c' F -> shaped f [b; h; w; c] [b; h'; w'; c'].
Proof. intros O x. destruct (O x) as (y & E & _). now exists y. Qed.
Lemma shaped_section W p i n m b h w c : (0 <= b)%Z -> (0 <= h)%Z -> (0 <= w)%Z -> (0 <= n)%Z -> shaped (section_v W p i n m) [b; h; w; c] [b; cdiv h 2; cdiv w 2; n].
Proof.
  intros Hb Hh Hw Hn. unfold section_v. eapply shaped_then; [eapply shaped_on; now apply on_conv_same|]. eapply shaped_then.
  - intros x. unfold max_pool_v, layer. cbn [fst snd]. rewrite (regular_pool n Hn b h w Hb Hh Hw). eexists. reflexivity.
  - assert (I : forall l f, shaped f [b; cdiv h 2; cdiv w 2; n] [b; cdiv h 2; cdiv w 2; n] -> shaped (fold_left (fun f j => thenv f (residual_block W (inside_call p (residual_name i j)) n)) l f) [b; cdiv h 2; cdiv w 2; n] [b; cdiv h 2; cdiv w 2; n]).
    { induction l as [|j l IH]; intros f F; [exact F|]. cbn [fold_left]. apply IH. eapply shaped_then; [exact F|]. eapply shaped_on. apply on_residual; [exact Hb|apply cdiv_nonneg; lia..]. }
    apply I. intros x. now exists x.
Qed.
(** [AtariDeepTorso]: each of the three sections halves the image, rounding up. *)
Theorem C95_deep_shape W p b h w c x : (0 <= b)%Z -> (0 <= h)%Z -> (0 <= w)%Z ->
  exists f y, deep_features W p [(16%Z, 2%nat); (32%Z, 2%nat); (32%Z, 2%nat)] ([b; h; w; c], x) = Some ([b; (h + 7) / 8; (w + 7) / 8; 32]%Z, f) /\ deep_torso W p ([b; h; w; c], x) = Some ([b; 256%Z], y) /\
  forall i u, y [i; u] = pos (zsum ((h + 7) / 8) (fun p' => zsum ((w + 7) / 8) (fun q => zsum 32 (fun k => pos (f [i; p'; q; k]) * w_of W (p ++ "/linear")%string [((p' * ((w + 7) / 8) + q) * 32 + k)%Z; u]))) + b_of W (p ++ "/linear")%string [u]).
Proof.
  intros Hb Hh Hw. assert (D : forall n, cdiv (cdiv (cdiv n 2) 2) 2 = ((n + 7) / 8)%Z) by (intros n; rewrite !cdiv_cdiv by lia; unfold cdiv; f_equal; lia).
  assert (S : shaped (deep_features W p [(16%Z, 2%nat); (32%Z, 2%nat); (32%Z, 2%nat)]) [b; h; w; c] [b; (h + 7) / 8; (w + 7) / 8; 32]%Z).
  { unfold deep_features. cbn [length seq combine fold_left]. rewrite <- !D. repeat (eapply shaped_then; [|apply shaped_section; try apply cdiv_nonneg; try apply cdiv_nonneg; lia]). eapply shaped_on. apply on_255. }
  destruct (S x) as (f & Ef). exists f. unfold deep_torso. unfold thenv at 1. rewrite Ef. unfold thenv at 1. destruct (on_relu b ((h + 7) / 8) ((w + 7) / 8) 32 f) as (g & Eg & _).
  destruct (flatten_linear W (inside_call p "linear") 256 b ((h + 7) / 8) ((w + 7) / 8) 32 (fun idx => Rmax (f idx) 0) ltac:(apply Z.div_pos; lia) ltac:(apply Z.div_pos; lia) ltac:(lia)) as (y & Ey & Vy).
  exists y. split; [reflexivity|]. split; [exact Ey|]. intros i u. rewrite Vy. f_equal. 
Qed.
Print Assumptions C95_deep_shape.
(** Its layers in order, with the names of their parameters. *)
Theorem C95_deep_layers W p x : let conv n c := conv_v W (p ++ "/" ++ n)%string c 3 1 PtSame true in let block n c := residual_block W (p ++ "/" ++ n)%string c in
  deep_features W p [(16%Z, 2%nat); (32%Z, 2%nat); (32%Z, 2%nat)] x =
  thenv over_255 (thenv (conv "conv2_d"%string 16%Z) (thenv max_pool_v (thenv (block "residual_0_0"%string 16%Z) (thenv (block "residual_0_1"%string 16%Z)
    (thenv (conv "conv2_d_1"%string 32%Z) (thenv max_pool_v (thenv (block "residual_1_0"%string 32%Z) (thenv (block "residual_1_1"%string 32%Z)
    (thenv (conv "conv2_d_2"%string 32%Z) (thenv max_pool_v (thenv (block "residual_2_0"%string 32%Z) (block "residual_2_1"%string 32%Z)))))))))))) x.
Proof.
  cbv zeta.
  unfold deep_features, section_v. cbn [length seq combine fold_left].
  change (unique "conv2_d" 0) with "conv2_d"%string. change (unique "conv2_d" 1) with "conv2_d_1"%string. change (unique "conv2_d" 2) with "conv2_d_2"%string.
  change (residual_name 0 0) with "residual_0_0"%string. change (residual_name 0 1) with "residual_0_1"%string. change (residual_name 1 0) with "residual_1_0"%string.
  change (residual_name 1 1) with "residual_1_1"%string. change (residual_name 2 0) with "residual_2_0"%string. change (residual_name 2 1) with "residual_2_1"%string.
  unfold thenv, identv, inside_call.
  repeat match goal with |- context [match ?e with Some _ => _ | None => None end] => lazymatch e with context [match _ with _ => _ end] => fail | _ => destruct e end end; reflexivity.
Qed.
Print Assumptions C95_deep_layers.

Section Whole.
Context (W : weights) (lstm_w : list (list R)) (lstm_b : list R) (p : string) (num_actions : Z).
Lemma shaped_torso use_resnet b h w c : (0 <= b)%Z -> (0 <= h)%Z -> (0 <= w)%Z -> exists n, shaped (torso_v W p use_resnet) [b; h; w; c] [b; n].
Proof.
  intros Hb Hh Hw. unfold torso_v. destruct use_resnet.
  - exists 256%Z. intros x. destruct (C95_deep_shape W (inside_call (inside_call p "~unroll") "atari_deep_torso") b h w c x Hb Hh Hw) as (f & y & _ & E & _). now exists y.
  - exists 512%Z. intros x. destruct (C95_shallow W (inside_call (inside_call p "~unroll") "atari_shallow_torso") b h w c x Hb Hh Hw) as (y & E & _). now exists y.
Qed.
(** Every unroll of images gives logits for each step and row and one value. *)
Theorem C95_defined use_resnet use_lstm t b h w c x first s : (0 <= t)%Z -> (0 <= b)%Z -> (0 <= h)%Z -> (0 <= w)%Z ->
  exists lg v s', atari_unroll W lstm_w lstm_b p num_actions use_resnet use_lstm ([t; b; h; w; c], x) first s = Some ((([t; b; num_actions], lg), ([t; b], v)), s').
Proof.
  intros Ht Hb Hh Hw. destruct (shaped_torso use_resnet (t * b) h w c ltac:(nia) Hh Hw) as (n & S). unfold atari_unroll. unfold batch_apply_v at 1. cbn [fst snd].
  match goal with |- context [torso_v W p use_resnet (_, ?g)] => destruct (S g) as (y & ->) end. rewrite Z.eqb_refl. destruct use_lstm.
  - unfold core_unroll. cbn [fst]. unfold batch_apply_v, head_logits, head_value, thenv, squeeze_last_v, dense, linear_v, layer. cbn [fst snd ModelImageNets.linear Z.eqb Pos.eqb]. rewrite Z.eqb_refl. do 3 eexists. reflexivity.
  - unfold batch_apply_v, head_logits, head_value, thenv, squeeze_last_v, dense, linear_v, layer. cbn [fst snd ModelImageNets.linear Z.eqb Pos.eqb]. rewrite Z.eqb_refl. do 3 eexists. reflexivity.
Qed.
Print Assumptions C95_defined.
(** [AtariNet] is an [RNNCore], but its [__call__] is not a step of a core: the outputs of a batch of [b] have shape [1, b, ...]. *)
Theorem C95_call_refuted use_resnet use_lstm b h w c x first s : (0 <= b)%Z -> (0 <= h)%Z -> (0 <= w)%Z ->
  exists lg v s', atari_call W lstm_w lstm_b p num_actions use_resnet use_lstm ([b; h; w; c], x) first s = Some ((lg, v), s') /\ fst lg = [1%Z; b; num_actions] /\ fst lg <> [b; num_actions] /\ fst v = [1%Z; b] /\ fst v <> [b].
Proof.
  intros Hb Hh Hw. unfold atari_call, add_axis. cbn [fst snd]. destruct (C95_defined use_resnet use_lstm 1 b h w c (fun idx => x (tl idx)) (fun _ b => first b) s ltac:(lia) Hb Hh Hw) as (lg & v & s' & E).
  exists ([1%Z; b; num_actions], lg), ([1%Z; b], v), s'. split; [exact E|]. split; [reflexivity|]. split; [discriminate|]. split; [reflexivity|discriminate].
Qed.
Print Assumptions C95_call_refuted.

(** ** CatchNet *)
Section CatchRel.
Context (b b' i i' : Z) {S : Type} (s : S).
Lemma catch_rel x y d r : fst x = b :: d :: r -> Forall (fun n => (0 <= n)%Z) (d :: r) -> same_example b b' i i' x y ->
  exists lg v lg' v', catch_call W p num_actions x s = Some ((lg, v), s) /\ catch_call W p num_actions y s = Some ((lg', v'), s) /\
    fst lg = [b; num_actions] /\ fst v = [b] /\ fst lg' = [b'; num_actions] /\ fst v' = [b'] /\ (forall a, (0 <= a < num_actions)%Z -> snd lg' [i'; a] = snd lg [i; a]) /\ snd v' [i'] = snd v [i].
Proof.
  intros E F H. pose proof (flatten_same b b' i i' x y d r E F H) as FL.
  assert (DR : forall name n, respects (rel2 1 b b' i i') (rel2 1 b b' i i') (dense W name n) (dense W name n)) by (intros; apply respects_dense).
  pose proof (respects_relu2 b b' i i') as RR.
  assert (T : match catch_torso W p x, catch_torso W p y with Some u, Some v => rel2 1 b b' i i' u v | None, None => True | _, _ => False end).
  { unfold catch_torso. set (g := thenv (dense W (inside_call p "linear") 128) _).
    assert (RG : respects (rel2 1 b b' i i') (rel2 1 b b' i i') g g) by (eapply respects_then; [apply DR|]; eapply respects_then; [exact RR|]; eapply respects_then; [apply DR|exact RR]).
    assert (U : forall z, thenv flatten_v g z = match flatten_v z with Some z => g z | None => None end) by reflexivity. rewrite !U.
    destruct (flatten_v x) as [u|], (flatten_v y) as [v|]; try (now destruct FL). exact (RG u v FL). }
  assert (D : exists u, catch_torso W p x = Some u).
  { unfold catch_torso, thenv, flatten_v, layer. rewrite E, flatten_shape. eexists. reflexivity. }
  destruct D as (u & Du). rewrite Du in T. destruct (catch_torso W p y) as [v|] eqn:Dv; [|contradiction]. unfold catch_call. rewrite Du, Dv.
  pose proof (DR (inside_call p "linear_2") num_actions u v T) as L. pose proof (DR (inside_call p "linear_3") 1%Z u v T) as V. destruct T as (n & Fu & Fv & T).
  destruct (dense W (inside_call p "linear_2") num_actions u) as [lg|] eqn:L1; [|unfold dense, linear_v, layer in L1; rewrite Fu in L1; discriminate]. destruct (dense W (inside_call p "linear_2") num_actions v) as [lg'|] eqn:L2; [|contradiction].
  unfold thenv. destruct (dense W (inside_call p "linear_3") 1 u) as [v1|] eqn:V1; [|unfold dense, linear_v, layer in V1; rewrite Fu in V1; discriminate]. destruct (dense W (inside_call p "linear_3") 1 v) as [v2|] eqn:V2; [|contradiction].
  assert (S1 : fst lg = [b; num_actions]) by (unfold dense, linear_v, layer in L1; rewrite Fu in L1; now injection L1 as <-). assert (S2 : fst lg' = [b'; num_actions]) by (unfold dense, linear_v, layer in L2; rewrite Fv in L2; now injection L2 as <-).
  assert (S3 : fst v1 = [b; 1%Z]) by (unfold dense, linear_v, layer in V1; rewrite Fu in V1; now injection V1 as <-). assert (S4 : fst v2 = [b'; 1%Z]) by (unfold dense, linear_v, layer in V2; rewrite Fv in V2; now injection V2 as <-).
  unfold squeeze_last_v. rewrite S3, S4. cbn [Z.eqb Pos.eqb]. exists lg, ([b], fun idx => snd v1 (idx ++ [0%Z])), lg', ([b'], fun idx => snd v2 (idx ++ [0%Z])). do 2 (split; [reflexivity|]). split; [exact S1|]. split; [reflexivity|]. split; [exact S2|]. split; [reflexivity|]. split.
  - intros a Ha. destruct L as (m & M1 & M2 & L). rewrite S1 in M1. injection M1 as <-. rewrite L by assumption. ring.
  - cbn [snd app]. destruct V as (m & M1 & M2 & V). rewrite S3 in M1. injection M1 as <-. rewrite V by lia. ring.
Qed.
End CatchRel.
(** [CatchNet.unroll] gives for each step and row what [__call__] gives for that observation on its own; the state is handed through. *)
Theorem C95_catch {S} t b d r x (s : S) : Forall (fun n => (0 <= n)%Z) (d :: r) -> exists lg v, catch_unroll W p num_actions (t :: b :: d :: r, x) s = Some ((lg, v), s) /\
  fst lg = [t; b; num_actions] /\ fst v = [t; b] /\
  forall k q s', (0 <= k < t)%Z -> (0 <= q < b)%Z -> exists lg1 v1, catch_call W p num_actions (1%Z :: d :: r, fun idx => x (k :: q :: tl idx)) s' = Some ((lg1, v1), s' : S) /\
    fst lg1 = [1%Z; num_actions] /\ fst v1 = [1%Z] /\ snd v1 [0%Z] = snd v [k; q] /\ forall a, (0 <= a < num_actions)%Z -> snd lg1 [0%Z; a] = snd lg [k; q; a].
Proof.
  intros F. set (obs := (t :: b :: d :: r, x)). pose (m := merged obs).
  destruct (catch_rel (t * b) (t * b) 0 0 tt m m d r eq_refl F) as (lg & v & _ & _ & E & _ & S1 & S2 & _); [exists (d :: r); repeat split|].
  unfold catch_unroll. unfold batch_apply_v. cbn [fst snd obs].
  change ((t * b)%Z :: d :: r, fun idx => match idx with [] => 0 | i :: r0 => x ((i / b)%Z :: (i mod b)%Z :: r0) end) with m. rewrite E. destruct lg as [sl fl], v as [sv fv]. cbn [fst snd] in *. subst sl sv. rewrite Z.eqb_refl. do 2 eexists. split; [reflexivity|]. do 2 (split; [reflexivity|]).
  intros k q s' Hk Hq. destruct (merged_index t b k q Hk Hq) as (_ & D & M).
  destruct (catch_rel (t * b) 1 (k * b + q) 0 s' m (1%Z :: d :: r, fun idx => x (k :: q :: tl idx)) d r eq_refl F) as (lg2 & v2 & lg1 & v1 & E2 & E1 & _ & _ & T1 & T2 & VL & VV).
  { exists (d :: r). do 2 (split; [reflexivity|]). intros idx _. unfold m, merged. cbn [fst snd obs tl]. now rewrite D, M. }
  assert (X : lg2 = ([(t * b)%Z; num_actions], fl) /\ v2 = ([(t * b)%Z], fv)).
  { unfold catch_call in E, E2. destruct (catch_torso W p m); [|discriminate]. destruct (dense W (inside_call p "linear_2") num_actions a); [|discriminate]. destruct (thenv _ _ a); [|discriminate]. injection E as -> ->. injection E2 as <- <-. now split. }
  destruct X as [-> ->]. exists lg1, v1. split; [exact E1|]. split; [exact T1|]. split; [exact T2|]. split; [exact VV|]. exact VL.
Qed.
Print Assumptions C95_catch.
End Whole.

(** ** [preprocess_step] *)
(** Rewards that are missing become 0, discounts that are missing 1; whatever is there is kept. *)
Theorem C95_preprocess {O} (zero : O) s : exists r d o, preprocess_step zero s = (r_type s, r, d, o) /\
  (r_reward s = None -> r = 0) /\ (forall v, r_reward s = Some v -> r = v) /\ (r_discount s = None -> d = 1) /\ (forall v, r_discount s = Some v -> d = v) /\ (forall v, r_obs s = Some v -> o = v).
Proof.
  destruct s as [ty [rw|] [dc|] [ob|]]; cbn; do 3 eexists; (split; [reflexivity|]); repeat split; try discriminate; try (intros v [= <-]; reflexivity).
Qed.
Print Assumptions C95_preprocess.
(** The state of CatchNet before the first step: one number for each row. *)
Theorem C95_catch_state b : catch_initial_shape (Some b) = [b] /\ catch_initial_shape None = [].
Proof. now split. Qed.
Print Assumptions C95_catch_state.

(** ** Examples *)
(** The images of Atari games: 7 by 7 windows are left, 3136 features. *)
Example C95_shallow_case W x : exists y, shallow_torso W "t" ([20; 84; 84; 4]%Z, x) = Some ([20; 512]%Z, y) /\ (windows (windows (windows 84 8 4) 4 2) 3 1 = 7 /\ 7 * 7 * 64 = 3136)%Z.
Proof. destruct (C95_shallow W "t" 20 84 84 4 x) as (y & E & _); try lia. exists y. split; [exact E|]. now split. Qed.
Example C95_deep_case W x : exists f y, deep_features W "t" [(16%Z, 2%nat); (32%Z, 2%nat); (32%Z, 2%nat)] ([20; 84; 84; 4]%Z, x) = Some ([20; 11; 11; 32]%Z, f) /\ deep_torso W "t" ([20; 84; 84; 4]%Z, x) = Some ([20; 256]%Z, y) /\ (11 * 11 * 32 = 3872)%Z.
Proof. destruct (C95_deep_shape W "t" 20 84 84 4 x) as (f & y & E & E' & _); try lia. exists f, y. split; [exact E|]. now split. Qed.
(** A block on an image of one pixel: only the middle of the kernels counts. *)
Example C95_residual_case : exists y, residual_block (Weights (fun n idx => match idx with [1; 1; 0; 0]%Z => 2 | _ => 100 end) (fun n _ => if String.eqb n "r/conv2_d" then 1 else -20) (fun _ => BN (fun _ => 1) (fun _ => 0) (fun _ => 0) (fun _ => 0))) "r" 1 ([1; 1; 1; 1]%Z, fun _ => 3) = Some ([1; 1; 1; 1]%Z, y) /\
  y [0; 0; 0; 0]%Z = 3 + ((3 * 2 + 1) * 2 - 20).
Proof.
  match goal with |- exists y, residual_block ?W _ _ (_, ?x) = _ /\ _ => destruct (C95_residual W "r" 1 1 1 1 x) as (y & E & V); try lia end. exists y. split; [exact E|]. rewrite V by lia. cbv -[Rplus Rmult Rminus Ropp IZR Rle_dec].
  destruct (Rle_dec 3 0); [lra|]. repeat match goal with |- context [Rle_dec ?a ?b] => destruct (Rle_dec a b) end; try lra.
Qed.
(** Trajectories of 20 steps in a batch of 8, as the learner unrolls them: what the step at time 5 of row 3 gave. *)
Example C95_unroll_case W lw lb x first s : exists lg v s' st, atari_unroll W lw lb "atari_net" 6 true true ([20; 8; 84; 84; 4]%Z, x) first s = Some ((lg, v), s') /\
  exists lg1, agent_net W lw lb "atari_net" 6 true true (obs_at ([20; 8; 84; 84; 4]%Z, x) 5 3) (first 5 3)%Z (st 5%Z) = Some ((lg1, snd v [5; 3]%Z), st 6%Z) /\ forall a, (0 <= a < 6)%Z -> snd lg1 [a] = snd lg [5; 3; a]%Z.
Proof.
  destruct (C95_defined W lw lb "atari_net" 6 true true 20 8 84 84 4 x first s) as (lg & v & s' & E); try lia.
  destruct (C95_unroll W lw lb "atari_net" 6 true true ([20; 8; 84; 84; 4]%Z, x) first s ([20; 8; 6]%Z, lg) ([20; 8]%Z, v) s' 20 8 84 84 4 3 eq_refl ltac:(lia) ltac:(lia) ltac:(lia) ltac:(lia) E) as (st & _ & _ & H). destruct (H 5%Z ltac:(lia)) as (lg1 & E1 & _ & V).
  do 4 eexists. split; [exact E|]. exists lg1. split; [exact E1|exact V].
Qed.
(** A new episode in row 0 at time 7: its value does not depend on the state the trajectory began with. *)
Example C95_segment_case W lw lb x s s1 : let first k q := (k =? 7)%Z in exists lg v s' lg' v' s1', atari_unroll W lw lb "n" 6 false true ([20; 1; 84; 84; 4]%Z, x) first s = Some ((lg, v), s') /\
  atari_unroll W lw lb "n" 6 false true ([20; 1; 84; 84; 4]%Z, x) first s1 = Some ((lg', v'), s1') /\ snd v' [12; 0]%Z = snd v [12; 0]%Z /\ s1' 0%Z = s' 0%Z.
Proof.
  intros first. destruct (C95_defined W lw lb "n" 6 false true 20 1 84 84 4 x (fun k _ => first k 0%Z) s) as (lg & v & s' & E); try lia. destruct (C95_defined W lw lb "n" 6 false true 20 1 84 84 4 x (fun k _ => first k 0%Z) s1) as (lg' & v' & s1' & E'); try lia.
  destruct (C95_segment W lw lb "n" 6 false ([20; 1; 84; 84; 4]%Z, x) ([20; 1; 84; 84; 4]%Z, x) (fun k _ => first k 0%Z) (fun k _ => first k 0%Z) s s1 ([20; 1; 6]%Z, lg) ([20; 1]%Z, v) ([20; 1; 6]%Z, lg') ([20; 1]%Z, v') s' s1' 20 1 20 1 84 84 4 0 0 7 7 13 eq_refl eq_refl ltac:(lia) ltac:(lia) ltac:(lia) ltac:(lia) ltac:(lia) ltac:(lia) ltac:(lia) ltac:(lia) eq_refl eq_refl ltac:(intros j Hj; split; [exists [84; 84; 4]%Z; now repeat split|reflexivity]) E E') as [H H'].
  do 6 eexists. split; [exact E|]. split; [exact E'|]. split; [exact (proj1 (H 5%Z ltac:(lia)))|apply H'; lia].
Qed.
Example C95_catch_case W x : exists lg v, catch_unroll W "catch_net" 3 ([20; 8; 10; 5]%Z, x) tt = Some ((lg, v), tt) /\ fst lg = [20; 8; 3]%Z.
Proof. destruct (C95_catch W "catch_net" 3 20 8 10 [5%Z] x tt) as (lg & v & E & S & _); [repeat constructor; lia|]. exists lg, v. now split. Qed.
(** The first step of an episode. *)
Example C95_preprocess_case : preprocess_step tt (RawStep 0 None None (Some tt)) = (0%nat, 0, 1, tt).
Proof. reflexivity. Qed.

(** C76: nets/resnet.py and nets/mobilenetv1.py, shapes of results and parameters for every image size. *)
From Coq Require Import ZArith List Bool Lia.
From Verif Require Import ModelShape ProofsShape Properties09 ModelPool ModelImageNets.
Import ListNotations.
Local Open Scope Z_scope.

(** [n / s] rounded up. *)
Definition cdiv (n s : Z) : Z := (n + s - 1) / s.
Lemma cdiv_nonneg n s : 0 < s -> 0 <= n -> 0 <= cdiv n s.
Proof. intros. apply Z.div_pos; lia. Qed.
Lemma cdiv_pos n s : 0 < s -> 0 < n -> 0 < cdiv n s.
Proof. intros. unfold cdiv. apply Z.div_str_pos; lia. Qed.
Lemma cdiv_1 n : cdiv n 1 = n.
Proof. unfold cdiv. rewrite Z.div_1_r. lia. Qed.
Lemma cdiv_cdiv n s t : 0 < s -> 0 < t -> cdiv (cdiv n s) t = cdiv n (s * t).
Proof.
  intros Hs Ht. unfold cdiv.
  rewrite <- !ceil_pred by nia. f_equal.
  replace ((n - 1) / s + 1 - 1) with ((n - 1) / s) by lia. now apply Z.div_div; lia.
Qed.

(** What a network does to NHWC images of every size: the parameters are fixed, batch kept, both sides of the image resized the same way. *)
Definition regular (f : net) (cin cout : Z) (ps : list (list Z)) (hs : Z -> Z) : Prop :=
  forall b h w, 0 <= b -> 0 <= h -> 0 <= w -> f [b; h; w; cin] = Some (ps, [b; hs h; hs w; cout]).
Definition keeps (hs : Z -> Z) : Prop := forall h, 0 <= h -> 0 <= hs h.

Lemma regular_ident c : regular ident c c [] (fun h => h).
Proof. now intros b h w _ _ _. Qed.
Lemma regular_andthen f g c d e ps qs hs gs : keeps hs -> regular f c d ps hs -> regular g d e qs gs ->
  regular (andthen f g) c e (ps ++ qs) (fun h => gs (hs h)).
Proof. intros K F G b h w Hb Hh Hw. unfold andthen. rewrite (F b h w Hb Hh Hw), (G b _ _ Hb (K h Hh) (K w Hw)). reflexivity. Qed.
Lemma regular_ext f c d ps hs gs : (forall h, 0 <= h -> hs h = gs h) -> regular f c d ps hs -> regular f c d ps gs.
Proof. intros E F b h w Hb Hh Hw. rewrite (F b h w Hb Hh Hw), (E h Hh), (E w Hw). reflexivity. Qed.
Lemma regular_fun f g c d ps hs : (forall x, f x = g x) -> regular f c d ps hs -> regular g c d ps hs.
Proof. intros E F b h w Hb Hh Hw. rewrite <- E. now apply F. Qed.
Lemma regular_conv_same c k s bias cin : 0 < s -> 1 <= k ->
  regular (conv2d c k s PtSame bias) cin c ([k; k; cin; c] :: (if bias then [[c]] else [])) (fun h => cdiv h s).
Proof.
  intros Hs Hk b h w Hb Hh Hw. unfold conv2d.
  destruct (C63_channels_last (ConvND 2 c [k; k] [s; s] [1; 1] (inl PtSame) true 1) b [h; w] cin) as [_ [E _]];
    try reflexivity; try (cbn; lia); try (cbn; apply Z.mod_1_r); [cbn; discriminate|].
  change (b :: [h; w] ++ [cin]) with [b; h; w; cin] in E. rewrite E. cbn [cv_kernel cv_groups cv_out cv_padding cv_rate cv_stride].
  rewrite Z.div_1_r. cbn [string_pads out_sizes app].
  assert (N : forall n, 0 <= n -> (let '(lo, hi) := lax_pads PtSame n (effective k 1) s in window_count n lo hi (effective k 1) s) = cdiv n s).
  { intros n Hn. pose proof (lax_same_count n (effective k 1) s Hs Hn (effective_pos k 1 Hk ltac:(lia))) as C.
    destruct (lax_pads PtSame n (effective k 1) s). exact C. }
  pose proof (N h Hh) as N1. pose proof (N w Hw) as N2.
  destruct (lax_pads PtSame h (effective k 1) s) as [lo hi], (lax_pads PtSame w (effective k 1) s) as [lo' hi'].
  cbn [out_sizes app]. rewrite N1, N2. reflexivity.
Qed.
Lemma regular_bn c : regular batchnorm c c [[1; 1; 1; c]; [1; 1; 1; c]] (fun h => h).
Proof. now intros b h w _ _ _. Qed.
Lemma same_count n k s : 0 < s -> 0 <= n -> 1 <= k ->
  window_count n (fst (lax_pads PtSame n k s)) (snd (lax_pads PtSame n k s)) k s = cdiv n s.
Proof. intros Hs Hn Hk. pose proof (lax_same_count n k s Hs Hn Hk) as C. destruct (lax_pads PtSame n k s). exact C. Qed.
Lemma regular_pool c : 0 <= c -> regular max_pool_3_2 c c [] (fun h => cdiv h 2).
Proof.
  intros Hc b h w Hb Hh Hw. unfold max_pool_3_2. cbv [pool_axes pool_infer_shape length Nat.eqb Nat.ltb Nat.leb combine map fst snd].
  unfold pool_out. cbn [map pa_n pa_k pa_s]. rewrite !same_count by lia. now rewrite !cdiv_1.
Qed.

(** ** Blocks *)
(** Parameters of a batch normalisation, and of convolutions each followed (v1) or preceded (v2) by one. *)
Definition bn_params (c : Z) : list (list Z) := [[1; 1; 1; c]; [1; 1; 1; c]].
Definition conv_params (k cin c : Z) : list (list Z) := [[k; k; cin; c]].
Definition block_params (v2 : bool) (cin channels : Z) (use_projection bottleneck : bool) : list (list Z) :=
  let unit k a b := if v2 then bn_params a ++ conv_params k a b else conv_params k a b ++ bn_params b in
  (if use_projection then conv_params 1 cin channels ++ (if v2 then [] else bn_params channels) else []) ++
  (if bottleneck then unit 1 cin (channels / 4) ++ unit 3 (channels / 4) (channels / 4) ++ unit 1 (channels / 4) channels
   else unit 3 cin channels ++ unit 3 channels channels).
Lemma andthen_ident f x : andthen ident f x = f x.
Proof. unfold andthen, ident. destruct (f x) as [[p y]|]; reflexivity. Qed.
Lemma andthen_assoc f g h x : andthen (andthen f g) h x = andthen f (andthen g h) x.
Proof.
  unfold andthen. destruct (f x) as [[p y]|]; [|reflexivity]. destruct (g y) as [[q z]|]; [|reflexivity].
  destruct (h z) as [[r t]|]; [|reflexivity]. now rewrite app_assoc.
Qed.
(** Everything about the main path and the shortcut of a block. *)
Definition main_of (v2 : bool) (channels stride : Z) (bottleneck : bool) : net :=
  fold_left (fun f l => let '(c, k, s) := l in andthen f (if v2 then andthen batchnorm (conv2d c k s PtSame false) else andthen (conv2d c k s PtSame false) batchnorm))
    (block_layers channels stride bottleneck) ident.
Definition proj_of (v2 : bool) (channels stride : Z) (use_projection : bool) : net :=
  if use_projection then if v2 then conv2d channels 1 stride PtSame false else andthen (conv2d channels 1 stride PtSame false) batchnorm else ident.
Lemma block_eq v2 channels stride up bn x : block v2 channels stride up bn x =
  match proj_of v2 channels stride up x, main_of v2 channels stride bn x with
  | Some (p, shortcut), Some (q, out) => match broadcast2 out shortcut with Some r => Some (p ++ q, r) | None => None end
  | _, _ => None
  end.
Proof. destruct v2; reflexivity. Qed.
Lemma keeps_cdiv s : 0 < s -> keeps (fun h => cdiv h s).
Proof. intros Hs h Hh. now apply cdiv_nonneg. Qed.
Lemma keeps_id : keeps (fun h => h).
Proof. now intros h. Qed.
Lemma regular_unit (v2 : bool) cin c k s : 0 < s -> 1 <= k ->
  regular (if v2 then andthen batchnorm (conv2d c k s PtSame false) else andthen (conv2d c k s PtSame false) batchnorm) cin c
    (if v2 then bn_params cin ++ conv_params k cin c else conv_params k cin c ++ bn_params c) (fun h => cdiv h s).
Proof.
  intros Hs Hk. destruct v2.
  - exact (regular_andthen _ _ _ _ _ _ _ _ _ keeps_id (regular_bn cin) (regular_conv_same c k s false cin Hs Hk)).
  - exact (regular_andthen _ _ _ _ _ _ _ _ _ (keeps_cdiv s Hs) (regular_conv_same c k s false cin Hs Hk) (regular_bn c)).
Qed.
Lemma regular_main (v2 : bool) cin channels stride (bn : bool) : 0 < stride ->
  regular (main_of v2 channels stride bn) cin channels (block_params v2 cin channels false bn) (fun h => cdiv h stride).
Proof.
  intros Hs.
  unfold main_of, block_layers. destruct bn; cbn [app fold_left]; rewrite ?Z.div_1_r.
  - pose proof (regular_unit v2 cin (channels / 4) 1 1 ltac:(lia) ltac:(lia)) as A.
    pose proof (regular_unit v2 (channels / 4) (channels / 4) 3 stride Hs ltac:(lia)) as B.
    pose proof (regular_unit v2 (channels / 4) channels 1 1 ltac:(lia) ltac:(lia)) as C.
    intros b h w Hb Hh Hw. rewrite !andthen_assoc, andthen_ident.
    rewrite (regular_andthen _ _ _ _ _ _ _ _ _ (keeps_cdiv 1 ltac:(lia)) A
      (regular_andthen _ _ _ _ _ _ _ _ _ (keeps_cdiv stride Hs) B C) b h w Hb Hh Hw).
    cbn beta. rewrite !cdiv_1. reflexivity.
  - pose proof (regular_unit v2 cin channels 3 stride Hs ltac:(lia)) as A.
    pose proof (regular_unit v2 channels channels 3 1 ltac:(lia) ltac:(lia)) as B.
    intros b h w Hb Hh Hw. rewrite !andthen_assoc, andthen_ident.
    rewrite (regular_andthen _ _ _ _ _ _ _ _ _ (keeps_cdiv stride Hs) A B b h w Hb Hh Hw).
    cbn beta. rewrite !cdiv_1. reflexivity.
Qed.
Lemma regular_proj (v2 : bool) cin channels stride : 0 < stride ->
  regular (proj_of v2 channels stride true) cin channels (conv_params 1 cin channels ++ (if v2 then [] else bn_params channels)) (fun h => cdiv h stride).
Proof.
  intros Hs. unfold proj_of. destruct v2.
  - exact (regular_conv_same channels 1 stride false cin Hs ltac:(lia)).
  - exact (regular_andthen _ _ _ _ _ _ _ _ _ (keeps_cdiv stride Hs) (regular_conv_same channels 1 stride false cin Hs ltac:(lia)) (regular_bn channels)).
Qed.
Lemma broadcast2_rev_refl s : broadcast2_rev s s = Some s.
Proof. induction s as [|a s IH]; [reflexivity|]. cbn. now rewrite Z.eqb_refl, IH. Qed.
Lemma broadcast2_refl s : broadcast2 s s = Some s.
Proof. unfold broadcast2. rewrite broadcast2_rev_refl. cbn. now rewrite rev_involutive. Qed.

(** With a projection, a block takes images of every size and number of channels: the two summands have the same shape. *)
Theorem C76_block_projection v2 channels stride bottleneck cin b h w : 0 < stride -> 0 <= b -> 0 <= h -> 0 <= w ->
  block v2 channels stride true bottleneck [b; h; w; cin] =
  Some (block_params v2 cin channels true bottleneck, [b; (h + stride - 1) / stride; (w + stride - 1) / stride; channels]).
Proof.
  intros Hs Hb Hh Hw. rewrite block_eq, (regular_proj v2 cin channels stride Hs b h w Hb Hh Hw), (regular_main v2 cin channels stride bottleneck Hs b h w Hb Hh Hw).
  rewrite broadcast2_refl. reflexivity.
Qed.
Print Assumptions C76_block_projection.
(** Without one, the sum of the main path and the unchanged input is left to broadcasting. *)
Theorem C76_block_identity v2 channels stride bottleneck cin b h w : 0 < stride -> 0 <= b -> 0 <= h -> 0 <= w ->
  block v2 channels stride false bottleneck [b; h; w; cin] =
  match broadcast2 [b; (h + stride - 1) / stride; (w + stride - 1) / stride; channels] [b; h; w; cin] with
  | Some out => Some (block_params v2 cin channels false bottleneck, out)
  | None => None
  end.
Proof.
  intros Hs Hb Hh Hw. rewrite block_eq. change (proj_of v2 channels stride false) with ident. unfold ident at 1.
  rewrite (regular_main v2 cin channels stride bottleneck Hs b h w Hb Hh Hw). reflexivity.
Qed.
Print Assumptions C76_block_identity.
(** It is the plain sum of arrays of the same shape for stride 1 and equal channels, and for images of at least two positions a
    side and two different numbers of channels, or a stride that shrinks the image to more than one position, it raises. *)
Theorem C76_block_identity_fits v2 channels bottleneck b h w : 0 <= b -> 0 <= h -> 0 <= w ->
  block v2 channels 1 false bottleneck [b; h; w; channels] = Some (block_params v2 channels channels false bottleneck, [b; h; w; channels]).
Proof.
  intros Hb Hh Hw. rewrite C76_block_identity by lia. fold (cdiv h 1) (cdiv w 1). now rewrite !cdiv_1, broadcast2_refl.
Qed.
Print Assumptions C76_block_identity_fits.
Theorem C76_block_identity_raises v2 channels stride bottleneck cin b h w : 0 <= b -> 0 <= h -> 0 <= w ->
  (0 < stride /\ channels <> cin /\ channels <> 1 /\ cin <> 1) \/ (2 <= stride /\ stride < h) \/ (2 <= stride /\ stride < w) ->
  block v2 channels stride false bottleneck [b; h; w; cin] = None.
Proof.
  intros Hb Hh Hw D. rewrite C76_block_identity by lia. unfold broadcast2. cbn [rev app broadcast2_rev].
  assert (A : forall a c, a <> c -> a <> 1 -> c <> 1 -> (if a =? c then Some a else if a =? 1 then Some c else if c =? 1 then Some a else None) = None).
  { intros a c N1 N2 N3. now rewrite (proj2 (Z.eqb_neq a c)), (proj2 (Z.eqb_neq a 1)), (proj2 (Z.eqb_neq c 1)) by assumption. }
  assert (S : forall n, 2 <= stride -> stride < n -> (n + stride - 1) / stride <> n /\ (n + stride - 1) / stride <> 1 /\ n <> 1).
  { intros n H2 Hn. assert ((n + stride - 1) / stride < n) by (apply Z.div_lt_upper_bound; nia).
    assert (2 <= (n + stride - 1) / stride) by (apply Z.div_le_lower_bound; lia). lia. }
  destruct D as [[_ [N1 [N2 N3]]]|[[H2 Hn]|[H2 Hn]]].
  - now rewrite (A channels cin N1 N2 N3).
  - destruct (S h H2 Hn) as [N1 [N2 N3]]. rewrite (A _ _ N1 N2 N3).
    destruct (if channels =? cin then _ else _); [|reflexivity]. destruct (if (w + stride - 1) / stride =? w then _ else _); reflexivity.
  - destruct (S w H2 Hn) as [N1 [N2 N3]]. rewrite (A _ _ N1 N2 N3).
    destruct (if channels =? cin then _ else _); reflexivity.
Qed.
Print Assumptions C76_block_identity_raises.
(** Otherwise a mismatch is not noticed: a stride that shrinks the image to one position adds that one position everywhere, and
    the block does not shrink the image. *)
Theorem C76_block_stride_refuted : exists v2 channels stride bottleneck b h w out, 2 <= stride /\
  block v2 channels stride false bottleneck [b; h; w; channels] = Some (block_params v2 channels channels false bottleneck, out) /\ out = [b; h; w; channels] /\ h = 2 /\ w = 2.
Proof. now exists false, 64, 2, false, 8, 2, 2, [8; 2; 2; 64]. Qed.
Print Assumptions C76_block_stride_refuted.

(** ** Groups and the whole network *)
Definition group_params (v2 : bool) (cin channels : Z) (num_blocks : nat) (bottleneck use_projection : bool) : list (list Z) :=
  match num_blocks with
  | O => []
  | S n => block_params v2 cin channels use_projection bottleneck ++ concat (repeat (block_params v2 channels channels false bottleneck) n)
  end.
(** Whether the first block of a group gets summands of the same shape for every image. *)
Definition fits (use_projection : bool) (stride cin channels : Z) : Prop := use_projection = true \/ (stride = 1 /\ cin = channels).
Lemma regular_block v2 channels stride up bn cin : 0 < stride -> fits up stride cin channels ->
  regular (block v2 channels stride up bn) cin channels (block_params v2 cin channels up bn) (fun h => cdiv h stride).
Proof.
  intros Hs F b h w Hb Hh Hw. destruct up.
  - now apply C76_block_projection.
  - destruct F as [F|[-> ->]]; [discriminate|]. rewrite C76_block_identity_fits by assumption. now rewrite !cdiv_1.
Qed.
Lemma regular_group v2 channels n stride bn up cin : 0 < stride -> fits up stride cin channels -> (n <> 0)%nat ->
  regular (block_group v2 channels n stride bn up) cin channels (group_params v2 cin channels n bn up) (fun h => cdiv h stride).
Proof.
  intros Hs F N. destruct n as [|n]; [congruence|clear N]. unfold block_group.
  induction n as [|n IH].
  - cbn [seq fold_left Nat.eqb group_params repeat concat andb]. intros b h w Hb Hh Hw. rewrite andthen_ident, app_nil_r.
    now apply regular_block.
  - rewrite seq_S, fold_left_app. cbn [fold_left Nat.add]. change (Nat.eqb (S n) 0) with false. cbn [andb].
    intros b h w Hb Hh Hw.
    rewrite (regular_andthen _ _ _ _ _ _ _ _ _ (keeps_cdiv stride Hs) IH (regular_block v2 channels 1 false bn channels ltac:(lia) (or_intror (conj eq_refl eq_refl))) b h w Hb Hh Hw).
    cbn beta. rewrite !cdiv_1. cbn [group_params]. rewrite <- app_assoc. do 3 f_equal.
    replace (repeat (block_params v2 channels channels false bn) (S n)) with (repeat (block_params v2 channels channels false bn) n ++ [block_params v2 channels channels false bn]).
    + rewrite concat_app. cbn [concat]. now rewrite app_nil_r.
    + symmetry. apply (repeat_app _ n 1) || (rewrite <- repeat_cons; reflexivity).
Qed.
(** A group keeps the batch, divides the sides by its stride and gives its own number of channels, for every number of blocks. *)
Theorem C76_group v2 channels n stride bottleneck use_projection cin b h w : 0 < stride -> 0 <= b -> 0 <= h -> 0 <= w -> (n <> 0)%nat ->
  use_projection = true \/ (stride = 1 /\ cin = channels) ->
  block_group v2 channels n stride bottleneck use_projection [b; h; w; cin] =
  Some (group_params v2 cin channels n bottleneck use_projection, [b; (h + stride - 1) / stride; (w + stride - 1) / stride; channels]).
Proof. intros Hs Hb Hh Hw N F. now apply regular_group. Qed.
Print Assumptions C76_group.

Definition resnet_params (c : resnet_config) (v2 : bool) (cin : Z) : list (list Z) :=
  match rn_blocks c, rn_channels c, rn_projection c with
  | [b0; b1; b2; b3], [c0; c1; c2; c3], p0 :: p1 :: p2 :: p3 :: _ =>
      let bn := rn_bottleneck c in let g cin c b p := group_params v2 cin c b bn p in
      conv_params 7 cin 64 ++ (if v2 then [] else bn_params 64) ++ g 64 c0 b0 p0 ++ g c0 c1 b1 p1 ++ g c1 c2 b2 p2 ++ g c2 c3 b3 p3 ++ (if v2 then bn_params c3 else [])
  | _, _, _ => []
  end.
(** The network accepts images of every size, and always creates the same parameters: the last feature map has the sides divided by
    32, rounded up, and the result is one row of logits for each image. *)
Theorem C76_resnet v2 b0 b1 b2 b3 c0 c1 c2 c3 p0 rest bottleneck num_classes cin :
  (b0 <> 0)%nat -> (b1 <> 0)%nat -> (b2 <> 0)%nat -> (b3 <> 0)%nat -> p0 = true \/ c0 = 64 ->
  let c := ResNetConfig [b0; b1; b2; b3] bottleneck [c0; c1; c2; c3] (p0 :: true :: true :: true :: rest) in
  exists features f, resnet_features c v2 = Some features /\ resnet c v2 num_classes = Some f /\
  forall b h w, 0 <= b -> 0 <= h -> 0 <= w ->
    features [b; h; w; cin] = Some (resnet_params c v2 cin, [b; (h + 31) / 32; (w + 31) / 32; c3]) /\
    f [b; h; w; cin] = Some (resnet_params c v2 cin ++ [[c3; num_classes]; [num_classes]], [b; num_classes]).
Proof.
  intros B0 B1 B2 B3 P0 c. unfold resnet, resnet_features. cbn [rn_blocks rn_channels rn_projection rn_bottleneck c option_map].
  eexists _, _. split; [reflexivity|]. split; [reflexivity|].
  match goal with |- forall b h w, _ -> _ -> _ -> ?f _ = _ /\ _ => assert (F : regular f cin c3 (resnet_params c v2 cin) (fun h => cdiv h 32)) end.
  { pose proof (regular_conv_same 64 7 2 false cin ltac:(lia) ltac:(lia)) as R1.
    assert (R2 : regular (if v2 then ident else batchnorm) 64 64 (if v2 then [] else bn_params 64) (fun h => h)) by (destruct v2; [apply regular_ident|apply regular_bn]).
    pose proof (regular_pool 64 ltac:(lia)) as R3.
    pose proof (regular_group v2 c0 b0 1 bottleneck p0 64 ltac:(lia) ltac:(destruct P0; [now left|right; now split]) B0) as G0.
    pose proof (regular_group v2 c1 b1 2 bottleneck true c0 ltac:(lia) (or_introl eq_refl) B1) as G1.
    pose proof (regular_group v2 c2 b2 2 bottleneck true c1 ltac:(lia) (or_introl eq_refl) B2) as G2.
    pose proof (regular_group v2 c3 b3 2 bottleneck true c2 ltac:(lia) (or_introl eq_refl) B3) as G3.
    assert (R4 : regular (if v2 then batchnorm else ident) c3 c3 (if v2 then bn_params c3 else []) (fun h => h)) by (destruct v2; [apply regular_bn|apply regular_ident]).
    pose proof (keeps_cdiv 1 ltac:(lia)) as K1. pose proof (keeps_cdiv 2 ltac:(lia)) as K2.
    pose proof (regular_andthen _ _ _ _ _ _ _ _ _ K2 R1 (regular_andthen _ _ _ _ _ _ _ _ _ keeps_id R2 (regular_andthen _ _ _ _ _ _ _ _ _ K2 R3
      (regular_andthen _ _ _ _ _ _ _ _ _ K1 G0 (regular_andthen _ _ _ _ _ _ _ _ _ K2 G1 (regular_andthen _ _ _ _ _ _ _ _ _ K2 G2
      (regular_andthen _ _ _ _ _ _ _ _ _ K2 G3 R4))))))) as R.
    intros b h w Hb Hh Hw. rewrite (R b h w Hb Hh Hw). cbn beta. rewrite !cdiv_1, !cdiv_cdiv by lia. reflexivity. }
  intros b h w Hb Hh Hw. pose proof (F b h w Hb Hh Hw) as E.
  assert (A : forall n, cdiv n 32 = (n + 31) / 32) by (intros n; unfold cdiv; f_equal; lia). cbn beta in E. rewrite !A in E. split; [exact E|].
  unfold andthen at 1. rewrite E. reflexivity.
Qed.
Print Assumptions C76_resnet.

(** ** [ResNet.CONFIGS] *)
(** The layers with weights that give the network its name: the first convolution, those of the main paths, the logits. *)
Definition depth (c : resnet_config) : Z :=
  1 + fold_right Z.add 0 (map (fun b => Z.of_nat b * (if rn_bottleneck c then 3 else 2)) (rn_blocks c)) + 1.
Theorem C76_configs n c : In (n, c) configs -> depth c = n /\
  (forall k l, In (k, l) (combine (rn_channels c) (tl (rn_channels c))) -> l = 2 * k) /\
  forall v2 num_classes cin, exists f, resnet c v2 num_classes = Some f /\
  forall b h w, 0 <= b -> 0 <= h -> 0 <= w ->
    f [b; h; w; cin] = Some (resnet_params c v2 cin ++ [[List.last (rn_channels c) 0; num_classes]; [num_classes]], [b; num_classes]).
Proof.
  intros I. cbn [configs In] in I.
  repeat match type of I with _ \/ _ => destruct I as [I|I] | False => destruct I end;
    (injection I as <- <-; split; [reflexivity|]; split;
     [cbn; intros k l J; repeat match type of J with _ \/ _ => destruct J as [J|J] | False => destruct J end; injection J as <- <-; reflexivity|];
     intros v2 num_classes cin;
     match goal with |- context [ResNetConfig [?b0; ?b1; ?b2; ?b3] ?bn [?c0; ?c1; ?c2; ?c3] (?p :: _)] =>
       destruct (C76_resnet v2 b0 b1 b2 b3 c0 c1 c2 c3 p [] bn num_classes cin) as [ft [f [_ [E F]]]]; try discriminate; [tauto|]
     | |- context [ResNetConfig [?b0; ?b1; ?b2; ?b3] ?bn small (?p :: _)] =>
       destruct (C76_resnet v2 b0 b1 b2 b3 64 128 256 512 p [] bn num_classes cin) as [ft [f [_ [E F]]]]; try discriminate; [tauto|]
     | |- context [ResNetConfig [?b0; ?b1; ?b2; ?b3] ?bn big (?p :: _)] =>
       destruct (C76_resnet v2 b0 b1 b2 b3 256 512 1024 2048 p [] bn num_classes cin) as [ft [f [_ [E F]]]]; try discriminate; [tauto|]
     end; exists f; split; [exact E|]; intros b h w Hb Hh Hw; exact (proj2 (F b h w Hb Hh Hw))).
Qed.
Print Assumptions C76_configs.
(** The numbers of parameters, for three input channels and a thousand classes, at every batch and image size. *)
Definition published (v2 : bool) (n : Z) : option Z :=
  match find (fun p => fst p =? n)
    (if v2 then [(50, 25549352)] else [(18, 11689512); (34, 21797672); (50, 25557032); (101, 44549160); (152, 60192808)]) with
  | Some p => Some (snd p)
  | None => None
  end.
Theorem C76_parameters n c v2 f b h w count : In (n, c) configs -> published v2 n = Some count -> resnet c v2 1000 = Some f ->
  0 <= b -> 0 <= h -> 0 <= w -> exists ps, f [b; h; w; 3] = Some (ps, [b; 1000]) /\ num_params ps = count.
Proof.
  intros I P E Hb Hh Hw. destruct (C76_configs n c I) as [_ [_ A]]. destruct (A v2 1000 3) as [g [E' F]].
  rewrite E in E'. injection E' as <-. rewrite (F b h w Hb Hh Hw). eexists. split; [reflexivity|].
  clear - I P. cbn [configs In] in I.
  repeat match type of I with _ \/ _ => destruct I as [I|I] | False => destruct I end;
    injection I as <- <-; destruct v2; cbn in P; try discriminate P; injection P as <-; vm_compute; reflexivity.
Qed.
Print Assumptions C76_parameters.
(** The length of [use_projection] is not checked, unlike that of the two other sequences: further entries are ignored, which the
    documentation ("A sequence of length 4") does not announce, and a shorter sequence is an IndexError. *)
Theorem C76_projection_length_refuted : exists c c', rn_projection c' = rn_projection c ++ [false; false] /\
  length (rn_projection c') = 6%nat /\ (forall v2 n, resnet c v2 n = resnet c' v2 n) /\ (exists f, resnet c false 10 = Some f).
Proof.
  exists (ResNetConfig [2; 2; 2; 2]%nat false small [false; true; true; true]), (ResNetConfig [2; 2; 2; 2]%nat false small [false; true; true; true; false; false]).
  repeat split. eexists. reflexivity.
Qed.
Print Assumptions C76_projection_length_refuted.
Theorem C76_lengths c v2 num_classes f : resnet c v2 num_classes = Some f ->
  length (rn_blocks c) = 4%nat /\ length (rn_channels c) = 4%nat /\ (4 <= length (rn_projection c))%nat.
Proof.
  unfold resnet, resnet_features. destruct c as [bs bn cs ps]. cbn [rn_blocks rn_channels rn_projection rn_bottleneck].
  destruct bs as [|? [|? [|? [|? [|]]]]]; try discriminate. destruct cs as [|? [|? [|? [|? [|]]]]]; try discriminate.
  destruct ps as [|? [|? [|? [|? ?]]]]; try discriminate. intros _. cbn. lia.
Qed.
Print Assumptions C76_lengths.

(** ** MobileNetV1 *)
Lemma depthwise_last m k0 k1 s0 s1 pads bias cin b h w : 0 < cin -> length pads = 2%nat ->
  depthwise m [k0; k1] [s0; s1] (inr pads) true bias [b; h; w; cin] =
  Some ([k0; k1; 1; m * cin] :: (if bias then [[m * cin]] else []),
        [b; window_count h (fst (nth 0 pads (0, 0))) (snd (nth 0 pads (0, 0))) k0 s0;
            window_count w (fst (nth 1 pads (0, 0))) (snd (nth 1 pads (0, 0))) k1 s1; m * cin]).
Proof.
  intros Hc L. destruct pads as [|[l0 r0] [|[l1 r1] [|]]]; try discriminate.
  unfold depthwise. cbn [length Nat.eqb negb orb channel_of List.last nth fst snd].
  destruct (cin <=? 0) eqn:C; [apply Z.leb_le in C; lia|]. cbn [app].
  unfold lax_conv_shape. cbn -[window_count Z.mul Z.modulo].
  assert (M : (m * cin) mod cin = 0) by (apply Z.mod_mul; lia).
  rewrite M, Z.mul_1_l, !Z.eqb_refl. cbn [andb].
  assert (K : forall k, effective k 1 = k) by (intros k; unfold effective; lia). rewrite !K.
  cbn [rev app]. rewrite Z.eqb_refl, orb_true_r. now destruct bias.
Qed.
(** A depthwise convolution wants an image batch with at least one channel, for every kernel, stride and padding. *)
Theorem C76_depthwise_accepts m kernel stride padding last bias x ps out : depthwise m kernel stride padding last bias x = Some (ps, out) ->
  length x = 4%nat /\ 0 < channel_of last x.
Proof.
  unfold depthwise. destruct (Nat.eqb_spec (length x) 4) as [L|]; [|discriminate]. cbn [negb orb].
  destruct (Z.leb_spec (channel_of last x) 0); [discriminate|]. now split.
Qed.
Print Assumptions C76_depthwise_accepts.
(** An explicit padding of one on each side makes the depthwise convolution of a block divide the sides by the stride, rounded up. *)
Definition mobile_params (cin channels : Z) (use_bn : bool) : list (list Z) :=
  if use_bn then [[3; 3; 1; cin]] ++ bn_params cin ++ [[1; 1; cin; channels]] ++ bn_params channels
  else [[3; 3; 1; cin]; [cin]; [1; 1; cin; channels]; [channels]].
Lemma regular_conv_valid c k s bias cin :
  regular (conv2d c k s PtValid bias) cin c ([k; k; cin; c] :: (if bias then [[c]] else [])) (fun h => window_count h 0 0 k s).
Proof.
  intros b h w Hb Hh Hw. unfold conv2d.
  destruct (C63_channels_last (ConvND 2 c [k; k] [s; s] [1; 1] (inl PtValid) true 1) b [h; w] cin) as [_ [E _]];
    try reflexivity; try (cbn; lia); try (cbn; apply Z.mod_1_r); [cbn; discriminate|].
  change (b :: [h; w] ++ [cin]) with [b; h; w; cin] in E. rewrite E. cbn [cv_kernel cv_groups cv_out cv_padding cv_rate cv_stride].
  assert (K : effective k 1 = k) by (unfold effective; lia).
  rewrite Z.div_1_r. cbn [string_pads out_sizes app lax_pads]. rewrite !K. reflexivity.
Qed.
Lemma keeps_window lo hi k s : keeps (fun h => window_count h lo hi k s).
Proof. intros h Hh. unfold window_count. lia. Qed.
Lemma regular_mobile channels stride use_bn cin : 0 < stride -> 0 < cin ->
  regular (mobile_block channels stride use_bn) cin channels (mobile_params cin channels use_bn) (fun h => cdiv h stride).
Proof.
  intros Hs Hc. unfold mobile_block.
  assert (D : regular (depthwise 1 [3; 3] [stride; stride] (inr [(1, 1); (1, 1)]) true (negb use_bn)) cin cin
                ([3; 3; 1; cin] :: (if negb use_bn then [[cin]] else [])) (fun h => cdiv h stride)).
  { intros b h w Hb Hh Hw. rewrite depthwise_last by (assumption || reflexivity). cbn [nth fst snd]. rewrite Z.mul_1_l.
    assert (W : forall n, 0 <= n -> window_count n 1 1 3 stride = cdiv n stride).
    { intros n Hn. unfold window_count, cdiv. replace (n + 1 + 1 - 3) with (n - 1) by lia. rewrite ceil_pred by lia.
      apply Z.max_r, Z.div_pos; lia. }
    now rewrite !W. }
  assert (P : regular (conv2d channels 1 1 PtValid (negb use_bn)) cin channels ([1; 1; cin; channels] :: (if negb use_bn then [[channels]] else [])) (fun h => h)).
  { eapply regular_ext; [|exact (regular_conv_valid channels 1 1 (negb use_bn) cin)]. intros h Hh. cbn beta.
    unfold window_count. rewrite Z.div_1_r. lia. }
  assert (B : forall c, regular (if use_bn then batchnorm else ident) c c (if use_bn then bn_params c else []) (fun h => h)) by (intros c; destruct use_bn; [apply regular_bn|apply regular_ident]).
  intros b h w Hb Hh Hw.
  rewrite (regular_andthen _ _ _ _ _ _ _ _ _ (keeps_cdiv stride Hs) D (regular_andthen _ _ _ _ _ _ _ _ _ keeps_id (B cin)
    (regular_andthen _ _ _ _ _ _ _ _ _ keeps_id P (B channels))) b h w Hb Hh Hw).
  destruct use_bn; reflexivity.
Qed.
Theorem C76_mobile_block channels stride use_bn cin b h w : 0 < stride -> 0 < cin -> 0 <= b -> 0 <= h -> 0 <= w ->
  mobile_block channels stride use_bn [b; h; w; cin] =
  Some (mobile_params cin channels use_bn, [b; (h + stride - 1) / stride; (w + stride - 1) / stride; channels]).
Proof. intros Hs Hc Hb Hh Hw. now apply regular_mobile. Qed.
Print Assumptions C76_mobile_block.
Fixpoint mobile_stack (cin : Z) (channels : list Z) (use_bn : bool) : list (list Z) :=
  match channels with
  | [] => []
  | c :: channels => mobile_params cin c use_bn ++ mobile_stack c channels use_bn
  end.
Definition zprod (l : list Z) : Z := fold_right Z.mul 1 l.
Lemma zprod_pos l : Forall (fun s => 0 < s) l -> 0 < zprod l.
Proof. induction 1 as [|s l Hs F IH]; cbn; [lia|]. unfold zprod in IH. nia. Qed.
Lemma fold_andthen {A} (g : A -> net) l : forall f x,
  fold_left (fun f a => andthen f (g a)) l f x = andthen f (fold_left (fun f a => andthen f (g a)) l ident) x.
Proof.
  induction l as [|a l IH]; intros f x; cbn [fold_left].
  - unfold andthen, ident. destruct (f x) as [[p y]|]; [|reflexivity]. now rewrite app_nil_r.
  - rewrite IH, andthen_assoc. set (k := fold_left (fun f a => andthen f (g a)) l ident) in *.
    assert (C : forall u v : net, (forall y, u y = v y) -> andthen f u x = andthen f v x) by (intros u v H; unfold andthen; destruct (f x) as [[p y]|]; [now rewrite H|reflexivity]).
    apply C. intros y. rewrite (IH (andthen ident (g a)) y), andthen_assoc, andthen_ident. reflexivity.
Qed.
Lemma regular_stack use_bn channels : forall strides cin, length strides = length channels -> Forall (fun s => 0 < s) strides -> Forall (fun c => 0 < c) channels -> 0 < cin ->
  regular (fold_left (fun f p => andthen f (mobile_block (snd p) (fst p) use_bn)) (combine strides channels) ident) cin (List.last channels cin)
    (mobile_stack cin channels use_bn) (fun h => cdiv h (zprod strides)).
Proof.
  induction channels as [|c channels IH]; intros [|s strides] cin L Fs Fc Hc; try discriminate.
  - intros b h w Hb Hh Hw. cbn. now rewrite !cdiv_1.
  - apply Forall_cons_iff in Fs as [Hs Fs], Fc as [Hc' Fc]. injection L as L.
    specialize (IH strides c L Fs Fc Hc'). intros b h w Hb Hh Hw.
    cbn [combine fold_left fst snd].
    rewrite (fold_andthen (fun p : Z * Z => mobile_block (snd p) (fst p) use_bn)), andthen_assoc, andthen_ident.
    rewrite (regular_andthen _ _ _ _ _ _ _ _ _ (keeps_cdiv s Hs) (regular_mobile c s use_bn cin Hs Hc) IH b h w Hb Hh Hw).
    cbn beta. rewrite !cdiv_cdiv by (try apply zprod_pos; assumption). cbn [mobile_stack]. unfold zprod. cbn [fold_right].
    replace (List.last (c :: channels) cin) with (List.last channels c); [reflexivity|].
    clear. destruct channels as [|d channels]; [reflexivity|]. cbn [List.last]. revert d. induction channels as [|e channels IH]; [reflexivity|].
    intros d. exact (IH e).
Qed.
(** The network accepts images of every size, with the same parameters; its last feature map has sides rounded up from half of the side less
    one, divided by the product of the strides. *)
Theorem C76_mobilenet strides channels num_classes use_bn cin : length strides = length channels ->
  Forall (fun s => 0 < s) strides -> Forall (fun c => 0 < c) channels ->
  exists features f ps, mobilenet_features strides channels use_bn = Some features /\ mobilenet strides channels num_classes use_bn = Some f /\
  ps = [[3; 3; cin; 32]] ++ (if use_bn then bn_params 32 else [[32]]) ++ mobile_stack 32 channels use_bn /\
  forall b h w, 0 <= b -> 0 <= h -> 0 <= w ->
    let side n := cdiv (Z.max 0 ((n - 1) / 2)) (zprod strides) in
    features [b; h; w; cin] = Some (ps, [b; side h; side w; List.last channels 32]) /\
    f [b; h; w; cin] = Some (ps ++ [[List.last channels 32; num_classes]; [num_classes]], [b; num_classes]).
Proof.
  intros L Fs Fc. unfold mobilenet, mobilenet_features. rewrite (proj2 (Nat.eqb_eq _ _) L). cbn [negb option_map].
  eexists _, _, _. split; [reflexivity|]. split; [reflexivity|]. split; [reflexivity|].
  pose proof (regular_conv_valid 32 3 2 (negb use_bn) cin) as R1.
  assert (R2 : regular (if use_bn then batchnorm else ident) 32 32 (if use_bn then bn_params 32 else []) (fun h => h)) by (destruct use_bn; [apply regular_bn|apply regular_ident]).
  pose proof (regular_stack use_bn channels strides 32 L Fs Fc ltac:(lia)) as R3.
  intros b h w Hb Hh Hw.
  assert (E : forall n, window_count n 0 0 3 2 = Z.max 0 ((n - 1) / 2)).
  { intros n. unfold window_count. f_equal. replace (n + 0 + 0 - 3) with (n - 1 + (-1) * 2) by lia. rewrite Z.div_add by lia. lia. }
  pose proof (regular_andthen _ _ _ _ _ _ _ _ _ (keeps_window 0 0 3 2) R1 (regular_andthen _ _ _ _ _ _ _ _ _ keeps_id R2 R3) b h w Hb Hh Hw) as R.
  cbn beta in R. rewrite !E in R.
  assert (P : forall k, ([3; 3; cin; 32] :: (if negb use_bn then [[32]] else [])) ++ (if use_bn then bn_params 32 else []) ++ k =
              [[3; 3; cin; 32]] ++ (if use_bn then bn_params 32 else [[32]]) ++ k) by (intros k; destruct use_bn; reflexivity).
  rewrite P in R. split; [exact R|]. unfold andthen at 1. rewrite R. reflexivity.
Qed.
Print Assumptions C76_mobilenet.
(** The sizes that the documentation gives (mobilenetv1.py:20-22), and the number of parameters at every size. *)
Theorem C76_mobilenet_default b h w : 0 <= b -> 0 <= h -> 0 <= w -> exists features f ps,
  mobilenet_features mobile_strides mobile_channels true = Some features /\ mobilenet mobile_strides mobile_channels 1000 true = Some f /\
  f [b; h; w; 3] = Some (ps, [b; 1000]) /\ num_params ps = 4231976 /\
  (h = 32 -> w = 32 -> option_map snd (features [b; h; w; 3]) = Some [b; 1; 1; 1024]) /\
  (h = 224 -> w = 224 -> option_map snd (features [b; h; w; 3]) = Some [b; 7; 7; 1024]) /\
  ((h < 3 \/ w < 3) <-> exists s t, option_map snd (features [b; h; w; 3]) = Some [b; s; t; 1024] /\ s * t = 0).
Proof.
  intros Hb Hh Hw.
  destruct (C76_mobilenet mobile_strides mobile_channels 1000 true 3 eq_refl) as [features [f [ps [E1 [E2 [-> F]]]]]].
  { unfold mobile_strides. repeat constructor. } { unfold mobile_channels. repeat constructor. }
  specialize (F b h w Hb Hh Hw). cbn zeta in F. destruct F as [Ff F]. change (List.last mobile_channels 32) with 1024 in *.
  exists features, f. eexists. split; [exact E1|]. split; [exact E2|]. split; [exact F|]. split; [vm_compute; reflexivity|].
  rewrite Ff. cbn [option_map snd]. change (zprod mobile_strides) with 16.
  split; [intros -> ->; reflexivity|]. split; [intros -> ->; reflexivity|].
  assert (S : forall n, 0 <= n -> (n < 3 <-> cdiv (Z.max 0 ((n - 1) / 2)) 16 = 0)).
  { intros n Hn. split; intros H.
    - assert (A : (n - 1) / 2 < 1) by (apply Z.div_lt_upper_bound; lia). rewrite Z.max_l by lia. reflexivity.
    - destruct (Z_lt_ge_dec n 3) as [|G]; [assumption|]. exfalso.
      assert (A : 1 <= (n - 1) / 2) by (apply Z.div_le_lower_bound; lia). rewrite Z.max_r in H by lia.
      pose proof (cdiv_pos ((n - 1) / 2) 16). lia. }
  rewrite (S h Hh), (S w Hw). split.
  - intros D. eexists _, _. split; [reflexivity|]. destruct D as [-> | ->]; lia.
  - intros [s [t [E Z0]]]. injection E as <- <-. apply Z.mul_eq_0 in Z0. exact Z0.
Qed.
Print Assumptions C76_mobilenet_default.
(** So an image with a side below three is accepted and averaged over no position at all. *)
Theorem C76_mobilenet_small_refuted : exists features f, mobilenet_features mobile_strides mobile_channels true = Some features /\
  mobilenet mobile_strides mobile_channels 1000 true = Some f /\
  option_map snd (features [8; 2; 2; 3]) = Some [8; 0; 0; 1024] /\ option_map snd (f [8; 2; 2; 3]) = Some [8; 1000].
Proof. eexists _, _. split; [reflexivity|]. split; [reflexivity|]. split; vm_compute; reflexivity. Qed.
Print Assumptions C76_mobilenet_small_refuted.

(** Examples. *)
Example C76_block_case : block false 256 2 true true [8; 57; 30; 64] =
  Some ([[1; 1; 64; 256]; [1; 1; 1; 256]; [1; 1; 1; 256]; [1; 1; 64; 64]; [1; 1; 1; 64]; [1; 1; 1; 64]; [3; 3; 64; 64]; [1; 1; 1; 64]; [1; 1; 1; 64]; [1; 1; 64; 256]; [1; 1; 1; 256]; [1; 1; 1; 256]], [8; 29; 15; 256]).
Proof. reflexivity. Qed.
Example C76_block_v2_case : block true 64 1 false false [8; 57; 30; 64] =
  Some ([[1; 1; 1; 64]; [1; 1; 1; 64]; [3; 3; 64; 64]; [1; 1; 1; 64]; [1; 1; 1; 64]; [3; 3; 64; 64]], [8; 57; 30; 64]) /\
  block true 64 2 false false [8; 57; 30; 64] = None.
Proof. split; reflexivity. Qed.
Example C76_group_case : option_map (fun r => (num_params (fst r), snd r)) (block_group false 128 2 2 false true [8; 57; 30; 64]) = Some (525568, [8; 29; 15; 128]).
Proof. vm_compute. reflexivity. Qed.
Example C76_resnet_case : option_map (fun f : net => option_map snd (f [2; 33; 65; 1])) (resnet (snd (nth 0 configs (0, ResNetConfig [] true [] []))) true 10) = Some (Some [2; 10]).
Proof. vm_compute. reflexivity. Qed.
Example C76_mobile_case : mobile_block 64 2 false [8; 57; 30; 32] = Some ([[3; 3; 1; 32]; [32]; [1; 1; 32; 64]; [64]], [8; 29; 15; 64]).
Proof. reflexivity. Qed.

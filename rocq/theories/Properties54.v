(** C94, second part: what one example of a batch depends on, scaling, and networks at initialization. *)
From Coq Require Import Reals ZArith String List Bool Lia Lra.
From Verif Require Import ModelNets ModelShape ModelReal ModelPool ModelConv ModelImageNets ModelCheckpoint ModelImageValues Properties09 Properties23 Properties32 Properties33 Properties53.
Import ListNotations.
Local Open Scope R_scope.

(** Example [i'] of the batch [y] of [b'] images is [c] times example [i] of the batch [x] of [b] images; also for a batch of vectors. *)
Definition rel4 (c : R) (b b' i i' : Z) (x y : arr) : Prop := exists h w ch, (0 <= h)%Z /\ (0 <= w)%Z /\ fst x = [b; h; w; ch] /\ fst y = [b'; h; w; ch] /\
  forall p q k, (0 <= p < h)%Z -> (0 <= q < w)%Z -> (0 <= k < ch)%Z -> snd y [i'; p; q; k] = c * snd x [i; p; q; k].
Definition rel2 (c : R) (b b' i i' : Z) (x y : arr) : Prop := exists n, fst x = [b; n] /\ fst y = [b'; n] /\
  forall k, (0 <= k < n)%Z -> snd y [i'; k] = c * snd x [i; k].
Definition respects (R R' : arr -> arr -> Prop) (f g : vnet) : Prop := forall x y, R x y ->
  match f x, g y with Some u, Some v => R' u v | None, None => True | _, _ => False end.
Lemma respects_then R1 R2 R3 f g f' g' : respects R1 R2 f f' -> respects R2 R3 g g' -> respects R1 R3 (thenv f g) (thenv f' g').
Proof. intros F G x y H. unfold thenv. specialize (F x y H). destruct (f x), (f' y); try (now destruct F). now apply G. Qed.
Lemma respects_ident R : respects R R identv identv.
Proof. now intros x y H. Qed.
Lemma respects_fold {A} R (F G : A -> vnet) l : forall f g, (forall a, In a l -> respects R R (F a) (G a)) -> respects R R f g ->
  respects R R (fold_left (fun f a => thenv f (F a)) l f) (fold_left (fun f a => thenv f (G a)) l g).
Proof. induction l as [|a l IH]; intros f g H F0; [exact F0|]. cbn [fold_left]. apply IH; [intros a' I; apply H; now right|]. eapply respects_then; [exact F0|apply H; now left]. Qed.

Section Layers.
Context (c : R) (Hc : 0 <= c) (b b' i i' : Z) (Hi : (0 <= i < b)%Z) (Hi' : (0 <= i' < b')%Z).
Let R4 := rel4 c b b' i i'.
Let R2 := rel2 c b b' i i'.
Lemma relu_scale v : Rmax (c * v) 0 = c * Rmax v 0.
Proof. replace 0 with (c * 0) at 1 by ring. now apply RmaxRmult. Qed.
Lemma respects_relu : respects R4 R4 relu_v relu_v.
Proof.
  intros x y (h & w & ch & Dh & Dw & Ex & Ey & H). unfold relu_v, layer, ident. exists h, w, ch. cbn [fst snd]. do 2 (split; [assumption|]). split; [exact Ex|split; [exact Ey|]].
  intros p q k Hp Hq Hk. rewrite H by assumption. apply relu_scale.
Qed.
Lemma conv2d_shape n k s t bias h w ch : exists ps ho wo, (0 <= ho)%Z /\ (0 <= wo)%Z /\ forall b, conv2d n k s t bias [b; h; w; ch] = Some (ps, [b; ho; wo; n]).
Proof.
  destruct (C63_channels_last (ConvND 2 n [k; k] [s; s] [1; 1]%Z (inl t) true 1) 0 [h; w] ch) as [L _]; try reflexivity; try (cbn; lia); try (cbn; apply Z.mod_1_r); [cbn; discriminate|].
  cbn [cv_padding cv_kernel cv_rate cv_stride cv_spatial] in L. set (sizes := out_sizes _ _ _ _ _) in L.
  exists ([k; k; ch; n] :: (if bias then [[n]] else []))%Z. assert (E : exists ho wo, (0 <= ho)%Z /\ (0 <= wo)%Z /\ sizes = [ho; wo]).
  { unfold sizes. cbn [string_pads]. destruct (lax_pads t h _ s) as [l0 r0], (lax_pads t w _ s) as [l1 r1]. cbn [out_sizes]. eexists _, _. split; [|split; [|reflexivity]]; unfold window_count; lia. }
  destruct E as (ho & wo & Dh & Dw & E). exists ho, wo. split; [exact Dh|split; [exact Dw|]]. intros b0. unfold conv2d.
  destruct (C63_channels_last (ConvND 2 n [k; k] [s; s] [1; 1]%Z (inl t) true 1) b0 [h; w] ch) as [_ [E' _]]; try reflexivity; try (cbn; lia); try (cbn; apply Z.mod_1_r); [cbn; discriminate|].
  change (b0 :: [h; w] ++ [ch]) with [b0; h; w; ch] in E'. rewrite E'. cbn [cv_kernel cv_groups cv_out cv_padding cv_rate cv_stride]. fold sizes. rewrite E, Z.div_1_r. reflexivity.
Qed.
Lemma inside_bounds h w p q : inside [h; w] [p; q] = true -> (0 <= p < h)%Z /\ (0 <= q < w)%Z.
Proof. cbn. rewrite !andb_true_iff. lia. Qed.
Lemma position_2 s0 s1 r0 r1 l0 l1 o0 o1 j : length j = 2%nat -> exists p q, position [s0; s1] [r0; r1] [l0; l1] [o0; o1] j = [p; q].
Proof. intros L. destruct j as [|j0 [|j1 [|]]]; try discriminate L. cbn. eauto. Qed.
(** The biases of a layer: none, or zero, or the arrays are not scaled. *)
Definition unscaled (W : weights) (name : string) (with_bias : bool) : Prop := with_bias = false \/ c = 1 \/ forall k, b_of W name [k] = 0.
Lemma bias_scale W name with_bias k : unscaled W name with_bias -> let v := opt_bias (if with_bias then Some (b_of W name) else None) [k] in v = c * v.
Proof. intros [->|[->|H]]; cbn; [ring| |]; destruct with_bias; cbn; rewrite ?H; ring. Qed.
Lemma respects_conv W name n k s t bias : unscaled W name bias -> respects R4 R4 (conv_v W name n k s t bias) (conv_v W name n k s t bias).
Proof.
  intros U x y (h & w & ch & Dh & Dw & Ex & Ey & H). unfold conv_v, layer. rewrite Ex, Ey. destruct (conv2d_shape n k s t bias h w ch) as (ps & ho & wo & Dh' & Dw' & E). rewrite !E.
  exists ho, wo, n. do 2 (split; [assumption|]). split; [reflexivity|split; [reflexivity|]]. cbn [snd]. intros p q co Hp Hq Hco. unfold conv_values. cbn [length cv_spatial Nat.eqb].
  set (cv := ConvND 2 n [k; k] [s; s] [1; 1]%Z (inl t) true 1).
  assert (Wf : wf_conv cv [h; w]) by (repeat split; try reflexivity; cbn; discriminate).
  pose proof (fun b x i bias => C77_formula cv b [h; w] ch (w_of W name) None bias x i [p; q] co Wf eq_refl) as F. cbn zeta in F.
  change (cv_last cv) with true in F. change (cv_groups cv) with 1%Z in F. change (cv_out cv) with n in F. change (cv_kernel cv) with [k; k] in F. change (cv_stride cv) with [s; s] in F. change (cv_rate cv) with [1; 1]%Z in F.
  assert (F' : forall b x i bias, conv_batched cv [b; h; w; ch] (w_of W name) None bias x [i; p; q; co] =
    bsum [k; k] (fun j => zsum ch (fun ci => (let r := position [s; s] [1; 1]%Z (map fst (pads_for cv [h; w])) [p; q] j in if inside [h; w] r then x (i :: r ++ [ci]) else 0) * w_of W name (j ++ [ci; co]))) + opt_bias bias [co]).
  { intros b0 x0 i0 bias0. change [b0; h; w; ch] with (image_index true b0 [h; w] ch). change [i0; p; q; co] with (image_index true i0 [p; q] co). rewrite F.
    rewrite !Z.div_1_r, Z.div_small by exact Hco. f_equal. }
  rewrite !F'. pose proof (bias_scale W name bias co U) as B. cbv zeta in B. rewrite B at 1. rewrite Rmult_plus_distr_l. f_equal.
  rewrite <- bsum_scale. apply bsum_ext. intros j Hj. rewrite <- zsum_scale. apply zsum_ext. intros ci Hci. rewrite <- Rmult_assoc. f_equal.
  apply in_box_length in Hj. cbn zeta. change (pads_for cv [h; w]) with (string_pads t [h; w] [k; k] [1; 1]%Z [s; s]). cbn [string_pads map fst].
  destruct (position_2 s s 1 1 (fst (lax_pads t h (effective k 1) s)) (fst (lax_pads t w (effective k 1) s)) p q j Hj) as (p' & q' & ->).
  destruct (inside [h; w] [p'; q']) eqn:In; [|ring]. apply inside_bounds in In. cbn [app]. now apply H.
Qed.
Lemma respects_depthwise W name s bias : unscaled W name bias -> respects R4 R4 (depthwise_v W name [3; 3]%Z [s; s] (inr [(1, 1); (1, 1)]%Z) bias) (depthwise_v W name [3; 3]%Z [s; s] (inr [(1, 1); (1, 1)]%Z) bias).
Proof.
  intros U x y (h & w & ch & Dh & Dw & Ex & Ey & H). unfold depthwise_v, layer. rewrite Ex, Ey.
  destruct (Z.leb_spec ch 0) as [C|C].
  { unfold depthwise. cbn [length Nat.eqb negb orb channel_of List.last]. destruct (Z.leb_spec ch 0); [exact I|lia]. }
  rewrite !depthwise_last by (assumption || reflexivity). set (ho := window_count h _ _ _ _). set (wo := window_count w _ _ _ _).
  exists ho, wo, (1 * ch)%Z. split; [unfold ho, window_count; lia|split; [unfold wo, window_count; lia|]]. split; [reflexivity|split; [reflexivity|]]. cbn [snd]. intros p q co Hp Hq Hco.
  assert (F : forall b x i bias, depthwise_values 1 [3; 3]%Z [s; s] (inr [(1, 1); (1, 1)]%Z) true [b; h; w; ch] (w_of W name) bias x [i; p; q; co] =
    bsum [3; 3]%Z (fun j => (let r := position [s; s] [1; 1]%Z [1; 1]%Z [p; q] j in if inside [h; w] r then x (i :: r ++ [co]) else 0) * w_of W name (j ++ [0%Z; co])) + opt_bias bias [co]).
  { intros b0 x0 i0 bias0. change [b0; h; w; ch] with (image_index true b0 [h; w] ch). change [i0; p; q; co] with (image_index true i0 [p; q] co). rewrite (C77_depthwise 1 3 3 s s (inr [(1, 1); (1, 1)]%Z) true b0 h w ch (w_of W name) bias0 x0 i0 p q co) by (assumption || (intros l [= <-]; reflexivity)).
    rewrite Z.div_1_r. reflexivity. }
  rewrite !F. pose proof (bias_scale W name bias co U) as B. cbv zeta in B. rewrite B at 1. rewrite Rmult_plus_distr_l. f_equal.
  rewrite <- bsum_scale. apply bsum_ext. intros j Hj. rewrite <- Rmult_assoc. f_equal.
  apply in_box_length in Hj. cbn zeta. destruct (position_2 s s 1 1 1 1 p q j Hj) as (p' & q' & ->).
  destruct (inside [h; w] [p'; q']) eqn:In; [|ring]. apply inside_bounds in In. cbn [app]. apply H; lia.
Qed.
(** The averages and offset of a batch normalisation: zero, or the arrays are not scaled. *)
Definition unscaled_bn (W : weights) (name : string) : Prop := c = 1 \/ forall k, bn_mean (bn_of W name) k = 0 /\ bn_offset (bn_of W name) k = 0.
Lemma respects_bn eps W name : unscaled_bn W name -> respects R4 R4 (bn_v eps false false W name) (bn_v eps false false W name).
Proof.
  intros U x y (h & w & ch & Dh & Dw & Ex & Ey & H). unfold bn_v, layer, batchnorm. exists h, w, ch. cbn [fst snd]. do 2 (split; [assumption|]). split; [exact Ex|split; [exact Ey|]].
  intros p q k Hp Hq Hk. rewrite H by assumption. cbn [orb List.last]. destruct U as [->|U]; [ring|]. destruct (U k) as [-> ->]. ring.
Qed.
Lemma axis_window_1 n o : (0 <= o < n)%Z -> axis_window n 1 1 (pool_lo PtSame (PoolAxis n 1 1)) o = [o].
Proof.
  intros H. unfold pool_lo. cbn [pa_n pa_k pa_s]. rewrite lax_pads_unit. cbn [fst]. unfold axis_window. change (Z.to_nat 1) with 1%nat. cbn [seq map filter Z.of_nat].
  replace (o * 1 + 0 - 0)%Z with o by lia. destruct (Z.leb_spec 0 o); [|lia]. destruct (Z.ltb_spec o n); [reflexivity|lia].
Qed.
Lemma product_1 {A} (a : A) l : product ([a] :: l) = map (cons a) (product l).
Proof. cbn [product flat_map]. apply app_nil_r. Qed.
Lemma product_last (l : list (list Z)) a : product (l ++ [[a]]) = map (fun p => p ++ [a]) (product l).
Proof.
  induction l as [|xs l IH]; [reflexivity|]. cbn [app product]. rewrite IH. induction xs as [|x xs IHx]; [reflexivity|]. cbn [flat_map]. rewrite map_app, IHx. f_equal. now rewrite !map_map.
Qed.
Lemma max_scale l : forall m, (forall e, In e l -> fst e = c * snd e) ->
  fold_left max_opt (map fst l) (option_map (Rmult c) m) = option_map (Rmult c) (fold_left max_opt (map snd l) m).
Proof.
  induction l as [|e l IH]; intros m H; [reflexivity|]. cbn [map fold_left]. rewrite <- IH by (intros e' I; apply H; now right). f_equal.
  rewrite (H e (or_introl eq_refl)). destruct m as [m|]; [|reflexivity]. cbn. f_equal. now apply RmaxRmult.
Qed.
Lemma respects_pool : respects R4 R4 max_pool_v max_pool_v.
Proof.
  intros x y (h & w & ch & Dh & Dw & Ex & Ey & H). unfold max_pool_v, layer, max_pool_3_2. rewrite Ex, Ey.
  assert (P : forall b, pool_axes [b; h; w; ch] (inr [1; 3; 3; 1]%Z) (inr [1; 2; 2; 1]%Z) (Some (-1)%Z) = Some [PoolAxis b 1 1; PoolAxis h 3 2; PoolAxis w 3 2; PoolAxis ch 1 1]) by reflexivity.
  rewrite !P. unfold pool_out. cbn [map pa_n pa_k pa_s].
  assert (Q : forall n, (0 <= n)%Z -> window_count n (fst (lax_pads PtSame n 1 1)) (snd (lax_pads PtSame n 1 1)) 1 1 = n).
  { intros n Hn. rewrite lax_pads_unit. unfold window_count. cbn [fst snd]. rewrite Z.div_1_r. lia. }
  rewrite (Q b), (Q b') by lia. eexists _, _, _. do 2 (split; [unfold window_count; apply Z.le_max_l|]). split; [reflexivity|split; [reflexivity|]]. cbn [snd]. intros p q k Hp Hq Hk.
  assert (Hk' : (0 <= k < ch)%Z).
  { destruct (Z.leb_spec 0 ch) as [C|C]; [now rewrite Q in Hk|]. rewrite lax_pads_unit in Hk. unfold window_count in Hk. cbn [fst snd] in Hk. rewrite Z.div_1_r in Hk. lia. }
  unfold max_pool. set (hs := axis_window h 3 2 (pool_lo PtSame (PoolAxis h 3 2)) p). set (ws := axis_window w 3 2 (pool_lo PtSame (PoolAxis w 3 2)) q).
  assert (E : forall b i, (0 <= i < b)%Z -> pool_window PtSame [PoolAxis b 1 1; PoolAxis h 3 2; PoolAxis w 3 2; PoolAxis ch 1 1] [i; p; q; k] = map (fun l => i :: l ++ [k]) (product [hs; ws])).
  { intros b0 i0 H0. unfold pool_window. cbn [combine map fst snd pa_n pa_k pa_s]. rewrite !axis_window_1 by assumption. fold hs ws. rewrite product_1.
    change [hs; ws; [k]] with ([hs; ws] ++ [[k]]). rewrite product_last. now rewrite map_map. }
  rewrite !E by assumption. rewrite !map_map.
  assert (B : forall l, In l (product [hs; ws]) -> exists p' q', l = [p'; q'] /\ (0 <= p' < h)%Z /\ (0 <= q' < w)%Z).
  { intros l I. cbn [product] in I. apply in_flat_map in I as (p' & Ip & I). apply in_map_iff in I as (l' & <- & I). apply in_flat_map in I as (q' & Iq & I). destruct I as [<-|[]].
    exists p', q'. split; [reflexivity|]. unfold hs, ws, axis_window in Ip, Iq. apply filter_In in Ip as [_ Ip], Iq as [_ Iq]. apply andb_true_iff in Ip, Iq. lia. }
  pose proof (max_scale (map (fun l => (snd y (i' :: l ++ [k]), snd x (i :: l ++ [k]))) (product [hs; ws])) None) as M. rewrite !map_map in M. cbn [fst snd option_map] in M.
  rewrite M. { generalize (fold_left max_opt (map (fun x0 : list Z => snd x (i :: x0 ++ [k])) (product [hs; ws])) None). intros [r|]; cbn [option_map]; ring. }
  intros e I. apply in_map_iff in I as (l & <- & I). cbn [fst snd]. destruct (B l I) as (p' & q' & -> & Hp' & Hq'). now apply H.
Qed.
(** The sum of two arrays. *)
Lemma clip_4 n0 n1 n2 n3 a0 a1 a2 a3 : clip [n0; n1; n2; n3] [a0; a1; a2; a3] =
  [(if (n0 =? 1)%Z then 0 else a0)%Z; (if (n1 =? 1)%Z then 0 else a1)%Z; (if (n2 =? 1)%Z then 0 else a2)%Z; (if (n3 =? 1)%Z then 0 else a3)%Z].
Proof. reflexivity. Qed.
Definition bdim (a b : Z) : option Z := if (a =? b)%Z then Some a else if (a =? 1)%Z then Some b else if (b =? 1)%Z then Some a else None.
Lemma broadcast_4 n0 n1 n2 n3 m0 m1 m2 m3 : broadcast2 [n0; n1; n2; n3] [m0; m1; m2; m3] =
  match bdim n0 m0, bdim n1 m1, bdim n2 m2, bdim n3 m3 with Some a, Some b, Some c, Some d => Some [a; b; c; d] | _, _, _, _ => None end.
Proof.
  unfold broadcast2. cbn [rev app broadcast2_rev]. fold (bdim n0 m0) (bdim n1 m1) (bdim n2 m2) (bdim n3 m3).
  destruct (bdim n3 m3), (bdim n2 m2), (bdim n1 m1), (bdim n0 m0); reflexivity.
Qed.
Lemma bdim_refl n : bdim n n = Some n.
Proof. unfold bdim. now rewrite Z.eqb_refl. Qed.
Lemma bdim_nonneg n m r : bdim n m = Some r -> (0 <= n)%Z -> (0 <= m)%Z -> (0 <= r)%Z.
Proof. unfold bdim. destruct (n =? m)%Z, (n =? 1)%Z, (m =? 1)%Z; intros [= <-]; lia. Qed.
Lemma bdim_bounds n m r p : bdim n m = Some r -> (0 <= p < r)%Z -> (0 <= (if (n =? 1)%Z then 0 else p) < n)%Z /\ (0 <= (if (m =? 1)%Z then 0 else p) < m)%Z.
Proof.
  unfold bdim. destruct (Z.eqb_spec n m) as [->|N].
  - intros [= ->] H. destruct (Z.eqb_spec r 1); lia.
  - destruct (Z.eqb_spec n 1) as [->|N1]; [intros [= ->] H; destruct (Z.eqb_spec r 1); lia|]. destruct (Z.eqb_spec m 1) as [->|M1]; [intros [= ->] H; lia|discriminate].
Qed.
Lemma add_respects x y x' y' : R4 x y -> R4 x' y' -> match add_v x x', add_v y y' with Some u, Some v => R4 u v | None, None => True | _, _ => False end.
Proof.
  intros (h & w & ch & Dh & Dw & Ex & Ey & H) (h' & w' & ch' & Dh' & Dw' & Ex' & Ey' & H'). unfold add_v. rewrite Ex, Ey, Ex', Ey'. rewrite !broadcast_4, !bdim_refl.
  destruct (bdim h h') as [h2|] eqn:B1; [|exact I]. destruct (bdim w w') as [w2|] eqn:B2; [|exact I]. destruct (bdim ch ch') as [ch2|] eqn:B3; [|exact I].
  exists h2, w2, ch2. split; [now apply (bdim_nonneg _ _ _ B1)|split; [now apply (bdim_nonneg _ _ _ B2)|]]. split; [reflexivity|split; [reflexivity|]]. cbn [snd]. intros p q k Hp Hq Hk. rewrite !clip_4.
  apply (bdim_bounds _ _ _ _ B1) in Hp. apply (bdim_bounds _ _ _ _ B2) in Hq. apply (bdim_bounds _ _ _ _ B3) in Hk.
  assert (Z1 : (if (b =? 1)%Z then 0 else i)%Z = i) by (destruct (Z.eqb_spec b 1); lia). assert (Z2 : (if (b' =? 1)%Z then 0 else i')%Z = i') by (destruct (Z.eqb_spec b' 1); lia).
  rewrite Z1, Z2. rewrite H, H' by tauto. ring.
Qed.
Lemma respects_mean : respects R4 R2 mean_v mean_v.
Proof.
  intros x y (h & w & ch & Dh & Dw & Ex & Ey & H). unfold mean_v, layer, mean_1_2. rewrite Ex, Ey. exists ch. split; [reflexivity|split; [reflexivity|]]. cbn [snd]. intros k Hk.
  unfold Rdiv. rewrite <- Rmult_assoc. f_equal. rewrite <- bsum_scale. apply bsum_ext. intros l Hl. inversion Hl as [|? p ? l1 Hp H1]; subst. inversion H1 as [|? q ? l2 Hq H2]; subst. inversion H2; subst.
  cbn [app]. now apply H.
Qed.
Lemma respects_linear W name n : unscaled W name true -> respects R2 R2 (linear_v W name n) (linear_v W name n).
Proof.
  intros U x y (m & Ex & Ey & H). unfold linear_v, layer, linear. rewrite Ex, Ey. exists n. split; [reflexivity|split; [reflexivity|]]. cbn [snd]. intros k Hk.
  pose proof (bias_scale W name true k U) as B. cbn in B. rewrite B at 1. rewrite Rmult_plus_distr_l. f_equal. rewrite <- zsum_scale. apply zsum_ext. intros j Hj. rewrite H by assumption. ring.
Qed.

End Layers.

(** ** Whole networks: what all the layers respect. *)
Section Networks.
Context (R4 R2 : arr -> arr -> Prop) (eps : R) (tr tl : bool) (W : weights).
Context (respects_conv' : forall name n k s t bias, respects R4 R4 (conv_v W name n k s t bias) (conv_v W name n k s t bias)).
Context (respects_depthwise' : forall name s bias, respects R4 R4 (depthwise_v W name [3; 3]%Z [s; s] (inr [(1, 1); (1, 1)]%Z) bias) (depthwise_v W name [3; 3]%Z [s; s] (inr [(1, 1); (1, 1)]%Z) bias)).
Context (respects_bnv : forall name, respects R4 R4 (bnv eps tr tl W name) (bnv eps tr tl W name)).
Context (respects_relu' : respects R4 R4 relu_v relu_v) (respects_pool' : respects R4 R4 max_pool_v max_pool_v).
Context (respects_mean' : respects R4 R2 mean_v mean_v) (respects_linear' : forall name n, respects R2 R2 (linear_v W name n) (linear_v W name n)).
Context (add_respects' : forall x y x' y', R4 x y -> R4 x' y' -> match add_v x x', add_v y y' with Some u, Some v => R4 u v | None, None => True | _, _ => False end).
Lemma fold_pairs {A} (F : A -> vnet) (G : vnet -> A -> vnet) l : forall f, (forall f a, G f a = thenv f (F a)) -> fold_left G l f = fold_left (fun f a => thenv f (F a)) l f.
Proof. induction l as [|a l IH]; intros f H; [reflexivity|]. cbn [fold_left]. now rewrite H, IH. Qed.
Lemma respects_block_v1 p channels stride up bn : respects R4 R4 (block_v1_v eps tr tl W p channels stride up bn) (block_v1_v eps tr tl W p channels stride up bn).
Proof.
  intros x y H. unfold block_v1_v. cbv zeta. set (layers := block_layers channels stride bn).
  assert (A1 : respects R4 R4 (v1_layers eps tr tl W p layers) (v1_layers eps tr tl W p layers)).
  { unfold v1_layers. rewrite (fold_pairs (fun l => let '(i, (c, k, s)) := l in thenv (conv_v W (sub p (numbered "conv_" i)) c k s PtSame false) (thenv (bnv eps tr tl W (sub p (numbered "batchnorm_" i)))
      (if Nat.ltb i (length layers - 1) then relu_v else identv)))) by (intros f [j [[n k] s]]; reflexivity).
    apply respects_fold; [|apply respects_ident]. intros [j [[n k] s]] _. eapply respects_then; [apply respects_conv'|]. eapply respects_then; [apply respects_bnv|].
    destruct (Nat.ltb j _); [apply respects_relu'|apply respects_ident]. }
  assert (A2 : respects R4 R4 (if up then thenv (conv_v W (sub p "shortcut_conv") channels 1 stride PtSame false) (bnv eps tr tl W (sub p "shortcut_batchnorm")) else identv)
    (if up then thenv (conv_v W (sub p "shortcut_conv") channels 1 stride PtSame false) (bnv eps tr tl W (sub p "shortcut_batchnorm")) else identv)).
  { destruct up; [|apply respects_ident]. eapply respects_then; [apply respects_conv'|apply respects_bnv]. }
  specialize (A1 x y H). specialize (A2 x y H). generalize dependent (v1_layers eps tr tl W p layers). intros m A1. generalize dependent (if up then thenv (conv_v W (sub p "shortcut_conv") channels 1 stride PtSame false) (bnv eps tr tl W (sub p "shortcut_batchnorm")) else identv). intros sc A2.
  destruct (sc x) as [s|], (sc y) as [s'|]; try contradiction; [|exact I]. destruct (m x) as [o|], (m y) as [o'|]; try contradiction; [|exact I].
  pose proof (add_respects' o o' s s' A1 A2) as A3. destruct (add_v o s), (add_v o' s'); try contradiction; [|exact I]. now apply respects_relu'.
Qed.
Lemma respects_block_v2 p channels stride up bn : respects R4 R4 (block_v2_v eps tr tl W p channels stride up bn) (block_v2_v eps tr tl W p channels stride up bn).
Proof.
  intros x y H. pose proof (block_v2_eq eps tr tl W p channels stride up bn) as E. cbv zeta in E. destruct (hd (0, 0, 0)%Z (block_layers channels stride bn)) as [[n k] s]. rewrite !E. clear E.
  set (l := combine _ _).
  assert (A0 : respects R4 R4 (thenv (bnv eps tr tl W (sub p (numbered "batchnorm_" 0))) relu_v) (thenv (bnv eps tr tl W (sub p (numbered "batchnorm_" 0))) relu_v)) by (eapply respects_then; [apply respects_bnv|apply respects_relu']).
  specialize (A0 x y H). destruct (thenv _ relu_v x) as [u|], (thenv _ relu_v y) as [v|]; try contradiction; [|exact I].
  assert (A1 : respects R4 R4 (v2_chain eps tr tl W p l (conv_v W (sub p (numbered "conv_" 0)) n k s PtSame false)) (v2_chain eps tr tl W p l (conv_v W (sub p (numbered "conv_" 0)) n k s PtSame false))).
  { unfold v2_chain. rewrite (fold_pairs (fun l => let '(i, (c, k, s)) := l in thenv (thenv (bnv eps tr tl W (sub p (numbered "batchnorm_" i))) relu_v) (conv_v W (sub p (numbered "conv_" i)) c k s PtSame false))) by (intros f [j [[n' k'] s']]; reflexivity).
    apply respects_fold; [|apply respects_conv']. intros [j [[n' k'] s']] _. eapply respects_then; [eapply respects_then; [apply respects_bnv|apply respects_relu']|apply respects_conv']. }
  specialize (A1 u v A0).
  assert (A2 : match (if up then conv_v W (sub p "shortcut_conv") channels 1 stride PtSame false u else Some x), (if up then conv_v W (sub p "shortcut_conv") channels 1 stride PtSame false v else Some y) with Some s, Some s' => R4 s s' | None, None => True | _, _ => False end).
  { destruct up; [|exact H]. now apply respects_conv'. }
  generalize dependent (v2_chain eps tr tl W p l (conv_v W (sub p (numbered "conv_" 0)) n k s PtSame false)). intros m A1.
  generalize dependent (conv_v W (sub p "shortcut_conv") channels 1 stride PtSame false). intros g A2.
  destruct (if up then g u else Some x) as [s1|], (if up then g v else Some y) as [s2|]; try contradiction; [|exact I].
  destruct (m u) as [o|], (m v) as [o'|]; try contradiction; [|exact I]. now apply add_respects'.
Qed.
Lemma respects_group v2 p channels n stride bn up : respects R4 R4 (group_v eps tr tl W v2 p channels n stride bn up) (group_v eps tr tl W v2 p channels n stride bn up).
Proof. unfold group_v. apply respects_fold; [|apply respects_ident]. intros j _. destruct v2; [apply respects_block_v2|apply respects_block_v1]. Qed.
Lemma respects_resnet_features p cf v2 f : resnet_features_v eps tr tl W p cf v2 = Some f -> respects R4 R4 f f.
Proof.
  unfold resnet_features_v. destruct (rn_blocks cf) as [|b0 [|b1 [|b2 [|b3 [|]]]]]; try discriminate. destruct (rn_channels cf) as [|c0 [|c1 [|c2 [|c3 [|]]]]]; try discriminate.
  destruct (rn_projection cf) as [|p0 [|p1 [|p2 [|p3 ps]]]]; try discriminate. intros E. assert (X := f_equal (fun o => match o with Some f => f | None => identv end) E). cbv beta iota zeta in X. subst f.
  assert (B : forall name, respects R4 R4 (thenv (bnv eps tr tl W name) relu_v) (thenv (bnv eps tr tl W name) relu_v)) by (intros name; eapply respects_then; [apply respects_bnv|apply respects_relu']).
  eapply respects_then; [apply respects_conv'|]. eapply respects_then; [destruct v2; [apply respects_ident|apply B]|]. eapply respects_then; [apply respects_pool'|].
  do 4 (eapply respects_then; [apply respects_group|]). destruct v2; [apply B|apply respects_ident].
Qed.
Lemma respects_head f name n : respects R4 R4 f f -> respects R4 R2 (thenv f (thenv mean_v (linear_v W name n))) (thenv f (thenv mean_v (linear_v W name n))).
Proof. intros F. eapply respects_then; [exact F|]. eapply respects_then; [apply respects_mean'|]. apply respects_linear'. Qed.
Lemma respects_mobile_features p strides channels use_bn f : mobilenet_features_v eps tr tl W p strides channels use_bn = Some f -> respects R4 R4 f f.
Proof.
  unfold mobilenet_features_v. destruct (negb _); [discriminate|]. intros E. assert (X := f_equal (fun o => match o with Some f => f | None => identv end) E). cbv beta iota in X. subst f. clear E.
  assert (B : forall name, respects R4 R4 (opt_bn eps tr tl W use_bn name) (opt_bn eps tr tl W use_bn name)) by (intros name; unfold opt_bn; destruct use_bn; [apply respects_bnv|apply respects_ident]).
  eapply respects_then; [apply respects_conv'|]. eapply respects_then; [apply B|]. eapply respects_then; [apply respects_relu'|].
  rewrite (fold_pairs (fun l => let '(i, (s, c)) := l in mobile_block_v eps tr tl W (inside_call p (unique "mobile_net_v1_block" i)) c s use_bn)) by (intros f [j [s n]]; reflexivity).
  apply respects_fold; [|apply respects_ident]. intros [j [s n]] _. unfold mobile_block_v.
  eapply respects_then; [apply respects_depthwise'|]. eapply respects_then; [apply B|]. eapply respects_then; [apply respects_relu'|].
  eapply respects_then; [apply respects_conv'|]. eapply respects_then; [apply B|apply respects_relu'].
Qed.
End Networks.

(** ** Inference *)
Lemma resnet_respects c b b' i i' eps W p cf v2 n f : 0 <= c -> (0 <= i < b)%Z -> (0 <= i' < b')%Z -> (forall name, unscaled_bn c W name) -> (forall name, unscaled c W name true) ->
  resnet_v eps false false W p cf v2 n = Some f -> respects (rel4 c b b' i i') (rel2 c b b' i i') f f.
Proof.
  intros Hc Hi Hi' U1 U2 E. unfold resnet_v in E. destruct (resnet_features_v eps false false W p cf v2) as [g|] eqn:G; [|discriminate E]. cbn [option_map] in E.
  assert (X := f_equal (fun o => match o with Some f => f | None => identv end) E). cbv beta iota in X. subst f.
  eapply (respects_head _ _ W).
  - now apply respects_mean.
  - intros name m. now apply respects_linear.
  - eapply respects_resnet_features; [..|exact G].
    + intros name m k s t bias. apply respects_conv; try assumption. destruct bias; [apply U2|now left].
    + intros name. now apply respects_bn.
    + now apply respects_relu.
    + now apply respects_pool.
    + intros. now apply add_respects.
Qed.
Lemma mobile_respects c b b' i i' eps W p strides channels n use_bn f : 0 <= c -> (0 <= i < b)%Z -> (0 <= i' < b')%Z -> (forall name, unscaled_bn c W name) -> (forall name, unscaled c W name true) ->
  mobilenet_v eps false false W p strides channels n use_bn = Some f -> respects (rel4 c b b' i i') (rel2 c b b' i i') f f.
Proof.
  intros Hc Hi Hi' U1 U2 E. unfold mobilenet_v in E. destruct (mobilenet_features_v eps false false W p strides channels use_bn) as [g|] eqn:G; [|discriminate E]. cbn [option_map] in E.
  assert (X := f_equal (fun o => match o with Some f => f | None => identv end) E). cbv beta iota in X. subst f.
  eapply (respects_head _ _ W).
  - now apply respects_mean.
  - intros name m. now apply respects_linear.
  - eapply respects_mobile_features; [..|exact G].
    + intros name m k s t bias. apply respects_conv; try assumption. destruct bias; [apply U2|now left].
    + intros name s bias. apply respects_depthwise; try assumption. destruct bias; [apply U2|now left].
    + intros name. now apply respects_bn.
    + now apply respects_relu.
Qed.

(** Both networks end in a linear layer. *)
Lemma ends_linear W name n g x s r : thenv g (thenv mean_v (linear_v W name n)) x = Some (s, r) -> exists b, s = [b; n].
Proof.
  unfold thenv. destruct (g x) as [y|]; [|discriminate]. destruct (mean_v y) as [z|]; [|discriminate]. unfold linear_v, layer, linear.
  destruct (fst z) as [|u0 [|u1 [|]]]; try discriminate. intros E. exists u0. apply (f_equal (option_map fst)) in E. cbn [option_map fst] in E. now injection E.
Qed.
Lemma resnet_ends eps tr tl W p cf v2 n f x s r : resnet_v eps tr tl W p cf v2 n = Some f -> f x = Some (s, r) -> exists b, s = [b; n].
Proof.
  intros E. unfold resnet_v in E. destruct (resnet_features_v eps tr tl W p cf v2) as [g|]; [|discriminate E]. cbn [option_map] in E.
  assert (X := f_equal (fun o => match o with Some f => f | None => identv end) E). cbv beta iota in X. subst f. apply ends_linear.
Qed.
Lemma mobile_ends eps tr tl W p strides channels n use_bn f x s r : mobilenet_v eps tr tl W p strides channels n use_bn = Some f -> f x = Some (s, r) -> exists b, s = [b; n].
Proof.
  intros E. unfold mobilenet_v in E. destruct (mobilenet_features_v eps tr tl W p strides channels use_bn) as [g|]; [|discriminate E]. cbn [option_map] in E.
  assert (X := f_equal (fun o => match o with Some f => f | None => identv end) E). cbv beta iota in X. subst f. apply ends_linear.
Qed.
Lemma outcomes c b b' i i' f n h w ch vx vy : respects (rel4 c b b' i i') (rel2 c b b' i i') f f -> (forall x s r, f x = Some (s, r) -> exists b, s = [b; n]) -> (0 <= h)%Z -> (0 <= w)%Z ->
  (forall p q k, (0 <= p < h)%Z -> (0 <= q < w)%Z -> (0 <= k < ch)%Z -> vy [i'; p; q; k] = c * vx [i; p; q; k]) ->
  match f ([b; h; w; ch], vx), f ([b'; h; w; ch], vy) with
  | Some (sx, rx), Some (sy, ry) => sx = [b; n] /\ sy = [b'; n] /\ forall k, (0 <= k < n)%Z -> ry [i'; k] = c * rx [i; k]
  | None, None => True
  | _, _ => False
  end.
Proof.
  intros Hr Hs Dh Dw H. assert (Hrel : rel4 c b b' i i' ([b; h; w; ch], vx) ([b'; h; w; ch], vy)) by (exists h, w, ch; do 2 (split; [assumption|]); do 2 (split; [reflexivity|]); exact H).
  specialize (Hr _ _ Hrel). specialize (Hs ([b; h; w; ch], vx)).
  destruct (f ([b; h; w; ch], vx)) as [[sx rx]|], (f ([b'; h; w; ch], vy)) as [[sy ry]|]; try contradiction; [|exact I].
  destruct Hr as (m & E1 & E2 & H'). cbn [fst snd] in *. destruct (Hs sx rx eq_refl) as [b0 E0]. subst sx. injection E0 as -> ->. auto.
Qed.
(** In inference mode the result for an image depends on that image only, wherever it is in whatever batch. *)
Theorem C94_per_example eps W p cf v2 n f b b' h w ch vx vy i i' : resnet_v eps false false W p cf v2 n = Some f ->
  (0 <= h)%Z -> (0 <= w)%Z -> (0 <= i < b)%Z -> (0 <= i' < b')%Z ->
  (forall p q k, (0 <= p < h)%Z -> (0 <= q < w)%Z -> (0 <= k < ch)%Z -> vy [i'; p; q; k] = vx [i; p; q; k]) ->
  match f ([b; h; w; ch], vx), f ([b'; h; w; ch], vy) with
  | Some (sx, rx), Some (sy, ry) => sx = [b; n] /\ sy = [b'; n] /\ forall k, (0 <= k < n)%Z -> ry [i'; k] = rx [i; k]
  | None, None => True
  | _, _ => False
  end.
Proof.
  intros E Dh Dw Hi Hi' H. assert (Hr := resnet_respects 1 b b' i i' eps W p cf v2 n f Rle_0_1 Hi Hi' (fun _ => or_introl eq_refl) (fun _ => or_intror (or_introl eq_refl)) E).
  pose proof (outcomes 1 b b' i i' f n h w ch vx vy Hr (fun x s r => resnet_ends _ _ _ _ _ _ _ _ f x s r E) Dh Dw) as O.
  destruct (f ([b; h; w; ch], vx)) as [[sx rx]|], (f ([b'; h; w; ch], vy)) as [[sy ry]|]; try (apply O; intros; rewrite H by assumption; ring).
  destruct O as (E1 & E2 & O); [intros; rewrite H by assumption; ring|]. split; [exact E1|split; [exact E2|]]. intros k Hk. rewrite O by assumption. ring.
Qed.
Print Assumptions C94_per_example.
Theorem C94_mobile_per_example eps W p strides channels n use_bn f b b' h w ch vx vy i i' : mobilenet_v eps false false W p strides channels n use_bn = Some f ->
  (0 <= h)%Z -> (0 <= w)%Z -> (0 <= i < b)%Z -> (0 <= i' < b')%Z ->
  (forall p q k, (0 <= p < h)%Z -> (0 <= q < w)%Z -> (0 <= k < ch)%Z -> vy [i'; p; q; k] = vx [i; p; q; k]) ->
  match f ([b; h; w; ch], vx), f ([b'; h; w; ch], vy) with
  | Some (sx, rx), Some (sy, ry) => sx = [b; n] /\ sy = [b'; n] /\ forall k, (0 <= k < n)%Z -> ry [i'; k] = rx [i; k]
  | None, None => True
  | _, _ => False
  end.
Proof.
  intros E Dh Dw Hi Hi' H. assert (Hr := mobile_respects 1 b b' i i' eps W p strides channels n use_bn f Rle_0_1 Hi Hi' (fun _ => or_introl eq_refl) (fun _ => or_intror (or_introl eq_refl)) E).
  pose proof (outcomes 1 b b' i i' f n h w ch vx vy Hr (fun x s r => mobile_ends _ _ _ _ _ _ _ _ _ f x s r E) Dh Dw) as O.
  destruct (f ([b; h; w; ch], vx)) as [[sx rx]|], (f ([b'; h; w; ch], vy)) as [[sy ry]|]; try (apply O; intros; rewrite H by assumption; ring).
  destruct O as (E1 & E2 & O); [intros; rewrite H by assumption; ring|]. split; [exact E1|split; [exact E2|]]. intros k Hk. rewrite O by assumption. ring.
Qed.
Print Assumptions C94_mobile_per_example.
(** As long as offsets, biases and the averages of the means are zero, as they are before the first training step, the networks are positively
    homogeneous in inference mode: a darker image has proportionally smaller logits. *)
Theorem C94_homogeneous eps W p cf v2 n f b h w ch c vx : resnet_v eps false false W p cf v2 n = Some f -> 0 <= c -> (0 <= h)%Z -> (0 <= w)%Z ->
  (forall name k, bn_mean (bn_of W name) k = 0 /\ bn_offset (bn_of W name) k = 0 /\ b_of W name [k] = 0) ->
  match f ([b; h; w; ch], vx), f ([b; h; w; ch], fun idx => c * vx idx) with
  | Some (sx, rx), Some (sy, ry) => sx = sy /\ forall i k, (0 <= i < b)%Z -> (0 <= k < n)%Z -> ry [i; k] = c * rx [i; k]
  | None, None => True
  | _, _ => False
  end.
Proof.
  intros E Hc Dh Dw H0. pose proof (C94_shapes eps false false W p cf v2 n) as S. rewrite E in S. destruct (resnet cf v2 n) as [g|]; [|contradiction].
  pose proof (S ([b; h; w; ch], vx)) as S1. pose proof (S ([b; h; w; ch], fun idx => c * vx idx)) as S2. cbn [fst] in S1, S2. rewrite <- S2 in S1. clear S2.
  assert (U1 : forall name, unscaled_bn c W name) by (intros name; right; intros k; destruct (H0 name k) as (E1 & E2 & _); auto).
  assert (U2 : forall name, unscaled c W name true) by (intros name; right; right; intros k; apply H0).
  pose proof (fun i Hi => outcomes c b b i i f n h w ch vx (fun idx => c * vx idx) (resnet_respects c b b i i eps W p cf v2 n f Hc Hi Hi U1 U2 E)
    (fun x s r => resnet_ends _ _ _ _ _ _ _ _ f x s r E) Dh Dw (fun _ _ _ _ _ _ => eq_refl)) as O.
  destruct (f ([b; h; w; ch], vx)) as [[sx rx]|], (f ([b; h; w; ch], fun idx => c * vx idx)) as [[sy ry]|]; try discriminate S1; [|exact I].
  injection S1 as <-. split; [reflexivity|]. intros i k Hi Hk. destruct (O i Hi) as (_ & _ & O'). now apply O'.
Qed.
Print Assumptions C94_homogeneous.

(** Two photographs in batches of 8 and of 1 through a trained ResNet-50 and a MobileNet, at the sizes of imagenet. *)
Definition config_50 := ResNetConfig [3; 4; 6; 3]%nat true big [true; true; true; true].
Example C94_per_example_case W v : forall f, resnet_v (1 / 100000) false false W "res_net50" config_50 false 1000 = Some f ->
  exists r r', f ([8; 224; 224; 3]%Z, v) = Some ([8; 1000]%Z, r) /\ f ([1; 224; 224; 3]%Z, fun idx => v (6%Z :: tl idx)) = Some ([1; 1000]%Z, r') /\ r' [0; 999]%Z = r [6; 999]%Z.
Proof.
  intros f E. pose proof (C94_shapes (1 / 100000) false false W "res_net50" config_50 false 1000) as S. rewrite E in S.
  destruct (resnet config_50 false 1000) as [g|] eqn:G; [|discriminate G].
  assert (Sh : option_map snd (g [8; 224; 224; 3]%Z) = Some [8; 1000]%Z /\ option_map snd (g [1; 224; 224; 3]%Z) = Some [1; 1000]%Z).
  { apply (f_equal (option_map (fun g : net => (option_map snd (g [8; 224; 224; 3]%Z), option_map snd (g [1; 224; 224; 3]%Z))))) in G. cbn [option_map] in G.
    assert (Some (option_map snd (g [8; 224; 224; 3]%Z), option_map snd (g [1; 224; 224; 3]%Z)) = Some (Some [8; 1000]%Z, Some [1; 1000]%Z)) as X by (rewrite <- G; vm_compute; reflexivity). injection X as X1 X2. split; assumption. }
  pose proof (C94_per_example (1 / 100000) W "res_net50" config_50 false 1000 f 8 1 224 224 3 v (fun idx => v (6%Z :: tl idx)) 6 0 E ltac:(lia) ltac:(lia) ltac:(lia) ltac:(lia)) as O.
  pose proof (S ([8; 224; 224; 3]%Z, v)) as S1. pose proof (S ([1; 224; 224; 3]%Z, fun idx => v (6%Z :: tl idx))) as S2. cbn [fst] in S1, S2. destruct Sh as [Sh1 Sh2]. rewrite Sh1 in S1. rewrite Sh2 in S2.
  destruct (f ([8; 224; 224; 3]%Z, v)) as [[s r]|]; [|discriminate S1]. destruct (f ([1; 224; 224; 3]%Z, fun idx => v (6%Z :: tl idx))) as [[s' r']|]; [|discriminate S2].
  destruct O as (-> & -> & O); [reflexivity|]. exists r, r'. split; [reflexivity|split; [reflexivity|]]. apply O. lia.
Qed.

(** C94, third part: both modes; networks at initialization; folding a batch normalisation into a convolution. *)
From Coq Require Import Reals ZArith String List Bool Lia Lra.
From Verif Require Import ModelNets ModelTransformer ModelTraining ModelShape ModelReal ModelPool ModelConv ModelImageNets ModelLayers ModelCheckpoint ModelImageValues Properties09 Properties14 Properties32 Properties33 Properties48 Properties53 Properties54.
Import ListNotations.
Local Open Scope R_scope.

(** ** Equal batches *)
Definition S4 (x y : arr) : Prop := exists b, (0 < b)%Z /\ forall i, (0 <= i < b)%Z -> rel4 1 b b i i x y.
Definition S2 (x y : arr) : Prop := exists b, (0 < b)%Z /\ forall i, (0 <= i < b)%Z -> rel2 1 b b i i x y.
Lemma lift_same f g : (forall b i, (0 <= i < b)%Z -> respects (rel4 1 b b i i) (rel4 1 b b i i) f g) -> respects S4 S4 f g.
Proof.
  intros H x y (b & Hb & E). pose proof (H b 0%Z ltac:(lia) x y (E 0%Z ltac:(lia))) as H0.
  destruct (f x) as [u|] eqn:Fu, (g y) as [v|] eqn:Gv; try contradiction; [|exact I].
  exists b. split; [exact Hb|]. intros i Hi. specialize (H b i Hi x y (E i Hi)). now rewrite Fu, Gv in H.
Qed.
Lemma lift_same2 f g : (forall b i, (0 <= i < b)%Z -> respects (rel4 1 b b i i) (rel2 1 b b i i) f g) -> respects S4 S2 f g.
Proof.
  intros H x y (b & Hb & E). pose proof (H b 0%Z ltac:(lia) x y (E 0%Z ltac:(lia))) as H0.
  destruct (f x) as [u|] eqn:Fu, (g y) as [v|] eqn:Gv; try contradiction; [|exact I].
  exists b. split; [exact Hb|]. intros i Hi. specialize (H b i Hi x y (E i Hi)). now rewrite Fu, Gv in H.
Qed.
Lemma lift_same22 f g : (forall b i, (0 <= i < b)%Z -> respects (rel2 1 b b i i) (rel2 1 b b i i) f g) -> respects S2 S2 f g.
Proof.
  intros H x y (b & Hb & E). pose proof (H b 0%Z ltac:(lia) x y (E 0%Z ltac:(lia))) as H0.
  destruct (f x) as [u|] eqn:Fu, (g y) as [v|] eqn:Gv; try contradiction; [|exact I].
  exists b. split; [exact Hb|]. intros i Hi. specialize (H b i Hi x y (E i Hi)). now rewrite Fu, Gv in H.
Qed.
Lemma S4_spec x y : S4 x y <-> exists b h w ch, (0 < b)%Z /\ (0 <= h)%Z /\ (0 <= w)%Z /\ fst x = [b; h; w; ch] /\ fst y = [b; h; w; ch] /\
  forall i p q k, (0 <= i < b)%Z -> (0 <= p < h)%Z -> (0 <= q < w)%Z -> (0 <= k < ch)%Z -> snd y [i; p; q; k] = snd x [i; p; q; k].
Proof.
  split.
  - intros (b & Hb & H). destruct (H 0%Z ltac:(lia)) as (h & w & ch & Dh & Dw & Ex & Ey & _). exists b, h, w, ch. repeat (split; [assumption|]).
    intros i p q k Hi Hp Hq Hk. destruct (H i Hi) as (h' & w' & ch' & _ & _ & Ex' & _ & E). rewrite Ex in Ex'. injection Ex' as <- <- <-. rewrite E by assumption. ring.
  - intros (b & h & w & ch & Hb & Dh & Dw & Ex & Ey & H). exists b. split; [exact Hb|]. intros i Hi. exists h, w, ch. repeat (split; [assumption|]). intros. rewrite H by assumption. ring.
Qed.
Lemma S4_refl b h w ch v : (0 < b)%Z -> (0 <= h)%Z -> (0 <= w)%Z -> S4 ([b; h; w; ch], v) ([b; h; w; ch], v).
Proof. intros. apply S4_spec. exists b, h, w, ch. auto 10. Qed.
Lemma S4_sym x y : S4 x y -> S4 y x.
Proof. rewrite !S4_spec. intros (b & h & w & ch & Hb & Dh & Dw & Ex & Ey & H). exists b, h, w, ch. repeat (split; [assumption|]). intros. symmetry. now apply H. Qed.
Lemma S4_trans x y z : S4 x y -> S4 y z -> S4 x z.
Proof.
  rewrite !S4_spec. intros (b & h & w & ch & Hb & Dh & Dw & Ex & Ey & H) (b' & h' & w' & ch' & _ & _ & _ & Ey' & Ez & H'). rewrite Ey in Ey'. injection Ey' as <- <- <- <-.
  exists b, h, w, ch. repeat (split; [assumption|]). intros. rewrite H' by assumption. now apply H.
Qed.
Lemma S4_left x y : S4 x y -> S4 x x.
Proof. intros H. exact (S4_trans _ _ _ H (S4_sym _ _ H)). Qed.
Section Both.
Context (eps : R) (tr tl : bool) (W : weights).
Lemma mean_ext b h w ch (x y : list Z -> R) k :
  (forall i p q, (0 <= i < b)%Z -> (0 <= p < h)%Z -> (0 <= q < w)%Z -> y [i; p; q; k] = x [i; p; q; k]) -> channel_mean [b; h; w; ch] y k = channel_mean [b; h; w; ch] x k.
Proof.
  intros H. unfold channel_mean. cbn [removelast]. f_equal. apply bsum_ext. intros l Hl. inversion Hl as [|? i ? l0 Hi H0]; subst. inversion H0 as [|? p ? l1 Hp H1]; subst. inversion H1 as [|? q ? l2 Hq H2]; subst. inversion H2; subst.
  cbn [app]. now apply H.
Qed.
Lemma same_bn name : respects S4 S4 (bnv eps tr tl W name) (bnv eps tr tl W name).
Proof.
  intros x y S. apply S4_spec in S. destruct S as (b & h & w & ch & Hb & Dh & Dw & Ex & Ey & H). unfold bnv, bn_v, layer, batchnorm. apply S4_spec.
  exists b, h, w, ch. cbn [fst snd]. repeat (split; [assumption|]). intros i p q k Hi Hp Hq Hk. cbn [List.last]. rewrite H, Ex, Ey by assumption.
  assert (M1 : channel_mean [b; h; w; ch] (snd y) k = channel_mean [b; h; w; ch] (snd x) k) by (apply mean_ext; intros; now apply H).
  assert (M2 : channel_mean [b; h; w; ch] (fun j => snd y j ^ 2) k = channel_mean [b; h; w; ch] (fun j => snd x j ^ 2) k) by (apply mean_ext; intros; f_equal; now apply H).
  now rewrite M1, M2.
Qed.
Lemma one_unscaled name bias : unscaled 1 W name bias.
Proof. right. now left. Qed.
Lemma same_conv name n k s t bias : respects S4 S4 (conv_v W name n k s t bias) (conv_v W name n k s t bias).
Proof. apply lift_same. intros. apply respects_conv; (assumption || apply one_unscaled || lra). Qed.
Lemma same_depthwise name s bias : respects S4 S4 (depthwise_v W name [3; 3]%Z [s; s] (inr [(1, 1); (1, 1)]%Z) bias) (depthwise_v W name [3; 3]%Z [s; s] (inr [(1, 1); (1, 1)]%Z) bias).
Proof. apply lift_same. intros. apply respects_depthwise; (assumption || apply one_unscaled || lra). Qed.
Lemma same_relu : respects S4 S4 relu_v relu_v.
Proof. apply lift_same. intros. apply respects_relu; (assumption || lra). Qed.
Lemma same_pool : respects S4 S4 max_pool_v max_pool_v.
Proof. apply lift_same. intros. apply respects_pool; (assumption || lra). Qed.
Lemma same_add x y x' y' : S4 x y -> S4 x' y' -> match add_v x x', add_v y y' with Some u, Some v => S4 u v | None, None => True | _, _ => False end.
Proof.
  rewrite !S4_spec. intros (b & h & w & ch & Hb & Dh & Dw & Ex & Ey & H) (b' & h' & w' & ch' & Hb' & Dh' & Dw' & Ex' & Ey' & H'). unfold add_v. rewrite Ex, Ey, Ex', Ey'. rewrite !broadcast_4.
  destruct (bdim b b') as [b2|] eqn:B0; [|exact I]. destruct (bdim h h') as [h2|] eqn:B1; [|exact I]. destruct (bdim w w') as [w2|] eqn:B2; [|exact I]. destruct (bdim ch ch') as [ch2|] eqn:B3; [|exact I].
  apply S4_spec. exists b2, h2, w2, ch2. split; [clear - B0 Hb Hb'; unfold bdim in B0; destruct (b =? b')%Z, (b =? 1)%Z, (b' =? 1)%Z; try discriminate B0; injection B0 as <-; lia|].
  split; [now apply (bdim_nonneg _ _ _ B1)|split; [now apply (bdim_nonneg _ _ _ B2)|]]. split; [reflexivity|split; [reflexivity|]]. cbn [snd]. intros i p q k Hi Hp Hq Hk. rewrite !clip_4.
  apply (bdim_bounds _ _ _ _ B0) in Hi. apply (bdim_bounds _ _ _ _ B1) in Hp. apply (bdim_bounds _ _ _ _ B2) in Hq. apply (bdim_bounds _ _ _ _ B3) in Hk.
  rewrite H, H' by tauto. reflexivity.
Qed.
Lemma same_mean : respects S4 S2 mean_v mean_v.
Proof. apply lift_same2. intros. apply respects_mean; (assumption || lra). Qed.
Lemma same_linear name n : respects S2 S2 (linear_v W name n) (linear_v W name n).
Proof. apply lift_same22. intros. apply respects_linear; (assumption || apply one_unscaled || lra). Qed.
Lemma same_block_v1 p channels stride up bn : respects S4 S4 (block_v1_v eps tr tl W p channels stride up bn) (block_v1_v eps tr tl W p channels stride up bn).
Proof. apply respects_block_v1; [apply same_conv|apply same_bn|apply same_relu|exact same_add]. Qed.
Lemma same_group v2 p channels n stride bn up : respects S4 S4 (group_v eps tr tl W v2 p channels n stride bn up) (group_v eps tr tl W v2 p channels n stride bn up).
Proof. apply respects_group; [apply same_conv|apply same_bn|apply same_relu|exact same_add]. Qed.

(** ** A bottleneck block whose last batch normalisation has scale and offset 0 *)
Context (zero : forall q k, bn_scale (bn_of W (sub q "batchnorm_2")) k = 0 /\ bn_offset (bn_of W (sub q "batchnorm_2")) k = 0).
Lemma bottleneck_layers p channels stride x : v1_layers eps tr tl W p (block_layers channels stride true) x =
  match thenv (thenv (thenv identv (thenv (conv_v W (sub p "conv_0") (channels / 4) 1 1 PtSame false) (thenv (bnv eps tr tl W (sub p "batchnorm_0")) relu_v)))
        (thenv (conv_v W (sub p "conv_1") (channels / 4) 3 stride PtSame false) (thenv (bnv eps tr tl W (sub p "batchnorm_1")) relu_v))) (conv_v W (sub p "conv_2") channels 1 1 PtSame false) x with
  | Some o => bnv eps tr tl W (sub p "batchnorm_2") o
  | None => None
  end.
Proof.
  unfold v1_layers. cbn [block_layers app length seq combine fold_left Nat.ltb Nat.leb Nat.sub].
  change (numbered "conv_" 0) with "conv_0"%string. change (numbered "conv_" 1) with "conv_1"%string. change (numbered "conv_" 2) with "conv_2"%string.
  change (numbered "batchnorm_" 0) with "batchnorm_0"%string. change (numbered "batchnorm_" 1) with "batchnorm_1"%string. change (numbered "batchnorm_" 2) with "batchnorm_2"%string.
  set (A := thenv (thenv identv _) _). clearbody A. unfold thenv. destruct (A x) as [y|]; [|reflexivity]. destruct (conv_v W (sub p "conv_2") channels 1 1 PtSame false y) as [z|]; [|reflexivity].
  now destruct (bnv eps tr tl W (sub p "batchnorm_2") z).
Qed.
Lemma zero_bn q x : exists v, bnv eps tr tl W (sub q "batchnorm_2") x = Some (fst x, v) /\ forall idx, v idx = 0.
Proof.
  unfold bnv, bn_v, layer, batchnorm. eexists. split; [reflexivity|]. intros idx. cbv beta zeta. destruct (zero q (List.last idx 0%Z)) as [-> ->]. ring.
Qed.
Ltac chain_step := repeat match goal with |- respects _ _ (thenv _ _) _ => apply (respects_then S4 S4 S4) | |- respects _ _ identv _ => apply respects_ident | |- respects _ _ (conv_v _ _ _ _ _ _ _) _ => apply same_conv | |- respects _ _ (bnv _ _ _ _ _) _ => apply same_bn | |- respects _ _ relu_v _ => apply same_relu end.
Definition bottleneck_chain (p : string) (channels stride : Z) : vnet :=
  thenv (thenv (thenv identv (thenv (conv_v W (sub p "conv_0") (channels / 4) 1 1 PtSame false) (thenv (bnv eps tr tl W (sub p "batchnorm_0")) relu_v)))
        (thenv (conv_v W (sub p "conv_1") (channels / 4) 3 stride PtSame false) (thenv (bnv eps tr tl W (sub p "batchnorm_1")) relu_v))) (conv_v W (sub p "conv_2") channels 1 1 PtSame false).
Lemma same_chain p channels stride : respects S4 S4 (bottleneck_chain p channels stride) (bottleneck_chain p channels stride).
Proof.
  unfold bottleneck_chain. chain_step.
Qed.
(** The main path gives zeros of some shape with [channels] channels. *)
Lemma zero_main p channels stride x o : S4 x x -> v1_layers eps tr tl W p (block_layers channels stride true) x = Some o ->
  S4 o o /\ (exists b h w, fst o = [b; h; w; channels]) /\ forall idx, snd o idx = 0.
Proof.
  intros S E. rewrite bottleneck_layers in E. fold (bottleneck_chain p channels stride) in E. pose proof (same_chain p channels stride x x S) as C.
  assert (Sh : forall y, bottleneck_chain p channels stride x = Some y -> exists b h w, fst y = [b; h; w; channels]).
  { intros y Ey. unfold bottleneck_chain, thenv at 1 in Ey.
    match type of Ey with match ?A with _ => _ end = _ => destruct A as [z|] eqn:Ez; [|discriminate Ey] end.
    assert (Sz : S4 z z).
    { match type of Ez with ?A x = _ => assert (Hr : respects S4 S4 A A) end.
      { chain_step. }
      specialize (Hr x x S). rewrite Ez in Hr. exact Hr. }
    apply S4_spec in Sz. destruct Sz as (b & h & w & ch & _ & _ & _ & E1 & _). unfold conv_v, layer in Ey. rewrite E1 in Ey.
    destruct (conv2d_shape channels 1 1 PtSame false h w ch) as (ps & ho & wo & _ & _ & E2). rewrite E2 in Ey. exists b, ho, wo. apply (f_equal (option_map fst)) in Ey. cbn [option_map fst] in Ey. now injection Ey. }
  destruct (bottleneck_chain p channels stride x) as [y|]; [|discriminate E]. destruct (Sh y eq_refl) as (b & h & w & Ey). destruct (zero_bn p y) as (v & Ev & Hv). pose proof (same_bn (sub p "batchnorm_2") y y C) as So. rewrite E in So.
  rewrite Ev in E. assert (X := f_equal (fun o => match o with Some f => f | None => y end) E). cbv beta iota in X. subst o. split; [exact So|]. split; [exists b, h, w; exact Ey|exact Hv].
Qed.
(** What a group hands on: non-negative values, and channels that the next block keeps. *)
Definition inv (channels : Z) (x : arr) : Prop := exists b h w ch, (0 < b)%Z /\ (0 <= h)%Z /\ (0 <= w)%Z /\ fst x = [b; h; w; ch] /\ bdim channels ch = Some ch /\
  forall i p q k, (0 <= i < b)%Z -> (0 <= p < h)%Z -> (0 <= q < w)%Z -> (0 <= k < ch)%Z -> 0 <= snd x [i; p; q; k].
Lemma bdim_idem n m r : bdim n m = Some r -> bdim n r = Some r.
Proof.
  unfold bdim. destruct (Z.eqb_spec n m) as [->|N]; [intros [= <-]; now rewrite Z.eqb_refl|]. destruct (Z.eqb_spec n 1) as [->|N1].
  - intros [= <-]. now destruct (Z.eqb_spec 1 m) as [->|].
  - destruct (m =? 1)%Z; [|discriminate]. intros [= <-]. now rewrite Z.eqb_refl.
Qed.
Lemma block_inv p channels stride up x u : S4 x x -> block_v1_v eps tr tl W p channels stride up true x = Some u -> inv channels u.
Proof.
  intros S E. pose proof (same_block_v1 p channels stride up true x x S) as Su. rewrite E in Su. apply S4_spec in Su. destruct Su as (b & h & w & ch & Hb & Dh & Dw & Eu & _ & _).
  exists b, h, w, ch. repeat (split; [assumption|]). unfold block_v1_v in E. cbv zeta in E. set (proj := if up then _ else _) in E.
  assert (Sp : respects S4 S4 proj proj) by (unfold proj; destruct up; [eapply respects_then; [apply same_conv|apply same_bn]|apply respects_ident]). specialize (Sp x x S).
  destruct (proj x) as [s|]; [|discriminate E]. destruct (v1_layers eps tr tl W p (block_layers channels stride true) x) as [o|] eqn:Eo; [|discriminate E].
  destruct (zero_main p channels stride x o S Eo) as (_ & (b1 & h1 & w1 & Es) & _). apply S4_spec in Sp. destruct Sp as (b2 & h2 & w2 & ch2 & _ & _ & _ & Ex & _).
  unfold add_v in E. rewrite Es, Ex, broadcast_4 in E. destruct (bdim b1 b2), (bdim h1 h2), (bdim w1 w2); try discriminate E. destruct (bdim channels ch2) as [r|] eqn:B; [|discriminate E].
  unfold relu_v, layer, ident in E. assert (X := f_equal (fun o => match o with Some f => f | None => x end) E). cbv beta iota in X. subst u. cbn [fst snd] in Eu. injection Eu as -> -> -> ->.
  split; [now apply bdim_idem in B|]. intros. apply Rmax_r.
Qed.
Lemma clip_in n i : (0 <= i < n)%Z -> (if (n =? 1)%Z then 0 else i)%Z = i.
Proof. destruct (Z.eqb_spec n 1); lia. Qed.
(** Without a projection and stride the block is the identity on non-negative values. *)
Lemma block_identity p channels x : inv channels x -> exists u, block_v1_v eps tr tl W p channels 1 false true x = Some u /\ S4 x u.
Proof.
  intros (b & h & w & ch & Hb & Dh & Dw & Ex & B & N). assert (S : S4 x x) by (apply S4_spec; exists b, h, w, ch; auto 10).
  assert (Em : exists o, v1_layers eps tr tl W p (block_layers channels 1 true) x = Some o /\ fst o = [b; h; w; channels]).
  { assert (Av : agrees (v1_layers eps tr tl W p (block_layers channels 1 true)) (main_of false channels 1 true)).
    { unfold v1_layers, main_of. apply agrees_fold; [apply agrees_ident|apply combine_seq|]. intros [i [[c k] s]] b0 I f g A. apply combine_diag in I. cbn [snd] in I. subst b0.
      apply agrees_then; [exact A|]. apply agrees_then; [apply agrees_layer|]. destruct (Nat.ltb i (length (block_layers channels 1 true) - 1)); [apply agrees_relu|apply agrees_id_r]; apply agrees_layer. }
    specialize (Av x). rewrite Ex, (regular_main false ch channels 1 true ltac:(lia) b h w ltac:(lia) Dh Dw) in Av. cbn [option_map snd] in Av. rewrite !cdiv_1 in Av.
    destruct (v1_layers eps tr tl W p (block_layers channels 1 true) x) as [o|]; [|discriminate Av]. exists o. split; [reflexivity|]. cbn [option_map] in Av. now injection Av. }
  destruct Em as (o & Eo & So). destruct (zero_main p channels 1 x o S Eo) as (_ & _ & Z). unfold block_v1_v. cbv zeta. cbn [identv]. rewrite Eo. unfold add_v. rewrite So, Ex, broadcast_4, !bdim_refl, B.
  unfold relu_v, layer, ident. eexists. split; [reflexivity|]. apply S4_spec. exists b, h, w, ch. cbn [fst snd]. repeat (split; [assumption || reflexivity|]). intros i q r k Hi Hq Hr Hk.
  rewrite Z, !clip_4, !clip_in by assumption. rewrite Rplus_0_l. apply Rmax_left. now apply N.
Qed.
Lemma group_step v2 p channels n stride up bn x : group_v eps tr tl W v2 p channels (Datatypes.S n) stride bn up x =
  match group_v eps tr tl W v2 p channels n stride bn up x with
  | None => None
  | Some y => block_v eps tr tl W v2 (sub p (numbered "block_" n)) channels (if Nat.eqb n 0 then stride else 1%Z) (Nat.eqb n 0 && up) bn y
  end.
Proof. unfold group_v. rewrite seq_S, fold_left_app. cbn [fold_left plus]. reflexivity. Qed.
(** A group is worth its first block. *)
Lemma group_first p channels n stride up x : S4 x x ->
  match group_v eps tr tl W false p channels (Datatypes.S n) stride true up x, group_v eps tr tl W false p channels 1 stride true up x with
  | Some y, Some u => S4 u y /\ inv channels y
  | None, None => True
  | _, _ => False
  end.
Proof.
  intros S. induction n as [|n IH].
  - pose proof (same_group false p channels 1 stride true up x x S) as G. destruct (group_v eps tr tl W false p channels 1 stride true up x) as [y|] eqn:E; [|exact I]. split; [exact G|].
    rewrite group_step in E. cbn [Nat.eqb andb] in E. exact (block_inv _ _ _ _ _ _ S E).
  - rewrite group_step. destruct (group_v eps tr tl W false p channels (Datatypes.S n) stride true up x) as [y|]; destruct (group_v eps tr tl W false p channels 1 stride true up x) as [u|]; try contradiction; [|exact I].
    destruct IH as [Su Iy]. cbn [Nat.eqb andb]. destruct (block_identity (sub p (numbered "block_" (Datatypes.S n))) channels y Iy) as (z & Ez & Sz). change (block_v eps tr tl W false) with (block_v1_v eps tr tl W). rewrite Ez.
    split; [exact (S4_trans _ _ _ Su Sz)|]. exact (block_inv _ _ _ _ _ _ (S4_left _ _ Sz) Ez).
Qed.
Lemma group_any p channels n m stride up : n <> 0%nat -> m <> 0%nat ->
  respects S4 S4 (group_v eps tr tl W false p channels n stride true up) (group_v eps tr tl W false p channels m stride true up).
Proof.
  intros Hn Hm x y Sxy. destruct n as [|n]; [contradiction|]. destruct m as [|m]; [contradiction|]. pose proof (group_first p channels n stride up x (S4_left _ _ Sxy)) as A.
  pose proof (group_first p channels m stride up y (S4_left _ _ (S4_sym _ _ Sxy))) as B. pose proof (same_group false p channels 1 stride true up x y Sxy) as C.
  destruct (group_v eps tr tl W false p channels (Datatypes.S n) stride true up x), (group_v eps tr tl W false p channels 1 stride true up x), (group_v eps tr tl W false p channels 1 stride true up y), (group_v eps tr tl W false p channels (Datatypes.S m) stride true up y); try contradiction; try exact I.
  destruct A as [A _], B as [B _]. exact (S4_trans _ _ _ (S4_sym _ _ A) (S4_trans _ _ _ C B)).
Qed.
Lemma features_any p c c' f f' : rn_bottleneck c = true -> rn_bottleneck c' = true -> rn_channels c' = rn_channels c -> rn_projection c' = rn_projection c ->
  ~ In 0%nat (rn_blocks c) -> ~ In 0%nat (rn_blocks c') ->
  resnet_features_v eps tr tl W p c false = Some f -> resnet_features_v eps tr tl W p c' false = Some f' -> respects S4 S4 f f'.
Proof.
  intros Hb Hb' Hc Hp N N' E E'. unfold resnet_features_v in *. rewrite Hc, Hp, Hb' in E'. rewrite Hb in E.
  destruct (rn_blocks c) as [|b0 [|b1 [|b2 [|b3 [|]]]]]; try discriminate E. destruct (rn_channels c) as [|c0 [|c1 [|c2 [|c3 [|]]]]]; try discriminate E. destruct (rn_projection c) as [|p0 [|p1 [|p2 [|p3 ?]]]]; try discriminate E.
  destruct (rn_blocks c') as [|d0 [|d1 [|d2 [|d3 [|]]]]]; try discriminate E'. cbn [In] in N, N'.
  assert (X := f_equal (fun o => match o with Some f => f | None => identv end) E). assert (X' := f_equal (fun o => match o with Some f => f | None => identv end) E'). cbv beta iota zeta in X, X'. subst f f'.
  repeat match goal with
  | |- respects _ _ (thenv _ _) _ => apply (respects_then S4 S4 S4) | |- respects _ _ identv _ => apply respects_ident | |- respects _ _ (conv_v _ _ _ _ _ _ _) _ => apply same_conv
  | |- respects _ _ (bnv _ _ _ _ _) _ => apply same_bn | |- respects _ _ relu_v _ => apply same_relu | |- respects _ _ max_pool_v _ => apply same_pool end;
  apply group_any; intros ->; tauto.
Qed.
End Both.

(** ResNets of the bottleneck kind whose last batch normalisation of every block has scale and offset 0, as at initialization (resnet.py:99), do not depend on the
    numbers of blocks per group: in both modes, all features and logits are those of the networks with one block per group. *)
Theorem C94_shallow eps tr tl W p c c' n b h w ch v : (forall q k, bn_scale (bn_of W (sub q "batchnorm_2")) k = 0 /\ bn_offset (bn_of W (sub q "batchnorm_2")) k = 0) ->
  rn_bottleneck c = true -> rn_bottleneck c' = true -> rn_channels c' = rn_channels c -> rn_projection c' = rn_projection c -> ~ In 0%nat (rn_blocks c) -> ~ In 0%nat (rn_blocks c') ->
  (0 < b)%Z -> (0 <= h)%Z -> (0 <= w)%Z ->
  (forall f f', resnet_features_v eps tr tl W p c false = Some f -> resnet_features_v eps tr tl W p c' false = Some f' ->
    match f ([b; h; w; ch], v), f' ([b; h; w; ch], v) with
    | Some u, Some u' => fst u' = fst u /\ forall i y x k, Forall2 (fun j n => 0 <= j < n)%Z [i; y; x; k] (fst u) -> snd u' [i; y; x; k] = snd u [i; y; x; k]
    | None, None => True
    | _, _ => False
    end) /\
  (forall f f', resnet_v eps tr tl W p c false n = Some f -> resnet_v eps tr tl W p c' false n = Some f' ->
    match f ([b; h; w; ch], v), f' ([b; h; w; ch], v) with
    | Some u, Some u' => fst u' = fst u /\ forall i k, Forall2 (fun j n => 0 <= j < n)%Z [i; k] (fst u) -> snd u' [i; k] = snd u [i; k]
    | None, None => True
    | _, _ => False
    end).
Proof.
  intros HZ Hb Hb' Hc Hp N N' B Dh Dw. set (x := ([b; h; w; ch], v)). assert (Sx : S4 x x) by now apply S4_refl. split.
  - intros f f' E E'. pose proof (features_any eps tr tl W HZ p c c' f f' Hb Hb' Hc Hp N N' E E' x x Sx) as R. destruct (f x) as [u|], (f' x) as [u'|]; try contradiction; [|exact I].
    apply S4_spec in R. destruct R as (b1 & h1 & w1 & c1 & _ & _ & _ & Eu & Eu' & H). rewrite Eu, Eu'. split; [reflexivity|]. intros i y z k F.
    inversion F as [|? ? ? ? F1 F']; subst. inversion F' as [|? ? ? ? F2 F'']; subst. inversion F'' as [|? ? ? ? F3 F3']; subst. inversion F3' as [|? ? ? ? F4 _]; subst. now apply H.
  - intros f f' E E'. unfold resnet_v in *. destruct (resnet_features_v eps tr tl W p c false) as [g|] eqn:G; [|discriminate E]. destruct (resnet_features_v eps tr tl W p c' false) as [g'|] eqn:G'; [|discriminate E'].
    cbn [option_map] in E, E'. assert (X := f_equal (fun o => match o with Some f => f | None => identv end) E). assert (X' := f_equal (fun o => match o with Some f => f | None => identv end) E'). cbv beta iota in X, X'. subst f f'.
    assert (R : respects S4 S2 (thenv g (thenv mean_v (linear_v W (sub p "logits") n))) (thenv g' (thenv mean_v (linear_v W (sub p "logits") n)))).
    { eapply respects_then; [exact (features_any eps tr tl W HZ p c c' g g' Hb Hb' Hc Hp N N' G G')|]. eapply respects_then; [apply same_mean|apply same_linear]. }
    specialize (R x x Sx). destruct (thenv g _ x) as [u|], (thenv g' _ x) as [u'|]; try contradiction; [|exact I]. destruct R as (b1 & B1 & R). destruct (R 0%Z ltac:(lia)) as (m & Eu & Eu' & _).
    rewrite Eu, Eu'. split; [reflexivity|]. intros i k F. inversion F as [|? ? ? ? F1 F']; subst. inversion F' as [|? ? ? ? F2 _]; subst. destruct (R i F1) as (m' & Em & _ & H). rewrite Eu in Em. injection Em as <-. rewrite H by assumption. ring.
Qed.
Print Assumptions C94_shallow.

(** ResNet-50 and ResNet-200 at initialization: with kernels of ones, scales of 1 and the zeros of resnet.py:99. *)
Definition initial (kernel : string -> list Z -> R) (logits : list Z -> R) : weights :=
  Weights (fun q idx => if contains "logits" q then logits idx else kernel q idx) (fun _ _ => 0) (fun q => BN (fun _ => if contains "batchnorm_2" q then 0 else 1) (fun _ => 0) (fun _ => 0) (fun _ => 0)).

Definition config_200 := ResNetConfig [3; 24; 36; 3]%nat true big [true; true; true; true].
Example C94_shallow_example kernel logits v : forall f f', resnet_v (1 / 100000) true false (initial kernel logits) "res_net50" config_50 false 1000 = Some f ->
  resnet_v (1 / 100000) true false (initial kernel logits) "res_net50" config_200 false 1000 = Some f' ->
  exists u u', f ([8; 224; 224; 3]%Z, v) = Some u /\ f' ([8; 224; 224; 3]%Z, v) = Some u' /\ fst u = [8; 1000]%Z /\ snd u' [7; 999]%Z = snd u [7; 999]%Z.
Proof.
  intros f f' E E'. set (W := initial kernel logits) in *.
  destruct (C94_shallow (1 / 100000) true false W "res_net50" config_50 config_200 1000 8 224 224 3 v) as [_ R]; try reflexivity; try lia.
  - intros q k. unfold W, initial, sub. cbn [bn_of bn_scale bn_offset]. assert (C := contains_middle (q ++ "/~/")%string "batchnorm_2" "" ltac:(discriminate)). assert (A : forall a b c, ((a ++ b) ++ c = a ++ (b ++ c))%string) by (induction a; intros; cbn; congruence). rewrite A in C. change ("batchnorm_2" ++ "")%string with "batchnorm_2"%string in C. rewrite C. now split.
  - cbn. intros H. repeat destruct H as [H|H]; try discriminate H; exact H.
  - cbn. intros H. repeat destruct H as [H|H]; try discriminate H; exact H.
  - specialize (R f f' E E'). pose proof (C94_shapes (1 / 100000) true false W "res_net50" config_50 false 1000) as S. rewrite E in S. 
    destruct (resnet config_50 false 1000) as [g|] eqn:G; [|discriminate G]. specialize (S ([8; 224; 224; 3]%Z, v)). cbn [fst] in S.
    assert (Sh : option_map snd (g [8; 224; 224; 3]%Z) = Some [8; 1000]%Z).
    { apply (f_equal (option_map (fun g : net => option_map snd (g [8; 224; 224; 3]%Z)))) in G. cbn [option_map] in G. assert (Some (option_map snd (g [8; 224; 224; 3]%Z)) = Some (Some [8; 1000]%Z)) as X by (rewrite <- G; vm_compute; reflexivity). now injection X. }
    rewrite Sh in S. destruct (f ([8; 224; 224; 3]%Z, v)) as [u|]; [|discriminate S]. destruct (f' ([8; 224; 224; 3]%Z, v)) as [u'|]; [|contradiction]. exists u, u'. cbn [option_map] in S. injection S as S. split; [reflexivity|split; [reflexivity|split; [exact S|]]].
    destruct R as [_ R]. apply R. rewrite S. repeat constructor; lia.
Qed.

(** ** The first loss *)
(** The weights of the last layer start at 0 (resnet.py:327): before the first step all logits are 0, whatever the images, and the loss of every example (train.py of the
    imagenet example; labels that add up to 1, smoothed or not) is the logarithm of the number of classes. *)
Lemma log_softmax_zero n : (0 < n)%nat -> log_softmax (repeat 0 n) = repeat (- ln (INR n)) n.
Proof.
  intros Hn. unfold log_softmax. assert (N : forall i, nth i (repeat 0 n) 0 = 0) by (intros i; revert i; clear; induction n as [|n IH]; intros [|i]; cbn; auto).
  rewrite N. assert (M : forall m, Rsum (map (fun y => exp (y - 0)) (repeat 0 m)) = INR m).
  { induction m as [|m IH]; [reflexivity|]. cbn [repeat map]. change (Rsum (?a :: ?l)) with (a + Rsum l). rewrite IH, S_INR, Rminus_0_r, exp_0. ring. }
  rewrite M. generalize (ln (INR n)). intros z. clear. induction n as [|n IH]; [reflexivity|]. cbn [repeat map]. rewrite IH. f_equal. ring.
Qed.
Lemma constant_loss z : forall n labels, length labels = n -> Rsum (zipw Rmult labels (repeat z n)) = z * Rsum labels.
Proof.
  induction n as [|n IH]; intros [|l labels] L; try discriminate L; [cbn; ring|]. cbn [repeat]. change (zipw Rmult (l :: labels) (z :: repeat z n)) with (l * z :: zipw Rmult labels (repeat z n)).
  change (Rsum (?a :: ?l)) with (a + Rsum l). rewrite IH by (cbn in L; lia). ring.
Qed.
Theorem C94_first_loss eps tr tl W p c v2 n f x s r : resnet_v eps tr tl W p c v2 n = Some f -> (0 < n)%Z ->
  (forall j k, w_of W (sub p "logits") [j; k] = 0 /\ b_of W (sub p "logits") [k] = 0) -> f x = Some (s, r) ->
  (forall i k, r [i; k] = 0) /\
  forall i labels, length labels = Z.to_nat n -> Rsum labels = 1 ->
    softmax_cross_entropy (map (fun k => r [i; Z.of_nat k]) (seq 0 (Z.to_nat n))) labels = ln (IZR n).
Proof.
  intros E Hn Z0 R. unfold resnet_v in E. destruct (resnet_features_v eps tr tl W p c v2) as [g|]; [|discriminate E]. cbn [option_map] in E.
  assert (X := f_equal (fun o => match o with Some f => f | None => identv end) E). cbv beta iota in X. subst f. unfold thenv in R. destruct (g x) as [y|]; [|discriminate R]. destruct (mean_v y) as [[sm m]|]; [|discriminate R].
  assert (Zr : forall i k, r [i; k] = 0).
  { intros i k. unfold linear_v, layer in R. destruct (ModelImageNets.linear n (fst (sm, m))) as [[ps out]|] eqn:L; [|discriminate R]. assert (Y := f_equal (fun o => match o with Some f => snd f | None => r end) R). cbv beta iota in Y. cbn [snd] in Y. subst r.
    cbn [fst snd] in *. destruct sm as [|b [|ch [|]]]; try discriminate L. rewrite (zsum_ext _ _ (fun _ => 0)) by (intros; destruct (Z0 i0 k) as [-> _]; ring). destruct (Z0 0%Z k) as [_ ->]. rewrite zsum_0. ring. }
  split; [exact Zr|]. intros i labels L S. rewrite (map_ext _ (fun _ => 0)) by (intros; apply Zr).
  assert (M : map (fun _ : nat => 0) (seq 0 (Z.to_nat n)) = repeat 0 (Z.to_nat n)) by (generalize 0%nat; generalize (Z.to_nat n); induction n0; intros; cbn; [reflexivity|now rewrite IHn0]).
  rewrite M. unfold softmax_cross_entropy. rewrite log_softmax_zero by lia. rewrite constant_loss by exact L. rewrite S, INR_IZR_INZ, Z2Nat.id by lia. ring.
Qed.
Print Assumptions C94_first_loss.
(** With 1000 classes and the smoothed labels of the example the first loss is ln 1000, about 6.9. *)
Example C94_first_loss_example kernel v : forall f, resnet_v (1 / 100000) true false (initial kernel (fun _ => 0)) "res_net50" config_50 false 1000 = Some f ->
  forall s r, f ([8; 224; 224; 3]%Z, v) = Some (s, r) -> softmax_cross_entropy (map (fun k => r [7%Z; Z.of_nat k]) (seq 0 (Z.to_nat 1000))) (1 :: repeat 0 999) = ln 1000.
Proof.
  intros f E s r R. eapply C94_first_loss; [exact E|lia| |exact R|reflexivity|]; [intros; now split|].
  change (Rsum (1 :: repeat 0 999)) with (1 + Rsum (repeat 0 999)). assert (H : forall n, Rsum (repeat 0 n) = 0) by (induction n as [|n IH]; [reflexivity|]; cbn [repeat]; change (Rsum (0 :: repeat 0 n)) with (0 + Rsum (repeat 0 n)); rewrite IH; ring). rewrite H. ring.
Qed.

(** ** Folding *)
Definition fold_factor (eps : R) (p : bn) (k : Z) : R := bn_scale p k * / sqrt (bn_var p k + eps).
Definition folded (eps : R) (W : weights) (name bname : string) : weights :=
  let p := bn_of W bname in
  Weights (fun _ idx => w_of W name idx * fold_factor eps p (List.last idx 0%Z)) (fun _ idx => bn_offset p (List.last idx 0%Z) - bn_mean p (List.last idx 0%Z) * fold_factor eps p (List.last idx 0%Z)) (bn_of W).
(** In inference mode a batch normalisation after a convolution without bias is a convolution with another kernel and a bias: the usual way to deploy these networks. *)
Theorem C94_fold eps W name bname n k s t b h w ch v :
  exists shape u u', thenv (conv_v W name n k s t false) (bn_v eps false false W bname) ([b; h; w; ch], v) = Some (shape, u) /\
    conv_v (folded eps W name bname) name n k s t true ([b; h; w; ch], v) = Some (shape, u') /\
    forall i p q co, (0 <= co < n)%Z -> u' [i; p; q; co] = u [i; p; q; co].
Proof.
  unfold thenv, conv_v, bn_v, layer. cbn [fst snd].
  destruct (conv2d_shape n k s t false h w ch) as (ps & ho & wo & _ & _ & E). destruct (conv2d_shape n k s t true h w ch) as (ps' & ho' & wo' & _ & _ & E').
  assert (Eo : ho' = ho /\ wo' = wo).
  { specialize (E b). specialize (E' b). unfold conv2d in E, E'. clear - E E'. destruct (conv_call _ _) as [[[w0 b0] out]|]; [|discriminate E]. injection E as _ ->. injection E' as _ -> ->. now split. }
  destruct Eo as [-> ->]. rewrite E, E'. cbn [fst snd batchnorm]. eexists _, _, _. split; [reflexivity|]. split; [reflexivity|]. intros i p q co Hco. cbn [List.last].
  unfold conv_values. cbn [length cv_spatial Nat.eqb]. set (cv := ConvND 2 n [k; k] [s; s] [1; 1]%Z (inl t) true 1).
  assert (Wf : wf_conv cv [h; w]) by (repeat split; try reflexivity; cbn; discriminate).
  change [b; h; w; ch] with (image_index (cv_last cv) b [h; w] ch). change [i; p; q; co] with (image_index (cv_last cv) i [p; q] co). rewrite !C77_formula by (assumption || reflexivity). cbv zeta.
  cbn [opt_mul opt_bias]. rewrite Rplus_0_r. change (cv_last cv) with true. cbv iota. cbn [orb folded w_of b_of List.last]. fold (fold_factor eps (bn_of W bname) co). set (F := fold_factor eps (bn_of W bname) co).
  rewrite Rmult_minus_distr_r. match goal with |- bsum ?z ?g + (?o - ?m) = bsum ?z ?g' * F - ?m + ?o => assert (G : bsum z g = bsum z g' * F) end; [|rewrite G; ring].
  rewrite Rmult_comm, <- bsum_scale. apply bsum_ext. intros j Hj. rewrite <- zsum_scale. apply zsum_ext. intros ci Hci.
  change (j ++ [ci; co])%list with (j ++ ([ci] ++ [co]))%list. rewrite app_assoc, last_last. fold F. ring.
Qed.
Print Assumptions C94_fold.
(** A kernel of one element with weight 3, scale 2, mean 5, variance 3, [eps] 1: (3 x - 5) * 2 / 2 + 7. *)
Example C94_fold_case x : let W := Weights (fun _ _ => 3) (fun _ _ => 0) (fun _ => BN (fun _ => 2) (fun _ => 7) (fun _ => 5) (fun _ => 3)) in
  exists u, conv_v (folded 1 W "c" "b") "c" 1 1 1 PtSame true ([1; 1; 1; 1]%Z, fun _ => x) = Some ([1; 1; 1; 1]%Z, u) /\ u [0; 0; 0; 0]%Z = 3 * x + 2.
Proof.
  cbv zeta. set (W := Weights _ _ _). eexists. split; [reflexivity|]. cbv -[Rplus Rmult Rminus IZR Rinv sqrt]. replace (3 + 1) with (2 * 2) by ring. rewrite sqrt_square by lra. field.
Qed.

(** ** Inference before training *)
(** The averages start at 0 (moving_averages.py), so in inference mode an untrained batch normalisation divides by the square root of [eps]: it multiplies by more than 316
    when [eps] is 1e-5, and a network with 53 of them overflows single precision. *)
Theorem C94_fresh eps W name x : (forall k, bn_mean (bn_of W name) k = 0 /\ bn_var (bn_of W name) k = 0 /\ bn_offset (bn_of W name) k = 0 /\ bn_scale (bn_of W name) k = 1) ->
  exists v, bn_v eps false false W name x = Some (fst x, v) /\ (forall idx, v idx = snd x idx / sqrt eps) /\
  (eps = 1 / 100000 -> forall idx, snd x idx <> 0 -> 316 * Rabs (snd x idx) < Rabs (v idx)).
Proof.
  intros H. unfold bn_v, layer, batchnorm. eexists. split; [reflexivity|]. cbv beta zeta.
  assert (V : forall idx, (snd x idx - bn_mean (bn_of W name) (List.last idx 0%Z)) * (bn_scale (bn_of W name) (List.last idx 0%Z) * / sqrt (bn_var (bn_of W name) (List.last idx 0%Z) + eps)) + bn_offset (bn_of W name) (List.last idx 0%Z) = snd x idx / sqrt eps).
  { intros idx. destruct (H (List.last idx 0%Z)) as (-> & -> & -> & ->). unfold Rdiv. rewrite Rplus_0_l. ring. }
  cbn [orb]. split; [exact V|]. intros -> idx N. rewrite V. change (snd x idx / sqrt (1 / 100000)) with (snd x idx * / sqrt (1 / 100000)). rewrite Rabs_mult, Rmult_comm. apply Rmult_lt_compat_l; [now apply Rabs_pos_lt|].
  assert (P : 0 < sqrt (1 / 100000)) by (apply sqrt_lt_R0; lra). rewrite Rabs_right by (apply Rle_ge, Rlt_le, Rinv_0_lt_compat, P).
  assert (U : sqrt (1 / 100000) < / 316) by (rewrite <- (sqrt_pow2 (/ 316)) by lra; apply sqrt_lt_1; lra).
  rewrite <- (Rinv_inv 316). apply Rinv_lt_contravar; [|exact U]. apply Rmult_lt_0_compat; [exact P|lra].
Qed.
Print Assumptions C94_fresh.
Example C94_fresh_case : exists v, bn_v (1 / 100000) false false (Weights (fun _ _ => 0) (fun _ _ => 0) (fun _ => BN (fun _ => 1) (fun _ => 0) (fun _ => 0) (fun _ => 0))) "b" ([1; 1]%Z, fun _ => 1) = Some ([1; 1]%Z, v) /\ 316 < Rabs (v [0; 0]%Z).
Proof.
  edestruct C94_fresh as (v & E & _ & H); [|exists v; split; [exact E|]]; [intros; auto|]. specialize (H eq_refl [0; 0]%Z). cbn [snd] in H. rewrite Rabs_R1, Rmult_1_r in H. apply H. lra.
Qed.

(** ** Training mode *)
(** When training, the result for an image depends on the other images of the batch: a batch of one image has logit 0, with a second image it is positive. *)
Definition ones : weights := Weights (fun _ _ => 1) (fun _ _ => 0) (fun _ => BN (fun _ => 1) (fun _ => 0) (fun _ => 0) (fun _ => 1)).
Definition image0 (idx : list Z) : R := match idx with 0%Z :: _ => 1 | _ => 0 end.
Theorem C94_training_refuted : exists f r r', mobilenet_v 1 true false ones "m" [] [] 1 true = Some f /\
  f ([1; 3; 3; 1]%Z, image0) = Some ([1; 1]%Z, r) /\ f ([2; 3; 3; 1]%Z, image0) = Some ([2; 1]%Z, r') /\ r [0; 0]%Z = 0 /\ 0 < r' [0; 0]%Z.
Proof.
  eexists _, _, _. split; [reflexivity|]. split; [cbv -[Rplus Rmult IZR Rinv Rminus sqrt Rmax pow Rdiv conv_values channel_mean bsum zsum]; reflexivity|].
  split; [cbv -[Rplus Rmult IZR Rinv Rminus sqrt Rmax pow Rdiv conv_values channel_mean bsum zsum]; reflexivity|]. split.
  - cbv -[Rplus Rmult IZR Rinv Rminus Rdiv sqrt Rmax pow]. match goal with |- context [Rmax ?a 0] => set (e := Rmax a 0) end. assert (E : e = 0); [|rewrite E; lra].
    unfold e. match goal with |- Rmax (?a * _ + 0) 0 = _ => replace a with 0 by field end. rewrite Rmult_0_l, Rplus_0_l. apply Rmax_left. lra.
  - cbv -[Rplus Rmult IZR Rinv Rminus Rdiv sqrt Rmax pow]. match goal with |- context [Rmax ?a 0] => set (e := Rmax a 0) end. assert (E : 0 < e); [|lra].
    unfold e. match goal with |- 0 < Rmax (?a * (1 * / sqrt ?b) + 0) 0 => replace a with (9 / 2) by field; replace b with (85 / 4) by field end.
    assert (P : 0 < sqrt (85 / 4)) by (apply sqrt_lt_R0; lra). eapply Rlt_le_trans; [|apply Rmax_l]. rewrite Rmult_1_l, Rplus_0_r. apply Rmult_lt_0_compat; [lra|now apply Rinv_0_lt_compat].
Qed.
Print Assumptions C94_training_refuted.

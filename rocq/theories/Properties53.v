(** C94: values of ResNet and MobileNetV1. *)
From Coq Require Import Reals ZArith String List Bool Lia Lra.
From Verif Require Import ModelNets ModelShape ModelReal ModelPool ModelConv ModelImageNets ModelCheckpoint ModelImageValues Properties09 Properties32 Properties33.
Import ListNotations.
Local Open Scope R_scope.

(** ** Shapes: the values are those of arrays with the shapes of ModelImageNets. *)
Definition agrees (f : vnet) (g : net) : Prop := forall x, option_map fst (f x) = option_map snd (g (fst x)).
Lemma agrees_layer f g : agrees (layer f g) f.
Proof. intros x. unfold layer. now destruct (f (fst x)) as [[ps out]|]. Qed.
Lemma agrees_ident : agrees identv ident.
Proof. now intros x. Qed.
Lemma agrees_then f g f' g' : agrees f f' -> agrees g g' -> agrees (thenv f g) (andthen f' g').
Proof.
  intros F G x. unfold thenv, andthen. specialize (F x). destruct (f x) as [y|], (f' (fst x)) as [[ps z]|]; try discriminate F; [|reflexivity].
  injection F as E. specialize (G y). rewrite E in G. rewrite G. now destruct (g' z) as [[qs u]|].
Qed.
Lemma agrees_fun f g f' g' : agrees f g -> (forall x, f' x = f x) -> (forall x, option_map snd (g' x) = option_map snd (g x)) -> agrees f' g'.
Proof. intros A E1 E2 x. rewrite E1, E2. apply A. Qed.
(** Applying ReLU, or nothing, at the end does not change shapes. *)
Lemma agrees_relu f g : agrees f g -> agrees (thenv f relu_v) g.
Proof.
  intros A x. specialize (A x). unfold thenv. destruct (f x) as [y|]; [|exact A]. destruct (g (fst x)) as [[ps z]|]; [|discriminate A]. exact A.
Qed.
Lemma agrees_id_r f g : agrees f g -> agrees (thenv f identv) g.
Proof. intros A x. specialize (A x). unfold thenv. now destruct (f x). Qed.
Lemma agrees_fold {A B} (F : vnet -> A -> vnet) (G : net -> B -> net) l : forall m f g, agrees f g -> length l = length m ->
  (forall a b, In (a, b) (combine l m) -> forall f g, agrees f g -> agrees (F f a) (G g b)) -> agrees (fold_left F l f) (fold_left G m g).
Proof.
  induction l as [|a l IH]; intros [|b m] f g A0 L H; try discriminate L; [exact A0|]. cbn [fold_left]. apply IH; [apply H; [now left|exact A0]|now injection L|].
  intros a' b' I. apply H. now right.
Qed.

Section Shapes.
Context (eps : R) (tr tl : bool) (W : weights).
Lemma agrees_add a b : option_map fst (add_v a b) = broadcast2 (fst a) (fst b).
Proof. unfold add_v. now destruct (broadcast2 (fst a) (fst b)). Qed.
Lemma combine_seq {A} (l : list A) : forall k, length (combine (seq k (length l)) l) = length l.
Proof. intros k. rewrite combine_length, seq_length. lia. Qed.
Lemma combine_diag {A} (l : list A) : forall k a b, In (a, b) (combine (combine (seq k (length l)) l) l) -> snd a = b.
Proof.
  induction l as [|x l IH]; intros k a b I; [destruct I|]. cbn [length seq combine] in I. destruct I as [[= <- <-]|I]; [reflexivity|]. apply (IH _ _ _ I).
Qed.
Lemma agrees_block_v1 p channels stride up bn : agrees (block_v1_v eps tr tl W p channels stride up bn) (block_v1 channels stride up bn).
Proof.
  intros x. unfold block_v1_v, block_v1. set (layers := block_layers channels stride bn).
  assert (A1 : agrees (v1_layers eps tr tl W p layers) (fold_left (fun f l => let '(c, k, s) := l in andthen f (andthen (conv2d c k s PtSame false) batchnorm)) layers ident)).
  { unfold v1_layers. apply agrees_fold; [apply agrees_ident|apply combine_seq|]. intros [i [[c k] s]] b I f g A. apply combine_diag in I. cbn [snd] in I. subst b.
    apply agrees_then; [exact A|]. apply agrees_then; [apply agrees_layer|]. destruct (Nat.ltb i (length layers - 1)); [apply agrees_relu|apply agrees_id_r]; apply agrees_layer. }
  assert (A2 : agrees (if up then thenv (conv_v W (sub p "shortcut_conv") channels 1 stride PtSame false) (bnv eps tr tl W (sub p "shortcut_batchnorm")) else identv)
                 (if up then andthen (conv2d channels 1 stride PtSame false) batchnorm else ident)).
  { destruct up; [|apply agrees_ident]. apply agrees_then; apply agrees_layer. }
  specialize (A1 x). specialize (A2 x). cbv zeta.
  destruct ((if up then thenv _ _ else identv) x) as [s|], ((if up then andthen _ _ else ident) (fst x)) as [[ps s']|]; try discriminate A2; [|reflexivity].
  destruct (v1_layers eps tr tl W p layers x) as [o|], (fold_left _ layers ident (fst x)) as [[qs o']|]; try discriminate A1; [|reflexivity].
  injection A1 as <-. injection A2 as <-. pose proof (agrees_add o s) as E. destruct (add_v o s) as [r|]; rewrite <- E; reflexivity.
Qed.
Lemma bn_keeps name x : exists v, bnv eps tr tl W name x = Some (fst x, v).
Proof. unfold bnv, bn_v, layer, batchnorm. eauto. Qed.
(** The layers of a [BlockV2] as a network. *)
Definition v2_chain (p : string) (l : list (nat * (Z * Z * Z))) (f : vnet) : vnet :=
  fold_left (fun f l => let '(i, (c, k, s)) := l in
    thenv f (thenv (thenv (bnv eps tr tl W (sub p (numbered "batchnorm_" i))) relu_v) (conv_v W (sub p (numbered "conv_" i)) c k s PtSame false))) l f.
Lemma v2_fold p channels stride up l : forall x s f, (forall a, In a l -> fst a <> 0%nat) ->
  fold_left (v2_step eps tr tl W p channels stride up) l (match f x with Some y => Some (y, s) | None => None end) = match v2_chain p l f x with Some y => Some (y, s) | None => None end.
Proof.
  induction l as [|[i [[c k] st]] l IH]; intros x s f H; [reflexivity|].
  change (v2_chain p ((i, (c, k, st)) :: l) f) with (v2_chain p l (thenv f (thenv (thenv (bnv eps tr tl W (sub p (numbered "batchnorm_" i))) relu_v) (conv_v W (sub p (numbered "conv_" i)) c k st PtSame false)))). cbn [fold_left].
  rewrite <- IH by (intros a I; apply H; now right). f_equal. unfold v2_step. assert (N : Nat.eqb i 0 = false) by (apply Nat.eqb_neq; exact (H _ (or_introl eq_refl))).
  unfold thenv at 2 3. destruct (f x) as [y|]; [|reflexivity]. destruct (thenv _ relu_v y) as [z|]; [|reflexivity]. rewrite N. reflexivity.
Qed.
Lemma block_v2_eq p channels stride up bn x :
  let layers := block_layers channels stride bn in
  let '(c, k, s) := hd (0, 0, 0)%Z layers in
  block_v2_v eps tr tl W p channels stride up bn x =
  match thenv (bnv eps tr tl W (sub p (numbered "batchnorm_" 0))) relu_v x with
  | None => None
  | Some y =>
      match (if up then conv_v W (sub p "shortcut_conv") channels 1 stride PtSame false y else Some x),
            v2_chain p (combine (seq 1 (length (List.tl layers))) (List.tl layers)) (conv_v W (sub p (numbered "conv_" 0)) c k s PtSame false) y with
      | Some shortcut, Some out => add_v out shortcut
      | _, _ => None
      end
  end.
Proof.
  cbv zeta. unfold block_v2_v. assert (E : exists c k s rest, block_layers channels stride bn = (c, k, s) :: rest) by (unfold block_layers; cbn; eauto).
  destruct E as (c & k & s & rest & ->). cbn [hd List.tl length seq combine fold_left]. unfold v2_step at 2. cbn [Nat.eqb andb].
  destruct (thenv _ relu_v x) as [y|].
  - destruct (if up then _ y else Some x) as [sc|].
    + rewrite (v2_fold p channels stride up (combine (seq 1 (length rest)) rest) y sc (conv_v W (sub p (numbered "conv_" 0)) c k s PtSame false)). 2: { intros [i a] I. apply in_combine_l, in_seq in I. cbn. lia. }
      now destruct (v2_chain _ _ _ y).
    + replace (fold_left _ _ None) with (@None (arr * arr)); [reflexivity|]. generalize (combine (seq 1 (length rest)) rest). induction l as [|[i [[c' k'] s']] l IH]; [reflexivity|exact IH].
  - replace (fold_left _ _ None) with (@None (arr * arr)); [reflexivity|]. generalize (combine (seq 1 (length rest)) rest). induction l as [|[i [[c' k'] s']] l IH]; [reflexivity|exact IH].
Qed.
Lemma bn_shape x : batchnorm x = Some ([repeat 1%Z (length x - 1) ++ [List.last x 0%Z]; repeat 1%Z (length x - 1) ++ [List.last x 0%Z]], x).
Proof. reflexivity. Qed.
Lemma agrees_chain p l : forall m f g, agrees f g -> map snd l = m ->
  agrees (v2_chain p l f) (fold_left (fun f l => let '(c, k, s) := l in andthen f (andthen batchnorm (conv2d c k s PtSame false))) m g).
Proof.
  intros m f g A <-. unfold v2_chain. apply agrees_fold; [exact A|now rewrite map_length|]. intros [i [[c k] s]] b I f0 g0 A0.
  assert (b = (c, k, s)) as -> by (clear - I; induction l as [|a l IH]; [destruct I|]; cbn [map combine] in I; destruct I as [[= -> <-]|I]; [reflexivity|auto]).
  apply agrees_then; [exact A0|]. apply agrees_then; [|apply agrees_layer]. apply agrees_relu, agrees_layer.
Qed.
Lemma map_snd_seq {A} (l : list A) k : map snd (combine (seq k (length l)) l) = l.
Proof. revert k. induction l as [|a l IH]; intros k; [reflexivity|]. cbn. now rewrite IH. Qed.
Lemma agrees_block_v2 p channels stride up bn : agrees (block_v2_v eps tr tl W p channels stride up bn) (block_v2 channels stride up bn).
Proof.
  intros x. pose proof (block_v2_eq p channels stride up bn x) as E. cbv zeta in E. unfold block_v2.
  assert (L : exists c k s rest, block_layers channels stride bn = (c, k, s) :: rest) by (unfold block_layers; cbn; eauto).
  destruct L as (c & k & s & rest & L). rewrite L in *. cbn [hd List.tl] in E. rewrite E. clear E.
  destruct (bn_keeps (sub p (numbered "batchnorm_" 0)) x) as [v Ev]. unfold thenv at 1. rewrite Ev. cbn [relu_v layer ident fst snd]. set (y := (fst x, fun idx => Rmax (v idx) 0) : arr).
  change (relu_v (fst x, v)) with (Some y). cbv iota.
  pose proof (agrees_chain p (combine (seq 1 (length rest)) rest) rest (conv_v W (sub p (numbered "conv_" 0)) c k s PtSame false) (conv2d c k s PtSame false) (agrees_layer _ _) (map_snd_seq rest 1) y) as A1.
  change (fst y) with (fst x) in A1.
  match goal with |- context [match ?S with Some _ => _ | None => None end] => set (SC := S) end.
  assert (A2 : option_map fst SC = option_map snd ((if up then conv2d channels 1 stride PtSame false else ident) (fst x))).
  { subst SC. destruct up; [|reflexivity]. exact (agrees_layer _ _ y). }
  assert (A3 : forall m g h z, (forall z, option_map snd (g z) = option_map snd (h z)) -> 
     option_map snd (fold_left (fun f l => let '(c, k, s) := l in andthen f (andthen batchnorm (conv2d c k s PtSame false))) m g z) =
     option_map snd (fold_left (fun f l => let '(c, k, s) := l in andthen f (andthen batchnorm (conv2d c k s PtSame false))) m h z)).
  { clear. induction m as [|[[c k] s] m IH]; intros g h z H; [apply H|]. cbn [fold_left]. apply IH. intros z'. specialize (H z'). unfold andthen at 1 3.
    destruct (g z') as [[ps u]|], (h z') as [[qs u']|]; try discriminate H; [|reflexivity]. injection H as <-. now destruct (andthen _ _ u) as [[rs v]|]. }
  cbv zeta. cbn [fold_left]. specialize (A3 rest (conv2d c k s PtSame false) (andthen ident (andthen batchnorm (conv2d c k s PtSame false))) (fst x)).
  rewrite A3 in A1. 2: { intros z. unfold andthen, ident. cbn [app]. rewrite bn_shape. now destruct (conv2d c k s PtSame false z) as [[rs u]|]. }
  clearbody y. clearbody SC. destruct SC as [sc|], ((if up then conv2d _ _ _ _ _ else ident) (fst x)) as [[ps s']|]; try discriminate A2; [|reflexivity].
  match type of A1 with option_map _ ?S = option_map _ ?S' => destruct S as [o|], S' as [[qs o']|] end; try discriminate A1; [|reflexivity].
  injection A1 as <-. injection A2 as <-. pose proof (agrees_add o sc) as E. destruct (add_v o sc) as [r|]; rewrite <- E; reflexivity.
Qed.
Lemma agrees_group v2 p channels n stride bn up : agrees (group_v eps tr tl W v2 p channels n stride bn up) (block_group v2 channels n stride bn up).
Proof.
  unfold group_v, block_group. apply agrees_fold; [apply agrees_ident|reflexivity|]. intros a b I f g A.
  assert (a = b) as <- by (clear - I; induction (seq 0 n) as [|c l IH]; [destruct I|]; destruct I as [[= -> <-]|I]; auto).
  apply agrees_then; [exact A|]. destruct v2; [apply agrees_block_v2|apply agrees_block_v1].
Qed.
End Shapes.

(** The value of a network has the shape that ModelImageNets computes, and the networks accept the same inputs. *)
Theorem C94_shapes eps tr tl W p c v2 num_classes :
  match resnet_v eps tr tl W p c v2 num_classes, resnet c v2 num_classes with
  | Some f, Some g => forall x, option_map fst (f x) = option_map snd (g (fst x))
  | None, None => True
  | _, _ => False
  end.
Proof.
  unfold resnet_v, resnet, resnet_features_v, resnet_features.
  destruct (rn_blocks c) as [|b0 [|b1 [|b2 [|b3 [|]]]]]; try exact I. destruct (rn_channels c) as [|c0 [|c1 [|c2 [|c3 [|]]]]]; try exact I.
  destruct (rn_projection c) as [|p0 [|p1 [|p2 [|p3 ps]]]]; try exact I. cbn [option_map].
  change (agrees (thenv (thenv (conv_v W (sub p "initial_conv") 64 7 2 PtSame false) (thenv (if v2 then identv else thenv (bnv eps tr tl W (sub p "initial_batchnorm")) relu_v) (thenv max_pool_v
           (thenv (group_v eps tr tl W v2 (sub p (numbered "block_group_" 0)) c0 b0 1 (rn_bottleneck c) p0) (thenv (group_v eps tr tl W v2 (sub p (numbered "block_group_" 1)) c1 b1 2 (rn_bottleneck c) p1)
           (thenv (group_v eps tr tl W v2 (sub p (numbered "block_group_" 2)) c2 b2 2 (rn_bottleneck c) p2) (thenv (group_v eps tr tl W v2 (sub p (numbered "block_group_" 3)) c3 b3 2 (rn_bottleneck c) p3)
           (if v2 then thenv (bnv eps tr tl W (sub p "final_batchnorm")) relu_v else identv)))))))) (thenv mean_v (linear_v W (sub p "logits") num_classes)))
   (andthen (andthen (conv2d 64 7 2 PtSame false) (andthen (if v2 then ident else batchnorm) (andthen max_pool_3_2
            (andthen (block_group v2 c0 b0 1 (rn_bottleneck c) p0) (andthen (block_group v2 c1 b1 2 (rn_bottleneck c) p1) (andthen (block_group v2 c2 b2 2 (rn_bottleneck c) p2) (andthen (block_group v2 c3 b3 2 (rn_bottleneck c) p3)
            (if v2 then batchnorm else ident)))))))) (andthen mean_1_2 (linear num_classes)))).
  repeat (apply agrees_then); try apply agrees_group; try apply agrees_layer; destruct v2; try apply agrees_ident; apply agrees_relu, agrees_layer.
Qed.
Print Assumptions C94_shapes.
Theorem C94_mobile_shapes eps tr tl W p strides channels num_classes use_bn :
  match mobilenet_v eps tr tl W p strides channels num_classes use_bn, mobilenet strides channels num_classes use_bn with
  | Some f, Some g => forall x, option_map fst (f x) = option_map snd (g (fst x))
  | None, None => True
  | _, _ => False
  end.
Proof.
  unfold mobilenet_v, mobilenet, mobilenet_features_v, mobilenet_features.
  destruct (Nat.eqb_spec (length strides) (length channels)) as [L|]; [|exact I]. cbn [negb option_map].
  assert (B : forall name, agrees (opt_bn eps tr tl W use_bn name) (if use_bn then batchnorm else ident)) by (intros name; destruct use_bn; [apply agrees_layer|apply agrees_ident]).
  assert (T : forall f g f' g', agrees f f' -> agrees g g' -> agrees (thenv f (thenv relu_v g)) (andthen f' g')).
  { intros f g f' g' F G. apply (agrees_fun (thenv (thenv f relu_v) g) (andthen f' g')); [apply agrees_then; [now apply agrees_relu|exact G]| |reflexivity].
    intros x. unfold thenv. now destruct (f x). }
  assert (T' : forall f g h f' g' h', agrees f f' -> agrees g g' -> agrees h h' -> agrees (thenv f (thenv g (thenv relu_v h))) (andthen f' (andthen g' h'))).
  { intros f g h f' g' h' F G H. apply agrees_then; [exact F|]. now apply T. }
  change (agrees (thenv (thenv (conv_v W (inside_call p "conv2_d") 32 3 2 PtValid (negb use_bn)) (thenv (opt_bn eps tr tl W use_bn (inside_call p "batch_norm")) (thenv relu_v
       (fold_left (fun f l => let '(i, (s, c)) := l in thenv f (mobile_block_v eps tr tl W (inside_call p (unique "mobile_net_v1_block" i)) c s use_bn))
          (combine (seq 0 (length strides)) (combine strides channels)) identv)))) (thenv mean_v (linear_v W (inside_call p "logits") num_classes)))
   (andthen (andthen (conv2d 32 3 2 PtValid (negb use_bn)) (andthen (if use_bn then batchnorm else ident)
       (fold_left (fun f p => andthen f (mobile_block (snd p) (fst p) use_bn)) (combine strides channels) ident))) (andthen mean_1_2 (linear num_classes)))).
  apply agrees_then; [|apply agrees_then; apply agrees_layer]. apply T'; [apply agrees_layer|apply B|].
  assert (Lc : length (combine strides channels) = length strides) by (rewrite combine_length; lia). rewrite <- Lc.
  apply agrees_fold; [apply agrees_ident|apply combine_seq|]. intros [i [s c]] [s' c'] I f g A. apply combine_diag in I. cbn [snd] in I. injection I as -> ->. cbn [fst snd].
  apply agrees_then; [exact A|]. unfold mobile_block_v, mobile_block. apply T'; [apply agrees_layer|apply B|]. apply agrees_then; [apply agrees_layer|]. apply agrees_relu, B.
Qed.
Print Assumptions C94_mobile_shapes.

(** A ResNet-18 on a small batch, and a MobileNet with the default strides and channels. *)
Example C94_shapes_case W v : exists f g, resnet_v (1 / 100000) true false W "r" (ResNetConfig [2; 2; 2; 2]%nat false small [false; true; true; true]) true 10 = Some f /\
  mobilenet_v (1 / 100000) true false W "m" mobile_strides mobile_channels 10 true = Some g /\
  option_map fst (f ([4; 33; 20; 3]%Z, v)) = Some [4; 10]%Z /\ option_map fst (g ([4; 224; 224; 3]%Z, v)) = Some [4; 10]%Z /\ f ([4; 33; 20]%Z, v) = None.
Proof.
  eexists _, _. split; [reflexivity|]. split; [reflexivity|].
  pose proof (C94_shapes (1 / 100000) true false W "r" (ResNetConfig [2; 2; 2; 2]%nat false small [false; true; true; true]) true 10) as S.
  pose proof (C94_mobile_shapes (1 / 100000) true false W "m" mobile_strides mobile_channels 10 true) as M.
  split; [etransitivity; [apply S|vm_compute; reflexivity]|]. split; [etransitivity; [apply M|vm_compute; reflexivity]|].
  match goal with |- ?a = None => enough (E : option_map fst a = None) by (destruct a; [discriminate E|reflexivity]) end. etransitivity; [apply S|vm_compute; reflexivity].
Qed.

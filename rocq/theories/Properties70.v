(** C100, part 3: the remaining modules and all checkpoint files. *)
From Coq Require Import String Ascii NArith ZArith List Bool Lia.
From Verif Require Import ModelStr ModelUtils ModelShape ModelPool ModelImageNets ModelConv ProofsShape Properties09 Properties11 Properties32 ModelFormat ModelCheckpoints Properties68 Properties69.
Import ListNotations.
Local Open Scope string_scope.
Local Open Scope Z_scope.

(** ** Depthwise convolutions and MobileNets *)
Definition depthwise_ok (m : Z) (f : layer) : Prop := forall cin d d', 0 < cin -> exists e e', good (img cin d d') (img (m * cin) e e') f f.
Lemma depthwise_good m k0 k1 s0 s1 padding bias name : (forall l, padding = inr l -> length l = 2%nat) ->
  makes (depthwise_ok m) (depthwise m [k0; k1] [s0; s1] padding true bias name).
Proof.
  intros LP. unfold depthwise.
  set (out := fun (d : size3) => let '(b, h, w) := d in
    let pads := match padding with inl t => string_pads t [h; w] [k0; k1] [1; 1] [s0; s1] | inr l => l end in
    (b, window_count h (fst (nth 0 pads (0, 0))) (snd (nth 0 pads (0, 0))) k0 s0, window_count w (fst (nth 1 pads (0, 0))) (snd (nth 1 pads (0, 0))) k1 s1)).
  eapply makes_mono; [|apply (makes_simple (fun (i : {p : Z * size3 * size3 | 0 < fst (fst p)}) => img (fst (fst (proj1_sig i))) (snd (fst (proj1_sig i))) (snd (proj1_sig i)))
     (fun i => img (m * fst (fst (proj1_sig i))) (out (snd (fst (proj1_sig i)))) (out (snd (proj1_sig i)))))].
  { intros f H cin d d' C. exists (out d), (out d'). exact (H (exist _ (cin, d, d') C)). }
  intros [[[cin d] d'] C]. cbn [proj1_sig fst snd] in *. intros x x' (N & N' & t & -> & ->).
  assert (D : forall d, nonneg d -> ModelImageNets.depthwise m [k0; k1] [s0; s1] padding true bias (shape4 d cin) =
    Some ([k0; k1; 1; m * cin] :: (if bias then [[m * cin]] else []), shape4 (out d) (m * cin)) /\ nonneg (out d)).
  { intros [[b h] w] (B & H & W). split; [|cbn; split; [exact B|]; unfold window_count; split; apply Z.le_max_l].
    set (pads := match padding with inl t => string_pads t [h; w] [k0; k1] [1; 1] [s0; s1] | inr l => l end).
    transitivity (ModelImageNets.depthwise m [k0; k1] [s0; s1] (inr pads) true bias [b; h; w; cin]).
    - unfold pads. destruct padding; reflexivity.
    - rewrite depthwise_last; [reflexivity | exact C |]. unfold pads. destruct padding as [p|l]; [reflexivity | apply LP; reflexivity]. }
  destruct (D d N) as [-> M]. destruct (D d' N') as [-> M']. cbn [lift]. cbn [bind]. apply alike_param.
  assert (R : img (m * cin) (out d) (out d') (t, shape4 (out d) (m * cin)) (t, shape4 (out d') (m * cin))) by (split; [exact M|]; split; [exact M'|]; eauto).
  destruct bias; [apply alike_param|]; apply alike_ret; exact R.
Qed.
Lemma separable_good m k0 k1 stride padding bias name : 0 < m -> (forall l, padding = inr l -> length l = 2%nat) -> length stride = 2%nat ->
  makes (depthwise_ok m) (separable m k0 k1 stride padding true bias name).
Proof.
  intros Hm LP LS. destruct stride as [|s0 [|s1 [|]]]; try discriminate. unfold separable, module.
  apply (makes_bind (fun o => depthwise_ok m (fst (snd o)) /\ depthwise_ok 1 (snd (snd o)))).
  - apply (makes_construct (fun o => depthwise_ok m (fst o) /\ depthwise_ok 1 (snd o))).
    apply (makes_bind (depthwise_ok m)); [apply depthwise_good, LP|]. intros f F. apply (makes_bind (depthwise_ok 1)); [apply depthwise_good, LP|]. intros g G.
    apply makes_ret. exact (conj F G).
  - intros [q [f g]] [F G]. cbn [fst snd] in F, G. apply makes_ret. intros cin d d' C. destruct (F cin d d' C) as (e & e' & F').
    destruct (G (m * cin) e e' ltac:(nia)) as (u & u' & G'). rewrite Z.mul_1_l in G'. exists u, u'. intros x x' Rx. apply alike_within.
    apply (alike_bind (img (m * cin) e e')); [exact (F' x x' Rx)|]. intros y y' Ry. exact (G' y y' Ry).
Qed.
Lemma valid_good c k s bias name : makes (fun f => forall cin d d', exists e e', good (img cin d d') (img c e e') f f) (conv2d c k s PtValid bias name).
Proof.
  eapply makes_mono; [|apply (regular_conv c k s PtValid bias (fun h => window_count h 0 0 k s) (keeps_window 0 0 k s)); intros cin; apply regular_conv_valid].
  intros f H cin d d'. exists (resized (fun h => window_count h 0 0 k s) d), (resized (fun h => window_count h 0 0 k s) d'). exact (H (cin, d, d')).
Qed.
Lemma mobile_bn_good use_bn c d d' : good (img c d d') (img c d d') (mobile_bn use_bn true) (mobile_bn use_bn true).
Proof.
  intros x x' Rx. unfold mobile_bn. destruct use_bn; [|apply alike_ret, Rx].
  apply (alike_makes (fun f => forall mode, local mode -> img_keeps (f mode))); [apply bn_good; reflexivity|]. intros f G. exact (G (true, false) eq_refl c d d' x x' Rx).
Qed.
Lemma mobile_block_good channels stride use_bn : forall cin d d', 0 < cin -> exists e e',
  good (img cin d d') (img channels e e') (fun x => b <- mobile_block channels stride use_bn true ;; b x) (fun x => b <- mobile_block channels stride use_bn true ;; b x).
Proof.
  intros cin d d' C.
  (* the sizes after the depthwise convolution do not depend on its name *)
  set (cv := fun n => window_count n 1 1 3 stride). set (e := resized cv d). set (e' := resized cv d').
  set (pw := fun n => window_count n 0 0 1 1).
  exists (resized pw e), (resized pw e'). intros x x' Rx. unfold mobile_block.
  apply (alike_makes (fun f => good (img cin d d') (img channels (resized pw e) (resized pw e')) f f)); [|intros f G; exact (G x x' Rx)].
  apply makes_plain. clear x x' Rx. intros x x' Rx.
  apply (alike_makes (fun f => good (img cin d d') (img cin e e') f f)).
  { apply (makes_plain (img cin d d') (img cin e e')). clear x x' Rx. intros x x' (N & N' & t & -> & ->).
    assert (D : forall d, nonneg d -> ModelImageNets.depthwise 1 [3; 3] [stride; stride] (inr [(1, 1); (1, 1)]) true (negb use_bn) (shape4 d cin) =
      Some ([3; 3; 1; cin] :: (if negb use_bn then [[cin]] else []), shape4 (resized cv d) cin) /\ nonneg (resized cv d)).
    { intros [[b h] w] (B & H & W). split; [|cbn; split; [exact B|]; unfold cv, window_count; split; apply Z.le_max_l].
      cbn [shape4]. rewrite depthwise_last by (assumption || reflexivity). rewrite Z.mul_1_l. reflexivity. }
    destruct (D d N) as [-> M]. destruct (D d' N') as [-> M']. cbn [lift]. cbn [bind]. apply alike_param.
    assert (R : img cin e e' (t, shape4 e cin) (t, shape4 e' cin)) by (split; [exact M|]; split; [exact M'|]; eauto).
    destruct (negb use_bn); [apply alike_param|]; apply alike_ret; exact R. }
  intros dw DW. apply (alike_makes (fun f => good (img cin e e') (img channels (resized pw e) (resized pw e')) f f)).
  { eapply makes_mono; [|apply (regular_conv channels 1 1 PtValid (negb use_bn) pw (keeps_window 0 0 1 1)); intros c0; apply regular_conv_valid].
    intros f H. exact (H (cin, e, e')). }
  intros pc PC. apply (chain_good (img cin d d') (img channels (resized pw e) (resized pw e'))); [|exact Rx].
  apply (ch_cons _ (img cin e e') _ _ _ DW). apply (ch_cons _ (img cin e e') _ _ _ (mobile_bn_good use_bn cin e e')).
  apply (ch_cons _ (img channels (resized pw e) (resized pw e')) _ _ _ PC). apply (ch_cons _ _ _ _ _ (mobile_bn_good use_bn channels _ _)). constructor.
Qed.
Lemma mobile_chain_good use_bn strides : forall channels cin d d', length strides = length channels -> Forall (fun c => 0 < c) channels -> 0 < cin -> exists e e',
  chained (img cin d d') (map (fun p x => b <- mobile_block (snd p) (fst p) use_bn true ;; b x) (combine strides channels)) (img (last channels cin) e e').
Proof.
  induction strides as [|s strides IH]; intros [|c channels] cin d d' L F C; try discriminate.
  - exists d, d'. constructor.
  - inversion F as [|? ? C' F']; subst. destruct (mobile_block_good c s use_bn cin d d' C) as (e & e' & G). injection L as L.
    destruct (IH channels c e e' L F' C') as (u & u' & H). exists u, u'. cbn [combine map fst snd]. apply (ch_cons _ (img c e e') _ _ _ G).
    replace (last (c :: channels) cin) with (last channels c); [exact H|]. clear. revert c cin.
    induction channels as [|c' channels IH]; intros c cin; [reflexivity|]. change (last (c' :: channels) c = last (c' :: channels) cin). rewrite <- !IH. reflexivity.
Qed.
Lemma prod_nonneg s : Forall (fun n => 0 <= n) s -> 0 <= ModelShape.prod s.
Proof. induction 1; cbn; [lia | nia]. Qed.
Lemma flatten_shape b n s : 0 <= b -> Forall (fun n => 0 <= n) (n :: s) -> option_map a_shape (reshape_call [-1] 1 (Arr (b :: n :: s) (@nil unit))) = Some [b; ModelShape.prod (n :: s)].
Proof.
  intros B F. apply prod_nonneg in F. change (reshape_call [-1] 1 (Arr (b :: n :: s) (@nil unit))) with (np_reshape (Arr (b :: n :: s) (@nil unit)) [b; ModelShape.prod (n :: s) / 1]).
  rewrite Z.div_1_r. unfold np_reshape. set (p := ModelShape.prod (n :: s)) in *. change (ModelShape.prod (a_shape (Arr (b :: n :: s) (@nil unit)))) with (b * p).
  replace (ModelShape.prod [b; p]) with (b * p) by (cbn; lia). rewrite Z.eqb_refl. cbn [forallb]. rewrite (proj2 (Z.leb_le 0 b) B), (proj2 (Z.leb_le 0 p) F). reflexivity.
Qed.
Lemma flatten_good name : makes (fun f => good (fun _ x' => Forall (fun n => 0 <= n) (snd x')) (fun _ _ => True) f f) (reshape "Flatten" [-1] 1 name).
Proof.
  apply makes_plain. intros [t s] [t' s'] F. cbn [snd] in F. apply alike_lift. intros o _. cbn [snd fst]. destruct s' as [|b [|n s']].
  - eexists. split; [reflexivity|]. apply alike_ret. exact I.
  - eexists. split; [reflexivity|]. apply alike_ret. exact I.
  - inversion F as [|? ? B F']; subst. rewrite flatten_shape by assumption. eexists. split; [reflexivity|]. apply alike_ret. exact I.
Qed.
Definition rows (c : Z) : rel := fun x x' => exists t b b', 0 <= b /\ 0 <= b' /\ x = (t, [b; c]) /\ x' = (t, [b'; c]).
Lemma flatten_rows c name : 0 <= c -> makes (fun f => good (rows c) (ends c) f f) (reshape "Flatten" [-1] 1 name).
Proof.
  intros C. apply makes_plain. intros x x' (t & b & b' & B & B' & -> & ->). cbn [fst snd]. rewrite !flatten_shape by (assumption || (constructor; [assumption | constructor])).
  apply alike_ret. split; [reflexivity|]. exists [b], [b']. cbn. rewrite Z.mul_1_r. split; reflexivity.
Qed.
Lemma mean_rows c d d' : good (img c d d') (rows c) (net_of mean_1_2) (net_of mean_1_2).
Proof.
  intros x x' (N & N' & t & -> & ->). destruct d as [[b h] w], d' as [[b' h'] w']. destruct N as (B & _), N' as (B' & _). cbn. apply alike_ret. exists t, b, b'. auto.
Qed.
Lemma mobilenet_good strides channels classes use_bn name : Forall (fun c => 0 < c) channels ->
  makes (fun f => forall cin d d', good (img cin d d') (ends classes) (f true) (f true)) (mobilenet strides channels classes use_bn name).
Proof.
  intros F. unfold mobilenet. apply (makes_bind (fun _ => length strides = length channels)).
  - eapply makes_mono; [|apply (makes_construct (fun _ : unit => length strides = length channels))]; [intros o H; exact H|].
    unfold check. destruct (Nat.eqb _ _) eqn:E; [|constructor]. apply makes_ret. apply Nat.eqb_eq, E.
  - intros [q []] L. apply makes_ret. intros cin d d' x x' Rx. apply alike_within.
    apply (alike_makes _ _ _ _ _ (valid_good 32 3 2 (negb use_bn) None)). intros c C. destruct (C cin d d') as (e & e' & C').
    destruct (mobile_chain_good use_bn strides channels 32 e e' L F ltac:(lia)) as (u & u' & H).
    apply (alike_bind (rows (last channels 32))).
    + apply (chain_good (img cin d d') (rows (last channels 32))); [|exact Rx]. apply (ch_cons _ (img 32 e e') _ _ _ C').
      apply (ch_cons _ (img 32 e e') _ _ _ (mobile_bn_good use_bn 32 e e')).
      apply (chained_app _ (img (last channels 32) u u')); [exact H|]. apply (ch_cons _ (rows (last channels 32)) _ _ _ (mean_rows _ u u')). constructor.
    + intros y y' Ry. assert (P : 0 <= last channels 32). { clear -F. induction F as [|a l A F IH]; [cbn; lia|]. destruct l; [cbn; lia | exact IH]. }
      apply (alike_makes _ _ _ _ _ (flatten_rows (last channels 32) None P)). intros f G. apply (alike_bind (ends (last channels 32))); [exact (G y y' Ry)|].
      intros z z' Rz. apply (alike_makes _ _ _ _ _ (linear_good classes true (Some "logits"))). intros l LG. exact (LG _ z z' Rz).
Qed.

(** ** Other modules *)
Lemma bias_good dims name : makes (fun f => forall s, good (fun x x' => fst x = fst x' /\ exists b b', snd x = b :: s /\ snd x' = b' :: s) (fun _ _ => True) f f) (bias dims None name).
Proof.
  unfold bias. apply (makes_simple (fun s x x' => fst x = fst x' /\ exists b b', snd x = b :: s /\ snd x' = b' :: s) (fun _ _ _ => True)).
  intros s [t s0] [t' s0'] [T (b & b' & E & E')]. cbn [fst snd] in T, E, E'. subst t' s0 s0'. apply alike_check; [auto|]. intros _. apply alike_check; [auto|]. intros _.
  cbn [calculate_bias_shape tl lift]. cbn [bind]. apply alike_param. apply alike_check; [|intros _; apply alike_ret; exact I].
  intros _. unfold broadcast_to. cbn [rev]. induction (rev s) as [|n l IH]; [reflexivity|]. cbn. rewrite Z.eqb_refl, orb_true_r. exact IH.
Qed.
Lemma layer_norm_good cls axis scale offset name :
  makes (fun f => forall d, good (fun x x' => ends d x x' /\ np_axes (Z.of_nat (length (snd x'))) (axis (Z.of_nat (length (snd x')))) <> None) (ends d) f f) (layer_norm cls axis scale offset name).
Proof.
  unfold layer_norm. apply (makes_simple (fun d x x' => ends d x x' /\ np_axes (Z.of_nat (length (snd x'))) (axis (Z.of_nat (length (snd x')))) <> None) ends).
  intros d [t s0] [t' s0'] [[T (s & s' & E & E')] AX]. cbn [fst snd] in T, E, E', AX. subst t' s0 s0'. apply alike_lift. intros o _.
  destruct (np_axes _ _) as [o'|] eqn:EA in AX; [|contradiction]. exists o'. split; [exact EA|]. rewrite !rev_snoc. apply alike_when, alike_when. apply alike_ret.
  split; [reflexivity|]. cbn. eauto.
Qed.
Lemma group_norm_good groups axis scale offset name :
  makes (fun f => forall c, good (fun x x' => (ends c x x' /\ gn_ok true (axis (Z.of_nat (length (snd x)))) groups (snd x) /\ gn_ok true (axis (Z.of_nat (length (snd x')))) groups (snd x'))) (ends c) f f)
    (group_norm groups axis scale offset true name).
Proof.
  unfold group_norm. apply (makes_simple (fun c x x' => (ends c x x' /\ gn_ok true (axis (Z.of_nat (length (snd x)))) groups (snd x) /\ gn_ok true (axis (Z.of_nat (length (snd x')))) groups (snd x'))) ends).
  intros c [t s0] [t' s0'] ([T (s & s' & E & E')] & K & K'). cbn [fst snd] in T, E, E', K, K'. subst t' s0 s0'.
  destruct (C46_shapes _ _ _ _ K) as (o & -> & _). destruct (C46_shapes _ _ _ _ K') as (o' & -> & _). cbn [lift]. cbn [bind fst]. unfold channel_of. rewrite !last_last.
  apply alike_when, alike_when. apply alike_ret. split; [reflexivity|]. cbn. eauto.
Qed.
Definition seqs (d : Z) : rel := fun x x' => exists t b u b' u', 0 < b' * u' /\ x = (t, [b; u; d]) /\ x' = (t, [b'; u'; d]).
Lemma projection_good heads size name d x x' : seqs d x x' -> alike (fun s s' => s = firstn 2 (snd x) ++ [heads; size] /\ s' = firstn 2 (snd x') ++ [heads; size])%list
  (projection heads size name x) (projection heads size name x').
Proof.
  intros (t & b & u & b' & u' & P & -> & ->). unfold projection. apply (alike_makes (fun f => good (fun y z => y = (t, [b; u; d]) /\ z = (t, [b'; u'; d])) (fun y z => y = (t, [b; u; heads * size]) /\ z = (t, [b'; u'; heads * size])) f f)).
  - apply makes_plain. intros y z [-> ->]. cbn [rev app removelast]. apply alike_param, alike_when. apply alike_ret. auto.
  - intros f G. eapply alike_bind; [exact (G _ _ (conj eq_refl eq_refl))|]. intros y z [-> ->]. cbn [snd firstn app]. apply alike_check; [|intros _; apply alike_ret; auto].
    intros _. apply Z.eqb_eq. cbn. lia.
Qed.
Lemma attention_good heads size model name d : makes (fun f => good (fun a b => exists x x', seqs d x x' /\ a = (x, x, x) /\ b = (x', x', x')) (ends model) f f) (attention heads size size size model name).
Proof.
  apply makes_plain. intros a a' (x & x' & Rx & -> & ->).
  apply (alike_bind _ _ _ _ _ _ (projection_good heads size "query" d x x' Rx)). intros q q' [-> ->].
  apply (alike_bind _ _ _ _ _ _ (projection_good heads size "key" d x x' Rx)). intros k k' [-> ->].
  apply (alike_bind _ _ _ _ _ _ (projection_good heads size "value" d x x' Rx)). intros v v' [-> ->].
  destruct Rx as (t & b & u & b' & u' & P & -> & ->). cbn [snd firstn app fst]. rewrite !Z.eqb_refl. apply alike_check; [intros _; cbn; apply Z.ltb_lt, P|]. intros _.
  apply (alike_makes _ _ _ _ _ (linear_good model true None)). intros l G. apply (G (heads * size)). split; [reflexivity|]. exists [b; u], [b'; u']. split; reflexivity.
Qed.
Lemma multi_good (R S : rel) f : good (fun a b => exists x x', R x x' /\ a = (x, x, x) /\ b = (x', x', x')) S f f -> makes (fun f => good R S f f) (multi_input f).
Proof. intros G. apply makes_plain. intros x x' Rx. apply G. eauto. Qed.
Lemma training_good {M} (R S : rel) (f : M -> layer) mode : good R S (f mode) (f mode) -> makes (fun f => good R S f f) (training f mode).
Proof. intros G. apply makes_plain. exact G. Qed.
Lemma spectral_good n name : makes (fun f => forall d, good (fun x x' => ends d x x' /\ (2 <= length (snd x'))%nat) (ends d) f f) (spectral_norm n name).
Proof.
  unfold spectral_norm. apply (makes_simple (fun d x x' => ends d x x' /\ (2 <= length (snd x'))%nat) ends). intros d [t s0] [t' s0'] [[T (s & s' & E & E')] L]. cbn [fst snd] in T, E, E', L. subst t' s0 s0'.
  rewrite !rev_snoc. destruct (rev s) as [|a r]; [constructor|]. destruct (rev s') as [|a' r'] eqn:ES.
  { exfalso. rewrite <- (rev_involutive s'), ES in L. cbn in L. lia. }
  constructor. intros [u v]. cbn [snd]. destruct v as [|z [|w [|]]]; try constructor. destruct n; [constructor|]. apply alike_check; [auto|]. intros _. constructor. constructor. apply alike_ret.
  split; [reflexivity|]. cbn. eauto.
Qed.
Definition vectors (d : Z) : rel := fun _ x' => exists s', snd x' = (s' ++ [d])%list /\ 0 < d /\ 0 < ModelShape.prod (snd x').
Lemma flat_rows_ok d x x' : vectors d x x' -> flat_rows d (snd x') = Some tt.
Proof. intros (s' & E & D & P). unfold flat_rows. rewrite E in *. rewrite rev_snoc, Z.eqb_refl, (proj2 (Z.ltb_lt 0 d) D), (proj2 (Z.ltb_lt 0 _) P). reflexivity. Qed.
Lemma vq_good dim num name : makes (fun f => good (vectors dim) (fun _ _ => True) f f) (vector_quantizer dim num name).
Proof.
  apply makes_plain. intros x x' Rx. apply alike_lift. intros [] _. exists tt. split; [exact (flat_rows_ok dim x x' Rx) | apply alike_ret; exact I].
Qed.
Lemma vq_ema_good dim num name : makes (fun f => forall tr, good (vectors dim) (fun _ _ => True) (f tr) (f tr)) (vector_quantizer_ema dim num name).
Proof.
  unfold vector_quantizer_ema. apply (makes_bind (fun _ => True)); [apply makes_any|]. intros [q [c dw]] _. apply makes_ret. intros tr x x' Rx. apply alike_within.
  apply alike_lift. intros [] _. exists tt. split; [exact (flat_rows_ok dim x x' Rx)|]. apply alike_same. intros e. apply alike_same. intros []. apply alike_same. intros []. apply alike_ret. exact I.
Qed.

(** ** Recurrent cores: batches of any size *)
Definition states (c : core) (t : dtype) (b : Z) : list array := map (fun s => (t, snd s)) (initial_state c (Some b)).
Definition core_ok (s : list Z) (c : core) : Prop := forall t b b',
  alike (fun r r' => snd r' = states c t b') (step c (t, b :: s) (states c t b)) (step c (t, b' :: s) (states c t b')).
Definition batch (s : list Z) : rel := fun x x' => exists t b b', x = (t, b :: s) /\ x' = (t, b' :: s).
Lemma array_eqb_refl a : array_eqb a a = true.
Proof. unfold array_eqb, shape_eqb. rewrite String.eqb_refl. destruct (list_eq_dec _ _ _); [reflexivity | contradiction]. Qed.
Lemma arrays_eqb_refl l : arrays_eqb l l = true.
Proof. induction l as [|a l IH]; [reflexivity|]. cbn. rewrite array_eqb_refl. exact IH. Qed.
Lemma dynamic_good s c : core_ok s c -> makes (fun f => good (batch s) (fun _ _ => True) f f) (recurrent c dynamic_unroll).
Proof.
  intros H. apply makes_plain. intros x x' (t & b & b' & -> & ->). cbn [fst snd]. apply (alike_bind (fun _ _ => True)); [|intros; apply alike_ret; exact I].
  apply (alike_bind _ _ _ _ _ _ (H t b b')). intros [y u] [y' u'] E. cbn [snd] in E. subst u'. apply alike_check; [|intros _; apply alike_ret; exact I].
  intros _. apply arrays_eqb_refl.
Qed.
Lemma static_good s c : core_ok s c -> makes (fun f => good (batch s) (fun _ _ => True) f f) (recurrent c static_unroll).
Proof.
  intros H. apply makes_plain. intros x x' (t & b & b' & -> & ->). cbn [fst snd]. apply (alike_bind (fun _ _ => True)); [|intros; apply alike_ret; exact I].
  apply (alike_bind (fun r r' => exists y y', fst r = [y] /\ fst r' = [y'])).
  - apply (alike_bind _ _ _ _ _ _ (H t b b')). intros [y u] [y' u'] _. apply alike_ret. exists y, y'. split; reflexivity.
  - intros [l u] [l' u'] (y & y' & E & E'). cbn [fst] in E, E'. subst l l'. apply alike_ret. exact I.
Qed.
Lemma broadcast_eq t t' s : broadcast (t, s) (t', s) = Ret (t, s).
Proof. unfold broadcast. cbn [snd fst]. rewrite broadcast2_refl. reflexivity. Qed.
Lemma linear_rows out bias name : makes (fun f => forall i : Z * list Z * list Z * dtype, let '(d, s, s', t) := i in
  good (fun x x' => x = (t, s ++ [d])%list /\ x' = (t, s' ++ [d])%list) (fun x x' => x = (t, s ++ [out])%list /\ x' = (t, s' ++ [out])%list) f f) (linear out bias name).
Proof.
  eapply makes_mono; [|apply (makes_simple
    (fun (i : Z * list Z * list Z * dtype) x x' => let '(d, s, s', t) := i in x = (t, s ++ [d])%list /\ x' = (t, s' ++ [d])%list)
    (fun (i : Z * list Z * list Z * dtype) x x' => let '(d, s, s', t) := i in x = (t, s ++ [out])%list /\ x' = (t, s' ++ [out])%list))].
  - intros f H [[[d s] s'] t]. exact (H (d, s, s', t)).
  - intros [[[d s] s'] t] x x' [-> ->]. rewrite !rev_snoc, !removelast_last. apply alike_param, alike_when. apply alike_ret. auto.
Qed.
Lemma vanilla_good n hidden db name : makes (core_ok [n]) (vanilla_rnn hidden db name).
Proof.
  unfold vanilla_rnn. apply (makes_bind (fun _ => True)); [apply makes_any|]. intros [q []] _. apply makes_ret. intros t b b'. cbn [step initial_state states map snd add_batch]. apply alike_within.
  apply (alike_makes _ _ _ _ _ (linear_rows hidden true None)). intros i I. apply (alike_makes _ _ _ _ _ (linear_rows hidden db None)). intros r R.
  apply (alike_bind _ _ _ _ _ _ (I (n, [b], [b'], t) _ _ (conj eq_refl eq_refl))). intros u u' [-> ->].
  apply (alike_bind _ _ _ _ _ _ (R (hidden, [b], [b'], t) _ _ (conj eq_refl eq_refl))). intros v v' [-> ->].
  cbn [app]. rewrite !broadcast_eq. apply alike_ret. reflexivity.
Qed.
Lemma lstm_good n hidden name : makes (core_ok [n]) (lstm hidden name).
Proof.
  unfold lstm. apply (makes_bind (fun _ => True)); [apply makes_any|]. intros [q []] _. apply makes_ret. intros t b b'. cbn [step initial_state states map snd add_batch]. apply alike_within.
  apply alike_check; [auto|]. intros _. unfold concat_last. cbn [snd fst rev app]. unfold shape_eqb.
  destruct (list_eq_dec Z.eq_dec [b] [b]); [|contradiction]. destruct (list_eq_dec Z.eq_dec [b'] [b']); [|contradiction]. cbn [check bind].
  apply (alike_makes _ _ _ _ _ (linear_rows (4 * hidden) true None)). intros l L.
  apply (alike_bind _ _ _ _ _ _ (L (n + hidden, [b], [b'], t) _ _ (conj eq_refl eq_refl))). intros u u' [-> ->]. cbn [snd fst app removelast].
  rewrite !broadcast_eq. cbn [bind]. rewrite !broadcast_eq. apply alike_ret. reflexivity.
Qed.
Lemma gru_good n hidden name : makes (core_ok [n]) (gru hidden name).
Proof.
  unfold gru. apply (makes_bind (fun _ => True)); [apply makes_any|]. intros [q []] _. apply makes_ret. intros t b b'. cbn [step initial_state states map snd add_batch rev app]. apply alike_within.
  apply alike_check; [auto|]. intros _. cbn [fst]. do 3 apply alike_param. rewrite Z.eqb_refl. cbn [check]. apply alike_done. rewrite !broadcast_eq. cbn [bind]. rewrite !broadcast_eq.
  apply alike_ret. reflexivity.
Qed.
Lemma identity_good s name : makes (core_ok s) (identity_core name).
Proof.
  unfold identity_core. apply (makes_bind (fun _ => True)); [apply makes_any|]. intros [q []] _. apply makes_ret. intros t b b'. apply alike_within. apply alike_ret. reflexivity.
Qed.
Lemma reset_good : makes (core_ok [128]) (d <- dummy_core ;; r <- reset_core d None ;; reset_adapter r).
Proof.
  unfold dummy_core. apply (makes_bind (fun c => initial_state c = (fun b => [add_batch [128; 1] b]) /\
    forall x x' s s', alike (fun r r' => snd r' = s') (step c x s) (step c x' s'))).
  { apply (makes_bind (fun _ => True)); [apply makes_any|]. intros [q []] _. apply makes_ret. split; [reflexivity|]. intros x x' s s'. apply alike_within. apply alike_ret. reflexivity. }
  intros d [DI DS].
  apply (makes_bind (fun r => initial_state (r []) = initial_state d /\ forall t b b',
     alike (fun r r' => snd r' = [(t, [b'; 128; 1])]) (step (r [b]) (t, [b; 128]) [(t, [b; 128; 1])]) (step (r [b']) (t, [b'; 128]) [(t, [b'; 128; 1])]))).
  - unfold reset_core. apply (makes_bind (fun _ => True)); [apply makes_any|]. intros [q []] _. apply makes_ret. split; [reflexivity|]. intros t b b'. cbn [step]. apply alike_within.
    rewrite DI. cbn [length firstn forallb snd combine tl add_batch fst negb Nat.eqb andb]. unfold shape_eqb.
    destruct (list_eq_dec Z.eq_dec [b] [b]); [|contradiction]. destruct (list_eq_dec Z.eq_dec [b'] [b']); [|contradiction].
    destruct (list_eq_dec Z.eq_dec [128; 1] [128; 1]); [|contradiction]. cbn [check bind andb].
    assert (E : forall b, broadcast (t, ([b] ++ repeat 1 (3 - 1))%list) (Float32, [b; 128; 1]) = Ret (t, [b; 128; 1])).
    { intros z. unfold broadcast. cbn [snd fst app repeat Nat.sub]. unfold broadcast2. cbn [rev app broadcast2_rev]. rewrite (Z.eqb_refl z). reflexivity. }
    cbn [each add_batch]. cbn [fst snd length]. rewrite !E. cbn [bind]. rewrite !broadcast_eq. cbn [bind]. apply DS.
  - intros r [RI RS]. unfold reset_adapter. apply (makes_bind (fun _ => True)); [apply makes_any|]. intros [q []] _. apply makes_ret. intros t b b'.
    unfold states. cbn [step initial_state]. rewrite RI, DI. cbn [map add_batch snd]. apply alike_within. apply RS.
Qed.
Lemma conv_lstm_good cls n name : (n = 1 \/ n = 2 \/ n = 3)%nat -> makes (core_ok (repeat 2 n ++ [2])%list) (conv_lstm cls n (repeat 2 n) 3 (repeat 3 n) name).
Proof.
  intros N. unfold conv_lstm. apply (makes_bind (fun _ => True)); [apply makes_any|]. intros [q []] _. apply makes_ret. intros t b b'. cbn [step initial_state states map snd add_batch fst]. apply alike_within.
  set (c := ConvND _ _ _ _ _ _ _ _).
  assert (G : forall cn, makes (fun f => forall i : Z, In i [2; 3] -> alike (fun x x' => x = (t, b :: repeat 2 n ++ [12])%list /\ x' = (t, b' :: repeat 2 n ++ [12])%list)
      (f (t, b :: repeat 2 n ++ [i])%list) (f (t, b' :: repeat 2 n ++ [i])%list)) (conv "ConvND" c true cn)).
  { intros cn. unfold conv, module. apply (makes_bind (fun _ => True)); [apply makes_any|]. intros [q' []] _. apply makes_ret. intros i I. apply alike_within.
    destruct N as [->|[->| ->]]; (destruct I as [<-|[<-|[]]]; repeat constructor). }
  apply (alike_makes _ _ _ _ _ (G _)). intros i I. apply (alike_makes _ _ _ _ _ (G _)). intros r R.
  apply (alike_bind _ _ _ _ _ _ (I 2 (or_introl eq_refl))). intros u u' [-> ->]. apply (alike_bind _ _ _ _ _ _ (R 3 (or_intror (or_introl eq_refl)))). intros v v' [-> ->].
  rewrite !broadcast_eq. cbn [bind fst snd]. assert (E : forall z, (removelast (z :: repeat 2 n ++ [12]) ++ [3] = z :: repeat 2 n ++ [3])%list).
  { intros z. change (z :: repeat 2 n ++ [12])%list with ((z :: repeat 2 n) ++ [12])%list. rewrite removelast_last. reflexivity. }
  rewrite !E, !broadcast_eq. cbn [bind]. rewrite !broadcast_eq. apply alike_ret. reflexivity.
Qed.

(** C96, second part: arrays of different types *)
From Coq Require Import String List Bool Arith Lia.
From Verif Require Import ModelDtype Properties60.
Import ListNotations.
Local Open Scope string_scope.

(** *** No module gives less than it gets *)
Definition widens (f : ty -> M ty) : Prop := forall x w y w', f x w = Some (y, w') -> le x y.
Lemma bind_inv {A B} (m : M A) (f : A -> M B) w r : bind m f w = Some r -> exists a w1, m w = Some (a, w1) /\ f a w1 = Some r.
Proof. unfold bind. destruct (m w) as [[a w1]|]; [|discriminate]. now exists a, w1. Qed.
Lemma le_dtype x64 x : le x (dtype x64 x).
Proof. now destruct x64, x. Qed.
Lemma le_inexact x64 x : le x (inexact x64 x).
Proof. now destruct x64, x. Qed.
Lemma le_inexact_l x64 x y : le x y -> le x (inexact x64 y).
Proof. intros H. eapply le_trans; [exact H|apply le_inexact]. Qed.
Lemma le_div x64 x y z : le x y -> le x (div x64 y z).
Proof. intros H. apply le_inexact_l, le_l, H. Qed.
Lemma le_plus x y o : le x y -> le x (plus y o).
Proof. intros H. destruct o; [now apply le_l|exact H]. Qed.
Section Widens.
Context (x64 : bool) (stored : string -> string -> ty -> ty).
Lemma widens_linear p b : widens (linear x64 stored p b).
Proof. intros x w y w' E. unfold linear in E. apply bind_inv in E as (a & w1 & _ & E). cbv zeta in E. apply bind_inv in E as (o & w2 & _ & E). injection E as <- _. apply le_plus, le_l, le_refl. Qed.
Lemma widens_bias p m : widens (bias x64 stored p m).
Proof. intros x w y w' E. apply bind_inv in E as (a & w1 & _ & E). injection E as <- _. apply le_l, le_refl. Qed.
Lemma widens_conv p m b : widens (conv x64 stored p m b).
Proof.
  intros x w y w' E. apply bind_inv in E as (a & w1 & _ & E). apply bind_inv in E as (o & w2 & L & E). apply bind_inv in E as (ob & w3 & _ & E). injection E as <- _. apply le_plus.
  unfold lift, lax_same in L. destruct (ty_eqb _ _); [|discriminate]. injection L as <- _. apply le_dtype.
Qed.
Lemma widens_then f g : widens f -> widens g -> widens (fun x => y <- f x ;; g y).
Proof. intros F G x w y w' E. apply bind_inv in E as (a & w1 & E1 & E2). eapply le_trans; [eapply F, E1|eapply G, E2]. Qed.
Lemma widens_dropout z : widens (dropout x64 z).
Proof. intros x w y w' E. unfold dropout, ret in E. apply (f_equal (option_map fst)) in E. cbn [option_map fst] in E. injection E as <-. now destruct x64, z, x. Qed.
Lemma widens_ret : widens ret.
Proof. intros x w y w' [= -> _]. apply le_refl. Qed.
Lemma widens_chain fs : Forall widens fs -> widens (chain fs).
Proof. induction 1 as [|f fs F _ IH]; [apply widens_ret|]. now apply (widens_then f (chain fs)). Qed.
Lemma widens_ema p wm z u : widens (ema x64 p wm z u).
Proof.
  intros x w y w' E. apply bind_inv in E as (c & w1 & _ & E). cbv zeta in E. apply bind_inv in E as (dc & w2 & _ & E). apply bind_inv in E as (h & w3 & _ & E). apply bind_inv in E as (t & w4 & _ & E). injection E as <- _.
  destruct z; [apply le_div|]; apply le_r, le_l, le_refl.
Qed.
Lemma widens_batch_norm p cs co tr lo sc off : widens (batch_norm x64 stored p cs co tr lo sc off).
Proof.
  intros x w y w' E. unfold batch_norm in E. destruct (_ || _); [discriminate|]. apply bind_inv in E as ([m v] & w1 & _ & E). apply bind_inv in E as (t & w2 & _ & E). cbv zeta in E.
  apply bind_inv in E as (s & w3 & _ & E). apply bind_inv in E as (o & w4 & _ & E). injection E as <- _. do 3 apply le_l. apply le_refl.
Qed.
Lemma widens_layer_norm p cs co sc off : widens (layer_norm x64 stored p cs co sc off).
Proof.
  intros x w y w' E. unfold layer_norm in E. destruct (_ || _); [discriminate|]. cbv zeta in E. apply bind_inv in E as (s & w3 & _ & E). apply bind_inv in E as (o & w4 & _ & E). injection E as <- _. apply le_l, le_r, le_l, le_refl.
Qed.
Lemma widens_group_norm p cs co sc off : widens (group_norm x64 stored p cs co sc off).
Proof.
  intros x w y w' E. unfold group_norm in E. destruct (_ || _); [discriminate|]. cbv zeta in E. apply bind_inv in E as (s & w3 & _ & E). apply bind_inv in E as (o & w4 & _ & E). injection E as <- _. do 2 apply le_plus. do 2 apply le_l. apply le_refl.
Qed.
Lemma widens_spectral_norm p n u : widens (spectral_norm x64 p n u).
Proof.
  intros x w y w' E. apply bind_inv in E as (u0 & w1 & _ & E). destruct (power n x u0 None) as [u1 [v|]]; [|discriminate]. cbv zeta in E. apply bind_inv in E as (t & w2 & _ & E). injection E as <- _. apply le_div, le_refl.
Qed.
Lemma widens_attention p mask : widens (fun x => attention x64 stored p mask x x x).
Proof.
  intros x w y w' E. apply bind_inv in E as (q & w1 & _ & E). apply bind_inv in E as (k & w2 & _ & E). apply bind_inv in E as (v & w3 & V & E). cbv zeta in E. apply widens_linear in V, E.
  eapply le_trans; [|exact E]. apply le_r. exact V.
Qed.
Lemma widens_block v2 p tr lo pr bo : widens (block x64 stored v2 p tr lo pr bo).
Proof.
  intros x w y w' E. destruct v2; unfold block, block_v1, block_v2 in E.
  - apply bind_inv in E as (b0 & w1 & B0 & E). apply bind_inv in E as (s & w2 & _ & E). apply bind_inv in E as (c0 & w3 & C0 & E). apply bind_inv in E as (o & w4 & O & E). injection E as <- _.
    apply widens_batch_norm in B0. apply widens_conv in C0. apply widens_chain in O; [|apply Forall_map, Forall_forall; intros i _; apply widens_then; [apply widens_batch_norm|apply widens_conv]].
    apply le_l. eapply le_trans; [exact B0|]. eapply le_trans; [exact C0|exact O].
  - apply bind_inv in E as (s & w1 & _ & E). apply bind_inv in E as (o & w2 & O & E). injection E as <- _. apply widens_chain in O; [now apply le_l|]. apply Forall_map, Forall_forall. intros i _. apply widens_then; [apply widens_conv|apply widens_batch_norm].
Qed.
End Widens.
(** Whatever the types of stored parameters, state and supplied arrays: what a module returns is at least as wide as its input. *)
Theorem C96_never_narrower x64 stored total f x w y w' : built x64 stored (fun _ => True) True total f -> f x w = Some (y, w') -> join x y = y.
Proof.
  intros B. revert x w y w'. change (widens f). induction B; try assumption.
  - apply widens_linear.
  - apply widens_bias.
  - apply widens_conv.
  - apply widens_then; apply widens_conv.
  - apply widens_ema.
  - apply widens_batch_norm.
  - apply widens_layer_norm.
  - apply widens_group_norm.
  - apply widens_spectral_norm.
  - apply widens_attention.
  - apply widens_ret.
  - intros x w y w' E. injection E as <- _. destruct v; apply le_div, le_refl.
  - apply widens_dropout.
  - apply widens_chain. apply Forall_map, Forall_forall. intros [i l] _. apply widens_then; [apply widens_linear|]. destruct dr as [z|]; [|apply widens_ret]. destruct (_ || _); [apply widens_dropout|apply widens_ret].
  - intros x w y w' E. unfold resnet in E. apply bind_inv in E as (a & w1 & E1 & E). apply bind_inv in E as (a2 & w2 & E2 & E). apply bind_inv in E as (a3 & w3 & E3 & E). apply bind_inv in E as (a4 & w4 & E4 & E). apply bind_inv in E as (a5 & w5 & E5 & E).
    apply widens_conv in E1. apply widens_linear in E. apply widens_chain in E4; [|apply Forall_map, Forall_forall; intros; apply widens_block]. injection E3 as <- _.
    assert (H2 : le a a2) by (destruct v2; [injection E2 as <- _; apply le_refl|now apply widens_batch_norm in E2]).
    assert (H5 : le a4 a5) by (destruct v2; [now apply widens_batch_norm in E5|injection E5 as <- _; apply le_refl]).
    eapply le_trans; [exact E1|]. eapply le_trans; [exact H2|]. eapply le_trans; [exact E4|]. eapply le_trans; [exact H5|]. eapply le_trans; [apply le_inexact|exact E].
  - assert (N : forall p w x y w', (if b then bn x64 stored p tr false x else ret x) w = Some (y, w') -> le x y).
    { intros q w0 x0 y0 w1 E. destruct b; [now apply widens_batch_norm in E|injection E as <- _; apply le_refl]. }
    intros x w y w' E. unfold mobilenet in E. apply bind_inv in E as (a & w1 & E1 & E). apply bind_inv in E as (a2 & w2 & E2 & E). apply bind_inv in E as (a3 & w3 & E3 & E).
    apply widens_conv in E1. apply N in E2. apply widens_linear in E. apply widens_chain in E3.
    + eapply le_trans; [exact E1|]. eapply le_trans; [exact E2|]. eapply le_trans; [exact E3|]. eapply le_trans; [apply le_inexact|exact E].
    + apply Forall_map, Forall_forall. intros nm _ x0 w0 y0 w0' F. unfold mobile_block in F. apply bind_inv in F as (b1 & v1 & F1 & F). apply bind_inv in F as (b2 & v2 & F2 & F). apply bind_inv in F as (b3 & v3 & F3 & F).
      apply widens_conv in F1, F3. apply N in F2, F. eapply le_trans; [exact F1|]. eapply le_trans; [exact F2|]. eapply le_trans; [exact F3|exact F].
  - apply widens_ret.
  - now apply widens_then.
  - intros x w y w' E. apply bind_inv in E as (a & w1 & E1 & E). apply bind_inv in E as (a2 & w2 & E2 & E). injection E as <- _. apply le_l. eapply IHB1, E1.
Qed.
Print Assumptions C96_never_narrower.
Example C96_never_narrower_case : exists w', layer_norm false (fun _ _ _ => TF32) "ln" true true None None TF16 (World [] []) = Some (TF32, w') /\ join TF16 TF32 = TF32.
Proof. vm_compute. eexists. split; reflexivity. Qed.

(** *** Parameters in another type than the input *)
(** [hk.get_parameter] does not check types.  [hk.Linear] joins them; a convolution raises unless the (masked) weights have the type of the input. *)
Theorem C96_linear x64 stored p b x w : exists w', linear x64 stored p b x w = Some (let out := join x (stored p "w" (dtype x64 x)) in if b then join out (stored p "b" (dtype x64 x)) else out, w') /\ cells w' = cells w.
Proof. unfold linear, opt, bind, param, ret. destruct b; eexists; split; cbv; reflexivity. Qed.
Print Assumptions C96_linear.
Theorem C96_conv x64 stored p mask b x w :
  let weights := match mask with Some m => join (stored p "w" (dtype x64 x)) m | None => stored p "w" (dtype x64 x) end in
  (exists y w', conv x64 stored p mask b x w = Some (y, w')) <-> dtype x64 x = dtype x64 weights.
Proof.
  intros weights. unfold conv, opt, bind, param, ret, lift, lax_same. replace (plus (stored p "w" (dtype x64 x)) mask) with weights by (unfold weights, plus; now destruct mask).
  destruct (ty_eqb (dtype x64 x) (dtype x64 weights)) eqn:E.
  - assert (dtype x64 x = dtype x64 weights) by (now destruct (dtype x64 x), (dtype x64 weights)). split; [auto|]. intros _. destruct b; eauto.
  - split; [now intros (y & w' & H)|]. intros H. rewrite H in E. now destruct (dtype x64 weights).
Qed.
Print Assumptions C96_conv.
(** The getter of [custom_getter]'s documentation (base.py:437-456), which casts parameters to bfloat16, on float32 inputs: fine for [Linear], an error for a convolution. *)
Definition bf16_getter (p n : string) (d : ty) : ty := TBF16.
Theorem C96_getter_refuted w : (exists w', linear false bf16_getter "linear" true TF32 w = Some (TF32, w')) /\ conv false bf16_getter "conv2_d" None true TF32 w = None /\
  (exists w', conv false bf16_getter "conv2_d" None true TBF16 w = Some (TBF16, w')).
Proof. split; [|split]; [eexists; cbv; reflexivity|reflexivity|eexists; cbv; reflexivity]. Qed.
Print Assumptions C96_getter_refuted.
(** Masks: a float32 mask (or NumPy's default float64 under x64) on a half precision convolution raises; integer and boolean masks never change anything. *)
Theorem C96_mask x64 p b d m w : width d -> (exists y w', conv x64 (fun _ _ t => t) p (Some m) b d w = Some (y, w')) <-> join m d = d.
Proof.
  intros Hd. rewrite C96_conv. cbv zeta. destruct Hd as [->|[->|[->| ->]]], m, x64; cbn; split; congruence.
Qed.
Print Assumptions C96_mask.
Example C96_mask_refuted w : conv false (fun _ _ t => t) "conv" (Some TF32) true TBF16 w = None /\ exists w', conv false (fun _ _ t => t) "conv" (Some TBool) true TBF16 w = Some (TBF16, w').
Proof. split; [reflexivity|eexists; cbv; reflexivity]. Qed.

(** *** The state's types *)
Lemma find_put k t l k' : find k' (put k t l) = if key_eqb k' k then Some t else find k' l.
Proof.
  assert (S : forall a b, key_eqb a b = true <-> a = b).
  { intros [a1 a2] [b1 b2]. unfold key_eqb. cbn. rewrite andb_true_iff, !String.eqb_eq. split; [now intros [-> ->]|now intros [= -> ->]]. }
  induction l as [|[k2 t2] l IH]; cbn; [reflexivity|]. destruct (key_eqb k k2) eqn:E; cbn.
  - apply S in E as ->. destruct (key_eqb k' k2); reflexivity.
  - rewrite IH. destruct (key_eqb k' k2) eqn:F; [|reflexivity]. apply S in F as ->. destruct (key_eqb k2 k) eqn:G; [|reflexivity]. apply S in G as ->. now rewrite (proj2 (S k k) eq_refl) in E.
Qed.
(** A moving average (without warm-up) stores the join of what it held and what it is given; from then on its types do not change for inputs of that type. *)
Theorem C96_average x64 p z x w : is_float x = true -> (forall t, find (p, "counter") (cells w) = Some t -> t = TI32) ->
  let h := match find (p, "hidden") (cells w) with Some t => t | None => dtype x64 x end in
  is_float h = true ->
  exists w', ema x64 p false z true x w = Some (join h (dtype x64 x), w') /\
  find (p, "hidden") (cells w') = Some (join h (dtype x64 x)) /\ find (p, "average") (cells w') = Some (join h (dtype x64 x)) /\ find (p, "counter") (cells w') = Some TI32 /\
  (forall k, k <> (p, "hidden") -> k <> (p, "average") -> k <> (p, "counter") -> find k (cells w') = find k (cells w)) /\
  exists w'', ema x64 p false z true x w' = Some (join h (dtype x64 x), w'') /\ forall k, find k (cells w'') = find k (cells w').
Proof.
  intros Hx Hc h Hh.
  assert (K : forall a b, key_eqb (p, a) (p, b) = String.eqb a b) by (intros; unfold key_eqb; cbn; now rewrite String.eqb_refl).
  assert (V : forall g, is_float g = true -> (join (join g (dtype x64 x)) (join x (join (dtype x64 x) (dtype x64 x)))) = join g (dtype x64 x) /\
     (if z then div x64 (join g (dtype x64 x)) (join (dtype x64 x) (join (dtype x64 x) (join TI32 TWi))) else join g (dtype x64 x)) = join g (dtype x64 x)).
  { intros g Hg. clear -Hx Hg. destruct x64, z, g, x; try discriminate; split; reflexivity. }
  assert (One : forall w0 g, (forall t, find (p, "counter") (cells w0) = Some t -> t = TI32) -> match find (p, "hidden") (cells w0) with Some t => t | None => dtype x64 x end = g -> is_float g = true ->
     exists w', ema x64 p false z true x w0 = Some (join g (dtype x64 x), w') /\ find (p, "hidden") (cells w') = Some (join g (dtype x64 x)) /\ find (p, "average") (cells w') = Some (join g (dtype x64 x)) /\ find (p, "counter") (cells w') = Some TI32 /\
       (forall k, k <> (p, "hidden") -> k <> (p, "average") -> k <> (p, "counter") -> find k (cells w') = find k (cells w0))).
  { intros w0 g Hc0 Eg Hg. destruct (V g Hg) as [V1 V2]. unfold ema, bind, get_state, set_state, ret.
    assert (C0 : match find (p, "counter") (cells w0) with Some t => Some (t, w0) | None => Some (TI32, World (put (p, "counter") TI32 (cells w0)) (asked w0)) end = Some (TI32, match find (p, "counter") (cells w0) with Some _ => w0 | None => World (put (p, "counter") TI32 (cells w0)) (asked w0) end)).
    { destruct (find (p, "counter") (cells w0)) as [t|] eqn:E; [now rewrite (Hc0 t eq_refl)|reflexivity]. }
    rewrite C0. set (w1 := match find (p, "counter") (cells w0) with Some _ => w0 | None => _ end).
    assert (W1 : forall k, k <> (p, "counter") -> find k (cells w1) = find k (cells w0)).
    { intros k Hk. unfold w1. destruct (find (p, "counter") (cells w0)); [reflexivity|]. cbn [cells]. rewrite find_put. destruct (key_eqb k (p, "counter")) eqn:E; [|reflexivity]. destruct Hk.
      unfold key_eqb in E. cbn in E. apply andb_prop in E as [E1 E2]. apply String.eqb_eq in E1, E2. destruct k; cbn in *; now subst. }
    assert (C1 : match find (p, "hidden") (cells w1) with Some t' => Some (t', w1) | None => Some (dtype x64 x, World (put (p, "hidden") (dtype x64 x) (cells w1)) (asked w1)) end = Some (g, match find (p, "hidden") (cells w1) with Some _ => w1 | None => World (put (p, "hidden") (dtype x64 x) (cells w1)) (asked w1) end)).
    { rewrite W1 by (intros [=]). destruct (find (p, "hidden") (cells w0)); now rewrite Eg. }
    cbv beta iota zeta. rewrite C1. set (w2 := match find (p, "hidden") (cells w1) with Some _ => w1 | None => _ end). rewrite V1, V2.
    eexists. split; [reflexivity|]. cbn [cells]. rewrite !find_put, !K. split; [reflexivity|]. split; [reflexivity|]. split; [reflexivity|].
    intros k H1 H2 H3. rewrite !find_put. assert (Nk : forall n, k <> (p, n) -> key_eqb k (p, n) = false).
    { intros n Hn. destruct (key_eqb k (p, n)) eqn:E; [|reflexivity]. destruct Hn. unfold key_eqb in E. cbn in E. apply andb_prop in E as [E1 E2]. apply String.eqb_eq in E1, E2. destruct k; cbn in *; now subst. }
    rewrite !Nk by assumption. unfold w2. destruct (find (p, "hidden") (cells w1)); [now apply W1|]. cbn [cells]. rewrite find_put, Nk by assumption. now apply W1. }
  destruct (One w h Hc eq_refl Hh) as (w' & E1 & F1 & F2 & F3 & F4). exists w'. do 5 (split; [assumption|]).
  assert (J : join (join h (dtype x64 x)) (dtype x64 x) = join h (dtype x64 x)) by (now rewrite <- joinA, joinI).
  assert (Hj : is_float (join h (dtype x64 x)) = true) by (clear -Hh Hx; destruct x64, h, x; try discriminate; reflexivity).
  destruct (One w' (join h (dtype x64 x))) as (w'' & E2 & G1 & G2 & G3 & G4); [intros t E; congruence|now rewrite F1|exact Hj|]. rewrite J in *.
  exists w''. split; [exact E2|]. intros k.
  destruct (key_eqb k (p, "hidden")) eqn:A1; [|destruct (key_eqb k (p, "average")) eqn:A2; [|destruct (key_eqb k (p, "counter")) eqn:A3]].
  1-3: assert (S : forall a b, key_eqb a b = true -> a = b) by (intros [a1 a2] [b1 b2] E; unfold key_eqb in E; cbn in E; apply andb_prop in E as [X1 X2]; apply String.eqb_eq in X1, X2; now subst).
  - apply S in A1 as ->. congruence.
  - apply S in A2 as ->. congruence.
  - apply S in A3 as ->. congruence.
  - apply G4; intros ->; rewrite K in *; discriminate.
Qed.
Print Assumptions C96_average.
Example C96_average_case : exists w', ema false "ema" false true true TF32 (World [(("ema", "hidden"), TBF16); (("ema", "counter"), TI32)] []) = Some (TF32, w') /\ find ("ema", "average") (cells w') = Some TF32.
Proof. eexists. split; cbv; reflexivity. Qed.
(** An average with a warm-up hands [0.0] and the decay to [lax.select] (moving_averages.py:117-118), so it only accepts the default float type. *)
Lemma get_some p n t w : exists t' w', get_state p n t w = Some (t', w').
Proof. unfold get_state. destruct (find _ _); eauto. Qed.
Theorem C96_warmup x64 p z u d w : width d -> (exists y w', ema x64 p true z u d w = Some (y, w')) <-> d = default x64.
Proof.
  intros Hd. assert (L : lax_same x64 TWf (dtype x64 d) = if ty_eqb d (default x64) then Some d else None) by (now destruct x64, Hd as [->|[->|[->| ->]]]).
  assert (R : ty_eqb d (default x64) = true <-> d = default x64) by (destruct x64, Hd as [->|[->|[->| ->]]]; cbn; split; congruence).
  unfold ema. destruct (get_some p "counter" TI32 w) as (t1 & w1 & E1). unfold bind at 1. rewrite E1. cbv zeta. unfold bind at 1, lift. rewrite L. destruct (ty_eqb d (default x64)).
  - split; [intros _; now apply R|]. intros _. destruct (get_some p "hidden" (dtype x64 d) w1) as (t2 & w2 & E2). unfold bind at 1. rewrite E2. destruct u; unfold bind, set_state, ret; eauto.
  - split; [intros (y & w' & [=])|]. intros H. now apply R in H.
Qed.
Print Assumptions C96_warmup.
Example C96_warmup_refuted : ema false "ema" true false true TBF16 (World [] []) = None /\ ema true "ema" true false true TF32 (World [] []) = None /\ ema false "ema" false true true TBF16 (World [] []) <> None.
Proof. repeat split. discriminate. Qed.

(** *** Recurrent cores on the state they make themselves *)
(** [initial_state] has the default type whatever the inputs, and so has everything after it. *)
Theorem C96_initial_state x64 d n c w : width d -> (x64 = false -> d <> TF64) ->
  In (n, c) [(1, vanilla x64 (fun _ _ t => t) "rnn" true); (2, lstm x64 (fun _ _ t => t) "lstm"); (2, conv_lstm x64 (fun _ _ t => t) "conv"); (1, gru x64 (fun _ _ t => t) "gru")] ->
  exists w', c d (initial_state x64 n) w = Some ((default x64, initial_state x64 n), w').
Proof.
  intros Hd Hx [[= <- <-]|[[= <- <-]|[[= <- <-]|[[= <- <-]|[]]]]]; destruct x64, Hd as [->|[->|[->| ->]]]; try (now destruct (Hx eq_refl)); eexists; cbv; reflexivity.
Qed.
Print Assumptions C96_initial_state.
(** Hence no core keeps half precision on its own initial state; an LSTM even makes its parameters in float32. *)
Theorem C96_half_state_refuted : exists w', dynamic_unroll false true 3 (lstm false (fun _ _ t => t) "lstm") TBF16 (initial_state false 2) (World [] []) = Some ((TF32, [TF32; TF32]), w') /\
  In (("lstm/linear", "w"), TF32) (asked w') /\ ~ In (("lstm/linear", "w"), TBF16) (asked w').
Proof. vm_compute. eexists. split; [reflexivity|]. cbn. split; [tauto|]. intros [[=]|[[=]|[[=]|[[=]|[]]]]]. Qed.
Print Assumptions C96_half_state_refuted.
(** A state narrower than the inputs: [static_unroll] widens it, [dynamic_unroll] does so at initialisation and raises at application. *)
Theorem C96_unrolls_refuted p n w : let c := lstm false (fun _ _ t => t) p in
  (exists w', static_unroll (S (S n)) c TF32 [TBF16; TBF16] w = Some ((TF32, [TF32; TF32]), w')) /\
  (exists w', dynamic_unroll false true (S (S n)) c TF32 [TBF16; TBF16] w = Some ((TF32, [TF32; TF32]), w')) /\
  dynamic_unroll false false (S (S n)) c TF32 [TBF16; TBF16] w = None.
Proof.
  intros c. assert (St : forall s w, s = [TBF16; TBF16] \/ s = [TF32; TF32] -> exists w', c TF32 s w = Some ((TF32, [TF32; TF32]), w') /\ cells w' = cells w) by (intros s w0 [->| ->]; eexists; split; cbv; reflexivity).
  split; [|split].
  - unfold static_unroll. assert (L : forall k outs s w, s = [TBF16; TBF16] \/ s = [TF32; TF32] -> exists w', unroll_loop k c TF32 s outs w = Some ((outs ++ repeat TF32 k)%list, match k with 0 => s | _ => [TF32; TF32] end, w')).
    { induction k as [|k IH]; intros outs s w0 Hs; [exists w0; cbn; now rewrite app_nil_r|]. cbn [unroll_loop]. unfold bind at 1. destruct (St s w0 Hs) as (w1 & E & _). rewrite E. cbn [fst snd].
      destruct (IH (outs ++ [TF32])%list [TF32; TF32] w1 (or_intror eq_refl)) as (w2 & E2). rewrite E2. exists w2. rewrite <- app_assoc. cbn [app repeat]. now destruct k. }
    destruct (L (S (S n)) [] [TBF16; TBF16] w (or_introl eq_refl)) as (w1 & E). unfold bind. rewrite E. cbn [fst snd app]. rewrite (joins_d TF32 (S n)). eexists. cbv; reflexivity.
  - unfold dynamic_unroll, bind. destruct (St [TBF16; TBF16] w (or_introl eq_refl)) as (w1 & E & C1). rewrite E. cbn [fst snd]. unfold scan. destruct (St [TF32; TF32] w1 (or_intror eq_refl)) as (w2 & E2 & C2). rewrite E2, C2, same_cells_refl. eexists. cbv; reflexivity.
  - unfold dynamic_unroll, scan. destruct (St [TBF16; TBF16] w (or_introl eq_refl)) as (w1 & E & C1). now rewrite E.
Qed.
Print Assumptions C96_unrolls_refuted.

(** *** Embeddings, attention masks and vector quantizers *)
(** The two lookup styles agree on the type just when the embeddings are at least as wide as the default type. *)
Theorem C96_embed x64 stored p i w : i = TI32 \/ i = TI64 -> exists w', embed x64 stored p ArrayIndex i w = Some (stored p "embeddings" TF32, w') /\
  embed x64 stored p OneHot i w = Some (join (stored p "embeddings" TF32) (default x64), w') /\ asked w' = (asked w ++ [((p, "embeddings"), TF32)])%list.
Proof. intros [->| ->]; eexists; split; [reflexivity|split; reflexivity| reflexivity|split; reflexivity]. Qed.
Print Assumptions C96_embed.
Theorem C96_embed_refuted w : (exists w', embed false (fun _ _ _ => TBF16) "embed" ArrayIndex TI32 w = Some (TBF16, w') /\ embed false (fun _ _ _ => TBF16) "embed" OneHot TI32 w = Some (TF32, w')) /\
  (exists w', embed true (fun _ _ t => t) "embed" ArrayIndex TI32 w = Some (TF32, w') /\ embed true (fun _ _ t => t) "embed" OneHot TI32 w = Some (TF64, w')).
Proof. split; eexists; split; cbv; reflexivity. Qed.
Print Assumptions C96_embed_refuted.
(** A mask of ones and zeros in float32 makes half precision attention float32, with the output layer's parameters; a boolean one does not. *)
Theorem C96_attention_mask_refuted : (exists w', attention false (fun _ _ t => t) "mha" (Some TF32) TF16 TF16 TF16 (World [] []) = Some (TF32, w') /\ In (("mha/linear", "w"), TF32) (asked w')) /\
  (exists w', attention false (fun _ _ t => t) "mha" (Some TBool) TF16 TF16 TF16 (World [] []) = Some (TF16, w')).
Proof. vm_compute. split; eexists; [split; [reflexivity|cbn; tauto]|reflexivity]. Qed.
Print Assumptions C96_attention_mask_refuted.
(** [VectorQuantizer]: everything is the join of the type given to the constructor (float32 by default) and the inputs'. *)
Theorem C96_vq x64 p d x w : width d -> width x -> exists w', vq x64 (fun _ _ t => t) p d x w = Some (VqOut (join x d) (join x d) (join x d) (join x d) (join x d), w') /\ asked w' = (asked w ++ [((p, "embeddings"), d)])%list.
Proof. intros [->|[->|[->| ->]]] [->|[->|[->| ->]]]; eexists; split; cbv; reflexivity. Qed.
Print Assumptions C96_vq.
Example C96_vq_refuted w : exists w' o, vq false (fun _ _ t => t) "vq" TF32 TBF16 w = Some (o, w') /\ quantize o = TF32.
Proof. eexists. eexists. split; cbv; reflexivity. Qed.
(** [VectorQuantizerEMA]: training leaves the embeddings in the join of both types. *)
Lemma eqb_app p a b : String.eqb (p ++ a) (p ++ b) = String.eqb a b.
Proof. induction p as [|c p IH]; [reflexivity|]. cbn. now rewrite Ascii.eqb_refl. Qed.
Lemma inside_key p a (n : string) b m : a <> b \/ n <> m -> (inside p a, n) <> (inside p b, m).
Proof.
  intros H E. apply pair_equal_spec in E as [E ->]. destruct H as [H|H]; [|easy]. apply H. unfold inside in E. apply String.eqb_eq in E. rewrite eqb_app in E. cbn in E. now apply String.eqb_eq in E.
Qed.
Lemma inside_key' p a (n m : string) : (inside p a, n) <> (p, m).
Proof. intros E. apply pair_equal_spec in E as [E _]. apply (f_equal String.length) in E. unfold inside in E. revert E. induction p as [|c p IH]; cbn; [easy|]. intros [= E]. now apply IH. Qed.
Lemma key_neqb a b : a <> b -> key_eqb a b = false.
Proof. intros N. destruct (key_eqb a b) eqn:E; [|reflexivity]. destruct N. destruct a as [a1 a2], b as [b1 b2]. unfold key_eqb in E. cbn in E. apply andb_prop in E as [X1 X2]. apply String.eqb_eq in X1, X2. now subst. Qed.
Lemma key_refl a : key_eqb a a = true.
Proof. destruct a. unfold key_eqb. cbn. now rewrite !String.eqb_refl. Qed.
Theorem C96_vq_ema x64 p d x w : width d -> width x -> cells w = [] ->
  exists w', vq_ema x64 p d true x w = Some (VqOut (join x d) (join x d) (join x d) (join x d) (join x d), w') /\
  find (p, "embeddings") (cells w') = Some (join x d) /\
  forall q, In q ["~/ema_cluster_size"; "~/ema_dw"] -> find (inside p q, "hidden") (cells w') = Some (join x d) /\ find (inside p q, "average") (cells w') = Some (join x d) /\ find (inside p q, "counter") (cells w') = Some TI32.
Proof.
  intros Hd Hx Ew. assert (Fd : dtype x64 d = d) by (now destruct Hd as [->|[->|[->| ->]]]). assert (Fx : dtype x64 x = x) by (now destruct Hx as [->|[->|[->| ->]]]).
  assert (Ij : is_float d = true) by (now destruct Hd as [->|[->|[->| ->]]]).
  assert (Ix : is_float x = true) by (now destruct Hx as [->|[->|[->| ->]]]).
  set (j := join x d). assert (Fj : dtype x64 j = j /\ is_float j = true /\ inexact x64 j = j /\ vq_distances x d = j /\ join d x = j /\ join d j = j /\ join x j = j /\ join TWf j = j /\ join j (join j TWf) = j /\ width j /\
     div x64 j (join (div x64 (join j TWf) (join j (join TWi TWf))) j) = j).
  { unfold j. destruct Hd as [->|[->|[->| ->]]], Hx as [->|[->|[->| ->]]]; cbn; unfold width; repeat split; auto 6. }
  destruct Fj as (J1 & J2 & J3 & J4 & J5 & J6 & J7 & J8 & J9 & J10 & J11).
  unfold vq_ema, ema_initialize.
  set (a := inside p "~/ema_cluster_size"). set (b := inside p "~/ema_dw").
  assert (Kab : forall n m, (a, n) <> (b, m)) by (intros; apply inside_key; now left).
  assert (Ka : forall n m, (a, n) <> (p, m)) by (intros; apply inside_key').
  assert (Kb : forall n m, (b, n) <> (p, m)) by (intros; apply inside_key').
  assert (GN : forall q n t w0, find (q, n) (cells w0) = None -> get_state q n t w0 = Some (t, World (put (q, n) t (cells w0)) (asked w0))) by (intros * E; unfold get_state; now rewrite E).
  assert (NN : forall q n m : string, n <> m -> (q, n) <> (q, m)) by (intros * H E; congruence).
  assert (Fr : forall k k' t l, k <> k' -> find k (put k' t l) = find k l) by (intros k k' t l N; now rewrite find_put, key_neqb).
  assert (Fs : forall k t l, find k (put k t l) = Some t) by (intros; now rewrite find_put, key_refl).
  pose (w1 := World (put (p, "embeddings") d (cells w)) (asked w)).
  pose (w2 := World (put (a, "hidden") d (cells w1)) (asked w1)). pose (w3 := World (put (a, "average") d (cells w2)) (asked w2)).
  pose (w4 := World (put (b, "hidden") d (cells w3)) (asked w3)). pose (w5 := World (put (b, "average") d (cells w4)) (asked w4)).
  unfold bind at 1. rewrite (GN p "embeddings" d w) by (now rewrite Ew). fold w1.
  assert (N : forall k, k <> (p, "embeddings") -> find k (cells w1) = None) by (intros k H; cbn [w1 cells]; rewrite Fr by exact H; now rewrite Ew).
  unfold bind at 1. unfold bind at 1. rewrite (GN a "hidden" d w1) by (apply N, Ka). fold w2.
  unfold bind at 1. rewrite (GN a "average" d w2) by (cbn [w2 cells]; rewrite Fr by (now apply NN); apply N, Ka). fold w3. unfold ret at 1.
  unfold bind at 1. unfold bind at 1. rewrite (GN b "hidden" d w3) by (cbn [w3 w2 cells]; rewrite !Fr by (intros Z; symmetry in Z; now apply Kab in Z); apply N, Kb). fold w4.
  unfold bind at 1. rewrite (GN b "average" d w4) by (cbn [w4 w3 w2 cells]; rewrite Fr by (now apply NN); rewrite !Fr by (intros Z; symmetry in Z; now apply Kab in Z); apply N, Kb). fold w5. unfold ret at 1.
  unfold bind at 1, read_state.
  assert (E5 : find (p, "embeddings") (cells w5) = Some d).
  { cbn [w5 w4 w3 w2 w1 cells]. rewrite !Fr by (intros Z; symmetry in Z; first [now apply Ka in Z|now apply Kb in Z]). apply Fs. }
  rewrite E5. cbv zeta. rewrite J4, J1, J5, J3, J7, J8, J9. change (join x j) with (join x j). 
  destruct (C96_average x64 a true j w5) as (w6 & A1 & A2 & A3 & A4 & A5 & _).
  { exact J2. }
  { intros t. cbn [w5 w4 w3 w2 cells]. rewrite (Fr _ (b, "average")), (Fr _ (b, "hidden")) by apply Kab. rewrite !Fr by (now apply NN). now rewrite N by apply Ka. }
  { cbn [w5 w4 w3 w2 cells]. rewrite (Fr _ (b, "average")), (Fr _ (b, "hidden")) by apply Kab. rewrite Fr by (now apply NN). now rewrite Fs. }
  assert (H5 : find (a, "hidden") (cells w5) = Some d) by (cbn [w5 w4 w3 w2 cells]; rewrite (Fr _ (b, "average")), (Fr _ (b, "hidden")) by apply Kab; rewrite Fr by (now apply NN); apply Fs).
  rewrite H5, J1, J6 in *. unfold bind at 1. unfold bind at 1. rewrite A1.
  assert (H6 : find (b, "hidden") (cells w6) = Some d).
  { rewrite A5 by (intros Z; symmetry in Z; now apply Kab in Z). cbn [w5 w4 cells]. rewrite Fr by (now apply NN). apply Fs. }
  destruct (C96_average x64 b true j w6) as (w7 & B1 & B2 & B3 & B4 & B5 & _).
  { exact J2. }
  { intros t. rewrite A5 by (intros Z; symmetry in Z; now apply Kab in Z). cbn [w5 w4 w3 w2 cells]. rewrite (Fr _ (b, "average")), (Fr _ (b, "hidden")) by (now apply NN). rewrite !Fr by (intros Z; symmetry in Z; now apply Kab in Z). now rewrite N by apply Kb. }
  { now rewrite H6. }
  rewrite H6, J1, J6 in *. unfold bind at 1. rewrite B1. rewrite J11. unfold set_state. cbn [cells].
  eexists. split; [reflexivity|]. cbn [cells]. split; [apply Fs|]. intros q [<-|[<-|[]]]; fold a; fold b.
  - rewrite !Fr by (apply Ka). rewrite !B5 by apply Kab. now rewrite A2, A3, A4.
  - rewrite !Fr by (apply Kb). now rewrite B2, B3, B4.
Qed.
Print Assumptions C96_vq_ema.
(** float64 inputs (or float32 ones for a float16 quantizer) change the types of the state after the first call: it cannot be trained in a loop of [lax]. *)
Theorem C96_vq_ema_refuted : exists w w', vq_ema true "vq" TF32 false TF64 (World [] []) = Some (VqOut TF64 TF64 TF64 TF64 TF64, w) /\ vq_ema true "vq" TF32 true TF64 w = Some (VqOut TF64 TF64 TF64 TF64 TF64, w') /\
  find ("vq", "embeddings") (cells w) = Some TF32 /\ find ("vq", "embeddings") (cells w') = Some TF64.
Proof.
  let r := eval vm_compute in (vq_ema true "vq" TF32 false TF64 (World [] [])) in match r with Some (_, ?w) => exists w; let r2 := eval vm_compute in (vq_ema true "vq" TF32 true TF64 w) in match r2 with Some (_, ?w') => exists w' end end.
  split; [vm_compute; reflexivity|]. split; [vm_compute; reflexivity|]. split; vm_compute; reflexivity.
Qed.
Print Assumptions C96_vq_ema_refuted.

(** *** bfloat16 training *)
(** Steps of examples/imagenet's [train_step] with [train_bfloat16], each on the state the one before returned. *)
Fixpoint bf16_steps (n : nat) (net : (string -> string -> ty -> ty) -> ty -> M ty) (stored : string -> string -> ty -> ty) (w : world) : option (list ty * world) :=
  match n with
  | 0 => Some ([], w)
  | S n => match bf16_step net stored TBF16 w with
           | Some (y, w) => match bf16_steps n net stored (World (cells w) []) with Some (ys, w) => Some (y :: ys, w) | None => None end
           | None => None
           end
  end.
(** Parameters and state in float32, images in bfloat16: every step works in bfloat16 and hands back a state in float32, with its counters. *)
Theorem C96_bf16 x64 net stored n w : (forall p k, stored p k TBF16 = TF32) ->
  built x64 (fun p k d => to_bf16 (stored p k d)) (fun t => le t TBF16) (TBF16 = default x64) true (net (fun p k d => to_bf16 (stored p k d))) ->
  (forall m k t, In ((m, k), t) (cells w) -> t = if String.eqb k "counter" then TI32 else TF32) -> asked w = [] ->
  exists w', bf16_steps n net stored w = Some (repeat TBF16 n, w') /\ forall m k t, In ((m, k), t) (cells w') -> t = if String.eqb k "counter" then TI32 else TF32.
Proof.
  intros Hs B. revert w. induction n as [|n IH]; intros w U A; [now exists w|]. cbn [bf16_steps]. unfold bf16_step.
  pose proof (C96_one_type x64 _ TBF16 true _ (cast_cells to_bf16 w) (or_introl eq_refl) (fun p k => f_equal to_bf16 (Hs p k)) B) as T.
  destruct (net (fun p k d => to_bf16 (stored p k d)) TBF16 (cast_cells to_bf16 w)) as [[y w1]|].
  - destruct T as (-> & _ & U1); [|exact A|].
    + intros m k t Hi. cbn [cast_cells cells] in Hi. apply in_map_iff in Hi as ([[m' k'] t'] & E & Hi). cbn [fst snd] in E. apply pair_equal_spec in E as [E <-]. apply pair_equal_spec in E as [-> ->]. apply U in Hi as ->. now destruct (String.eqb k "counter").
    + destruct (IH (World (cells (cast_cells from_bf16 w1)) [])) as (w2 & E & U2); [|reflexivity|].
      * intros m k t Hi. cbn [cast_cells cells] in Hi. apply in_map_iff in Hi as ([[m' k'] t'] & E & Hi). cbn [fst snd] in E. apply pair_equal_spec in E as [E <-]. apply pair_equal_spec in E as [-> ->]. apply U1 in Hi as ->. now destruct (String.eqb k "counter").
      * rewrite E. now exists w2.
  - enough (true = false) by discriminate. apply T; [|exact A]. intros m k t Hi. cbn [cast_cells cells] in Hi. apply in_map_iff in Hi as ([[m' k'] t'] & E & Hi). cbn [fst snd] in E. apply pair_equal_spec in E as [E <-]. apply pair_equal_spec in E as [-> ->]. apply U in Hi as ->. now destruct (String.eqb k "counter").
Qed.
Print Assumptions C96_bf16.
Example C96_bf16_case : exists w', bf16_steps 4 (fun st => resnet false st "resnet" false true true false [("block_group_0/block_0", true)]) (fun _ _ _ => TF32) (World [] []) = Some ([TBF16; TBF16; TBF16; TBF16], w').
Proof. destruct (C96_bf16 false (fun st => resnet false st "resnet" false true true false [("block_group_0/block_0", true)]) (fun _ _ _ => TF32) 4 (World [] [])) as (w' & E & _); [reflexivity|apply (BResNet false _ _ _ _ false true true false)|intros m k t []|reflexivity|now exists w']. Qed.
(** With float32 images the convolutions raise. *)
Theorem C96_bf16_refuted w : bf16_step (fun st => resnet false st "resnet" false true true false [("block_group_0/block_0", true)]) (fun _ _ _ => TF32) TF32 w = None.
Proof. reflexivity. Qed.
Print Assumptions C96_bf16_refuted.

(** *** States of another type than the inputs: the cores hand on what they output, and ask for parameters in the inputs' type *)
Theorem C96_cores_mixed x64 stored p db x h w :
  (forall o s w', vanilla x64 stored p db x [h] w = Some ((o, s), w') -> s = [o]) /\
  (forall o s w', gru x64 stored p x [h] w = Some ((o, s), w') ->
     s = [o] /\ asked w' = (asked w ++ [((p, "w_i"), dtype x64 x); ((p, "w_h"), dtype x64 x); ((p, "b"), dtype x64 x)])%list).
Proof.
  split; intros o s w' E.
  - unfold vanilla, bind in E. destruct (linear x64 stored (inside p "linear") true x w) as [[a w1]|]; [|discriminate].
    destruct (linear x64 stored (inside p "linear_1") db h w1) as [[b w2]|]; [|discriminate]. cbv zeta in E. unfold ret in E. injection E as <- <- _. reflexivity.
  - unfold gru, bind, param, ret in E. cbn [cells asked] in E. injection E as E1 E2 E3. rewrite <- E1, <- E2, <- E3. cbn [asked]. rewrite <- !app_assoc. split; reflexivity.
Qed.
Print Assumptions C96_cores_mixed.
Example C96_cores_mixed_case :
  gru false (fun _ _ d => d) "gru" TBF16 [TF32] (World [] []) = Some ((TF32, [TF32]), World [] [(("gru", "w_i"), TBF16); (("gru", "w_h"), TBF16); (("gru", "b"), TBF16)]) /\
  option_map fst (vanilla false (fun _ _ d => d) "vanilla_rnn" true TF32 [TBF16] (World [] [])) = Some (TF32, [TF32]).
Proof. split; reflexivity. Qed.

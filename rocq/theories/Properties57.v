(** * C95: the networks of the IMPALA example: what the learner's unroll computes is what the actor's steps computed *)
From Coq Require Import Reals ZArith String List Bool Lia Lra.
From Verif Require Import ModelNets ModelShape ModelReal ModelPool ModelConv ModelImageNets ModelCheckpoint ModelImageValues ModelAtari Properties09 Properties23 Properties32 Properties33 Properties53 Properties54.
Import ListNotations.
Local Open Scope R_scope.

(** Example [i'] of the batch [y] is example [i] of the batch [x]. *)
Definition within (shape idx : list Z) : Prop := Forall2 (fun d k => (0 <= k < d)%Z) shape idx.
Definition same_example (b b' i i' : Z) (x y : arr) : Prop := exists r, fst x = b :: r /\ fst y = b' :: r /\ forall idx, within r idx -> snd y (i' :: idx) = snd x (i :: idx).
Lemma rel4_same b b' i i' x y : rel4 1 b b' i i' x y -> same_example b b' i i' x y.
Proof.
  intros (h & w & ch & _ & _ & Ex & Ey & H). exists [h; w; ch]. split; [exact Ex|split; [exact Ey|]]. intros idx I.
  inversion I as [|? p ? l1 Hp I1]; subst. inversion I1 as [|? q ? l2 Hq I2]; subst. inversion I2 as [|? k ? l3 Hk I3]; subst. inversion I3; subst. rewrite H by assumption. ring.
Qed.
Lemma same_rel2 b b' i i' n x y : fst x = [b; n] -> same_example b b' i i' x y -> rel2 1 b b' i i' x y.
Proof.
  intros E (r & Ex & Ey & H). rewrite E in Ex. injection Ex as <-. exists n. split; [exact E|split; [exact Ey|]]. intros k Hk. rewrite (H [k]) by (repeat constructor; lia). ring.
Qed.
Lemma rel2_same b b' i i' x y : rel2 1 b b' i i' x y -> same_example b b' i i' x y.
Proof.
  intros (n & Ex & Ey & H). exists [n]. split; [exact Ex|split; [exact Ey|]]. intros idx I. inversion I as [|? k ? l Hk I1]; subst. inversion I1; subst. rewrite H by assumption. ring.
Qed.
Lemma prod_pos_inv d r : Forall (fun n => (0 <= n)%Z) (d :: r) -> (0 < ModelShape.prod (d :: r))%Z -> (0 < ModelShape.prod r)%Z.
Proof.
  intros F H. inversion F as [|? ? D F']; subst. cbn in H. assert (0 <= ModelShape.prod r)%Z; [|nia]. clear -F'. induction F' as [|e l He _ IH]; cbn; nia.
Qed.
Lemma unravel_within r : forall j, Forall (fun n => (0 <= n)%Z) r -> (0 <= j < ModelShape.prod r)%Z -> within r (unravel r j).
Proof.
  induction r as [|d r IH]; intros j F Hj; [constructor|]. assert (P : (0 < ModelShape.prod r)%Z) by (apply (prod_pos_inv d r F); lia). inversion F as [|? ? D F']; subst. cbn [unravel]. constructor.
  - cbn in Hj. split; [apply Z.div_pos; lia|]. apply Z.div_lt_upper_bound; lia.
  - apply IH; [exact F'|]. now apply Z.mod_pos_bound.
Qed.
Lemma flatten_shape b d r : flatten_net (b :: d :: r) = Some ([], [b; ModelShape.prod (d :: r)]).
Proof. reflexivity. Qed.
Lemma flatten_same b b' i i' x y d r : fst x = b :: d :: r -> Forall (fun n => (0 <= n)%Z) (d :: r) -> same_example b b' i i' x y ->
  match flatten_v x, flatten_v y with Some u, Some v => rel2 1 b b' i i' u v | None, None => True | _, _ => False end.
Proof.
  intros E F (r' & Ex & Ey & H). rewrite E in Ex. injection Ex as <-. unfold flatten_v, layer. rewrite E, Ey, !flatten_shape. exists (ModelShape.prod (d :: r)). split; [reflexivity|split; [reflexivity|]].
  cbn [snd tl]. intros k Hk. rewrite Rmult_1_l. apply H. now apply unravel_within.
Qed.

Section Torsos.
Context (b b' i i' : Z) (Hi : (0 <= i < b)%Z) (Hi' : (0 <= i' < b')%Z) (W : weights).
Let R4 := rel4 1 b b' i i'.
Let R2 := rel2 1 b b' i i'.
Let U1 name t : unscaled 1 W name t.
Proof. right. now left. Qed.
Lemma respects_255 : respects R4 R4 over_255 over_255.
Proof.
  intros x y (h & w & ch & Dh & Dw & Ex & Ey & H). unfold over_255, layer, ident. exists h, w, ch. cbn [fst snd]. do 2 (split; [assumption|]). split; [exact Ex|split; [exact Ey|]].
  intros p q k Hp Hq Hk. rewrite H by assumption. field.
Qed.
Lemma respects_flatten : respects R4 R2 flatten_v flatten_v.
Proof.
  intros x y R. pose proof R as (h & w & ch & Dh & Dw & Ex & Ey & H). destruct (Z_le_gt_dec 0 ch) as [Hc|Hc].
  - apply (flatten_same b b' i i' x y h [w; ch]); [exact Ex|repeat (constructor; [assumption|]); constructor|now apply rel4_same].
  - unfold flatten_v, layer. rewrite Ex, Ey, !flatten_shape. exists (ModelShape.prod [h; w; ch]). split; [reflexivity|split; [reflexivity|]]. intros k Hk. exfalso. cbn in Hk. nia.
Qed.
Lemma respects_relu2 : respects R2 R2 relu_v relu_v.
Proof.
  intros x y (n & Ex & Ey & H). unfold relu_v, layer, ident. exists n. split; [exact Ex|split; [exact Ey|]]. cbn [snd]. intros k Hk. rewrite H by assumption. apply relu_scale. lra.
Qed.
Let RC name n k s t bias : respects R4 R4 (conv_v W name n k s t bias) (conv_v W name n k s t bias).
Proof. apply respects_conv; try assumption; [lra|apply U1]. Qed.
Let RR : respects R4 R4 relu_v relu_v.
Proof. apply respects_relu. lra. Qed.
Let RP : respects R4 R4 max_pool_v max_pool_v.
Proof. apply respects_pool; try assumption; lra. Qed.
Let RL name n : respects R2 R2 (dense W name n) (dense W name n).
Proof. apply respects_linear; [lra|apply U1]. Qed.
Lemma respects_shallow p : respects R4 R2 (shallow_torso W p) (shallow_torso W p).
Proof.
  unfold shallow_torso. eapply respects_then; [exact respects_255|]. do 3 (eapply respects_then; [apply RC|eapply respects_then; [exact RR|]]).
  eapply respects_then; [exact respects_flatten|]. eapply respects_then; [apply RL|exact respects_relu2].
Qed.
Lemma respects_residual p channels : respects R4 R4 (residual_block W p channels) (residual_block W p channels).
Proof.
  intros x y H. unfold residual_block.
  set (f := thenv relu_v _). assert (F : respects R4 R4 f f) by (unfold f; eapply respects_then; [exact RR|]; eapply respects_then; [apply RC|]; eapply respects_then; [exact RR|apply RC]).
  specialize (F x y H). destruct (f x) as [u|], (f y) as [v|]; try (now destruct F). now apply add_respects.
Qed.
Lemma respects_section p k channels n : respects R4 R4 (section_v W p k channels n) (section_v W p k channels n).
Proof.
  unfold section_v. eapply respects_then; [apply RC|]. eapply respects_then; [exact RP|]. apply respects_fold; [|apply respects_ident]. intros a _. apply respects_residual.
Qed.
Lemma respects_deep p : respects R4 R2 (deep_torso W p) (deep_torso W p).
Proof.
  unfold deep_torso. eapply respects_then.
  - unfold deep_features. cbn [length seq combine fold_left]. do 3 (eapply respects_then; [|apply respects_section]). exact respects_255.
  - eapply respects_then; [exact RR|]. eapply respects_then; [exact respects_flatten|]. eapply respects_then; [apply RL|exact respects_relu2].
Qed.
Lemma respects_torso p use_resnet : respects R4 R2 (torso_v W p use_resnet) (torso_v W p use_resnet).
Proof. unfold torso_v. destruct use_resnet; [apply respects_deep|apply respects_shallow]. Qed.
Lemma respects_dense name n : respects R2 R2 (dense W name n) (dense W name n).
Proof. apply RL. Qed.
End Torsos.

(** ** BatchApply *)
(** The example of a batch of sequences at time [p] and row [q], as a batch of sequences with one step and one row. *)
Definition at_step (x : arr) (p q : Z) : arr := (1%Z :: 1%Z :: skipn 2 (fst x), fun idx => snd x (p :: q :: tl (tl idx))).
Lemma merged_index t b p q : (0 <= p < t)%Z -> (0 <= q < b)%Z -> (0 <= p * b + q < t * b)%Z /\ ((p * b + q) / b = p)%Z /\ ((p * b + q) mod b = q)%Z.
Proof.
  intros Hp Hq. split; [nia|]. rewrite Z.add_comm. split; [rewrite Z.div_add by lia; rewrite Z.div_small by lia; lia|]. rewrite Z.mod_add by lia. now apply Z.mod_small.
Qed.
Definition merged (x : arr) : arr := match fst x with t :: b :: r => ((t * b)%Z :: r, fun idx => match idx with i :: r => snd x ((i / b)%Z :: (i mod b)%Z :: r) | [] => 0 end) | _ => x end.
(** Step [k], row [q] of [x] is step [k'], row [q'] of [y]. *)
Definition same_step (t b t' b' k q k' q' : Z) (x y : arr) : Prop := exists r, fst x = t :: b :: r /\ fst y = t' :: b' :: r /\
  forall idx, within r idx -> snd y (k' :: q' :: idx) = snd x (k :: q :: idx).
Section Rel.
Context (t b t' b' k q k' q' : Z) (Hk : (0 <= k < t)%Z) (Hq : (0 <= q < b)%Z) (Hk' : (0 <= k' < t')%Z) (Hq' : (0 <= q' < b')%Z).
Lemma merged_same x y : same_step t b t' b' k q k' q' x y -> same_example (t * b) (t' * b') (k * b + q) (k' * b' + q') (merged x) (merged y).
Proof.
  intros (r & Ex & Ey & H). destruct (merged_index t b k q Hk Hq) as (_ & D & M). destruct (merged_index t' b' k' q' Hk' Hq') as (_ & D' & M'). exists r. unfold merged. rewrite Ex, Ey. cbn [fst snd].
  split; [reflexivity|split; [reflexivity|]]. intros idx I. rewrite D, M, D', M'. now apply H.
Qed.
(** [f] does to each example of a batch what it does to the example in another batch. *)
Lemma batch_apply_rel (f : vnet) x y r : fst x = t :: b :: r -> fst y = t' :: b' :: r ->
  match f (merged x), f (merged y) with Some u, Some v => same_example (t * b) (t' * b') (k * b + q) (k' * b' + q') u v | None, None => True | _, _ => False end ->
  match batch_apply_v f x, batch_apply_v f y with Some u, Some v => same_step t b t' b' k q k' q' u v | None, None => True | _, _ => False end.
Proof.
  intros Ex Ey H. unfold batch_apply_v. unfold merged in H. rewrite Ex, Ey in *. cbv beta iota in *.
  match goal with |- match match ?a with _ => _ end with _ => _ end => set (fx := a) in * end.
  match type of H with match fx with Some _ => match ?a with _ => _ end | None => _ end => set (fy := a) in * end.
  destruct fx as [[su fu]|], fy as [[sv fv]|]; try (now destruct H).
  destruct H as (r' & Eu & Ev & H). cbn [fst snd] in *. subst su sv. rewrite !Z.eqb_refl. exists r'. split; [reflexivity|split; [reflexivity|]].
  intros idx I. cbn [snd]. exact (H idx I).
Qed.
Lemma torso_rel W p use_resnet x y h w c : fst x = [t; b; h; w; c] -> (0 <= h)%Z -> (0 <= w)%Z -> same_step t b t' b' k q k' q' x y ->
  match batch_apply_v (torso_v W p use_resnet) x, batch_apply_v (torso_v W p use_resnet) y with
  | Some u, Some v => exists n, fst u = [t; b; n] /\ fst v = [t'; b'; n] /\ forall j, (0 <= j < n)%Z -> snd v [k'; q'; j] = snd u [k; q; j]
  | None, None => True
  | _, _ => False
  end.
Proof.
  intros E Hh Hw S. pose proof (merged_same x y S) as M. pose proof S as (r & Ex & Ey & _). rewrite E in Ex. injection Ex as <-.
  pose proof (batch_apply_rel (torso_v W p use_resnet) x y _ E Ey) as B.
  assert (R : rel4 1 (t * b) (t' * b') (k * b + q) (k' * b' + q') (merged x) (merged y)).
  { destruct M as (r & Er & Er' & M). exists h, w, c. do 2 (split; [assumption|]).
    assert (r = [h; w; c]) by (unfold merged in Er; rewrite E in Er; cbn [fst] in Er; now injection Er as <-). subst r. split; [exact Er|split; [exact Er'|]].
    intros a e d Ha He Hd. rewrite (M [a; e; d]) by (repeat constructor; lia). ring. }
  destruct (merged_index t b k q Hk Hq) as (Hm & _ & _). destruct (merged_index t' b' k' q' Hk' Hq') as (Hm' & _ & _).
  pose proof (respects_torso (t * b) (t' * b') (k * b + q) (k' * b' + q') Hm Hm' W p use_resnet _ _ R) as T.
  assert (P : match torso_v W p use_resnet (merged x), torso_v W p use_resnet (merged y) with Some u, Some v => same_example (t * b) (t' * b') (k * b + q) (k' * b' + q') u v /\ length (fst u) = 2%nat | None, None => True | _, _ => False end).
  { destruct (torso_v W p use_resnet (merged x)) as [u|], (torso_v W p use_resnet (merged y)) as [v|]; try exact T. split; [now apply rel2_same|]. destruct T as (n & -> & _). reflexivity. }
  clear T R M. specialize (B ltac:(destruct (torso_v W p use_resnet (merged x)), (torso_v W p use_resnet (merged y)); tauto)).
  destruct (batch_apply_v (torso_v W p use_resnet) x) as [u|] eqn:Eu, (batch_apply_v (torso_v W p use_resnet) y) as [v|] eqn:Ev; try exact B.
  destruct B as (r' & Fu & Fv & B). unfold batch_apply_v in Eu. rewrite E in Eu.
  assert (L : length r' = 1%nat).
  { unfold merged in P at 1. rewrite E in P. destruct (torso_v W p use_resnet _) as [[su fu]|] in Eu, P; [|discriminate]. destruct (torso_v W p use_resnet (merged _)); [|contradiction].
    destruct P as [_ L]. cbn in L. destruct su as [|m su]; [discriminate|]. destruct (m =? t * b)%Z; [|discriminate]. injection Eu as <-. cbn in Fu. injection Fu as <-. cbn in L. lia. }
  destruct r' as [|n [|]]; try discriminate. exists n. split; [exact Fu|split; [exact Fv|]]. intros j Hj. apply (B [j]). repeat constructor; lia.
Qed.
Lemma head_rel W name n x y m : fst x = [t; b; m] -> fst y = [t'; b'; m] -> (forall j, (0 <= j < m)%Z -> snd y [k'; q'; j] = snd x [k; q; j]) ->
  exists u v, batch_apply_v (dense W name n) x = Some u /\ batch_apply_v (dense W name n) y = Some v /\ fst u = [t; b; n] /\ fst v = [t'; b'; n] /\
  forall a, (0 <= a < n)%Z -> snd v [k'; q'; a] = snd u [k; q; a].
Proof.
  intros Ex Ey H. unfold batch_apply_v. rewrite Ex, Ey. unfold dense, linear_v, layer, ModelImageNets.linear. cbn [fst snd]. rewrite !Z.eqb_refl. do 2 eexists. do 4 (split; [reflexivity|]).
  cbn [snd]. intros a Ha. destruct (merged_index t b k q Hk Hq) as (_ & D & M). destruct (merged_index t' b' k' q' Hk' Hq') as (_ & D' & M'). f_equal. apply zsum_ext. intros j Hj. rewrite D, M, D', M'. f_equal. exact (H j Hj).
Qed.
Lemma value_rel W p x y m : fst x = [t; b; m] -> fst y = [t'; b'; m] -> (forall j, (0 <= j < m)%Z -> snd y [k'; q'; j] = snd x [k; q; j]) ->
  exists u v, batch_apply_v (head_value W p) x = Some u /\ batch_apply_v (head_value W p) y = Some v /\ fst u = [t; b] /\ fst v = [t'; b'] /\ snd v [k'; q'] = snd u [k; q].
Proof.
  intros Ex Ey H. unfold batch_apply_v. rewrite Ex, Ey. unfold head_value, thenv, squeeze_last_v, dense, linear_v, layer, ModelImageNets.linear. cbn [fst snd Z.eqb Pos.eqb]. rewrite !Z.eqb_refl. do 2 eexists. do 4 (split; [reflexivity|]).
  cbn [snd app]. destruct (merged_index t b k q Hk Hq) as (_ & D & M). destruct (merged_index t' b' k' q' Hk' Hq') as (_ & D' & M'). f_equal. apply zsum_ext. intros j Hj. rewrite D, M, D', M'. f_equal. exact (H j Hj).
Qed.
Lemma row_rel (x y : arr) (n : Z) : fst x = [t; b; n] -> fst y = [t'; b'; n] -> (forall j, (0 <= j < n)%Z -> snd y [k'; q'; j] = snd x [k; q; j]) -> step_row y k' q' = step_row x k q.
Proof. intros Ex Ey H. unfold step_row. rewrite Ex, Ey. cbn [List.last]. apply map_ext_in. intros j Hj. apply in_seq in Hj. apply H. lia. Qed.
End Rel.

(** ** The unroll in terms of the features of each step *)
Section Unroll.
Context (W : weights) (lstm_w : list (list R)) (lstm_b : list R) (p : string) (num_actions : Z).
Notation unroll := (atari_unroll W lstm_w lstm_b p num_actions).
Notation step := (agent_net W lstm_w lstm_b p num_actions).
Lemma at_step_same x t b k q r : fst x = t :: b :: r -> same_step t b 1 1 k q 0 0 x (at_step x k q).
Proof. intros E. exists r. split; [exact E|]. unfold at_step. rewrite E. split; [reflexivity|]. now intros idx _. Qed.
Definition obs_at (x : arr) (k q : Z) : arr := (skipn 2 (fst x), fun idx => snd x (k :: q :: idx)).

(** An unroll over T steps of a batch is, for every row, the steps of [Agent.step] one after the other, with the state carried along: the same
    logits, the same value and the same final state. *)
Theorem C95_unroll use_resnet use_lstm obs first s lg v s' t b h w c q : fst obs = [t; b; h; w; c] -> (0 <= t)%Z -> (0 <= h)%Z -> (0 <= w)%Z -> (0 <= q < b)%Z ->
  unroll use_resnet use_lstm obs first s = Some ((lg, v), s') ->
  exists st : Z -> core_state, st 0%Z = s q /\ st t = s' q /\ forall k, (0 <= k < t)%Z ->
    exists lg1, step use_resnet use_lstm (obs_at obs k q) (first k q) (st k) = Some ((lg1, snd v [k; q]), st (k + 1)%Z) /\
      fst lg1 = [num_actions] /\ forall a, (0 <= a < num_actions)%Z -> snd lg1 [a] = snd lg [k; q; a].
Proof.
  intros E Ht Hh Hw Hq. unfold atari_unroll. pose proof (fun k Hk => torso_rel t b 1 1 k q 0 0 Hk Hq ltac:(lia) ltac:(lia) W p use_resnet obs (at_step obs k q) h w c E Hh Hw (at_step_same obs t b k q _ E)) as T.
  destruct (batch_apply_v (torso_v W p use_resnet) obs) as [x|] eqn:Ex; [|discriminate].
  set (st := fun k : Z => if use_lstm then state_before lstm_w lstm_b x first s q (Z.to_nat k) else s q).
  intros H. exists st. split; [unfold st; now destruct use_lstm|]. split.
  { destruct use_lstm.
    - unfold core_unroll in H. destruct (fst x) as [|t1 [|b1 [|n1 [|]]]] eqn:Es; try discriminate H.
      destruct (batch_apply_v _ _) as [lg'|] in H; [|discriminate H]. destruct (batch_apply_v (head_value W p) _) as [v'|] in H; [|discriminate H]. injection H as _ _ <-. unfold st.
      unfold batch_apply_v in Ex. rewrite E in Ex. destruct (torso_v _ _ _ _) as [[[|m su] fu]|] in Ex; try discriminate. destruct (m =? t * b)%Z in Ex; [|discriminate]. injection Ex as <-. cbn in Es. now injection Es as <- _ _.
    - destruct (batch_apply_v _ _) as [lg'|] in H; [|discriminate H]. destruct (batch_apply_v (head_value W p) _) as [v'|] in H; [|discriminate H]. now injection H as _ _ <-. }
  intros k Hk. specialize (T k Hk). unfold agent_net, atari_unroll.
  replace (add_axis (add_axis (obs_at obs k q))) with (at_step obs k q) by reflexivity.
  destruct (batch_apply_v (torso_v W p use_resnet) (at_step obs k q)) as [y|]; [|contradiction]. destruct T as (n & Fx & Fy & T).
  destruct use_lstm.
  - unfold core_unroll in *. rewrite Fx in H. rewrite Fy. cbv beta iota in H |- *.
    set (cx := fun idx : list Z => match idx with [a; e; d] => _ | _ => _ end) in H. set (cy := fun idx : list Z => match idx with [a; e; d] => _ | _ => _ end).
    assert (RE : step_row y 0%Z 0%Z = step_row x k q) by (now apply (row_rel t b 1 1 k q 0 0 x y n)).
    assert (C : forall j, (0 <= j < 256)%Z -> snd ([1; 1; 256]%Z, cy) [0; 0; j]%Z = snd ([t; b; 256]%Z, cx) [k; q; j]).
    { intros j Hj. cbn [snd]. unfold cx, cy. change (Z.to_nat 0) with 0%nat. cbn [state_before]. rewrite RE. reflexivity. }
    destruct (head_rel t b 1 1 k q 0 0 Hk Hq ltac:(lia) ltac:(lia) W (inside_call (inside_call p "~_head") "linear") num_actions ([t; b; 256]%Z, cx) ([1; 1; 256]%Z, cy) 256 eq_refl eq_refl C) as (u & u1 & Hu & Hu1 & Su & Su1 & Vu).
    destruct (value_rel t b 1 1 k q 0 0 Hk Hq ltac:(lia) ltac:(lia) W p ([t; b; 256]%Z, cx) ([1; 1; 256]%Z, cy) 256 eq_refl eq_refl C) as (z & z1 & Hz & Hz1 & Sz & Sz1 & Vz).
    unfold head_logits in *. rewrite Hu, Hz in H. rewrite Hu1, Hz1. injection H as <- <- <-. exists (skipn 2 (fst u1), fun idx => snd u1 (0%Z :: 0%Z :: idx)). split.
    + rewrite Vz. f_equal. f_equal. change (Z.to_nat 1) with 1%nat. cbn [state_before]. change (Z.of_nat 0) with 0%Z. rewrite RE. unfold st. replace (Z.to_nat (k + 1)) with (S (Z.to_nat k)) by lia. cbn [state_before]. rewrite Z2Nat.id by lia. reflexivity.
    + rewrite Su1. split; [reflexivity|]. exact Vu.
  - destruct (head_rel t b 1 1 k q 0 0 Hk Hq ltac:(lia) ltac:(lia) W (inside_call (inside_call p "~_head") "linear") num_actions x y n Fx Fy T) as (u & u1 & Hu & Hu1 & Su & Su1 & Vu).
    destruct (value_rel t b 1 1 k q 0 0 Hk Hq ltac:(lia) ltac:(lia) W p x y n Fx Fy T) as (z & z1 & Hz & Hz1 & Sz & Sz1 & Vz).
    unfold head_logits in *. rewrite Hu, Hz in H. rewrite Hu1, Hz1. injection H as <- <- <-. exists (skipn 2 (fst u1), fun idx => snd u1 (0%Z :: 0%Z :: idx)). split.
    + rewrite Vz. reflexivity.
    + rewrite Su1. split; [reflexivity|]. exact Vu.
Qed.

(** What an unroll gives, by parts. *)
Lemma unroll_parts use_resnet use_lstm obs first s lg v s' : unroll use_resnet use_lstm obs first s = Some ((lg, v), s') ->
  exists x y, batch_apply_v (torso_v W p use_resnet) obs = Some x /\ (if use_lstm then core_unroll lstm_w lstm_b x first s else Some (x, s)) = Some (y, s') /\
    batch_apply_v (head_logits W p num_actions) y = Some lg /\ batch_apply_v (head_value W p) y = Some v.
Proof.
  unfold atari_unroll. destruct (batch_apply_v _ obs) as [x|]; [|discriminate]. destruct (if use_lstm then _ else _) as [[y s1]|] eqn:C; [|discriminate].
  destruct (batch_apply_v (head_logits W p num_actions) y) as [lg1|] eqn:L; [|discriminate]. destruct (batch_apply_v (head_value W p) y) as [v1|] eqn:V; [|discriminate]. intros H. injection H as <- <- <-. exists x, y. now repeat split.
Qed.
(** Without the LSTM the state is handed through and the outputs of a step depend on nothing but its observation: not on the other steps, the
    other rows, the flags or the state. *)
Theorem C95_feedforward use_resnet obs obs' first first' s s1 lg v lg' v' s' s1' t b t' b' h w c k q k' q' :
  fst obs = [t; b; h; w; c] -> (0 <= h)%Z -> (0 <= w)%Z -> (0 <= k < t)%Z -> (0 <= q < b)%Z -> (0 <= k' < t')%Z -> (0 <= q' < b')%Z ->
  same_step t b t' b' k q k' q' obs obs' ->
  unroll use_resnet false obs first s = Some ((lg, v), s') -> unroll use_resnet false obs' first' s1 = Some ((lg', v'), s1') ->
  s' = s /\ snd v' [k'; q'] = snd v [k; q] /\ forall a, (0 <= a < num_actions)%Z -> snd lg' [k'; q'; a] = snd lg [k; q; a].
Proof.
  intros E Hh Hw Hk Hq Hk' Hq' S H H'. apply unroll_parts in H as (x & y & Tx & C & L & V). apply unroll_parts in H' as (x' & y' & Tx' & C' & L' & V').
  injection C as <- <-. injection C' as <- <-. split; [reflexivity|].
  pose proof (torso_rel t b t' b' k q k' q' Hk Hq Hk' Hq' W p use_resnet obs obs' h w c E Hh Hw S) as T. rewrite Tx, Tx' in T. destruct T as (n & Fx & Fx' & T).
  destruct (head_rel t b t' b' k q k' q' Hk Hq Hk' Hq' W (inside_call (inside_call p "~_head") "linear") num_actions x x' n Fx Fx' T) as (u & u1 & Hu & Hu1 & _ & _ & Vu).
  destruct (value_rel t b t' b' k q k' q' Hk Hq Hk' Hq' W p x x' n Fx Fx' T) as (z & z1 & Hz & Hz1 & _ & _ & Vz).
  unfold head_logits in *. rewrite Hu in L. rewrite Hu1 in L'. rewrite Hz in V. rewrite Hz1 in V'. injection L as <-. injection L' as <-. injection V as <-. injection V' as <-. now split.
Qed.
(** The state before a step depends on the state before an earlier one and the observations and flags in between. *)
Lemma state_before_rel x x' first first' s s1 q q' k0 k0' n :
  (first (Z.of_nat k0) q = true /\ first' (Z.of_nat k0') q' = true \/ state_before lstm_w lstm_b x first s q k0 = state_before lstm_w lstm_b x' first' s1 q' k0') ->
  (forall j, (j < n)%nat -> step_row x' (Z.of_nat (k0' + j)) q' = step_row x (Z.of_nat (k0 + j)) q /\ first' (Z.of_nat (k0' + j)) q' = first (Z.of_nat (k0 + j)) q) ->
  forall j, (j <= n)%nat -> (0 < j)%nat \/ state_before lstm_w lstm_b x first s q k0 = state_before lstm_w lstm_b x' first' s1 q' k0' ->
  state_before lstm_w lstm_b x first s q (k0 + j) = state_before lstm_w lstm_b x' first' s1 q' (k0' + j).
Proof.
  intros S0 H j. induction j as [|j IH]; intros Hj N; [rewrite !Nat.add_0_r; destruct N; [lia|assumption]|].
  rewrite !Nat.add_succ_r. cbn [state_before]. destruct (H j ltac:(lia)) as [-> ->]. f_equal. unfold reset_lstm.
  destruct S0 as [[F F']|S0].
  - destruct j as [|j]; [rewrite !Nat.add_0_r, F; reflexivity|]. now rewrite (IH ltac:(lia) ltac:(left; lia)).
  - now rewrite (IH ltac:(lia) ltac:(now right)).
Qed.
Lemma core_shape x y first s s' t b n : fst x = [t; b; n] -> core_unroll lstm_w lstm_b x first s = Some (y, s') ->
  y = ([t; b; 256%Z], snd y) /\ (forall a e d, snd y [a; e; d] = nth (Z.to_nat d) (fst (reset_lstm lstm_w lstm_b (step_row x a e) (first a e) (state_before lstm_w lstm_b x first s e (Z.to_nat a)))) 0) /\
  forall e, s' e = state_before lstm_w lstm_b x first s e (Z.to_nat t).
Proof. intros E. unfold core_unroll. rewrite E. intros H. injection H as <- <-. now split. Qed.
(** With the LSTM, what happens in a row from a FIRST step on depends only on the observations and flags from there on: not on the state, the
    observations before, the other rows or where in the unroll the step is. *)
Theorem C95_segment use_resnet obs obs' first first' s s1 lg v lg' v' s' s1' t b t' b' h w c q q' k0 k0' n :
  fst obs = [t; b; h; w; c] -> fst obs' = [t'; b'; h; w; c] -> (0 <= h)%Z -> (0 <= w)%Z -> (0 <= q < b)%Z -> (0 <= q' < b')%Z -> (0 <= k0)%Z -> (0 <= k0')%Z -> (k0 + n <= t)%Z -> (k0' + n <= t')%Z ->
  first k0 q = true -> first' k0' q' = true ->
  (forall j, (0 <= j < n)%Z -> same_step t b t' b' (k0 + j) q (k0' + j) q' obs obs' /\ first' (k0' + j)%Z q' = first (k0 + j)%Z q) ->
  unroll use_resnet true obs first s = Some ((lg, v), s') -> unroll use_resnet true obs' first' s1 = Some ((lg', v'), s1') ->
  (forall j, (0 <= j < n)%Z -> snd v' [k0' + j; q']%Z = snd v [k0 + j; q]%Z /\ forall a, (0 <= a < num_actions)%Z -> snd lg' [k0' + j; q'; a]%Z = snd lg [k0 + j; q; a]%Z) /\
  ((0 < n)%Z -> k0 + n = t -> k0' + n = t' -> s1' q' = s' q)%Z.
Proof.
  intros E E' Hh Hw Hq Hq' P0 P0' Pn Pn' F0 F0' S H H'. apply unroll_parts in H as (x & y & Tx & C & L & V). apply unroll_parts in H' as (x' & y' & Tx' & C' & L' & V').
  assert (T : forall j, (0 <= j < n)%Z -> exists m, fst x = [t; b; m] /\ fst x' = [t'; b'; m] /\ forall i, (0 <= i < m)%Z -> snd x' [(k0' + j)%Z; q'; i] = snd x [(k0 + j)%Z; q; i]).
  { intros j Hj. destruct (S j Hj) as [Sj _]. pose proof (torso_rel t b t' b' (k0 + j) q (k0' + j) q' ltac:(lia) Hq ltac:(lia) Hq' W p use_resnet obs obs' h w c E Hh Hw Sj) as T. rewrite Tx, Tx' in T. exact T. }
  assert (RW : forall j, (0 <= j < n)%Z -> step_row x' (k0' + j) q' = step_row x (k0 + j) q).
  { intros j Hj. destruct (T j Hj) as (m & Fx & Fx' & T'). now apply (row_rel t b t' b' (k0 + j) q (k0' + j) q' x x' m). }
  set (a0 := Z.to_nat k0). set (a0' := Z.to_nat k0').
  assert (ST : forall j, (j <= Z.to_nat n)%nat -> (0 < j)%nat -> state_before lstm_w lstm_b x first s q (a0 + j) = state_before lstm_w lstm_b x' first' s1 q' (a0' + j)).
  { intros j Hj Pj. apply (state_before_rel x x' first first' s s1 q q' a0 a0' (Z.to_nat n)); [left| |exact Hj|now left].
    - unfold a0, a0'. now rewrite !Z2Nat.id by assumption.
    - intros i Hi. assert (A : Z.of_nat (a0 + i) = (k0 + Z.of_nat i)%Z) by (unfold a0; lia). assert (A' : Z.of_nat (a0' + i) = (k0' + Z.of_nat i)%Z) by (unfold a0'; lia).
      rewrite A, A'. split; [apply RW; lia|apply S; lia]. }
  split.
  - intros j Hj. destruct (T j Hj) as (m & Fx & Fx' & _). destruct (core_shape x y first s s' t b m Fx C) as (Ey & Vy & _). destruct (core_shape x' y' first' s1 s1' t' b' m Fx' C') as (Ey' & Vy' & _).
    assert (YE : forall i, (0 <= i < 256)%Z -> snd y' [(k0' + j)%Z; q'; i] = snd y [(k0 + j)%Z; q; i]).
    { intros i _. rewrite Vy, Vy'. rewrite (RW j Hj). destruct (S j Hj) as [_ ->]. unfold reset_lstm.
      destruct (Z.eq_dec j 0) as [->|J]; [rewrite Z.add_0_r, F0; reflexivity|].
      replace (Z.to_nat (k0 + j)) with (a0 + Z.to_nat j)%nat by (unfold a0; lia). replace (Z.to_nat (k0' + j)) with (a0' + Z.to_nat j)%nat by (unfold a0'; lia). rewrite ST by lia. reflexivity. }
    assert (Sy : fst y = [t; b; 256%Z]) by (now rewrite Ey). assert (Sy' : fst y' = [t'; b'; 256%Z]) by (now rewrite Ey').
    destruct (head_rel t b t' b' (k0 + j) q (k0' + j) q' ltac:(lia) Hq ltac:(lia) Hq' W (inside_call (inside_call p "~_head") "linear") num_actions y y' 256 Sy Sy' YE) as (u & u1 & Hu & Hu1 & _ & _ & Vu).
    destruct (value_rel t b t' b' (k0 + j) q (k0' + j) q' ltac:(lia) Hq ltac:(lia) Hq' W p y y' 256 Sy Sy' YE) as (z & z1 & Hz & Hz1 & _ & _ & Vz).
    unfold head_logits in *. rewrite Hu in L. rewrite Hu1 in L'. rewrite Hz in V. rewrite Hz1 in V'. injection L as <-. injection L' as <-. injection V as <-. injection V' as <-. now split.
  - intros Pn0 <- <-. destruct (T 0%Z ltac:(lia)) as (m & Fx & Fx' & _). destruct (core_shape x y first s s' _ b m Fx C) as (_ & _ & Es). destruct (core_shape x' y' first' s1 s1' _ b' m Fx' C') as (_ & _ & Es').
    rewrite Es, Es'. replace (Z.to_nat (k0 + n)) with (a0 + Z.to_nat n)%nat by (unfold a0; lia). replace (Z.to_nat (k0' + n)) with (a0' + Z.to_nat n)%nat by (unfold a0'; lia). symmetry. apply ST; lia.
Qed.
(** A FIRST step is a step from the initial state. *)
Theorem C95_restart use_resnet obs s : step use_resnet true obs true s = step use_resnet true obs false core_zero.
Proof.
  unfold agent_net, atari_unroll. destruct (batch_apply_v _ _) as [x|] eqn:Ex; [|reflexivity]. unfold core_unroll. destruct (fst x) as [|t [|b [|n [|]]]] eqn:Es; try reflexivity.
  unfold batch_apply_v in Ex. unfold add_axis in Ex. cbn [fst] in Ex. destruct (torso_v _ _ _ _) as [[[|m r] f]|] in Ex; try discriminate. destruct (m =? 1 * 1)%Z in Ex; [|discriminate]. injection Ex as <-.
  cbn [fst] in Es. injection Es as <- <- ->. reflexivity.
Qed.
End Unroll.
Print Assumptions C95_unroll.
Print Assumptions C95_feedforward.
Print Assumptions C95_segment.
Print Assumptions C95_restart.

(** C95, third part: one step of the agent and CatchNet, written out *)
From Coq Require Import Reals ZArith String List Bool Lia Lra.
From Verif Require Import ModelNets ModelShape ModelReal ModelPool ModelConv ModelImageNets ModelCheckpoint ModelImageValues ModelAtari Properties32 Properties33 Properties34 Properties53 Properties54 Properties56 Properties57 Properties58.
Import ListNotations.
Local Open Scope R_scope.

Lemma sapp_assoc (a b c : string) : ((a ++ b) ++ c = a ++ b ++ c)%string.
Proof. induction a as [|ch a IH]; [reflexivity|]. cbn [String.append]. now rewrite IH. Qed.
Lemma nested_name p q r : inside_call (inside_call p q) r = (p ++ "/" ++ q ++ "/" ++ r)%string.
Proof. unfold inside_call. now rewrite !sapp_assoc. Qed.
(** [AtariNet] on one observation: the torso, the LSTM on its features (from zeros at a FIRST step, from the state else) and two linear layers. *)
Theorem C95_step W lw lb (p : string) n (use_resnet use_lstm : bool) h w c (x y : list Z -> R) (first : bool) s : (0 <= h)%Z -> (0 <= w)%Z -> (forall idx, y (0%Z :: idx) = x idx) ->
  let torso := if use_resnet then deep_torso W (p ++ "/~unroll/atari_deep_torso")%string else shallow_torso W (p ++ "/~unroll/atari_shallow_torso")%string in
  let m := if use_resnet then 256%nat else 512%nat in
  exists f lg v s' out, torso ([1%Z; h; w; c], y) = Some ([1%Z; Z.of_nat m], f) /\
  (out, s') = (let features := map (fun k => f [0%Z; Z.of_nat k]) (seq 0 m) in
               if use_lstm then lstm 256 lw lb features (if first then (repeat 0 256, repeat 0 256) else s) else (features, s)) /\
  agent_net W lw lb p n use_resnet use_lstm ([h; w; c], x) first s = Some ((([n], lg), v), s') /\
  let linear name k := zsum (if use_lstm then 256 else Z.of_nat m) (fun j => nth (Z.to_nat j) out 0 * w_of W name [j; k]) + b_of W name [k] in
  v = linear (p ++ "/~_head/linear_1")%string 0%Z /\ forall a, (0 <= a < n)%Z -> lg [a] = linear (p ++ "/~_head/linear")%string a.
Proof.
  intros Hh Hw Hy torso m.
  assert (TS : forall z, exists f, torso ([1%Z; h; w; c], z) = Some ([1%Z; Z.of_nat m], f)).
  { intros z. unfold torso, m. destruct use_resnet.
    - destruct (C95_deep_shape W (p ++ "/~unroll/atari_deep_torso") 1 h w c z) as (f & g & _ & E & _); [lia|assumption..|]. now exists g.
    - destruct (C95_shallow W (p ++ "/~unroll/atari_shallow_torso") 1 h w c z) as (g & E & _); [lia|assumption..|]. now exists g. }
  pose proof (nested_name p) as NM.
  assert (TV : torso_v W p use_resnet = torso) by (unfold torso_v, torso; destruct use_resnet; now rewrite NM).
  pose (z := fun idx : list Z => match idx with i :: r => x (tl (tl ((i / 1)%Z :: (i mod 1)%Z :: r))) | [] => 0 end).
  destruct (TS y) as (f & Ef). destruct (TS z) as (g & Eg).
  assert (FG : forall j, (0 <= j < Z.of_nat m)%Z -> g [0%Z; j] = f [0%Z; j]).
  { pose proof (respects_torso 1 1 0 0 ltac:(lia) ltac:(lia) W p use_resnet ([1%Z; h; w; c], y) ([1%Z; h; w; c], z)) as T. rewrite TV, Ef, Eg in T.
    destruct T as (k & K1 & _ & T); [|cbn [fst] in K1; injection K1 as <-; intros j Hj; cbn [snd] in T; rewrite T by exact Hj; ring].
    exists h, w, c. do 2 (split; [assumption|]). do 2 (split; [reflexivity|]). intros q r k _ _ _. cbn [snd]. unfold z. rewrite Hy. cbn [tl]. ring. }
  exists f. unfold agent_net, atari_unroll. rewrite TV. unfold batch_apply_v at 1. unfold add_axis. cbn [fst snd]. change (1 * 1)%Z with 1%Z. fold z. rewrite Eg. cbn [Z.eqb Pos.eqb].
  assert (FE : map (fun k => g [0%Z; Z.of_nat k]) (seq 0 m) = map (fun k => f [0%Z; Z.of_nat k]) (seq 0 m)) by (apply map_ext_in; intros k Hk; apply in_seq in Hk; apply FG; lia).
  set (features := map (fun k => f [0%Z; Z.of_nat k]) (seq 0 m)) in *. unfold head_logits, head_value. rewrite !NM.
  change (p ++ "/" ++ "~_head" ++ "/" ++ "linear")%string with (p ++ "/~_head/linear")%string. change (p ++ "/" ++ "~_head" ++ "/" ++ "linear_1")%string with (p ++ "/~_head/linear_1")%string.
  destruct use_lstm.
  - unfold core_unroll. cbn [fst]. unfold batch_apply_v, thenv, squeeze_last_v, dense, linear_v, layer. cbn [fst snd ModelImageNets.linear Z.eqb Pos.eqb Z.mul Pos.mul skipn].
    change (Z.to_nat 1) with 1%nat. cbn [state_before]. change (Z.of_nat 0) with 0%Z.
    set (r := lstm 256 lw lb features (if first then (repeat 0 256, repeat 0 256) else s)).
    assert (RW : forall F, step_row ([1%Z; 1%Z; Z.of_nat m], F) 0 0 = map (fun k => F [0%Z; 0%Z; Z.of_nat k]) (seq 0 m)) by (intros F; unfold step_row; cbn [fst snd List.last]; now rewrite Nat2Z.id).
    do 2 eexists. exists (snd r), (fst r). split; [exact Ef|]. split; [now destruct r|]. split.
    + match goal with |- context [step_row ?X 0 0] => set (X0 := X) end. assert (K : step_row X0 0 0 = features) by (unfold X0; rewrite RW; exact FE).
      assert (R0 : reset_lstm lw lb (step_row X0 0 0) first s = r) by (rewrite K; reflexivity). rewrite R0. reflexivity.
    + match goal with |- context [step_row ?X _ _] => set (X0 := X) end. assert (K : step_row X0 0 0 = features) by (unfold X0; rewrite RW; exact FE).
      unfold r. rewrite <- K. split; reflexivity.
  - unfold batch_apply_v, thenv, squeeze_last_v, dense, linear_v, layer. cbn [fst snd ModelImageNets.linear Z.eqb Pos.eqb Z.mul Pos.mul skipn].
    do 2 eexists. exists s, features. split; [exact Ef|]. split; [reflexivity|]. split; [reflexivity|].
    assert (NF : forall j, (0 <= j < Z.of_nat m)%Z -> nth (Z.to_nat j) features 0 = g [0%Z; j]).
    { intros j Hj. rewrite FG by exact Hj. unfold features. pose (F k := f [0%Z; Z.of_nat k]). change (nth (Z.to_nat j) (map F (seq 0 m)) 0 = f [0%Z; j]). rewrite (nth_indep _ 0 (F 0%nat)) by (rewrite map_length, seq_length; lia). rewrite (map_nth F), seq_nth by lia. unfold F. cbn [Nat.add]. now rewrite Z2Nat.id by lia. }
    split.
    + cbn [app]. f_equal. apply zsum_ext. intros j Hj. rewrite NF by exact Hj. reflexivity.
    + intros a Ha. f_equal. apply zsum_ext. intros j Hj. rewrite NF by exact Hj. reflexivity.
Qed.
Print Assumptions C95_step.

(** [CatchNet] on a batch of boards: two hidden layers of 128 and 64 units on the board in row-major order, logits and a value. *)
Theorem C95_catch_values {S} W (p : string) n b h w (x : list Z -> R) (s : S) : (0 <= h)%Z -> (0 <= w)%Z -> exists lg v,
  catch_call W p n ([b; h; w], x) s = Some ((([b; n], lg), ([b], v)), s) /\ forall i,
  let named m := (p ++ "/" ++ m)%string in
  let l1 u := pos (zsum h (fun y => zsum w (fun z => x [i; y; z] * w_of W (named "linear"%string) [(y * w + z)%Z; u])) + b_of W (named "linear"%string) [u]) in
  let l2 u := pos (zsum 128 (fun j => l1 j * w_of W (named "linear_1"%string) [j; u]) + b_of W (named "linear_1"%string) [u]) in
  (forall a, lg [i; a] = zsum 64 (fun j => l2 j * w_of W (named "linear_2"%string) [j; a]) + b_of W (named "linear_2"%string) [a]) /\
  v [i] = zsum 64 (fun j => l2 j * w_of W (named "linear_3"%string) [j; 0%Z]) + b_of W (named "linear_3"%string) [0%Z].
Proof.
  intros Hh Hw. unfold catch_call, catch_torso, thenv, flatten_v, squeeze_last_v, dense, linear_v, relu_v, layer, ident. cbn [fst snd]. rewrite flatten_shape.
  cbn [fst snd ModelImageNets.linear tl ModelShape.prod Z.eqb Pos.eqb]. do 2 eexists. split; [reflexivity|]. intros i. cbv zeta. cbn [app].
  assert (E : forall u, zsum (h * (w * 1)) (fun j => x (i :: unravel [h; w] j) * w_of W (inside_call p "linear") [j; u]) = zsum h (fun y => zsum w (fun z => x [i; y; z] * w_of W (p ++ "/" ++ "linear")%string [(y * w + z)%Z; u]))).
  { intros u. rewrite !Z.mul_1_r. rewrite zsum_split by nia. apply zsum_ext. intros y Hy. apply zsum_ext. intros z Hz. cbn [unravel ModelShape.prod]. rewrite !Z.mul_1_r, Z.div_1_r.
    rewrite (Z.div_add_l y w z) by lia. rewrite (Z.div_small z w) by exact Hz. rewrite (Z.add_comm (y * w) z), (Z.mod_add z y w) by lia. rewrite (Z.mod_small z w) by exact Hz. now rewrite Z.add_0_r, (Z.add_comm z). }
  assert (P : forall e, Rmax e 0 = pos e) by reflexivity.
  split; [intros a|]; f_equal; apply zsum_ext; intros j _; f_equal; rewrite P; f_equal; f_equal; apply zsum_ext; intros j' _; f_equal; rewrite P; f_equal; f_equal; apply E.
Qed.
Print Assumptions C95_catch_values.
Lemma only_first n f : (0 < n)%Z -> (forall j, (0 < j)%Z -> f j = 0) -> zsum n f = f 0%Z.
Proof.
  intros Hn Hf. rewrite (zsum_ext _ _ (fun a => if (a =? 0)%Z then f a else 0)), zsum_delta.
  - destruct (Z.ltb_spec 0 n); [reflexivity|lia].
  - intros i Hi. destruct (Z.eqb_spec i 0); [reflexivity|apply Hf; lia].
Qed.
Definition catch_weights : weights := Weights
  (fun n idx => if String.eqb n "c/linear" then match idx with [1; 0]%Z => 5 | _ => 0 end else if String.eqb n "c/linear_1" then match idx with [0; 0]%Z => 2 | _ => 0 end else match idx with [0; 0]%Z => 1 | _ => 0 end)
  (fun n _ => if String.eqb n "c/linear_2" then 3 else 0) (fun _ => BN (fun _ => 1) (fun _ => 0) (fun _ => 0) (fun _ => 0)).
(** A board of two squares with the ball in the second, one action: 5 in the first layer, 10 in the second, logit 13 and value 10. *)
Example C95_catch_values_case : exists lg v, catch_call catch_weights "c" 1 ([1; 1; 2]%Z, fun idx => match idx with [0; 0; 1]%Z => 1 | _ => 0 end) tt = Some ((([1; 1]%Z, lg), ([1%Z], v)), tt) /\ lg [0; 0]%Z = 13 /\ v [0%Z] = 10.
Proof.
  destruct (C95_catch_values catch_weights "c" 1 1 1 2 (fun idx => match idx with [0; 0; 1]%Z => 1 | _ => 0 end) tt ltac:(lia) ltac:(lia)) as (lg & v & E & H). exists lg, v. split; [exact E|].
  destruct (H 0%Z) as [L V]. rewrite L, V. clear.
  assert (P0 : forall u, 0 <= u -> pos u = u) by (intros u Hu; unfold pos; destruct (Rle_dec u 0); lra).
  rewrite !(only_first 64), !(only_first 128), !zsum_1; try lia.
  all: try (intros [|j|j] Hj; [lia| |lia]; cbn -[zsum pos Rplus Rmult]; ring).
  change (zsum 2 ?f) with (f 0%Z + (f 1%Z + 0)). cbn -[pos Rplus Rmult].
  rewrite !(P0 (0 * _ + _ + _)) by lra. rewrite !P0 by lra. split; lra.
Qed.

(** A shallow torso whose features are all 2, a value which is 7 times the first feature plus 1, and no LSTM. *)
Definition step_weights : weights := Weights (fun n idx => if String.eqb n "a/~_head/linear_1" then match idx with [0; 0]%Z => 7 | _ => 0 end else 0)
  (fun n _ => if String.eqb n "a/~unroll/atari_shallow_torso/linear" then 2 else if String.eqb n "a/~_head/linear_1" then 1 else 0) (fun _ => BN (fun _ => 1) (fun _ => 0) (fun _ => 0) (fun _ => 0)).
Example C95_step_case lw lb s : exists lg, agent_net step_weights lw lb "a" 3 false false ([84; 84; 4]%Z, fun _ => 9) true s = Some ((([3%Z], lg), 15), s) /\ lg [1%Z] = 0.
Proof.
  destruct (C95_step step_weights lw lb "a" 3 false false 84 84 4 (fun _ => 9) (fun _ => 9) true s ltac:(lia) ltac:(lia) ltac:(reflexivity)) as (f & lg & v & s' & out & T & O & E & V & L).
  destruct (C95_shallow step_weights "a/~unroll/atari_shallow_torso" 1 84 84 4 (fun _ => 9) ltac:(lia) ltac:(lia) ltac:(lia)) as (g & G & F).
  cbv iota in T. change ("a" ++ "/~unroll/atari_shallow_torso")%string with "a/~unroll/atari_shallow_torso"%string in T. rewrite G in T. 
  assert (FG : f = g) by (injection T as <-; reflexivity). subst f. clear T. cbv beta zeta iota in O. apply pair_equal_spec in O. destruct O as [-> ->].
  exists lg. rewrite E. assert (v = 15) as ->.
  { rewrite V. rewrite only_first; [|reflexivity|]. 
    - change (nth (Z.to_nat 0) (map (fun k => g [0%Z; Z.of_nat k]) (seq 0 512)) 0) with (g [0; 0]%Z). assert (G0 : g [0; 0]%Z = 2).
      { rewrite F by lia. rewrite (zsum_ext _ _ (fun _ => 0)), zsum_0.
        + change (pos (0 + 2) = 2). unfold pos. destruct Rle_dec; lra.
        + intros y _. rewrite (zsum_ext _ _ (fun _ => 0)), zsum_0; [reflexivity|]. intros z _. rewrite (zsum_ext _ _ (fun _ => 0)), zsum_0; [reflexivity|]. intros k _. change (w_of step_weights _ _) with 0. ring. }
      rewrite G0. change (2 * 7 + 1 = 15). ring.
    - intros [|j|j] Hj; [lia| |lia]. change (w_of step_weights _ _) with 0. ring. }
  split; [reflexivity|]. rewrite L by lia. rewrite (zsum_ext _ _ (fun _ => 0)), zsum_0; [cbn; ring|]. intros j _. change (w_of step_weights _ _) with 0. ring.
Qed.

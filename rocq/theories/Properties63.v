(** C97, second part: bounds, what does not matter, the networks of the example, truncated episodes *)
From Coq Require Import String List ZArith Reals Lra Lia.
From Verif Require Import ModelNets ModelTransformer ModelTraining ModelImageNets ModelImageValues ModelAtari ModelReal Properties14 Properties15 Properties22 Properties24 Properties35 Properties47 Properties55 Properties57 Properties58 ModelVtrace Properties62.
Import ListNotations.
Local Open Scope R_scope.

(** *** Signs and bounds *)
Theorem C97_entropy logits : logits <> [] -> 0 <= entropy logits <= ln (INR (length logits)).
Proof.
  intros N. assert (L0 : (0 < length logits)%nat) by (destruct logits; [easy|cbn; lia]).
  assert (E : entropy logits = - Rsum (map (fun l => l * ln l) (softmax logits))).
  { unfold entropy. f_equal. rewrite zipw_seq by now rewrite log_softmax_length, softmax_length. rewrite softmax_length.
    assert (M : map (fun l => l * ln l) (softmax logits) = map (fun i => nth i (softmax logits) 0 * ln (nth i (softmax logits) 0)) (seq 0 (length logits))).
    { apply (nth_ext _ _ 0 0); [now rewrite !map_length, softmax_length, seq_length|]. intros i H. rewrite map_length, softmax_length in H. rewrite (nth_map_in _ _ _ 0) by now rewrite softmax_length. rewrite (nth_map_in _ _ _ 0%nat) by now rewrite seq_length. now rewrite seq_nth. }
    rewrite M. apply f_equal. apply map_ext_in. intros i Hi. apply in_seq in Hi. now rewrite log_softmax_nth by lia. }
  rewrite E. split.
  - rewrite <- Ropp_0. apply Ropp_le_contravar. pose proof (softmax_pos logits) as P. pose proof (softmax_sum logits N) as S. rewrite Forall_forall in P.
    assert (Le : forall p, In p (softmax logits) -> p <= 1).
    { intros p Hp. rewrite <- S. revert Hp P. generalize (softmax logits). clear. intros l. induction l as [|q l IH]; intros Hp P; [easy|]. rewrite Rsum_cons. assert (Q : 0 <= Rsum l) by (apply Rsum_nonneg, Forall_forall; intros; apply Rlt_le, P; now right).
      destruct Hp as [->|Hp]; [lra|]. specialize (IH Hp (fun z Hz => P z (or_intror Hz))). pose proof (P q (or_introl eq_refl)). lra. }
    rewrite <- (Rmult_0_r (INR (length (softmax logits)))), <- (Rsum_const 0 (softmax logits)). apply Rsum_le. intros p Hp. specialize (P p Hp). specialize (Le p Hp). assert (ln p <= 0) by (rewrite <- ln_1; destruct (Rle_lt_or_eq_dec p 1 Le) as [H|H]; [apply Rlt_le, ln_increasing; lra|rewrite H; lra]). nra.
  - destruct (C90_gibbs (softmax logits) (repeat 0 (length logits))) as [G _]; [apply softmax_pos|now apply softmax_sum|now rewrite repeat_length, softmax_length|]. eapply Rle_trans; [exact G|]. right.
    unfold softmax_cross_entropy. rewrite log_softmax_zero by exact L0. rewrite constant_loss by apply softmax_length. rewrite softmax_sum by exact N. ring.
Qed.
Print Assumptions C97_entropy.
(** Both bounds are reached, the upper one by equal logits. *)
Example C97_entropy_case : entropy [7] = 0 /\ entropy [0; 0] = ln 2.
Proof.
  split; [destruct (C97_entropy [7]) as [H1 H2]; [discriminate|]; cbn [length INR] in H2; rewrite ln_1 in H2; lra|].
  unfold entropy. change [0; 0] with (repeat 0 2). rewrite (log_softmax_zero 2 ltac:(lia)). rewrite (constant_loss _ 2) by reflexivity. rewrite softmax_sum by discriminate. replace (INR 2) with 2 by (cbn; ring). ring.
Qed.
Lemma alive_01 {Obs St} (c : transition Obs St * (list R * R)) : alive c = 0 \/ alive c = 1.
Proof. unfold alive, mask_of. destruct (is_first (step_of (fst c))); [now left|now right]. Qed.
Theorem C97_signs {Obs St} (unroll : list (timestep Obs) -> St -> list (list R * R)) gamma m trs n : (forall l s, length (unroll l s) = length l) ->
  (forall l s o, In o (unroll l s) -> length (fst o) = n) -> (0 < n)%nat ->
  let batch := map (loss_terms unroll gamma m) trs in
  0 <= baseline_loss batch /\ - (INR (list_sum (map (fun tr => (length tr - 1)%nat) trs)) * ln (INR n)) <= entropy_loss batch <= 0.
Proof.
  intros UL HN Hn batch.
  assert (Mask : forall tr, Forall (fun w => w = 0 \/ w = 1) (t_mask (loss_terms unroll gamma m tr))).
  { intros tr. rewrite (terms_cells gamma m unroll tr (outputs_length unroll UL tr)). cbn [t_mask]. apply Forall_map, Forall_forall. intros p _. apply alive_01. }
  split.
  - unfold baseline_loss. apply Rmult_le_pos; [lra|]. apply Rsum_nonneg, Forall_concat, Forall_map, Forall_forall. intros t Ht. apply in_map_iff in Ht as (tr & <- & _). specialize (Mask tr).
    revert Mask. generalize (t_mask (loss_terms unroll gamma m tr)) (t_errors (loss_terms unroll gamma m tr)). clear. intros ws es. revert ws. induction es as [|e es IH]; intros [|w ws] F; constructor.
    + inversion F as [|? ? Hw _]; subst. cbn [fst snd]. apply Rmult_le_pos; [apply Rle_0_sqr|]. destruct Hw; subst; lra.
    + apply IH. now inversion F.
  - assert (Each : forall tr, - (INR (length tr - 1) * ln (INR n)) <= rlax_entropy_loss (t_logits (loss_terms unroll gamma m tr)) (t_mask (loss_terms unroll gamma m tr)) * INR (length (t_logits (loss_terms unroll gamma m tr))) <= 0).
    { intros tr. pose proof (outputs_length unroll UL tr) as OL. rewrite (terms_cells gamma m unroll tr OL). cbn [t_logits t_mask]. set (l := cells unroll tr).
      unfold rlax_entropy_loss. rewrite map_length, Ropp_mult_distr_l_reverse, mean_times by (rewrite zipw_length, !map_length; lia).
      assert (P : forall p, In p (pairs l) -> 0 <= entropy (fst (snd (fst p))) <= ln (INR n)).
      { intros [c d] Hp. unfold pairs in Hp. apply in_combine_l in Hp. unfold l, cells in Hp. destruct c as [a o]. apply in_combine_r in Hp. cbn [fst snd]. destruct tr as [|x tr]; [easy|]. apply HN in Hp. rewrite <- Hp. apply C97_entropy. destruct (fst o); [cbn in Hp; lia|discriminate]. }
      rewrite map_map, zipw_map. assert (Q : 0 <= Rsum (map (fun x => entropy (fst (snd (fst x))) * alive (snd x)) (pairs l)) <= INR (length (pairs l)) * ln (INR n)).
      { split.
        - apply Rsum_nonneg, Forall_map, Forall_forall. intros p Hp. apply Rmult_le_pos; [now apply P|]. destruct (alive_01 (snd p)) as [-> | ->]; lra.
        - rewrite <- Rsum_const. apply Rsum_le. intros p Hp. specialize (P p Hp). destruct (alive_01 (snd p)) as [-> | ->]; lra. }
      rewrite pairs_length in Q. unfold l in Q at 3. rewrite (cells_length unroll UL) in Q. lra. }
    unfold entropy_loss, batch. rewrite map_map. clear batch. induction trs as [|tr trs IH]; [unfold Rsum; cbn; lra|]. cbn [map list_sum fold_right]. fold (list_sum (map (fun tr => (length tr - 1)%nat) trs)). rewrite plus_INR, Rsum_cons. specialize (Each tr). lra.
Qed.
Print Assumptions C97_signs.

(** *** What does not matter *)
Section Irrelevant.
Context {Obs St : Type} (gamma m : R).
Notation cell := (transition Obs St * (list R * R))%type.
(** Two trajectories with the learner's outputs agree where it counts: at steps that do not end an episode, in all the loss reads; the last value is the bootstrap. *)
Inductive agrees : list cell -> list cell -> Prop :=
| AEnd c c' : snd (snd c) = snd (snd c') -> agrees [c] [c']
| AEpisode a a' b b' l l' : is_first (step_of (fst b)) = true -> is_first (step_of (fst b')) = true -> discount (step_of (fst a)) = 0 -> agrees (b :: l) (b' :: l') -> agrees (a :: b :: l) (a' :: b' :: l')
| AStep a a' b b' l l' : is_first (step_of (fst b)) = false -> is_first (step_of (fst b')) = false -> action_of (fst a) = action_of (fst a') -> logits_of (fst a) = logits_of (fst a') -> snd a = snd a' ->
    reward (step_of (fst b)) = reward (step_of (fst b')) -> discount (step_of (fst b)) = discount (step_of (fst b')) -> agrees (b :: l) (b' :: l') -> agrees (a :: b :: l) (a' :: b' :: l').
Lemma agrees_column l l' : agrees l l' -> column gamma m l = column gamma m l' /\
  match l, l' with b :: _, b' :: _ => (discount (step_of (fst b)) <> 0 -> snd (snd b) + hd 0 (err gamma m l) = snd (snd b') + hd 0 (err gamma m l')) | _, _ => True end.
Proof.
  induction 1 as [c c' E|a a' b b' l l' F F' D _ [IH _]|a a' b b' l l' F F' A L O Rw Dc _ [IH1 IH2]].
  - split; [reflexivity|]. cbn. intros _. rewrite E. reflexivity.
  - split; [|easy]. rewrite !column_cons, IH. unfold alive, mask_of. rewrite F, F'. ring.
  - assert (E : hd 0 (err gamma m (a :: b :: l)) = hd 0 (err gamma m (a' :: b' :: l'))).
    { rewrite !err_cons. cbn [hd]. unfold rho, gain, disc. rewrite A, L, O, Rw, <- Dc. destruct (Req_dec (discount (step_of (fst b))) 0) as [Z|Z]; [rewrite Z; ring|]. now rewrite (IH2 Z). }
    split; [|intros _; now rewrite E, O]. rewrite !column_cons, IH1, E. unfold alive, mask_of, contribution. now rewrite F, F', A, O.
Qed.
Theorem C97_irrelevant unroll unroll' tr tr' : (forall l s, length (unroll l s) = length l) -> (forall l s, length (unroll' l s) = length l) ->
  agrees (combine tr (match tr with [] => [] | x :: _ => unroll (map step_of tr) (state_of x) end)) (combine tr' (match tr' with [] => [] | x :: _ => unroll' (map step_of tr') (state_of x) end)) ->
  learner_loss unroll gamma m [tr] = learner_loss unroll' gamma m [tr'].
Proof.
  intros U U' A. rewrite (loss_columns gamma m unroll U), (loss_columns gamma m unroll' U'). cbn [map]. rewrite !Rsum_cons. f_equal. apply (agrees_column _ _ A).
Qed.
End Irrelevant.
Print Assumptions C97_irrelevant.

(** *** The agents of the example *)
Section Agent.
Context (W : weights) (lw : list (list R)) (lb : list R) (p : string) (n : Z) (use_resnet use_lstm : bool) (h w c : Z).
Notation frame := (list Z -> R).
(** [Agent.unroll] (agent.py:95-103) on one trajectory of frames of shape [h, w, c]: the network of haiku_nets.py on the observations stacked in time with a batch of one. *)
Definition stacked (l : list (timestep frame)) : arr :=
  ([Z.of_nat (length l); 1; h; w; c]%Z, fun idx => match idx with k :: _ :: r => match nth_error l (Z.to_nat k) with Some t => observation t r | None => 0 end | _ => 0 end).
Definition firsts (l : list (timestep frame)) (k : Z) : bool := match nth_error l (Z.to_nat k) with Some t => is_first t | None => false end.
Definition atari_outputs (l : list (timestep frame)) (s : core_state) : list (list R * R) :=
  match atari_unroll W lw lb p n use_resnet use_lstm (stacked l) (fun k _ => firsts l k) (fun _ => s) with
  | Some ((lg, v), _) => map (fun k => (map (fun a => snd lg [Z.of_nat k; 0; Z.of_nat a]%Z) (seq 0 (Z.to_nat n)), snd v [Z.of_nat k; 0]%Z)) (seq 0 (length l))
  | None => map (fun _ => ([], 0)) l
  end.
(** The same by steps. *)
Fixpoint by_steps (l : list (timestep frame)) (s : core_state) : list (list R * R) :=
  match l with
  | [] => []
  | x :: l => match agent_net W lw lb p n use_resnet use_lstm ([h; w; c], observation x) (is_first x) s with
              | Some ((lg, v), s') => (map (fun a => snd lg [Z.of_nat a]) (seq 0 (Z.to_nat n)), v) :: by_steps l s'
              | None => map (fun _ => ([], 0)) (x :: l)
              end
  end.
Lemma atari_length l s : length (atari_outputs l s) = length l.
Proof. unfold atari_outputs. destruct (atari_unroll _ _ _ _ _ _ _ _ _ _) as [[[lg v] s']|]; now rewrite !map_length, ?seq_length. Qed.
Lemma atari_wide l s o : (0 <= h)%Z -> (0 <= w)%Z -> In o (atari_outputs l s) -> length (fst o) = Z.to_nat n.
Proof.
  intros Hh Hw. unfold atari_outputs, stacked. match goal with |- context [(_, ?x)] => destruct (C95_defined W lw lb p n use_resnet use_lstm (Z.of_nat (length l)) 1 h w c x (fun k _ => firsts l k) (fun _ => s) ltac:(lia) ltac:(lia) Hh Hw) as (lg & v & s' & ->) end.
  intros H. apply in_map_iff in H as (k & <- & _). cbn [fst]. now rewrite map_length, seq_length.
Qed.
Lemma atari_steps l s : (0 <= h)%Z -> (0 <= w)%Z -> atari_outputs l s = by_steps l s.
Proof.
  intros Hh Hw. unfold atari_outputs. destruct (atari_unroll W lw lb p n use_resnet use_lstm (stacked l) (fun k _ => firsts l k) (fun _ => s)) as [[[lg v] s']|] eqn:E.
  2:{ exfalso. unfold stacked in E. match type of E with context [(_, ?x)] => destruct (C95_defined W lw lb p n use_resnet use_lstm (Z.of_nat (length l)) 1 h w c x (fun k _ => firsts l k) (fun _ => s) ltac:(lia) ltac:(lia) Hh Hw) as (lg & v & s' & E2) end. rewrite E in E2. discriminate. }
  destruct (C95_unroll W lw lb p n use_resnet use_lstm (stacked l) (fun k _ => firsts l k) (fun _ => s) lg v s' (Z.of_nat (length l)) 1 h w c 0%Z eq_refl ltac:(lia) Hh Hw ltac:(lia) E) as (st & S0 & _ & ST). clear E s'.
  assert (G : forall us vs, us ++ vs = l -> map (fun k => (map (fun a => snd lg [Z.of_nat k; 0; Z.of_nat a]%Z) (seq 0 (Z.to_nat n)), snd v [Z.of_nat k; 0]%Z)) (seq (length us) (length vs)) = by_steps vs (st (Z.of_nat (length us)))).
  { intros us vs. revert us. induction vs as [|x vs IH]; intros us U; [reflexivity|]. cbn [length seq map by_steps].
    destruct (ST (Z.of_nat (length us))) as (lg1 & Es & _ & El); [rewrite <- U, app_length; cbn; lia|].
    assert (Nx : nth_error l (length us) = Some x) by (rewrite <- U, nth_error_app2, Nat.sub_diag by lia; reflexivity).
    unfold obs_at, firsts, stacked in Es. cbn [fst snd skipn] in Es. rewrite Nat2Z.id, Nx in Es. change (fun idx => observation x idx) with (observation x) in Es. rewrite Es. f_equal.
    - f_equal. apply map_ext_in. intros a Ha. apply in_seq in Ha. symmetry. apply El. lia.
    - specialize (IH (us ++ [x])). rewrite app_length, <- app_assoc in IH. cbn [app length] in IH. rewrite Nat.add_1_r in IH. rewrite IH by exact U. f_equal. f_equal. lia. }
  specialize (G [] l eq_refl). cbn [length] in G. change (Z.of_nat 0) with 0%Z in G. rewrite S0 in G. exact G.
Qed.
Lemma feedforward_step obs first s s1 : use_lstm = false -> match agent_net W lw lb p n use_resnet use_lstm obs first s, agent_net W lw lb p n use_resnet use_lstm obs first s1 with Some (o, s'), Some (o1, s1') => o = o1 /\ s' = s /\ s1' = s1 | None, None => True | _, _ => False end.
Proof.
  intros ->. unfold agent_net, atari_unroll. destruct (batch_apply_v _ _) as [x|]; [|exact I]. destruct (batch_apply_v _ x) as [lg|]; [|exact I]. destruct (batch_apply_v _ x) as [v|]; [|exact I]. now repeat split.
Qed.
Lemma steps_reset us v vs s s' : is_first v = true -> by_steps (us ++ v :: vs) s = by_steps us s ++ by_steps (v :: vs) s' \/ exists x st, agent_net W lw lb p n use_resnet use_lstm ([h; w; c], x) false st = None \/ agent_net W lw lb p n use_resnet use_lstm ([h; w; c], x) true st = None.
Proof.
  intros F. revert s. induction us as [|u us IH]; intros s.
  - left. cbn [app]. destruct (Bool.bool_dec use_lstm true) as [L|L].
    + cbn [by_steps]. rewrite F. assert (E : forall a, agent_net W lw lb p n use_resnet use_lstm ([h; w; c], observation v) true a = agent_net W lw lb p n use_resnet use_lstm ([h; w; c], observation v) false core_zero) by (intros; rewrite L; apply C95_restart). now rewrite !E.
    + apply Bool.not_true_is_false in L. change (by_steps [] s ++ by_steps (v :: vs) s') with (by_steps (v :: vs) s'). generalize (v :: vs). clear -L. intros l. revert s s'. induction l as [|x l IH]; intros s s'; [reflexivity|]. cbn [by_steps]. pose proof (feedforward_step ([h; w; c]%Z, observation x) (is_first x) s s' L) as Q. destruct (agent_net _ _ _ _ _ _ _ _ _ s) as [[[lg v] a]|]; destruct (agent_net _ _ _ _ _ _ _ _ _ s') as [[[lg' v'] a']|]; try easy. destruct Q as (Q & -> & ->). apply pair_equal_spec in Q as [-> ->]. f_equal. apply IH.
  - cbn [app by_steps]. destruct (agent_net _ _ _ _ _ _ _ ([h; w; c]%Z, observation u) (is_first u) s) as [[[lg v'] a]|] eqn:E.
    + destruct (IH a) as [->|H]; [left; reflexivity|now right].
    + right. exists (observation u), s. destruct (is_first u); auto.
Qed.
Lemma atari_reset us v vs s s' : (0 <= h)%Z -> (0 <= w)%Z -> is_first v = true -> atari_outputs (us ++ v :: vs) s = atari_outputs us s ++ atari_outputs (v :: vs) s'.
Proof.
  intros Hh Hw F. rewrite !atari_steps by assumption. destruct (steps_reset us v vs s s' F) as [H|(x & st & H)]; [exact H|]. exfalso.
  assert (D : forall first, agent_net W lw lb p n use_resnet use_lstm ([h; w; c]%Z, x) first st <> None).
  { intros first. unfold agent_net, add_axis. cbn [fst snd]. match goal with |- context [(_, ?g)] => destruct (C95_defined W lw lb p n use_resnet use_lstm 1 1 h w c g (fun _ _ => first) (fun _ => st) ltac:(lia) ltac:(lia) Hh Hw) as (lg & v' & s2 & ->) end. discriminate. }
  destruct H as [H|H]; now apply D in H.
Qed.
Theorem C97_agents gamma m (xs ys : list (transition frame core_state)) : (0 <= h)%Z -> (0 <= w)%Z -> xs <> [] ->
  (forall x, nth_error xs (length xs - 1) = Some x -> discount (step_of x) = 0) -> (exists y l, ys = y :: l /\ is_first (step_of y) = true) ->
  learner_loss atari_outputs gamma m [xs ++ ys] = learner_loss atari_outputs gamma m [xs] + learner_loss atari_outputs gamma m [ys] /\
  (forall l s, length (atari_outputs l s) = length l) /\ (forall l s o, In o (atari_outputs l s) -> length (fst o) = Z.to_nat n).
Proof.
  intros Hh Hw N D Y. split; [|split; [apply atari_length|intros l s o; now apply atari_wide]].
  apply C97_episodes; [apply atari_length|exact N|intros; now apply atari_reset|exact D|exact Y].
Qed.
End Agent.
Print Assumptions C97_agents.

(** *** Concrete trajectories *)
(** A network with one logit per action, both 0, whose value is the observation. *)
Definition two_actions (l : list (timestep R)) (_ : unit) : list (list R * R) := map (fun t => ([0; 0], observation t)) l.
Definition turn (first : bool) r d o : transition R unit := Transition (Step first r d o) [0; 0] 0%nat tt.
Definition episode (d : R) : list (transition R unit) := [turn true 0 1 1; turn false 2 d 5].
Definition next_episode : list (transition R unit) := [turn true 0 1 3; turn false 1 1 4].
Lemma two_length l s : length (two_actions l s) = length l.
Proof. apply map_length. Qed.
Lemma half_prob : Rmin 1 (ratio [0; 0] [0; 0] 0) = 1.
Proof. unfold ratio. rewrite Rminus_diag_eq by reflexivity. rewrite exp_0. apply Rmin_left. lra. Qed.
Definition joined (d : R) := cells two_actions (episode d ++ next_episode).
Lemma joined_errors d : err (1 / 2) 0 (joined d) = [1 + d * (3 / 4); -7 / 2; 0].
Proof.
  unfold joined, cells, outputs, two_actions, episode, next_episode, turn. cbn [app map combine step_of observation state_of]. rewrite !err_cons. cbn [hd err]. unfold rho, gain, disc, clip. cbn [fst snd logits_of action_of step_of reward discount]. rewrite half_prob. destruct (Rlt_dec 0 0); [lra|]. repeat (f_equal; try field).
Qed.
Lemma terms_errors tr : t_errors (loss_terms two_actions (1 / 2) 0 tr) = err (1 / 2) 0 (cells two_actions tr) /\ t_mask (loss_terms two_actions (1 / 2) 0 tr) = map (fun p => alive (snd p)) (pairs (cells two_actions tr)).
Proof. rewrite (terms_cells (1 / 2) 0 two_actions tr (outputs_length two_actions two_length tr)). now split. Qed.
(** An episode that ends inside the trajectory: its steps have the errors they have on their own. *)
Example C97_episodes_case : t_errors (loss_terms two_actions (1 / 2) 0 (episode 0 ++ next_episode)) = [1; -7 / 2; 0] /\ t_mask (loss_terms two_actions (1 / 2) 0 (episode 0 ++ next_episode)) = [1; 0; 1] /\
  learner_loss two_actions (1 / 2) 0 [episode 0 ++ next_episode] = learner_loss two_actions (1 / 2) 0 [episode 0] + learner_loss two_actions (1 / 2) 0 [next_episode].
Proof.
  split; [|split].
  - rewrite (proj1 (terms_errors _)). fold (joined 0). rewrite joined_errors. repeat (f_equal; try field).
  - rewrite (proj2 (terms_errors _)). reflexivity.
  - apply C97_episodes; [exact two_length|discriminate| |intros x H; injection H as <-; reflexivity|exists (turn true 0 1 3), [turn false 1 1 4]; now split].
    intros us v vs s s' _. unfold two_actions. now rewrite map_app.
Qed.
(** An episode cut off by a time limit (dm_env [truncation]: LAST with discount 1) is not separated from the next one: the masked transition between them enters the targets before it.  [preprocess_step] (util.py:49-60) keeps the discount. *)
Theorem C97_truncation_refuted : exists (unroll : list (timestep R) -> unit -> list (list R * R)) xs ys,
  (forall us v vs s s', unroll (us ++ v :: vs) s = unroll us s ++ unroll (v :: vs) s') /\ (exists y l, ys = y :: l /\ is_first (step_of y) = true) /\ xs <> [] /\ Forall (fun x => discount (step_of x) = 1) (xs ++ ys) /\
  t_errors (loss_terms unroll (1 / 2) 0 (xs ++ ys)) = [7 / 4; -7 / 2; 0] /\ t_errors (loss_terms unroll (1 / 2) 0 xs) = [7 / 2] /\
  learner_loss unroll (1 / 2) 0 [xs ++ ys] <> learner_loss unroll (1 / 2) 0 [xs] + learner_loss unroll (1 / 2) 0 [ys].
Proof.
  exists two_actions, (episode 1), next_episode.
  assert (E1 : err (1 / 2) 0 (joined 1) = [7 / 4; -7 / 2; 0]) by (rewrite joined_errors; repeat (f_equal; try field)).
  assert (E2 : err (1 / 2) 0 (cells two_actions (episode 1)) = [7 / 2]).
  { unfold cells, outputs, two_actions, episode, turn. cbn [map combine step_of observation state_of]. rewrite !err_cons. cbn [hd err]. unfold rho, gain, disc, clip. cbn [fst snd logits_of action_of step_of reward discount]. rewrite half_prob. destruct (Rlt_dec 0 0); [lra|]. repeat (f_equal; try field). }
  split; [intros; unfold two_actions; now rewrite map_app|]. split; [exists (turn true 0 1 3), [turn false 1 1 4]; now split|]. split; [discriminate|]. split; [repeat constructor|].
  split; [rewrite (proj1 (terms_errors _)); exact E1|]. split; [rewrite (proj1 (terms_errors _)); exact E2|].
  rewrite !(loss_columns (1 / 2) 0 two_actions two_length). cbn [map]. rewrite !Rsum_cons, !Rsum_nil.
  assert (C : column (1 / 2) 0 (cells two_actions (episode 1 ++ next_episode)) - column (1 / 2) 0 (cells two_actions (episode 1)) - column (1 / 2) 0 (cells two_actions next_episode) = ln 2 * (7 / 4 - 7 / 2) + 1 / 4 * (49 / 16 - 49 / 4)).
  { fold (joined 1). revert E1 E2. unfold joined, cells, outputs, two_actions, episode, next_episode, turn. cbn [app map combine step_of observation state_of]. intros E1 E2. rewrite !column_cons, E1, E2. unfold alive, mask_of, contribution. cbn [fst snd step_of is_first hd action_of].
    assert (LP : log_prob [0; 0] 0 = - ln 2). { unfold log_prob. change [0; 0] with (repeat 0 2). rewrite (log_softmax_zero 2 ltac:(lia)). replace (INR 2) with 2 by (cbn; ring). reflexivity. }
    rewrite LP. repeat match goal with |- context [column ?g ?m [?c]] => change (column g m [c]) with 0 end. unfold Rsqr. field. }
  assert (L2 : 0 < ln 2) by (rewrite <- ln_1; apply ln_increasing; lra). lra.
Qed.
Print Assumptions C97_truncation_refuted.
(** The loss of the two episodes; the values of the second one are right. *)
Example C97_loss_case : learner_loss two_actions (1 / 2) 0 [episode 0; next_episode] = ln 2 + 1 / 4 - 1 / 50 * ln 2 /\ lite_loss two_actions (1 / 2) 0 [episode 0; next_episode] = (ln 2 + 1 / 4 - 1 / 50 * ln 2) / 2.
Proof.
  assert (E : learner_loss two_actions (1 / 2) 0 [episode 0; next_episode] = ln 2 + 1 / 4 - 1 / 50 * ln 2).
  { rewrite (loss_columns (1 / 2) 0 two_actions two_length). unfold cells, outputs, two_actions, episode, next_episode, turn. cbn [app map combine step_of observation state_of]. rewrite !Rsum_cons, Rsum_nil, !column_cons, !err_cons. cbn [hd err]. unfold alive, mask_of, contribution, rho, gain, disc, clip. cbn [fst snd step_of is_first action_of logits_of reward discount].
    assert (LP : log_prob [0; 0] 0 = - ln 2). { unfold log_prob. change [0; 0] with (repeat 0 2). rewrite (log_softmax_zero 2 ltac:(lia)). replace (INR 2) with 2 by (cbn; ring). reflexivity. }
    rewrite LP, half_prob, (proj2 C97_entropy_case). destruct (Rlt_dec 0 0); [lra|]. repeat match goal with |- context [column ?g ?m [?c]] => change (column g m [c]) with 0 end. unfold Rsqr. field. }
  split; [exact E|]. rewrite <- E, <- (C97_lite (1 / 2) 0 two_actions two_length [episode 0; next_episode] 1); [cbn [length Nat.mul Nat.add INR]; field|lia|discriminate|intros tr [<-|[<-|[]]]; reflexivity].
Qed.
Example C97_consistent_case : policy_gradient_loss (map (loss_terms two_actions (1 / 2) 0) [next_episode]) = 0 /\ baseline_loss (map (loss_terms two_actions (1 / 2) 0) [next_episode]) = 0.
Proof.
  apply C97_consistent; [exact two_length|]. intros tr t a b o o' [<-|[]] Ha Hb Ho Ho'. destruct t as [|[|t]]; [|discriminate Hb|destruct t; discriminate Hb].
  injection Ha as <-. injection Hb as <-. injection Ho as <-. injection Ho' as <-. cbn [step_of is_first turn snd observation reward discount]. unfold clip. destruct (Rlt_dec 0 0); [lra|]. field.
Qed.
(** Off-policy data: the actor preferred the action more than the learner does, and the error is cut by the ratio. *)
Definition eager (tr : list (transition R unit)) := map (fun t => Transition (step_of t) [ln 3; 0] (action_of t) tt) tr.
Example C97_errors_case : t_errors (loss_terms two_actions (1 / 2) 0 (eager (episode 0))) = [2 / 3].
Proof.
  rewrite (proj1 (terms_errors _)). unfold cells, outputs, two_actions, episode, turn, eager. cbn [map combine step_of observation state_of]. rewrite err_cons. cbn [hd err]. unfold rho, gain, disc, clip. cbn [fst snd step_of logits_of action_of reward discount].
  assert (Q : ratio [0; 0] [ln 3; 0] 0 = 2 / 3).
  { unfold ratio, log_prob. rewrite !log_softmax_nth by (cbn; lia). unfold softmax, zipw, Rsum. cbn. rewrite exp_ln, exp_0 by lra. unfold Rminus. rewrite <- ln_Rinv, <- ln_mult, exp_ln; lra. }
  rewrite Q. rewrite Rmin_right by lra. destruct (Rlt_dec 0 0); [lra|]. f_equal. field.
Qed.
(** Rewards cut at 1, a discount factor of 1/2: targets are between -2 and 2. *)
Example C97_targets_case : t_errors (loss_terms two_actions (1 / 2) 1 [turn true 0 1 2; turn false 100 1 2]) = [0].
Proof.
  rewrite (terms_cells (1 / 2) 1 two_actions _ (outputs_length two_actions two_length _)). cbn [t_errors]. unfold cells, outputs, two_actions, turn. cbn [map combine step_of observation state_of]. rewrite err_cons. cbn [hd err]. unfold rho, gain, disc, clip. cbn [fst snd step_of logits_of action_of reward discount]. rewrite half_prob. destruct (Rlt_dec 0 1); [|lra]. rewrite Rmin_right; [f_equal; field|]. rewrite Rmax_left; lra.
Qed.
(** The frame, the action and the logits at the end of the episode do not matter, nor do the reward and the discount at the beginning of the next. *)
Example C97_irrelevant_case : learner_loss two_actions (1 / 2) 0 [episode 0 ++ next_episode] =
  learner_loss two_actions (1 / 2) 0 [[turn true 9 8 1; Transition (Step false 2 0 77) [3; 4] 1%nat tt; turn true 5 6 3; turn false 1 1 4]].
Proof.
  apply C97_irrelevant; [exact two_length|exact two_length|]. cbn -[IZR]. apply AStep; try reflexivity. apply AEpisode; try reflexivity. apply AStep; try reflexivity. apply AEnd. reflexivity.
Qed.
(** The ResNet agent with an LSTM on frames of 84 x 84 x 4. *)
Example C97_agents_case W lw lb f : let step first d : transition (list Z -> R) core_state := Transition (Step first 0 d f) [] 0%nat core_zero in let unroll := atari_outputs W lw lb "n"%string 6 true true 84 84 4 in
  learner_loss unroll (99 / 100) 1 [[step true 1; step false 1; step false 0; step true 1; step false 1]] = learner_loss unroll (99 / 100) 1 [[step true 1; step false 1; step false 0]] + learner_loss unroll (99 / 100) 1 [[step true 1; step false 1]].
Proof.
  intros step unroll. apply (C97_agents W lw lb "n"%string 6 true true 84 84 4 (99 / 100) 1 [step true 1; step false 1; step false 0] [step true 1; step false 1]); [lia|lia|discriminate| |].
  - intros x H. injection H as <-. reflexivity.
  - exists (step true 1), [step false 1]. now split.
Qed.

(** C97: the losses of the IMPALA examples *)
From Coq Require Import List Reals Lra Lia.
From Verif Require Import ModelTransformer ModelReal ModelVtrace Properties14.
Import ListNotations.
Local Open Scope R_scope.

(** *** Lists of consecutive pairs *)
Definition pairs {A} (l : list A) : list (A * A) := combine l (tl l).
Lemma pairs_cons {A} (a b : A) l : pairs (a :: b :: l) = (a, b) :: pairs (b :: l).
Proof. reflexivity. Qed.
Lemma pairs_fst {A B} (f : A -> B) l : map f (removelast l) = map (fun p => f (fst p)) (pairs l).
Proof. induction l as [|a [|b l] IH]; [reflexivity|reflexivity|]. rewrite pairs_cons. cbn [removelast map fst]. f_equal. exact IH. Qed.
Lemma pairs_snd {A B} (f : A -> B) l : map f (tl l) = map (fun p => f (snd p)) (pairs l).
Proof. induction l as [|a [|b l] IH]; [reflexivity|reflexivity|]. rewrite pairs_cons. cbn [tl map snd] in *. f_equal. exact IH. Qed.
Lemma pairs_length {A} (l : list A) : length (pairs l) = (length l - 1)%nat.
Proof. unfold pairs. rewrite combine_length. destruct l; cbn [tl length]; lia. Qed.
Lemma zipw_map {A} f (g h : A -> R) l : zipw f (map g l) (map h l) = map (fun x => f (g x) (h x)) l.
Proof. unfold zipw. induction l as [|a l IH]; [reflexivity|]. cbn. now rewrite IH. Qed.
Lemma combine_map {A B C} (g : A -> B) (h : A -> C) l : combine (map g l) (map h l) = map (fun x => (g x, h x)) l.
Proof. induction l as [|a l IH]; [reflexivity|]. cbn. now rewrite IH. Qed.
Lemma map_fst_combine {A B} (l : list A) (m : list B) : length l = length m -> map fst (combine l m) = l.
Proof. revert m. induction l as [|a l IH]; intros [|b m] H; try discriminate; [reflexivity|]. cbn. f_equal. apply IH. now injection H. Qed.
Lemma map_snd_combine {A B} (l : list A) (m : list B) : length l = length m -> map snd (combine l m) = m.
Proof. revert m. induction l as [|a l IH]; intros [|b m] H; try discriminate; [reflexivity|]. cbn. f_equal. apply IH. now injection H. Qed.
Lemma map_tl {A B} (f : A -> B) l : map f (tl l) = tl (map f l).
Proof. now destruct l. Qed.
Lemma map_removelast {A B} (f : A -> B) l : map f (removelast l) = removelast (map f l).
Proof. induction l as [|a [|b l] IH]; [reflexivity|reflexivity|]. cbn [removelast map] in *. f_equal. exact IH. Qed.

Section Loss.
Context {Obs St : Type} (gamma m : R).
Notation cell := (transition Obs St * (list R * R))%type.
Notation V := (fun c : cell => snd (snd c)).
Notation PI := (fun c : cell => fst (snd c)).
Definition rho (c : cell) : R := Rmin 1 (ratio (fst (snd c)) (logits_of (fst c)) (action_of (fst c))).
Definition gain (c : cell) : R := clip m (reward (step_of (fst c))).
Definition disc (c : cell) : R := discount (step_of (fst c)) * gamma.
Definition alive (c : cell) : R := mask_of (step_of (fst c)).
(** The errors by recursion over a trajectory and the learner's outputs. *)
Fixpoint err (l : list cell) : list R :=
  match l with
  | a :: l => match l with
              | b :: _ => let e := err l in (rho a * (gain b + disc b * (V b + hd 0 e) - V a)) :: e
              | [] => []
              end
  | [] => []
  end.
Lemma err_cons a b l : err (a :: b :: l) = (rho a * (gain b + disc b * (V b + hd 0 (err (b :: l))) - V a)) :: err (b :: l).
Proof. reflexivity. Qed.
Lemma err_length l : length (err l) = (length l - 1)%nat.
Proof. induction l as [|a [|b l] IH]; [reflexivity|reflexivity|]. rewrite err_cons. cbn [length] in *. lia. Qed.
Context (unroll : list (timestep Obs) -> St -> list (list R * R)).
Definition outputs (tr : list (transition Obs St)) : list (list R * R) := match tr with [] => [] | x :: _ => unroll (map step_of tr) (state_of x) end.
Definition cells (tr : list (transition Obs St)) : list cell := combine tr (outputs tr).

Lemma accumulate_err l : accumulate (map (fun p : cell * cell => rho (fst p) * (gain (snd p) + disc (snd p) * V (snd p) - V (fst p))) (pairs l)) (map (fun p => disc (snd p) * rho (fst p)) (pairs l)) = err l.
Proof.
  induction l as [|a [|b l] IH]; [reflexivity|reflexivity|]. rewrite pairs_cons, err_cons. cbn [map fst snd accumulate]. rewrite IH. f_equal. ring.
Qed.
Fixpoint boot (l : list cell) : list R :=
  match l with
  | a :: l => match l with b :: _ => (V b + hd 0 (err l)) :: boot l | [] => [] end
  | [] => []
  end.
Lemma boot_cons a b l : boot (a :: b :: l) = (V b + hd 0 (err (b :: l))) :: boot (b :: l).
Proof. reflexivity. Qed.
Lemma zipw_cons f a b l k : zipw f (a :: l) (b :: k) = f a b :: zipw f l k.
Proof. reflexivity. Qed.
Lemma boot_eq l : tl (zipw Rplus (err l) (map (fun p : cell * cell => V (fst p)) (pairs l))) ++ skipn (length (pairs l) - 1) (map (fun p => V (snd p)) (pairs l)) = boot l.
Proof.
  induction l as [|a [|b l] IH]; [reflexivity|reflexivity|]. rewrite pairs_cons, err_cons, boot_cons. cbn [map fst snd length]. rewrite zipw_cons. cbn [tl]. destruct l as [|c l].
  - cbn. f_equal. ring.
  - rewrite pairs_cons, err_cons in *. cbn [map fst snd length] in *. rewrite zipw_cons in *. cbn [tl app hd] in *. replace (S (S (length (pairs (c :: l)))) - 1)%nat with (S (S (length (pairs (c :: l))) - 1)) by lia. cbn [skipn]. rewrite IH. f_equal. ring.
Qed.
Lemma advantage_err l : zipw Rmult (map (fun p : cell * cell => rho (fst p)) (pairs l)) (zipw Rminus (zipw Rplus (map (fun p => gain (snd p)) (pairs l)) (zipw Rmult (map (fun p => disc (snd p)) (pairs l)) (boot l))) (map (fun p => V (fst p)) (pairs l))) = err l.
Proof. induction l as [|a [|b l] IH]; [reflexivity|reflexivity|]. rewrite pairs_cons, err_cons, boot_cons. cbn [map fst snd]. rewrite !zipw_cons, IH. f_equal. Qed.

(** The terms of the loss, over pairs of consecutive cells. *)
Lemma terms_cells tr : length (outputs tr) = length tr -> let l := cells tr in
  loss_terms unroll gamma m tr = Terms (map (fun p => PI (fst p)) (pairs l)) (map (fun p => action_of (fst (fst p))) (pairs l)) (err l) (err l) (map (fun p => alive (snd p)) (pairs l)).
Proof.
  intros L l. destruct tr as [|x tr]; [reflexivity|]. unfold loss_terms. cbv zeta. change (unroll (map step_of (x :: tr)) (state_of x)) with (outputs (x :: tr)).
  assert (E1 : x :: tr = map fst l) by (symmetry; now apply map_fst_combine). assert (E2 : outputs (x :: tr) = map snd l) by (symmetry; now apply map_snd_combine).
  rewrite E2, E1. clear E1 E2. generalize dependent l. clear L x tr. intros l. rewrite <- !map_removelast, <- !map_tl, !map_map, !pairs_fst, !pairs_snd, !combine_map, !map_map. cbn [fst snd].
  unfold vtrace_advantages, vtrace_errors. rewrite !map_map. cbv zeta. rewrite !zipw_map.
  pose proof (accumulate_err l) as A. unfold rho, gain, disc in A.
  rewrite A. f_equal. rewrite map_length. rewrite boot_eq. exact (advantage_err l).
Qed.
(** What one step contributes to the learner's loss, given its error. *)
Definition contribution (c : cell) (e : R) : R := - log_prob (PI c) (action_of (fst c)) * e + 1 / 4 * Rsqr e - 1 / 100 * entropy (PI c).
Fixpoint column (l : list cell) : R :=
  match l with
  | a :: l' => match l' with b :: _ => alive b * contribution a (hd 0 (err l)) + column l' | [] => 0 end
  | [] => 0
  end.
Lemma column_cons a b l : column (a :: b :: l) = alive b * contribution a (hd 0 (err (a :: b :: l))) + column (b :: l).
Proof. reflexivity. Qed.
Lemma Rsum_cons x l : Rsum (x :: l) = x + Rsum l.
Proof. reflexivity. Qed.
Definition steps_of (tr : list (transition Obs St)) : nat := length tr - 1.
Lemma mean_times l n : length l = n -> mean l * INR n = Rsum l.
Proof. intros <-. unfold mean. destruct l as [|x l]; [unfold Rsum; cbn; ring|]. field. apply not_0_INR. cbn. lia. Qed.
Lemma pg_column l : Rsum (zipw Rmult (zipw Rmult (map (fun p => - log_prob (fst p) (snd p)) (combine (map (fun p : cell * cell => PI (fst p)) (pairs l)) (map (fun p => action_of (fst (fst p))) (pairs l)))) (err l)) (map (fun p => alive (snd p)) (pairs l)))
   + 1 / 4 * Rsum (zipw Rmult (map Rsqr (err l)) (map (fun p => alive (snd p)) (pairs l)))
   + 1 / 100 * - Rsum (zipw Rmult (map entropy (map (fun p => PI (fst p)) (pairs l))) (map (fun p => alive (snd p)) (pairs l))) = column l.
Proof.
  induction l as [|a [|b l] IH]; [cbn; lra|cbn; lra|]. rewrite column_cons, <- IH, pairs_cons. rewrite err_cons. set (e := err (b :: l)). cbn [map fst snd combine hd]. rewrite !zipw_cons, !Rsum_cons. unfold contribution. ring.
Qed.

Context (unroll_length : forall l s, length (unroll l s) = length l).
Lemma outputs_length tr : length (outputs tr) = length tr.
Proof. destruct tr as [|x tr]; [reflexivity|]. unfold outputs. now rewrite unroll_length, map_length. Qed.
Lemma cells_length tr : length (cells tr) = length tr.
Proof. unfold cells. rewrite combine_length, outputs_length. lia. Qed.
Lemma concat_Rsum (ls : list (list R)) : Rsum (concat ls) = Rsum (map Rsum ls).
Proof. induction ls as [|l ls IH]; [reflexivity|]. cbn [concat map]. now rewrite Rsum_app, Rsum_cons, IH. Qed.
Lemma zipw_length f a b : length (zipw f a b) = Nat.min (length a) (length b).
Proof. unfold zipw. now rewrite map_length, combine_length. Qed.
Lemma loss_columns trs : learner_loss unroll gamma m trs = Rsum (map (fun tr => column (cells tr)) trs).
Proof.
  unfold learner_loss, policy_gradient_loss, baseline_loss, entropy_loss. rewrite concat_Rsum, !map_map. cbv zeta. induction trs as [|tr trs IH]; [unfold Rsum; cbn; ring|]. cbn [map]. rewrite !Rsum_cons, <- IH. rewrite <- pg_column.
  rewrite (terms_cells tr (outputs_length tr)). cbn [t_logits t_actions t_errors t_advantages t_mask]. set (l := cells tr). rewrite !map_length, pairs_length.
  unfold rlax_policy_gradient_loss at 1, rlax_entropy_loss at 1. rewrite mean_times by (rewrite !zipw_length, !map_length, combine_length, !map_length, err_length, pairs_length; lia). rewrite Ropp_mult_distr_l_reverse, mean_times by (rewrite !zipw_length, !map_length, pairs_length; lia).
  field.
Qed.

(** *** Closed forms *)
Lemma nth_err l t a b : nth_error l t = Some a -> nth_error l (S t) = Some b -> nth t (err l) 0 = rho a * (gain b + disc b * (V b + nth (S t) (err l) 0) - V a).
Proof.
  revert l. induction t as [|t IH]; intros [|x [|y l]] Ha Hb; try discriminate.
  - injection Ha as ->. injection Hb as ->. rewrite err_cons. cbn [nth]. now destruct (err (b :: l)).
  - rewrite err_cons. change (nth (S t) (?u :: ?v) 0) with (nth t v 0). change (nth (S (S t)) (?u :: ?v) 0) with (nth (S t) v 0). now apply IH.
Qed.
Lemma nth_cells tr t a o : nth_error tr t = Some a -> nth_error (outputs tr) t = Some o -> nth_error (cells tr) t = Some (a, o).
Proof.
  unfold cells. generalize (outputs tr). revert tr. induction t as [|t IH]; intros [|x tr] [|y os] Ha Ho; try discriminate; [now injection Ha as ->; injection Ho as ->|]. cbn. now apply IH.
Qed.
(** The v-trace errors of a trajectory: one for each step but the last, and the advantages are the same numbers. *)
Theorem C97_errors tr : let T := loss_terms unroll gamma m tr in
  t_advantages T = t_errors T /\ length (t_errors T) = (length tr - 1)%nat /\
  forall t a b o o', nth_error tr t = Some a -> nth_error tr (S t) = Some b -> nth_error (outputs tr) t = Some o -> nth_error (outputs tr) (S t) = Some o' ->
  nth t (t_errors T) 0 = Rmin 1 (ratio (fst o) (logits_of a) (action_of a)) * (clip m (reward (step_of b)) + discount (step_of b) * gamma * (snd o' + nth (S t) (t_errors T) 0) - snd o).
Proof.
  cbv zeta. rewrite (terms_cells tr (outputs_length tr)). cbn [t_errors t_advantages]. split; [reflexivity|]. split; [now rewrite err_length, cells_length|]. intros t a b o o' Ha Hb Ho Ho'.
  exact (nth_err (cells tr) t (a, o) (b, o') (nth_cells _ _ _ _ Ha Ho) (nth_cells _ _ _ _ Hb Ho')).
Qed.
Lemma column_seq l : column l = Rsum (map (fun t => match nth_error l t, nth_error l (S t) with Some a, Some b => alive b * contribution a (nth t (err l) 0) | _, _ => 0 end) (seq 0 (length l - 1))).
Proof.
  induction l as [|a [|b l] IH]; [reflexivity|reflexivity|]. rewrite column_cons, IH. replace (length (a :: b :: l) - 1)%nat with (S (length (b :: l) - 1)) by (cbn; lia). cbn [seq]. rewrite <- seq_shift. cbn [map]. rewrite map_map, Rsum_cons. f_equal.
Qed.
(** The loss: a sum over the steps whose next time step does not begin an episode. *)
Theorem C97_loss trs : learner_loss unroll gamma m trs = Rsum (map (fun tr => Rsum (map (fun t =>
    match nth_error tr t, nth_error tr (S t), nth_error (outputs tr) t with
    | Some a, Some b, Some o => let e := nth t (t_errors (loss_terms unroll gamma m tr)) 0 in
                                if is_first (step_of b) then 0 else - log_prob (fst o) (action_of a) * e + 1 / 4 * (e * e) - 1 / 100 * entropy (fst o)
    | _, _, _ => 0 end) (seq 0 (length tr - 1)))) trs).
Proof.
  rewrite loss_columns. f_equal. apply map_ext. intros tr. rewrite column_seq, cells_length. f_equal. apply map_ext_in. intros t Ht. apply in_seq in Ht.
  rewrite (terms_cells tr (outputs_length tr)). cbn [t_errors]. pose proof (outputs_length tr) as L.
  destruct (nth_error tr t) as [a|] eqn:Ea; [|apply nth_error_None in Ea; lia]. destruct (nth_error tr (S t)) as [b|] eqn:Eb; [|apply nth_error_None in Eb; lia].
  destruct (nth_error (outputs tr) t) as [o|] eqn:Eo; [|apply nth_error_None in Eo; lia]. destruct (nth_error (outputs tr) (S t)) as [o'|] eqn:Eo'; [|apply nth_error_None in Eo'; lia].
  rewrite (nth_cells _ _ _ _ Ea Eo), (nth_cells _ _ _ _ Eb Eo'). unfold alive, mask_of, contribution. cbn [fst snd]. destruct (is_first (step_of b)); unfold Rsqr; ring.
Qed.
(** With the logits that the actor used, the errors lead to the n-step returns. *)
Theorem C97_on_policy tr : (forall t a o, nth_error tr t = Some a -> nth_error (outputs tr) t = Some o -> fst o = logits_of a) ->
  forall t b o o', nth_error tr (S t) = Some b -> nth_error (outputs tr) t = Some o -> nth_error (outputs tr) (S t) = Some o' -> let e := fun t => nth t (t_errors (loss_terms unroll gamma m tr)) 0 in
  snd o + e t = clip m (reward (step_of b)) + discount (step_of b) * gamma * (snd o' + e (S t)).
Proof.
  intros H t b o o' Hb Ho Ho' e. destruct (nth_error tr t) as [a|] eqn:Ha; [|apply nth_error_None in Ha; assert (S t < length tr)%nat by (apply nth_error_Some; congruence); lia].
  destruct (C97_errors tr) as (_ & _ & E). specialize (E t a b o o' Ha Hb Ho Ho'). fold (e t) in E. fold (e (S t)) in E. rewrite E. rewrite (H t a o Ha Ho). unfold ratio. rewrite Rminus_diag_eq, exp_0 by reflexivity. rewrite Rmin_left by lra. ring.
Qed.
(** The targets [v + error] are between the learner's values and the targets of the next step; bounded rewards and values give bounded targets. *)
Lemma clip_bound r : 0 < m -> - m <= clip m r <= m.
Proof. intros Hm. unfold clip. destruct (Rlt_dec 0 m); [|lra]. unfold Rmin, Rmax. repeat destruct Rle_dec; lra. Qed.
Theorem C97_targets tr : 0 < m -> 0 <= gamma < 1 -> let bound := m / (1 - gamma) in
  (forall x, In x tr -> 0 <= discount (step_of x) <= 1) -> (forall o, In o (outputs tr) -> - bound <= snd o <= bound) ->
  forall t o, nth_error (outputs tr) t = Some o -> - bound <= snd o + nth t (t_errors (loss_terms unroll gamma m tr)) 0 <= bound.
Proof.
  intros Hm Hg bound Hd Hv. assert (Bp : m + gamma * bound = bound) by (unfold bound; field; lra). assert (B0 : 0 < bound) by (unfold bound; apply Rdiv_lt_0_compat; lra).
  destruct (C97_errors tr) as (_ & L & E). intros t. remember (length tr - t)%nat as k eqn:Hk. revert t Hk. induction k as [|k IH]; intros t Hk o Ho.
  - pose proof (outputs_length tr) as LO. assert (t < length (outputs tr))%nat by (apply nth_error_Some; congruence). lia.
  - destruct (nth_error (outputs tr) (S t)) as [o'|] eqn:Ho'.
    + pose proof (outputs_length tr) as LO. assert (S t < length (outputs tr))%nat by (apply nth_error_Some; congruence).
      destruct (nth_error tr t) as [a|] eqn:Ha; [|apply nth_error_None in Ha; lia]. destruct (nth_error tr (S t)) as [b|] eqn:Hb; [|apply nth_error_None in Hb; lia].
      rewrite (E t a b o o' Ha Hb Ho Ho'). specialize (IH (S t) ltac:(lia) o' Ho'). set (y := snd o' + nth (S t) (t_errors (loss_terms unroll gamma m tr)) 0) in *.
      pose proof (Hd b (nth_error_In _ _ Hb)) as D. pose proof (Hv o (nth_error_In _ _ Ho)) as Vo. pose proof (clip_bound (reward (step_of b)) Hm) as C.
      set (r := clip m _) in *. set (d := discount _) in *. set (v := snd o) in *. 
      assert (Rr : 0 <= Rmin 1 (ratio (fst o) (logits_of a) (action_of a)) <= 1) by (split; [apply Rmin_glb; [lra|unfold ratio; apply Rlt_le, exp_pos]|apply Rmin_l]).
      set (p := Rmin 1 _) in *.
      assert (Dg : 0 <= d * gamma <= gamma) by (split; [apply Rmult_le_pos; lra|]; rewrite <- (Rmult_1_l gamma) at 2; apply Rmult_le_compat_r; lra).
      assert (Z : - bound <= r + d * gamma * y <= bound).
      { assert (- (gamma * bound) <= d * gamma * y <= gamma * bound) by (split; nra). lra. }
      set (z := r + d * gamma * y) in *. nra.
    + rewrite nth_overflow; [rewrite Rplus_0_r; apply Hv; eapply nth_error_In, Ho|]. rewrite L. apply nth_error_None in Ho'. rewrite outputs_length in Ho'. lia.
Qed.

(** *** Episodes *)
Lemma err_app xs b ys : xs <> [] -> (1 < length xs)%nat -> (forall c, nth_error xs (length xs - 1) = Some c -> disc c = 0) -> hd 0 (err (xs ++ b :: ys)) = hd 0 (err xs).
Proof.
  induction xs as [|a [|c xs] IH]; intros N L Hd; [easy|cbn in L; lia|]. cbn [app]. rewrite !err_cons. cbn [hd]. destruct xs as [|d xs].
  - assert (D : disc c = 0) by (apply Hd; reflexivity). rewrite D. ring.
  - cbn [app] in *. rewrite IH; [reflexivity|discriminate|cbn; lia|]. intros c' E. apply Hd. exact E.
Qed.
Lemma column_app xs b ys : xs <> [] -> is_first (step_of (fst b)) = true -> (forall c, nth_error xs (length xs - 1) = Some c -> disc c = 0) -> column (xs ++ b :: ys) = column xs + column (b :: ys).
Proof.
  intros N Hb. induction xs as [|a [|c xs] IH]; intros Hd; [easy| |].
  - cbn [app]. rewrite column_cons. unfold alive, mask_of. rewrite Hb. cbn [column]. ring.
  - cbn [app]. rewrite !column_cons. change (c :: xs ++ b :: ys) with ((c :: xs) ++ b :: ys). rewrite IH; [|discriminate|intros c' E; apply Hd; cbn in E |- *; now rewrite Nat.sub_0_r in E].
    change (a :: (c :: xs) ++ b :: ys) with ((a :: c :: xs) ++ b :: ys). rewrite err_app; [ring|discriminate|cbn; lia|exact Hd].
Qed.
Lemma combine_app' {A B} (l1 l2 : list A) (m1 m2 : list B) : length l1 = length m1 -> combine (l1 ++ l2) (m1 ++ m2) = combine l1 m1 ++ combine l2 m2.
Proof. revert m1. induction l1 as [|a l1 IH]; intros [|b m1] H; try discriminate; [reflexivity|]. cbn. f_equal. apply IH. now injection H. Qed.
(** A trajectory that contains an episode's end is worth as much as its two parts, if the discount at the end is 0 and the network starts afresh at a first step. *)
Theorem C97_episodes xs ys : xs <> [] -> (forall us v vs s s', is_first v = true -> unroll (us ++ v :: vs) s = unroll us s ++ unroll (v :: vs) s') ->
  (forall x, nth_error xs (length xs - 1) = Some x -> discount (step_of x) = 0) -> (exists y l, ys = y :: l /\ is_first (step_of y) = true) ->
  learner_loss unroll gamma m [xs ++ ys] = learner_loss unroll gamma m [xs] + learner_loss unroll gamma m [ys].
Proof.
  intros N Hr Hd (y & l & -> & Hy). rewrite !loss_columns. cbn [map]. rewrite !Rsum_cons, Rsum_nil, !Rplus_0_r.
  assert (C : cells (xs ++ y :: l) = cells xs ++ cells (y :: l)).
  { unfold cells. assert (O : outputs (xs ++ y :: l) = outputs xs ++ outputs (y :: l)).
    { destruct xs as [|x xs]; [easy|]. unfold outputs. change ((x :: xs) ++ y :: l) with (x :: (xs ++ y :: l)). cbn iota. change (x :: (xs ++ y :: l)) with ((x :: xs) ++ y :: l). rewrite map_app. cbn [map]. now rewrite (Hr _ _ _ _ (state_of y)). }
    rewrite O. apply combine_app'. now rewrite outputs_length. }
  rewrite C. assert (E : cells (y :: l) = (y, hd ([], 0) (outputs (y :: l))) :: combine l (tl (outputs (y :: l)))).
  { unfold cells. pose proof (outputs_length (y :: l)) as L. destruct (outputs (y :: l)) as [|o os]; [discriminate L|reflexivity]. }
  rewrite E. apply column_app.
  - pose proof (cells_length xs) as L. intros Z. rewrite Z in L. destruct xs; [easy|discriminate L].
  - exact Hy.
  - intros c Hc. rewrite cells_length in Hc. unfold disc. assert (Hx : nth_error xs (length xs - 1) = Some (fst c)).
    { pose proof (map_fst_combine xs (outputs xs) (eq_sym (outputs_length xs))) as M. rewrite <- M at 1. now apply map_nth_error. }
    rewrite (Hd _ Hx). ring.
Qed.
(** Values that solve Bellman's equation at every step that counts leave nothing to learn for policy and values. *)
Fixpoint solved (l : list cell) : Prop :=
  match l with
  | a :: l' => match l' with
               | b :: _ => (if is_first (step_of (fst b)) then disc a = 0 else V a = gain b + disc b * V b) /\ solved l'
               | [] => True
               end
  | [] => True
  end.
Lemma solved_err l : solved l -> match l with a :: b :: _ => if is_first (step_of (fst b)) then disc a * hd 0 (err l) = 0 else hd 0 (err l) = 0 | _ => True end.
Proof.
  induction l as [|a [|b l] IH]; intros H; [exact I|exact I|]. destruct H as [H1 H2]. specialize (IH H2). rewrite err_cons. cbn [hd].
  destruct (is_first (step_of (fst b))); [rewrite H1; ring|].
  assert (D : disc b * hd 0 (err (b :: l)) = 0). { destruct l as [|c l]; [cbn; ring|]. destruct (is_first (step_of (fst c))); [exact IH|rewrite IH; ring]. }
  rewrite H1. replace (gain b + disc b * (snd (snd b) + hd 0 (err (b :: l))) - (gain b + disc b * snd (snd b))) with (disc b * hd 0 (err (b :: l))) by ring. rewrite D. ring.
Qed.
Theorem C97_consistent trs :
  (forall tr t a b o o', In tr trs -> nth_error tr t = Some a -> nth_error tr (S t) = Some b -> nth_error (outputs tr) t = Some o -> nth_error (outputs tr) (S t) = Some o' ->
    if is_first (step_of b) then discount (step_of a) = 0 else snd o = clip m (reward (step_of b)) + discount (step_of b) * gamma * snd o') ->
  let batch := map (loss_terms unroll gamma m) trs in policy_gradient_loss batch = 0 /\ baseline_loss batch = 0.
Proof.
  intros H. unfold policy_gradient_loss, baseline_loss. rewrite concat_Rsum, !map_map.
  assert (Z : forall tr, In tr trs -> Forall (fun x => x = 0) (zipw Rmult (err (cells tr)) (map (fun p => alive (snd p)) (pairs (cells tr))))).
  { intros tr Hi. assert (S0 : solved (cells tr)).
    { assert (P : forall t c d, nth_error (cells tr) t = Some c -> nth_error (cells tr) (S t) = Some d -> if is_first (step_of (fst d)) then disc c = 0 else V c = gain d + disc d * V d).
      { intros t [a o] [b o'] Hc Hd'. assert (Q : forall k u v, nth_error (cells tr) k = Some (u, v) -> nth_error tr k = Some u /\ nth_error (outputs tr) k = Some v).
        { intros k u v E. pose proof (map_nth_error fst k (cells tr) E) as X. pose proof (map_nth_error snd k (cells tr) E) as Y. unfold cells in X, Y. rewrite map_fst_combine in X by now rewrite outputs_length. rewrite map_snd_combine in Y by now rewrite outputs_length. now split. }
        apply Q in Hc as [A1 A2]. apply Q in Hd' as [B1 B2]. specialize (H tr t a b o o' Hi A1 B1 A2 B2). unfold disc, gain. cbn [fst snd]. destruct (is_first (step_of b)); [rewrite H; ring|exact H]. }
      revert P. generalize (cells tr). intros l. induction l as [|c [|d l] IH]; intros P; [exact I|exact I|]. split; [exact (P 0%nat c d eq_refl eq_refl)|]. apply IH. intros t u v E1 E2. exact (P (S t) u v E1 E2). }
    revert S0. generalize (cells tr). intros l. induction l as [|c [|d l] IH]; intros S0; [constructor|constructor|]. pose proof (solved_err _ S0) as X. destruct S0 as [_ S0]. rewrite pairs_cons, err_cons in *. cbn [map fst snd hd] in *. rewrite zipw_cons. constructor; [|now apply IH].
    unfold alive, mask_of. destruct (is_first (step_of (fst d))); [ring|]. rewrite X. ring. }
  assert (Mz : forall l, Forall (fun x => x = 0) l -> Rsum l = 0) by (intros l F; induction F as [|x l -> _ IH]; [reflexivity|]; rewrite Rsum_cons, IH; ring).
  split.
  - apply Mz, Forall_map, Forall_forall. intros tr Hi. rewrite (terms_cells tr (outputs_length tr)). cbn [t_logits t_actions t_advantages t_mask]. unfold rlax_policy_gradient_loss.
    assert (F : Rsum (zipw Rmult (zipw Rmult (map (fun p => - log_prob (fst p) (snd p)) (combine (map (fun p : cell * cell => PI (fst p)) (pairs (cells tr))) (map (fun p => action_of (fst (fst p))) (pairs (cells tr))))) (err (cells tr))) (map (fun p => alive (snd p)) (pairs (cells tr)))) = 0).
    { apply Mz. specialize (Z tr Hi). revert Z. generalize (cells tr). intros l. rewrite combine_map, map_map. generalize (map (fun p : cell * cell => alive (snd p)) (pairs l)). generalize (err l). generalize (pairs l). clear.
      intros ps. induction ps as [|p ps IH]; intros es ws F; [constructor|]. destruct es as [|e es], ws as [|w ws]; try constructor.
      - cbn in *. inversion F; subst. rewrite Rmult_assoc. rewrite H1. ring.
      - inversion F; subst. now apply IH. }
    unfold mean. rewrite F. unfold Rdiv. ring.
  - rewrite (Mz (map _ trs)); [ring|]. apply Forall_map, Forall_forall. intros tr Hi. rewrite (terms_cells tr (outputs_length tr)). cbn [t_errors t_mask]. apply Mz. specialize (Z tr Hi). revert Z. generalize (map (fun p : cell * cell => alive (snd p)) (pairs (cells tr))). generalize (err (cells tr)). clear.
    intros es. induction es as [|e es IH]; intros [|w ws] F; constructor.
    + inversion F; subst. cbn [fst snd] in *. unfold Rsqr. rewrite Rmult_assoc, H1. ring.
    + inversion F; subst. now apply IH.
Qed.
(** *** impala_lite: the same loss as a mean *)
Theorem C97_lite trs n : (0 < n)%nat -> trs <> [] -> (forall tr, In tr trs -> length tr = S n) -> lite_loss unroll gamma m trs * INR (n * length trs) = learner_loss unroll gamma m trs.
Proof.
  intros Hn Ht L. unfold lite_loss, learner_loss, policy_gradient_loss, entropy_loss, baseline_loss. cbv zeta. rewrite !map_map.
  assert (N : INR n <> 0) by (apply not_0_INR; lia). assert (B : INR (length trs) <> 0) by (apply not_0_INR; destruct trs; [easy|discriminate]).
  assert (TL : forall tr, In tr trs -> length (t_logits (loss_terms unroll gamma m tr)) = n).
  { intros tr Hi. rewrite (terms_cells tr (outputs_length tr)). cbn [t_logits]. rewrite map_length, pairs_length, cells_length, (L tr Hi). lia. }
  assert (S1 : forall f : list (transition Obs St) -> R, Rsum (map (fun tr => f tr * INR (length (t_logits (loss_terms unroll gamma m tr)))) trs) = INR n * Rsum (map f trs)).
  { intros f. clear Ht B L. induction trs as [|tr trs' IH]; [unfold Rsum; cbn; ring|]. cbn [map]. rewrite !Rsum_cons, IH by (intros; apply TL; now right). rewrite TL by now left. ring. }
  rewrite (S1 (fun tr => rlax_policy_gradient_loss (t_logits (loss_terms unroll gamma m tr)) (t_actions (loss_terms unroll gamma m tr)) (t_advantages (loss_terms unroll gamma m tr)) (t_mask (loss_terms unroll gamma m tr)))).
  rewrite (S1 (fun tr => rlax_entropy_loss (t_logits (loss_terms unroll gamma m tr)) (t_mask (loss_terms unroll gamma m tr)))).
  set (pg := map _ trs). set (en := map (fun x => rlax_entropy_loss _ _) trs). set (bl := concat _).
  assert (Lp : length pg = length trs) by apply map_length. assert (Le : length en = length trs) by apply map_length.
  assert (Lb : length bl = (n * length trs)%nat).
  { unfold bl. clear -L unroll_length. induction trs as [|tr trs' IH]; [cbn; lia|]. cbn [map concat length]. rewrite app_length, IH by (intros; apply L; now right). rewrite (terms_cells tr (outputs_length tr)). cbn [t_errors t_mask]. rewrite zipw_length, !map_length, err_length, pairs_length, cells_length, (L tr) by now left. lia. }
  unfold mean. rewrite Lp, Le, Lb, mult_INR. field. now split.
Qed.
End Loss.
Print Assumptions C97_errors.
Print Assumptions C97_loss.
Print Assumptions C97_on_policy.
Print Assumptions C97_targets.
Print Assumptions C97_episodes.
Print Assumptions C97_consistent.
Print Assumptions C97_lite.

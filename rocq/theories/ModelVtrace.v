(** * The losses of the IMPALA examples (examples/impala/learner.py:37-51, 90-140; examples/impala_lite.py:96-149), in exact arithmetic

    A batch is the list of its trajectories ([np.stack(..., axis=1)], learner.py:175-176): [jax.vmap] over axis 1 is a map over that list, slices of axis 0 are slices of each
    trajectory.  The functions of rlax are not part of the repository; they are written down from rlax's documentation with the arguments used here
    (lambda, the clipping thresholds and alpha are 1). *)
From Coq Require Import List Reals.
From Verif Require Import ModelTransformer ModelReal.
Import ListNotations.
Local Open Scope R_scope.

(** ** rlax *)
Definition log_prob (logits : list R) (a : nat) : R := nth a (log_softmax logits) 0.
(** [categorical_importance_sampling_ratios]. *)
Definition ratio (pi mu : list R) (a : nat) : R := exp (log_prob pi a - log_prob mu a).
(** The loop of [vtrace], backwards over the steps. *)
Fixpoint accumulate (td c : list R) : list R :=
  match td, c with
  | x :: td, k :: c => let rest := accumulate td c in (x + k * hd 0 rest) :: rest
  | _, _ => []
  end.
(** [vtrace_td_error_and_advantage]. *)
Definition vtrace_errors (v_tm1 v_t r_t discount_t rho_tm1 : list R) : list R :=
  let c := map (Rmin 1) rho_tm1 in
  let clipped := map (Rmin 1) rho_tm1 in
  let td := zipw Rmult clipped (zipw Rminus (zipw Rplus r_t (zipw Rmult discount_t v_t)) v_tm1) in
  accumulate td (zipw Rmult discount_t c).
Definition vtrace_advantages (v_tm1 v_t r_t discount_t rho_tm1 : list R) : list R :=
  let errors := vtrace_errors v_tm1 v_t r_t discount_t rho_tm1 in
  let targets := zipw Rplus errors v_tm1 in
  let q_bootstrap := tl targets ++ skipn (length v_t - 1) v_t in
  let q_estimate := zipw Rplus r_t (zipw Rmult discount_t q_bootstrap) in
  zipw Rmult (map (Rmin 1) rho_tm1) (zipw Rminus q_estimate v_tm1).
(** [policy_gradient_loss] and [entropy_loss] on one trajectory. *)
Definition rlax_policy_gradient_loss (logits : list (list R)) (actions : list nat) (adv w : list R) : R :=
  mean (zipw Rmult (zipw Rmult (map (fun p => - log_prob (fst p) (snd p)) (combine logits actions)) adv) w).
Definition entropy (logits : list R) : R := - Rsum (zipw Rmult (softmax logits) (log_softmax logits)).
Definition rlax_entropy_loss (logits : list (list R)) (w : list R) : R := - mean (zipw Rmult (map entropy logits) w).

(** ** What a batch contains (util.py:42-46; agent.py:28-36) *)
Record timestep (Obs : Type) := Step { is_first : bool; reward : R; discount : R; observation : Obs }.
Arguments Step {Obs}. Arguments is_first {Obs}. Arguments reward {Obs}. Arguments discount {Obs}. Arguments observation {Obs}.
Record transition (Obs St : Type) := Transition { step_of : timestep Obs; logits_of : list R; action_of : nat; state_of : St }.
Arguments Transition {Obs St}. Arguments step_of {Obs St}. Arguments logits_of {Obs St}. Arguments action_of {Obs St}. Arguments state_of {Obs St}.

Section Loss.
Context {Obs St : Type}.
(** [Agent.unroll] with the learner's parameters: logits and value of each step. *)
Context (unroll : list (timestep Obs) -> St -> list (list R * R)).
Context (discount_factor max_abs_reward : R).

(** [jnp.clip(rewards, -m, m)] (learner.py:110-112). *)
Definition clip (r : R) : R := if Rlt_dec 0 max_abs_reward then Rmin (Rmax r (- max_abs_reward)) max_abs_reward else r.
Definition mask_of (t : timestep Obs) : R := if is_first t then 0 else 1.

(** What [Learner._loss] computes for one trajectory up to the losses (learner.py:96-129): the learner's logits, actions, errors, advantages and mask. *)
Record terms := Terms { t_logits : list (list R); t_actions : list nat; t_errors : list R; t_advantages : list R; t_mask : list R }.
Definition loss_terms (tr : list (transition Obs St)) : terms :=
  match tr with
  | [] => Terms [] [] [] [] []
  | first :: _ =>
      let initial_state := state_of first in
      let outputs := unroll (map step_of tr) initial_state in
      let v_t := tl (map snd outputs) in
      let actor_out := removelast tr in
      let outputs := removelast outputs in
      let v_tm1 := map snd outputs in
      let timestep := tl (map step_of tr) in
      let discounts := map (fun t => discount t * discount_factor) timestep in
      let rewards := map (fun t => clip (reward t)) timestep in
      let mask := map mask_of timestep in
      let rhos := map (fun p => ratio (fst (fst p)) (logits_of (snd p)) (action_of (snd p))) (combine outputs actor_out) in
      Terms (map fst outputs) (map action_of actor_out) (vtrace_errors v_tm1 v_t rewards discounts rhos) (vtrace_advantages v_tm1 v_t rewards discounts rhos) mask
  end.
(** learner.py:37-51: the mean of each trajectory times the number of steps, summed. *)
Definition policy_gradient_loss (batch : list terms) : R :=
  Rsum (map (fun t => rlax_policy_gradient_loss (t_logits t) (t_actions t) (t_advantages t) (t_mask t) * INR (length (t_logits t))) batch).
Definition entropy_loss (batch : list terms) : R := Rsum (map (fun t => rlax_entropy_loss (t_logits t) (t_mask t) * INR (length (t_logits t))) batch).
(** learner.py:131-136. *)
Definition baseline_loss (batch : list terms) : R := 1 / 2 * Rsum (concat (map (fun t => zipw Rmult (map Rsqr (t_errors t)) (t_mask t)) batch)).
Definition learner_loss (trajectories : list (list (transition Obs St))) : R :=
  let batch := map loss_terms trajectories in
  policy_gradient_loss batch + 1 / 2 * baseline_loss batch + 1 / 100 * entropy_loss batch.

(** examples/impala_lite.py:96-149: means instead of sums (the network is feed-forward and its discount factor is 0.99; both are arguments here). *)
Definition lite_loss (trajectories : list (list (transition Obs St))) : R :=
  let batch := map loss_terms trajectories in
  let pg_loss := mean (map (fun t => rlax_policy_gradient_loss (t_logits t) (t_actions t) (t_advantages t) (t_mask t)) batch) in
  let bl_loss := 1 / 2 * mean (concat (map (fun t => zipw Rmult (map Rsqr (t_errors t)) (t_mask t)) batch)) in
  let ent_loss := mean (map (fun t => rlax_entropy_loss (t_logits t) (t_mask t)) batch) in
  pg_loss + 1 / 2 * bl_loss + 1 / 100 * ent_loss.
End Loss.

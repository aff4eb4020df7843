(** * Actors of the IMPALA examples and what the learner makes of their trajectories (examples/impala/actor.py, agent.py, learner.py:90-136;
    examples/impala_lite.py:158-191) *)
From Coq Require Import List Bool Arith.
From Verif Require Import ModelRng ModelImpala.
Import ListNotations.

Section Actor.
Context {Act Ts Lg St Env Par : Type}.
Variable env_step : Env -> Act -> Ts * Env.
Variable preprocess : Ts -> Ts.
(** The network on one time step and one state (agent.py:87-91, [unroll] of length 1), and [hk.multinomial] (agent.py:93). *)
Variable net : Par -> Ts -> St -> Lg * St.
Variable sample : key -> Lg -> Act.
(** [Agent.step] (agent.py:74-95): the logits and the action. *)
Definition agent_step (k : key) (p : Par) (ts : Ts) (st : St) : (Lg * Act) * St :=
  let '(lg, st') := net p ts st in ((lg, sample k lg), st').
(** [Agent.unroll] (agent.py:97-105) for a core that runs over time: the logits of each time step. *)
Fixpoint agent_unroll (p : Par) (l : list Ts) (st : St) : list Lg :=
  match l with [] => [] | ts :: l => let '(lg, st') := net p ts st in lg :: agent_unroll p l st' end.
(** The logits that [Learner._loss] compares (learner.py:96-103, 116-118): those of the learner, from the state of the first transition, and
    those of the actor, both without the last one. *)
Definition learner_logits (p : Par) (t : list (transition Ts (Lg * Act) St)) : list Lg :=
  match t with [] => [] | x :: _ => removelast (agent_unroll p (map tr_step t) (tr_state x)) end.
Definition actor_logits (t : list (transition Ts (Lg * Act) St)) : list Lg := map (fun x => fst (tr_out x)) (removelast t).
(** examples/impala_lite.py:169-191: the keys are split off one by one; the first trajectory is one longer. *)
Fixpoint chain_keys (k : key) (n : nat) : list key * key :=
  match n with 0 => ([], k) | S n => let '(l, k') := chain_keys (Split k 2 0) n in (Split k 2 1 :: l, k') end.
Fixpoint lite_unrolls (n : nat) (extra : nat) (ps : list Par) (a : kept Ts (Lg * Act) St Env) : list (list (transition Ts (Lg * Act) St)) :=
  match ps with
  | [] => []
  | p :: ps =>
      let '(keys, key') := chain_keys (k_key a) (n + extra) in
      let '(env, ts, st, traj) := interactions env_step preprocess agent_step snd p keys (k_env a) (k_ts a) (k_state a) (k_traj a) in
      traj :: lite_unrolls n 0 ps (Kept env ts st (match traj with [] => [] | t :: r => [last r t] end) key')
  end.
(** The keys that [unroll_and_push] uses for the n-th time (actor.py:93-103). *)
Fixpoint unroll_keys (n extra : nat) (m : nat) (k : key) : list (list key) :=
  match m with 0 => [] | S m => split_keys (Split k 2 1) (n + extra) :: unroll_keys n 0 m (Split k 2 0) end.
Fixpoint lite_keys (n extra : nat) (m : nat) (k : key) : list (list key) :=
  match m with 0 => [] | S m => let '(l, k') := chain_keys k (n + extra) in l :: lite_keys n 0 m k' end.
End Actor.

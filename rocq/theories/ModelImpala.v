(** * The threads of examples/impala (learner.py, actor.py:33-103, run_catch.py:40-99) and of examples/impala_lite.py (158-260)

    Threads interleave at the operations that touch shared data: queue operations, the published parameters and the two flags. What
    actors and the learner compute is arbitrary: [unroll] and [learn] are parameters. *)
From Coq Require Import List Bool Arith.
From Verif Require Import ModelRng.
Import ListNotations.

Section Impala.
Context {P O A T : Type}.
(** [Actor.unroll] (actor.py:50-91): number of the actor, frame count, parameters and what the actor keeps between calls to a trajectory. *)
Variable unroll : nat -> nat -> P -> A -> T * A.
(** [Learner.update] (learner.py:139-155) on the trajectories of a batch. *)
Variable learn : P -> O -> list T -> P * O.
(** [Learner.__init__]: [batch_size] and [frames_per_iter] (learner.py:52-81). *)
Variables batch_size frames : nat.

(** A trajectory, with the number of the actor that made it and the pair (frame count, parameters) that the actor had pulled. *)
Record traj := Traj { t_actor : nat; t_pull : nat * P; t_data : T }.

(** [run_actor] (run_catch.py:40-44): test of the stop signal, pull and unroll; then [enqueue_traj], which waits for room in the queue.
    [a_left]: how many trajectories the actor still makes; [None] is the loop of run_catch.py, [Some n] a test that pushes n of them. *)
Inductive apc := ACheck | APut (t : traj) | AExit.
Record actor := Actor { a_pc : apc; a_left : option nat; a_state : A }.

(** [host_to_device_worker] (learner.py:164-185): the loop test, [_host_q.get] with a timeout, [_device_q.put] without one. *)
Inductive wpc := WCheck | WGet | WPut | WExit.

(** [Learner.run] (learner.py:187-217) and the rest of [main] (run_catch.py:91-99): the loop test and [_device_q.get]; the update of a
    batch; [transfer_thread.join]; joining the actors after the stop signal; the end. *)
Inductive lpc := LLoop | LGot (b : list traj) | LJoin | LWait | LEnd.

(** The state of the program. [s_iters]: iterations left, [None] for [max_iterations=-1]. [s_used] and [s_sent] are histories: the batches
    the learner has learned from, and the trajectories that were enqueued. *)
Record sys := Sys {
  s_actors : list actor; s_host : list traj;
  s_wpc : wpc; s_batch : list traj; s_device : list (list traj);
  s_lpc : lpc; s_iters : option nat; s_frames : nat; s_params : P; s_opt : O;
  s_pub : nat * P; s_done : bool; s_stop : bool;
  s_used : list (list traj); s_sent : list traj }.

Definition set_nth {X} (l : list X) (i : nat) (x : X) : list X := firstn i l ++ x :: skipn (S i) l.

(** One step of actor [i]; [None]: blocked or finished. *)
Definition step_actor (i : nat) (s : sys) : option sys :=
  let 'Sys actors host wp batch device lp iters fr par opt pub done stop used sent := s in
  match nth_error actors i with
  | None => None
  | Some (Actor pc bud st) =>
      match pc with
      | AExit => None
      | ACheck =>
          if stop then Some (Sys (set_nth actors i (Actor AExit bud st)) host wp batch device lp iters fr par opt pub done stop used sent) else
          match bud with
          | Some 0 => Some (Sys (set_nth actors i (Actor AExit bud st)) host wp batch device lp iters fr par opt pub done stop used sent)
          | _ =>
              let '(d, st') := unroll i (fst pub) (snd pub) st in
              Some (Sys (set_nth actors i (Actor (APut (Traj i pub d)) (option_map pred bud) st')) host wp batch device lp iters fr par opt pub done stop used sent)
          end
      | APut t =>
          if length host <? batch_size
          then Some (Sys (set_nth actors i (Actor ACheck bud st)) (host ++ [t]) wp batch device lp iters fr par opt pub done stop used (sent ++ [t]))
          else None
      end
  end.
(** One step of the transfer thread. When the queue is empty, the step from [WGet] is the timeout. *)
Definition step_worker (s : sys) : option sys :=
  let 'Sys actors host wp batch device lp iters fr par opt pub done stop used sent := s in
  match wp with
  | WExit => None
  | WCheck => Some (Sys actors host (if done then WExit else WGet) batch device lp iters fr par opt pub done stop used sent)
  | WGet =>
      if batch_size <=? length batch then Some (Sys actors host WPut batch device lp iters fr par opt pub done stop used sent) else
      match host with
      | [] => Some (Sys actors host WCheck batch device lp iters fr par opt pub done stop used sent)
      | t :: host' => Some (Sys actors host' WGet (batch ++ [t]) device lp iters fr par opt pub done stop used sent)
      end
  | WPut =>
      if length device <? 1 then Some (Sys actors host WCheck [] (device ++ [batch]) lp iters fr par opt pub done stop used sent) else None
  end.
Definition exited (a : actor) : bool := match a_pc a with AExit => true | _ => false end.
(** One step of the main thread. *)
Definition step_learner (s : sys) : option sys :=
  let 'Sys actors host wp batch device lp iters fr par opt pub done stop used sent := s in
  match lp with
  | LLoop =>
      match iters with
      | Some 0 => Some (Sys actors host wp batch device LJoin iters fr par opt pub true stop used sent)
      | _ => match device with
             | [] => None
             | b :: device' => Some (Sys actors host wp batch device' (LGot b) (option_map pred iters) fr par opt pub done stop used sent)
             end
      end
  | LGot b =>
      let '(par', opt') := learn par opt (map t_data b) in
      Some (Sys actors host wp batch device LLoop iters (fr + frames) par' opt' (fr + frames, par') done stop (used ++ [b]) sent)
  | LJoin => match wp with WExit => Some (Sys actors host wp batch device LWait iters fr par opt pub done true used sent) | _ => None end
  | LWait => if forallb exited actors then Some (Sys actors host wp batch device LEnd iters fr par opt pub done stop used sent) else None
  | LEnd => None
  end.

(** A schedule is a list of threads; a run exists if each of them can move when its turn comes. *)
Inductive tid := TActor (i : nat) | TWorker | TLearner.
Definition step (t : tid) (s : sys) : option sys :=
  match t with TActor i => step_actor i s | TWorker => step_worker s | TLearner => step_learner s end.
Fixpoint run (l : list tid) (s : sys) : option sys :=
  match l with [] => Some s | t :: l => match step t s with None => None | Some s' => run l s' end end.

(** The start: the actors with what they keep, the iterations, and the first parameters (learner.py:75-76, 193-194; run_catch.py:75-91). *)
Definition start (actors : list (option nat * A)) (iters : option nat) (p : P) (o : O) : sys :=
  Sys (map (fun a => Actor ACheck (fst a) (snd a)) actors) [] WCheck [] [] LLoop iters 0 p o (0, p) false false [] [].
End Impala.
Arguments traj : clear implicits. Arguments apc : clear implicits. Arguments actor : clear implicits. Arguments lpc : clear implicits. Arguments sys : clear implicits.

(** ** [Actor.unroll] and [unroll_and_push] (actor.py:50-103) *)
Section Unroll.
Context {Act Ts Out St Env Par : Type}.
(** The environment's [step], [util.preprocess_step], [Agent.step] and the action in its output. *)
Variable env_step : Env -> Act -> Ts * Env.
Variable preprocess : Ts -> Ts.
Variable agent_step : key -> Par -> Ts -> St -> Out * St.
Variable action : Out -> Act.
(** [util.Transition]. *)
Record transition := Transition { tr_step : Ts; tr_out : Out; tr_state : St }.
(** What the actor keeps: the environment, [_timestep], [_agent_state], [_traj] and [_rng_key]. *)
Record kept := Kept { k_env : Env; k_ts : Ts; k_state : St; k_traj : list transition; k_key : key }.
(** The loop (actor.py:59-81), one key per interaction. *)
Fixpoint interactions (p : Par) (keys : list key) (env : Env) (ts : Ts) (st : St) (traj : list transition) : Env * Ts * St * list transition :=
  match keys with
  | [] => (env, ts, st, traj)
  | k :: keys =>
      let ts := preprocess ts in
      let '(out, st') := agent_step k p ts st in
      let '(ts', env') := env_step env (action out) in
      interactions p keys env' ts' st' (traj ++ [Transition ts out st])
  end.
(** [unroll_and_push] without the queue: the trajectory, and [self._traj[-1:]] is kept. *)
Definition unroll_push (n : nat) (p : Par) (a : kept) : list transition * kept :=
  let num := n + (match k_traj a with [] => 1 | _ => 0 end) in
  let sub := Split (k_key a) 2 1 in
  let '(env, ts, st, traj) := interactions p (split_keys sub num) (k_env a) (k_ts a) (k_state a) (k_traj a) in
  (traj, Kept env ts st (match traj with [] => [] | t :: r => [last r t] end) (Split (k_key a) 2 0)).
Fixpoint unrolls (n : nat) (ps : list Par) (a : kept) : list (list transition) :=
  match ps with [] => [] | p :: ps => let '(t, a') := unroll_push n p a in t :: unrolls n ps a' end.
(** What the loss pairs (learner.py:88-103): each decision with the time step after it. *)
Definition loss_pairs (t : list transition) : list (transition * Ts) := combine (removelast t) (map tr_step (tl t)).
End Unroll.
Arguments transition : clear implicits. Arguments kept : clear implicits.

(** ** examples/impala_lite.py: actors make a fixed number of trajectories, the learner takes two at a time *)
Section Lite.
Context {P O A T : Type}.
Variable unroll : nat -> P -> A -> T * A.
Variable learn : P -> O -> list T -> P * O.
(** [batch_size] (impala_lite.py:231), also the size of the queue. *)
Variable batch_size : nat.
(** [run_actor] (impala_lite.py:158-191): trajectories left, and one that waits for room. *)
Record lactor := LActor { la_left : nat; la_put : option T; la_state : A }.
(** [run] (impala_lite.py:208-256): the queue, the batch that [dequeue] collects, the steps left, and the parameters. *)
Record lsys := LSys { ls_actors : list lactor; ls_q : list T; ls_batch : list T; ls_steps : nat; ls_params : P; ls_opt : O;
  ls_used : list (list T); ls_sent : list T }.
Definition lstep_actor (i : nat) (s : lsys) : option lsys :=
  let 'LSys actors q batch steps par opt used sent := s in
  match nth_error actors i with
  | None => None
  | Some (LActor bud put st) =>
      match put with
      | Some t => if length q <? batch_size then Some (LSys (set_nth actors i (LActor bud None st)) (q ++ [t]) batch steps par opt used (sent ++ [t])) else None
      | None => match bud with
                | 0 => None
                | S bud' => let '(t, st') := unroll i par st in Some (LSys (set_nth actors i (LActor bud' (Some t) st')) q batch steps par opt used sent)
                end
      end
  end.
Definition lstep_learner (s : lsys) : option lsys :=
  let 'LSys actors q batch steps par opt used sent := s in
  match steps with
  | 0 => None
  | S steps' =>
      if batch_size <=? length batch
      then let '(par', opt') := learn par opt batch in Some (LSys actors q [] steps' par' opt' (used ++ [batch]) sent)
      else match q with [] => None | t :: q' => Some (LSys actors q' (batch ++ [t]) steps par opt used sent) end
  end.
Definition lstep (t : option nat) (s : lsys) : option lsys := match t with Some i => lstep_actor i s | None => lstep_learner s end.
Fixpoint lrun (l : list (option nat)) (s : lsys) : option lsys :=
  match l with [] => Some s | t :: l => match lstep t s with None => None | Some s' => lrun l s' end end.
(** [num_steps] (impala_lite.py:251): all trajectories, by batches, rounded down. *)
Definition lstart (per_actor : nat) (actors : list A) (p : P) (o : O) : lsys :=
  LSys (map (LActor per_actor None) actors) [] [] (length actors * per_actor / batch_size) p o [] [].
End Lite.
Arguments lactor : clear implicits. Arguments lsys : clear implicits.

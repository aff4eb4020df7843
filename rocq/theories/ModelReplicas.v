(** * Modules run on several replicas ([jax.pmap]): the statistics BatchNorm and VectorQuantizerEMA share between replicas
    (haiku/_src/batch_norm.py:70-117, 164-182; haiku/_src/nets/vqvae.py:200, 231, 294-304, 319-322)

    Replicas are numbered from 0 and run the same program in lockstep, as under [jax.pmap].  Numbers are real numbers. *)
From Coq Require Import Reals ZArith List Bool String Arith.
From Verif Require Import ModelReal ModelVqEma.
Import ListNotations.
Local Open Scope R_scope.

(** ** [jax.lax.psum] and [jax.lax.pmean]
    [axis_index_groups]: a replica shares with those of the group it is in; without groups all replicas share. *)
Definition groups := option (list (list nat)).
Definition group_of (gs : groups) (n i : nat) : list nat :=
  match gs with
  | None => seq 0 n
  | Some gs => match find (existsb (Nat.eqb i)) gs with Some g => g | None => [] end
  end.
Definition psum (gs : groups) (vs : list R) : list R :=
  map (fun i => Rsum (map (fun j => nth j vs 0) (group_of gs (List.length vs) i))) (seq 0 (List.length vs)).
(** [pmean] is [psum] of the values divided by [psum] of ones. *)
Definition pmean (gs : groups) (vs : list R) : list R := map (fun p => fst p / snd p) (combine (psum gs vs) (psum gs (map (fun _ => 1) vs))).

(** ** BatchNorm *)
(** batch_norm.py:105-108: groups need the name of an axis. *)
Definition bn_accepts_groups (axis : option string) (gs : groups) : bool := match axis, gs with None, Some _ => false | _, _ => true end.
(** batch_norm.py:167 [if self.cross_replica_axis]: the empty name counts as no name. *)
Definition crosses (axis : option string) : bool := match axis with Some (String _ _) => true | _ => false end.
(** batch_norm.py:165-176: mean and variance on every replica. *)
Definition bn_replica_stats (axis : option string) (gs : groups) (xss : list (list R)) : list (R * R) :=
  let ms := map mean xss in
  let qs := map (fun xs => mean (map square xs)) xss in
  let ms := if crosses axis then pmean gs ms else ms in
  let qs := if crosses axis then pmean gs qs else qs in
  map (fun p => (fst p, snd p - square (fst p))) (combine ms qs).
(** batch_norm.py:177-182 with [statistics] for the mean and variance of this replica. *)
Definition bn_finish (decay eps scale offset : R) (st : bn_state) (statistics : R * R) (xs : list R) (is_training : bool) : bn_state * list R :=
  let st' := if is_training
             then BnState (fst (ema_call decay true 0 (bn_mean st) (fst statistics) true)) (fst (ema_call decay true 0 (bn_var st) (snd statistics) true))
             else st in
  (st', bn_normalize eps scale offset statistics xs).
Definition bn_averages (st : bn_state) : option (R * R) :=
  match ema_average (bn_mean st), ema_average (bn_var st) with Some m, Some v => Some (m, v) | _, _ => None end.
Fixpoint all_some {A} (l : list (option A)) : option (list A) :=
  match l with
  | [] => Some []
  | Some a :: l => option_map (cons a) (all_some l)
  | None :: _ => None
  end.
(** One call of the module on all replicas: [sts] and [xss] hold the state and the input of every replica; [None] if a replica raises. *)
Definition bn_replicas (axis : option string) (gs : groups) (decay eps scale offset : R) (sts : list bn_state) (xss : list (list R)) (is_training test_local_stats : bool)
  : option (list bn_state * list (list R)) :=
  match (if is_training || test_local_stats then Some (bn_replica_stats axis gs xss) else all_some (map bn_averages sts)) with
  | None => None
  | Some stats =>
      let results := map (fun p => bn_finish decay eps scale offset (fst (fst p)) (snd (fst p)) (snd p) is_training) (combine (combine sts stats) xss) in
      Some (map fst results, map snd results)
  end.
(** A history of calls; the outputs of every call. *)
Fixpoint bn_replicas_run (axis : option string) (gs : groups) (decay eps scale offset : R) (sts : list bn_state) (calls : list (list (list R) * bool * bool))
  : option (list bn_state * list (list (list R))) :=
  match calls with
  | [] => Some (sts, [])
  | (xss, tr, tl) :: calls =>
      match bn_replicas axis gs decay eps scale offset sts xss tr tl with
      | None => None
      | Some (sts, ys) => option_map (fun r => (fst r, ys :: snd r)) (bn_replicas_run axis gs decay eps scale offset sts calls)
      end
  end.

(** ** VectorQuantizerEMA *)
(** vqvae.py:293-315 on all replicas; [cross] tells whether there is a [cross_replica_axis].  Without groups [psum] gives every replica the same. *)
Definition vqe_replicas (cross : bool) (dim k : nat) (decay eps : R) (sts : list vqe_state) (xss : list (list (list R))) (is_training : bool) : list vqe_state :=
  if is_training then
    let encs := map (fun p => vq_encodings (vqe_embeddings (fst p)) k (snd p)) (combine sts xss) in
    let share (vs : list R) := if cross then psum None vs else vs in
    let sizes j := share (map (fun enc => vqe_cluster_size enc j) encs) in
    let sums d j := share (map (fun p => vqe_sums (fst p) (snd p) d j) (combine xss encs)) in
    map (fun p => let '(i, st) := p in
        let size j := ema_call decay true 0 (vqe_size st j) (nth i (sizes j) 0) true in
        let dw d j := ema_call decay true 0 (vqe_dw st d j) (nth i (sums d j) 0) true in
        let smoothed := vqe_smoothed k eps (fun j => snd (size j)) in
        VqeState (map (fun d => map (fun j => snd (dw d j) / smoothed j) (seq 0 k)) (seq 0 dim)) (fun j => fst (size j)) (fun d j => fst (dw d j)))
      (combine (seq 0 (List.length sts)) sts)
  else sts.
Fixpoint vqe_replicas_run (cross : bool) (dim k : nat) (decay eps : R) (sts : list vqe_state) (calls : list (list (list (list R)) * bool)) : list vqe_state :=
  match calls with
  | [] => sts
  | (xss, t) :: calls => vqe_replicas_run cross dim k decay eps (vqe_replicas cross dim k decay eps sts xss t) calls
  end.
(** vqvae.py:319-322: the perplexity of every replica. *)
Definition vqe_replica_perplexities (cross : bool) (delta : R) (k : nat) (encs : list (list (list R))) : list R :=
  let probs j := let vs := map (fun enc => vq_avg_prob enc j) encs in if cross then pmean None vs else vs in
  map (fun i => exp (- Rsum (map (fun j => nth i (probs j) 0 * ln (nth i (probs j) 0 + delta)) (seq 0 k)))) (seq 0 (List.length encs)).

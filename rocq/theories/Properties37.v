(** * C81: the trajectories of an IMPALA actor tile one rollout *)
From Coq Require Import List Bool Arith ZArith Lia FinFun.
From Verif Require Import ModelRng ModelImpala ModelActor.
Import ListNotations.

Section C81.
Context {Act Ts Lg St Env Par : Type}.
Variable env_step : Env -> Act -> Ts * Env.
Variable preprocess : Ts -> Ts.
Variable net : Par -> Ts -> St -> Lg * St.
Variable sample : key -> Lg -> Act.
Notation transition := (transition Ts (Lg * Act) St).
Notation agent_step := (agent_step net sample).
Notation interactions := (interactions env_step preprocess agent_step snd).
Notation unroll_push := (unroll_push env_step preprocess agent_step snd).
Notation unrolls := (unrolls env_step preprocess agent_step snd).
Notation lite_unrolls := (lite_unrolls env_step preprocess net sample).

(** The agent in the environment, step by step, with a key and parameters for each step. *)
Fixpoint rollout (kps : list (key * Par)) (env : Env) (ts : Ts) (st : St) : list transition :=
  match kps with
  | [] => []
  | (k, p) :: kps =>
      let ts1 := preprocess ts in
      let lg := fst (net p ts1 st) in
      let e := env_step env (sample k lg) in
      Transition ts1 (lg, sample k lg) st :: rollout kps (snd e) (fst e) (snd (net p ts1 st))
  end.
(** Where the agent is after them. *)
Fixpoint after (kps : list (key * Par)) (env : Env) (ts : Ts) (st : St) : Env * Ts * St :=
  match kps with
  | [] => (env, ts, st)
  | (k, p) :: kps => let ts1 := preprocess ts in let e := env_step env (sample k (fst (net p ts1 st))) in after kps (snd e) (fst e) (snd (net p ts1 st))
  end.
Lemma rollout_app a b env ts st : rollout (a ++ b) env ts st = rollout a env ts st ++ let '(env', ts', st') := after a env ts st in rollout b env' ts' st'.
Proof. revert env ts st. induction a as [|[k p] a IH]; intros; [reflexivity|]. cbn. now rewrite IH. Qed.
Lemma after_app a b env ts st : after (a ++ b) env ts st = let '(env', ts', st') := after a env ts st in after b env' ts' st'.
Proof. revert env ts st. induction a as [|[k p] a IH]; intros; [reflexivity|]. cbn. now rewrite IH. Qed.
Lemma rollout_length a env ts st : length (rollout a env ts st) = length a.
Proof. revert env ts st. induction a as [|[k p] a IH]; intros; [reflexivity|]. cbn. now rewrite IH. Qed.
Lemma interactions_eq p keys env ts st traj : interactions p keys env ts st traj =
  (after (map (fun k => (k, p)) keys) env ts st, traj ++ rollout (map (fun k => (k, p)) keys) env ts st).
Proof.
  revert env ts st traj. induction keys as [|k keys IH]; intros; cbn; [now rewrite app_nil_r|]. unfold ModelActor.agent_step at 1. destruct (net p (preprocess ts) st) as [lg st'].
  cbn [fst snd]. destruct (env_step env (sample k lg)) as [ts' env'] eqn:E. cbn [fst snd]. rewrite IH. cbn [fst snd]. now rewrite <- app_assoc.
Qed.

(** Trajectories of [n + 1] transitions each, where the last one of each is the first one of the next: the windows of one list. *)
Definition window (n i : nat) (l : list transition) : list transition := firstn (S n) (skipn (i * n) l).
Fixpoint windows (n m : nat) (l : list transition) : list (list transition) :=
  match m with 0 => [] | S m => firstn (S n) l :: windows n m (skipn n l) end.
Lemma skipn_skipn' {X} a b (l : list X) : skipn a (skipn b l) = skipn (b + a) l.
Proof. revert l. induction b as [|b IH]; intros l; [reflexivity|]. destruct l; [now rewrite !skipn_nil|]. apply IH. Qed.
Lemma windows_nth n m i l : i < m -> nth_error (windows n m l) i = Some (window n i l).
Proof.
  revert i l. induction m as [|m IH]; intros i l Hi; [lia|]. destruct i as [|i]; [reflexivity|]. cbn [windows nth_error]. rewrite IH by lia. unfold window.
  replace (S i * n) with (n + i * n) by lia. now rewrite skipn_skipn'.
Qed.
Lemma windows_length n m l : length (windows n m l) = m.
Proof. revert l. induction m; intros; cbn; congruence. Qed.

(** The steps of the blocks: each key with the parameters of its block. *)
Fixpoint steps (blocks : list (list key)) (ps : list Par) : list (key * Par) :=
  match blocks, ps with b :: blocks, p :: ps => map (fun k => (k, p)) b ++ steps blocks ps | _, _ => [] end.
Lemma kept_last (l : list transition) x : match l ++ [x] with [] => [] | t :: r => [last r t] end = [x].
Proof. destruct l as [|t l]; [reflexivity|]. cbn [app]. now rewrite last_last. Qed.

(** Both loops, with the keys of each block given. *)
Fixpoint blocks_run (blocks : list (list key)) (ps : list Par) (env : Env) (ts : Ts) (st : St) (traj : list transition) : list (list transition) :=
  match blocks, ps with
  | b :: blocks, p :: ps =>
      let kps := map (fun k => (k, p)) b in let t := traj ++ rollout kps env ts st in
      let '(env', ts', st') := after kps env ts st in
      t :: blocks_run blocks ps env' ts' st' (match t with [] => [] | x :: r => [last r x] end)
  | _, _ => []
  end.
Lemma unrolls_blocks n ps a : unrolls n ps a =
  blocks_run (unroll_keys n (match k_traj a with [] => 1 | _ => 0 end) (length ps) (k_key a)) ps (k_env a) (k_ts a) (k_state a) (k_traj a) \/ (n = 0 /\ k_traj a = []).
Proof.
  destruct a as [env ts st traj k]. cbn [k_traj k_key k_env k_ts k_state]. destruct (Nat.eq_dec n 0) as [->|N].
  - destruct traj as [|x traj]; [now right|left]. revert env ts st x traj k. induction ps as [|p ps IH]; intros; [reflexivity|].
    cbn [ModelImpala.unrolls length unroll_keys blocks_run]. unfold ModelImpala.unroll_push. cbn [k_traj k_key k_env k_ts k_state]. rewrite interactions_eq.
    destruct (after _ env ts st) as [[env' ts'] st']. cbn [app]. now rewrite IH.
  - left. revert env ts st traj k. induction ps as [|p ps IH]; intros; [reflexivity|].
    cbn [ModelImpala.unrolls length unroll_keys blocks_run]. unfold ModelImpala.unroll_push. cbn [k_traj k_key k_env k_ts k_state]. rewrite interactions_eq.
    destruct (after _ env ts st) as [[env' ts'] st']. rewrite IH. f_equal. destruct (traj ++ _) as [|x r] eqn:E; [|reflexivity].
    apply (f_equal (@length _)) in E. rewrite app_length, rollout_length, map_length in E. unfold split_keys in E. rewrite map_length, seq_length in E. cbn in E. lia.
Qed.
Lemma unrolls_first n ps env ts st k : unrolls n ps (Kept env ts st [] k) = blocks_run (unroll_keys n 1 (length ps) k) ps env ts st [].
Proof.
  destruct ps as [|p ps]; [reflexivity|]. cbn [ModelImpala.unrolls length unroll_keys blocks_run]. unfold ModelImpala.unroll_push. cbn [k_traj k_key k_env k_ts k_state].
  rewrite interactions_eq. destruct (after _ env ts st) as [[env' ts'] st']. cbn [app]. destruct (rollout _ env ts st) as [|x r] eqn:E.
  { apply (f_equal (@length _)) in E. rewrite rollout_length, map_length in E. unfold split_keys in E. rewrite map_length, seq_length in E. cbn in E. lia. }
  match goal with |- _ :: unrolls _ _ ?a = _ => destruct (unrolls_blocks n ps a) as [->|[_ F]]; [|discriminate] end. reflexivity.
Qed.
Lemma lite_blocks n extra ps a : lite_unrolls n extra ps a = blocks_run (lite_keys n extra (length ps) (k_key a)) ps (k_env a) (k_ts a) (k_state a) (k_traj a).
Proof.
  revert extra a. induction ps as [|p ps IH]; intros; [reflexivity|]. cbn [ModelActor.lite_unrolls length lite_keys]. destruct (chain_keys (k_key a) (n + extra)) as [keys k'].
  rewrite interactions_eq. cbn [blocks_run]. destruct (after _ _ _ _) as [[env' ts'] st']. now rewrite IH.
Qed.

Lemma tile n blocks ps env ts st x : length blocks = length ps -> Forall (fun b => length b = n) blocks ->
  blocks_run blocks ps env ts st [x] = windows n (length ps) (x :: rollout (steps blocks ps) env ts st).
Proof.
  revert ps env ts st x. induction blocks as [|b blocks IH]; intros [|p ps] env ts st x L F; try discriminate; [reflexivity|].
  apply Forall_cons_iff in F as [F1 F]. cbn in L. cbn [blocks_run steps length windows]. set (kps := map (fun k => (k, p)) b).
  assert (Lb : length (rollout kps env ts st) = n) by (unfold kps; now rewrite rollout_length, map_length).
  rewrite rollout_app. destruct (after kps env ts st) as [[env' ts'] st']. cbn [app]. set (R := rollout (steps blocks ps) env' ts' st').
  assert (EX : exists q y, x :: rollout kps env ts st = q ++ [y] /\ length q = n).
  { destruct (exists_last (l := x :: rollout kps env ts st)) as (q & y & E); [discriminate|]. exists q, y. split; [assumption|].
    apply (f_equal (@length _)) in E. rewrite app_length in E. cbn in E. lia. }
  destruct EX as (q & y & E & Lq). rewrite app_comm_cons, E. f_equal.
  - rewrite <- E. cbn [firstn app]. rewrite <- Lb at 1. now rewrite firstn_app, firstn_all, Nat.sub_diag, app_nil_r.
  - pose proof (kept_last q y) as K. rewrite <- E in K. cbn [last] in K |- *. rewrite K. rewrite IH by (assumption || lia). f_equal.
    rewrite <- app_assoc. rewrite <- Lq. rewrite skipn_app, skipn_all, Nat.sub_diag. reflexivity.
Qed.
Lemma tile_first n b blocks p ps env ts st : length blocks = length ps -> length b = S n -> Forall (fun b => length b = n) blocks ->
  blocks_run (b :: blocks) (p :: ps) env ts st [] = windows n (S (length ps)) (rollout (steps (b :: blocks) (p :: ps)) env ts st).
Proof.
  intros L Lb F. cbn [blocks_run steps app windows]. set (kps := map (fun k => (k, p)) b).
  assert (Lk : length (rollout kps env ts st) = S n) by (unfold kps; now rewrite rollout_length, map_length).
  rewrite rollout_app. destruct (after kps env ts st) as [[env' ts'] st']. destruct (exists_last (l := rollout kps env ts st)) as (q & y & E); [intros E; now rewrite E in Lk|].
  rewrite E in *. rewrite app_length in Lk. cbn in Lk. rewrite kept_last. f_equal.
  - rewrite firstn_app. replace (S n) with (length (q ++ [y])) at 1 by (rewrite app_length; cbn; lia). rewrite firstn_all. rewrite app_length. cbn [length].
    replace (S n - (length q + 1)) with 0 by lia. now rewrite app_nil_r.
  - rewrite (tile n) by assumption. f_equal. rewrite <- app_assoc. replace n with (length q) by lia. now rewrite skipn_app, skipn_all, Nat.sub_diag.
Qed.
Lemma unroll_keys_shape n m k : length (unroll_keys n 0 m k) = m /\ Forall (fun b => length b = n) (unroll_keys n 0 m k).
Proof.
  revert k. induction m as [|m IH]; intros k; cbn; [now split|]. destruct (IH (Split k 2 0)) as [IH1 IH2]. split; [congruence|]. constructor; [|assumption].
  unfold split_keys. rewrite map_length, seq_length. lia.
Qed.
Lemma chain_length k n : length (fst (chain_keys k n)) = n.
Proof. revert k. induction n as [|n IH]; intros k; [reflexivity|]. cbn. specialize (IH (Split k 2 0)). destruct (chain_keys (Split k 2 0) n). cbn in *. congruence. Qed.
Lemma lite_keys_shape n m k : length (lite_keys n 0 m k) = m /\ Forall (fun b => length b = n) (lite_keys n 0 m k).
Proof.
  revert k. induction m as [|m IH]; intros k; cbn; [now split|]. pose proof (chain_length k (n + 0)) as C. destruct (chain_keys k (n + 0)) as [l k']. cbn in C.
  destruct (IH k') as [IH1 IH2]. split; [cbn; congruence|]. constructor; [lia|assumption].
Qed.
Lemma steps_length n blocks ps : length blocks = length ps -> Forall (fun b => length b = n) blocks -> length (steps blocks ps) = length ps * n.
Proof.
  revert ps. induction blocks as [|b blocks IH]; intros [|p ps] L F; try discriminate; [reflexivity|]. apply Forall_cons_iff in F as [F1 F]. cbn in *. rewrite app_length, map_length, IH by (assumption || lia). lia.
Qed.

(** The trajectories of an actor are windows of one rollout: each has [n + 1] transitions and starts with the last one of the one before. *)
Theorem C81_unrolls n p ps env ts st k :
  let R := rollout (steps (unroll_keys n 1 (S (length ps)) k) (p :: ps)) env ts st in
  let trajs := unrolls n (p :: ps) (Kept env ts st [] k) in
  length R = S (length ps) * n + 1 /\ length trajs = S (length ps) /\ forall i, i <= length ps -> nth_error trajs i = Some (window n i R).
Proof.
  intros R trajs. unfold trajs. rewrite unrolls_first. unfold R. cbn [length unroll_keys]. destruct (unroll_keys_shape n (length ps) (Split k 2 0)) as [S1 S2].
  assert (L0 : length (split_keys (Split k 2 1) (n + 1)) = S n) by (unfold split_keys; rewrite map_length, seq_length; lia).
  rewrite (tile_first n) by assumption. rewrite rollout_length, windows_length. split; [|split; [reflexivity|intros i Hi; apply windows_nth; lia]].
  cbn [steps]. rewrite app_length, map_length, L0, (steps_length n) by assumption. lia.
Qed.
(** The same for impala_lite. *)
Theorem C81_lite_unrolls n p ps env ts st k :
  let R := rollout (steps (lite_keys n 1 (S (length ps)) k) (p :: ps)) env ts st in
  let trajs := lite_unrolls n 1 (p :: ps) (Kept env ts st [] k) in
  length R = S (length ps) * n + 1 /\ length trajs = S (length ps) /\ forall i, i <= length ps -> nth_error trajs i = Some (window n i R).
Proof.
  intros R trajs. unfold trajs. rewrite lite_blocks. unfold R. cbn [length lite_keys k_key k_env k_ts k_state k_traj]. pose proof (chain_length k (n + 1)) as L0.
  destruct (chain_keys k (n + 1)) as [l k']. cbn in L0. destruct (lite_keys_shape n (length ps) k') as [S1 S2].
  rewrite (tile_first n) by (assumption || lia). rewrite rollout_length, windows_length. split; [|split; [reflexivity|intros i Hi; apply windows_nth; lia]].
  cbn [steps]. rewrite app_length, map_length, L0, (steps_length n) by assumption. lia.
Qed.
(** The pairs of a decision and the time step after it that the loss uses are all of those of the rollout, each once. *)
Lemma loss_pairs_cons (x y : transition) r : loss_pairs (x :: y :: r) = (x, tr_step y) :: loss_pairs (y :: r).
Proof. reflexivity. Qed.
Lemma loss_pairs_firstn n (l : list transition) : loss_pairs (firstn (S n) l) = firstn n (loss_pairs l).
Proof.
  revert l. induction n as [|n IH]; intros l; [destruct l as [|x [|y r]]; reflexivity|]. destruct l as [|x [|y r]]; [reflexivity|reflexivity|].
  change (firstn (S (S n)) (x :: y :: r)) with (x :: y :: firstn n r). rewrite !loss_pairs_cons. cbn [firstn]. f_equal. exact (IH (y :: r)).
Qed.
Lemma loss_pairs_skipn n (l : list transition) : loss_pairs (skipn n l) = skipn n (loss_pairs l).
Proof.
  revert l. induction n as [|n IH]; intros l; [reflexivity|]. destruct l as [|x [|y r]]; [reflexivity|cbn; now rewrite !skipn_nil|].
  rewrite loss_pairs_cons. exact (IH (y :: r)).
Qed.
Lemma loss_pairs_windows n m l : length l = m * n + 1 -> concat (map loss_pairs (windows n m l)) = loss_pairs l.
Proof.
  revert l. induction m as [|m IH]; intros l L; [destruct l as [|x [|y r]]; cbn in *; (reflexivity || lia)|].
  cbn [windows map concat]. rewrite IH by (rewrite skipn_length; lia). rewrite loss_pairs_firstn, loss_pairs_skipn. apply firstn_skipn.
Qed.
Lemma nth_error_ext' {X} (l m : list X) : (forall i, nth_error l i = nth_error m i) -> l = m.
Proof.
  revert m. induction l as [|x l IH]; intros [|y m] H; [reflexivity|specialize (H 0); discriminate|specialize (H 0); discriminate|].
  pose proof (H 0) as H0. injection H0 as ->. f_equal. apply IH. intros i. exact (H (S i)).
Qed.
Lemma nth_windows n m l trajs : length trajs = m -> (forall i, i < m -> nth_error trajs i = Some (window n i l)) -> trajs = windows n m l.
Proof.
  intros L H. apply nth_error_ext'. intros i. destruct (Nat.lt_ge_cases i m) as [Hi|Hi].
  - now rewrite H, windows_nth.
  - rewrite !(proj2 (nth_error_None _ _)); [reflexivity| |]; [rewrite windows_length|]; lia.
Qed.
Theorem C81_pairs n p ps env ts st k :
  concat (map loss_pairs (unrolls n (p :: ps) (Kept env ts st [] k))) = loss_pairs (rollout (steps (unroll_keys n 1 (S (length ps)) k) (p :: ps)) env ts st) /\
  concat (map loss_pairs (lite_unrolls n 1 (p :: ps) (Kept env ts st [] k))) = loss_pairs (rollout (steps (lite_keys n 1 (S (length ps)) k) (p :: ps)) env ts st).
Proof.
  split.
  - destruct (C81_unrolls n p ps env ts st k) as (L & L' & H). rewrite (nth_windows _ _ _ _ L' (fun i Hi => H i (proj1 (Nat.lt_succ_r _ _) Hi))). now apply loss_pairs_windows.
  - destruct (C81_lite_unrolls n p ps env ts st k) as (L & L' & H). rewrite (nth_windows _ _ _ _ L' (fun i Hi => H i (proj1 (Nat.lt_succ_r _ _) Hi))). now apply loss_pairs_windows.
Qed.

(** No key is used for two decisions. *)
Fixpoint depth (k : key) : nat := match k with Seed _ => 0 | Split k _ _ => S (depth k) end.
Fixpoint anc (d : nat) (x : key) : option key := if depth x =? d then Some x else match x with Seed _ => None | Split k _ _ => anc d k end.
Definition under (a x : key) : Prop := anc (depth a) x = Some a.
Lemma anc_depth d x y : anc d x = Some y -> depth y = d /\ d <= depth x.
Proof.
  induction x as [z|k IH n i]; cbn [anc].
  - destruct (Nat.eqb_spec (depth (Seed z)) d) as [E|E]; [intros H; injection H as <-; lia | discriminate].
  - destruct (Nat.eqb_spec (depth (Split k n i)) d) as [E|E]; [intros H; injection H as <-; lia|]. intros H. destruct (IH H). cbn. lia.
Qed.
Lemma under_refl a : under a a.
Proof. unfold under. destruct a; cbn [anc]; now rewrite Nat.eqb_refl. Qed.
Lemma under_split a k n i : under a k -> under a (Split k n i).
Proof. unfold under. intros H. destruct (anc_depth _ _ _ H) as [_ L]. cbn [anc]. destruct (Nat.eqb_spec (depth (Split k n i)) (depth a)) as [E|E]; [cbn in E; lia|assumption]. Qed.
Lemma under_parent k n i x : under (Split k n i) x -> under k x.
Proof.
  unfold under. cbn [depth]. induction x as [z|k' IH m j]; cbn [anc].
  - cbn. discriminate.
  - destruct (Nat.eqb_spec (depth (Split k' m j)) (S (depth k))) as [E|E].
    + intros H. injection H as -> -> ->. destruct (Nat.eqb_spec (depth (Split k n i)) (depth k)) as [E'|_]; [cbn in E'; lia|]. apply under_refl.
    + intros H. destruct (anc_depth _ _ _ H) as [_ L]. destruct (Nat.eqb_spec (depth (Split k' m j)) (depth k)) as [E'|_]; [cbn in E'; lia|]. now apply IH.
Qed.
Lemma under_siblings k n i j x : under (Split k n i) x -> under (Split k n j) x -> i = j.
Proof. unfold under. cbn [depth]. intros H H'. rewrite H in H'. now injection H'. Qed.
Lemma NoDup_app' {X} (l m : list X) : NoDup l -> NoDup m -> (forall x, In x l -> In x m -> False) -> NoDup (l ++ m).
Proof.
  intros L M D. induction L as [|x l N L IH]; [assumption|]. cbn. constructor; [|apply IH; intros y Hy; apply D; now right].
  intros H. apply in_app_or in H as [H|H]; [now apply N | eapply D; [now left|exact H]].
Qed.
Lemma split_keys_NoDup k n : NoDup (split_keys k n).
Proof. unfold split_keys. apply Injective_map_NoDup; [intros i j E; now injection E | apply seq_NoDup]. Qed.
Lemma unroll_keys_under n e m k x : In x (concat (unroll_keys n e m k)) -> under k x.
Proof.
  revert e k. induction m as [|m IH]; intros e k; cbn; [easy|]. intros H. apply in_app_or in H as [H|H].
  - unfold split_keys in H. apply in_map_iff in H as (i & <- & _). apply under_split, under_split, under_refl.
  - apply IH in H. now apply under_parent in H.
Qed.
Lemma unroll_keys_NoDup n e m k : NoDup (concat (unroll_keys n e m k)).
Proof.
  revert e k. induction m as [|m IH]; intros e k; cbn; [constructor|]. apply NoDup_app'; [apply split_keys_NoDup|apply IH|].
  intros x H H'. apply unroll_keys_under in H'. unfold split_keys in H. apply in_map_iff in H as (i & <- & _).
  pose proof (under_siblings _ _ _ _ _ H' (under_split _ _ _ i (under_refl _))) as F. discriminate.
Qed.
Lemma chain_under k n x : In x (fst (chain_keys k n)) -> under k x.
Proof.
  revert k. induction n as [|n IH]; intros k; cbn; [easy|]. specialize (IH (Split k 2 0)). destruct (chain_keys (Split k 2 0) n) as [l k']. cbn in *.
  intros [<-|H]; [apply under_split, under_refl|]. apply IH in H. now apply under_parent in H.
Qed.
Lemma chain_NoDup k n : NoDup (fst (chain_keys k n)).
Proof.
  revert k. induction n as [|n IH]; intros k; cbn; [constructor|]. specialize (IH (Split k 2 0)). pose proof (chain_under (Split k 2 0) n) as U.
  destruct (chain_keys (Split k 2 0) n) as [l k']. cbn in *. constructor; [|assumption]. intros H. apply U in H. pose proof (under_siblings _ _ _ _ _ H (under_refl _)). discriminate.
Qed.
Lemma chain_app k a b : fst (chain_keys k (a + b)) = fst (chain_keys k a) ++ fst (chain_keys (snd (chain_keys k a)) b).
Proof.
  revert k. induction a as [|a IH]; intros k; [reflexivity|]. cbn [chain_keys plus]. specialize (IH (Split k 2 0)).
  destruct (chain_keys (Split k 2 0) (a + b)), (chain_keys (Split k 2 0) a). cbn in *. now rewrite IH.
Qed.
Lemma lite_keys_chain n e m k : exists t, concat (lite_keys n e m k) = fst (chain_keys k t).
Proof.
  revert e k. induction m as [|m IH]; intros e k; [now exists 0|]. cbn [lite_keys]. destruct (chain_keys k (n + e)) as [l k'] eqn:E. destruct (IH 0 k') as [t Ht].
  exists (n + e + t). rewrite chain_app, E. cbn. now rewrite Ht.
Qed.
Lemma steps_keys blocks ps : length blocks = length ps -> map fst (steps blocks ps) = concat blocks.
Proof. revert ps. induction blocks as [|b blocks IH]; intros [|p ps] L; try discriminate; [reflexivity|]. cbn. now rewrite map_app, map_map, map_id, IH by (cbn in L; lia). Qed.
Theorem C81_keys n p (ps : list Par) k :
  NoDup (map fst (steps (unroll_keys n 1 (S (length ps)) k) (p :: ps))) /\ NoDup (map fst (steps (lite_keys n 1 (S (length ps)) k) (p :: ps))).
Proof.
  split; rewrite steps_keys.
  - apply unroll_keys_NoDup.
  - cbn [unroll_keys length]. now rewrite (proj1 (unroll_keys_shape n (length ps) (Split k 2 0))).
  - destruct (lite_keys_chain n 1 (S (length ps)) k) as [t ->]. apply chain_NoDup.
  - cbn [lite_keys]. destruct (chain_keys k (n + 1)). cbn [length]. now rewrite (proj1 (lite_keys_shape n (length ps) _)).
Qed.

(** The learner's logits are the actor's when the parameters are those that the actor used: for the first trajectory; for a later one
    from the second step on, if the state of the network does not depend on the parameters. *)
Lemma agent_unroll_rollout p keys env ts st :
  agent_unroll net p (map tr_step (rollout (map (fun k => (k, p)) keys) env ts st)) st = map (fun x => fst (tr_out x)) (rollout (map (fun k => (k, p)) keys) env ts st).
Proof. revert env ts st. induction keys as [|k keys IH]; intros; [reflexivity|]. cbn. destruct (net p (preprocess ts) st) as [lg st'] eqn:E. cbn. now rewrite IH. Qed.
Lemma map_removelast {X Y} (f : X -> Y) l : map f (removelast l) = removelast (map f l).
Proof. induction l as [|x [|y l] IH]; [reflexivity|reflexivity|]. cbn in *. now rewrite IH. Qed.
Lemma rollout_state kps env ts st x r : rollout kps env ts st = x :: r -> tr_state x = st.
Proof. destruct kps as [|[k p] kps]; [discriminate|]. intros H. injection H as <- _. reflexivity. Qed.
Theorem C81_on_policy n p ps env ts st k t : nth_error (unrolls n (p :: ps) (Kept env ts st [] k)) 0 = Some t -> learner_logits net p t = actor_logits t.
Proof.
  rewrite unrolls_first. cbn [length unroll_keys blocks_run app]. destruct (after _ env ts st) as [[env' ts'] st']. cbn. intros H. injection H as <-.
  unfold learner_logits, actor_logits. destruct (rollout _ env ts st) as [|x r] eqn:E; [reflexivity|]. rewrite (rollout_state _ _ _ _ _ _ E), <- E.
  now rewrite agent_unroll_rollout, map_removelast.
Qed.
Lemma blocks_nth i blocks ps env ts st traj t q p : nth_error (blocks_run blocks ps env ts st traj) (S i) = Some t -> nth_error ps i = Some q -> nth_error ps (S i) = Some p ->
  (forall b, nth_error blocks i = Some b -> b <> []) ->
  exists x keys env' ts', t = x :: rollout (map (fun k => (k, p)) keys) env' ts' (snd (net q (tr_step x) (tr_state x))).
Proof.
  revert blocks ps env ts st traj. induction i as [|i IH]; intros blocks ps env ts st traj H Hq Hp B.
  - destruct blocks as [|b blocks]; [discriminate|]. destruct ps as [|q' ps]; [discriminate|]. injection Hq as <-. cbn [blocks_run] in H.
    specialize (B b eq_refl). destruct (exists_last B) as (b' & k & ->). rewrite map_app, rollout_app, after_app in H. cbn [map] in H.
    destruct (after (map _ b') env ts st) as [[env1 ts1] st1]. cbn [after rollout] in H. rewrite app_assoc in H. cbn [nth_error] in H.
    destruct blocks as [|b2 blocks]; [discriminate|]. destruct ps as [|p' ps]; [discriminate|]. injection Hp as ->. rewrite kept_last in H. cbn [blocks_run] in H.
    destruct (after _ _ _ _) as [[env2 ts2] st2]. cbn in H. injection H as <-. eexists (Transition (preprocess ts1) _ st1), b2, _, _. cbn [app tr_step tr_state]. reflexivity.
  - destruct blocks as [|b blocks]; [discriminate|]. destruct ps as [|q' ps]; [discriminate|]. cbn [blocks_run] in H. destruct (after _ env ts st) as [[env1 ts1] st1].
    cbn [nth_error] in H. eapply IH; [exact H|exact Hq|exact Hp|intros b'; apply B].
Qed.
Lemma agent_unroll_states p l st st' : (forall ts, net p ts st = net p ts st') -> agent_unroll net p l st = agent_unroll net p l st'.
Proof. destruct l as [|ts l]; intros H; [reflexivity|]. cbn. now rewrite H. Qed.
Lemma tl_removelast_cons {X} (x : X) l : tl (removelast (x :: l)) = removelast l.
Proof. now destruct l. Qed.
Theorem C81_on_policy_later n ps env ts st k i q p t : 0 < n -> (forall ts st, snd (net q ts st) = snd (net p ts st)) ->
  nth_error (unrolls n ps (Kept env ts st [] k)) (S i) = Some t -> nth_error ps i = Some q -> nth_error ps (S i) = Some p ->
  tl (learner_logits net p t) = tl (actor_logits t).
Proof.
  intros N C H Hq Hp. rewrite unrolls_first in H. destruct (blocks_nth _ _ _ _ _ _ _ _ _ _ H Hq Hp) as (x & keys & env' & ts' & ->).
  { intros b Hb ->. assert (G : forall e m k j, 0 < n + e -> nth_error (unroll_keys n e m k) j = Some [] -> False); [|apply (G 1 _ _ _ ltac:(lia) Hb)].
    clear - N. intros e m. revert e. induction m as [|m IH]; intros e k j L E; [now destruct j|]. destruct j as [|j]; cbn in E; [|apply (IH 0 _ j ltac:(lia) E)].
    injection E as E. apply (f_equal (@length _)) in E. unfold split_keys in E. rewrite map_length, seq_length in E. cbn in E. lia. }
  unfold learner_logits, actor_logits. cbn [map agent_unroll]. rewrite map_removelast. cbn [map]. rewrite (C (tr_step x) (tr_state x)).
  destruct (net p (tr_step x) (tr_state x)) as [lg st'] eqn:E. cbn [snd]. rewrite !tl_removelast_cons. now rewrite agent_unroll_rollout.
Qed.

(** The mask (learner.py:111-114): a pair is left out if its second time step starts an episode; these are the pairs whose first one ended it. *)
Variables first last : Ts -> bool.
Variable at_step : Env -> Ts -> Prop.
Theorem C81_mask kps env ts st : (forall env ts, at_step env ts -> forall a, at_step (snd (env_step env a)) (fst (env_step env a)) /\ first (fst (env_step env a)) = last ts) ->
  (forall ts, first (preprocess ts) = first ts /\ last (preprocess ts) = last ts) -> at_step env ts ->
  Forall (fun xt => first (snd xt) = last (tr_step (fst xt))) (loss_pairs (rollout kps env ts st)).
Proof.
  intros ES PP. revert env ts st. induction kps as [|[k p] kps IH]; intros env ts st A; [constructor|]. cbn [rollout]. set (r := env_step _ _).
  destruct (ES _ _ A (sample k (fst (net p (preprocess ts) st)))) as [A' F]. fold r in A', F. specialize (IH (snd r) (fst r) (snd (net p (preprocess ts) st)) A').
  destruct kps as [|[k' p'] kps]; [constructor|]. cbn [rollout] in IH |- *. rewrite loss_pairs_cons. constructor; [|exact IH]. cbn [fst snd tr_step].
  now rewrite (proj1 (PP _)), (proj2 (PP _)), F.
Qed.
End C81.
Print Assumptions C81_unrolls.
Print Assumptions C81_lite_unrolls.
Print Assumptions C81_pairs.
Print Assumptions C81_keys.
Print Assumptions C81_on_policy.
Print Assumptions C81_on_policy_later.
Print Assumptions C81_mask.

(** ** Examples: the environment counts to three and starts again, the state of the network counts time steps times the parameter *)
Definition ex_env (e a : nat) : nat * nat := let e' := if e =? 3 then 0 else S e in (e', e').
Definition ex_net (p ts st : nat) : nat * nat := (p + ts + st, st + p).
Definition ex_unrolls n ps := unrolls ex_env (fun t => t) (agent_step ex_net (fun _ lg => lg)) snd n ps (Kept 0 0 0 [] (Seed 42)).
Example C81_case : map (map (@tr_step _ _ _)) (ex_unrolls 3 [1; 1; 2]) = [[0; 1; 2; 3]; [3; 0; 1; 2]; [2; 3; 0; 1]].
Proof. reflexivity. Qed.
Example C81_mask_case : map (fun xt => (tr_step (fst xt), snd xt)) (concat (map loss_pairs (ex_unrolls 3 [1; 1]))) = [(0, 1); (1, 2); (2, 3); (3, 0); (0, 1); (1, 2)].
Proof. reflexivity. Qed.
Example C81_on_policy_case : map (learner_logits ex_net 2) (ex_unrolls 2 [2]) = [[2; 5]] /\ map actor_logits (ex_unrolls 2 [2]) = [[2; 5]].
Proof. split; reflexivity. Qed.
(** With parameters that change the state, the logits differ in later trajectories also after the first step, although the learner has the
    parameters that the actor used. *)
Theorem C81_on_policy_refuted : exists t, nth_error (ex_unrolls 2 [1; 2]) 1 = Some t /\ actor_logits t = [5; 8] /\ learner_logits ex_net 2 t = [6; 9].
Proof. eexists. split; [reflexivity|]. split; reflexivity. Qed.
Print Assumptions C81_on_policy_refuted.

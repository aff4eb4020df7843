(** * C86, second part: partitions, masked parameters and the training loop of examples/mnist_pruning.py *)
From stdpp Require Import base list strings option.
From Coq Require Import String ZArith QArith Lia.
From Verif Require Import ModelDict ProofsDict Properties06 ModelTopk ModelPruning Properties42.
Local Open Scope string_scope.
Local Open Scope list_scope.
Local Close Scope Q_scope.

(** ** Structures *)
Lemma merge_wf {V} (ss : list (structure V)) : wf_structure (merge_ ss).
Proof.
  unfold merge_. assert (H : forall out, wf_structure out -> wf_structure (fold_left (fun out s => each put s out) ss out)); [|apply H, wf_nil].
  induction ss as [|s ss IH]; intros out H; [assumption|]. cbn [fold_left]. apply IH. rewrite put_puts. now apply puts_wf.
Qed.
Lemma map_wf {V W} (f : string -> string -> V -> W) s : wf_structure (map_ f s).
Proof. rewrite map_puts. apply puts_wf, wf_nil. Qed.
Lemma merge_cons {V} (s : structure V) ss m n : List.Forall wf_structure (s :: ss) ->
  entry (merge_ (s :: ss)) m n = match entry (merge_ ss) m n with Some v => Some v | None => entry s m n end.
Proof.
  intros F. pose proof F as F'. apply List.Forall_cons_iff in F' as [_ F']. unfold merge_. rewrite !merge_entry_step by assumption. cbn [fold_left]. rewrite !entry_nil.
  assert (H : forall l (acc : option V), fold_left (fun acc s => match entry s m n with Some v => Some v | None => acc end) l acc =
    match fold_left (fun acc s => match entry s m n with Some v => Some v | None => acc end) l None with Some v => Some v | None => acc end).
  { induction l as [|x l IH]; intros acc; [reflexivity|]. cbn [fold_left]. destruct (entry x m n); [|apply IH]. rewrite IH. now destruct (fold_left _ l None). }
  rewrite H. destruct (fold_left _ ss None); [reflexivity|]. now destruct (entry s m n).
Qed.
Lemma covers_spec {A B} (a : structure A) (b : structure B) : wf_structure a -> (covers a b = true <-> forall m n, entry a m n <> None -> entry b m n <> None).
Proof.
  intros W. unfold covers. rewrite each_flat. fold (flat a).
  assert (H : forall l acc, fold_left (fun acc e => acc && match entry b (fst (fst e)) (snd (fst e)) with Some _ => true | None => false end) l acc = true <->
    acc = true /\ forall m n (v : A), In ((m, n), v) l -> entry b m n <> None).
  { induction l as [|[[m0 n0] v0] l IH]; intros acc; cbn [fold_left].
    - split; [intros ->; split; [reflexivity|]; intros ? ? ? []|tauto].
    - rewrite IH. cbn [fst snd]. destruct (entry b m0 n0) eqn:E.
      + rewrite andb_true_r. split; intros [-> H]; (split; [reflexivity|]); intros m n v.
        * intros [[= <- <- <-]|I]; [congruence|eauto].
        * intros I. eapply H. right. exact I.
      + rewrite andb_false_r. split; [now intros [? _]|]. intros [_ H]. exfalso. apply (H m0 n0 v0); [now left|exact E]. }
  rewrite H. split.
  - intros [_ H'] m n HE. destruct (entry a m n) as [v|] eqn:E; [|congruence]. apply (H' m n v). now apply flat_entry.
  - intros H'. split; [reflexivity|]. intros m n v I. apply H'. apply flat_entry in I; [congruence|assumption].
Qed.

(** ** Structures with the same paths and shapes *)
Definition fits {A B} (x : leaf A) (y : leaf B) : Prop := lf_shape x = lf_shape y /\ List.length (lf_vals x) = List.length (lf_vals y).
Definition alike {A B} (a : params A) (b : params B) : Prop :=
  forall m n, match entry a m n, entry b m n with Some x, Some y => fits x y | None, None => True | _, _ => False end.
Lemma fits_refl {A} (x : leaf A) : fits x x. Proof. now split. Qed.
Lemma fits_sym {A B} (x : leaf A) (y : leaf B) : fits x y -> fits y x. Proof. intros [E F]. now split. Qed.
Lemma fits_trans {A B C} (x : leaf A) (y : leaf B) (z : leaf C) : fits x y -> fits y z -> fits x z.
Proof. intros [E F] [E' F']. split; congruence. Qed.
Lemma alike_refl {A} (a : params A) : alike a a.
Proof. intros m n. destruct (entry a m n); [apply fits_refl|exact I]. Qed.
Lemma alike_sym {A B} (a : params A) (b : params B) : alike a b -> alike b a.
Proof. intros H m n. specialize (H m n). destruct (entry a m n), (entry b m n); try easy. now apply fits_sym. Qed.
Lemma alike_trans {A B C} (a : params A) (b : params B) (c : params C) : alike a b -> alike b c -> alike a c.
Proof. intros H H' m n. specialize (H m n). specialize (H' m n). destruct (entry a m n), (entry b m n), (entry c m n); try easy. eapply fits_trans; eassumption. Qed.
Lemma leaf2_fits {A B} (f : A -> B -> A) x y : fits x y -> fits x (leaf2 f x y).
Proof. intros [E F]. split; [reflexivity|]. unfold leaf2. cbn. rewrite map_length, combine_length. lia. Qed.
Lemma multimap_alike {A B} (f : A -> B -> A) (a : params A) (b : params B) : wf_structure a -> wf_structure b -> alike a b ->
  exists r, tree_multimap (leaf2 f) a b = Some r /\ wf_structure r /\ alike a r /\
    forall m n, entry r m n = match entry a m n, entry b m n with Some x, Some y => Some (leaf2 f x y) | _, _ => None end.
Proof.
  intros Wa Wb H. unfold tree_multimap.
  assert (C1 : covers a b = true). { apply covers_spec; [assumption|]. intros m n. specialize (H m n). destruct (entry a m n), (entry b m n); easy. }
  assert (C2 : covers b a = true). { apply covers_spec; [assumption|]. intros m n. specialize (H m n). destruct (entry a m n), (entry b m n); easy. }
  rewrite C1, C2. cbn [andb]. eexists. split; [reflexivity|]. split; [apply map_wf|].
  assert (E : forall m n, entry (map_ (fun m n x => match entry b m n with Some y => leaf2 f x y | None => x end) a) m n =
    match entry a m n, entry b m n with Some x, Some y => Some (leaf2 f x y) | _, _ => None end).
  { intros m n. rewrite C36_map by assumption. specialize (H m n). destruct (entry a m n), (entry b m n); easy. }
  split; [|exact E]. intros m n. rewrite E. specialize (H m n). destruct (entry a m n), (entry b m n); try easy. now apply leaf2_fits.
Qed.

Section C86.
Context {N : Type} (zero : N) (abs : N -> N) (add ema : N -> N -> N) (le : N -> N -> Prop).
Variable argsort : list N -> list nat.
Variable shuffled : nat -> list nat.
Notation sparsities := (@sparsities N).
Notation apply_mask := (apply_mask zero).
Notation update_mask := (update_mask zero abs argsort shuffled).

(** ** Which predicate a parameter belongs to: the first that holds of it *)
Fixpoint owner (ms : sparsities) (m n : string) (v : leaf N) : option (nat * Q) :=
  match ms with
  | [] => None
  | (pred, s) :: ms => if pred m n v then Some (0, s) else option_map (fun p => (S (fst p), snd p)) (owner ms m n v)
  end.
Definition owned (i : nat) (ms : sparsities) (m n : string) (v : leaf N) : bool :=
  match owner ms m n v with Some (j, _) => Nat.eqb i j | None => false end.

(** The trees are disjoint, each parameter is in the tree of the first predicate that holds of it, and the rest holds what satisfies none. *)
Theorem C86_partitions ms : forall p trees sps rest, wf_structure p -> create_partitions ms p = (trees, sps, rest) ->
  List.length trees = List.length ms /\ sps = List.map snd ms /\ List.Forall wf_structure trees /\ wf_structure rest /\
  (forall i t m n, nth_error trees i = Some t -> entry t m n = match entry p m n with Some v => if owned i ms m n v then Some v else None | None => None end) /\
  (forall m n, entry rest m n = match entry p m n with Some v => match owner ms m n v with None => Some v | Some _ => None end | None => None end).
Proof.
  induction ms as [|[pred s] ms IH]; intros p trees sps rest W E.
  - cbn in E. injection E as <- <- <-. repeat split; try constructor; try apply W.
    + intros [|i]; discriminate.
    + intros m n. cbn. now destruct (entry p m n).
  - cbn [create_partitions] in E. destruct (partition pred p) as [head tail] eqn:EP. destruct (create_partitions ms tail) as [[trees' sps'] rest'] eqn:EC. injection E as <- <- <-.
    destruct (C35_partition_modules _ _ _ _ "" W EP) as (_ & _ & WH & WT). destruct (IH tail trees' sps' rest' WT EC) as (L & -> & F & WR & T & R).
    split; [cbn; congruence|]. split; [reflexivity|]. split; [now constructor|]. split; [assumption|]. split.
    + intros i t m n. destruct (C35_partition _ _ _ _ m n W EP) as [EH ET]. destruct i as [|i]; cbn [nth_error].
      * intros [= <-]. rewrite EH. destruct (entry p m n) as [v|]; [|reflexivity]. unfold owned. cbn [owner]. destruct (pred m n v); [reflexivity|]. now destruct (owner ms m n v) as [[j q]|].
      * intros Ht. rewrite (T i t m n Ht), ET. destruct (entry p m n) as [v|]; [|reflexivity]. unfold owned. cbn [owner]. destruct (pred m n v); [reflexivity|].
        now destruct (owner ms m n v) as [[j q]|].
    + intros m n. destruct (C35_partition _ _ _ _ m n W EP) as [EH ET]. rewrite R, ET. destruct (entry p m n) as [v|]; [|reflexivity]. cbn [owner]. destruct (pred m n v); [reflexivity|].
      now destruct (owner ms m n v) as [[j q]|].
Qed.

(** Predicates that look at names and shapes only, as those of the example do. *)
Definition by_shape (ms : sparsities) : Prop := forall pred s, In (pred, s) ms -> forall m n v w, fits v w -> pred m n v = pred m n w.
Lemma owner_shape ms m n v w : by_shape ms -> fits v w -> owner ms m n v = owner ms m n w.
Proof.
  intros B F. induction ms as [|[pred s] ms IH]; [reflexivity|]. cbn [owner]. rewrite (B pred s (or_introl eq_refl) m n v w F). destruct (pred m n w); [reflexivity|].
  rewrite IH; [reflexivity|]. intros p0 s0 I0. apply (B p0 s0). now right.
Qed.
(** The mask of one parameter, made from an earlier value [w] of it. *)
Definition mask_leaf (d : Q) (w : leaf N) : leaf bool := Leaf (lf_shape w) (topk_mask zero argsort shuffled d (List.map abs (lf_vals w))).
Hypothesis argsort_sorts : sorts le argsort.
Hypothesis shuffled_positions : forall n, positions (shuffled n) n.
Lemma mask_fits d w : fits w (mask_leaf d w).
Proof.
  split; [reflexivity|]. cbn. destruct (C86_topk zero le argsort shuffled argsort_sorts shuffled_positions d (List.map abs (lf_vals w))) as [L _].
  rewrite L. symmetry. apply map_length.
Qed.

(** Masks made from parameters [q] and applied to parameters [p] of the same shapes: every parameter that a predicate claims is multiplied by the
    top-k mask of its value in [q], the others are left alone, none is lost, and nothing raises. *)
Theorem C86_apply ms fraction : by_shape ms -> forall p q, wf_structure p -> wf_structure q -> alike p q ->
  exists r, apply_mask p (update_mask q fraction ms) ms = Some r /\ wf_structure r /\ alike p r /\
    forall m n, entry r m n = match entry p m n, entry q m n with
      | Some v, Some w => Some (match owner ms m n v with Some (_, s) => leaf2 (masked zero) v (mask_leaf (1 - s * fraction)%Q w) | None => v end)
      | _, _ => None end.
Proof.
  intros B p q Wp Wq H.
  assert (M : exists l rest, (let '(tp, _, rest) := create_partitions ms p in option_map (fun l => (l, rest)) (mask_all zero tp (update_mask q fraction ms))) = Some (l, rest) /\
    List.Forall wf_structure (l ++ [rest]) /\ forall m n, entry (merge_ (l ++ [rest])) m n = match entry p m n, entry q m n with
      | Some v, Some w => Some (match owner ms m n v with Some (_, s) => leaf2 (masked zero) v (mask_leaf (1 - s * fraction)%Q w) | None => v end)
      | _, _ => None end).
  { revert p q Wp Wq H. induction ms as [|[pred s] ms IH]; intros p q Wp Wq H.
    - exists [], p. split; [reflexivity|]. split; [repeat constructor; apply Wp|]. intros m n. change ([] ++ [p]) with [p]. rewrite merge_cons by (repeat constructor; apply Wp). cbn. specialize (H m n).
      now destruct (entry p m n), (entry q m n).
    - unfold ModelPruning.update_mask in *. cbn [create_partitions]. destruct (partition pred p) as [hp tp] eqn:EP. destruct (partition pred q) as [hq tq] eqn:EQ.
      destruct (C35_partition_modules _ _ _ _ "" Wp EP) as (_ & _ & Whp & Wtp). destruct (C35_partition_modules _ _ _ _ "" Wq EQ) as (_ & _ & Whq & Wtq).
      assert (Bp : forall m n v w, fits v w -> pred m n v = pred m n w) by (apply (B pred s); now left).
      assert (B' : by_shape ms) by (intros p0 s0 I0; apply (B p0 s0); now right).
      assert (Hh : alike hp hq /\ alike tp tq).
      { split; intros m n; destruct (C35_partition _ _ _ _ m n Wp EP) as [E1 E2], (C35_partition _ _ _ _ m n Wq EQ) as [E3 E4]; rewrite ?E1, ?E2, ?E3, ?E4; specialize (H m n);
          destruct (entry p m n) as [v|], (entry q m n) as [w|]; try easy; rewrite (Bp m n v w H); now destruct (pred m n w). }
      destruct Hh as [Hh Ht]. destruct (IH B' tp tq Wtp Wtq Ht) as (l & rest & EL & FL & ER).
      destruct (create_partitions ms tp) as [[ptrees psps] prest] eqn:ECp. destruct (create_partitions ms tq) as [[qtrees qsps] qrest] eqn:ECq.
      cbn [combine List.map fst snd mask_all].
      assert (Hm : alike hp (map_ (fun _ _ x => mask_leaf (1 - s * fraction)%Q x) hq)).
      { intros m n. rewrite C36_map by assumption. specialize (Hh m n). destruct (entry hp m n), (entry hq m n); try easy. cbn. eapply fits_trans; [exact Hh|apply mask_fits]. }
      destruct (multimap_alike (masked zero) hp _ Whp (map_wf _ _) Hm) as (x & EX & WX & _ & Ex). unfold mask_leaf in EX at 1. rewrite EX.
      destruct (mask_all zero ptrees _) as [l'|] eqn:EM; [|discriminate EL]. cbn in EL. injection EL as -> ->. cbn [option_map]. exists (x :: l), rest. split; [reflexivity|].
      split; [cbn; now constructor|]. intros m n. change ((x :: l) ++ [rest]) with (x :: (l ++ [rest])). rewrite merge_cons by (now constructor). rewrite ER, Ex, C36_map by assumption.
      destruct (C35_partition _ _ _ _ m n Wp EP) as [E1 E2], (C35_partition _ _ _ _ m n Wq EQ) as [E3 E4]. rewrite E1, E2, E3, E4. specialize (H m n).
      destruct (entry p m n) as [v|], (entry q m n) as [w|]; try easy. rewrite <- (Bp m n v w H). cbn [owner]. destruct (pred m n v); [reflexivity|].
      now destruct (owner ms m n v) as [[j s']|]. }
  destruct M as (l & rest & EL & FL & ER). unfold ModelPruning.apply_mask. destruct (create_partitions ms p) as [[tp sp] rp].
  destruct (mask_all zero tp _) as [l'|]; [|discriminate EL]. cbn in EL. injection EL as -> ->. eexists. split; [reflexivity|]. split; [apply merge_wf|]. split; [|exact ER].
  intros m n. rewrite ER. specialize (H m n). destruct (entry p m n) as [v|], (entry q m n) as [w|]; try easy.
  destruct (owner ms m n v) as [[j s]|]; [|apply fits_refl]. apply leaf2_fits. eapply fits_trans; [exact H|apply mask_fits].
Qed.

(** ** The training loop *)
Context {Batch Opt : Type}.
Variable get_updates : params N -> Opt -> Batch -> params N * Opt.
Variable ms : sparsities.
Hypothesis shapes_only : by_shape ms.
Variables (p0 : params N) (o0 : Opt).
Hypothesis p0_wf : wf_structure p0.
(** Gradients and optimizers give updates in the shapes of the parameters. *)
Hypothesis updates_alike : forall p o b, wf_structure p -> alike p0 p -> wf_structure (fst (get_updates p o b)) /\ alike p0 (fst (get_updates p o b)).
Notation train_step := (train_step zero abs add ema argsort shuffled get_updates ms).
Notation train_from := (train_from zero abs add ema argsort shuffled get_updates ms).
Notation start := (start zero abs argsort shuffled ms p0 o0).
Notation evaluated := (evaluated zero ms).

Definition good (s : @train N Opt) : Prop :=
  wf_structure (t_params s) /\ alike p0 (t_params s) /\ wf_structure (t_avg s) /\ alike p0 (t_avg s) /\
  exists q f, wf_structure q /\ alike p0 q /\ t_masks s = update_mask q f ms.
Lemma start_good : good start.
Proof. repeat split; try apply p0_wf; try apply alike_refl. exists p0, 0%Q. repeat split; try apply p0_wf; apply alike_refl. Qed.
Lemma mask_good s p : good s -> wf_structure p -> alike p0 p -> exists r, apply_mask p (t_masks s) ms = Some r /\ wf_structure r /\ alike p0 r.
Proof.
  intros (_ & _ & _ & _ & q & f & Wq & Aq & ->) Wp Ap. destruct (C86_apply ms f shapes_only p q Wp Wq) as (r & E & W & A & _).
  - eapply alike_trans; [apply alike_sym; exact Ap|exact Aq].
  - exists r. repeat split; [exact E|apply W|apply W|]. exact (alike_trans _ _ _ Ap A).
Qed.
(** One step in full: it never raises, and this is what it does. *)
Lemma step_good step b s : good s -> exists pruned updates opt masked_updates s',
  apply_mask (t_params s) (t_masks s) ms = Some pruned /\ wf_structure pruned /\ alike p0 pruned /\
  get_updates pruned (t_opt s) b = (updates, opt) /\ wf_structure updates /\ alike p0 updates /\
  apply_mask updates (t_masks s) ms = Some masked_updates /\ wf_structure masked_updates /\ alike p0 masked_updates /\
  train_step step b s = Some s' /\ good s' /\
  (forall m n, entry (t_params s') m n = match entry (t_params s) m n, entry masked_updates m n with Some x, Some u => Some (leaf2 add x u) | _, _ => None end) /\
  t_masks s' = if Nat.eqb (step mod 200) 0 then update_mask (t_params s') (zhugupta_func (progress (Z.of_nat step))) ms else t_masks s.
Proof.
  intros G. pose proof G as (Wp & Ap & Wa & Aa & q & f & Wq & Aq & EM).
  destruct (mask_good s _ G Wp Ap) as (pruned & E1 & W1 & A1). destruct (get_updates pruned (t_opt s) b) as [updates opt] eqn:EU.
  pose proof (updates_alike pruned (t_opt s) b W1 A1) as [W2 A2]. rewrite EU in W2, A2. cbn [fst] in W2, A2.
  destruct (mask_good s _ G W2 A2) as (mu & E3 & W3 & A3).
  assert (X : exists avg, (if Nat.eqb (step mod 1000) 0 then evaluated s else Some (t_avg s)) = Some avg /\ wf_structure avg /\ alike p0 avg).
  { destruct (Nat.eqb _ 0); [|exists (t_avg s); repeat split; try apply Wa; exact Aa]. destruct (mask_good s _ G Wa Aa) as (r & E & W & A). exists r. auto. }
  destruct X as (avg & E4 & W4 & A4).
  destruct (multimap_alike add (t_params s) mu Wp W3) as (p & E5 & W5 & A5 & E5').
  { eapply alike_trans; [apply alike_sym; exact Ap|exact A3]. }
  assert (A5' : alike p0 p) by exact (alike_trans _ _ _ Ap A5).
  destruct (multimap_alike ema avg p W4 W5) as (avg' & E6 & W6 & A6 & _).
  { eapply alike_trans; [apply alike_sym; exact A4|exact A5']. }
  set (masks := if Nat.eqb (step mod 200) 0 then update_mask p (zhugupta_func (progress (Z.of_nat step))) ms else t_masks s).
  exists pruned, updates, opt, mu, (Train p avg' masks opt). repeat (split; [assumption|]).
  split; [|split; [|split; [exact E5'|reflexivity]]].
  - unfold ModelPruning.train_step. rewrite E4, E1, EU, E3, E5, E6. reflexivity.
  - split; [exact W5|]. split; [exact A5'|]. split; [exact W6|]. split; [exact (alike_trans _ _ _ A4 A6)|]. cbn [t_masks]. unfold masks.
    destruct (Nat.eqb (step mod 200) 0); [exists p, (zhugupta_func (progress (Z.of_nat step))); split; [exact W5|split; [exact A5'|reflexivity]]|]. exists q, f. auto.
Qed.
Lemma from_app a b step s : train_from step (a ++ b) s = match train_from step a s with Some s => train_from (step + List.length a) b s | None => None end.
Proof.
  revert step s. induction a as [|x a IH]; intros step s; cbn [app ModelPruning.train_from List.length]; [now rewrite Nat.add_0_r|].
  destruct (train_step step x s) as [s1|]; [|reflexivity]. rewrite IH. replace (S step + List.length a)%nat with (step + S (List.length a))%nat by lia. reflexivity.
Qed.
Lemma run_good bs : exists s, train_from 0 bs start = Some s /\ good s.
Proof.
  induction bs as [|b bs IH] using rev_ind; [exists start; split; [reflexivity|apply start_good]|].
  destruct IH as (s & E & G). rewrite from_app, E. cbn [ModelPruning.train_from]. destruct (step_good (0 + List.length bs) b s G) as (?&?&?&?& s' & _ & _ & _ & _ & _ & _ & _ & _ & _ & -> & G' & _). now exists s'.
Qed.

(** The loop never raises, and the masks in use at a step are the top-k masks of the parameters at the end of the last step divisible by 200. *)
Theorem C86_masks bs : exists s, train_from 0 bs start = Some s /\
  match List.length bs with
  | 0 => t_masks s = update_mask p0 0%Q ms
  | S k => let last := (k / 200 * 200)%nat in
      exists s', train_from 0 (firstn (S last) bs) start = Some s' /\ t_masks s = update_mask (t_params s') (zhugupta_func (progress (Z.of_nat last))) ms
  end.
Proof.
  induction bs as [|b bs IH] using rev_ind; [exists start; split; reflexivity|].
  destruct IH as (s & E & M). destruct (run_good bs) as (s0 & E0 & G). rewrite E in E0. injection E0 as <-.
  destruct (step_good (0 + List.length bs) b s G) as (?&?&?&?& s' & _ & _ & _ & _ & _ & _ & _ & _ & _ & ES & G' & _ & EM).
  cbn [plus] in ES, EM. exists s'. rewrite from_app, E. cbn [ModelPruning.train_from plus]. rewrite ES. split; [reflexivity|].
  rewrite app_length. cbn [List.length]. rewrite Nat.add_1_r. cbn zeta. pose proof (Nat.div_mod (List.length bs) 200 ltac:(lia)) as D.
  destruct (Nat.eqb_spec (List.length bs mod 200) 0) as [Z|Z].
  - replace (List.length bs / 200 * 200)%nat with (List.length bs) by lia. exists s'. split; [|exact EM].
    rewrite firstn_all2 by (rewrite app_length; cbn; lia). rewrite from_app, E. cbn [ModelPruning.train_from plus]. now rewrite ES.
  - rewrite EM. destruct (List.length bs) as [|k] eqn:L; [now destruct Z|]. cbn zeta in M. destruct M as (s1 & E1 & M1).
    assert (K : (S k / 200 = k / 200)%nat). { pose proof (Nat.mod_upper_bound (S k) 200 ltac:(lia)) as U. revert D Z U. generalize (S k / 200)%nat (S k mod 200)%nat. intros q1 r1 D Z U. apply Nat.div_unique with (r := (r1 - 1)%nat); lia. }
    rewrite K. exists s1. split; [|exact M1]. rewrite firstn_app. replace (S (k / 200 * 200) - List.length bs)%nat with 0%nat.
    + cbn [firstn]. now rewrite app_nil_r.
    + pose proof (Nat.div_mod k 200 ltac:(lia)). lia.
Qed.

Lemma leaf2_nth {A B} (f : A -> B -> A) x y i : nth_error (lf_vals (leaf2 f x y)) i = match nth_error (lf_vals x) i, nth_error (lf_vals y) i with Some a, Some b => Some (f a b) | _, _ => None end.
Proof.
  unfold leaf2. cbn [lf_vals]. generalize (lf_vals x) (lf_vals y). intros l. revert i. induction l as [|a l IH]; intros [|i] [|b l']; cbn; try reflexivity.
  - now destruct (nth_error l i).
  - apply IH.
Qed.
Lemma masks_entry q f j t m n w sp : wf_structure q -> nth_error (update_mask q f ms) j = Some t -> entry q m n = Some w -> owner ms m n w = Some (j, sp) ->
  entry t m n = Some (mask_leaf (1 - sp * f)%Q w).
Proof.
  intros Wq E Ew Eo. unfold ModelPruning.update_mask in E. destruct (create_partitions ms q) as [[trees sps] rest] eqn:EC.
  destruct (C86_partitions ms q trees sps rest Wq EC) as (L & -> & F & _ & T & _).
  rewrite List.nth_error_map in E. match type of E with option_map _ ?o = _ => destruct o as [[tr s]|] eqn:EJ end; [|discriminate E]. injection E as <-. cbn [fst snd].
  assert (EJ' : nth_error trees j = Some tr /\ nth_error (List.map snd ms) j = Some s).
  { revert EJ. generalize (List.map snd ms). clear. revert j. induction trees as [|a l IH]; intros [|j] [|b l'] E; cbn in E |- *; try discriminate; [now injection E as -> ->|]. now apply IH. }
  destruct EJ' as [ET ES]. assert (s = sp) as ->.
  { clear -Eo ES. revert j Eo ES. induction ms as [|[pred s0] l IH]; intros j Eo ES; [discriminate Eo|]. cbn [owner] in Eo. destruct (pred m n w).
    - injection Eo as <- <-. cbn in ES. now injection ES as ->.
    - destruct (owner l m n w) as [[j' s']|]; [|discriminate]. cbn in Eo. injection Eo as <- <-. cbn in ES. now apply (IH j'). }
  assert (WT : wf_structure tr) by (rewrite List.Forall_forall in F; apply F; eapply nth_error_In; exact ET).
  rewrite C36_map by exact WT. rewrite (T j tr m n ET), Ew. unfold owned. rewrite Eo, Nat.eqb_refl. reflexivity.
Qed.

(** A weight whose mask is off keeps its value: the network sees zero in its place and the update to it is dropped. *)
Theorem C86_frozen step b s s' m n v j sp t mk i : (forall x, add x zero = x) -> good s -> train_step step b s = Some s' ->
  entry (t_params s) m n = Some v -> owner ms m n v = Some (j, sp) ->
  nth_error (t_masks s) j = Some t -> entry t m n = Some mk -> nth_error (lf_vals mk) i = Some false ->
  exists pruned v' x, apply_mask (t_params s) (t_masks s) ms = Some pruned /\
    entry pruned m n = Some v' /\ nth_error (lf_vals v') i = Some zero /\
    nth_error (lf_vals v) i = Some x /\ exists v'', entry (t_params s') m n = Some v'' /\ nth_error (lf_vals v'') i = Some x.
Proof.
  intros AZ G ES Ev Eo Ej Et Ei. destruct (step_good step b s G) as (pruned & updates & opt & mu & s1 & E1 & W1 & A1 & EU & W2 & A2 & E3 & W3 & A3 & ES' & G' & EP & _).
  rewrite ES in ES'. injection ES' as <-. destruct G as (Wp & Ap & _ & _ & q & f & Wq & Aq & EM). rewrite EM in *.
  assert (Apq : alike (t_params s) q) by exact (alike_trans _ _ _ (alike_sym _ _ Ap) Aq). assert (Auq : alike updates q) by exact (alike_trans _ _ _ (alike_sym _ _ A2) Aq).
  pose proof (Apq m n) as H. rewrite Ev in H. destruct (entry q m n) as [w|] eqn:Ew; [|easy].
  pose proof (owner_shape ms m n v w shapes_only H) as Ho. rewrite Eo in Ho. symmetry in Ho.
  rewrite (masks_entry q f j t m n w sp Wq Ej Ew Ho) in Et. injection Et as <-.
  assert (HV : exists x, nth_error (lf_vals v) i = Some x).
  { destruct (nth_error (lf_vals v) i) as [x|] eqn:E; [eauto|]. apply nth_error_None in E. pose proof (fits_trans _ _ _ H (mask_fits (1 - sp * f)%Q w)) as [_ L].
    assert (i < List.length (lf_vals (mask_leaf (1 - sp * f)%Q w)))%nat by (apply nth_error_Some; congruence). lia. }
  destruct HV as (x & EX).
  destruct (C86_apply ms f shapes_only _ _ Wp Wq Apq) as (r & Er & _ & _ & Xr). rewrite E1 in Er. injection Er as <-.
  destruct (C86_apply ms f shapes_only _ _ W2 Wq Auq) as (r & Er & _ & _ & Xu). rewrite E3 in Er. injection Er as <-.
  exists pruned. specialize (Xr m n). rewrite Ev, Ew, Eo in Xr. eexists. exists x. split; [exact E1|]. split; [exact Xr|]. split; [rewrite leaf2_nth, EX, Ei; reflexivity|]. split; [exact EX|].
  specialize (Xu m n). specialize (Auq m n). rewrite Ew in Xu, Auq. destruct (entry updates m n) as [u|] eqn:Eu; [|easy].
  rewrite (owner_shape ms m n u w shapes_only Auq), Ho in Xu. specialize (EP m n). rewrite Ev, Xu in EP. eexists. split; [exact EP|]. rewrite !leaf2_nth, EX, Ei.
  destruct Auq as [_ L]. destruct (mask_fits (1 - sp * f)%Q w) as [_ L'].
  assert (i < List.length (lf_vals (mask_leaf (1 - sp * f)%Q w)))%nat by (apply nth_error_Some; congruence).
  destruct (nth_error (lf_vals u) i) as [y|] eqn:EY; [|apply nth_error_None in EY; lia]. cbn. now rewrite AZ.
Qed.

(** ** How sparse the evaluated network is *)
Definition nonzeros (nonzero : N -> bool) (l : list N) : nat := List.length (List.filter nonzero l).
Lemma masked_nonzeros nonzero x y : nonzero zero = false -> nonzeros nonzero (lf_vals (leaf2 (masked zero) x y)) <= kept (lf_vals y).
Proof.
  intros Z. unfold leaf2. cbn [lf_vals]. generalize (lf_vals x) (lf_vals y). intros l. induction l as [|a l IH]; intros [|[] l']; cbn; try lia.
  - specialize (IH l'). unfold nonzeros, kept in *. cbn. destruct (nonzero a); cbn; lia.
  - specialize (IH l'). unfold nonzeros, kept in *. rewrite Z. lia.
Qed.
Lemma mask_kept d w : kept (lf_vals (mask_leaf d w)) = clamp (round_even (d * inject_Z (Z.of_nat (List.length (lf_vals w))))) (List.length (lf_vals w)).
Proof.
  destruct (C86_topk zero le argsort shuffled argsort_sorts shuffled_positions d (List.map abs (lf_vals w))) as (_ & K & _). rewrite map_length in K. exact K.
Qed.
Lemma round_even_comp q r : (q == r)%Q -> round_even q = round_even r.
Proof.
  intros E. unfold round_even. rewrite (Qround.Qfloor_comp _ _ E). assert (H : (q - inject_Z (Qround.Qfloor r) == r - inject_Z (Qround.Qfloor r))%Q) by (now rewrite E).
  now rewrite (Qcompare_comp _ _ H _ _ (Qeq_refl (1 # 2))).
Qed.
Lemma round_even_Z z : round_even (inject_Z z) = z.
Proof.
  unfold round_even. rewrite Qround.Qfloor_Z. assert (Q0 : (inject_Z z - inject_Z z == 0)%Q) by ring. now rewrite (Qcompare_comp _ _ Q0 _ _ (Qeq_refl (1 # 2))).
Qed.

Theorem C86_evaluated nonzero bs s k e m n v j sp : nonzero zero = false -> train_from 0 bs start = Some s -> List.length bs = S k -> evaluated s = Some e ->
  entry e m n = Some v -> owner ms m n v = Some (j, sp) ->
  let size := List.length (lf_vals v) in
  let made := Z.of_nat (k / 200 * 200) in
  nonzeros nonzero (lf_vals v) <= clamp (round_even ((1 - sp * zhugupta_func (progress made)) * inject_Z (Z.of_nat size))) size.
Proof.
  intros Z E L Ee Ev Eo size made. destruct (C86_masks bs) as (s1 & E1 & M). rewrite E in E1. injection E1 as <-. rewrite L in M. cbn zeta in M. destruct M as (s' & Es' & M).
  destruct (run_good bs) as (s1 & E1 & G). rewrite E in E1. injection E1 as <-. destruct (run_good (firstn (S (k / 200 * 200)) bs)) as (s1 & E1 & G'). rewrite Es' in E1. injection E1 as <-.
  destruct G as (_ & _ & Wa & Aa & _), G' as (Wq & Aq & _). unfold ModelPruning.evaluated in Ee. rewrite M in Ee. fold made in Ee.
  destruct (C86_apply ms (zhugupta_func (progress made)) shapes_only _ _ Wa Wq (alike_trans _ _ _ (alike_sym _ _ Aa) Aq)) as (r & Er & _ & Ar & X). rewrite Ee in Er. injection Er as <-.
  specialize (X m n). rewrite Ev in X. specialize (Ar m n). rewrite Ev in Ar. destruct (entry (t_avg s) m n) as [a|] eqn:Ea; [|easy].
  pose proof (alike_trans _ _ _ (alike_sym _ _ Aa) Aq m n) as H. rewrite Ea in H. destruct (entry (t_params s') m n) as [w|]; [|easy].
  rewrite (owner_shape ms m n a v shapes_only Ar), Eo in X. injection X as ->.
  etransitivity; [apply masked_nonzeros; exact Z|]. rewrite mask_kept. unfold size. replace (List.length (lf_vals w)) with (List.length (lf_vals (leaf2 (masked zero) a (mask_leaf (1 - sp * zhugupta_func (progress made))%Q w)))); [reflexivity|].
  destruct Ar as [_ Ar], H as [_ H]. lia.
Qed.
(** From step 9001 on, only the chosen fraction of each layer is not zero: for the three layers of the example at most 4704 and 3000 weights. *)
Theorem C86_final nonzero bs s e m n v j sp : nonzero zero = false -> train_from 0 bs start = Some s -> (9001 <= Z.of_nat (List.length bs))%Z -> evaluated s = Some e ->
  entry e m n = Some v -> owner ms m n v = Some (j, sp) ->
  nonzeros nonzero (lf_vals v) <= clamp (round_even ((1 - sp) * inject_Z (Z.of_nat (List.length (lf_vals v))))) (List.length (lf_vals v)).
Proof.
  intros Z E L Ee Ev Eo. destruct (List.length bs) as [|k] eqn:EL; [cbn in L; lia|]. pose proof (C86_evaluated nonzero bs s k e m n v j sp Z E EL Ee Ev Eo) as H. cbn zeta in H.
  etransitivity; [exact H|]. apply Nat.eq_le_incl. f_equal. apply round_even_comp.
  assert (P : (progress (Z.of_nat (k / 200 * 200)) == 1)%Q). { apply progress_spec. rewrite Nat2Z.inj_mul, Nat2Z.inj_div. change (Z.of_nat 200) with 200%Z. assert (H' : (45 <= Z.of_nat k / 200)%Z) by (apply Z.div_le_lower_bound; lia). lia. }
  unfold zhugupta_func. rewrite P. ring.
Qed.
(** Up to step 1200 nothing is pruned. *)
Theorem C86_unpruned bs s : (Z.of_nat (List.length bs) <= 1200)%Z -> train_from 0 bs start = Some s ->
  exists r, apply_mask (t_params s) (t_masks s) ms = Some r /\ forall m n, entry r m n = entry (t_params s) m n.
Proof.
  intros L E. destruct (C86_masks bs) as (s1 & E1 & M). rewrite E in E1. injection E1 as <-. destruct (run_good bs) as (s1 & E1 & G). rewrite E in E1. injection E1 as <-.
  assert (X : exists q f, wf_structure q /\ alike p0 q /\ t_masks s = update_mask q f ms /\ (f == 0)%Q).
  { destruct (List.length bs) as [|k]; [exists p0, 0%Q; repeat split; [apply p0_wf|apply p0_wf|apply alike_refl|exact M]|]. cbn zeta in M. destruct M as (s' & Es' & M).
    destruct (run_good (firstn (S (k / 200 * 200)) bs)) as (s1 & E1 & G'). rewrite Es' in E1. injection E1 as <-. destruct G' as (Wq & Aq & _).
    exists (t_params s'), (zhugupta_func (progress (Z.of_nat (k / 200 * 200)))). repeat split; [apply Wq|apply Wq|exact Aq|exact M|].
    assert (P : (progress (Z.of_nat (k / 200 * 200)) == 0)%Q). { apply progress_spec. assert (k / 200 < 6)%nat by (apply Nat.div_lt_upper_bound; lia). lia. }
    unfold zhugupta_func. rewrite P. reflexivity. }
  destruct X as (q & f & Wq & Aq & -> & F0). destruct G as (Wp & Ap & _). assert (H : alike (t_params s) q) by exact (alike_trans _ _ _ (alike_sym _ _ Ap) Aq).
  destruct (C86_apply ms f shapes_only _ _ Wp Wq H) as (r & Er & _ & _ & X). exists r. split; [exact Er|]. intros m n. rewrite X. specialize (H m n).
  destruct (entry (t_params s) m n) as [v|], (entry q m n) as [w|]; try easy. f_equal. destruct (owner ms m n v) as [[j sp]|]; [|reflexivity].
  pose proof (mask_kept (1 - sp * f)%Q w) as K. rewrite (round_even_comp _ (inject_Z (Z.of_nat (List.length (lf_vals w))))) in K by (rewrite F0; ring).
  assert (KN : kept (lf_vals (mask_leaf (1 - sp * f)%Q w)) = List.length (lf_vals w)).
  { rewrite K, round_even_Z. unfold clamp. lia. }
  destruct (mask_fits (1 - sp * f)%Q w) as [_ Lm]. destruct H as [_ Lv]. destruct v as [sh vals]. unfold leaf2. cbn [lf_vals lf_shape] in *. f_equal.
  rewrite Lm in KN. rewrite Lm in Lv. revert KN Lv. generalize (lf_vals (mask_leaf (1 - sp * f)%Q w)). clear. intros mk KN LL. revert KN.
  revert mk LL. induction vals as [|a l IH]; intros [|b mk] LL KN; cbn in LL; try discriminate; [reflexivity|]. injection LL as LL.
  assert (KL : forall l, kept l <= List.length l) by (intros l0; unfold kept; induction l0 as [|[] l0 IH0]; cbn; lia). unfold kept in *. destruct b; cbn in KN.
  - injection KN as KN. cbn. f_equal. now apply IH.
  - specialize (KL mk). cbn in KL. lia.
Qed.
End C86.
Print Assumptions C86_partitions.
Print Assumptions C86_apply.
Print Assumptions C86_masks.
Print Assumptions C86_frozen.
Print Assumptions C86_evaluated.
Print Assumptions C86_final.
Print Assumptions C86_unpruned.

(** ** Examples *)
(** Sorting positions by insertion, and a shuffle that reverses. *)
Fixpoint insert_pos (v : list Z) (i : nat) (l : list nat) : list nat :=
  match l with [] => [i] | j :: l' => if Z.leb (List.nth i v 0%Z) (List.nth j v 0%Z) then i :: l else j :: insert_pos v i l' end.
Definition insertion_argsort (v : list Z) : list nat := List.fold_right (insert_pos v) [] (List.seq 0 (List.length v)).
Definition reversed (n : nat) : list nat := List.rev (List.seq 0 n).
Lemma insert_pos_perm v i l : Permutation (i :: l) (insert_pos v i l).
Proof. induction l as [|j l IH]; cbn; [reflexivity|]. destruct (Z.leb _ _); [reflexivity|]. etransitivity; [apply perm_swap|]. now apply perm_skip. Qed.
Lemma insertion_perm v l : Permutation (List.fold_right (insert_pos v) [] l) l.
Proof. induction l as [|i l IH]; cbn; [reflexivity|]. rewrite <- insert_pos_perm. now apply perm_skip. Qed.
Lemma insertion_sorted v l : Sorted.StronglySorted (fun i j => (List.nth i v 0 <= List.nth j v 0)%Z) (List.fold_right (insert_pos v) [] l).
Proof.
  induction l as [|i l IH]; cbn; [constructor|]. revert IH. generalize (List.fold_right (insert_pos v) [] l). intros s. induction s as [|j s IHs]; intros H; cbn; [repeat constructor|].
  inversion H as [|? ? H1 H2]; subst. destruct (Z.leb_spec (List.nth i v 0%Z) (List.nth j v 0%Z)) as [L|L].
  - constructor; [exact H|]. constructor; [exact L|]. revert H2. apply List.Forall_impl. intros; lia.
  - constructor; [now apply IHs|]. apply List.Forall_forall. intros x Hx. apply (Permutation_in _ (Permutation_sym (insert_pos_perm v i s))) in Hx as [<-|Hx]; [lia|].
    rewrite List.Forall_forall in H2. now apply H2.
Qed.
Lemma insertion_sorts : sorts Z.le insertion_argsort.
Proof.
  intros v. split; [apply insertion_perm|]. intros i j a b x y Hij Ea Eb Ex Ey. unfold insertion_argsort in *. pose proof (insertion_sorted v (List.seq 0 (List.length v))) as S.
  revert S Ea Eb. generalize (List.fold_right (insert_pos v) [] (List.seq 0 (List.length v))). intros s. revert i j Hij. induction s as [|c s IH]; intros i j Hij S Ea Eb; [destruct i; discriminate Ea|].
  inversion S as [|? ? S1 S2]; subst. destruct j as [|j]; [lia|]. destruct i as [|i]; cbn in Ea, Eb.
  - injection Ea as <-. apply nth_error_In in Eb. rewrite List.Forall_forall in S2. specialize (S2 b Eb). cbn in S2.
    now rewrite (List.nth_error_nth _ _ _ Ex), (List.nth_error_nth _ _ _ Ey) in S2.
  - eapply IH; [|eassumption..]. lia.
Qed.
Lemma reversed_positions n : positions (reversed n) n.
Proof. apply Permutation_sym, Permutation_rev. Qed.

Example C86_topk_case : topk_mask 0%Z insertion_argsort reversed (1 # 2)%Q [5; 1; 5; 5]%Z = [true; false; true; false] /\
  topk_mask 0%Z insertion_argsort reversed (5 # 8)%Q [5; 1; 5; 5]%Z = [true; false; true; false] /\ topk_mask 0%Z insertion_argsort reversed (7 # 8)%Q [5; 1; 5; 5]%Z = [true; true; true; true].
Proof. vm_compute. auto. Qed.

Definition lenet : params Z :=
  [("linear", [("w", Leaf [2; 2] [1; -2; 3; 10]%Z); ("b", Leaf [2] [7; 8]%Z)]); ("linear_1", [("w", Leaf [2; 1] [4; 5]%Z)]); ("linear_2", [("w", Leaf [1; 1] [6]%Z)])].
(** The predicates of the example look at shapes only, and choose the weights of the first two layers. *)
Example C86_partitions_case : by_shape (@example_sparsity Z) /\
  create_partitions example_sparsity lenet =
    ([[("linear", [("w", Leaf [2; 2] [1; -2; 3; 10]%Z)])]; [("linear_1", [("w", Leaf [2; 1] [4; 5]%Z)])]], [98 # 100; 9 # 10]%Q,
     [("linear", [("b", Leaf [2] [7; 8]%Z)]); ("linear_2", [("w", Leaf [1; 1] [6]%Z)])]).
Proof.
  split; [|reflexivity]. intros pred s [[= <- <-]|[[= <- <-]|[]]] m n v w [E _]; unfold module_matching, sparsity_ignore; now rewrite E.
Qed.
(** [zip] stops at the shorter list: with too few masks the parameters of the last predicates are lost. *)
Example C86_zip_case : apply_mask 0%Z lenet [[("linear", [("w", Leaf [2; 2] [false; true; true; true])])]] example_sparsity =
  Some [("linear", [("w", Leaf [2; 2] [0; -2; 3; 10]%Z); ("b", Leaf [2] [7; 8]%Z)]); ("linear_2", [("w", Leaf [1; 1] [6]%Z)])].
Proof. vm_compute. reflexivity. Qed.
(** A weight that was pruned becomes active again when the active ones have fallen below it: here the kept weight 10 falls by one at each step
    until it is 1, and at the next update of the masks -2 and 3 are larger. *)
Definition half : list ((string -> string -> leaf Z -> bool) * Q) := [(module_matching "linear", 3 # 4)]%Q.
Definition shrink (p : params Z) (o : unit) (b : unit) : params Z * unit :=
  (map_ (fun _ _ x => Leaf (lf_shape x) (List.map (fun v => if (1 <? v)%Z then (-1)%Z else 0%Z) (lf_vals x))) p, o).
Definition weights_and_masks (s : @train Z unit) := (option_map lf_vals (entry (t_params s) "linear" "w"), List.map (fun t => option_map lf_vals (entry t "linear" "w")) (t_masks s)).
Definition shrink_run k := option_map weights_and_masks
  (train_from 0%Z Z.abs Z.add (fun a _ => a) insertion_argsort reversed shrink half (200 * 50) (repeat tt k) (start 0%Z Z.abs insertion_argsort reversed half lenet tt)).
Example C86_reactivated_case : shrink_run 1 = Some (Some [1; -2; 2; 9]%Z, [Some [false; false; false; true]]) /\
  shrink_run 200 = Some (Some [1; -2; 2; 1]%Z, [Some [false; false; false; true]]) /\
  shrink_run 201 = Some (Some [1; -2; 2; 1]%Z, [Some [false; true; false; false]]).
Proof. vm_compute. auto. Qed.

(** * C80: the threads of the IMPALA example *)
From Coq Require Import List Bool Arith Lia Sorted.
From Verif Require Import ModelRng ModelImpala.
Import ListNotations.

(** ** Lists *)
Lemma set_nth_length {X} (l : list X) i x : i < length l -> length (set_nth l i x) = length l.
Proof. intros H. unfold set_nth. rewrite app_length, firstn_length. cbn [length]. rewrite skipn_length. lia. Qed.
Lemma set_nth_same {X} (l : list X) i x : i < length l -> nth_error (set_nth l i x) i = Some x.
Proof. intros H. unfold set_nth. rewrite nth_error_app2 by (rewrite firstn_length; lia). rewrite firstn_length, Nat.min_l, Nat.sub_diag by lia. reflexivity. Qed.
Lemma nth_error_skipn {X} (l : list X) i j : nth_error (skipn i l) j = nth_error l (i + j).
Proof. revert l. induction i as [|i IH]; intros [|x l]; try reflexivity; [now destruct j | apply IH]. Qed.
Lemma nth_error_firstn {X} (l : list X) i j : j < i -> nth_error (firstn i l) j = nth_error l j.
Proof. revert i j. induction l as [|x l IH]; intros [|i] [|j] H; try reflexivity; try lia. apply IH. lia. Qed.
Lemma set_nth_other {X} (l : list X) i j x : i <> j -> i < length l -> nth_error (set_nth l i x) j = nth_error l j.
Proof.
  intros N H. unfold set_nth. destruct (Nat.lt_ge_cases j i) as [L|L].
  - rewrite nth_error_app1 by (rewrite firstn_length; lia). now apply nth_error_firstn.
  - rewrite nth_error_app2 by (rewrite firstn_length; lia). rewrite firstn_length, Nat.min_l by lia.
    replace (j - i) with (S (j - S i)) by lia. cbn [nth_error]. rewrite nth_error_skipn. f_equal. lia.
Qed.
Lemma nth_error_lt {X} (l : list X) i x : nth_error l i = Some x -> i < length l.
Proof. intros H. apply nth_error_Some. congruence. Qed.
Lemma concat_snoc {X} (l : list (list X)) b : concat (l ++ [b]) = concat l ++ b.
Proof. rewrite concat_app. cbn. now rewrite app_nil_r. Qed.
Lemma concat_length_B {X} (l : list (list X)) B : Forall (fun b => length b = B) l -> length (concat l) = length l * B.
Proof. induction 1 as [|b l H _ IH]; [reflexivity|]. cbn. rewrite app_length, IH, H. reflexivity. Qed.

Section Threads.
Context {P O A T : Type}.
Variable unroll : nat -> nat -> P -> A -> T * A.
Variable learn : P -> O -> list T -> P * O.
Variables batch_size frames : nat.
Notation traj := (traj P T). Notation sys := (sys P O A T).
Notation step := (step unroll learn batch_size frames). Notation run := (run unroll learn batch_size frames).

Definition held (l : lpc P T) : list (list traj) := match l with LGot b => [b] | _ => [] end.
Definition pending (a : actor P A T) : list traj := match a_pc a with APut t => [t] | _ => [] end.
(** Parameters and optimiser state after learning from the batches [l]. *)
Definition learned (p : P) (o : O) (l : list (list traj)) : P * O := fold_left (fun po b => learn (fst po) (snd po) (map t_data b)) l (p, o).

Ltac stepcases H :=
  match type of H with ModelImpala.step _ _ _ _ ?t ?s = Some _ =>
    destruct s as [actors host wp batch device lp iters fr par opt pub done stop used sent]; destruct t as [i| |]; cbn [ModelImpala.step] in H;
    unfold step_actor, step_worker, step_learner in H;
    repeat match type of H with
           | context[match ?x with _ => _ end] => let E := fresh "E" in destruct x eqn:E; try discriminate H
           | context[let '(_, _) := ?x in _] => let E := fresh "E" in destruct x eqn:E
           end; injection H as <-
  end.

Ltac bools :=
  repeat match goal with E : (_ <? _) = true |- _ => apply Nat.ltb_lt in E | E : (_ <? _) = false |- _ => apply Nat.ltb_ge in E
         | E : (_ <=? _) = true |- _ => apply Nat.leb_le in E | E : (_ <=? _) = false |- _ => apply Nat.leb_gt in E end.
Ltac fields := cbn [s_actors s_host s_wpc s_batch s_device s_lpc s_iters s_frames s_params s_opt s_pub s_done s_stop s_used s_sent held a_pc a_left a_state pending fst snd] in *.

(** *** Queues *)
Definition inv_queues (s : sys) : Prop :=
  concat (s_used s ++ held (s_lpc s) ++ s_device s) ++ s_batch s ++ s_host s = s_sent s /\
  Forall (fun b => length b = batch_size) (s_used s ++ held (s_lpc s) ++ s_device s) /\
  length (s_device s) <= 1 /\ length (s_host s) <= batch_size /\ length (s_batch s) <= batch_size /\
  (s_wpc s = WPut -> length (s_batch s) = batch_size).
Lemma step_queues t s s' : step t s = Some s' -> inv_queues s -> inv_queues s'.
Proof.
  intros H (I1 & I2 & I3 & I4 & I5 & I6). unfold inv_queues. stepcases H; bools; fields; subst; rewrite ?app_length; cbn [length app];
    rewrite ?concat_app, ?Forall_app, ?Forall_cons_iff in *; cbn [concat length app] in *; rewrite <- ?app_assoc, ?app_nil_r; cbn [app];
    repeat split; try tauto; try discriminate; try lia; try reflexivity; try (destruct device; cbn in *; lia).
  - constructor.
Qed.

(** *** The learner *)
Variables (p0 : P) (o0 : O).
Definition inv_learner (s : sys) : Prop :=
  s_frames s = length (s_used s) * frames /\ s_pub s = (s_frames s, s_params s) /\ (s_params s, s_opt s) = learned p0 o0 (s_used s).
Lemma learned_snoc l b : learned p0 o0 (l ++ [b]) = learn (fst (learned p0 o0 l)) (snd (learned p0 o0 l)) (map t_data b).
Proof. unfold learned. now rewrite fold_left_app. Qed.
Lemma step_inv_learner t s s' : step t s = Some s' -> inv_learner s -> inv_learner s'.
Proof.
  intros H (I1 & I2 & I3). unfold inv_learner. stepcases H; fields; try (repeat split; congruence).
  repeat split.
  - rewrite app_length. cbn. lia.
  - rewrite learned_snoc, <- I3. cbn. congruence.
Qed.

(** *** Flags and iterations *)
Variable iters0 : option nat.
Definition inv_flags (s : sys) : Prop :=
  (s_done s = true <-> match s_lpc s with LJoin | LWait | LEnd => True | _ => False end) /\
  (s_stop s = true <-> match s_lpc s with LWait | LEnd => True | _ => False end) /\
  (match s_lpc s with LWait | LEnd => s_wpc s = WExit | _ => True end) /\ (s_wpc s = WExit -> s_done s = true) /\
  (s_lpc s = LEnd -> forallb exited (s_actors s) = true) /\
  match iters0 with None => s_iters s = None | Some m => exists k, s_iters s = Some k /\ length (s_used s) + length (held (s_lpc s)) + k = m end /\
  (s_done s = true -> s_iters s = Some 0).
Lemma forallb_set_nth {X} (f : X -> bool) l i x y : nth_error l i = Some y -> f y = false -> forallb f l = true -> forallb f (set_nth l i x) = true.
Proof. intros E F H. rewrite forallb_forall in H. rewrite (H y) in F; [discriminate | now apply nth_error_In in E]. Qed.
Lemma step_flags t s s' : step t s = Some s' -> inv_flags s -> inv_flags s'.
Proof.
  intros H (I1 & I2 & I3 & I4 & I5 & I6 & I7). unfold inv_flags. stepcases H; fields; subst; repeat split; intros; try tauto; try discriminate; try congruence.
  1-5: exfalso; rewrite forallb_forall in I5; specialize (I5 H _ (nth_error_In _ _ E)); discriminate I5.
  1-5: destruct lp; try exact I; try reflexivity; discriminate I3.
  all: destruct iters0; try congruence.
  - destruct I6 as (k & I6 & <-). injection I6 as <-. eexists. split; [reflexivity | cbn; lia].
  - destruct I6 as (k & I6 & _). discriminate I6.
  - destruct I6 as (k & I6 & <-). exists k. split; [assumption|]. rewrite app_length. cbn. lia.
Qed.

(** *** Actors *)
Variable actors0 : list (option nat * A).
Definition of_actor (i : nat) (t : traj) : bool := t_actor t =? i.
(** What an actor makes from the parameters it pulls. *)
Fixpoint actor_run (i : nat) (pulls : list (nat * P)) (a : A) : list T * A :=
  match pulls with
  | [] => ([], a)
  | p :: r => let d := unroll i (fst p) (snd p) a in let ds := actor_run i r (snd d) in (fst d :: fst ds, snd ds)
  end.
Lemma actor_run_snoc i l p a : actor_run i (l ++ [p]) a =
  (fst (actor_run i l a) ++ [fst (unroll i (fst p) (snd p) (snd (actor_run i l a)))], snd (unroll i (fst p) (snd p) (snd (actor_run i l a)))).
Proof. revert a. induction l as [|q l IH]; intros a; [reflexivity|]. cbn [app actor_run]. cbv zeta. rewrite IH. reflexivity. Qed.
(** Trajectory [t] was made with the parameters after [v] of the updates. *)
Definition made_with (used : list (list traj)) (t : traj) (v : nat) : Prop :=
  v <= length used /\ t_pull t = (v * frames, fst (learned p0 o0 (firstn v used))).
Lemma made_with_snoc used b t v : made_with used t v -> made_with (used ++ [b]) t v.
Proof. intros [H1 H2]. split; [rewrite app_length; lia|]. rewrite H2, firstn_app. replace (v - length used) with 0 by lia. cbn [firstn]. now rewrite app_nil_r. Qed.
Definition actor_ok (used : list (list traj)) (sent : list traj) (i : nat) (a : actor P A T) (a0 : option nat * A) : Prop :=
  let made := filter (of_actor i) sent ++ pending a in
  (exists vs, Forall2 (made_with used) made vs /\ StronglySorted le vs) /\
  actor_run i (map t_pull made) (snd a0) = (map t_data made, a_state a) /\
  (match fst a0 with None => a_left a = None | Some n => exists k, a_left a = Some k /\ length made + k = n end) /\
  Forall (fun t => of_actor i t = true) (pending a).
Definition inv_actors (s : sys) : Prop :=
  length (s_actors s) = length actors0 /\ Forall (fun t => t_actor t < length actors0) (s_sent s) /\
  forall i a a0, nth_error (s_actors s) i = Some a -> nth_error actors0 i = Some a0 -> actor_ok (s_used s) (s_sent s) i a a0.
Lemma Forall2_impl' {X Y} (R R' : X -> Y -> Prop) l m : (forall x y, R x y -> R' x y) -> Forall2 R l m -> Forall2 R' l m.
Proof. intros H. induction 1; constructor; auto. Qed.
Lemma actor_ok_snoc used b sent i a a0 : actor_ok used sent i a a0 -> actor_ok (used ++ [b]) sent i a a0.
Proof.
  intros ((vs & F & S) & R). split; [|assumption]. exists vs. split; [|assumption]. eapply Forall2_impl'; [|exact F]. intros t v. apply made_with_snoc.
Qed.
Lemma sorted_snoc vs n : StronglySorted le vs -> Forall (fun v => v <= n) vs -> StronglySorted le (vs ++ [n]).
Proof.
  induction 1 as [|v vs S IH F]; intros H; cbn; [repeat constructor|]. apply Forall_cons_iff in H as [H1 H2]. constructor; [now apply IH|].
  apply Forall_app. split; [assumption | now constructor].
Qed.
Lemma Forall2_bound used made vs : Forall2 (made_with used) made vs -> Forall (fun v => v <= length used) vs.
Proof. induction 1 as [|t v ts vs [H _] _ IH]; now constructor. Qed.
Lemma actor_ok_other used sent t i a a0 : of_actor i t = false -> actor_ok used sent i a a0 -> actor_ok used (sent ++ [t]) i a a0.
Proof. intros N H. unfold actor_ok in *. rewrite filter_app. cbn [filter]. rewrite N. now rewrite app_nil_r. Qed.
Lemma actor_ok_pc used sent i pc pc' l st a0 : pending (Actor pc' l st) = pending (Actor pc l st) -> actor_ok used sent i (Actor pc l st) a0 -> actor_ok used sent i (Actor pc' l st) a0.
Proof. intros E H. unfold actor_ok in *. rewrite E. exact H. Qed.
Lemma actor_ok_put used sent i t l st a0 : actor_ok used sent i (Actor (APut t) l st) a0 -> actor_ok used (sent ++ [t]) i (Actor ACheck l st) a0.
Proof.
  intros H. unfold actor_ok in *. cbn [pending a_pc a_left a_state] in *. destruct H as (H1 & H2 & H3 & H4). apply Forall_cons_iff in H4 as [H4 _].
  rewrite filter_app. cbn [filter]. rewrite H4, app_nil_r. repeat split; try assumption. constructor.
Qed.
Lemma actor_ok_make used sent i par opt fr l st a0 d st' : (par, opt) = learned p0 o0 used -> fr = length used * frames -> match l with Some 0 => False | _ => True end ->
  unroll i fr par st = (d, st') -> actor_ok used sent i (Actor ACheck l st) a0 -> actor_ok used sent i (Actor (APut (Traj i (fr, par) d)) (option_map pred l) st') a0.
Proof.
  intros L F N U H. unfold actor_ok in *. cbn [pending a_pc a_left a_state] in *. rewrite app_nil_r in H. destruct H as ((vs & H1 & H1') & H2 & H3 & _).
  set (made := filter (of_actor i) sent) in *. split; [|split; [|split]].
  - exists (vs ++ [length used]). split; [|apply sorted_snoc; [assumption | now apply Forall2_bound in H1]].
    apply Forall2_app; [assumption|]. constructor; [|constructor]. split; [lia|]. cbn. rewrite F, firstn_all, <- L. reflexivity.
  - rewrite !map_app. cbn [map t_pull t_data]. rewrite actor_run_snoc, H2. cbn [fst snd]. rewrite U. reflexivity.
  - destruct (fst a0) as [n|].
    + destruct H3 as (k & -> & <-). destruct k as [|k]; [contradiction|]. exists k. split; [reflexivity|]. rewrite app_length. cbn. lia.
    + rewrite H3. reflexivity.
  - repeat constructor. unfold of_actor. cbn. apply Nat.eqb_refl.
Qed.
Lemma inv_actors_set actors host wp batch device lp iters fr par opt pub done stop used sent sent' i a a' :
  inv_actors (Sys actors host wp batch device lp iters fr par opt pub done stop used sent) -> nth_error actors i = Some a ->
  (sent' = sent \/ exists t, sent' = sent ++ [t] /\ t_actor t = i) ->
  (forall a0, nth_error actors0 i = Some a0 -> actor_ok used sent i a a0 -> actor_ok used sent' i a' a0) ->
  forall host' wp' batch' device' lp' iters' fr' par' opt' pub' done' stop',
  inv_actors (Sys (set_nth actors i a') host' wp' batch' device' lp' iters' fr' par' opt' pub' done' stop' used sent').
Proof.
  intros (I1 & I2 & I3) E S H *. pose proof (nth_error_lt _ _ _ E) as L. unfold inv_actors. fields. split; [now rewrite set_nth_length|]. split.
  - destruct S as [->|(t & -> & Ht)]; [assumption|]. apply Forall_app. split; [assumption|]. repeat constructor. lia.
  - intros j b a0 Eb E0. destruct (Nat.eq_dec i j) as [->|N].
    + rewrite set_nth_same in Eb by assumption. injection Eb as <-. auto.
    + rewrite set_nth_other in Eb by assumption. specialize (I3 j b a0 Eb E0). destruct S as [->|(t & -> & Ht)]; [assumption|].
      apply actor_ok_other; [|assumption]. unfold of_actor. now apply Nat.eqb_neq; congruence.
Qed.
Lemma step_actors t s s' : step t s = Some s' -> inv_learner s -> inv_actors s -> inv_actors s'.
Proof.
  intros H (L1 & L2 & L3) I. stepcases H; fields; try exact I.
  - eapply inv_actors_set; [exact I | exact E | now left|]. intros a0 _. now apply actor_ok_pc.
  - eapply inv_actors_set; [exact I | exact E | now left|]. intros a0 _. now apply actor_ok_pc.
  - eapply inv_actors_set; [exact I | exact E | now left|]. intros a1 _ K. subst pub. refine (actor_ok_make _ _ _ _ _ _ (Some (S _)) _ _ _ _ L3 L1 Logic.I _ K). assumption.
  - eapply inv_actors_set; [exact I | exact E | now left|]. intros a1 _ K. subst pub. refine (actor_ok_make _ _ _ _ _ _ None _ _ _ _ L3 L1 Logic.I _ K). assumption.
  - assert (Ht : t_actor t = i).
    { destruct I as (I1 & I2 & I3). fields. pose proof (nth_error_lt _ _ _ E) as L. rewrite I1 in L. apply nth_error_Some in L. destruct (nth_error actors0 i) as [a0|] eqn:E9; [|contradiction].
      specialize (I3 i _ a0 E E9). destruct I3 as (_ & _ & _ & F). cbn in F. apply Forall_cons_iff in F as [F _]. now apply Nat.eqb_eq in F. }
    eapply inv_actors_set; [exact I | exact E | right; now exists t|]. intros a0 _. apply actor_ok_put.
  - destruct I as (I1 & I2 & I3). unfold inv_actors. fields. split; [assumption|]. split; [assumption|]. intros j a1 a0 E1 E2. apply actor_ok_snoc. now apply I3.
Qed.

(** *** Order: which parameters a trajectory at place [j] was made with *)
Definition placed (used : list (list traj)) (t : traj) (j : nat) : Prop :=
  exists v, made_with used t v /\ v * batch_size <= j /\ (length actors0 = 1 -> j <= (v + 4) * batch_size).
Lemma placed_snoc used b t j : placed used t j -> placed (used ++ [b]) t j.
Proof. intros (v & H & R). exists v. split; [now apply made_with_snoc | assumption]. Qed.
Definition inv_order (s : sys) : Prop :=
  (forall j t, nth_error (s_sent s) j = Some t -> placed (s_used s) t j) /\
  (forall i a t, nth_error (s_actors s) i = Some a -> a_pc a = APut t -> placed (s_used s) t (length (s_sent s))).
Lemma sent_length (s : sys) : inv_queues s -> length (s_sent s) =
  (length (s_used s) + length (held (s_lpc s)) + length (s_device s)) * batch_size + length (s_batch s) + length (s_host s).
Proof.
  intros (I1 & I2 & _). rewrite <- I1, !app_length, (concat_length_B _ _ I2), !app_length. lia.
Qed.
Lemma inv_order_set actors host wp batch device lp iters fr par opt pub done stop used sent i a a' :
  inv_order (Sys actors host wp batch device lp iters fr par opt pub done stop used sent) -> nth_error actors i = Some a ->
  (forall t, a_pc a' = APut t -> placed used t (length sent)) ->
  forall host' wp' batch' device' lp' iters' fr' par' opt' pub' done' stop',
  inv_order (Sys (set_nth actors i a') host' wp' batch' device' lp' iters' fr' par' opt' pub' done' stop' used sent).
Proof.
  intros [I1 I2] E H *. pose proof (nth_error_lt _ _ _ E) as L. split; fields; [assumption|]. intros j b t Eb Et. destruct (Nat.eq_dec i j) as [->|N].
  - rewrite set_nth_same in Eb by assumption. injection Eb as <-. now apply H.
  - rewrite set_nth_other in Eb by assumption. now apply (I2 j b t).
Qed.
Lemma step_order t s s' : step t s = Some s' -> inv_queues s -> inv_learner s -> inv_actors s -> inv_order s -> inv_order s'.
Proof.
  intros H Q (L1 & L2 & L3) K I. pose proof (sent_length s Q) as SL. destruct Q as (_ & _ & Q3 & Q4 & Q5 & _).
  assert (HL : length (held (s_lpc s)) <= 1) by (destruct (s_lpc s); cbn; lia).
  assert (M : forall i d, placed (s_used s) (Traj i (s_pub s) d) (length (s_sent s))).
  { intros i d. exists (length (s_used s)). split; [|split].
    - split; [lia|]. cbn. rewrite firstn_all, <- L3, L2, L1. reflexivity.
    - rewrite SL. lia.
    - intros _. rewrite SL. nia. }
  stepcases H; fields; try exact I.
  - eapply inv_order_set; [exact I | exact E | discriminate].
  - eapply inv_order_set; [exact I | exact E | discriminate].
  - eapply inv_order_set; [exact I | exact E |]. intros t' Et. injection Et as <-. apply M.
  - eapply inv_order_set; [exact I | exact E |]. intros t' Et. injection Et as <-. apply M.
  - destruct I as [I1 I2]. pose proof (nth_error_lt _ _ _ E) as L. split; fields.
    + intros j t' Et. destruct (Nat.lt_ge_cases j (length sent)) as [J|J]; [rewrite nth_error_app1 in Et by assumption; now apply I1|].
      rewrite nth_error_app2 in Et by assumption. destruct (j - length sent) as [|r] eqn:R; [|destruct r; discriminate Et]. injection Et as <-.
      replace j with (length sent) by lia. eapply I2; [exact E | reflexivity].
    + intros j b t' Eb Et. destruct (Nat.eq_dec i j) as [->|N]; [rewrite set_nth_same in Eb by assumption; injection Eb as <-; discriminate Et|].
      rewrite set_nth_other in Eb by assumption. destruct (I2 j b t' Eb Et) as (v & W & B & S). exists v. split; [assumption|]. rewrite app_length. split; [lia|].
      intros S1. exfalso. destruct K as (K1 & _). fields. pose proof (nth_error_lt _ _ _ Eb). lia.
  - destruct I as [I1 I2]. split; fields; intros; apply placed_snoc; eauto.
Qed.

(** *** All of them in every reachable state *)
Definition inv (s : sys) : Prop := inv_queues s /\ inv_learner s /\ inv_flags s /\ inv_actors s /\ inv_order s.
Definition reachable (s : sys) : Prop := exists l, run l (start actors0 iters0 p0 o0) = Some s.
Lemma start_inv : inv (start actors0 iters0 p0 o0).
Proof.
  unfold start. split; [|split; [|split; [|split]]].
  - unfold inv_queues; fields. cbn. repeat split; try constructor; try lia; discriminate.
  - now unfold inv_learner; fields.
  - unfold inv_flags; fields. repeat split; try tauto; try discriminate. destruct iters0 as [m|]; [exists m; split; [reflexivity | cbn; lia] | reflexivity].
  - unfold inv_actors; fields. split; [now rewrite map_length|]. split; [constructor|]. intros i a a0 E E0. rewrite nth_error_map, E0 in E. injection E as <-.
    unfold actor_ok. cbn. split; [exists []; split; constructor|]. split; [reflexivity|]. split; [|constructor]. destruct (fst a0) as [n|]; [now exists n | reflexivity].
  - split; fields; [intros [|j] t Et; discriminate Et|]. intros i a t E Et. rewrite nth_error_map in E. destruct (nth_error actors0 i); [|discriminate E]. injection E as <-. discriminate Et.
Qed.
Lemma step_inv t s s' : step t s = Some s' -> inv s -> inv s'.
Proof.
  intros H (I1 & I2 & I3 & I4 & I5). split; [eapply step_queues; eassumption|]. split; [eapply step_inv_learner; eassumption|].
  split; [eapply step_flags; eassumption|]. split; [eapply step_actors; eassumption | eapply step_order; eassumption].
Qed.
Lemma run_inv l s s' : run l s = Some s' -> inv s -> inv s'.
Proof. revert s. induction l as [|t l IH]; intros s H I; cbn in H; [now injection H as <-|]. destruct (step t s) eqn:E; [|discriminate]. eauto using step_inv. Qed.
Lemma reachable_inv s : reachable s -> inv s.
Proof. intros [l H]. exact (run_inv _ _ _ H start_inv). Qed.
Lemma run_app l l' s : run (l ++ l') s = match run l s with Some s' => run l' s' | None => None end.
Proof. revert s. induction l as [|t l IH]; intros s; [reflexivity|]. cbn. destruct (step t s); [apply IH | reflexivity]. Qed.

(** ** Theorems *)
(** Nothing is lost, duplicated or reordered: what the learner has used, holds, and what is in the queues, in this order, is what the actors
    sent; each batch has [batch_size] trajectories, and the queues keep their bounds. *)
Theorem C80_fifo s : reachable s ->
  concat (s_used s) ++ concat (held (s_lpc s)) ++ concat (s_device s) ++ s_batch s ++ s_host s = s_sent s /\
  Forall (fun b => length b = batch_size) (s_used s ++ held (s_lpc s) ++ s_device s) /\
  length (s_device s) <= 1 /\ length (s_host s) <= batch_size /\ length (s_batch s) <= batch_size /\ (s_wpc s = WPut -> length (s_batch s) = batch_size).
Proof.
  intros R. destruct (reachable_inv s R) as ((I1 & I2 & I3 & I4 & I5 & I6) & _). repeat split; try assumption. rewrite <- I1, !concat_app, <- !app_assoc. reflexivity.
Qed.
(** The learner's parameters are those of the batches it has used, one after the other; what the actors can pull is a consistent pair of
    frame count and parameters; and the learner does no more than the iterations asked for. *)
Theorem C80_published s : reachable s ->
  (s_params s, s_opt s) = learned p0 o0 (s_used s) /\ s_pub s = (length (s_used s) * frames, fst (learned p0 o0 (s_used s))) /\
  match iters0 with None => s_done s = false | Some m => length (s_used s) <= m /\ (s_done s = true -> length (s_used s) = m) end.
Proof.
  intros R. destruct (reachable_inv s R) as (_ & (L1 & L2 & L3) & (F1 & _ & _ & _ & _ & F6 & F7) & _). split; [assumption|]. split; [rewrite L2, L1, <- L3; reflexivity|].
  destruct iters0 as [m|].
  - destruct F6 as (k & E & S). split; [lia|]. intros D. rewrite (F7 D) in E. injection E as <-. rewrite D in F1. destruct (s_lpc s); cbn in *; try lia; tauto.
  - destruct (s_done s); [|reflexivity]. rewrite F6 in F7. now specialize (F7 eq_refl).
Qed.
(** The trajectories of one actor, in the order they were sent, are those it makes one after the other, with parameters that never go back. *)
Theorem C80_actors s i a n st : reachable s -> nth_error (s_actors s) i = Some a -> nth_error actors0 i = Some (n, st) ->
  let made := filter (fun t => t_actor t =? i) (s_sent s) ++ pending a in
  actor_run i (map t_pull made) st = (map t_data made, a_state a) /\
  exists vs, Forall2 (made_with (s_used s)) made vs /\ StronglySorted le vs.
Proof. intros R E E0. destruct (reachable_inv s R) as (_ & _ & _ & (_ & _ & I) & _). destruct (I i a _ E E0) as (H1 & H2 & _). now split. Qed.
(** Update [u] never uses a trajectory made with parameters of a later update; with a single actor they are at most four updates old. *)
Theorem C80_lag s u b t : reachable s -> 0 < batch_size -> nth_error (s_used s) u = Some b -> In t b ->
  exists v, made_with (s_used s) t v /\ v <= u /\ (length actors0 = 1 -> u <= v + 4).
Proof.
  intros R B0 E Ht. destruct (reachable_inv s R) as ((I1 & I2 & _) & _ & _ & _ & (I5 & _)).
  apply nth_error_split in E as (l1 & l2 & E & L). apply in_split in Ht as (b1 & b2 & Eb).
  rewrite E in I2. rewrite !Forall_app in I2. destruct I2 as ((F1 & F2) & _). apply Forall_cons_iff in F2 as [F2 _].
  specialize (I5 (length (concat l1) + length b1) t). rewrite (concat_length_B _ _ F1), L in I5. destruct I5 as (v & W & V1 & V2).
  - rewrite <- I1, E, !concat_app. cbn [concat]. rewrite Eb, <- !app_assoc, nth_error_app2; rewrite (concat_length_B _ _ F1), L; [|lia].
    replace (u * batch_size + length b1 - u * batch_size) with (length b1) by lia. cbn [app]. rewrite nth_error_app2, Nat.sub_diag by lia. reflexivity.
  - rewrite Eb, app_length in F2. cbn in F2. exists v. split; [assumption|]. split; [nia|]. intros S. specialize (V2 S). nia.
Qed.

(** *** Hanging *)
Definition stuck (s : sys) : Prop := forall t, step t s = None.
Definition waits_full (s : sys) (a : actor P A T) : Prop := exists t, a_pc a = APut t /\ length (s_host s) = batch_size.
(** When no thread can move, the program has ended, or the main thread joins the transfer thread, which waits for room in the device queue
    although nobody will take from it, or the main thread joins an actor, which waits for room in the host queue. *)
Theorem C80_stuck s : reachable s -> 0 < batch_size -> stuck s ->
  (s_lpc s = LEnd /\ s_wpc s = WExit /\ forallb exited (s_actors s) = true) \/
  (s_lpc s = LJoin /\ s_wpc s = WPut /\ length (s_device s) = 1 /\ Forall (fun a => exited a = true \/ waits_full s a) (s_actors s)) \/
  (s_lpc s = LWait /\ s_wpc s = WExit /\ Forall (fun a => exited a = true \/ waits_full s a) (s_actors s) /\ Exists (waits_full s) (s_actors s)).
Proof.
  intros R B0 St. destruct (reachable_inv s R) as ((I1 & I2 & I3 & I4 & I5 & I6) & _ & (F1 & F2 & F3 & F4 & F5 & F6 & F7) & _).
  assert (SA : Forall (fun a => exited a = true \/ waits_full s a) (s_actors s)).
  { apply Forall_forall. intros a Ha. apply In_nth_error in Ha as [i Ei]. specialize (St (TActor i)). destruct s as [actors host wp batch device lp iters fr par opt pub done stop used sent].
    fields. cbn [ModelImpala.step step_actor] in St. rewrite Ei in St. destruct a as [pc l st]. destruct pc as [|t|].
    - destruct stop; [discriminate|]. destruct l as [[|l]|]; try discriminate; destruct (unroll _ _ _ _); discriminate.
    - destruct (Nat.ltb_spec (length host) batch_size) as [|G]; [discriminate|]. right. exists t. split; [reflexivity|]. cbn. lia.
    - now left. }
  pose proof (St TWorker) as SW. pose proof (St TLearner) as SLn. destruct s as [actors host wp batch device lp iters fr par opt pub done stop used sent]. fields.
  cbn [ModelImpala.step step_worker step_learner] in SW, SLn.
  assert (W : (wp = WPut /\ length device = 1) \/ wp = WExit).
  { destruct wp; try discriminate; [destruct (_ <=? _); [discriminate|]; destruct host; discriminate | | now right]. left. split; [reflexivity|].
    destruct (Nat.ltb_spec (length device) 1); [discriminate | lia]. }
  destruct lp as [|b| | |].
  - exfalso. destruct iters as [[|k]|]; [discriminate| |]; (destruct device; [|discriminate]); destruct W as [[_ W]| ->]; try discriminate W; apply F1; now apply F4.
  - destruct (learn _ _ _); discriminate.
  - right. left. destruct wp; try discriminate; destruct W as [[W W']|W]; try discriminate. repeat split; assumption.
  - right. right. split; [reflexivity|]. split; [assumption|]. split; [assumption|]. destruct (forallb exited actors) eqn:E; [discriminate|].
    apply Exists_exists. assert (X : exists a, In a actors /\ exited a = false).
    { clear - E. induction actors as [|a l IH]; [discriminate|]. cbn in E. destruct (exited a) eqn:X; [destruct (IH E) as (c & H1 & H2); exists c; split; [now right | assumption] | exists a; split; [now left | assumption]]. }
    destruct X as (a & Ha & X). exists a. split; [assumption|]. rewrite Forall_forall in SA. destruct (SA a Ha); [congruence | assumption].
  - left. repeat split; [assumption | now apply F5].
Qed.

(** *** Schedules that hang *)
Section Schedules.
Definition free (a : actor P A T) : Prop := a_pc a = ACheck /\ a_left a = None.
(** The first actor is at its loop test, the others are [rest], the host queue is empty and the transfer thread waits for trajectories. *)
Variable rest : list (actor P A T).
Definition idle (s : sys) (b d k : nat) : Prop :=
  (exists a, s_actors s = a :: rest /\ free a) /\ s_host s = [] /\ s_wpc s = WGet /\ length (s_batch s) = b /\
  length (s_device s) = d /\ s_lpc s = LLoop /\ s_iters s = Some k /\ s_done s = false /\ s_stop s = false.
Definition leads (Q Q' : sys -> Prop) : Prop := forall s, Q s -> exists l s', run l s = Some s' /\ Q' s'.
Lemma leads_trans Q1 Q2 Q3 : leads Q1 Q2 -> leads Q2 Q3 -> leads Q1 Q3.
Proof. intros H1 H2 s Q. destruct (H1 s Q) as (l & s1 & R & Q'). destruct (H2 s1 Q') as (l' & s2 & R' & Q''). exists (l ++ l'), s2. split; [rewrite run_app, R; exact R' | exact Q'']. Qed.
Lemma leads_refl Q : leads Q Q. Proof. intros s H. exists [], s. now split. Qed.
Lemma set_nth_0 {X} (x y : X) l : set_nth (x :: l) 0 y = y :: l. Proof. reflexivity. Qed.
(** The first actor makes a trajectory and sends it. *)
Lemma actor_sends s a : s_actors s = a :: rest -> a_pc a = ACheck -> a_left a = None -> s_stop s = false -> length (s_host s) < batch_size ->
  exists st t, run [TActor 0; TActor 0] s = Some (Sys (Actor ACheck None st :: rest) (s_host s ++ [t]) (s_wpc s) (s_batch s) (s_device s) (s_lpc s) (s_iters s)
    (s_frames s) (s_params s) (s_opt s) (s_pub s) (s_done s) (s_stop s) (s_used s) (s_sent s ++ [t])).
Proof.
  intros EA E1 E2 ES EH. destruct s as [actors host wp batch device lp iters fr par opt pub done stop used sent]. destruct a as [pc l st]. fields. subst.
  cbn [ModelImpala.run ModelImpala.step step_actor nth_error]. destruct (unroll 0 (fst pub) (snd pub) st) as [d st'] eqn:U. rewrite set_nth_0. cbn [option_map].
  cbn [step_actor nth_error]. rewrite (proj2 (Nat.ltb_lt _ _) EH), set_nth_0. exists st', (Traj 0 pub d). reflexivity.
Qed.
Lemma feed b d k : b < batch_size -> leads (fun s => idle s b d k) (fun s => idle s (S b) d k).
Proof.
  intros L s ((a & EA & E1 & E2) & I3 & I4 & I5 & I6 & I7 & I8 & I9 & I10).
  destruct (actor_sends s a EA E1 E2 I10) as (st & t & R); [rewrite I3; cbn; lia|].
  exists ([TActor 0; TActor 0] ++ [TWorker]). eexists. split.
  - rewrite run_app, R. cbn [ModelImpala.run ModelImpala.step step_worker]. rewrite I4, I3. cbn [app]. rewrite (proj2 (Nat.leb_gt _ _)) by (rewrite I5; assumption). reflexivity.
  - unfold idle. fields. split; [eexists; split; [reflexivity | now split]|]. repeat split; try assumption. rewrite app_length, I5. cbn. lia.
Qed.
Lemma feeds n d k : n <= batch_size -> leads (fun s => idle s 0 d k) (fun s => idle s n d k).
Proof. induction n as [|n IH]; intros L; [apply leads_refl|]. eapply leads_trans; [apply IH; lia | apply feed; lia]. Qed.
Lemma puts k : leads (fun s => idle s batch_size 0 k) (fun s => idle s 0 1 k).
Proof.
  intros s (I1 & I3 & I4 & I5 & I6 & I7 & I8 & I9 & I10). destruct s as [actors host wp batch device lp iters fr par opt pub done stop used sent]. fields. subst.
  exists [TWorker; TWorker; TWorker]. eexists. split.
  - cbn [ModelImpala.run ModelImpala.step step_worker]. rewrite Nat.leb_refl. cbn [step_worker]. rewrite I6. cbn [Nat.ltb Nat.leb step_worker]. reflexivity.
  - unfold idle. fields. repeat split; try assumption. rewrite app_length, I6. reflexivity.
Qed.
Lemma learns k : leads (fun s => idle s 0 1 (S k)) (fun s => idle s 0 0 k).
Proof.
  intros s (I1 & I3 & I4 & I5 & I6 & I7 & I8 & I9 & I10). destruct s as [actors host wp batch device lp iters fr par opt pub done stop used sent]. fields. subst.
  destruct device as [|b [|]]; try discriminate. exists [TLearner; TLearner].
  cbn [ModelImpala.run ModelImpala.step step_learner option_map pred]. destruct (learn par opt (map t_data b)) as [par' opt'] eqn:U. eexists. split; [reflexivity|].
  unfold idle. fields. repeat split; assumption.
Qed.
Lemma rounds k j : leads (fun s => idle s 0 0 (k + j)) (fun s => idle s 0 0 j).
Proof.
  induction k as [|k IH]; [apply leads_refl|]. eapply leads_trans; [apply (feeds batch_size); lia|]. eapply leads_trans; [apply puts|]. eapply leads_trans; [apply learns | exact IH].
Qed.
(** Then the host queue is filled, and every actor has one more trajectory to send. *)
Definition blocked (a : actor P A T) : Prop := exists t, a_pc a = APut t.
Definition rest_of (s s' : sys) : Prop :=
  s_wpc s' = s_wpc s /\ s_batch s' = s_batch s /\ s_device s' = s_device s /\ s_lpc s' = s_lpc s /\ s_iters s' = s_iters s /\ s_done s' = s_done s /\ s_stop s' = s_stop s.
Lemma rest_trans s1 s2 s3 : rest_of s1 s2 -> rest_of s2 s3 -> rest_of s1 s3.
Proof. unfold rest_of. intuition congruence. Qed.
Lemma fill n s a : s_actors s = a :: rest -> free a -> s_stop s = false -> length (s_host s) + n <= batch_size ->
  exists l s' a', run l s = Some s' /\ rest_of s s' /\ s_actors s' = a' :: rest /\ free a' /\ length (s_host s') = length (s_host s) + n.
Proof.
  revert s a. induction n as [|n IH]; intros s a EA [E1 E2] ES L; [exists [], s, a; repeat split; try assumption; lia|].
  destruct (actor_sends s a EA E1 E2 ES) as (st & t & R); [lia|].
  edestruct (IH _ (Actor ACheck None st) (eq_refl : s_actors (Sys (Actor ACheck None st :: rest) (s_host s ++ [t]) (s_wpc s) (s_batch s) (s_device s) (s_lpc s) (s_iters s)
    (s_frames s) (s_params s) (s_opt s) (s_pub s) (s_done s) (s_stop s) (s_used s) (s_sent s ++ [t])) = _)) as (l & s' & a' & R' & RS & EA' & F & LH).
  - now split.
  - exact ES.
  - cbn [s_host]. rewrite app_length. cbn. lia.
  - exists ([TActor 0; TActor 0] ++ l), s', a'. split; [rewrite run_app, R; exact R'|]. split; [exact RS|]. split; [assumption|]. split; [assumption|].
    rewrite LH. cbn [s_host]. rewrite app_length. cbn. lia.
Qed.
Lemma all_pull todo done_ s : s_actors s = done_ ++ todo -> Forall free todo -> Forall blocked done_ -> s_stop s = false ->
  exists l s', run l s = Some s' /\ rest_of s s' /\ s_host s' = s_host s /\ Forall blocked (s_actors s') /\ length (s_actors s') = length (s_actors s).
Proof.
  revert done_ s. induction todo as [|a todo IH]; intros done_ s EA F B ES.
  - exists [], s. rewrite EA, app_nil_r. repeat split; assumption.
  - apply Forall_cons_iff in F as [[F1 F2] F]. destruct s as [actors host wp batch device lp iters fr par opt pub done stop used sent]. fields. subst.
    destruct a as [pc bud st]. fields. subst. destruct (unroll (length done_) (fst pub) (snd pub) st) as [d st'] eqn:U.
    edestruct (IH (done_ ++ [Actor (APut (Traj (length done_) pub d)) None st']) (Sys (done_ ++ Actor (APut (Traj (length done_) pub d)) None st' :: todo) host wp batch device lp iters fr par opt pub done false used sent)) as (l & s' & R & RS & EH & FB & LA); fields.
    + now rewrite <- app_assoc.
    + assumption.
    + apply Forall_app. split; [assumption|]. repeat constructor. now eexists.
    + reflexivity.
    + exists (TActor (length done_) :: l), s'. split.
      * cbn [ModelImpala.run ModelImpala.step step_actor]. rewrite nth_error_app2, Nat.sub_diag by lia. cbn [nth_error]. rewrite U. cbn [option_map].
        unfold set_nth. rewrite firstn_app, firstn_all, Nat.sub_diag. cbn [firstn]. rewrite app_nil_r. replace (skipn (S (length done_)) (done_ ++ Actor ACheck None st :: todo)) with todo; [exact R|].
        rewrite skipn_app, (skipn_all2 done_) by lia. replace (S (length done_) - length done_) with 1 by lia. reflexivity.
      * split; [exact RS|]. split; [assumption|]. split; [assumption|]. rewrite LA, !app_length. reflexivity.
Qed.
Lemma jam s a : s_actors s = a :: rest -> free a -> Forall free rest -> s_stop s = false -> s_host s = [] ->
  exists l s', run l s = Some s' /\ rest_of s s' /\ length (s_host s') = batch_size /\ Forall blocked (s_actors s') /\ s_actors s' <> [].
Proof.
  intros EA F1 F2 ES EH.
  destruct (fill batch_size s a EA F1 ES) as (l & s1 & a1 & R & RS & EA1 & F' & LH); [rewrite EH; cbn; lia|]. rewrite EH in LH. cbn in LH.
  destruct (all_pull (s_actors s1) [] s1 eq_refl) as (l' & s2 & R' & RS' & EH' & FB & LA).
  - rewrite EA1. now constructor.
  - constructor.
  - destruct RS as (_ & _ & _ & _ & _ & _ & E). now rewrite E.
  - exists (l ++ l'), s2. split; [rewrite run_app, R; exact R'|]. split; [eapply rest_trans; eassumption|]. split; [now rewrite EH'|]. split; [assumption|].
    intros Z. rewrite Z, EA1 in LA. discriminate LA.
Qed.
Lemma reachable_leads Q Q' s : leads Q Q' -> reachable s -> Q s -> exists s', reachable s' /\ Q' s'.
Proof. intros H [l R] I. destruct (H s I) as (l' & s' & R' & I'). exists s'. split; [|assumption]. exists (l ++ l'). now rewrite run_app, R. Qed.
Lemma actor_blocked (s : sys) i a : nth_error (s_actors s) i = Some a -> blocked a -> length (s_host s) = batch_size -> step_actor unroll batch_size i s = None.
Proof.
  intros E [t Et] L. destruct s as [actors host wp batch device lp iters fr par opt pub done stop used sent]. destruct a as [pc l st]. fields. subst. cbn [step_actor]. rewrite E.
  now rewrite (proj2 (Nat.ltb_ge _ _)) by lia.
Qed.
Lemma actors_blocked (s : sys) i : Forall blocked (s_actors s) -> length (s_host s) = batch_size -> step_actor unroll batch_size i s = None.
Proof.
  intros F L. destruct (nth_error (s_actors s) i) as [a|] eqn:E; [eapply actor_blocked; try eassumption; rewrite Forall_forall in F; apply F; eapply nth_error_In; eassumption|].
  destruct s. cbn in *. now rewrite E.
Qed.
End Schedules.
Lemma start_idle a rest m : iters0 = Some m -> actors0 = (None, a) :: rest ->
  exists l s, run l (start actors0 iters0 p0 o0) = Some s /\ idle (map (fun a => Actor ACheck (fst a) (snd a)) rest) s 0 0 m.
Proof.
  intros E N. exists [TWorker]. eexists. split; [reflexivity|]. unfold idle. fields. rewrite N. cbn [map fst snd]. split; [eexists; split; [reflexivity | now split]|]. now repeat split.
Qed.
Lemma free_rest a0 (rest : list (option nat * A)) : Forall (fun a => fst a = None) (a0 :: rest) -> fst a0 = None /\ Forall free (map (fun a => Actor ACheck (fst a) (snd a)) rest).
Proof. intros F. apply Forall_cons_iff in F as [F1 F2]. split; [assumption|]. apply Forall_map. eapply Forall_impl; [|exact F2]. cbn. intros [b a] H. now split. Qed.
(** The learner's [run] does not always return: for every number of iterations, actors and batch size there is a schedule after which no
    thread can move, with the main thread joining the transfer thread, and the transfer thread in [_device_q.put]. *)
Theorem C80_run_returns_refuted m : iters0 = Some m -> actors0 <> [] -> Forall (fun a => fst a = None) actors0 -> 0 < batch_size ->
  exists s, reachable s /\ stuck s /\ s_lpc s = LJoin /\ s_wpc s = WPut /\ length (s_used s) = m.
Proof.
  intros E N F B0. destruct actors0 as [|[n0 st0] rest0] eqn:EA0; [contradiction|]. rewrite <- EA0 in *. pose proof F as F0. rewrite EA0 in F0. apply free_rest in F0 as [F01 F02]. cbn in F01. subst n0.
  destruct (start_idle st0 rest0 m E EA0) as (l0 & s0 & R0 & I0). set (rest := map _ rest0) in *.
  assert (G : leads (fun s => idle rest s 0 0 m) (fun s => idle rest s batch_size 1 0)).
  { rewrite <- (Nat.add_0_r m). eapply leads_trans; [apply rounds|]. eapply leads_trans; [apply (feeds rest batch_size); lia|]. eapply leads_trans; [apply puts|]. apply feeds. lia. }
  destruct (reachable_leads _ _ s0 G (ex_intro _ l0 R0) I0) as (s1 & [l1 R1] & ((a1 & EA1 & FA1) & I3 & I4 & I5 & I6 & I7 & I8 & I9 & I10)).
  destruct (jam rest s1 a1 EA1 FA1 F02 I10 I3) as (l2 & s2 & R2 & (W1 & W2 & W3 & W4 & W5 & W6 & W7) & LH & FB & _).
  assert (R3 : exists s3, run [TWorker; TLearner] s2 = Some s3 /\ s_actors s3 = s_actors s2 /\ s_host s3 = s_host s2 /\ s_device s3 = s_device s2 /\ s_lpc s3 = LJoin /\ s_wpc s3 = WPut).
  { rewrite I4 in W1. rewrite I7 in W4. rewrite I8 in W5. rewrite <- W2 in I5. destruct s2 as [actors host wp batch device lp iters fr par opt pub done stop used sent]. fields. subst. eexists. split.
    - cbn [ModelImpala.run ModelImpala.step step_worker]. rewrite I5, Nat.leb_refl. cbn [step_learner]. reflexivity.
    - now repeat split. }
  destruct R3 as (s3 & R3 & E1 & E2 & E3 & E4 & E5). assert (RS : reachable s3).
  { exists (l1 ++ l2 ++ [TWorker; TLearner]). now rewrite run_app, R1, run_app, R2. }
  exists s3. split; [assumption|]. split; [|split; [assumption|]; split; [assumption|]].
  - intros [i| |]; cbn [ModelImpala.step].
    + apply actors_blocked; [now rewrite E1 | now rewrite E2].
    + rewrite <- E3 in W3. rewrite <- W3 in I6. destruct s3. fields. cbn [step_worker]. rewrite E5, I6. reflexivity.
    + destruct s3. fields. cbn [step_learner]. now rewrite E4, E5.
  - pose proof (C80_published s3 RS) as (_ & _ & K). destruct (reachable_inv s3 RS) as (_ & _ & (D & _) & _). rewrite E4 in D. rewrite E in K. apply K. now apply D.
Qed.
(** And when it returns, [main] may wait forever for an actor in [enqueue_traj]: the stop signal is only read between trajectories. *)
Theorem C80_main_returns_refuted m : iters0 = Some m -> actors0 <> [] -> Forall (fun a => fst a = None) actors0 -> 0 < batch_size ->
  exists s, reachable s /\ stuck s /\ s_lpc s = LWait /\ s_stop s = true /\ s_wpc s = WExit.
Proof.
  intros E N F B0. destruct actors0 as [|[n0 st0] rest0] eqn:EA0; [contradiction|]. rewrite <- EA0 in *. pose proof F as F0. rewrite EA0 in F0. apply free_rest in F0 as [F01 F02]. cbn in F01. subst n0.
  destruct (start_idle st0 rest0 m E EA0) as (l0 & s0 & R0 & I0). set (rest := map _ rest0) in *. rewrite <- (Nat.add_0_r m) in I0.
  destruct (reachable_leads _ _ s0 (rounds rest m 0) (ex_intro _ l0 R0) I0) as (s1 & [l1 R1] & ((a1 & EA1 & FA1) & I3 & I4 & I5 & I6 & I7 & I8 & I9 & I10)).
  assert (R2 : exists s2, run [TLearner; TWorker; TWorker] s1 = Some s2 /\ s_actors s2 = s_actors s1 /\ s_host s2 = [] /\ s_lpc s2 = LJoin /\ s_wpc s2 = WExit /\ s_stop s2 = false).
  { destruct s1 as [actors host wp batch device lp iters fr par opt pub done stop used sent]. fields. subst. eexists. split.
    - cbn [ModelImpala.run ModelImpala.step step_learner step_worker]. rewrite (proj2 (Nat.leb_gt _ _)) by (rewrite I5; lia). cbn [step_worker]. reflexivity.
    - now repeat split. }
  destruct R2 as (s2 & R2 & E1 & E2 & E3 & E4 & E5). destruct (jam rest s2 a1) as (l3 & s3 & R3 & (W1 & W2 & W3 & W4 & W5 & W6 & W7) & LH & FB & LA); try congruence.
  exists (Sys (s_actors s3) (s_host s3) WExit (s_batch s3) (s_device s3) LWait (s_iters s3) (s_frames s3) (s_params s3) (s_opt s3) (s_pub s3) (s_done s3) true (s_used s3) (s_sent s3)).
  split; [|split; [|now repeat split]].
  - exists (l1 ++ [TLearner; TWorker; TWorker] ++ l3 ++ [TLearner]). rewrite run_app, R1, run_app, R2, run_app, R3. rewrite E3 in W4. rewrite E4 in W1. destruct s3. fields. subst. reflexivity.
  - intros [i| |]; cbn [ModelImpala.step step_worker step_learner]; [now apply actors_blocked | reflexivity|].
    destruct (s_actors s3) as [|a more] eqn:EA; [contradiction|].
    apply Forall_cons_iff in FB as [[t Et] _]. cbn [forallb]. unfold exited at 1. now rewrite Et.
Qed.

(** With two actors there is no bound on the age of the parameters: the trajectory that update [m] will take first was made with the first parameters. *)
Theorem C80_lag_bounded_refuted m a1 a2 others : iters0 = Some (S m) -> actors0 = (None, a1) :: (None, a2) :: others -> 0 < batch_size ->
  exists s t, reachable s /\ length (s_used s) = m /\ nth_error (s_sent s) (m * batch_size) = Some t /\ t_pull t = (0, p0).
Proof.
  intros E EA B0. destruct (unroll 1 0 p0 a2) as [d st'] eqn:U.
  set (rest := Actor (APut (Traj 1 (0, p0) d)) None st' :: map (fun a => Actor ACheck (fst a) (snd a)) others).
  assert (I0 : exists l s, run l (start actors0 iters0 p0 o0) = Some s /\ idle rest s 0 0 (S m)).
  { exists [TWorker; TActor 1]. eexists. split.
    - unfold start. rewrite EA. cbn [map fst snd ModelImpala.run ModelImpala.step step_worker step_actor nth_error]. rewrite U. cbn [option_map]. reflexivity.
    - unfold idle. fields. split; [eexists; split; [reflexivity | now split]|]. now repeat split. }
  destruct I0 as (l0 & s0 & R0 & I0). replace (S m) with (m + 1) in I0 by lia.
  destruct (reachable_leads _ _ s0 (rounds rest m 1) (ex_intro _ l0 R0) I0) as (s1 & [l1 R1] & ((b1 & EA1 & FA1) & I3 & I4 & I5 & I6 & I7 & I8 & I9 & I10)).
  assert (RS1 : reachable s1) by now exists l1.
  assert (LU : length (s_used s1) = m).
  { destruct (reachable_inv s1 RS1) as (_ & _ & (_ & _ & _ & _ & _ & K & _) & _). rewrite E in K. destruct K as (k & K1 & K2). rewrite I8 in K1. injection K1 as <-. rewrite I7 in K2. cbn in K2. lia. }
  assert (LS : length (s_sent s1) = m * batch_size).
  { destruct (reachable_inv s1 RS1) as (Q & _). rewrite (sent_length s1 Q), LU, I7, I6, I5, I3. cbn. lia. }
  destruct s1 as [actors host wp batch device lp iters fr par opt pub done stop used sent]. fields. subst actors host.
  assert (R2 : run [TActor 1] (Sys (b1 :: rest) [] wp batch device lp iters fr par opt pub done stop used sent) =
    Some (Sys (set_nth (b1 :: rest) 1 (Actor ACheck None st')) ([] ++ [Traj 1 (0, p0) d]) wp batch device lp iters fr par opt pub done stop used (sent ++ [Traj 1 (0, p0) d]))).
  { cbn [ModelImpala.run ModelImpala.step step_actor nth_error rest length]. rewrite (proj2 (Nat.ltb_lt _ _) B0). reflexivity. }
  eexists _, (Traj 1 (0, p0) d). split; [exists (l1 ++ [TActor 1]); rewrite run_app, R1; exact R2|]. fields. split; [assumption|].
  rewrite <- LS, nth_error_app2, Nat.sub_diag by lia. now split.
Qed.

(** *** Programs that always can end *)
Definition sum_of {X} (f : X -> nat) (l : list X) : nat := fold_right (fun x n => f x + n) 0 l.
Lemma sum_of_app {X} (f : X -> nat) l m : sum_of f (l ++ m) = sum_of f l + sum_of f m.
Proof. induction l as [|x l IH]; cbn; [reflexivity|]. unfold sum_of in *. cbn. lia. Qed.
Lemma sum_of_set {X} (f : X -> nat) l i x y : nth_error l i = Some y -> sum_of f (set_nth l i x) + f y = sum_of f l + f x.
Proof.
  intros E. apply nth_error_split in E as (l1 & l2 & -> & <-). unfold set_nth. rewrite firstn_app, firstn_all, Nat.sub_diag. cbn [firstn]. rewrite app_nil_r.
  rewrite skipn_app, (skipn_all2 l1) by lia. replace (S (length l1) - length l1) with 1 by lia. cbn [skipn app]. rewrite !sum_of_app. cbn. lia.
Qed.
Lemma sum_of_pos {X} (f : X -> nat) l : 0 < sum_of f l -> exists i x, nth_error l i = Some x /\ 0 < f x.
Proof.
  induction l as [|x l IH]; cbn; [lia|]. intros H. destruct (f x) eqn:E; [destruct (IH H) as (i & y & E1 & E2); now exists (S i), y | exists 0, x; split; [reflexivity | lia]].
Qed.
Definition weight (a : actor P A T) : nat := match a_left a with Some n => 10 * n | None => 0 end + match a_pc a with ACheck => 1 | APut _ => 9 | AExit => 0 end.
Definition measure (s : sys) : nat :=
  sum_of weight (s_actors s) + 6 * length (s_host s) + 4 * length (s_batch s) + 2 * length (concat (s_device s)) + length (concat (held (s_lpc s))) +
  match s_wpc s with WCheck | WGet => 1 | _ => 0 end + match s_lpc s with LLoop | LGot _ => 3 | LJoin => 2 | LWait => 1 | LEnd => 0 end.
Definition unsent (a : actor P A T) : nat := match a_left a with Some n => n | None => 0 end + length (pending a).
Variable total : nat.
Definition inv_total (s : sys) : Prop := Forall (fun a => a_left a <> None /\ (a_pc a = AExit -> s_stop s = true \/ a_left a = Some 0)) (s_actors s) /\
  sum_of unsent (s_actors s) + length (s_sent s) = total.
Lemma Forall_set_nth {X} (Q : X -> Prop) l i x : Forall Q l -> Q x -> Forall Q (set_nth l i x).
Proof.
  intros F H. unfold set_nth. rewrite Forall_forall in F. apply Forall_app. split; [|constructor; [assumption|]]; apply Forall_forall; intros y Hy; apply F.
  - rewrite <- (firstn_skipn i l). apply in_or_app. now left.
  - rewrite <- (firstn_skipn (S i) l). apply in_or_app. now right.
Qed.
Lemma Forall_nth_error {X} (Q : X -> Prop) l i x : Forall Q l -> nth_error l i = Some x -> Q x.
Proof. intros F E. rewrite Forall_forall in F. apply F. now apply nth_error_In in E. Qed.
Lemma step_total t s s' : step t s = Some s' -> inv_total s -> inv_total s'.
Proof.
  intros H [I1 I2]. unfold inv_total. stepcases H; fields; try (split; assumption).
  6: { split; [|assumption]. eapply Forall_impl; [|exact I1]. cbn. tauto. }
  all: match goal with E : nth_error _ _ = Some _ |- _ => pose proof (Forall_nth_error _ _ _ _ I1 E) as [NN _]; fields end.
  all: match goal with E : nth_error ?l ?j = Some _ |- context[set_nth ?l ?j ?x] => pose proof (sum_of_set unsent l j x _ E) as SS end; unfold unsent at 2 4 in SS; fields; cbn [length option_map pred] in SS.
  all: rewrite ?app_length; cbn [length].
  all: try (split; [apply Forall_set_nth; [assumption|]; fields; split; [congruence || discriminate | intros; tauto || discriminate] | lia]).
  now destruct NN.
Qed.
Lemma step_measure t s s' : 0 < batch_size -> inv_queues s -> inv_total s -> step t s = Some s' -> measure s' < measure s \/ (measure s' = measure s /\ t = TWorker).
Proof.
  intros B0 (I1 & I2 & I3 & I4 & I5 & I6) [J1 J2] H. unfold measure. stepcases H; fields.
  all: try (match goal with E : nth_error ?l ?j = Some _ |- context[set_nth ?l ?j ?x] => pose proof (sum_of_set weight l j x _ E) as SS; pose proof (Forall_nth_error _ _ _ _ J1 E) as NN end; unfold weight at 2 4 in SS; fields; cbn [length option_map pred] in SS; rewrite ?app_length; cbn [length]; left; lia || (destruct NN; congruence)).
  all: rewrite ?app_length, ?concat_app, ?app_length; cbn [concat length app] in *; rewrite ?app_nil_r, ?app_length; try lia.
  - right. destruct done; split; lia || reflexivity.
  - right. split; lia || reflexivity.
  - left. rewrite (I6 eq_refl). lia.
  - left. rewrite Forall_app, Forall_cons_iff in I2. destruct I2 as (_ & I2 & _). lia.
  - left. rewrite Forall_app, Forall_cons_iff in I2. destruct I2 as (_ & I2 & _). lia.
  - left. rewrite Forall_app, Forall_cons_iff in I2. destruct I2 as (_ & I2 & _). lia.
Qed.
(** A step or two that brings the program nearer to its end. *)
Lemma progress m s : 0 < batch_size -> iters0 = Some m -> m * batch_size <= total <= S m * batch_size -> inv s -> inv_total s -> s_lpc s <> LEnd ->
  exists l s', run l s = Some s' /\ measure s' < measure s.
Proof.
  intros B0 EI BT I J NE. pose proof (sent_length s (proj1 I)) as SL. destruct I as (Q & _ & (F1 & F2 & F3 & F4 & F5 & F6 & F7) & _).
  pose proof Q as Q0. destruct Q as (_ & _ & Q3 & Q4 & Q5 & Q6). rewrite EI in F6. destruct F6 as (k & F6 & F6').
  (** it is enough to find a step that is not the transfer thread's waiting *)
  assert (One : forall t, step t s <> None -> t <> TWorker -> exists l s', run l s = Some s' /\ measure s' < measure s).
  { intros t N' N. destruct (step t s) as [s'|] eqn:E; [|contradiction]. exists [t], s'. cbn. rewrite E. split; [reflexivity|]. destruct (step_measure t s s' B0 Q0 J E) as [M|[_ M]]; [assumption | contradiction]. }
  (** an actor that has something to send makes or sends it *)
  assert (Act : forall i a, nth_error (s_actors s) i = Some a -> 0 < unsent a -> a_pc a <> AExit -> length (s_host s) < batch_size -> exists l s', run l s = Some s' /\ measure s' < measure s).
  { intros i a E U NX L. destruct (step_actor unroll batch_size i s) as [s'|] eqn:ES; [apply (One (TActor i)); [cbn; congruence | discriminate]|]. exfalso.
    destruct s as [actors host wp batch device lp iters fr par opt pub done stop used sent]. destruct a as [pc bud st]. fields. cbn [step_actor] in ES. rewrite E in ES. destruct pc as [|t|]; [| |contradiction].
    - destruct stop; [discriminate|]. destruct bud as [[|b]|]; try discriminate; destruct (unroll _ _ _ _); discriminate.
    - rewrite (proj2 (Nat.ltb_lt _ _) L) in ES. discriminate. }
  destruct (s_lpc s) as [|b| | |] eqn:EL; [| | | |contradiction].
  - (* the loop of the learner *)
    destruct k as [|k].
    { apply (One TLearner); [|discriminate]. destruct s; fields. cbn [ModelImpala.step step_learner]. rewrite EL, F6. discriminate. }
    destruct (s_device s) as [|b0 dev] eqn:ED.
    2:{ apply (One TLearner); [|discriminate]. destruct s; fields. cbn [ModelImpala.step step_learner]. rewrite EL, F6, ED. discriminate. }
    cbn [held length] in SL, F6'.
    assert (ST : s_stop s = false) by (destruct (s_stop s); [exfalso; now apply F2 | reflexivity]).
    assert (SD : s_done s = false) by (destruct (s_done s); [exfalso; now apply F1 | reflexivity]).
    destruct (Nat.eq_dec (length (s_host s)) 0) as [EH|EH]; [destruct (Nat.eq_dec (length (s_batch s)) batch_size) as [EB|EB]|].
    + (* a full batch to be put *)
      destruct s as [actors host wp batch device lp iters fr par opt pub done stop used sent]; fields; subst.
      destruct wp; [| | |discriminate (F4 eq_refl)]; unfold measure; fields.
      * exists [TWorker; TWorker]. eexists. cbn [ModelImpala.run ModelImpala.step step_worker]. rewrite (proj2 (Nat.leb_le _ _)) by lia. split; [reflexivity|]. fields. lia.
      * exists [TWorker]. eexists. cbn [ModelImpala.run ModelImpala.step step_worker]. rewrite (proj2 (Nat.leb_le _ _)) by lia. split; [reflexivity|]. fields. lia.
      * exists [TWorker]. eexists. cbn [ModelImpala.run ModelImpala.step step_worker length]. split; [reflexivity|]. fields. cbn [concat app length]. rewrite app_nil_r. lia.
    + (* the actors have more *)
      destruct (Nat.eq_dec (sum_of unsent (s_actors s)) 0) as [Z|Z].
      { exfalso. destruct J as [_ J]. assert (length (s_batch s) < batch_size) by lia. nia. }
      destruct (sum_of_pos unsent (s_actors s)) as (i & a & Ea & Ua); [lia|]. eapply Act; try eassumption; [|lia].
      intros X. destruct J as [J _]. pose proof (Forall_nth_error _ _ _ _ J Ea) as [_ J']. destruct (J' X) as [J''|J'']; [congruence|].
      unfold unsent, pending in Ua. rewrite J'', X in Ua. cbn in Ua. lia.
    + (* the transfer thread has something to take *)
      destruct s as [actors host wp batch device lp iters fr par opt pub done stop used sent]; fields; subst. destruct host as [|t host]; [now destruct EH|].
      destruct wp; [| | |discriminate (F4 eq_refl)]; unfold measure; fields.
      * exists [TWorker; TWorker]. cbn [ModelImpala.run ModelImpala.step step_worker]. destruct (batch_size <=? length batch); eexists; (split; [reflexivity|]); fields; rewrite ?app_length; cbn [length]; lia.
      * exists [TWorker]. cbn [ModelImpala.run ModelImpala.step step_worker]. destruct (batch_size <=? length batch); eexists; (split; [reflexivity|]); fields; rewrite ?app_length; cbn [length]; lia.
      * exists [TWorker]. eexists. cbn [ModelImpala.run ModelImpala.step step_worker length]. split; [reflexivity|]. fields. cbn [concat app length]. rewrite app_nil_r, (Q6 eq_refl). lia.
  - (* an update *)
    destruct s as [actors host wp batch device lp iters fr par opt pub done stop used sent]; fields; subst. destruct (learn par opt (map t_data b)) as [par' opt'] eqn:U.
    apply (One TLearner); [|discriminate]. cbn [ModelImpala.step step_learner]. rewrite U. discriminate.
  - (* joining the transfer thread *)
    assert (SD : s_done s = true) by now apply F1. specialize (F7 SD). rewrite F6 in F7. injection F7 as ->. cbn [held length] in SL, F6'.
    assert (LS : length (s_sent s) <= total) by (destruct J as [_ J]; lia).
    destruct s as [actors host wp batch device lp iters fr par opt pub done stop used sent]; fields; subst. destruct wp; unfold measure; fields.
    + exists [TWorker]. eexists. cbn [ModelImpala.run ModelImpala.step step_worker]. split; [reflexivity|]. fields. lia.
    + destruct (batch_size <=? length batch) eqn:EB.
      { exists [TWorker]. eexists. cbn [ModelImpala.run ModelImpala.step step_worker]. rewrite EB. split; [reflexivity|]. fields. lia. }
      destruct host as [|t host].
      * exists [TWorker; TWorker]. eexists. cbn [ModelImpala.run ModelImpala.step step_worker]. rewrite EB. cbn [step_worker]. split; [reflexivity|]. fields. lia.
      * exists [TWorker]. eexists. cbn [ModelImpala.run ModelImpala.step step_worker]. rewrite EB. split; [reflexivity|]. fields. rewrite app_length. cbn [length]. lia.
    + specialize (Q6 eq_refl). assert (D0 : length device = 0) by nia. destruct device; [|discriminate].
      exists [TWorker]. eexists. cbn [ModelImpala.run ModelImpala.step step_worker length]. split; [reflexivity|]. fields. cbn [concat app length]. rewrite app_nil_r, Q6. lia.
    + exists [TLearner]. eexists. cbn [ModelImpala.run ModelImpala.step step_learner]. split; [reflexivity|]. fields. lia.
  - (* joining the actors *)
    assert (SD : s_done s = true) by now apply F1. specialize (F7 SD). rewrite F6 in F7. injection F7 as ->. cbn [held length] in SL, F6'.
    assert (SS : s_stop s = true) by now apply F2.
    destruct (forallb exited (s_actors s)) eqn:EX.
    { destruct s as [actors host wp batch device lp iters fr par opt pub done stop used sent]; fields; subst. apply (One TLearner); [|discriminate]. cbn [ModelImpala.step step_learner]. rewrite EX. discriminate. }
    assert (X : exists i a, nth_error (s_actors s) i = Some a /\ exited a = false).
    { clear - EX. induction (s_actors s) as [|a l IH]; [discriminate|]. cbn in EX. destruct (exited a) eqn:X; [destruct (IH EX) as (i & c & H1 & H2); now exists (S i), c | now exists 0, a]. }
    destruct X as (i & a & Ea & Xa). destruct (a_pc a) as [|t|] eqn:EP; [| |unfold exited in Xa; rewrite EP in Xa; discriminate].
    + destruct s as [actors host wp batch device lp iters fr par opt pub done stop used sent]; destruct a as [pc bud st]; fields; subst. apply (One (TActor i)); [|discriminate]. cbn [ModelImpala.step step_actor]. rewrite Ea. discriminate.
    + assert (Ua : 0 < unsent a) by (unfold unsent, pending; rewrite EP; cbn; lia).
      eapply Act; try eassumption; [congruence|]. destruct J as [_ J].
      assert (0 < sum_of unsent (s_actors s)). { clear - Ea Ua. apply nth_error_split in Ea as (l1 & l2 & -> & _). rewrite sum_of_app. cbn. lia. }
      nia.
Qed.
Lemma start_total : Forall (fun a => fst a <> None) actors0 -> total = sum_of (fun a => match fst a with Some n => n | None => 0 end) actors0 -> inv_total (start actors0 iters0 p0 o0).
Proof.
  intros F E. unfold inv_total, start. fields. split.
  - apply Forall_map. eapply Forall_impl; [|exact F]. cbn. intros a H. split; [assumption | discriminate].
  - rewrite E. cbn [length]. rewrite Nat.add_0_r. clear. induction actors0 as [|[b a] l IH]; [reflexivity|]. cbn [map sum_of fold_right fst snd]. unfold sum_of in IH. rewrite IH. unfold unsent. cbn. lia.
Qed.
Lemma run_total l s s' : run l s = Some s' -> inv_total s -> inv_total s'.
Proof. revert s. induction l as [|t l IH]; intros s H I; cbn in H; [now injection H as <-|]. destruct (step t s) eqn:E; [|discriminate]. eauto using step_total. Qed.
(** When the actors make all of the trajectories the learner needs, and at most one batch more, then the program can end from every
    reachable state, so it never hangs; and apart from the transfer thread's waiting for trajectories, every run is of bounded length. *)
Theorem C80_can_end m s : 0 < batch_size -> iters0 = Some m -> Forall (fun a => fst a <> None) actors0 ->
  total = sum_of (fun a => match fst a with Some n => n | None => 0 end) actors0 -> m * batch_size <= total <= S m * batch_size ->
  reachable s -> exists l s', run l s = Some s' /\ s_lpc s' = LEnd /\ s_wpc s' = WExit /\ length (s_used s') = m.
Proof.
  intros B0 EI FA ET BT R. pose proof (reachable_inv s R) as I. destruct R as [l0 R]. pose proof (run_total _ _ _ R (start_total FA ET)) as J. clear R l0.
  assert (G : exists l s', run l s = Some s' /\ s_lpc s' = LEnd).
  { remember (measure s) as n eqn:En. revert s En I J. induction n as [n IH] using lt_wf_ind. intros s -> I J.
    assert (D : s_lpc s = LEnd \/ s_lpc s <> LEnd) by (destruct (s_lpc s); (now left) || (right; discriminate)). destruct D as [D|D]; [exists [], s; now split|].
    destruct (progress m s B0 EI BT I J D) as (l & s1 & R & M). destruct (IH _ M s1 eq_refl (run_inv _ _ _ R I) (run_total _ _ _ R J)) as (l' & s2 & R' & E).
    exists (l ++ l'), s2. split; [now rewrite run_app, R | assumption]. }
  destruct G as (l & s' & R & E). exists l, s'. split; [assumption|]. split; [assumption|]. destruct (run_inv _ _ _ R I) as (_ & _ & (F1 & _ & F3 & _ & _ & F6 & F7) & _).
  rewrite E in *. split; [assumption|]. rewrite EI in F6. destruct F6 as (k & F6 & F6'). rewrite (F7 (proj2 F1 Logic.I)) in F6. injection F6 as <-. cbn in F6'. lia.
Qed.
Definition not_worker (t : tid) : bool := match t with TWorker => false | _ => true end.
Theorem C80_bounded l s : 0 < batch_size -> Forall (fun a => fst a <> None) actors0 ->
  total = sum_of (fun a => match fst a with Some n => n | None => 0 end) actors0 ->
  run l (start actors0 iters0 p0 o0) = Some s -> length (filter not_worker l) <= 10 * total + length actors0 + 4.
Proof.
  intros B0 FA ET R.
  assert (G : forall l s s', run l s = Some s' -> inv s -> inv_total s -> length (filter not_worker l) + measure s' <= measure s).
  { clear - B0. intros l. induction l as [|t l IH]; intros s s' R I J; cbn in R; [injection R as <-; cbn; lia|]. destruct (step t s) as [s1|] eqn:E; [|discriminate].
    specialize (IH s1 s' R (step_inv _ _ _ E I) (step_total _ _ _ E J)). destruct (step_measure t s s1 B0 (proj1 I) J E) as [M|[M ->]]; cbn [filter not_worker] in *; [|lia].
    destruct t; cbn [not_worker length]; lia. }
  specialize (G l _ s R start_inv (start_total FA ET)). assert (M : measure (start actors0 iters0 p0 o0) = 10 * total + length actors0 + 4); [|lia].
  rewrite ET. unfold measure, start. fields. cbn [concat length]. rewrite !Nat.mul_0_r, !Nat.add_0_r. clear - FA. revert FA. induction actors0 as [|[b a] rest IH]; intros FA; [reflexivity|].
  apply Forall_cons_iff in FA as [FA1 FA]. specialize (IH FA). cbn [map sum_of fold_right fst snd length] in *. unfold sum_of in *. unfold weight at 1. fields. cbn in FA1. destruct b; [|congruence]. lia.
Qed.
End Threads.
Print Assumptions C80_fifo.
Print Assumptions C80_published.
Print Assumptions C80_actors.
Print Assumptions C80_lag.
Print Assumptions C80_stuck.
Print Assumptions C80_run_returns_refuted.
Print Assumptions C80_main_returns_refuted.
Print Assumptions C80_lag_bounded_refuted.
Print Assumptions C80_can_end.
Print Assumptions C80_bounded.

(** ** Examples: parameters are numbers of updates, trajectories are the parameters they were made with *)
Definition ex_unroll (i frames p : nat) (a : nat) : (nat * nat) * nat := ((i, p), S a).
Definition ex_learn (p o : nat) (l : list (nat * nat)) : nat * nat := (S p, o + length l).
Definition ex_run b f := run ex_unroll ex_learn b f.
(** One batch of two from two actors. *)
Example C80_case : option_map (fun s => (s_params s, s_opt s, s_pub s, map (map t_data) (s_used s)))
  (ex_run 2 40 [TActor 1; TActor 0; TActor 0; TWorker; TActor 1; TWorker; TWorker; TWorker; TWorker; TLearner; TLearner] (start [(None, 0); (None, 0)] (Some 1) 0 0))
  = Some (1, 2, (40, 1), [[(0, 0); (1, 0)]]).
Proof. reflexivity. Qed.
(** The age of four updates is reached: [ex_lag] is a schedule for batches of one. *)
Definition ex_lag := let a := [TActor 0; TActor 0] in
  TWorker :: a ++ [TWorker; TWorker; TWorker; TLearner; TWorker] ++ a ++ [TWorker; TWorker; TWorker; TWorker] ++ a ++ [TWorker; TWorker] ++ a ++ [TActor 0]
  ++ [TLearner; TLearner; TLearner; TWorker; TWorker; TWorker; TWorker; TActor 0; TLearner; TLearner; TWorker; TWorker; TWorker; TWorker; TLearner; TLearner]
  ++ [TWorker; TWorker; TLearner; TLearner].
Example C80_lag_case : option_map (fun s => map (map t_data) (s_used s)) (ex_run 1 1 ex_lag (start [(None, 0)] (Some 5) 0 0)) = Some [[(0, 0)]; [(0, 0)]; [(0, 0)]; [(0, 0)]; [(0, 0)]].
Proof. vm_compute. reflexivity. Qed.
(** The schedule of learner_test.py: one trajectory, one iteration. *)
Example C80_end_case : option_map (fun s => (s_used s, match s_lpc s with LEnd => true | _ => false end))
  (ex_run 1 20 [TActor 0; TActor 0; TActor 0; TWorker; TWorker; TWorker; TWorker; TLearner; TLearner; TLearner; TWorker; TLearner; TLearner] (start [(Some 1, 0)] (Some 1) 0 0))
  = Some ([[Traj 0 (0, 0) (0, 0)]], true).
Proof. vm_compute. reflexivity. Qed.
(** A hang with one batch of one. *)
Example C80_hang_case : match ex_run 1 20 [TWorker; TActor 0; TActor 0; TWorker; TWorker; TWorker; TWorker; TLearner; TLearner; TActor 0; TActor 0; TWorker; TWorker; TWorker; TWorker;
    TActor 0; TActor 0; TWorker; TWorker; TLearner; TActor 0; TActor 0; TActor 0] (start [(None, 0)] (Some 1) 0 0) with
  | Some s => map (fun t => step ex_unroll ex_learn 1 20 t s) [TActor 0; TWorker; TLearner] = [None; None; None]
  | None => False
  end.
Proof. vm_compute. reflexivity. Qed.

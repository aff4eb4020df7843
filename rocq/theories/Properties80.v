(** * C103: gradients, in exact arithmetic *)
From Coq Require Import Reals ZArith List Bool Lia Lra.
From Verif Require Import ModelNets ModelTransformer ModelTraining ModelReal ModelLayers ModelVqEma ModelGradients Properties14.
Import ListNotations.
Local Open Scope R_scope.

Section Expressions.
Context {V : Type}.
Implicit Types (env dir : V -> R) (e : expr V).

(** ** What differentiation should give *)
(** The point at distance [t] from [env] in direction [dir]. *)
Definition line env dir (t : R) : V -> R := fun v => env v + t * dir v.
(** The value at [env'], with everything that is not differentiated kept as it is at [env]. *)
Fixpoint frozen env (env' : V -> R) e : R :=
  match e with
  | Const r => r
  | Var v => env' v
  | Add a b => frozen env env' a + frozen env env' b
  | Sub a b => frozen env env' a - frozen env env' b
  | Mul a b => frozen env env' a * frozen env env' b
  | Div a b => frozen env env' a / frozen env env' b
  | Exp a => exp (frozen env env' a)
  | Ln a => ln (frozen env env' a)
  | Sqrt a => sqrt (frozen env env' a)
  | Stop f => f env
  | Pick f l => frozen env env' (l (f env))
  end.
(** No division by zero, logarithm or root of a number that is not positive. *)
Fixpoint good env e : Prop :=
  match e with
  | Const _ | Var _ | Stop _ => True
  | Add a b | Sub a b | Mul a b => good env a /\ good env b
  | Div a b => good env a /\ good env b /\ ev env b <> 0
  | Exp a => good env a
  | Ln a | Sqrt a => good env a /\ 0 < ev env a
  | Pick f l => good env (l (f env))
  end.
(** Near [env] in direction [dir], nothing that is not differentiated changes. *)
Definition locally (P : R -> Prop) : Prop := exists d, 0 < d /\ forall t, Rabs t < d -> P t.
Fixpoint settled env dir e : Prop :=
  match e with
  | Const _ | Var _ => True
  | Add a b | Sub a b | Mul a b | Div a b => settled env dir a /\ settled env dir b
  | Exp a | Ln a | Sqrt a => settled env dir a
  | Stop f => locally (fun t => f (line env dir t) = f env)
  | Pick f l => locally (fun t => f (line env dir t) = f env) /\ settled env dir (l (f env))
  end.
(** Neither [stop_gradient] nor indices. *)
Fixpoint differentiable e : Prop :=
  match e with
  | Const _ | Var _ => True
  | Add a b | Sub a b | Mul a b | Div a b => differentiable a /\ differentiable b
  | Exp a | Ln a | Sqrt a => differentiable a
  | Stop _ | Pick _ _ => False
  end.

Lemma frozen_ext env (env1 env2 : V -> R) e : (forall v, env1 v = env2 v) -> frozen env env1 e = frozen env env2 e.
Proof. intros H. induction e; cbn [frozen]; congruence. Qed.
Lemma frozen_here env e : frozen env env e = ev env e.
Proof. induction e; cbn [frozen ev]; congruence. Qed.
Lemma line_0 env dir v : line env dir 0 v = env v. Proof. unfold line. ring. Qed.
Lemma frozen_0 env dir e : frozen env (line env dir 0) e = ev env e.
Proof. rewrite (frozen_ext env _ env) by apply line_0. apply frozen_here. Qed.
Lemma frozen_differentiable env (env' : V -> R) e : differentiable e -> frozen env env' e = ev env' e.
Proof. induction e; cbn [frozen ev differentiable]; intros D; try contradiction; try reflexivity; try (destruct D as [D1 D2]; now rewrite IHe1, IHe2); now rewrite IHe. Qed.

Lemma locally_and (P Q : R -> Prop) : locally P -> locally Q -> locally (fun t => P t /\ Q t).
Proof.
  intros (d1 & D1 & H1) (d2 & D2 & H2). exists (Rmin d1 d2). split; [now apply Rmin_glb_lt|]. intros t T.
  pose proof (Rmin_l d1 d2). pose proof (Rmin_r d1 d2). split; [apply H1 | apply H2]; lra.
Qed.
Lemma locally_impl (P Q : R -> Prop) : (forall t, P t -> Q t) -> locally P -> locally Q.
Proof. intros I (d & D & H). exists d. auto. Qed.
Lemma locally_all (P : R -> Prop) : (forall t, P t) -> locally P.
Proof. intros H. exists 1. split; [lra | auto]. Qed.
Lemma settled_frozen env dir e : settled env dir e -> locally (fun t => ev (line env dir t) e = frozen env (line env dir t) e).
Proof.
  induction e; cbn [settled ev frozen]; intros S;
    try (now apply locally_all);
    try (destruct S as [S1 S2]; eapply locally_impl; [|exact (locally_and _ _ (IHe1 S1) (IHe2 S2))]; intros t [E1 E2]; now rewrite E1, E2);
    try (eapply locally_impl; [|exact (IHe S)]; intros t E; now rewrite E).
  - exact S.
  - destruct S as [S1 S2]. eapply locally_impl; [|exact (locally_and _ _ S1 (H _ S2))]. intros t [E1 E2]. now rewrite E1.
Qed.

Lemma derivable_local (f g : R -> R) l : locally (fun t => f t = g t) -> derivable_pt_lim g 0 l -> derivable_pt_lim f 0 l.
Proof.
  intros (d & D & H) G eps E. destruct (G eps E) as [d' H']. exists (mkposreal (Rmin d d') (Rmin_glb_lt _ _ _ D (cond_pos d'))).
  cbn [pos]. intros h Nh Lh. pose proof (Rmin_l d d'). pose proof (Rmin_r d d'). rewrite !H; [|rewrite Rabs_R0; lra | rewrite Rplus_0_l; lra].
  apply H'; [exact Nh | lra].
Qed.
Lemma lim_eq (f : R -> R) x l l' : l = l' -> derivable_pt_lim f x l -> derivable_pt_lim f x l'. Proof. now intros ->. Qed.

(** The result of [jvp] is the derivative in the given direction, with everything that is not differentiated kept constant. *)
Theorem C103_frozen env dir e : good env e -> derivable_pt_lim (fun t => frozen env (line env dir t) e) 0 (jvp env dir e).
Proof.
  induction e; cbn [good frozen jvp]; intros G.
  - apply derivable_pt_lim_const.
  - unfold line. apply (lim_eq _ _ (0 + (1 * dir v + 0 * 0))); [ring|].
    apply (derivable_pt_lim_plus (fun _ : R => env v) (fun t => t * dir v)); [apply derivable_pt_lim_const|]. apply (lim_eq _ _ (1 * fct_cte (dir v) 0 + id 0 * 0)); [unfold fct_cte, id; ring|].
    apply (derivable_pt_lim_mult id (fct_cte (dir v))); [apply derivable_pt_lim_id | apply derivable_pt_lim_const].
  - apply (derivable_pt_lim_plus (fun t => frozen env (line env dir t) e1) (fun t => frozen env (line env dir t) e2)); tauto.
  - apply (derivable_pt_lim_minus (fun t => frozen env (line env dir t) e1) (fun t => frozen env (line env dir t) e2)); tauto.
  - apply (lim_eq _ _ (jvp env dir e1 * frozen env (line env dir 0) e2 + frozen env (line env dir 0) e1 * jvp env dir e2)); [now rewrite !frozen_0|].
    apply (derivable_pt_lim_mult (fun t => frozen env (line env dir t) e1) (fun t => frozen env (line env dir t) e2)); tauto.
  - destruct G as (G1 & G2 & N).
    apply (lim_eq _ _ ((jvp env dir e1 * frozen env (line env dir 0) e2 - jvp env dir e2 * frozen env (line env dir 0) e1) / Rsqr (frozen env (line env dir 0) e2))); [rewrite !frozen_0; unfold Rsqr; now rewrite (Rmult_comm (ev env e1))|].
    apply (derivable_pt_lim_div (fun t => frozen env (line env dir t) e1) (fun t => frozen env (line env dir t) e2)); [tauto | tauto |]. now rewrite frozen_0.
  - apply (lim_eq _ _ (exp (frozen env (line env dir 0) e) * jvp env dir e)); [now rewrite frozen_0|].
    apply (derivable_pt_lim_comp (fun t => frozen env (line env dir t) e) exp); [tauto | apply derivable_pt_lim_exp].
  - destruct G as [G P]. apply (lim_eq _ _ (/ frozen env (line env dir 0) e * jvp env dir e)); [rewrite frozen_0; unfold Rdiv; ring|].
    apply (derivable_pt_lim_comp (fun t => frozen env (line env dir t) e) ln); [tauto|]. apply derivable_pt_lim_ln. now rewrite frozen_0.
  - destruct G as [G P]. apply (lim_eq _ _ (/ (2 * sqrt (frozen env (line env dir 0) e)) * jvp env dir e)); [rewrite frozen_0; unfold Rdiv; ring|].
    apply (derivable_pt_lim_comp (fun t => frozen env (line env dir t) e) sqrt); [tauto|]. apply derivable_pt_lim_sqrt. now rewrite frozen_0.
  - apply derivable_pt_lim_const.
  - now apply H.
Qed.
Print Assumptions C103_frozen.
(** Where nothing changes that is not differentiated - in particular without [stop_gradient] and indices - it is the derivative of the value. *)
Theorem C103_sound env dir e : good env e -> settled env dir e -> derivable_pt_lim (fun t => ev (line env dir t) e) 0 (jvp env dir e).
Proof. intros G S. eapply derivable_local; [exact (settled_frozen env dir e S) | now apply C103_frozen]. Qed.
Print Assumptions C103_sound.
Lemma differentiable_settled env dir e : differentiable e -> settled env dir e.
Proof. induction e; cbn [differentiable settled]; tauto. Qed.

(** ** Directions *)
Lemma jvp_linear env (d1 d2 : V -> R) a b e : jvp env (fun v => a * d1 v + b * d2 v) e = a * jvp env d1 e + b * jvp env d2 e.
Proof. induction e; cbn [jvp]; rewrite ?IHe1, ?IHe2, ?IHe, ?H; unfold Rdiv; ring. Qed.
Lemma jvp_ext env (d1 d2 : V -> R) e : (forall v, d1 v = d2 v) -> jvp env d1 e = jvp env d2 e.
Proof. intros E. induction e; cbn [jvp]; rewrite ?IHe1, ?IHe2, ?IHe, ?H; auto. Qed.
Context (eqb : V -> V -> bool).
Definition basis (v : V) : V -> R := fun w => if eqb w v then 1 else 0.
(** Reverse mode gives, for every variable, the derivative in the direction of that variable ... *)
Theorem C103_reverse env e : good env e -> forall ct v, vjp eqb env e ct v = ct * jvp env (basis v) e.
Proof.
  induction e; cbn [good vjp jvp]; intros G ct w; try (now rewrite ?IHe1, ?IHe2, ?IHe by tauto; unfold Rdiv; ring).
  - unfold basis. destruct (eqb v w); ring.
  - rewrite IHe1, IHe2 by tauto. field. tauto.
  - now apply H.
Qed.
Print Assumptions C103_reverse.
(** ... and so, where nothing else changes, the partial derivatives. *)
Theorem C103_gradient env e v : good env e -> settled env (basis v) e -> derivable_pt_lim (fun t => ev (line env (basis v) t) e) 0 (gradient eqb env e v).
Proof. intros G S. unfold gradient. rewrite C103_reverse by exact G. rewrite Rmult_1_l. now apply C103_sound. Qed.
Print Assumptions C103_gradient.

(** ** Sums and means *)
Lemma ev_esum env l : ev env (esum l) = Rsum (map (ev env) l).
Proof. induction l as [|a l IH]; [reflexivity|]. cbn [esum fold_right ev map]. fold (esum l). now rewrite IH. Qed.
Lemma jvp_esum env dir l : jvp env dir (esum l) = Rsum (map (jvp env dir) l).
Proof. induction l as [|a l IH]; [reflexivity|]. cbn [esum fold_right jvp map]. fold (esum l). now rewrite IH. Qed.
Lemma good_esum env l : good env (esum l) <-> Forall (good env) l.
Proof. induction l as [|a l IH]; cbn [esum fold_right good]; [split; auto|]. fold (esum l). rewrite IH, Forall_cons_iff. reflexivity. Qed.
Lemma settled_esum env dir l : settled env dir (esum l) <-> Forall (settled env dir) l.
Proof. induction l as [|a l IH]; cbn [esum fold_right settled]; [split; auto|]. fold (esum l). rewrite IH, Forall_cons_iff. reflexivity. Qed.
Lemma ev_emean env l : ev env (emean l) = mean (map (ev env) l).
Proof. unfold emean, mean. cbn [ev]. now rewrite ev_esum, map_length. Qed.
Lemma jvp_emean env dir l : l <> [] -> jvp env dir (emean l) = mean (map (jvp env dir) l).
Proof.
  intros N. unfold emean, mean. cbn [jvp ev]. rewrite ev_esum, jvp_esum, map_length. field. pose proof (len_pos l N). lra.
Qed.
Lemma good_emean env l : l <> [] -> good env (emean l) <-> Forall (good env) l.
Proof. intros N. unfold emean. cbn [good ev]. rewrite good_esum. pose proof (len_pos l N). split; [tauto | intros H1; repeat split; auto; lra]. Qed.
End Expressions.

(** The derivative of the logistic function, by both modes. *)
Example C103_sigmoid_case : let e := Div (Const 1) (Add (Const 1) (Exp (Sub (Const 0) (Var tt)))) in
  gradient (fun _ _ => true) (fun _ => 0) e tt = 1 / 4 /\ jvp (fun _ => 0) (fun _ => 1) e = 1 / 4 /\ good (fun _ => 0) e /\
  derivable_pt_lim (fun t => ev (line (fun _ => 0) (fun _ => 1) t) e) 0 (1 / 4).
Proof.
  cbv zeta. set (e := Div _ _). assert (J : jvp (fun _ : unit => 0) (fun _ => 1) e = 1 / 4).
  { cbn. replace (0 - 0) with 0 by ring. rewrite exp_0. field. }
  assert (G : good (fun _ : unit => 0) e).
  { cbn. replace (0 - 0) with 0 by ring. rewrite exp_0. repeat split. lra. }
  split; [|split; [exact J | split; [exact G|]]].
  - unfold gradient. rewrite C103_reverse by exact G. unfold basis. rewrite J. ring.
  - rewrite <- J. apply C103_sound; [exact G|]. apply differentiable_settled. cbn. tauto.
Qed.
(** A value behind [stop_gradient] has derivative 0, whatever it is: the result of [jvp] is not the derivative of the value. *)
Theorem C103_stop_refuted : ~ (forall (env dir : unit -> R) e, good env e -> derivable_pt_lim (fun t => ev (line env dir t) e) 0 (jvp env dir e)).
Proof.
  intros H. specialize (H (fun _ => 0) (fun _ => 1) (sg (Var tt)) I). cbn in H. unfold line in H.
  assert (D : derivable_pt_lim (fun t => 0 + t * 1) 0 1).
  { pose proof (C103_sound (fun _ : unit => 0) (fun _ => 1) (Var tt) I I) as S. exact S. }
  pose proof (uniqueness_limite _ _ _ _ H D). lra.
Qed.
Print Assumptions C103_stop_refuted.

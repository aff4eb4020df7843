(** * C107: gradients through attention, in exact arithmetic *)
From Coq Require Import Reals ZArith List Bool Lia Lra.
From Verif Require Import ModelNets ModelTransformer ModelTraining ModelReal ModelLayers ModelGradients ModelBackprop ModelAttGrad Properties14 Properties15 Properties22 Properties24 Properties80 Properties81 Properties83 Properties86 Properties88.
Import ListNotations.
Local Open Scope R_scope.

Section Attention.
Context {V : Type}.
Implicit Types (env dir : V -> R) (l : list (expr V)).
Lemma ev_edot env x y : ev env (edot x y) = dot (map (ev env) x) (map (ev env) y).
Proof. unfold edot. rewrite ev_esum, dot_zip2. f_equal. now apply map_zip2. Qed.
Lemma jvp_edot env dir x y : jvp env dir (edot x y) = dot (map (jvp env dir) x) (map (ev env) y) + dot (map (ev env) x) (map (jvp env dir) y).
Proof. unfold edot. rewrite jvp_esum, !dot_zip2, zip2_map, !zip2_map_l, !zip2_map_r. cbn [jvp]. unfold zip2. apply Rsum_plus. Qed.
Lemma ev_logits env d big q ks mask : map (ev env) (eatt_logits d big q ks mask) = att_logits d big (map (ev env) q) (vals env ks) mask.
Proof.
  unfold eatt_logits, att_logits, vals. assert (E : map (ev env) (map (fun k => Div (edot q k) (Const (sqrt (INR d)))) ks) = map (fun k => dot (map (ev env) q) k / sqrt (INR d)) (map (map (ev env)) ks)).
  { rewrite !map_map. apply map_ext. intros k. cbn [ev]. now rewrite ev_edot. }
  destruct mask as [m|]; [|exact E]. rewrite <- E. rewrite (map_zip2 _ (fun a b => a - big * (1 - b)) (ev env) (fun b => b)) by reflexivity. now rewrite map_id.
Qed.
Lemma ev_softmax env l : map (ev env) (esoftmax l) = jax_softmax (map (ev env) l).
Proof. unfold esoftmax, jax_softmax, softmax. cbv zeta. rewrite !map_map. apply map_ext. intros x. cbn [ev]. rewrite ev_esum, !map_map. reflexivity. Qed.
Lemma ev_head env d n big q ks vs mask : map (ev env) (eatt_head d n big q ks vs mask) = att_head d n big (map (ev env) q) (vals env ks) (vals env vs) mask.
Proof. unfold eatt_head, eatt_head_with, att_head, att_weights. now rewrite ev_matmul, ev_softmax, ev_logits. Qed.
Definition lin_of env (p : list (list (expr V)) * list (expr V)) : linear := Lin (vals env (fst p)) (map (ev env) (snd p)).
Lemma ev_project env heads size p x h : map (ev env) (eproject heads size (fst p) (snd p) x h) = project heads size (lin_of env p) (map (ev env) x) h.
Proof. unfold eproject, project, lin_of. cbn [l_w l_b]. rewrite map_chunk, ev_affine. reflexivity. Qed.
(** The expressions have the values of the module. *)
Theorem C107_values env heads qs d n model big lq lk lv lo query key value mask :
  option_map (vals env) (emha heads qs d n model big lq lk lv lo query key value mask) =
  mha heads qs d n model big (lin_of env lq) (lin_of env lk) (lin_of env lv) (lin_of env lo) (vals env query) (vals env key) (vals env value) mask.
Proof.
  unfold emha, emha_with, mha. replace (length (vals env key)) with (length key) by (unfold vals; now rewrite map_length). replace (length (vals env value)) with (length value) by (unfold vals; now rewrite map_length). replace (length (vals env query)) with (length query) by (unfold vals; now rewrite map_length). destruct ((qs =? d)%nat && (length key =? length value)%nat)%bool; [|reflexivity]. cbn [option_map]. f_equal.
  unfold vals. rewrite map_map.
  replace (combine (seq 0 (length query)) (map (map (ev env)) query)) with (map (fun p => (fst p, map (ev env) (snd p))) (combine (seq 0 (length query)) query)).
  2: { generalize (seq 0 (length query)). intros s. revert query. induction s as [|a s IH]; intros [|b query]; try reflexivity. cbn [combine map fst snd]. f_equal. apply IH. }
  rewrite (map_map (fun p => (fst p, map (ev env) (snd p)))). apply map_ext. intros [t x]. cbn [fst snd]. rewrite ev_affine. cbn [option_map]. change (l_w (lin_of env lo)) with (vals env (fst lo)). change (l_b (lin_of env lo)) with (map (ev env) (snd lo)). f_equal.
  induction (seq 0 heads) as [|h hs IH]; [reflexivity|]. cbn [flat_map]. rewrite map_app, IH. f_equal. change (eatt_head_with esoftmax) with (eatt_head (V := V)). rewrite ev_head, ev_project. f_equal; unfold vals; rewrite !map_map; apply map_ext; intros k; apply ev_project.
Qed.

Lemma softmax_zip {A} (f g : A -> R) D (l : list A) : zipw (fun p dx => p * (dx - D)) (softmax (map f l)) (map g l) = map (fun x => exp (f x) / Rsum (map exp (map f l)) * (g x - D)) l.
Proof.
  unfold softmax. generalize (Rsum (map exp (map f l))). intros Z. rewrite !map_map. unfold zipw. induction l as [|x l IH]; [reflexivity|]. cbn [map combine fst snd]. now rewrite IH.
Qed.
(** ** The softmax: a weight changes with the difference between the change of its logit and the weighted mean of the changes *)
Theorem C107_softmax env dir l : let p := jax_softmax (map (ev env) l) in let dl := map (jvp env dir) l in
  map (jvp env dir) (esoftmax l) = zipw (fun p dx => p * (dx - dot (jax_softmax (map (ev env) l)) dl)) p dl.
Proof.
  cbv zeta. rewrite jax_softmax_eq. destruct l as [|a l']; [reflexivity|]. set (l := a :: l'). assert (N : l <> []) by discriminate. clearbody l. clear a l'.
  rewrite softmax_zip. unfold esoftmax. cbv zeta. rewrite map_map. apply map_ext.
  intros x. cbn [jvp ev]. rewrite jvp_esum, ev_esum, !map_map. cbn [jvp ev].
  set (m := nth (argmax (map (ev env) l)) (map (ev env) l) 0).
  rewrite <- (map_map (ev env) (fun y => exp (y - m))), exp_shift, map_map.
  rewrite (Rsum_ext (fun x => exp (ev env x - m) * (jvp env dir x - 0)) (fun x => exp (- m) * (exp (ev env x) * jvp env dir x))).
  2: { intros y _. unfold Rminus at 1. rewrite exp_plus. ring. }
  rewrite <- (map_map (fun x => exp (ev env x) * jvp env dir x) (fun a => exp (- m) * a)), Rsum_scale.
  unfold softmax. rewrite map_map. rewrite dot_zip2, zip2_map_l, zip2_map_r, !map_map.
  pose proof (sum_pos (ev env) l N) as P. pose proof (exp_pos (- m)) as Pm. set (Z := Rsum (map (fun x => exp (ev env x)) l)) in *.
  assert (E : Rsum (zip2 (fun x y => exp (ev env x) / Z * jvp env dir y) l l) = / Z * Rsum (map (fun x => exp (ev env x) * jvp env dir x) l)) by apply (zip_self (fun x => exp (ev env x))).
  rewrite E. replace (exp (ev env x - m)) with (exp (ev env x) * exp (- m)) by (unfold Rminus; now rewrite exp_plus). field. split; lra.
Qed.
(** The changes of the weights add up to nothing. *)
Theorem C107_softmax_sum env dir l : Rsum (map (jvp env dir) (esoftmax l)) = 0.
Proof.
  rewrite C107_softmax, jax_softmax_eq. destruct l as [|a l']; [reflexivity|]. set (l := a :: l').
  assert (G : forall p dl D, length p = length dl -> Rsum (zipw (fun p dx => p * (dx - D)) p dl) = dot p dl - D * Rsum p).
  { clear. induction p as [|x p IH]; intros [|y dl] D L; try discriminate L; [unfold dot, zipw; cbn; ring|]. change (zipw (fun p dx => p * (dx - D)) (x :: p) (y :: dl)) with (x * (y - D) :: zipw (fun p dx => p * (dx - D)) p dl).
    change (dot (x :: p) (y :: dl)) with (x * y + dot p dl). rewrite !Rsum_cons, IH by now injection L. ring. }
  rewrite G by now rewrite softmax_length, !map_length. rewrite softmax_sum by discriminate. ring.
Qed.
(** Without the subtraction. *)
Definition esoftmax_plain l : list (expr V) := map (fun x => Div (Exp x) (esum (map Exp l))) l.
Lemma softmax_plain env dir l : Forall2 (same env dir) (esoftmax l) (esoftmax_plain l).
Proof.
  assert (E : map (ev env) (esoftmax l) = map (ev env) (esoftmax_plain l)).
  { rewrite ev_softmax, jax_softmax_eq. unfold esoftmax_plain, softmax. rewrite !map_map. apply map_ext. intros x. cbn [ev]. rewrite ev_esum, !map_map. reflexivity. }
  assert (D : map (jvp env dir) (esoftmax l) = map (jvp env dir) (esoftmax_plain l)).
  { rewrite C107_softmax, jax_softmax_eq. destruct l as [|a l']; [reflexivity|]. set (l := a :: l'). assert (N : l <> []) by discriminate. clearbody l. unfold esoftmax_plain.
    rewrite softmax_zip, (map_map (fun x => Div (Exp x) (esum (map Exp l)))). apply map_ext.
    intros x. cbn [jvp ev]. rewrite jvp_esum, ev_esum, !map_map. cbn [jvp ev]. unfold softmax. rewrite map_map, dot_zip2, zip2_map_l, zip2_map_r, !map_map.
      pose proof (sum_pos (ev env) l N) as P. set (Z := Rsum (map (fun x => exp (ev env x)) l)) in *.
      assert (E' : Rsum (zip2 (fun x y => exp (ev env x) / Z * jvp env dir y) l l) = / Z * Rsum (map (fun x => exp (ev env x) * jvp env dir x) l)) by apply (zip_self (fun x => exp (ev env x))).
      rewrite E'. field. lra. }
  revert E D. generalize (esoftmax l) (esoftmax_plain l). induction l0 as [|x xs IH]; intros [|y ys] E D; try discriminate E; constructor; cbn [map] in E, D; injection E as E1 E2; injection D as D1 D2; [now split | now apply IH].
Qed.

(** ** It is the derivative *)
Definition fine env dir (e : expr V) : Prop := good env e /\ settled env dir e.
Lemma fine_esum env dir l : Forall (fine env dir) l -> fine env dir (esum l).
Proof. intros F. split; [apply good_esum | apply settled_esum]; eapply Forall_impl; try exact F; now intros e []. Qed.
Lemma fine_zip2 env dir (f : expr V -> expr V -> expr V) x y : (forall u v, fine env dir u -> fine env dir v -> fine env dir (f u v)) -> Forall (fine env dir) x -> Forall (fine env dir) y -> Forall (fine env dir) (zip2 f x y).
Proof.
  intros H X. revert y. induction X as [|u x U X IH]; intros y Y; [constructor|]. destruct Y as [|v y W Y]; [constructor|]. unfold zip2 in *. cbn [combine map fst snd]. constructor; [now apply H | now apply IH].
Qed.
Lemma fine_mul env dir u v : fine env dir u -> fine env dir v -> fine env dir (Mul u v). Proof. intros [] []. split; cbn; tauto. Qed.
Lemma fine_add env dir u v : fine env dir u -> fine env dir v -> fine env dir (Add u v). Proof. intros [] []. split; cbn; tauto. Qed.
Lemma fine_const env dir r : fine env dir (Const r). Proof. split; exact I. Qed.
Lemma fine_nth env dir l i : Forall (fine env dir) l -> fine env dir (nth i l (Const 0)).
Proof. intros F. destruct (nth_in_or_default i l (Const 0)) as [H| ->]; [rewrite Forall_forall in F; now apply F | apply fine_const]. Qed.
Lemma fine_matmul env dir n x w : Forall (fine env dir) x -> Forall (Forall (fine env dir)) w -> Forall (fine env dir) (ematmul n x w).
Proof.
  intros X W. unfold ematmul. apply Forall_map, Forall_forall. intros j _. apply fine_esum, fine_zip2; [intros; now apply fine_mul | exact X |].
  unfold ecolumn. apply Forall_map. eapply Forall_impl; [|exact W]. intros r. apply fine_nth.
Qed.
Lemma fine_affine env dir n w b x : Forall (fine env dir) x -> Forall (Forall (fine env dir)) w -> Forall (fine env dir) b -> Forall (fine env dir) (eaffine n w (Some b) x).
Proof. intros X W B. unfold eaffine. apply fine_zip2; [intros; now apply fine_add | now apply fine_matmul | exact B]. Qed.
Lemma Forall_cut {A} (P : A -> Prop) (l : list A) k n : Forall P l -> Forall P (firstn n (skipn k l)).
Proof.
  intros F. assert (S : Forall P (skipn k l)) by (revert k; induction F; intros [|k]; cbn [skipn]; auto). clear F. revert n. induction S; intros [|n]; cbn [firstn]; auto.
Qed.
Definition fine_lin env dir (p : list (list (expr V)) * list (expr V)) : Prop := Forall (Forall (fine env dir)) (fst p) /\ Forall (fine env dir) (snd p).
Lemma fine_project env dir heads size p x h : fine_lin env dir p -> Forall (fine env dir) x -> Forall (fine env dir) (eproject heads size (fst p) (snd p) x h).
Proof. intros [W B] X. unfold eproject, echunk. apply Forall_cut. now apply fine_affine. Qed.
Lemma fine_head env dir d n big q ks vs mask : (0 < d)%nat -> Forall (fine env dir) q -> Forall (Forall (fine env dir)) ks -> Forall (Forall (fine env dir)) vs ->
  Forall (fine env dir) (eatt_head_with esoftmax_plain d n big q ks vs mask).
Proof.
  intros Hd Q K W. unfold eatt_head_with. apply fine_matmul; [|exact W].
  assert (L : Forall (fine env dir) (eatt_logits d big q ks mask)).
  { assert (L0 : Forall (fine env dir) (map (fun k => Div (edot q k) (Const (sqrt (INR d)))) ks)).
    { apply Forall_map. eapply Forall_impl; [|exact K]. intros k Hk. assert (E : fine env dir (edot q k)) by (apply fine_esum, fine_zip2; [intros; now apply fine_mul | exact Q | exact Hk]).
      destruct E as [E1 E2]. split; cbn [good settled ev]; [|tauto]. split; [exact E1|]. split; [exact I|]. pose proof (sqrt_lt_R0 (INR d) (lt_0_INR d Hd)). lra. }
    unfold eatt_logits. destruct mask as [m|]; [|exact L0]. clear - L0. revert m. induction L0 as [|e l E F IH]; intros [|b m]; try constructor; [destruct E; split; cbn [good settled]; tauto | apply IH]. }
  unfold esoftmax_plain. apply Forall_map, Forall_forall. intros e He. pose proof L as L'. rewrite Forall_forall in L'. destruct (L' e He) as [G S].
  assert (X : fine env dir (esum (map Exp (eatt_logits d big q ks mask)))) by (apply fine_esum, Forall_map; eapply Forall_impl; [|exact L]; intros a []; split; assumption).
  destruct X as [X1 X2]. split; cbn [good settled]; [|tauto]. split; [exact G|]. split; [exact X1|]. rewrite ev_esum, map_map. cbn [ev].
  pose proof (sum_pos (ev env) (eatt_logits d big q ks mask)) as P. intros E. rewrite E in P. assert (0 < 0); [apply P; intros N; rewrite N in He; destruct He | lra].
Qed.
Lemma same_head env dir d n big q ks vs mask : Forall2 (same env dir) (eatt_head d n big q ks vs mask) (eatt_head_with esoftmax_plain d n big q ks vs mask).
Proof. unfold eatt_head, eatt_head_with. apply same_matmul, softmax_plain. Qed.
Lemma same_nth env dir x y i : Forall2 (same env dir) x y -> same env dir (nth i x (Const 0)) (nth i y (Const 0)).
Proof. intros F. revert i. induction F; intros [|i]; cbn [nth]; auto using same_refl. Qed.
Lemma sound_by env dir e e' : (forall env dir, same env dir e e') -> fine env dir e' -> derivable_pt_lim (fun s => ev (line env dir s) e) 0 (jvp env dir e).
Proof.
  intros S [G F]. rewrite (proj2 (S env dir)). eapply derivable_local; [apply locally_all; intros s; apply (S (line env dir s) dir) | now apply C103_sound].
Qed.
(** Every entry of the output of the module has the derivative that forward mode computes, wherever inputs and parameters do. *)
Theorem C107_sound env dir heads d n model big lq lk lv lo query key value mask out t i : (0 < d)%nat ->
  fine_lin env dir lq -> fine_lin env dir lk -> fine_lin env dir lv -> fine_lin env dir lo ->
  Forall (Forall (fine env dir)) query -> Forall (Forall (fine env dir)) key -> Forall (Forall (fine env dir)) value ->
  emha heads d d n model big lq lk lv lo query key value mask = Some out ->
  derivable_pt_lim (fun s => ev (line env dir s) (nth i (nth t out []) (Const 0))) 0 (jvp env dir (nth i (nth t out []) (Const 0))).
Proof.
  intros Hd FQ FK FV FO Q K W E. unfold emha, emha_with in E. rewrite Nat.eqb_refl in E. cbn [andb] in E. destruct (length key =? length value)%nat; [|discriminate E]. injection E as <-.
  set (row := fun sm (p : nat * list (expr V)) => eaffine model (fst lo) (Some (snd lo)) (flat_map (fun h => eatt_head_with sm d n big (eproject heads d (fst lq) (snd lq) (snd p) h)
                              (map (fun k => eproject heads d (fst lk) (snd lk) k h) key) (map (fun v => eproject heads n (fst lv) (snd lv) v h) value) (mask h (fst p))) (seq 0 heads))).
  change (derivable_pt_lim (fun s => ev (line env dir s) (nth i (nth t (map (row esoftmax) (combine (seq 0 (length query)) query)) []) (Const 0))) 0
    (jvp env dir (nth i (nth t (map (row esoftmax) (combine (seq 0 (length query)) query)) []) (Const 0)))).
  set (ps := combine (seq 0 (length query)) query). destruct (Nat.lt_ge_cases t (length ps)) as [T|T].
  2: { rewrite (nth_overflow (map _ ps)) by now rewrite map_length. destruct i; cbn [nth jvp ev]; apply (derivable_pt_lim_const 0). }
  rewrite (nth_indep _ [] (row esoftmax (0%nat, []))) by now rewrite map_length. rewrite map_nth. set (p := nth t ps (0%nat, [])).
  assert (Fp : Forall (fine env dir) (snd p)).
  { assert (Ip : In p ps) by now apply nth_In. destruct p as [a x]. apply in_combine_r in Ip. rewrite Forall_forall in Q. now apply Q. }
  apply sound_by with (nth i (row esoftmax_plain p) (Const 0)).
  - intros env' dir'. apply same_nth. unfold row. apply same_affine. induction (seq 0 heads) as [|h hs IH]; [constructor|]. cbn [flat_map]. apply Forall2_app; [apply same_head | exact IH].
  - apply fine_nth. unfold row. apply fine_affine; [|apply FO..]. induction (seq 0 heads) as [|h hs IH]; [constructor|]. cbn [flat_map]. apply Forall_app. split; [|exact IH].
    apply fine_head; [exact Hd | now apply fine_project | |]; apply Forall_map; (eapply Forall_impl; [|eassumption]); intros x X; now apply fine_project.
Qed.
End Attention.
Print Assumptions C107_values.
Print Assumptions C107_softmax.
Print Assumptions C107_softmax_sum.
Print Assumptions C107_sound.

(** Attention of two positions to themselves, every parameter a variable: the module accepts it and has the derivatives of forward mode everywhere. *)
Example C107_sound_case :
  let lin k := ([[Var k]], [Var (k + 1)%nat]) in let x : list (list (expr nat)) := [[Var 8%nat]; [Const 2]] in
  exists out, emha 1 1 1 1 1 1 (lin 0%nat) (lin 2%nat) (lin 4%nat) (lin 6%nat) x x x (fun _ t => Some (if (t =? 0)%nat then [1; 0] else [1; 1])) = Some out /\ length out = 2%nat /\
  forall env dir t i, derivable_pt_lim (fun s => ev (line env dir s) (nth i (nth t out []) (Const 0))) 0 (jvp env dir (nth i (nth t out []) (Const 0))).
Proof.
  cbv zeta. eexists. split; [reflexivity|]. split; [reflexivity|]. intros env dir t i.
  assert (L : forall k, fine_lin env dir ([[Var k]], [Var (k + 1)%nat])) by (intros k; split; repeat constructor).
  assert (X : Forall (Forall (fine env dir)) [[Var 8%nat]; [Const 2]]) by (repeat constructor).
  exact (C107_sound env dir 1 1 1 1 1 _ _ _ _ _ _ _ (fun _ t => Some (if (t =? 0)%nat then [1; 0] else [1; 1])) _ t i Nat.lt_0_1 (L 0%nat) (L 2%nat) (L 4%nat) (L 6%nat) X X X eq_refl).
Qed.

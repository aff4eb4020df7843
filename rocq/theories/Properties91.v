(** * C106 (part 3): the gradients of average and max pooling *)
From Coq Require Import Reals ZArith List Bool Lia Lra.
From Verif Require Import ModelNets ModelTransformer ModelTraining ModelShape ProofsShape ModelReal ModelConv ModelPool ModelGradients ModelConvGrad Properties10 Properties14 Properties15 Properties22 Properties23 Properties33 Properties34 Properties80 Properties81 Properties84 Properties90.
Import ListNotations.
Local Open Scope R_scope.

Section Arrays.
Context {V : Type}.
Implicit Types (env dir : V -> R) (x : earray V).
Lemma max_fold l : l <> [] -> fold_left max_opt l None = Some (nth (argmax l) l 0).
Proof.
  intros N. destruct (argmax_spec l N) as (A & B & _).
  assert (G : forall l v, exists m, fold_left max_opt l (Some v) = Some m /\ In m (v :: l) /\ forall u, In u (v :: l) -> u <= m).
  { clear. induction l as [|w l IH]; intros v; cbn [fold_left max_opt].
    - exists v. split; [reflexivity|]. split; [now left | intros u [<-|[]]; lra].
    - destruct (IH (Rmax v w)) as (m & E & Hin & Hle). exists m. split; [exact E|]. pose proof (Hle _ (or_introl eq_refl)) as Hm. pose proof (Rmax_l v w). pose proof (Rmax_r v w). split.
      + destruct Hin as [<-|Hin]; [|right; now right]. unfold Rmax. destruct (Rle_dec v w); [right; left; reflexivity | left; reflexivity].
      + intros u [<-|[<-|Hu]]; [lra | lra | apply Hle; now right]. }
  destruct l as [|v l]; [congruence|]. cbn [fold_left max_opt]. destruct (G l v) as (m & E & Hin & Hle). rewrite E. f_equal. apply Rle_antisym.
  - destruct (In_nth _ _ 0 Hin) as (k & K & <-). now apply B.
  - apply Hle, nth_In, A.
Qed.
(** The denominator of the average is the number of entries in the window. *)
Lemma avg_count t axes o : Forall axis_ok axes -> in_shape (pool_out t axes) o ->
  match t with PtValid => IZR (ModelShape.prod (map pa_k axes)) | PtSame => Rsum (map (fun _ => 1) (pool_window t axes o)) end = INR (length (pool_window t axes o)) /\
  INR (length (pool_window t axes o)) <> 0.
Proof.
  intros Ha Ho. split.
  - destruct t; [rewrite Rsum_const; ring|]. rewrite <- (valid_length axes o Ha Ho). now rewrite INR_IZR_INZ.
  - apply not_0_INR. pose proof (pool_window_nonempty t axes o Ha Ho) as N. destruct (pool_window t axes o); [congruence | discriminate].
Qed.
Theorem C106_pool_values env t axes x o : 
  ev env (eavg_pool t axes x o) = avg_pool t axes (avals env x) o /\
  (Forall axis_ok axes -> in_shape (pool_out t axes) o -> max_pool t axes (avals env x) o = Some (ev env (emax_pool t axes x o))).
Proof.
  split.
  - unfold eavg_pool, avg_pool. cbn [ev]. rewrite ev_esum, map_map. destruct t; reflexivity.
  - intros Ha Ho. pose proof (pool_window_nonempty t axes o Ha Ho) as N. unfold max_pool, emax_pool. cbn [ev]. rewrite max_fold by (intros E; now apply map_eq_nil in E). f_equal.
    change (fun i => ev env (x i)) with (avals env x). destruct (argmax_spec (map (avals env x) (pool_window t axes o))) as (A & _); [intros E; now apply map_eq_nil in E|].
    rewrite map_length in A. rewrite (nth_indep _ 0 (avals env x [])) by now rewrite map_length. rewrite (nth_indep (map x _) (Const 0) (x [])) by now rewrite map_length.
    rewrite !map_nth. reflexivity.
Qed.
(** Average pooling is linear: its derivative is the average of the derivatives, of the entries that are covered. *)
Theorem C106_avg_pool env dir t axes x o : Forall axis_ok axes -> in_shape (pool_out t axes) o ->
  jvp env dir (eavg_pool t axes x o) = mean (map (ajvp env dir x) (pool_window t axes o)).
Proof.
  intros Ha Ho. destruct (avg_count t axes o Ha Ho) as [E N]. unfold eavg_pool. cbn [jvp ev]. rewrite E, jvp_esum, map_map. unfold mean, ajvp. rewrite map_length. field. exact N.
Qed.
(** The entry that max pooling takes. *)
Definition winner (f : list Z -> R) (t : padtype) (axes : list pool_axis) (o : list Z) : list Z := nth (argmax (map f (pool_window t axes o))) (pool_window t axes o) [].
Lemma winner_spec f t axes o : Forall axis_ok axes -> in_shape (pool_out t axes) o ->
  In (winner f t axes o) (pool_window t axes o) /\ forall i, In i (pool_window t axes o) -> f i <= f (winner f t axes o).
Proof.
  intros Ha Ho. pose proof (pool_window_nonempty t axes o Ha Ho) as N. unfold winner. set (w := pool_window t axes o) in *.
  destruct (argmax_spec (map f w)) as (A & B & _); [intros E; now apply map_eq_nil in E|]. rewrite map_length in A, B. split; [now apply nth_In|].
  intros i Hi. destruct (In_nth _ _ [] Hi) as (k & K & <-). specialize (B k K).
  rewrite !(nth_indep (map f w) 0 (f [])) in B by (rewrite map_length; assumption). now rewrite !map_nth in B.
Qed.
(** Max pooling passes the derivative of the winner, which has the largest value in the window. *)
Theorem C106_max_pool env dir t axes x o : Forall axis_ok axes -> in_shape (pool_out t axes) o -> let i := winner (avals env x) t axes o in
  jvp env dir (emax_pool t axes x o) = jvp env dir (x i) /\ max_pool t axes (avals env x) o = Some (ev env (x i)) /\
  In i (pool_window t axes o) /\ forall j, In j (pool_window t axes o) -> ev env (x j) <= ev env (x i).
Proof.
  intros Ha Ho i. destruct (winner_spec (avals env x) t axes o Ha Ho) as [W1 W2]. fold i in W1, W2.
  assert (E : forall (B : Type) (f : expr V -> B), f (nth (argmax (map (avals env x) (pool_window t axes o))) (map x (pool_window t axes o)) (Const 0)) = f (x i)).
  { intros B f. f_equal. unfold i, winner. pose proof (pool_window_nonempty t axes o Ha Ho) as N. destruct (argmax_spec (map (avals env x) (pool_window t axes o))) as (A & _); [intros E; now apply map_eq_nil in E|].
    rewrite map_length in A. rewrite (nth_indep (map x _) (Const 0) (x [])) by now rewrite map_length. now rewrite map_nth. }
  split; [exact (E R (jvp env dir))|]. split; [|split; [exact W1 | exact W2]]. rewrite (proj2 (C106_pool_values env t axes x o) Ha Ho). f_equal. exact (E R (ev env)).
Qed.
(** Where the largest value of the window is attained once, that is the derivative. *)
Theorem C106_max_sound env dir t axes x o : Forall axis_ok axes -> in_shape (pool_out t axes) o ->
  (forall i, In i (pool_window t axes o) -> good env (x i) /\ settled env dir (x i)) ->
  (forall i, In i (pool_window t axes o) -> i <> winner (avals env x) t axes o -> ev env (x i) < ev env (x (winner (avals env x) t axes o))) ->
  derivable_pt_lim (fun t' => ev (line env dir t') (emax_pool t axes x o)) 0 (jvp env dir (emax_pool t axes x o)).
Proof.
  intros Ha Ho G U. pose proof (pool_window_nonempty t axes o Ha Ho) as N. set (i := winner (avals env x) t axes o) in *.
  destruct (winner_spec (avals env x) t axes o Ha Ho) as [Wi _]. fold i in Wi.
  assert (H0 : forall j, In j (pool_window t axes o) -> ev (line env dir 0) (x j) = ev env (x j)).
  { intros j Hj. destruct (G j Hj) as [_ S]. destruct (settled_frozen env dir (x j) S) as (d & Hd & H). rewrite H by (rewrite Rabs_R0; lra). apply frozen_0. }
  assert (L : locally (fun t' => forall j, In j (pool_window t axes o) -> j <> i -> 0 < ev (line env dir t') (x i) - ev (line env dir t') (x j))).
  { assert (Q : forall l, incl l (pool_window t axes o) -> locally (fun t' => forall j, In j l -> j <> i -> 0 < ev (line env dir t') (x i) - ev (line env dir t') (x j))).
    { induction l as [|j l IH]; intros I; [apply locally_all; intros ? ? []|].
      assert (P : locally (fun t' => j <> i -> 0 < ev (line env dir t') (x i) - ev (line env dir t') (x j))).
      { assert (Hj : In j (pool_window t axes o)) by (apply I; now left).
        assert (DE : {j = i} + {j <> i}) by (decide equality; apply Z.eq_dec). destruct DE as [Ej|Ne]; [apply locally_all; intros; contradiction|].
        eapply locally_impl; [intros t' T _; exact T|]. apply (positive_locally _ (jvp env dir (Sub (x i) (x j)))).
        - apply (C103_sound env dir (Sub (x i) (x j))); cbn [good settled]; split; apply G; assumption.
        - rewrite !H0 by assumption. specialize (U j Hj Ne). lra. }
      eapply locally_impl; [|apply (locally_and _ _ P (IH (fun a Ha' => I a (or_intror Ha'))))]. intros t' [A B] k [<-|Hk]; auto. }
    apply Q, incl_refl. }
  apply C103_sound.
  - unfold emax_pool. cbn [good]. set (k := argmax _). destruct (nth_in_or_default k (map x (pool_window t axes o)) (Const 0)) as [Hin|E]; [|rewrite E; exact I].
    apply in_map_iff in Hin as (j & <- & Hj). now apply G.
  - unfold emax_pool. cbn [settled]. split.
    + eapply locally_impl; [|exact L]. intros t' T. set (f := fun i => ev (line env dir t') (x i)) in *. set (g := fun i => ev env (x i)) in *. set (w := pool_window t axes o) in *.
      assert (ND : NoDup w). { apply C66_window. apply Forall2_len in Ho. unfold pool_out in Ho. now rewrite map_length in Ho. }
      destruct (argmax_spec (map f w)) as (A & B & _); [intros E; now apply map_eq_nil in E|]. destruct (argmax_spec (map g w)) as (A' & B' & _); [intros E; now apply map_eq_nil in E|].
      rewrite map_length in A, B, A'. apply (proj1 (NoDup_nth w []) ND); [exact A | exact A' |]. change (nth (argmax (map g w)) w []) with i.
      assert (DE : {nth (argmax (map f w)) w [] = i} + {nth (argmax (map f w)) w [] <> i}) by (decide equality; apply Z.eq_dec). destruct DE as [E|Ne]; [exact E|].
      specialize (T _ (nth_In w [] A) Ne). destruct (In_nth _ _ [] Wi) as (k & K & EK). specialize (B k K).
      rewrite !(nth_indep (map f w) 0 (f [])) in B by (rewrite map_length; assumption). rewrite !map_nth, EK in B. unfold f in *. lra.
    + set (k := argmax _). destruct (nth_in_or_default k (map x (pool_window t axes o)) (Const 0)) as [Hin|E]; [|rewrite E; exact I].
      apply in_map_iff in Hin as (j & <- & Hj). now apply G.
Qed.
End Arrays.
Print Assumptions C106_pool_values.
Print Assumptions C106_avg_pool.
Print Assumptions C106_max_pool.
Print Assumptions C106_max_sound.

(** ** The gradient with respect to the input: [ct] is the gradient with respect to the output *)
Definition pixel (i : list Z) : expr (list Z) := Var i.
Definition covers (t : padtype) (axes : list pool_axis) (o i : list Z) : bool := existsb (leqb i) (pool_window t axes o).
Lemma covers_iff t axes o i : covers t axes o i = true <-> In i (pool_window t axes o).
Proof.
  unfold covers. rewrite existsb_exists. split; [intros (j & Hj & E); apply leqb_iff in E; now subst | intros H; exists i; split; [exact H | apply leqb_refl]].
Qed.
Lemma Rsum_basis i l : NoDup l -> Rsum (map (basis leqb i) l) = if existsb (leqb i) l then 1 else 0.
Proof.
  induction 1 as [|j l Hj _ IH]; [reflexivity|]. cbn [map existsb]. rewrite Rsum_cons, IH. unfold basis. rewrite leqb_sym. destruct (leqb i j) eqn:E; cbn [orb]; [|ring].
  apply leqb_iff in E. subst j. destruct (existsb (leqb i) l) eqn:F; [|ring]. apply existsb_exists in F as (k & Hk & E). apply leqb_iff in E. now subst.
Qed.
Lemma in_box_shape sizes o : in_box sizes o <-> in_shape sizes o.
Proof. reflexivity. Qed.
Lemma all_ebsum_in {V} (P : expr V -> Prop) sizes : (forall l, P (esum l) <-> Forall P l) -> forall f, (forall i, in_box sizes i -> P (f i)) -> P (ebsum sizes f).
Proof.
  intros S. induction sizes as [|n sizes IH]; intros f H; cbn [ebsum]; [apply H; constructor|]. unfold ezsum. apply S, Forall_map, Forall_forall. intros i Hi. apply in_zseq in Hi. apply IH. intros l Hl. apply H. now constructor.
Qed.
(** Every output spreads its gradient evenly over the entries that its window covers. *)
Theorem C106_avg_gradient env t axes ct i : Forall axis_ok axes ->
  gradient leqb env (weighted (pool_out t axes) ct (eavg_pool t axes pixel)) i =
  bsum (pool_out t axes) (fun o => if covers t axes o i then ct o / INR (length (pool_window t axes o)) else 0).
Proof.
  intros Ha. unfold gradient. rewrite C103_reverse.
  - unfold weighted. rewrite Rmult_1_l, jvp_ebsum. apply bsum_ext. intros o Ho. cbn [jvp ev]. rewrite (C106_avg_pool env _ t axes pixel o Ha Ho). unfold mean. rewrite map_length.
    change (ajvp env (basis leqb i) pixel) with (basis leqb i). rewrite Rsum_basis; [unfold covers; destruct (existsb _ _); unfold Rdiv; ring|].
    apply C66_window. apply Forall2_len in Ho. unfold pool_out in Ho. now rewrite map_length in Ho.
  - unfold weighted. apply (all_ebsum_in (good env)); [intros l; apply good_esum|]. intros o Ho. cbn [good]. split; [exact I|]. unfold eavg_pool. cbn [good ev]. split; [|split; [exact I|]].
    + apply good_esum, Forall_map, Forall_forall. intros j _. exact I.
    + destruct (avg_count t axes o Ha Ho) as [-> N]. exact N.
Qed.
Print Assumptions C106_avg_gradient.
(** Every output gives its gradient to its winner. *)
Theorem C106_max_gradient env t axes ct i : Forall axis_ok axes ->
  gradient leqb env (weighted (pool_out t axes) ct (emax_pool t axes pixel)) i =
  bsum (pool_out t axes) (fun o => if leqb i (winner env t axes o) then ct o else 0).
Proof.
  intros Ha. unfold gradient. rewrite C103_reverse.
  - unfold weighted. rewrite Rmult_1_l, jvp_ebsum. apply bsum_ext. intros o Ho. cbn [jvp ev]. destruct (C106_max_pool env (basis leqb i) t axes pixel o Ha Ho) as (-> & _).
    change (avals env pixel) with env. cbn [jvp pixel]. unfold basis. rewrite leqb_sym. destruct (leqb i _); ring.
  - unfold weighted. apply (all_ebsum_in (good env)); [intros l; apply good_esum|]. intros o Ho. cbn [good]. split; [exact I|]. unfold emax_pool. cbn [good]. set (k := argmax _).
    destruct (nth_in_or_default k (map pixel (pool_window t axes o)) (Const 0)) as [Hin|E]; [|rewrite E; exact I]. apply in_map_iff in Hin as (j & <- & Hj). exact I.
Qed.
Print Assumptions C106_max_gradient.
(** Neither loses nor adds anything: the gradients of the input sum up to those of the output. *)
Lemma window_inside t axes o i : in_shape (pool_out t axes) o -> In i (pool_window t axes o) -> in_box (map pa_n axes) i.
Proof.
  intros Ho Hi. assert (L : length o = length axes) by (apply Forall2_len in Ho; unfold pool_out in Ho; now rewrite map_length in Ho).
  apply C66_window in Hi as [HLi H]; [|exact L]. clear Ho L. revert i o HLi H. induction axes as [|a axes IH]; intros [|y i] o HLi H; try discriminate HLi; [constructor|].
  constructor; [apply (H 0%nat a eq_refl)|]. apply (IH i (tl o)); [now injection HLi|]. intros d a' E. specialize (H (S d) a' E). cbn [nth] in H. destruct o; [destruct d|]; exact H.
Qed.
Lemma lsum_swap2 {A B} (l : list A) (m : list B) f : lsum l (fun a => lsum m (fun b => f a b)) = lsum m (fun b => lsum l (fun a => f a b)).
Proof.
  induction l as [|a l IH]; unfold lsum in *; cbn [map]; [rewrite Rsum_nil; symmetry; transitivity (Rsum (map (fun _ : B => 0) m)); [apply Rsum_ext; intros; reflexivity | rewrite Rsum_const; ring]|].
  rewrite Rsum_cons, IH, <- Rsum_plus. apply Rsum_ext. intros b _. now rewrite Rsum_cons.
Qed.
Lemma bsum_swap n m f : bsum n (fun i => bsum m (fun j => f i j)) = bsum m (fun j => bsum n (fun i => f i j)).
Proof.
  rewrite !bsum_lsum. transitivity (lsum (box n) (fun i => lsum (box m) (fun j => f i j))); [apply Rsum_ext; intros i _; apply bsum_lsum|].
  rewrite lsum_swap2. apply Rsum_ext. intros j _. symmetry. apply bsum_lsum.
Qed.
Lemma bsum_indicator sizes l c : NoDup l -> (forall i, In i l -> in_box sizes i) -> bsum sizes (fun i => if existsb (leqb i) l then c else 0) = INR (length l) * c.
Proof.
  induction 1 as [|j l Hj ND IH]; intros H; cbn [existsb length].
  - rewrite bsum_0. cbn. ring.
  - rewrite S_INR, (bsum_ext sizes _ (fun i => (if leqb i j then c else 0) + (if existsb (leqb i) l then c else 0))).
    + rewrite bsum_plus, IH by (intros i Hi; apply H; now right). rewrite (bsum_delta sizes j (fun _ => c)), in_box_inside by (apply H; now left). ring.
    + intros i _. destruct (leqb i j) eqn:E; cbn [orb]; [|ring]. apply leqb_iff in E. subst i. destruct (existsb (leqb j) l) eqn:F; [|ring].
      apply existsb_exists in F as (k & Hk & E). apply leqb_iff in E. now subst.
Qed.
Theorem C106_pool_conserves env t axes ct : Forall axis_ok axes ->
  bsum (map pa_n axes) (gradient leqb env (weighted (pool_out t axes) ct (eavg_pool t axes pixel))) = bsum (pool_out t axes) ct /\
  bsum (map pa_n axes) (gradient leqb env (weighted (pool_out t axes) ct (emax_pool t axes pixel))) = bsum (pool_out t axes) ct.
Proof.
  intros Ha. split.
  - rewrite (bsum_ext _ _ _ (fun i _ => C106_avg_gradient env t axes ct i Ha)), bsum_swap. apply bsum_ext. intros o Ho. destruct (avg_count t axes o Ha Ho) as [_ N].
    unfold covers. rewrite bsum_indicator; [field; exact N | |intros i; now apply window_inside]. apply C66_window. apply Forall2_len in Ho. unfold pool_out in Ho. now rewrite map_length in Ho.
  - rewrite (bsum_ext _ _ _ (fun i _ => C106_max_gradient env t axes ct i Ha)), bsum_swap. apply bsum_ext. intros o Ho. rewrite (bsum_delta _ _ (fun _ => ct o)), in_box_inside; [reflexivity|].
    apply (window_inside t axes o); [exact Ho|]. now apply winner_spec.
Qed.
Print Assumptions C106_pool_conserves.

(** Where the largest value is attained twice, what is passed on is not the derivative: along the first of two equal entries the maximum has none. *)
Theorem C106_max_refuted : ~ (forall env dir t axes o, Forall axis_ok axes -> in_shape (pool_out t axes) o ->
  derivable_pt_lim (fun t' => ev (line env dir t') (emax_pool t axes pixel o)) 0 (jvp env dir (emax_pool t axes pixel o))).
Proof.
  intros H. specialize (H (fun _ => 0) (basis leqb [0%Z]) PtValid [PoolAxis 2 2 1] [0%Z]).
  assert (A : Forall axis_ok [PoolAxis 2 2 1]) by (repeat constructor; cbn; lia). assert (S : in_shape (pool_out PtValid [PoolAxis 2 2 1]) [0%Z]) by (constructor; [cbv; split; congruence | constructor]).
  specialize (H A S).
  assert (M : forall s, ev (line (fun _ => 0) (basis leqb [0%Z]) s) (emax_pool PtValid [PoolAxis 2 2 1] pixel [0%Z]) = Rmax s 0).
  { intros s. destruct (C106_pool_values (line (fun _ => 0) (basis leqb [0%Z]) s) PtValid [PoolAxis 2 2 1] pixel [0%Z]) as [_ P]. specialize (P A S). unfold max_pool in P. set (m := ev _ _) in P |- *. clearbody m.
    replace (pool_window PtValid [PoolAxis 2 2 1] [0%Z]) with [[0%Z]; [1%Z]] in P by reflexivity. cbn [map fold_left max_opt avals pixel ev] in P. injection P as <-. unfold line, basis, avals. cbn. f_equal; ring. }
  assert (J : jvp (fun _ => 0) (basis leqb [0%Z]) (emax_pool PtValid [PoolAxis 2 2 1] pixel [0%Z]) = 1).
  { unfold emax_pool. cbn [jvp]. replace (pool_window PtValid [PoolAxis 2 2 1] [0%Z]) with [[0%Z]; [1%Z]] by reflexivity. cbn [map pixel ev]. unfold argmax. cbn [argmax_from]. destruct (Rlt_dec 0 0); [lra|]. reflexivity. }
  rewrite J in H. destruct (H (1 / 2) ltac:(lra)) as (d & D). pose proof (cond_pos d) as Pd. specialize (D (- (d / 2)) ltac:(lra)). rewrite Rabs_left in D by lra. specialize (D ltac:(lra)).
  rewrite !M in D. rewrite (Rmax_right (0 + - (d / 2))), (Rmax_left 0 0) in D by lra. replace ((0 - 0) / - (d / 2) - 1) with (-1) in D by (field; lra). rewrite Rabs_left in D by lra. lra.
Qed.
Print Assumptions C106_max_refuted.

(** A row 1, 5, 2, 4, 3 with window 3 and stride 2: the border windows of SAME cover two entries, and the second entry wins twice. *)
Definition c106_row (i : list Z) : R := nth (Z.to_nat (nth 0 i 0%Z)) [1; 5; 2; 4; 3] 0.
Definition c106_out (o : list Z) : R := nth (Z.to_nat (nth 0 o 0%Z)) [6; 12; 60] 0.
Example C106_pool_case : let axes := [PoolAxis 5 3 2] in
  map (gradient leqb c106_row (weighted (pool_out PtSame axes) c106_out (eavg_pool PtSame axes pixel))) [[0]; [1]; [2]; [3]; [4]]%Z = [3; 7; 4; 34; 30] /\
  map (gradient leqb c106_row (weighted (pool_out PtValid axes) c106_out (eavg_pool PtValid axes pixel))) [[0]; [1]; [2]; [3]; [4]]%Z = [2; 2; 6; 4; 4] /\
  map (gradient leqb c106_row (weighted (pool_out PtSame axes) c106_out (emax_pool PtSame axes pixel))) [[0]; [1]; [2]; [3]; [4]]%Z = [0; 18; 0; 60; 0].
Proof.
  cbv zeta. assert (A : Forall axis_ok [PoolAxis 5 3 2]) by (repeat constructor; cbn; lia).
  assert (S : pool_out PtSame [PoolAxis 5 3 2] = [3]%Z /\ pool_out PtValid [PoolAxis 5 3 2] = [2]%Z) by now split. destruct S as [S1 S2].
  split; [|split]; cbn [map].
  - rewrite !C106_avg_gradient by exact A. rewrite S1. cbv -[Rplus Rmult Rdiv IZR]. repeat (apply f_equal2; [field|]). reflexivity.
  - rewrite !C106_avg_gradient by exact A. rewrite S2. cbv -[Rplus Rmult Rdiv IZR]. repeat (apply f_equal2; [field|]). reflexivity.
  - rewrite !C106_max_gradient by exact A. rewrite S1.
    assert (W : winner c106_row PtSame [PoolAxis 5 3 2] [0%Z] = [1%Z] /\ winner c106_row PtSame [PoolAxis 5 3 2] [1%Z] = [1%Z] /\ winner c106_row PtSame [PoolAxis 5 3 2] [2%Z] = [3%Z]).
    { unfold winner. replace (pool_window PtSame [PoolAxis 5 3 2] [0]%Z) with [[0]; [1]]%Z by reflexivity.
      replace (pool_window PtSame [PoolAxis 5 3 2] [1]%Z) with [[1]; [2]; [3]]%Z by reflexivity.
      replace (pool_window PtSame [PoolAxis 5 3 2] [2]%Z) with [[3]; [4]]%Z by reflexivity.
      assert (F : c106_row [0%Z] = 1 /\ c106_row [1%Z] = 5 /\ c106_row [2%Z] = 2 /\ c106_row [3%Z] = 4 /\ c106_row [4%Z] = 3) by (repeat split; reflexivity).
      destruct F as (F0 & F1 & F2 & F3 & F4). cbn [map]. rewrite F0, F1, F2, F3, F4. unfold argmax. cbn [argmax_from].
      repeat (destruct (Rlt_dec _ _); try lra; cbn [argmax_from]). repeat split; reflexivity. }
    destruct W as (W0 & W1 & W2). cbn [bsum]. unfold zsum. replace (zseq 3) with [0; 1; 2]%Z by reflexivity. cbn [map]. rewrite W0, W1, W2.
    assert (F : c106_out [0%Z] = 6 /\ c106_out [1%Z] = 12 /\ c106_out [2%Z] = 60) by (repeat split; reflexivity). destruct F as (F0 & F1 & F2). rewrite F0, F1, F2. cbn [leqb Z.eqb Pos.eqb andb].
    rewrite !Rsum_cons, !Rsum_nil. repeat (apply f_equal2; [ring|]). reflexivity.
Qed.

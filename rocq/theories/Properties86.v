(** * C104: gradients through layers *)
From Coq Require Import Reals ZArith List Bool Lia Lra.
From Verif Require Import ModelBasic ModelNets ModelTransformer ModelTraining ModelReal ModelLayers ModelVqEma ModelGradients Properties14 Properties15 Properties22 Properties80 Properties81 Properties83.
From Verif Require Import ModelBackprop.
Import ListNotations.
Local Open Scope R_scope.

Section Values.
Context {V : Type}.
Implicit Types (env dir : V -> R) (x : list (expr V)) (w : list (list (expr V))).

Lemma map_zip2 {A B C A' B' C'} (f : A -> B -> C) (g : A' -> B' -> C') (p : A -> A') (q : B -> B') (r : C -> C') a b :
  (forall u v, r (f u v) = g (p u) (q v)) -> map r (zip2 f a b) = zip2 g (map p a) (map q b).
Proof. intros H. rewrite zip2_map, zip2_map_l, zip2_map_r. apply zip2_ext. intros u v _. apply H. Qed.
Lemma vals_column env j w : map (ev env) (ecolumn j w) = column j (vals env w).
Proof. unfold ecolumn, column, vals. rewrite !map_map. apply map_ext. intros r. exact (eq_sym (map_nth (ev env) r (Const 0) j)). Qed.
Lemma ev_matmul env n x w : map (ev env) (ematmul n x w) = matmul n (map (ev env) x) (vals env w).
Proof.
  unfold ematmul, matmul. rewrite map_map. apply map_ext. intros j. rewrite ev_esum, dot_zip2. f_equal. rewrite <- vals_column. now apply map_zip2.
Qed.
Lemma ev_affine env n w b x : map (ev env) (eaffine n w b x) = affine n (vals env w) (option_map (map (ev env)) b) (map (ev env) x).
Proof. unfold eaffine, affine. destruct b as [b|]; cbn [option_map]; [|apply ev_matmul]. rewrite zipw_zip2, <- ev_matmul. now apply map_zip2. Qed.
Lemma ev_sigmoid env a : ev env (esigmoid a) = sigmoid (ev env a).
Proof. unfold esigmoid, eneg, sigmoid. cbn [ev]. rewrite Rminus_0_l. unfold Rdiv. ring. Qed.
Lemma ev_tanh env a : ev env (etanh a) = tanh (ev env a).
Proof. unfold etanh, eneg, tanh. cbn [ev]. now rewrite Rminus_0_l. Qed.
Lemma ev_relu env a : ev env (erelu a) = relu (ev env a).
Proof.
  unfold erelu, relu, positive. cbn [ev]. destruct (Rlt_dec 0 (ev env a)) as [P|P]; cbn [ev]; [rewrite Rmax_left; lra | rewrite Rmax_right; lra].
Qed.
Lemma map_chunk {B} (f : expr V -> B) n k l : map f (echunk n k l) = firstn n (skipn (k * n) (map f l)).
Proof. unfold echunk. now rewrite skipn_map, firstn_map. Qed.

(** The values of the expressions are those of the models of the layers and cells. *)
Theorem C104_values env n w w_h b b_h x h c :
  map (ev env) (eaffine n w b x) = affine n (vals env w) (option_map (map (ev env)) b) (map (ev env) x) /\
  (forall b, let r := elstm n w b x (h, c) in
     (map (ev env) (fst r), (map (ev env) (fst (snd r)), map (ev env) (snd (snd r)))) = lstm n (vals env w) (map (ev env) b) (map (ev env) x) (map (ev env) h, map (ev env) c)) /\
  (forall b, let r := egru n w w_h b x h in
     (map (ev env) (fst r), map (ev env) (snd r)) = gru n (vals env w) (vals env w_h) (map (ev env) b) (map (ev env) x) (map (ev env) h)) /\
  (forall b, let r := evanilla n w w_h b b_h x h in
     (map (ev env) (fst r), map (ev env) (snd r)) = vanilla n (vals env w) (vals env w_h) (map (ev env) b) (option_map (map (ev env)) b_h) (map (ev env) x) (map (ev env) h)) /\
  (forall rate keep, option_map (map (ev env)) (edropout rate keep x) = dropout rate keep (map (ev env) x)).
Proof.
  split; [apply ev_affine|]. split; [|split; [|split]].
  - intros b0. cbv zeta. assert (G : map (ev env) (elstm_gates n w b0 x h) = affine (4 * n) (vals env w) (Some (map (ev env) b0)) (map (ev env) x ++ map (ev env) h)).
    { unfold elstm_gates. now rewrite ev_affine, map_app. }
    unfold elstm, lstm. cbn [fst snd]. cbv zeta. rewrite <- G. set (g := elstm_gates n w b0 x h).
    assert (C : map (ev env) (elstm_cell n g c) = zipw Rplus (zipw Rmult (map (fun a => sigmoid (a + 1)) (chunk n 2 (map (ev env) g))) (map (ev env) c)) (zipw Rmult (map sigmoid (chunk n 0 (map (ev env) g))) (map tanh (chunk n 1 (map (ev env) g))))).
    { unfold elstm_cell. rewrite !zipw_zip2. rewrite (map_zip2 Add Rplus (ev env) (ev env)) by reflexivity. rewrite !(map_zip2 Mul Rmult (ev env) (ev env)) by reflexivity. unfold chunk. rewrite <- !map_chunk, !map_map.
      rewrite (map_ext (fun a => ev env (esigmoid (Add a (Const 1)))) (fun a => sigmoid (ev env a + 1))) by (intros a; now rewrite ev_sigmoid).
      rewrite (map_ext (fun a => ev env (esigmoid a)) (fun a => sigmoid (ev env a))) by (intros a; apply ev_sigmoid).
      now rewrite (map_ext (fun a => ev env (etanh a)) (fun a => tanh (ev env a))) by (intros a; apply ev_tanh). }
    assert (H : map (ev env) (elstm_hidden n g (elstm_cell n g c)) = zipw Rmult (map sigmoid (chunk n 3 (map (ev env) g))) (map tanh (map (ev env) (elstm_cell n g c)))).
    { unfold elstm_hidden. rewrite zipw_zip2, (map_zip2 Mul Rmult (ev env) (ev env)) by reflexivity. unfold chunk. rewrite <- !map_chunk, !map_map.
      rewrite (map_ext (fun a => ev env (esigmoid a)) (fun a => sigmoid (ev env a))) by (intros a; apply ev_sigmoid).
      now rewrite (map_ext (fun a => ev env (etanh a)) (fun a => tanh (ev env a))) by (intros a; apply ev_tanh). }
    now rewrite H, C.
  - intros b0. cbv zeta. assert (S : forall l, map (ev env) (map esigmoid l) = map sigmoid (map (ev env) l)) by (intros l; rewrite !map_map; apply map_ext; intros a; apply ev_sigmoid).
    assert (T : forall l, map (ev env) (map etanh l) = map tanh (map (ev env) l)) by (intros l; rewrite !map_map; apply map_ext; intros a; apply ev_tanh).
    assert (A : forall a b, map (ev env) (zip2 Add a b) = zipw Rplus (map (ev env) a) (map (ev env) b)) by (intros; now apply map_zip2).
    assert (M : forall a b, map (ev env) (zip2 Mul a b) = zipw Rmult (map (ev env) a) (map (ev env) b)) by (intros; now apply map_zip2).
    assert (E : forall k, vals env (map (firstn k) w_h) = map (firstn k) (vals env w_h)) by (intros k; unfold vals; rewrite !map_map; apply map_ext; intros r; symmetry; apply firstn_map).
    assert (E' : forall k, vals env (map (skipn k) w_h) = map (skipn k) (vals env w_h)) by (intros k; unfold vals; rewrite !map_map; apply map_ext; intros r; symmetry; apply skipn_map).
    assert (N : map (ev env) (fst (egru n w w_h b0 x h)) = fst (gru n (vals env w) (vals env w_h) (map (ev env) b0) (map (ev env) x) (map (ev env) h))).
    { unfold egru, egru_next, egru_a, egru_zr, gru. cbv zeta. cbn [fst]. rewrite A, (map_zip2 (fun z s => Mul (Sub (Const 1) z) s) (fun z s => (1 - z) * s) (ev env) (ev env)) by reflexivity.
      rewrite M, <- firstn_map, S, !A, <- firstn_map, !ev_matmul, <- firstn_map, T, !A, <- !skipn_map, !ev_matmul, M, <- skipn_map, S, !A, <- !firstn_map, !ev_matmul. rewrite !E, E'. reflexivity. }
    unfold egru, gru in *. cbv zeta in *. cbn [fst snd] in *. now rewrite N.
  - intros b0. cbv zeta. assert (N : map (ev env) (fst (evanilla n w w_h b0 b_h x h)) = fst (vanilla n (vals env w) (vals env w_h) (map (ev env) b0) (option_map (map (ev env)) b_h) (map (ev env) x) (map (ev env) h))).
    { unfold evanilla, vanilla. cbn [fst]. rewrite map_map, (map_ext (fun a => ev env (erelu a)) (fun a => relu (ev env a))) by (intros a; apply ev_relu). rewrite <- map_map. f_equal.
      rewrite (map_zip2 Add Rplus (ev env) (ev env)) by reflexivity. now rewrite !ev_affine. }
    unfold evanilla, vanilla in *. cbn [fst snd] in *. now rewrite N.
  - intros rate keep. unfold edropout, dropout. destruct (Rlt_dec rate 0); [reflexivity|]. destruct (Rle_dec 1 rate); [reflexivity|]. destruct (Req_EM_T rate 0); [reflexivity|]. cbv zeta. cbn [option_map]. f_equal.
    rewrite (map_zip2 _ (fun k a => b2r k * a / (1 - rate)) (fun k => k) (ev env)) by reflexivity. now rewrite map_id.
Qed.
End Values.
Print Assumptions C104_values.

Section Tangents.
Context {V : Type}.
Implicit Types (env dir : V -> R) (x : list (expr V)) (w : list (list (expr V))).
Definition jvals env dir (m : list (list (expr V))) : list (list R) := map (map (jvp env dir)) m.
Lemma jvals_column env dir j w : map (jvp env dir) (ecolumn j w) = column j (jvals env dir w).
Proof. unfold ecolumn, column, jvals. rewrite !map_map. apply map_ext. intros r. exact (eq_sym (map_nth (jvp env dir) r (Const 0) j)). Qed.
(** ** Linear: the derivative of [x @ w + b] is [dx @ w + x @ dw + db]. *)
Theorem C104_linear env dir n w b x :
  map (jvp env dir) (eaffine n w None x) = zipw Rplus (matmul n (map (jvp env dir) x) (vals env w)) (matmul n (map (ev env) x) (jvals env dir w)) /\
  map (jvp env dir) (eaffine n w (Some b) x) =
  zipw Rplus (zipw Rplus (matmul n (map (jvp env dir) x) (vals env w)) (matmul n (map (ev env) x) (jvals env dir w))) (map (jvp env dir) b).
Proof.
  assert (M : map (jvp env dir) (ematmul n x w) = zipw Rplus (matmul n (map (jvp env dir) x) (vals env w)) (matmul n (map (ev env) x) (jvals env dir w))).
  { unfold ematmul, matmul. rewrite zipw_zip2, zip2_seq, map_map. apply map_ext. intros j. rewrite jvp_esum, !dot_zip2, <- vals_column, <- jvals_column.
    set (c := ecolumn j w). clearbody c. rewrite zip2_map, !zip2_map_l, !zip2_map_r. cbn [jvp]. unfold zip2. apply Rsum_plus. }
  split; [exact M|]. unfold eaffine. rewrite <- M. now apply map_zip2.
Qed.

(** ** Activations *)
Lemma sigmoid_denominator r : 0 < 1 + exp (0 - r). Proof. pose proof (exp_pos (0 - r)). lra. Qed.
Lemma tanh_denominator r : 0 < exp r + exp (0 - r). Proof. pose proof (exp_pos r). pose proof (exp_pos (0 - r)). lra. Qed.
(** The derivatives of the activations; the one of [relu] is 0 where the argument is 0. *)
Theorem C104_activations env dir a :
  jvp env dir (esigmoid a) = sigmoid (ev env a) * (1 - sigmoid (ev env a)) * jvp env dir a /\
  jvp env dir (etanh a) = (1 - tanh (ev env a) * tanh (ev env a)) * jvp env dir a /\
  jvp env dir (erelu a) = (if Rlt_dec 0 (ev env a) then 1 else 0) * jvp env dir a.
Proof.
  split; [|split].
  - unfold esigmoid, eneg, sigmoid. cbn [jvp ev]. rewrite <- Rminus_0_l. pose proof (sigmoid_denominator (ev env a)). field. lra.
  - unfold etanh, eneg, tanh. cbn [jvp ev]. rewrite <- Rminus_0_l. pose proof (tanh_denominator (ev env a)). field. lra.
  - unfold erelu, positive. cbn [jvp]. destruct (Rlt_dec 0 (ev env a)); cbn [jvp]; ring.
Qed.
(** They never stretch: the logistic function shrinks any change by 4 at least. *)
Theorem C104_activations_bounded env dir a :
  Rabs (jvp env dir (esigmoid a)) <= Rabs (jvp env dir a) / 4 /\ Rabs (jvp env dir (etanh a)) <= Rabs (jvp env dir a) /\ Rabs (jvp env dir (erelu a)) <= Rabs (jvp env dir a).
Proof.
  destruct (C104_activations env dir a) as (S & T & R0). rewrite S, T, R0, !Rabs_mult. pose proof (Rabs_pos (jvp env dir a)) as P. split; [|split].
  - rewrite <- Rabs_mult. set (s := sigmoid _). assert (0 < s < 1).
    { unfold s, sigmoid. pose proof (exp_pos (- ev env a)). split; [apply Rinv_0_lt_compat; lra|]. rewrite <- Rinv_1. apply Rinv_lt_contravar; lra. }
    assert (0 <= s * (1 - s) <= / 4) by (split; [nra|]; pose proof (Rle_0_sqr (s - / 2)); unfold Rsqr in *; nra).
    rewrite Rabs_right by lra. unfold Rdiv. nra.
  - set (t := tanh _). assert (B : t * t <= 1).
    { unfold t, tanh. set (r := ev env a). pose proof (exp_pos r). pose proof (exp_pos (- r)). replace ((exp r - exp (- r)) / (exp r + exp (- r)) * ((exp r - exp (- r)) / (exp r + exp (- r)))) with (1 - 4 * (exp r * exp (- r)) / ((exp r + exp (- r)) * (exp r + exp (- r)))) by (field; lra).
      rewrite <- exp_plus. replace (r + - r) with 0 by ring. rewrite exp_0. assert (0 < (exp r + exp (- r)) * (exp r + exp (- r))) by nra.
      assert (0 < / ((exp r + exp (- r)) * (exp r + exp (- r)))) by now apply Rinv_0_lt_compat. unfold Rdiv. lra. }
    pose proof (Rle_0_sqr t). unfold Rsqr in *. rewrite Rabs_right by lra. nra.
  - destruct (Rlt_dec 0 (ev env a)); rewrite ?Rabs_R1, ?Rabs_R0; lra.
Qed.
Lemma good_activations env a : good env a -> good env (esigmoid a) /\ good env (etanh a) /\ good env (erelu a).
Proof.
  intros G. split; [|split].
  - unfold esigmoid, eneg. cbn [good ev]. pose proof (sigmoid_denominator (ev env a)). repeat split; auto. lra.
  - unfold etanh, eneg. cbn [good ev]. pose proof (tanh_denominator (ev env a)). repeat split; auto. lra.
  - unfold erelu, positive. cbn [good]. now destruct (Rlt_dec 0 (ev env a)).
Qed.
(** [relu] settles wherever its argument is not 0: there its derivative is the derivative. *)
Theorem C104_relu env dir a : good env a -> settled env dir a -> ev env a <> 0 ->
  derivable_pt_lim (fun t => relu (ev (line env dir t) a)) 0 (jvp env dir (erelu a)).
Proof.
  intros G S N. pose proof (C103_sound env dir a G S) as D. assert (E0 : ev (line env dir 0) a = ev env a).
  { destruct (settled_frozen env dir a S) as (d & Hd & H). rewrite H by (rewrite Rabs_R0; lra). apply frozen_0. }
  apply derivable_local with (fun t => ev (line env dir t) (erelu a)); [apply locally_all; intros t; symmetry; apply ev_relu|].
  apply C103_sound; [now apply good_activations|]. unfold erelu. cbn [settled]. split.
  - destruct (Rdichotomy _ _ N) as [L|P].
    + assert (Q : locally (fun t => 0 < - ev (line env dir t) a)).
      { apply (positive_locally (fun t => - ev (line env dir t) a) (- jvp env dir a)); [now apply (derivable_pt_lim_opp (fun t => ev (line env dir t) a)) | rewrite E0; lra]. }
      eapply locally_impl; [|exact Q]. intros t T. unfold positive. destruct (Rlt_dec 0 (ev (line env dir t) a)); [lra|]. destruct (Rlt_dec 0 (ev env a)); [lra | reflexivity].
    + assert (Q : locally (fun t => 0 < ev (line env dir t) a)).
      { apply (positive_locally (fun t => ev (line env dir t) a) (jvp env dir a)); [exact D | rewrite E0; lra]. }
      eapply locally_impl; [|exact Q]. intros t T. unfold positive. destruct (Rlt_dec 0 (ev (line env dir t) a)); [|lra]. destruct (Rlt_dec 0 (ev env a)); [reflexivity | lra].
  - unfold positive. now destruct (Rlt_dec 0 (ev env a)).
Qed.

(** ** MLP *)
(** What the derivative of an MLP is: the derivative of each layer, passed on where the layer's value is positive. *)
Fixpoint mlp_tangent (layers : list (nat * (list (list R) * list (list R)) * (list R * list R))) (x dx : list R) : list R :=
  match layers with
  | [] => dx
  | (n, (w, dw), (b, db)) :: layers =>
      let y := affine n w (Some b) x in
      let dy := zipw Rplus (zipw Rplus (matmul n dx w) (matmul n x dw)) db in
      match layers with [] => dy | _ => mlp_tangent layers (map relu y) (zipw (fun v d => if Rlt_dec 0 v then d else 0) y dy) end
  end.
Theorem C104_mlp env dir layers x :
  map (jvp env dir) (emlp layers x) =
  mlp_tangent (map (fun l => let '(n, w, b) := l in (n, (vals env w, jvals env dir w), (map (ev env) b, map (jvp env dir) b))) layers) (map (ev env) x) (map (jvp env dir) x).
Proof.
  revert x. induction layers as [|[[n w] b] layers IH]; intros x; [reflexivity|].
  destruct layers as [|l layers]; [cbn [emlp map mlp_tangent]; apply C104_linear|].
  change (emlp ((n, w, b) :: l :: layers) x) with (emlp (l :: layers) (map erelu (eaffine n w (Some b) x))). rewrite IH. set (L := l :: layers) in *.
  change (map _ ((n, w, b) :: L)) with ((n, (vals env w, jvals env dir w), (map (ev env) b, map (jvp env dir) b)) :: map (fun l => let '(n, w, b) := l in (n, (vals env w, jvals env dir w), (map (ev env) b, map (jvp env dir) b))) L).
  cbn [mlp_tangent]. change (map (fun l0 => let '(n0, w0, b0) := l0 in (n0, (vals env w0, jvals env dir w0), (map (ev env) b0, map (jvp env dir) b0))) L) with
    ((fun l => let '(n, w, b) := l in (n, (vals env w, jvals env dir w), (map (ev env) b, map (jvp env dir) b))) l :: map (fun l => let '(n, w, b) := l in (n, (vals env w, jvals env dir w), (map (ev env) b, map (jvp env dir) b))) layers).
  cbv iota. f_equal.
  - rewrite map_map, (map_ext (fun a => ev env (erelu a)) (fun a => relu (ev env a))) by (intros a; apply ev_relu). now rewrite <- map_map, ev_affine.
  - destruct (C104_linear env dir n w b x) as [_ T]. rewrite <- T. change (Some (map (ev env) b)) with (option_map (map (ev env)) (Some b)). rewrite <- ev_affine. set (y := eaffine n w (Some b) x).
    rewrite map_map, zipw_zip2, zip2_map_l, zip2_map_r. clearbody y. induction y as [|a y IHy]; [reflexivity|]. unfold zip2 in *. cbn [map combine fst snd]. rewrite IHy. f_equal.
    destruct (C104_activations env dir a) as (_ & _ & R0). rewrite R0. destruct (Rlt_dec 0 (ev env a)); ring.
Qed.

(** ** dropout: the derivative goes through the units that are kept, with the same factor as the value. *)
Theorem C104_dropout env dir rate keep x y : edropout rate keep x = Some y ->
  dropout rate keep (map (jvp env dir) x) = Some (map (jvp env dir) y).
Proof.
  unfold edropout, dropout. destruct (Rlt_dec rate 0); [discriminate|]. destruct (Rle_dec 1 rate); [discriminate|]. destruct (Req_EM_T rate 0); intros E; injection E as <-; [reflexivity|].
  cbv zeta. f_equal. rewrite zip2_map. change (map _ (combine keep (map (jvp env dir) x))) with (zip2 (fun k a => b2r k * a / (1 - rate)) keep (map (jvp env dir) x)). rewrite zip2_map_r.
  apply zip2_ext. intros k a _. cbn [jvp ev]. unfold b2r. destruct k; field; lra.
Qed.
End Tangents.
Print Assumptions C104_linear.
Print Assumptions C104_activations.
Print Assumptions C104_activations_bounded.
Print Assumptions C104_relu.
Print Assumptions C104_mlp.
Print Assumptions C104_dropout.

(** At 0, [relu] has no derivative, but a gradient. *)
Theorem C104_relu_refuted : ~ (forall (env dir : unit -> R) a, good env a -> settled env dir a -> derivable_pt_lim (fun t => relu (ev (line env dir t) a)) 0 (jvp env dir (erelu a))).
Proof.
  intros H. specialize (H (fun _ => 0) (fun _ => 1) (Var tt) I I). destruct (C104_activations (fun _ : unit => 0) (fun _ => 1) (Var tt)) as (_ & _ & E). rewrite E in H. clear E. cbn [ev jvp] in H.
  destruct (Rlt_dec 0 0) as [L|_]; [lra|]. unfold line in H. destruct (H (1 / 2) ltac:(lra)) as [d D]. pose proof (cond_pos d) as P.
  specialize (D (d / 2) ltac:(lra)). rewrite (Rabs_right (d / 2)) in D by lra. specialize (D ltac:(lra)). unfold relu in D.
  rewrite (Rmax_left (0 + (0 + d / 2) * 1)) in D by lra. rewrite (Rmax_right (0 + 0 * 1)) in D by lra.
  replace ((0 + (0 + d / 2) * 1 - 0) / (d / 2) - 0 * 1) with 1 in D by (field; lra). rewrite Rabs_R1 in D. lra.
Qed.
Print Assumptions C104_relu_refuted.

(** ** The gradient of a batch *)
Inductive lvar := LW (i j : nat) | LB (j : nat) | LX (n i : nat).
Definition lvar_eqb (a b : lvar) : bool :=
  match a, b with
  | LW i j, LW i' j' => (i =? i')%nat && (j =? j')%nat
  | LB j, LB j' => (j =? j')%nat
  | LX n i, LX n' i' => (n =? n')%nat && (i =? i')%nat
  | _, _ => false
  end.
(** A batch of [N] inputs of size [I] through [hk.Linear(O)]; [ct] is the gradient with respect to the outputs. *)
Definition lweights (I O : nat) : list (list (expr lvar)) := map (fun i => map (fun j => Var (LW i j)) (seq 0 O)) (seq 0 I).
Definition lbias (O : nat) : list (expr lvar) := map (fun j => Var (LB j)) (seq 0 O).
Definition loutput (I O n : nat) : list (expr lvar) := eaffine O (lweights I O) (Some (lbias O)) (map (fun i => Var (LX n i)) (seq 0 I)).
Definition lloss (N I O : nat) (ct : nat -> nat -> R) : expr lvar := esum (map (fun n => esum (zip2 (fun c y => Mul (Const c) y) (map (ct n) (seq 0 O)) (loutput I O n))) (seq 0 N)).
Lemma loutput_entries I O n : loutput I O n = map (fun j => Add (esum (map (fun i => Mul (Var (LX n i)) (Var (LW i j))) (seq 0 I))) (Var (LB j))) (seq 0 O).
Proof.
  unfold loutput, eaffine, ematmul, lbias. rewrite zip2_seq. apply map_ext_in. intros j J. apply in_seq in J. do 2 f_equal. unfold ecolumn, lweights. rewrite map_map.
  rewrite (map_ext (fun i => nth j (map (fun j0 => Var (LW i j0)) (seq 0 O)) (Const 0)) (fun i => Var (LW i j))) by (intros i; apply (seq_nth_map (fun j0 => Var (LW i j0)) (Const 0)); lia).
  apply zip2_seq.
Qed.
Lemma jvp_lloss N I O ct env dir : jvp env dir (lloss N I O ct) =
  Rsum (map (fun n => Rsum (map (fun j => ct n j * (Rsum (map (fun i => dir (LX n i) * env (LW i j) + env (LX n i) * dir (LW i j)) (seq 0 I)) + dir (LB j))) (seq 0 O))) (seq 0 N)).
Proof.
  unfold lloss. rewrite jvp_esum, map_map. apply Rsum_ext. intros n _. rewrite jvp_esum, loutput_entries, zip2_seq, map_map. apply Rsum_ext. intros j _. cbn [jvp ev].
  rewrite jvp_esum, map_map. cbn [jvp ev]. ring.
Qed.
Lemma good_lloss N I O ct env : good env (lloss N I O ct).
Proof.
  unfold lloss. apply good_esum, Forall_map, Forall_forall. intros n _. apply good_esum. rewrite loutput_entries, zip2_seq. apply Forall_map, Forall_forall. intros j _. cbn [good]. split; [exact Logic.I|]. split; [|exact Logic.I].
  apply good_esum, Forall_map, Forall_forall. intros i _. cbn [good]. tauto.
Qed.
(** The gradient of [hk.Linear]: [dw = x^T @ ct], [db] the sum of [ct] over the batch and [dx = ct @ w^T]. *)
Theorem C104_linear_gradient N I O ct env :
  (forall i j, (i < I)%nat -> (j < O)%nat -> gradient lvar_eqb env (lloss N I O ct) (LW i j) = Rsum (map (fun n => env (LX n i) * ct n j) (seq 0 N))) /\
  (forall j, (j < O)%nat -> gradient lvar_eqb env (lloss N I O ct) (LB j) = Rsum (map (fun n => ct n j) (seq 0 N))) /\
  (forall n i, (n < N)%nat -> (i < I)%nat -> gradient lvar_eqb env (lloss N I O ct) (LX n i) = Rsum (map (fun j => ct n j * env (LW i j)) (seq 0 O))).
Proof.
  assert (Z : forall l, Rsum (map (fun _ : nat => 0) l) = 0) by apply Rsum_zero.
  unfold gradient. split; [|split].
  - intros i j Hi Hj. rewrite C103_reverse by apply good_lloss. rewrite Rmult_1_l, jvp_lloss. apply Rsum_ext. intros n _. rewrite <- (Rsum_pick O (fun j => env (LX n i) * ct n j) j Hj). apply Rsum_ext. intros j' _.
    unfold basis. cbn [lvar_eqb]. rewrite Rplus_0_r.
    rewrite (Rsum_ext _ (fun i' => if (i' =? i)%nat then if (j' =? j)%nat then env (LX n i') else 0 else 0)); [rewrite (Rsum_pick I (fun i' => if (j' =? j)%nat then env (LX n i') else 0) i Hi); destruct (j' =? j)%nat; ring|].
    intros i' _. destruct (i' =? i)%nat, (j' =? j)%nat; cbn [andb]; ring.
  - intros j Hj. rewrite C103_reverse by apply good_lloss. rewrite Rmult_1_l, jvp_lloss. apply Rsum_ext. intros n _. rewrite <- (Rsum_pick O (ct n) j Hj). apply Rsum_ext. intros j' _.
    unfold basis. cbn [lvar_eqb]. rewrite (Rsum_ext _ (fun _ => 0)) by (intros; ring). rewrite Z. destruct (j' =? j)%nat; ring.
  - intros n i Hn Hi. rewrite C103_reverse by apply good_lloss. rewrite Rmult_1_l, jvp_lloss.
    rewrite <- (Rsum_pick N (fun n => Rsum (map (fun j => ct n j * env (LW i j)) (seq 0 O))) n Hn). apply Rsum_ext. intros n' _. unfold basis. cbn [lvar_eqb].
    destruct (n' =? n)%nat eqn:E; cbn [andb].
    + apply Rsum_ext. intros j _. rewrite Rplus_0_r. rewrite (Rsum_ext _ (fun i' => if (i' =? i)%nat then env (LW i' j) else 0)); [rewrite (Rsum_pick I (fun i' => env (LW i' j)) i Hi); reflexivity|].
      intros i' _. destruct (i' =? i)%nat; ring.
    + rewrite (Rsum_ext _ (fun _ => 0)); [apply Z|]. intros j _. rewrite (Rsum_ext _ (fun _ => 0)) by (intros; ring). rewrite Z. ring.
Qed.
Print Assumptions C104_linear_gradient.
Example C104_linear_case : let env v := match v with LW i j => INR (S i) + 2 * INR j | LB _ => 5 | LX n i => INR (S n) * INR (S i) end in
  map (ev env) (loutput 2 2 1) = [2 * 1 + 4 * 2 + 5; 2 * 3 + 4 * 4 + 5] /\
  gradient lvar_eqb env (lloss 2 2 2 (fun n j => if (n =? 1)%nat then 1 else INR j)) (LW 1 1) = 2 + 4 /\
  gradient lvar_eqb env (lloss 2 2 2 (fun n j => if (n =? 1)%nat then 1 else INR j)) (LX 1 0) = 1 + 3.
Proof.
  cbv zeta. destruct (C104_linear_gradient 2 2 2 (fun n j => if (n =? 1)%nat then 1 else INR j) (fun v => match v with LW i j => INR (S i) + 2 * INR j | LB _ => 5 | LX n i => INR (S n) * INR (S i) end)) as (W & _ & X). split; [|split].
  - rewrite loutput_entries. cbn [seq map ev]. rewrite !ev_esum. cbn [map ev]. rewrite !Rsum_cons, !Rsum_nil. cbn [INR]. repeat (apply f_equal2; [ring|]). reflexivity.
  - rewrite W by lia. cbn [seq map Nat.eqb]. rewrite !Rsum_cons, !Rsum_nil. cbn [INR]. ring.
  - rewrite X by lia. cbn [seq map Nat.eqb]. rewrite !Rsum_cons, !Rsum_nil. cbn [INR]. ring.
Qed.
(** Two layers with [relu] between them: what is not positive passes nothing on. *)
Example C104_mlp_case : let env (v : nat) := INR v in
  emlp [(2%nat, [[Const 1; Const (-1)]], [Const 0; Const 0]); (1%nat, [[Const 3]; [Const 5]], [Var 1%nat])] [Var 2%nat] <> [] /\
  map (ev env) (emlp [(2%nat, [[Const 1; Const (-1)]], [Const 0; Const 0]); (1%nat, [[Const 3]; [Const 5]], [Var 1%nat])] [Var 2%nat]) = [7] /\
  map (jvp env (fun v => if (v =? 2)%nat then 1 else 0)) (emlp [(2%nat, [[Const 1; Const (-1)]], [Const 0; Const 0]); (1%nat, [[Const 3]; [Const 5]], [Var 1%nat])] [Var 2%nat]) = [3].
Proof.
  cbv zeta. split; [|split].
  - discriminate.
  - unfold emlp, eaffine, ematmul, zip2, ecolumn, erelu, positive. cbn [map seq combine nth fst snd esum fold_right ev INR]. destruct (Rlt_dec 0 _) as [P|P]; [|exfalso; apply P; lra]. destruct (Rlt_dec 0 _) as [Q|Q]; [exfalso; lra|]. cbn [ev esum fold_right]. cbn [INR]. f_equal. ring.
  - rewrite C104_mlp. cbn [map mlp_tangent jvp ev vals jvals]. unfold affine, matmul, dot, column, zipw. cbn [map seq combine nth fst snd jvp ev Nat.eqb INR]. rewrite !Rsum_cons, !Rsum_nil.
    destruct (Rlt_dec 0 _) as [P|P]; [|exfalso; apply P; lra]. destruct (Rlt_dec 0 _) as [Q|Q]; [exfalso; lra|]. f_equal. ring.
Qed.

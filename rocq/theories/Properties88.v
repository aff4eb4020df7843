(** * C104, continued: gradients through recurrent cells, unrolls and resets *)
From Coq Require Import Reals ZArith List Bool Lia Lra.
From Verif Require Import ModelNets ModelTransformer ModelTraining ModelReal ModelLayers ModelVqEma ModelGradients Properties14 Properties15 Properties22 Properties80 Properties81 Properties83.
From Verif Require Import ModelBackprop Properties86.
Import ListNotations.
Local Open Scope R_scope.

Section Cells.
Context {V : Type}.
Implicit Types (env dir : V -> R) (a b : expr V).

Lemma nth_zip2 {A B C} (f : A -> B -> C) x y k dx dy dc : (k < length x)%nat -> (k < length y)%nat -> nth k (zip2 f x y) dc = f (nth k x dx) (nth k y dy).
Proof.
  unfold zip2. revert y k. induction x as [|u x IH]; intros [|v y] k Hx Hy; cbn [length] in *; try lia. destruct k as [|k]; cbn [combine map nth fst snd]; [reflexivity|]. apply IH; lia.
Qed.
Lemma nth_map' {A B} (f : A -> B) l k da db : (k < length l)%nat -> nth k (map f l) db = f (nth k l da).
Proof. intros H. rewrite (nth_indep _ db (f da)) by now rewrite map_length. apply map_nth. Qed.
Lemma nth_echunk n j (g : list (expr V)) k d : (k < n)%nat -> nth k (echunk n j g) d = nth (j * n + k) g d.
Proof.
  intros H. unfold echunk. assert (F : forall m (l : list (expr V)) i, (i < m)%nat -> nth i (firstn m l) d = nth i l d).
  { induction m as [|m IH]; intros l i I; [lia|]. destruct l as [|u l]; [reflexivity|]. destruct i as [|i]; cbn [firstn nth]; [reflexivity|]. apply IH. lia. }
  rewrite F by exact H. generalize (j * n)%nat. intros m. revert g. induction m as [|m IH]; intros g; [reflexivity|]. destruct g as [|u g]; [destruct k; reflexivity|]. cbn [skipn]. rewrite IH. reflexivity.
Qed.
Lemma echunk_length n j (g : list (expr V)) : (S j * n <= length g)%nat -> length (echunk n j g) = n.
Proof. intros H. unfold echunk. rewrite firstn_length, skipn_length. lia. Qed.
Lemma zip2_length {A B C} (f : A -> B -> C) x y : length (zip2 f x y) = Nat.min (length x) (length y).
Proof. unfold zip2. now rewrite map_length, combine_length. Qed.
Lemma elstm_cell_length n (g c : list (expr V)) : length g = (4 * n)%nat -> length c = n -> length (elstm_cell n g c) = n.
Proof. intros G C. unfold elstm_cell. rewrite !zip2_length, !map_length, !echunk_length by lia. lia. Qed.

(** ** LSTM: the derivative of a unit's memory and output, from those of its four gates, its memory and its output. *)
Theorem C104_lstm env dir n (g c : list (expr V)) k : length g = (4 * n)%nat -> length c = n -> (k < n)%nat ->
  let pre j := nth (j * n + k) g (Const 0) in
  let i := sigmoid (ev env (pre 0%nat)) in let u := tanh (ev env (pre 1%nat)) in let f := sigmoid (ev env (pre 2%nat) + 1) in let o := sigmoid (ev env (pre 3%nat)) in
  let old := nth k c (Const 0) in let new := nth k (elstm_cell n g c) (Const 0) in
  ev env new = f * ev env old + i * u /\
  jvp env dir new = f * jvp env dir old + f * (1 - f) * jvp env dir (pre 2%nat) * ev env old + i * (1 - i) * jvp env dir (pre 0%nat) * u + i * (1 - u * u) * jvp env dir (pre 1%nat) /\
  jvp env dir (nth k (elstm_hidden n g (elstm_cell n g c)) (Const 0)) =
    o * (1 - o) * jvp env dir (pre 3%nat) * tanh (ev env new) + o * (1 - tanh (ev env new) * tanh (ev env new)) * jvp env dir new.
Proof.
  intros G C K. cbv zeta. assert (E : nth k (elstm_cell n g c) (Const 0) =
    Add (Mul (esigmoid (Add (nth (2 * n + k) g (Const 0)) (Const 1))) (nth k c (Const 0))) (Mul (esigmoid (nth (0 * n + k) g (Const 0))) (etanh (nth (1 * n + k) g (Const 0))))).
  { unfold elstm_cell. rewrite (nth_zip2 Add _ _ k (Const 0) (Const 0)) by (rewrite zip2_length, !map_length, !echunk_length by lia; lia).
    rewrite !(nth_zip2 Mul _ _ k (Const 0) (Const 0)) by (rewrite ?map_length, ?echunk_length by lia; lia).
    rewrite !(nth_map' _ _ k (Const 0)) by (rewrite ?echunk_length by lia; lia). now rewrite !nth_echunk by exact K. }
  assert (H : nth k (elstm_hidden n g (elstm_cell n g c)) (Const 0) = Mul (esigmoid (nth (3 * n + k) g (Const 0))) (etanh (nth k (elstm_cell n g c) (Const 0)))).
  { unfold elstm_hidden. rewrite (nth_zip2 Mul _ _ k (Const 0) (Const 0)) by (rewrite !map_length, ?elstm_cell_length, ?echunk_length by lia; lia).
    rewrite !(nth_map' _ _ k (Const 0)) by (rewrite ?elstm_cell_length, ?echunk_length by lia; lia). now rewrite !nth_echunk by exact K. }
  split; [|split].
  - rewrite E. cbn [ev]. rewrite !ev_sigmoid, !ev_tanh. reflexivity.
  - rewrite E. cbn [jvp ev]. rewrite !ev_sigmoid, !ev_tanh. rewrite (proj1 (C104_activations env dir (Add _ _))), (proj1 (C104_activations env dir (nth (0 * n + k) g _))), (proj1 (proj2 (C104_activations env dir (nth (1 * n + k) g _)))). cbn [jvp ev]. ring.
  - rewrite H. cbn [jvp ev]. rewrite !ev_sigmoid, !ev_tanh. rewrite (proj1 (C104_activations env dir _)), (proj1 (proj2 (C104_activations env dir (nth k (elstm_cell n g c) _)))). ring.
Qed.
(** Along the memory alone the gradient is multiplied by the forget gates, step after step. *)
Theorem C104_lstm_memory env dir n gs (c : list (expr V)) k : Forall (fun g => length g = (4 * n)%nat /\ Forall (fun a => jvp env dir a = 0) g) gs -> length c = n -> (k < n)%nat ->
  jvp env dir (nth k (fold_left (fun c g => elstm_cell n g c) gs c) (Const 0)) =
  fold_left (fun d g => sigmoid (ev env (nth (2 * n + k) g (Const 0)) + 1) * d) gs (jvp env dir (nth k c (Const 0))).
Proof.
  intros F C K. revert c C. induction gs as [|g gs IH]; intros c C; [reflexivity|]. apply Forall_cons_iff in F as [[G Z] F]. cbn [fold_left]. rewrite IH; [|exact F | now apply elstm_cell_length]. f_equal.
  destruct (C104_lstm env dir n g c k G C K) as (_ & D & _). cbv zeta in D. rewrite D. assert (J : forall j, (j < 4)%nat -> jvp env dir (nth (j * n + k) g (Const 0)) = 0).
  { intros j Hj. rewrite Forall_forall in Z. apply Z, nth_In. rewrite G. nia. }
  rewrite (J 2%nat), (J 0%nat), (J 1%nat) by lia. ring.
Qed.
(** ** GRU: the next state is between the old one and the candidate, and so is its derivative. *)
Theorem C104_gru env dir (z a state : list (expr V)) k : length z = length state -> length a = length state -> (k < length state)%nat ->
  let z' := nth k z (Const 0) in let a' := nth k a (Const 0) in let s := nth k state (Const 0) in
  jvp env dir (nth k (egru_next z a state) (Const 0)) = (1 - ev env z') * jvp env dir s + ev env z' * jvp env dir a' + (ev env a' - ev env s) * jvp env dir z'.
Proof.
  intros Lz La K. cbv zeta. unfold egru_next. rewrite (nth_zip2 Add _ _ k (Const 0) (Const 0)) by (rewrite !zip2_length; lia).
  rewrite (nth_zip2 _ _ _ k (Const 0) (Const 0)) by lia. rewrite (nth_zip2 Mul _ _ k (Const 0) (Const 0)) by lia. cbn [jvp ev]. ring.
Qed.

(** ** Which values and derivatives reach a cell *)
Definition same env dir a b : Prop := ev env a = ev env b /\ jvp env dir a = jvp env dir b.
Definition still env dir a : Prop := jvp env dir a = 0.
Lemma Forall2_zip2 {A B C} (P : A -> A -> Prop) (Q : B -> B -> Prop) (T : C -> C -> Prop) (f : A -> B -> C) :
  (forall u u' v v', P u u' -> Q v v' -> T (f u v) (f u' v')) -> forall x x' y y', Forall2 P x x' -> Forall2 Q y y' -> Forall2 T (zip2 f x y) (zip2 f x' y').
Proof.
  intros H x x' y y' X. revert y y'. induction X as [|u u' x x' U X IH]; intros y y' Y; [constructor|]. destruct Y as [|v v' y y' W Y]; [constructor|].
  unfold zip2 in *. cbn [combine map fst snd]. constructor; [now apply H | now apply IH].
Qed.
Lemma Forall2_map2 {A B} (P : A -> A -> Prop) (Q : B -> B -> Prop) (f : A -> B) : (forall u v, P u v -> Q (f u) (f v)) -> forall x y, Forall2 P x y -> Forall2 Q (map f x) (map f y).
Proof. intros H x y F. induction F; cbn [map]; constructor; auto. Qed.
Lemma Forall2_firstn' {A} (P : A -> A -> Prop) n x y : Forall2 P x y -> Forall2 P (firstn n x) (firstn n y).
Proof. intros F. revert n. induction F; intros [|n]; cbn [firstn]; constructor; auto. Qed.
Lemma Forall2_skipn' {A} (P : A -> A -> Prop) n x y : Forall2 P x y -> Forall2 P (skipn n x) (skipn n y).
Proof. intros F. revert n. induction F; intros [|n]; cbn [skipn]; try constructor; auto. Qed.
Lemma Forall2_refl' {A} (P : A -> A -> Prop) : (forall u, P u u) -> forall x, Forall2 P x x.
Proof. intros H x. induction x; constructor; auto. Qed.
Lemma same_refl env dir a : same env dir a a. Proof. now split. Qed.
Lemma same_add env dir a a' b b' : same env dir a a' -> same env dir b b' -> same env dir (Add a b) (Add a' b').
Proof. intros [E1 D1] [E2 D2]. split; cbn [ev jvp]; congruence. Qed.
Lemma same_mul env dir a a' b b' : same env dir a a' -> same env dir b b' -> same env dir (Mul a b) (Mul a' b').
Proof. intros [E1 D1] [E2 D2]. split; cbn [ev jvp]; congruence. Qed.
Lemma same_sigmoid env dir a b : same env dir a b -> same env dir (esigmoid a) (esigmoid b).
Proof. intros [E D]. split; [rewrite !ev_sigmoid; congruence|]. rewrite !(proj1 (C104_activations env dir _)). congruence. Qed.
Lemma same_tanh env dir a b : same env dir a b -> same env dir (etanh a) (etanh b).
Proof. intros [E D]. split; [rewrite !ev_tanh; congruence|]. rewrite !(proj1 (proj2 (C104_activations env dir _))). congruence. Qed.
Lemma same_relu env dir a b : same env dir a b -> same env dir (erelu a) (erelu b).
Proof. intros [E D]. split; [rewrite !ev_relu; congruence|]. rewrite !(proj2 (proj2 (C104_activations env dir _))). rewrite E, D. reflexivity. Qed.
Lemma same_esum env dir x y : Forall2 (same env dir) x y -> same env dir (esum x) (esum y).
Proof. intros F. induction F; [apply same_refl|]. now apply same_add. Qed.
Lemma same_matmul env dir n x y w : Forall2 (same env dir) x y -> Forall2 (same env dir) (ematmul n x w) (ematmul n y w).
Proof.
  intros F. unfold ematmul. induction (seq 0 n) as [|j l IH]; [constructor|]. cbn [map]. constructor; [|exact IH].
  apply same_esum. apply (Forall2_zip2 (same env dir) (same env dir)); [intros; now apply same_mul | exact F | apply Forall2_refl', same_refl].
Qed.
Lemma same_affine env dir n w (b : option (list (expr V))) x y : Forall2 (same env dir) x y -> Forall2 (same env dir) (eaffine n w b x) (eaffine n w b y).
Proof.
  intros F. unfold eaffine. destruct b as [b|]; [|now apply same_matmul]. apply (Forall2_zip2 (same env dir) (same env dir)); [intros; now apply same_add | now apply same_matmul | apply Forall2_refl', same_refl].
Qed.
(** A core whose result depends only on values and derivatives of its input and state. *)
Definition respects env dir (core : ecore (V := V)) : Prop := forall x x' s s', Forall2 (same env dir) x x' -> Forall2 (Forall2 (same env dir)) s s' ->
  Forall2 (same env dir) (fst (core x s)) (fst (core x' s')) /\ Forall2 (Forall2 (same env dir)) (snd (core x s)) (snd (core x' s')).
(** A core whose result does not move when its input and state do not. *)
Definition quiet_core env dir (core : ecore (V := V)) : Prop := forall x s, Forall (still env dir) x -> Forall (Forall (still env dir)) s ->
  Forall (still env dir) (fst (core x s)) /\ Forall (Forall (still env dir)) (snd (core x s)).
Lemma vanilla_respects env dir n w_i w_h b_i b_h : respects env dir (vanilla_core n w_i w_h b_i b_h).
Proof.
  intros x x' s s' X S. unfold vanilla_core. destruct S as [|h h' s s' H S]; [split; constructor|]. destruct S; [|split; constructor]. unfold evanilla. cbn [fst snd].
  assert (O : Forall2 (same env dir) (map erelu (zip2 Add (eaffine n w_i (Some b_i) x) (eaffine n w_h b_h h))) (map erelu (zip2 Add (eaffine n w_i (Some b_i) x') (eaffine n w_h b_h h')))).
  { apply (Forall2_map2 (same env dir)); [intros; now apply same_relu|]. apply (Forall2_zip2 (same env dir) (same env dir)); [intros; now apply same_add | now apply same_affine | now apply same_affine]. }
  split; [exact O | constructor; [exact O | constructor]].
Qed.
Lemma lstm_respects env dir n w (b : list (expr V)) : respects env dir (lstm_core n w b).
Proof.
  intros x x' s s' X S. unfold lstm_core. destruct S as [|h h' s s' H S]; [split; constructor|]. destruct S as [|c c' s s' C S]; [split; constructor|]. destruct S; [|split; constructor]. unfold elstm. cbn [fst snd].
  assert (G : Forall2 (same env dir) (elstm_gates n w b x h) (elstm_gates n w b x' h')) by (unfold elstm_gates; apply same_affine, Forall2_app; assumption).
  set (g := elstm_gates n w b x h) in *. set (g' := elstm_gates n w b x' h') in *.
  assert (K : forall j, Forall2 (same env dir) (echunk n j g) (echunk n j g')) by (intros j; unfold echunk; apply Forall2_firstn', Forall2_skipn', G).
  assert (C' : Forall2 (same env dir) (elstm_cell n g c) (elstm_cell n g' c')).
  { unfold elstm_cell. apply (Forall2_zip2 (same env dir) (same env dir)); [intros; now apply same_add | |]; (apply (Forall2_zip2 (same env dir) (same env dir)); [intros; now apply same_mul | |]); try exact C; apply (Forall2_map2 (same env dir)); auto; intros.
    - apply same_sigmoid, same_add; [assumption | apply same_refl].
    - now apply same_sigmoid.
    - now apply same_tanh. }
  assert (O : Forall2 (same env dir) (elstm_hidden n g (elstm_cell n g c)) (elstm_hidden n g' (elstm_cell n g' c'))).
  { unfold elstm_hidden. apply (Forall2_zip2 (same env dir) (same env dir)); [intros; now apply same_mul | |]; apply (Forall2_map2 (same env dir)); auto; intros; [now apply same_sigmoid | now apply same_tanh]. }
  split; [exact O|]. repeat (constructor; auto).
Qed.
Lemma gru_respects env dir n w_i w_h (b : list (expr V)) : respects env dir (gru_core n w_i w_h b).
Proof.
  intros x x' s s' X S. unfold gru_core. destruct S as [|h h' s s' H S]; [split; constructor|]. destruct S; [|split; constructor]. unfold egru. cbn [fst snd].
  assert (A : forall p p' c c', Forall2 (same env dir) p p' -> Forall2 (same env dir) c c' -> Forall2 (same env dir) (zip2 Add p c) (zip2 Add p' c')) by (intros; apply (Forall2_zip2 (same env dir) (same env dir)); auto; intros; now apply same_add).
  assert (M : forall p p' c c', Forall2 (same env dir) p p' -> Forall2 (same env dir) c c' -> Forall2 (same env dir) (zip2 Mul p c) (zip2 Mul p' c')) by (intros; apply (Forall2_zip2 (same env dir) (same env dir)); auto; intros; now apply same_mul).
  pose proof (fun l => Forall2_refl' (same env dir) (same_refl env dir) l) as Rf.
  assert (Z : Forall2 (same env dir) (egru_zr n w_i w_h b x h) (egru_zr n w_i w_h b x' h')).
  { unfold egru_zr. apply (Forall2_map2 (same env dir)); [intros; now apply same_sigmoid|]. apply A; [apply A; [apply Forall2_firstn', same_matmul, X | apply same_matmul, H] | apply Rf]. }
  set (zr := egru_zr n w_i w_h b x h) in *. set (zr' := egru_zr n w_i w_h b x' h') in *.
  assert (Q : Forall2 (same env dir) (egru_a n w_i w_h b x h (skipn n zr)) (egru_a n w_i w_h b x' h' (skipn n zr'))).
  { unfold egru_a. apply (Forall2_map2 (same env dir)); [intros; now apply same_tanh|]. apply A; [apply A; [apply Forall2_skipn', same_matmul, X | apply same_matmul, M; [apply Forall2_skipn', Z | exact H]] | apply Rf]. }
  assert (O : Forall2 (same env dir) (egru_next (firstn n zr) (egru_a n w_i w_h b x h (skipn n zr)) h) (egru_next (firstn n zr') (egru_a n w_i w_h b x' h' (skipn n zr')) h')).
  { unfold egru_next. apply A; [|apply M; [apply Forall2_firstn', Z | exact Q]]. apply (Forall2_zip2 (same env dir) (same env dir)); [|apply Forall2_firstn', Z | exact H].
    intros u u' v v' [U1 U2] W. apply same_mul; [|exact W]. split; cbn [ev jvp]; congruence. }
  split; [exact O | constructor; [exact O | constructor]].
Qed.

Lemma where_false env dir i a : same env dir (ewhere false i a) a. Proof. unfold ewhere. split; reflexivity. Qed.
Lemma where_true env dir i a : same env dir (ewhere true i a) i. Proof. unfold ewhere. split; reflexivity. Qed.
(** States of the same shape. *)
Definition shaped (s i : list (list (expr V))) : Prop := Forall2 (fun s i => length s = length i) s i.
Lemma reset_state env dir s i : shaped s i -> Forall2 (Forall2 (same env dir)) (zip2 (fun s i => zip2 (fun s i => ewhere true i s) s i) s i) i.
Proof.
  intros S. induction S as [|u v s i L S IH]; [constructor|]. unfold zip2 at 1. cbn [combine map fst snd]. constructor; [|exact IH].
  revert v L. induction u as [|a u IHu]; intros [|b v] L; try discriminate L; [constructor|]. unfold zip2. cbn [combine map fst snd]. constructor; [apply where_true | apply IHu; now injection L].
Qed.
Lemma keep_state env dir s i : shaped s i -> Forall2 (Forall2 (same env dir)) (zip2 (fun s i => zip2 (fun s i => ewhere false i s) s i) s i) s.
Proof.
  intros S. induction S as [|u v s i L S IH]; [constructor|]. unfold zip2 at 1. cbn [combine map fst snd]. constructor; [|exact IH].
  revert v L. induction u as [|a u IHu]; intros [|b v] L; try discriminate L; [constructor|]. unfold zip2. cbn [combine map fst snd]. constructor; [apply where_false | apply IHu; now injection L].
Qed.
Lemma same_trans env dir a b c : same env dir a b -> same env dir b c -> same env dir a c. Proof. intros [] []. split; congruence. Qed.
Lemma same_sym env dir a b : same env dir a b -> same env dir b a. Proof. intros []. now split. Qed.
Lemma Forall2_trans' {A} (P : A -> A -> Prop) : (forall u v w, P u v -> P v w -> P u w) -> forall x y z, Forall2 P x y -> Forall2 P y z -> Forall2 P x z.
Proof. intros H x y z X. revert z. induction X; intros z Z; inversion Z; subst; constructor; eauto. Qed.
Lemma Forall2_sym' {A} (P : A -> A -> Prop) : (forall u v, P u v -> P v u) -> forall x y, Forall2 P x y -> Forall2 P y x.
Proof. intros H x y X. induction X; constructor; auto. Qed.
Definition sames env dir := Forall2 (Forall2 (same env dir)).
Lemma sames_refl env dir s : sames env dir s s. Proof. apply Forall2_refl'. intros u. apply Forall2_refl', same_refl. Qed.
Lemma sames_trans env dir s t u : sames env dir s t -> sames env dir t u -> sames env dir s u.
Proof. apply Forall2_trans'. intros x y z. apply Forall2_trans'. intros a b c. apply same_trans. Qed.
Lemma sames_sym env dir s t : sames env dir s t -> sames env dir t s.
Proof. apply Forall2_sym'. intros x y. apply Forall2_sym'. intros a b. apply same_sym. Qed.
Lemma reset_respects env dir core initial flag : respects env dir core -> respects env dir (ereset core initial flag).
Proof.
  intros R0 x x' s s' X S. unfold ereset. apply R0; [exact X|]. apply (Forall2_zip2 (Forall2 (same env dir)) (fun i i' => i = i')); [|exact S | now apply Forall2_refl'].
  intros u u' i i' U <-. apply (Forall2_zip2 (same env dir) (fun i i' => i = i')); [|exact U | now apply Forall2_refl']. intros a a' j j' [E D] <-. unfold ewhere. destruct flag; split; cbn [ev jvp]; congruence.
Qed.
Lemma reset_unroll_respects env dir core initial xs : respects env dir core -> forall s s', sames env dir s s' ->
  sames env dir (fst (ereset_unroll core initial xs s)) (fst (ereset_unroll core initial xs s')) /\ sames env dir (snd (ereset_unroll core initial xs s)) (snd (ereset_unroll core initial xs s')).
Proof.
  intros R0. induction xs as [|[flag x] xs IH]; intros s s' S; [split; [constructor | exact S]|]. cbn [ereset_unroll].
  destruct (reset_respects env dir core initial flag R0 x x s s' (Forall2_refl' _ (same_refl env dir) x) S) as [O N].
  destruct (ereset core initial flag x s) as [y t], (ereset core initial flag x s') as [y' t']. cbn [fst snd] in O, N. specialize (IH t t' N).
  destruct (ereset_unroll core initial xs t) as [ys u], (ereset_unroll core initial xs t') as [ys' u']. cbn [fst snd] in *. split; [constructor; [exact O | apply IH] | apply IH].
Qed.
Lemma shaped_refl s : shaped s s. Proof. now apply Forall2_refl'. Qed.
(** From a reset on, an unroll has the values and derivatives of one that starts from the initial state, whatever came before ... *)
Theorem C104_reset env dir core initial x xs s : respects env dir core -> shaped s initial ->
  sames env dir (fst (ereset_unroll core initial ((true, x) :: xs) s)) (fst (ereset_unroll core initial ((false, x) :: xs) initial)) /\
  sames env dir (snd (ereset_unroll core initial ((true, x) :: xs) s)) (snd (ereset_unroll core initial ((false, x) :: xs) initial)).
Proof.
  intros R0 S. pose proof (shaped_refl initial) as I. cbn [ereset_unroll]. unfold ereset.
  set (s1 := zip2 _ s initial). set (s2 := zip2 _ initial initial).
  assert (E : sames env dir s1 s2) by (eapply sames_trans; [apply reset_state; exact S|]; apply sames_sym, keep_state, I).
  destruct (R0 x x s1 s2 (Forall2_refl' _ (same_refl env dir) x) E) as [O N].
  destruct (core x s1) as [y t], (core x s2) as [y' t']. cbn [fst snd] in O, N. pose proof (reset_unroll_respects env dir core initial xs R0 t t' N) as U.
  destruct (ereset_unroll core initial xs t) as [ys u], (ereset_unroll core initial xs t') as [ys' u']. cbn [fst snd] in *. split; [constructor; [exact O | apply U] | apply U].
Qed.
(** ... and without resets it is the unroll of the core. *)
Theorem C104_no_reset env dir core initial xs : respects env dir core -> (forall x s, shaped s initial -> shaped (snd (core x s)) initial) ->
  forall s, shaped s initial ->
  sames env dir (fst (ereset_unroll core initial (map (fun x => (false, x)) xs) s)) (fst (eunroll core xs s)) /\
  sames env dir (snd (ereset_unroll core initial (map (fun x => (false, x)) xs) s)) (snd (eunroll core xs s)).
Proof.
  intros R0 Sh. induction xs as [|x xs IH]; intros s S; [split; [constructor | apply sames_refl]|]. cbn [map ereset_unroll eunroll]. unfold ereset.
  set (s1 := zip2 _ s initial). assert (E : sames env dir s1 s) by (apply keep_state; exact S).
  destruct (R0 x x s1 s (Forall2_refl' _ (same_refl env dir) x) E) as [O N]. pose proof (Sh x s S) as Ht.
  destruct (core x s1) as [y t], (core x s) as [y' t']. cbn [fst snd] in O, N, Ht. pose proof (reset_unroll_respects env dir core initial (map (fun x => (false, x)) xs) R0 t t' N) as U. specialize (IH t' Ht).
  destruct (ereset_unroll core initial _ t) as [ys u], (ereset_unroll core initial _ t') as [ys' u'], (eunroll core xs t') as [ys'' u'']. cbn [fst snd] in *.
  split; [constructor; [exact O | eapply sames_trans; [apply U | apply IH]] | eapply sames_trans; [apply U | apply IH]].
Qed.
(** No gradient crosses a reset: what is moved only before it moves nothing after it. *)
Theorem C104_reset_blocks env dir core initial x xs s : respects env dir core -> quiet_core env dir core -> shaped s initial ->
  Forall (Forall (still env dir)) initial -> Forall (still env dir) x -> Forall (fun p => Forall (still env dir) (snd p)) xs ->
  Forall (Forall (still env dir)) (fst (ereset_unroll core initial ((true, x) :: xs) s)) /\ Forall (Forall (still env dir)) (snd (ereset_unroll core initial ((true, x) :: xs) s)).
Proof.
  intros R0 Q S Zi Zx Zxs. assert (U : forall xs s, Forall (Forall (still env dir)) s -> Forall (fun p => Forall (still env dir) (snd p)) xs ->
    Forall (Forall (still env dir)) (fst (ereset_unroll core initial xs s)) /\ Forall (Forall (still env dir)) (snd (ereset_unroll core initial xs s))).
  { clear x xs s S Zx Zxs. induction xs as [|[flag x] xs IH]; intros s Zs Zxs; [split; [constructor | exact Zs]|]. apply Forall_cons_iff in Zxs as [Zx Zxs]. cbn [snd] in Zx. cbn [ereset_unroll]. unfold ereset.
    assert (Zr : Forall (Forall (still env dir)) (zip2 (fun s i => zip2 (fun s i => ewhere flag i s) s i) s initial)).
    { apply Forall_forall. intros u Hu. unfold zip2 in Hu at 1. apply in_map_iff in Hu as ([u1 u2] & <- & Hu). cbn [fst snd]. rewrite Forall_forall in Zs, Zi. pose proof (Zs u1 (in_combine_l _ _ _ _ Hu)) as Z1. pose proof (Zi u2 (in_combine_r _ _ _ _ Hu)) as Z2.
      apply Forall_forall. intros a Ha. unfold zip2 in Ha. apply in_map_iff in Ha as ([a1 a2] & <- & Ha). cbn [fst snd]. rewrite Forall_forall in Z1, Z2. unfold still, ewhere. destruct flag; cbn [jvp]; [exact (Z2 a2 (in_combine_r _ _ _ _ Ha)) | exact (Z1 a1 (in_combine_l _ _ _ _ Ha))]. }
    destruct (Q x _ Zx Zr) as [O N]. destruct (core x _) as [y t]. cbn [fst snd] in O, N. specialize (IH t N Zxs). destruct (ereset_unroll core initial xs t) as [ys u]. cbn [fst snd] in *. split; [constructor; [exact O | apply IH] | apply IH]. }
  destruct (C104_reset env dir core initial x xs s R0 S) as [E1 E2].
  destruct (U ((false, x) :: xs) initial Zi) as [U1 U2]; [constructor; assumption|].
  assert (T : forall p q, sames env dir p q -> Forall (Forall (still env dir)) q -> Forall (Forall (still env dir)) p).
  { intros p q E. induction E as [|u v p q F E IH]; intros Z; [constructor|]. apply Forall_cons_iff in Z as [Zv Z]. constructor; [|now apply IH]. clear -F Zv. induction F as [|a b u v [_ D] F IH]; [constructor|]. apply Forall_cons_iff in Zv as [Zb Zv]. constructor; [unfold still in *; congruence | now apply IH]. }
  split; [exact (T _ _ E1 U1) | exact (T _ _ E2 U2)].
Qed.

(** The cells are such cores. *)
Lemma Forall_zip2 {A B C} (P : A -> Prop) (Q : B -> Prop) (T : C -> Prop) (f : A -> B -> C) : (forall u v, P u -> Q v -> T (f u v)) -> forall x y, Forall P x -> Forall Q y -> Forall T (zip2 f x y).
Proof.
  intros H x y X Y. apply Forall_forall. intros c Hc. unfold zip2 in Hc. apply in_map_iff in Hc as ([u v] & <- & Hc). rewrite Forall_forall in X, Y. apply H; [apply X; now apply in_combine_l in Hc | apply Y; now apply in_combine_r in Hc].
Qed.
Lemma still_add env dir a b : still env dir a -> still env dir b -> still env dir (Add a b). Proof. unfold still. cbn [jvp]. intros -> ->. ring. Qed.
Lemma still_mul env dir a b : still env dir a -> still env dir b -> still env dir (Mul a b). Proof. unfold still. cbn [jvp]. intros -> ->. ring. Qed.
Lemma still_activations env dir a : still env dir a -> still env dir (esigmoid a) /\ still env dir (etanh a) /\ still env dir (erelu a).
Proof. unfold still. intros E. destruct (C104_activations env dir a) as (-> & -> & ->). rewrite E. split; [|split]; ring. Qed.
Lemma still_nth env dir (r : list (expr V)) j : Forall (still env dir) r -> still env dir (nth j r (Const 0)).
Proof. intros F. destruct (nth_in_or_default j r (Const 0)) as [I | ->]; [|reflexivity]. rewrite Forall_forall in F. now apply F. Qed.
Lemma still_matmul env dir n x w : Forall (still env dir) x -> Forall (Forall (still env dir)) w -> Forall (still env dir) (ematmul n x w).
Proof.
  intros X W. unfold ematmul. apply Forall_map, Forall_forall. intros j _. assert (F : Forall (still env dir) (zip2 Mul x (ecolumn j w))).
  { apply (Forall_zip2 (still env dir) (still env dir)); [intros; now apply still_mul | exact X|]. unfold ecolumn. apply Forall_map. eapply Forall_impl; [|exact W]. intros r Hr. now apply still_nth. }
  induction F as [|u l U F IH]; [reflexivity|]. now apply still_add.
Qed.
Lemma still_affine env dir n w (bias : option (list (expr V))) x : Forall (Forall (still env dir)) w -> (forall c, bias = Some c -> Forall (still env dir) c) -> Forall (still env dir) x -> Forall (still env dir) (eaffine n w bias x).
Proof.
  intros W B X. unfold eaffine. destruct bias as [c|]; [|now apply still_matmul]. apply (Forall_zip2 (still env dir) (still env dir)); [intros; now apply still_add | now apply still_matmul | now apply B].
Qed.
Lemma still_cut env dir n (l : list (expr V)) : Forall (still env dir) l -> Forall (still env dir) (firstn n l) /\ Forall (still env dir) (skipn n l).
Proof. intros F. rewrite <- (firstn_skipn n l) in F. now apply Forall_app in F. Qed.
(** [VanillaRNN], [LSTM] and [GRU] use nothing but the values and derivatives of their inputs, states and parameters. *)
Theorem C104_cores env dir n w w_h (b : list (expr V)) b_h :
  (respects env dir (vanilla_core n w w_h b b_h) /\ respects env dir (lstm_core n w b) /\ respects env dir (gru_core n w w_h b)) /\
  (Forall (Forall (still env dir)) w -> Forall (Forall (still env dir)) w_h -> Forall (still env dir) b -> (forall c, b_h = Some c -> Forall (still env dir) c) ->
   quiet_core env dir (vanilla_core n w w_h b b_h) /\ quiet_core env dir (lstm_core n w b) /\ quiet_core env dir (gru_core n w w_h b)).
Proof.
  split; [split; [apply vanilla_respects | split; [apply lstm_respects | apply gru_respects]]|]. intros W Wh B Bh.
  assert (A : forall p q, Forall (still env dir) p -> Forall (still env dir) q -> Forall (still env dir) (zip2 Add p q)) by (intros p q; apply (Forall_zip2 (still env dir) (still env dir)); intros; now apply still_add).
  assert (M : forall p q, Forall (still env dir) p -> Forall (still env dir) q -> Forall (still env dir) (zip2 Mul p q)) by (intros p q; apply (Forall_zip2 (still env dir) (still env dir)); intros; now apply still_mul).
  assert (Sg : forall p, Forall (still env dir) p -> Forall (still env dir) (map esigmoid p)) by (intros p F; apply Forall_map; eapply Forall_impl; [|exact F]; intros; now apply still_activations).
  assert (Th : forall p, Forall (still env dir) p -> Forall (still env dir) (map etanh p)) by (intros p F; apply Forall_map; eapply Forall_impl; [|exact F]; intros; now apply still_activations).
  split; [|split].
  - intros x s X S. unfold vanilla_core. destruct s as [|h [|? ?]]; try (split; constructor). apply Forall_cons_iff in S as [H _]. unfold evanilla. cbn [fst snd].
    assert (O : Forall (still env dir) (map erelu (zip2 Add (eaffine n w (Some b) x) (eaffine n w_h b_h h)))).
    { apply Forall_map. apply (Forall_impl (P := still env dir)); [intros a Ha; exact (proj2 (proj2 (still_activations env dir a Ha)))|]. apply A; apply still_affine; auto. intros c0 E. now injection E as <-. }
    split; [exact O | now repeat constructor].
  - intros x s X S. unfold lstm_core. destruct s as [|h [|c [|? ?]]]; try (split; constructor). apply Forall_cons_iff in S as [H S]. apply Forall_cons_iff in S as [C _]. unfold elstm. cbn [fst snd].
    assert (G : Forall (still env dir) (elstm_gates n w b x h)) by (unfold elstm_gates; apply still_affine; [exact W | intros c0 E; now injection E as <- | now apply Forall_app]). set (g := elstm_gates n w b x h) in *.
    assert (K : forall j, Forall (still env dir) (echunk n j g)) by (intros j; unfold echunk; now apply still_cut, still_cut).
    assert (C' : Forall (still env dir) (elstm_cell n g c)).
    { unfold elstm_cell. apply A; apply M; auto. apply Forall_map. eapply Forall_impl; [|apply K]. intros a Ha. apply still_activations, still_add; [exact Ha | reflexivity]. }
    assert (O : Forall (still env dir) (elstm_hidden n g (elstm_cell n g c))) by (unfold elstm_hidden; auto).
    split; [exact O | constructor; [exact O | constructor; [exact C' | constructor]]].
  - intros x s X S. unfold gru_core. destruct s as [|h [|? ?]]; try (split; constructor). apply Forall_cons_iff in S as [H _]. unfold egru. cbn [fst snd].
    assert (W1 : Forall (Forall (still env dir)) (map (firstn (2 * n)) w_h)) by (apply Forall_map; eapply Forall_impl; [|exact Wh]; intros r Hr; now apply still_cut).
    assert (W2 : Forall (Forall (still env dir)) (map (skipn (2 * n)) w_h)) by (apply Forall_map; eapply Forall_impl; [|exact Wh]; intros r Hr; now apply still_cut).
    assert (X3 : Forall (still env dir) (ematmul (3 * n) x w)) by now apply still_matmul.
    assert (Z : Forall (still env dir) (egru_zr n w w_h b x h)) by (unfold egru_zr; apply Sg, A; [apply A; [now apply still_cut | now apply still_matmul] | now apply still_cut]). set (zr := egru_zr n w w_h b x h) in *.
    assert (Z1 : Forall (still env dir) (firstn n zr)) by now apply still_cut. assert (Z2 : Forall (still env dir) (skipn n zr)) by now apply still_cut.
    assert (Q : Forall (still env dir) (egru_a n w w_h b x h (skipn n zr))).
    { unfold egru_a. apply Th, A; [apply A; [now apply still_cut | apply still_matmul; [now apply M | exact W2]] | now apply still_cut]. }
    assert (O : Forall (still env dir) (egru_next (firstn n zr) (egru_a n w w_h b x h (skipn n zr)) h)).
    { unfold egru_next. apply A; [|now apply M]. apply (Forall_zip2 (still env dir) (still env dir)); [|exact Z1 | exact H]. intros u v U W0. apply still_mul; [|exact W0]. unfold still in *. cbn [jvp]. rewrite U. ring. }
    split; [exact O | constructor; [exact O | constructor]].
Qed.
End Cells.
Print Assumptions C104_lstm.
Print Assumptions C104_lstm_memory.
Print Assumptions C104_gru.
Print Assumptions C104_reset.
Print Assumptions C104_no_reset.
Print Assumptions C104_reset_blocks.
Print Assumptions C104_cores.

(** A vanilla network with weight 1 that counts: the state [Var 0] reaches every output, until a reset. *)
Example C104_reset_case : let core := vanilla_core 1 [[Const 1]] [[Const 1]] [Const 0] None in let env (v : nat) := 5 in let dir (v : nat) := 1 in
  let run xs := fst (ereset_unroll core [[Const 2]] xs [[Var 0%nat]]) in
  map (map (ev env)) (run [(false, [Const 1]); (false, [Const 1])]) = [[6]; [7]] /\
  map (map (jvp env dir)) (run [(false, [Const 1]); (false, [Const 1])]) = [[1]; [1]] /\
  map (map (ev env)) (run [(false, [Const 1]); (true, [Const 1])]) = [[6]; [3]] /\
  map (map (jvp env dir)) (run [(false, [Const 1]); (true, [Const 1])]) = [[1]; [0]].
Proof.
  cbv zeta. unfold ereset_unroll, ereset, vanilla_core, evanilla, eaffine, ematmul, ecolumn, zip2, ewhere, erelu, positive. cbn [map seq combine nth fst snd esum fold_right ev jvp].
  repeat (match goal with |- context [Rlt_dec 0 ?a] => let H := fresh in destruct (Rlt_dec 0 a) as [H|H]; [|exfalso; apply H; lra] end; cbn [ev jvp]).
  split; [|split; [|split]]; repeat (apply f_equal2; [apply f_equal2; [lra | reflexivity]|]); reflexivity.
Qed.
(** One unit of an LSTM: with all gates at 0, its memory passes on [sigmoid 1] of a change, and its output half of what the memory's [tanh] does. *)
Example C104_lstm_case : let g := [Const 0; Const 0; Const 0; Const 0] in
  jvp (fun _ : unit => 0) (fun _ => 1) (nth 0 (elstm_cell 1 g [Var tt]) (Const 0)) = sigmoid (0 + 1) /\
  jvp (fun _ : unit => 0) (fun _ => 1) (nth 0 (elstm_hidden 1 g (elstm_cell 1 g [Var tt])) (Const 0)) = / 2 * sigmoid (0 + 1).
Proof.
  cbv zeta. destruct (C104_lstm (fun _ : unit => 0) (fun _ => 1) 1 [Const 0; Const 0; Const 0; Const 0] [Var tt] 0 eq_refl eq_refl ltac:(lia)) as (E & D & H). cbv zeta in E, D, H. cbn [nth Nat.mul Nat.add ev jvp] in *.
  assert (D' : jvp (fun _ : unit => 0) (fun _ => 1) (nth 0 (elstm_cell 1 [Const 0; Const 0; Const 0; Const 0] [Var tt]) (Const 0)) = sigmoid (0 + 1)) by (etransitivity; [exact D | ring]).
  split; [exact D'|]. etransitivity; [exact H|]. rewrite D', E.
  assert (T : tanh 0 = 0) by (unfold tanh; replace (- 0) with 0 by ring; rewrite exp_0; field). assert (G : sigmoid 0 = / 2) by (unfold sigmoid; replace (- 0) with 0 by ring; rewrite exp_0; field).
  rewrite T, G. replace (sigmoid (0 + 1) * 0 + / 2 * 0) with 0 by ring. rewrite T. ring.
Qed.

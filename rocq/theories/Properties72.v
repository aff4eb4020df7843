(** C100, part 5: consequences for unrolls, networks and names. *)
From Coq Require Import String Ascii NArith ZArith List Bool Lia.
From Verif Require Import ModelStr ModelUtils ModelShape ModelPool ModelImageNets ModelConv ProofsStr ProofsShape Properties32 ModelFormat ModelCheckpoints Properties68 Properties69 Properties70.
Import ListNotations.
Local Open Scope string_scope.
Local Open Scope Z_scope.

(** ** Programs that raise *)
Definition doomed {A} (p : prog A) : Prop := forall fr w, run fr p w = None.
Lemma doomed_first {A B} (p : prog A) (f : A -> prog B) : doomed p -> doomed (bind p f).
Proof. intros H fr w. rewrite run_bind, H. reflexivity. Qed.
Lemma doomed_later {A B} (p : prog A) (f : A -> prog B) : (forall a, doomed (f a)) -> doomed (bind p f).
Proof. intros H fr w. rewrite run_bind. destruct (run fr p w) as [[a w']|]; [apply H | reflexivity]. Qed.
Lemma doomed_within {A} m t (p : prog A) : doomed p -> doomed (within m t p).
Proof. intros H fr w. exact (doomed_first p _ H fr _). Qed.
Lemma doomed_construct {A} cls name (p : prog A) : doomed p -> doomed (construct cls name p).
Proof.
  intros H fr w. unfold construct. destruct (valid_identifier _); [|reflexivity]. cbn. destruct (w_stack w) as [|sc rest]; [reflexivity|].
  destruct (unique_name sc _) as [[q sc']|]; [|reflexivity]. apply doomed_first. exact (doomed_first p _ H).
Qed.
Lemma doomed_each {A B} (f : A -> prog B) l a : In a l -> doomed (f a) -> doomed (each f l).
Proof.
  intros I H. induction l as [|b l IH]; [contradiction|]. cbn. destruct I as [->|I]; [apply doomed_first, H|]. apply doomed_later. intros x. apply doomed_first, IH, I.
Qed.
(** A bottleneck of version 1 cannot be built with [create_scale=False] in its [bn_config]: it hands an initializer to a normalisation without a scale. *)
Theorem C100_no_scale_refuted offset cls c classes name mode x : rn_bottleneck c = true -> (exists b, In b (rn_blocks c) /\ b <> 0%nat) ->
  init (use (r <- resnet false offset cls c false classes name ;; training r mode) x) = None.
Proof.
  intros BT (b & Ib & Nb). assert (D : doomed (resnet false offset cls c false classes name)).
  { unfold resnet. destruct (rn_blocks c) as [|b0 [|b1 [|b2 [|b3 [|]]]]]; try (intros ? ?; reflexivity).
    destruct (rn_channels c) as [|c0 [|c1 [|c2 [|c3 [|]]]]]; try (intros ? ?; reflexivity). destruct (rn_projection c) as [|p0 [|p1 [|p2 [|p3 ps]]]]; try (intros ? ?; reflexivity).
    apply doomed_first, doomed_construct, doomed_later. intros ic. apply doomed_later. intros first. apply doomed_first.
    assert (G : forall i ch s p, doomed (block_group false offset false ch b s (rn_bottleneck c) p ("block_group_" ++ str_of_nat i))).
    { intros i ch s p. rewrite BT. unfold block_group. apply doomed_first, doomed_construct. destruct b as [|b]; [contradiction|].
      apply (doomed_each _ _ 0%nat); [left; reflexivity|]. unfold block_v1. apply doomed_first, doomed_construct, doomed_later. intros proj. apply doomed_first.
      unfold block_convs. apply (doomed_each _ _ (2%nat, (ch, 1, 1))); [right; right; left; reflexivity|]. apply doomed_later. intros cv. apply doomed_first.
      unfold net_bn, batch_norm. apply doomed_first, doomed_construct. intros ? ?. reflexivity. }
    destruct Ib as [<-|[<-|[<-|[<-|[]]]]].
    - apply (doomed_each _ _ (0%nat, c0, b0, 1, p0)); [cbn; tauto | apply G].
    - apply (doomed_each _ _ (1%nat, c1, b1, 2, p1)); [cbn; tauto | apply G].
    - apply (doomed_each _ _ (2%nat, c2, b2, 2, p2)); [cbn; tauto | apply G].
    - apply (doomed_each _ _ (3%nat, c3, b3, 2, p3)); [cbn; tauto | apply G]. }
  unfold init, use. rewrite (doomed_first _ _ (doomed_first _ _ D)). reflexivity.
Qed.
Print Assumptions C100_no_scale_refuted.
(** Version 2, and version 1 without bottlenecks, can. *)
Example C100_no_scale_case :
  let small_net := ResNetConfig [1; 1; 1; 1]%nat true [8; 8; 8; 8] [true; true; true; true] in
  let net b v2 := init (use (r <- resnet false true "ResNet" (ResNetConfig [1; 1; 1; 1]%nat b [8; 8; 8; 8] [true; true; true; true]) v2 2 None ;; training r (true, false)) (f32 [1; 8; 8; 3])) in
  net true false = None /\ net true true <> None /\ net false false <> None.
Proof. vm_compute. repeat split; discriminate. Qed.

(** ** Unrolls *)
(** A step that leaves the module stack and the state of the transformed function as it found them. *)
Definition calm {A} (p : prog A) : Prop := forall fr w a w', run fr p w = Some (a, w') -> w_stack w' = w_stack w /\ w_state w' = w_state w.
(** Below the top entry of the stack nothing changes, and the state does not. *)
Definition quiet {A} (p : prog A) : Prop := forall fr w a w', run fr p w = Some (a, w') -> w_stack w <> [] ->
  w_stack w' <> [] /\ tl (w_stack w') = tl (w_stack w) /\ w_state w' = w_state w.
Lemma quiet_ret {A} (a : A) : quiet (Ret a).
Proof. intros fr w b w' E N. injection E as <- <-. auto. Qed.
Lemma quiet_raise {A} : quiet (@Raise A).
Proof. intros fr w b w' E. discriminate E. Qed.
Lemma quiet_bind {A B} (p : prog A) (f : A -> prog B) : quiet p -> (forall a, quiet (f a)) -> quiet (bind p f).
Proof.
  intros P F fr w b w' E N. rewrite run_bind in E. destruct (run fr p w) as [[a w1]|] eqn:E1; [|discriminate].
  destruct (P _ _ _ _ E1 N) as (N1 & T1 & S1). destruct (F a _ _ _ _ E N1) as (N2 & T2 & S2). split; [exact N2|]. split; congruence.
Qed.
Lemma calm_within {A} m t (p : prog A) : quiet p -> calm (within m t p).
Proof.
  intros P fr w a w' E. unfold within in E. cbn [run] in E. rewrite run_bind in E. destruct (run fr p _) as [[b w1]|] eqn:E1; [|discriminate].
  destruct (P _ _ _ _ E1 ltac:(discriminate)) as (N1 & T1 & S1). cbn in E, T1, S1. destruct (w_stack w1) as [|sc rest]; [contradiction|]. cbn in T1. subst rest.
  destruct (w_stack w) as [|sc' rest] eqn:ST; [discriminate|]. injection E as <- <-. split; [reflexivity | exact S1].
Qed.
Lemma calm_quiet {A} (p : prog A) : calm p -> quiet p.
Proof. intros P fr w a w' E N. destruct (P _ _ _ _ E) as [-> ->]. auto. Qed.
Lemma quiet_param n a : quiet (param n a).
Proof.
  intros fr w b w' E N. unfold param in E. cbn in E. destruct (fetch _ _) as [a'|].
  - destruct (shape_eqb _ _); [|discriminate]. injection E as <- <-. auto.
  - destruct fr; [discriminate|]. injection E as <- <-. auto.
Qed.
Lemma quiet_check b : quiet (check b).
Proof. destruct b; [apply quiet_ret | apply quiet_raise]. Qed.
Lemma quiet_lift {A} (o : option A) : quiet (lift o).
Proof. destruct o; [apply quiet_ret | apply quiet_raise]. Qed.
Lemma quiet_when b p : quiet p -> quiet (when b p).
Proof. destruct b; [auto | intros _; apply quiet_ret]. Qed.
Lemma quiet_construct {A} cls name (p : prog A) : quiet p -> quiet (construct cls name p).
Proof.
  intros P fr w b w' E N. unfold construct in E. destruct (valid_identifier _); [|discriminate]. cbn [run] in E. destruct (w_stack w) as [|sc rest] eqn:ST; [discriminate|].
  destruct (unique_name sc _) as [[q sc']|]; [|discriminate]. rewrite run_bind in E. destruct (run fr (within _ _ p) _) as [[a w1]|] eqn:E1; [|discriminate].
  destruct (calm_within _ _ _ P _ _ _ _ E1) as [S1 S2]. cbn in S1, S2. injection E as <- <-. rewrite S1, S2. split; [discriminate|]. auto.
Qed.
Definition tame (f : layer) : Prop := forall x, calm (f x).
Lemma quiet_each {A B} (f : A -> prog B) l : (forall a, quiet (f a)) -> quiet (each f l).
Proof. intros H. induction l as [|a l IH]; cbn; [apply quiet_ret|]. apply quiet_bind; [apply H|]. intros b. apply quiet_bind; [exact IH|]. intros r. apply quiet_ret. Qed.
Ltac quiets := repeat first [apply quiet_bind; [|intros ?] | apply quiet_ret | apply quiet_raise | apply quiet_param | apply quiet_check | apply quiet_lift | apply quiet_when].
(** A module whose constructor and call are quiet: constructing it is quiet and so is using what it makes. *)
Lemma quiet_module {A X Y C} cls name ctor (call : A -> X -> prog Y) (k : (X -> prog Y) -> prog C) : quiet ctor -> (forall a x, quiet (call a x)) ->
  (forall f, (forall x, calm (f x)) -> quiet (k f)) -> quiet (f <- module cls name ctor call ;; k f).
Proof.
  intros H L K. unfold module. intros fr w b w' E N. rewrite !run_bind in E. destruct (run fr (construct cls name ctor) w) as [[[q a] w1]|] eqn:E1; [|discriminate].
  destruct (quiet_construct _ _ _ H _ _ _ _ E1 N) as (N1 & T1 & S1). cbn [run] in E.
  destruct (K (fun x => within q "__call__" (call a x)) (fun x => calm_within _ _ _ (L a x)) _ _ _ _ E N1) as (N2 & T2 & S2). split; [exact N2|]. split; congruence.
Qed.
Lemma quiet_linear {C} out bias name (k : layer -> prog C) : (forall f, tame f -> quiet (k f)) -> quiet (f <- linear out bias name ;; k f).
Proof.
  intros K. apply quiet_module; [apply quiet_ret | | exact K]. intros [] [t s]. destruct (rev s); [apply quiet_raise|]. quiets.
Qed.
Lemma quiet_conv {C} cls c bias name (k : layer -> prog C) : (forall f, tame f -> quiet (k f)) -> quiet (f <- conv cls c bias name ;; k f).
Proof.
  intros K. apply quiet_module; [apply quiet_check | | exact K]. intros [] [t s]. apply quiet_bind; [apply quiet_lift|]. intros [[w b] o]. quiets.
Qed.
Lemma quiet_tame {C} (f : layer) x (k : array -> prog C) : tame f -> (forall y, quiet (k y)) -> quiet (y <- f x ;; k y).
Proof. intros T K. apply quiet_bind; [apply calm_quiet, T | exact K]. Qed.
Lemma quiet_broadcast a b : quiet (broadcast a b).
Proof. unfold broadcast. quiets. Qed.
Lemma quiet_concat a b : quiet (concat_last a b).
Proof. unfold concat_last. destruct (rev (snd a)), (rev (snd b)); quiets. Qed.

(** A second step with the same input and state makes nothing new. *)
Lemma step_again {A} (p : prog A) w a w' : calm p -> keys_ok w -> run false p w = Some (a, w') -> run false p w' = Some (a, w') /\ keys_ok w'.
Proof.
  intros C K E. destruct (run_grows _ _ _ _ _ E K) as [G K']. split; [|exact K']. destruct (C _ _ _ _ E) as [ST SS].
  destruct (run_again false p w a w' E K (w_params w')) as [R _].
  - intros k v F. exists v. split; [exact (gr_params _ _ G _ _ F) | reflexivity].
  - assert (H : holds (w_params w') (w_params w')) by (intros k v F; eauto). specialize (R H). rewrite SS, <- ST in R. rewrite overlay_self in R by (rewrite <- SS; apply K'). rewrite <- SS in R.
    destruct w' as [P S T]. exact R.
Qed.
(** Whatever the number of steps: a core whose step keeps the types and shapes of its state has the same parameters and the same state when it is unrolled statically over one
    or more steps and dynamically over any number of them, and raises in the one case if it raises in the other; statically over no steps it raises. *)
Theorem C100_unroll c x s w : calm (step c x s) -> keys_ok w -> (forall fr w y s' w', run fr (step c x s) w = Some ((y, s'), w') -> s' = s) ->
  forall n m, option_map snd (run false (static_unroll c (S n) x s) w) = option_map snd (run false (dynamic_unroll c m x s) w) /\
    run false (static_unroll c 0 x s) w = None.
Proof.
  intros C K S n m. split; [|reflexivity]. unfold dynamic_unroll. rewrite run_bind. unfold static_unroll. rewrite run_bind.
  assert (H : run false (static_steps c (Datatypes.S n) x s) w = match run false (step c x s) w with Some ((y, s'), w') => Some ((repeat y (Datatypes.S n), s'), w') | None => None end).
  { destruct (run false (step c x s) w) as [[[y s'] w']|] eqn:E.
    - pose proof (S _ _ _ _ _ E) as ->. destruct (step_again _ _ _ _ C K E) as [R K'].
      assert (I : forall n, run false (static_steps c n x s) w' = Some ((repeat y n, s), w')).
      { induction n0 as [|k IH]; [reflexivity|]. cbn [static_steps]. rewrite run_bind, R, run_bind, IH. reflexivity. }
      cbn [static_steps]. rewrite run_bind, E, run_bind, I. reflexivity.
    - cbn [static_steps]. rewrite run_bind, E. reflexivity. }
  rewrite H. destruct (run false (step c x s) w) as [[[y s'] w']|] eqn:E; [|reflexivity]. pose proof (S _ _ _ _ _ E) as ->.
  cbn [repeat]. rewrite !run_bind, arrays_eqb_refl. replace (forallb (fun z => shape_eqb (snd y) (snd z)) (repeat y n)) with true; [reflexivity|].
  symmetry. apply forallb_forall. intros z I. apply repeat_spec in I. subst z. apply shape_eqb_eq. reflexivity.
Qed.
Print Assumptions C100_unroll.

(** The cores of Haiku, on batches of any size. *)
Lemma makes_run {A} (P : A -> Prop) p fr w a w' : makes P p -> run fr p w = Some (a, w') -> P a.
Proof. intros H E. destruct (alike_run _ _ _ H _ _ _ _ E) as (b & _ & _ & Pa). exact Pa. Qed.
Definition still (c : core) : Prop := forall x u, calm (step c x u).
Lemma vanilla_still hidden db name : makes still (vanilla_rnn hidden db name).
Proof.
  unfold vanilla_rnn. apply (makes_bind (fun _ => True)); [apply makes_any|]. intros [q []] _. apply makes_ret. intros x u. apply calm_within.
  destruct u as [|h [|]]; try apply quiet_raise. apply quiet_linear. intros f F. apply quiet_linear. intros g G. apply quiet_tame; [exact F|]. intros a. apply quiet_tame; [exact G|]. intros b.
  apply quiet_bind; [apply quiet_broadcast|]. intros o. apply quiet_ret.
Qed.
Lemma lstm_still hidden name : makes still (lstm hidden name).
Proof.
  unfold lstm. apply (makes_bind (fun _ => True)); [apply makes_any|]. intros [q []] _. apply makes_ret. intros x u. apply calm_within.
  destruct u as [|h [|c [|]]]; try apply quiet_raise. apply quiet_bind; [apply quiet_check|]. intros _. apply quiet_bind; [apply quiet_concat|]. intros xh.
  apply quiet_linear. intros f F. apply quiet_tame; [exact F|]. intros g. cbv zeta. apply quiet_bind; [apply quiet_broadcast|]. intros c'. apply quiet_bind; [apply quiet_broadcast|]. intros h'. apply quiet_ret.
Qed.
Lemma gru_still hidden name : makes still (gru hidden name).
Proof.
  unfold gru. apply (makes_bind (fun _ => True)); [apply makes_any|]. intros [q []] _. apply makes_ret. intros x u. apply calm_within.
  destruct u as [|h [|]]; try apply quiet_raise. destruct (rev (snd x)) as [|d s]; [apply quiet_raise|]. quiets; apply quiet_broadcast.
Qed.
Lemma identity_still name : makes still (identity_core name).
Proof. unfold identity_core. apply (makes_bind (fun _ => True)); [apply makes_any|]. intros [q []] _. apply makes_ret. intros x u. apply calm_within, quiet_ret. Qed.
Lemma conv_lstm_still cls n sh out k name : makes still (conv_lstm cls n sh out k name).
Proof.
  unfold conv_lstm. apply (makes_bind (fun _ => True)); [apply makes_any|]. intros [q []] _. apply makes_ret. intros x u. apply calm_within.
  destruct u as [|h [|c [|]]]; try apply quiet_raise. apply quiet_conv. intros f F. apply quiet_conv. intros g G. apply quiet_tame; [exact F|]. intros a. apply quiet_tame; [exact G|]. intros b.
  apply quiet_bind; [apply quiet_broadcast|]. intros gates. cbv zeta. apply quiet_bind; [apply quiet_broadcast|]. intros c'. apply quiet_bind; [apply quiet_broadcast|]. intros h'. apply quiet_ret.
Qed.
Inductive haiku_core : list Z -> prog core -> Prop :=
| hc_vanilla n hidden db name : haiku_core [n] (vanilla_rnn hidden db name)
| hc_lstm n hidden name : haiku_core [n] (lstm hidden name)
| hc_gru n hidden name : haiku_core [n] (gru hidden name)
| hc_identity s name : haiku_core s (identity_core name)
| hc_conv cls n name : (n = 1 \/ n = 2 \/ n = 3)%nat -> haiku_core (repeat 2 n ++ [2])%list (conv_lstm cls n (repeat 2 n) 3 (repeat 3 n) name).
Definition unrolled (p : prog core) (u : unroller) (n : nat) (t : dtype) (x : list Z) (b : Z) : prog (array * list array) :=
  c <- p ;; u c n (t, b :: x) (states c t b).
Theorem C100_unroll_cores s p : haiku_core s p -> forall t b n m, init (unrolled p static_unroll (S n) t s b) = init (unrolled p dynamic_unroll m t s b).
Proof.
  intros H t b n m. assert (L : makes (core_ok s) p /\ makes still p).
  { destruct H; (split; [first [apply vanilla_good | apply lstm_good | apply gru_good | apply identity_good | apply conv_lstm_good; assumption] |
      first [apply vanilla_still | apply lstm_still | apply gru_still | apply identity_still | apply conv_lstm_still]]). }
  destruct L as [OK ST]. unfold init, unrolled. rewrite !run_bind. destruct (run false p (start [] [])) as [[c w]|] eqn:E; [|reflexivity].
  pose proof (makes_run _ _ _ _ _ _ OK E) as Oc. pose proof (makes_run _ _ _ _ _ _ ST E) as Sc. destruct (run_grows _ _ _ _ _ E start_ok) as [_ K].
  destruct (C100_unroll c (t, b :: s) (states c t b) w (Sc _ _) K) with (n := n) (m := m) as [U _].
  { intros fr w0 y s' w' R. destruct (alike_run _ _ _ (Oc t b b) _ _ _ _ R) as ([y' s''] & R' & E'). rewrite R in R'. injection R' as _ <-. exact E'. }
  destruct (run false (static_unroll c (S n) _ _) w) as [[r w1]|], (run false (dynamic_unroll c m _ _) w) as [[r' w2]|]; cbn in U; try discriminate; [injection U as ->|]; reflexivity.
Qed.
Print Assumptions C100_unroll_cores.
Example C100_unroll_case :
  init (unrolled (lstm 5 None) static_unroll 7 Float32 [3] 2) = Some ([(("lstm/linear", "w"), f32 [8; 20]); (("lstm/linear", "b"), f32 [20])], []) /\
  init (unrolled (lstm 5 None) dynamic_unroll 0 Float32 [3] 2) = Some ([(("lstm/linear", "w"), f32 [8; 20]); (("lstm/linear", "b"), f32 [20])], []) /\
  init (unrolled (lstm 5 None) static_unroll 0 Float32 [3] 2) = None.
Proof. vm_compute. auto. Qed.

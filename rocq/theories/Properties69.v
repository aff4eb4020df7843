(** C100, part 2: the files integration/checkpoints/*.json for every batch and image size. *)
From Coq Require Import String Ascii NArith ZArith List Bool Lia.
From Verif Require Import ModelStr ModelUtils ModelShape ModelPool ModelImageNets ModelConv ProofsShape Properties09 Properties11 Properties32 ModelFormat ModelCheckpoints Properties68.
Import ListNotations.
Local Open Scope string_scope.
Local Open Scope Z_scope.

(** ** Programs that ask for the same things *)
(** [alike R p q]: where [p] does not raise, [q] does not either and makes the same requests; the results are related by [R]. *)
Inductive alike {A B} (R : A -> B -> Prop) : prog A -> prog B -> Prop :=
| al_ret a b : R a b -> alike R (Ret a) (Ret b)
| al_raise q : alike R Raise q
| al_param n a k k' : alike R k k' -> alike R (Param n a k) (Param n a k')
| al_get n i k k' : (forall v, alike R (k v) (k' v)) -> alike R (GetState n i k) (GetState n i k')
| al_set n a k k' : alike R k k' -> alike R (SetState n a k) (SetState n a k')
| al_name n k k' : (forall q, alike R (k q) (k' q)) -> alike R (Name n k) (Name n k')
| al_enter m t k k' : alike R k k' -> alike R (Enter m t k) (Enter m t k')
| al_leave k k' : alike R k k' -> alike R (Leave k) (Leave k').
Lemma alike_run {A B} (R : A -> B -> Prop) p q : alike R p q -> forall fr w a w', run fr p w = Some (a, w') -> exists b, run fr q w = Some (b, w') /\ R a b.
Proof.
  induction 1 as [a b Rab | q | n b k k' H IH | n i k k' H IH | n b k k' H IH | n k k' H IH | m t k k' H IH | k k' H IH]; cbn; intros fr w a0 w' E; try discriminate.
  - injection E as <- <-. eauto.
  - destruct (fetch (bundle w, n) (w_params w)) as [a'|]; [destruct (shape_eqb (snd a') (snd b)); [eauto | discriminate] | destruct fr; [discriminate | eauto]].
  - destruct (fetch (bundle w, n) (w_state w)) as [[j v]|]; [eauto | destruct i; [eauto | discriminate]].
  - eauto.
  - destruct (w_stack w) as [|sc rest]; [discriminate|]. destruct (unique_name sc n) as [[q sc']|]; [eauto | discriminate].
  - eauto.
  - destruct (w_stack w) as [|sc [|sc' rest]]; [discriminate..|]. eauto.
Qed.

(** C100: two programs that make the same requests have the same checkpoints. *)
Theorem C100_same_format {A B} (R : A -> B -> Prop) p q params state : alike R p q -> init p = Some (params, state) -> init q = Some (params, state).
Proof.
  unfold init. intros L. destruct (run false p (start [] [])) as [[a w]|] eqn:E; [|discriminate].
  destruct (alike_run R p q L _ _ _ _ E) as (b & -> & _). auto.
Qed.
Print Assumptions C100_same_format.

Lemma alike_refl {A} (p : prog A) : alike eq p p.
Proof. induction p; constructor; auto. Qed.
Lemma alike_mono {A B} (R S : A -> B -> Prop) p q : (forall a b, R a b -> S a b) -> alike R p q -> alike S p q.
Proof. intros H. induction 1; constructor; auto. Qed.
Lemma alike_bind {A B C D} (R : A -> B -> Prop) (S : C -> D -> Prop) p q f g : alike R p q -> (forall a b, R a b -> alike S (f a) (g b)) -> alike S (bind p f) (bind q g).
Proof. induction 1; cbn; intros H'; try constructor; auto. Qed.
Lemma alike_same {A C D} (S : C -> D -> Prop) (p : prog A) f g : (forall a, alike S (f a) (g a)) -> alike S (bind p f) (bind p g).
Proof. intros H. apply (alike_bind eq); [apply alike_refl | intros a b ->; apply H]. Qed.
Lemma alike_within {A B} (R : A -> B -> Prop) m t p q : alike R p q -> alike R (within m t p) (within m t q).
Proof. intros H. constructor. apply (alike_bind R); [exact H|]. intros a b E. repeat constructor. exact E. Qed.
Lemma alike_lift {A B C D} (S : C -> D -> Prop) (o : option A) (o' : option B) f g :
  (forall a, o = Some a -> exists b, o' = Some b /\ alike S (f a) (g b)) -> alike S (bind (lift o) f) (bind (lift o') g).
Proof. intros H. destruct o as [a|]; cbn; [|constructor]. destruct (H a eq_refl) as (b & -> & L). exact L. Qed.
Lemma alike_check {C D} (S : C -> D -> Prop) (b b' : bool) f g : (b = true -> b' = true) -> (b = true -> alike S (f tt) (g tt)) -> alike S (bind (check b) f) (bind (check b') g).
Proof. destruct b; cbn; intros H L; [rewrite (H eq_refl); apply L; reflexivity | constructor]. Qed.
(** A program whose results all have a property. *)
Definition makes {A} (P : A -> Prop) (p : prog A) : Prop := alike (fun a b => a = b /\ P a) p p.
Lemma makes_ret {A} (P : A -> Prop) a : P a -> makes P (Ret a).
Proof. intros H. constructor. auto. Qed.
Lemma makes_bind {A B} (P : A -> Prop) (Q : B -> Prop) p f : makes P p -> (forall a, P a -> makes Q (f a)) -> makes Q (bind p f).
Proof. intros H L. apply (alike_bind (fun a b => a = b /\ P a)); [exact H|]. intros a b [-> E]. exact (L b E). Qed.
Lemma makes_any {A} (p : prog A) : makes (fun _ => True) p.
Proof. apply (alike_mono eq); [auto | apply alike_refl]. Qed.
Lemma makes_mono {A} (P Q : A -> Prop) p : (forall a, P a -> Q a) -> makes P p -> makes Q p.
Proof. intros H. apply alike_mono. intros a b [-> E]. auto. Qed.
Lemma makes_within {A} (P : A -> Prop) m t p : makes P p -> makes P (within m t p).
Proof. apply alike_within. Qed.
Lemma makes_construct {A} (P : A -> Prop) cls name ctor : makes P ctor -> makes (fun o => P (snd o)) (construct cls name ctor).
Proof.
  intros H. unfold construct. destruct (valid_identifier _); [|constructor]. constructor. intros q.
  apply (makes_bind P); [apply makes_within, H|]. intros a E. apply makes_ret. exact E.
Qed.
Lemma makes_each {A B} (P : A -> B -> Prop) f l : (forall a, In a l -> makes (P a) (f a)) -> makes (Forall2 P l) (each f l).
Proof.
  induction l as [|a l IH]; intros H; cbn; [apply makes_ret; constructor|].
  apply (makes_bind (P a)); [apply H; left; reflexivity|]. intros b E. apply (makes_bind (Forall2 P l)); [apply IH; intros; apply H; right; assumption|].
  intros r F. apply makes_ret. constructor; assumption.
Qed.
Lemma alike_makes {A C D} (P : A -> Prop) (S : C -> D -> Prop) (p : prog A) f g : makes P p -> (forall a, P a -> alike S (f a) (g a)) -> alike S (bind p f) (bind p g).
Proof. intros H L. apply (alike_bind (fun a b => a = b /\ P a)); [exact H|]. intros a b [-> E]. auto. Qed.

(** Functions of related inputs with related results. *)
Definition rel := array -> array -> Prop.
Definition good {X Y X' Y'} (R : X -> X' -> Prop) (S : Y -> Y' -> Prop) (f : X -> prog Y) (g : X' -> prog Y') : Prop := forall x x', R x x' -> alike S (f x) (g x').
Lemma makes_module {A X Y I} (P : A -> Prop) (R : I -> X -> X -> Prop) (S : I -> Y -> Y -> Prop) cls name ctor call :
  makes P ctor -> (forall i a, P a -> good (R i) (S i) (call a) (call a)) -> makes (fun f => forall i, good (R i) (S i) f f) (@module A X Y cls name ctor call).
Proof.
  intros H L. unfold module. apply (makes_bind (fun o => P (snd o))); [apply makes_construct, H|]. intros [q a] E. apply makes_ret.
  intros i x x' Rx. apply alike_within. exact (L i a E x x' Rx).
Qed.
Lemma makes_simple {X Y I} (R : I -> X -> X -> Prop) (S : I -> Y -> Y -> Prop) cls name ctor call :
  (forall i, good (R i) (S i) (call tt) (call tt)) -> makes (fun f => forall i, good (R i) (S i) f f) (@module unit X Y cls name ctor call).
Proof. intros H. apply (makes_module (fun _ => True)); [apply makes_any|]. intros i [] _. exact (H i). Qed.
Lemma makes_plain {X Y} (R : X -> X -> Prop) (S : Y -> Y -> Prop) cls name ctor call :
  good R S (call tt) (call tt) -> makes (fun f => good R S f f) (@module unit X Y cls name ctor call).
Proof.
  intros H. apply (makes_mono (fun f => forall i : unit, good R S f f)); [intros f G; exact (G tt)|]. apply (makes_simple (fun _ => R) (fun _ => S)). intros _. exact H.
Qed.
Lemma good_use (R S : rel) create x x' : makes (fun f => good R S f f) create -> R x x' -> alike S (use create x) (use create x').
Proof. intros H Rx. apply (alike_makes _ _ _ _ _ H). intros f G. exact (G x x' Rx). Qed.
Lemma alike_param {C D} (S : C -> D -> Prop) n a f g : alike S (f tt) (g tt) -> alike S (bind (param n a) f) (bind (param n a) g).
Proof. intros H. apply al_param. exact H. Qed.
Lemma alike_when {C D} (S : C -> D -> Prop) b p f g : alike S (f tt) (g tt) -> alike S (bind (when b p) f) (bind (when b p) g).
Proof. intros H. apply alike_same. intros []. exact H. Qed.
Lemma alike_ret {A B} (R : A -> B -> Prop) a b : R a b -> alike R (Ret a) (Ret b).
Proof. apply al_ret. Qed.
(** A bind of a result. *)
Lemma alike_done {A B C D} (S : C -> D -> Prop) (a : A) (b : B) f g : alike S (f a) (g b) -> alike S (bind (Ret a) f) (bind (Ret b) g).
Proof. exact (fun H => H). Qed.

(** ** Modules *)
(** Any two arrays of one element type; arrays of one element type and last axis. *)
Definition typed : rel := fun x x' => fst x = fst x'.
Definition ends (d : Z) : rel := fun x x' => fst x = fst x' /\ exists s s', snd x = (s ++ [d])%list /\ snd x' = (s' ++ [d])%list.
Lemma rev_snoc {A} (s : list A) d : rev (s ++ [d]) = d :: rev s.
Proof. apply rev_app_distr. Qed.
Lemma linear_good out bias name : makes (fun f => forall d, good (ends d) (ends out) f f) (linear out bias name).
Proof.
  unfold linear. apply (makes_simple ends (fun _ => ends out)). intros d [t s0] [t' s0'] [T (s & s' & E & E')]. cbn in T, E, E'. subst t' s0 s0'.
  rewrite !rev_snoc, !removelast_last. apply alike_param, alike_when. apply alike_ret. split; [reflexivity|]. cbn. eauto.
Qed.
(** Functions that can follow each other. *)
Inductive chained {X} : (X -> X -> Prop) -> list (X -> prog X) -> (X -> X -> Prop) -> Prop :=
| ch_nil R : chained R [] R
| ch_cons (R S T : X -> X -> Prop) f l : good R S f f -> chained S l T -> chained R (f :: l) T.
Lemma chained_app {X} (R S T : X -> X -> Prop) l m : chained R l S -> chained S m T -> chained R (l ++ m)%list T.
Proof. induction 1 as [|R S T' f l G _ IH]; cbn; [auto | intros H; exact (ch_cons _ _ _ _ _ G (IH H))]. Qed.
Lemma chain_good {X} (R S : X -> X -> Prop) l : chained R l S -> good R S (chain l) (chain l).
Proof.
  induction 1 as [R|R S T f l G _ IH]; intros x x' Rx; cbn; [apply alike_ret, Rx|]. apply (alike_bind S); [exact (G x x' Rx) | exact IH].
Qed.
Lemma mlp_good sizes bias name : makes (fun f => forall d, good (ends d) (ends (last sizes d)) f f) (mlp sizes bias name).
Proof.
  unfold mlp. apply (makes_module (Forall2 (fun p f => forall d, good (ends d) (ends (snd p)) f f) (combine (seq 0 (length sizes)) sizes)) ends (fun d => ends (last sizes d))).
  - apply makes_each. intros [i n] _. apply linear_good.
  - intros d layers F. generalize dependent layers. generalize (seq 0 (length sizes)) (seq_length (length sizes) 0). revert d.
    induction sizes as [|n sizes IH]; intros d idx L layers F.
    + destruct idx; [|discriminate]. inversion F. subst. intros x x' Rx. apply alike_ret. exact Rx.
    + destruct idx as [|i idx]; [discriminate|]. cbn in F. inversion F as [|? f ? fs G F']; subst. injection L as L. intros x x' Rx. cbn [chain].
      apply (alike_bind (ends n)); [exact (G d x x' Rx)|]. intros y y' Ry.
      replace (last (n :: sizes) d) with (last sizes n).
      * exact (IH n idx L fs F' y y' Ry).
      * clear. revert n d. induction sizes as [|m sizes IH]; intros n d; [reflexivity|]. change (last (m :: sizes) n = last (m :: sizes) d). rewrite <- !IH. reflexivity.
Qed.
Lemma embed_good v d name : makes (fun f => good (fun x x' => is_integer (fst x') = true) (fun _ _ => True) f f) (embed v d name).
Proof.
  unfold embed. apply (makes_bind (fun _ => True)); [apply makes_any|]. intros [q []] _. apply makes_ret. intros x x' Rx.
  apply alike_within. apply alike_check; [intros _; exact Rx|]. intros _. apply alike_same. intros [] . apply alike_ret. exact I.
Qed.
Lemma sequential_good name : makes (fun f => good (fun _ _ => True) (fun _ _ => True) f f) (sequential [] name).
Proof. apply makes_plain. intros x x' _. apply alike_ret. exact I. Qed.

(** Images: batches of arrays with [n] spatial axes, or single ones, and the channels last. *)
Definition spatial (n : nat) (c : Z) : rel := fun x x' => fst x = fst x' /\ exists ns ns', length ns = n /\ length ns' = n /\
  ((snd x = ns ++ [c] \/ exists b, snd x = b :: ns ++ [c]) /\ (snd x' = ns' ++ [c] \/ exists b, snd x' = b :: ns' ++ [c]))%list.
Lemma conv_good cls n out k name : makes (fun f => forall cin, good (spatial n cin) (fun _ _ => True) f f)
  (conv cls (ConvND n out (repeat k n) (ones n) (ones n) (inl PtSame) true 1) true name).
Proof.
  unfold conv. apply (makes_simple (spatial n) (fun _ _ _ => True)). intros cin [t s0] [t' s0'] [T (ns & ns' & L & L' & E & E')]. cbn [fst snd] in T, E, E'. subst t'.
  set (c := ConvND n out (repeat k n) (ones n) (ones n) (inl PtSame) true 1).
  assert (S : forall s ns, length ns = n -> (s = ns ++ [cin] \/ exists b, s = b :: ns ++ [cin])%list -> exists o, conv_call c s = Some ((repeat k n ++ [cin; out])%list, [out], o)).
  { intros s ns0 L0 H.
    assert (A : forall b, let pads := string_pads PtSame ns0 (repeat k n) (ones n) (ones n) in let sizes := out_sizes ns0 pads (repeat k n) (ones n) (ones n) in
      conv_call c (b :: ns0 ++ [cin])%list = Some ((repeat k n ++ [cin / 1; out])%list, [out], (b :: sizes ++ [out])%list) /\
      (b = 1 -> conv_call c (ns0 ++ [cin])%list = Some ((repeat k n ++ [cin / 1; out])%list, [out], (sizes ++ [out])%list))).
    { intros b. destruct (C63_channels_last c b ns0 cin) as (_ & A1 & A2); try reflexivity; try (unfold c, ones; cbn; rewrite ?repeat_length; assumption || reflexivity || apply Z.mod_1_r || lia).
      - intros l H0. discriminate.
      - split; [exact A1 | exact A2]. }
    destruct H as [-> | [b ->]].
    - destruct (A 1) as [_ A2]. rewrite (A2 eq_refl), Z.div_1_r. eauto.
    - destruct (A b) as [A1 _]. rewrite A1, Z.div_1_r. eauto. }
  destruct (S s0 ns L E) as [o ->]. destruct (S s0' ns' L' E') as [o' ->]. cbn [lift]. cbn [bind].
  apply alike_param, alike_when, alike_ret. exact I.
Qed.
Lemma conv_t_good cls n out k name : makes (fun f => forall cin, good (spatial n cin) (fun _ _ => True) f f)
  (conv_transpose cls (ConvT n out (repeat k n) (ones n) true) (inl PtSame) None true name).
Proof.
  unfold conv_transpose. apply (makes_simple (spatial n) (fun _ _ _ => True)). intros cin [t s0] [t' s0'] [T (ns & ns' & L & L' & E & E')]. cbn [fst snd] in T, E, E'. subst t'.
  set (c := ConvT n out (repeat k n) (ones n) true).
  assert (S : forall s ns, length ns = n -> (s = ns ++ [cin] \/ exists b, s = b :: ns ++ [cin])%list ->
    exists o, conv_t_call c (inl PtSame) None s = Some ((repeat k n ++ [out; cin])%list, [out], o)).
  { intros s ns0 L0 H. unfold conv_t_call. cbn [c ct_spatial ct_kernel ct_out ct_last ct_stride].
    destruct H as [-> | [b ->]].
    - rewrite app_length, L0. cbn [length]. rewrite Nat.add_1_r, Nat.eqb_refl. cbn [orb negb]. unfold channel_of.
      change (last (1 :: ns0 ++ [cin])%list 0) with (last ((1 :: ns0) ++ [cin])%list 0). rewrite last_last. eauto.
    - cbn [length]. rewrite app_length, L0. cbn [length]. rewrite Nat.add_1_r, Nat.eqb_refl, orb_true_r. cbn [negb].
      replace (Nat.eqb (S (S n)) (S n)) with false by (symmetry; apply Nat.eqb_neq; lia). unfold channel_of.
      change (last (b :: ns0 ++ [cin])%list 0) with (last ((b :: ns0) ++ [cin])%list 0). rewrite last_last. eauto. }
  destruct (S s0 ns L E) as [o ->]. destruct (S s0' ns' L' E') as [o' ->]. cbn [lift]. cbn [bind].
  apply alike_param, alike_when, alike_ret. exact I.
Qed.

(** Batches of images: the sizes on both sides. *)
Definition size3 : Type := Z * Z * Z.
Definition nonneg (d : size3) : Prop := let '(b, h, w) := d in 0 <= b /\ 0 <= h /\ 0 <= w.
Definition shape4 (d : size3) (c : Z) : list Z := let '(b, h, w) := d in [b; h; w; c].
Definition img (c : Z) (d d' : size3) : rel := fun x x' => nonneg d /\ nonneg d' /\ exists t, x = (t, shape4 d c) /\ x' = (t, shape4 d' c).
Definition resized (g : Z -> Z) (d : size3) : size3 := let '(b, h, w) := d in (b, g h, g w).
Lemma nonneg_resized g d : keeps g -> nonneg d -> nonneg (resized g d).
Proof. destruct d as [[b h] w]. cbn. intros K (B & H & W). auto. Qed.
(** A convolution whose shapes are regular. *)
Lemma regular_conv c k s pad bias g : keeps g ->
  (forall cin, regular (ModelImageNets.conv2d c k s pad bias) cin c ([k; k; cin; c] :: (if bias then [[c]] else [])) g) ->
  forall name, makes (fun f => forall i : Z * size3 * size3, let '(cin, d, d') := i in good (img cin d d') (img c (resized g d) (resized g d')) f f) (conv2d c k s pad bias name).
Proof.
  intros K G name. unfold conv2d, conv.
  eapply makes_mono; [|apply (makes_simple (fun i : Z * size3 * size3 => img (fst (fst i)) (snd (fst i)) (snd i)) (fun i => img c (resized g (snd (fst i))) (resized g (snd i))))].
  { intros f H [[cin d] d']. exact (H (cin, d, d')). }
  intros [[cin d] d'] x x' (N & N' & t & -> & ->). cbn [fst snd] in *.
  destruct d as [[b h] w], d' as [[b' h'] w']. cbn [shape4].
  assert (S : forall b h w, nonneg (b, h, w) -> conv_call (ConvND 2 c [k; k] [s; s] [1; 1] (inl pad) true 1) [b; h; w; cin] = Some ([k; k; cin; c], [c], [b; g h; g w; c])).
  { intros b0 h0 w0 (B & H & W). specialize (G cin b0 h0 w0 B H W). unfold ModelImageNets.conv2d in G.
    destruct (C63_channels_last (ConvND 2 c [k; k] [s; s] [1; 1] (inl pad) true 1) b0 [h0; w0] cin) as (_ & A & _); try reflexivity; try (intros; discriminate); try apply Z.mod_1_r.
    cbn [app cv_kernel cv_out cv_groups cv_padding cv_rate cv_stride] in A. cbv zeta in A. rewrite A in G |- *. congruence. }
  rewrite (S b h w N), (S b' h' w' N'). cbn [lift]. cbn [bind].
  apply alike_param, alike_when, alike_ret. split; [exact (nonneg_resized g (b, h, w) K N)|]. split; [exact (nonneg_resized g (b', h', w') K N')|].
  exists t. split; reflexivity.
Qed.

(** ** Normalisation *)
Lemma broadcast_ones b h w c : broadcast2 [b; h; w; c] [1; 1; 1; c] = Some [b; h; w; c].
Proof.
  unfold broadcast2. cbn [rev app broadcast2_rev]. rewrite !Z.eqb_refl.
  assert (E : forall n, (if n =? 1 then Some n else if n =? 1 then Some 1 else Some n) = Some n) by (intros n; destruct (n =? 1); reflexivity).
  rewrite !E. reflexivity.
Qed.
Lemma broadcast_nil s : broadcast2 s [] = Some s.
Proof. unfold broadcast2. cbn. destruct (rev s) eqn:E; cbn; rewrite <- (rev_involutive s), E; reflexivity. Qed.
Lemma broadcast_nil_l s : broadcast2 [] s = Some s.
Proof. unfold broadcast2. cbn. rewrite rev_involutive. reflexivity. Qed.
(** Batch statistics are used: in training or with [test_local_stats]. *)
Definition local (mode : bn_mode) : Prop := fst mode || snd mode = true.
Definition img_keeps (f : layer) : Prop := forall c d d', good (img c d d') (img c d d') f f.
Lemma bn_good cfg name : bn_axis cfg = None -> bn_last cfg = true -> makes (fun f => forall mode, local mode -> img_keeps (f mode)) (batch_norm cfg name).
Proof.
  intros AX LA. unfold batch_norm. apply (makes_bind (fun _ => True)); [apply makes_any|]. intros [q [me ve]] _. apply makes_ret.
  intros [tr tls] LM c [[b h] w] [[b' h'] w'] x x' (N & N' & t & -> & ->). apply alike_within. unfold local in LM. cbn [fst snd] in LM. rewrite LM.
  unfold bn_axes. rewrite AX, LA. cbn [shape4].
  assert (K : forall b h w, keepdims [0; 1; 2] [b; h; w; c] = [1; 1; 1; c]) by reflexivity.
  change (filter (fun i : Z => negb (i =? Z.of_nat (length [b; h; w; c]) - 1)) (map Z.of_nat (seq 0 (length [b; h; w; c])))) with [0; 1; 2].
  change (filter (fun i : Z => negb (i =? Z.of_nat (length [b'; h'; w'; c]) - 1)) (map Z.of_nat (seq 0 (length [b'; h'; w'; c])))) with [0; 1; 2].
  change (np_axes (Z.of_nat (length [b; h; w; c])) [0; 1; 2]) with (Some [0; 1; 2]).
  change (np_axes (Z.of_nat (length [b'; h'; w'; c])) [0; 1; 2]) with (Some [0; 1; 2]).
  cbn [lift]. cbn [bind]. rewrite !K. cbn [fst snd].
  apply alike_same. intros _. apply alike_when, alike_when.
  assert (S : forall s : bool, broadcast2 (snd (if s then (t, [1; 1; 1; c]) else (t, []))) [1; 1; 1; c] = Some [1; 1; 1; c]).
  { intros []; cbn [snd]; [apply broadcast_ones | apply broadcast_nil_l]. }
  assert (O : forall b h w (s : bool), broadcast2 [b; h; w; c] (snd (if s then (t, [1; 1; 1; c]) else (t, []))) = Some [b; h; w; c]).
  { intros ? ? ? []; cbn [snd]; [apply broadcast_ones | apply broadcast_nil]. }
  unfold broadcast at 1 5. cbn [snd]. rewrite S. cbn [lift bind].
  unfold broadcast at 1 4. cbn [snd]. rewrite !broadcast_ones. cbn [lift bind fst].
  unfold broadcast at 1 3. cbn [snd]. rewrite !broadcast_ones. cbn [lift bind fst].
  unfold broadcast. cbn [snd]. rewrite !O. cbn [lift bind fst]. apply alike_ret. split; [exact N|]. split; [exact N'|]. exists t. split; reflexivity.
Qed.

(** ** Residual networks *)
Lemma resized_1 d : resized (fun h => cdiv h 1) d = d.
Proof. destruct d as [[b h] w]. cbn. rewrite !cdiv_1. reflexivity. Qed.
Definition strided (s : Z) (d : size3) : size3 := resized (fun h => cdiv h s) d.
Lemma strided_1 d : strided 1 d = d.
Proof. apply resized_1. Qed.
Definition conv_ok (c s : Z) (f : layer) : Prop := forall cin d d', good (img cin d d') (img c (strided s d) (strided s d')) f f.
Lemma conv2d_same c k s bias name : 0 < s -> 1 <= k -> makes (conv_ok c s) (conv2d c k s PtSame bias name).
Proof.
  intros S K. eapply makes_mono; [|apply (regular_conv c k s PtSame bias (fun h => cdiv h s) (keeps_cdiv s S)); intros cin; apply regular_conv_same; assumption].
  intros f H cin d d'. exact (H (cin, d, d')).
Qed.
Definition unit_ok (p : nat * (Z * Z * Z)) (l : layer * (bn_mode -> layer)) : Prop := let '(_, (c, _, s)) := p in conv_ok c s (fst l) /\ forall mode, local mode -> img_keeps (snd l mode).
Lemma block_convs_good sc off channels stride bottleneck v1 : 0 < stride ->
  makes (Forall2 unit_ok (combine (seq 0 3) (block_layers channels stride bottleneck))) (block_convs sc off channels stride bottleneck v1).
Proof.
  intros S. unfold block_convs. apply makes_each. intros [i [[c k] s]] I.
  assert (SK : 0 < s /\ 1 <= k).
  { apply in_combine_r in I. destruct bottleneck; cbn in I; repeat destruct I as [I|I]; try contradiction; injection I as <- <- <-; lia. }
  apply (makes_bind (conv_ok c s)); [apply conv2d_same; apply SK|]. intros f F.
  apply (makes_bind (fun g => forall mode, local mode -> img_keeps (g mode))); [apply bn_good; reflexivity|]. intros g G. apply makes_ret. exact (conj F G).
Qed.
Lemma main_chained (v2 : bool) channels stride (bottleneck : bool) layers mode cin d d' : local mode ->
  Forall2 unit_ok (combine (seq 0 3) (block_layers channels stride bottleneck)) layers ->
  chained (img cin d d') (flat_map (fun l => if v2 then [snd l mode; fst l] else [fst l; snd l mode]) layers) (img channels (strided stride d) (strided stride d')).
Proof.
  intros LM F. unfold block_layers in F.
  assert (U : forall c s l cin d d', conv_ok c s (fst l) /\ (forall mode, local mode -> img_keeps (snd l mode)) ->
    chained (img cin d d') (if v2 then [snd l mode; fst l] else [fst l; snd l mode]) (img c (strided s d) (strided s d'))).
  { intros c s l cin0 e e' [C B]. destruct v2.
    - apply (ch_cons _ (img cin0 e e')); [apply B; exact LM|]. apply (ch_cons _ (img c (strided s e) (strided s e'))); [apply C | constructor].
    - apply (ch_cons _ (img c (strided s e) (strided s e'))); [apply C|]. apply (ch_cons _ (img c (strided s e) (strided s e'))); [apply B; exact LM | constructor]. }
  destruct bottleneck; cbn [app seq combine] in F.
  - inversion F as [|? l0 ? ? U0 F1]; subst. inversion F1 as [|? l1 ? ? U1 F2]; subst. inversion F2 as [|? l2 ? ? U2 F3]; subst. inversion F3; subst.
    cbn [flat_map]. rewrite app_nil_r.
    pose proof (U _ _ _ cin d d' U0) as C0. pose proof (U _ _ _ (channels / 4) d d' U1) as C1. pose proof (U _ _ _ (channels / 4) (strided stride d) (strided stride d') U2) as C2.
    rewrite !strided_1 in C0.
    assert (C2' : chained (img (channels / 4) (strided stride d) (strided stride d')) (if v2 then [snd l2 mode; fst l2] else [fst l2; snd l2 mode]) (img channels (strided stride d) (strided stride d'))).
    { rewrite !strided_1 in C2. exact C2. }
    exact (chained_app _ _ _ _ _ C0 (chained_app _ _ _ _ _ C1 C2')).
  - inversion F as [|? l0 ? ? U0 F1]; subst. inversion F1 as [|? l1 ? ? U1 F2]; subst. inversion F2; subst. cbn [flat_map]. rewrite app_nil_r.
    pose proof (U _ _ _ cin d d' U0) as C0. pose proof (U _ _ _ (channels / 1) (strided stride d) (strided stride d') U1) as C1.
    rewrite Z.div_1_r in C0, C1. rewrite !strided_1 in C1. exact (chained_app _ _ _ _ _ C0 C1).
Qed.
(** A projection, or a shortcut that fits without one. *)
Definition shortcut_fits (projection : bool) (stride cin channels : Z) : Prop := projection = true \/ (stride = 1 /\ cin = channels).
Definition block_ok (projection : bool) (stride channels : Z) (f : bn_mode -> layer) : Prop :=
  forall mode, local mode -> forall cin d d', shortcut_fits projection stride cin channels -> good (img cin d d') (img channels (strided stride d) (strided stride d')) (f mode) (f mode).
Lemma broadcast_same c d d' x x' y y' : img c d d' x x' -> img c d d' y y' -> alike (img c d d') (broadcast x y) (broadcast x' y').
Proof.
  intros (N & N' & t & -> & ->) (_ & _ & t' & -> & ->). unfold broadcast. cbn [snd fst]. rewrite !broadcast2_refl. cbn. apply alike_ret.
  split; [exact N|]. split; [exact N'|]. exists t. split; reflexivity.
Qed.
Lemma block_v1_good sc off channels stride up bottleneck name : 0 < stride -> makes (block_ok up stride channels) (block_v1 sc off channels stride up bottleneck name).
Proof.
  intros S. unfold block_v1.
  apply (makes_bind (fun o => (forall mode, local mode -> forall cin d d', shortcut_fits up stride cin channels ->
      chained (img cin d d') (fst (snd o) mode) (img channels (strided stride d) (strided stride d'))) /\
      Forall2 unit_ok (combine (seq 0 3) (block_layers channels stride bottleneck)) (snd (snd o)))).
  - apply (makes_construct (fun o => (forall mode, local mode -> forall cin d d', shortcut_fits up stride cin channels ->
      chained (img cin d d') (fst o mode) (img channels (strided stride d) (strided stride d'))) /\
      Forall2 unit_ok (combine (seq 0 3) (block_layers channels stride bottleneck)) (snd o))).
    apply (makes_bind (fun proj => forall mode, local mode -> forall cin d d', shortcut_fits up stride cin channels ->
      chained (img cin d d') (proj mode) (img channels (strided stride d) (strided stride d')))).
    + destruct up.
      * apply (makes_bind (conv_ok channels stride)); [apply conv2d_same; lia|]. intros f F.
        apply (makes_bind (fun g => forall mode, local mode -> img_keeps (g mode))); [apply bn_good; reflexivity|]. intros g G. apply makes_ret.
        intros mode LM cin d d' _. apply (ch_cons _ (img channels (strided stride d) (strided stride d'))); [apply F|].
        apply (ch_cons _ (img channels (strided stride d) (strided stride d'))); [apply G, LM | constructor].
      * apply makes_ret. intros mode LM cin d d' [|[-> ->]]; [discriminate|]. rewrite !strided_1. constructor.
    + intros proj P. apply (makes_bind (Forall2 unit_ok (combine (seq 0 3) (block_layers channels stride bottleneck)))); [apply block_convs_good, S|].
      intros layers F. apply makes_ret. split; assumption.
  - intros [q [proj layers]] [P F]. cbn [fst snd] in P, F. apply makes_ret. intros mode LM cin d d' FT x x' Rx. apply alike_within.
    apply (alike_bind (img channels (strided stride d) (strided stride d'))); [exact (chain_good _ _ _ (P mode LM cin d d' FT) x x' Rx)|]. intros s s' Rs.
    apply (alike_bind (img channels (strided stride d) (strided stride d'))).
    + exact (chain_good _ _ _ (main_chained false channels stride bottleneck layers mode cin d d' LM F) x x' Rx).
    + intros y y' Ry. exact (broadcast_same _ _ _ _ _ _ _ Ry Rs).
Qed.
Lemma block_v2_good sc off channels stride up bottleneck name : 0 < stride -> makes (block_ok up stride channels) (block_v2 sc off channels stride up bottleneck name).
Proof.
  intros S. unfold block_v2.
  set (Pp := fun proj : option layer => match proj with Some c => conv_ok channels stride c | None => up = false end).
  apply (makes_bind (fun o => Pp (fst (snd o)) /\ Forall2 unit_ok (combine (seq 0 3) (block_layers channels stride bottleneck)) (snd (snd o)))).
  - apply (makes_construct (fun o => Pp (fst o) /\ Forall2 unit_ok (combine (seq 0 3) (block_layers channels stride bottleneck)) (snd o))).
    apply (makes_bind Pp).
    + destruct up; [|apply makes_ret; reflexivity]. apply (makes_bind (conv_ok channels stride)); [apply conv2d_same; lia|]. intros f F. apply makes_ret. exact F.
    + intros proj P. apply (makes_bind (Forall2 unit_ok (combine (seq 0 3) (block_layers channels stride bottleneck)))); [apply block_convs_good, S|].
      intros layers F. apply makes_ret. split; assumption.
  - intros [q [proj layers]] [P F]. cbn [fst snd] in P, F. apply makes_ret. intros mode LM cin d d' FT x x' Rx. apply alike_within.
    destruct layers as [|[conv_0 bn_0] layers]; [constructor|].
    assert (B0 : img_keeps (bn_0 mode)).
    { inversion F as [|? ? ? ? U ?]; subst. exact (proj2 U mode LM). }
    assert (C' : chained (img cin d d') (conv_0 :: flat_map (fun l => [snd l mode; fst l]) layers) (img channels (strided stride d) (strided stride d'))).
    { pose proof F as F0. unfold block_layers in F0. destruct bottleneck; cbn [app seq combine] in F0; inversion F0 as [|? ? ? ? U0 F1]; subst.
      - inversion F1 as [|? l1 ? ? U1 F2]; subst. inversion F2 as [|? l2 ? ? U2 F3]; subst. inversion F3; subst.
        destruct U0 as [U0 _], U1 as [U1 V1], U2 as [U2 V2]. cbn [fst] in U0. cbn [flat_map app].
        apply (ch_cons _ (img (channels / 4) d d')); [pose proof (U0 cin d d') as H; rewrite !strided_1 in H; exact H|].
        apply (ch_cons _ (img (channels / 4) d d')); [apply V1, LM|].
        apply (ch_cons _ (img (channels / 4) (strided stride d) (strided stride d'))); [apply U1|].
        apply (ch_cons _ (img (channels / 4) (strided stride d) (strided stride d'))); [apply V2, LM|].
        apply (ch_cons _ (img channels (strided stride d) (strided stride d'))); [|constructor].
        pose proof (U2 (channels / 4) (strided stride d) (strided stride d')) as H. rewrite !strided_1 in H. exact H.
      - inversion F1 as [|? l1 ? ? U1 F2]; subst. inversion F2; subst. destruct U0 as [U0 _], U1 as [U1 V1]. cbn [fst] in U0. rewrite Z.div_1_r in U0, U1. cbn [flat_map app].
        apply (ch_cons _ (img channels (strided stride d) (strided stride d'))); [apply U0|].
        apply (ch_cons _ (img channels (strided stride d) (strided stride d'))); [apply V1, LM|].
        apply (ch_cons _ (img channels (strided stride d) (strided stride d'))); [|constructor].
        pose proof (U1 channels (strided stride d) (strided stride d')) as H. rewrite !strided_1 in H. exact H. }
    inversion C' as [|? R3 ? ? ? G3 C3]; subst.
    apply (alike_bind (img cin d d')); [apply B0, Rx|]. intros y y' Ry.
    apply (alike_bind (img channels (strided stride d) (strided stride d'))).
    { destruct proj as [c|]; [exact (P cin d d' y y' Ry)|]. apply alike_ret. destruct FT as [FT | [-> ->]]; [unfold Pp in P; congruence|]. rewrite !strided_1. exact Rx. }
    intros s s' Rs. apply (alike_bind R3); [apply G3, Ry|]. intros z z' Rz.
    apply (alike_bind (img channels (strided stride d) (strided stride d'))); [exact (chain_good _ _ _ C3 z z' Rz)|].
    intros u u' Ru. exact (broadcast_same _ _ _ _ _ _ _ Ru Rs).
Qed.
Lemma block_group_good sc off v2 channels n stride bottleneck up name : 0 < stride -> (n <> 0)%nat ->
  makes (block_ok up stride channels) (block_group sc off v2 channels n stride bottleneck up name).
Proof.
  intros S N. unfold block_group.
  set (P := fun (i : nat) (f : bn_mode -> layer) => block_ok (Nat.eqb i 0 && up) (if Nat.eqb i 0 then stride else 1) channels f).
  apply (makes_bind (fun o => Forall2 P (seq 0 n) (snd o))).
  - apply (makes_construct (Forall2 P (seq 0 n))). apply makes_each. intros i _.
    assert (S' : 0 < (if Nat.eqb i 0 then stride else 1)) by (destruct (Nat.eqb i 0); lia).
    destruct v2; [apply block_v2_good, S' | apply block_v1_good, S'].
  - intros [q blocks] F. cbn [snd] in F. apply makes_ret. intros mode LM cin d d' FT x x' Rx. apply alike_within.
    destruct n as [|n]; [congruence|]. cbn [seq] in F. inversion F as [|? f ? fs B0 F']; subst. cbn [map].
    apply (chain_good (img cin d d') (img channels (strided stride d) (strided stride d'))); [|exact Rx].
    apply (ch_cons _ (img channels (strided stride d) (strided stride d'))).
    + apply B0; assumption.
    + clear -F' LM. assert (G : forall i, In i (seq 1 n) -> (i <> 0)%nat) by (intros i I; apply in_seq in I; lia).
      induction F' as [|i f l fs B _ IH]; cbn [map]; [constructor|].
      apply (ch_cons _ (img channels (strided stride d) (strided stride d'))); [|apply IH; intros; apply G; right; assumption].
      assert (E : Nat.eqb i 0 = false) by (apply Nat.eqb_neq, G; left; reflexivity). unfold P in B. rewrite E in B. cbn [andb] in B.
      specialize (B mode LM channels (strided stride d) (strided stride d') (or_intror (conj eq_refl eq_refl))). rewrite !strided_1 in B. exact B.
Qed.
Lemma pool_good c d d' : 0 <= c -> good (img c d d') (img c (strided 2 d) (strided 2 d')) (net_of max_pool_3_2) (net_of max_pool_3_2).
Proof.
  intros C x x' (N & N' & t & -> & ->). destruct d as [[b h] w], d' as [[b' h'] w']. destruct N as (B & H & W), N' as (B' & H' & W').
  unfold net_of, shape_map. cbn [snd fst shape4]. rewrite !(regular_pool c C) by assumption. cbn. apply alike_ret.
  split; [|split].
  - cbn. split; [|split]; [assumption | apply cdiv_nonneg; lia..].
  - cbn. split; [|split]; [assumption | apply cdiv_nonneg; lia..].
  - exists t. split; reflexivity.
Qed.
Lemma mean_good c d d' : good (img c d d') (ends c) (net_of mean_1_2) (net_of mean_1_2).
Proof.
  intros x x' (_ & _ & t & -> & ->). destruct d as [[b h] w], d' as [[b' h'] w']. cbn. apply alike_ret. split; [reflexivity|]. exists [b], [b']. split; reflexivity.
Qed.
Lemma resnet_good sc off cls c v2 classes name b0 b1 b2 b3 c0 c1 c2 c3 p0 rest :
  rn_blocks c = [b0; b1; b2; b3] -> rn_channels c = [c0; c1; c2; c3] -> rn_projection c = p0 :: true :: true :: true :: rest ->
  Forall (fun b => b <> 0%nat) [b0; b1; b2; b3] -> (p0 = true \/ c0 = 64) ->
  makes (fun f => forall mode, local mode -> forall cin d d', good (img cin d d') (ends classes) (f mode) (f mode)) (resnet sc off cls c v2 classes name).
Proof.
  intros EB EC EP NB F0. unfold resnet. rewrite EB, EC, EP.
  set (gs := [(0%nat, c0, b0, 1, p0); (1%nat, c1, b1, 2, true); (2%nat, c2, b2, 2, true); (3%nat, c3, b3, 2, true)]).
  set (Pg := fun (g : nat * Z * nat * Z * bool) (f : bn_mode -> layer) => let '(_, ch, _, s, p) := g in block_ok p s ch f).
  set (Pm := fun l : bn_mode -> list layer => forall mode, local mode -> forall c d d', chained (img c d d') (l mode) (img c d d')).
  set (P := fun o : layer * (bn_mode -> list layer) * list (bn_mode -> layer) * (bn_mode -> list layer) * layer =>
    let '(ic, first, groups, final, logits) := o in conv_ok 64 2 ic /\ Pm first /\ Forall2 Pg gs groups /\ Pm final /\ forall d, good (ends d) (ends classes) logits logits).
  assert (BN1 : forall n, makes Pm (b <- net_bn sc off false n ;; Ret (fun mode => [b mode]))).
  { intros n. apply (makes_bind (fun g => forall mode, local mode -> img_keeps (g mode))); [apply bn_good; reflexivity|]. intros g G. apply makes_ret.
    intros mode LM ch d d'. apply (ch_cons _ (img ch d d')); [apply G, LM | constructor]. }
  assert (BN0 : makes Pm (Ret (fun _ => []))) by (apply makes_ret; intros mode _ ch d d'; constructor).
  apply (makes_bind (fun o => P (snd o))).
  - apply makes_construct. apply (makes_bind (conv_ok 64 2)); [apply conv2d_same; lia|]. intros ic IC.
    apply (makes_bind Pm); [destruct v2; [exact BN0 | apply BN1]|]. intros first PF.
    apply (makes_bind (Forall2 Pg gs)).
    { apply makes_each. intros [[[[i ch] n] s] p] I.
      assert (H : 0 < s /\ n <> 0%nat).
      { rewrite Forall_forall in NB. unfold gs in I. repeat destruct I as [I|I]; try contradiction; injection I as <- <- <- <- <-; (split; [lia | apply NB; cbn; auto 6]). }
      apply block_group_good; apply H. }
    intros groups G. apply (makes_bind Pm); [destruct v2; [apply BN1 | exact BN0]|]. intros final PF'.
    apply (makes_bind (fun f => forall d, good (ends d) (ends classes) f f)); [apply linear_good|]. intros logits L. apply makes_ret. exact (conj IC (conj PF (conj G (conj PF' L)))).
  - intros [q [[[[ic first] groups] final] logits]] (IC & PF & G & PF' & L). cbn [snd] in *. apply makes_ret.
    intros mode LM cin d d' x x' Rx. apply alike_within. apply (chain_good (img cin d d') (ends classes)); [|exact Rx].
    unfold gs in G. inversion G as [|? g0 ? ? G0 G']; subst. inversion G' as [|? g1 ? ? G1 G'']; subst. inversion G'' as [|? g2 ? ? G2 G3']; subst. inversion G3' as [|? g3 ? ? G3 G4]; subst. inversion G4; subst.
    cbn [map]. eapply (ch_cons _ _ _ _ _ (IC cin d d')). apply (chained_app _ _ _ _ _ (PF mode LM 64 _ _)).
    eapply (ch_cons _ _ _ _ _ (pool_good 64 _ _ ltac:(lia))).
    eapply (ch_cons _ _ _ _ _ (G0 mode LM 64 _ _ _)). eapply (ch_cons _ _ _ _ _ (G1 mode LM c0 _ _ (or_introl eq_refl))).
    eapply (ch_cons _ _ _ _ _ (G2 mode LM c1 _ _ (or_introl eq_refl))). eapply (ch_cons _ _ _ _ _ (G3 mode LM c2 _ _ (or_introl eq_refl))).
    apply (chained_app _ _ _ _ _ (PF' mode LM c3 _ _)). eapply (ch_cons _ _ _ _ _ (mean_good c3 _ _)). eapply (ch_cons _ _ _ _ _ (L c3)). constructor.
    Unshelve. destruct F0 as [-> | ->]; [left | right]; auto.
Qed.

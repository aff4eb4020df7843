(** C99: no module of Haiku promotes ranks implicitly.

    A run with [jax_numpy_rank_promotion='raise'] is compared with a run that allows promotion.  The state's entries are described by an assignment [rk] of ranks to
    modules and names; a world fits it when every entry that is there has the rank assigned. *)
From Coq Require Import String List Bool Arith Lia.
From Verif Require Import ModelRank.
Import ListNotations.
Local Open Scope string_scope.
Local Open Scope nat_scope.

Definition fits (rk : string -> string -> nat) (w : world) : Prop := forall p n t, find (p, n) w = Some t -> t = rk p n.
(** With promotion raising the run does what it does without, its result satisfies [P] and its state fits. *)
Definition agrees {A} (rk : string -> string -> nat) (m : bool -> M A) (P : A -> Prop) : Prop :=
  forall w, fits rk w -> m true w = m false w /\ forall a w', m false w = Some (a, w') -> P a /\ fits rk w'.

(** *** The logic *)
Lemma key_eqb_eq a b : key_eqb a b = true <-> a = b.
Proof.
  destruct a as [p n], b as [p' n']. unfold key_eqb. cbn. rewrite andb_true_iff, !String.eqb_eq.
  split; [intros [-> ->]; reflexivity | intros E; injection E; auto].
Qed.
Lemma find_put k t w k' : find k' (put k t w) = if key_eqb k' k then Some t else find k' w.
Proof.
  induction w as [|[k1 t1] w IH]; cbn; [reflexivity|].
  destruct (key_eqb k k1) eqn:E; cbn.
  - apply key_eqb_eq in E. subst k1. destruct (key_eqb k' k); reflexivity.
  - destruct (key_eqb k' k1) eqn:E1; [|exact IH].
    apply key_eqb_eq in E1. subst k1. destruct (key_eqb k' k) eqn:E2; [|reflexivity].
    apply key_eqb_eq in E2. subst k'. rewrite (proj2 (key_eqb_eq k k) eq_refl) in E. discriminate.
Qed.
Lemma fits_put rk w p n : fits rk w -> fits rk (put (p, n) (rk p n) w).
Proof.
  intros F q m t E. rewrite find_put in E. destruct (key_eqb (q, m) (p, n)) eqn:K; [|now apply F].
  apply key_eqb_eq in K. injection K as -> ->. now injection E as <-.
Qed.
Lemma fits_nil rk : fits rk []. Proof. intros p n t E. discriminate. Qed.

Section Logic.
Context (rk : string -> string -> nat).
Lemma agrees_weaken {A} (m : bool -> M A) (P Q : A -> Prop) : (forall a, P a -> Q a) -> agrees rk m P -> agrees rk m Q.
Proof. intros I H w F. destruct (H w F) as [E R]. split; [exact E|]. intros a w' X. destruct (R a w' X) as [Pa Fw]. split; [apply I; exact Pa | exact Fw]. Qed.
Lemma agrees_bind {A B} (m : bool -> M A) (f : bool -> A -> M B) (P : A -> Prop) (Q : B -> Prop) :
  agrees rk m P -> (forall a, P a -> agrees rk (fun b => f b a) Q) -> agrees rk (fun b => bind (m b) (f b)) Q.
Proof.
  intros Hm Hf w F. destruct (Hm w F) as [E R]. unfold bind. rewrite E.
  destruct (m false w) as [[a w1]|] eqn:X; [|split; [reflexivity | discriminate]].
  destruct (R a w1 eq_refl) as [Pa F1]. exact (Hf a Pa w1 F1).
Qed.
Lemma agrees_ret {A} (a : A) (P : A -> Prop) : P a -> agrees rk (fun _ => ret a) P.
Proof. intros Pa w F. split; [reflexivity|]. intros b w' E. injection E as <- <-. auto. Qed.
Lemma agrees_param r : agrees rk (fun _ => param r) (eq r). Proof. now apply agrees_ret. Qed.
Lemma agrees_fail {A} (P : A -> Prop) : agrees rk (fun _ => fail) P.
Proof. intros w F. split; [reflexivity | discriminate]. Qed.
Lemma agrees_op x y r : (x = y \/ x = 0 \/ y = 0) -> Nat.max x y = r -> agrees rk (fun b => op b x y) (eq r).
Proof.
  intros H R w F. unfold op, lift, promote. cbn [list_max fold_right forallb].
  rewrite Nat.max_0_r, R.
  assert (E : forallb (fun q => (q =? 0) || (q =? r)) [x; y] = true).
  { cbn. rewrite andb_true_r, andb_true_iff, !orb_true_iff, !Nat.eqb_eq. lia. }
  cbn [forallb] in E. rewrite E. cbn. split; [reflexivity|]. intros a w' X. injection X as <- <-. auto.
Qed.
Lemma agrees_get p n t : rk p n = t -> agrees rk (fun _ => get_state p n t) (eq t).
Proof.
  intros K w F. split; [reflexivity|]. unfold get_state. intros a w' E. destruct (find (p, n) w) as [t'|] eqn:X.
  - injection E as <- <-. split; [|exact F]. apply F in X. congruence.
  - injection E as <- <-. split; [reflexivity|]. rewrite <- K. now apply fits_put.
Qed.
Lemma agrees_read p n t : rk p n = t -> agrees rk (fun _ => read_state p n) (eq t).
Proof.
  intros K w F. split; [reflexivity|]. unfold read_state. intros a w' E. destruct (find (p, n) w) as [t'|] eqn:X; [|discriminate].
  injection E as <- <-. split; [|exact F]. apply F in X. congruence.
Qed.
Lemma agrees_set p n t : rk p n = t -> agrees rk (fun _ => set_state p n t) (fun _ => True).
Proof. intros K w F. split; [reflexivity|]. intros a w' E. injection E as <- <-. split; [exact I|]. rewrite <- K. now apply fits_put. Qed.
Lemma agrees_broadcast a r : agrees rk (fun _ => broadcast_to a r) (eq r).
Proof. unfold broadcast_to. destruct (a <=? r); [now apply agrees_ret | apply agrees_fail]. Qed.
Lemma agrees_dot a b r : (a <> 0 -> b <> 0 -> a + b - 2 = r) -> agrees rk (fun _ => dot a b) (eq r).
Proof.
  intros H. unfold dot. destruct (a =? 0) eqn:A; [apply agrees_fail|]. destruct (b =? 0) eqn:B; [apply agrees_fail|].
  cbn [orb]. apply agrees_ret. symmetry. apply Nat.eqb_neq in A, B. auto.
Qed.
Lemma agrees_concat l r : (forall a t, l = a :: t -> a = r) -> agrees rk (fun _ => concat l) (eq r).
Proof. intros H. destruct l as [|a t]; cbn [concat]; [apply agrees_fail|]. destruct (forallb _ t); [apply agrees_ret; symmetry; eauto | apply agrees_fail]. Qed.
End Logic.

Ltac bnd := eapply agrees_bind.
Tactic Notation "bnd" "with" uconstr(PP) := eapply agrees_bind with (P := PP).
Ltac opr := (apply agrees_op; [try lia | lia]).
Ltac nxt := intros ? <-.

(** *** Modules *)
Section Modules.
Context (rk : string -> string -> nat).
Lemma linear_agrees wb x : agrees rk (fun b => linear b wb x) (eq x).
Proof.
  unfold linear. destruct (x =? 0) eqn:X; [apply agrees_fail|]. apply Nat.eqb_neq in X.
  bnd; [apply agrees_param|]. nxt. bnd; [apply (agrees_dot rk x 2 x); lia|]. nxt.
  destruct wb; [|now apply agrees_ret].
  bnd; [apply agrees_param|]. nxt. bnd; [apply agrees_broadcast|]. nxt. opr.
Qed.
Lemma bias_agrees dims multiplier x : (forall m, multiplier = Some m -> m = 0 \/ m = x) -> agrees rk (fun b => bias b dims multiplier x) (eq x).
Proof.
  intros H. unfold bias. destruct (x <? 2); [apply agrees_fail|].
  bnd; [apply agrees_param|]. nxt. bnd; [apply agrees_broadcast|]. nxt.
  bnd with (eq x); [|nxt; opr].
  destruct multiplier as [m|]; [|now apply agrees_ret]. specialize (H m eq_refl). opr.
Qed.
Lemma conv_agrees ndim first mask wb x : agrees rk (fun b => conv b ndim first mask wb x) (eq x).
Proof.
  unfold conv. destruct (negb _) eqn:R; [apply agrees_fail|].
  apply negb_false_iff, orb_true_iff in R. rewrite !Nat.eqb_eq in R.
  destruct (match mask with Some m => negb (m =? ndim + 2) | None => false end) eqn:K; [apply agrees_fail|].
  bnd; [apply agrees_param|]. nxt.
  bnd with (eq (ndim + 2)).
  { destruct mask as [m|]; [|now apply agrees_ret]. apply negb_false_iff, Nat.eqb_eq in K. opr. }
  nxt. bnd with (eq (ndim + 2)).
  { destruct (_ && _) eqn:B; [|apply agrees_fail]. apply andb_true_iff in B as [B _]. apply Nat.eqb_eq in B. apply agrees_ret. lia. }
  nxt. bnd with (eq (ndim + 2)).
  { destruct wb; [|now apply agrees_ret]. bnd; [apply agrees_param|]. nxt. bnd; [apply agrees_broadcast|]. nxt. opr. }
  nxt. destruct (x =? ndim + 1) eqn:U; apply agrees_ret; [apply Nat.eqb_eq in U | apply Nat.eqb_neq in U]; lia.
Qed.
Lemma depthwise_agrees first wb x : agrees rk (fun b => depthwise b first wb x) (eq x).
Proof.
  unfold depthwise. bnd; [apply agrees_param|]. nxt. bnd with (eq x).
  { destruct (_ && _); [now apply agrees_ret | apply agrees_fail]. }
  nxt. destruct wb; [|now apply agrees_ret]. bnd; [apply agrees_param|]. nxt. bnd; [apply agrees_broadcast|]. nxt. opr.
Qed.
Lemma separable_agrees first wb x : agrees rk (fun b => separable b first wb x) (eq x).
Proof. unfold separable. bnd; [apply depthwise_agrees|]. nxt. apply depthwise_agrees. Qed.

(** The entries of an average of arrays of rank [r]. *)
Definition average_at (p : string) (r : nat) : Prop := rk p "counter" = 0 /\ rk p "hidden" = r /\ rk p "average" = r.
Lemma ema_agrees p zd us x : average_at p x -> agrees rk (fun b => ema b p zd us x) (eq x).
Proof.
  intros (C & H & A). unfold ema.
  bnd; [apply (agrees_get rk p "counter" 0 C)|]. nxt. bnd with (eq 0); [opr|]. nxt.
  bnd; [apply (agrees_get rk p "hidden" x H)|]. nxt.
  bnd with (eq x); [opr|]. nxt. bnd with (eq 0); [opr|]. nxt. bnd with (eq x); [opr|]. nxt. bnd with (eq x); [opr|]. nxt.
  bnd with (eq x).
  { destruct zd; [|now apply agrees_ret]. bnd with (eq 0); [opr|]. nxt. bnd with (eq 0); [opr|]. nxt. opr. }
  nxt. bnd with (fun _ => True); [|intros _ _; now apply agrees_ret].
  destruct us; [|now apply agrees_ret].
  bnd; [apply agrees_set; exact C|]. intros _ _. bnd; [apply agrees_set; exact H|]. intros _ _. apply agrees_set; exact A.
Qed.
Definition norm_at (p : string) (r : nat) : Prop := average_at (inside p "~/mean_ema") r /\ average_at (inside p "~/var_ema") r.
Lemma batch_norm_agrees p cs co tr loc sc off x :
  norm_at p x -> (forall s, sc = Some s -> s = 0 \/ s = x) -> (forall o, off = Some o -> o = 0 \/ o = x) ->
  agrees rk (fun b => batch_norm b p cs co tr loc sc off x) (eq x).
Proof.
  intros [Em Ev] Hs Ho. unfold batch_norm. destruct (_ || _) eqn:G; [apply agrees_fail|].
  bnd with (eq (x, x)).
  { destruct (tr || loc).
    - bnd with (eq x); [opr|]. nxt. bnd with (eq x); [opr|]. nxt. now apply agrees_ret.
    - bnd; [apply agrees_read; apply Em|]. nxt. bnd; [apply agrees_read; apply Ev|]. nxt. now apply agrees_ret. }
  nxt. cbv iota. bnd with (fun _ => True).
  { destruct tr; [|now apply agrees_ret]. bnd; [apply ema_agrees; exact Em|]. nxt. bnd; [apply ema_agrees; exact Ev|]. nxt. now apply agrees_ret. }
  intros _ _.
  bnd with (fun s => s = 0 \/ s = x).
  { destruct cs; apply agrees_ret; [auto|]. destruct sc as [s|]; auto. }
  intros s S. bnd with (fun o => o = 0 \/ o = x).
  { destruct co; apply agrees_ret; [auto|]. destruct off as [o|]; auto. }
  intros o O. bnd with (eq x); [opr|]. nxt. bnd with (eq x); [opr|]. nxt.
  bnd with (eq x); [opr|]. nxt. bnd with (eq x); [opr|]. nxt. opr.
Qed.
Lemma layer_norm_agrees cs co sc off x : agrees rk (fun b => layer_norm b cs co sc off x) (eq x).
Proof.
  unfold layer_norm. destruct (_ || _); [apply agrees_fail|].
  bnd with (fun _ => True); [destruct cs; now apply agrees_ret|]. intros s _.
  bnd with (fun _ => True); [destruct co; now apply agrees_ret|]. intros o _.
  bnd; [apply agrees_broadcast|]. nxt. bnd; [apply agrees_broadcast|]. nxt. bnd; [apply agrees_broadcast|]. nxt.
  bnd with (eq x); [opr|]. nxt. bnd with (eq x); [opr|]. nxt. bnd with (eq x); [opr|]. nxt. bnd with (eq x); [opr|]. nxt. opr.
Qed.
Lemma group_norm_agrees first cs co sc off x :
  (forall s, sc = Some s -> s <= x) -> (forall o, off = Some o -> o <= x) -> agrees rk (fun b => group_norm b first cs co sc off x) (eq x).
Proof.
  intros Hs Ho. unfold group_norm. destruct (_ || _); [apply agrees_fail|]. destruct (x <? _) eqn:L; [apply agrees_fail|]. apply Nat.ltb_ge in L.
  bnd with (fun sc => forall s, sc = Some s -> s <= x).
  { destruct cs; [|now apply agrees_ret]. bnd; [apply agrees_param|]. nxt. apply agrees_ret. intros s E. injection E as <-. destruct first; lia. }
  intros s S. bnd with (fun sc => forall s, sc = Some s -> s <= x).
  { destruct co; [|now apply agrees_ret]. bnd; [apply agrees_param|]. nxt. apply agrees_ret. intros o E. injection E as <-. destruct first; lia. }
  intros o O. cbv zeta.
  bnd with (eq (Nat.max 3 (x + 1))); [opr|]. nxt. bnd with (eq (Nat.max 3 (x + 1))); [opr|]. nxt. bnd with (eq (Nat.max 3 (x + 1))); [opr|]. nxt.
  bnd with (eq x).
  { destruct s as [s|]; [|now apply agrees_ret]. specialize (S s eq_refl). opr. }
  nxt. destruct o as [o|]; [|now apply agrees_ret]. specialize (O o eq_refl). opr.
Qed.
Lemma l2_agrees v : agrees rk (fun b => l2_normalize b v) (eq v).
Proof. unfold l2_normalize. bnd with (eq v); [opr|]. nxt. bnd with (eq v); [opr|]. nxt. opr. Qed.
Lemma power_agrees steps : forall v, (v = None \/ v = Some 2) -> agrees rk (fun b => power b steps 2 2 v) (fun r => fst r = 2 /\ (snd r = None \/ snd r = Some 2)).
Proof.
  induction steps as [|n IH]; intros v V; cbn [power]; [now apply agrees_ret|].
  bnd; [apply (agrees_dot rk 2 2 2); lia|]. nxt. bnd; [apply l2_agrees|]. nxt.
  bnd; [apply (agrees_dot rk 2 2 2); lia|]. nxt. bnd; [apply l2_agrees|]. nxt. apply IH. now right.
Qed.
Lemma spectral_norm_agrees p steps us err x : rk p "u0" = 2 -> rk p "sigma" = 0 -> agrees rk (fun b => spectral_norm b p steps us err x) (eq x).
Proof.
  intros U S. unfold spectral_norm. destruct (_ || _); [apply agrees_fail|].
  bnd; [apply (agrees_get rk p "u0" 2 U)|]. nxt. bnd; [apply power_agrees; now left|].
  intros [u v] [E V]. cbn in E, V. subst u. destruct V as [-> | ->]; [apply agrees_fail|].
  bnd; [apply (agrees_dot rk 2 2 2); lia|]. nxt. bnd; [apply (agrees_dot rk 2 2 2); lia|]. nxt.
  bnd with (eq 0); [now apply agrees_ret|]. nxt.
  bnd with (eq 2); [opr|]. nxt.
  bnd with (fun _ => True); [|intros _ _; now apply agrees_ret].
  destruct us; [|now apply agrees_ret]. bnd; [apply agrees_set; exact U|]. intros _ _. apply agrees_set; exact S.
Qed.
Lemma heads_agrees x : agrees rk (fun b => heads b x) (eq 4).
Proof. unfold heads. bnd; [apply linear_agrees|]. nxt. destruct (x <? 2); [apply agrees_fail | now apply agrees_ret]. Qed.
Lemma attention_agrees mask q k v : (forall m, mask = Some m -> m = 0 \/ m = 4) -> agrees rk (fun b => attention b mask q k v) (eq 3).
Proof.
  intros H. unfold attention. bnd; [apply heads_agrees|]. nxt. bnd; [apply heads_agrees|]. nxt. bnd; [apply heads_agrees|]. nxt. cbv zeta.
  bnd with (eq 4); [opr|]. nxt. bnd with (eq 4).
  { destruct mask as [m|]; [|now apply agrees_ret]. specialize (H m eq_refl).
    bnd with (eq m); [opr|]. nxt. bnd with (eq m); [opr|]. nxt. opr. }
  nxt. cbn [negb Nat.eqb]. apply linear_agrees.
Qed.
Lemma embed_agrees style x : agrees rk (fun _ => embed style x) (eq (x + 1)).
Proof.
  unfold embed. apply (agrees_bind rk (fun _ => param 2) (fun _ e => match style with ArrayIndex => ret (x + 1) | OneHot => dot (x + 1) e end) (eq 2)); [now apply agrees_ret|].
  nxt. destruct style; [now apply agrees_ret|]. apply agrees_dot. lia.
Qed.
Lemma max_pool_agrees x : agrees rk (fun _ => max_pool x) (eq x). Proof. now apply agrees_ret. Qed.
Lemma avg_pool_agrees valid x : agrees rk (fun b => avg_pool b valid x) (eq x). Proof. unfold avg_pool. destruct valid; opr. Qed.
Lemma dropout_agrees z x : agrees rk (fun b => dropout b z x) (eq x).
Proof. unfold dropout. destruct z; [now apply agrees_ret|]. bnd with (eq x); [opr|]. nxt. opr. Qed.
Lemma vq_distances_agrees : agrees rk vq_distances (eq 2).
Proof.
  unfold vq_distances. bnd; [apply (agrees_dot rk 2 2 2); lia|]. nxt. bnd with (eq 2); [opr|]. nxt. bnd with (eq 2); [opr|]. nxt. opr.
Qed.
Lemma vq_perplexity_agrees e : agrees rk (fun b => vq_perplexity b e) (eq 0).
Proof. unfold vq_perplexity. bnd with (eq (e - 1)); [opr|]. nxt. bnd with (eq (e - 1)); [opr|]. nxt. now apply agrees_ret. Qed.
Lemma vq_agrees x : 1 <= x -> agrees rk (fun b => vq b x) (eq x).
Proof.
  intros H. unfold vq. bnd; [apply agrees_param|]. nxt. bnd; [apply vq_distances_agrees|]. nxt. cbv zeta.
  replace (x - 1 + 1) with x by lia.
  bnd with (eq x); [opr|]. nxt. bnd with (eq x); [opr|]. nxt. bnd with (eq x); [opr|]. nxt. bnd with (eq x); [opr|]. nxt.
  bnd with (eq 0); [opr|]. nxt. bnd with (eq 0); [opr|]. nxt. bnd with (eq x); [opr|]. nxt. bnd with (eq x); [opr|]. nxt.
  bnd; [apply vq_perplexity_agrees|]. nxt. now apply agrees_ret.
Qed.
Definition codebook_at (p : string) : Prop := rk p "embeddings" = 2 /\ average_at (inside p "~/ema_cluster_size") 1 /\ average_at (inside p "~/ema_dw") 2.
Lemma vq_ema_agrees p tr x : codebook_at p -> 1 <= x -> agrees rk (fun b => vq_ema b p tr x) (eq x).
Proof.
  intros (E & C & D) H. unfold vq_ema.
  assert (I : forall q r, average_at q r -> agrees rk (fun _ => ema_initialize q r) (fun _ => True)).
  { intros q r (_ & Hh & Ha). unfold ema_initialize.
    apply (agrees_bind rk (fun _ => get_state q "hidden" r) (fun _ _ => get_state q "average" r ;;; ret tt) (eq r)); [now apply agrees_get|]. nxt.
    apply (agrees_bind rk (fun _ => get_state q "average" r) (fun _ _ => ret tt) (eq r)); [now apply agrees_get|]. nxt. now apply agrees_ret. }
  bnd; [apply (agrees_get rk p "embeddings" 2 E)|]. nxt.
  bnd; [apply I; exact C|]. intros _ _. bnd; [apply I; exact D|]. intros _ _.
  bnd; [apply vq_distances_agrees|]. nxt. cbv zeta. replace (x - 1 + 1) with x by lia.
  bnd with (eq x); [opr|]. nxt. bnd with (eq x); [opr|]. nxt.
  bnd with (fun _ => True).
  { destruct tr; [|now apply agrees_ret].
    bnd; [apply ema_agrees; exact C|]. nxt. bnd; [apply (agrees_dot rk 2 2 2); lia|]. nxt. bnd; [apply ema_agrees; exact D|]. nxt.
    bnd with (eq 1); [opr|]. nxt. bnd with (eq 0); [opr|]. nxt. bnd with (eq 1); [opr|]. nxt. bnd with (eq 1); [opr|]. nxt.
    bnd with (eq 2); [opr|]. nxt. apply agrees_set; exact E. }
  intros _ _. bnd with (eq 0); [opr|]. nxt. bnd with (eq x); [opr|]. nxt. bnd with (eq x); [opr|]. nxt.
  bnd; [apply vq_perplexity_agrees|]. nxt. now apply agrees_ret.
Qed.
End Modules.

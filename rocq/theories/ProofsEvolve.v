(** What running any program can and cannot do to the interpreter state: the
    transition invariant [T], proved for every program by induction on fuel.
    Parameters of the development: a predicate [P] on program nodes and a
    preorder [RR] on random sequences, instantiated later. *)
From stdpp Require Import gmap list strings.
From Coq Require Import String Ascii ZArith Lia.
From Verif Require Import ModelStr ModelRng ModelCore SpecCore ProofsStr ProofsMap ProofsNames.
Local Open Scope string_scope.
Local Open Scope list_scope.

Lemma all_ops_node P p : all_ops P p -> P p.
Proof. now intros []. Qed.
Lemma all_ops_child P p q : all_ops P p -> child p q -> all_ops P q.
Proof. intros []. auto. Qed.

(* ------------------------------------------------------------------ *)
(** * The transition relation *)

(** Parameters: bundles and entries never disappear, and a value once stored is
    never replaced (an entry holding [None] counts as missing). *)
Record PT (p p' : bundles val) : Prop := {
  pt_bundle : forall b, is_Some (p !! b) -> is_Some (p' !! b);
  pt_entry : forall b n, is_Some (lookup2 b n p) -> is_Some (lookup2 b n p');
  pt_val : forall b n v, v <> VNone -> lookup2 b n p = Some v -> lookup2 b n p' = Some v }.

(** State: entries never disappear and keep their initial value; entries whose
    name is in [K] also keep their current value. *)
Record STK (K : string -> Prop) (s s' : bundles (val * val)) : Prop := {
  st_bundle : forall b, is_Some (s !! b) -> is_Some (s' !! b);
  st_val : forall b n i c, lookup2 b n s = Some (i, c) -> exists c', lookup2 b n s' = Some (i, c');
  st_keep : forall b n i c, K n -> lookup2 b n s = Some (i, c) -> lookup2 b n s' = Some (i, c) }.

Lemma PT_refl p : PT p p.
Proof. split; auto. Qed.
Lemma PT_trans a b c : PT a b -> PT b c -> PT a c.
Proof. intros [] []. split; auto. Qed.
Lemma ST_refl K p : STK K p p.
Proof. split; eauto. Qed.
Lemma ST_trans K a b c : STK K a b -> STK K b c -> STK K a c.
Proof.
  intros [B1 V1 K1] [B2 V2 K2]. split; [auto| |auto]. intros k n i x H.
  destruct (V1 _ _ _ _ H) as [y H1]. eauto.
Qed.

(** The remaining-stack of a [next] closure only shrinks. *)
Definition nx_le (o o' : nextobj) : Prop :=
  match o, o' with
  | NxCreate s c, NxCreate s' c' => c = c' /\ exists l, s = l ++ s'
  | NxGet s c, NxGet s' c' => c = c' /\ exists l, s = l ++ s'
  | NxCall s m meth b, NxCall s' m' meth' b' => m = m' /\ meth = meth' /\ b = b' /\ exists l, s = l ++ s'
  | _, _ => False
  end.
Lemma nx_le_refl o : nx_le o o.
Proof. destruct o; cbn; repeat split; exists []; reflexivity. Qed.
Lemma nx_le_trans a b c : nx_le a b -> nx_le b c -> nx_le a c.
Proof.
  destruct a, b; cbn; try tauto; destruct c; cbn; try tauto.
  - intros (-> & l & ->) (-> & l' & ->). split; [reflexivity|]. exists (l ++ l'). now rewrite app_assoc.
  - intros (-> & l & ->) (-> & l' & ->). split; [reflexivity|]. exists (l ++ l'). now rewrite app_assoc.
  - intros (-> & -> & -> & l & ->) (-> & -> & -> & l' & ->). repeat split.
    exists (l ++ l'). now rewrite app_assoc.
Qed.

(** No pending interceptor closure can run the constructor of module [m]. *)
Definition noctor (m : nat) (ns : list nextobj) : Prop :=
  forall r s meth cls pre super post, ns !! r <> Some (NxCall s m meth (MCtor cls pre super post)).

Section Evolve.
Variable C : code.
Variable P : prog -> Prop.
Variable Kp : string -> Prop.
Notation ST := (STK Kp).
Variable RR : option rngseq -> option rngseq -> Prop.
Variable RC : option rngseq -> option rngseq -> Prop.

Record FT (f f' : frame) : Prop := {
  ft_frozen : f_frozen f' = f_frozen f;
  ft_frozen_params : f_frozen f = true -> f_params f' = f_params f;
  ft_params : PT (f_params f) (f_params f');
  ft_state : ST (f_state f) (f_state f');
  ft_rng : RR (f_rng f) (f_rng f');
  ft_rngs : f_rngs f' = f_rngs f;
  ft_mods : f_mods f' = f_mods f;
  ft_scopes : Forall2 scope_le (f_scopes f) (f_scopes f') }.

Definition frames_T (a b : list frame) : Prop :=
  match a, b with
  | [], [] => True
  | f :: fs, f' :: fs' => FT f f' /\ fs' = fs
  | _, _ => False
  end.

Notation I := (heap_ok P).

(** [T X w w']: [w'] is reachable from [w]; [X] are modules whose constructor is
    being run. *)
Record T (X : nat -> Prop) (w w' : world) : Prop := {
  t_pcreate : w_pcreate w' = w_pcreate w;
  t_screate : w_screate w' = w_screate w;
  t_pget : w_pget w' = w_pget w;
  t_sget : w_sget w' = w_sget w;
  t_icpt : w_icpt w' = w_icpt w;
  t_frames : frames_T (w_frames w) (w_frames w');
  t_mods : forall m o, w_mods w !! m = Some o -> exists o', w_mods w' !! m = Some o'
           /\ (is_Some (mo_name o) -> is_Some (mo_name o'))
           /\ (is_Some (mo_subs o) -> is_Some (mo_subs o'));
  t_nexts : forall r o, w_nexts w !! r = Some o -> exists o', w_nexts w' !! r = Some o' /\ nx_le o o';
  t_names : forall m o, ~ X m -> w_mods w !! m = Some o -> noctor m (w_nexts w) ->
            noctor m (w_nexts w') /\ exists o', w_mods w' !! m = Some o' /\ mo_name o' = mo_name o;
  t_ctor : forall m, w_mods w' !! m = None -> noctor m (w_nexts w) -> noctor m (w_nexts w');
  t_draws : w_draws w <= w_draws w';
  t_inv : I w -> I w' }.

Hypothesis RR_refl : forall a, RR a a.
Hypothesis RR_trans : forall a b c, RR a b -> RR b c -> RR a c.
Hypothesis RR_none : forall a b, RR a b -> (a = None <-> b = None).
Hypothesis RR_next : forall s k s', seq_next (c_block C) s = Some (k, s') -> RR (Some s) (Some s').
Hypothesis RR_take : forall n s k s', seq_take (c_block C) n s = Some (k, s') -> RR (Some s) (Some s').
Hypothesis RR_reserve : forall n s, RR (Some s) (Some (reserve n s)).
Hypothesis RR_full : forall s, RR (Some s) (Some (reserve_up_to_full (c_block C) s)).
Hypothesis RC_add : forall a b s, RR a (is_rng s) -> RC a b -> RR a (is_rng (add_log a b s)).
Hypothesis P_set : forall n v, P (SetState n v) -> ~ Kp n.
Hypothesis P_ret : forall v, P (Ret v).
Hypothesis C_ok : code_ok P C.

Lemma FT_refl f : FT f f.
Proof.
  split; auto using PT_refl, ST_refl. induction (f_scopes f); constructor; auto using scope_le_refl.
Qed.
Lemma Forall2_scope_trans a b c :
  Forall2 scope_le a b -> Forall2 scope_le b c -> Forall2 scope_le a c.
Proof.
  intros H. revert c. induction H; intros c G; inversion G; subst; constructor;
    eauto using scope_le_trans.
Qed.
Lemma FT_trans a b c : FT a b -> FT b c -> FT a c.
Proof.
  intros [] []. split; eauto using PT_trans, ST_trans, Forall2_scope_trans; try congruence.
  intros H. rewrite ft_frozen_params1, ft_frozen_params0; congruence.
Qed.

Lemma frames_T_refl a : frames_T a a.
Proof. destruct a; cbn; auto using FT_refl. Qed.
Lemma frames_T_trans a b c : frames_T a b -> frames_T b c -> frames_T a c.
Proof.
  destruct a, b, c; cbn; try tauto. intros [H1 ->] [H2 ->]. eauto using FT_trans.
Qed.

Lemma T_refl X w : T X w w.
Proof.
  split; auto using frames_T_refl.
  - intros m o H. exists o. auto.
  - intros r o H. exists o. auto using nx_le_refl.
  - intros m o _ H N. split; [assumption|]. exists o. auto.
Qed.
Lemma T_trans X a b c : T X a b -> T X b c -> T X a c.
Proof.
  intros H1 H2. split.
  1-5: (etransitivity; [apply H2|apply H1]).
  - eapply frames_T_trans; [apply H1|apply H2].
  - intros m o H. destruct (t_mods _ _ _ H1 _ _ H) as (o1 & E1 & N1 & S1).
    destruct (t_mods _ _ _ H2 _ _ E1) as (o2 & E2 & N2 & S2). exists o2. auto.
  - intros r o H. destruct (t_nexts _ _ _ H1 _ _ H) as (o1 & E1 & L1).
    destruct (t_nexts _ _ _ H2 _ _ E1) as (o2 & E2 & L2). eauto using nx_le_trans.
  - intros m o HX H N. destruct (t_names _ _ _ H1 _ _ HX H N) as (N1 & o1 & E1 & M1).
    destruct (t_names _ _ _ H2 _ _ HX E1 N1) as (N2 & o2 & E2 & M2).
    split; [assumption|]. exists o2. split; congruence.
  - intros m E N. apply (t_ctor _ _ _ H2); [assumption|]. apply (t_ctor _ _ _ H1); [|assumption].
    destruct (w_mods b !! m) as [o|] eqn:Eb; [|reflexivity].
    destruct (t_mods _ _ _ H2 _ _ Eb) as (o' & E' & _). congruence.
  - transitivity (w_draws b); [apply H1|apply H2].
  - intros H. apply H2, H1, H.
Qed.
Lemma T_weaken (X Y : nat -> Prop) a b : (forall m, X m -> Y m) -> T X a b -> T Y a b.
Proof. intros S []. split; auto. Qed.

(** A change confined to the frames. *)
Lemma T_frames X w fs : frames_T (w_frames w) fs -> T X w (set_frames fs w).
Proof.
  intros H. pose proof (T_refl X w) as []. destruct w. split; cbn in *; auto.
Qed.
Lemma T_on_top X w g : (forall f, FT f (g f)) -> T X w (on_top g w).
Proof.
  intros H. unfold on_top. destruct (w_frames w) as [|f fs] eqn:E; [apply T_refl|].
  apply T_frames. rewrite E. cbn. auto.
Qed.
Lemma T_on_top' X w g f fs : w_frames w = f :: fs -> FT f (g f) -> T X w (on_top g w).
Proof.
  intros E H. unfold on_top. rewrite E. apply T_frames. rewrite E. cbn. auto.
Qed.
Lemma on_top_frames g w f fs : w_frames w = f :: fs -> w_frames (on_top g w) = g f :: fs.
Proof. intros E. unfold on_top. rewrite E. reflexivity. Qed.
Lemma on_top_nexts g w : w_nexts (on_top g w) = w_nexts w.
Proof. unfold on_top. destruct (w_frames w); reflexivity. Qed.
Lemma on_top_mods g w : w_mods (on_top g w) = w_mods w.
Proof. unfold on_top. destruct (w_frames w); reflexivity. Qed.

(* ------------------------------------------------------------------ *)
(** * Weakest preconditions, pointwise *)

Definition wp {A} (X : nat -> Prop) (w : world) (m : M A) (Q : A -> world -> Prop) : Prop :=
  I w -> forall r w', m w = (r, w') -> T X w w' /\ (forall a, r = Ok a -> Q a w').

Lemma wp_conseq {A} X w (m : M A) (Q Q' : A -> world -> Prop) :
  wp X w m Q -> (forall a w', T X w w' -> I w' -> Q a w' -> Q' a w') -> wp X w m Q'.
Proof.
  intros H K Hi r w' E. destruct (H Hi r w' E) as [Ht Hq]. split; [assumption|].
  intros a ->. apply K; auto. now apply Ht.
Qed.
Lemma wp_true {A} X w (m : M A) Q : wp X w m Q -> wp X w m (fun _ _ => True).
Proof. intros H. eapply wp_conseq; eauto. Qed.
Lemma wp_weaken {A} (X Y : nat -> Prop) w (m : M A) Q :
  (forall m, X m -> Y m) -> wp X w m Q -> wp Y w m Q.
Proof. intros S H Hi r w' E. destruct (H Hi _ _ E). split; [eapply T_weaken; eauto|auto]. Qed.

Lemma wp_ret {A} X w (a : A) (Q : A -> world -> Prop) : Q a w -> wp X w (retM a) Q.
Proof.
  intros H Hi r w' E. injection E as <- <-. split; [apply T_refl|]. intros a' [= <-]. exact H.
Qed.
Lemma wp_throw {A} X w e (Q : A -> world -> Prop) : wp X w (throw e) Q.
Proof. intros Hi r w' E. injection E as <- <-. split; [apply T_refl|]. discriminate. Qed.
Lemma wp_fuel {A} X w (Q : A -> world -> Prop) : wp X w (fun w => (Fuel, w)) Q.
Proof. intros Hi r w' E. injection E as <- <-. split; [apply T_refl|]. discriminate. Qed.
Lemma wp_reads {A} X w (g : world -> A) (Q : A -> world -> Prop) : Q (g w) w -> wp X w (reads g) Q.
Proof.
  intros H Hi r w' E. injection E as <- <-. split; [apply T_refl|]. intros a' [= <-]. exact H.
Qed.
Lemma wp_modify X w g (Q : unit -> world -> Prop) :
  (I w -> T X w (g w)) -> Q tt (g w) -> wp X w (modify g) Q.
Proof.
  intros H K Hi r w' E. injection E as <- <-. split; [auto|]. intros a' [= <-]. exact K.
Qed.
Lemma wp_top X w (Q : frame -> world -> Prop) :
  (forall f fs, w_frames w = f :: fs -> Q f w) -> wp X w top_frame Q.
Proof.
  intros H Hi r w' E. unfold top_frame in E. destruct (w_frames w) as [|f fs] eqn:F;
    injection E as <- <-; (split; [apply T_refl|]); [discriminate|].
  intros a [= <-]. eapply H; eauto.
Qed.
Lemma wp_bind {A B} X w (m : M A) (k : A -> M B) Q1 Q2 :
  wp X w m Q1 ->
  (forall a w1, T X w w1 -> Q1 a w1 -> wp X w1 (k a) Q2) ->
  wp X w (bindM m k) Q2.
Proof.
  intros H K Hi r w' E. unfold bindM in E. destruct (m w) as [r1 w1] eqn:E1.
  destruct (H Hi _ _ E1) as [T1 G].
  destruct r1 as [a|e|].
  - destruct (K a w1 T1 (G _ eq_refl) (t_inv _ _ _ T1 Hi) _ _ E) as [T2 G2].
    split; [eapply T_trans; eauto|assumption].
  - injection E as <- <-. split; [assumption|discriminate].
  - injection E as <- <-. split; [assumption|discriminate].
Qed.

Lemma wp_bind_reads {A B} X w (g : world -> A) (k : A -> M B) Q :
  wp X w (k (g w)) Q -> wp X w (bindM (reads g) k) Q.
Proof. intros H. exact H. Qed.
Lemma wp_bind_ret {A B} X w (a : A) (k : A -> M B) Q :
  wp X w (k a) Q -> wp X w (bindM (retM a) k) Q.
Proof. intros H. exact H. Qed.
Lemma wp_bind_throw {A B} X w e (k : A -> M B) Q : wp X w (bindM (throw e) k) Q.
Proof. apply (wp_throw (A:=B)). Qed.
Lemma wp_bind_top {B} X w (k : frame -> M B) Q :
  (forall f fs, w_frames w = f :: fs -> wp X w (k f) Q) -> wp X w (bindM top_frame k) Q.
Proof.
  intros H Hi r w' E. unfold bindM, top_frame in E.
  destruct (w_frames w) as [|f fs] eqn:F.
  - injection E as <- <-. split; [apply T_refl|discriminate].
  - exact (H f fs eq_refl Hi r w' E).
Qed.
Lemma wp_bind_modify {B} X w g (k : unit -> M B) Q :
  (I w -> T X w (g w)) -> wp X (g w) (k tt) Q -> wp X w (bindM (modify g) k) Q.
Proof.
  intros H K Hi r w' E. specialize (H Hi). destruct (K (t_inv _ _ _ H Hi) r w' E) as [T2 G].
  split; [eapply T_trans; eauto|assumption].
Qed.
(** Sequencing when only the transition matters. *)
Lemma wp_seq {A B} X w (m : M A) (k : A -> M B) Q :
  wp X w m (fun _ _ => True) -> (forall a w1, T X w w1 -> wp X w1 (k a) Q) -> wp X w (bindM m k) Q.
Proof. intros H K. eapply wp_bind; [exact H|]. auto. Qed.

(** [scoped]: what holds of the body's run between push and pop carries over. *)
Lemma wp_scoped {A} X w (push pop : world -> world) (m : M A) (Q Q' : A -> world -> Prop) :
  (I w -> I (push w)) ->
  wp X (push w) m Q ->
  (forall w1, T X (push w) w1 -> T X w (pop w1)) ->
  (forall a w1, T X (push w) w1 -> Q a w1 -> Q' a (pop w1)) ->
  wp X w (scoped push pop m) Q'.
Proof.
  intros Hp H K1 K2 Hi r w' E. unfold scoped in E. destruct (m (push w)) as [r1 w1] eqn:E1.
  injection E as <- <-. destruct (H (Hp Hi) _ _ E1) as [T1 G].
  split; [auto|]. intros a ->. auto.
Qed.

(** Computations under an extra frame. *)
Lemma wp_in_frame {A} X w f (m : M A) (Q : A -> world -> Prop) (Q' : A * frame -> world -> Prop) :
  wp X (set_frames (f :: w_frames w) w) m Q ->
  (forall a f1 w1, T X (set_frames (f :: w_frames w) w) w1 -> Q a w1 ->
     w_frames w1 = f1 :: w_frames w -> FT f f1 ->
     Q' (a, f1) (set_frames (w_frames w) w1)) ->
  wp X w (in_frame f m) Q'.
Proof.
  intros H K Hi r w' E. unfold in_frame in E.
  destruct (m (set_frames (f :: w_frames w) w)) as [r1 w1] eqn:E1.
  assert (Hi' : I (set_frames (f :: w_frames w) w)) by (destruct w; exact Hi).
  destruct (H Hi' _ _ E1) as [T1 G].
  pose proof (t_frames _ _ _ T1) as TF. unfold set_frames in TF at 1. cbn [w_frames] in TF.
  destruct (w_frames w1) as [|f1 fs1] eqn:F1; [destruct TF|].
  destruct TF as [TF ->].
  assert (TT : T X w (set_frames (w_frames w) w1)).
  { destruct T1. destruct w, w1; cbn in *. split; cbn; auto. apply frames_T_refl. }
  destruct r1 as [a|e|]; injection E as <- <-; (split; [assumption|]); try discriminate.
  intros a' [= <-]. eapply K; eauto.
Qed.

(* ------------------------------------------------------------------ *)
(** * base.py *)

Variable rn : prog -> M val.
Hypothesis Hrn : forall p X w, all_ops P p -> wp X w (rn p) (fun _ _ => True).
Hypothesis Hrn_while : forall c b v0, P (While c b v0) -> forall v w r w' f fs f' fs',
  rn (c v) w = (r, w') -> w_frames w = f :: fs -> w_frames w' = f' :: fs' -> RC (f_rng f) (f_rng f').

Lemma wp_rn p X w (Q : val -> world -> Prop) : all_ops P p -> (forall a w', T X w w' -> Q a w') -> wp X w (rn p) Q.
Proof. intros H K. eapply wp_conseq; [now apply Hrn|]. auto. Qed.


(** Computations that do not change the world. *)
Definition pure_m {A} (m : M A) : Prop := forall w r w', m w = (r, w') -> w' = w.
Lemma wp_pure {A} X w (m : M A) : pure_m m -> wp X w m (fun _ w' => w' = w).
Proof. intros H _ r w' E. apply H in E. subst. split; [apply T_refl|auto]. Qed.
Lemma wp_bind_pure {A B} X w (m : M A) (k : A -> M B) Q :
  pure_m m -> (forall a, wp X w (k a) Q) -> wp X w (bindM m k) Q.
Proof.
  intros H K. eapply wp_bind; [now apply wp_pure|]. intros a w1 _ ->. apply K.
Qed.
Lemma pure_ret {A} (a : A) : pure_m (retM a).
Proof. intros w r w' [= <- <-]. reflexivity. Qed.
Lemma pure_throw {A} e : pure_m (A:=A) (throw e).
Proof. intros w r w' [= <- <-]. reflexivity. Qed.
Lemma pure_reads {A} (g : world -> A) : pure_m (reads g).
Proof. intros w r w' [= <- <-]. reflexivity. Qed.
Lemma pure_top : pure_m top_frame.
Proof. intros w r w' E. unfold top_frame in E. destruct (w_frames w); now injection E as <- <-. Qed.
Lemma pure_bind {A B} (m : M A) (k : A -> M B) : pure_m m -> (forall a, pure_m (k a)) -> pure_m (bindM m k).
Proof.
  intros H K w r w' E. unfold bindM in E. destruct (m w) as [r1 w1] eqn:E1.
  apply H in E1. subst w1. destruct r1; [eapply K; eauto| |]; now injection E as <- <-.
Qed.
Lemma pure_safe_name m : pure_m (safe_get_module_name m).
Proof.
  apply pure_bind; [apply pure_reads|]. intros ms. destruct (ms !! m) as [[[n|] s]|];
    auto using pure_ret, pure_throw.
Qed.
Lemma pure_bundle_name : pure_m current_bundle_name.
Proof.
  apply pure_bind; [apply pure_top|]. intros f.
  destruct (f_mods f) as [|[m meth] ?]; auto using pure_ret, pure_safe_name.
Qed.

(** Heap of [next] closures. *)
Lemma noctor_app m ns o :
  noctor m ns -> (forall s meth cls pre super post, o <> NxCall s m meth (MCtor cls pre super post)) ->
  noctor m (ns ++ [o]).
Proof.
  intros H K r s meth cls pre super post E. apply lookup_app_Some in E as [E|[_ E]].
  - exact (H _ _ _ _ _ _ _ E).
  - apply list_lookup_singleton_Some in E as [_ E]. exact (K _ _ _ _ _ _ E).
Qed.

(** The new object must not be the constructor of an existing module. *)
Lemma wp_alloc (X : nat -> Prop) w o (Q : nat -> world -> Prop) :
  next_ok P o ->
  (forall m s meth cls pre super post, o = NxCall s m meth (MCtor cls pre super post) ->
     X m /\ is_Some (w_mods w !! m)) ->
  Q (List.length (w_nexts w)) (set_nexts (w_nexts w ++ [o]) w) ->
  wp X w (alloc_next o) Q.
Proof.
  intros Ho Hc HQ. unfold alloc_next. apply wp_bind_reads. apply wp_bind_modify.
  - intros Hi. pose proof (T_refl X w) as []. destruct w as [w1 w2 w3 w4 w5 w6 ms ns d]. split; cbn in *; auto.
    + intros r o' E. exists o'. split; [|apply nx_le_refl]. now apply lookup_app_l_Some.
    + intros m o' HX E N. destruct (t_names0 _ _ HX E N) as [_ R]. split; [|exact R].
      apply noctor_app; [exact N|]. intros s meth cls pre super post ->. eapply HX, Hc; eauto.
    + intros m E N. apply noctor_app; [exact N|]. intros s meth cls pre super post ->.
      destruct (Hc _ _ _ _ _ _ _ eq_refl) as [_ [o' E']]. congruence.
    + intros _. unfold heap_ok in *. cbn in *. apply Forall_app. auto.
  - apply wp_ret. exact HQ.
Qed.

(** Shrinking the stack of a [next] closure. *)
Lemma T_shrink (X : nat -> Prop) w r o o' :
  w_nexts w !! r = Some o -> nx_le o o' -> T X w (set_nexts (<[r := o']> (w_nexts w)) w).
Proof.
  intros E L. pose proof (T_refl X w) as [].
  destruct w as [w1 w2 w3 w4 w5 w6 ms ns d].
  assert (Hn : forall m, noctor m ns -> noctor m (<[r := o']> ns)).
  { intros m N r1 s meth cls pre super post E2. cbn in E. destruct (decide (r1 = r)) as [->|N1].
    + rewrite list_lookup_insert in E2 by (eapply lookup_lt_Some; eauto). injection E2 as ->.
      destruct o; cbn in L; try tauto. destruct L as (-> & -> & -> & _). exact (N _ _ _ _ _ _ _ E).
    + rewrite list_lookup_insert_ne in E2 by congruence. exact (N _ _ _ _ _ _ _ E2). }
  split; cbn in *; auto.
  - intros r1 o1 E1. destruct (decide (r1 = r)) as [->|N].
    + exists o'. rewrite list_lookup_insert by (eapply lookup_lt_Some; eauto).
      split; [reflexivity|congruence].
    + exists o1. rewrite list_lookup_insert_ne by congruence. auto using nx_le_refl.
  - intros m o1 HX E1 N. destruct (t_names0 _ _ HX E1 N) as [_ R]. split; [|exact R]. now apply Hn.
  - unfold heap_ok. cbn. intros H. apply Forall_insert; [exact H|].
    rewrite Forall_lookup in H. specialize (H _ _ E).
    destruct o, o'; cbn in *; try tauto. destruct L as (_ & _ & <- & _). exact H.
Qed.

Lemma nx_create_tl c s x : nx_le (NxCreate (c :: s) x) (NxCreate s x).
Proof. split; [reflexivity|]. now exists [c]. Qed.
Lemma nx_get_tl c s x : nx_le (NxGet (c :: s) x) (NxGet s x).
Proof. split; [reflexivity|]. now exists [c]. Qed.
Lemma nx_call_tl c s m meth b : nx_le (NxCall (c :: s) m meth b) (NxCall s m meth b).
Proof. repeat split. now exists [c]. Qed.

Lemma wp_next_create X w r sh dt i : wp X w (next_create C rn r sh dt i) (fun _ _ => True).
Proof.
  unfold next_create. apply wp_bind_reads.
  destruct (w_nexts w !! r) as [[[|c rest] ctx| |]|] eqn:E; try apply wp_throw.
  - apply Hrn, C_ok.
  - apply wp_bind_modify; [|apply Hrn, C_ok].
    intros _. eapply T_shrink; eauto using nx_create_tl.
Qed.
Lemma wp_run_creators X w s ctx sh dt i : wp X w (run_creators C rn s ctx sh dt i) (fun _ _ => True).
Proof.
  unfold run_creators. destruct s; [apply Hrn, C_ok|].
  eapply wp_seq; [apply wp_alloc; [exact Logic.I|discriminate|exact Logic.I]|].
  intros a w1 _. apply wp_next_create.
Qed.
Lemma wp_next_get X w r v : wp X w (next_get C rn r v) (fun _ _ => True).
Proof.
  unfold next_get. apply wp_bind_reads.
  destruct (w_nexts w !! r) as [[|[|g rest] ctx|]|] eqn:E; try apply wp_throw.
  - now apply wp_ret.
  - apply wp_bind_modify; [|apply Hrn, C_ok].
    intros _. eapply T_shrink; eauto using nx_get_tl.
Qed.
Lemma wp_run_getters X w s ctx v : wp X w (run_getters C rn s ctx v) (fun _ _ => True).
Proof.
  unfold run_getters. destruct s; [now apply wp_ret|].
  eapply wp_seq; [apply wp_alloc; [exact Logic.I|discriminate|exact Logic.I]|].
  intros a w1 _. apply wp_next_get.
Qed.

(** Frame changes. *)
Lemma FT_set_params f p : f_frozen f = false -> PT (f_params f) p -> FT f (set_params p f).
Proof. intros H K. pose proof (FT_refl f) as []. split; cbn; auto. congruence. Qed.
Lemma FT_set_fstate f s : ST (f_state f) s -> FT f (set_fstate s f).
Proof. intros K. pose proof (FT_refl f) as []. split; cbn; auto. Qed.
Lemma FT_set_rng f r : RR (f_rng f) r -> FT f (set_rng r f).
Proof. intros K. pose proof (FT_refl f) as []. split; cbn; auto. Qed.

Lemma PT_touch b p : PT p (touch b p).
Proof.
  split.
  - intros. now apply touch_bundle.
  - intros b' n. now rewrite lookup2_touch.
  - intros b' n v _. now rewrite lookup2_touch.
Qed.
Lemma ST_touch b p : ST p (touch b p).
Proof.
  split.
  - intros. now apply touch_bundle.
  - intros b' n i c. rewrite lookup2_touch. eauto.
  - intros b' n i c _. now rewrite lookup2_touch.
Qed.
Lemma PT_insert2 b n v p q :
  PT p q -> not_none (lookup2 b n p) = None -> PT p (insert2 b n v q).
Proof.
  intros [B E V] H. split.
  - intros. apply insert2_bundle. auto.
  - intros b' n' K. rewrite lookup2_insert2. destruct (decide _); [eauto|auto].
  - intros b' n' v' Hv K. rewrite lookup2_insert2. destruct (decide _) as [[-> ->]|]; [|auto].
    exfalso. rewrite K in H. destruct v'; cbn in H; congruence.
Qed.
Lemma ST_insert2 b n v p q :
  ST p q -> lookup2 b n p = None -> ST p (insert2 b n v q).
Proof.
  intros [B V KV] H. split.
  - intros. apply insert2_bundle. auto.
  - intros b' n' i c K. rewrite lookup2_insert2. destruct (decide _) as [[-> ->]|]; [congruence|eauto].
  - intros b' n' i c HK K. rewrite lookup2_insert2. destruct (decide _) as [[-> ->]|]; [congruence|eauto].
Qed.

(** A get_parameter/get_state creation: run [m], then store. *)
Lemma wp_then_store X w f fs (m : M val) g (Q : val -> world -> Prop) :
  w_frames w = f :: fs ->
  wp X w m (fun _ _ => True) ->
  (forall v f', FT f f' -> FT f (g v f')) ->
  (forall v w', T X w w' -> Q v w') ->
  wp X w (bindM m (fun v => bindM (modify (on_top (g v))) (fun _ => retM v))) Q.
Proof.
  intros F H K KQ Hi r w' E. unfold bindM in E.
  destruct (m w) as [r1 w1] eqn:E1. destruct (H Hi _ _ E1) as [T1 _].
  assert (T X w w1 -> forall v, T X w (on_top (g v) w1)) as KT.
  { intros T2 v. pose proof (t_frames _ _ _ T2) as TF. rewrite F in TF.
    destruct (w_frames w1) as [|f1 fs1] eqn:F1; [destruct TF|]. destruct TF as [TF ->].
    unfold on_top. rewrite F1. destruct T2. destruct w, w1; cbn in *; subst.
    split; cbn; auto. }
  destruct r1 as [v|e|]; cbn in E; injection E as <- <-.
  - split; [auto|]. intros a [= <-]. auto.
  - split; [auto|discriminate].
  - split; [auto|discriminate].
Qed.

Lemma wp_get_parameter X w n sh dt i : wp X w (get_parameter C rn n sh dt i) (fun _ _ => True).
Proof.
  unfold get_parameter. apply wp_bind_top. intros f0 fs0 F0.
  destruct i as [i|]; [|apply wp_throw].
  apply wp_bind_pure; [apply pure_bundle_name|]. intros b.
  apply wp_bind_top. intros f fs F. rewrite F0 in F. injection F as -> ->.
  destruct (f_frozen f && negb (bool_decide (is_Some (f_params f !! b)))); [apply wp_throw|].
  apply wp_bind_modify.
  { intros _. apply T_on_top. intros f'. destruct (f_frozen f') eqn:Z; [apply FT_refl|].
    apply FT_set_params; [assumption|apply PT_touch]. }
  set (g := fun f => if f_frozen f then f else set_params (touch b (f_params f)) f).
  assert (F1 : w_frames (on_top g w) = g f :: fs) by (now apply on_top_frames).
  revert F1. generalize (on_top g w). clear w F0. intros w F1.
  eapply wp_seq.
  - destruct (not_none (lookup2 b n (f_params f))) as [v|] eqn:L; [now apply wp_ret|].
    destruct (f_frozen f) eqn:Z; [apply wp_throw|].
    apply wp_bind_reads. eapply wp_then_store; [eassumption|apply wp_run_creators| |auto].
    intros v f' HF. destruct HF. unfold g in *. rewrite Z in *. cbn in *.
    split; cbn; auto; try congruence.
    apply PT_insert2; [assumption|]. now rewrite lookup2_touch.
  - intros v w1 _. apply wp_bind_reads. eapply wp_seq; [apply wp_run_getters|].
    intros v' w2 _. destruct (vshape v') as [sh'|]; [|apply wp_throw].
    destruct (bool_decide (sh' = sh)); [now apply wp_ret|apply wp_throw].
Qed.

Lemma wp_get_state X w n sh dt i : wp X w (get_state C rn n sh dt i) (fun _ _ => True).
Proof.
  unfold get_state. apply wp_bind_pure; [apply pure_bundle_name|]. intros b.
  apply wp_bind_top. intros f fs F.
  apply wp_bind_modify.
  { intros _. apply T_on_top. intros f'. apply FT_set_fstate, ST_touch. }
  set (g := fun f => set_fstate (touch b (f_state f)) f).
  assert (F1 : w_frames (on_top g w) = g f :: fs) by (now apply on_top_frames).
  revert F1. generalize (on_top g w). clear w F. intros w F1.
  eapply wp_seq.
  - destruct (lookup2 b n (f_state f)) as [[i0 c0]|] eqn:L; [now apply wp_ret|].
    destruct i as [i|]; [|apply wp_throw].
    destruct sh as [sh|], dt as [dt|]; try apply wp_throw.
    apply wp_bind_reads. eapply wp_then_store; [eassumption|apply wp_run_creators| |auto].
    intros v f' HF. destruct HF. unfold g in *. cbn in *.
    split; cbn; auto; try congruence.
    apply ST_insert2; [assumption|]. now rewrite lookup2_touch.
  - intros v w1 _. apply wp_bind_reads. apply wp_run_getters.
Qed.

Lemma wp_set_state X w n v : ~ Kp n -> wp X w (set_state n v) (fun _ _ => True).
Proof.
  intros HK. unfold set_state. apply wp_bind_pure; [apply pure_bundle_name|]. intros b.
  apply wp_bind_modify; [|now apply wp_ret].
  intros _. apply T_on_top. intros f. apply FT_set_fstate.
  split.
  - intros b' H. now apply insert2_bundle.
  - intros b' n' i c H. rewrite lookup2_insert2. destruct (decide _) as [[-> ->]|]; [|eauto].
    rewrite H. eauto.
  - intros b' n' i c HK' H. rewrite lookup2_insert2. destruct (decide _) as [[-> ->]|]; [|eauto].
    contradiction.
Qed.

Lemma wp_with_seq {A} X w (g : rngseq -> option (A * rngseq)) :
  (forall s a s', g s = Some (a, s') -> RR (Some s) (Some s')) ->
  wp X w (with_seq g) (fun _ _ => True).
Proof.
  intros H. unfold with_seq. apply wp_bind_top. intros f fs F.
  destruct (f_rng f) as [s|] eqn:R; [|apply wp_throw].
  destruct (g s) as [[a s']|] eqn:G; [|apply wp_throw].
  apply wp_bind_modify; [|now apply wp_ret].
  intros _. eapply T_on_top'; [eassumption|]. apply FT_set_rng. rewrite R. eauto.
Qed.

Lemma T_draws X w : T X w (set_draws (S (w_draws w)) w).
Proof. pose proof (T_refl X w) as []. destruct w. split; cbn in *; auto. Qed.

Lemma wp_next_key X w : wp X w (next_rng_key C) (fun _ _ => True).
Proof.
  unfold next_rng_key. apply wp_bind_top. intros _ _ _. apply wp_bind_modify.
  { intros _. apply T_draws. }
  eapply wp_seq; [apply wp_with_seq; eauto|]. intros. now apply wp_ret.
Qed.
Lemma wp_next_keys X w n : wp X w (next_rng_keys C n) (fun _ _ => True).
Proof.
  unfold next_rng_keys. eapply wp_seq; [apply wp_with_seq; eauto|]. intros. now apply wp_ret.
Qed.
Lemma wp_maybe_next X w : wp X w (maybe_next_rng_key C) (fun _ _ => True).
Proof.
  unfold maybe_next_rng_key. apply wp_bind_top. intros f _ _.
  destruct (f_rng f); [|now apply wp_ret].
  eapply wp_seq; [apply wp_with_seq; eauto|]. intros. now apply wp_ret.
Qed.
Lemma wp_reserve X w n : wp X w (reserve_rng_keys n) (fun _ _ => True).
Proof. apply wp_with_seq. intros s a s' [= <- <-]. apply RR_reserve. Qed.

(** Scoped pushes and pops. *)
Lemma wp_with_rng X w k p : all_ops P p ->
  wp X w (scoped (push_rng (Some (seq_of_key k))) pop_rng (rn p)) (fun _ _ => True).
Proof.
  intros H. eapply wp_scoped; [|apply Hrn; assumption| |auto].
  - unfold push_rng, I. now rewrite on_top_nexts.
  - intros w1 T1. unfold push_rng, pop_rng, on_top in *.
    destruct (w_frames w) as [|f fs] eqn:F.
    + pose proof (t_frames _ _ _ T1) as TF. rewrite F in TF. destruct (w_frames w1); [exact T1|destruct TF].
    + pose proof (t_frames _ _ _ T1) as TF. cbn [w_frames set_frames] in TF.
      destruct (w_frames w1) as [|f1 fs1] eqn:F1; [destruct TF|]. destruct TF as [TF ->].
      destruct TF. cbn in *. rewrite ft_rngs0.
      destruct T1. destruct w, w1; cbn in *; subst. split; cbn; auto.
      split; [|reflexivity]. split; cbn; auto.
Qed.

Lemma wp_with_creator X w c ps ss p : all_ops P p ->
  wp X w (scoped (fun w => set_creators (push_if ps c (w_pcreate w)) (push_if ss c (w_screate w)) w)
             (fun w => set_creators (pop_if ps (w_pcreate w)) (pop_if ss (w_screate w)) w)
             (rn p)) (fun _ _ => True).
Proof.
  intros H. eapply wp_scoped; [|apply Hrn; assumption| |auto].
  - now destruct w.
  - intros w1 []. destruct w, w1; cbn in *. split; cbn; auto; subst; unfold push_if, pop_if.
    + now destruct ps.
    + now destruct ss.
Qed.
Lemma wp_with_getter X w c ps ss p : all_ops P p ->
  wp X w (scoped (fun w => set_getters (push_if ps c (w_pget w)) (push_if ss c (w_sget w)) w)
             (fun w => set_getters (pop_if ps (w_pget w)) (pop_if ss (w_sget w)) w)
             (rn p)) (fun _ _ => True).
Proof.
  intros H. eapply wp_scoped; [|apply Hrn; assumption| |auto].
  - now destruct w.
  - intros w1 []. destruct w, w1; cbn in *. split; cbn; auto; subst; unfold push_if, pop_if.
    + now destruct ps.
    + now destruct ss.
Qed.
Lemma wp_intercept X w i p : all_ops P p ->
  wp X w (scoped (fun w => set_icpt (i :: w_icpt w) w) (fun w => set_icpt (tail (w_icpt w)) w) (rn p))
     (fun _ _ => True).
Proof.
  intros H. eapply wp_scoped; [|apply Hrn; assumption| |auto].
  - now destruct w.
  - intros w1 []. destruct w, w1; cbn in *. split; cbn; auto; subst; reflexivity.
Qed.

(* ------------------------------------------------------------------ *)
(** * module.py *)

Lemma wp_push_module {A} X w ms (m : M A) (Q : A -> world -> Prop) :
  wp X (push_module ms w) m (fun a w1 => Q a (pop_module w1)) ->
  wp X w (scoped (push_module ms) pop_module m) Q.
Proof.
  intros H. eapply wp_scoped; [|exact H| |].
  - unfold push_module, I. now rewrite on_top_nexts.
  - intros w1 T1. unfold push_module, pop_module, on_top in *.
    destruct (w_frames w) as [|f fs] eqn:F.
    + pose proof (t_frames _ _ _ T1) as TF. rewrite F in TF. destruct (w_frames w1); [exact T1|destruct TF].
    + pose proof (t_frames _ _ _ T1) as TF. cbn [w_frames set_frames] in TF.
      destruct (w_frames w1) as [|f1 fs1] eqn:F1; [destruct TF|]. destruct TF as [TF ->].
      destruct TF. cbn in *.
      destruct T1. destruct w, w1; cbn in *; subst. split; cbn; auto.
      split; [|reflexivity]. split; cbn; auto.
      * now rewrite ft_mods0.
      * inversion ft_scopes0; subst. cbn. assumption.
  - auto.
Qed.

Lemma pure_scoped_name f n : pure_m (scoped_name f n).
Proof.
  unfold scoped_name. destruct (f_mods f) as [|? [|[pm meth] ?]]; try apply pure_ret.
  apply pure_bind; [apply pure_safe_name|]. intros. apply pure_ret.
Qed.

Lemma wp_unique_name X w n : wp X w (unique_and_canonical_name n) (fun _ _ => True).
Proof.
  unfold unique_and_canonical_name. apply wp_bind_top. intros f fs F.
  apply wp_bind_pure; [apply pure_scoped_name|]. intros full.
  destruct (f_scopes f) as [|s0 [|sc rest]] eqn:E; try apply wp_throw.
  destruct (number_name sc full) as [sc' r] eqn:N.
  apply wp_bind_modify.
  - intros _. eapply T_on_top'; [eassumption|].
    pose proof (FT_refl f) as []. split; cbn; auto. rewrite E in *.
    inversion ft_scopes0; subst. inversion H4; subst. constructor; [apply scope_le_refl|].
    constructor; [eapply number_name_le; eassumption|assumption].
  - destruct r; [apply wp_throw|now apply wp_ret].
Qed.

(** Changing a module object under construction. *)
Lemma T_update_mod (X : nat -> Prop) w m o g :
  X m -> w_mods w !! m = Some o ->
  (is_Some (mo_name o) -> is_Some (mo_name (g o))) ->
  (is_Some (mo_subs o) -> is_Some (mo_subs (g o))) ->
  T X w (set_mods (<[m := g o]> (w_mods w)) w).
Proof.
  intros HX E Hn Hs. pose proof (T_refl X w) as [].
  destruct w as [w1 w2 w3 w4 w5 w6 ms ns d]. split; cbn in *; auto.
  - intros m1 o1 E1. destruct (decide (m1 = m)) as [->|N].
    + exists (g o). rewrite list_lookup_insert by (eapply lookup_lt_Some; eauto).
      replace o1 with o by congruence. auto.
    + exists o1. rewrite list_lookup_insert_ne by congruence. auto.
  - intros m1 o1 HX1 E1 N. destruct (decide (m1 = m)) as [->|N1]; [contradiction|].
    split; [assumption|]. exists o1. rewrite list_lookup_insert_ne by congruence. auto.
Qed.
Lemma wp_update_mod (X : nat -> Prop) w m g :
  X m ->
  (forall o, is_Some (mo_name o) -> is_Some (mo_name (g o))) ->
  (forall o, is_Some (mo_subs o) -> is_Some (mo_subs (g o))) ->
  wp X w (update_mod m g) (fun _ _ => True).
Proof.
  intros HX Hn Hs. unfold update_mod. apply wp_bind_reads.
  destruct (w_mods w !! m) as [o|] eqn:E; [|apply wp_throw].
  apply wp_modify; [|auto]. intros _. apply T_update_mod; auto.
Qed.

Lemma wp_module_init (X : nat -> Prop) w m cls n : X m -> wp X w (module_init m cls n) (fun _ _ => True).
Proof.
  intros HX. unfold module_init. destruct (valid_identifier _); [|apply wp_throw].
  eapply wp_seq; [apply wp_update_mod; cbn; eauto|]. intros _ w1 _.
  eapply wp_seq; [apply wp_unique_name|]. intros q w2 _.
  apply wp_update_mod; cbn; eauto.
Qed.

Definition ctor_of (b : mbody) : bool := match b with MCtor _ _ _ _ => true | _ => false end.

Lemma wp_run_mbody (X : nat -> Prop) w m b a :
  mbody_ok P b -> (ctor_of b = true -> X m) -> wp X w (run_mbody rn m b a) (fun _ _ => True).
Proof.
  intros Hb HX. destruct b as [f|cls pre super post]; cbn in *.
  - apply Hrn, Hb.
  - destruct Hb as [H1 H2]. eapply wp_seq; [apply Hrn, H1|]. intros v w1 _.
    destruct (super v) as [n|].
    + eapply wp_seq; [now apply wp_module_init; auto|]. intros _ w2 _. apply Hrn, H2.
    + apply Hrn, H2.
Qed.

(** Running a pending interceptor closure: a constructor is run only for a module
    that was not protected by [noctor]. *)
Lemma T_unprotect X w w' m :
  ~ noctor m (w_nexts w) -> T (fun k => X k \/ k = m) w w' -> T X w w'.
Proof.
  intros H []. split; auto. intros k o HX E N. apply t_names0; auto.
  intros [?| ->]; auto.
Qed.

Lemma wp_next_call X w r a : wp X w (next_call C rn r a) (fun _ _ => True).
Proof.
  unfold next_call. apply wp_bind_reads.
  destruct (w_nexts w !! r) as [[| |[|i rest] m meth b]|] eqn:E; try apply wp_throw.
  - intros Hi r' w' R.
    assert (Hb : mbody_ok P b).
    { unfold heap_ok in Hi. rewrite Forall_lookup in Hi. exact (Hi _ _ E). }
    assert (H : T (fun k => X k \/ k = m) w w').
    { eapply (wp_run_mbody (fun k => X k \/ k = m)); eauto. }
    split; [|auto].
    destruct b as [f|cls pre super post].
    + eapply (wp_run_mbody X); eauto. discriminate.
    + eapply T_unprotect; [|exact H]. intros N. exact (N _ _ _ _ _ _ _ E).
  - apply wp_bind_modify; [|apply Hrn, C_ok].
    intros _. eapply T_shrink; eauto using nx_call_tl.
Qed.

Lemma wp_run_interceptors (X : nat -> Prop) w m meth b a :
  mbody_ok P b -> (ctor_of b = true -> X m /\ is_Some (w_mods w !! m)) ->
  wp X w (run_interceptors C rn m meth b a) (fun _ _ => True).
Proof.
  intros Hb HX. unfold run_interceptors. apply wp_bind_reads.
  destruct (w_icpt w); [apply wp_run_mbody; [assumption|apply HX]|].
  eapply wp_seq; [apply wp_alloc; [exact Hb| |exact Logic.I]|].
  - intros m' s' meth' cls pre super post [= <- <- <- ->]. apply HX. reflexivity.
  - intros a' w1 _. apply wp_next_call.
Qed.

Lemma wp_notify X self name st : forall w, wp X w (notify_parents self name st) (fun _ _ => True).
Proof.
  induction st as [|[m meth] st IH]; intros w; cbn; [now apply wp_ret|].
  eapply wp_seq; [|intros _ w1 _; apply IH].
  destruct (decide (m = self)) as [Hm|Hm]; [now apply wp_ret|].
  apply wp_bind_reads. destruct (w_mods w !! m) as [[n [s|]]|] eqn:E; try apply wp_throw.
  apply wp_modify; [|auto]. intros _.
  pose proof (T_refl X w) as [].
  destruct w as [w1 w2 w3 w4 w5 w6 ms ns d]. split; cbn in *; auto.
  - intros m1 o1 E1. destruct (decide (m1 = m)) as [->|N].
    + eexists. rewrite list_lookup_insert by (eapply lookup_lt_Some; eauto).
      split; [reflexivity|]. replace o1 with (MObj n (Some s)) by congruence. cbn. eauto.
    + exists o1. rewrite list_lookup_insert_ne by congruence. auto.
  - intros m1 o1 HX1 E1 N. split; [assumption|]. destruct (decide (m1 = m)) as [->|N1].
    + eexists. rewrite list_lookup_insert by (eapply lookup_lt_Some; eauto).
      split; [reflexivity|]. replace o1 with (MObj n (Some s)) by congruence. reflexivity.
    + exists o1. rewrite list_lookup_insert_ne by congruence. auto.
Qed.

Lemma wp_wrap_method (X : nat -> Prop) w m meth b a :
  mbody_ok P b -> (ctor_of b = true -> X m /\ is_Some (w_mods w !! m)) ->
  wp X w (wrap_method C rn m meth b a) (fun _ _ => True).
Proof.
  intros Hb HX. unfold wrap_method. apply wp_bind_top. intros _ _ _.
  apply wp_push_module. eapply wp_seq.
  { apply wp_run_interceptors; [assumption|]. unfold push_module. now rewrite on_top_mods. }
  intros out w1 _. apply wp_bind_top. intros f fs F. apply wp_bind_reads.
  destruct (w_mods w1 !! m) as [[[n|] s]|]; try now apply wp_ret.
  eapply wp_seq; [apply wp_notify|]. intros. now apply wp_ret.
Qed.

Lemma T_alloc_mod X w o : T X w (set_mods (w_mods w ++ [o]) w).
Proof.
  pose proof (T_refl X w) as [].
  destruct w as [w1 w2 w3 w4 w5 w6 ms ns d]. split; cbn in *; auto.
  - intros m o' E. exists o'. split; [|auto]. now apply lookup_app_l_Some.
  - intros m o' HX E N. split; [assumption|]. exists o'. split; [|auto]. now apply lookup_app_l_Some.
Qed.

(** A module that did not exist yet needs no protection. *)
Lemma T_fresh (X : nat -> Prop) w w' :
  T (fun k => X k \/ k = List.length (w_mods w)) w w' -> T X w w'.
Proof.
  intros []. split; auto. intros m o HX E N. apply t_names0; auto.
  intros [?| ->]; [auto|]. apply lookup_lt_Some in E. lia.
Qed.

Lemma wp_new_module X w cls pre super post :
  mbody_ok P (MCtor cls pre super post) ->
  wp X w (new_module C rn cls pre super post) (fun _ _ => True).
Proof.
  intros Hb Hi r w' E.
  enough (wp (fun k => X k \/ k = List.length (w_mods w)) w (new_module C rn cls pre super post) (fun _ _ => True)) as H.
  { destruct (H Hi _ _ E) as [H1 _]. split; [now apply T_fresh|auto]. }
  clear Hi r w' E. unfold new_module. apply wp_bind_reads.
  apply wp_bind_modify. { intros _. apply T_alloc_mod. }
  eapply wp_seq.
  - apply wp_wrap_method; [assumption|]. intros _. split; [auto|]. cbn.
    rewrite lookup_app_r by lia. rewrite Nat.sub_diag. eauto.
  - intros _ w1 _. apply wp_bind_reads.
    destruct (w_mods w1 !! _) as [[[n|] s]|]; try apply wp_throw. now apply wp_ret.
Qed.

Lemma all_ops_ret v : all_ops P (Ret v).
Proof. constructor; [apply P_ret|]. intros q []. Qed.

Lemma wp_build_scope X subs : forall w last, wp X w (build_scope C rn subs last) (fun _ _ => True).
Proof.
  induction subs as [|s subs IH]; intros w last; cbn; [now apply wp_ret|].
  eapply wp_seq; [apply wp_new_module; split; intros; apply all_ops_ret|].
  intros m w1 _. apply wp_push_module. eapply wp_conseq; [apply IH|]. auto.
Qed.

Lemma wp_name_scope X w name p : all_ops P p -> wp X w (name_scope C rn name p) (fun _ _ => True).
Proof.
  intros Hp. unfold name_scope. apply wp_bind_top. intros _ _ _.
  match goal with |- context [if ?b then _ else _] => destruct b end; [apply wp_throw|].
  eapply wp_seq; [apply wp_build_scope|]. intros [m|] w1 _; [|apply wp_throw].
  apply wp_push_module. apply wp_rn; auto.
Qed.

Lemma wp_module_dict X w m ps : wp X w (module_dict m ps) (fun _ _ => True).
Proof.
  unfold module_dict. apply wp_bind_top. intros f fs F. apply wp_bind_reads.
  destruct (w_mods w !! m) as [[[n|] [s|]]|]; try apply wp_throw. now apply wp_ret.
Qed.

(* ------------------------------------------------------------------ *)
(** * stateful.py *)

Definition frame_istate (f : frame) : istate := IState (Some (f_params f)) (f_state f) (f_rng f).

(** [s] is a possible later version of the state of frame [f]. *)
Record later (f : frame) (s : istate) : Prop := {
  la_params : forall p, is_params s = Some p -> PT (f_params f) p;
  la_state : ST (f_state f) (is_state s);
  la_rng : RR (f_rng f) (is_rng s) }.

Lemma later_self f b : later f (IState (if b : bool then Some (f_params f) else None) (f_state f) (f_rng f)).
Proof.
  split; cbn; auto using ST_refl. destruct b; [|discriminate]. intros p [= <-]. apply PT_refl.
Qed.

Lemma later_temp f g s f1 (b : bool) :
  later f s -> FT (temp_frame g s) f1 -> (b = true -> is_params s <> None) ->
  later f (IState (if b then Some (f_params f1) else None) (f_state f1) (f_rng f1)).
Proof.
  intros [H1 H2 H3] [] Hb. split; cbn in *.
  - destruct b; [|discriminate]. intros p [= <-]. specialize (Hb eq_refl).
    destruct (is_params s) as [p|]; [|congruence]. cbn in *. eauto using PT_trans.
  - eauto using ST_trans.
  - eauto.
Qed.

Lemma PT_update p p1 q d :
  PT p p1 -> PT p q -> (forall b n v, lookup2 b n d = Some (Some v) -> lookup2 b n q = Some v) ->
  PT p (update_recursive p1 d).
Proof.
  intros [B1 E1 V1] [B E V] H. split.
  - intros b Hb. apply update_bundle. auto.
  - intros b n Hx. rewrite lookup2_update. destruct (lookup2 b n d) as [[v|]|]; eauto.
  - intros b n v Hv Hx. rewrite lookup2_update.
    destruct (lookup2 b n d) as [[v'|]|] eqn:D; auto. apply H in D. rewrite <- D. auto.
Qed.
Lemma ST_update p p1 q d :
  ST p p1 -> ST p q -> (forall b n v, lookup2 b n d = Some (Some v) -> lookup2 b n q = Some v) ->
  ST p (update_recursive p1 d).
Proof.
  intros [B1 V1 K1] [B V K2] H. split.
  - intros b Hb. apply update_bundle. auto.
  - intros b n i c Hx. rewrite lookup2_update.
    destruct (lookup2 b n d) as [[v'|]|] eqn:D; eauto. apply H in D.
    destruct (V _ _ _ _ Hx) as [c' Hc]. exists c'. congruence.
  - intros b n i c HK Hx. rewrite lookup2_update.
    destruct (lookup2 b n d) as [[v'|]|] eqn:D; eauto. apply H in D.
    rewrite <- D. eauto.
Qed.

(** Writing an update back into the frame it came from (or a later version). *)
Lemma FT_apply_delta f f1 s d :
  FT f f1 -> later f s ->
  (forall p, d_params d = Some p -> exists q, is_params s = Some q /\
     forall b n v, lookup2 b n p = Some (Some v) -> lookup2 b n q = Some v) ->
  (forall b n v, lookup2 b n (d_state d) = Some (Some v) -> lookup2 b n (is_state s) = Some v) ->
  (forall r, d_rng d = Some r -> is_rng s = Some r) ->
  FT f (apply_delta d f1).
Proof.
  intros [] [H1 H2 H3] Hp Hs Hr.
  assert (HP : forall p, d_params d = Some p -> PT (f_params f) (update_recursive (f_params f1) p)).
  { intros p Ep. destruct (Hp _ Ep) as (q & Eq & Hq). exact (PT_update _ _ _ _ ft_params0 (H1 _ Eq) Hq). }
  assert (HS : ST (f_state f) (update_recursive (f_state f1) (d_state d))) by exact (ST_update _ _ _ _ ft_state0 H2 Hs).
  assert (HR : forall r, d_rng d = Some r -> RR (f_rng f) (Some r)).
  { intros r Er. rewrite <- (Hr _ Er). assumption. }
  unfold apply_delta. destruct (d_params d) as [p|].
  - destruct (f_frozen f1) eqn:Z.
    + destruct (d_rng d), (f_rng f1) eqn:R; split; cbn; rewrite ?Z, ?R; auto.
    + destruct (d_rng d), (f_rng f1) eqn:R; split; cbn; rewrite ?Z, ?R; auto; congruence.
  - destruct (d_rng d), (f_rng f1) eqn:R; split; cbn; rewrite ?R; auto.
Qed.

Lemma as_update_Some v x : as_update v = Some x -> v = x.
Proof. destruct v; cbn; congruence. Qed.

Lemma FT_full' f f1 s : FT f f1 -> later f s -> FT f (apply_delta (full_delta s) f1).
Proof.
  intros HF L. eapply FT_apply_delta; [exact HF|exact L| | |].
  - unfold full_delta. cbn. intros p E. destruct (is_params s) as [q|]; [|discriminate].
    cbn in E. injection E as <-. exists q. split; [reflexivity|].
    intros b n v. rewrite lookup2_map2. destruct (lookup2 b n q) as [x|]; cbn; [|discriminate].
    intros [= H]. now apply as_update_Some in H as ->.
  - cbn. intros b n v. rewrite lookup2_map2. destruct (lookup2 b n (is_state s)); cbn; congruence.
  - cbn. auto.
Qed.

Lemma FT_full f s : later f s -> FT f (apply_delta (full_delta s) f).
Proof. apply FT_full', FT_refl. Qed.

Lemma if_changed_param_Some a b v : if_changed_param C a b = Some v -> b = v.
Proof.
  unfold if_changed_param. destruct (not_none a) as [x|]; [|apply as_update_Some].
  destruct (c_same C x b); [discriminate|apply as_update_Some].
Qed.
Lemma if_changed_state_Some a b v : if_changed_state C a b = Some v -> b = v.
Proof.
  unfold if_changed_state. destruct a as [x|]; [|congruence].
  destruct (_ && _); congruence.
Qed.

Lemma FT_diff f s0 s : later f s -> FT f (apply_delta (difference C s0 s) f).
Proof.
  intros L. eapply FT_apply_delta; [apply FT_refl|exact L| | |].
  - unfold difference. cbn. intros p E. destruct (is_params s0) as [q0|], (is_params s) as [q|]; try discriminate.
    injection E as <-. exists q. split; [reflexivity|].
    intros b n v. rewrite lookup2_diff. destruct (lookup2 b n q) as [x|]; cbn; [|discriminate].
    intros [= H]. now apply if_changed_param_Some in H as ->.
  - cbn. intros b n v. rewrite lookup2_diff. destruct (lookup2 b n (is_state s)) as [x|]; cbn; [|discriminate].
    intros [= H]. now apply if_changed_state_Some in H as ->.
  - cbn. intros r. destruct (is_rng s0); [|auto]. destruct (is_rng s); [|discriminate].
    destruct (c_same_rng C _ _); congruence.
Qed.

Lemma wp_bind_internal {B} X w b (k : istate -> M B) Q :
  (forall f fs, w_frames w = f :: fs ->
     wp X w (k (IState (if b : bool then Some (f_params f) else None) (f_state f) (f_rng f))) Q) ->
  wp X w (bindM (internal_state b) k) Q.
Proof.
  intros H. unfold internal_state.
  intros Hi r w' E. unfold bindM, top_frame, retM in E.
  destruct (w_frames w) as [|f fs] eqn:F.
  - injection E as <- <-. split; [apply T_refl|discriminate].
  - exact (H f fs eq_refl Hi r w' E).
Qed.

Lemma wp_reserve_block X w : wp X w (reserve_block C) (fun _ _ => True).
Proof.
  unfold reserve_block. apply wp_bind_top. intros f fs F.
  destruct (f_rng f) as [s|] eqn:R; [|now apply wp_ret].
  apply wp_modify; [|auto]. intros _. eapply T_on_top'; [eassumption|].
  apply FT_set_rng. rewrite R. apply RR_full.
Qed.

Lemma wp_in_temp {A} X w s (m : M A) (Q : A -> world -> Prop) (Q' : A -> world -> Prop) :
  (forall f fs, w_frames w = f :: fs -> wp X (set_frames (temp_frame f s :: f :: fs) w) m Q) ->
  (forall f fs f1 a w1, w_frames w = f :: fs -> Q a w1 -> w_frames w1 = f1 :: f :: fs ->
     FT (temp_frame f s) f1 -> Q' a (set_frames (f :: fs) w1)) ->
  wp X w (in_temp s m) Q'.
Proof.
  intros H K. unfold in_temp. apply wp_bind_top. intros f fs F.
  eapply wp_bind.
  - eapply wp_in_frame with (Q := Q) (Q' := fun r w' => Q' (fst r) w').
    + rewrite F. eauto.
    + rewrite F. intros a f1 w1 _ Ha F1 HT. eapply K; eauto.
  - intros [a f1] w1 _ HQ. now apply wp_ret.
Qed.

(** [update_internal_state] at the end of an operation. *)
Lemma wp_update X w f fs d (k : M val) (Q : val -> world -> Prop) :
  w_frames w = f :: fs -> FT f (apply_delta d f) ->
  wp X (on_top (apply_delta d) w) k Q -> wp X w (bindM (update_internal_state d) (fun _ => k)) Q.
Proof.
  intros F H K. unfold update_internal_state. apply wp_bind_modify; [|exact K].
  intros _. eapply T_on_top'; eauto.
Qed.

Lemma wp_jit X w p : all_ops P p -> wp X w (jit C rn p) (fun _ _ => True).
Proof.
  intros Hp. unfold jit. apply wp_bind_internal. intros f fs F. cbn.
  set (s_in := IState _ _ _).
  eapply wp_bind with (Q1 := fun r w1 => w_frames w1 = f :: fs /\
     exists s, later f s /\ snd r = difference C s_in s).
  - eapply wp_in_temp with (Q := fun (r : val * delta) w1 => exists f1 fs1, w_frames w1 = f1 :: fs1 /\
       snd r = difference C s_in (frame_istate f1)).
    + intros f' fs' F'. eapply wp_seq; [now apply Hrn|]. intros out w1 _.
      apply wp_bind_internal. intros f1 fs1 F1. apply wp_ret. cbn. eauto.
    + intros f' fs' f1 [out d] w1 F' (f1' & fs1 & E1 & Ed) F1 HT. cbn in *.
      rewrite F in F'. injection F' as <- <-. rewrite F1 in E1. injection E1 as <- <-.
      split; [reflexivity|]. exists (frame_istate f1). split; [|assumption].
      apply (later_temp f f s_in f1 true); [exact (later_self f true)|assumption|discriminate].
  - intros [out d] w1 _ (F1 & s & L & E). cbn in *. subst d.
    eapply wp_update; [eassumption|now apply FT_diff|now apply wp_ret].
Qed.

Lemma wp_branch X w s p f fs :
  w_frames w = f :: fs -> later f s -> is_params s <> None -> all_ops P p ->
  wp X w (stateful_branch C rn s p) (fun r w1 => w_frames w1 = f :: fs /\ later f (snd r)).
Proof.
  intros F L Hs Hp. unfold stateful_branch.
  eapply wp_in_temp with (Q := fun (r : val * istate) w1 => exists f1 fs1, w_frames w1 = f1 :: fs1 /\
       snd r = frame_istate f1).
  - intros f' fs' F'. eapply wp_seq; [now apply Hrn|]. intros out w1 _.
    eapply wp_seq; [apply wp_reserve_block|]. intros _ w2 _.
    apply wp_bind_internal. intros f1 fs1 F1. apply wp_ret. cbn. eauto.
  - intros f' fs' f1 [out s'] w1 F' (f1' & fs1 & E1 & Ed) F1 HT. cbn in *.
    rewrite F in F'. injection F' as <- <-. rewrite F1 in E1. injection E1 as <- <-.
    split; [reflexivity|]. subst s'. eapply (later_temp f f s f1 true); eauto.
Qed.

Lemma wp_branches X s f fs bs : forall w,
  w_frames w = f :: fs -> later f s -> is_params s <> None -> Forall (all_ops P) bs ->
  wp X w (run_branches C rn s bs) (fun rs w1 => w_frames w1 = f :: fs /\ Forall (fun r => later f (snd r)) rs).
Proof.
  induction bs as [|b bs IH]; intros w F L Hs Hb; cbn; [apply wp_ret; auto|].
  inversion Hb; subst.
  eapply wp_bind; [now apply (wp_branch X w s b f fs)|]. intros r w1 _ [F1 L1].
  eapply wp_bind; [now apply IH|]. intros rs w2 _ [F2 L2]. apply wp_ret. auto.
Qed.

Lemma wp_switch X w i bs : Forall (all_ops P) bs -> wp X w (switch_fun C rn i bs) (fun _ _ => True).
Proof.
  intros Hb. unfold switch_fun. eapply wp_seq; [apply wp_reserve_block|]. intros _ w1 _.
  apply wp_bind_internal. intros f fs F.
  eapply wp_bind; [apply (wp_branches X _ f fs); [assumption|apply (later_self f true)|discriminate|assumption]|].
  intros rs w2 _ [F2 L]. cbn zeta.
  destruct (rs !! _) as [[out s']|] eqn:E; [|apply wp_throw].
  destruct (forallb _ rs); [|apply wp_throw].
  eapply wp_update; [eassumption| |now apply wp_ret].
  apply FT_full. rewrite Forall_lookup in L. exact (L _ _ E).
Qed.

Lemma pure_as_pair v : pure_m (as_pair v).
Proof.
  unfold as_pair. destruct v; try apply pure_throw.
  destruct l as [|a [|b [|? ?]]]; try apply pure_throw. apply pure_ret.
Qed.

Lemma wp_lax_scan {S} X (J : S -> Prop) (W : world -> Prop) (step : S -> val -> M (S * val)) xs :
  (forall w c x, W w -> J c -> wp X w (step c x) (fun r w1 => W w1 /\ J (fst r))) ->
  forall w c, W w -> J c -> wp X w (lax_scan step c xs) (fun r w1 => W w1 /\ J (fst r)).
Proof.
  intros H. induction xs as [|x xs IH]; intros w c HW HJ; cbn; [apply wp_ret; auto|].
  eapply wp_bind; [now apply H|]. intros r w1 _ [W1 J1].
  eapply wp_bind; [now apply IH|]. intros rs w2 _ [W2 J2]. apply wp_ret. auto.
Qed.
Lemma wp_lax_scan_dir {S} X (J : S -> Prop) (W : world -> Prop) b (step : S -> val -> M (S * val)) xs :
  (forall w c x, W w -> J c -> wp X w (step c x) (fun r w1 => W w1 /\ J (fst r))) ->
  forall w c, W w -> J c -> wp X w (lax_scan_dir b step c xs) (fun r w1 => W w1 /\ J (fst r)).
Proof.
  intros H w c HW HJ. unfold lax_scan_dir. destruct b; [|eapply wp_lax_scan; eauto].
  eapply wp_bind; [eapply wp_lax_scan; eauto|]. intros r w1 _ [W1 J1]. apply wp_ret. auto.
Qed.

Lemma wp_scan_step X w g f fs cs x :
  w_frames w = f :: fs -> (forall c y, all_ops P (g c y)) ->
  later f (snd cs) /\ is_params (snd cs) = None ->
  wp X w (scan_step C rn g cs x)
     (fun r w1 => w_frames w1 = f :: fs /\ later f (snd (fst r)) /\ is_params (snd (fst r)) = None).
Proof.
  intros F Hg [L Hs]. destruct cs as [c s]. unfold scan_step.
  eapply wp_in_temp with (Q := fun (r : val * istate * val) w1 => exists f1 fs1, w_frames w1 = f1 :: fs1 /\
       snd (fst r) = IState None (f_state f1) (f_rng f1)).
  - intros f' fs' F'. apply wp_bind_top. intros f0 fs0 F0.
    eapply wp_seq; [apply Hrn, Hg|]. intros r w1 _.
    apply wp_bind_pure; [apply pure_as_pair|]. intros cy.
    apply wp_bind_top. intros f1 fs1 F1.
    eapply wp_seq; [destruct (no_new_params _ _); [now apply wp_ret|apply wp_throw]|].
    intros _ w2 _. eapply wp_seq; [apply wp_reserve_block|]. intros _ w3 _.
    apply wp_bind_internal. intros f3 fs3 F3. cbn.
    destruct (same_skel _ _ && same_structure _ _); [|apply wp_throw]. apply wp_ret. cbn. eauto.
  - intros f' fs' f1 [[c' s'] y] w1 F' (f1' & fs1 & E1 & Ed) F1 HT. cbn in *.
    rewrite F in F'. injection F' as <- <-. rewrite F1 in E1. injection E1 as <- <-.
    split; [reflexivity|]. subst s'. split; [|reflexivity].
    eapply (later_temp f f s f1 false); eauto.
Qed.

Lemma wp_scan_rest X w g init xs b :
  (forall c y, all_ops P (g c y)) -> wp X w (scan_rest C rn g init xs b) (fun _ _ => True).
Proof.
  intros Hg. unfold scan_rest. eapply wp_seq; [apply wp_reserve_block|]. intros _ w1 _.
  apply wp_bind_internal. intros f fs F. cbn.
  eapply wp_bind.
  - apply (wp_lax_scan_dir X (fun cs => later f (snd cs) /\ is_params (snd cs) = None)
             (fun w => w_frames w = f :: fs)); auto.
    + intros w2 cs x F2 HJ. now apply wp_scan_step.
    + cbn. split; [apply (later_self f false)|reflexivity].
  - intros [[c s] ys] w2 _ (F2 & L & _). cbn in *. unfold update_internal_state.
    apply wp_bind_modify; [|now apply wp_ret].
    intros _. eapply T_on_top'; [eassumption|]. now apply FT_full.
Qed.

Lemma wp_scan X w g init xs z b :
  (forall c y, all_ops P (g c y)) -> wp X w (scan C rn g init xs z b) (fun _ _ => True).
Proof.
  intros Hg. unfold scan. apply wp_bind_top. intros fr _ _.
  destruct (f_frozen fr).
  { eapply wp_seq; [now apply wp_scan_rest|]. intros. now apply wp_ret. }
  destruct (if b then rev xs else xs) as [|x0 rest0].
  - eapply wp_seq; [apply Hrn, Hg|]. intros r w1 _.
    apply wp_bind_pure; [apply pure_as_pair|]. intros _. now apply wp_ret.
  - eapply wp_seq; [apply Hrn, Hg|]. intros r w1 _.
    apply wp_bind_pure; [apply pure_as_pair|]. intros cy.
    destruct (if b then rev rest0 else rest0); [now apply wp_ret|].
    eapply wp_seq; [now apply wp_scan_rest|]. intros. now apply wp_ret.
Qed.

Lemma wp_fori_step X w g f fs i sv :
  w_frames w = f :: fs -> (forall i v, all_ops P (g i v)) ->
  later f (fst sv) /\ is_params (fst sv) <> None ->
  wp X w (fori_step C rn g i sv)
     (fun r w1 => w_frames w1 = f :: fs /\ later f (fst r) /\ is_params (fst r) <> None).
Proof.
  intros F Hg [L Hs]. destruct sv as [s v]. unfold fori_step.
  eapply wp_in_temp with (Q := fun (r : istate * val) w1 => exists f1 fs1, w_frames w1 = f1 :: fs1 /\
       fst r = frame_istate f1).
  - intros f' fs' F'.
    eapply wp_seq; [apply Hrn, Hg|]. intros r w1 _.
    eapply wp_seq; [apply wp_reserve_block|]. intros _ w3 _.
    apply wp_bind_internal. intros f3 fs3 F3. cbn.
    destruct (same_skel _ _ && same_structure _ _); [|apply wp_throw]. apply wp_ret. cbn. eauto.
  - intros f' fs' f1 [s' v'] w1 F' (f1' & fs1 & E1 & Ed) F1 HT. cbn in *.
    rewrite F in F'. injection F' as <- <-. rewrite F1 in E1. injection E1 as <- <-.
    split; [reflexivity|]. subst s'. split; [|discriminate].
    eapply (later_temp f f s f1 true); eauto.
Qed.
Lemma wp_lax_fori {S} X (J : S -> Prop) (W : world -> Prop) (step : Z -> S -> M S) n :
  (forall w i c, W w -> J c -> wp X w (step i c) (fun r w1 => W w1 /\ J r)) ->
  forall w i c, W w -> J c -> wp X w (lax_fori step n i c) (fun r w1 => W w1 /\ J r).
Proof.
  intros H. induction n as [|n IH]; intros w i c HW HJ; cbn; [apply wp_ret; auto|].
  eapply wp_bind; [now apply H|]. intros r w1 _ [W1 J1]. now apply IH.
Qed.
Lemma wp_fori_rest X w lo hi g v : (forall i v, all_ops P (g i v)) ->
  wp X w (fori_rest C rn lo hi g v) (fun _ _ => True).
Proof.
  intros Hg. unfold fori_rest. eapply wp_seq; [apply wp_reserve_block|]. intros _ w1 _.
  apply wp_bind_internal. intros f fs F. cbn.
  eapply wp_bind.
  - apply (wp_lax_fori X (fun sv => later f (fst sv) /\ is_params (fst sv) <> None)
             (fun w => w_frames w = f :: fs)); auto.
    + intros w2 i sv F2 HJ. now apply wp_fori_step.
    + cbn. split; [apply (later_self f true)|discriminate].
  - intros [s v'] w2 _ (F2 & L & _). cbn in *. unfold update_internal_state.
    apply wp_bind_modify; [|now apply wp_ret].
    intros _. eapply T_on_top'; [eassumption|]. now apply FT_full.
Qed.
Lemma wp_fori X w lo hi g v : (forall i v, all_ops P (g i v)) ->
  wp X w (fori_loop C rn lo hi g v) (fun _ _ => True).
Proof.
  intros Hg. unfold fori_loop. apply wp_bind_top. intros fr _ _.
  destruct (f_frozen fr); [now apply wp_fori_rest|].
  eapply wp_seq; [apply Hrn, Hg|]. intros v' w1 _.
  destruct (_ =? 0)%Z; [now apply wp_ret|now apply wp_fori_rest].
Qed.

(** While loops: relative to the world [w0] at the start of the loop, because the
    condition always starts from the random sequence of that moment. *)
Lemma T_reset_rng X w0 w1 f fs :
  w_frames w0 = f :: fs -> T X w0 w1 -> T X w0 (on_top (set_rng (f_rng f)) w1).
Proof.
  intros F T1. pose proof (t_frames _ _ _ T1) as TF. rewrite F in TF.
  destruct (w_frames w1) as [|f1 fs1] eqn:F1; [destruct TF|]. destruct TF as [TF ->].
  unfold on_top. rewrite F1. destruct TF, T1. destruct w0, w1; cbn in *; subst.
  split; cbn; auto. split; [|reflexivity]. split; cbn; auto.
Qed.

Lemma wp_while_cond X w c b v0 v :
  P (While c b v0) -> (forall v, all_ops P (c v)) ->
  wp X w (while_cond rn c v) (fun _ w1 => forall f fs f' fs',
    w_frames w = f :: fs -> w_frames w1 = f' :: fs' -> RC (f_rng f) (f_rng f')).
Proof.
  intros HW Hc. unfold while_cond. apply wp_bind_top. intros f0 fs0 F0.
  eapply wp_bind with (Q1 := fun _ w1 => forall f fs f' fs',
    w_frames w = f :: fs -> w_frames w1 = f' :: fs' -> RC (f_rng f) (f_rng f')).
  - intros Hi r w' E. destruct (Hrn (c v) X w (Hc v) Hi _ _ E) as [HT _].
    split; [assumption|]. intros a _ f fs f' fs' F F'. eapply Hrn_while; eauto.
  - intros r w1 _ HQ. apply wp_bind_top. intros f1 fs1 F1.
    destruct (_ && _); [|apply wp_throw]. destruct r; try apply wp_throw. apply wp_ret. exact HQ.
Qed.

Lemma wp_while_step X w g f fs vs :
  w_frames w = f :: fs -> (forall v, all_ops P (g v)) ->
  forall f0, later f0 (snd vs) /\ is_params (snd vs) <> None ->
  wp X w (while_step rn g vs)
     (fun r w1 => w_frames w1 = f :: fs /\ later f0 (snd r) /\ is_params (snd r) <> None).
Proof.
  intros F Hg f0 [L Hs]. destruct vs as [v s]. unfold while_step.
  eapply wp_in_temp with (Q := fun (r : val * istate) w1 => exists f1 fs1, w_frames w1 = f1 :: fs1 /\
       snd r = frame_istate f1).
  - intros f' fs' F'.
    eapply wp_seq; [apply Hrn, Hg|]. intros r w1 _.
    apply wp_bind_internal. intros f3 fs3 F3. cbn.
    destruct (same_skel _ _ && same_structure _ _); [|apply wp_throw]. apply wp_ret. cbn. eauto.
  - intros f' fs' f1 [v' s'] w1 F' (f1' & fs1 & E1 & Ed) F1 HT. cbn in *.
    rewrite F in F'. injection F' as <- <-. rewrite F1 in E1. injection E1 as <- <-.
    split; [reflexivity|]. subst s'. split; [|discriminate].
    eapply (later_temp f0 f s f1 true); eauto.
Qed.

Lemma while_loop_rel X w0 f fs n c b v0 :
  w_frames w0 = f :: fs -> I w0 ->
  P (While c b v0) -> (forall v, all_ops P (c v)) -> (forall v, all_ops P (b v)) ->
  forall vs w r w', T X w0 w -> later f (snd vs) /\ is_params (snd vs) <> None ->
  lax_while n (fun vs => modify (on_top (set_rng (f_rng f))) ;;; while_cond rn c (fst vs))
            (while_step rn b) vs w = (r, w') ->
  T X w0 w' /\ forall a, r = Ok a -> later f (snd a) /\
    exists f1, w_frames w' = f1 :: fs /\ RC (f_rng f) (f_rng f1).
Proof.
  intros F Hi HW Hc Hb. induction n as [|n IH]; intros vs w r w' T0 HJ E.
  { cbn in E. injection E as <- <-. split; [assumption|discriminate]. }
  cbn [lax_while] in E. unfold bindM at 1 in E. unfold bindM at 1, modify at 1 in E.
  set (w1 := on_top (set_rng (f_rng f)) w) in *.
  assert (T1 : T X w0 w1) by (now apply (T_reset_rng X w0 w f fs)).
  destruct (while_cond rn c (fst vs) w1) as [r2 w2] eqn:E2.
  destruct (wp_while_cond X w1 c b v0 (fst vs) HW Hc (t_inv _ _ _ T1 Hi) _ _ E2) as [T2 Q2].
  assert (T02 : T X w0 w2) by (eapply T_trans; eauto).
  destruct r2 as [go|e|].
  2-3: injection E as <- <-; split; [assumption|discriminate].
  specialize (Q2 _ eq_refl).
  pose proof (t_frames _ _ _ T02) as TF. rewrite F in TF.
  destruct (w_frames w2) as [|f2 fs2] eqn:F2; [destruct TF|]. destruct TF as [TF ->].
  assert (HRC : RC (f_rng f) (f_rng f2)).
  { pose proof (t_frames _ _ _ T0) as TF0. rewrite F in TF0.
    destruct (w_frames w) as [|f' fs'] eqn:F'; [destruct TF0|]. destruct TF0 as [TF0 ->].
    assert (w_frames w1 = set_rng (f_rng f) f' :: fs) as F1 by (unfold w1; now apply on_top_frames).
    exact (Q2 _ _ _ _ F1 eq_refl). }
  destruct go.
  - unfold bindM in E. destruct (while_step rn b vs w2) as [r3 w3] eqn:E3.
    destruct (wp_while_step X w2 b f2 fs vs F2 Hb f HJ (t_inv _ _ _ T02 Hi) _ _ E3) as [T3 Q3].
    assert (T03 : T X w0 w3) by (eapply T_trans; eauto).
    destruct r3 as [vs'|e|].
    2-3: injection E as <- <-; split; [assumption|discriminate].
    destruct (Q3 _ eq_refl) as (F3 & HJ3). eapply IH; eauto.
  - injection E as <- <-. split; [assumption|]. intros a [= <-]. split; [apply HJ|].
    exists f2. auto.
Qed.

Lemma later_add_log f s b : later f s -> RC (f_rng f) b -> later f (add_log (f_rng f) b s).
Proof.
  intros [H1 H2 H3] HR. split; [| |now apply RC_add].
  all: unfold add_log; destruct (f_rng f), b, (is_rng s); cbn; auto.
Qed.

Lemma wp_while X w n c b v0 :
  P (While c b v0) -> (forall v, all_ops P (c v)) -> (forall v, all_ops P (b v)) ->
  wp X w (while_loop rn n c b v0) (fun _ _ => True).
Proof.
  intros HW Hc Hb. unfold while_loop. apply wp_bind_top. intros fr fs F.
  destruct (f_frozen fr) eqn:Z; cbn [negb]; [|apply wp_throw].
  apply wp_bind_internal. intros f fs' F'. rewrite F in F'. injection F' as <- <-.
  intros Hi r w' E. unfold bindM at 1 in E.
  match type of E with context [lax_while n ?cc ?bb ?vv w] =>
    destruct (lax_while n cc bb vv w) as [r1 w1] eqn:E1 end.
  apply (while_loop_rel X w fr fs n c b v0 F Hi HW Hc Hb _ w r1 w1 (T_refl X w)) in E1.
  2: { split; [apply (later_self fr true)|discriminate]. }
  destruct E1 as [T1 Q1].
  destruct r1 as [[v s]|e|].
  2-3: injection E as <- <-; split; [assumption|auto].
  destruct (Q1 _ eq_refl) as (L & f1 & F1 & HRC). cbn in L.
  pose proof (t_frames _ _ _ T1) as TF. rewrite F, F1 in TF. destruct TF as [TF _].
  unfold bindM, top_frame, update_internal_state, modify, retM in E. rewrite F1 in E.
  injection E as <- <-. split; [|auto]. cbn [snd].
  unfold on_top. rewrite F1. cbn [w_frames set_frames].
  assert (HF : FT fr (apply_delta (full_delta (add_log (f_rng fr) (f_rng f1) s)) f1))
    by (apply FT_full'; [assumption|now apply later_add_log]).
  destruct T1. destruct w, w1; cbn in *; subst. split; cbn; auto.
Qed.

Lemma wp_vmap_lane X w s p f fs :
  w_frames w = f :: fs -> later f s -> is_params s <> None -> all_ops P p ->
  wp X w (vmap_lane C rn s p) (fun r w1 => w_frames w1 = f :: fs /\
     exists s', later f s' /\ snd r = difference C s s').
Proof.
  intros F L Hs Hp. unfold vmap_lane.
  eapply wp_in_temp with (Q := fun (r : val * delta) w1 => exists f1 fs1, w_frames w1 = f1 :: fs1 /\
       snd r = difference C s (frame_istate f1)).
  - intros f' fs' F'. eapply wp_seq; [now apply Hrn|]. intros out w1 _.
    apply wp_bind_internal. intros f1 fs1 F1. apply wp_ret. cbn. eauto.
  - intros f' fs' f1 [out d] w1 F' (f1' & fs1 & E1 & Ed) F1 HT. cbn in *.
    rewrite F in F'. injection F' as <- <-. rewrite F1 in E1. injection E1 as <- <-.
    split; [reflexivity|]. exists (frame_istate f1). split; [|assumption].
    eapply (later_temp f f s f1 true); eauto.
Qed.
Lemma wp_vmap_lanes X s g f fs xs : forall w,
  w_frames w = f :: fs -> later f s -> is_params s <> None -> (forall x, all_ops P (g x)) ->
  wp X w (vmap_lanes C rn s g xs) (fun rs w1 => w_frames w1 = f :: fs /\
    Forall (fun r => exists s', later f s' /\ snd r = difference C s s') rs).
Proof.
  induction xs as [|x xs IH]; intros w F L Hs Hg; cbn; [apply wp_ret; auto|].
  eapply wp_bind; [now apply (wp_vmap_lane X w s (g x) f fs)|]. intros r w1 _ [F1 L1].
  eapply wp_bind; [now apply IH|]. intros rs w2 _ [F2 L2]. apply wp_ret. auto.
Qed.
Lemma wp_vmap X w g xs : (forall x, all_ops P (g x)) -> wp X w (vmap C rn g xs) (fun _ _ => True).
Proof.
  intros Hg. unfold vmap. apply wp_bind_internal. intros f fs F.
  eapply wp_bind; [apply (wp_vmap_lanes X _ g f fs); [assumption|apply (later_self f true)|discriminate|assumption]|].
  intros rs w1 _ [F1 L]. destruct rs as [|r rs]; [apply wp_throw|].
  destruct (forallb _ _); [|apply wp_throw]. inversion_clear L as [|? ? (s' & L1 & E1) _].
  eapply wp_update; [eassumption| |now apply wp_ret]. rewrite E1. now apply FT_diff.
Qed.

Lemma wp_eval_shape X w p : all_ops P p -> wp X w (eval_shape rn p) (fun _ _ => True).
Proof.
  intros Hp. unfold eval_shape. apply wp_bind_internal. intros f fs F.
  eapply wp_seq; [|intros; now apply wp_ret].
  eapply wp_in_temp with (Q := fun _ _ => True); auto.
Qed.

(* ------------------------------------------------------------------ *)
(** * transform.py, lift.py, random.py *)

Lemma wp_init_fn X w rng p : all_ops P p ->
  wp X w (init_fn rn rng p) (fun _ w1 => w_frames w1 = w_frames w).
Proof.
  intros Hp. unfold init_fn. eapply wp_bind with (Q1 := fun _ w1 => w_frames w1 = w_frames w).
  - eapply wp_in_frame; [now apply Hrn|]. auto.
  - intros r w1 _ E. now apply wp_ret.
Qed.
Lemma wp_apply_fn X w ps st rng p : all_ops P p -> wp X w (apply_fn rn ps st rng p) (fun _ _ => True).
Proof.
  intros Hp. unfold apply_fn. eapply wp_seq.
  - eapply wp_in_frame; [now apply Hrn|]. auto.
  - intros r w1 _. now apply wp_ret.
Qed.

Lemma wp_pack X prefix src : forall w,
  (forall f fs, w_frames w = f :: fs -> f_frozen f = false) ->
  wp X w (pack_into_dict src prefix) (fun _ _ => True).
Proof.
  induction src as [|[k x] src IH]; intros w Hf; cbn [pack_into_dict]; [now apply wp_ret|].
  apply wp_bind_top. intros f fs F.
  case_bool_decide as D; [apply wp_throw|]. apply wp_bind_modify.
  - intros _. eapply T_on_top'; [eassumption|]. apply FT_set_params; [eauto|].
    assert (N : f_params f !! (prefix +:+ "/" +:+ k) = None) by now apply eq_None_not_Some.
    split.
    + intros b [y Hb]. destruct (decide (b = prefix +:+ "/" +:+ k)) as [->|Nb].
      * rewrite lookup_insert. eauto.
      * rewrite lookup_insert_ne by congruence. eauto.
    + intros b n [y Hb]. unfold lookup2 in *. destruct (decide (b = prefix +:+ "/" +:+ k)) as [->|Nb].
      * rewrite N in Hb. discriminate.
      * rewrite lookup_insert_ne by congruence. eauto.
    + intros b n v _ Hb. unfold lookup2 in *. destruct (decide (b = prefix +:+ "/" +:+ k)) as [->|Nb].
      * rewrite N in Hb. discriminate.
      * rewrite lookup_insert_ne by congruence. eauto.
  - apply IH. intros f' fs' F'. rewrite (on_top_frames _ _ _ _ F) in F'. injection F' as <- <-.
    cbn. eauto.
Qed.

Lemma wp_lift_call X w m rng p : all_ops P p -> wp X w (lift_call rn m rng p) (fun _ _ => True).
Proof.
  intros Hp. unfold lift_call. apply wp_bind_top. intros f fs F.
  apply wp_bind_pure; [apply pure_safe_name|]. intros b.
  destruct (f_frozen f) eqn:Z; [now apply wp_ret|].
  eapply wp_bind; [now apply wp_init_fn|]. intros ps w1 _ F1.
  case_bool_decide; [|apply wp_throw].
  eapply wp_seq; [apply wp_pack; intros f' fs'; congruence|]. intros. now apply wp_ret.
Qed.

Lemma wp_optimize X w p : all_ops P p -> wp X w (optimize_rng_use rn p) (fun _ _ => True).
Proof.
  intros Hp. unfold optimize_rng_use. apply wp_bind_top. intros f fs F. cbn zeta.
  apply wp_bind_reads. eapply wp_seq.
  - eapply wp_in_frame; [now apply Hrn|]. auto.
  - intros _ w1 _. apply wp_bind_reads. eapply wp_seq.
    + destruct (Nat.ltb _ _); [|now apply wp_ret].
      apply wp_bind_top. intros f1 fs1 F1.
      destruct (f_rng f1) as [q|] eqn:R; [|apply wp_throw].
      apply wp_modify; [|auto]. intros _. eapply T_on_top'; [eassumption|].
      apply FT_set_rng. rewrite R. apply RR_reserve.
    + intros _ w2 _. now apply Hrn.
Qed.

(* ------------------------------------------------------------------ *)
(** * One step *)

Lemma wp_step n p X w : all_ops P p -> wp X w (step C rn n p) (fun _ _ => True).
Proof.
  intros Hp. pose proof (all_ops_node _ _ Hp) as HP.
  assert (HC : forall q, child p q -> all_ops P q) by (intros q; now apply all_ops_child).
  destruct p; cbn [step child] in *.
  - now apply wp_ret.
  - apply wp_throw.
  - eapply wp_seq; [apply Hrn; auto|]. intros v w1 _. apply Hrn. eauto.
  - intros Hi r w' E. destruct (rn p w) as [r1 w1] eqn:E1.
    destruct (Hrn p X w (HC _ (or_introl eq_refl)) Hi _ _ E1) as [T1 _].
    destruct r1 as [v|e|].
    + injection E as <- <-. auto.
    + destruct (Hrn (h e) X w1 (HC _ (or_intror (ex_intro _ e eq_refl))) (t_inv _ _ _ T1 Hi) _ _ E) as [T2 _].
      split; [eapply T_trans; eauto|auto].
    + injection E as <- <-. auto.
  - apply Hrn, C_ok.
  - apply wp_get_parameter.
  - apply wp_get_state.
  - apply wp_set_state. eauto.
  - apply wp_next_key.
  - apply wp_next_keys.
  - apply wp_maybe_next.
  - apply wp_reserve.
  - apply wp_bind_top. intros. apply wp_with_rng; auto.
  - apply wp_bind_top. intros. now apply wp_ret.
  - apply wp_bind_top. intros. apply wp_with_creator; auto.
  - apply wp_bind_top. intros. apply wp_with_getter; auto.
  - apply wp_next_create.
  - apply wp_next_get.
  - eapply wp_seq; [|intros; now apply wp_ret]. apply wp_new_module. split; eauto.
  - apply wp_wrap_method; [intros v; apply HC; eauto|discriminate].
  - apply wp_name_scope; auto.
  - apply wp_bind_top. intros. apply wp_intercept; auto.
  - apply wp_next_call.
  - apply wp_bind_pure; [apply pure_safe_name|]. intros. now apply wp_ret.
  - apply wp_module_dict.
  - apply wp_jit; auto.
  - apply wp_switch. apply Forall_cons. split; [auto|]. apply Forall_cons. split; [auto|]. apply Forall_nil. exact Logic.I.
  - apply wp_switch. rewrite Forall_forall. intros q Hq. apply HC. now apply elem_of_list_In.
  - apply wp_scan; eauto.
  - apply wp_fori; eauto.
  - apply wp_while; eauto.
  - apply wp_vmap; eauto.
  - apply wp_eval_shape; auto.
  - eapply wp_seq; [eapply wp_true, wp_init_fn; auto|]. intros. now apply wp_ret.
  - destruct (dec params), (dec state); try apply wp_throw.
    eapply wp_seq; [apply wp_apply_fn; auto|]. intros. now apply wp_ret.
  - apply wp_lift_call; auto.
  - apply wp_optimize; auto.
Qed.
End Evolve.

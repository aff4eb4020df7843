(** Simulation: a program behaves the same in two interpreter states that agree
    except for (a) the frames below some level, (b) the saved random sequences
    below some level of a frame's rng stack, and (c) depending on the mode,
    - [Loose]: the random sequences of frames that have none on the left (only
      successful runs on the left are followed);
    - [Lazy]: an empty buffer of reserved keys on the left may already have been
      filled on the right. *)
From stdpp Require Import gmap list strings.
From Coq Require Import String Ascii ZArith Lia.
From Verif Require Import ModelStr ModelRng ModelCore SpecCore SpecStateful ProofsStr ProofsMap ProofsRng ProofsEvolve ProofsRun ProofsOps ProofsModule.
Local Open Scope string_scope.
Local Open Scope list_scope.

Inductive mode := Strict | Loose | Lazy.

(** Whether the current sequence exists on the left/right, the same for the saved
    ones, and the bases of the rng stacks. *)
Record base := Base {
  ba_cur : bool * bool;
  ba_saved : list (bool * bool);
  ba_r : list (option rngseq);
  ba_r' : list (option rngseq) }.

Definition is_some {A} (x : option A) : bool := match x with Some _ => true | None => false end.

(** Programs followed by each mode. *)
Definition mode_ok (C : code) (md : mode) (p : prog) : Prop :=
  match p with
  | TryExcept _ _ | MaybeNextKey => md <> Loose
  | NextKeys _ | ReserveKeys _ | OptimizeRng _ => md <> Lazy
  | While c b _ => md = Strict \/ md = Loose /\ keeps_rng C c /\ keeps_reserve C b
  | Vmap f _ => md = Strict \/ md = Loose /\ uniform_lanes C f
  | _ => True
  end.

Section Sim.
Variable C : code.
Variable md : mode.
Variable P : prog -> Prop.
Hypothesis P_ok : forall p, P p -> mode_ok C md p.
Hypothesis P_ret : forall v, P (Ret v).
Hypothesis C_ok : code_ok P C.
Hypothesis C_id : md = Lazy -> sound_identity C.

Definition small (r : option rngseq) : Prop :=
  md = Lazy -> forall q, r = Some q -> List.length (sq_subs q) <= c_block C.
Definition rq (r r' : option rngseq) : Prop :=
  r = r' /\ small r \/ (md = Loose /\ r = None)
  \/ (md = Lazy /\ exists q, r = Some q /\ sq_subs q = [] /\ r' = Some (reserve (c_block C) q)).
Definition rrs (s : bool * bool) (r r' : option rngseq) : Prop :=
  is_some r = fst s /\ is_some r' = snd s /\ rq r r'.
Fixpoint RS (saved : list (bool * bool)) (b b' l l' : list (option rngseq)) : Prop :=
  match saved with
  | [] => l = b /\ l' = b'
  | s :: saved => exists r t r' t', l = r :: t /\ l' = r' :: t' /\ rrs s r r' /\ RS saved b b' t t'
  end.

Record FR (ix : base) (f f' : frame) : Prop := {
  fr_params : f_params f' = f_params f;
  fr_frozen : f_frozen f' = f_frozen f;
  fr_state : f_state f' = f_state f;
  fr_mods : f_mods f' = f_mods f;
  fr_scopes : f_scopes f' = f_scopes f;
  fr_rng : rrs (ba_cur ix) (f_rng f) (f_rng f');
  fr_rngs : RS (ba_saved ix) (ba_r ix) (ba_r' ix) (f_rngs f) (f_rngs f') }.

(** Everything but the frames. *)
Record GR (w w' : world) : Prop := {
  r_pcreate : w_pcreate w' = w_pcreate w;
  r_screate : w_screate w' = w_screate w;
  r_pget : w_pget w' = w_pget w;
  r_sget : w_sget w' = w_sget w;
  r_icpt : w_icpt w' = w_icpt w;
  r_mods : w_mods w' = w_mods w;
  r_nexts : w_nexts w' = w_nexts w;
  r_draws : w_draws w' = w_draws w;
  r_heap : heap_ok P w }.

(** The frames below the top are [o] and [o']. *)
Definition R (ix : base) (o o' : list frame) (w w' : world) : Prop :=
  GR w w' /\ exists f f', w_frames w = f :: o /\ w_frames w' = f' :: o' /\ FR ix f f'.

Definition post {A B} ix o o' (RA : A -> B -> Prop) (x : res A * world) (y : res B * world) : Prop :=
  match x with
  | (Ok a, w1) => exists b w1', y = (Ok b, w1') /\ RA a b /\ R ix o o' w1 w1'
  | (Exc e, w1) => md = Loose \/ exists w1', y = (Exc e, w1') /\ R ix o o' w1 w1'
  | (Fuel, w1) => md = Loose \/ exists w1', y = (Fuel, w1') /\ R ix o o' w1 w1'
  end.
Definition sim {A B} ix o o' (RA : A -> B -> Prop) (m : M A) (m' : M B) : Prop :=
  forall w w', R ix o o' w w' -> post ix o o' RA (m w) (m' w').
(** The same when the current frames are [f] and [f']. *)
Definition sim_at {A B} ix o o' f f' (RA : A -> B -> Prop) (m : M A) (m' : M B) : Prop :=
  forall w w', GR w w' -> w_frames w = f :: o -> w_frames w' = f' :: o' -> post ix o o' RA (m w) (m' w').

Lemma sim_conseq {A B} ix o o' (RA RB : A -> B -> Prop) m m' :
  sim ix o o' RA m m' -> (forall a b, RA a b -> RB a b) -> sim ix o o' RB m m'.
Proof.
  intros H K w w' HR. specialize (H w w' HR). unfold post in *.
  destruct (m w) as [[a|e|] w1]; auto. destruct H as (b & w1' & E & Hab & HR'). eauto 6.
Qed.
Lemma sim_ret {A B} ix o o' (RA : A -> B -> Prop) a b : RA a b -> sim ix o o' RA (retM a) (retM b).
Proof. intros H w w' HR. cbn. eauto. Qed.
Lemma sim_throw {A B} ix o o' (RA : A -> B -> Prop) e : sim ix o o' RA (throw e) (throw e).
Proof. intros w w' HR. cbn. eauto. Qed.
Lemma sim_fuel {A B} ix o o' (RA : A -> B -> Prop) : sim ix o o' RA (fun w => (Fuel, w)) (fun w => (Fuel, w)).
Proof. intros w w' HR. cbn. eauto. Qed.
Lemma sim_bind {A A' B B'} ix o o' (RA : A -> A' -> Prop) (RB : B -> B' -> Prop) m m' k k' :
  sim ix o o' RA m m' -> (forall a a', RA a a' -> sim ix o o' RB (k a) (k' a')) ->
  sim ix o o' RB (bindM m k) (bindM m' k').
Proof.
  intros H K w w' HR. specialize (H w w' HR). unfold post, bindM in *.
  destruct (m w) as [[a|e|] w1].
  - destruct H as (b & w1' & -> & Hab & HR'). exact (K a b Hab w1 w1' HR').
  - destruct H as [H|(w1' & -> & HR')]; eauto.
  - destruct H as [H|(w1' & -> & HR')]; eauto.
Qed.
Lemma sim_bind_eq {A B B'} ix o o' (RB : B -> B' -> Prop) (m m' : M A) k k' :
  sim ix o o' eq m m' -> (forall a, sim ix o o' RB (k a) (k' a)) -> sim ix o o' RB (bindM m k) (bindM m' k').
Proof. intros H K. eapply sim_bind; [exact H|]. intros a _ <-. apply K. Qed.
Lemma sim_seq {A A' B B'} ix o o' (RA : A -> A' -> Prop) (RB : B -> B' -> Prop) m m' k k' :
  sim ix o o' RA m m' -> sim ix o o' RB k k' -> sim ix o o' RB (m ;;; k) (m' ;;; k').
Proof. intros H K. eapply sim_bind; eauto. Qed.
Lemma sim_reads {A} ix o o' (g : world -> A) :
  (forall w w', GR w w' -> g w' = g w) -> sim ix o o' eq (reads g) (reads g).
Proof. intros H w w' HR. cbn. exists (g w'), w'. split; [reflexivity|]. split; [symmetry; apply H, HR|assumption]. Qed.
Lemma sim_modify ix o o' g g' :
  (forall w w', R ix o o' w w' -> R ix o o' (g w) (g' w')) -> sim ix o o' eq (modify g) (modify g').
Proof. intros H w w' HR. cbn. exists tt, (g' w'). auto. Qed.
Lemma sim_top ix o o' : sim ix o o' (FR ix) top_frame top_frame.
Proof.
  intros w w' [HG (f & f' & E & E' & HF)]. unfold top_frame. rewrite E, E'. cbn.
  do 2 eexists. split; [reflexivity|]. split; [eassumption|]. split; eauto.
Qed.
Lemma GR_frames w w' fs fs' : GR w w' -> GR (set_frames fs w) (set_frames fs' w').
Proof. intros []. destruct w, w'; cbn in *. split; cbn; auto. Qed.
Lemma R_on_top ix jx o o' g g' w w' :
  (forall f f', FR ix f f' -> FR jx (g f) (g' f')) -> R ix o o' w w' -> R jx o o' (on_top g w) (on_top g' w').
Proof.
  intros H [HG (f & f' & E & E' & HF)]. unfold on_top. rewrite E, E'. split; [now apply GR_frames|].
  cbn. eauto 8.
Qed.
Lemma sim_on_top ix o o' g g' :
  (forall f f', FR ix f f' -> FR ix (g f) (g' f')) -> sim ix o o' eq (modify (on_top g)) (modify (on_top g')).
Proof. intros H. apply sim_modify. intros w w'. now apply R_on_top. Qed.
Lemma sim_open {A B} ix o o' (RA : A -> B -> Prop) m m' :
  (forall f f', FR ix f f' -> sim_at ix o o' f f' RA m m') -> sim ix o o' RA m m'.
Proof. intros H w w' [HG (f & f' & E & E' & HF)]. now apply (H f f' HF). Qed.
Lemma sim_close {A B} ix o o' f f' (RA : A -> B -> Prop) m m' :
  FR ix f f' -> sim ix o o' RA m m' -> sim_at ix o o' f f' RA m m'.
Proof. intros HF H w w' HG E E'. apply H. split; eauto 6. Qed.
Lemma sim_at_top {A B} ix o o' f f' (RA : A -> B -> Prop) k k' :
  sim_at ix o o' f f' RA (k f) (k' f') -> sim_at ix o o' f f' RA (bindM top_frame k) (bindM top_frame k').
Proof. intros H w w' HG E E'. unfold bindM, top_frame. rewrite E, E'. cbn. now apply H. Qed.

Lemma sim_scoped {A B} ix jx o o' (RA : A -> B -> Prop) push pop (m : M A) (m' : M B) :
  (forall w w', R ix o o' w w' -> R jx o o' (push w) (push w')) ->
  (forall w w', R jx o o' w w' -> R ix o o' (pop w) (pop w')) ->
  sim jx o o' RA m m' -> sim ix o o' RA (scoped push pop m) (scoped push pop m').
Proof.
  intros H1 H2 H w w' HR. specialize (H _ _ (H1 _ _ HR)). unfold scoped, post in *.
  destruct (m (push w)) as [[a|e|] w1].
  - destruct H as (b & w1' & -> & Hab & HR'). eauto 6.
  - destruct H as [H|(w1' & -> & HR')]; eauto.
  - destruct H as [H|(w1' & -> & HR')]; eauto.
Qed.
(** After leaving a frame, the frames are what they were before entering it. *)
Lemma sim_at_in_frame {A B D E} ix jx o o' f f' g g' (RA : A -> B -> Prop) (RB : D -> E -> Prop) (m : M A) (m' : M B) k k' :
  FR ix f f' -> FR jx g g' -> sim jx (f :: o) (f' :: o') RA m m' ->
  (forall a b h h', RA a b -> FR jx h h' -> sim_at ix o o' f f' RB (k (a, h)) (k' (b, h'))) ->
  sim_at ix o o' f f' RB (bindM (in_frame g m) k) (bindM (in_frame g' m') k').
Proof.
  intros HF HJ H K w w' HG E1 E2. unfold bindM, in_frame. rewrite E1, E2.
  assert (HR2 : R jx (f :: o) (f' :: o') (set_frames (g :: f :: o) w) (set_frames (g' :: f' :: o') w')).
  { split; [now apply GR_frames|]. exists g, g'. auto. }
  specialize (H _ _ HR2).
  destruct (m (set_frames (g :: f :: o) w)) as [[a|e|] w1].
  - destruct H as (b & w1' & -> & Hab & HG1 & h & h' & F1 & F2 & HH). rewrite F1, F2.
    apply K; auto. now apply GR_frames.
  - destruct H as [H|(w1' & -> & HG1 & h & h' & F1 & F2 & HH)].
    { destruct (w_frames w1); cbn; auto. }
    rewrite F1, F2. cbn. right. eexists. split; [reflexivity|].
    split; [now apply GR_frames|]. cbn. eauto 6.
  - destruct H as [H|(w1' & -> & HG1 & h & h' & F1 & F2 & HH)].
    { destruct (w_frames w1); cbn; auto. }
    rewrite F1, F2. cbn. right. eexists. split; [reflexivity|].
    split; [now apply GR_frames|]. cbn. eauto 6.
Qed.
Lemma sim_in_frame {A B D E} ix jx o o' g g' (RA : A -> B -> Prop) (RB : D -> E -> Prop) (m : M A) (m' : M B) k k' :
  FR jx g g' -> (forall f f', sim jx (f :: o) (f' :: o') RA m m') ->
  (forall a b h h', RA a b -> FR jx h h' -> sim ix o o' RB (k (a, h)) (k' (b, h'))) ->
  sim ix o o' RB (bindM (in_frame g m) k) (bindM (in_frame g' m') k').
Proof.
  intros HJ H K. apply sim_open. intros f f' HF. eapply sim_at_in_frame; eauto.
  intros. apply sim_close; auto.
Qed.

(** ** base.py *)
Variable rn : prog -> M val.
Hypothesis Hrn : forall p ix o o', all_ops P p -> sim ix o o' eq (rn p) (rn p).
Hypothesis Hrun : exists m, rn = run C m.

Lemma sim_safe_name ix o o' m : sim ix o o' eq (safe_get_module_name m) (safe_get_module_name m).
Proof.
  unfold safe_get_module_name. apply sim_bind_eq; [apply sim_reads; apply r_mods|]. intros ms.
  destruct (ms !! m) as [[[n|] s]|]; auto using sim_ret, sim_throw.
Qed.
Lemma sim_bundle_name ix o o' : sim ix o o' eq current_bundle_name current_bundle_name.
Proof.
  unfold current_bundle_name. eapply sim_bind; [apply sim_top|]. intros f f' HF.
  rewrite (fr_mods _ _ _ HF). destruct (f_mods f) as [|[m meth] ?]; [now apply sim_ret|apply sim_safe_name].
Qed.

Lemma R_nexts ix o o' w w' ns : R ix o o' w w' -> Forall (next_ok P) ns -> R ix o o' (set_nexts ns w) (set_nexts ns w').
Proof. intros [[] HF] H. destruct w, w'; cbn in *. split; [split; cbn; auto|assumption]. Qed.

Lemma sim_alloc ix o o' ob : next_ok P ob -> sim ix o o' eq (alloc_next ob) (alloc_next ob).
Proof.
  intros H w w' HR. unfold alloc_next, bindM, reads, modify, retM, post.
  rewrite (r_nexts _ _ (proj1 HR)). do 2 eexists. split; [reflexivity|]. split; [reflexivity|].
  apply R_nexts; [assumption|]. apply Forall_app. split; [apply (r_heap _ _ (proj1 HR))|]. auto.
Qed.
(** Popping a [next] closure. *)
Lemma sim_pop_next {A} ix o o' r ob ob' (k : M A) w w' :
  R ix o o' w w' -> w_nexts w !! r = Some ob -> (next_ok P ob -> next_ok P ob') ->
  sim ix o o' eq k k ->
  post ix o o' eq ((modify (set_nexts (<[r := ob']> (w_nexts w))) ;;; k) w)
                 ((modify (set_nexts (<[r := ob']> (w_nexts w))) ;;; k) w').
Proof.
  intros HR E H Hk. unfold bindM, modify. apply Hk. apply R_nexts; [assumption|].
  pose proof (r_heap _ _ (proj1 HR)) as Hh. unfold heap_ok in Hh. apply Forall_insert; [assumption|].
  apply H. rewrite Forall_lookup in Hh. eauto.
Qed.

Lemma sim_next_create ix o o' r sh dt i : sim ix o o' eq (next_create C rn r sh dt i) (next_create C rn r sh dt i).
Proof.
  intros w w' HR. unfold next_create. unfold bindM at 1, reads at 1. unfold bindM at 2, reads at 1.
  rewrite (r_nexts _ _ (proj1 HR)). destruct (w_nexts w !! r) as [[[|c rest] ctx| |]|] eqn:E.
  - apply Hrn; [apply C_ok|assumption].
  - eapply sim_pop_next; eauto. apply Hrn, C_ok.
  - now apply (sim_throw (A:=val) (B:=val)).
  - now apply (sim_throw (A:=val) (B:=val)).
  - now apply (sim_throw (A:=val) (B:=val)).
Qed.
Lemma sim_run_creators ix o o' s ctx sh dt i :
  sim ix o o' eq (run_creators C rn s ctx sh dt i) (run_creators C rn s ctx sh dt i).
Proof.
  unfold run_creators. destruct s; [apply Hrn, C_ok|].
  apply sim_bind_eq; [now apply sim_alloc|]. intros. apply sim_next_create.
Qed.
Lemma sim_next_get ix o o' r v : sim ix o o' eq (next_get C rn r v) (next_get C rn r v).
Proof.
  intros w w' HR. unfold next_get. unfold bindM at 1, reads at 1. unfold bindM at 2, reads at 1.
  rewrite (r_nexts _ _ (proj1 HR)). destruct (w_nexts w !! r) as [[|[|c rest] ctx|]|] eqn:E.
  - now apply (sim_throw (A:=val) (B:=val)).
  - now apply sim_ret.
  - eapply sim_pop_next; eauto. apply Hrn, C_ok.
  - now apply (sim_throw (A:=val) (B:=val)).
  - now apply (sim_throw (A:=val) (B:=val)).
Qed.
Lemma sim_run_getters ix o o' s ctx v : sim ix o o' eq (run_getters C rn s ctx v) (run_getters C rn s ctx v).
Proof.
  unfold run_getters. destruct s; [now apply sim_ret|].
  apply sim_bind_eq; [now apply sim_alloc|]. intros. apply sim_next_get.
Qed.

Lemma FR_set_params ix f f' p : FR ix f f' -> FR ix (set_params p f) (set_params p f').
Proof. intros []. split; auto. Qed.
Lemma FR_set_fstate ix f f' s : FR ix f f' -> FR ix (set_fstate s f) (set_fstate s f').
Proof. intros []. split; auto. Qed.
Lemma FR_set_scopes ix f f' s : FR ix f f' -> FR ix (set_scopes s f) (set_scopes s f').
Proof. intros []. split; auto. Qed.
Lemma FR_set_rng ix f f' r r' : FR ix f f' -> rrs (ba_cur ix) r r' -> FR ix (set_rng r f) (set_rng r' f').
Proof. intros [] H. split; auto. Qed.

Lemma sim_get_parameter ix o o' n sh dt i : sim ix o o' eq (get_parameter C rn n sh dt i) (get_parameter C rn n sh dt i).
Proof.
  unfold get_parameter. eapply sim_bind; [apply sim_top|]. intros _ _ _.
  destruct i as [i|]; [|apply sim_throw].
  apply sim_bind_eq; [apply sim_bundle_name|]. intros b.
  eapply sim_bind; [apply sim_top|]. intros f f' HF. unfold current_module.
  rewrite (fr_frozen _ _ _ HF), (fr_params _ _ _ HF), (fr_mods _ _ _ HF).
  destruct (f_frozen f && _); [apply sim_throw|].
  eapply sim_seq.
  { apply sim_on_top. intros g g' HG. rewrite (fr_frozen _ _ _ HG), (fr_params _ _ _ HG).
    destruct (f_frozen g); [assumption|]. now apply FR_set_params. }
  apply sim_bind_eq.
  - destruct (not_none _); [now apply sim_ret|]. destruct (f_frozen f); [apply sim_throw|].
    apply sim_bind_eq; [apply sim_reads, r_pcreate|]. intros st.
    apply sim_bind_eq; [apply sim_run_creators|]. intros v.
    eapply sim_seq; [|now apply sim_ret]. apply sim_on_top. intros g g' HG.
    rewrite (fr_params _ _ _ HG). now apply FR_set_params.
  - intros v. apply sim_bind_eq; [apply sim_reads, r_pget|]. intros gs.
    apply sim_bind_eq; [apply sim_run_getters|]. intros v'.
    destruct (vshape v'); [|apply sim_throw]. destruct (bool_decide _); [now apply sim_ret|apply sim_throw].
Qed.
Lemma sim_get_state ix o o' n sh dt i : sim ix o o' eq (get_state C rn n sh dt i) (get_state C rn n sh dt i).
Proof.
  unfold get_state. apply sim_bind_eq; [apply sim_bundle_name|]. intros b.
  eapply sim_bind; [apply sim_top|]. intros f f' HF. unfold current_module.
  rewrite (fr_state _ _ _ HF), (fr_mods _ _ _ HF).
  eapply sim_seq.
  { apply sim_on_top. intros g g' HG. rewrite (fr_state _ _ _ HG). now apply FR_set_fstate. }
  apply sim_bind_eq.
  - destruct (lookup2 _ _ _) as [[? ?]|]; [now apply sim_ret|]. destruct i as [i|]; [|apply sim_throw].
    destruct sh as [sh|]; [|apply sim_throw]. destruct dt as [dt|]; [|apply sim_throw].
    apply sim_bind_eq; [apply sim_reads, r_screate|]. intros st.
    apply sim_bind_eq; [apply sim_run_creators|]. intros v.
    eapply sim_seq; [|now apply sim_ret]. apply sim_on_top. intros g g' HG.
    rewrite (fr_state _ _ _ HG). now apply FR_set_fstate.
  - intros v. apply sim_bind_eq; [apply sim_reads, r_sget|]. intros gs. apply sim_run_getters.
Qed.
Lemma sim_set_state ix o o' n v : sim ix o o' eq (set_state n v) (set_state n v).
Proof.
  unfold set_state. apply sim_bind_eq; [apply sim_bundle_name|]. intros b.
  eapply sim_seq; [|now apply sim_ret]. apply sim_on_top. intros g g' HG.
  rewrite (fr_state _ _ _ HG). now apply FR_set_fstate.
Qed.

Lemma rrs_some s (q : rngseq) : fst s = true -> snd s = true -> small (Some q) -> rrs s (Some q) (Some q).
Proof. intros H1 H2 H3. repeat split; auto. now left. Qed.
Lemma small_none : small None.
Proof. intros _ q [=]. Qed.
Lemma small_nil q : sq_subs q = [] -> small (Some q).
Proof. intros E _ p [= <-]. rewrite E. cbn. lia. Qed.
Lemma small_full q : List.length (sq_subs q) = c_block C -> small (Some q).
Proof. intros E _ p [= <-]. now rewrite E. Qed.
Lemma rq_small r r' : rq r r' -> small r.
Proof. intros [[_ H]|[[_ ->]|(_ & q & -> & E & _)]]; auto using small_none, small_nil. Qed.
Lemma rq_refl r : small r -> rq r r.
Proof. now left. Qed.

Lemma sim_with_seq {A} ix o o' (g : rngseq -> option (A * rngseq)) :
  (md = Lazy -> forall q, sq_subs q = [] -> g (reserve (c_block C) q) = g q) ->
  (md = Lazy -> forall q a q', g q = Some (a, q') -> List.length (sq_subs q) <= c_block C ->
     List.length (sq_subs q') <= c_block C) ->
  sim ix o o' eq (with_seq g) (with_seq g).
Proof.
  intros Hg Hb. unfold with_seq. eapply sim_bind; [apply sim_top|]. intros f f' HF.
  assert (Hsome : forall q, f_rng f = Some q -> is_some (f_rng f') = true ->
     fst (ba_cur ix) = true /\ snd (ba_cur ix) = true).
  { intros q E E'. destruct (fr_rng _ _ _ HF) as (S1 & S2 & _). rewrite E in S1. rewrite E' in S2. auto. }
  destruct (fr_rng _ _ _ HF) as (S1 & S2 & [[E Hs]|[[L E]|(L & q & E & Eq & E')]]).
  - rewrite <- E. destruct (f_rng f) as [s|] eqn:Ef; [|apply sim_throw].
    destruct (g s) as [[a s']|] eqn:Eg; [|apply sim_throw].
    eapply sim_seq; [|now apply sim_ret]. apply sim_on_top. intros h h' HH.
    apply FR_set_rng; [assumption|]. destruct (Hsome _ eq_refl) as [? ?]; [now rewrite <- E|]. apply rrs_some; auto.
    intros L p [= <-]. eapply Hb; eauto.
  - rewrite E. intros w w' HR. left. exact L.
  - rewrite E, E', (Hg L q Eq). destruct (g q) as [[a s']|] eqn:Eg; [|apply sim_throw].
    eapply sim_seq; [|now apply sim_ret]. apply sim_on_top. intros h h' HH.
    apply FR_set_rng; [assumption|]. destruct (Hsome _ E) as [? ?]; [now rewrite E'|]. apply rrs_some; auto.
    intros _ p [= <-]. apply (Hb L _ _ _ Eg). rewrite Eq. cbn. lia.
Qed.
Lemma small_next q a q' : seq_next (c_block C) q = Some (a, q') -> List.length (sq_subs q) <= c_block C ->
  List.length (sq_subs q') <= c_block C.
Proof.
  unfold seq_next. intros H Hl.
  assert (Hl1 : List.length (sq_subs (match sq_subs q with [] => reserve (c_block C) q | _ => q end)) <= c_block C).
  { destruct (sq_subs q) eqn:E; [|now rewrite E].
    destruct (reserve_subs (c_block C) q) as (l & H1 & H2). rewrite H1, E. cbn. lia. }
  destruct (sq_subs (match sq_subs q with [] => _ | _ => _ end)) as [|k rest] eqn:E; [discriminate|].
  injection H as _ <-. cbn in *. lia.
Qed.
Lemma lazy_next q : sq_subs q = [] -> seq_next (c_block C) (reserve (c_block C) q) = seq_next (c_block C) q.
Proof.
  intros E. unfold seq_next. rewrite E. destruct (sq_subs (reserve (c_block C) q)) eqn:E2.
  - destruct (reserve_subs (c_block C) q) as (l & H1 & H2). rewrite E2, E in H1. cbn in H1. subst l. cbn in H2.
    rewrite <- H2. change (reserve 0 (reserve 0 q)) with q. now rewrite E.
  - now rewrite E2.
Qed.
Lemma R_draws ix o o' w w' : R ix o o' w w' -> R ix o o' (set_draws (S (w_draws w)) w) (set_draws (S (w_draws w')) w').
Proof. intros [[] HF]. destruct w, w'; cbn in *. split; [split; cbn; auto|assumption]. Qed.
Lemma sim_next_key ix o o' : sim ix o o' eq (next_rng_key C) (next_rng_key C).
Proof.
  unfold next_rng_key. eapply sim_bind; [apply sim_top|]. intros _ _ _.
  eapply sim_seq; [apply sim_modify, R_draws|].
  apply sim_bind_eq; [apply sim_with_seq; [auto using lazy_next|intros _; apply small_next]|]. intros. now apply sim_ret.
Qed.
Lemma sim_next_keys ix o o' n : md <> Lazy -> sim ix o o' eq (next_rng_keys C n) (next_rng_keys C n).
Proof. intros L. unfold next_rng_keys. apply sim_bind_eq; [apply sim_with_seq; congruence|]. intros. now apply sim_ret. Qed.
Lemma sim_maybe_next ix o o' : md <> Loose -> sim ix o o' eq (maybe_next_rng_key C) (maybe_next_rng_key C).
Proof.
  intros L. unfold maybe_next_rng_key. eapply sim_bind; [apply sim_top|]. intros f f' HF.
  assert (sim ix o o' eq (let! k := with_seq (seq_next (c_block C)) in retM (VKey k)) (let! k := with_seq (seq_next (c_block C)) in retM (VKey k))) as H.
  { apply sim_bind_eq; [apply sim_with_seq; [auto using lazy_next|intros _; apply small_next]|]. intros. now apply sim_ret. }
  destruct (fr_rng _ _ _ HF) as (S1 & S2 & [[E Hs]|[[L' E]|(L' & q & E & Eq & E')]]); [|congruence|].
  - rewrite <- E. destruct (f_rng f); [assumption|now apply sim_ret].
  - now rewrite E, E'.
Qed.
Lemma sim_reserve ix o o' n : md <> Lazy -> sim ix o o' eq (reserve_rng_keys n) (reserve_rng_keys n).
Proof. intros L. apply sim_with_seq; congruence. Qed.

Definition push_base (s : bool * bool) (ix : base) : base :=
  Base s (ba_cur ix :: ba_saved ix) (ba_r ix) (ba_r' ix).
Lemma sim_with_rng ix o o' k p : all_ops P p ->
  sim ix o o' eq (scoped (push_rng (Some (seq_of_key k))) pop_rng (rn p)) (scoped (push_rng (Some (seq_of_key k))) pop_rng (rn p)).
Proof.
  intros Hp. apply (sim_scoped ix (push_base (true, true) ix)).
  - intros w w'. unfold push_rng. apply R_on_top. intros f f' []. split; cbn; auto; [apply rrs_some; auto; now apply small_nil|].
    eauto 10.
  - intros w w'. unfold pop_rng. apply R_on_top. intros f f' [].
    destruct fr_rngs0 as (r & t & r' & t' & E & E' & H1 & H2). rewrite E, E'. split; cbn; auto.
  - now apply Hrn.
Qed.

Lemma sim_scoped_globals {A} ix o o' push pop (m : M A) :
  (forall w w', R ix o o' w w' -> R ix o o' (push w) (push w')) ->
  (forall w w', R ix o o' w w' -> R ix o o' (pop w) (pop w')) ->
  sim ix o o' eq m m -> sim ix o o' eq (scoped push pop m) (scoped push pop m).
Proof. apply (sim_scoped ix ix). Qed.
Lemma sim_with_creator ix o o' c ps ss p : all_ops P p ->
  sim ix o o' eq (step C rn 0 (WithCreator c ps ss p)) (step C rn 0 (WithCreator c ps ss p)).
Proof.
  intros Hp. cbn [step]. eapply sim_bind; [apply sim_top|]. intros _ _ _. apply sim_scoped_globals.
  - intros w w' [[] HF]. destruct w, w'; cbn in *; subst. split; [split; cbn; auto|assumption].
  - intros w w' [[] HF]. destruct w, w'; cbn in *; subst. split; [split; cbn; auto|assumption].
  - now apply Hrn.
Qed.
Lemma sim_with_getter ix o o' c ps ss p : all_ops P p ->
  sim ix o o' eq (step C rn 0 (WithGetter c ps ss p)) (step C rn 0 (WithGetter c ps ss p)).
Proof.
  intros Hp. cbn [step]. eapply sim_bind; [apply sim_top|]. intros _ _ _. apply sim_scoped_globals.
  - intros w w' [[] HF]. destruct w, w'; cbn in *; subst. split; [split; cbn; auto|assumption].
  - intros w w' [[] HF]. destruct w, w'; cbn in *; subst. split; [split; cbn; auto|assumption].
  - now apply Hrn.
Qed.
Lemma sim_intercept ix o o' i p : all_ops P p ->
  sim ix o o' eq (step C rn 0 (Intercept i p)) (step C rn 0 (Intercept i p)).
Proof.
  intros Hp. cbn [step]. eapply sim_bind; [apply sim_top|]. intros _ _ _. apply sim_scoped_globals.
  - intros w w' [[] HF]. destruct w, w'; cbn in *; subst. split; [split; cbn; auto|assumption].
  - intros w w' [[] HF]. destruct w, w'; cbn in *; subst. split; [split; cbn; auto|assumption].
  - now apply Hrn.
Qed.

(** ** module.py *)
Lemma sim_push_module {A B} ix o o' ms (RA : A -> B -> Prop) m m' : sim ix o o' RA m m' ->
  sim ix o o' RA (scoped (push_module ms) pop_module m) (scoped (push_module ms) pop_module m').
Proof.
  apply sim_scoped.
  - intros w w'. unfold push_module. apply R_on_top. intros f f' []. split; cbn; auto; congruence.
  - intros w w'. unfold pop_module. apply R_on_top. intros f f' []. split; cbn; auto; congruence.
Qed.
Lemma sim_scoped_name ix o o' f f' n : FR ix f f' -> sim ix o o' eq (scoped_name f n) (scoped_name f' n).
Proof.
  intros HF. unfold scoped_name. rewrite (fr_mods _ _ _ HF).
  destruct (f_mods f) as [|? [|[pm meth] ?]]; try now apply sim_ret.
  apply sim_bind_eq; [apply sim_safe_name|]. intros. now apply sim_ret.
Qed.
Lemma sim_unique_name ix o o' n : sim ix o o' eq (unique_and_canonical_name n) (unique_and_canonical_name n).
Proof.
  unfold unique_and_canonical_name. eapply sim_bind; [apply sim_top|]. intros f f' HF.
  apply sim_bind_eq; [now apply sim_scoped_name|]. intros full. rewrite (fr_scopes _ _ _ HF).
  destruct (f_scopes f) as [|s0 [|sc rest]]; try apply sim_throw.
  destruct (number_name sc full) as [sc' r]. eapply sim_seq.
  - apply sim_on_top. intros g g'. apply FR_set_scopes.
  - destruct r; [apply sim_throw|now apply sim_ret].
Qed.
Lemma R_mods ix o o' w w' ms : R ix o o' w w' -> R ix o o' (set_mods ms w) (set_mods ms w').
Proof. intros [[] HF]. destruct w, w'; cbn in *. split; [split; cbn; auto|assumption]. Qed.
Lemma sim_set_mods ix o o' ms : sim ix o o' eq (modify (set_mods ms)) (modify (set_mods ms)).
Proof. apply sim_modify. intros. now apply R_mods. Qed.
Lemma sim_update_mod ix o o' m g : sim ix o o' eq (update_mod m g) (update_mod m g).
Proof.
  unfold update_mod. apply sim_bind_eq; [apply sim_reads, r_mods|]. intros ms.
  destruct (ms !! m); [apply sim_set_mods|apply sim_throw].
Qed.
Lemma sim_module_init ix o o' m cls n : sim ix o o' eq (module_init m cls n) (module_init m cls n).
Proof.
  unfold module_init. destruct (valid_identifier _); [|apply sim_throw].
  eapply sim_seq; [apply sim_update_mod|]. apply sim_bind_eq; [apply sim_unique_name|]. intros. apply sim_update_mod.
Qed.
Lemma sim_run_mbody ix o o' m b a : mbody_ok P b -> sim ix o o' eq (run_mbody rn m b a) (run_mbody rn m b a).
Proof.
  intros Hb. destruct b as [f|cls pre super post']; cbn in *; [apply Hrn, Hb|]. destruct Hb as [H1 H2].
  apply sim_bind_eq; [apply Hrn, H1|]. intros v. destruct (super v); [|apply Hrn, H2].
  eapply sim_seq; [apply sim_module_init|apply Hrn, H2].
Qed.
Lemma sim_next_call ix o o' r a : sim ix o o' eq (next_call C rn r a) (next_call C rn r a).
Proof.
  intros w w' HR. unfold next_call. unfold bindM at 1, reads at 1. unfold bindM at 2, reads at 1.
  rewrite (r_nexts _ _ (proj1 HR)). destruct (w_nexts w !! r) as [[| |[|c rest] m meth b]|] eqn:E.
  - now apply (sim_throw (A:=val) (B:=val)).
  - now apply (sim_throw (A:=val) (B:=val)).
  - apply sim_run_mbody; [|assumption].
    pose proof (r_heap _ _ (proj1 HR)) as Hh. unfold heap_ok in Hh. rewrite Forall_lookup in Hh. exact (Hh _ _ E).
  - eapply sim_pop_next; eauto. apply Hrn, C_ok.
  - now apply (sim_throw (A:=val) (B:=val)).
Qed.
Lemma sim_run_interceptors ix o o' m meth b a : mbody_ok P b ->
  sim ix o o' eq (run_interceptors C rn m meth b a) (run_interceptors C rn m meth b a).
Proof.
  intros Hb. unfold run_interceptors. apply sim_bind_eq; [apply sim_reads, r_icpt|]. intros is.
  destruct is; [now apply sim_run_mbody|].
  apply sim_bind_eq; [now apply sim_alloc|]. intros. apply sim_next_call.
Qed.
Lemma sim_notify ix o o' self name st : sim ix o o' eq (notify_parents self name st) (notify_parents self name st).
Proof.
  induction st as [|[m meth] st IH]; cbn; [now apply sim_ret|]. eapply sim_seq; [|exact IH].
  instantiate (1 := eq). destruct (decide (m = self)); [now apply sim_ret|].
  apply sim_bind_eq; [apply sim_reads, r_mods|]. intros ms.
  destruct (ms !! m) as [[mn [sb|]]|]; auto using sim_throw, sim_set_mods.
Qed.
Lemma sim_wrap_method ix o o' m meth b a : mbody_ok P b ->
  sim ix o o' eq (wrap_method C rn m meth b a) (wrap_method C rn m meth b a).
Proof.
  intros Hb. unfold wrap_method. eapply sim_bind; [apply sim_top|]. intros _ _ _. apply sim_push_module.
  apply sim_bind_eq; [now apply sim_run_interceptors|]. intros out.
  eapply sim_bind; [apply sim_top|]. intros f f' HF. apply sim_bind_eq; [apply sim_reads, r_mods|]. intros ms.
  rewrite (fr_mods _ _ _ HF). destruct (ms !! m) as [[[n|] s]|]; try now apply sim_ret.
  eapply sim_seq; [apply sim_notify|now apply sim_ret].
Qed.
Lemma sim_new_module ix o o' cls pre super post' : mbody_ok P (MCtor cls pre super post') ->
  sim ix o o' eq (new_module C rn cls pre super post') (new_module C rn cls pre super post').
Proof.
  intros Hb. unfold new_module. apply sim_bind_eq; [apply sim_reads, r_mods|]. intros ms.
  eapply sim_seq; [apply sim_set_mods|]. eapply sim_seq; [now apply sim_wrap_method|].
  apply sim_bind_eq; [apply sim_reads, r_mods|]. intros ms'.
  destruct (ms' !! _) as [[[n|] s]|]; auto using sim_ret, sim_throw.
Qed.
Lemma ops_ret v : all_ops P (Ret v).
Proof. constructor; [apply P_ret|]. intros q []. Qed.
Lemma sim_build_scope ix o o' subs : forall last, sim ix o o' eq (build_scope C rn subs last) (build_scope C rn subs last).
Proof.
  induction subs as [|s subs IH]; intros last; cbn; [now apply sim_ret|].
  apply sim_bind_eq; [apply sim_new_module; split; intros; apply ops_ret|]. intros m.
  apply sim_push_module, IH.
Qed.
Lemma sim_name_scope ix o o' name p : all_ops P p -> sim ix o o' eq (name_scope C rn name p) (name_scope C rn name p).
Proof.
  intros Hp. unfold name_scope. eapply sim_bind; [apply sim_top|]. intros _ _ _.
  match goal with |- context [if ?b then _ else _] => destruct b end; [apply sim_throw|].
  apply sim_bind_eq; [apply sim_build_scope|]. intros [m|]; [|apply sim_throw].
  apply sim_push_module. now apply Hrn.
Qed.
Lemma sim_module_dict ix o o' m b : sim ix o o' eq (module_dict m b) (module_dict m b).
Proof.
  unfold module_dict. eapply sim_bind; [apply sim_top|]. intros f f' HF.
  apply sim_bind_eq; [apply sim_reads, r_mods|]. intros ms.
  rewrite (fr_params _ _ _ HF), (fr_state _ _ _ HF).
  destruct (ms !! m) as [[[n|] [s|]]|]; auto using sim_ret, sim_throw.
Qed.

(** ** stateful.py *)
Record SR (ix : base) (s s' : istate) : Prop := {
  sr_params : is_params s' = is_params s;
  sr_state : is_state s' = is_state s;
  sr_rng : rrs (ba_cur ix) (is_rng s) (is_rng s') }.
Definition full_block (s : istate) : Prop :=
  forall q, is_rng s = Some q -> List.length (sq_subs q) = c_block C.
Record SRF (ix : base) (s s' : istate) : Prop := {
  srf_sr : SR ix s s';
  srf_full : full_block s;
  srf_full' : full_block s' }.
(** The random sequence of a frame after an update. *)
Definition commit (d r : option rngseq) : option rngseq :=
  match d, r with Some s, Some _ => Some s | _, _ => r end.
Record DR (ix : base) (r r' : option rngseq) (d d' : delta) : Prop := {
  dr_params : d_params d' = d_params d;
  dr_state : d_state d' = d_state d;
  dr_rng : rrs (ba_cur ix) (commit (d_rng d) r) (commit (d_rng d') r') }.

Lemma rrs_fst_false s r r' : rrs s r r' -> fst s = false -> r = None.
Proof. intros (H1 & _) F. rewrite F in H1. now destruct r. Qed.
Lemma rrs_strict s r r' : md = Strict -> rrs s r r' -> r' = r.
Proof. intros L (H1 & H2 & [[H _]|[[H _]|[H _]]]); congruence. Qed.
Lemma SR_strict ix s s' : md = Strict -> SR ix s s' -> s' = s.
Proof. intros L []. destruct s, s'; cbn in *. subst. f_equal. eauto using rrs_strict. Qed.
Lemma rq_lazy_full q q' : List.length (sq_subs q) = c_block C -> rq (Some q) (Some q') -> q' = q.
Proof.
  intros Hl [[H _]|[[_ H]|(_ & p & H1 & H2 & H3)]]; try congruence.
  injection H1 as <-. injection H3 as ->. rewrite H2 in Hl. cbn in Hl. rewrite <- Hl. reflexivity.
Qed.
Lemma SRF_rng ix s s' : SRF ix s s' -> is_rng s' = is_rng s \/ md = Loose /\ is_rng s = None.
Proof.
  intros [[_ _ (S1 & S2 & HQ)] F F']. destruct (is_rng s) as [q|] eqn:E.
  - destruct (is_rng s') as [q'|] eqn:E'; [left; f_equal; apply rq_lazy_full; auto|].
    destruct HQ as [[H _]|[[_ H]|(_ & p & H1 & H2 & H3)]]; try congruence.
  - destruct HQ as [[H _]|[[L H]|(_ & p & H1 & H2 & H3)]]; auto; congruence.
Qed.

Lemma sim_internal ix o o' b : sim ix o o' (SR ix) (internal_state b) (internal_state b).
Proof.
  unfold internal_state. eapply sim_bind; [apply sim_top|]. intros f f' [].
  apply sim_ret. rewrite fr_params0, fr_state0. split; cbn; auto.
Qed.
Lemma FR_apply_delta ix d d' f f' : DR ix (f_rng f) (f_rng f') d d' -> FR ix f f' -> FR ix (apply_delta d f) (apply_delta d' f').
Proof.
  intros [Dp Ds Dr] HF. unfold apply_delta. rewrite Dp, Ds.
  set (f1 := match d_params d with Some p => _ | None => f end).
  set (f1' := match d_params d with Some p => if f_frozen f' then _ else _ | None => f' end).
  assert (H1 : FR ix f1 f1').
  { subst f1 f1'. destruct (d_params d); [|assumption]. rewrite (fr_frozen _ _ _ HF), (fr_params _ _ _ HF).
    destruct (f_frozen f); [assumption|]. now apply FR_set_params. }
  assert (H2 : FR ix (set_fstate (update_recursive (f_state f1) (d_state d)) f1)
                     (set_fstate (update_recursive (f_state f1') (d_state d)) f1')).
  { rewrite (fr_state _ _ _ H1). now apply FR_set_fstate. }
  assert (E1 : f_rng f1 = f_rng f).
  { subst f1. destruct (d_params d); [|reflexivity]. now destruct (f_frozen f). }
  assert (E1' : f_rng f1' = f_rng f').
  { subst f1'. destruct (d_params d); [|reflexivity]. now destruct (f_frozen f'). }
  assert (Hc : forall r (g h : frame), f_rng g = f_rng h -> match r, f_rng h with Some s, Some _ => set_rng (Some s) g | _, _ => g end
     = set_rng (commit r (f_rng h)) g).
  { intros r g h E. unfold commit. destruct r; [destruct (f_rng h) eqn:Eh|]; try reflexivity; rewrite <- E; now destruct g. }
  rewrite (Hc (d_rng d) _ f), (Hc (d_rng d') _ f') by assumption. now apply FR_set_rng.
Qed.
Lemma sim_at_update {A B} ix o o' f f' d d' (RA : A -> B -> Prop) k k' :
  FR ix f f' -> DR ix (f_rng f) (f_rng f') d d' -> sim ix o o' RA k k' ->
  sim_at ix o o' f f' RA (update_internal_state d ;;; k) (update_internal_state d' ;;; k').
Proof.
  intros HF H HK w w' HG E E'. unfold bindM, update_internal_state, modify. apply HK.
  unfold on_top. rewrite E, E'. split; [now apply GR_frames|]. do 2 eexists.
  split; [reflexivity|]. split; [reflexivity|]. now apply FR_apply_delta.
Qed.
Lemma sim_update_full ix o o' s s' : SRF ix s s' ->
  sim ix o o' eq (update_internal_state (full_delta s)) (update_internal_state (full_delta s')).
Proof.
  intros HS. apply sim_on_top. intros f f' HF. apply FR_apply_delta; [|assumption].
  destruct (srf_sr _ _ _ HS). split; cbn; [now rewrite sr_params0|now rewrite sr_state0|].
  destruct (SRF_rng _ _ _ HS) as [->|[L E]].
  - destruct (fr_rng _ _ _ HF) as (S1 & S2 & HQ).
    destruct (is_rng s) eqn:Eis; cbn; [|now apply HF].
    destruct (f_rng f) eqn:E, (f_rng f') eqn:E'; cbn in *.
    + apply rrs_some; auto. apply small_full. pose proof (srf_full _ _ _ HS) as HFu. unfold full_block in HFu. apply HFu. exact Eis.
    + destruct HQ as [[H _]|[[_ H]|(_ & p & H1 & H2 & H3)]]; congruence.
    + repeat split; auto. destruct HQ as [[H _]|[[L H]|(_ & p & H1 & H2 & H3)]]; [congruence| |congruence]. right. auto.
    + repeat split; auto.
  - rewrite E. cbn. destruct (sr_rng0) as (T1 & T2 & _). destruct (fr_rng _ _ _ HF) as (S1 & S2 & HQ).
    rewrite E in T1. cbn in T1. rewrite <- T1 in S1. destruct (f_rng f) eqn:Ef; [discriminate|].
    repeat split; [now rewrite <- T1| |right; auto].
    destruct (is_rng s'), (f_rng f'); cbn in *; congruence.
Qed.
Lemma DR_difference ix a a' b b' : SR ix a a' -> SR ix b b' ->
  DR ix (is_rng a) (is_rng a') (difference C a b) (difference C a' b').
Proof.
  intros [Pa Sa (T1 & T2 & HQ)] [Pb Sb (U1 & U2 & HQ')]. split; cbn.
  - now rewrite Pa, Pb.
  - now rewrite Sa, Sb.
  - destruct (is_rng a) as [x|] eqn:Ea, (is_rng a') as [x'|] eqn:Ea', (is_rng b) as [y|] eqn:Eb, (is_rng b') as [y'|] eqn:Eb';
      cbn in *; try congruence.
    + assert (Hf : fst (ba_cur ix) = true /\ snd (ba_cur ix) = true) by auto. destruct Hf as [Hf1 Hf2].
      destruct HQ as [[HQ Hs]|[[_ HQ]|(L & p & HQ)]]; [injection HQ as <-|discriminate|].
      * destruct HQ' as [[HQ' Hs']|[[_ HQ']|(L & q & HQ')]]; [injection HQ' as <-|discriminate|].
        -- destruct (c_same_rng C x y); now apply rrs_some.
        -- destruct HQ' as (H1 & H2 & H3). injection H1 as <-. injection H3 as ->.
           destruct (C_id L) as [_ Hid].
           assert (Hx : commit (if c_same_rng C x y then None else Some y) (Some x) = Some y).
           { destruct (c_same_rng C x y) eqn:Ex; [|reflexivity]. now rewrite (Hid _ _ Ex). }
           rewrite Hx. assert (Hx' : commit (if c_same_rng C x (reserve (c_block C) y) then None else Some (reserve (c_block C) y)) (Some x)
              = Some (reserve (c_block C) y)).
           { destruct (c_same_rng C x (reserve (c_block C) y)) eqn:Ex; [|reflexivity]. now rewrite <- (Hid _ _ Ex). }
           rewrite Hx'. repeat split; auto. right. right. eauto 6.
      * destruct (C_id L) as [_ Hid].
        assert (Hx : forall u v, commit (if c_same_rng C u v then None else Some v) (Some u) = Some v).
        { intros u v. destruct (c_same_rng C u v) eqn:Ex; [|reflexivity]. now rewrite (Hid _ _ Ex). }
        rewrite !Hx. repeat split; auto.
    + exfalso. destruct HQ as [[HQ _]|[[L HQ]|(L & p & HQ & _ & HQ2)]]; congruence.
    + destruct HQ as [[HQ _]|[[L HQ]|(L & p & HQ & _)]]; try congruence.
      repeat split; auto; [|right; auto]. unfold commit. now destruct (c_same_rng C x' y').
    + repeat split; auto.
Qed.
Definition temp_base (ix : base) : base := Base (ba_cur ix) (ba_cur ix :: ba_saved ix) (ba_r ix) (ba_r' ix).
Lemma FR_temp ix f f' s s' : FR ix f f' -> SR ix s s' -> FR (temp_base ix) (temp_frame f s) (temp_frame f' s').
Proof.
  intros [] []. split; cbn; auto.
  - now rewrite fr_params0, sr_params0.
  - eauto 10.
Qed.
Lemma bind_assoc {A B D} (m : M A) (k : A -> M B) (h : B -> M D) w :
  bindM (bindM m k) h w = bindM m (fun a => bindM (k a) h) w.
Proof. unfold bindM. destruct (m w) as [[|?|] ?]; reflexivity. Qed.
Lemma sim_at_in_temp {A B D E} ix o o' f f' (RA : A -> B -> Prop) (RB : D -> E -> Prop) s s' m m' k k' :
  FR ix f f' -> SR ix s s' -> sim (temp_base ix) (f :: o) (f' :: o') RA m m' ->
  (forall a b, RA a b -> sim_at ix o o' f f' RB (k a) (k' b)) ->
  sim_at ix o o' f f' RB (bindM (in_temp s m) k) (bindM (in_temp s' m') k').
Proof.
  intros HF HS H HK w w' HG E1 E2. unfold in_temp. rewrite !bind_assoc.
  apply (sim_at_top ix o o' f f' RB (fun f => bindM (bindM (in_frame (temp_frame f s) m) (fun r => retM (fst r))) k)
     (fun f => bindM (bindM (in_frame (temp_frame f s') m') (fun r => retM (fst r))) k')); auto.
  clear w w' HG E1 E2. intros w w' HG E1 E2. rewrite !bind_assoc.
  refine (sim_at_in_frame ix (temp_base ix) o o' f f' _ _ RA RB m m' (fun a => bindM (retM (fst a)) k) (fun a => bindM (retM (fst a)) k')
    HF (FR_temp _ _ _ _ _ HF HS) H _ w w' HG E1 E2).
  intros a b h h' Hab Hh. exact (HK a b Hab).
Qed.
Lemma sim_in_temp {A B D E} ix o o' (RA : A -> B -> Prop) (RB : D -> E -> Prop) s s' m m' k k' :
  SR ix s s' -> (forall f f', sim (temp_base ix) (f :: o) (f' :: o') RA m m') ->
  (forall a b, RA a b -> sim ix o o' RB (k a) (k' b)) ->
  sim ix o o' RB (bindM (in_temp s m) k) (bindM (in_temp s' m') k').
Proof.
  intros HS H HK. apply sim_open. intros f f' HF. eapply sim_at_in_temp; eauto. intros. apply sim_close; auto.
Qed.
Lemma sim_in_temp' {A B} ix o o' (RA : A -> B -> Prop) s s' m m' :
  SR ix s s' -> (forall f f', sim (temp_base ix) (f :: o) (f' :: o') RA m m') ->
  sim ix o o' RA (in_temp s m) (in_temp s' m').
Proof.
  intros HS H w w' HR.
  assert (Hid : forall T (x : M T) v, x v = bindM x retM v).
  { intros T x v. unfold bindM. destruct (x v) as [[|?|] ?]; reflexivity. }
  rewrite (Hid _ (in_temp s m)), (Hid _ (in_temp s' m')).
  refine (sim_in_temp ix o o' RA RA s s' m m' retM retM HS H _ w w' HR). intros. now apply sim_ret.
Qed.
Lemma SR_temp ix s s' : SR (temp_base ix) s s' -> SR ix s s'.
Proof. intros []; split; auto. Qed.
Lemma SRF_temp ix s s' : SRF (temp_base ix) s s' -> SRF ix s s'.
Proof. intros []; split; auto; now apply SR_temp. Qed.

Lemma rrs_full s r r' : rrs s r r' ->
  rrs s (fmap (M:=option) (reserve_up_to_full (c_block C)) r) (fmap (M:=option) (reserve_up_to_full (c_block C)) r').
Proof.
  intros (H1 & H2 & H3). repeat split.
  - now destruct r.
  - now destruct r'.
  - assert (Hs : small (fmap (M:=option) (reserve_up_to_full (c_block C)) r)).
    { destruct r; [apply small_full, full_length|apply small_none]. }
    destruct H3 as [[-> _]|[[L ->]|(L & q & -> & Eq & ->)]]; [now left|right; left; auto|left; split; [|exact Hs]].
    clear Hs. cbn. f_equal. generalize (c_block C) as b. intros b.
    destruct (reserve_subs b q) as (l & E1 & E2). rewrite Eq in E1. cbn [app] in E1.
    assert (HR : reserve_up_to_full b (reserve b q) = reserve b q).
    { unfold reserve_up_to_full. rewrite E1, E2, Nat.sub_diag. cbn [Nat.ltb Nat.leb].
      rewrite <- E2 at 2. rewrite firstn_all, <- E1. now destruct (reserve b q). }
    rewrite HR. unfold reserve_up_to_full. rewrite Eq. cbn [List.length]. rewrite Nat.sub_0_r.
    destruct (Nat.ltb_spec 0 b) as [Hb|Hb]; [reflexivity|].
    assert (b = 0) as -> by lia. change (reserve 0 q) with q. destruct q; cbn in *. now subst.
Qed.
Lemma reserve_block_eq w : forall f fs, w_frames w = f :: fs ->
  reserve_block C w = (Ok tt, on_top (fun g => set_rng (fmap (M:=option) (reserve_up_to_full (c_block C)) (f_rng f)) g) w).
Proof.
  intros f fs E. unfold reserve_block, bindM, top_frame. rewrite E. cbn.
  destruct (f_rng f) eqn:Er; cbn; [reflexivity|]. unfold retM. f_equal. unfold on_top. rewrite E.
  destruct w, f; cbn in *; subst. reflexivity.
Qed.
Lemma sim_reserve_internal {A B} ix o o' (RA : A -> B -> Prop) b k k' :
  (forall s s', SRF ix s s' -> sim ix o o' RA (k s) (k' s')) ->
  sim ix o o' RA (reserve_block C ;;; let! s := internal_state b in k s)
                (reserve_block C ;;; let! s := internal_state b in k' s).
Proof.
  intros H w w' [HG (f & f' & E & E' & HF)].
  unfold bindM at 1. rewrite (reserve_block_eq _ _ _ E). unfold bindM at 2. rewrite (reserve_block_eq _ _ _ E').
  set (r := fmap (M:=option) (reserve_up_to_full (c_block C)) (f_rng f)).
  set (r' := fmap (M:=option) (reserve_up_to_full (c_block C)) (f_rng f')).
  assert (Hr : rrs (ba_cur ix) r r') by (apply rrs_full, HF).
  assert (HF2 : FR ix (set_rng r f) (set_rng r' f')) by now apply FR_set_rng.
  unfold bindM, internal_state, top_frame, on_top. unfold bindM. rewrite E, E'. cbn [w_frames set_frames]. unfold retM.
  apply H.
  - split.
    + split; cbn; auto; now rewrite ?(fr_params _ _ _ HF), ?(fr_state _ _ _ HF).
    + intros q. cbn. subst r. destruct (f_rng f); cbn; [|discriminate]. intros [= <-]. apply full_length.
    + intros q. cbn. subst r'. destruct (f_rng f'); cbn; [|discriminate]. intros [= <-]. apply full_length.
  - split; [now apply GR_frames|]. cbn. eauto 10.
Qed.
Lemma skel_seq_len a b : List.length (sq_subs a) = List.length (sq_subs b) ->
  Seq (Seed 0) (List.map (fun _ => Seed 0) (sq_subs a)) [] = Seq (Seed 0) (List.map (fun _ => Seed 0) (sq_subs b)) [].
Proof.
  intros E. f_equal. revert E. generalize (sq_subs b) as y. induction (sq_subs a) as [|? l IH]; intros [|? y]; cbn; try discriminate; auto.
  intros [= E]. f_equal. auto.
Qed.
Lemma same_structure_SRF ix a a' b b' : SRF ix a a' -> SRF ix b b' -> same_structure a' b' = same_structure a b.
Proof.
  intros HA HB. pose proof (SRF_rng _ _ _ HA) as QA. pose proof (SRF_rng _ _ _ HB) as QB.
  destruct HA as [[P1 S1 (A1 & A2 & _)] F1 F1'], HB as [[P2 S2 (B1 & B2 & _)] F2 F2']. unfold same_structure, istate_skel. cbn.
  rewrite P1, S1, P2, S2. f_equal.
  destruct QA as [QA|[LA EA]]; [rewrite QA|].
  - destruct QB as [->|[LB EB]]; [reflexivity|].
    rewrite EB in *. cbn in *. rewrite <- B1 in A1. destruct (is_rng a) eqn:Ea; [discriminate|]. cbn in *.
    rewrite QA in A2. cbn in A2. rewrite <- A2 in B2. destruct (is_rng b') eqn:Eb'; [discriminate|]. reflexivity.
  - rewrite EA in *. cbn in *. rewrite <- A1 in B1. destruct (is_rng b) eqn:Eb; [discriminate|]. cbn.
    rewrite (bool_decide_true (None = None)) by reflexivity. apply bool_decide_eq_true.
    destruct (is_rng a') as [x|] eqn:E1, (is_rng b') as [y|] eqn:E2; cbn in *; try congruence.
    f_equal. apply skel_seq_len. now rewrite (F1' _ E1), (F2' _ E2).
Qed.

Lemma sim_jit ix o o' p : all_ops P p -> sim ix o o' eq (jit C rn p) (jit C rn p).
Proof.
  intros Hp. unfold jit, internal_state. apply sim_open. intros f f' HF w w' HG E E'. rewrite !bind_assoc.
  revert w w' HG E E'. apply sim_at_top. intros w w' HG E E'.
  set (s := IState (Some (f_params f)) (f_state f) (f_rng f)). set (s' := IState (Some (f_params f')) (f_state f') (f_rng f')).
  assert (HS : SR ix s s').
  { subst s s'. destruct HF. split; cbn; auto. now rewrite fr_params0. }
  change (post ix o o' eq
    ((let! r := in_temp s (let! out := rn p in let! s_out := internal_state true in retM (out, difference C s s_out)) in
      update_internal_state (snd r) ;;; retM (fst r)) w)
    ((let! r := in_temp s' (let! out := rn p in let! s_out := internal_state true in retM (out, difference C s' s_out)) in
      update_internal_state (snd r) ;;; retM (fst r)) w')).
  revert w w' HG E E'.
  apply (sim_at_in_temp ix o o' f f' (fun r r' => fst r = fst r' /\ DR ix (f_rng f) (f_rng f') (snd r) (snd r'))); auto.
  - apply sim_bind_eq; [now apply Hrn|]. intros out.
    eapply sim_bind; [apply sim_internal|]. intros s1 s1' HS1. apply sim_ret. cbn. split; [reflexivity|].
    apply (DR_difference ix s s'); [assumption|now apply SR_temp].
  - intros [a d] [b d'] [H1 H2]. cbn in *. subst. apply sim_at_update; auto. now apply sim_ret.
Qed.

Definition BR (ix : base) (r r' : val * istate) : Prop := fst r = fst r' /\ SRF ix (snd r) (snd r').
Lemma sim_branch ix o o' s s' p : SR ix s s' -> all_ops P p ->
  sim ix o o' (BR ix) (stateful_branch C rn s p) (stateful_branch C rn s' p).
Proof.
  intros HS Hp. unfold stateful_branch. apply sim_in_temp'; [assumption|]. intros g g'.
  apply sim_bind_eq; [now apply Hrn|]. intros out. apply sim_reserve_internal. intros s1 s1' HS1.
  apply sim_ret. split; cbn; [reflexivity|]. now apply SRF_temp.
Qed.
Lemma sim_branches ix o o' s s' ps : SR ix s s' -> Forall (all_ops P) ps ->
  sim ix o o' (Forall2 (BR ix)) (run_branches C rn s ps) (run_branches C rn s' ps).
Proof.
  intros HS. induction 1 as [|p ps Hp Hps IH]; cbn; [apply sim_ret; constructor|].
  eapply sim_bind; [apply sim_branch; eauto|]. intros r r' Hr.
  eapply sim_bind; [apply IH|]. intros rs rs' Hrs. apply sim_ret. now constructor.
Qed.
Lemma sim_switch ix o o' i ps : Forall (all_ops P) ps -> sim ix o o' eq (switch_fun C rn i ps) (switch_fun C rn i ps).
Proof.
  intros Hps. unfold switch_fun. apply sim_reserve_internal. intros s s' HS.
  eapply sim_bind; [apply sim_branches; [apply HS|assumption]|]. intros rs rs' Hrs.
  set (k := Z.to_nat _).
  destruct (rs !! k) as [[out s1]|] eqn:E.
  2: { apply lookup_ge_None in E. rewrite (Forall2_length _ _ _ Hrs) in E. apply lookup_ge_None in E. rewrite E. apply sim_throw. }
  destruct (Forall2_lookup_l _ _ _ _ _ Hrs E) as ([out' s1'] & E' & [Ho HS1]). cbn in *. subst out'. rewrite E'.
  assert (forallb (fun r => same_skel (fst r) out && same_structure (snd r) s1') rs' =
          forallb (fun r => same_skel (fst r) out && same_structure (snd r) s1) rs) as ->.
  { clear E E'. induction Hrs as [|r r' rs rs' [H1 H2] Hrs IH]; cbn; [reflexivity|].
    rewrite IH, <- H1. f_equal. f_equal. eapply same_structure_SRF; eauto. }
  destruct (forallb _ rs); [|apply sim_throw].
  eapply sim_seq; [apply sim_update_full, HS1|now apply sim_ret].
Qed.

Lemma sim_as_pair ix o o' v : sim ix o o' eq (as_pair v) (as_pair v).
Proof.
  unfold as_pair. destruct v; try apply sim_throw. destruct l as [|? [|? [|? ?]]]; try apply sim_throw. now apply sim_ret.
Qed.
Definition CR (ix : base) (c c' : val * istate) : Prop := fst c = fst c' /\ SRF ix (snd c) (snd c').
Lemma sim_scan_step ix o o' f cs cs' x : (forall a b, all_ops P (f a b)) -> CR ix cs cs' ->
  sim ix o o' (fun r r' => CR ix (fst r) (fst r') /\ snd r = snd r') (scan_step C rn f cs x) (scan_step C rn f cs' x).
Proof.
  intros Hf. destruct cs as [c s], cs' as [c' s']. intros [H HS]. cbn in *. subst c'.
  apply sim_in_temp'; [apply HS|]. intros g g'. eapply sim_bind; [apply sim_top|]. intros f0 f0' HF0.
  apply sim_bind_eq; [apply Hrn, Hf|]. intros r. apply sim_bind_eq; [apply sim_as_pair|]. intros cy.
  eapply sim_bind; [apply sim_top|]. intros f1 f1' HF1.
  rewrite (fr_params _ _ _ HF0), (fr_params _ _ _ HF1).
  eapply (sim_seq (A:=unit) (A':=unit) _ _ _ eq).
  { destruct (no_new_params _ _); [now apply sim_ret|apply sim_throw]. }
  apply sim_reserve_internal. intros s1 s1' HS1. apply SRF_temp in HS1.
  rewrite (same_structure_SRF _ _ _ _ _ HS HS1).
  destruct (same_skel _ _ && same_structure _ _); [|apply sim_throw]. apply sim_ret. cbn. split; [|reflexivity]. split; auto.
Qed.
Lemma sim_lax_scan {T T'} ix o o' (RT : T -> T' -> Prop) st st' :
  (forall c c' x, RT c c' -> sim ix o o' (fun r r' => RT (fst r) (fst r') /\ snd r = snd r') (st c x) (st' c' x)) ->
  forall xs c c', RT c c' -> sim ix o o' (fun r r' => RT (fst r) (fst r') /\ snd r = snd r') (lax_scan st c xs) (lax_scan st' c' xs).
Proof.
  intros H. induction xs as [|x xs IH]; intros c c' Hc; cbn; [now apply sim_ret|].
  eapply sim_bind; [now apply H|]. intros [c1 y] [c1' y'] [H1 H2]. cbn in *. subst.
  eapply sim_bind; [now apply IH|]. intros [c2 ys] [c2' ys'] [H3 H4]. cbn in *. subst. now apply sim_ret.
Qed.
Lemma sim_scan_rest ix o o' f init xs rv : (forall a b, all_ops P (f a b)) ->
  sim ix o o' eq (scan_rest C rn f init xs rv) (scan_rest C rn f init xs rv).
Proof.
  intros Hf. unfold scan_rest. apply sim_reserve_internal. intros s s' HS.
  eapply (sim_bind _ _ _ (fun r r' => CR ix (fst r) (fst r') /\ snd r = snd r')).
  - unfold lax_scan_dir.
    assert (Hl : forall ys, sim ix o o' (fun r r' => CR ix (fst r) (fst r') /\ snd r = snd r')
                   (lax_scan (scan_step C rn f) (init, s) ys) (lax_scan (scan_step C rn f) (init, s') ys)).
    { intros ys. apply sim_lax_scan; [|now split]. intros. now apply sim_scan_step. }
    destruct rv; [|apply Hl]. eapply sim_bind; [apply Hl|]. intros [c y] [c' y'] [H1 H2]. cbn in *. subst. now apply sim_ret.
  - intros [[c t] y] [[c' t'] y'] [[H1 H2] H3]. cbn in *. subst.
    eapply sim_seq; [apply sim_update_full, H2|now apply sim_ret].
Qed.
Lemma sim_scan ix o o' f init xs z rv : (forall a b, all_ops P (f a b)) ->
  sim ix o o' eq (scan C rn f init xs z rv) (scan C rn f init xs z rv).
Proof.
  intros Hf. unfold scan. eapply sim_bind; [apply sim_top|]. intros fr fr' HF. rewrite (fr_frozen _ _ _ HF).
  destruct (f_frozen fr).
  - apply sim_bind_eq; [now apply sim_scan_rest|]. intros. now apply sim_ret.
  - destruct (if rv then rev xs else xs) as [|x0 rest0].
    + apply sim_bind_eq; [apply Hrn, Hf|]. intros. eapply sim_seq; [apply sim_as_pair|now apply sim_ret].
    + apply sim_bind_eq; [apply Hrn, Hf|]. intros r. apply sim_bind_eq; [apply sim_as_pair|]. intros cy.
      destruct (if rv then rev rest0 else rest0); [now apply sim_ret|].
      apply sim_bind_eq; [now apply sim_scan_rest|]. intros. now apply sim_ret.
Qed.
Lemma sim_fori_step ix o o' b i sv sv' : (forall a x, all_ops P (b a x)) -> SRF ix (fst sv) (fst sv') -> snd sv = snd sv' ->
  sim ix o o' (fun r r' => SRF ix (fst r) (fst r') /\ snd r = snd r') (fori_step C rn b i sv) (fori_step C rn b i sv').
Proof.
  intros Hb. destruct sv as [s v], sv' as [s' v']. cbn. intros HS <-.
  apply sim_in_temp'; [apply HS|]. intros g g'. apply sim_bind_eq; [apply Hrn, Hb|]. intros v'.
  apply sim_reserve_internal. intros s1 s1' HS1. apply SRF_temp in HS1. rewrite (same_structure_SRF _ _ _ _ _ HS HS1).
  destruct (same_skel _ _ && same_structure _ _); [|apply sim_throw]. now apply sim_ret.
Qed.
Lemma sim_fori_rest ix o o' lo hi b v : (forall a x, all_ops P (b a x)) ->
  sim ix o o' eq (fori_rest C rn lo hi b v) (fori_rest C rn lo hi b v).
Proof.
  intros Hb. unfold fori_rest. apply sim_reserve_internal. intros s s' HS.
  eapply (sim_bind _ _ _ (fun r r' => SRF ix (fst r) (fst r') /\ snd r = snd r')).
  - assert (H : forall c i (a a' : istate * val), SRF ix (fst a) (fst a') -> snd a = snd a' ->
      sim ix o o' (fun r r' => SRF ix (fst r) (fst r') /\ snd r = snd r')
        (lax_fori (fori_step C rn b) c i a) (lax_fori (fori_step C rn b) c i a')).
    { induction c as [|c IH]; intros i a a' H1 H2; cbn; [now apply sim_ret|].
      eapply sim_bind; [now apply sim_fori_step|]. intros r r' [H3 H4]. now apply IH. }
    now apply H.
  - intros [t y] [t' y'] [H1 H2]. cbn in *. subst.
    eapply sim_seq; [apply sim_update_full, H1|now apply sim_ret].
Qed.
Lemma sim_fori ix o o' lo hi b v : (forall a x, all_ops P (b a x)) ->
  sim ix o o' eq (fori_loop C rn lo hi b v) (fori_loop C rn lo hi b v).
Proof.
  intros Hb. unfold fori_loop. eapply sim_bind; [apply sim_top|]. intros fr fr' HF. rewrite (fr_frozen _ _ _ HF).
  destruct (f_frozen fr); [now apply sim_fori_rest|].
  apply sim_bind_eq; [apply Hrn, Hb|]. intros. destruct (_ =? 0)%Z; [now apply sim_ret|now apply sim_fori_rest].
Qed.

Section Strict.
Hypothesis L : md = Strict.
Lemma FR_rng_strict ix f f' : FR ix f f' -> f_rng f' = f_rng f.
Proof. intros HF. eapply rrs_strict; [exact L|apply HF]. Qed.
Lemma sim_update_strict ix o o' d : sim ix o o' eq (update_internal_state d) (update_internal_state d).
Proof.
  apply sim_on_top. intros f f' HF. apply FR_apply_delta; [|assumption]. split; auto.
  rewrite (FR_rng_strict _ _ _ HF). destruct (fr_rng _ _ _ HF) as (S1 & S2 & _). rewrite (FR_rng_strict _ _ _ HF) in S2.
  unfold commit. destruct (d_rng d), (f_rng f); cbn in *; repeat split; auto; (left; split; [reflexivity|intro; congruence]).
Qed.
Lemma sim_while_cond ix o o' c v : (forall x, all_ops P (c x)) -> sim ix o o' eq (while_cond rn c v) (while_cond rn c v).
Proof.
  intros Hc. unfold while_cond. eapply sim_bind; [apply sim_top|]. intros f0 f0' HF0.
  apply sim_bind_eq; [apply Hrn, Hc|]. intros r. eapply sim_bind; [apply sim_top|]. intros f1 f1' HF1.
  rewrite (fr_params _ _ _ HF0), (fr_params _ _ _ HF1), (fr_state _ _ _ HF0), (fr_state _ _ _ HF1),
    (FR_rng_strict _ _ _ HF0), (FR_rng_strict _ _ _ HF1).
  destruct (_ && _ && _); [|apply sim_throw]. destruct r; try apply sim_throw. now apply sim_ret.
Qed.
Lemma sim_while_step ix o o' b vs : (forall x, all_ops P (b x)) -> (exists s, SR ix (snd vs) s) ->
  sim ix o o' (fun r r' => r = r' /\ SR ix (snd r) (snd r')) (while_step rn b vs) (while_step rn b vs).
Proof.
  intros Hb. destruct vs as [v s]. intros (s' & HS). cbn in *. assert (s' = s) as -> by eauto using SR_strict.
  apply sim_in_temp'; [assumption|]. intros g g'. apply sim_bind_eq; [apply Hrn, Hb|]. intros v'.
  eapply sim_bind; [apply sim_internal|]. intros s1 s1' HS1. assert (s1' = s1) as -> by eauto using SR_strict.
  destruct (same_skel _ _ && same_structure _ _); [|apply sim_throw]. apply sim_ret. split; [reflexivity|]. now apply SR_temp.
Qed.
Lemma sim_while ix o o' n c b v : (forall x, all_ops P (c x)) -> (forall x, all_ops P (b x)) ->
  sim ix o o' eq (while_loop rn n c b v) (while_loop rn n c b v).
Proof.
  intros Hc Hb. unfold while_loop. eapply sim_bind; [apply sim_top|]. intros fr fr' HF. rewrite (fr_frozen _ _ _ HF).
  destruct (negb (f_frozen fr)); [apply sim_throw|].
  eapply sim_bind; [apply sim_internal|]. intros s s' HS. assert (s' = s) as -> by eauto using SR_strict.
  rewrite (FR_rng_strict _ _ _ HF).
  eapply (sim_bind _ _ _ (fun r r' => r = r' /\ SR ix (snd r) (snd r'))).
  - assert (H : forall k vs, SR ix (snd vs) (snd vs) ->
      sim ix o o' (fun r r' => r = r' /\ SR ix (snd r) (snd r'))
      (lax_while k (fun vs => modify (on_top (set_rng (f_rng fr))) ;;; while_cond rn c (fst vs)) (while_step rn b) vs)
      (lax_while k (fun vs => modify (on_top (set_rng (f_rng fr))) ;;; while_cond rn c (fst vs)) (while_step rn b) vs)).
    { induction k as [|k IH]; intros vs Hvs; cbn; [apply sim_fuel|].
      apply sim_bind_eq.
      - eapply sim_seq; [|now apply sim_while_cond]. apply sim_on_top. intros f f' HG.
        apply FR_set_rng; [assumption|]. rewrite <- (FR_rng_strict _ _ _ HF) at 2. apply HF.
      - intros go. destruct go; [|apply sim_ret; auto].
        eapply sim_bind; [apply sim_while_step; eauto|]. intros r r' [<- Hr]. now apply IH. }
    apply H. exact HS.
  - intros r r' [<- Hr]. eapply sim_bind; [apply sim_top|]. intros f1 f1' HF1. rewrite (FR_rng_strict _ _ _ HF1).
    eapply sim_seq; [|now apply sim_ret]. apply sim_update_strict.
Qed.
Lemma sim_vmap ix o o' f xs : (forall x, all_ops P (f x)) -> sim ix o o' eq (vmap C rn f xs) (vmap C rn f xs).
Proof.
  intros Hf. unfold vmap. eapply sim_bind; [apply sim_internal|]. intros s s' HS. assert (s' = s) as -> by eauto using SR_strict.
  apply sim_bind_eq.
  - induction xs as [|x xs IH]; cbn; [now apply sim_ret|].
    apply sim_bind_eq; [|intros r; apply sim_bind_eq; [apply IH|intros; now apply sim_ret]].
    apply sim_in_temp'; [assumption|]. intros g g'. apply sim_bind_eq; [apply Hrn, Hf|]. intros out.
    eapply sim_bind; [apply sim_internal|]. intros s1 s1' HS1. assert (s1' = s1) as -> by eauto using SR_strict.
    now apply sim_ret.
  - intros [|r rs]; [apply sim_throw|]. destruct (forallb _ _); [|apply sim_throw].
    eapply sim_seq; [apply sim_update_strict|now apply sim_ret].
Qed.
End Strict.

(** Lanes that treat the random sequence alike. *)
Lemma sim_at_in_temp_ev {A B D E} ix o o' f f' (RA : A -> B -> Prop) (RB : D -> E -> Prop) (Q : B -> Prop) s s' m m' k k' :
  FR ix f f' -> SR ix s s' -> sim (temp_base ix) (f :: o) (f' :: o') RA m m' ->
  (forall w b w1, in_temp s' m' w = (Ok b, w1) -> Q b) ->
  (forall a b, RA a b -> Q b -> sim_at ix o o' f f' RB (k a) (k' b)) ->
  sim_at ix o o' f f' RB (bindM (in_temp s m) k) (bindM (in_temp s' m') k').
Proof.
  intros HF HS H HQ HK w w' HG E1 E2. specialize (HQ w'). revert HQ.
  unfold in_temp, bindM, top_frame, in_frame, retM. rewrite E1, E2. rewrite E1, E2. intros HQ.
  assert (HR2 : R (temp_base ix) (f :: o) (f' :: o') (set_frames (temp_frame f s :: f :: o) w) (set_frames (temp_frame f' s' :: f' :: o') w')).
  { split; [now apply GR_frames|]. do 2 eexists. split; [reflexivity|]. split; [reflexivity|]. now apply FR_temp. }
  specialize (H _ _ HR2).
  destruct (m (set_frames _ w)) as [[a|e|] w1].
  - destruct H as (b & w1' & Em & Hab & HG1 & h & h' & F1 & F2 & HH). rewrite Em, F2 in *. rewrite F1. cbn.
    apply HK; auto; [eapply HQ; reflexivity|]. now apply GR_frames.
  - destruct H as [H|(w1' & -> & HG1 & h & h' & F1 & F2 & HH)].
    { destruct (w_frames w1); cbn; auto. }
    rewrite F1, F2. cbn. right. eexists. split; [reflexivity|].
    split; [now apply GR_frames|]. cbn. eauto 6.
  - destruct H as [H|(w1' & -> & HG1 & h & h' & F1 & F2 & HH)].
    { destruct (w_frames w1); cbn; auto. }
    rewrite F1, F2. cbn. right. eexists. split; [reflexivity|].
    split; [now apply GR_frames|]. cbn. eauto 6.
Qed.
Lemma lane_end s p w out d w1 : vmap_lane C rn s p w = (Ok (out, d), w1) ->
  exists w0 f0 a w2 g, rn p w0 = (Ok a, w2) /\ top w0 = Some f0 /\ f_rng f0 = is_rng s /\ top w2 = Some g
    /\ d_rng d = match is_rng s with
                 | None => f_rng g
                 | Some a => match f_rng g with None => None | Some b => if c_same_rng C a b then None else Some b end
                 end.
Proof.
  unfold vmap_lane, in_temp. unfold bindM at 1, top_frame at 1. destruct (w_frames w) as [|f fs] eqn:E; [discriminate|].
  unfold bindM at 1, in_frame at 1. rewrite E.
  set (w0 := set_frames _ w). unfold bindM at 1. destruct (rn p w0) as [[a|e|] w2] eqn:G.
  - unfold internal_state, bindM, top_frame, retM. destruct (w_frames w2) as [|g t] eqn:E2; [rewrite E2; discriminate|].
    rewrite E2. cbn. intros [= <- <- <-]. exists w0, (temp_frame f s), a, w2, g. unfold top. rewrite E2. cbn. auto.
  - destruct (w_frames w2); discriminate.
  - destruct (w_frames w2); discriminate.
Qed.
Lemma sim_vmap_loose ix o o' f xs : md = Loose -> uniform_lanes C f -> (forall x, all_ops P (f x)) ->
  sim ix o o' eq (vmap C rn f xs) (vmap C rn f xs).
Proof.
  intros L HU Hf. destruct Hrun as [n0 En]. unfold vmap.
  apply sim_open. intros fr fr' HF w w' HG E E'. unfold internal_state. rewrite !bind_assoc.
  revert w w' HG E E'. apply sim_at_top. intros w w' HG E E'.
  set (s := IState (Some (f_params fr)) (f_state fr) (f_rng fr)). set (s' := IState (Some (f_params fr')) (f_state fr') (f_rng fr')).
  assert (HS : SR ix s s').
  { subst s s'. destruct HF. split; cbn; auto. now rewrite fr_params0. }
  set (rest := fun rs : list (val * delta) => match rs with
    | [] => throw ETypeError
    | r :: _ => if forallb (fun r' => same_delta (snd r') (snd r)) rs
                then update_internal_state (snd r) ;;; retM (VTup (List.map fst rs)) else throw ETypeError end).
  change (post ix o o' eq ((let! rs := vmap_lanes C rn s f xs in rest rs) w) ((let! rs := vmap_lanes C rn s' f xs in rest rs) w')).
  set (ends := fun r : val * delta => exists x w0 f0 a w2 g, rn (f x) w0 = (Ok a, w2) /\ top w0 = Some f0 /\ f_rng f0 = is_rng s' /\ top w2 = Some g
    /\ d_rng (snd r) = match is_rng s' with
                 | None => f_rng g
                 | Some a => match f_rng g with None => None | Some b => if c_same_rng C a b then None else Some b end
                 end).
  set (RL := fun r r' : val * delta => (fst r = fst r' /\ DR ix (f_rng fr) (f_rng fr') (snd r) (snd r')) /\ ends r').
  assert (HL : forall xs (K K' : list (val * delta) -> M val),
     (forall l l', Forall2 RL l l' -> sim_at ix o o' fr fr' eq (K l) (K' l')) ->
     sim_at ix o o' fr fr' eq (let! rs := vmap_lanes C rn s f xs in K rs) (let! rs := vmap_lanes C rn s' f xs in K' rs)).
  { clear w w' HG E E'. induction xs0 as [|x xs0 IH]; intros K K' HK; [apply (HK [] []); constructor|].
    cbn [vmap_lanes]. intros w w' HG E E'. rewrite !bind_assoc. revert w w' HG E E'.
    apply (sim_at_in_temp_ev ix o o' fr fr' (fun r r' => fst r = fst r' /\ DR ix (f_rng fr) (f_rng fr') (snd r) (snd r')) eq ends); auto.
    - apply sim_bind_eq; [apply Hrn, Hf|]. intros out.
      eapply sim_bind; [apply sim_internal|]. intros s1 s1' HS1. apply sim_ret. cbn. split; [reflexivity|].
      apply (DR_difference ix s s'); [assumption|now apply SR_temp].
    - intros w [b d] w1 G. apply lane_end in G as (w0 & f0 & a & w2 & g & G). exists x, w0, f0, a, w2, g. exact G.
    - intros a b Hab Hb w w' HG E E'. rewrite !bind_assoc. revert w w' HG E E'.
      apply (IH (fun rs => bindM (retM (a :: rs)) K) (fun rs => bindM (retM (b :: rs)) K')).
      intros l l' Hl. apply (HK (a :: l) (b :: l')). constructor; [split|]; assumption. }
  apply HL; auto. clear w w' HG E E' HL. intros l l' Hl. unfold rest.
  destruct Hl as [|r r' l l' Hr Hl]; [apply sim_close, sim_throw; assumption|].
  destruct (forallb _ (r :: l)) eqn:EA; [|intros w w' _ _ _; cbn; auto].
  assert (EB : forallb (fun r0 => same_delta (snd r0) (snd r')) (r' :: l') = true).
  { apply forallb_forall. intros q' Hq'.
    assert (exists q, In q (r :: l) /\ RL q q') as (q & Hq & [HRq Hendq]).
    { assert (Hall : Forall2 RL (r :: l) (r' :: l')) by now constructor.
      clear EA. revert Hq'. induction Hall as [|u u' t t' Hu Ht IHt]; [intros []|].
      intros [<-|Hin]; [exists u; split; [now left|assumption]|]. destruct (IHt Hin) as (q & ? & ?). exists q. split; [now right|assumption]. }
    rewrite forallb_forall in EA. specialize (EA q Hq). destruct Hr as [HRr Hendr].
    destruct HRq as [_ [Qp Qs _]], HRr as [_ [Rp Rs _]].
    unfold same_delta in *. apply andb_prop in EA as [EA E3]. apply andb_prop in EA as [E1 E2].
    rewrite Qp, Qs, Rp, Rs, E1, E2. cbn. apply bool_decide_eq_true.
    destruct Hendq as (x & w0 & f0 & a & w2 & g & G1 & G2 & G3 & G4 & ->).
    destruct Hendr as (y & w0' & f0' & a' & w2' & g' & G1' & G2' & G3' & G4' & ->).
    rewrite En in G1, G1'. rewrite (HU n0 x y _ _ _ _ _ _ _ _ _ _ G1 G1' G2 G2' (eq_trans G3 (eq_sym G3')) G4 G4'). reflexivity. }
  rewrite EB. destruct Hr as [[H1 H2] _]. apply sim_at_update; auto. apply sim_ret. cbn [List.map]. rewrite H1. do 2 f_equal.
  clear - Hl. induction Hl as [|u u' t t' [[Hu _] _] Ht IHt]; cbn; congruence.
Qed.

(** Loops that leave the number of reserved keys as it is. *)
Lemma sim_at_in_temp_at {A B} ix o o' f f' (RA : A -> B -> Prop) s s' m m' :
  FR ix f f' -> SR ix s s' ->
  sim_at (temp_base ix) (f :: o) (f' :: o') (temp_frame f s) (temp_frame f' s') RA m m' ->
  sim_at ix o o' f f' RA (in_temp s m) (in_temp s' m').
Proof.
  intros HF HS H w w' HG E1 E2.
  unfold in_temp, bindM, top_frame, in_frame, retM. rewrite E1, E2. rewrite E1, E2.
  specialize (H (set_frames (temp_frame f s :: f :: o) w) (set_frames (temp_frame f' s' :: f' :: o') w') (GR_frames _ _ _ _ HG) eq_refl eq_refl).
  destruct (m (set_frames _ w)) as [[a|e|] w1].
  - destruct H as (b & w1' & -> & Hab & HG1 & h & h' & F1 & F2 & HH). rewrite F1, F2. cbn.
    do 2 eexists. split; [reflexivity|]. split; [assumption|]. split; [now apply GR_frames|]. cbn. eauto 6.
  - destruct H as [H|(w1' & -> & HG1 & h & h' & F1 & F2 & HH)].
    { destruct (w_frames w1); cbn; auto. }
    rewrite F1, F2. cbn. right. eexists. split; [reflexivity|].
    split; [now apply GR_frames|]. cbn. eauto 6.
  - destruct H as [H|(w1' & -> & HG1 & h & h' & F1 & F2 & HH)].
    { destruct (w_frames w1); cbn; auto. }
    rewrite F1, F2. cbn. right. eexists. split; [reflexivity|].
    split; [now apply GR_frames|]. cbn. eauto 6.
Qed.
Section Loose.
Hypothesis L : md = Loose.
Lemma rq_loose r r' : rq r r' -> r = r' \/ r = None.
Proof. intros [[H _]|[[_ H]|[H _]]]; auto. congruence. Qed.
Lemma no_new_keys_refl r : no_new_keys r r = true.
Proof.
  destruct r as [q|]; [|reflexivity]. cbn [no_new_keys]. apply forallb_forall. intros k Hk.
  apply bool_decide_eq_true. now apply elem_of_list_In.
Qed.
Lemma sim_while_cond_loose ix o o' c v : keeps_rng C c -> (forall x, all_ops P (c x)) ->
  sim ix o o' eq (while_cond rn c v) (while_cond rn c v).
Proof.
  intros HK Hc. destruct Hrun as [n0 En]. unfold while_cond. apply sim_open. intros f0 f0' HF0. apply sim_at_top.
  intros w w' HG E E'. pose proof (Hrn (c v) ix o o' (Hc v) w w') as H. unfold post in H. unfold bindM at 1.
  specialize (H ltac:(split; eauto 6)).
  destruct (rn (c v) w) as [[a|e|] w1] eqn:G; [|cbn; auto..].
  destruct H as (b & w1' & G' & <- & HG1 & f1 & f1' & F1 & F2 & HF1). unfold bindM at 2. rewrite G'.
  unfold bindM, top_frame. rewrite F1, F2.
  rewrite (fr_params _ _ _ HF0), (fr_params _ _ _ HF1), (fr_state _ _ _ HF0), (fr_state _ _ _ HF1).
  destruct (no_new_entries (f_params f0) (f_params f1) && no_new_entries (f_state f0) (f_state f1)) eqn:Q; cbn [andb]; [|cbn; auto].
  destruct (no_new_keys (f_rng f0) (f_rng f1)); [|cbn; auto].
  rewrite En in G'. rewrite (HK n0 v w' a w1' f0' f1' G') by (unfold top; now rewrite ?E', ?F2).
  rewrite no_new_keys_refl. destruct a; try (cbn; auto; fail). cbn. do 2 eexists. split; [reflexivity|]. split; [reflexivity|]. split; eauto 6.
Qed.
Lemma sim_while_step_loose ix o o' b v s s' : keeps_reserve C b -> (forall x, all_ops P (b x)) -> SR ix s s' ->
  sim ix o o' (fun r r' => fst r = fst r' /\ SR ix (snd r) (snd r')) (while_step rn b (v, s)) (while_step rn b (v, s')).
Proof.
  intros HK Hb HS. destruct Hrun as [n0 En]. unfold while_step. apply sim_open. intros f f' HF.
  apply sim_at_in_temp_at; auto. intros w w' HG E E'.
  pose proof (Hrn (b v) (temp_base ix) (f :: o) (f' :: o') (Hb v) w w') as H. unfold post in H.
  specialize (H ltac:(split; [assumption|]; do 2 eexists; split; [eassumption|]; split; [eassumption|]; now apply FR_temp)).
  unfold bindM at 1. destruct (rn (b v) w) as [[a|e|] w1] eqn:G; [|cbn; auto..].
  destruct H as (a' & w1' & G' & <- & HG1 & f1 & f1' & F1 & F2 & HF1). unfold bindM at 2. rewrite G'.
  unfold internal_state, bindM, top_frame, retM. rewrite F1, F2.
  set (t := IState _ _ (f_rng f1)). set (t' := IState _ _ (f_rng f1')).
  assert (HT : SR ix t t').
  { apply SR_temp. destruct HF1. subst t t'. split; cbn; auto. now rewrite fr_params0. }
  destruct (same_skel v a); cbn [andb]; [|cbn; auto].
  destruct (same_structure s t) eqn:Q; [|cbn; auto].
  assert (Q' : same_structure s' t' = true).
  { destruct HS as [S1 S2 _], HT as [T1 T2 _]. unfold same_structure, istate_skel in *. cbn in *.
    apply andb_prop in Q as [Q Q3]. injection T1 as T1. unfold state_skel, map2 in *. rewrite S1, S2, T1, T2, Q. cbn. apply bool_decide_eq_true.
    rewrite En in G'. pose proof (HK n0 v w' a w1' (temp_frame f' s') f1' G') as HL.
    specialize (HL ltac:(unfold top; now rewrite E') ltac:(unfold top; now rewrite F2)). unfold reserve_size in HL. cbn in HL.
    destruct (is_rng s'), (f_rng f1'); cbn in *; try congruence. f_equal. apply skel_seq_len. congruence. }
  rewrite Q'. cbn. do 2 eexists. split; [reflexivity|]. cbn. split; [auto|]. split; [assumption|]. eauto 6.
Qed.
Lemma sim_while_loose ix o o' n c b v : keeps_rng C c -> keeps_reserve C b -> (forall x, all_ops P (c x)) -> (forall x, all_ops P (b x)) ->
  sim ix o o' eq (while_loop rn n c b v) (while_loop rn n c b v).
Proof.
  intros KC KB Hc Hb. unfold while_loop. eapply sim_bind; [apply sim_top|]. intros fr fr' HF. rewrite (fr_frozen _ _ _ HF).
  destruct (negb (f_frozen fr)); [apply sim_throw|].
  eapply sim_bind; [apply sim_internal|]. intros s s' HS.
  eapply (sim_bind _ _ _ (fun r r' => fst r = fst r' /\ SR ix (snd r) (snd r'))).
  - assert (H : forall k v s s', SR ix s s' ->
      sim ix o o' (fun r r' => fst r = fst r' /\ SR ix (snd r) (snd r'))
      (lax_while k (fun vs => modify (on_top (set_rng (f_rng fr))) ;;; while_cond rn c (fst vs)) (while_step rn b) (v, s))
      (lax_while k (fun vs => modify (on_top (set_rng (f_rng fr'))) ;;; while_cond rn c (fst vs)) (while_step rn b) (v, s'))).
    { induction k as [|k IH]; intros v0 s0 s0' Hvs; cbn [lax_while]; [apply sim_fuel|].
      apply sim_bind_eq.
      - eapply sim_seq; [|now apply sim_while_cond_loose]. apply sim_on_top. intros f f' HG.
        apply FR_set_rng; [assumption|]. apply HF.
      - intros go. destruct go; [|apply sim_ret; auto].
        eapply sim_bind; [apply sim_while_step_loose; eauto|]. intros [r t] [r' t'] [Hr Ht]. cbn in Hr, Ht. subst. now apply IH. }
    now apply H.
  - intros [r t] [r' t'] [Hr Ht]. cbn in Hr, Ht. subst. eapply sim_bind; [apply sim_top|]. intros f1 f1' HF1. cbn [snd fst].
    eapply sim_seq; [|now apply sim_ret]. apply sim_on_top. intros f f' HG. apply FR_apply_delta; [|assumption].
    destruct Ht as [T1 T2 (T3 & T4 & T5)].
    pose proof (fr_rng _ _ _ HF) as (A1 & A2 & A3). pose proof (fr_rng _ _ _ HF1) as (B1 & B2 & B3). pose proof (fr_rng _ _ _ HG) as (D1 & D2 & D3).
    apply rq_loose in T5, A3, B3, D3.
    assert (HA : forall x y t, d_params (full_delta (add_log x y t)) = fmap (M := option) (map2 as_update) (is_params t)
       /\ d_state (full_delta (add_log x y t)) = map2 Some (is_state t)).
    { intros x y t0. unfold add_log. destruct x, y, (is_rng t0); auto. }
    split.
    + now rewrite !(proj1 (HA _ _ _)), T1.
    + now rewrite !(proj2 (HA _ _ _)), T2.
    + destruct (fst (ba_cur ix)) eqn:EC.
      * destruct (is_rng t) eqn:Et, (f_rng fr) eqn:Efr, (f_rng f1) eqn:Ef1, (f_rng f) eqn:Ef; try discriminate.
        destruct T5 as [T5|]; [|discriminate]. destruct A3 as [A3|]; [|discriminate]. destruct B3 as [B3|]; [|discriminate].
        destruct D3 as [D3|]; [|discriminate]. rewrite <- A3, <- B3, <- D3. unfold add_log. rewrite <- T5, Et. cbn.
        split; [now rewrite EC|]. split; [now rewrite <- D2, <- D3|]. left. split; [reflexivity|]. intro; congruence.
      * destruct (is_rng t) eqn:Et, (f_rng fr) eqn:Efr, (f_rng f1) eqn:Ef1, (f_rng f) eqn:Ef; try discriminate.
        assert (EN : forall d, commit d None = None) by (now intros []). rewrite EN. split; [now rewrite EC|]. split; [|right; left; auto].
        rewrite <- D2. unfold commit. generalize (d_rng (full_delta (add_log (f_rng fr') (f_rng f1') t'))). intros [] ; now destruct (f_rng f').
Qed.
End Loose.

Lemma sim_eval_shape ix o o' p : all_ops P p -> sim ix o o' eq (eval_shape rn p) (eval_shape rn p).
Proof.
  intros Hp. unfold eval_shape. eapply sim_bind; [apply sim_internal|]. intros s s' HS.
  apply sim_bind_eq; [apply sim_in_temp'; [assumption|intros; now apply Hrn]|]. intros. now apply sim_ret.
Qed.

(** ** transform.py, lift.py, random.py *)
Lemma FR_new ps st r r' s : rrs s r r' -> FR (Base s [] [] []) (new_frame ps st r) (new_frame ps st r').
Proof. intros H. split; cbn; auto. Qed.
Lemma rrs_refl k : rrs (is_some (rng_of k), is_some (rng_of k)) (rng_of k) (rng_of k).
Proof. repeat split; auto. left. split; [reflexivity|]. destruct k; [now apply small_nil|apply small_none]. Qed.
Lemma sim_init_fn ix o o' r p : all_ops P p -> sim ix o o' eq (init_fn rn r p) (init_fn rn r p).
Proof.
  intros Hp. unfold init_fn.
  eapply sim_in_frame; [apply FR_new, rrs_refl|intros; now apply Hrn|].
  intros v v' f f' _ HF. cbn in *. rewrite (fr_params _ _ _ HF), (fr_state _ _ _ HF). now apply sim_ret.
Qed.
Lemma sim_apply_fn ix o o' ps st r p : all_ops P p -> sim ix o o' eq (apply_fn rn ps st r p) (apply_fn rn ps st r p).
Proof.
  intros Hp. unfold apply_fn.
  eapply sim_in_frame; [apply FR_new, rrs_refl|intros; now apply Hrn|].
  intros v v' f f' H HF. cbn in *. rewrite (fr_state _ _ _ HF), H. now apply sim_ret.
Qed.
Lemma sim_pack ix o o' b src : sim ix o o' eq (pack_into_dict src b) (pack_into_dict src b).
Proof.
  induction src as [|[k v] src IH]; cbn; [now apply sim_ret|].
  eapply sim_bind; [apply sim_top|]. intros f f' HF. rewrite (fr_params _ _ _ HF).
  destruct (bool_decide _); [apply sim_throw|]. eapply sim_seq; [|exact IH].
  apply sim_on_top. intros g g' HG. rewrite (fr_params _ _ _ HG). now apply FR_set_params.
Qed.
Lemma sim_lift ix o o' m r p : all_ops P p -> sim ix o o' eq (lift_call rn m r p) (lift_call rn m r p).
Proof.
  intros Hp. unfold lift_call. eapply sim_bind; [apply sim_top|]. intros f f' HF.
  apply sim_bind_eq; [apply sim_safe_name|]. intros b. rewrite (fr_params _ _ _ HF), (fr_frozen _ _ _ HF).
  destruct (f_frozen f); [now apply sim_ret|]. apply sim_bind_eq; [now apply sim_init_fn|]. intros ps.
  destruct (bool_decide _); [|apply sim_throw]. eapply sim_seq; [apply sim_pack|now apply sim_ret].
Qed.
Lemma sim_optimize ix o o' p : md <> Lazy -> all_ops P p -> sim ix o o' eq (optimize_rng_use rn p) (optimize_rng_use rn p).
Proof.
  intros L Hp. unfold optimize_rng_use. eapply sim_bind; [apply sim_top|]. intros f f' HF.
  rewrite (fr_params _ _ _ HF), (fr_state _ _ _ HF).
  apply sim_bind_eq; [apply sim_reads, r_draws|]. intros d0.
  eapply sim_in_frame; [apply FR_new, HF|intros; now apply Hrn|]. intros _ _ _ _ _ _.
  apply sim_bind_eq; [apply sim_reads, r_draws|]. intros d1.
  eapply (sim_seq (A:=unit) (A':=unit) _ _ _ eq); [|now apply Hrn].
  destruct (Nat.ltb _ _); [|now apply sim_ret].
  eapply sim_bind; [apply sim_top|]. intros g g' HG.
  destruct (fr_rng _ _ _ HG) as (S1 & S2 & [[E Hs]|[[L' E]|(L' & _)]]); [| |congruence].
  - rewrite <- E. destruct (f_rng g) as [s|]; [|apply sim_throw].
    apply sim_on_top. intros h h' HH. apply FR_set_rng; [assumption|].
    apply rrs_some; [now rewrite <- S1| |intros; congruence]. rewrite <- S2, <- E. reflexivity.
  - rewrite E. intros w w' HR. left. exact L'.
Qed.

Lemma child_ops p q : all_ops P p -> child p q -> all_ops P q.
Proof. intros [? ? H]. apply H. Qed.
Lemma ops_here p : all_ops P p -> P p.
Proof. now intros []. Qed.

Lemma sim_step n p ix o o' : all_ops P p -> sim ix o o' eq (step C rn n p) (step C rn n p).
Proof.
  intros Hp. pose proof (P_ok _ (ops_here _ Hp)) as Hh. pose proof (fun q => child_ops _ q Hp) as Hc.
  destruct p; cbn [step child mode_ok] in *.
  - now apply sim_ret.
  - apply sim_throw.
  - apply sim_bind_eq; [apply Hrn; auto|]. intros. apply Hrn; eauto.
  - intros w w' HR. assert (Ha : all_ops P p) by auto.
    pose proof (Hrn p ix o o' Ha w w' HR) as H. unfold post in *. destruct (rn p w) as [[a|e|] w1].
    + destruct H as (b & w1' & -> & Hab & HR'). eauto.
    + destruct H as [H|(w1' & -> & HR')]; [congruence|].
      apply Hrn; [|assumption]. eauto.
    + destruct H as [H|(w1' & -> & HR')]; eauto.
  - apply Hrn, C_ok.
  - apply sim_get_parameter.
  - apply sim_get_state.
  - apply sim_set_state.
  - apply sim_next_key.
  - apply sim_next_keys. auto.
  - apply sim_maybe_next. auto.
  - apply sim_reserve. auto.
  - eapply sim_bind; [apply sim_top|]. intros _ _ _. apply sim_with_rng; auto.
  - eapply sim_bind; [apply sim_top|]. intros f f' HF. rewrite (fr_frozen _ _ _ HF). now apply sim_ret.
  - apply sim_with_creator; auto.
  - apply sim_with_getter; auto.
  - apply sim_next_create.
  - apply sim_next_get.
  - apply sim_bind_eq; [|intros; now apply sim_ret]. apply sim_new_module. split; eauto.
  - apply sim_wrap_method. cbn. eauto.
  - apply sim_name_scope; auto.
  - apply sim_intercept; auto.
  - apply sim_next_call.
  - apply sim_bind_eq; [apply sim_safe_name|]. intros. now apply sim_ret.
  - apply sim_module_dict.
  - apply sim_jit; auto.
  - apply sim_switch. auto.
  - apply sim_switch. apply Forall_forall. intros q Hq. apply Hc. now apply elem_of_list_In.
  - apply sim_scan; eauto.
  - apply sim_fori; eauto.
  - destruct Hh as [Hh|(Hh & HU & HV)]; [apply sim_while; eauto|apply sim_while_loose; eauto].
  - destruct Hh as [Hh|[Hh HU]]; [apply sim_vmap; eauto|apply sim_vmap_loose; eauto].
  - apply sim_eval_shape; auto.
  - apply sim_bind_eq; [apply sim_init_fn; auto|]. intros. now apply sim_ret.
  - destruct (dec params) as [ps|]; [|apply sim_throw]. destruct (dec state) as [st|]; [|apply sim_throw].
    apply sim_bind_eq; [apply sim_apply_fn; auto|]. intros. now apply sim_ret.
  - apply sim_lift; auto.
  - apply sim_optimize; auto.
Qed.
End Sim.

Section Top.
Variable C : code.
Variable md : mode.
Variable P : prog -> Prop.
Hypothesis P_ok : forall p, P p -> mode_ok C md p.
Hypothesis P_ret : forall v, P (Ret v).
Hypothesis C_ok : code_ok P C.
Hypothesis C_id : md = Lazy -> sound_identity C.
Lemma run_sim n : forall p ix o o', all_ops P p -> sim C md P ix o o' eq (run C n p) (run C n p).
Proof.
  induction n as [|n IH]; intros p ix o o' Hp; cbn [run]; [apply sim_fuel|].
  apply sim_step; eauto.
Qed.
End Top.

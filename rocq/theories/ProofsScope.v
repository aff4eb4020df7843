(** Frame rule for naming: what a method does never depends on, and never changes, the counters and used names of the scopes of its
    caller.  Simulation between two interpreter states that agree except for these scopes (and for the frames below the
    current one).  Interceptors are excluded: the [next] closure of an intercepted constructor can be kept and
    called in another scope. *)
From stdpp Require Import gmap list strings.
From Coq Require Import String Ascii ZArith Lia.
From Verif Require Import ModelStr ModelRng ModelCore SpecCore ProofsStr ProofsMap ProofsRng ProofsEvolve ProofsRun ProofsOps ProofsModule ProofsSim.
Local Open Scope string_scope.
Local Open Scope list_scope.

(** The current frame has [own] scopes of its own above [below] and [below'] respectively. *)
Record level := Level { own : nat; below : list scope; below' : list scope }.

Section Scope.
Variable C : code.
Variable P : prog -> Prop.
Hypothesis P_ok : forall p, P p -> forall i b, p <> Intercept i b.
Hypothesis P_ret : forall v, P (Ret v).
Hypothesis C_ok : code_ok P C.

Definition SCR (ix : level) (l l' : list scope) : Prop :=
  1 <= own ix /\ exists s, List.length s = own ix /\ l = s ++ below ix /\ l' = s ++ below' ix.
Record FR (ix : level) (f f' : frame) : Prop := {
  fr_params : f_params f' = f_params f;
  fr_frozen : f_frozen f' = f_frozen f;
  fr_state : f_state f' = f_state f;
  fr_mods : f_mods f' = f_mods f;
  fr_rng : f_rng f' = f_rng f;
  fr_rngs : f_rngs f' = f_rngs f;
  fr_scopes : SCR ix (f_scopes f) (f_scopes f') }.
Definition fun_only (o : nextobj) : Prop :=
  match o with NxCall _ _ _ (MCtor _ _ _ _) => False | _ => True end.
Definition nx_ok (o : nextobj) : Prop := next_ok P o /\ fun_only o.

(** Everything but the frames. *)
Record GR (w w' : world) : Prop := {
  r_pcreate : w_pcreate w' = w_pcreate w;
  r_screate : w_screate w' = w_screate w;
  r_pget : w_pget w' = w_pget w;
  r_sget : w_sget w' = w_sget w;
  r_icpt : w_icpt w' = w_icpt w;
  r_noicpt : w_icpt w = [];
  r_mods : w_mods w' = w_mods w;
  r_nexts : w_nexts w' = w_nexts w;
  r_draws : w_draws w' = w_draws w;
  r_heap : Forall nx_ok (w_nexts w) }.

(** The frames below the top are [o] and [o']. *)
Definition R (ix : level) (o o' : list frame) (w w' : world) : Prop :=
  GR w w' /\ exists f f', w_frames w = f :: o /\ w_frames w' = f' :: o' /\ FR ix f f'.

Definition post {A B} ix o o' (RA : A -> B -> Prop) (x : res A * world) (y : res B * world) : Prop :=
  match x with
  | (Ok a, w1) => exists b w1', y = (Ok b, w1') /\ RA a b /\ R ix o o' w1 w1'
  | (Exc e, w1) => exists w1', y = (Exc e, w1') /\ R ix o o' w1 w1'
  | (Fuel, w1) => exists w1', y = (Fuel, w1') /\ R ix o o' w1 w1'
  end.
Definition sim {A B} ix o o' (RA : A -> B -> Prop) (m : M A) (m' : M B) : Prop :=
  forall w w', R ix o o' w w' -> post ix o o' RA (m w) (m' w').
(** The same when the current frames are [f] and [f']. *)
Definition sim_at {A B} ix o o' f f' (RA : A -> B -> Prop) (m : M A) (m' : M B) : Prop :=
  forall w w', GR w w' -> w_frames w = f :: o -> w_frames w' = f' :: o' -> post ix o o' RA (m w) (m' w').

Lemma sim_conseq {A B} ix o o' (RA RB : A -> B -> Prop) m m' :
  sim ix o o' RA m m' -> (forall a b, RA a b -> RB a b) -> sim ix o o' RB m m'.
Proof.
  intros H K w w' HR. specialize (H w w' HR). unfold post in *.
  destruct (m w) as [[a|e|] w1]; auto. destruct H as (b & w1' & E & Hab & HR'). eauto 6.
Qed.
Lemma sim_ret {A B} ix o o' (RA : A -> B -> Prop) a b : RA a b -> sim ix o o' RA (retM a) (retM b).
Proof. intros H w w' HR. cbn. eauto. Qed.
Lemma sim_throw {A B} ix o o' (RA : A -> B -> Prop) e : sim ix o o' RA (throw e) (throw e).
Proof. intros w w' HR. cbn. eauto. Qed.
Lemma sim_fuel {A B} ix o o' (RA : A -> B -> Prop) : sim ix o o' RA (fun w => (Fuel, w)) (fun w => (Fuel, w)).
Proof. intros w w' HR. cbn. eauto. Qed.
Lemma sim_bind {A A' B B'} ix o o' (RA : A -> A' -> Prop) (RB : B -> B' -> Prop) m m' k k' :
  sim ix o o' RA m m' -> (forall a a', RA a a' -> sim ix o o' RB (k a) (k' a')) ->
  sim ix o o' RB (bindM m k) (bindM m' k').
Proof.
  intros H K w w' HR. specialize (H w w' HR). unfold post, bindM in *.
  destruct (m w) as [[a|e|] w1].
  - destruct H as (b & w1' & -> & Hab & HR'). exact (K a b Hab w1 w1' HR').
  - destruct H as (w1' & -> & HR'); eauto.
  - destruct H as (w1' & -> & HR'); eauto.
Qed.
Lemma sim_bind_eq {A B B'} ix o o' (RB : B -> B' -> Prop) (m m' : M A) k k' :
  sim ix o o' eq m m' -> (forall a, sim ix o o' RB (k a) (k' a)) -> sim ix o o' RB (bindM m k) (bindM m' k').
Proof. intros H K. eapply sim_bind; [exact H|]. intros a _ <-. apply K. Qed.
Lemma sim_seq {A A' B B'} ix o o' (RA : A -> A' -> Prop) (RB : B -> B' -> Prop) m m' k k' :
  sim ix o o' RA m m' -> sim ix o o' RB k k' -> sim ix o o' RB (m ;;; k) (m' ;;; k').
Proof. intros H K. eapply sim_bind; eauto. Qed.
Lemma sim_reads {A} ix o o' (g : world -> A) :
  (forall w w', GR w w' -> g w' = g w) -> sim ix o o' eq (reads g) (reads g).
Proof. intros H w w' HR. cbn. exists (g w'), w'. split; [reflexivity|]. split; [symmetry; apply H, HR|assumption]. Qed.
Lemma sim_modify ix o o' g g' :
  (forall w w', R ix o o' w w' -> R ix o o' (g w) (g' w')) -> sim ix o o' eq (modify g) (modify g').
Proof. intros H w w' HR. cbn. exists tt, (g' w'). auto. Qed.
Lemma sim_top ix o o' : sim ix o o' (FR ix) top_frame top_frame.
Proof.
  intros w w' [HG (f & f' & E & E' & HF)]. unfold top_frame. rewrite E, E'. cbn.
  do 2 eexists. split; [reflexivity|]. split; [eassumption|]. split; eauto.
Qed.
Lemma GR_frames w w' fs fs' : GR w w' -> GR (set_frames fs w) (set_frames fs' w').
Proof. intros []. destruct w, w'; cbn in *. split; cbn; auto. Qed.
Lemma R_on_top ix jx o o' g g' w w' :
  (forall f f', FR ix f f' -> FR jx (g f) (g' f')) -> R ix o o' w w' -> R jx o o' (on_top g w) (on_top g' w').
Proof.
  intros H [HG (f & f' & E & E' & HF)]. unfold on_top. rewrite E, E'. split; [now apply GR_frames|].
  cbn. eauto 8.
Qed.
Lemma sim_on_top ix o o' g g' :
  (forall f f', FR ix f f' -> FR ix (g f) (g' f')) -> sim ix o o' eq (modify (on_top g)) (modify (on_top g')).
Proof. intros H. apply sim_modify. intros w w'. now apply R_on_top. Qed.
Lemma sim_open {A B} ix o o' (RA : A -> B -> Prop) m m' :
  (forall f f', FR ix f f' -> sim_at ix o o' f f' RA m m') -> sim ix o o' RA m m'.
Proof. intros H w w' [HG (f & f' & E & E' & HF)]. now apply (H f f' HF). Qed.
Lemma sim_close {A B} ix o o' f f' (RA : A -> B -> Prop) m m' :
  FR ix f f' -> sim ix o o' RA m m' -> sim_at ix o o' f f' RA m m'.
Proof. intros HF H w w' HG E E'. apply H. split; eauto 6. Qed.
Lemma sim_at_top {A B} ix o o' f f' (RA : A -> B -> Prop) k k' :
  sim_at ix o o' f f' RA (k f) (k' f') -> sim_at ix o o' f f' RA (bindM top_frame k) (bindM top_frame k').
Proof. intros H w w' HG E E'. unfold bindM, top_frame. rewrite E, E'. cbn. now apply H. Qed.

Lemma sim_scoped {A B} ix jx o o' (RA : A -> B -> Prop) push pop (m : M A) (m' : M B) :
  (forall w w', R ix o o' w w' -> R jx o o' (push w) (push w')) ->
  (forall w w', R jx o o' w w' -> R ix o o' (pop w) (pop w')) ->
  sim jx o o' RA m m' -> sim ix o o' RA (scoped push pop m) (scoped push pop m').
Proof.
  intros H1 H2 H w w' HR. specialize (H _ _ (H1 _ _ HR)). unfold scoped, post in *.
  destruct (m (push w)) as [[a|e|] w1].
  - destruct H as (b & w1' & -> & Hab & HR'). eauto 6.
  - destruct H as (w1' & -> & HR'); eauto.
  - destruct H as (w1' & -> & HR'); eauto.
Qed.
(** After leaving a frame, the frames are what they were before entering it. *)
Lemma sim_at_in_frame {A B D E} ix jx o o' f f' g g' (RA : A -> B -> Prop) (RB : D -> E -> Prop) (m : M A) (m' : M B) k k' :
  FR ix f f' -> FR jx g g' -> sim jx (f :: o) (f' :: o') RA m m' ->
  (forall a b h h', RA a b -> FR jx h h' -> sim_at ix o o' f f' RB (k (a, h)) (k' (b, h'))) ->
  sim_at ix o o' f f' RB (bindM (in_frame g m) k) (bindM (in_frame g' m') k').
Proof.
  intros HF HJ H K w w' HG E1 E2. unfold bindM, in_frame. rewrite E1, E2.
  assert (HR2 : R jx (f :: o) (f' :: o') (set_frames (g :: f :: o) w) (set_frames (g' :: f' :: o') w')).
  { split; [now apply GR_frames|]. exists g, g'. auto. }
  specialize (H _ _ HR2).
  destruct (m (set_frames (g :: f :: o) w)) as [[a|e|] w1].
  - destruct H as (b & w1' & -> & Hab & HG1 & h & h' & F1 & F2 & HH). rewrite F1, F2.
    apply K; auto. now apply GR_frames.
  - destruct H as (w1' & -> & HG1 & h & h' & F1 & F2 & HH).
    rewrite F1, F2. cbn. eexists. split; [reflexivity|].
    split; [now apply GR_frames|]. cbn. eauto 6.
  - destruct H as (w1' & -> & HG1 & h & h' & F1 & F2 & HH).
    rewrite F1, F2. cbn. eexists. split; [reflexivity|].
    split; [now apply GR_frames|]. cbn. eauto 6.
Qed.
Lemma sim_in_frame {A B D E} ix jx o o' g g' (RA : A -> B -> Prop) (RB : D -> E -> Prop) (m : M A) (m' : M B) k k' :
  FR jx g g' -> (forall f f', sim jx (f :: o) (f' :: o') RA m m') ->
  (forall a b h h', RA a b -> FR jx h h' -> sim ix o o' RB (k (a, h)) (k' (b, h'))) ->
  sim ix o o' RB (bindM (in_frame g m) k) (bindM (in_frame g' m') k').
Proof.
  intros HJ H K. apply sim_open. intros f f' HF. eapply sim_at_in_frame; eauto.
  intros. apply sim_close; auto.
Qed.

(** ** base.py *)
Variable rn : prog -> M val.
Hypothesis Hrn : forall p ix o o', all_ops P p -> sim ix o o' eq (rn p) (rn p).

Lemma sim_safe_name ix o o' m : sim ix o o' eq (safe_get_module_name m) (safe_get_module_name m).
Proof.
  unfold safe_get_module_name. apply sim_bind_eq; [apply sim_reads; apply r_mods|]. intros ms.
  destruct (ms !! m) as [[[n|] s]|]; auto using sim_ret, sim_throw.
Qed.
Lemma sim_bundle_name ix o o' : sim ix o o' eq current_bundle_name current_bundle_name.
Proof.
  unfold current_bundle_name. eapply sim_bind; [apply sim_top|]. intros f f' HF.
  rewrite (fr_mods _ _ _ HF). destruct (f_mods f) as [|[m meth] ?]; [now apply sim_ret|apply sim_safe_name].
Qed.

Lemma R_nexts ix o o' w w' ns : R ix o o' w w' -> Forall (nx_ok) ns -> R ix o o' (set_nexts ns w) (set_nexts ns w').
Proof. intros [[] HF] H. destruct w, w'; cbn in *. split; [split; cbn; auto|assumption]. Qed.

Lemma sim_alloc ix o o' ob : nx_ok ob -> sim ix o o' eq (alloc_next ob) (alloc_next ob).
Proof.
  intros H w w' HR. unfold alloc_next, bindM, reads, modify, retM, post.
  rewrite (r_nexts _ _ (proj1 HR)). do 2 eexists. split; [reflexivity|]. split; [reflexivity|].
  apply R_nexts; [assumption|]. apply Forall_app. split; [apply (r_heap _ _ (proj1 HR))|]. auto.
Qed.
(** Popping a [next] closure. *)
Lemma sim_pop_next {A} ix o o' r ob ob' (k : M A) w w' :
  R ix o o' w w' -> w_nexts w !! r = Some ob -> (nx_ok ob -> nx_ok ob') ->
  sim ix o o' eq k k ->
  post ix o o' eq ((modify (set_nexts (<[r := ob']> (w_nexts w))) ;;; k) w)
                 ((modify (set_nexts (<[r := ob']> (w_nexts w))) ;;; k) w').
Proof.
  intros HR E H Hk. unfold bindM, modify. apply Hk. apply R_nexts; [assumption|].
  pose proof (r_heap _ _ (proj1 HR)) as Hh. unfold heap_ok in Hh. apply Forall_insert; [assumption|].
  apply H. rewrite Forall_lookup in Hh. eauto.
Qed.

Lemma sim_next_create ix o o' r sh dt i : sim ix o o' eq (next_create C rn r sh dt i) (next_create C rn r sh dt i).
Proof.
  intros w w' HR. unfold next_create. unfold bindM at 1, reads at 1. unfold bindM at 2, reads at 1.
  rewrite (r_nexts _ _ (proj1 HR)). destruct (w_nexts w !! r) as [[[|c rest] ctx| |]|] eqn:E.
  - apply Hrn; [apply C_ok|assumption].
  - eapply sim_pop_next; eauto. apply Hrn, C_ok.
  - now apply (sim_throw (A:=val) (B:=val)).
  - now apply (sim_throw (A:=val) (B:=val)).
  - now apply (sim_throw (A:=val) (B:=val)).
Qed.
Lemma sim_run_creators ix o o' s ctx sh dt i :
  sim ix o o' eq (run_creators C rn s ctx sh dt i) (run_creators C rn s ctx sh dt i).
Proof.
  unfold run_creators. destruct s; [apply Hrn, C_ok|].
  apply sim_bind_eq; [now apply sim_alloc|]. intros. apply sim_next_create.
Qed.
Lemma sim_next_get ix o o' r v : sim ix o o' eq (next_get C rn r v) (next_get C rn r v).
Proof.
  intros w w' HR. unfold next_get. unfold bindM at 1, reads at 1. unfold bindM at 2, reads at 1.
  rewrite (r_nexts _ _ (proj1 HR)). destruct (w_nexts w !! r) as [[|[|c rest] ctx|]|] eqn:E.
  - now apply (sim_throw (A:=val) (B:=val)).
  - now apply sim_ret.
  - eapply sim_pop_next; eauto. apply Hrn, C_ok.
  - now apply (sim_throw (A:=val) (B:=val)).
  - now apply (sim_throw (A:=val) (B:=val)).
Qed.
Lemma sim_run_getters ix o o' s ctx v : sim ix o o' eq (run_getters C rn s ctx v) (run_getters C rn s ctx v).
Proof.
  unfold run_getters. destruct s; [now apply sim_ret|].
  apply sim_bind_eq; [now apply sim_alloc|]. intros. apply sim_next_get.
Qed.

Lemma FR_set_params ix f f' p : FR ix f f' -> FR ix (set_params p f) (set_params p f').
Proof. intros []. split; auto. Qed.
Lemma FR_set_fstate ix f f' s : FR ix f f' -> FR ix (set_fstate s f) (set_fstate s f').
Proof. intros []. split; auto. Qed.
Lemma FR_set_scopes ix f f' s s' : FR ix f f' -> SCR ix s s' -> FR ix (set_scopes s f) (set_scopes s' f').
Proof. intros [] H. split; auto. Qed.
Lemma FR_set_rng ix f f' r : FR ix f f' -> FR ix (set_rng r f) (set_rng r f').
Proof. intros []. split; auto. Qed.

Lemma sim_get_parameter ix o o' n sh dt i : sim ix o o' eq (get_parameter C rn n sh dt i) (get_parameter C rn n sh dt i).
Proof.
  unfold get_parameter. eapply sim_bind; [apply sim_top|]. intros _ _ _.
  destruct i as [i|]; [|apply sim_throw].
  apply sim_bind_eq; [apply sim_bundle_name|]. intros b.
  eapply sim_bind; [apply sim_top|]. intros f f' HF. unfold current_module.
  rewrite (fr_frozen _ _ _ HF), (fr_params _ _ _ HF), (fr_mods _ _ _ HF).
  destruct (f_frozen f && _); [apply sim_throw|].
  eapply sim_seq.
  { apply sim_on_top. intros g g' HG. rewrite (fr_frozen _ _ _ HG), (fr_params _ _ _ HG).
    destruct (f_frozen g); [assumption|]. now apply FR_set_params. }
  apply sim_bind_eq.
  - destruct (not_none _); [now apply sim_ret|]. destruct (f_frozen f); [apply sim_throw|].
    apply sim_bind_eq; [apply sim_reads, r_pcreate|]. intros st.
    apply sim_bind_eq; [apply sim_run_creators|]. intros v.
    eapply sim_seq; [|now apply sim_ret]. apply sim_on_top. intros g g' HG.
    rewrite (fr_params _ _ _ HG). now apply FR_set_params.
  - intros v. apply sim_bind_eq; [apply sim_reads, r_pget|]. intros gs.
    apply sim_bind_eq; [apply sim_run_getters|]. intros v'.
    destruct (vshape v'); [|apply sim_throw]. destruct (bool_decide _); [now apply sim_ret|apply sim_throw].
Qed.
Lemma sim_get_state ix o o' n sh dt i : sim ix o o' eq (get_state C rn n sh dt i) (get_state C rn n sh dt i).
Proof.
  unfold get_state. apply sim_bind_eq; [apply sim_bundle_name|]. intros b.
  eapply sim_bind; [apply sim_top|]. intros f f' HF. unfold current_module.
  rewrite (fr_state _ _ _ HF), (fr_mods _ _ _ HF).
  eapply sim_seq.
  { apply sim_on_top. intros g g' HG. rewrite (fr_state _ _ _ HG). now apply FR_set_fstate. }
  apply sim_bind_eq.
  - destruct (lookup2 _ _ _) as [[? ?]|]; [now apply sim_ret|]. destruct i as [i|]; [|apply sim_throw].
    destruct sh as [sh|]; [|apply sim_throw]. destruct dt as [dt|]; [|apply sim_throw].
    apply sim_bind_eq; [apply sim_reads, r_screate|]. intros st.
    apply sim_bind_eq; [apply sim_run_creators|]. intros v.
    eapply sim_seq; [|now apply sim_ret]. apply sim_on_top. intros g g' HG.
    rewrite (fr_state _ _ _ HG). now apply FR_set_fstate.
  - intros v. apply sim_bind_eq; [apply sim_reads, r_sget|]. intros gs. apply sim_run_getters.
Qed.
Lemma sim_set_state ix o o' n v : sim ix o o' eq (set_state n v) (set_state n v).
Proof.
  unfold set_state. apply sim_bind_eq; [apply sim_bundle_name|]. intros b.
  eapply sim_seq; [|now apply sim_ret]. apply sim_on_top. intros g g' HG.
  rewrite (fr_state _ _ _ HG). now apply FR_set_fstate.
Qed.


Lemma sim_with_seq {A} ix o o' (g : rngseq -> option (A * rngseq)) : sim ix o o' eq (with_seq g) (with_seq g).
Proof.
  unfold with_seq. eapply sim_bind; [apply sim_top|]. intros f f' HF. rewrite (fr_rng _ _ _ HF).
  destruct (f_rng f) as [s|]; [|apply sim_throw]. destruct (g s) as [[a s']|]; [|apply sim_throw].
  eapply sim_seq; [|now apply sim_ret]. apply sim_on_top. intros. now apply FR_set_rng.
Qed.
Lemma R_draws ix o o' w w' : R ix o o' w w' -> R ix o o' (set_draws (S (w_draws w)) w) (set_draws (S (w_draws w')) w').
Proof. intros [[] HF]. destruct w, w'; cbn in *. split; [split; cbn; auto|assumption]. Qed.
Lemma sim_next_key ix o o' : sim ix o o' eq (next_rng_key C) (next_rng_key C).
Proof.
  unfold next_rng_key. eapply sim_bind; [apply sim_top|]. intros _ _ _.
  eapply sim_seq; [apply sim_modify, R_draws|].
  apply sim_bind_eq; [apply sim_with_seq|]. intros. now apply sim_ret.
Qed.
Lemma sim_next_keys ix o o' n : sim ix o o' eq (next_rng_keys C n) (next_rng_keys C n).
Proof. unfold next_rng_keys. apply sim_bind_eq; [apply sim_with_seq|]. intros. now apply sim_ret. Qed.
Lemma sim_maybe_next ix o o' : sim ix o o' eq (maybe_next_rng_key C) (maybe_next_rng_key C).
Proof.
  unfold maybe_next_rng_key. eapply sim_bind; [apply sim_top|]. intros f f' HF. rewrite (fr_rng _ _ _ HF).
  destruct (f_rng f); [|now apply sim_ret]. apply sim_bind_eq; [apply sim_with_seq|]. intros. now apply sim_ret.
Qed.
Lemma sim_reserve ix o o' n : sim ix o o' eq (reserve_rng_keys n) (reserve_rng_keys n).
Proof. apply sim_with_seq. Qed.
Lemma sim_with_rng ix o o' k p : all_ops P p ->
  sim ix o o' eq (scoped (push_rng (Some (seq_of_key k))) pop_rng (rn p)) (scoped (push_rng (Some (seq_of_key k))) pop_rng (rn p)).
Proof.
  intros Hp. apply (sim_scoped ix ix).
  - intros w w'. unfold push_rng. apply R_on_top. intros f f' []. split; cbn; auto; congruence.
  - intros w w'. unfold pop_rng. apply R_on_top. intros f f' [? ? ? ? E1 E2 ?]. rewrite E2.
    destruct (f_rngs f) eqn:E3; split; cbn; auto; congruence.
  - now apply Hrn.
Qed.

Lemma sim_scoped_globals {A} ix o o' push pop (m : M A) :
  (forall w w', R ix o o' w w' -> R ix o o' (push w) (push w')) ->
  (forall w w', R ix o o' w w' -> R ix o o' (pop w) (pop w')) ->
  sim ix o o' eq m m -> sim ix o o' eq (scoped push pop m) (scoped push pop m).
Proof. apply (sim_scoped ix ix). Qed.
Lemma sim_with_creator ix o o' c ps ss p : all_ops P p ->
  sim ix o o' eq (step C rn 0 (WithCreator c ps ss p)) (step C rn 0 (WithCreator c ps ss p)).
Proof.
  intros Hp. cbn [step]. eapply sim_bind; [apply sim_top|]. intros _ _ _. apply sim_scoped_globals.
  - intros w w' [[] HF]. destruct w, w'; cbn in *; subst. split; [split; cbn; auto|assumption].
  - intros w w' [[] HF]. destruct w, w'; cbn in *; subst. split; [split; cbn; auto|assumption].
  - now apply Hrn.
Qed.
Lemma sim_with_getter ix o o' c ps ss p : all_ops P p ->
  sim ix o o' eq (step C rn 0 (WithGetter c ps ss p)) (step C rn 0 (WithGetter c ps ss p)).
Proof.
  intros Hp. cbn [step]. eapply sim_bind; [apply sim_top|]. intros _ _ _. apply sim_scoped_globals.
  - intros w w' [[] HF]. destruct w, w'; cbn in *; subst. split; [split; cbn; auto|assumption].
  - intros w w' [[] HF]. destruct w, w'; cbn in *; subst. split; [split; cbn; auto|assumption].
  - now apply Hrn.
Qed.

(** ** module.py *)
Definition inner (ix : level) : level := Level (S (own ix)) (below ix) (below' ix).
Lemma sim_push_module {A B} ix o o' ms (RA : A -> B -> Prop) m m' :
  sim (inner ix) o o' RA m m' ->
  sim ix o o' RA (scoped (push_module ms) pop_module m) (scoped (push_module ms) pop_module m').
Proof.
  intros H. apply sim_open. intros f0 f0' HF0. apply sim_close; [assumption|].
  assert (H1 : 1 <= own ix) by apply HF0. clear f0 f0' HF0. revert H. apply sim_scoped.
  - intros w w'. unfold push_module. apply R_on_top. intros f f' [? ? ? ? ? ? (_ & s & E & E1 & E2)].
    split; cbn; auto; try congruence. split; cbn; [lia|]. exists (empty_scope :: s). cbn. rewrite E, E1, E2. auto.
  - intros w w'. unfold pop_module. apply R_on_top. intros f f' [? ? ? ? ? ? (_ & s & E & E1 & E2)].
    cbn in *. destruct s as [|s0 s]; [discriminate|]. split; cbn; auto; try congruence.
    split; [assumption|]. exists s. rewrite E1, E2. cbn in *. auto.
Qed.
Lemma sim_scoped_name ix o o' f f' n : FR ix f f' -> sim ix o o' eq (scoped_name f n) (scoped_name f' n).
Proof.
  intros HF. unfold scoped_name. rewrite (fr_mods _ _ _ HF).
  destruct (f_mods f) as [|? [|[pm meth] ?]]; try now apply sim_ret.
  apply sim_bind_eq; [apply sim_safe_name|]. intros. now apply sim_ret.
Qed.
Lemma sim_unique_name ix o o' n : 2 <= own ix -> sim ix o o' eq (unique_and_canonical_name n) (unique_and_canonical_name n).
Proof.
  intros H2. unfold unique_and_canonical_name. eapply sim_bind; [apply sim_top|]. intros f f' HF.
  apply sim_bind_eq; [now apply sim_scoped_name|]. intros full.
  destruct (fr_scopes _ _ _ HF) as (_ & s & E & -> & ->).
  destruct s as [|s0 [|sc rest]]; cbn in *; try lia.
  destruct (number_name sc full) as [sc' r]. eapply sim_seq.
  - apply sim_on_top. intros g g' HG. apply FR_set_scopes; [assumption|]. split; [lia|].
    exists (s0 :: sc' :: rest). cbn. auto.
  - destruct r; [apply sim_throw|now apply sim_ret].
Qed.
Lemma R_mods ix o o' w w' ms : R ix o o' w w' -> R ix o o' (set_mods ms w) (set_mods ms w').
Proof. intros [[] HF]. destruct w, w'; cbn in *. split; [split; cbn; auto|assumption]. Qed.
Lemma sim_set_mods ix o o' ms : sim ix o o' eq (modify (set_mods ms)) (modify (set_mods ms)).
Proof. apply sim_modify. intros. now apply R_mods. Qed.
Lemma sim_update_mod ix o o' m g : sim ix o o' eq (update_mod m g) (update_mod m g).
Proof.
  unfold update_mod. apply sim_bind_eq; [apply sim_reads, r_mods|]. intros ms.
  destruct (ms !! m); [apply sim_set_mods|apply sim_throw].
Qed.
Lemma sim_module_init ix o o' m cls n : 2 <= own ix -> sim ix o o' eq (module_init m cls n) (module_init m cls n).
Proof.
  intros H2. unfold module_init. destruct (valid_identifier _); [|apply sim_throw].
  eapply sim_seq; [apply sim_update_mod|]. apply sim_bind_eq; [now apply sim_unique_name|]. intros. apply sim_update_mod.
Qed.
Definition ctor_ok (ix : level) (b : mbody) : Prop := match b with MFun _ => True | MCtor _ _ _ _ => 2 <= own ix end.
Lemma sim_run_mbody ix o o' m b a : ctor_ok ix b -> mbody_ok P b -> sim ix o o' eq (run_mbody rn m b a) (run_mbody rn m b a).
Proof.
  intros H2 Hb. destruct b as [f|cls pre super post']; cbn in *; [apply Hrn, Hb|]. destruct Hb as [H3 H4].
  apply sim_bind_eq; [apply Hrn, H3|]. intros v. destruct (super v); [|apply Hrn, H4].
  eapply sim_seq; [now apply sim_module_init|apply Hrn, H4].
Qed.
Lemma sim_next_call ix o o' r a : sim ix o o' eq (next_call C rn r a) (next_call C rn r a).
Proof.
  intros w w' HR. unfold next_call. unfold bindM at 1, reads at 1. unfold bindM at 2, reads at 1.
  rewrite (r_nexts _ _ (proj1 HR)). destruct (w_nexts w !! r) as [[| |[|c rest] m meth b]|] eqn:E.
  - now apply (sim_throw (A:=val) (B:=val)).
  - now apply (sim_throw (A:=val) (B:=val)).
  - pose proof (r_heap _ _ (proj1 HR)) as Hh. rewrite Forall_lookup in Hh. destruct (Hh _ _ E) as [H1 H2].
    apply sim_run_mbody; [|assumption|assumption]. destruct b; [exact I|destruct H2].
  - eapply sim_pop_next; eauto. apply Hrn, C_ok.
  - now apply (sim_throw (A:=val) (B:=val)).
Qed.
Lemma sim_run_interceptors ix o o' m meth b a : ctor_ok ix b -> mbody_ok P b ->
  sim ix o o' eq (run_interceptors C rn m meth b a) (run_interceptors C rn m meth b a).
Proof.
  intros H2 Hb w w' HR. unfold run_interceptors, bindM, reads.
  rewrite (r_icpt _ _ (proj1 HR)), (r_noicpt _ _ (proj1 HR)). now apply sim_run_mbody.
Qed.
Lemma sim_notify ix o o' self name st : sim ix o o' eq (notify_parents self name st) (notify_parents self name st).
Proof.
  induction st as [|[m meth] st IH]; cbn; [now apply sim_ret|]. eapply sim_seq; [|exact IH].
  instantiate (1 := eq). destruct (decide (m = self)); [now apply sim_ret|].
  apply sim_bind_eq; [apply sim_reads, r_mods|]. intros ms.
  destruct (ms !! m) as [[mn [sb|]]|]; auto using sim_throw, sim_set_mods.
Qed.
Lemma sim_wrap_method ix o o' m meth b a : mbody_ok P b ->
  sim ix o o' eq (wrap_method C rn m meth b a) (wrap_method C rn m meth b a).
Proof.
  intros Hb. unfold wrap_method. eapply sim_bind; [apply sim_top|]. intros f0 f0' HF0. apply sim_push_module.
  apply sim_bind_eq; [apply sim_run_interceptors; [|assumption]|].
  { assert (1 <= own ix) by apply HF0. destruct b; cbn; [exact I|lia]. }
  intros out.
  eapply sim_bind; [apply sim_top|]. intros f f' HF. apply sim_bind_eq; [apply sim_reads, r_mods|]. intros ms.
  rewrite (fr_mods _ _ _ HF). destruct (ms !! m) as [[[n|] s]|]; try now apply sim_ret.
  eapply sim_seq; [apply sim_notify|now apply sim_ret].
Qed.
Lemma sim_new_module ix o o' cls pre super post' : mbody_ok P (MCtor cls pre super post') ->
  sim ix o o' eq (new_module C rn cls pre super post') (new_module C rn cls pre super post').
Proof.
  intros Hb. unfold new_module. apply sim_bind_eq; [apply sim_reads, r_mods|]. intros ms.
  eapply sim_seq; [apply sim_set_mods|]. eapply sim_seq; [now apply sim_wrap_method|].
  apply sim_bind_eq; [apply sim_reads, r_mods|]. intros ms'.
  destruct (ms' !! _) as [[[n|] s]|]; auto using sim_ret, sim_throw.
Qed.
Lemma ops_ret v : all_ops P (Ret v).
Proof. constructor; [apply P_ret|]. intros q []. Qed.
Lemma sim_build_scope o o' subs : forall ix last, sim ix o o' eq (build_scope C rn subs last) (build_scope C rn subs last).
Proof.
  induction subs as [|s subs IH]; intros ix last; cbn; [now apply sim_ret|].
  apply sim_bind_eq; [apply sim_new_module; split; intros; apply ops_ret|]. intros m.
  apply sim_push_module, IH.
Qed.
Lemma sim_name_scope ix o o' name p : all_ops P p -> sim ix o o' eq (name_scope C rn name p) (name_scope C rn name p).
Proof.
  intros Hp. unfold name_scope. eapply sim_bind; [apply sim_top|]. intros _ _ _.
  match goal with |- context [if ?b then _ else _] => destruct b end; [apply sim_throw|].
  apply sim_bind_eq; [apply sim_build_scope|]. intros [m|]; [|apply sim_throw].
  apply sim_push_module. now apply Hrn.
Qed.
Lemma sim_module_dict ix o o' m b : sim ix o o' eq (module_dict m b) (module_dict m b).
Proof.
  unfold module_dict. eapply sim_bind; [apply sim_top|]. intros f f' HF.
  apply sim_bind_eq; [apply sim_reads, r_mods|]. intros ms.
  rewrite (fr_params _ _ _ HF), (fr_state _ _ _ HF).
  destruct (ms !! m) as [[[n|] [s|]]|]; auto using sim_ret, sim_throw.
Qed.

(** ** stateful.py *)
Lemma sim_internal ix o o' b : sim ix o o' eq (internal_state b) (internal_state b).
Proof.
  unfold internal_state. eapply sim_bind; [apply sim_top|]. intros f f' HF.
  apply sim_ret. now rewrite (fr_params _ _ _ HF), (fr_state _ _ _ HF), (fr_rng _ _ _ HF).
Qed.
Lemma FR_apply_delta ix d f f' : FR ix f f' -> FR ix (apply_delta d f) (apply_delta d f').
Proof.
  intros HF. unfold apply_delta.
  set (f1 := match d_params d with Some p => _ | None => f end).
  set (f1' := match d_params d with Some p => if f_frozen f' then _ else _ | None => f' end).
  assert (H1 : FR ix f1 f1').
  { subst f1 f1'. destruct (d_params d); [|assumption]. rewrite (fr_frozen _ _ _ HF), (fr_params _ _ _ HF).
    destruct (f_frozen f); [assumption|]. now apply FR_set_params. }
  assert (H2 : FR ix (set_fstate (update_recursive (f_state f1) (d_state d)) f1)
                     (set_fstate (update_recursive (f_state f1') (d_state d)) f1')).
  { rewrite (fr_state _ _ _ H1). now apply FR_set_fstate. }
  rewrite (fr_rng _ _ _ HF). destruct (d_rng d); [|assumption]. destruct (f_rng f); [|assumption]. now apply FR_set_rng.
Qed.
Lemma sim_update ix o o' d : sim ix o o' eq (update_internal_state d) (update_internal_state d).
Proof. apply sim_on_top. intros f f' HF. now apply FR_apply_delta. Qed.
Lemma FR_temp ix f f' s : FR ix f f' -> FR ix (temp_frame f s) (temp_frame f' s).
Proof. intros []. split; cbn; auto; congruence. Qed.
Lemma sim_in_temp {A} ix o o' s (m : M A) :
  (forall f f', sim ix (f :: o) (f' :: o') eq m m) -> sim ix o o' eq (in_temp s m) (in_temp s m).
Proof.
  intros H. unfold in_temp. apply sim_open. intros f f' HF. apply sim_at_top.
  eapply sim_at_in_frame; [assumption|apply FR_temp; eassumption|apply H|].
  intros a b h h' <- Hh. apply sim_close; [assumption|]. now apply sim_ret.
Qed.
Lemma sim_reserve_block ix o o' : sim ix o o' eq (reserve_block C) (reserve_block C).
Proof.
  unfold reserve_block. eapply sim_bind; [apply sim_top|]. intros f f' HF. rewrite (fr_rng _ _ _ HF).
  destruct (f_rng f); [|now apply sim_ret]. apply sim_on_top. intros g g' HG. now apply FR_set_rng.
Qed.
Lemma sim_jit ix o o' p : all_ops P p -> sim ix o o' eq (jit C rn p) (jit C rn p).
Proof.
  intros Hp. unfold jit. apply sim_bind_eq; [apply sim_internal|]. intros s.
  apply sim_bind_eq.
  - apply sim_in_temp. intros. apply sim_bind_eq; [now apply Hrn|]. intros out.
    apply sim_bind_eq; [apply sim_internal|]. intros. now apply sim_ret.
  - intros r. eapply sim_seq; [apply sim_update|now apply sim_ret].
Qed.
Lemma sim_branch ix o o' s p : all_ops P p -> sim ix o o' eq (stateful_branch C rn s p) (stateful_branch C rn s p).
Proof.
  intros Hp. apply sim_in_temp. intros g g'.
  apply sim_bind_eq; [now apply Hrn|]. intros out. eapply sim_seq; [apply sim_reserve_block|].
  apply sim_bind_eq; [apply sim_internal|]. intros. now apply sim_ret.
Qed.
Lemma sim_branches ix o o' s ps : Forall (all_ops P) ps ->
  sim ix o o' eq (run_branches C rn s ps) (run_branches C rn s ps).
Proof.
  induction 1 as [|p ps Hp Hps IH]; cbn; [now apply sim_ret|].
  apply sim_bind_eq; [now apply sim_branch|]. intros r.
  apply sim_bind_eq; [apply IH|]. intros rs. now apply sim_ret.
Qed.
Lemma sim_switch ix o o' i ps : Forall (all_ops P) ps -> sim ix o o' eq (switch_fun C rn i ps) (switch_fun C rn i ps).
Proof.
  intros Hps. unfold switch_fun. eapply sim_seq; [apply sim_reserve_block|].
  apply sim_bind_eq; [apply sim_internal|]. intros s.
  apply sim_bind_eq; [now apply sim_branches|]. intros rs.
  destruct (rs !! _) as [[out s1]|]; [|apply sim_throw].
  destruct (forallb _ rs); [|apply sim_throw].
  eapply sim_seq; [apply sim_update|now apply sim_ret].
Qed.
Lemma sim_as_pair ix o o' v : sim ix o o' eq (as_pair v) (as_pair v).
Proof.
  unfold as_pair. destruct v; try apply sim_throw. destruct l as [|? [|? [|? ?]]]; try apply sim_throw. now apply sim_ret.
Qed.
Lemma sim_scan_step ix o o' f cs x : (forall a b, all_ops P (f a b)) ->
  sim ix o o' eq (scan_step C rn f cs x) (scan_step C rn f cs x).
Proof.
  intros Hf. destruct cs as [c s].
  apply sim_in_temp. intros g g'. eapply sim_bind; [apply sim_top|]. intros f0 f0' HF0.
  apply sim_bind_eq; [apply Hrn, Hf|]. intros r. apply sim_bind_eq; [apply sim_as_pair|]. intros cy.
  eapply sim_bind; [apply sim_top|]. intros f1 f1' HF1.
  rewrite (fr_params _ _ _ HF0), (fr_params _ _ _ HF1).
  eapply (sim_seq (A:=unit) (A':=unit) _ _ _ eq).
  { destruct (no_new_params _ _); [now apply sim_ret|apply sim_throw]. }
  eapply sim_seq; [apply sim_reserve_block|].
  apply sim_bind_eq; [apply sim_internal|]. intros s1.
  destruct (same_skel _ _ && same_structure _ _); [|apply sim_throw]. now apply sim_ret.
Qed.
Lemma sim_lax_scan {T} ix o o' (st : T -> val -> M (T * val)) :
  (forall c x, sim ix o o' eq (st c x) (st c x)) ->
  forall xs c, sim ix o o' eq (lax_scan st c xs) (lax_scan st c xs).
Proof.
  intros H. induction xs as [|x xs IH]; intros c; cbn; [now apply sim_ret|].
  apply sim_bind_eq; [now apply H|]. intros [c1 y]. 
  apply sim_bind_eq; [now apply IH|]. intros [c2 ys]. now apply sim_ret.
Qed.
Lemma sim_scan_rest ix o o' f init xs rv : (forall a b, all_ops P (f a b)) ->
  sim ix o o' eq (scan_rest C rn f init xs rv) (scan_rest C rn f init xs rv).
Proof.
  intros Hf. unfold scan_rest. eapply sim_seq; [apply sim_reserve_block|].
  apply sim_bind_eq; [apply sim_internal|]. intros s.
  assert (Hl : forall ys, sim ix o o' eq (lax_scan (scan_step C rn f) (init, s) ys) (lax_scan (scan_step C rn f) (init, s) ys)).
  { intros ys. apply sim_lax_scan. intros. now apply sim_scan_step. }
  apply sim_bind_eq.
  - unfold lax_scan_dir. destruct rv; [|apply Hl]. apply sim_bind_eq; [apply Hl|]. intros [c y]. now apply sim_ret.
  - intros [[c t] y]. eapply sim_seq; [apply sim_update|now apply sim_ret].
Qed.
Lemma sim_scan ix o o' f init xs z rv : (forall a b, all_ops P (f a b)) ->
  sim ix o o' eq (scan C rn f init xs z rv) (scan C rn f init xs z rv).
Proof.
  intros Hf. unfold scan. eapply sim_bind; [apply sim_top|]. intros fr fr' HF. rewrite (fr_frozen _ _ _ HF).
  destruct (f_frozen fr).
  - apply sim_bind_eq; [now apply sim_scan_rest|]. intros. now apply sim_ret.
  - destruct (if rv then rev xs else xs) as [|x0 rest0].
    + apply sim_bind_eq; [apply Hrn, Hf|]. intros. eapply sim_seq; [apply sim_as_pair|now apply sim_ret].
    + apply sim_bind_eq; [apply Hrn, Hf|]. intros r. apply sim_bind_eq; [apply sim_as_pair|]. intros cy.
      destruct (if rv then rev rest0 else rest0); [now apply sim_ret|].
      apply sim_bind_eq; [now apply sim_scan_rest|]. intros. now apply sim_ret.
Qed.
Lemma sim_fori_step ix o o' b i sv : (forall a x, all_ops P (b a x)) ->
  sim ix o o' eq (fori_step C rn b i sv) (fori_step C rn b i sv).
Proof.
  intros Hb. destruct sv as [s v].
  apply sim_in_temp. intros g g'. apply sim_bind_eq; [apply Hrn, Hb|]. intros v'.
  eapply sim_seq; [apply sim_reserve_block|].
  apply sim_bind_eq; [apply sim_internal|]. intros s1.
  destruct (same_skel _ _ && same_structure _ _); [|apply sim_throw]. now apply sim_ret.
Qed.
Lemma sim_fori_rest ix o o' lo hi b v : (forall a x, all_ops P (b a x)) ->
  sim ix o o' eq (fori_rest C rn lo hi b v) (fori_rest C rn lo hi b v).
Proof.
  intros Hb. unfold fori_rest. eapply sim_seq; [apply sim_reserve_block|].
  apply sim_bind_eq; [apply sim_internal|]. intros s.
  apply sim_bind_eq.
  - assert (H : forall c i a, sim ix o o' eq (lax_fori (fori_step C rn b) c i a) (lax_fori (fori_step C rn b) c i a)).
    { induction c as [|c IH]; intros i a; cbn; [now apply sim_ret|].
      apply sim_bind_eq; [now apply sim_fori_step|]. intros r. apply IH. }
    apply H.
  - intros [t y]. eapply sim_seq; [apply sim_update|now apply sim_ret].
Qed.
Lemma sim_fori ix o o' lo hi b v : (forall a x, all_ops P (b a x)) ->
  sim ix o o' eq (fori_loop C rn lo hi b v) (fori_loop C rn lo hi b v).
Proof.
  intros Hb. unfold fori_loop. eapply sim_bind; [apply sim_top|]. intros fr fr' HF. rewrite (fr_frozen _ _ _ HF).
  destruct (f_frozen fr); [now apply sim_fori_rest|].
  apply sim_bind_eq; [apply Hrn, Hb|]. intros. destruct (_ =? 0)%Z; [now apply sim_ret|now apply sim_fori_rest].
Qed.
Lemma sim_while_cond ix o o' c v : (forall x, all_ops P (c x)) -> sim ix o o' eq (while_cond rn c v) (while_cond rn c v).
Proof.
  intros Hc. unfold while_cond. eapply sim_bind; [apply sim_top|]. intros f0 f0' HF0.
  apply sim_bind_eq; [apply Hrn, Hc|]. intros r. eapply sim_bind; [apply sim_top|]. intros f1 f1' HF1.
  rewrite (fr_params _ _ _ HF0), (fr_params _ _ _ HF1), (fr_state _ _ _ HF0), (fr_state _ _ _ HF1),
    (fr_rng _ _ _ HF0), (fr_rng _ _ _ HF1).
  destruct (_ && _ && _); [|apply sim_throw]. destruct r; try apply sim_throw. now apply sim_ret.
Qed.
Lemma sim_while_step ix o o' b vs : (forall x, all_ops P (b x)) ->
  sim ix o o' eq (while_step rn b vs) (while_step rn b vs).
Proof.
  intros Hb. destruct vs as [v s].
  apply sim_in_temp. intros g g'. apply sim_bind_eq; [apply Hrn, Hb|]. intros v'.
  apply sim_bind_eq; [apply sim_internal|]. intros s1.
  destruct (same_skel _ _ && same_structure _ _); [|apply sim_throw]. now apply sim_ret.
Qed.
Lemma sim_while ix o o' n c b v : (forall x, all_ops P (c x)) -> (forall x, all_ops P (b x)) ->
  sim ix o o' eq (while_loop rn n c b v) (while_loop rn n c b v).
Proof.
  intros Hc Hb. unfold while_loop. eapply sim_bind; [apply sim_top|]. intros fr fr' HF. rewrite (fr_frozen _ _ _ HF).
  destruct (negb (f_frozen fr)); [apply sim_throw|].
  apply sim_bind_eq; [apply sim_internal|]. intros s.
  rewrite (fr_rng _ _ _ HF).
  apply sim_bind_eq.
  - match goal with |- sim _ _ _ _ (lax_while n ?c ?b ?v0) _ => set (cc := c); generalize v0 as vs; generalize n as k end.
    induction k as [|k IH]; intros vs; cbn; [apply sim_fuel|].
    apply sim_bind_eq.
    + eapply sim_seq; [|now apply sim_while_cond]. apply sim_on_top. intros f f' HG. now apply FR_set_rng.
    + intros go. destruct go; [|now apply sim_ret]. apply sim_bind_eq; [now apply sim_while_step|]. apply IH.
  - intros r. eapply sim_bind; [apply sim_top|]. intros f1 f1' HF1. rewrite (fr_rng _ _ _ HF1).
    eapply sim_seq; [|now apply sim_ret]. apply sim_update.
Qed.
Lemma sim_vmap ix o o' f xs : (forall x, all_ops P (f x)) -> sim ix o o' eq (vmap C rn f xs) (vmap C rn f xs).
Proof.
  intros Hf. unfold vmap. apply sim_bind_eq; [apply sim_internal|]. intros s.
  apply sim_bind_eq.
  - induction xs as [|x xs IH]; cbn; [now apply sim_ret|].
    apply sim_bind_eq; [|intros r; apply sim_bind_eq; [apply IH|intros; now apply sim_ret]].
    apply sim_in_temp. intros g g'. apply sim_bind_eq; [apply Hrn, Hf|]. intros out.
    apply sim_bind_eq; [apply sim_internal|]. intros s1. now apply sim_ret.
  - intros [|r rs]; [apply sim_throw|]. destruct (forallb _ _); [|apply sim_throw].
    eapply sim_seq; [apply sim_update|now apply sim_ret].
Qed.
Lemma sim_eval_shape ix o o' p : all_ops P p -> sim ix o o' eq (eval_shape rn p) (eval_shape rn p).
Proof.
  intros Hp. unfold eval_shape. apply sim_bind_eq; [apply sim_internal|]. intros s.
  apply sim_bind_eq; [apply sim_in_temp; intros; now apply Hrn|]. intros. now apply sim_ret.
Qed.

(** ** transform.py, lift.py, random.py *)
Lemma FR_new ps st r : FR (Level 2 [] []) (new_frame ps st r) (new_frame ps st r).
Proof. split; cbn; auto. split; cbn; [lia|]. exists [empty_scope; empty_scope]. auto. Qed.
Lemma sim_init_fn ix o o' r p : all_ops P p -> sim ix o o' eq (init_fn rn r p) (init_fn rn r p).
Proof.
  intros Hp. unfold init_fn.
  eapply sim_in_frame; [apply FR_new|intros; now apply Hrn|].
  intros v v' f f' _ HF. cbn in *. rewrite (fr_params _ _ _ HF), (fr_state _ _ _ HF). now apply sim_ret.
Qed.
Lemma sim_apply_fn ix o o' ps st r p : all_ops P p -> sim ix o o' eq (apply_fn rn ps st r p) (apply_fn rn ps st r p).
Proof.
  intros Hp. unfold apply_fn.
  eapply sim_in_frame; [apply FR_new|intros; now apply Hrn|].
  intros v v' f f' H HF. cbn in *. rewrite (fr_state _ _ _ HF), H. now apply sim_ret.
Qed.
Lemma sim_pack ix o o' b src : sim ix o o' eq (pack_into_dict src b) (pack_into_dict src b).
Proof.
  induction src as [|[k v] src IH]; cbn; [now apply sim_ret|].
  eapply sim_bind; [apply sim_top|]. intros f f' HF. rewrite (fr_params _ _ _ HF).
  destruct (bool_decide _); [apply sim_throw|]. eapply sim_seq; [|exact IH].
  apply sim_on_top. intros g g' HG. rewrite (fr_params _ _ _ HG). now apply FR_set_params.
Qed.
Lemma sim_lift ix o o' m r p : all_ops P p -> sim ix o o' eq (lift_call rn m r p) (lift_call rn m r p).
Proof.
  intros Hp. unfold lift_call. eapply sim_bind; [apply sim_top|]. intros f f' HF.
  apply sim_bind_eq; [apply sim_safe_name|]. intros b. rewrite (fr_params _ _ _ HF), (fr_frozen _ _ _ HF).
  destruct (f_frozen f); [now apply sim_ret|]. apply sim_bind_eq; [now apply sim_init_fn|]. intros ps.
  destruct (bool_decide _); [|apply sim_throw]. eapply sim_seq; [apply sim_pack|now apply sim_ret].
Qed.
Lemma sim_optimize ix o o' p : all_ops P p -> sim ix o o' eq (optimize_rng_use rn p) (optimize_rng_use rn p).
Proof.
  intros Hp. unfold optimize_rng_use. eapply sim_bind; [apply sim_top|]. intros f f' HF.
  rewrite (fr_params _ _ _ HF), (fr_state _ _ _ HF), (fr_rng _ _ _ HF).
  apply sim_bind_eq; [apply sim_reads, r_draws|]. intros d0.
  eapply sim_in_frame; [apply FR_new|intros; now apply Hrn|]. intros _ _ _ _ _ _.
  apply sim_bind_eq; [apply sim_reads, r_draws|]. intros d1.
  eapply (sim_seq (A:=unit) (A':=unit) _ _ _ eq); [|now apply Hrn].
  destruct (Nat.ltb _ _); [|now apply sim_ret].
  eapply sim_bind; [apply sim_top|]. intros g g' HG. rewrite (fr_rng _ _ _ HG).
  destruct (f_rng g) as [s|]; [|apply sim_throw].
  apply sim_on_top. intros h h' HH. now apply FR_set_rng.
Qed.

Lemma child_ops p q : all_ops P p -> child p q -> all_ops P q.
Proof. intros [? ? H]. apply H. Qed.
Lemma ops_here p : all_ops P p -> P p.
Proof. now intros []. Qed.

Lemma sim_step n p ix o o' : all_ops P p -> sim ix o o' eq (step C rn n p) (step C rn n p).
Proof.
  intros Hp. pose proof (P_ok _ (ops_here _ Hp)) as Hh. pose proof (fun q => child_ops _ q Hp) as Hc.
  destruct p; cbn [step child] in *.
  - now apply sim_ret.
  - apply sim_throw.
  - apply sim_bind_eq; [apply Hrn; auto|]. intros. apply Hrn; eauto.
  - intros w w' HR. assert (Ha : all_ops P p) by auto.
    pose proof (Hrn p ix o o' Ha w w' HR) as H. unfold post in *. destruct (rn p w) as [[a|e|] w1].
    + destruct H as (b & w1' & -> & Hab & HR'). eauto.
    + destruct H as (w1' & -> & HR').
      apply Hrn; [|assumption]. eauto.
    + destruct H as (w1' & -> & HR'); eauto.
  - apply Hrn, C_ok.
  - apply sim_get_parameter.
  - apply sim_get_state.
  - apply sim_set_state.
  - apply sim_next_key.
  - apply sim_next_keys.
  - apply sim_maybe_next.
  - apply sim_reserve.
  - eapply sim_bind; [apply sim_top|]. intros _ _ _. apply sim_with_rng; auto.
  - eapply sim_bind; [apply sim_top|]. intros f f' HF. rewrite (fr_frozen _ _ _ HF). now apply sim_ret.
  - apply sim_with_creator; auto.
  - apply sim_with_getter; auto.
  - apply sim_next_create.
  - apply sim_next_get.
  - apply sim_bind_eq; [|intros; now apply sim_ret]. apply sim_new_module. split; eauto.
  - apply sim_wrap_method. cbn. eauto.
  - apply sim_name_scope; auto.
  - edestruct Hh; reflexivity.
  - apply sim_next_call.
  - apply sim_bind_eq; [apply sim_safe_name|]. intros. now apply sim_ret.
  - apply sim_module_dict.
  - apply sim_jit; auto.
  - apply sim_switch. auto.
  - apply sim_switch. apply Forall_forall. intros q Hq. apply Hc. now apply elem_of_list_In.
  - apply sim_scan; eauto.
  - apply sim_fori; eauto.
  - apply sim_while; eauto.
  - apply sim_vmap; eauto.
  - apply sim_eval_shape; auto.
  - apply sim_bind_eq; [apply sim_init_fn; auto|]. intros. now apply sim_ret.
  - destruct (dec params) as [ps|]; [|apply sim_throw]. destruct (dec state) as [st|]; [|apply sim_throw].
    apply sim_bind_eq; [apply sim_apply_fn; auto|]. intros. now apply sim_ret.
  - apply sim_lift; auto.
  - apply sim_optimize; auto.
Qed.
End Scope.

Section Top.
Variable C : code.
Variable P : prog -> Prop.
Hypothesis P_ok : forall p, P p -> forall i b, p <> Intercept i b.
Hypothesis P_ret : forall v, P (Ret v).
Hypothesis C_ok : code_ok P C.
Lemma run_sim n : forall p ix o o', all_ops P p -> sim P ix o o' eq (run C n p) (run C n p).
Proof.
  induction n as [|n IH]; intros p ix o o' Hp; cbn [run]; [apply sim_fuel|].
  apply (sim_step C P P_ok P_ret C_ok); auto.
Qed.
End Top.

(** A method call neither sees nor changes the scopes of its caller. *)
Section Call.
Variable C : code.
Variable P : prog -> Prop.
Hypothesis P_ok : forall p, P p -> forall i b, p <> Intercept i b.
Hypothesis P_ret : forall v, P (Ret v).
Hypothesis C_ok : code_ok P C.
Lemma call_scopes n m meth body a w f fs s r w1 :
  (forall v, all_ops P (body v)) -> w_icpt w = [] -> Forall (nx_ok P) (w_nexts w) -> w_frames w = f :: fs ->
  run C n (CallMethod m meth a body) w = (r, w1) ->
  exists f1, w_frames w1 = f1 :: fs /\ f_scopes f1 = f_scopes f /\
    run C n (CallMethod m meth a body) (on_top (set_scopes s) w) = (r, on_top (set_scopes s) w1).
Proof.
  intros Hb Hi Hh F E. destruct n as [|n].
  { injection E as <- <-. exists f. auto. }
  cbn [run step] in *. unfold wrap_method in *.
  assert (F' : w_frames (on_top (set_scopes s) w) = set_scopes s f :: fs) by (unfold on_top; now rewrite F).
  unfold bindM at 1 in E. unfold top_frame in E at 1. rewrite F in E.
  unfold bindM at 1. unfold top_frame at 1. rewrite F'.
  match type of E with scoped _ _ ?k _ = _ => set (K := k) in * end.
  assert (HK : sim P (Level 1 (f_scopes f) s) fs fs eq K K).
  { unfold K. apply sim_bind_eq.
    - apply (sim_run_interceptors C P (run C n)); [intros; now apply run_sim|exact I|exact Hb].
    - intros out. eapply sim_bind; [apply sim_top|]. intros g g' HF. apply sim_bind_eq; [apply sim_reads, r_mods|]. intros ms.
      rewrite (fr_mods _ _ _ HF). destruct (ms !! m) as [[[nm|] sb]|]; try now apply sim_ret.
      eapply sim_seq; [apply sim_notify|now apply sim_ret]. }
  assert (HR : R P (Level 1 (f_scopes f) s) fs fs (push_module (m, meth) w) (push_module (m, meth) (on_top (set_scopes s) w))).
  { unfold push_module, on_top. rewrite F. cbn [w_frames set_frames]. split.
    - split; cbn; auto.
    - eexists _, _. split; [reflexivity|]. split; [reflexivity|]. split; cbn; auto.
      split; cbn; [lia|]. exists [empty_scope]. auto. }
  specialize (HK _ _ HR). unfold scoped in *. destruct (K (push_module (m, meth) w)) as [x w2].
  assert (HP : exists w2', K (push_module (m, meth) (on_top (set_scopes s) w)) = (x, w2') /\ R P (Level 1 (f_scopes f) s) fs fs w2 w2').
  { unfold post in HK. destruct x as [v|e|].
    - destruct HK as (b & w2' & E2 & <- & H2). eauto.
    - destruct HK as (w2' & E2 & H2). eauto.
    - destruct HK as (w2' & E2 & H2). eauto. }
  destruct HP as (w2' & E2 & HG & h & h' & Fh & Fh' & HF). injection E as <- <-. rewrite E2.
  destruct HF as [P1 P2 P3 P4 P5 P6 (_ & sc & Ls & S1 & S2)]. cbn in Ls, S1, S2.
  destruct sc as [|s0 [|]]; try discriminate. cbn in S1, S2.
  unfold pop_module, on_top. rewrite Fh, Fh'. cbn [w_frames set_frames].
  eexists. split; [reflexivity|]. cbn. rewrite S1. split; [reflexivity|].
  f_equal. destruct HG, w2, w2'; cbn in *. subst. unfold set_frames, set_scopes; cbn.
  rewrite P1, P2, P3, P4, P5, P6, S2. reflexivity.
Qed.
End Call.

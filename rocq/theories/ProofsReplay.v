(** The simulation behind C06: a run of a program during [init] on the left, its
    run during [apply] on the right. The right frame holds from the start the
    parameters [PU] and the initial states [SU] that the left frame ends up with,
    so the simulation is carried out backwards from the final contents of the left
    frame: [Bf f] says that [f] has not collected anything outside [PU], [SU].
    Only successful runs on the left are followed. *)
From stdpp Require Import gmap list strings.
From Coq Require Import String Ascii ZArith Lia.
From Verif Require Import ModelStr ModelRng ModelCore SpecCore SpecReplay ProofsStr ProofsMap ProofsRng ProofsEvolve ProofsRun ProofsOps ProofsModule.
Local Open Scope string_scope.
Local Open Scope list_scope.

Lemma touch_bundle_iff {A} b b' (m : bundles A) : is_Some (touch b' m !! b) <-> b = b' \/ is_Some (m !! b).
Proof.
  unfold touch. destruct (m !! b') eqn:E.
  - split; [auto|]. intros [->|H]; eauto.
  - destruct (decide (b = b')) as [->|N].
    + rewrite lookup_insert. split; eauto.
    + rewrite lookup_insert_ne by congruence. tauto.
Qed.
Lemma insert2_bundle_iff {A} b b' n (v : A) m : is_Some (insert2 b' n v m !! b) <-> b = b' \/ is_Some (m !! b).
Proof.
  unfold insert2. destruct (decide (b = b')) as [->|N].
  - rewrite lookup_insert. split; eauto.
  - rewrite lookup_insert_ne by congruence. tauto.
Qed.
Lemma bind_Ok_inv {A D} (m : M A) (k : A -> M D) w d w1 :
  bindM m k w = (Ok d, w1) -> exists a w2, m w = (Ok a, w2) /\ k a w2 = (Ok d, w1).
Proof. unfold bindM. destruct (m w) as [[a|e|] w2]; try discriminate. eauto. Qed.

(** ** Initializers only touch the current random sequence *)
Definition rand_step (w w' : world) : Prop :=
  exists d r, w' = set_draws d (on_top (set_rng r) w).

Lemma rand_refl w : rand_step w w.
Proof.
  destruct w as [[|f fs] a b c d e g h i]; [exists i, None; reflexivity|].
  exists i, (f_rng f). cbn. destruct f; reflexivity.
Qed.
Lemma rand_trans a b c : rand_step a b -> rand_step b c -> rand_step a c.
Proof.
  intros (d & r & ->) (d' & r' & ->). exists d', r'. destruct a as [[|f fs] ? ? ? ? ? ? ? ?]; reflexivity.
Qed.

Definition randM {A} (m : M A) : Prop := forall w x w', m w = (x, w') -> rand_step w w'.
Lemma rand_ret {A} (a : A) : randM (retM a).
Proof. intros w x w' [= <- <-]. apply rand_refl. Qed.
Lemma rand_throw {A} e : randM (throw e : M A).
Proof. intros w x w' [= <- <-]. apply rand_refl. Qed.
Lemma rand_bind {A B} (m : M A) (k : A -> M B) : randM m -> (forall a, randM (k a)) -> randM (bindM m k).
Proof.
  intros H K w x w'. unfold bindM. destruct (m w) as [[a|e|] w1] eqn:E; intros G.
  - eapply rand_trans; [eapply H; eauto|eapply K; eauto].
  - injection G as <- <-. eapply H; eauto.
  - injection G as <- <-. eapply H; eauto.
Qed.
Lemma rand_top : randM top_frame.
Proof. intros w x w'. unfold top_frame. destruct (w_frames w); intros [= <- <-]; apply rand_refl. Qed.
Lemma rand_reads {A} (g : world -> A) : randM (reads g).
Proof. intros w x w' [= <- <-]. apply rand_refl. Qed.
Lemma rand_set r : randM (modify (on_top (set_rng r))).
Proof.
  intros w x w' [= <- <-]. exists (w_draws w), r. destruct w as [[|f fs] ? ? ? ? ? ? ? ?]; reflexivity.
Qed.
Lemma rand_with_seq {A} (g : rngseq -> option (A * rngseq)) : randM (with_seq g).
Proof.
  unfold with_seq. apply rand_bind; [apply rand_top|]. intros f. destruct (f_rng f); [|apply rand_throw].
  destruct (g r) as [[? ?]|]; [|apply rand_throw]. apply rand_bind; [apply rand_set|]. intros. apply rand_ret.
Qed.
Lemma rand_safe_name m : randM (safe_get_module_name m).
Proof.
  unfold safe_get_module_name. apply rand_bind; [apply rand_reads|]. intros ms.
  destruct (ms !! m) as [[[?|] ?]|]; auto using rand_ret, rand_throw.
Qed.

Lemma run_rand C n : forall p, all_ops init_op p -> randM (run C n p).
Proof.
  induction n as [|n IH]; intros p Hp; cbn [run].
  { intros w x w' [= <- <-]. apply rand_refl. }
  pose proof (all_ops_node _ _ Hp) as Hh. pose proof (fun q => all_ops_child _ _ q Hp) as Hc.
  destruct p; cbn [init_op] in Hh; try contradiction; cbn [step].
  - apply rand_ret.
  - apply rand_throw.
  - apply rand_bind; [apply IH, Hc; cbn; auto|]. intros. apply IH, Hc. cbn. eauto.
  - intros w x w'. destruct (run C n p w) as [[a|e|] w1] eqn:E; intros G.
    + injection G as <- <-. eapply IH; [|eassumption]. apply Hc. cbn. auto.
    + eapply rand_trans; [eapply IH; [|exact E]; apply Hc; cbn; auto|].
      eapply IH; [|exact G]. apply Hc. cbn. eauto.
    + injection G as <- <-. eapply IH; [|eassumption]. apply Hc. cbn. auto.
  - unfold next_rng_key. apply rand_bind; [apply rand_top|]. intros _. apply rand_bind.
    { intros w x w' [= <- <-]. destruct (rand_refl w) as (d & r & E). exists (Datatypes.S (w_draws w)), r.
      rewrite E at 2. destruct w as [[|f fs] ? ? ? ? ? ? ? ?]; reflexivity. }
    intros _. apply rand_bind; [apply rand_with_seq|]. intros. apply rand_ret.
  - unfold next_rng_keys. apply rand_bind; [apply rand_with_seq|]. intros. apply rand_ret.
  - unfold maybe_next_rng_key. apply rand_bind; [apply rand_top|]. intros f. destruct (f_rng f); [|apply rand_ret].
    apply rand_bind; [apply rand_with_seq|]. intros. apply rand_ret.
  - apply rand_with_seq.
  - intros w x w'. unfold bindM, top_frame. destruct (w_frames w) as [|f fs] eqn:Ef.
    { intros [= <- <-]. apply rand_refl. }
    unfold scoped. destruct (run C n p (push_rng (Some (seq_of_key k)) w)) as [y w1] eqn:E. intros [= <- <-].
    apply IH in E; [|apply Hc; cbn; auto]. destruct E as (d & r & ->).
    destruct w as [? ? ? ? ? ? ? ? ?]; cbn in *. subst. exists d, (f_rng f). reflexivity.
  - apply rand_bind; [apply rand_safe_name|]. intros. apply rand_ret.
Qed.

Definition dup (v : val) : val * val := (v, v).

Section Replay.
Variable C : code.
Variable P : prog -> Prop.
Hypothesis P_ok : forall p, P p -> replay_op p.
Hypothesis P_ret : forall v, P (Ret v).
Hypothesis C_id : sound_identity C.
Hypothesis H_fun : forall f a, all_ops P (c_fun C f a).
Hypothesis H_getter : forall g r v ctx, all_ops P (c_getter C g r v ctx).
Hypothesis H_icpt : forall i r a ctx, all_ops P (c_icpt C i r a ctx).
(** What [init] will have collected in the end. *)
Variable PU : bundles val.
Variable SU : bundles val.

Record Bf (f : frame) : Prop := {
  b_pb : forall b, is_Some (f_params f !! b) -> is_Some (PU !! b);
  b_p : forall b n v, v <> VNone -> lookup2 b n (f_params f) = Some v -> lookup2 b n PU = Some v;
  b_sb : forall b, is_Some (f_state f !! b) -> is_Some (SU !! b);
  b_s : forall b n i c, lookup2 b n (f_state f) = Some (i, c) -> lookup2 b n SU = Some i }.
Definition B (w : world) : Prop := match w_frames w with f :: _ => Bf f | [] => False end.

Lemma Bf_back f f' : PT (f_params f) (f_params f') -> STK (fun _ => False) (f_state f) (f_state f') -> Bf f' -> Bf f.
Proof.
  intros [p1 p2 p3] [s1 s2 _] [b1 b2 b3 b4]. split; eauto.
  intros b n i c H. destruct (s2 _ _ _ _ H) as [c' H']. eauto.
Qed.

(** State collected by [apply]: the entries [init] has so far, and the final
    initial values for those it does not have yet. *)
Record SR (s s' : bundles (val * val)) : Prop := {
  s_b : forall b, is_Some (s' !! b) <-> is_Some (SU !! b);
  s_l : forall b n, lookup2 b n s' = match lookup2 b n s with Some p => Some p | None => dup <$> lookup2 b n SU end }.
Lemma SR_fun s a b : SR s a -> SR s b -> a = b.
Proof.
  intros [A1 A2] [B1 B2]. apply bundles_ext.
  - intros k. now rewrite A1, B1.
  - intros k n. now rewrite A2, B2.
Qed.

(** [ix]: the random sequences of the frame on the right, which never change. *)
Definition base : Type := option rngseq * list (option rngseq).
Record FR (ix : base) (f f' : frame) : Prop := {
  fr_frozen : f_frozen f = false;
  fr_frozen' : f_frozen f' = true;
  fr_params' : f_params f' = PU;
  fr_state : SR (f_state f) (f_state f');
  fr_mods : f_mods f' = f_mods f;
  fr_scopes : f_scopes f' = f_scopes f;
  fr_rng : f_rng f' = fst ix;
  fr_rngs : f_rngs f' = snd ix }.
Record GR (w w' : world) : Prop := {
  r_pcreate : w_pcreate w = [];
  r_screate : w_screate w = [];
  r_pget : w_pget w' = w_pget w;
  r_sget : w_sget w' = w_sget w;
  r_icpt : w_icpt w' = w_icpt w;
  r_mods : w_mods w' = w_mods w;
  r_nexts : w_nexts w' = w_nexts w;
  r_heap : heap_ok P w }.
Definition R (ix : base) (o o' : list frame) (w w' : world) : Prop :=
  GR w w' /\ exists f f', w_frames w = f :: o /\ w_frames w' = f' :: o' /\ FR ix f f'.

Definition sim {A A'} ix o o' (RA : A -> A' -> Prop) (m : M A) (m' : M A') : Prop :=
  forall w w' a w1, R ix o o' w w' -> m w = (Ok a, w1) -> B w1 ->
    exists a' w1', m' w' = (Ok a', w1') /\ RA a a' /\ R ix o o' w1 w1'.

(** The same without looking at what is collected later. *)
Definition sim0 {A A'} ix o o' (RA : A -> A' -> Prop) (m : M A) (m' : M A') : Prop :=
  forall w w' a w1, R ix o o' w w' -> m w = (Ok a, w1) ->
    exists a' w1', m' w' = (Ok a', w1') /\ RA a a' /\ R ix o o' w1 w1'.

(** Backwards: what was collected before was collected after. *)
Definition bk (w w1 : world) : Prop :=
  match w_frames w, w_frames w1 with
  | f :: fs, f1 :: fs1 => fs1 = fs /\ (Bf f1 -> Bf f)
  | [], [] => True
  | _, _ => False
  end.
Lemma bk_refl w : bk w w.
Proof. unfold bk. destruct (w_frames w); auto. Qed.
Lemma bk_trans a b c : bk a b -> bk b c -> bk a c.
Proof.
  unfold bk. destruct (w_frames a), (w_frames b), (w_frames c); try tauto. intros [-> H1] [-> H2]. auto.
Qed.
Lemma bk_B w w1 : bk w w1 -> B w1 -> B w.
Proof. unfold bk, B. destruct (w_frames w), (w_frames w1); tauto. Qed.
Definition back {A} (m : M A) : Prop := forall w x w1, m w = (x, w1) -> bk w w1.
Lemma back_ret {A} (a : A) : back (retM a).
Proof. intros w x w1 [= <- <-]. apply bk_refl. Qed.
Lemma back_throw {A} e : back (throw e : M A).
Proof. intros w x w1 [= <- <-]. apply bk_refl. Qed.
Lemma back_reads {A} (g : world -> A) : back (reads g).
Proof. intros w x w1 [= <- <-]. apply bk_refl. Qed.
Lemma back_top : back top_frame.
Proof. intros w x w1. unfold top_frame. destruct (w_frames w); intros [= <- <-]; apply bk_refl. Qed.
Lemma back_bind {A D} (m : M A) (k : A -> M D) : back m -> (forall a, back (k a)) -> back (bindM m k).
Proof.
  intros H K w x w1. unfold bindM. destruct (m w) as [[a|e|] w2] eqn:E; intros G.
  - eapply bk_trans; [eapply H; eauto|eapply K; eauto].
  - injection G as <- <-. eauto.
  - injection G as <- <-. eauto.
Qed.
Lemma bk_on_top g w : (forall f, Bf (g f) -> Bf f) -> bk w (on_top g w).
Proof. intros H. unfold bk, on_top. destruct (w_frames w) eqn:E; cbn; [now rewrite E|]. auto. Qed.
Lemma back_on_top g : (forall f, Bf (g f) -> Bf f) -> back (modify (on_top g)).
Proof. intros H w x w1 [= <- <-]. now apply bk_on_top. Qed.
Lemma back_frames (g : world -> world) : (forall w, w_frames (g w) = w_frames w) -> back (modify g).
Proof. intros H w x w1 [= <- <-]. unfold bk. rewrite H. destruct (w_frames w); auto. Qed.
Lemma back_scoped {A} push pop (m : M A) :
  (forall w, bk w (push w)) -> (forall w, bk w (pop w)) -> back m -> back (scoped push pop m).
Proof.
  intros H1 H2 H w x w1. unfold scoped. destruct (m (push w)) as [y w2] eqn:E. intros [= <- <-].
  eapply bk_trans; [apply H1|]. eapply bk_trans; [eapply H; eauto|apply H2].
Qed.
Lemma Bf_same f f' : f_params f' = f_params f -> f_state f' = f_state f -> Bf f' -> Bf f.
Proof. intros E1 E2 []. rewrite E1, E2 in *. split; auto. Qed.
Lemma Bf_touch_p b f : Bf (set_params (touch b (f_params f)) f) -> Bf f.
Proof.
  apply Bf_back; [|apply ST_refl]. cbn. split; [intros; now apply touch_bundle| |]; intros; now rewrite lookup2_touch.
Qed.
Lemma Bf_touch_s b f : Bf (set_fstate (touch b (f_state f)) f) -> Bf f.
Proof.
  apply Bf_back; [apply PT_refl|]. cbn. split; [intros; now apply touch_bundle| |]; intros; rewrite lookup2_touch; eauto.
Qed.

Lemma sim_conseq {A A'} ix o o' (RA RB : A -> A' -> Prop) m m' :
  sim ix o o' RA m m' -> (forall a b, RA a b -> RB a b) -> sim ix o o' RB m m'.
Proof. intros H K w w' a w1 HR E HB. destruct (H _ _ _ _ HR E HB) as (a' & w1' & ? & ? & ?). eauto 6. Qed.
Lemma sim_ret {A A'} ix o o' (RA : A -> A' -> Prop) a b : RA a b -> sim ix o o' RA (retM a) (retM b).
Proof. intros H w w' x w1 HR [= <- <-] _. cbn. eauto. Qed.
Lemma sim_throw {A A'} ix o o' (RA : A -> A' -> Prop) e m' : sim ix o o' RA (throw e) m'.
Proof. intros w w' x w1 HR [=]. Qed.
Lemma sim_bind {A A' D D'} ix o o' (RA : A -> A' -> Prop) (RB : D -> D' -> Prop) m m' k k' :
  sim ix o o' RA m m' -> (forall a, back (k a)) -> (forall a a', RA a a' -> sim ix o o' RB (k a) (k' a')) ->
  sim ix o o' RB (bindM m k) (bindM m' k').
Proof.
  intros H Hk K w w' a w1 HR E HB. unfold bindM in *. destruct (m w) as [[x|e|] w2] eqn:Em; try discriminate.
  pose proof (bk_B _ _ (Hk _ _ _ _ E) HB) as HB2.
  destruct (H _ _ _ _ HR Em HB2) as (x' & w2' & E' & HRA & HR2). rewrite E'.
  eapply K; eauto.
Qed.
Lemma sim_bind_eq {A D D'} ix o o' (RB : D -> D' -> Prop) (m m' : M A) k k' :
  sim ix o o' eq m m' -> (forall a, back (k a)) -> (forall a, sim ix o o' RB (k a) (k' a)) ->
  sim ix o o' RB (bindM m k) (bindM m' k').
Proof. intros H Hk K. eapply sim_bind; eauto. intros a _ <-. apply K. Qed.
Lemma sim_reads {A} ix o o' (g : world -> A) :
  (forall w w', GR w w' -> g w' = g w) -> sim0 ix o o' eq (reads g) (reads g).
Proof. intros H w w' a w1 HR [= <- <-]. cbn. do 2 eexists. split; [reflexivity|]. split; [symmetry; apply H, HR|assumption]. Qed.
Lemma sim_modify ix o o' g g' :
  (forall w w', R ix o o' w w' -> B (g w) -> R ix o o' (g w) (g' w')) -> sim ix o o' eq (modify g) (modify g').
Proof. intros H w w' a w1 HR [= <- <-] HB. exists tt, (g' w'). auto. Qed.
Lemma GR_frames w w' fs fs' : GR w w' -> GR (set_frames fs w) (set_frames fs' w').
Proof. intros []. destruct w, w'; cbn in *. split; cbn; auto. Qed.
Lemma GR_left w w' fs : GR w w' -> GR (set_frames fs w) w'.
Proof. intros []. destruct w, w'; cbn in *. split; cbn; auto. Qed.
Lemma R_on_top ix jx o o' g g' w w' :
  (forall f f', FR ix f f' -> Bf (g f) -> FR jx (g f) (g' f')) -> R ix o o' w w' -> B (on_top g w) ->
  R jx o o' (on_top g w) (on_top g' w').
Proof.
  intros H [HG (f & f' & E & E' & HF)]. unfold on_top, B. rewrite E, E'. cbn. intros HB. split; [now apply GR_frames|].
  cbn. eauto 8.
Qed.
Lemma sim_on_top ix o o' g g' :
  (forall f f', FR ix f f' -> Bf (g f) -> FR ix (g f) (g' f')) -> sim ix o o' eq (modify (on_top g)) (modify (on_top g')).
Proof. intros H. apply sim_modify. intros w w'. now apply R_on_top. Qed.
Lemma sim_top ix o o' : sim0 ix o o' (FR ix) top_frame top_frame.
Proof.
  intros w w' a w1 [HG (f & f' & E & E' & HF)]. unfold top_frame. rewrite E, E'. intros [= <- <-].
  do 2 eexists. split; [reflexivity|]. split; [eassumption|]. split; eauto.
Qed.
Lemma sim_scoped {A A'} ix jx o o' (RA : A -> A' -> Prop) push pop (m : M A) (m' : M A') :
  (forall w w', R ix o o' w w' -> R jx o o' (push w) (push w')) ->
  (forall w, bk w (pop w)) ->
  (forall w w', R jx o o' w w' -> R ix o o' (pop w) (pop w')) ->
  sim jx o o' RA m m' -> sim ix o o' RA (scoped push pop m) (scoped push pop m').
Proof.
  intros H1 Hb H2 H w w' a w1 HR. unfold scoped. destruct (m (push w)) as [y w2] eqn:E. intros [= -> <-] HB.
  pose proof (bk_B _ _ (Hb _) HB) as HB2.
  destruct (H _ _ _ _ (H1 _ _ HR) E HB2) as (a' & w2' & -> & HA & HR2). eauto 6.
Qed.

Lemma sim0_sim {A A'} ix o o' (RA : A -> A' -> Prop) (m : M A) (m' : M A') : sim0 ix o o' RA m m' -> sim ix o o' RA m m'.
Proof. intros H w w' a w1 HR G _. eauto. Qed.
Lemma sim0_ret {A A'} ix o o' (RA : A -> A' -> Prop) a b : RA a b -> sim0 ix o o' RA (retM a) (retM b).
Proof. intros H w w' x w1 HR [= <- <-]. cbn. eauto. Qed.
Lemma sim0_throw {A A'} ix o o' (RA : A -> A' -> Prop) e m' : sim0 ix o o' RA (throw e) m'.
Proof. intros w w' x w1 HR [=]. Qed.
Lemma sim0_bind {A A' D D'} ix o o' (RA : A -> A' -> Prop) (RB : D -> D' -> Prop) m m' k k' :
  sim0 ix o o' RA m m' -> (forall a a', RA a a' -> sim0 ix o o' RB (k a) (k' a')) ->
  sim0 ix o o' RB (bindM m k) (bindM m' k').
Proof.
  intros H K w w' a w1 HR E. destruct (bind_Ok_inv _ _ _ _ _ E) as (x & w2 & E1 & E2).
  destruct (H _ _ _ _ HR E1) as (x' & w2' & E' & HRA & HR2). unfold bindM. rewrite E'. eapply K; eauto.
Qed.
Lemma sim_bind0 {A A' D D'} ix o o' (RA : A -> A' -> Prop) (RB : D -> D' -> Prop) m m' k k' :
  sim0 ix o o' RA m m' -> (forall a a', RA a a' -> sim ix o o' RB (k a) (k' a')) ->
  sim ix o o' RB (bindM m k) (bindM m' k').
Proof.
  intros H K w w' a w1 HR E HB. destruct (bind_Ok_inv _ _ _ _ _ E) as (x & w2 & E1 & E2).
  destruct (H _ _ _ _ HR E1) as (x' & w2' & E' & HRA & HR2). unfold bindM. rewrite E'. eapply K; eauto.
Qed.
Lemma sim0_bind_eq {A D D'} ix o o' (RB : D -> D' -> Prop) (m m' : M A) k k' :
  sim0 ix o o' eq m m' -> (forall a, sim0 ix o o' RB (k a) (k' a)) -> sim0 ix o o' RB (bindM m k) (bindM m' k').
Proof. intros H K. eapply sim0_bind; eauto. intros a _ <-. apply K. Qed.
Lemma sim_bind0_eq {A D D'} ix o o' (RB : D -> D' -> Prop) (m m' : M A) k k' :
  sim0 ix o o' eq m m' -> (forall a, sim ix o o' RB (k a) (k' a)) -> sim ix o o' RB (bindM m k) (bindM m' k').
Proof. intros H K. eapply sim_bind0; eauto. intros a _ <-. apply K. Qed.
Lemma sim0_modify ix o o' g g' :
  (forall w w', R ix o o' w w' -> R ix o o' (g w) (g' w')) -> sim0 ix o o' eq (modify g) (modify g').
Proof. intros H w w' a w1 HR [= <- <-]. exists tt, (g' w'). auto. Qed.
Lemma R_on_top0 ix jx o o' g g' w w' :
  (forall f f', FR ix f f' -> FR jx (g f) (g' f')) -> R ix o o' w w' -> R jx o o' (on_top g w) (on_top g' w').
Proof.
  intros H [HG (f & f' & E & E' & HF)]. unfold on_top. rewrite E, E'. split; [now apply GR_frames|].
  cbn. eauto 8.
Qed.

Variable rn : prog -> M val.
Hypothesis Hrn : forall p ix o o', all_ops P p -> sim ix o o' eq (rn p) (rn p).
Hypothesis Hback : forall p, back (rn p).
Hypothesis Hrand : forall i sh dt, randM (rn (c_init C i sh dt)).
Hypothesis Hnone : forall i sh dt w w', rn (c_init C i sh dt) w <> (Ok VNone, w').

Hint Resolve back_ret back_throw back_reads back_top : bk.

Lemma sim_safe_name ix o o' m : sim0 ix o o' eq (safe_get_module_name m) (safe_get_module_name m).
Proof.
  unfold safe_get_module_name. apply sim0_bind_eq; [apply sim_reads; apply r_mods|].
  intros ms. destruct (ms !! m) as [[[n|] s]|]; auto using sim0_ret, sim0_throw.
Qed.
Lemma back_safe_name m : back (safe_get_module_name m).
Proof. unfold safe_get_module_name. apply back_bind; auto with bk. intros ms. destruct (ms !! m) as [[[n|] s]|]; auto with bk. Qed.
Lemma back_bundle_name : back current_bundle_name.
Proof. unfold current_bundle_name. apply back_bind; auto with bk. intros f. destruct (f_mods f) as [|[]]; auto using back_safe_name with bk. Qed.
Lemma sim_bundle_name ix o o' : sim0 ix o o' eq current_bundle_name current_bundle_name.
Proof.
  unfold current_bundle_name. eapply sim0_bind; [apply sim_top|].
  intros f f' HF. rewrite (fr_mods _ _ _ HF).
  destruct (f_mods f) as [|[m meth] ?]; [now apply sim0_ret|apply sim_safe_name].
Qed.

Lemma R_nexts ix o o' w w' ns : R ix o o' w w' -> Forall (next_ok P) ns -> R ix o o' (set_nexts ns w) (set_nexts ns w').
Proof. intros [[] HF] H. destruct w, w'; cbn in *. split; [split; cbn; auto|assumption]. Qed.
Lemma B_nexts ns w : B (set_nexts ns w) <-> B w.
Proof. now destruct w. Qed.
Lemma back_set_nexts ns : back (modify (set_nexts ns)).
Proof. apply back_frames. now intros []. Qed.
Lemma back_set_mods ns : back (modify (set_mods ns)).
Proof. apply back_frames. now intros []. Qed.
Lemma back_alloc ob : back (alloc_next ob).
Proof. unfold alloc_next. apply back_bind; auto with bk. intros. apply back_bind; auto using back_set_nexts with bk. Qed.
Hint Resolve back_safe_name back_bundle_name back_set_nexts back_set_mods back_alloc : bk.

Lemma sim_alloc ix o o' ob : next_ok P ob -> sim0 ix o o' eq (alloc_next ob) (alloc_next ob).
Proof.
  intros H w w' a w1 HR. unfold alloc_next, bindM, reads, modify, retM. intros [= <- <-].
  rewrite (r_nexts _ _ (proj1 HR)). do 2 eexists. split; [reflexivity|]. split; [reflexivity|].
  apply R_nexts; [assumption|]. apply Forall_app. split; [apply (r_heap _ _ (proj1 HR))|]. auto.
Qed.
(** Popping a [next] closure. *)
Lemma sim_pop_next ix o o' r ob ob' (k : M val) w w' a w1 :
  R ix o o' w w' -> w_nexts w !! r = Some ob -> (next_ok P ob -> next_ok P ob') ->
  sim ix o o' eq k k ->
  (modify (set_nexts (<[r := ob']> (w_nexts w))) ;;; k) w = (Ok a, w1) -> B w1 ->
  exists a' w1', (modify (set_nexts (<[r := ob']> (w_nexts w))) ;;; k) w' = (Ok a', w1') /\ a = a' /\ R ix o o' w1 w1'.
Proof.
  intros HR E H Hk. unfold bindM, modify. apply Hk. apply R_nexts; [assumption|].
  pose proof (r_heap _ _ (proj1 HR)) as Hh. unfold heap_ok in Hh. apply Forall_insert; [assumption|].
  apply H. rewrite Forall_lookup in Hh. eauto.
Qed.
Lemma sim_next_get ix o o' r v : sim ix o o' eq (next_get C rn r v) (next_get C rn r v).
Proof.
  intros w w' a w1 HR. unfold next_get. unfold bindM at 1, reads at 1. unfold bindM at 2, reads at 1.
  rewrite (r_nexts _ _ (proj1 HR)). destruct (w_nexts w !! r) as [[|[|c rest] ctx|]|] eqn:E; try discriminate.
  - intros [= <- <-] _. cbn. eauto.
  - intros G HB. eapply sim_pop_next; eauto.
Qed.
Lemma back_next_get r v : back (next_get C rn r v).
Proof.
  unfold next_get. apply back_bind; auto with bk. intros ns. destruct (ns !! r) as [[|[|c rest] ctx|]|]; auto with bk.
  apply back_bind; auto with bk.
Qed.
Lemma back_run_getters s ctx v : back (run_getters C rn s ctx v).
Proof. unfold run_getters. destruct s; auto with bk. apply back_bind; auto using back_next_get with bk. Qed.
Lemma sim_run_getters ix o o' s ctx v : sim ix o o' eq (run_getters C rn s ctx v) (run_getters C rn s ctx v).
Proof.
  unfold run_getters. destruct s; [now apply sim_ret|].
  apply sim_bind0_eq; [now apply sim_alloc|]. intros. apply sim_next_get.
Qed.
Hint Resolve back_next_get back_run_getters : bk.

Lemma FR_set_scopes ix f f' s : FR ix f f' -> FR ix (set_scopes s f) (set_scopes s f').
Proof. intros []. split; auto. Qed.

Definition sim_at {A A'} ix o o' f f' (RA : A -> A' -> Prop) (m : M A) (m' : M A') : Prop :=
  forall w w' a w1, GR w w' -> w_frames w = f :: o -> w_frames w' = f' :: o' -> m w = (Ok a, w1) -> B w1 ->
    exists a' w1', m' w' = (Ok a', w1') /\ RA a a' /\ R ix o o' w1 w1'.
Lemma sim_open {A A'} ix o o' (RA : A -> A' -> Prop) m m' :
  (forall f f', FR ix f f' -> sim_at ix o o' f f' RA m m') -> sim ix o o' RA m m'.
Proof. intros H w w' a w1 [HG (f & f' & E & E' & HF)] G HB. eapply (H f f' HF); eauto. Qed.
Lemma sim_at_top {A A'} ix o o' f f' (RA : A -> A' -> Prop) k k' :
  sim_at ix o o' f f' RA (k f) (k' f') -> sim_at ix o o' f f' RA (bindM top_frame k) (bindM top_frame k').
Proof. intros H w w' a w1 HG E E'. unfold bindM, top_frame. rewrite E, E'. cbn. now apply H. Qed.
Lemma sim_at_modify {A A'} ix o o' f f' (RA : A -> A' -> Prop) g g' k k' :
  sim_at ix o o' (g f) (g' f') RA k k' ->
  sim_at ix o o' f f' RA (modify (on_top g) ;;; k) (modify (on_top g') ;;; k').
Proof.
  intros H w w' a w1 HG E E' G HB. unfold bindM, modify, on_top in *. rewrite E in G. rewrite E'.
  exact (H _ _ _ _ (GR_frames _ _ _ _ HG) eq_refl eq_refl G HB).
Qed.
Lemma sim_at_bind {A A' D D'} ix o o' f f' (RA : A -> A' -> Prop) (RB : D -> D' -> Prop) m m' k k' :
  sim_at ix o o' f f' RA m m' -> (forall a, back (k a)) -> (forall a a', RA a a' -> sim ix o o' RB (k a) (k' a')) ->
  sim_at ix o o' f f' RB (bindM m k) (bindM m' k').
Proof.
  intros H Hk K w w' a w1 HG E E' G HB. destruct (bind_Ok_inv _ _ _ _ _ G) as (x & w2 & G1 & G2).
  pose proof (bk_B _ _ (Hk _ _ _ _ G2) HB) as HB2.
  destruct (H _ _ _ _ HG E E' G1 HB2) as (x' & w2' & E2 & HRA & HR2).
  unfold bindM. rewrite E2. eapply K; eauto.
Qed.

(** The right already has what the left creates. *)
Lemma GR_rand w w' w1 : GR w w' -> rand_step w w1 -> GR w1 w'.
Proof. intros [] (d & r & ->). destruct w as [[|f fs] ? ? ? ? ? ? ? ?]; cbn in *; split; cbn; auto. Qed.
Lemma frames_rand w w1 f o : w_frames w = f :: o -> rand_step w w1 -> exists r, w_frames w1 = set_rng r f :: o.
Proof. intros E (d & r & ->). exists r. destruct w; cbn in *. rewrite E. reflexivity. Qed.

Lemma sim_at_param ix o o' f f' p b n sh dt i ctx (e : exn) :
  FR ix f f' -> is_Some (f_params f !! b) -> (forall b n, lookup2 b n p = lookup2 b n (f_params f)) ->
  sim_at ix o o' f f' eq
    (match not_none (lookup2 b n p) with
     | Some v => retM v
     | None => let! stack := reads w_pcreate in
               let! v := run_creators C rn stack ctx sh dt i in
               modify (on_top (fun f => set_params (insert2 b n v (f_params f)) f)) ;;; retM v
     end)
    (match not_none (lookup2 b n PU) with Some v => retM v | None => throw e end).
Proof.
  intros HF Hb Hp w w' a w1 HG E E' G HB. rewrite Hp in G.
  destruct (not_none (lookup2 b n (f_params f))) as [v|] eqn:Ev.
  - injection G as <- <-. unfold B in HB. rewrite E in HB.
    assert (Hv : lookup2 b n (f_params f) = Some v /\ v <> VNone).
    { destruct (lookup2 b n (f_params f)) as [[]|]; cbn in Ev; try discriminate; injection Ev as <-; split; congruence. }
    destruct Hv as [Hv Hn]. rewrite (b_p _ HB _ _ _ Hn Hv).
    assert (Hx : not_none (Some v) = Some v) by (destruct v; cbn; congruence). rewrite Hx.
    do 2 eexists. split; [reflexivity|]. split; [reflexivity|]. split; eauto.
  - unfold bindM at 1, reads at 1 in G. rewrite (r_pcreate _ _ HG) in G. cbn [run_creators] in G.
    destruct (bind_Ok_inv _ _ _ _ _ G) as (v & w2 & G1 & G2).
    pose proof (Hnone i sh dt w w2) as Hn. rewrite G1 in Hn. assert (Hv : v <> VNone) by congruence. clear Hn.
    pose proof (Hrand _ _ _ _ _ _ G1) as Hr. pose proof (GR_rand _ _ _ HG Hr) as HG2.
    destruct (frames_rand _ _ _ _ E Hr) as [r Er].
    unfold bindM, modify, on_top, retM in G2. rewrite Er in G2. injection G2 as <- <-.
    unfold B in HB. cbn in HB.
    assert (HP : lookup2 b n PU = Some v).
    { apply (b_p _ HB _ _ _ Hv). cbn. apply lookup2_insert2_eq. }
    rewrite HP. assert (Hx : not_none (Some v) = Some v) by (destruct v; cbn; congruence). rewrite Hx.
    do 2 eexists. split; [reflexivity|]. split; [reflexivity|]. split.
    + now apply GR_left.
    + cbn. do 2 eexists. split; [reflexivity|]. split; [exact E'|]. destruct HF. split; auto.
Qed.

Lemma param_bundle f b n p sh dt i ctx w w' o v w1 : GR w w' ->
  w_frames w = f :: o -> is_Some (f_params f !! b) ->
  (match not_none (lookup2 b n p) with
     | Some v => retM v
     | None => let! stack := reads w_pcreate in
               let! v := run_creators C rn stack ctx sh dt i in
               modify (on_top (fun f => set_params (insert2 b n v (f_params f)) f)) ;;; retM v
     end) w = (Ok v, w1) -> B w1 -> is_Some (PU !! b).
Proof.
  intros HG E Hb G HB. destruct (not_none _) as [x|].
  - injection G as <- <-. unfold B in HB. rewrite E in HB. now apply (b_pb _ HB).
  - unfold bindM at 1, reads at 1 in G. rewrite (r_pcreate _ _ HG) in G. cbn [run_creators] in G.
    destruct (bind_Ok_inv _ _ _ _ _ G) as (u & w2 & G1 & G2).
    destruct (frames_rand _ _ _ _ E (Hrand _ _ _ _ _ _ G1)) as [r Er].
    unfold bindM, modify, on_top, retM in G2. rewrite Er in G2. injection G2 as <- <-.
    apply (b_pb _ HB). cbn. apply insert2_bundle_iff. auto.
Qed.

Lemma sim_get_parameter ix o o' n sh dt i : sim ix o o' eq (get_parameter C rn n sh dt i) (get_parameter C rn n sh dt i).
Proof.
  assert (HK : forall v fq ctx, back (let! gs := reads w_pget in
      let! v := run_getters C rn gs ctx v in
      match vshape v with None => throw EAttr
      | Some s => if bool_decide (s = sh) then retM v else throw (EShape fq) end)).
  { intros v fq ctx. apply back_bind; auto with bk. intros. apply back_bind; auto with bk. intros u.
    destruct (vshape u); auto with bk. destruct (bool_decide _); auto with bk. }
  unfold get_parameter. eapply sim_bind0; [apply sim_top|].
  intros _ _ _. destruct i as [i|]; [|apply sim_throw].
  apply sim_bind0_eq; [apply sim_bundle_name|].
  intros b. apply sim_open. intros f f' HF. apply sim_at_top.
  rewrite (fr_frozen _ _ _ HF), (fr_frozen' _ _ _ HF), (fr_params' _ _ _ HF). cbn [andb].
  assert (HM : current_module f' = current_module f) by (unfold current_module; now rewrite (fr_mods _ _ _ HF)).
  rewrite HM.
  destruct (decide (is_Some (PU !! b))) as [Hb|Hb]; [rewrite (bool_decide_true _ Hb)|rewrite (bool_decide_false _ Hb)]; cbn [negb].
  - apply sim_at_modify.
    assert (HF2 : FR ix (if f_frozen f then f else set_params (touch b (f_params f)) f) (if f_frozen f' then f' else set_params (touch b (f_params f')) f')).
    { rewrite (fr_frozen _ _ _ HF), (fr_frozen' _ _ _ HF). destruct HF. split; auto. }
    rewrite (fr_frozen _ _ _ HF) in *. cbv zeta.
    eapply sim_at_bind; [|intros; apply HK|].
    + apply (sim_at_param _ _ _ _ _ (f_params f) b n sh dt i _ (ENoParam b n) HF2); cbn.
      * apply touch_bundle_iff. auto.
      * intros. now rewrite lookup2_touch.
    + intros v _ <-. apply sim_bind0_eq; [apply sim_reads, r_pget|]. intros gs.
      apply sim_bind_eq; [apply sim_run_getters| |].
      * intros u. destruct (vshape u); auto with bk. destruct (bool_decide _); auto with bk.
      * intros v'. destruct (vshape v'); [|apply sim_throw]. destruct (bool_decide _); [now apply sim_ret|apply sim_throw].
  - (* the left leaves a bundle that the right does not have *)
    intros w w' a w1 HG E E' G HB. exfalso. apply Hb. unfold bindM at 1, modify at 1 in G.
    destruct (bind_Ok_inv _ _ _ _ _ G) as (v & w2 & G1 & G2).
    pose proof (bk_B _ _ (HK _ _ _ _ _ _ G2) HB) as HB2. unfold on_top in G1. rewrite E, (fr_frozen _ _ _ HF) in G1.
    refine (param_bundle _ b n _ sh dt i _ _ w' o _ _ _ _ _ G1 HB2); [now apply GR_left|reflexivity|].
    cbn. apply touch_bundle_iff. auto.
Qed.

Lemma SR_touch b s s' : is_Some (SU !! b) -> SR s s' -> SR (touch b s) (touch b s').
Proof.
  intros Hb [H1 H2]. split.
  - intros k. rewrite touch_bundle_iff, H1. split; [intros [->|]|]; auto.
  - intros k n. rewrite !lookup2_touch. apply H2.
Qed.
Lemma SR_insert b n v s s' : lookup2 b n s = None -> lookup2 b n SU = Some v -> SR s s' -> SR (insert2 b n (v, v) s) s'.
Proof.
  intros Hn Hv [H1 H2]. split; [assumption|]. intros k m. rewrite H2.
  destruct (decide (k = b)) as [->|N]; [destruct (decide (m = n)) as [->|N]|].
  - rewrite lookup2_insert2_eq, Hn, Hv. reflexivity.
  - rewrite lookup2_insert2_ne by (intros []; congruence). reflexivity.
  - rewrite lookup2_insert2_ne by (intros []; congruence). reflexivity.
Qed.

Lemma sim_get_state ix o o' n sh dt i : sim ix o o' eq (get_state C rn n sh dt i) (get_state C rn n sh dt i).
Proof.
  assert (HK : forall v ctx, back (let! gs := reads w_sget in run_getters C rn gs ctx v)).
  { intros v ctx. apply back_bind; auto with bk. }
  unfold get_state. apply sim_bind0_eq; [apply sim_bundle_name|]. intros b.
  apply sim_open. intros f f' HF. apply sim_at_top.
  assert (HM : current_module f' = current_module f) by (unfold current_module; now rewrite (fr_mods _ _ _ HF)).
  rewrite HM. intros w w' a w1 HG E E' G HB.
  unfold bindM at 1, modify at 1 in G. unfold bindM at 1, modify at 1.
  assert (Eo : forall w f o, w_frames w = f :: o ->
    on_top (fun f => set_fstate (touch b (f_state f)) f) w = set_frames (set_fstate (touch b (f_state f)) f :: o) w).
  { intros x h l Ex. unfold on_top. now rewrite Ex. }
  rewrite (Eo _ _ _ E) in G. rewrite (Eo _ _ _ E').
  set (g := set_fstate (touch b (f_state f)) f) in *. set (g' := set_fstate (touch b (f_state f')) f') in *.
  destruct (bind_Ok_inv _ _ _ _ _ G) as (v & w2 & G1 & G2).
  pose proof (bk_B _ _ (HK _ _ _ _ _ G2) HB) as HB2. cbv zeta.
  set (ctx := GCtx _ _ _ _) in *.
  cut (exists w2', match lookup2 b n (f_state f') with
     | Some (_, cur) => retM cur
     | None => match i with
        | None => throw (ENoState b n)
        | Some i0 => match sh with
            | Some sh0 => match dt with
                | Some dt0 => let! stack := reads w_screate in
                    let! v := run_creators C rn stack ctx sh0 dt0 i0 in
                    modify (on_top (fun f => set_fstate (insert2 b n (v, v) (f_state f)) f)) ;;; retM v
                | None => throw (ENoStateShape b n)
                end
            | None => throw (ENoStateShape b n)
            end
        end
     end (set_frames (g' :: o') w') = (Ok v, w2') /\ R ix o o' w2 w2').
  { intros (w2' & Eq & HR2). unfold bindM at 1. rewrite Eq.
    refine (sim_bind0_eq _ _ _ _ _ _ _ _ _ _ _ _ _ _ HR2 G2 HB); [apply sim_reads, r_sget|].
    intros gs. apply sim_run_getters. }
  assert (Hgo : forall r, is_Some (SU !! b) -> FR ix (set_rng r g) g').
  { intros r Hb. subst g g'. destruct HF. split; auto. cbn. now apply SR_touch. }
  destruct (lookup2 b n (f_state f)) as [[x cur]|] eqn:El.
  - injection G1 as <- <-. rewrite (s_l _ _ (fr_state _ _ _ HF)), El. eexists. split; [reflexivity|].
    split; [now apply GR_frames|]. cbn. do 2 eexists. split; [reflexivity|]. split; [reflexivity|].
    replace g with (set_rng (f_rng f) g) by (subst g; now destruct f). apply Hgo.
    apply (b_sb _ HB2). subst g. cbn. apply touch_bundle_iff. auto.
  - destruct i as [i|]; [|discriminate]. destruct sh as [sh|]; [|discriminate]. destruct dt as [dt|]; [|discriminate].
    unfold bindM at 1, reads at 1 in G1.
    assert (Es : w_screate (set_frames (g :: o) w) = []) by apply (r_screate _ _ HG). rewrite Es in G1. cbn [run_creators] in G1.
    destruct (bind_Ok_inv _ _ _ _ _ G1) as (u & w3 & G3 & G4).
    pose proof (Hrand _ _ _ _ _ _ G3) as Hr. pose proof (GR_rand _ _ _ (GR_frames _ _ (g :: o) (g' :: o') HG) Hr) as HG3.
    destruct (frames_rand (set_frames (g :: o) w) _ g o eq_refl Hr) as [r Er].
    unfold bindM, modify, on_top, retM in G4. rewrite Er in G4. injection G4 as <- <-.
    unfold B in HB2. cbn in HB2.
    assert (HS : lookup2 b n SU = Some u).
    { apply (b_s _ HB2 b n u u). cbn. apply lookup2_insert2_eq. }
    assert (Hb : is_Some (SU !! b)).
    { apply (b_sb _ HB2). cbn. apply insert2_bundle_iff. auto. }
    rewrite (s_l _ _ (fr_state _ _ _ HF)), El, HS. cbn. eexists. split; [reflexivity|].
    split; [now apply GR_left|]. cbn. do 2 eexists. split; [reflexivity|]. split; [reflexivity|].
    destruct (Hgo r Hb). split; auto. cbn. apply SR_insert; auto. now rewrite lookup2_touch.
Qed.

Lemma sim_set_state ix o o' n v : sim ix o o' eq (set_state n v) (set_state n v).
Proof.
  unfold set_state. apply sim_bind0_eq; [apply sim_bundle_name|]. intros b.
  apply sim_bind_eq; [|auto with bk|intros; now apply sim_ret].
  apply sim_on_top. intros g g' HG HB. destruct HG. split; auto. cbn.
  assert (Hb : is_Some (SU !! b)) by (apply (b_sb _ HB); cbn; apply insert2_bundle_iff; auto).
  set (i := match lookup2 b n (f_state g) with Some (i, _) => i | None => v end) in *.
  assert (Hi : lookup2 b n SU = Some i).
  { apply (b_s _ HB b n i v). cbn. apply lookup2_insert2_eq. }
  assert (Hi' : match lookup2 b n (f_state g') with Some (i, _) => i | None => v end = i).
  { rewrite (s_l _ _ fr_state0), Hi. subst i. destruct (lookup2 b n (f_state g)) as [[? ?]|]; reflexivity. }
  rewrite Hi'. destruct fr_state0 as [H1 H2]. split.
  - intros k. rewrite insert2_bundle_iff, H1. split; [intros [->|]|]; auto.
  - intros k m. destruct (decide (k = b)) as [->|N]; [destruct (decide (m = n)) as [->|N]|].
    + now rewrite !lookup2_insert2_eq.
    + rewrite !lookup2_insert2_ne by (intros []; congruence). apply H2.
    + rewrite !lookup2_insert2_ne by (intros []; congruence). apply H2.
Qed.

Lemma sim_with_rng ix o o' k p : all_ops P p ->
  sim ix o o' eq (scoped (push_rng (Some (seq_of_key k))) pop_rng (rn p)) (scoped (push_rng (Some (seq_of_key k))) pop_rng (rn p)).
Proof.
  intros Hp. apply (sim_scoped ix (Some (seq_of_key k), fst ix :: snd ix)).
  - intros w w'. unfold push_rng. apply R_on_top0. intros f f' []. split; cbn; auto. congruence.
  - intros w. apply bk_on_top. intros f. destruct (f_rngs f); [auto|]. apply Bf_same; reflexivity.
  - intros w w'. unfold pop_rng. apply R_on_top0. intros f f' []. rewrite fr_rngs0. cbn [snd].
    destruct (f_rngs f); split; cbn; auto.
  - now apply Hrn.
Qed.
Lemma bk_frames (g : world -> world) w : (forall w, w_frames (g w) = w_frames w) -> bk w (g w).
Proof. intros H. unfold bk. rewrite H. destruct (w_frames w); auto. Qed.
Lemma sim_with_getter ix o o' c ps ss p : all_ops P p ->
  sim ix o o' eq (step C rn 0 (WithGetter c ps ss p)) (step C rn 0 (WithGetter c ps ss p)).
Proof.
  intros Hp. cbn [step]. eapply sim_bind0; [apply sim_top|]. intros _ _ _. apply (sim_scoped ix ix).
  - intros w w' [[] HF]. destruct w, w'; cbn in *; subst. split; [split; cbn; auto|assumption].
  - intros w. apply (bk_frames (fun w => set_getters (pop_if ps (w_pget w)) (pop_if ss (w_sget w)) w)). now intros [].
  - intros w w' [[] HF]. destruct w, w'; cbn in *; subst. split; [split; cbn; auto|assumption].
  - now apply Hrn.
Qed.
Lemma sim_intercept ix o o' i p : all_ops P p ->
  sim ix o o' eq (step C rn 0 (Intercept i p)) (step C rn 0 (Intercept i p)).
Proof.
  intros Hp. cbn [step]. eapply sim_bind0; [apply sim_top|]. intros _ _ _. apply (sim_scoped ix ix).
  - intros w w' [[] HF]. destruct w, w'; cbn in *; subst. split; [split; cbn; auto|assumption].
  - intros w. apply (bk_frames (fun w => set_icpt (tail (w_icpt w)) w)). now intros [].
  - intros w w' [[] HF]. destruct w, w'; cbn in *; subst. split; [split; cbn; auto|assumption].
  - now apply Hrn.
Qed.

(** ** module.py *)
Lemma bk_push ms w : bk w (push_module ms w).
Proof. apply bk_on_top. intros f. apply Bf_same; reflexivity. Qed.
Lemma bk_pop w : bk w (pop_module w).
Proof. apply bk_on_top. intros f. apply Bf_same; reflexivity. Qed.
Lemma back_module {A} ms (m : M A) : back m -> back (scoped (push_module ms) pop_module m).
Proof. apply back_scoped; auto using bk_push, bk_pop. Qed.
Lemma sim_push_module {A D} ix o o' ms (RA : A -> D -> Prop) m m' : sim ix o o' RA m m' ->
  sim ix o o' RA (scoped (push_module ms) pop_module m) (scoped (push_module ms) pop_module m').
Proof.
  apply sim_scoped.
  - intros w w'. unfold push_module. apply R_on_top0. intros f f' []. split; cbn; auto; congruence.
  - apply bk_pop.
  - intros w w'. unfold pop_module. apply R_on_top0. intros f f' []. split; cbn; auto; congruence.
Qed.
Lemma sim_scoped_name ix o o' f f' n : FR ix f f' -> sim0 ix o o' eq (scoped_name f n) (scoped_name f' n).
Proof.
  intros HF. unfold scoped_name. rewrite (fr_mods _ _ _ HF).
  destruct (f_mods f) as [|? [|[pm meth] ?]]; try now apply sim0_ret.
  apply sim0_bind_eq; [apply sim_safe_name|]. intros. now apply sim0_ret.
Qed.
Lemma sim_unique_name ix o o' n : sim0 ix o o' eq (unique_and_canonical_name n) (unique_and_canonical_name n).
Proof.
  unfold unique_and_canonical_name. eapply sim0_bind; [apply sim_top|]. intros f f' HF.
  apply sim0_bind_eq; [now apply sim_scoped_name|]. intros full. rewrite (fr_scopes _ _ _ HF).
  destruct (f_scopes f) as [|s0 [|sc rest]]; try apply sim0_throw.
  destruct (number_name sc full) as [sc' r]. eapply sim0_bind_eq.
  - apply sim0_modify. intros w w'. apply R_on_top0. intros g g'. apply FR_set_scopes.
  - intros _. destruct r; [apply sim0_throw|now apply sim0_ret].
Qed.
Lemma R_mods ix o o' w w' ms : R ix o o' w w' -> R ix o o' (set_mods ms w) (set_mods ms w').
Proof. intros [[] HF]. destruct w, w'; cbn in *. split; [split; cbn; auto|assumption]. Qed.
Lemma sim_set_mods ix o o' ms : sim0 ix o o' eq (modify (set_mods ms)) (modify (set_mods ms)).
Proof. apply sim0_modify. intros. now apply R_mods. Qed.
Lemma sim_update_mod ix o o' m g : sim0 ix o o' eq (update_mod m g) (update_mod m g).
Proof.
  unfold update_mod. apply sim0_bind_eq; [apply sim_reads, r_mods|]. intros ms.
  destruct (ms !! m); [apply sim_set_mods|apply sim0_throw].
Qed.
Lemma sim_module_init ix o o' m cls n : sim0 ix o o' eq (module_init m cls n) (module_init m cls n).
Proof.
  unfold module_init. destruct (valid_identifier _); [|apply sim0_throw].
  apply sim0_bind_eq; [apply sim_update_mod|]. intros _.
  apply sim0_bind_eq; [apply sim_unique_name|]. intros. apply sim_update_mod.
Qed.
Ltac bks := repeat first [ apply back_bind; [|intros ?] | progress auto with bk | apply back_module | case_match ].
Lemma back_scopes s : back (modify (on_top (set_scopes s))).
Proof. apply back_on_top. intros f. apply Bf_same; reflexivity. Qed.
Hint Resolve back_scopes : bk.
Lemma back_scoped_name f n : back (scoped_name f n).
Proof. unfold scoped_name. destruct (f_mods f) as [|? [|[? ?] ?]]; bks. Qed.
Hint Resolve back_scoped_name : bk.
Lemma back_module_init m cls n : back (module_init m cls n).
Proof.
  unfold module_init, update_mod, unique_and_canonical_name. bks.
Qed.
Hint Resolve back_module_init Hback : bk.
Lemma back_run_mbody m b a : back (run_mbody rn m b a).
Proof. destruct b; cbn [run_mbody]; bks. Qed.
Hint Resolve back_run_mbody : bk.
Lemma back_next_call r a : back (next_call C rn r a).
Proof. unfold next_call. bks. Qed.
Hint Resolve back_next_call : bk.
Lemma back_run_interceptors m meth b a : back (run_interceptors C rn m meth b a).
Proof. unfold run_interceptors. bks. Qed.
Lemma back_notify self name st : back (notify_parents self name st).
Proof. induction st as [|[m meth] st IH]; cbn; bks. Qed.
Hint Resolve back_run_interceptors back_notify : bk.
Lemma back_wrap_method m meth b a : back (wrap_method C rn m meth b a).
Proof. unfold wrap_method. bks. Qed.
Hint Resolve back_wrap_method : bk.
Lemma back_new_module cls pre super post : back (new_module C rn cls pre super post).
Proof. unfold new_module. bks. Qed.
Hint Resolve back_new_module : bk.
Lemma back_build_scope subs : forall last, back (build_scope C rn subs last).
Proof. induction subs as [|s subs IH]; intros last; cbn; bks. Qed.

Lemma sim_run_mbody ix o o' m b a : mbody_ok P b -> sim ix o o' eq (run_mbody rn m b a) (run_mbody rn m b a).
Proof.
  intros Hb. destruct b as [f|cls pre super post']; cbn in *; [apply Hrn, Hb|]. destruct Hb as [H1 H2].
  apply sim_bind_eq; [apply Hrn, H1|intros; bks|]. intros v. destruct (super v); [|apply Hrn, H2].
  apply sim_bind0_eq; [apply sim_module_init|intros _; apply Hrn, H2].
Qed.
Lemma sim_next_call ix o o' r a : sim ix o o' eq (next_call C rn r a) (next_call C rn r a).
Proof.
  intros w w' x w1 HR. unfold next_call. unfold bindM at 1, reads at 1. unfold bindM at 2, reads at 1.
  rewrite (r_nexts _ _ (proj1 HR)). destruct (w_nexts w !! r) as [[| |[|c rest] m meth b]|] eqn:E; try discriminate; intros G HB.
  - eapply sim_run_mbody; eauto.
    pose proof (r_heap _ _ (proj1 HR)) as Hh. unfold heap_ok in Hh. rewrite Forall_lookup in Hh. exact (Hh _ _ E).
  - eapply sim_pop_next; eauto.
Qed.
Lemma sim_run_interceptors ix o o' m meth b a : mbody_ok P b ->
  sim ix o o' eq (run_interceptors C rn m meth b a) (run_interceptors C rn m meth b a).
Proof.
  intros Hb. unfold run_interceptors. apply sim_bind0_eq; [apply sim_reads, r_icpt|]. intros is.
  destruct is; [now apply sim_run_mbody|].
  apply sim_bind0_eq; [now apply sim_alloc|]. intros. apply sim_next_call.
Qed.
Lemma sim_notify ix o o' self name st : sim0 ix o o' eq (notify_parents self name st) (notify_parents self name st).
Proof.
  induction st as [|[m meth] st IH]; cbn; [now apply sim0_ret|]. apply sim0_bind_eq; [|intros _; exact IH].
  destruct (decide (m = self)); [now apply sim0_ret|].
  apply sim0_bind_eq; [apply sim_reads, r_mods|]. intros ms.
  destruct (ms !! m) as [[mn [sb|]]|]; auto using sim0_throw, sim_set_mods.
Qed.
Lemma sim_wrap_method ix o o' m meth b a : mbody_ok P b ->
  sim ix o o' eq (wrap_method C rn m meth b a) (wrap_method C rn m meth b a).
Proof.
  intros Hb. unfold wrap_method. eapply sim_bind0; [apply sim_top|]. intros _ _ _. apply sim_push_module.
  apply sim_bind_eq; [now apply sim_run_interceptors|intros; bks|]. intros out. apply sim0_sim.
  eapply sim0_bind; [apply sim_top|]. intros f f' HF. apply sim0_bind_eq; [apply sim_reads, r_mods|]. intros ms.
  rewrite (fr_mods _ _ _ HF). destruct (ms !! m) as [[[n|] s]|]; try now apply sim0_ret.
  apply sim0_bind_eq; [apply sim_notify|intros; now apply sim0_ret].
Qed.
Lemma sim_new_module ix o o' cls pre super post' : mbody_ok P (MCtor cls pre super post') ->
  sim ix o o' eq (new_module C rn cls pre super post') (new_module C rn cls pre super post').
Proof.
  intros Hb. unfold new_module. apply sim_bind0_eq; [apply sim_reads, r_mods|]. intros ms.
  apply sim_bind0_eq; [apply sim_set_mods|]. intros _. apply sim_bind_eq; [now apply sim_wrap_method|intros; bks|].
  intros _. apply sim_bind0_eq; [apply sim_reads, r_mods|]. intros ms'.
  destruct (ms' !! _) as [[[n|] s]|]; auto using sim_ret, sim_throw.
Qed.
Lemma ops_ret v : all_ops P (Ret v).
Proof. constructor; [apply P_ret|]. intros q []. Qed.
Lemma sim_build_scope ix o o' subs : forall last, sim ix o o' eq (build_scope C rn subs last) (build_scope C rn subs last).
Proof.
  induction subs as [|s subs IH]; intros last; cbn; [now apply sim_ret|].
  apply sim_bind_eq; [apply sim_new_module; split; intros; apply ops_ret|intros; apply back_module, back_build_scope|]. intros m.
  apply sim_push_module, IH.
Qed.
Lemma sim_name_scope ix o o' name p : all_ops P p -> sim ix o o' eq (name_scope C rn name p) (name_scope C rn name p).
Proof.
  intros Hp. unfold name_scope. eapply sim_bind0; [apply sim_top|]. intros _ _ _.
  match goal with |- context [if ?b then _ else _] => destruct b end; [apply sim_throw|].
  apply sim_bind_eq; [apply sim_build_scope|intros; bks|]. intros [m|]; [|apply sim_throw].
  apply sim_push_module. now apply Hrn.
Qed.

(** ** stateful.py *)
Hypothesis HT : forall p w x w1 f fs, rn p w = (x, w1) -> w_frames w = f :: fs ->
  exists f1, w_frames w1 = f1 :: fs /\ PT (f_params f) (f_params f1) /\ STK (fun _ => False) (f_state f) (f_state f1).

Lemma apply_delta_state d f : f_state (apply_delta d f) = update_recursive (f_state f) (d_state d).
Proof.
  unfold apply_delta. destruct (d_params d); [destruct (f_frozen f) eqn:Ez|]; cbn; destruct (d_rng d), (f_rng f); reflexivity.
Qed.
Lemma apply_delta_params d f p : d_params d = Some p -> f_frozen f = false ->
  f_params (apply_delta d f) = update_recursive (f_params f) p.
Proof. unfold apply_delta. intros -> ->. cbn. destruct (d_rng d), (f_rng f); reflexivity. Qed.
Lemma apply_delta_frozen d f : f_frozen f = true -> f_params (apply_delta d f) = f_params f.
Proof. unfold apply_delta. intros ->. destruct (d_params d); cbn; destruct (d_rng d), (f_rng f); reflexivity. Qed.
Lemma apply_delta_rest d f : f_frozen (apply_delta d f) = f_frozen f /\ f_rngs (apply_delta d f) = f_rngs f
  /\ f_mods (apply_delta d f) = f_mods f /\ f_scopes (apply_delta d f) = f_scopes f.
Proof. unfold apply_delta. destruct (d_params d); [destruct (f_frozen f) eqn:Ez|]; cbn; destruct (d_rng d), (f_rng f); auto. Qed.
Lemma apply_delta_rng d f : f_rng (apply_delta d f) = match d_rng d, f_rng f with Some s, Some _ => Some s | _, _ => f_rng f end.
Proof. unfold apply_delta. destruct (d_params d); [destruct (f_frozen f) eqn:Ez|]; cbn; destruct (d_rng d), (f_rng f) eqn:Er; auto. Qed.

Lemma merged_state a b k n : STK (fun _ => False) a b ->
  lookup2 k n (update_recursive a (multimap (if_changed_state C) (fill_missing a b) b)) = lookup2 k n b.
Proof.
  intros HS. rewrite lookup2_update, lookup2_diff. destruct (lookup2 k n b) as [[i c]|] eqn:Eb; cbn.
  - destruct (lookup2 k n a) as [[i' c']|] eqn:Ea; cbn; [|reflexivity].
    destruct (c_same C i' i && c_same C c' c) eqn:Es; [|reflexivity]. apply andb_prop in Es as [E1 E2].
    destruct C_id as [Hid _]. now rewrite (Hid _ _ E1), (Hid _ _ E2).
  - destruct (lookup2 k n a) as [[i c]|] eqn:Ea; [|reflexivity]. destruct (st_val _ _ _ HS _ _ _ _ Ea) as [? H]. congruence.
Qed.
Lemma merged_bundle {D} (g : option D -> D -> option D) (a b : bundles D) k : (is_Some (a !! k) -> is_Some (b !! k)) ->
  is_Some (update_recursive a (multimap g (fill_missing a b) b) !! k) <-> is_Some (b !! k).
Proof. intros H. rewrite update_bundle, diff_bundle. tauto. Qed.
Lemma merged_param a b k n v : v <> VNone -> lookup2 k n b = Some v ->
  lookup2 k n (update_recursive a (multimap (if_changed_param C) (fill_missing a b) b)) = Some v.
Proof.
  intros Hv Eb. rewrite lookup2_update, lookup2_diff, Eb. cbn. unfold if_changed_param.
  assert (Hu : as_update v = Some v) by (destruct v; cbn; congruence). rewrite Hu.
  destruct (not_none (lookup2 k n a)) as [x|] eqn:Ex; [|reflexivity].
  destruct (c_same C x v) eqn:Es; [|reflexivity]. destruct C_id as [Hid _].
  destruct (lookup2 k n a) as [[]|]; cbn in Ex; try discriminate; now rewrite Ex, (Hid _ _ Es).
Qed.

(** The state handed to a jitted function or a lane. *)
Definition here (f : frame) : istate := IState (Some (f_params f)) (f_state f) (f_rng f).

Lemma lane ix o o' f f' p w w' out d w1 :
  all_ops P p -> FR ix f f' -> GR w w' -> w_frames w = f :: o -> w_frames w' = f' :: o' ->
  vmap_lane C rn (here f) p w = (Ok (out, d), w1) -> Bf (apply_delta d f) ->
  exists sA w1', vmap_lane C rn (here f') p w' = (Ok (out, difference C (here f') (IState (Some PU) sA (fst ix))), w1')
    /\ GR w1 w1' /\ w_frames w1 = f :: o /\ w_frames w1' = f' :: o'
    /\ SR (f_state (apply_delta d f)) sA /\ STK (fun _ => False) (f_state f') sA.
Proof.
  intros Hp HF HG E E' G HB. unfold vmap_lane, in_temp in *.
  unfold bindM at 1, top_frame at 1 in G. rewrite E in G. unfold bindM at 1, top_frame at 1. rewrite E'.
  destruct (bind_Ok_inv _ _ _ _ _ G) as ([[out1 d1] h] & w2 & G1 & G2). injection G2 as -> -> ->.
  unfold in_frame in G1. rewrite E in G1. destruct ((let! o1 := rn p in _) _) as [x w3] eqn:G3 in G1.
  destruct (w_frames w3) as [|h3 t3] eqn:E3; [discriminate|]. destruct x as [x| |]; try discriminate.
  injection G1 as -> -> <-.
  destruct (bind_Ok_inv _ _ _ _ _ G3) as (out2 & w4 & G4 & G5).
  unfold internal_state, bindM, top_frame, retM in G5.
  destruct (HT _ _ _ _ (temp_frame f (here f)) (f :: o) G4 eq_refl) as (h4 & E4 & HP4 & HS4). rewrite E4 in G5.
  injection G5 as <- <- <-. rewrite E4 in E3. injection E3 as -> <-.
  cbn [temp_frame f_params f_state here is_params is_state default from_option id] in HP4, HS4.
  set (jx := (fst ix, fst ix :: snd ix) : base).
  assert (HF2 : FR jx (temp_frame f (here f)) (temp_frame f' (here f'))).
  { destruct HF. split; cbn; auto. congruence. }
  assert (HB4 : B w4).
  { unfold B. rewrite E4. destruct HB as [b1 b2 b3 b4].
    assert (Hpar : f_params (apply_delta (difference C (here f) (IState (Some (f_params h)) (f_state h) (f_rng h))) f)
       = update_recursive (f_params f) (multimap (if_changed_param C) (fill_missing (f_params f) (f_params h)) (f_params h))).
    { apply apply_delta_params; [reflexivity|apply HF]. }
    rewrite Hpar in b1, b2.
    rewrite apply_delta_state in b3, b4. cbn in b1, b2, b3, b4. split.
    - intros b Hb. apply b1. rewrite update_bundle, diff_bundle. auto.
    - intros b n v Hv Hl. apply b2; [assumption|]. now apply merged_param.
    - intros b Hb. apply b3. rewrite update_bundle, diff_bundle. auto.
    - intros b n i c Hl. apply (b4 b n i c). rewrite merged_state; auto. }
  assert (HR0 : R jx (f :: o) (f' :: o') (set_frames (temp_frame f (here f) :: f :: o) w) (set_frames (temp_frame f' (here f') :: f' :: o') w')).
  { split; [now apply GR_frames|]. do 2 eexists. split; [reflexivity|]. split; [reflexivity|assumption]. }
  destruct (Hrn p jx (f :: o) (f' :: o') Hp _ _ _ _ HR0 G4 HB4) as (? & w4' & G4' & <- & HG4 & g & g' & Eg & Eg' & HF4).
  rewrite E4 in Eg. injection Eg as <-.
  destruct (HT _ _ _ _ (temp_frame f' (here f')) (f' :: o') G4' eq_refl) as (h4' & E4' & HP4' & HS4').
  rewrite Eg' in E4'. injection E4' as <-. cbn in HS4'.
  exists (f_state g'), (set_frames (f' :: o') w4'). unfold bindM at 1, in_frame at 1. rewrite E'.
  unfold bindM at 1. rewrite G4'. unfold internal_state, bindM, top_frame, retM. rewrite Eg'. cbn.
  rewrite Eg'. cbn. unfold here at 3. rewrite (fr_params' _ _ _ HF4), (fr_rng _ _ _ HF4).
  split; [reflexivity|]. split; [now apply GR_frames|]. split; [reflexivity|]. split; [reflexivity|].
  split; [|assumption]. rewrite apply_delta_state. cbn. destruct (fr_state _ _ _ HF4) as [s1 s2]. split; [assumption|].
  intros b n. rewrite merged_state by assumption. apply s2.
Qed.

Lemma lane_frames f o p w r w2 : w_frames w = f :: o -> vmap_lane C rn (here f) p w = (Ok r, w2) -> w_frames w2 = f :: o.
Proof.
  intros E G1. destruct r as [out d]. unfold vmap_lane, in_temp in G1. unfold bindM at 1, top_frame at 1 in G1. rewrite E in G1.
  destruct (bind_Ok_inv _ _ _ _ _ G1) as ([[out1 d1] h] & w3 & G3 & G4). injection G4 as -> -> ->.
  unfold in_frame in G3. rewrite E in G3. destruct ((let! o1 := rn p in _) _) as [x w4] eqn:G5 in G3.
  destruct (w_frames w4) as [|h4 t4] eqn:E4; [discriminate|]. destruct x as [x| |]; try discriminate.
  injection G3 as -> -> <-. cbn.
  destruct (bind_Ok_inv _ _ _ _ _ G5) as (out2 & w5 & G6 & G7).
  destruct (HT _ _ _ _ (temp_frame f (here f)) (f :: o) G6 eq_refl) as (h5 & E5 & _ & _).
  unfold internal_state, bindM, top_frame, retM in G7. rewrite E5 in G7. injection G7 as _ _ <-. congruence.
Qed.
Lemma lanes_frames f o q xs : forall w rs w2,
  w_frames w = f :: o -> vmap_lanes C rn (here f) q xs w = (Ok rs, w2) -> w_frames w2 = f :: o.
Proof.
  induction xs as [|x xs IH]; intros w rs w2 E G; cbn [vmap_lanes] in G; [now injection G as <- <-|].
  destruct (bind_Ok_inv _ _ _ _ _ G) as (r & w3 & G1 & G2). destruct (bind_Ok_inv _ _ _ _ _ G2) as (rs1 & w4 & G3 & G4).
  injection G4 as <- <-. eapply IH; [|exact G3]. eapply lane_frames; eauto.
Qed.

Lemma FR_merge ix f f' d sA : FR ix f f' -> SR (f_state (apply_delta d f)) sA -> STK (fun _ => False) (f_state f') sA ->
  FR ix (apply_delta d f) (apply_delta (difference C (here f') (IState (Some PU) sA (fst ix))) f').
Proof.
  intros HF [S1 S2] HS. set (d' := difference _ _ _).
  destruct (apply_delta_rest d f) as (R1 & R2 & R3 & R4). destruct (apply_delta_rest d' f') as (Q1 & Q2 & Q3 & Q4).
  split.
  - rewrite R1. apply HF.
  - rewrite Q1. apply HF.
  - rewrite apply_delta_frozen; apply HF.
  - rewrite (apply_delta_state d' f'). subst d'. cbn. split.
    + intros b. rewrite merged_bundle; [apply S1|]. apply (st_bundle _ _ _ HS).
    + intros b n. rewrite merged_state by assumption. apply S2.
  - rewrite R3, Q3. apply HF.
  - rewrite R4, Q4. apply HF.
  - rewrite apply_delta_rng. subst d'. cbn. rewrite (fr_rng _ _ _ HF). destruct (fst ix); [|reflexivity].
    destruct (c_same_rng C r r); reflexivity.
  - rewrite Q2. apply HF.
Qed.

Lemma sim_jit ix o o' p : all_ops P p -> sim ix o o' eq (jit C rn p) (jit C rn p).
Proof.
  intros Hp. apply sim_open. intros f f' HF w w' a w1 HG E E' G HB.
  assert (Hj : forall w f o, w_frames w = f :: o -> jit C rn p w =
     (let! r := vmap_lane C rn (here f) p in update_internal_state (snd r) ;;; retM (fst r)) w).
  { intros x h l Ex. unfold jit, internal_state. unfold bindM at 1. unfold bindM at 1. unfold top_frame at 1. rewrite Ex. reflexivity. }
  rewrite (Hj _ _ _ E) in G. rewrite (Hj _ _ _ E').
  destruct (bind_Ok_inv _ _ _ _ _ G) as ([out d] & w2 & G1 & G2).
  unfold bindM, update_internal_state, modify, retM in G2. cbn [fst snd] in G2. injection G2 as <- <-.
  pose proof (lane_frames _ _ _ _ _ _ E G1) as E2.
  unfold B, on_top in HB. rewrite E2 in HB. cbn in HB.
  destruct (lane ix o o' f f' p w w' out d w2 Hp HF HG E E' G1 HB) as (sA & w2' & G1' & HG2 & _ & E2' & HSR & HST).
  unfold bindM at 1. rewrite G1'. do 2 eexists. split; [reflexivity|]. split; [reflexivity|].
  unfold on_top. rewrite E2, E2'. split; [now apply GR_frames|]. cbn. do 2 eexists. split; [reflexivity|].
  split; [reflexivity|]. now apply FR_merge.
Qed.

Lemma lanes ix o o' f f' q d : (forall x, all_ops P (q x)) -> FR ix f f' -> Bf (apply_delta d f) -> forall xs w w' rs w1,
  GR w w' -> w_frames w = f :: o -> w_frames w' = f' :: o' ->
  vmap_lanes C rn (here f) q xs w = (Ok rs, w1) -> Forall (fun r => snd r = d) rs ->
  exists rs' w1', vmap_lanes C rn (here f') q xs w' = (Ok rs', w1') /\ GR w1 w1' /\ w_frames w1' = f' :: o'
    /\ List.map fst rs' = List.map fst rs
    /\ Forall (fun r => exists sA, snd r = difference C (here f') (IState (Some PU) sA (fst ix))
          /\ SR (f_state (apply_delta d f)) sA /\ STK (fun _ => False) (f_state f') sA) rs'.
Proof.
  intros Hq HF HB xs. induction xs as [|x xs IH]; intros w w' rs w1 HG E E' G Hd; cbn [vmap_lanes] in *.
  - injection G as <- <-. do 2 eexists. split; [reflexivity|]. auto.
  - destruct (bind_Ok_inv _ _ _ _ _ G) as ([out d1] & w2 & G1 & G2). destruct (bind_Ok_inv _ _ _ _ _ G2) as (rs1 & w3 & G3 & G4).
    injection G4 as <- <-. inversion Hd as [|? ? Hd1 Hd2]; subst. cbn [snd] in *.
    destruct (lane ix o o' f f' (q x) w w' out _ w2 (Hq x) HF HG E E' G1 HB) as (sA & w2' & G1' & HG2 & E2 & E2' & HSR & HST).
    destruct (IH _ _ _ _ HG2 E2 E2' G3 Hd2) as (rs' & w3' & G3' & HG3 & E3' & Em & Hf).
    unfold bindM at 1. rewrite G1'. unfold bindM at 1. rewrite G3'. do 2 eexists. split; [reflexivity|].
    split; [assumption|]. split; [assumption|]. split; [cbn; now rewrite Em|]. constructor; [|assumption].
    cbn. eauto.
Qed.

Lemma sim_vmap ix o o' q xs : (forall x, all_ops P (q x)) -> sim ix o o' eq (vmap C rn q xs) (vmap C rn q xs).
Proof.
  intros Hq. apply sim_open. intros f f' HF w w' a w1 HG E E' G HB.
  assert (Hj : forall w f o, w_frames w = f :: o -> vmap C rn q xs w =
     (let! rs := vmap_lanes C rn (here f) q xs in
      match rs with
      | [] => throw ETypeError
      | r :: _ => if forallb (fun r' => same_delta (snd r') (snd r)) rs
                  then update_internal_state (snd r) ;;; retM (VTup (List.map fst rs)) else throw ETypeError
      end) w).
  { intros x h l Ex. unfold vmap, internal_state. unfold bindM at 1. unfold bindM at 1. unfold top_frame at 1. rewrite Ex. reflexivity. }
  rewrite (Hj _ _ _ E) in G. rewrite (Hj _ _ _ E'). clear Hj.
  destruct (bind_Ok_inv _ _ _ _ _ G) as (rs & w2 & G1 & G2).
  destruct rs as [|r rs]; [discriminate|]. destruct (forallb _ (r :: rs)) eqn:Es; [|discriminate].
  unfold bindM, update_internal_state, modify, retM in G2. injection G2 as <- <-.
  pose proof (lanes_frames _ _ _ _ _ _ _ E G1) as E2.
  unfold B, on_top in HB. rewrite E2 in HB. cbn in HB.
  assert (Hd : Forall (fun r' => snd r' = snd r) (r :: rs)).
  { apply Forall_forall. intros r' Hin. rewrite forallb_forall in Es. apply elem_of_list_In in Hin. specialize (Es _ Hin).
    unfold same_delta in Es. apply andb_prop in Es as [Es E3]. apply andb_prop in Es as [Es1 Es2].
    apply bool_decide_eq_true in Es1, Es2, E3. destruct (snd r') as [x1 x2 x3], (snd r) as [y1 y2 y3]. cbn in *. congruence. }
  destruct (lanes ix o o' f f' q (snd r) Hq HF HB xs w w' _ _ HG E E' G1 Hd) as (rs' & w2' & G1' & HG2 & E2' & Em & Hf).
  destruct rs' as [|r' rs']; [discriminate|].
  inversion Hf as [|? ? (sA & Ea & HSR & HST) Hf2]; subst.
  unfold bindM at 1. rewrite G1'.
  assert (Es' : forallb (fun x => same_delta (snd x) (snd r')) (r' :: rs') = true).
  { apply forallb_forall. intros x Hx. apply elem_of_list_In in Hx. rewrite Forall_forall in Hf.
    destruct (Hf _ Hx) as (sB & Eb & HSB & _). rewrite (SR_fun _ _ _ HSB HSR) in Eb. rewrite Eb, Ea.
    unfold same_delta. now rewrite !bool_decide_true. }
  rewrite Es'. do 2 eexists. split; [reflexivity|]. split; [now rewrite Em|].
  unfold on_top. rewrite E2, E2'. split; [now apply GR_frames|]. cbn. do 2 eexists. split; [reflexivity|].
  split; [reflexivity|]. rewrite Ea. now apply FR_merge.
Qed.

Lemma sim_step n p ix o o' : all_ops P p -> sim ix o o' eq (step C rn n p) (step C rn n p).
Proof.
  intros Hp. pose proof (P_ok _ (all_ops_node _ _ Hp)) as Hh. pose proof (fun q => all_ops_child _ _ q Hp) as Hc.
  destruct p; cbn [replay_op] in Hh; try contradiction; cbn [step child] in *.
  - now apply sim_ret.
  - apply sim_throw.
  - apply sim_bind_eq; [apply Hrn; auto|auto|]. intros. apply Hrn; eauto.
  - apply Hrn, H_fun.
  - apply sim_get_parameter.
  - apply sim_get_state.
  - apply sim_set_state.
  - eapply sim_bind0; [apply sim_top|]. intros _ _ _. apply sim_with_rng; auto.
  - apply sim_with_getter; auto.
  - apply sim_next_get.
  - apply sim_bind_eq; [|auto with bk|intros; now apply sim_ret]. apply sim_new_module. split; eauto.
  - apply sim_wrap_method. cbn. eauto.
  - apply sim_name_scope; auto.
  - apply sim_intercept; auto.
  - apply sim_next_call.
  - apply sim_bind0_eq; [apply sim_safe_name|]. intros. now apply sim_ret.
  - apply sim_jit; auto.
  - apply sim_vmap; eauto.
Qed.
End Replay.

Section Top.
Variable C : code.
Hypothesis HC : replay_code C.
Hypothesis C_id : sound_identity C.

Lemma run_HT n p w x w1 f fs : run C n p w = (x, w1) -> w_frames w = f :: fs ->
  exists f1, w_frames w1 = f1 :: fs /\ FTT f f1.
Proof.
  intros G E. pose proof (t_frames _ _ _ _ _ _ (run_T C n p (fun _ => True) w x w1 G)) as H.
  unfold frames_T in H. rewrite E in H. destruct (w_frames w1) as [|f1 t]; [contradiction|].
  destruct H as [H ->]. eauto.
Qed.
Lemma run_back PU SU n p : back PU SU (run C n p).
Proof.
  intros w x w1 G. pose proof (t_frames _ _ _ _ _ _ (run_T C n p (fun _ => True) w x w1 G)) as H.
  unfold frames_T in H. unfold bk. destruct (w_frames w) as [|f fs], (w_frames w1) as [|f1 fs1]; try tauto.
  destruct H as [H ->]. split; [reflexivity|]. apply Bf_back; apply H.
Qed.

Lemma run_replay PU SU n : forall p ix o o', all_ops replay_op p ->
  sim replay_op PU SU ix o o' eq (run C n p) (run C n p).
Proof.
  induction n as [|n IH]; intros p ix o o' Hp; cbn [run].
  { intros w w' a w1 _ [=]. }
  apply (sim_step C replay_op); auto.
  - exact (fun _ => Logic.I).
  - apply HC.
  - apply HC.
  - apply HC.
  - apply run_back.
  - intros i sh dt. apply run_rand, HC.
  - intros. apply HC.
  - intros q w x w1 f fs G E. destruct (run_HT _ _ _ _ _ _ _ G E) as (f1 & E1 & H). exists f1.
    split; [assumption|]. split; apply H.
Qed.
End Top.

(** ** The outputs of [init] *)
Theorem replay C n rng rng' p w v f w1 : replay_code C -> sound_identity C -> all_ops replay_op p ->
  heap_ok replay_op w -> w_pcreate w = [] -> w_screate w = [] ->
  in_frame (new_frame None None (rng_of rng)) (run C n p) w = (Ok (v, f), w1) ->
  exists f' w1',
    in_frame (new_frame (Some (f_params f)) (Some (extract_initial (f_state f))) (rng_of rng')) (run C n p) w = (Ok (v, f'), w1')
    /\ f_params f' = f_params f /\ f_state f' = f_state f /\ f_rng f' = rng_of rng'.
Proof.
  intros HC Hid Hp Hh Hpc Hsc G. unfold in_frame in *.
  destruct (run C n p (set_frames (new_frame None None (rng_of rng) :: w_frames w) w)) as [x w2] eqn:E.
  destruct (w_frames w2) as [|f2 t] eqn:Ef; [discriminate|]. destruct x as [x| |]; try discriminate.
  injection G as -> -> <-.
  destruct (run_HT _ _ _ _ _ _ (new_frame None None (rng_of rng)) (w_frames w) E eq_refl) as (f1 & E1 & HT1).
  rewrite Ef in E1. injection E1 as <- ->.
  set (PU := f_params f). set (SU := extract_initial (f_state f)).
  assert (HB : B PU SU w2).
  { unfold B. rewrite Ef. split; auto.
    - intros b. unfold SU, extract_initial. now rewrite map2_bundle.
    - intros b m i c Hl. unfold SU, extract_initial. rewrite lookup2_map2, Hl. reflexivity. }
  assert (HR : R replay_op PU SU (rng_of rng', []) (w_frames w) (w_frames w)
      (set_frames (new_frame None None (rng_of rng) :: w_frames w) w)
      (set_frames (new_frame (Some PU) (Some SU) (rng_of rng') :: w_frames w) w)).
  { split.
    - split; auto.
    - do 2 eexists. split; [reflexivity|]. split; [reflexivity|]. split; auto. cbn. split.
      + intros b. apply map2_bundle.
      + intros b m. rewrite lookup2_map2. unfold lookup2 at 2. now rewrite lookup_empty. }
  destruct (run_replay C HC Hid PU SU n p _ _ _ Hp _ _ _ _ HR E HB) as (v' & w2' & E' & <- & HG2 & g & f' & Eg & Eg' & HF).
  rewrite Ef in Eg. injection Eg as <-.
  exists f'. eexists. rewrite E', Eg'. split; [reflexivity|]. destruct HF. split; [assumption|]. split; [|assumption].
  destruct fr_state0 as [S1 S2]. apply bundles_ext.
  - intros b. rewrite S1. unfold SU, extract_initial. apply map2_bundle.
  - intros b m. rewrite S2. destruct (lookup2 b m (f_state f)) as [[i c]|] eqn:El; [reflexivity|].
    unfold SU, extract_initial. rewrite lookup2_map2, El. reflexivity.
Qed.

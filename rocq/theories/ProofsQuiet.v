(** Programs that neither create modules nor call methods leave modules and name scopes alone. *)
From stdpp Require Import gmap list strings.
From Coq Require Import String Ascii ZArith Lia.
From Verif Require Import ModelStr ModelRng ModelCore SpecCore SpecNames ProofsMap ProofsEvolve ProofsRun.
Local Open Scope string_scope.
Local Open Scope list_scope.

Section Quiet.
Variable C : code.
Notation P := no_modules.
Hypothesis QC : quiet_code C.

Definition same (w w' : world) : Prop :=
  w_mods w' = w_mods w /\ List.map f_scopes (w_frames w') = List.map f_scopes (w_frames w).
Definition kp {A} (w : world) (m : M A) : Prop := forall x w', m w = (x, w') -> same w w'.

Lemma same_refl w : same w w.
Proof. split; reflexivity. Qed.
Lemma same_trans a b c : same a b -> same b c -> same a c.
Proof. intros [] []. split; congruence. Qed.
Lemma kp_ret {A} w (a : A) : kp w (retM a).
Proof. intros x w' [= <- <-]. apply same_refl. Qed.
Lemma kp_throw {A} w e : kp w (throw e : M A).
Proof. intros x w' [= <- <-]. apply same_refl. Qed.
Lemma kp_reads {A} w (g : world -> A) : kp w (reads g).
Proof. intros x w' [= <- <-]. apply same_refl. Qed.
Lemma kp_fuel {A} w : kp w ((fun w => (Fuel, w)) : M A).
Proof. intros x w' [= <- <-]. apply same_refl. Qed.
Lemma kp_top w : kp w top_frame.
Proof. intros x w' E. unfold top_frame in E. destruct (w_frames w); injection E as <- <-; apply same_refl. Qed.
Lemma kp_modify w g : same w (g w) -> kp w (modify g).
Proof. intros H. now intros x w' [= <- <-]. Qed.
Lemma same_on_top w g : (forall f, f_scopes (g f) = f_scopes f) -> same w (on_top g w).
Proof. intros H. unfold on_top. destruct (w_frames w) eqn:E; split; cbn; auto; rewrite E; cbn; now rewrite ?H. Qed.
Lemma kp_on_top w g : (forall f, f_scopes (g f) = f_scopes f) -> kp w (modify (on_top g)).
Proof. intros H. apply kp_modify. now apply same_on_top. Qed.
Lemma kp_bind {A B} w (m : M A) (k : A -> M B) :
  kp w m -> (forall a w1, kp w1 (k a)) -> kp w (bindM m k).
Proof.
  intros H K x w' E. unfold bindM in E. destruct (m w) as [[a|e|] w1] eqn:E1.
  - eapply same_trans; [eapply H; eauto|]. eapply K; eauto.
  - injection E as <- <-. eapply H; eauto.
  - injection E as <- <-. eapply H; eauto.
Qed.
Lemma kp_bind_reads {A B} w (g : world -> A) (k : A -> M B) : kp w (k (g w)) -> kp w (bindM (reads g) k).
Proof. intros H. exact H. Qed.
Lemma kp_scoped {A} w push pop (m : M A) :
  same w (push w) -> (forall v, same v (pop v)) -> kp (push w) m -> kp w (scoped push pop m).
Proof.
  intros Hp Hq H x w' E. unfold scoped in E. destruct (m (push w)) as [y w1] eqn:E1. injection E as <- <-.
  eapply same_trans; [exact Hp|]. eapply same_trans; [eapply H; eauto|apply Hq].
Qed.
Lemma kp_in_frame {A} w f (m : M A) : (forall v, kp v m) -> kp w (in_frame f m).
Proof.
  intros H x w' E. unfold in_frame in E; destruct (m (set_frames (f :: w_frames w) w)) as [y w1] eqn:E1.
  destruct (H _ _ _ E1) as [H1 H2]. cbn in H1, H2.
  destruct (w_frames w1) as [|f1 fs1]; [discriminate|]. cbn in H2. injection H2 as _ H2.
  injection E as <- <-. split; cbn; assumption.
Qed.

Lemma kp_alloc {B} w o (k : nat -> M B) : (forall r v, kp v (k r)) -> kp w (let! r := alloc_next o in k r).
Proof. intros H. apply kp_bind; [|auto]. intros x w' E. injection E as <- <-. split; reflexivity. Qed.

Variable rn : prog -> M val.
Hypothesis Hrn : forall p w, all_ops P p -> kp w (rn p).

Lemma kp_safe_name m w : kp w (safe_get_module_name m).
Proof. unfold safe_get_module_name. apply kp_bind_reads. destruct (w_mods w !! m) as [[[?|] ?]|]; auto using kp_ret, kp_throw. Qed.
Lemma kp_bundle_name w : kp w current_bundle_name.
Proof. unfold current_bundle_name. apply kp_bind; [apply kp_top|]. intros f w1. destruct (f_mods f) as [|[m ?] ?]; auto using kp_ret, kp_safe_name. Qed.

Create HintDb kqdb.
Hint Resolve kp_ret kp_throw kp_reads kp_fuel kp_top kp_safe_name kp_bundle_name : kqdb.
Lemma scopes_apply_delta d f : f_scopes (apply_delta d f) = f_scopes f.
Proof.
  unfold apply_delta. destruct (d_params d); [destruct (f_frozen f)|]; cbn;
    destruct (d_rng d); cbn; destruct (f_rng f); reflexivity.
Qed.
Ltac kk := repeat first
  [ progress (auto with kqdb nocore)
  | match goal with
    | |- kp _ (bindM (reads _) _) => apply kp_bind_reads
    | |- kp _ (bindM _ _) => apply kp_bind; [|intros ? ?]
    | |- kp _ (modify (on_top _)) => apply kp_on_top; let f := fresh in intros f; try (destruct (f_frozen f)); try reflexivity; apply scopes_apply_delta
    | |- kp _ (in_frame _ _) => apply kp_in_frame; intros ?
    | |- kp _ (if ?b then _ else _) => destruct b
    | |- kp _ (match ?x with _ => _ end) => destruct x
    end ].

Lemma kp_next_create r sh dt i w : kp w (next_create C rn r sh dt i).
Proof.
  unfold next_create. apply kp_bind_reads. destruct (w_nexts w !! r) as [[[|c rest] ctx| |]|] eqn:L; auto using kp_throw.
  - apply Hrn. apply (qc_init _ QC).
  - apply kp_bind; [apply kp_modify; split; reflexivity|]. intros. apply Hrn, (qc_creator _ QC).
Qed.
Lemma kp_run_creators s ctx sh dt i w : kp w (run_creators C rn s ctx sh dt i).
Proof.
  unfold run_creators. destruct s; [apply Hrn, (qc_init _ QC)|]. apply kp_alloc. intros. apply kp_next_create.
Qed.
Lemma kp_next_get r v w : kp w (next_get C rn r v).
Proof.
  unfold next_get. apply kp_bind_reads. destruct (w_nexts w !! r) as [[|[|c rest] ctx|]|] eqn:L; auto using kp_throw, kp_ret.
  apply kp_bind; [apply kp_modify; split; reflexivity|]. intros. apply Hrn, (qc_getter _ QC).
Qed.
Lemma kp_run_getters s ctx v w : kp w (run_getters C rn s ctx v).
Proof. unfold run_getters. destruct s; [apply kp_ret|]. apply kp_alloc. intros. apply kp_next_get. Qed.
Lemma kp_get_parameter n sh dt i w : kp w (get_parameter C rn n sh dt i).
Proof. unfold get_parameter. kk; auto using kp_run_creators, kp_run_getters. Qed.
Lemma kp_get_state n sh dt i w : kp w (get_state C rn n sh dt i).
Proof. unfold get_state. kk; auto using kp_run_creators, kp_run_getters. Qed.
Lemma kp_set_state n v w : kp w (set_state n v).
Proof. unfold set_state. kk. Qed.
Lemma kp_with_seq {A} (g : rngseq -> option (A * rngseq)) w : kp w (with_seq g).
Proof. unfold with_seq. kk. Qed.
Lemma kp_next_key w : kp w (next_rng_key C).
Proof. unfold next_rng_key. kk; [apply kp_modify; split; reflexivity|apply kp_with_seq]. Qed.
Lemma kp_next_keys n w : kp w (next_rng_keys C n).
Proof. unfold next_rng_keys. kk. apply kp_with_seq. Qed.
Lemma kp_maybe_next w : kp w (maybe_next_rng_key C).
Proof. unfold maybe_next_rng_key. kk. apply kp_with_seq. Qed.
Lemma kp_module_dict m b w : kp w (module_dict m b).
Proof. unfold module_dict. kk. Qed.

(** stateful.py *)
Lemma kp_internal b w : kp w (internal_state b).
Proof. unfold internal_state. kk. Qed.
Lemma kp_update_internal d w : kp w (update_internal_state d).
Proof. apply kp_on_top. intros. apply scopes_apply_delta. Qed.
Lemma kp_in_temp {A} s (m : M A) w : (forall v, kp v m) -> kp w (in_temp s m).
Proof. intros H. unfold in_temp. kk. Qed.
Lemma kp_reserve w : kp w (reserve_block C).
Proof. unfold reserve_block. kk. Qed.
Hint Resolve kp_internal kp_update_internal kp_reserve : kqdb.
Lemma kp_jit p w : all_ops P p -> kp w (jit C rn p).
Proof. intros H. unfold jit. kk. apply kp_in_temp. intros. kk. Qed.
Lemma kp_branch s p w : all_ops P p -> kp w (stateful_branch C rn s p).
Proof. intros H. unfold stateful_branch. apply kp_in_temp. intros. kk. Qed.
Lemma kp_branches s bs : (forall p, In p bs -> all_ops P p) -> forall w, kp w (run_branches C rn s bs).
Proof.
  induction bs as [|b bs IH]; intros H w; cbn [run_branches]; [apply kp_ret|]. apply kp_bind; [apply kp_branch, H; now left|].
  intros. apply kp_bind; [apply IH; intros; apply H; now right|]. intros. apply kp_ret.
Qed.
Lemma kp_switch i bs w : (forall p, In p bs -> all_ops P p) -> kp w (switch_fun C rn i bs).
Proof.
  intros H. unfold switch_fun. kk. now apply kp_branches.
Qed.
Lemma kp_scan_step f cs x w : (forall c y, all_ops P (f c y)) -> kp w (scan_step C rn f cs x).
Proof. intros H. unfold scan_step. destruct cs. apply kp_in_temp. intros ?. unfold as_pair. kk. Qed.
Lemma kp_lax_scan {S} (step : S -> val -> M (S * val)) : (forall s x w, kp w (step s x)) -> forall xs s w, kp w (lax_scan step s xs).
Proof. intros H. induction xs as [|x xs IH]; intros s w; cbn [lax_scan]; kk. Qed.
Lemma kp_lax_scan_dir {S} b (step : S -> val -> M (S * val)) xs s w : (forall s x w, kp w (step s x)) -> kp w (lax_scan_dir b step s xs).
Proof. intros H. unfold lax_scan_dir. destruct b; [apply kp_bind; [now apply kp_lax_scan|intros; apply kp_ret]|now apply kp_lax_scan]. Qed.
Lemma kp_scan_rest f init xs b w : (forall c y, all_ops P (f c y)) -> kp w (scan_rest C rn f init xs b).
Proof. intros H. unfold scan_rest. kk. apply kp_lax_scan_dir. intros. now apply kp_scan_step. Qed.
Lemma kp_scan f init xs z b w : (forall c y, all_ops P (f c y)) -> kp w (scan C rn f init xs z b).
Proof. intros H. unfold scan, as_pair. pose proof kp_scan_rest. kk. Qed.
Lemma kp_fori_step f i s w : (forall c y, all_ops P (f c y)) -> kp w (fori_step C rn f i s).
Proof. intros H. unfold fori_step. destruct s. apply kp_in_temp. intros v0. kk. Qed.
Lemma kp_lax_fori {S} (step : Z -> S -> M S) : (forall i s w, kp w (step i s)) -> forall n i s w, kp w (lax_fori step n i s).
Proof. intros H. induction n as [|n IH]; intros i s w; cbn [lax_fori]; kk. Qed.
Lemma kp_fori_rest l u f v w : (forall c y, all_ops P (f c y)) -> kp w (fori_rest C rn l u f v).
Proof. intros H. unfold fori_rest. kk. apply kp_lax_fori. intros. now apply kp_fori_step. Qed.
Lemma kp_fori l u f v w : (forall c y, all_ops P (f c y)) -> kp w (fori_loop C rn l u f v).
Proof. intros H. unfold fori_loop. pose proof kp_fori_rest. kk. Qed.
Lemma kp_while_cond c v w : (forall v, all_ops P (c v)) -> kp w (while_cond rn c v).
Proof. intros H. unfold while_cond. kk. Qed.
Lemma kp_while_step b vs w : (forall v, all_ops P (b v)) -> kp w (while_step rn b vs).
Proof. intros H. unfold while_step. destruct vs. apply kp_in_temp. intros. kk. Qed.
Lemma kp_lax_while {S} n (c : S -> M bool) (b : S -> M S) : (forall s w, kp w (c s)) -> (forall s w, kp w (b s)) ->
  forall s w, kp w (lax_while n c b s).
Proof. intros H1 H2. induction n as [|n IH]; intros s w; cbn [lax_while]; [apply kp_fuel|]. kk. Qed.
Lemma kp_while n c b v w : (forall v, all_ops P (c v)) -> (forall v, all_ops P (b v)) -> kp w (while_loop rn n c b v).
Proof.
  intros H1 H2. unfold while_loop. kk. apply kp_lax_while.
  - intros. kk. now apply kp_while_cond.
  - intros. now apply kp_while_step.
Qed.
Lemma kp_vmap_lane s p w : all_ops P p -> kp w (vmap_lane C rn s p).
Proof. intros H. unfold vmap_lane. apply kp_in_temp. intros. kk. Qed.
Lemma kp_vmap_lanes s f xs : (forall x, all_ops P (f x)) -> forall w, kp w (vmap_lanes C rn s f xs).
Proof.
  intros H. induction xs as [|x xs IH]; intros w; cbn [vmap_lanes]; [apply kp_ret|].
  apply kp_bind; [now apply kp_vmap_lane|]. intros. kk.
Qed.
Lemma kp_vmap f xs w : (forall x, all_ops P (f x)) -> kp w (vmap C rn f xs).
Proof. intros H. unfold vmap. kk. now apply kp_vmap_lanes. Qed.
Lemma kp_eval_shape p w : all_ops P p -> kp w (eval_shape rn p).
Proof. intros H. unfold eval_shape. kk. apply kp_in_temp. intros. now apply Hrn. Qed.

(** transform.py, lift.py, random.py *)
Lemma kp_init_fn k p w : all_ops P p -> kp w (init_fn rn k p).
Proof. intros H. unfold init_fn. kk. Qed.
Lemma kp_apply_fn ps st k p w : all_ops P p -> kp w (apply_fn rn ps st k p).
Proof. intros H. unfold apply_fn. kk. Qed.
Lemma kp_pack src pre : forall w, kp w (pack_into_dict src pre).
Proof. induction src as [|[k v] src IH]; intros w; cbn [pack_into_dict]; kk. Qed.
Lemma kp_lift m k p w : all_ops P p -> kp w (lift_call rn m k p).
Proof. intros H. unfold lift_call. pose proof kp_pack. pose proof kp_init_fn. kk. Qed.
Lemma kp_optimize p w : all_ops P p -> kp w (optimize_rng_use rn p).
Proof. intros H. unfold optimize_rng_use. kk. Qed.

Lemma kp_step n p w : all_ops P p -> kp w (step C rn n p).
Proof.
  intros H. pose proof (all_ops_node _ _ H) as Hp. pose proof (fun q => all_ops_child _ _ q H) as Hc. clear H.
  destruct p; cbn [child no_modules] in *; cbn [step]; try (destruct Hp; fail).
  - apply kp_ret.
  - apply kp_throw.
  - apply kp_bind; [apply Hrn; auto|]. intros. apply Hrn. eauto.
  - intros x w' E. destruct (rn p w) as [[v|e|] w1] eqn:E1.
    + injection E as <- <-. eapply (Hrn p); eauto.
    + eapply same_trans; [eapply (Hrn p); eauto|]. refine (Hrn (h e) w1 _ _ _ E). eauto.
    + injection E as <- <-. eapply (Hrn p); eauto.
  - apply Hrn. apply (qc_fun _ QC).
  - apply kp_get_parameter.
  - apply kp_get_state.
  - apply kp_set_state.
  - apply kp_next_key.
  - apply kp_next_keys.
  - apply kp_maybe_next.
  - apply kp_with_seq.
  - apply kp_bind; [apply kp_top|]. intros. apply kp_scoped; [now apply same_on_top| |apply Hrn; auto].
    intros. apply same_on_top. intros f. now destruct (f_rngs f).
  - kk.
  - apply kp_bind; [apply kp_top|]. intros. apply kp_scoped; [split; reflexivity|split; reflexivity|]. apply Hrn. auto.
  - apply kp_bind; [apply kp_top|]. intros. apply kp_scoped; [split; reflexivity|split; reflexivity|]. apply Hrn. auto.
  - apply kp_next_create.
  - apply kp_next_get.
  - apply kp_bind; [apply kp_top|]. intros. apply kp_scoped; [split; reflexivity|split; reflexivity|]. apply Hrn. auto.
  - kk.
  - apply kp_module_dict.
  - apply kp_jit. auto.
  - apply kp_switch. intros q [<-|[<-|[]]]; auto.
  - apply kp_switch. auto.
  - apply kp_scan. eauto.
  - apply kp_fori. eauto.
  - apply kp_while; eauto.
  - apply kp_vmap. eauto.
  - apply kp_eval_shape. auto.
  - apply kp_bind; [apply kp_init_fn; auto|]. intros. apply kp_ret.
  - destruct (dec params); [|apply kp_throw]. destruct (dec state); [|apply kp_throw].
    apply kp_bind; [apply kp_apply_fn; auto|]. intros. apply kp_ret.
  - apply kp_lift. auto.
  - apply kp_optimize. auto.
Qed.
End Quiet.

Lemma run_quiet C n p w x w' : quiet_code C -> all_ops no_modules p -> run C n p w = (x, w') ->
  w_mods w' = w_mods w /\ List.map f_scopes (w_frames w') = List.map f_scopes (w_frames w).
Proof.
  intros HQ Hp. assert (H : kp w (run C n p)); [|apply H].
  revert p w x w' Hp. induction n as [|n IH]; intros p w x w' Hp; [apply kp_fuel|]. cbn [run]. apply kp_step; auto.
Qed.

(** Programs that do not mention a [next] callable leave it alone. *)
From stdpp Require Import gmap list strings.
From Coq Require Import String Ascii ZArith Lia.
From Verif Require Import ModelStr ModelRng ModelCore SpecCore SpecNext ProofsMap ProofsEvolve ProofsRun.
Local Open Scope string_scope.
Local Open Scope list_scope.

Section Own.
Variable C : code.
Variable r0 : nat.
Notation P := (not_next r0).
Hypothesis OWN : own_next C.

(** [m] makes callables only, and keeps callable [r0] unless it is made in between. *)
Notation len w := (List.length (w_nexts w)).
Definition mono {A} (w : world) (m : M A) : Prop := forall x w', m w = (x, w') -> len w <= len w'.
Definition keeps {A} (w : world) (m : M A) : Prop :=
  heap_ok P w -> forall x w', m w = (x, w') -> ~ (len w <= r0 < len w') ->
  heap_ok P w' /\ w_nexts w' !! r0 = w_nexts w !! r0.
Definition kp {A} (w : world) (m : M A) : Prop := mono w m /\ keeps w m.

Lemma kp_same {A} w (m : M A) : (forall x w', m w = (x, w') -> w_nexts w' = w_nexts w) -> kp w m.
Proof.
  intros H. split; intros x w'.
  - intros E. apply H in E. rewrite E. lia.
  - intros y E Hn. intros. apply H in E. unfold heap_ok in *. rewrite E. auto.
Qed.
Lemma kp_ret {A} w (a : A) : kp w (retM a).
Proof. apply kp_same. now intros x w' [= <- <-]. Qed.
Lemma kp_throw {A} w e : kp w (throw e : M A).
Proof. apply kp_same. now intros x w' [= <- <-]. Qed.
Lemma kp_reads {A} w (g : world -> A) : kp w (reads g).
Proof. apply kp_same. now intros x w' [= <- <-]. Qed.
Lemma kp_fuel {A} w : kp w ((fun w => (Fuel, w)) : M A).
Proof. apply kp_same. now intros x w' [= <- <-]. Qed.
Lemma kp_top w : kp w top_frame.
Proof. apply kp_same. intros x w' E. unfold top_frame in E. destruct (w_frames w); now injection E as <- <-. Qed.
Lemma kp_modify w g : w_nexts (g w) = w_nexts w -> kp w (modify g).
Proof. intros H. apply kp_same. now intros x w' [= <- <-]. Qed.
Lemma kp_on_top w g : kp w (modify (on_top g)).
Proof. apply kp_modify. unfold on_top. now destruct (w_frames w). Qed.
Lemma mono_bind {A B} w (m : M A) (k : A -> M B) :
  mono w m -> (forall a w1, mono w1 (k a)) -> mono w (bindM m k).
Proof.
  intros H K x w' E. unfold bindM in E. destruct (m w) as [[a|e|] w1] eqn:E1; pose proof (H _ _ E1).
  - pose proof (K a w1 _ _ E). lia.
  - injection E as <- <-. lia.
  - injection E as <- <-. lia.
Qed.
Lemma kp_bind {A B} w (m : M A) (k : A -> M B) :
  kp w m -> (forall a w1, kp w1 (k a)) -> kp w (bindM m k).
Proof.
  intros [HM H] K. split; [apply mono_bind; [assumption|intros; apply K]|].
  intros G x w' E Hn. unfold bindM in E. destruct (m w) as [[a|e|] w1] eqn:E1; pose proof (HM _ _ E1) as L1.
  - pose proof (proj1 (K a w1) _ _ E) as L2. destruct (H G _ _ E1 ltac:(lia)) as [G1 S1].
    destruct (proj2 (K a w1) G1 _ _ E ltac:(lia)) as [G2 S2]. split; [assumption|congruence].
  - injection E as <- <-. exact (H G _ _ E1 Hn).
  - injection E as <- <-. exact (H G _ _ E1 Hn).
Qed.
Lemma kp_bind_reads {A B} w (g : world -> A) (k : A -> M B) : kp w (k (g w)) -> kp w (bindM (reads g) k).
Proof. intros H. exact H. Qed.
Lemma kp_scoped {A} w push pop (m : M A) :
  w_nexts (push w) = w_nexts w -> (forall v, w_nexts (pop v) = w_nexts v) -> kp (push w) m -> kp w (scoped push pop m).
Proof.
  intros Hp Hq [HM H]. split.
  - intros x w' E. unfold scoped in E. destruct (m (push w)) as [y w1] eqn:E1. injection E as <- <-.
    rewrite Hq, <- Hp. eapply HM; eauto.
  - intros G x w' E Hn. unfold scoped in E. destruct (m (push w)) as [y w1] eqn:E1. injection E as <- <-.
    assert (G' : heap_ok P (push w)) by (unfold heap_ok in *; now rewrite Hp). rewrite Hq in Hn.
    destruct (H G' _ _ E1) as [G1 S1]; [now rewrite Hp|]. unfold heap_ok in *. rewrite Hq. split; [assumption|congruence].
Qed.
Lemma kp_in_frame {A} w f (m : M A) : (forall v, kp v m) -> kp w (in_frame f m).
Proof.
  intros H. split; [intros x w' E|intros G x w' E Hn]; unfold in_frame in E; destruct (m (set_frames (f :: w_frames w) w)) as [y w1] eqn:E1.
  - pose proof (proj1 (H _) _ _ E1) as L. destruct (w_frames w1); injection E as <- <-; exact L.
  - pose proof (proj2 (H _) (G : heap_ok P (set_frames (f :: w_frames w) w)) _ _ E1) as K.
    destruct (w_frames w1); injection E as <- <-; exact (K Hn).
Qed.
Lemma kp_on_top_nexts g w : w_nexts (on_top g w) = w_nexts w.
Proof. unfold on_top. now destruct (w_frames w). Qed.

(** Making a new callable. *)
Lemma kp_alloc {B} w o (k : nat -> M B) : next_ok P o -> (forall r v, mono v (k r)) -> (forall r v, r <> r0 -> kp v (k r)) ->
  kp w (let! r := alloc_next o in k r).
Proof.
  intros Ho HM H.
  assert (HM' : mono w (let! r := alloc_next o in k r)).
  { apply mono_bind; [|auto]. intros x w' E. unfold alloc_next, bindM, reads, modify, retM in E. injection E as <- <-. cbn. rewrite app_length. lia. }
  split; [exact HM'|]. intros G x w' E Hn.
  unfold alloc_next, bindM at 1, bindM at 1, reads, bindM at 1, modify, retM in E.
  assert (G' : heap_ok P (set_nexts (w_nexts w ++ [o]) w)).
  { unfold heap_ok. cbn. apply Forall_app. split; [assumption|]. constructor; [assumption|constructor]. }
  pose proof (HM _ _ _ _ E) as L. cbn in L. rewrite app_length in L. cbn in L.
  assert (Hne : len w <> r0) by lia.
  destruct (proj2 (H (len w) _ Hne) G' _ _ E) as [G1 S1]; [cbn; rewrite app_length; cbn; lia|].
  split; [assumption|]. rewrite S1. cbn. destruct (decide (r0 < len w)); [now apply lookup_app_l|].
  rewrite !lookup_ge_None_2; [reflexivity|lia|rewrite app_length; cbn; lia].
Qed.
(** Advancing a callable. *)
Lemma mono_pop {B} w r o' (k : M B) : (forall v, mono v k) -> mono w (modify (set_nexts (<[r := o']> (w_nexts w))) ;;; k).
Proof. intros H. apply mono_bind; [|auto]. intros x w' E. injection E as <- <-. cbn. now rewrite insert_length. Qed.
Lemma kp_pop {B} w r o o' (k : M B) : r <> r0 -> w_nexts w !! r = Some o -> (next_ok P o -> next_ok P o') ->
  (forall v, kp v k) -> kp w (modify (set_nexts (<[r := o']> (w_nexts w))) ;;; k).
Proof.
  intros Hr L Ho H. split; [apply mono_pop; intros; apply H|]. intros G x w' E Hn. unfold bindM, modify in E.
  assert (G' : heap_ok P (set_nexts (<[r := o']> (w_nexts w)) w)).
  { unfold heap_ok. cbn. apply Forall_insert; [assumption|]. apply Ho. exact (Forall_lookup_1 _ _ _ _ G L). }
  destruct (proj2 (H _) G' _ _ E) as [G1 S1]; [cbn; now rewrite insert_length|]. split; [assumption|].
  rewrite S1. cbn. now apply list_lookup_insert_ne.
Qed.

Variable rn : prog -> M val.
Hypothesis Hmono : forall p w, mono w (rn p).
Hypothesis Hrn : forall p w, all_ops P p -> kp w (rn p).

Lemma kp_safe_name m w : kp w (safe_get_module_name m).
Proof. unfold safe_get_module_name. apply kp_bind_reads. destruct (w_mods w !! m) as [[[?|] ?]|]; auto using kp_ret, kp_throw. Qed.
Lemma kp_bundle_name w : kp w current_bundle_name.
Proof. unfold current_bundle_name. apply kp_bind; [apply kp_top|]. intros f w1. destruct (f_mods f) as [|[m ?] ?]; auto using kp_ret, kp_safe_name. Qed.


Create HintDb kpdb.
Hint Resolve kp_ret kp_throw kp_reads kp_fuel kp_top kp_on_top kp_safe_name kp_bundle_name : kpdb.
Ltac kk := repeat first
  [ progress (auto with kpdb nocore)
  | match goal with
    | |- kp _ (bindM (reads _) _) => apply kp_bind_reads
    | |- kp _ (bindM _ _) => apply kp_bind; [|intros ? ?]
    | |- kp _ (modify (on_top _)) => apply kp_on_top
    | |- kp _ (modify (set_mods _)) => apply kp_modify; reflexivity
    | |- kp _ (in_frame _ _) => apply kp_in_frame; intros ?
    | |- kp _ (if ?b then _ else _) => destruct b
    | |- kp _ (match ?x with _ => _ end) => destruct x
    end ].

Lemma kp_next_create r sh dt i w : r <> r0 -> kp w (next_create C rn r sh dt i).
Proof.
  intros Hr. unfold next_create. apply kp_bind_reads. destruct (w_nexts w !! r) as [[[|c rest] ctx| |]|] eqn:L; auto using kp_throw.
  - apply Hrn. apply (ow_init _ OWN).
  - eapply kp_pop; eauto. intros v. apply Hrn. now apply (ow_creator _ OWN).
Qed.
Lemma mono_next_create r sh dt i w : mono w (next_create C rn r sh dt i).
Proof.
  unfold next_create. intros x w' E. unfold bindM at 1, reads in E.
  destruct (w_nexts w !! r) as [[[|c rest] ctx| |]|] eqn:L; try (injection E as <- <-; reflexivity); [eapply Hmono; eauto|].
  refine (mono_pop w r (NxCreate rest ctx) _ _ _ _ E). intros; apply Hmono.
Qed.
Lemma kp_run_creators s ctx sh dt i w : kp w (run_creators C rn s ctx sh dt i).
Proof.
  unfold run_creators. destruct s; [apply Hrn, (ow_init _ OWN)|]. apply kp_alloc; [exact Logic.I|intros; apply mono_next_create|]. intros. now apply kp_next_create.
Qed.
Lemma kp_next_get r v w : r <> r0 -> kp w (next_get C rn r v).
Proof.
  intros Hr. unfold next_get. apply kp_bind_reads. destruct (w_nexts w !! r) as [[|[|c rest] ctx|]|] eqn:L; auto using kp_throw, kp_ret.
  eapply kp_pop; eauto. intros u. apply Hrn. now apply (ow_getter _ OWN).
Qed.
Lemma mono_next_get r v w : mono w (next_get C rn r v).
Proof.
  unfold next_get. intros x w' E. unfold bindM at 1, reads in E.
  destruct (w_nexts w !! r) as [[|[|g rest] ctx|]|] eqn:L; try (injection E as <- <-; reflexivity).
  refine (mono_pop w r (NxGet rest ctx) _ _ _ _ E). intros; apply Hmono.
Qed.
Lemma kp_run_getters s ctx v w : kp w (run_getters C rn s ctx v).
Proof.
  unfold run_getters. destruct s; [apply kp_ret|]. apply kp_alloc; [exact Logic.I|intros; apply mono_next_get|]. intros. now apply kp_next_get.
Qed.
Lemma kp_get_parameter n sh dt i w : kp w (get_parameter C rn n sh dt i).
Proof. unfold get_parameter. kk; auto using kp_run_creators, kp_run_getters. Qed.
Lemma kp_get_state n sh dt i w : kp w (get_state C rn n sh dt i).
Proof. unfold get_state. kk; auto using kp_run_creators, kp_run_getters. Qed.
Lemma kp_set_state n v w : kp w (set_state n v).
Proof. unfold set_state. kk. Qed.
Lemma kp_with_seq {A} (g : rngseq -> option (A * rngseq)) w : kp w (with_seq g).
Proof. unfold with_seq. kk. Qed.
Lemma kp_next_key w : kp w (next_rng_key C).
Proof. unfold next_rng_key. kk; [apply kp_modify; reflexivity|apply kp_with_seq]. Qed.
Lemma kp_next_keys n w : kp w (next_rng_keys C n).
Proof. unfold next_rng_keys. kk. apply kp_with_seq. Qed.
Lemma kp_maybe_next w : kp w (maybe_next_rng_key C).
Proof. unfold maybe_next_rng_key. kk. apply kp_with_seq. Qed.

(** Modules *)
Lemma kp_push_module {A} ms (m : M A) w : (forall v, kp v m) -> kp w (scoped (push_module ms) pop_module m).
Proof. intros H. apply kp_scoped; [apply kp_on_top_nexts|intros; apply kp_on_top_nexts|apply H]. Qed.
Lemma kp_unique_name n w : kp w (unique_and_canonical_name n).
Proof. unfold unique_and_canonical_name. kk. unfold scoped_name. kk. Qed.
Lemma kp_update_mod m g w : kp w (update_mod m g).
Proof. unfold update_mod. kk. Qed.
Lemma kp_module_init m cls n w : kp w (module_init m cls n).
Proof. unfold module_init. kk; auto using kp_update_mod, kp_unique_name. Qed.
Lemma kp_run_mbody m b a w : mbody_ok P b -> kp w (run_mbody rn m b a).
Proof.
  destruct b as [f|cls pre super post]; cbn; [intros H; apply Hrn, H|]. intros [H1 H2].
  apply kp_bind; [apply Hrn, H1|]. intros v w1. destruct (super v); [|apply Hrn, H2]. apply kp_bind; [apply kp_module_init|]. intros. apply Hrn, H2.
Qed.
Lemma mono_run_mbody m b a w : mono w (run_mbody rn m b a).
Proof.
  destruct b as [f|cls pre super post]; cbn; [apply Hmono|].
  apply mono_bind; [apply Hmono|]. intros v w1. destruct (super v); [|apply Hmono].
  apply mono_bind; [apply kp_module_init|]. intros. apply Hmono.
Qed.
Lemma mono_next_call r a w : mono w (next_call C rn r a).
Proof.
  unfold next_call. intros x w' E. unfold bindM at 1, reads in E.
  destruct (w_nexts w !! r) as [[| |[|i rest] m meth body]|] eqn:L; try (injection E as <- <-; reflexivity).
  - eapply mono_run_mbody; eauto.
  - refine (mono_pop w r (NxCall rest m meth body) _ _ _ _ E). intros; apply Hmono.
Qed.
Lemma kp_next_call r a w : r <> r0 -> kp w (next_call C rn r a).
Proof.
  intros Hr. unfold next_call. apply kp_bind_reads. destruct (w_nexts w !! r) as [[| |[|i rest] m meth body]|] eqn:L; auto using kp_throw.
  - split; [apply mono_run_mbody|]. intros G. apply kp_run_mbody; [|exact G]. exact (Forall_lookup_1 _ _ _ _ G L).
  - eapply kp_pop; eauto. intros u. apply Hrn. now apply (ow_icpt _ OWN).
Qed.
Lemma kp_run_interceptors m meth b a w : mbody_ok P b -> kp w (run_interceptors C rn m meth b a).
Proof.
  intros H. unfold run_interceptors. apply kp_bind_reads. destruct (w_icpt w); [now apply kp_run_mbody|].
  apply kp_alloc; [exact H|intros; apply mono_next_call|]. intros. now apply kp_next_call.
Qed.
Lemma kp_notify self name st : forall w, kp w (notify_parents self name st).
Proof. induction st as [|[m ?] st IH]; intros w; cbn [notify_parents]; kk. Qed.
Lemma kp_wrap_method m meth b a w : mbody_ok P b -> kp w (wrap_method C rn m meth b a).
Proof.
  intros H. unfold wrap_method. apply kp_bind; [apply kp_top|]. intros f w1. apply kp_push_module. intros v.
  apply kp_bind; [now apply kp_run_interceptors|]. intros. kk. apply kp_notify.
Qed.
Lemma kp_new_module cls pre super post w : mbody_ok P (MCtor cls pre super post) -> kp w (new_module C rn cls pre super post).
Proof.
  intros H. unfold new_module. apply kp_bind_reads. apply kp_bind; [apply kp_modify; reflexivity|]. intros _ w1.
  apply kp_bind; [now apply kp_wrap_method|]. intros. kk.
Qed.
Lemma ops_ret_kp v : all_ops P (Ret v).
Proof. constructor; [exact Logic.I|]. intros q []. Qed.
Lemma kp_build_scope subs : forall last w, kp w (build_scope C rn subs last).
Proof.
  induction subs as [|s subs IH]; intros last w; cbn [build_scope]; [apply kp_ret|].
  apply kp_bind; [apply kp_new_module; split; intros; apply ops_ret_kp|]. intros. apply kp_push_module. auto.
Qed.
Lemma kp_name_scope name p w : all_ops P p -> kp w (name_scope C rn name p).
Proof.
  intros H. unfold name_scope. apply kp_bind; [apply kp_top|]. intros f w1.
  match goal with |- context [if ?b then _ else _] => destruct b end; [apply kp_throw|].
  apply kp_bind; [apply kp_build_scope|]. intros [m|] w2; [|apply kp_throw]. apply kp_push_module. intros. now apply Hrn.
Qed.
Lemma kp_module_dict m b w : kp w (module_dict m b).
Proof. unfold module_dict. kk. Qed.

(** stateful.py *)
Lemma kp_internal b w : kp w (internal_state b).
Proof. unfold internal_state. kk. Qed.
Lemma kp_update_internal d w : kp w (update_internal_state d).
Proof. apply kp_on_top. Qed.
Lemma kp_in_temp {A} s (m : M A) w : (forall v, kp v m) -> kp w (in_temp s m).
Proof. intros H. unfold in_temp. kk. Qed.
Lemma kp_reserve w : kp w (reserve_block C).
Proof. unfold reserve_block. kk. Qed.
Hint Resolve kp_internal kp_update_internal kp_reserve : kpdb.
Lemma kp_jit p w : all_ops P p -> kp w (jit C rn p).
Proof. intros H. unfold jit. kk. apply kp_in_temp. intros. kk. Qed.
Lemma kp_branch s p w : all_ops P p -> kp w (stateful_branch C rn s p).
Proof. intros H. unfold stateful_branch. apply kp_in_temp. intros. kk. Qed.
Lemma kp_branches s bs : (forall p, In p bs -> all_ops P p) -> forall w, kp w (run_branches C rn s bs).
Proof.
  induction bs as [|b bs IH]; intros H w; cbn [run_branches]; [apply kp_ret|]. apply kp_bind; [apply kp_branch, H; now left|].
  intros. apply kp_bind; [apply IH; intros; apply H; now right|]. intros. apply kp_ret.
Qed.
Lemma kp_switch i bs w : (forall p, In p bs -> all_ops P p) -> kp w (switch_fun C rn i bs).
Proof.
  intros H. unfold switch_fun. kk. now apply kp_branches.
Qed.
Lemma kp_scan_step f cs x w : (forall c y, all_ops P (f c y)) -> kp w (scan_step C rn f cs x).
Proof. intros H. unfold scan_step. destruct cs. apply kp_in_temp. intros ?. unfold as_pair. kk. Qed.
Lemma kp_lax_scan {S} (step : S -> val -> M (S * val)) : (forall s x w, kp w (step s x)) -> forall xs s w, kp w (lax_scan step s xs).
Proof. intros H. induction xs as [|x xs IH]; intros s w; cbn [lax_scan]; kk. Qed.
Lemma kp_lax_scan_dir {S} b (step : S -> val -> M (S * val)) xs s w : (forall s x w, kp w (step s x)) -> kp w (lax_scan_dir b step s xs).
Proof. intros H. unfold lax_scan_dir. destruct b; [apply kp_bind; [now apply kp_lax_scan|intros; apply kp_ret]|now apply kp_lax_scan]. Qed.
Lemma kp_scan_rest f init xs b w : (forall c y, all_ops P (f c y)) -> kp w (scan_rest C rn f init xs b).
Proof. intros H. unfold scan_rest. kk. apply kp_lax_scan_dir. intros. now apply kp_scan_step. Qed.
Lemma kp_scan f init xs z b w : (forall c y, all_ops P (f c y)) -> kp w (scan C rn f init xs z b).
Proof. intros H. unfold scan, as_pair. pose proof kp_scan_rest. kk. Qed.
Lemma kp_fori_step f i s w : (forall c y, all_ops P (f c y)) -> kp w (fori_step C rn f i s).
Proof. intros H. unfold fori_step. destruct s. apply kp_in_temp. intros v0. kk. Qed.
Lemma kp_lax_fori {S} (step : Z -> S -> M S) : (forall i s w, kp w (step i s)) -> forall n i s w, kp w (lax_fori step n i s).
Proof. intros H. induction n as [|n IH]; intros i s w; cbn [lax_fori]; kk. Qed.
Lemma kp_fori_rest l u f v w : (forall c y, all_ops P (f c y)) -> kp w (fori_rest C rn l u f v).
Proof. intros H. unfold fori_rest. kk. apply kp_lax_fori. intros. now apply kp_fori_step. Qed.
Lemma kp_fori l u f v w : (forall c y, all_ops P (f c y)) -> kp w (fori_loop C rn l u f v).
Proof. intros H. unfold fori_loop. pose proof kp_fori_rest. kk. Qed.
Lemma kp_while_cond c v w : (forall v, all_ops P (c v)) -> kp w (while_cond rn c v).
Proof. intros H. unfold while_cond. kk. Qed.
Lemma kp_while_step b vs w : (forall v, all_ops P (b v)) -> kp w (while_step rn b vs).
Proof. intros H. unfold while_step. destruct vs. apply kp_in_temp. intros. kk. Qed.
Lemma kp_lax_while {S} n (c : S -> M bool) (b : S -> M S) : (forall s w, kp w (c s)) -> (forall s w, kp w (b s)) ->
  forall s w, kp w (lax_while n c b s).
Proof. intros H1 H2. induction n as [|n IH]; intros s w; cbn [lax_while]; [apply kp_fuel|]. kk. Qed.
Lemma kp_while n c b v w : (forall v, all_ops P (c v)) -> (forall v, all_ops P (b v)) -> kp w (while_loop rn n c b v).
Proof.
  intros H1 H2. unfold while_loop. kk. apply kp_lax_while.
  - intros. kk. now apply kp_while_cond.
  - intros. now apply kp_while_step.
Qed.
Lemma kp_vmap_lane s p w : all_ops P p -> kp w (vmap_lane C rn s p).
Proof. intros H. unfold vmap_lane. apply kp_in_temp. intros. kk. Qed.
Lemma kp_vmap_lanes s f xs : (forall x, all_ops P (f x)) -> forall w, kp w (vmap_lanes C rn s f xs).
Proof.
  intros H. induction xs as [|x xs IH]; intros w; cbn [vmap_lanes]; [apply kp_ret|].
  apply kp_bind; [now apply kp_vmap_lane|]. intros. kk.
Qed.
Lemma kp_vmap f xs w : (forall x, all_ops P (f x)) -> kp w (vmap C rn f xs).
Proof. intros H. unfold vmap. kk. now apply kp_vmap_lanes. Qed.
Lemma kp_eval_shape p w : all_ops P p -> kp w (eval_shape rn p).
Proof. intros H. unfold eval_shape. kk. apply kp_in_temp. intros. now apply Hrn. Qed.

(** transform.py, lift.py, random.py *)
Lemma kp_init_fn k p w : all_ops P p -> kp w (init_fn rn k p).
Proof. intros H. unfold init_fn. kk. Qed.
Lemma kp_apply_fn ps st k p w : all_ops P p -> kp w (apply_fn rn ps st k p).
Proof. intros H. unfold apply_fn. kk. Qed.
Lemma kp_pack src pre : forall w, kp w (pack_into_dict src pre).
Proof. induction src as [|[k v] src IH]; intros w; cbn [pack_into_dict]; kk. Qed.
Lemma kp_lift m k p w : all_ops P p -> kp w (lift_call rn m k p).
Proof. intros H. unfold lift_call. pose proof kp_pack. pose proof kp_init_fn. kk. Qed.
Lemma kp_optimize p w : all_ops P p -> kp w (optimize_rng_use rn p).
Proof. intros H. unfold optimize_rng_use. kk. Qed.

Lemma kp_step n p w : all_ops P p -> kp w (step C rn n p).
Proof.
  intros H. pose proof (all_ops_node _ _ H) as Hp. pose proof (fun q => all_ops_child _ _ q H) as Hc. clear H.
  destruct p; cbn [child not_next] in *; cbn [step].
  - apply kp_ret.
  - apply kp_throw.
  - apply kp_bind; [apply Hrn; auto|]. intros. apply Hrn. eauto.
  - assert (K : forall x w', (let! v := (fun w => match rn p w with (Exc e, w') => (Ok (inr e), w') | (Ok v, w') => (Ok (inl v), w') | (Fuel, w') => (Fuel, w') end) in
        match v with inl v => retM v | inr e => rn (h e) end) w = (x, w') <-> (match rn p w with (Exc e, w') => rn (h e) w' | r => r end) = (x, w')).
    { intros x w'. unfold bindM. destruct (rn p w) as [[v|e|] w1]; reflexivity. }
    assert (K2 : kp w (let! v := (fun w => match rn p w with (Exc e, w') => (Ok (inr e), w') | (Ok v, w') => (Ok (inl v), w') | (Fuel, w') => (Fuel, w') end) in
        match v with inl v => retM v | inr e => rn (h e) end)).
    { apply kp_bind; [|intros [v|e] w1; [apply kp_ret|apply Hrn; eauto]].
      destruct (Hrn p w (Hc _ (or_introl eq_refl))) as [HM HK]. split; [intros x w' E|intros G x w' E Hn];
        destruct (rn p w) as [[v|e|] w1] eqn:E1; injection E as <- <-; first [exact (HM _ _ E1)|exact (HK G _ _ E1 Hn)]. }
    destruct K2 as [HM HK]. split; [intros x w' E|intros G x w' E Hn]; apply K in E; eauto.
  - apply Hrn. apply (ow_fun _ OWN).
  - apply kp_get_parameter.
  - apply kp_get_state.
  - apply kp_set_state.
  - apply kp_next_key.
  - apply kp_next_keys.
  - apply kp_maybe_next.
  - apply kp_with_seq.
  - apply kp_bind; [apply kp_top|]. intros. apply kp_scoped; [apply kp_on_top_nexts|intros; apply kp_on_top_nexts|]. apply Hrn. auto.
  - kk.
  - apply kp_bind; [apply kp_top|]. intros. apply kp_scoped; [reflexivity|reflexivity|]. apply Hrn. auto.
  - apply kp_bind; [apply kp_top|]. intros. apply kp_scoped; [reflexivity|reflexivity|]. apply Hrn. auto.
  - now apply kp_next_create.
  - now apply kp_next_get.
  - apply kp_bind; [apply kp_new_module; split; eauto 6|]. intros. apply kp_ret.
  - apply kp_wrap_method. cbn. eauto.
  - apply kp_name_scope. auto.
  - apply kp_bind; [apply kp_top|]. intros. apply kp_scoped; [reflexivity|reflexivity|]. apply Hrn. auto.
  - now apply kp_next_call.
  - kk.
  - apply kp_module_dict.
  - apply kp_jit. auto.
  - apply kp_switch. intros q [<-|[<-|[]]]; auto.
  - apply kp_switch. auto.
  - apply kp_scan. eauto.
  - apply kp_fori. eauto.
  - apply kp_while; eauto.
  - apply kp_vmap. eauto.
  - apply kp_eval_shape. auto.
  - apply kp_bind; [apply kp_init_fn; auto|]. intros. apply kp_ret.
  - destruct (dec params); [|apply kp_throw]. destruct (dec state); [|apply kp_throw].
    apply kp_bind; [apply kp_apply_fn; auto|]. intros. apply kp_ret.
  - apply kp_lift. auto.
  - apply kp_optimize. auto.
Qed.
End Own.

Lemma run_mono C n p w : mono w (run C n p).
Proof.
  intros x w' E. pose proof (run_T _ _ _ (fun _ => False) _ _ _ E) as HT.
  destruct (decide (List.length (w_nexts w) <= List.length (w_nexts w'))) as [|Hn]; [assumption|].
  destruct (lookup_lt_is_Some_2 (w_nexts w) (List.length (w_nexts w'))) as [o Ho]; [lia|].
  destruct (t_nexts _ _ _ _ _ _ HT _ _ Ho) as (o' & Ho' & _). apply lookup_lt_Some in Ho'. lia.
Qed.
Lemma run_keeps C r n p w : own_next C -> all_ops (not_next r) p -> kp r w (run C n p).
Proof.
  intros HO. revert p w. induction n as [|n IH]; intros p w Hp.
  - apply kp_fuel.
  - cbn [run]. apply kp_step; auto. intros; apply run_mono.
Qed.
(** A callable that exists is kept. *)
Theorem run_keeps_next C r n p w x w' : own_next C -> all_ops (not_next r) p -> next_hidden r w ->
  run C n p w = (x, w') -> next_hidden r w' /\ w_nexts w' !! r = w_nexts w !! r.
Proof.
  intros HO Hp [HS HH] E. pose proof (lookup_lt_is_Some_1 _ _ HS) as L.
  destruct (proj2 (run_keeps C r n p w HO Hp) HH _ _ E ltac:(lia)) as [H1 H2]. unfold next_hidden. rewrite H2. auto.
Qed.
(** Callables that do not exist yet are not mentioned. *)
Theorem run_no_future C n p w x w' : own_next C -> (forall r, List.length (w_nexts w) <= r -> all_ops (not_next r) p) ->
  no_future w -> run C n p w = (x, w') -> no_future w'.
Proof.
  intros HO Hp HH E r Hr. pose proof (run_mono _ _ _ _ _ _ E) as L.
  destruct (proj2 (run_keeps C r n p w HO (Hp r ltac:(lia))) (HH r ltac:(lia)) _ _ E ltac:(lia)) as [H1 _]. exact H1.
Qed.

(** The number of random keys drawn so far ([w_draws]) never influences a run. *)
From stdpp Require Import gmap list strings.
From Coq Require Import String Ascii ZArith Lia.
From Verif Require Import ModelStr ModelRng ModelCore.
Local Open Scope string_scope.
Local Open Scope list_scope.

Definition more_draws (k : nat) (w : world) : world := set_draws (k + w_draws w) w.

Section Draws.
Variable C : code.
Variable k : nat.
Notation add := (more_draws k).
Definition sh {A} (m : M A) : Prop := forall w, m (add w) = (fst (m w), add (snd (m w))).

Lemma sh_ret {A} (a : A) : sh (retM a).
Proof. intros w. reflexivity. Qed.
Lemma sh_throw {A} e : sh (throw e : M A).
Proof. intros w. reflexivity. Qed.
Lemma sh_fuel {A} : sh ((fun w => (Fuel, w)) : M A).
Proof. intros w. reflexivity. Qed.
Lemma sh_top : sh top_frame.
Proof. intros w. unfold top_frame. cbn. destruct (w_frames w); reflexivity. Qed.
Lemma sh_reads {A} (g : world -> A) : (forall w, g (add w) = g w) -> sh (reads g).
Proof. intros H w. unfold reads. cbn. now rewrite H. Qed.
Lemma sh_modify g : (forall w, g (add w) = add (g w)) -> sh (modify g).
Proof. intros H w. unfold modify. cbn. now rewrite H. Qed.
Lemma add_on_top g w : on_top g (add w) = add (on_top g w).
Proof. unfold on_top. cbn. destruct (w_frames w); reflexivity. Qed.
Lemma sh_on_top g : sh (modify (on_top g)).
Proof. apply sh_modify, add_on_top. Qed.
Lemma sh_bind {A B} (m : M A) (f : A -> M B) : sh m -> (forall a, sh (f a)) -> sh (bindM m f).
Proof.
  intros H K w. unfold bindM. rewrite H. destruct (m w) as [[a|e|] w1]; cbn; auto. apply K.
Qed.
Lemma sh_try (m : M val) (h : exn -> M val) : sh m -> (forall e, sh (h e)) ->
  sh (fun w => match m w with (Exc e, w') => h e w' | r => r end).
Proof. intros H K w. cbv beta. rewrite H. destruct (m w) as [[a|e|] w1]; cbn; auto. apply K. Qed.
Lemma sh_scoped {A} push pop (m : M A) : (forall w, push (add w) = add (push w)) -> (forall w, pop (add w) = add (pop w)) ->
  sh m -> sh (scoped push pop m).
Proof. intros H1 H2 H w. unfold scoped. rewrite H1, H. destruct (m (push w)) as [r w']; cbn. now rewrite H2. Qed.
Lemma sh_in_frame {A} f (m : M A) : sh m -> sh (in_frame f m).
Proof.
  intros H w. unfold in_frame. change (set_frames (f :: w_frames (add w)) (add w)) with (add (set_frames (f :: w_frames w) w)).
  rewrite H. destruct (m (set_frames (f :: w_frames w) w)) as [r w']; cbn. destruct (w_frames w'); reflexivity.
Qed.
Lemma sh_alloc {B} o (f : nat -> M B) : (forall r, sh (f r)) -> sh (let! r := alloc_next o in f r).
Proof. intros H. apply sh_bind; [|exact H]. intros w. reflexivity. Qed.
(** Reading something else than the counter, then going on. *)
Lemma sh_bind_reads {A B} (g : world -> A) (f : A -> M B) : (forall w, g (add w) = g w) -> (forall a, sh (f a)) -> sh (bindM (reads g) f).
Proof. intros H K. apply sh_bind; auto using sh_reads. Qed.

Variable rn : prog -> M val.
Hypothesis Hrn : forall p, sh (rn p).

Ltac kk := repeat first
  [ assumption
  | apply sh_ret | apply sh_throw | apply sh_fuel | apply sh_top | apply Hrn
  | match goal with
    | |- sh (bindM (reads _) _) => apply sh_bind_reads; [reflexivity|intros ?]
    | |- sh (bindM _ _) => apply sh_bind; [|intros ?]
    | |- sh (modify (on_top _)) => apply sh_on_top
    | |- sh (modify _) => apply sh_modify; reflexivity
    | |- sh (in_frame _ _) => apply sh_in_frame
    | |- sh (if ?b then _ else _) => destruct b
    | |- sh (match ?x with _ => _ end) => destruct x
    | |- sh (scoped _ _ _) => apply sh_scoped; [try reflexivity; intros; apply add_on_top|try reflexivity; intros; apply add_on_top|]
    end ].

Lemma sh_safe_name m : sh (safe_get_module_name m).
Proof. unfold safe_get_module_name. kk. Qed.
Lemma sh_bundle_name : sh current_bundle_name.
Proof. unfold current_bundle_name. pose proof sh_safe_name. kk; auto. Qed.
Lemma sh_next_create r s dt i : sh (next_create C rn r s dt i).
Proof. unfold next_create. kk. Qed.
Lemma sh_run_creators s ctx x dt i : sh (run_creators C rn s ctx x dt i).
Proof. unfold run_creators. destruct s; [apply Hrn|]. apply sh_alloc. intros. apply sh_next_create. Qed.
Lemma sh_next_get r v : sh (next_get C rn r v).
Proof. unfold next_get. kk. Qed.
Lemma sh_run_getters s ctx v : sh (run_getters C rn s ctx v).
Proof. unfold run_getters. destruct s; [apply sh_ret|]. apply sh_alloc. intros. apply sh_next_get. Qed.
Lemma sh_get_parameter n s dt i : sh (get_parameter C rn n s dt i).
Proof. unfold get_parameter. pose proof sh_bundle_name. kk; auto using sh_run_creators, sh_run_getters. Qed.
Lemma sh_get_state n s dt i : sh (get_state C rn n s dt i).
Proof. unfold get_state. pose proof sh_bundle_name. kk; auto using sh_run_creators, sh_run_getters. Qed.
Lemma sh_set_state n v : sh (set_state n v).
Proof. unfold set_state. pose proof sh_bundle_name. kk. Qed.
Lemma sh_with_seq {A} (g : rngseq -> option (A * rngseq)) : sh (with_seq g).
Proof. unfold with_seq. kk. Qed.
Lemma sh_next_key : sh (next_rng_key C).
Proof.
  unfold next_rng_key. kk; [|apply sh_with_seq]. apply sh_modify. intros w. unfold more_draws. cbn.
  destruct w; cbn. unfold set_draws; cbn. f_equal. lia.
Qed.
Lemma sh_next_keys n : sh (next_rng_keys C n).
Proof. unfold next_rng_keys. kk. apply sh_with_seq. Qed.
Lemma sh_maybe_next : sh (maybe_next_rng_key C).
Proof. unfold maybe_next_rng_key. kk. apply sh_with_seq. Qed.
Lemma sh_module_dict m b : sh (module_dict m b).
Proof. unfold module_dict. kk. Qed.

(** module.py *)
Lemma sh_scoped_name f n : sh (scoped_name f n).
Proof. unfold scoped_name. pose proof sh_safe_name. kk; auto. Qed.
Lemma sh_unique n : sh (unique_and_canonical_name n).
Proof. unfold unique_and_canonical_name. pose proof sh_scoped_name. kk; auto. Qed.
Lemma sh_update_mod m g : sh (update_mod m g).
Proof. unfold update_mod. kk. Qed.
Lemma sh_module_init m c n : sh (module_init m c n).
Proof. unfold module_init. pose proof sh_update_mod. pose proof sh_unique. destruct n; kk; auto. Qed.
Lemma sh_mbody m b a : sh (run_mbody rn m b a).
Proof. unfold run_mbody. pose proof sh_module_init. kk; auto. Qed.
Lemma sh_next_call r a : sh (next_call C rn r a).
Proof. unfold next_call. pose proof sh_mbody. kk; auto. Qed.
Lemma sh_interceptors m meth b a : sh (run_interceptors C rn m meth b a).
Proof.
  unfold run_interceptors. apply sh_bind_reads; [reflexivity|]. intros [|i l]; [apply sh_mbody|].
  apply sh_alloc. intros. apply sh_next_call.
Qed.
Lemma sh_notify m n l : sh (notify_parents m n l).
Proof. induction l as [|[i ?] l IH]; cbn [notify_parents]; kk. Qed.
Lemma sh_wrap m meth b a : sh (wrap_method C rn m meth b a).
Proof. unfold wrap_method. pose proof sh_interceptors. pose proof sh_notify. kk; auto. Qed.
Lemma sh_new c p s q : sh (new_module C rn c p s q).
Proof. unfold new_module. pose proof sh_wrap. kk; auto. Qed.
Lemma sh_build l : forall o, sh (build_scope C rn l o).
Proof. pose proof sh_new. induction l as [|s l IH]; intros o; cbn [build_scope]; kk; auto. Qed.
Lemma sh_name_scope n p : sh (name_scope C rn n p).
Proof. unfold name_scope. pose proof sh_build. kk; auto. Qed.

(** stateful.py *)
Lemma sh_internal b : sh (internal_state b).
Proof. unfold internal_state. kk. Qed.
Lemma sh_update_internal d : sh (update_internal_state d).
Proof. apply sh_on_top. Qed.
Lemma sh_in_temp {A} s (m : M A) : sh m -> sh (in_temp s m).
Proof. intros H. unfold in_temp. kk. Qed.
Lemma sh_reserve : sh (reserve_block C).
Proof. unfold reserve_block. kk. Qed.
Ltac kj := repeat first [progress kk | apply sh_in_temp | apply sh_reserve | apply sh_internal | apply sh_update_internal].
Lemma sh_jit p : sh (jit C rn p).
Proof. unfold jit. kj. Qed.
Lemma sh_branch s p : sh (stateful_branch C rn s p).
Proof. unfold stateful_branch. kj. Qed.
Lemma sh_branches s bs : sh (run_branches C rn s bs).
Proof. pose proof sh_branch. induction bs as [|b bs IH]; cbn [run_branches]; kj; auto. Qed.
Lemma sh_switch i bs : sh (switch_fun C rn i bs).
Proof. unfold switch_fun. pose proof sh_branches. kj; auto. Qed.
Lemma sh_scan_step f cs x : sh (scan_step C rn f cs x).
Proof. unfold scan_step, as_pair. destruct cs. kj. Qed.
Lemma sh_lax_scan {S} (step : S -> val -> M (S * val)) : (forall s x, sh (step s x)) -> forall xs s, sh (lax_scan step s xs).
Proof. intros H. induction xs as [|x xs IH]; intros s; cbn [lax_scan]; kj; auto. Qed.
Lemma sh_lax_scan_dir {S} b (step : S -> val -> M (S * val)) xs s : (forall s x, sh (step s x)) -> sh (lax_scan_dir b step s xs).
Proof. intros H. unfold lax_scan_dir. pose proof (sh_lax_scan step H). kj; auto. Qed.
Lemma sh_scan_rest f init xs b : sh (scan_rest C rn f init xs b).
Proof. unfold scan_rest. kj. apply sh_lax_scan_dir. intros. apply sh_scan_step. Qed.
Lemma sh_scan f init xs z b : sh (scan C rn f init xs z b).
Proof. unfold scan, as_pair. pose proof sh_scan_rest. kj; auto. Qed.
Lemma sh_fori_step f i s : sh (fori_step C rn f i s).
Proof. unfold fori_step. destruct s. kj. Qed.
Lemma sh_lax_fori {S} (step : Z -> S -> M S) : (forall i s, sh (step i s)) -> forall n i s, sh (lax_fori step n i s).
Proof. intros H. induction n as [|n IH]; intros i s; cbn [lax_fori]; kj; auto. Qed.
Lemma sh_fori_rest l u f v : sh (fori_rest C rn l u f v).
Proof. unfold fori_rest. kj. apply sh_lax_fori. intros. apply sh_fori_step. Qed.
Lemma sh_fori l u f v : sh (fori_loop C rn l u f v).
Proof. unfold fori_loop. pose proof sh_fori_rest. kj; auto. Qed.
Lemma sh_while_cond c v : sh (while_cond rn c v).
Proof. unfold while_cond. kj. Qed.
Lemma sh_while_step b vs : sh (while_step rn b vs).
Proof. unfold while_step. destruct vs. kj. Qed.
Lemma sh_lax_while {S} n (c : S -> M bool) (b : S -> M S) : (forall s, sh (c s)) -> (forall s, sh (b s)) -> forall s, sh (lax_while n c b s).
Proof. intros H1 H2. induction n as [|n IH]; intros s; cbn [lax_while]; [apply sh_fuel|]. kj; auto. Qed.
Lemma sh_while n c b v : sh (while_loop rn n c b v).
Proof. unfold while_loop. kj. apply sh_lax_while; intros; kj; auto using sh_while_cond, sh_while_step. Qed.
Lemma sh_vmap_lane s p : sh (vmap_lane C rn s p).
Proof. unfold vmap_lane. kj. Qed.
Lemma sh_vmap_lanes s f xs : sh (vmap_lanes C rn s f xs).
Proof. pose proof sh_vmap_lane. induction xs as [|x xs IH]; cbn [vmap_lanes]; kj; auto. Qed.
Lemma sh_vmap f xs : sh (vmap C rn f xs).
Proof. unfold vmap. pose proof sh_vmap_lanes. kj; auto. Qed.
Lemma sh_eval_shape p : sh (eval_shape rn p).
Proof. unfold eval_shape. kj. Qed.

(** transform.py, lift.py, random.py *)
Lemma sh_init_fn r p : sh (init_fn rn r p).
Proof. unfold init_fn. kj. Qed.
Lemma sh_apply_fn ps st r p : sh (apply_fn rn ps st r p).
Proof. unfold apply_fn. kj. Qed.
Lemma sh_pack src pre : sh (pack_into_dict src pre).
Proof. induction src as [|[x v] src IH]; cbn [pack_into_dict]; kj. Qed.
Lemma sh_lift m r p : sh (lift_call rn m r p).
Proof. unfold lift_call. pose proof sh_safe_name. pose proof sh_pack. pose proof sh_init_fn. kj; auto. Qed.
Lemma sh_optimize p : sh (optimize_rng_use rn p).
Proof.
  unfold optimize_rng_use. apply sh_bind; [apply sh_top|]. intros f w.
  unfold bindM, reads. cbn [fst snd].
  pose proof (sh_in_frame (new_frame (if bool_decide (f_params f = ∅) then None else Some (f_params f))
    (if bool_decide (f_state f = ∅) then None else Some (extract_initial (f_state f))) (f_rng f)) (rn p) (Hrn p) w) as E.
  rewrite E. destruct (in_frame _ _ w) as [[a|e|] w1]; cbn [fst snd]; auto.
  change (w_draws (add w1)) with (k + w_draws w1). change (w_draws (add w)) with (k + w_draws w).
  replace (k + w_draws w1 - (k + w_draws w)) with (w_draws w1 - w_draws w) by lia.
  set (d := w_draws w1 - w_draws w).
  assert (H : sh (let! _ := (if Nat.ltb 0 d then
     let! f := top_frame in
     match f_rng f with
     | Some s => modify (on_top (set_rng (Some (reserve d s))))
     | None => throw EAttr
     end
   else retM tt) in rn p)) by kj.
  exact (H w1).
Qed.

Lemma sh_step n p : sh (step C rn n p).
Proof.
  destruct p; cbn [step]; unfold reserve_rng_keys;
    auto using sh_ret, sh_throw, sh_get_parameter, sh_get_state, sh_set_state, sh_next_key, sh_next_keys, sh_maybe_next, sh_with_seq,
      sh_next_create, sh_next_get, sh_wrap, sh_name_scope, sh_next_call, sh_module_dict, sh_jit, sh_switch, sh_scan, sh_fori, sh_while,
      sh_vmap, sh_eval_shape, sh_lift, sh_optimize.
  - kk.
  - apply sh_try; intros; apply Hrn.
  - kk.
  - kk.
  - kk.
  - kk.
  - pose proof sh_new. kk; auto.
  - kk.
  - pose proof sh_safe_name. kk; auto.
  - pose proof sh_init_fn. kk; auto.
  - pose proof sh_apply_fn. kk; auto.
Qed.
End Draws.

Lemma run_draws C k n p w : run C n p (more_draws k w) = (fst (run C n p w), more_draws k (snd (run C n p w))).
Proof.
  assert (H : sh k (run C n p)); [|apply H]. revert p. induction n as [|n IH]; intros p; [apply sh_fuel|]. cbn [run]. now apply sh_step.
Qed.

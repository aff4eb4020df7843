(** Consequences of the simulation: running in a temporary frame, in a nested
    transform, with or without a random sequence. *)
From stdpp Require Import gmap list strings.
From Coq Require Import String Ascii ZArith Lia.
From Verif Require Import ModelStr ModelRng ModelCore SpecCore SpecStateful ProofsStr ProofsMap ProofsNames ProofsRng ProofsEvolve ProofsRun ProofsOps ProofsModule ProofsSim.
Local Open Scope string_scope.
Local Open Scope list_scope.

Definition with_rngs (l : list (option rngseq)) (f : frame) : frame :=
  Frame (f_params f) (f_frozen f) (f_state f) (f_rng f) l (f_mods f) (f_scopes f).

Definition base_of (f : frame) (l : list (option rngseq)) : base :=
  Base (is_some (f_rng f), is_some (f_rng f)) [] (f_rngs f) l.

Lemma GR_self P w fs fs' : heap_ok P w -> GR P (set_frames fs w) (set_frames fs' w).
Proof. intros H. destruct w; cbn. split; auto. Qed.

Lemma GR_eq P w w' : GR P w w' -> w' = set_frames (w_frames w') w.
Proof. intros []. destruct w, w'; cbn in *. now subst. Qed.

Lemma set_frames_id w : set_frames (w_frames w) w = w.
Proof. now destruct w. Qed.
Lemma set_frames_twice a b w : set_frames a (set_frames b w) = set_frames a w.
Proof. reflexivity. Qed.
Lemma set_frames_eq fs w : w_frames w = fs -> set_frames fs w = w.
Proof. intros <-. apply set_frames_id. Qed.

(** The frames below the current one and the saved random sequences do not
    influence a run and are not changed by it. *)
Lemma run_graft C n p w f l o o' r w1 :
  run C n p (set_frames (f :: o) w) = (r, w1) ->
  exists f1, w_frames w1 = f1 :: o /\ f_rngs f1 = f_rngs f /\
    run C n p (set_frames (with_rngs l f :: o') w) = (r, set_frames (with_rngs l f1 :: o') w1).
Proof.
  intros H.
  pose proof (run_sim C Strict (fun _ => True)) as HS.
  assert (Hs : sim C Strict (fun _ => True) (base_of f l) o o' eq (run C n p) (run C n p)).
  { apply HS; auto using code_ok_true, all_ops_true.
    - intros [] _; cbn; auto; discriminate.
    - discriminate. }
  clear HS. specialize (Hs (set_frames (f :: o) w) (set_frames (with_rngs l f :: o') w)).
  unfold post in Hs. rewrite H in Hs.
  assert (HR : R C Strict (fun _ => True) (base_of f l) o o' (set_frames (f :: o) w) (set_frames (with_rngs l f :: o') w)).
  { split; [apply GR_self, I_true|]. exists f, (with_rngs l f). split; [reflexivity|]. split; [reflexivity|].
    split; cbn; auto. repeat split. now left. }
  specialize (Hs HR).
  assert (HE : forall w1', R C Strict (fun _ => True) (base_of f l) o o' w1 w1' ->
    exists f1, w_frames w1 = f1 :: o /\ f_rngs f1 = f_rngs f /\ w1' = set_frames (with_rngs l f1 :: o') w1).
  { intros w1' [HG (f1 & f1' & E & E' & HF)]. exists f1.
    destruct HF as [H1 H2 H3 H4 H5 H6 H7]. cbn in H7. destruct H7 as [H7 H8].
    split; [assumption|]. split; [assumption|].
    apply rrs_strict in H6; [|reflexivity].
    rewrite (GR_eq _ _ _ HG), E'. f_equal. f_equal. destruct f1, f1'; cbn in *. subst. reflexivity. }
  destruct r as [v|e|].
  - destruct Hs as (b & w1' & E & <- & HR'). destruct (HE _ HR') as (f1 & ? & ? & ->). eauto.
  - destruct Hs as [Hs|(w1' & E & HR')]; [discriminate|]. destruct (HE _ HR') as (f1 & ? & ? & ->). eauto.
  - destruct Hs as [Hs|(w1' & E & HR')]; [discriminate|]. destruct (HE _ HR') as (f1 & ? & ? & ->). eauto.
Qed.

(** Nested transforms. *)
Lemma run_nested C n p w f o o' r w1 :
  run C n p (set_frames (f :: o) w) = (r, w1) ->
  exists f1, w_frames w1 = f1 :: o /\ run C n p (set_frames (f :: o') w) = (r, set_frames (f1 :: o') w1).
Proof.
  intros H. destruct (run_graft C n p w f (f_rngs f) o o' r w1 H) as (f1 & E & E2 & E3).
  exists f1. split; [assumption|]. replace (with_rngs (f_rngs f) f) with f in E3 by now destruct f.
  rewrite E3. f_equal. f_equal. f_equal. rewrite <- E2. now destruct f1.
Qed.

Lemma in_frame_nested C n p g w o' r w1 :
  in_frame g (run C n p) w = (r, w1) ->
  w_frames w1 = w_frames w /\ in_frame g (run C n p) (set_frames o' w) = (r, set_frames o' w1).
Proof.
  unfold in_frame. intros H.
  destruct (run C n p (set_frames (g :: w_frames w) w)) as [x w2] eqn:E.
  destruct (run_nested C n p w g (w_frames w) o' x w2 E) as (f1 & E1 & E2).
  change (set_frames (g :: w_frames (set_frames o' w)) (set_frames o' w)) with (set_frames (g :: o') w).
  rewrite E2. rewrite E1 in H. cbn [w_frames set_frames] in *.
  injection H as <- <-. split; [reflexivity|]. cbn. now destruct w2.
Qed.

(** ** Temporary frames *)
Definition istate_of (b : bool) (f : frame) : istate :=
  IState (if b then Some (f_params f) else None) (f_state f) (f_rng f).
(** Frame [f] with the contents [s]. *)
Definition load (s : istate) (f : frame) : frame :=
  Frame (default (f_params f) (is_params s)) (f_frozen f) (is_state s) (is_rng s) (f_rngs f) (f_mods f) (f_scopes f).

Lemma load_self b f : load (istate_of b f) f = f.
Proof. now destruct b, f. Qed.
Lemma temp_load f s : temp_frame f s = with_rngs (f_rng f :: f_rngs f) (load s f).
Proof. reflexivity. Qed.

Definition keep_res {A B} (r : res A) (y : A -> res B) : res B :=
  match r with Ok a => y a | Exc e => Exc e | Fuel => Fuel end.

Lemma in_temp_spec {A} C n p w f fs s (k : val -> M A) (y : val -> frame -> res A) r w1 :
  (forall out v h t, w_frames v = h :: t -> exists h', k out v = (y out h, set_frames (h' :: t) v)) ->
  w_frames w = f :: fs ->
  run C n p (set_frames (load s f :: fs) w) = (r, w1) ->
  exists f1, w_frames w1 = f1 :: fs /\
  in_temp s (let! out := run C n p in k out) w
    = (keep_res r (fun out => y out (with_rngs (f_rng f :: f_rngs f) f1)), set_frames (f :: fs) w1).
Proof.
  intros Hk E H.
  destruct (run_graft C n p w (load s f) (f_rng f :: f_rngs f) fs (f :: fs) r w1 H) as (f1 & E1 & E2 & E3).
  exists f1. split; [assumption|].
  unfold in_temp, bindM, top_frame. rewrite E. cbn. unfold in_frame. rewrite E, temp_load, E3.
  set (g1 := with_rngs (f_rng f :: f_rngs f) f1).
  destruct r as [out|e|]; cbn.
  - destruct (Hk out (set_frames (g1 :: f :: fs) w1) g1 (f :: fs) eq_refl) as (h' & ->). cbn.
    now destruct (y out g1).
  - reflexivity.
  - reflexivity.
Qed.

Lemma k_internal {A} b (g : istate -> A) v h t : w_frames v = h :: t ->
  exists h', (let! s := internal_state b in retM (g s)) v = (Ok (g (istate_of b h)), set_frames (h' :: t) v).
Proof.
  intros E. exists h. unfold bindM, internal_state, bindM, top_frame. rewrite E. cbn. unfold retM, istate_of.
  destruct b; now rewrite set_frames_eq.
Qed.

Lemma k_reserve {A} C (k : M A) (y : frame -> res A) v h t :
  (forall v h t, w_frames v = h :: t -> exists h', k v = (y h, set_frames (h' :: t) v)) ->
  w_frames v = h :: t ->
  exists h', (reserve_block C ;;; k) v = (y (top_up C h), set_frames (h' :: t) v).
Proof.
  intros Hk E. unfold bindM. rewrite (reserve_block_eq C v h t E). unfold on_top. rewrite E.
  destruct (Hk (set_frames (top_up C h :: t) v) _ t eq_refl) as (h' & E').
  exists h'. exact E'.
Qed.

(** ** Updates *)
Lemma update_full_params p p1 : PT p p1 -> no_new_none p p1 -> update_recursive p (map2 as_update p1) = p1.
Proof.
  intros [H1 H2 H3] HN. apply bundles_ext.
  - intros k. rewrite update_bundle, map2_bundle. split; [intros [H|H]; auto|auto].
  - intros k n. rewrite lookup2_update, lookup2_map2. destruct (lookup2 k n p1) as [v|] eqn:E; cbn.
    + destruct v; try reflexivity. cbn. now apply HN.
    + destruct (lookup2 k n p) eqn:E0; [|reflexivity]. destruct (H2 k n) as [? ?]; [eauto|congruence].
Qed.
Lemma update_diff_params C p p1 : sound_identity C -> PT p p1 -> no_new_none p p1 ->
  update_recursive p (multimap (if_changed_param C) (fill_missing p p1) p1) = p1.
Proof.
  intros [HC _] [H1 H2 H3] HN. apply bundles_ext.
  - intros k. rewrite update_bundle, diff_bundle. split; [intros [H|H]; auto|auto].
  - intros k n. rewrite lookup2_update, lookup2_diff. destruct (lookup2 k n p1) as [v|] eqn:E; cbn.
    + unfold if_changed_param. destruct (lookup2 k n p) as [x|] eqn:E0; cbn.
      * assert (as_update v = None \/ as_update v = Some v) as [Hv|Hv] by (destruct v; auto).
        -- assert (v = VNone) as -> by (destruct v; auto; discriminate).
           pose proof (HN _ _ E) as E1. rewrite E0 in E1. injection E1 as ->. reflexivity.
        -- destruct x; rewrite ?Hv; try (destruct (c_same C _ v) eqn:Es; [apply HC in Es; now subst|reflexivity]); reflexivity.
      * destruct v; try reflexivity. exfalso. apply HN in E. congruence.
    + destruct (lookup2 k n p) eqn:E0; [|reflexivity]. destruct (H2 k n) as [? ?]; [eauto|congruence].
Qed.
Lemma update_full_state K s s1 : STK K s s1 -> update_recursive s (map2 Some s1) = s1.
Proof.
  intros [H1 H2 H3]. apply bundles_ext.
  - intros k. rewrite update_bundle, map2_bundle. split; [intros [H|H]; auto|auto].
  - intros k n. rewrite lookup2_update, lookup2_map2. destruct (lookup2 k n s1) as [v|] eqn:E; cbn; [reflexivity|].
    destruct (lookup2 k n s) as [[i c]|] eqn:E0; [|reflexivity]. destruct (H2 _ _ _ _ E0). congruence.
Qed.
Lemma update_diff_state C K s s1 : sound_identity C -> STK K s s1 ->
  update_recursive s (multimap (if_changed_state C) (fill_missing s s1) s1) = s1.
Proof.
  intros [HC _] [H1 H2 H3]. apply bundles_ext.
  - intros k. rewrite update_bundle, diff_bundle. split; [intros [H|H]; auto|auto].
  - intros k n. rewrite lookup2_update, lookup2_diff. destruct (lookup2 k n s1) as [[a b]|] eqn:E; cbn.
    + destruct (lookup2 k n s) as [[i c]|] eqn:E0; cbn; [|reflexivity].
      destruct (c_same C i a) eqn:Ea; [|reflexivity]. destruct (c_same C c b) eqn:Eb; [|reflexivity].
      apply HC in Ea, Eb. now subst.
    + destruct (lookup2 k n s) as [[i c]|] eqn:E0; [|reflexivity]. destruct (H2 _ _ _ _ E0). congruence.
Qed.

Lemma rng_rel_none a b : rng_rel a b -> (a = None <-> b = None).
Proof. destruct a, b; cbn; intros H; try destruct H; split; congruence. Qed.

Local Arguments update_recursive : simpl never.
Local Arguments map2 : simpl never.
Local Arguments multimap : simpl never.
Lemma commit_full s f : FTT f (load s f) -> (forall p, is_params s = Some p -> f_frozen f = false -> no_new_none (f_params f) p) ->
  apply_delta (full_delta s) f = load s f.
Proof.
  intros [H1 H2 H3 H4 H5 H6 H7 H8] HN. cbn in *. apply rng_rel_none in H5.
  unfold apply_delta, full_delta. cbn. destruct f as [p fz st r rs ms sc], s as [sp ss sr]; cbn in *.
  assert (Hs : update_recursive st (map2 Some ss) = ss) by eapply update_full_state, H4.
  destruct sp as [sp|]; cbn in *.
  - destruct fz; cbn.
    + rewrite (H2 eq_refl). destruct sr, r; cbn; rewrite ?Hs; try reflexivity; exfalso; intuition congruence.
    + rewrite update_full_params by (auto || now apply HN).
      destruct sr, r; cbn; rewrite ?Hs; try reflexivity; exfalso; intuition congruence.
  - destruct sr, r; cbn; rewrite ?Hs; try reflexivity; exfalso; intuition congruence.
Qed.
Lemma commit_diff C b s f : sound_identity C -> FTT f (load s f) -> is_some (is_params s) = b ->
  (forall p, is_params s = Some p -> f_frozen f = false -> no_new_none (f_params f) p) ->
  apply_delta (difference C (istate_of b f) s) f = load s f.
Proof.
  intros HC [H1 H2 H3 H4 H5 H6 H7 H8] Hb HN. cbn in *. apply rng_rel_none in H5.
  unfold apply_delta, difference. cbn. destruct f as [p fz st r rs ms sc], s as [sp ss sr]; cbn in *.
  assert (Hs : update_recursive st (multimap (if_changed_state C) (fill_missing st ss) ss) = ss) by (eapply update_diff_state; [assumption|apply H4]).
  assert (Hr : forall g, f_rng g = r ->
     match match r with Some a => match sr with Some b => if c_same_rng C a b then None else Some b | None => None end | None => sr end, r with
     | Some s, Some _ => set_rng (Some s) g | _, _ => g end = set_rng sr g).
  { intros g Eg. destruct r as [a|], sr as [b'|]; try (exfalso; intuition congruence).
    - destruct (c_same_rng C a b') eqn:E; [|reflexivity]. apply (proj2 HC) in E. subst. destruct g; cbn in *. now subst.
    - destruct g; cbn in *. now subst. }
  destruct sp as [sp|]; cbn in *; subst b; cbn.
  - destruct fz; cbn.
    + rewrite Hr by reflexivity. cbn. now rewrite (H2 eq_refl), Hs.
    + rewrite Hr by reflexivity. cbn. rewrite update_diff_params, Hs by (auto || now apply HN). reflexivity.
  - rewrite Hr by reflexivity. cbn. now rewrite Hs.
Qed.

(** ** jit *)
Lemma run_FT C n p w f fs r w1 f1 : w_frames w = f :: fs -> run C n p w = (r, w1) -> w_frames w1 = f1 :: fs -> FTT f f1.
Proof.
  intros E H E1. pose proof (run_T C n p (fun _ => False) w r w1 H) as HT. destruct HT. rewrite E, E1 in *. cbn in *. tauto.
Qed.
Lemma FT_scopes f f1 s : FTT f f1 -> Forall2 scope_le (f_scopes f) s -> FTT f (set_scopes s f1).
Proof. intros [] H. split; auto. Qed.


Lemma load_scopes f f1 : FTT f f1 -> load (istate_of true f1) f = set_scopes (f_scopes f) f1.
Proof. intros []. destruct f, f1; cbn in *. now subst. Qed.
Lemma scopes_refl l : Forall2 scope_le l l.
Proof. induction l; constructor; auto using scope_le_refl. Qed.
Lemma FT_load f f1 : FTT f f1 -> FTT f (load (istate_of true f1) f).
Proof. intros H. rewrite load_scopes by assumption. apply FT_scopes; [assumption|apply scopes_refl]. Qed.

(** What a run under [hk.jit] does, in terms of the plain run. *)
Lemma jit_run C n p w f fs r w1 : sound_identity C ->
  w_frames w = f :: fs -> run C n p w = (r, w1) ->
  (forall out f1, r = Ok out -> w_frames w1 = f1 :: fs -> f_frozen f = false -> no_new_none (f_params f) (f_params f1)) ->
  run C (S n) (Jit p) w =
    (r, match r with
        | Ok _ => on_top (set_scopes (f_scopes f)) w1
        | _ => set_frames (w_frames w) w1
        end).
Proof.
  intros HC E H HN. cbn [run step]. unfold jit.
  assert (Hi : internal_state true w = (Ok (istate_of true f), w)).
  { unfold internal_state, bindM, top_frame. now rewrite E. }
  unfold bindM at 1. rewrite Hi.
  assert (H' : run C n p (set_frames (load (istate_of true f) f :: fs) w) = (r, w1)).
  { rewrite load_self, set_frames_eq by assumption. exact H. }
  destruct (in_temp_spec C n p w f fs (istate_of true f)
     (fun out => let! s_out := internal_state true in retM (out, difference C (istate_of true f) s_out))
     (fun out h => Ok (out, difference C (istate_of true f) (istate_of true h))) r w1) as (f1 & E1 & E2); auto.
  { intros out v h t Ev. exact (k_internal true (fun s => (out, difference C (istate_of true f) s)) v h t Ev). }
  unfold bindM at 1. rewrite E2. rewrite E.
  destruct r as [out|e|]; cbn; [|reflexivity|reflexivity].
  unfold bindM, update_internal_state, modify, retM. f_equal. cbn.
  unfold on_top. cbn. rewrite E1.
  pose proof (run_FT C n p w f fs (Ok out) w1 f1 E H E1) as HF.
  change (istate_of true (with_rngs (f_rng f :: f_rngs f) f1)) with (istate_of true f1).
  rewrite commit_diff; auto.
  - now rewrite load_scopes.
  - now apply FT_load.
  - cbn. intros q [= <-] Hz. now apply (HN out f1).
Qed.

(** C09, C10, C14, C15, C16, C21, C22, C23: random sequences that are not used,
    nested transforms, and the stateful wrappers around JAX transformations. *)
From stdpp Require Import gmap list strings.
From Coq Require Import String Ascii ZArith Lia.
From Verif Require Import ModelStr ModelRng ModelCore SpecCore SpecStateful Demo ProofsStr ProofsMap ProofsNames ProofsRng ProofsEvolve ProofsRun ProofsOps ProofsModule ProofsSim ProofsGraft ProofsStateful.
Local Open Scope string_scope.
Local Open Scope list_scope.

(** ** C09: success without an rng implies independence of the rng *)

(** Functions without [maybe_next_rng_key] and without [except] clauses, whose [while_loop]s
    leave the random sequence's reserve as it is and whose [vmap]ped functions treat it alike
    in every lane ([rng_blind_ops], SpecStateful.v); the refutations below show the first
    three conditions to be necessary. *)
Theorem C09_rng_irrelevant C n ps st k f w v st' w1 :
  code_ok (rng_blind_ops C) C -> all_ops (rng_blind_ops C) f -> heap_ok (rng_blind_ops C) w ->
  hk_apply C n ps st None f w = (Ok (v, st'), w1) ->
  hk_apply C n ps st (Some k) f w = (Ok (v, st'), w1).
Proof.
  intros HC Hf HI H. unfold hk_apply, apply_fn in *.
  apply bind_ok in H as ([a g] & w2 & H1 & H2). unfold retM in H2. injection H2; intros; subst; clear H2.
  unfold in_frame in H1. set (fs := w_frames w) in *. cbn [rng_of fmap option_fmap option_map] in *.
  destruct (run C n f (set_frames (new_frame (Some ps) (Some st) None :: fs) w)) as [r w3] eqn:Er.
  assert (Hs : sim C Loose (rng_blind_ops C) (Base (false, true) [] [] []) fs fs eq (run C n f) (run C n f)).
  { apply run_sim; auto; [|now intros v0|discriminate]. intros [] Hp; cbn in *; auto; contradiction. }
  set (q := Some (seq_of_key k)).
  specialize (Hs (set_frames (new_frame (Some ps) (Some st) None :: fs) w) (set_frames (new_frame (Some ps) (Some st) q :: fs) w)).
  unfold post in Hs. rewrite Er in Hs.
  assert (HR : R C Loose (rng_blind_ops C) (Base (false, true) [] [] []) fs fs
     (set_frames (new_frame (Some ps) (Some st) None :: fs) w) (set_frames (new_frame (Some ps) (Some st) q :: fs) w)).
  { split; [now apply GR_self|]. do 2 eexists. split; [reflexivity|]. split; [reflexivity|].
    split; cbn; auto. repeat split. right. left. auto. }
  specialize (Hs HR). destruct r as [v0|e|]; try (destruct (w_frames w3); discriminate).
  destruct Hs as (v' & w3' & Er' & <- & HG & h & h' & E & E' & HF).
  rewrite E in H1. injection H1; intros; subst; clear H1. cbn [fst snd].
  unfold bindM, in_frame. fold fs.
  change (Some (seq_of_key k)) with q.
  rewrite Er', E'. cbn. unfold retM. rewrite (fr_state _ _ _ _ _ HF). f_equal.
  rewrite (GR_eq _ _ _ HG), E'. reflexivity.
Qed.
Print Assumptions C09_rng_irrelevant.

(** Functions that do not mention the random sequence. *)
Lemma name_rng w b w1 : current_bundle_name w = (Ok b, w1) -> w1 = w.
Proof.
  unfold current_bundle_name, bindM, top_frame. destruct (w_frames w) as [|f fs]; [discriminate|].
  destruct (f_mods f) as [|[m z] ms]; [now intros [= _ <-]|].
  unfold safe_get_module_name, bindM, reads, retM. destruct (w_mods w !! m) as [[[nm|] cl]|]; cbn; try discriminate. now intros [= _ <-].
Qed.
Lemma set_keeps C n name v w a w1 g h :
  run C n (SetState name v) w = (Ok a, w1) -> top w = Some g -> top w1 = Some h -> f_rng h = f_rng g.
Proof.
  destruct n; [discriminate|]. cbn [run step]. unfold set_state, bindM. destruct (current_bundle_name w) as [[b|e|] w2] eqn:E; try discriminate.
  apply name_rng in E as ->. unfold modify, retM, on_top, top. destruct (w_frames w) as [|f fs] eqn:E; [discriminate|].
  cbn. intros [= <- <-] [= <-] [= <-]. reflexivity.
Qed.
Definition C09_less (v : val) : prog := match v with VInt z => Ret (VBool (z <? 3)%Z) | _ => Ret (VBool false) end.
Definition C09_inc (v : val) : prog := Bind (SetState "x" v) (fun _ => Ret (match v with VInt z => VInt (z + 1) | _ => v end)).
Lemma C09_less_keeps C : keeps_rng C C09_less.
Proof.
  intros n x w a w1 g h. destruct n; [discriminate|]. unfold C09_less. destruct x; cbn; intros [= _ <-] E F; congruence.
Qed.
Lemma C09_inc_keeps C : keeps_rng C C09_inc.
Proof.
  intros n x w a w1 g h. destruct n; [discriminate|]. unfold C09_inc. cbn [run step]. unfold bindM.
  destruct (run C n (SetState "x" x) w) as [[b|e|] w2] eqn:E; try discriminate. destruct n; [discriminate|].
  intros [= _ <-] T1 T2. exact (set_keeps _ _ _ _ _ _ _ _ _ E T1 T2).
Qed.
Lemma C09_lane_keeps C : keeps_rng C (fun x => then_ (SetState "y" (VInt 7)) (Ret x)).
Proof.
  intros n x w a w1 g h. destruct n; [discriminate|]. unfold then_. cbn [run step]. unfold bindM.
  destruct (run C n (SetState "y" (VInt 7)) w) as [[b|e|] w2] eqn:E; try discriminate. destruct n; [discriminate|].
  intros [= _ <-] T1 T2. exact (set_keeps _ _ _ _ _ _ _ _ _ E T1 T2).
Qed.
Lemma keeps_uniform C f : keeps_rng C f -> uniform_lanes C f.
Proof.
  intros H n x y w w' a b w1 w1' g g' h h' R1 R2 T1 T2 E T3 T4.
  rewrite (H _ _ _ _ _ _ _ R1 T1 T3), (H _ _ _ _ _ _ _ R2 T2 T4). exact E.
Qed.
Lemma keeps_both C f : keeps_rng C f -> keeps_reserve C f.
Proof. intros H n x w a w1 g h R1 T1 T2. unfold reserve_size. now rewrite (H _ _ _ _ _ _ _ R1 T1 T2). Qed.

(** A function that reads parameters and state, makes modules, branches, loops, maps. *)
Definition C09_demo : prog :=
  Bind (linear (VInt 3)) (fun w =>
  Bind (While C09_less C09_inc (VInt 0)) (fun _ =>
  Bind (Vmap (fun x => then_ (SetState "y" (VInt 7)) (Ret x)) [VInt 1; VInt 2]) (fun _ =>
    Cond true (Ret w) (then_ (SetState "x" (VInt 1)) (Ret w))))).
Definition C09_params : bundles val := {[ "linear" := {[ "w" := VArr [2; 3] 5 ]} ]}.
Definition C09_state : bundles val := {[ "linear" := {[ "calls" := VInt 0 ]}; "~" := {[ "x" := VInt 0 ]} ]}.
Example C09_case : all_ops (rng_blind_ops demo) C09_demo /\ code_ok (rng_blind_ops demo) demo /\ heap_ok (rng_blind_ops demo) empty_world /\
  fmap (M:=option) fst (result (hk_apply demo 20 C09_params C09_state None C09_demo empty_world)) = Some (VArr [2; 3] 5) /\
  fmap (M:=option) fst (result (hk_apply demo 20 C09_params C09_state (Some (Seed 1)) C09_demo empty_world)) = Some (VArr [2; 3] 5).
Proof.
  split.
  { unfold C09_demo, linear, C09_less, C09_inc. ops_with ltac:(first [split; [apply C09_less_keeps|apply keeps_both, C09_inc_keeps]|apply keeps_uniform, C09_lane_keeps]). } split.
  { split; cbn; intros; try ops. repeat case_match; ops. }
  split; [constructor|]. vm_compute. auto.
Qed.

(** Not so for [while_loop]: a body containing [hk.cond] reserves a random key if
    there is an rng, which changes the structure of the loop carry. *)
Definition C09_while : prog :=
  While (fun v => match v with VInt z => Ret (VBool (z <? 1)%Z) | _ => Ret (VBool false) end)
        (fun v => Cond true (Ret (VInt 1)) (Ret (VInt 2))) (VInt 0).
Theorem C09_while_refuted :
  ~ (forall C n ps st k f w v st' w1, all_ops (fun p => p <> MaybeNextKey /\ forall a h, p <> TryExcept a h) f ->
      hk_apply C n ps st None f w = (Ok (v, st'), w1) ->
      exists w2, hk_apply C n ps st (Some k) f w = (Ok (v, st'), w2)).
Proof.
  intros H.
  assert (E : exists v st' w1, hk_apply demo 20 ∅ ∅ None C09_while empty_world = (Ok (v, st'), w1) /\ True).
  { apply witness2. vm_compute. exact Logic.I. }
  destruct E as (v & st' & w1 & E & _).
  destruct (H demo 20 ∅ ∅ (Seed 0) C09_while empty_world v st' w1) as [w2 E2]; [|exact E|].
  - unfold C09_while. ops_with ltac:(split; [|intros ? ?]; discriminate).
  - assert (G : error (hk_apply demo 20 ∅ ∅ (Some (Seed 0)) C09_while empty_world) = Some ETypeError) by (vm_compute; reflexivity).
    rewrite E2 in G. discriminate.
Qed.
Print Assumptions C09_while_refuted.

(** Nor with [maybe_next_rng_key]: the function is told whether there is an rng. *)
Theorem C09_maybe_refuted :
  ~ (forall C n ps st k f w v st' w1, all_ops (fun p => (forall a h, p <> TryExcept a h) /\ forall c b v, p <> While c b v) f ->
      hk_apply C n ps st None f w = (Ok (v, st'), w1) ->
      exists w2, hk_apply C n ps st (Some k) f w = (Ok (v, st'), w2)).
Proof.
  intros H.
  assert (E : exists v st' w1, hk_apply demo 20 ∅ ∅ None (Bind MaybeNextKey (fun k => match k with VNone => Ret (VInt 0) | _ => Ret (VInt 1) end)) empty_world = (Ok (v, st'), w1) /\ v = VInt 0).
  { apply witness2. vm_compute. reflexivity. }
  destruct E as (v & st' & w1 & E & ->).
  destruct (H demo 20 ∅ ∅ (Seed 0) (Bind MaybeNextKey (fun k => match k with VNone => Ret (VInt 0) | _ => Ret (VInt 1) end)) empty_world (VInt 0) st' w1) as [w2 E2]; [|exact E|].
  - ops_with ltac:(split; intros; discriminate).
  - assert (G : fmap (M:=option) fst (result (hk_apply demo 20 ∅ ∅ (Some (Seed 0)) (Bind MaybeNextKey (fun k => match k with VNone => Ret (VInt 0) | _ => Ret (VInt 1) end)) empty_world)) = Some (VInt 1)) by (vm_compute; reflexivity).
    rewrite E2 in G. discriminate.
Qed.
Print Assumptions C09_maybe_refuted.

(** Nor with an [except] clause around [next_rng_key]. *)
Theorem C09_try_refuted :
  ~ (forall C n ps st k f w v st' w1, all_ops (fun p => p <> MaybeNextKey /\ forall c b v, p <> While c b v) f ->
      hk_apply C n ps st None f w = (Ok (v, st'), w1) ->
      exists w2, hk_apply C n ps st (Some k) f w = (Ok (v, st'), w2)).
Proof.
  intros H.
  assert (E : exists v st' w1, hk_apply demo 20 ∅ ∅ None (TryExcept (then_ NextKey (Ret (VInt 1))) (fun _ => Ret (VInt 0))) empty_world = (Ok (v, st'), w1) /\ v = VInt 0).
  { apply witness2. vm_compute. reflexivity. }
  destruct E as (v & st' & w1 & E & ->).
  destruct (H demo 20 ∅ ∅ (Seed 0) (TryExcept (then_ NextKey (Ret (VInt 1))) (fun _ => Ret (VInt 0))) empty_world (VInt 0) st' w1) as [w2 E2]; [|exact E|].
  - ops_with ltac:(split; intros; discriminate).
  - assert (G : fmap (M:=option) fst (result (hk_apply demo 20 ∅ ∅ (Some (Seed 0)) (TryExcept (then_ NextKey (Ret (VInt 1))) (fun _ => Ret (VInt 0))) empty_world)) = Some (VInt 1)) by (vm_compute; reflexivity).
    rewrite E2 in G. discriminate.
Qed.
Print Assumptions C09_try_refuted.

(** ** C10: nested transforms are isolated *)

(** Inside any transform (or none, [outer = []]), the result, the module objects and
    the creators/getters/interceptors in force afterwards are the same, and the
    enclosing frames - parameters, state, random sequence, module stack, name
    counters - are exactly what they were. Return or exception. *)
Theorem C10_nested_apply C n params state rng f w r w1 outer :
  run C (S n) (InnerApply params state rng f) w = (r, w1) ->
  w_frames w1 = w_frames w /\
  run C (S n) (InnerApply params state rng f) (set_frames outer w) = (r, set_frames outer w1).
Proof.
  cbn [run step]. intros H. destruct (dec params) as [ps|]; [|injection H as <- <-; auto].
  destruct (dec state) as [st|]; [|injection H as <- <-; auto].
  unfold apply_fn in *. unfold bindM in H. destruct (in_frame _ (run C n f) w) as [x w2] eqn:E.
  destruct (in_frame_nested _ _ _ _ _ outer _ _ E) as [E1 E2]. unfold bindM. rewrite E2.
  destruct x as [[a g]|e|]; injection H as <- <-; auto.
Qed.
Print Assumptions C10_nested_apply.
Theorem C10_nested_init C n rng f w r w1 outer :
  run C (S n) (InnerInit rng f) w = (r, w1) ->
  w_frames w1 = w_frames w /\
  run C (S n) (InnerInit rng f) (set_frames outer w) = (r, set_frames outer w1).
Proof.
  cbn [run step]. intros H. unfold init_fn in *. unfold bindM in H. destruct (in_frame _ (run C n f) w) as [x w2] eqn:E.
  destruct (in_frame_nested _ _ _ _ _ outer _ _ E) as [E1 E2]. unfold bindM. rewrite E2.
  destruct x as [[a g]|e|]; injection H as <- <-; auto.
Qed.
Print Assumptions C10_nested_init.
(** Its result is that of [init]/[apply] of the transformed function at top level. *)
Theorem C10_same_as_top_level C n ps st rng f w r w1 :
  hk_apply C n ps st rng f (set_frames [] w) = (r, w1) ->
  hk_apply C n ps st rng f w = (r, set_frames (w_frames w) w1).
Proof.
  unfold hk_apply, apply_fn. intros H. unfold bindM in *. destruct (in_frame _ (run C n f) _) as [x w2] eqn:E.
  destruct (in_frame_nested _ _ _ _ _ (w_frames w) _ _ E) as [E1 E2].
  rewrite set_frames_twice, set_frames_id in E2. rewrite E2.
  destruct x as [[a g]|e|]; injection H as <- <-; auto.
Qed.
Print Assumptions C10_same_as_top_level.

(** Inner parameters, modules and keys inside an outer module; the outer counter
    and sequence are untouched. *)
Example C10_case :
  result (run demo 30 (Bind (linear (VInt 1)) (fun _ =>
     Bind (InnerInit (Some (Seed 5)) (then_ (linear VNone) (linear VNone))) (fun r =>
     Bind (linear (VInt 2)) (fun _ => Bind NextKey (fun k => Ret (VTup [r; k]))))))
    (init_world (Some (Seed 0)))) =
  Some (VTup [VTup [VDict [("linear", VDict [("w", VArr [2; 3] 7)]); ("linear_1", VDict [("w", VArr [2; 3] 7)])];
                    VDict [("linear", VDict [("calls", VInt 1)]); ("linear_1", VDict [("calls", VInt 1)])]];
              VKey (Split (Seed 0) 2 1)]).
Proof. vm_compute. reflexivity. Qed.

(** Creators, getters and interceptors of the outer function, however, do apply to
    the inner one. *)
Definition C10_code : code := Code (c_fun demo) (c_init demo) (fun c r sh dt i ctx => Ret (VArr sh 99)) (c_getter demo) (c_icpt demo)
  (c_same demo) (c_same_rng demo) 1.
Theorem C10_creators_reach_inside_refuted :
  ~ (forall C n rng f c g w r r' w1 w2, run C (S n) (InnerInit rng f) w = (r, w1) ->
       run C (S (S n)) (WithCreator c true g (InnerInit rng f)) w = (r', w2) -> r = r').
Proof.
  intros H. specialize (H C10_code 20 None (linear (VInt 1)) (VInt 0) true (init_world None)).
  destruct (run C10_code 21 (InnerInit None (linear (VInt 1))) (init_world None)) as [r w1] eqn:E1.
  destruct (run C10_code 22 (WithCreator (VInt 0) true true (InnerInit None (linear (VInt 1)))) (init_world None)) as [r' w2] eqn:E2.
  specialize (H _ _ _ _ eq_refl eq_refl).
  assert (G1 : fst (run C10_code 21 (InnerInit None (linear (VInt 1))) (init_world None)) =
    Ok (VTup [VDict [("linear", VDict [("w", VArr [2; 3] 1)])]; VDict [("linear", VDict [("calls", VInt 1)])]])) by (vm_compute; reflexivity).
  assert (G2 : fst (run C10_code 22 (WithCreator (VInt 0) true true (InnerInit None (linear (VInt 1)))) (init_world None)) =
    Ok (VTup [VDict [("linear", VDict [("w", VArr [2; 3] 99)])]; VDict [("linear", VDict [("calls", VInt 1)])]])) by (vm_compute; reflexivity).
  rewrite E1 in G1. rewrite E2 in G2. cbn in G1, G2. congruence.
Qed.
Print Assumptions C10_creators_reach_inside_refuted.

(** ** C14: hk.jit, hk.remat, hk.named_call, hk.value_and_grad are transparent *)

(** If the function returns, everything is as if it had been called directly, except
    that the counters for default module names are put back (see C15). *)
Theorem C14_jit_returns C n p w f v w1 f1 :
  sound_identity C -> top w = Some f -> run C n p w = (Ok v, w1) -> top w1 = Some f1 ->
  (f_frozen f = false -> no_new_none (f_params f) (f_params f1)) ->
  exists w', run C (S n) (Jit p) w = (Ok v, w') /\
    top w' = Some (set_scopes (f_scopes f) f1) /\ tail (w_frames w') = tail (w_frames w1) /\
    w' = set_frames (w_frames w') w1.
Proof.
  intros HC F E F1 HN. apply top_Some in F as [fs F]. destruct (run_frames _ _ _ _ _ _ _ _ F E) as (g & Eg & _).
  unfold top in F1. rewrite Eg in F1. injection F1 as ->.
  eexists. split.
  - apply (jit_run C n p w f fs (Ok v) w1 HC F E). intros out g _ Eg2 Hz. rewrite Eg in Eg2. injection Eg2 as <-. auto.
  - unfold on_top, top. rewrite Eg. cbn. auto.
Qed.
Print Assumptions C14_jit_returns.
(** If it raises, parameters, state, random sequence and everything else in the
    frames are as before the call, the exception is the same. *)
Theorem C14_jit_raises C n p w f e w1 :
  sound_identity C -> top w = Some f -> run C n p w = (Exc e, w1) ->
  exists w', run C (S n) (Jit p) w = (Exc e, w') /\ w_frames w' = w_frames w.
Proof.
  intros HC F E. apply top_Some in F as [fs F]. eexists. split.
  - apply (jit_run C n p w f fs (Exc e) w1 HC F E). intros out g [=].
  - reflexivity.
Qed.
Print Assumptions C14_jit_raises.
Example C14_sound : sound_identity demo.
Proof. split; intros a b H; cbn in H; now apply bool_decide_eq_true in H. Qed.
Example C14_case :
  let p := then_ (SetState "s" (VInt 4)) (Bind NextKey (fun k => then_ (linear VNone) (Ret k))) in
  let raising := then_ p (Raise (EUser VNone)) in
  params_at "linear" "w" (hk_init demo 30 (Some (Seed 0)) (Jit p) empty_world) = Some (VArr [2; 3] 7) /\
  state_at "~" "s" (hk_init demo 30 (Some (Seed 0)) (Jit p) empty_world) = Some (VInt 4) /\
  params_at "linear" "w" (hk_init demo 30 (Some (Seed 0)) (TryExcept (Jit raising) (fun _ => Ret VNone)) empty_world) = None /\
  state_at "~" "s" (hk_init demo 30 (Some (Seed 0)) (TryExcept (Jit raising) (fun _ => Ret VNone)) empty_world) = None /\
  state_at "~" "s" (hk_init demo 30 (Some (Seed 0)) (TryExcept raising (fun _ => Ret VNone)) empty_world) = Some (VInt 4).
Proof. vm_compute. auto. Qed.

(** Because the random sequence is put back too, keys handed out during a failed
    attempt are handed out again: the guarantee of C07 does not hold across a
    caught exception out of [hk.jit]. *)
Definition C14_retry (attempt : prog -> prog) : prog :=
  TryExcept (attempt (Bind NextKey (fun k => Raise (EUser k))))
    (fun e => match e with EUser k => Bind NextKey (fun k2 => Ret (VTup [k; k2])) | _ => Ret VNone end).
Theorem C14_failed_jit_key_reuse_refuted :
  ~ (forall C n attempt w k1 k2 w1, sound_identity C -> attempt = Jit ->
      run C n (C14_retry attempt) w = (Ok (VTup [VKey k1; VKey k2]), w1) -> k1 <> k2).
Proof.
  intros H.
  assert (G : fst (run demo 20 (C14_retry Jit) (init_world (Some (Seed 0)))) = Ok (VTup [VKey (Split (Seed 0) 2 1); VKey (Split (Seed 0) 2 1)])) by (vm_compute; reflexivity).
  destruct (run demo 20 (C14_retry Jit) (init_world (Some (Seed 0)))) as [r w1] eqn:E. cbn in G. subst r.
  exact (H _ _ _ _ _ _ _ C14_sound eq_refl E eq_refl).
Qed.
Print Assumptions C14_failed_jit_key_reuse_refuted.
Example C14_retry_plain :
  result (run demo 20 (C14_retry id) (init_world (Some (Seed 0)))) = Some (VTup [VKey (Split (Seed 0) 2 1); VKey (Split (Split (Seed 0) 2 0) 2 1)]).
Proof. vm_compute. reflexivity. Qed.

(** ** C15: module names under hk.jit *)

(** Two calls of the same function make two modules if called directly, but one and
    the same - with the same parameters - if each call is wrapped in [hk.jit]. *)
Definition C15_twice (p : prog) : prog := Bind p (fun a => Bind p (fun b => Ret (VTup [a; b]))).
Theorem C15_jit_names_refuted :
  ~ (forall C n p rng w ps st w1 ps' st' w2, sound_identity C ->
      hk_init C n rng (C15_twice p) w = (Ok (ps, st), w1) ->
      hk_init C n rng (C15_twice (Jit p)) w = (Ok (ps', st'), w2) ->
      dom ps (D := gset string) = dom ps' (D := gset string)).
Proof.
  intros H.
  assert (E1 : exists ps st w1, hk_init demo 20 None (C15_twice (linear (VInt 1))) empty_world = (Ok (ps, st), w1) /\ is_Some (ps !! "linear_1")).
  { apply witness2. vm_compute. eauto. }
  assert (E2 : exists ps st w1, hk_init demo 20 None (C15_twice (Jit (linear (VInt 1)))) empty_world = (Ok (ps, st), w1) /\ ps !! "linear_1" = None).
  { apply witness2. vm_compute. eauto. }
  destruct E1 as (ps & st & w1 & E1 & G1). destruct E2 as (ps' & st' & w2 & E2 & G2).
  specialize (H _ _ _ _ _ _ _ _ _ _ _ C14_sound E1 E2).
  apply elem_of_dom in G1. rewrite H in G1. apply elem_of_dom in G1. rewrite G2 in G1. clear - G1. destruct G1 as [x G]. discriminate G.
Qed.
Print Assumptions C15_jit_names_refuted.
(** The second "layer" then silently uses the parameters of the first. *)
Definition C15_two_layers (wrap : prog -> prog) : prog :=
  Bind (wrap (linear (VInt 1))) (fun a => Bind (wrap (linear (VInt 2))) (fun b => Ret (VTup [a; b]))).
Example C15_case :
  result (run demo 20 (C15_two_layers id) (init_world None)) = Some (VTup [VArr [2; 3] 1; VArr [2; 3] 2]) /\
  result (run demo 20 (C15_two_layers Jit) (init_world None)) = Some (VTup [VArr [2; 3] 1; VArr [2; 3] 1]).
Proof. vm_compute. auto. Qed.

(** ** C16: hk.cond, hk.switch *)

(** A successful [hk.switch]: all branches could be traced from the state before the
    call (random keys topped up), with results of the same structure; the outcome is
    that of the selected one: its value, and a current frame that differs from the
    one the branch ended in only by topped-up random keys and by the counters for
    default names, put back to those before the call. *)
Theorem C16_switch_commits_selected C n i bs w f fs out w' :
  w_frames w = f :: fs ->
  run C (S n) (Switch i bs) w = (Ok out, w') ->
  exists l w2 f1,
    traced C n bs (on_top (top_up C) w) l w2 /\ l !! clamp i (List.length bs) = Some (out, f1) /\
    Forall (fun r => same_results r (out, f1)) l /\
    w' = set_frames (w_frames w') w2 /\
    ((f_frozen f = false -> no_new_none (f_params f) (f_params f1)) ->
     w_frames w' = set_scopes (f_scopes f) (top_up C f1) :: fs).
Proof.
  intros E H. cbn [run step] in H. apply (switch_iff C n i bs w f fs out w' E) in H as (l & w2 & f1 & Hl & Hi & Hs & ->).
  exists l, w2, f1. split; [assumption|]. split; [assumption|]. split; [assumption|].
  split; [now cbn|]. intros HN. cbn.
  rewrite switch_frame; [reflexivity| |assumption].
  assert (E2 : w_frames (on_top (top_up C) w) = top_up C f :: fs) by (unfold on_top; now rewrite E).
  destruct (traced_frames _ _ _ _ _ _ _ _ Hl E2) as [_ HF]. rewrite Forall_forall in HF.
  apply elem_of_list_lookup_2 in Hi. exact (HF _ Hi).
Qed.
Print Assumptions C16_switch_commits_selected.
(** Conversely it succeeds whenever all branches do and the results, parameters and
    states have the same structure - whatever number of random keys they draw. *)
Theorem C16_switch_succeeds C n i bs w f fs l w2 out f1 :
  w_frames w = f :: fs ->
  traced C n bs (on_top (top_up C) w) l w2 -> l !! clamp i (List.length bs) = Some (out, f1) ->
  Forall (fun r => same_results r (out, f1)) l ->
  exists w', run C (S n) (Switch i bs) w = (Ok out, w').
Proof.
  intros E Hl Hi Hs. eexists. cbn [run step].
  apply (switch_iff C n i bs w f fs out _ E). eauto 8.
Qed.
Print Assumptions C16_switch_succeeds.
(** [hk.cond] is [hk.switch] between its two branches. *)
Theorem C16_cond_is_switch C n b pt pf w :
  run C (S n) (Cond b pt pf) w = run C (S n) (Switch (if b then 0 else 1) [pt; pf]) w.
Proof. reflexivity. Qed.
Print Assumptions C16_cond_is_switch.
(** Branches drawing 0, 1 and 3 keys, the second selected; its state is kept, the
    keys afterwards continue after the one it drew. *)
Example C16_case :
  let bs := [then_ (SetState "s" (VInt 10)) (Ret (VInt 0));
             Bind NextKey (fun _ => then_ (SetState "s" (VInt 11)) (Ret (VInt 1)));
             Bind (NextKeys 3) (fun _ => then_ (SetState "s" (VInt 12)) (Ret (VInt 2)))] in
  let p := then_ (SetState "s" (VInt 0)) (Bind (Switch 1 bs) (fun r => Bind NextKey (fun k =>
             Bind (GetState "s" None None None) (fun s => Ret (VTup [r; k; s]))))) in
  result (run demo 20 p (init_world (Some (Seed 0)))) =
  Some (VTup [VInt 1; VKey (Split (Split (Seed 0) 2 0) 2 1); VInt 11]).
Proof. vm_compute. reflexivity. Qed.

(** ** C21: hk.eval_shape *)

Theorem C21_eval_shape_no_effect C n p w r w' :
  run C n (EvalShape p) w = (r, w') -> w_frames w' = w_frames w.
Proof.
  destruct n as [|n]; [now intros [= <- <-]|]. intros H.
  destruct (w_frames w) as [|f fs] eqn:E.
  - cbn [run step] in H. unfold eval_shape, internal_state, bindM, top_frame in H. rewrite E in H. injection H as <- <-. exact E.
  - destruct (run C n p w) as [r1 w1] eqn:E1. rewrite (eval_shape_run C n p w f fs r1 w1 E E1) in H.
    injection H as <- <-. exact E.
Qed.
Print Assumptions C21_eval_shape_no_effect.
(** Its result is the shape of what the function returns here; exceptions are those
    of the function. *)
Theorem C21_eval_shape_result C n p w f r1 w1 :
  top w = Some f -> run C n p w = (r1, w1) ->
  fst (run C (S n) (EvalShape p) w) = match r1 with Ok v => Ok (skel v) | Exc e => Exc e | Fuel => Fuel end.
Proof.
  intros F E1. apply top_Some in F as [fs E]. rewrite (eval_shape_run C n p w f fs r1 w1 E E1). now destruct r1.
Qed.
Print Assumptions C21_eval_shape_result.
Example C21_case :
  let p := then_ (SetState "s" (VInt 4)) (then_ (linear VNone) (Bind NextKey (fun k => Ret (VTup [k; VArr [2] 3])))) in
  result (run demo 20 (Bind (EvalShape p) (fun sh => Bind NextKey (fun k => Ret (VTup [sh; k])))) (init_world (Some (Seed 0)))) =
    Some (VTup [VTup [VKey (Seed 0); VArr [2] 0]; VKey (Split (Seed 0) 2 1)]) /\
  params_at "linear" "w" (hk_init demo 20 (Some (Seed 0)) (EvalShape p) empty_world) = None /\
  error (run demo 20 (EvalShape (then_ p (Raise (EUser VNone)))) (init_world (Some (Seed 0)))) = Some (EUser VNone).
Proof. vm_compute. auto. Qed.

(** ** C22: hk.vmap *)

(** Every lane runs from the frames before the call - the same parameters, state and
    random keys; the frame afterwards is the one each and every lane ended in. *)
Theorem C22_vmap_lanes C n g xs w f fs out w' :
  sound_identity C -> w_frames w = f :: fs ->
  run C (S n) (Vmap g xs) w = (Ok out, w') ->
  exists l w2, traced C n (List.map g xs) w l w2 /\ l <> [] /\ out = VTup (List.map fst l) /\
    ((f_frozen f = false -> Forall (fun r => no_new_none (f_params f) (f_params (snd r))) l) ->
     Forall (fun r => w' = set_frames (set_scopes (f_scopes f) (snd r) :: fs) w2) l).
Proof. apply vmap_ok. Qed.
Print Assumptions C22_vmap_lanes.
(** It succeeds whenever the lanes do and agree on everything written. *)
Theorem C22_vmap_succeeds C n g xs w f fs l w2 : w_frames w = f :: fs ->
  traced C n (List.map g xs) w l w2 -> l <> [] ->
  (forall r r', r ∈ l -> r' ∈ l -> same_contents (snd r) (snd r')) ->
  exists w', run C (S n) (Vmap g xs) w = (Ok (VTup (List.map fst l)), w').
Proof. apply vmap_succeeds. Qed.
Print Assumptions C22_vmap_succeeds.
(** Consequently the same key is handed out in all lanes. *)
Example C22_case :
  result (run demo 20 (Vmap (fun x => then_ (SetState "s" (VInt 5)) (Bind NextKey (fun k => Ret (VTup [x; k])))) [VInt 1; VInt 2])
    (init_world (Some (Seed 0)))) =
  Some (VTup [VTup [VInt 1; VKey (Split (Seed 0) 2 1)]; VTup [VInt 2; VKey (Split (Seed 0) 2 1)]]) /\
  state_at "~" "s" (hk_init demo 20 None (Vmap (fun x => SetState "s" (VInt 5)) [VInt 1; VInt 2]) empty_world) = Some (VInt 5) /\
  result (run demo 20 (Vmap (fun x => SetState "s" x) [VInt 1; VInt 2]) (init_world None)) = None.
Proof. vm_compute. auto. Qed.

(** ** C23: difference / update_recursive *)

(** Bundles and entries of [a] are also in [b]. *)
Definition keys_within {A} (a b : bundles A) : Prop :=
  (forall k, is_Some (a !! k) -> is_Some (b !! k)) /\
  (forall k n, is_Some (lookup2 k n a) -> is_Some (lookup2 k n b)).

(** Parameters. ([None] is the marker for a missing value and is not written.) *)
Theorem C23_params_diff C (a b : bundles val) :
  sound_identity C -> keys_within a b -> no_new_none a b ->
  update_recursive a (multimap (if_changed_param C) (fill_missing a b) b) = b.
Proof.
  intros [HC _] [H1 H2] HN. apply bundles_ext.
  - intros k. rewrite update_bundle, diff_bundle. split; [intros [H|H]; auto|auto].
  - intros k n. rewrite lookup2_update, lookup2_diff. destruct (lookup2 k n b) as [v|] eqn:E; cbn.
    + unfold if_changed_param. destruct (lookup2 k n a) as [x|] eqn:E0; cbn.
      * destruct (decide (v = VNone)) as [->|Hv].
        -- pose proof (HN _ _ E) as E1. rewrite E0 in E1. injection E1 as ->. reflexivity.
        -- assert (as_update v = Some v) as -> by (destruct v; auto; now destruct Hv).
           unfold default, id in *. change (match x with VNone => None | _ => Some x end) with (not_none (Some x)). destruct (not_none (Some x)) as [y|] eqn:En; [|reflexivity].
           assert (y = x) as -> by (destruct x; cbn in En; congruence).
           destruct (c_same C x v) eqn:Es; [|reflexivity]. apply HC in Es. now subst.
      * destruct (decide (v = VNone)) as [->|Hv]; [specialize (HN _ _ E); congruence|]. destruct v; auto; now destruct Hv.
    + destruct (lookup2 k n a) eqn:E0; [|reflexivity]. destruct (H2 k n) as [? ?]; [eauto|congruence].
Qed.
Print Assumptions C23_params_diff.
(** State. *)
Theorem C23_state_diff C (a b : bundles (val * val)) :
  sound_identity C -> keys_within a b ->
  update_recursive a (multimap (if_changed_state C) (fill_missing a b) b) = b.
Proof.
  intros [HC _] [H1 H2]. apply bundles_ext.
  - intros k. rewrite update_bundle, diff_bundle. split; [intros [H|H]; auto|auto].
  - intros k n. rewrite lookup2_update, lookup2_diff. destruct (lookup2 k n b) as [[x y]|] eqn:E; cbn.
    + destruct (lookup2 k n a) as [[i c]|] eqn:E0; cbn; [|reflexivity].
      destruct (c_same C i x) eqn:Ea; [|reflexivity]. destruct (c_same C c y) eqn:Eb; [|reflexivity].
      apply HC in Ea, Eb. now subst.
    + destruct (lookup2 k n a) eqn:E0; [|reflexivity]. destruct (H2 k n) as [? ?]; [eauto|congruence].
Qed.
Print Assumptions C23_state_diff.
(** The whole snapshot: parameters, state and random sequence. *)
Theorem C23_snapshot_diff C f g :
  sound_identity C -> keys_within (f_params f) (f_params g) -> no_new_none (f_params f) (f_params g) ->
  keys_within (f_state f) (f_state g) ->
  (f_frozen f = true -> f_params g = f_params f) -> (is_Some (f_rng f) <-> is_Some (f_rng g)) ->
  let h := apply_delta (difference C (istate_of true f) (istate_of true g)) f in
  f_params h = f_params g /\ f_state h = f_state g /\ f_rng h = f_rng g.
Proof.
  intros HC HP HN HS HF HR. unfold apply_delta, difference. cbn.
  pose proof (C23_params_diff C _ _ HC HP HN) as Ep. pose proof (C23_state_diff C _ _ HC HS) as Es.
  destruct HC as [_ HC].
  destruct f as [p fz st r rs ms sc], g as [p' fz' st' r' rs' ms' sc']; cbn in *.
  assert (forall x, f_params x = (if fz then p else p') -> f_state x = st -> f_rng x = r ->
    let h := (match match r with Some a => match r' with Some b => if c_same_rng C a b then None else Some b | None => None end | None => r' end, r with
             | Some s, Some _ => set_rng (Some s) (set_fstate (update_recursive (f_state x) (multimap (if_changed_state C) (fill_missing st st') st')) x)
             | _, _ => set_fstate (update_recursive (f_state x) (multimap (if_changed_state C) (fill_missing st st') st')) x end) in
    f_params h = p' /\ f_state h = st' /\ f_rng h = r').
  { intros x E1 E2 E3 h. assert (Hp : f_params x = p') by (destruct fz; [rewrite E1; symmetry; auto|exact E1]).
    subst h. destruct r as [q|], r' as [q'|]; cbn.
    - destruct (c_same_rng C q q') eqn:E; cbn; rewrite E2, ?Es; auto. apply HC in E. subst. auto.
    - destruct HR as [HR _]. destruct HR; [eauto|discriminate].
    - destruct HR as [_ HR]. destruct HR; [eauto|discriminate].
    - rewrite E2. auto. }
  destruct fz; cbn; apply (H (Frame _ _ _ _ _ _ _)); cbn; auto.
Qed.
Print Assumptions C23_snapshot_diff.
(** An identity relation that recognises nothing, and one that recognises equals. *)
Example C23_case :
  let a := ({[ "m" := {[ "w" := (VInt 1, VInt 1); "b" := (VInt 2, VInt 2) ]} ]} : bundles (val * val)) in
  let b := ({[ "m" := {[ "w" := (VInt 1, VInt 1); "b" := (VInt 2, VInt 3) ]}; "k" := {[ "x" := (VInt 0, VInt 0) ]}; "e" := ∅ ]} : bundles (val * val)) in
  keys_within a b /\ lookup2 "m" "w" (multimap (if_changed_state demo) (fill_missing a b) b) = Some None /\
  lookup2 "m" "b" (multimap (if_changed_state demo) (fill_missing a b) b) = Some (Some (VInt 2, VInt 3)).
Proof.
  split; [|vm_compute; auto]. split.
  - intros k [x Hx]. apply lookup_singleton_Some in Hx as [<- _]. vm_compute. eauto.
  - intros k n [x Hx]. apply lookup2_Some in Hx as (y & Hy & Hx). apply lookup_singleton_Some in Hy as [<- <-].
    apply lookup_insert_Some in Hx as [[<- _]|[_ Hx]]; [vm_compute; eauto|].
    apply lookup_singleton_Some in Hx as [<- _]. vm_compute. eauto.
Qed.

(** C01-C05, C08: context, parameters, state. *)
From stdpp Require Import gmap list strings.
From Coq Require Import String Ascii ZArith Lia.
From Verif Require Import ModelStr ModelRng ModelCore SpecCore Demo ProofsMap ProofsRng ProofsEvolve ProofsRun ProofsOps ProofsModule.
Local Open Scope string_scope.
Local Open Scope list_scope.

(** ** C01: the context is restored on every exit path *)

(** For every program (every nesting of scopes, every exception raised or caught),
    every code table and every starting context. *)
Theorem C01_context_restored C n p w r w' :
  run C n p w = (r, w') -> same_context w w'.
Proof. apply run_context. Qed.
Print Assumptions C01_context_restored.

(** [init] and [apply] leave the whole stack of enclosing transforms, with all
    their contents, and the creator/getter/interceptor stacks as they were. *)
Theorem C01_init_restores C n rng p w r w' :
  hk_init C n rng p w = (r, w') -> w_frames w' = w_frames w /\ same_context w w'.
Proof. intros E. apply hk_init_T in E as [HT HF]. split; [assumption|]. eapply T_same_context; eauto. Qed.
Print Assumptions C01_init_restores.
Theorem C01_apply_restores C n ps st rng p w r w' :
  hk_apply C n ps st rng p w = (r, w') -> w_frames w' = w_frames w /\ same_context w w'.
Proof. intros E. apply hk_apply_T in E as [HT HF]. split; [assumption|]. eapply T_same_context; eauto. Qed.
Print Assumptions C01_apply_restores.

(** A run that raises out of six nested scopes. *)
Example C01_case :
  let p := WithRng (Seed 1) (WithCreator (VInt 1) true true (WithGetter (VInt 2) true true
             (Intercept (VInt 3) (NameScope "a/b" (Jit (Bind (linear (VInt 5)) (fun _ => Raise (EUser VNone)))))))) in
  let '(r, w') := run demo 60 p (init_world (Some (Seed 0))) in
  r = Exc (EUser VNone) /\ w_icpt w' = [] /\ List.length (w_mods w') = 3.
Proof. vm_compute. auto. Qed.

(** ** C02: apply never creates, changes or drops a parameter *)

Theorem C02_params_fixed C n p w r w' f :
  run C n p w = (r, w') -> top w = Some f -> f_frozen f = true ->
  exists f', top w' = Some f' /\ f_params f' = f_params f.
Proof.
  intros E F Z. destruct (run_top _ _ _ _ _ _ _ E F) as (f' & F' & []). eauto.
Qed.
Print Assumptions C02_params_fixed.

(** [get_parameter] during apply: the supplied array, or an error; the state of
    the interpreter does not change, so no initializer or creator ran. *)
Theorem C02_get_parameter C n w f b name sh dt i :
  top w = Some f -> f_frozen f = true -> in_module w b -> w_pget w = [] ->
  (forall v, lookup2 b name (f_params f) = Some v -> vshape v = Some sh ->
     run C (S n) (GetParam name sh dt (Some i)) w = (Ok v, w)) /\
  (lookup2 b name (f_params f) = None ->
     run C (S n) (GetParam name sh dt (Some i)) w = (Exc (ENoParam b name), w)).
Proof.
  intros F Z B G. split.
  - intros v L V. erewrite get_param_existing; eauto.
    + rewrite V. now rewrite bool_decide_true.
    + now destruct v.
  - intros L. eapply get_param_missing_frozen; eauto. now rewrite L.
Qed.
Print Assumptions C02_get_parameter.

(** At the end of [apply]. *)
Theorem C02_apply_keeps_params C n ps st rng p w v f' w' :
  in_frame (new_frame (Some ps) (Some st) rng) (run C n p) w = (Ok (v, f'), w') -> f_params f' = ps.
Proof.
  intros E. apply (in_frame_T (fun _ => True) (fun _ => False) rng_rel (fun _ => False)) in E as (_ & _ & H).
  - destruct (H _ _ eq_refl) as [[] _]. now apply ft_frozen_params.
  - intros. eapply run_T; eauto.
  - apply rng_rel_refl.
Qed.
Print Assumptions C02_apply_keeps_params.

Example C02_case :
  let ps := {[ "linear" := {[ "w" := VArr [2; 3] 9 ]} ]} in
  result (hk_apply demo 30 ps ∅ None (linear (VInt 5)) empty_world) ≫= (fun r => Some (fst r)) = Some (VArr [2; 3] 9)
  /\ error (hk_apply demo 30 ps ∅ None (then_ (linear (VInt 5)) (linear (VInt 5))) empty_world)
     = Some (ENoParam "linear_1" "w").
Proof. vm_compute. auto. Qed.

(** ** C03: a parameter is created once *)

Theorem C03_param_stable C n p w r w' f b name v :
  run C n p w = (r, w') -> top w = Some f ->
  lookup2 b name (f_params f) = Some v -> v <> VNone ->
  exists f', top w' = Some f' /\ lookup2 b name (f_params f') = Some v.
Proof.
  intros E F L V. destruct (run_top _ _ _ _ _ _ _ E F) as (f' & F' & []).
  exists f'. split; [assumption|]. now apply ft_params.
Qed.
Print Assumptions C03_param_stable.

(** Requesting an existing parameter returns it without running anything. *)
Theorem C03_read_existing C n w f b name sh dt i v :
  top w = Some f -> in_module w b -> w_pget w = [] ->
  lookup2 b name (f_params f) = Some v -> vshape v = Some sh ->
  run C (S n) (GetParam name sh dt (Some i)) w = (Ok v, w).
Proof.
  intros F B G L V. erewrite get_param_existing; eauto.
  - rewrite V. now rewrite bool_decide_true.
  - now destruct v.
Qed.
Print Assumptions C03_read_existing.

(** [init] returns the value that existed at any earlier point. *)
Theorem C03_init_returns C n rng p k w ps st w' a w1 f1 b name v :
  hk_init C (S n) rng (Bind p k) w = (Ok (ps, st), w') ->
  run C n p (set_frames (new_frame None None (rng_of rng) :: w_frames w) w) = (Ok a, w1) ->
  top w1 = Some f1 -> lookup2 b name (f_params f1) = Some v -> v <> VNone ->
  lookup2 b name ps = Some v.
Proof.
  intros E E1 F1 L V. destruct (hk_init_bind _ _ _ _ _ _ _ _ _ _ _ _ E E1 F1) as (f2 & [] & -> & _).
  now apply ft_params.
Qed.
Print Assumptions C03_init_returns.

(** What a program gets has the shape it asked for, whatever creators, getters and
    initializers do. *)
Theorem C03_shape C n name sh dt i w v w' : run C n (GetParam name sh dt i) w = (Ok v, w') -> vshape v = Some sh.
Proof.
  intros E. destruct n as [|n]; [discriminate E|]. cbn [run step] in E. unfold get_parameter in E.
  apply bind_ok in E as (? & ? & _ & E). destruct i as [i|]; [|discriminate E].
  apply bind_ok in E as (? & ? & _ & E). apply bind_ok in E as (? & ? & _ & E).
  destruct (_ && _) in E; [discriminate E|].
  apply bind_ok in E as (? & ? & _ & E). apply bind_ok in E as (? & ? & _ & E). apply bind_ok in E as (? & ? & _ & E).
  apply bind_ok in E as (u & ? & _ & E). destruct (vshape u) as [sh'|] eqn:Es; [|discriminate E].
  destruct (bool_decide (sh' = sh)) eqn:Eb; [|discriminate E]. apply bool_decide_eq_true in Eb as ->. now injection E as <- _.
Qed.
Print Assumptions C03_shape.

Example C03_case :
  let p := then_ (NameScope "s" (GetParam "w" [1] "f" (Some (VInt 3))))
                 (then_ (GetParam "w" [1] "f" (Some (VInt 4))) (GetParam "w" [1] "f" (Some (VInt 5)))) in
  params_at "~" "w" (hk_init demo 30 None p empty_world) = Some (VArr [1] 4)
  /\ params_at "s" "w" (hk_init demo 30 None p empty_world) = Some (VArr [1] 3).
Proof. vm_compute. auto. Qed.

(** Without the proviso on initializers: one that requests the parameter it is
    initialising is handed a value that is then replaced. *)
Definition reentrant : code := Code (c_fun demo)
  (fun i sh dt => match i with
                  | VInt z => Ret (VArr sh z)
                  | _ => Bind (GetParam "w" sh dt (Some (VInt 1))) (fun v =>
                         then_ (SetState "seen" v) (Ret (VArr sh 2)))
                  end)
  (c_creator demo) (c_getter demo) (c_icpt demo) (c_same demo) (c_same_rng demo) 1.

Theorem C03_reentrant_initializer_refuted :
  exists C p ps st w', hk_init C 20 None p empty_world = (Ok (ps, st), w') /\
    lookup2 "~" "seen" st = Some (VArr [] 1) /\ lookup2 "~" "w" ps = Some (VArr [] 2).
Proof.
  exists reentrant, (GetParam "w" [] "f" (Some VNone)).
  apply witness2. vm_compute. auto.
Qed.
Print Assumptions C03_reentrant_initializer_refuted.

(** ** C04: init returns first values, apply last values *)

(** Once an entry exists its initial value never changes and it never disappears. *)
Theorem C04_initial_stable C n p w r w' f b name i c :
  run C n p w = (r, w') -> top w = Some f -> lookup2 b name (f_state f) = Some (i, c) ->
  exists f' c', top w' = Some f' /\ lookup2 b name (f_state f') = Some (i, c').
Proof.
  intros E F L. destruct (run_top _ _ _ _ _ _ _ E F) as (f' & F' & []).
  destruct (st_val _ _ _ ft_state _ _ _ _ L) as [c' Hc]. eauto.
Qed.
Print Assumptions C04_initial_stable.

(** The first [set_state] makes the value both initial and current. *)
Theorem C04_first_set C n w f b name v :
  top w = Some f -> in_module w b -> lookup2 b name (f_state f) = None ->
  exists w' f', run C (S n) (SetState name v) w = (Ok VNone, w') /\ top w' = Some f' /\
    lookup2 b name (f_state f') = Some (v, v).
Proof.
  intros F B L. eexists. eexists. split; [exact (set_state_run C n w f b name v F B)|].
  split; [exact (on_top_top _ _ _ F)|]. cbn. now rewrite L, lookup2_insert2_eq.
Qed.
Print Assumptions C04_first_set.

(** [init] returns, for an entry that exists at some point of the run, the value
    it was created with. *)
Theorem C04_init_returns_first C n rng p k w ps st w' a w1 f1 b name i c :
  hk_init C (S n) rng (Bind p k) w = (Ok (ps, st), w') ->
  run C n p (set_frames (new_frame None None (rng_of rng) :: w_frames w) w) = (Ok a, w1) ->
  top w1 = Some f1 -> lookup2 b name (f_state f1) = Some (i, c) ->
  lookup2 b name st = Some i.
Proof.
  intros E E1 F1 L. destruct (hk_init_bind _ _ _ _ _ _ _ _ _ _ _ _ E E1 F1) as (f2 & [] & _ & ->).
  destruct (st_val _ _ _ ft_state _ _ _ _ L) as [c' Hc].
  unfold extract_initial. now rewrite lookup2_map2, Hc.
Qed.
Print Assumptions C04_init_returns_first.

(** [apply] returns, for an entry whose name the rest of the program does not set
    any more, the current value (however many scopes, loops, jits follow). *)
Theorem C04_apply_returns_last C n ps0 st0 rng p k w v st w' a w1 f1 b name i c :
  hk_apply C (S n) ps0 st0 rng (Bind p k) w = (Ok (v, st), w') ->
  run C n p (set_frames (new_frame (Some ps0) (Some st0) (rng_of rng) :: w_frames w) w) = (Ok a, w1) ->
  top w1 = Some f1 -> lookup2 b name (f_state f1) = Some (i, c) ->
  all_ops (no_set (eq name)) (k a) -> code_ok (no_set (eq name)) C -> heap_ok (no_set (eq name)) w1 ->
  lookup2 b name st = Some c.
Proof.
  intros E E1 F1 L Hk HC HI.
  destruct (hk_apply_bind _ _ _ _ _ _ _ _ _ _ _ _ _ _ E E1 F1) as (w2 & f2 & E2 & F2 & ->).
  apply (run_T_keep C (eq name) n (k a) (fun _ => False)) in E2; auto.
  apply t_frames in E2. apply top_Some in F1 as [fs1 F1]. apply top_Some in F2 as [fs2 F2].
  rewrite F1, F2 in E2. destruct E2 as [[] _].
  unfold extract_current. rewrite lookup2_map2.
  now rewrite (st_keep _ _ _ ft_state _ _ _ _ eq_refl L).
Qed.
Print Assumptions C04_apply_returns_last.

(** Entries supplied to [apply] are in the state it returns. *)
Theorem C04_apply_keeps_entries C n ps st rng p w v st' w' b name x :
  hk_apply C n ps st rng p w = (Ok (v, st'), w') -> lookup2 b name st = Some x ->
  is_Some (lookup2 b name st').
Proof.
  unfold hk_apply, apply_fn, bindM. intros E L.
  destruct (in_frame _ _ w) as [r1 w1] eqn:E1.
  apply (in_frame_T (fun _ => True) (fun _ => False) rng_rel (fun _ => False)) in E1 as (_ & _ & H).
  - destruct r1 as [[a f]|e|]; try discriminate. injection E as <- <- <-.
    destruct (H _ _ eq_refl) as [[] _]. cbn in ft_state.
    destruct (st_val _ _ _ ft_state b name x x) as [c Hc].
    + rewrite lookup2_map2, L. reflexivity.
    + cbn. unfold extract_current. rewrite lookup2_map2, Hc. cbn. eauto.
  - intros. eapply run_T; eauto.
  - apply rng_rel_refl.
Qed.
Print Assumptions C04_apply_keeps_entries.

Example C04_case :
  let p := then_ (SetState "c" (VInt 1)) (then_ (SetState "c" (VInt 2)) (Jit (SetState "c" (VInt 3)))) in
  state_at "~" "c" (hk_init demo 20 None p empty_world) = Some (VInt 1) /\
  (result (hk_apply demo 20 ∅ {[ "~" := {[ "c" := VInt 0; "d" := VInt 8 ]} ]} None p empty_world)
    ≫= (fun r => lookup2 "~" "c" (snd r))) = Some (VInt 3) /\
  (result (hk_apply demo 20 ∅ {[ "~" := {[ "c" := VInt 0; "d" := VInt 8 ]} ]} None p empty_world)
    ≫= (fun r => lookup2 "~" "d" (snd r))) = Some (VInt 8).
Proof. vm_compute. auto. Qed.

(** ** C05: state is a register file keyed by (module, name) *)

(** Reading what was just set. *)
Theorem C05_get_after_set C n m w f b name v sh dt init :
  top w = Some f -> in_module w b -> w_sget w = [] ->
  exists w', run C (S n) (SetState name v) w = (Ok VNone, w') /\
             run C (S m) (GetState name sh dt init) w' = (Ok v, w').
Proof.
  intros F B G. eexists. split; [exact (set_state_run C n w f b name v F B)|].
  eapply get_state_existing.
  - exact (on_top_top _ _ _ F).
  - apply in_module_on_top; [reflexivity|exact B].
  - unfold on_top. destruct (w_frames w); exact G.
  - cbn. apply lookup2_insert2_eq.
Qed.
Print Assumptions C05_get_after_set.

(** [set_state] changes nothing but the current value of its own entry. *)
Theorem C05_set_frame C n w f b name v :
  top w = Some f -> in_module w b ->
  exists w' f', run C (S n) (SetState name v) w = (Ok VNone, w') /\ top w' = Some f' /\
    f_params f' = f_params f /\ f_rng f' = f_rng f /\ w_mods w' = w_mods w /\
    (forall b' name', (b', name') <> (b, name) -> lookup2 b' name' (f_state f') = lookup2 b' name' (f_state f)) /\
    (forall i c, lookup2 b name (f_state f) = Some (i, c) -> lookup2 b name (f_state f') = Some (i, v)).
Proof.
  intros F B. eexists. eexists. split; [exact (set_state_run C n w f b name v F B)|].
  split; [exact (on_top_top _ _ _ F)|]. cbn. split; [reflexivity|]. split; [reflexivity|].
  split; [apply on_top_mods|]. split.
  - intros b' n' N. apply lookup2_insert2_ne. intros [-> ->]. now apply N.
  - intros i c L. rewrite L. apply lookup2_insert2_eq.
Qed.
Print Assumptions C05_set_frame.

(** Whatever runs in between, as long as it does not set that name, the value
    read later is the value set. *)
Theorem C05_get_after_set_later C n m l w f b name v sh dt init p w1 r w2 :
  top w = Some f -> in_module w b -> in_module w2 b -> w_sget w2 = [] ->
  run C (S n) (SetState name v) w = (Ok VNone, w1) ->
  all_ops (no_set (eq name)) p -> code_ok (no_set (eq name)) C -> heap_ok (no_set (eq name)) w1 ->
  run C m p w1 = (r, w2) ->
  run C (S l) (GetState name sh dt init) w2 = (Ok v, w2).
Proof.
  intros F B B2 G E1 Hp HC HI E2.
  rewrite (set_state_run C n w f b) in E1 by assumption. injection E1 as <-.
  apply (run_T_keep C (eq name) m p (fun _ => False)) in E2; auto. apply t_frames in E2.
  destruct B2 as (f2 & F2 & B2'). pose proof F2 as F2'. apply top_Some in F2 as [fs2 F2].
  apply top_Some in F as [fs F]. rewrite (on_top_frames _ _ _ _ F), F2 in E2. destruct E2 as [[] _].
  cbn in ft_state.
  eapply (get_state_existing C l w2 f2 b); [exact F2'|exists f2; auto|exact G|].
  eapply (st_keep _ _ _ ft_state _ _ _ _ eq_refl). apply lookup2_insert2_eq.
Qed.
Print Assumptions C05_get_after_set_later.

Lemma init_world_top rng : exists f, top (init_world rng) = Some f.
Proof. eexists. reflexivity. Qed.
Lemma init_world_module rng : in_module (init_world rng) "~".
Proof. eexists. split; [reflexivity|]. reflexivity. Qed.
Example C05_case :
  result (run demo 20 (then_ (SetState "x" (VInt 1)) (then_ (NameScope "s" (SetState "x" (VInt 2)))
     (then_ (Jit (SetState "y" (VInt 3))) (GetState "x" None None None)))) (init_world None)) = Some (VInt 1).
Proof. vm_compute. auto. Qed.

(** ** C08: with_rng is properly scoped *)

(** After the block, normally or not, the enclosing sequence is exactly as before. *)
Theorem C08_with_rng_restores C n k p w r w' f :
  run C (S n) (WithRng k p) w = (r, w') -> top w = Some f ->
  exists f', top w' = Some f' /\ f_rng f' = f_rng f.
Proof.
  intros E F. apply top_Some in F as [fs F]. cbn [run step] in E.
  unfold bindM, top_frame in E. rewrite F in E. unfold scoped in E.
  destruct (run C n p _) as [r1 w1] eqn:E1. injection E as <- <-.
  eapply run_top in E1 as (f1 & F1 & []).
  2: { unfold push_rng. apply on_top_top. unfold top. now rewrite F. }
  cbn in ft_rngs. apply top_Some in F1 as [fs1 F1].
  eexists. split; [unfold pop_rng; apply on_top_top; unfold top; now rewrite F1|].
  cbn. rewrite ft_rngs. reflexivity.
Qed.
Print Assumptions C08_with_rng_restores.

(** Inside the block, whatever ran before in it, every key drawn is derived from
    the given key. *)
Theorem C08_keys_from_given C n k p w f r w1 m x w2 :
  top w = Some f -> run C n p (push_rng (Some (seq_of_key k)) w) = (r, w1) ->
  run C (S m) NextKey w1 = (Ok (VKey x), w2) -> derived k x.
Proof.
  intros F E1 E2. eapply run_top in E1 as (f1 & F1 & []).
  2: { unfold push_rng. exact (on_top_top _ _ _ F). }
  cbn in ft_rng. apply top_Some in F1 as [fs1 F1].
  cbn [run step] in E2. unfold next_rng_key, with_seq, bindM, top_frame, modify, retM in E2.
  cbn [w_frames set_draws] in E2. rewrite F1 in E2. cbn [w_frames] in E2. rewrite ?F1 in E2.
  destruct (f_rng f1) as [s|]; [|discriminate].
  destruct (seq_next (c_block C) s) as [[y s']|] eqn:N; [|discriminate].
  injection E2 as -> _. apply derived_anc. eapply below_next; [|eassumption].
  apply ft_rng. repeat constructor.
Qed.
Print Assumptions C08_keys_from_given.

Example C08_case :
  result (run demo 20 (Bind (WithRng (Seed 7) (then_ NextKey NextKey)) (fun k => Bind NextKey (fun k' => Ret (VTup [k; k']))))
    (init_world (Some (Seed 0)))) =
  Some (VTup [VKey (Split (Split (Seed 7) 2 0) 2 1); VKey (Split (Seed 0) 2 1)]).
Proof. vm_compute. reflexivity. Qed.

(** [maybe_next_rng_key]: nothing without a key sequence, otherwise the next key. *)
Theorem C08_maybe C n w f : top w = Some f ->
  (f_rng f = None -> run C (S n) MaybeNextKey w = (Ok VNone, w)) /\
  (f_rng f <> None -> fst (run C (S n) MaybeNextKey w) = fst (run C (S n) NextKey w) /\
                      w_frames (snd (run C (S n) MaybeNextKey w)) = w_frames (snd (run C (S n) NextKey w))).
Proof.
  intros F. apply top_Some in F as [fs F]. split; intros R; cbn [run step]; unfold maybe_next_rng_key, bindM, top_frame; rewrite F; cbn.
  - rewrite R. reflexivity.
  - unfold next_rng_key, with_seq, bindM, top_frame. cbn. rewrite F. destruct (f_rng f) as [s|] eqn:Q; [|congruence].
    cbn. rewrite ?F; cbn; rewrite ?Q; cbn.
    destruct (seq_next (c_block C) s) as [[k s']|]; cbn; unfold on_top; cbn; rewrite ?F; auto.
Qed.
Print Assumptions C08_maybe.
Example C08_maybe_case :
  result (run demo 5 MaybeNextKey (init_world None)) = Some VNone /\
  result (run demo 5 MaybeNextKey (init_world (Some (Seed 0)))) = result (run demo 5 NextKey (init_world (Some (Seed 0)))) /\
  error (run demo 5 NextKey (init_world None)) = Some ENoRng.
Proof. vm_compute. auto. Qed.

(** C06: [apply] on the outputs of [init] repeats [init]. *)
From stdpp Require Import gmap list strings.
From Coq Require Import String Ascii ZArith Lia.
From Verif Require Import ModelStr ModelRng ModelCore SpecCore SpecReplay Demo ProofsStr ProofsMap ProofsEvolve ProofsRun ProofsReplay.
Local Open Scope string_scope.
Local Open Scope list_scope.

(** For a program of the operations [replay_op] (SpecReplay) whose initializers only
    draw keys and compute: if [init] succeeds, its body having returned [v] with the
    states at [s], then [apply] on the returned parameters and states, with any
    random key or none, returns [v] and the current values of [s]. *)
Theorem C06_replay C n rng rng' p w ps st w1 : replay_code C -> sound_identity C -> all_ops replay_op p ->
  heap_ok replay_op w -> w_pcreate w = [] -> w_screate w = [] ->
  hk_init C n rng p w = (Ok (ps, st), w1) ->
  exists v f,
    in_frame (new_frame None None (rng_of rng)) (run C n p) w = (Ok (v, f), w1)
    /\ ps = f_params f /\ st = extract_initial (f_state f)
    /\ exists w2, hk_apply C n ps st rng' p w = (Ok (v, extract_current (f_state f)), w2).
Proof.
  intros HC Hid Hp Hh H1 H2 G. unfold hk_init, init_fn in G.
  destruct (bind_Ok_inv _ _ _ _ _ G) as ([v f] & w2 & G1 & G2). injection G2 as <- <- <-.
  exists v, f. split; [assumption|]. split; [reflexivity|]. split; [reflexivity|]. cbn [snd].
  destruct (replay C n rng rng' p w v f _ HC Hid Hp Hh H1 H2 G1) as (f' & w2' & G' & Ep & Es & _).
  exists w2'. unfold hk_apply, apply_fn. unfold bindM. rewrite G'. cbn. now rewrite Es.
Qed.
Print Assumptions C06_replay.

(** In particular [apply] does not raise, neither 'Unable to retrieve parameter' nor
    anything else. *)
Theorem C06_no_error C n rng rng' p w ps st w1 : replay_code C -> sound_identity C -> all_ops replay_op p ->
  heap_ok replay_op w -> w_pcreate w = [] -> w_screate w = [] ->
  hk_init C n rng p w = (Ok (ps, st), w1) ->
  forall e w2, hk_apply C n ps st rng' p w <> (Exc e, w2).
Proof.
  intros HC Hid Hp Hh H1 H2 G e w2.
  destruct (C06_replay C n rng rng' p w ps st w1 HC Hid Hp Hh H1 H2 G) as (v & f & _ & _ & _ & w3 & ->). discriminate.
Qed.
Print Assumptions C06_no_error.

(** The result of [apply] does not depend on the key given to it. *)
Theorem C06_rng C n rng p w ps st w1 k k' : replay_code C -> sound_identity C -> all_ops replay_op p ->
  heap_ok replay_op w -> w_pcreate w = [] -> w_screate w = [] ->
  hk_init C n rng p w = (Ok (ps, st), w1) ->
  fst (hk_apply C n ps st k p w) = fst (hk_apply C n ps st k' p w).
Proof.
  intros HC Hid Hp Hh H1 H2 G.
  destruct (C06_replay C n rng k p w ps st w1 HC Hid Hp Hh H1 H2 G) as (v & f & G1 & _ & _ & w3 & ->).
  destruct (C06_replay C n rng k' p w ps st w1 HC Hid Hp Hh H1 H2 G) as (v' & f' & G1' & _ & _ & w3' & ->).
  rewrite G1 in G1'. now injection G1' as <- <-.
Qed.
Print Assumptions C06_rng.

(** ** The hypotheses are met: modules, a random initializer, states, [jit], [vmap],
    getters and interceptors. *)
Lemma demo_replay : replay_code demo.
Proof.
  split.
  - intros. cbn. ops.
  - intros. cbn. ops.
  - intros. cbn. ops.
  - intros i sh dt. destruct i; cbn; ops.
  - intros n i sh dt w w'.
    assert (HR : forall z, run demo n (Ret (VArr sh z)) w <> (Ok VNone, w')) by (intros z; destruct n; discriminate).
    assert (HB : run demo n (Bind NextKey (fun _ => Ret (VArr sh 7))) w <> (Ok VNone, w')).
    { destruct n; cbn [run step]; [discriminate|]. unfold bindM. destruct (run demo n NextKey w) as [[?|?|] w2]; try discriminate.
      destruct n; discriminate. }
    destruct i; cbn [c_init demo]; auto.
Qed.
Lemma demo_identity : sound_identity demo.
Proof. split; intros a b H; now apply bool_decide_eq_true in H. Qed.

Definition busy : prog :=
  WithGetter (VStr "g") true true (Intercept (VStr "i")
    (Bind (linear VNone) (fun a =>
     Bind (Jit (linear (VInt 3))) (fun b =>
     Bind (NameScope "s" (GetState "n" (Some [2]) (Some "f32") (Some (VInt 4)))) (fun c =>
     Bind (Vmap (fun _ => GetParam "v" [2] "f32" (Some VNone)) [VInt 1; VInt 2]) (fun d =>
     then_ (SetState "k" (VInt 8)) (then_ (SetState "k" (VInt 9))
     (Bind (GetState "k" None None None) (fun e => Ret (VTup [a; b; c; d; e])))))))))).
Lemma busy_ok : all_ops replay_op busy.
Proof. unfold busy, linear, then_. ops. Qed.
Example C06_busy :
  match hk_init demo 40 (Some (Seed 1)) busy empty_world with
  | (Ok (ps, st), _) =>
      lookup2 "linear" "w" ps = Some (VArr [2; 3] 7) /\ lookup2 "linear_1" "w" ps = Some (VArr [2; 3] 3)
      /\ lookup2 "~" "v" ps = Some (VArr [2] 7) /\ lookup2 "s" "n" st = Some (VArr [2] 4) /\ lookup2 "~" "k" st = Some (VInt 8)
      /\ match hk_apply demo 40 ps st None busy empty_world with
         | (Ok (v, st'), _) => v = VTup [VArr [2; 3] 7; VArr [2; 3] 3; VArr [2] 4; VTup [VArr [2] 7; VArr [2] 7]; VInt 9]
             /\ lookup2 "~" "k" st' = Some (VInt 9)
         | _ => False
         end
  | _ => False
  end.
Proof. vm_compute. repeat split. Qed.

(** ** Necessary restrictions *)

(** The same claim for programs (and callbacks) of the operations [P]. *)
Definition replays (P : prog -> Prop) : Prop :=
  forall C n rng rng' p v f w1,
    code_ok (fun p => P p \/ init_op p) C ->
    (forall n i sh dt w w', run C n (c_init C i sh dt) w <> (Ok VNone, w')) -> sound_identity C -> all_ops P p ->
    in_frame (new_frame None None (rng_of rng)) (run C n p) empty_world = (Ok (v, f), w1) ->
    exists st w2, hk_apply C n (f_params f) (extract_initial (f_state f)) rng' p empty_world = (Ok (v, st), w2).

(** [apply] on the outputs of [init] gives another result, or raises. *)
Definition differs (C : code) (n : nat) (p : prog) : bool :=
  match in_frame (new_frame None None None) (run C n p) empty_world with
  | (Ok (v, f), _) =>
      match hk_apply C n (f_params f) (extract_initial (f_state f)) None p empty_world with
      | (Ok (v', _), _) => if val_eq v' v then false else true
      | (Exc _, _) => true
      | (Fuel, _) => false
      end
  | _ => false
  end.
Lemma differs_refutes (P : prog -> Prop) C n p :
  code_ok (fun p => P p \/ init_op p) C ->
  (forall n i sh dt w w', run C n (c_init C i sh dt) w <> (Ok VNone, w')) -> sound_identity C -> all_ops P p ->
  differs C n p = true -> ~ replays P.
Proof.
  intros HC Hn Hid Hp D H. unfold differs in D.
  destruct (in_frame (new_frame None None None) (run C n p) empty_world) as [[[v f]|?|] w1] eqn:E; try discriminate.
  destruct (H C n None None p v f w1 HC Hn Hid Hp E) as (st & w2 & E2).
  rewrite E2 in D. now destruct (val_eq v v).
Qed.
(** The callbacks of [demo], except that creators do not call [next]. *)
Definition plain (creator : prog) : code :=
  Code (c_fun demo) (c_init demo) (fun _ _ _ _ _ _ => creator) (c_getter demo) (c_icpt demo) (c_same demo) (c_same_rng demo) 1.
Lemma plain_ok (P : prog -> Prop) creator : (forall p, replay_op p -> P p) -> all_ops P creator ->
  code_ok (fun p => P p \/ init_op p) (plain creator).
Proof.
  intros H Hc. assert (HG : forall p, replay_op p -> P p \/ init_op p) by auto.
  split; intros; cbn.
  - constructor; [now left; apply H|]. intros q [].
  - destruct i; cbn; ops_with ltac:(now right).
  - clear -Hc. induction Hc as [p Hp _ IH]. constructor; auto.
  - constructor; [now left; apply H|]. intros q [].
  - constructor; [now left; apply H|]. intros q [].
Qed.
Lemma plain_none creator n i sh dt w w' : run (plain creator) n (c_init (plain creator) i sh dt) w <> (Ok VNone, w').
Proof.
  assert (HR : forall z, run (plain creator) n (Ret (VArr sh z)) w <> (Ok VNone, w')) by (intros z; destruct n; discriminate).
  assert (HB : run (plain creator) n (Bind NextKey (fun _ => Ret (VArr sh 7))) w <> (Ok VNone, w')).
  { destruct n; cbn [run step]; [discriminate|]. unfold bindM. destruct (run (plain creator) n NextKey w) as [[?|?|] w2]; try discriminate.
    destruct n; discriminate. }
  destruct i; cbn [c_init plain demo]; auto.
Qed.
Lemma plain_refutes (P : prog -> Prop) creator n p : (forall p, replay_op p -> P p) -> all_ops P creator -> all_ops P p ->
  differs (plain creator) n p = true -> ~ replays P.
Proof.
  intros H Hc Hp D. apply (differs_refutes P (plain creator) n p); auto using plain_ok, plain_none, demo_identity.
Qed.

(** A parameter created under [hk.eval_shape] is dropped, so [apply] does not find it. *)
Definition with_eval_shape (p : prog) : Prop := replay_op p \/ match p with EvalShape _ => True | _ => False end.
Theorem C06_eval_shape_refuted : ~ replays with_eval_shape.
Proof.
  apply (plain_refutes _ (Ret VNone) 9 (EvalShape (GetParam "w" [2] "f32" (Some (VInt 1))))); [now left| | |].
  - ops_with ltac:(now left).
  - ops_with ltac:(now (left + right)).
  - vm_compute. reflexivity.
Qed.
Print Assumptions C06_eval_shape_refuted.
Example C06_eval_shape_ex :
  error (hk_apply demo 9 ∅ ∅ None (EvalShape (GetParam "w" [2] "f32" (Some (VInt 1)))) empty_world) = Some (ENoParam "~" "w").
Proof. vm_compute. reflexivity. Qed.

(** [hk.scan] runs the first step of [init] outside [lax.scan], where the carry may change its type. *)
Definition with_scan (p : prog) : Prop := replay_op p \/ match p with Scan _ _ _ _ _ => True | _ => False end.
Definition widening : prog := Scan (fun c x => Ret (VTup [VArr [] 1; x])) (VInt 0) [VInt 1; VInt 2] (VInt 0) false.
Theorem C06_scan_refuted : ~ replays with_scan.
Proof.
  apply (plain_refutes _ (Ret VNone) 9 widening); [now left| | |].
  - ops_with ltac:(now left).
  - unfold widening. ops_with ltac:(now (left + right)).
  - vm_compute. reflexivity.
Qed.
Print Assumptions C06_scan_refuted.

(** Catching the error for a state that does not exist yet. *)
Definition with_try (p : prog) : Prop := replay_op p \/ match p with TryExcept _ _ => True | _ => False end.
Theorem C06_try_refuted : ~ replays with_try.
Proof.
  apply (plain_refutes _ (Ret VNone) 9
    (Bind (TryExcept (GetState "s" None None None) (fun _ => Ret (VInt 0))) (fun v => then_ (SetState "s" (VInt 5)) (Ret v)))); [now left| | |].
  - ops_with ltac:(now left).
  - unfold then_. ops_with ltac:(now (left + right)).
  - vm_compute. reflexivity.
Qed.
Print Assumptions C06_try_refuted.

(** Creators run during [init] only: their effects on states are missing in [apply]. *)
Definition with_creators (p : prog) : Prop := replay_op p \/ match p with WithCreator _ _ _ _ => True | _ => False end.
Theorem C06_creator_refuted : ~ replays with_creators.
Proof.
  apply (plain_refutes _ (then_ (SetState "n" (VInt 2)) (Ret (VArr [] 0))) 19
    (then_ (SetState "n" (VInt 1)) (WithCreator VNone true false
      (then_ (GetParam "w" [] "f32" (Some (VInt 1))) (GetState "n" None None None))))); [now left| | |].
  - unfold then_. ops_with ltac:(now left).
  - unfold then_. ops_with ltac:(now (left + right)).
  - vm_compute. reflexivity.
Qed.
Print Assumptions C06_creator_refuted.

(** Branching on [running_init]; and drawing keys outside initializers. *)
Definition with_running_init (p : prog) : Prop := replay_op p \/ p = RunningInit.
Theorem C06_running_init_refuted : ~ replays with_running_init.
Proof.
  apply (plain_refutes _ (Ret VNone) 9 RunningInit); [now left| | |].
  - ops_with ltac:(now left).
  - ops_with ltac:(now right).
  - vm_compute. reflexivity.
Qed.
Print Assumptions C06_running_init_refuted.
Definition with_maybe_key (p : prog) : Prop := replay_op p \/ p = MaybeNextKey.
Theorem C06_keys_refuted : ~ replays with_maybe_key.
Proof.
  intros H.
  destruct (in_frame (new_frame None None (Some (seq_of_key (Seed 1)))) (run (plain (Ret VNone)) 9 MaybeNextKey) empty_world)
    as [[[v f]|?|] w1] eqn:E; [|vm_compute in E; discriminate|vm_compute in E; discriminate].
  assert (Hv : exists k, v = VKey k).
  { assert (X : match in_frame (new_frame None None (Some (seq_of_key (Seed 1)))) (run (plain (Ret VNone)) 9 MaybeNextKey) empty_world with
      | (Ok (VKey _, _), _) => True | _ => False end) by (vm_compute; exact Logic.I).
    rewrite E in X. destruct v; try contradiction. eauto. }
  destruct Hv as [k ->].
  destruct (H (plain (Ret VNone)) 9 (Some (Seed 1)) None MaybeNextKey (VKey k) f w1) as (st & w2 & E2); auto using plain_none, demo_identity.
  - apply plain_ok; [now left|]. ops_with ltac:(now left).
  - ops_with ltac:(now right).
  - unfold hk_apply, apply_fn, in_frame in E2. cbn in E2. discriminate.
Qed.
Print Assumptions C06_keys_refuted.

(** An initializer that returns [None] (then turned into an array by a getter) leaves nothing for [apply]. *)
Definition none_init : code :=
  Code (c_fun demo) (fun _ _ _ => Ret VNone) (c_creator demo) (fun _ _ v _ => Ret (VArr [2] 1)) (c_icpt demo) (c_same demo) (c_same_rng demo) 1.
Definition asks_none : prog := Jit (WithGetter VNone true false (GetParam "w" [2] "f32" (Some VNone))).
Theorem C06_none_refuted :
  ~ (forall C n p v f w1,
      (forall f a, all_ops replay_op (c_fun C f a)) -> (forall g r v ctx, all_ops replay_op (c_getter C g r v ctx)) ->
      (forall i r a ctx, all_ops replay_op (c_icpt C i r a ctx)) -> (forall i sh dt, all_ops init_op (c_init C i sh dt)) ->
      sound_identity C -> all_ops replay_op p ->
      in_frame (new_frame None None None) (run C n p) empty_world = (Ok (v, f), w1) ->
      exists st w2, hk_apply C n (f_params f) (extract_initial (f_state f)) None p empty_world = (Ok (v, st), w2)).
Proof.
  intros H. assert (D : differs none_init 9 asks_none = true) by (vm_compute; reflexivity).
  unfold differs in D.
  destruct (in_frame (new_frame None None None) (run none_init 9 asks_none) empty_world) as [[[v f]|?|] w1] eqn:E; try discriminate.
  destruct (H none_init 9 asks_none v f w1) as (st & w2 & E2); auto using demo_identity.
  - intros. cbn. ops.
  - intros. cbn. ops.
  - intros. cbn. ops.
  - intros. cbn. ops.
  - unfold asks_none. ops.
  - rewrite E2 in D. now destruct (val_eq v v).
Qed.
Print Assumptions C06_none_refuted.

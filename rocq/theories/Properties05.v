(** C17 - C20: hk.scan, hk.fori_loop, hk.while_loop compared with Python loops. *)
From stdpp Require Import gmap list strings.
From Coq Require Import String Ascii ZArith Lia.
From Verif Require Import ModelStr ModelRng ModelCore SpecCore SpecStateful Demo ProofsStr ProofsMap ProofsNames ProofsRng ProofsEvolve ProofsRun ProofsOps ProofsModule ProofsSim ProofsGraft ProofsStateful ProofsLoop.
Local Open Scope string_scope.
Local Open Scope list_scope.

(** ** C17: hk.scan at apply time *)

(** A successful [hk.scan] is the loop over [xs] (reversed if [reverse]), the outputs
    positionally aligned with [xs]; and whenever the loop succeeds so does the scan.
    Afterwards the random sequence holds a full reserve. *)
Theorem C17_scan_is_loop C n (P : prog -> Prop) body c xs z reverse w f fs out w' :
  (forall v, P (Ret v)) -> code_ok P C -> heap_ok P w -> (forall c x, all_ops P (body c x)) ->
  w_frames w = f :: fs -> f_frozen f = true -> loop_rng_ok C P f ->
  (run C (S n) (Scan body c xs z reverse) w = (Ok out, w') <->
   exists c2 ys w2, py_scan C n body c (dir reverse xs) w c2 (dir reverse ys) w2
     /\ out = VTup [c2; VTup ys] /\ w' = on_top (top_up C) w2).
Proof. apply scan_apply_iff. Qed.
Print Assumptions C17_scan_is_loop.

(** A counter kept in state and a key drawn in every step; order of visits with
    [reverse]; an empty scan. *)
Definition C17_body (c x : val) : prog :=
  Bind NextKey (fun k =>
  Bind (GetState "n" None None None) (fun s =>
  match s with
  | VInt i => then_ (SetState "n" (VInt (i + 1))) (Ret (VTup [x; VTup [VInt i; c; k]]))
  | _ => Raise (EUser s)
  end)).
Example C17_ops : forall c x, all_ops one_key_ops (C17_body c x).
Proof. intros c x. unfold C17_body. ops. Qed.
Example C17_case :
  let st := ({[ "~" := {[ "n" := VInt 0 ]} ]} : bundles val) in
  let k1 := VKey (Split (Seed 0) 2 1) in
  let k2 := VKey (Split (Split (Seed 0) 2 0) 2 1) in
  fmap (M:=option) fst (result (hk_apply demo 20 ∅ st (Some (Seed 0)) (Scan C17_body (VInt 9) [VInt 4; VInt 5] VNone true) empty_world)) =
    Some (VTup [VInt 4; VTup [VTup [VInt 1; VInt 5; k2]; VTup [VInt 0; VInt 9; k1]]]) /\
  fmap (M:=option) fst (result (hk_apply demo 20 ∅ st (Some (Seed 0)) (Scan C17_body (VInt 9) [] VNone false) empty_world)) =
    Some (VTup [VInt 9; VTup []]) /\
  option_map (fun x => lookup2 "~" "n" (snd x)) (result (hk_apply demo 20 ∅ st (Some (Seed 0)) (Scan C17_body (VInt 9) [VInt 4; VInt 5] VNone false) empty_world)) =
    Some (Some (VInt 2)).
Proof. vm_compute. auto. Qed.

(** With a larger block of reserved keys ([hk.config], DEFAULT_PRNG_RESERVE_SIZE > 1)
    the keys drawn in the loop differ from those of the Python loop. *)
Definition C17_code : code := Code (c_fun demo) (c_init demo) (c_creator demo) (c_getter demo) (c_icpt demo)
  (c_same demo) (c_same_rng demo) 2.
Definition C17_keys (c x : val) : prog := Bind NextKey (fun k => Ret (VTup [c; k])).
Definition C17_loop : prog :=
  Bind (C17_keys VNone VNone) (fun a => Bind (C17_keys VNone VNone) (fun b => Ret (VTup [a; b]))).
Theorem C17_larger_block_refuted :
  ~ (forall C n c x1 x2 ps st k w a b st1 w1 ys st2 w2, sound_identity C ->
      hk_apply C n ps st (Some k) (then_ NextKey C17_loop) w = (Ok (VTup [VTup [c; a]; VTup [c; b]], st1), w1) ->
      hk_apply C n ps st (Some k) (then_ NextKey (Scan C17_keys c [x1; x2] VNone false)) w = (Ok (VTup [c; VTup ys], st2), w2) ->
      ys = [a; b]).
Proof.
  intros H.
  assert (E1 : exists v st1 w1, hk_apply C17_code 20 ∅ ∅ (Some (Seed 0)) (then_ NextKey C17_loop) empty_world = (Ok (v, st1), w1) /\
    v = VTup [VTup [VNone; VKey (Split (Seed 0) 3 2)]; VTup [VNone; VKey (Split (Split (Seed 0) 3 0) 3 1)]]).
  { apply witness2. vm_compute. reflexivity. }
  assert (E2 : exists v st1 w1, hk_apply C17_code 20 ∅ ∅ (Some (Seed 0)) (then_ NextKey (Scan C17_keys VNone [VNone; VNone] VNone false)) empty_world = (Ok (v, st1), w1) /\
    v = VTup [VNone; VTup [VKey (Split (Seed 0) 3 2); VKey (Split (Split (Seed 0) 3 0) 2 1)]]).
  { apply witness2. vm_compute. reflexivity. }
  destruct E1 as (v & st1 & w1 & E1 & ->). destruct E2 as (v & st2 & w2 & E2 & ->).
  assert (HC : sound_identity C17_code).
  { split; intros x y Hs; cbn in Hs; now apply bool_decide_eq_true in Hs. }
  specialize (H _ _ _ VNone VNone _ _ _ _ _ _ _ _ _ _ _ HC E1 E2). discriminate H.
Qed.
Print Assumptions C17_larger_block_refuted.

(** ** C18: hk.scan at init time *)

(** The first step runs directly (this is where parameters and state are created),
    the rest is the loop from there on. *)
Theorem C18_scan_init_is_loop C n (P : prog -> Prop) body c x xs z w f fs out w' :
  (forall v, P (Ret v)) -> code_ok P C -> heap_ok P w -> (forall c x, all_ops P (body c x)) ->
  w_frames w = f :: fs -> f_frozen f = false -> loop_rng_ok C P f ->
  (run C (S n) (Scan body c (x :: xs) z false) w = (Ok out, w') <->
   exists c1 y w1 c2 ys w2, run C n (body c x) w = (Ok (VTup [c1; y]), w1)
     /\ py_scan C n body c1 xs w1 c2 ys w2
     /\ out = VTup [c2; VTup (y :: ys)]
     /\ w' = match xs with [] => w2 | _ => on_top (top_up C) w2 end).
Proof. apply scan_init_iff. Qed.
Print Assumptions C18_scan_init_is_loop.
Definition C18_body (c x : val) : prog :=
  Bind (GetState "n" (Some []) (Some "float32") (Some (VInt 7))) (fun s =>
  Bind (GetParam "w" [2] "float32" (Some (VInt 1))) (fun w =>
  then_ (SetState "n" (VArr [] 8)) (Ret (VTup [x; VTup [s; c]])))).
Example C18_case :
  result (run demo 20 (Scan C18_body (VInt 9) [VInt 4; VInt 5; VInt 6] VNone false) (init_world (Some (Seed 0)))) =
    Some (VTup [VInt 6; VTup [VTup [VArr [] 7; VInt 9]; VTup [VArr [] 8; VInt 4]; VTup [VArr [] 8; VInt 5]]]) /\
  state_at "~" "n" (hk_init demo 20 None (Scan C18_body (VInt 9) [VInt 4; VInt 5] VNone false) empty_world) = Some (VArr [] 7) /\
  params_at "~" "w" (hk_init demo 20 None (Scan C18_body (VInt 9) [VInt 4; VInt 5] VNone false) empty_world) = Some (VArr [2] 1).
Proof. vm_compute. auto. Qed.

(** With [reverse] the outputs at init are not aligned with [xs]: the output for the
    last element comes first. *)
Definition C18_echo (c x : val) : prog := Ret (VTup [c; x]).
Theorem C18_reverse_order_refuted :
  ~ (forall C n c xs z w f fs ys w', w_frames w = f :: fs -> f_frozen f = false -> xs <> [] ->
      run C n (Scan C18_echo c xs z true) w = (Ok (VTup [c; VTup ys]), w') -> ys = xs).
Proof.
  intros H.
  assert (E : exists v w', run demo 20 (Scan C18_echo VNone [VInt 1; VInt 2; VInt 3] VNone true) (init_world None) = (Ok v, w') /\
     v = VTup [VNone; VTup [VInt 3; VInt 1; VInt 2]]) by (apply witness1; vm_compute; reflexivity).
  destruct E as (v & w' & E & ->).
  assert (G := H demo 20 VNone [VInt 1; VInt 2; VInt 3] VNone (init_world None) _ _ _ w' eq_refl eq_refl ltac:(discriminate) E). discriminate G.
Qed.
Print Assumptions C18_reverse_order_refuted.
(** At apply they are (C17), so [init] and [apply] disagree on the same inputs. *)
Example C18_reverse_apply :
  result (run demo 20 (Scan C18_echo VNone [VInt 1; VInt 2; VInt 3] VNone true) (apply_world ∅ ∅ None)) =
    Some (VTup [VNone; VTup [VInt 1; VInt 2; VInt 3]]).
Proof. vm_compute. reflexivity. Qed.

(** Over an empty list the body is run once at init, with an all-zeros element, and
    its effects on state stay. *)
Theorem C18_empty_runs_body_refuted :
  ~ (forall C n body c z w v w', run C n (Scan body c [] z false) w = (Ok v, w') -> w_frames w' = w_frames w).
Proof.
  intros H.
  assert (E : exists v w', run demo 20 (Scan C18_body (VInt 9) [] (VInt 0) false) (init_world None) = (Ok v, w') /\
    option_map (fun f => lookup2 "~" "n" (f_state f)) (top w') = Some (Some (VArr [] 7, VArr [] 8))).
  { apply witness1. vm_compute. reflexivity. }
  destruct E as (v & w' & E & G). specialize (H _ _ _ _ _ _ _ _ E). unfold top in G. rewrite H in G. discriminate G.
Qed.
Print Assumptions C18_empty_runs_body_refuted.

(** A body that makes a module works at apply but, over two or more elements, not at
    init: the second step gets a new default name and hence new parameters. *)
Definition C18_module (c x : val) : prog := Bind (linear (VInt 1)) (fun w => Ret (VTup [c; w])).
Theorem C18_module_in_body_refuted :
  ~ (forall C n c x1 x2 z ps st w v st' w1, sound_identity C ->
      hk_apply C n ps st None (Scan C18_module c [x1; x2] z false) w = (Ok (v, st'), w1) ->
      exists ps' st' w1, hk_init C n None (Scan C18_module c [x1; x2] z false) w = (Ok (ps', st'), w1)).
Proof.
  intros H.
  assert (E : exists v st' w', hk_apply demo 20 {["linear" := {["w" := VArr [2; 3] 1]}]} {["linear" := {["calls" := VInt 1]}]} None
     (Scan C18_module VNone [VNone; VNone] VNone false) empty_world = (Ok (v, st'), w') /\ True).
  { apply witness2. vm_compute. exact Logic.I. }
  destruct E as (v & st' & w' & E & _).
  assert (HC : sound_identity demo).
  { split; intros x y Hs; cbn in Hs; now apply bool_decide_eq_true in Hs. }
  destruct (H _ _ _ _ _ _ _ _ _ _ _ _ HC E) as (ps' & st2 & w1 & E2).
  assert (G : error (hk_init demo 20 None (Scan C18_module VNone [VNone; VNone] VNone false) empty_world) = Some ENewParams)
    by (vm_compute; reflexivity).
  rewrite E2 in G. discriminate G.
Qed.
Print Assumptions C18_module_in_body_refuted.

(** ** C19: hk.fori_loop *)

Theorem C19_fori_is_loop C n (P : prog -> Prop) body lo hi v w f fs v2 w' :
  (forall v, P (Ret v)) -> code_ok P C -> heap_ok P w -> (forall i x, all_ops P (body i x)) ->
  w_frames w = f :: fs -> f_frozen f = true -> loop_rng_ok C P f ->
  (run C (S n) (Fori lo hi body v) w = (Ok v2, w') <->
   exists w2, py_fori C n body lo (Z.to_nat (hi - lo)) v w v2 w2 /\ w' = on_top (top_up C) w2).
Proof. apply fori_apply_iff. Qed.
Print Assumptions C19_fori_is_loop.
(** At init the first iteration runs directly, the others as at apply. *)
Theorem C19_fori_init_is_loop C n (P : prog -> Prop) body lo hi v w f fs v2 w' :
  (forall v, P (Ret v)) -> code_ok P C -> heap_ok P w -> (forall i x, all_ops P (body i x)) ->
  w_frames w = f :: fs -> f_frozen f = false -> loop_rng_ok C P f -> (lo < hi)%Z ->
  (run C (S n) (Fori lo hi body v) w = (Ok v2, w') <->
   exists v1 w1 w2, run C n (body lo v) w = (Ok v1, w1)
     /\ py_fori C n body (lo + 1) (Z.to_nat (hi - (lo + 1))) v1 w1 v2 w2
     /\ w' = if (hi =? lo + 1)%Z then w2 else on_top (top_up C) w2).
Proof.
  intros HP HC HI Hb E Hz HL Hlt. rewrite (fori_init_iff C n P body lo hi v w f fs v2 w'); auto.
  replace (hi =? lo + 1)%Z with (hi - (lo + 1) =? 0)%Z; [reflexivity|].
  destruct (Z.eqb_spec (hi - (lo + 1)) 0), (Z.eqb_spec hi (lo + 1)); lia.
Qed.
Print Assumptions C19_fori_init_is_loop.
Definition C19_body (i : Z) (v : val) : prog :=
  Bind (GetState "n" (Some []) (Some "float32") (Some (VInt 0))) (fun s =>
  match v with
  | VInt z => then_ (SetState "n" (VArr [] (z + i))) (Ret (VInt (z + i)))
  | _ => Raise (EUser v)
  end).
Example C19_case :
  result (run demo 20 (Fori 2 5 C19_body (VInt 100)) (init_world (Some (Seed 0)))) = Some (VInt 109) /\
  fmap (M:=option) fst (result (hk_apply demo 20 ∅ {["~" := {["n" := VArr [] 0]}]} None (Fori 2 5 C19_body (VInt 100)) empty_world)) = Some (VInt 109) /\
  fmap (M:=option) fst (result (hk_apply demo 20 ∅ {["~" := {["n" := VArr [] 0]}]} None (Fori 5 2 C19_body (VInt 100)) empty_world)) = Some (VInt 100).
Proof. vm_compute. auto. Qed.
(** A loop of zero iterations at init nevertheless runs the body and returns its
    value. *)
Theorem C19_empty_at_init_refuted :
  ~ (forall C n body lo hi v w v' w', (hi <= lo)%Z -> run C n (Fori lo hi body v) w = (Ok v', w') -> v' = v).
Proof.
  intros H.
  assert (E : exists v w', run demo 20 (Fori 5 5 C19_body (VInt 100)) (init_world None) = (Ok v, w') /\ v = VInt 105)
    by (apply witness1; vm_compute; reflexivity).
  destruct E as (v & w' & E & ->). assert (G := H _ _ _ _ _ _ _ _ _ (Z.le_refl 5) E). discriminate G.
Qed.
Print Assumptions C19_empty_at_init_refuted.

(** ** C20: hk.while_loop *)

(** For a condition computing a function [t] of the loop value. ([n] bounds the
    nesting of calls and the number of iterations followed by the interpreter.) *)
Theorem C20_while_is_loop C n c t body v w f fs v2 w' :
  pure_cond C n c t -> w_frames w = f :: fs -> f_frozen f = true ->
  (run C (S n) (While c body v) w = (Ok v2, w') <-> exists k, k < n /\ py_while C n t body k v w v2 w').
Proof. apply while_iff. Qed.
Print Assumptions C20_while_is_loop.
(** In init it raises. *)
Theorem C20_while_at_init C n c body v w f :
  top w = Some f -> f_frozen f = false -> run C (S n) (While c body v) w = (Exc EWhileInit, w).
Proof.
  intros F Hz. apply top_Some in F as [fs E]. cbn [run step]. unfold while_loop.
  rewrite (bind_Ok _ _ _ _ _ (top_eq _ _ _ E)), Hz. reflexivity.
Qed.
Print Assumptions C20_while_at_init.
Definition C20_cond (m : Z) (v : val) : prog := Ret (VBool (match v with VInt z => (z <? m)%Z | _ => false end)).
Definition C20_body (v : val) : prog :=
  Bind NextKey (fun k => match v with VInt z => then_ (SetState "k" k) (Ret (VInt (z + 1))) | _ => Raise (EUser v) end).
Example C20_pure m n : pure_cond demo (S n) (C20_cond m) (fun v => match v with VInt z => (z <? m)%Z | _ => false end).
Proof. intros v w _. reflexivity. Qed.
Example C20_case :
  let st := ({[ "~" := {[ "k" := VKey (Seed 9) ]} ]} : bundles val) in
  option_map (fun x => (fst x, lookup2 "~" "k" (snd x))) (result (hk_apply demo 20 ∅ st (Some (Seed 0)) (While (C20_cond 3) C20_body (VInt 1)) empty_world)) =
    Some (VInt 3, Some (VKey (Split (Split (Seed 0) 2 0) 2 1))).
Proof. vm_compute. reflexivity. Qed.

(** A condition that reads state sees the state from before the loop. Whatever the
    body does, a loop waiting for a state entry to become false never returns. *)
Definition C20_flag (v : val) : prog := GetState "go" None None None.
Lemma no_new_entries_refl {A} `{EqDecision A} (m : bundles A) : no_new_entries m m = true.
Proof.
  unfold no_new_entries. apply forallb_forall. intros [b x] Hb. apply forallb_forall.
  intros [n v] Hn. apply bool_decide_eq_true. apply elem_of_list_In, elem_of_map_to_list in Hb, Hn.
  apply lookup2_Some. eauto.
Qed.
Lemma no_new_keys_refl r : no_new_keys r r = true.
Proof.
  destruct r as [s|]; [|reflexivity]. unfold no_new_keys. apply forallb_forall. intros k Hk.
  apply bool_decide_eq_true. now apply elem_of_list_In.
Qed.
Theorem C20_stale_condition_refuted C n body v w f i v' w' :
  top w = Some f -> f_mods f = [] -> w_sget w = [] -> lookup2 "~" "go" (f_state f) = Some (i, VBool true) ->
  run C n (While C20_flag body v) w <> (Ok v', w').
Proof.
  intros F HB HG HL. destruct n as [|n]; [discriminate|].
  apply top_Some in F as [fs E]. cbn [run step]. unfold while_loop. rewrite (bind_Ok _ _ _ _ _ (top_eq _ _ _ E)).
  destruct (f_frozen f); [|discriminate]. cbn [negb].
  rewrite (bind_Ok _ _ _ _ _ (internal_eq true _ _ _ E)).
  set (cnd := fun vs : val * istate => modify (on_top (set_rng (f_rng f))) ;;; while_cond (run C n) C20_flag (fst vs)).
  assert (HW : forall m vs w1 r w2, w_frames w1 = f :: fs -> w_sget w1 = [] ->
     lax_while m cnd (while_step (run C n) body) vs w1 <> (Ok r, w2)).
  { intros m. induction m as [|m IH]; intros [v0 s0] w1 r w2 E1 HC H; [discriminate H|]. cbn [lax_while] in H.
    assert (Hid : on_top (set_rng (f_rng f)) w1 = w1) by (apply (on_top_id _ w1 f fs E1); now destruct f).
    destruct n as [|n].
    { apply bind_ok in H as (b0 & w3 & H & _). unfold cnd, modify in H. unfold bindM at 1 in H. rewrite Hid in H.
      unfold while_cond in H. rewrite (bind_Ok _ _ _ _ _ (top_eq _ _ _ E1)) in H. discriminate H. }
    assert (Hc : cnd (v0, s0) w1 = (Ok true, w1)).
    { unfold cnd, modify. unfold bindM at 1. rewrite Hid.
      unfold while_cond. rewrite (bind_Ok _ _ _ _ _ (top_eq _ _ _ E1)).
      assert (T1 : top w1 = Some f) by (unfold top; now rewrite E1).
      assert (M1 : in_module w1 "~") by (exists f; split; [assumption|]; now rewrite HB).
      rewrite (bind_Ok _ _ _ _ _ (get_state_existing C n w1 f "~" "go" None None i None (VBool true) T1 M1 HC HL)).
      rewrite (bind_Ok _ _ _ _ _ (top_eq _ _ _ E1)). now rewrite !no_new_entries_refl, no_new_keys_refl. }
    rewrite (bind_Ok _ _ _ _ _ Hc) in H. apply bind_ok in H as ([v1 s1] & w3 & H1 & H2).
    rewrite (while_step_run C (S n) body v0 s0 w1 f fs E1) in H1.
    destruct (run C (S n) (body v0) _) as [r3 w4] eqn:E4. injection H1 as _ <-.
    apply run_context in E4. refine (IH _ _ _ _ _ _ H2); [reflexivity|]. cbn. rewrite (sx_sget _ _ E4). exact HC. }
  intros H. apply bind_ok in H as (r & w1 & H & _). exact (HW _ _ _ _ _ E HG H).
Qed.
Print Assumptions C20_stale_condition_refuted.
(** The corresponding Python loop stops after one iteration. *)
Definition C20_clear (v : val) : prog := then_ (SetState "go" (VBool false)) (Ret v).
Definition C20_python : nat -> prog := fix loop n :=
  match n with
  | O => Raise (EUser VNone)
  | S n => Bind (C20_flag VNone) (fun g => match g with VBool true => then_ (C20_clear VNone) (loop n) | _ => Ret (VInt 1) end)
  end.
Example C20_python_stops :
  let st := ({[ "~" := {[ "go" := VBool true ]} ]} : bundles val) in
  fmap (M:=option) fst (result (hk_apply demo 20 ∅ st None (C20_python 2) empty_world)) = Some (VInt 1).
Proof. vm_compute. reflexivity. Qed.

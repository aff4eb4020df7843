(** C26, C27, C28, C60, C61: dictionaries of modules, lifting, key pre-allocation,
    transform wrappers, failed reads. *)
From stdpp Require Import gmap list strings.
From Coq Require Import String Ascii ZArith Lia.
From Verif Require Import ModelStr ModelRng ModelCore ModelTransform SpecCore SpecLift Demo ProofsStr ProofsMap ProofsNames ProofsRng ProofsEvolve ProofsRun ProofsOps ProofsModule ProofsNext ProofsLift.
Local Open Scope string_scope.
Local Open Scope list_scope.

Lemma error_inv {A} (x : res A * world) e : error x = Some e -> exists w, x = (Exc e, w).
Proof. destruct x as [[a|e'|] w]; cbn; try discriminate. intros [= ->]. eauto. Qed.
Lemma result_inv {A} (x : res A * world) : match result x with Some _ => True | None => False end -> exists a w, x = (Ok a, w).
Proof. destruct x as [[a|e'|] w]; cbn; try contradiction. eauto. Qed.

(** ** C26: [params_dict] and [state_dict] *)

(** Reading the dictionary changes nothing; an entry is listed under "module/name"
    exactly if it is stored and its module is the module itself, below it, or one of
    the recorded submodules. *)
Theorem C26_params C n m w v w' : run C n (ModuleDict m true) w = (Ok v, w') ->
  w' = w /\ exists l f mn subs, v = VDict l /\ top w = Some f /\
    module_name w m = Some mn /\ submodules w m = Some subs /\
    forall k x, In (k, x) l <->
      exists b name, k = b +:+ "/" +:+ name /\ lookup2 b name (f_params f) = Some x /\ owns mn subs b.
Proof.
  intros E. destruct n as [|n]; [discriminate E|]. cbn [run step] in E. unfold module_dict, bindM at 1, top_frame in E.
  unfold top, module_name, submodules. destruct (w_frames w) as [|f fs]; [discriminate E|]. unfold bindM, reads in E.
  destruct (w_mods w !! m) as [[[mn|] [subs|]]|]; try discriminate E. injection E as <- <-. split; [reflexivity|].
  eexists _, f, mn, subs. do 4 (split; [reflexivity|]). intros k x. apply dict_in.
Qed.
Print Assumptions C26_params.
Theorem C26_state C n m w v w' : run C n (ModuleDict m false) w = (Ok v, w') ->
  w' = w /\ exists l f mn subs, v = VDict l /\ top w = Some f /\
    module_name w m = Some mn /\ submodules w m = Some subs /\
    forall k x, In (k, x) l <->
      exists b name i, k = b +:+ "/" +:+ name /\ lookup2 b name (f_state f) = Some (i, x) /\ owns mn subs b.
Proof.
  intros E. destruct n as [|n]; [discriminate E|]. cbn [run step] in E. unfold module_dict, bindM at 1, top_frame in E.
  unfold top, module_name, submodules. destruct (w_frames w) as [|f fs]; [discriminate E|]. unfold bindM, reads in E.
  destruct (w_mods w !! m) as [[[mn|] [subs|]]|]; try discriminate E. injection E as <- <-. split; [reflexivity|].
  eexists _, f, mn, subs. do 4 (split; [reflexivity|]). intros k x. rewrite dict_in. split.
  - intros (b & name & -> & L & O). rewrite lookup2_map2 in L. destruct (lookup2 b name (f_state f)) as [[i c]|] eqn:El; [|discriminate].
    cbn in L. injection L as <-. eauto 6.
  - intros (b & name & i & -> & L & O). exists b, name. rewrite lookup2_map2, L. auto.
Qed.
Print Assumptions C26_state.

(** No key is listed twice when entry names contain no slash ... *)
Theorem C26_no_collision C n m w l w' f : run C n (ModuleDict m true) w = (Ok (VDict l), w') ->
  top w = Some f -> slash_free (f_params f) -> NoDup (List.map fst l).
Proof.
  intros E F HS. destruct n as [|n]; [discriminate E|]. cbn [run step] in E. unfold module_dict, bindM at 1, top_frame in E.
  unfold top in F. destruct (w_frames w) as [|f' fs]; [discriminate E|]. injection F as ->. unfold bindM, reads in E.
  destruct (w_mods w !! m) as [[[mn|] [subs|]]|]; try discriminate E. injection E as <- <-. now apply dict_nodup.
Qed.
Print Assumptions C26_no_collision.

Definition outer_inner (outer_name : string) : prog :=
  Bind (plain_module "Outer" "outer") (fun o => match o with
    | VMod o => CallMethod o "__call__" VNone (fun _ =>
        Bind (plain_module "Inner" "x") (fun i => match i with
          | VMod i => Bind (CallMethod i "__call__" VNone (fun _ => GetParam "w" [] "f32" (Some (VInt 1))))
              (fun _ => GetParam outer_name [] "f32" (Some (VInt 2)))
          | _ => Ret VNone end))
    | _ => Ret VNone end).
(** ... but with slashes in parameter names one entry can hide another. *)
Theorem C26_no_collision_refuted :
  ~ (forall C n rng p v w m l w', run C n p (init_world rng) = (Ok v, w) ->
      run C n (ModuleDict m true) w = (Ok (VDict l), w') -> NoDup (List.map fst l)).
Proof.
  intros G.
  destruct (witness1 (run demo 30 (outer_inner "x/w") (init_world None)) (fun _ w =>
    match run demo 30 (ModuleDict 0 true) w with (Ok (VDict l), _) => List.map fst l = ["outer/x/w"; "outer/x/w"] | _ => False end))
    as (v & w & E & H); [vm_compute; reflexivity|].
  destruct (run demo 30 (ModuleDict 0 true) w) as [[x|e|] w'] eqn:E2; try contradiction.
  destruct x; try contradiction. specialize (G _ _ _ _ _ _ _ _ _ E E2). rewrite H in G.
  inversion G as [|? ? Hn _]. apply Hn. left.
Qed.
Print Assumptions C26_no_collision_refuted.

(** After a call of a method (in particular of a submodule created elsewhere), the
    called module is recorded in every other module in whose methods the call
    happened. *)
Theorem C26_recorded C n m meth arg body w v w' f k s q :
  run C n (CallMethod m meth arg body) w = (Ok v, w') -> top w = Some f ->
  In (k, s) (f_mods f) -> k <> m -> module_name w' m = Some q ->
  exists subs, submodules w' k = Some subs /\ q ∈ subs.
Proof. intros E F. now apply (method_records _ _ _ _ _ _ _ _ _ _ E F). Qed.
Print Assumptions C26_recorded.

(** A submodule that is not below the module by name. *)
Definition sibling : prog :=
  Bind (plain_module "Inner" "inner") (fun i => match i with
    | VMod i => Bind (plain_module "Outer" "outer") (fun o => match o with
      | VMod o => Bind (CallMethod o "__call__" VNone (fun _ =>
          Bind (CallMethod i "__call__" VNone (fun _ => GetParam "w" [] "f32" (Some (VInt 1))))
              (fun _ => GetParam "b" [] "f32" (Some (VInt 2))))) (fun _ => ModuleDict o true)
      | _ => Ret VNone end)
    | _ => Ret VNone end).
Example C26_params_ex : exists l w', run demo 30 sibling (init_world None) = (Ok (VDict l), w') /\
  List.length l = 2 /\ In ("inner/w", VArr [] 1) l /\ In ("outer/b", VArr [] 2) l.
Proof.
  destruct (witness1 (run demo 30 sibling (init_world None)) (fun x _ => match x with VDict l =>
     bool_decide (List.length l = 2 /\ ("inner/w", VArr [] 1) ∈ l /\ ("outer/b", VArr [] 2) ∈ l) = true | _ => False end)) as (x & w' & E & H).
  { vm_compute. reflexivity. }
  destruct x; try contradiction. apply bool_decide_eq_true in H as (H1 & H2 & H3). apply elem_of_list_In in H2, H3. exists l, w'. split; [exact E|]. auto.
Qed.
Example C26_recorded_ex : exists v w', run demo 30 sibling (init_world None) = (Ok v, w') /\
  exists subs, submodules w' 1 = Some subs /\ "inner" ∈ subs.
Proof.
  destruct (witness1 (run demo 30 sibling (init_world None)) (fun _ w' =>
     match submodules w' 1 with Some subs => bool_decide ("inner" ∈ subs) = true | _ => False end)) as (x & w' & E & H).
  { vm_compute. reflexivity. }
  exists x, w'. split; [exact E|]. destruct (submodules w' 1) as [subs|]; [|contradiction]. exists subs. split; [reflexivity|].
  now apply bool_decide_eq_true in H.
Qed.

(** ** C27: [hk.lift] *)

(** During init, the parameters of the inner function are stored in the outer
    dictionary under the module's name, under keys that did not exist, and every other
    entry keeps its contents. *)
Theorem C27_init C n m rng body w f b v w' :
  top w = Some f -> f_frozen f = false -> module_name w m = Some b ->
  run C (S n) (LiftCall m rng body) w = (Ok v, w') ->
  exists ps w1 f', hk_init C n rng body w = (Ok (ps, ∅), w1) /\ v = enc ps /\ top w' = Some f' /\
    f' = set_params (f_params f') f /\
    (forall k x, ps !! k = Some x -> f_params f !! (b +:+ "/" +:+ k) = None /\ f_params f' !! (b +:+ "/" +:+ k) = Some x) /\
    (forall k, (forall k', is_Some (ps !! k') -> k <> b +:+ "/" +:+ k') -> f_params f' !! k = f_params f !! k).
Proof.
  intros F HF Hb E. destruct (lift_init _ _ _ _ _ _ _ _ _ _ F HF Hb E) as (ps & w1 & ps' & E1 & -> & -> & F1 & H1 & H2).
  exists ps, w1, (set_params ps' f). repeat split; auto.
  - apply (on_top_top (set_params ps')). exact F1.
  - now apply (H1 k x).
  - now apply (H1 k x).
Qed.
Print Assumptions C27_init.

(** During apply it returns exactly the entries below the module's name, with that
    prefix removed. *)
Theorem C27_apply C n m rng body w f b :
  top w = Some f -> f_frozen f = true -> module_name w m = Some b ->
  exists ps, run C (S n) (LiftCall m rng body) w = (Ok (enc ps), w) /\
    forall k, ps !! k = f_params f !! (b +:+ "/" +:+ k).
Proof.
  intros F HF Hb. eexists. split; [exact (lift_apply _ _ _ _ _ _ _ _ F HF Hb)|]. intros k. rewrite unpack_lookup. now rewrite app_assoc_str.
Qed.
Print Assumptions C27_apply.

(** Round trip: a module that lifts while nothing is stored below its name gets the
    same parameters back during apply, if the parameters below its name are those that
    were there after the call. *)
Theorem C27_round_trip C n m rng body w f b v w' f' C2 n2 m2 rng2 body2 w2 f2 :
  top w = Some f -> f_frozen f = false -> module_name w m = Some b ->
  (forall k, f_params f !! (b +:+ "/" +:+ k) = None) ->
  run C (S n) (LiftCall m rng body) w = (Ok v, w') -> top w' = Some f' ->
  top w2 = Some f2 -> f_frozen f2 = true -> module_name w2 m2 = Some b ->
  (forall k, f_params f2 !! (b +:+ "/" +:+ k) = f_params f' !! (b +:+ "/" +:+ k)) ->
  run C2 (S n2) (LiftCall m2 rng2 body2) w2 = (Ok v, w2).
Proof.
  intros F HF Hb HN E F' F2 HF2 Hb2 HE. destruct (C27_init _ _ _ _ _ _ _ _ _ _ F HF Hb E) as (ps & w1 & g & _ & -> & Fg & _ & H1 & H2).
  assert (g = f') as -> by congruence.
  destruct (C27_apply C2 n2 m2 rng2 body2 w2 f2 b F2 HF2 Hb2) as (qs & E2 & HQ). rewrite E2. do 3 f_equal. apply map_eq. intros k.
  rewrite HQ, HE. destruct (ps !! k) as [x|] eqn:Ek; [now apply H1|]. rewrite H2; [apply HN|].
  intros k' [x Hx] Heq. apply app_inj_str in Heq. apply (app_inj_str "/") in Heq. subst k'. congruence.
Qed.
Print Assumptions C27_round_trip.

(** A second call of the same lifted module during init fails if the inner function has
    parameters. *)
Theorem C27_second_call C n m rng body w f b e w' :
  top w = Some f -> f_frozen f = false -> module_name w m = Some b ->
  run C (S n) (LiftCall m rng body) w = (Exc e, w') ->
  (exists w1, hk_init C n rng body w = (Exc e, w1)) \/
  (e = EStateInTransform /\ exists ps st w1, hk_init C n rng body w = (Ok (ps, st), w1) /\ st <> ∅) \/
  (exists ps w1 k, hk_init C n rng body w = (Ok (ps, ∅), w1) /\ is_Some (ps !! k) /\
     is_Some (f_params f !! (b +:+ "/" +:+ k)) /\ e = ELiftClash (b +:+ "/" +:+ k)).
Proof.
  intros F HF Hb E. cbn [run step] in E. unfold lift_call in E. destruct (top_Some _ _ F) as [fs F'].
  unfold bindM at 1, top_frame at 1 in E. rewrite F' in E. unfold bindM at 1 in E. rewrite safe_name_eq, Hb in E. rewrite HF in E.
  fold (hk_init C n rng body) in E. unfold bindM at 1 in E. destruct (hk_init C n rng body w) as [[[ps st]|e1|] w1] eqn:E1; [|left|discriminate E].
  2:{ injection E as -> <-. eauto. }
  right. cbn [fst snd] in E. destruct (bool_decide (st = ∅)) eqn:EB.
  - right. apply bool_decide_eq_true in EB as ->. unfold bindM in E.
    assert (F1 : top w1 = Some f) by (unfold top; rewrite (proj2 (hk_init_T _ _ _ _ _ _ _ E1)); exact F).
    destruct (pack_into_dict (map_to_list ps) b w1) as [[[]|e2|] w2] eqn:E2; [discriminate E| |discriminate E].
    injection E as -> <-. destruct (pack_clash _ _ _ _ _ _ F1 (map_fst_NoDup ps) E2) as (k & Hk & Hs & ->).
    exists ps, w1, k. repeat split; auto. now apply in_fst_map.
  - left. injection E as <- <-. apply bool_decide_eq_false in EB. eauto 6.
Qed.
Print Assumptions C27_second_call.


(** The inner function [linear] without its counter, lifted by a module. *)
Definition stateless_linear (init : val) : prog :=
  Bind (plain_module "Linear" "linear") (fun m => match m with
    | VMod m => CallMethod m "__call__" VNone (fun _ => GetParam "w" [2; 3] "float32" (Some init))
    | _ => Ret VNone end).
Definition lifting (twice : bool) : prog :=
  Bind (plain_module "LiftingModule" "lifted") (fun m => match m with
    | VMod m => let call := CallMethod m "__call__" VNone (fun _ => LiftCall m (Some (Seed 1)) (stateless_linear VNone)) in
                if twice then then_ call call else call
    | _ => Ret VNone end).
Example C27_ex : params_at "lifted/linear" "w" (hk_init demo 30 None (lifting false) empty_world) = Some (VArr [2; 3] 7).
Proof. vm_compute. reflexivity. Qed.
Example C27_ex_back : match hk_init demo 30 None (lifting false) empty_world with
  | (Ok (ps, st), _) => option_map fst (result (hk_apply demo 30 ps st None (lifting false) empty_world))
                        = Some (VDict [("linear", VDict [("w", VArr [2; 3] 7)])])
  | _ => False end.
Proof. vm_compute. reflexivity. Qed.
(** So a function that works during apply cannot always be initialised: a lifted module
    may be called once only. *)
Theorem C27_twice_refuted :
  ~ (forall C n p ps e w, hk_init C n None p empty_world = (Exc e, w) -> forall r w2, hk_apply C n ps ∅ None p empty_world = (Ok r, w2) ->
       exists b n, e = ENoParam b n).
Proof.
  intros G.
  assert (E1 : error (hk_init demo 30 None (lifting true) empty_world) = Some (ELiftClash "lifted/linear")) by (vm_compute; reflexivity).
  assert (E2 : match result (hk_apply demo 30 ∅ ∅ None (lifting true) empty_world) with Some _ => True | None => False end) by (vm_compute; exact Logic.I).
  apply error_inv in E1 as [w E1]. apply result_inv in E2 as (r & w2 & E2).
  destruct (G _ _ _ _ _ _ E1 _ _ E2) as (b & k & H). discriminate H.
Qed.
Print Assumptions C27_twice_refuted.

(** ** C28: [optimize_rng_use] *)

Lemma if_bool_decide {A} (P : Prop) `{Decision P} (a b : A) : (if bool_decide P then a else b) = (if decide P then a else b).
Proof. unfold bool_decide, decide. now destruct H. Qed.

(** When it succeeds, the result is that of the function itself, run with as many keys
    reserved as a first evaluation in a fresh context had drawn. The first evaluation
    leaves no trace in the transform. *)
Theorem C28_result C n body w v w' f : run C (S n) (OptimizeRng body) w = (Ok v, w') -> top w = Some f ->
  exists u w1, let k := w_draws w1 - w_draws w in
    run C n body (set_frames (new_frame (if decide (f_params f = ∅) then None else Some (f_params f))
                                        (if decide (f_state f = ∅) then None else Some (map2 fst (f_state f))) (f_rng f) :: w_frames w) w)
      = (Ok u, w1) /\ tail (w_frames w1) = w_frames w /\
    run C n body (if decide (k = 0) then set_frames (w_frames w) w1
                  else on_top (fun f => set_rng (reserve k <$> f_rng f) f) (set_frames (w_frames w) w1)) = (Ok v, w').
Proof.
  intros E F. cbn [run step] in E. unfold optimize_rng_use in E. destruct (top_Some _ _ F) as [fs F'].
  unfold bindM at 1, top_frame at 1 in E. rewrite F' in E. unfold bindM at 1, reads at 1 in E.
  apply bind_ok in E as ([u g] & w2 & E1 & E).
  pose proof E1 as E1'. eapply (in_frame_T (fun _ => True) (fun _ => False) rng_rel (fun _ => False)) in E1' as (_ & HF & H1);
    [|intros; eapply run_T; eauto|apply rng_rel_refl].
  destruct (H1 u g eq_refl) as (_ & w1 & Er & F1). exists u, w1. cbn zeta.
  assert (Ew : w2 = set_frames (w_frames w) w1).
  { unfold in_frame in E1. rewrite Er, F1 in E1. now injection E1 as <-. }
  subst w2. split; [|split; [now rewrite F1|]].
  - unfold extract_initial in Er. rewrite !if_bool_decide in Er. exact Er.
  - unfold bindM at 1, reads at 1 in E. change (w_draws (set_frames (w_frames w) w1)) with (w_draws w1) in E.
    destruct (decide (w_draws w1 - w_draws w = 0)) as [Hk|Hk].
    + rewrite Hk in E. cbn in E. exact E.
    + assert (Nat.ltb 0 (w_draws w1 - w_draws w) = true) as Hl by (apply Nat.ltb_lt; lia). rewrite Hl in E.
      apply bind_ok in E as ([] & w3 & E3 & E). unfold bindM, top_frame in E3. cbn [w_frames set_frames] in E3. rewrite F' in E3.
      destruct (f_rng f) as [s|] eqn:Es; [|discriminate E3]. injection E3 as <-. rewrite F'.
      unfold on_top in *. cbn [w_frames set_frames] in *. rewrite Es in *. exact E.
Qed.
Print Assumptions C28_result.

Definition two_params : prog := then_ (GetParam "a" [] "f32" (Some VNone)) (OptimizeRng (GetParam "b" [] "f32" (Some VNone))).
Example C28_result_ex : match run demo 30 (OptimizeRng (then_ NextKey (GetParam "b" [2] "f32" (Some VNone)))) (init_world (Some (Seed 1))) with
  | (Ok v, w) => v = VArr [2] 7 /\ option_map f_rng (top w) = Some (Some (Seq (Split (Seed 1) 3 0) [] [Split (Seed 1) 3 2; Split (Seed 1) 3 1]))
  | _ => False end.
Proof. vm_compute. auto. Qed.

(** It can make a function fail. During init: some parameter exists already and the
    function creates another one. *)
Theorem C28_init_refuted :
  ~ (forall C n rng q u w p v w', run C n q (init_world rng) = (Ok u, w) -> run C n p w = (Ok v, w') ->
      forall e w2, run C n (OptimizeRng p) w <> (Exc e, w2)).
Proof.
  intros G.
  destruct (witness1 (run demo 30 (GetParam "a" [] "f32" (Some VNone)) (init_world (Some (Seed 1)))) (fun _ w =>
     match result (run demo 30 (GetParam "b" [] "f32" (Some VNone)) w) with Some _ => True | None => False end /\
     error (run demo 30 (OptimizeRng (GetParam "b" [] "f32" (Some VNone))) w) = Some (ENoParam "~" "b"))) as (u & w & E & H1 & H2).
  { vm_compute. auto. }
  apply result_inv in H1 as (v & w1 & H1). apply error_inv in H2 as [w2 H2]. exact (G _ _ _ _ _ _ _ _ _ E H1 _ _ H2).
Qed.
Print Assumptions C28_init_refuted.

(** During apply: in a method of a module, since the fresh context has no module. *)
Definition in_method (p : prog) : prog :=
  Bind (plain_module "Linear" "linear") (fun m => match m with
    | VMod m => CallMethod m "__call__" VNone (fun _ => p)
    | _ => Ret VNone end).
Theorem C28_apply_refuted :
  ~ (forall C n ps st rng (ctx : prog -> prog) p r w, hk_apply C n ps st rng (ctx p) empty_world = (Ok r, w) ->
      forall e w2, hk_apply C n ps st rng (ctx (OptimizeRng p)) empty_world <> (Exc e, w2)).
Proof.
  intros G. pose (ps := {["linear" := {["w" := VArr [] 7]}]} : bundles val). pose (p := GetParam "w" [] "f32" (Some VNone)).
  assert (H1 : match result (hk_apply demo 30 ps ∅ None (in_method p) empty_world) with Some _ => True | None => False end) by (vm_compute; exact Logic.I).
  assert (H2 : error (hk_apply demo 30 ps ∅ None (in_method (OptimizeRng p)) empty_world) = Some (ENoParam "~" "w")) by (vm_compute; reflexivity).
  apply result_inv in H1 as (v & w1 & H1). apply error_inv in H2 as [w2 H2]. exact (G _ _ _ _ _ _ _ _ _ H1 _ _ H2).
Qed.
Print Assumptions C28_apply_refuted.

(** ** C60: [without_state], [without_apply_rng] *)

(** [without_state]: the same parameters / output when the state returned is empty, an
    error when it is not, and exceptions are passed on. *)
Theorem C60_without_state_init t args w : forall x w', t_init t args w = (x, w') ->
  match x with
  | Ok (VTup [params; VDict []]) => t_init (without_state t) args w = (Ok params, w')
  | Ok (VTup [params; VDict (_ :: _)]) => t_init (without_state t) args w = (Exc EStateInTransform, w')
  | Exc e => t_init (without_state t) args w = (Exc e, w')
  | _ => True
  end.
Proof.
  intros x w' E. destruct x as [v|e|]; [|cbn; unfold bindM; now rewrite E|exact Logic.I].
  destruct v as [| | | | | |l| | |]; auto. destruct l as [|p [|s [|? ?]]]; auto; destruct s as [| | | | | | | | |[|? ?]]; auto;
    cbn; unfold bindM; now rewrite E.
Qed.
Print Assumptions C60_without_state_init.
Theorem C60_without_state_apply t params args w : forall x w', t_apply t (params :: VDict [] :: args) w = (x, w') ->
  match x with
  | Ok (VTup [out; VDict []]) => t_apply (without_state t) (params :: args) w = (Ok out, w')
  | Ok (VTup [out; VDict (_ :: _)]) => t_apply (without_state t) (params :: args) w = (Exc EStateInTransform, w')
  | Exc e => t_apply (without_state t) (params :: args) w = (Exc e, w')
  | _ => True
  end.
Proof.
  intros x w' E. destruct x as [v|e|]; [|cbn; unfold bindM; now rewrite E|exact Logic.I].
  destruct v as [| | | | | |l| | |]; auto. destruct l as [|p [|s [|? ?]]]; auto; destruct s as [| | | | | | | | |[|? ?]]; auto;
    cbn; unfold bindM; now rewrite E.
Qed.
Print Assumptions C60_without_state_apply.

Lemma truthy_enc st : truthy (enc st) = negb (bool_decide (st = ∅)).
Proof.
  unfold enc, truthy. destruct (decide (st = ∅)) as [->|Hne].
  - rewrite bool_decide_eq_true_2 by reflexivity. now rewrite map_to_list_empty.
  - rewrite bool_decide_eq_false_2 by assumption. destruct (map_to_list st) as [|[b x] l] eqn:E; [|reflexivity].
    apply map_to_list_empty_iff in E. contradiction.
Qed.

(** [hk.transform]: init and apply of the function, provided no state was recorded. *)
Theorem C60_transform_init C n f k args w :
  t_init (transform C n f) (match k with Some k => VKey k | None => VNone end :: args) w =
  match hk_init C n k (f args) w with
  | (Ok (params, state), w') => if decide (state = ∅) then (Ok (enc params), w') else (Exc EStateInTransform, w')
  | (Exc e, w') => (Exc e, w')
  | (Fuel, w') => (Fuel, w')
  end.
Proof.
  cbn. assert (as_rng (match k with Some k => VKey k | None => VNone end) = Some k) as -> by now destruct k.
  unfold bindM. destruct (hk_init C n k (f args) w) as [[[ps st]|e|] w']; try reflexivity. cbn -[enc]. rewrite truthy_enc.
  destruct (decide (st = ∅)) as [Hs|Hs]; [rewrite bool_decide_eq_true_2 by assumption|rewrite bool_decide_eq_false_2 by assumption]; reflexivity.
Qed.
Print Assumptions C60_transform_init.
Theorem C60_transform_apply C n f params ps k args w : dec params = Some ps ->
  t_apply (transform C n f) (params :: match k with Some k => VKey k | None => VNone end :: args) w =
  match hk_apply C n ps ∅ k (f args) w with
  | (Ok (out, state), w') => if decide (state = ∅) then (Ok out, w') else (Exc EStateInTransform, w')
  | (Exc e, w') => (Exc e, w')
  | (Fuel, w') => (Fuel, w')
  end.
Proof.
  intros HP. cbn. assert (as_rng (match k with Some k => VKey k | None => VNone end) = Some k) as -> by now destruct k.
  rewrite HP. unfold bindM. destruct (hk_apply C n ps ∅ k (f args) w) as [[[out st]|e|] w']; try reflexivity. cbn -[enc]. rewrite truthy_enc.
  destruct (decide (st = ∅)) as [Hs|Hs]; [rewrite bool_decide_eq_true_2 by assumption|rewrite bool_decide_eq_false_2 by assumption]; reflexivity.
Qed.
Print Assumptions C60_transform_apply.

(** [without_apply_rng] leaves [init] alone and passes [None] as the rng. *)
Theorem C60_without_rng t : t_init (without_apply_rng t) = t_init t /\
  (t_kind t = KWithState -> forall params state args, t_apply (without_apply_rng t) (params :: state :: args) = t_apply t (params :: state :: VNone :: args)) /\
  (t_kind t = KTransformed -> forall params args, t_apply (without_apply_rng t) (params :: args) = t_apply t (params :: VNone :: args)).
Proof. split; [reflexivity|]. split; intros Hk; intros; cbn; now rewrite Hk. Qed.
Print Assumptions C60_without_rng.

(** The two wrappers commute. *)
Theorem C60_commute t : t_kind t = KWithState ->
  t_init (without_state (without_apply_rng t)) = t_init (without_apply_rng (without_state t)) /\
  forall params args, t_apply (without_state (without_apply_rng t)) (params :: args) = t_apply (without_apply_rng (without_state t)) (params :: args).
Proof. intros Hk. split; [reflexivity|]. intros. cbn. now rewrite Hk. Qed.
Print Assumptions C60_commute.

(** The type of the result is not that of the argument. *)
Theorem C60_kind_refuted : ~ (forall t, t_kind (without_apply_rng t) = t_kind t).
Proof. intros G. specialize (G (transform demo 0 (fun _ => Ret VNone))). discriminate G. Qed.
Print Assumptions C60_kind_refuted.
(** So code that looks at the type - such as [without_apply_rng] - mistakes the result
    for a function with state, and passes arguments to the wrong places. *)
Theorem C60_twice_refuted :
  ~ (forall t params args w x w', t_kind t = KTransformed -> t_apply (without_apply_rng t) (params :: args) w = (Ok x, w') ->
       t_apply (without_apply_rng (without_apply_rng t)) (params :: args) w = (Ok x, w')).
Proof.
  intros G. pose (t := transform demo 5 (fun args => Ret (VInt (Z.of_nat (List.length args))))).
  specialize (G t (VDict []) [VInt 1] empty_world (VInt 1) empty_world eq_refl).
  assert (E : t_apply (without_apply_rng t) [VDict []; VInt 1] empty_world = (Ok (VInt 1), empty_world)) by (vm_compute; reflexivity).
  specialize (G E). clear E. assert (E : result (t_apply (without_apply_rng (without_apply_rng t)) [VDict []; VInt 1] empty_world) = Some (VInt 2)) by (vm_compute; reflexivity).
  rewrite G in E. cbn in E. clear - E. discriminate E.
Qed.
Print Assumptions C60_twice_refuted.

Example C60_ex : match t_init (transform demo 30 (fun _ => stateless_linear VNone)) [VKey (Seed 3)] empty_world with
  | (Ok ps, _) => result (t_apply (transform demo 30 (fun _ => stateless_linear VNone)) [ps; VNone] empty_world) = Some (VArr [2; 3] 7)
  | _ => False end.
Proof. vm_compute. reflexivity. Qed.
Example C60_ex_state : error (t_init (transform demo 30 (fun _ => linear VNone)) [VKey (Seed 3)] empty_world) = Some EStateInTransform.
Proof. vm_compute. reflexivity. Qed.

(** ** C61: failed reads *)

(** A [get_state] without initializer that fails leaves no entry ... *)
Theorem C61_entries C n name sh dt w b f : n <> 0 -> top w = Some f -> in_module w b -> lookup2 b name (f_state f) = None ->
  exists w' f', run C n (GetState name sh dt None) w = (Exc (ENoState b name), w') /\ top w' = Some f' /\
    f_params f' = f_params f /\ f_rng f' = f_rng f /\ forall b' n', lookup2 b' n' (f_state f') = lookup2 b' n' (f_state f).
Proof.
  intros Hn F Hb L. destruct n as [|n]; [congruence|]. destruct (top_Some _ _ F) as [fs F'].
  exists (on_top (fun f => set_fstate (touch b (f_state f)) f) w), (set_fstate (touch b (f_state f)) f). cbn [run step]. unfold get_state.
  rewrite (bind_eq _ _ _ _ _ (bundle_name_ok _ _ Hb)). unfold bindM at 1, top_frame at 1. rewrite F'. unfold bindM at 1, modify at 1.
  rewrite L. unfold bindM at 1, throw at 1. repeat split.
  - exact (on_top_top (fun f => set_fstate (touch b (f_state f)) f) w f F).
  - intros b' n'. apply lookup2_touch.
Qed.
Print Assumptions C61_entries.

(** ... but it is not without effect: an empty dictionary for the module stays behind, *)
Theorem C61_state_refuted :
  ~ (forall C n name sh dt i w e w' f f', run C n (GetState name sh dt i) w = (Exc e, w') -> top w = Some f -> top w' = Some f' ->
       f_state f' = f_state f).
Proof.
  intros G. assert (E : match run demo 5 (GetState "s" None None None) (init_world None) with
    | (Exc _, w') => match top w' with Some f' => match f_state f' !! "~" with Some _ => True | None => False end | None => False end
    | _ => False end) by (vm_compute; exact Logic.I).
  destruct (run demo 5 (GetState "s" None None None) (init_world None)) as [[?|e|] w'] eqn:E1; try contradiction.
  destruct (top w') as [f'|] eqn:F'; [|contradiction]. specialize (G _ _ _ _ _ _ _ _ _ _ _ E1 eq_refl F').
  rewrite G in E. cbn in E. clear - E. exact E.
Qed.
Print Assumptions C61_state_refuted.
(** which is enough for [hk.transform] to reject a function that recovers from the
    error and stores no state. *)
Definition probe : prog := TryExcept (GetState "s" None None None) (fun _ => Ret (VInt 5)).
Theorem C61_transform_refuted :
  ~ (forall C n f rng args ps st w w', hk_init C n rng (f args) w = (Ok (ps, st), w') -> (forall b k, lookup2 b k st = None) ->
       forall w2, t_init (transform C n f) (match rng with Some k => VKey k | None => VNone end :: args) w <> (Exc EStateInTransform, w2)).
Proof.
  intros G.
  destruct (witness2 (hk_init demo 5 None probe empty_world) (fun ps st => List.map (fun '(b, x) => (b, map_to_list x)) (map_to_list st) = [("~", [])])) as (ps & st & w' & E & H).
  { vm_compute. reflexivity. }
  apply (G demo 5 (fun _ => probe) None [] ps st empty_world w' E) with (w2 := w').
  - intros b k. unfold lookup2. destruct (st !! b) as [x|] eqn:Eb; [|reflexivity]. apply in_map_to_list in Eb.
    apply (in_map (fun '(b, x) => (b, map_to_list x))) in Eb. rewrite H in Eb. destruct Eb as [Eb|[]]. injection Eb as _ Eb. symmetry in Eb.
    apply map_to_list_empty_iff in Eb as ->. apply lookup_empty.
  - rewrite (C60_transform_init demo 5 (fun _ => probe) None [] empty_world). rewrite E. destruct (decide (st = ∅)) as [->|_]; [|reflexivity]. rewrite map_to_list_empty in H. discriminate.
Qed.
Print Assumptions C61_transform_refuted.

(** A parameter whose initializer returns the wrong shape is stored before the error is
    raised, and then returned by [init]. *)
Definition bad_shape : code := Code (c_fun demo) (fun i sh dt => Ret (VArr (1 :: sh) 0)) (c_creator demo) (c_getter demo) (c_icpt demo)
  (c_same demo) (c_same_rng demo) (c_block demo).
Theorem C61_param_refuted :
  ~ (forall C n name sh dt i w e w' f f', run C n (GetParam name sh dt i) w = (Exc e, w') -> top w = Some f -> top w' = Some f' ->
       forall b k, lookup2 b k (f_params f') = lookup2 b k (f_params f)).
Proof.
  intros G. assert (E : match run bad_shape 5 (GetParam "w" [2] "f32" (Some VNone)) (init_world None) with
    | (Exc _, w') => match top w' with Some f' => lookup2 "~" "w" (f_params f') = Some (VArr [1; 2] 0) | None => False end
    | _ => False end) by (vm_compute; reflexivity).
  destruct (run bad_shape 5 (GetParam "w" [2] "f32" (Some VNone)) (init_world None)) as [[?|e|] w'] eqn:E1; try contradiction.
  destruct (top w') as [f'|] eqn:F'; [|contradiction]. specialize (G _ _ _ _ _ _ _ _ _ _ _ E1 eq_refl F' "~" "w").
  rewrite E in G. cbn in G. clear - G. discriminate G.
Qed.
Print Assumptions C61_param_refuted.
Example C61_param_ex : params_at "~" "w" (hk_init bad_shape 9 None
   (TryExcept (GetParam "w" [2] "f32" (Some VNone)) (fun _ => Ret VNone)) empty_world) = Some (VArr [1; 2] 0).
Proof. vm_compute. reflexivity. Qed.

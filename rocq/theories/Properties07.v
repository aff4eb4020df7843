(** C24, C25: interceptors, creators, getters. *)
From stdpp Require Import gmap list strings.
From Coq Require Import String Ascii ZArith Lia.
From Verif Require Import ModelStr ModelRng ModelCore ModelWith SpecCore SpecNext Demo ProofsStr ProofsMap ProofsNames ProofsRng ProofsEvolve ProofsRun ProofsOps ProofsModule ProofsOwn ProofsNext ProofsWith.
Local Open Scope string_scope.
Local Open Scope list_scope.

(** ** C24: method interceptors *)

(** A method call that returns, with interceptors [is] active (outermost first) that
    call [next] exactly once: all of them run, outermost first, then the method, then
    what they do afterwards, innermost first. Only records of submodules are changed
    after that. *)
Theorem C24_methods C n m meth arg body w v w' is before pass after :
  w_icpt w = rev is -> interceptors_call_once C is before pass after ->
  no_future w -> (forall v, knows_no_future w (body v)) ->
  run C n (CallMethod m meth arg body) w = (Ok v, w') ->
  exists w1 ms,
    onion C (before (m, meth)) pass (after (m, meth)) (method_core C body)
      (List.length (w_nexts w)) (fun is => NxCall is m meth (MFun body)) is arg
      (with_next (fun is => NxCall is m meth (MFun body)) is (push_module (m, meth) w)) (Ok v) w1
    /\ w' = set_mods ms (pop_module w1).
Proof.
  intros Hi HO HN HB E. destruct n as [|n]; [discriminate E|]. cbn [run step] in E.
  assert (HF : w_frames w <> []). { intros F. unfold wrap_method, bindM, top_frame in E. rewrite F in E. discriminate E. }
  destruct (wrap_method_interceptors _ _ _ _ _ _ _ _ _ E ltac:(discriminate) HF) as (y & w1 & Er & [[<- [ms ->]]|(_ & e & He & _)]); [|discriminate He].
  exists w1, ms. split; [|reflexivity].
  assert (Hn : w_nexts (push_module (m, meth) w) = w_nexts w) by apply on_top_nexts. rewrite <- Hn.
  refine (interceptors_onion C is before pass after m meth (MFun body) (method_core C body) HO _ n arg _ _ _ _ _ _ Er _).
  - intros k a u x u' Ek. exists k. exact Ek.
  - rewrite <- Hi. unfold push_module, on_top. now destruct (w_frames w).
  - unfold heap_ok. rewrite Hn. apply HN. lia.
  - rewrite Hn. intros v0. apply HB. lia.
  - discriminate.
Qed.
Print Assumptions C24_methods.

(** The same for a call that raises: an interceptor or the method raised, and the
    interceptors around it did nothing more - or the call itself had returned and
    recording the module in its callers failed. *)
Theorem C24_methods_raise C n m meth arg body w e w' is before pass after :
  w_icpt w = rev is -> interceptors_call_once C is before pass after -> w_frames w <> [] ->
  no_future w -> (forall v, knows_no_future w (body v)) ->
  run C n (CallMethod m meth arg body) w = (Exc e, w') ->
  exists x w1 ms,
    onion C (before (m, meth)) pass (after (m, meth)) (method_core C body)
      (List.length (w_nexts w)) (fun is => NxCall is m meth (MFun body)) is arg
      (with_next (fun is => NxCall is m meth (MFun body)) is (push_module (m, meth) w)) x w1
    /\ w' = set_mods ms (pop_module w1) /\ (x = Exc e \/ exists v, x = Ok v).
Proof.
  intros Hi HO HF HN HB E. destruct n as [|n]; [discriminate E|]. cbn [run step] in E.
  destruct (wrap_method_interceptors _ _ _ _ _ _ _ _ _ E ltac:(discriminate) HF) as (y & w1 & Er & HY).
  exists y, w1. assert (Hn : w_nexts (push_module (m, meth) w) = w_nexts w) by apply on_top_nexts.
  assert (HO' : onion C (before (m, meth)) pass (after (m, meth)) (method_core C body)
      (List.length (w_nexts w)) (fun is => NxCall is m meth (MFun body)) is arg
      (with_next (fun is => NxCall is m meth (MFun body)) is (push_module (m, meth) w)) y w1).
  { rewrite <- Hn.
    refine (interceptors_onion C is before pass after m meth (MFun body) (method_core C body) HO _ n arg _ _ _ _ _ _ Er _).
    - intros k a u x u' Ek. exists k. exact Ek.
    - rewrite <- Hi. unfold push_module, on_top. now destruct (w_frames w).
    - unfold heap_ok. rewrite Hn. apply HN. lia.
    - rewrite Hn. intros v0. apply HB. lia.
    - destruct HY as [[<- _]|((v & ->) & _)]; discriminate. }
  destruct HY as [[<- [ms ->]]|((v & ->) & e' & He & ms & ->)]; exists ms; eauto.
Qed.
Print Assumptions C24_methods_raise.

(** Constructors are intercepted in the same way. *)
Theorem C24_constructors C n cls pre super post w m w' is before pass after :
  w_icpt w = rev is -> interceptors_call_once C is before pass after ->
  no_future w -> (forall m, knows_no_future w (pre m)) -> (forall m v, knows_no_future w (post m v)) ->
  run C n (NewModule cls pre super post) w = (Ok (VMod m), w') ->
  let w0 := push_module (m, "__init__") (set_mods (w_mods w ++ [MObj None None]) w) in
  exists v w1 ms,
    onion C (before (m, "__init__")) pass (after (m, "__init__")) (ctor_core C m cls pre super post)
      (List.length (w_nexts w)) (fun is => NxCall is m "__init__" (MCtor cls pre super post)) is VNone
      (with_next (fun is => NxCall is m "__init__" (MCtor cls pre super post)) is w0) (Ok v) w1
    /\ w' = set_mods ms (pop_module w1).
Proof.
  intros Hi HO HN HB1 HB2 E. destruct n as [|n]; [discriminate E|]. cbn [run step] in E.
  apply bind_ok in E as (m1 & w2 & E & E2). injection E2 as -> ->.
  unfold new_module in E. unfold bindM at 1, reads at 1 in E. unfold bindM at 1, modify at 1 in E.
  apply bind_ok in E as (v & w2 & E1 & E2). unfold bindM, reads in E2.
  destruct (w_mods w2 !! List.length (w_mods w)) as [[[?|] ?]|]; try discriminate E2. injection E2 as <- <-. intros w0.
  assert (HF : w_frames (set_mods (w_mods w ++ [MObj None None]) w) <> []).
  { intros F. unfold wrap_method, bindM, top_frame in E1. rewrite F in E1. discriminate E1. }
  destruct (wrap_method_interceptors _ _ _ _ _ _ _ _ _ E1 ltac:(discriminate) HF) as (y & w1 & Er & [[<- [ms ->]]|(_ & e & He & _)]); [|discriminate He].
  exists v, w1, ms. split; [|reflexivity]. fold w0 in Er.
  assert (Hn : w_nexts w0 = w_nexts w) by (unfold w0, push_module; now rewrite on_top_nexts). rewrite <- Hn.
  refine (interceptors_onion C is before pass after _ "__init__" (MCtor cls pre super post) _ HO _ n VNone _ _ _ _ _ _ Er _).
  - intros k a u x u' Ek. exists k. exact Ek.
  - rewrite <- Hi. unfold w0, push_module, on_top. cbn. now destruct (w_frames w).
  - unfold heap_ok. rewrite Hn. apply HN. lia.
  - rewrite Hn. split; intros; [apply HB1|apply HB2]; lia.
  - discriminate.
Qed.
Print Assumptions C24_constructors.

(** Counting in the state of the current module. *)
Definition bump (name : string) : prog :=
  Bind (GetState name (Some []) (Some "int32") (Some (VInt 0))) (fun v =>
    match v with VArr _ z => SetState name (VArr [] (z + 1)) | _ => Ret VNone end).
(** Write down the order of events in the state. *)
Definition note (z : Z) : prog :=
  Bind (GetState "log" (Some []) (Some "int32") (Some (VInt 0))) (fun v =>
    match v with VArr _ old => SetState "log" (VArr [] (old * 10 + z)) | _ => Ret VNone end).
(** Interceptors [VInt z]: note [z], call next, note [z + 1]. *)
Definition logging : code := Code (c_fun demo) (c_init demo) (c_creator demo) (c_getter demo)
  (fun i r a ctx => match i with
     | VInt z => Bind (note z) (fun _ => Bind (NextCall r a) (fun out => Bind (note (z + 1)) (fun _ => Ret out)))
     | _ => NextCall r a end)
  (c_same demo) (c_same_rng demo) 1.
Definition intercepted (body : prog) (is : list val) : prog :=
  Bind (plain_module "Mod" "mod") (fun m => match m with
    | VMod m => fold_right Intercept (CallMethod m "f" VNone (fun _ => body)) is
    | _ => Ret VNone end).
Example interceptors_in_order :
  match hk_apply logging 40 ∅ ∅ None (intercepted (note 5) [VInt 1; VInt 3]) empty_world with
  | (Ok (_, st), _) => lookup2 "mod" "log" st | _ => None end = Some (VArr [] 13542).
Proof. vm_compute. reflexivity. Qed.

(** The hypotheses hold for these interceptors. *)
Lemma logging_own : own_next logging.
Proof.
  split; intros; cbn.
  - ops.
  - destruct i; ops.
  - ops_with ltac:(assumption).
  - ops_with ltac:(assumption).
  - destruct i; try ops_with ltac:(assumption).
Qed.
Example logging_once : interceptors_call_once logging [VInt 1; VInt 3]
   (fun _ i _ => match i with VInt z => note z | _ => Ret VNone end) (fun _ a _ => a)
   (fun _ i _ _ out => match i with VInt z => Bind (note (z + 1)) (fun _ => Ret out) | _ => Ret VNone end).
Proof.
  split; [| |exact logging_own]; intros i r a ctx Hi; destruct Hi as [<-|[<-|[]]]; try reflexivity; cbn; ops.
Qed.
Example logging_world :
  let w := set_icpt (rev [VInt 1; VInt 3]) (apply_world ∅ ∅ None) in
  no_future w /\ forall v : val, knows_no_future w ((fun _ => note 5) v).
Proof. split; [intros r _; constructor|]. intros v r _. ops. Qed.

(** An interceptor that calls [next] twice: the second call does not run the inner
    interceptors again. *)
Definition twice : code := Code (c_fun demo) (c_init demo) (c_creator demo) (c_getter demo)
  (fun i r a ctx => match i with
     | VStr "outer" => Bind (NextCall r a) (fun _ => NextCall r a)
     | VStr s => Bind (bump s) (fun _ => NextCall r a)
     | _ => NextCall r a end)
  (c_same demo) (c_same_rng demo) 1.
Theorem C24_next_twice_refuted :
  ~ (forall C, (forall r a ctx, c_icpt C (VStr "inner") r a ctx = Bind (bump "inner") (fun _ => NextCall r a)) ->
     forall n v st w',
     hk_apply C n ∅ ∅ None (intercepted (bump "method") [VStr "outer"; VStr "inner"]) empty_world = (Ok (v, st), w') ->
     lookup2 "mod" "inner" st = lookup2 "mod" "method" st).
Proof.
  intros G. specialize (G twice (fun _ _ _ => eq_refl) 40).
  destruct (witness2 (hk_apply twice 40 ∅ ∅ None (intercepted (bump "method") [VStr "outer"; VStr "inner"]) empty_world)
    (fun _ st => lookup2 "mod" "inner" st = Some (VArr [] 1) /\ lookup2 "mod" "method" st = Some (VArr [] 2))) as (v & st & w' & E & H1 & H2).
  - vm_compute. split; reflexivity.
  - specialize (G _ _ _ E). rewrite H1, H2 in G. clear - G. discriminate G.
Qed.
Print Assumptions C24_next_twice_refuted.

(** ** C25: creators and getters *)

(** [custom_creator] and [custom_getter] used as context managers: inside, the callable
    is the innermost one for the kinds of variables asked for, and nothing else changes. *)
Theorem C25_flags C n c (ps ss : bool) body w f r w1 : top w = Some f ->
  run C n body (World (w_frames w) (if ps then c :: w_pcreate w else w_pcreate w) (if ss then c :: w_screate w else w_screate w)
                 (w_pget w) (w_sget w) (w_icpt w) (w_mods w) (w_nexts w) (w_draws w)) = (r, w1) ->
  exists w2, run C (S n) (WithCreator c ps ss body) w = (r, w2).
Proof.
  intros F E. apply top_Some in F as [fs F]. cbn [run step]. unfold bindM at 1, top_frame at 1. rewrite F.
  unfold scoped. destruct w; cbn in *. unfold set_creators, push_if; cbn. destruct ps, ss; cbn; rewrite E; eauto.
Qed.
Print Assumptions C25_flags.
Theorem C25_getter_flags C n g (ps ss : bool) body w f r w1 : top w = Some f ->
  run C n body (World (w_frames w) (w_pcreate w) (w_screate w) (if ps then g :: w_pget w else w_pget w)
                 (if ss then g :: w_sget w else w_sget w) (w_icpt w) (w_mods w) (w_nexts w) (w_draws w)) = (r, w1) ->
  exists w2, run C (S n) (WithGetter g ps ss body) w = (r, w2).
Proof.
  intros F E. apply top_Some in F as [fs F]. cbn [run step]. unfold bindM at 1, top_frame at 1. rewrite F.
  unfold scoped. destruct w; cbn in *. unfold set_getters, push_if; cbn. destruct ps, ss; cbn; rewrite E; eauto.
Qed.
Print Assumptions C25_getter_flags.

(** The first request of a parameter during init, with creators [cs] and getters [gs]
    active (outermost first) that call [next] exactly once: the creators run, outermost
    first, around the initializer; their result is stored; then the getters run,
    outermost first, and what they return is returned but not stored. *)
Theorem C25_param_created C n w f b name sh dt i v w' cs cbefore cpass cafter gs gbefore gpass gafter :
  top w = Some f -> in_module w b -> f_frozen f = false -> not_none (lookup2 b name (f_params f)) = None ->
  w_pcreate w = rev cs -> w_pget w = rev gs -> no_future w ->
  creators_call_once C cs cbefore cpass cafter -> getters_call_once C gs gbefore gpass gafter ->
  run C n (GetParam name sh dt (Some i)) w = (Ok v, w') ->
  let ctx := GCtx (b +:+ "/" +:+ name) (current_module f) (Some dt) (Some sh) in
  exists v1 w1,
    onion C (cbefore ctx) cpass (cafter ctx) (init_core C) (List.length (w_nexts w)) (fun is => NxCreate is ctx) cs (sh, dt, i)
      (with_next (fun is => NxCreate is ctx) cs (touch_params b w)) (Ok v1) w1 /\
    onion C (gbefore ctx) gpass (gafter ctx) value_core (List.length (w_nexts w1)) (fun is => NxGet is ctx) gs v1
      (with_next (fun is => NxGet is ctx) gs (store_param b name v1 w1)) (Ok v) w' /\
    exists f', top w' = Some f' /\ (v1 <> VNone -> lookup2 b name (f_params f') = Some v1).
Proof.
  intros F B Z L EC EG HN HC HG E ctx. destruct n as [|n]; [discriminate E|].
  destruct (get_param_create _ _ _ _ _ _ _ _ _ _ _ _ _ F B Z L EC EG E) as (v1 & w1 & E1 & E2 & E3).
  assert (Hn : w_nexts (touch_params b w) = w_nexts w) by apply on_top_nexts.
  assert (Hn1 : w_nexts (store_param b name v1 w1) = w_nexts w1) by apply on_top_nexts.
  assert (HN0 : no_future (touch_params b w)) by (eapply no_future_same; eauto).
  assert (HN1 : no_future (store_param b name v1 w1)).
  { eapply no_future_same; [exact Hn1|]. exact (creators_no_future _ _ _ _ _ _ _ _ _ _ (cc_own _ _ _ _ _ HC) HN0 E1). }
  exists v1, w1. split; [|split; [|exact E3]].
  - rewrite <- Hn. refine (creators_onion C cs _ _ _ ctx HC n sh dt i _ _ _ _ E1 _); [|discriminate]. apply HN0. lia.
  - rewrite <- Hn1. refine (getters_onion C gs _ _ _ ctx HG n v1 _ _ _ _ E2 _); [|discriminate]. apply HN1. lia.
Qed.
Print Assumptions C25_param_created.

(** Every later request (and every request during apply) runs the getters only, on
    the stored value, which stays stored. *)
Theorem C25_param_read C n w f b name sh dt i v v0 w' gs gbefore gpass gafter :
  top w = Some f -> in_module w b -> lookup2 b name (f_params f) = Some v0 -> v0 <> VNone ->
  w_pget w = rev gs -> no_future w -> getters_call_once C gs gbefore gpass gafter ->
  run C n (GetParam name sh dt (Some i)) w = (Ok v, w') ->
  let ctx := GCtx (b +:+ "/" +:+ name) (current_module f) (Some dt) (Some sh) in
  onion C (gbefore ctx) gpass (gafter ctx) value_core (List.length (w_nexts w)) (fun is => NxGet is ctx) gs v0
    (with_next (fun is => NxGet is ctx) gs w) (Ok v) w' /\
  exists f', top w' = Some f' /\ lookup2 b name (f_params f') = Some v0.
Proof.
  intros F B L Hv EG HN HG E ctx. destruct n as [|n]; [discriminate E|].
  destruct (get_param_read _ _ _ _ _ _ _ _ _ _ _ _ _ F B L Hv EG E) as (E1 & E2).
  split; [|exact E2]. refine (getters_onion C gs _ _ _ ctx HG n v0 _ _ _ _ E1 _); [|discriminate]. apply HN. lia.
Qed.
Print Assumptions C25_param_read.

(** States: the same with the creators and getters registered for states. *)
Theorem C25_state_created C n w f b name sh dt i v w' cs cbefore cpass cafter gs gbefore gpass gafter :
  top w = Some f -> in_module w b -> lookup2 b name (f_state f) = None ->
  w_screate w = rev cs -> w_sget w = rev gs -> no_future w ->
  creators_call_once C cs cbefore cpass cafter -> getters_call_once C gs gbefore gpass gafter ->
  run C n (GetState name (Some sh) (Some dt) (Some i)) w = (Ok v, w') ->
  let ctx := GCtx (b +:+ "/" +:+ name) (current_module f) (Some dt) (Some sh) in
  exists v1 w1,
    onion C (cbefore ctx) cpass (cafter ctx) (init_core C) (List.length (w_nexts w)) (fun is => NxCreate is ctx) cs (sh, dt, i)
      (with_next (fun is => NxCreate is ctx) cs (touch_state b w)) (Ok v1) w1 /\
    onion C (gbefore ctx) gpass (gafter ctx) value_core (List.length (w_nexts w1)) (fun is => NxGet is ctx) gs v1
      (with_next (fun is => NxGet is ctx) gs (store_state b name v1 w1)) (Ok v) w' /\
    exists f' c, top w' = Some f' /\ lookup2 b name (f_state f') = Some (v1, c).
Proof.
  intros F B L EC EG HN HC HG E ctx. destruct n as [|n]; [discriminate E|].
  destruct (get_state_create _ _ _ _ _ _ _ _ _ _ _ _ _ F B L EC EG E) as (v1 & w1 & E1 & E2 & E3).
  assert (Hn : w_nexts (touch_state b w) = w_nexts w) by apply on_top_nexts.
  assert (Hn1 : w_nexts (store_state b name v1 w1) = w_nexts w1) by apply on_top_nexts.
  assert (HN0 : no_future (touch_state b w)) by (eapply no_future_same; eauto).
  assert (HN1 : no_future (store_state b name v1 w1)).
  { eapply no_future_same; [exact Hn1|]. exact (creators_no_future _ _ _ _ _ _ _ _ _ _ (cc_own _ _ _ _ _ HC) HN0 E1). }
  exists v1, w1. split; [|split; [|exact E3]].
  - rewrite <- Hn. refine (creators_onion C cs _ _ _ ctx HC n sh dt i _ _ _ _ E1 _); [|discriminate]. apply HN0. lia.
  - rewrite <- Hn1. refine (getters_onion C gs _ _ _ ctx HG n v1 _ _ _ _ E2 _); [|discriminate]. apply HN1. lia.
Qed.
Print Assumptions C25_state_created.
Theorem C25_state_read C n w f b name sh dt init v ini cur w' gs gbefore gpass gafter :
  top w = Some f -> in_module w b -> lookup2 b name (f_state f) = Some (ini, cur) ->
  w_sget w = rev gs -> no_future w -> getters_call_once C gs gbefore gpass gafter ->
  run C n (GetState name sh dt init) w = (Ok v, w') ->
  let ctx := GCtx (b +:+ "/" +:+ name) (current_module f) dt sh in
  onion C (gbefore ctx) gpass (gafter ctx) value_core (List.length (w_nexts w)) (fun is => NxGet is ctx) gs cur
    (with_next (fun is => NxGet is ctx) gs w) (Ok v) w'.
Proof.
  intros F B L EG HN HG E ctx. destruct n as [|n]; [discriminate E|].
  pose proof (get_state_read _ _ _ _ _ _ _ _ _ _ _ _ _ _ F B L EG E) as E1.
  refine (getters_onion C gs _ _ _ ctx HG n cur _ _ _ _ E1 _); [|discriminate]. apply HN. lia.
Qed.
Print Assumptions C25_state_read.

(** Creators [VInt z] add [z] to what the rest creates, getters [VInt z] multiply the
    value by ten and add [z] before handing it on. *)
Definition arith : code := Code (c_fun demo) (c_init demo)
  (fun c r sh dt i ctx => Bind (Ret VNone) (fun _ => Bind (NextCreate r sh dt i) (fun y =>
     match c, y with VInt z, VArr s d => Ret (VArr s (10 * d + z)) | _, _ => Ret y end)))
  (fun g r v ctx => Bind (Ret VNone) (fun _ => Bind (NextGet r (match g, v with VInt z, VArr s d => VArr s (10 * d + z) | _, _ => v end)) Ret))
  (c_icpt demo) (c_same demo) (c_same_rng demo) 1.
Definition created_twice : prog :=
  WithCreator (VInt 1) true true (WithCreator (VInt 2) true true (WithGetter (VInt 3) true true (WithGetter (VInt 4) true true
    (Bind (GetParam "w" [] "int32" (Some (VInt 9))) (fun a => Bind (GetParam "w" [] "int32" (Some (VInt 8))) (fun b =>
      Ret (VTup [a; b]))))))).
Example creators_and_getters_in_order :
  result (run arith 40 created_twice (init_world None)) = Some (VTup [VArr [] 92134; VArr [] 92134]) /\
  params_at "~" "w" (hk_init arith 40 None created_twice empty_world) = Some (VArr [] 921).
Proof. vm_compute. split; reflexivity. Qed.
Lemma arith_own : own_next arith.
Proof.
  split; intros; cbn.
  - ops.
  - destruct i; ops.
  - ops_with ltac:(assumption).
  - ops_with ltac:(assumption).
  - ops_with ltac:(assumption).
Qed.
Example arith_once :
  creators_call_once arith [VInt 1; VInt 2] (fun _ _ _ => Ret VNone) (fun _ a _ => a)
    (fun _ c _ _ y => match c, y with VInt z, VArr s d => Ret (VArr s (10 * d + z)) | _, _ => Ret y end) /\
  getters_call_once arith [VInt 3; VInt 4] (fun _ _ _ => Ret VNone)
    (fun g v _ => match g, v with VInt z, VArr s d => VArr s (10 * d + z) | _, _ => v end) (fun _ _ _ _ y => Ret y) /\
  no_future (set_getters (rev [VInt 3; VInt 4]) [] (set_creators (rev [VInt 1; VInt 2]) [] (init_world None))).
Proof.
  split; [|split].
  - split; [reflexivity| |exact arith_own]. intros. ops.
  - split; [reflexivity| |exact arith_own]. intros. ops.
  - intros r _. constructor.
Qed.

(** A creator or a getter that calls [next] twice: the second call skips the inner ones. *)
Definition twice2 : code := Code (c_fun demo) (c_init demo)
  (fun c r sh dt i ctx => match c with
     | VStr "outer" => Bind (NextCreate r sh dt i) (fun _ => NextCreate r sh dt i)
     | _ => Bind (NextCreate r sh dt i) (fun _ => Ret (VArr sh 100)) end)
  (fun g r v ctx => match g with
     | VStr "outer" => Bind (NextGet r v) (fun _ => NextGet r v)
     | _ => Bind (NextGet r v) (fun _ => Ret (VArr [] 100)) end)
  (c_icpt demo) (c_same demo) (c_same_rng demo) 1.
Theorem C25_creator_next_twice_refuted :
  ~ (forall C, (forall r sh dt i ctx, c_creator C (VStr "inner") r sh dt i ctx = Bind (NextCreate r sh dt i) (fun _ => Ret (VArr sh 100))) ->
     (forall r sh dt i ctx, c_creator C (VStr "outer") r sh dt i ctx = Bind (NextCreate r sh dt i) (fun _ => NextCreate r sh dt i)) ->
     forall n v w', run C n (WithCreator (VStr "outer") true true (WithCreator (VStr "inner") true true
       (GetParam "w" [] "int32" (Some (VInt 9))))) (init_world None) = (Ok v, w') -> v = VArr [] 100).
Proof.
  intros G. specialize (G twice2 (fun _ _ _ _ _ => eq_refl) (fun _ _ _ _ _ => eq_refl) 20).
  destruct (witness1 (run twice2 20 (WithCreator (VStr "outer") true true (WithCreator (VStr "inner") true true
       (GetParam "w" [] "int32" (Some (VInt 9))))) (init_world None)) (fun v _ => v = VArr [] 9)) as (v & w' & E & Hv).
  - vm_compute. reflexivity.
  - specialize (G _ _ E). rewrite Hv in G. clear - G. discriminate G.
Qed.
Print Assumptions C25_creator_next_twice_refuted.
Theorem C25_getter_next_twice_refuted :
  ~ (forall C, (forall r v ctx, c_getter C (VStr "inner") r v ctx = Bind (NextGet r v) (fun _ => Ret (VArr [] 100))) ->
     (forall r v ctx, c_getter C (VStr "outer") r v ctx = Bind (NextGet r v) (fun _ => NextGet r v)) ->
     forall n v w', run C n (WithGetter (VStr "outer") true true (WithGetter (VStr "inner") true true
       (GetParam "w" [] "int32" (Some (VInt 9))))) (init_world None) = (Ok v, w') -> v = VArr [] 100).
Proof.
  intros G. specialize (G twice2 (fun _ _ _ => eq_refl) (fun _ _ _ => eq_refl) 20).
  destruct (witness1 (run twice2 20 (WithGetter (VStr "outer") true true (WithGetter (VStr "inner") true true
       (GetParam "w" [] "int32" (Some (VInt 9))))) (init_world None)) (fun v _ => v = VArr [] 9)) as (v & w' & E & Hv).
  - vm_compute. reflexivity.
  - specialize (G _ _ E). rewrite Hv in G. clear - G. discriminate G.
Qed.
Print Assumptions C25_getter_next_twice_refuted.

(** Used only as [with custom_creator(c): ...], creators are active exactly inside
    their block: at any point of the block the creator is on top of those that were
    active before, and afterwards they are as before. *)
Theorem C25_with_block {V} `{EqDecision V} k (body : list (wop V)) k1 c s :
  List.length (ws_pending s) = k -> with_only (S k) body k1 ->
  (exists s1, wexec (WCall c :: WEnter k :: body) s = Some s1 /\ ws_stack s1 = c :: ws_stack s) /\
  (exists s2, wexec (WCall c :: WEnter k :: body ++ [WExit k]) s = Some s2 /\ ws_stack s2 = ws_stack s).
Proof.
  intros Hk HB. split.
  - destruct (with_only_spec _ _ _ HB (WS (c :: ws_stack s) (ws_pending s ++ [Some c]))) as (s1 & E1 & S1 & _).
    + cbn. rewrite app_length. cbn. lia.
    + exists s1. auto.
  - destruct (with_only_spec _ _ _ (WO_with k c body k1 HB) s Hk) as (s2 & E2 & S2 & _). eauto.
Qed.
Print Assumptions C25_with_block.
(** Whatever user code does with the objects, and whichever exceptions it catches, the stack has one element per object that
    is not finished: leaving one can fail the assertion but never finds the stack empty. *)
Theorem C25_pops {V} `{EqDecision V} (os : list (wop V)) :
  let s := fold_left (fun s o => fst (wstep o s)) os (WS [] []) in
  List.length (ws_stack s) = List.length (List.filter (fun o => match o with Some _ => true | None => false end) (ws_pending s)) /\
  (forall o, snd (wstep o s) <> Some IndexError) /\
  (forall h c, ws_pending s !! h = Some (Some c) -> exists x rest, ws_stack s = x :: rest /\
     wstep (WExit h) s = (WS rest (<[h := None]> (ws_pending s)), if decide (x = c) then None else Some AssertionError)).
Proof.
  set (open := fun o : option V => match o with Some _ => true | None => false end).
  assert (C : forall (l : list (option V)) h c, l !! h = Some (Some c) ->
    List.length (List.filter open l) = S (List.length (List.filter open (<[h := None]> l)))).
  { induction l as [|o l IH]; intros h c Hh; [discriminate|]. destruct h as [|h]; cbn in Hh |- *.
    - injection Hh as ->. reflexivity.
    - specialize (IH h c Hh). unfold insert in IH. destruct (open o); cbn [List.length]; rewrite IH; reflexivity. }
  assert (F : forall h (s : wstate V), List.length (ws_stack s) = List.length (List.filter open (ws_pending s)) ->
    List.length (ws_stack (fst (finish h s))) = List.length (List.filter open (ws_pending (fst (finish h s)))) /\
    snd (finish h s) <> Some IndexError).
  { intros h s L. unfold finish. destruct (ws_pending s !! h) as [[c|]|] eqn:Eh; try (split; [exact L|discriminate]).
    rewrite (C _ _ _ Eh) in L. destruct (ws_stack s) as [|x rest]; [discriminate L|]. cbn [fst snd ws_stack ws_pending].
    split; [now injection L|]. now destruct (decide (x = c)). }
  intros s. assert (L : List.length (ws_stack s) = List.length (List.filter open (ws_pending s))).
  { subst s. rewrite <- (rev_involutive os). induction (rev os) as [|o os' IH]; [reflexivity|].
    cbn [rev]. rewrite fold_left_app. cbn [fold_left]. set (s := fold_left _ _ _) in *. destruct o as [c|h|h|h]; cbn [wstep fst].
    - cbn [ws_stack ws_pending List.length]. rewrite List.filter_app, List.app_length, IH. cbn. lia.
    - exact IH.
    - exact (proj1 (F h s IH)).
    - exact (proj1 (F h s IH)). }
  split; [exact L|]. split.
  - intros [c|h|h|h]; cbn [wstep snd]; try discriminate. exact (proj2 (F h s L)).
  - intros h c Eh. rewrite (C _ _ _ Eh) in L. destruct (ws_stack s) as [|x rest] eqn:Es; [discriminate L|].
    exists x, rest. split; [reflexivity|]. cbn [wstep]. unfold finish. now rewrite Eh, Es.
Qed.
Print Assumptions C25_pops.
(** The elements can only be missing if something else took them off the stack. *)
Theorem C25_empty {V} `{EqDecision V} (p : list (option V)) h c : p !! h = Some (Some c) ->
  wstep (WExit h) (WS [] p) = (WS [] (<[h := None]> p), Some IndexError).
Proof. intros E. cbn [wstep]. unfold finish. cbn [ws_pending ws_stack]. now rewrite E. Qed.
Print Assumptions C25_empty.
(** Two objects left in the order in which they were made: the first takes the element of the second off the stack. *)
Example C25_pops_case : fold_left (fun s o => fst (wstep o s)) [WCall 7; WCall 8; WEnter 0; WEnter 1; WExit 0] (WS [] []) = WS [7] [None; Some 8] /\
  wstep (WExit 0) (WS [8; 7] [Some 7; Some 8]) = (WS [7] [None; Some 8], Some AssertionError).
Proof. split; reflexivity. Qed.

Example with_block_body : with_only 1 [WCall 7; WEnter 1; WExit 1; WCall 8; WEnter 2; WCall 9; WEnter 3; WExit 3; WExit 2] 4.
Proof.
  apply (WO_app 1 [WCall 7; WEnter 1; WExit 1] 2); [apply (WO_with 1 7 [] 2), WO_nil|].
  apply (WO_with 2 8 [WCall 9; WEnter 3; WExit 3] 4). apply (WO_with 3 9 [] 4), WO_nil.
Qed.

(** A creator is active as soon as [custom_creator] was called, entered or not. *)
Theorem C25_active_only_inside_refuted :
  ~ (forall (os : list (wop nat)) s, wexec os (WS [] []) = Some s -> forall c, In c (ws_stack s) ->
     exists h, calls os !! h = Some c /\ inside h os false = true).
Proof.
  intros G. destruct (G [WCall 5] _ eq_refl 5) as (h & _ & H); [now left|]. clear - H. discriminate H.
Qed.
Print Assumptions C25_active_only_inside_refuted.
(** Entering the same object again does not activate it. *)
Theorem C25_active_inside_refuted :
  ~ (forall (os : list (wop nat)) s, wexec os (WS [] []) = Some s -> forall h c, calls os !! h = Some c ->
     inside h os false = true -> In c (ws_stack s)).
Proof.
  intros G. destruct (G [WCall 5; WEnter 0; WExit 0; WEnter 0] _ eq_refl 0 5 eq_refl eq_refl).
Qed.
Print Assumptions C25_active_inside_refuted.
(** Dropping an object that was never entered deactivates another, active, creator. *)
Theorem C25_drop_other_refuted :
  ~ (forall (os : list (wop nat)) s h s', wexec os (WS [] []) = Some s -> wexec [WDrop h] s = Some s' ->
     forall h' c, h' <> h -> calls os !! h' = Some c -> inside h' os false = true -> In c (ws_stack s) -> In c (ws_stack s')).
Proof.
  intros G. destruct (G [WCall 5; WCall 6; WEnter 1] _ 0 _ eq_refl eq_refl 1 6 (Nat.neq_succ_0 0) eq_refl eq_refl) as [H|[]].
  - now left.
  - clear - H. discriminate H.
Qed.
Print Assumptions C25_drop_other_refuted.

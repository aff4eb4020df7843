(** Chains of interceptors, creators and getters. *)
From stdpp Require Import gmap list strings.
From Coq Require Import String Ascii ZArith Lia.
From Verif Require Import ModelStr ModelRng ModelCore SpecCore SpecNext ProofsStr ProofsMap ProofsNames ProofsRng ProofsEvolve ProofsRun ProofsOps ProofsModule ProofsOwn.
Local Open Scope string_scope.
Local Open Scope list_scope.

Section Generic.
Context {A : Type}.
Variable C : code.
Variable before : val -> A -> prog.
Variable pass : val -> A -> val -> A.
Variable after : val -> A -> val -> val -> prog.
Variable core : A -> world -> res val -> world -> Prop.
Variable r : nat.
Variable remaining : list val -> nextobj.
Variable op : A -> prog.
Notation onion := (onion C before pass after core r remaining).
Hypothesis H_core : forall n a w x w', w_nexts w !! r = Some (remaining []) -> run C n (op a) w = (x, w') -> x <> Fuel -> core a w x w'.

Hypothesis H_own : own_next C.
Hypothesis H_remaining : forall is is', next_ok (not_next r) (remaining is) -> next_ok (not_next r) (remaining is').
Lemma onion_run is : (forall i a, In i is -> all_ops (not_next r) (before i a)) ->
  (forall n i is' a w x w', In i is -> w_nexts w !! r = Some (remaining (i :: is')) -> run C n (op a) w = (x, w') -> x <> Fuel ->
     exists n', run C n' (Bind (before i a) (fun y => Bind (op (pass i a y)) (fun z => after i a y z))) (set_remaining r remaining is' w) = (x, w')) ->
  forall n a w x w', w_nexts w !! r = Some (remaining is) -> heap_ok (not_next r) w -> run C n (op a) w = (x, w') -> x <> Fuel -> onion is a w x w'.
Proof.
  induction is as [|i is IH]; intros HI HL n a w x w' Hr HH E Hx.
  - apply on_core. eauto.
  - destruct (HL n i is a w x w' (or_introl eq_refl) Hr E Hx) as [n1 E1]. clear E n.
    destruct n1 as [|n1]; [injection E1 as <- _; congruence|]. cbn [run step] in E1. unfold bindM in E1.
    set (w0 := set_remaining r remaining is w) in *.
    assert (Hr0 : w_nexts w0 !! r = Some (remaining is)).
    { unfold w0, set_remaining. cbn. apply list_lookup_insert. apply lookup_lt_Some in Hr. exact Hr. }
    assert (HH0 : heap_ok (not_next r) w0).
    { unfold w0, set_remaining, heap_ok. cbn. apply Forall_insert; [exact HH|]. apply (H_remaining (i :: is)).
      exact (Forall_lookup_1 _ _ _ _ HH Hr). }
    destruct (run C n1 (before i a) w0) as [[y|e|] w1] eqn:Eb.
    + destruct (run_keeps_next C r _ _ _ _ _ H_own (HI i a (or_introl eq_refl)) (conj (ex_intro _ _ Hr0) HH0) Eb) as [[_ HH1] Hk].
      destruct n1 as [|n1]; [injection E1 as <- _; congruence|]. cbn [run step] in E1. unfold bindM in E1.
      assert (HI' : forall i a, In i is -> all_ops (not_next r) (before i a)) by (intros; apply HI; now right).
      destruct (run C n1 (op (pass i a y)) w1) as [[z|e|] w2] eqn:Eo.
      * refine (on_after C before pass after core r remaining _ _ i is a w y w1 z w2 x w' Eb _ E1 Hx).
        refine (IH HI' _ n1 (pass i a y) w1 (Ok z) w2 _ HH1 Eo _); [|congruence|discriminate].
        intros; eapply HL; eauto. now right.
      * injection E1 as <- <-. refine (on_inside_raises C before pass after core r remaining _ i is a w y w1 e w2 Eb _).
        refine (IH HI' _ n1 (pass i a y) w1 (Exc e) w2 _ HH1 Eo _); [|congruence|discriminate].
        intros; eapply HL; eauto. now right.
      * injection E1 as <- _. congruence.
    + injection E1 as <- <-. exact (on_before_raises C before pass after core r remaining _ i is a w e w1 Eb).
    + injection E1 as <- _. congruence.
Qed.
End Generic.

Lemma set_remaining_eq r o is w : set_nexts (<[r := o is]> (w_nexts w)) w = set_remaining r o is w.
Proof. reflexivity. Qed.

(** ** Interceptors *)
Lemma run_NextCall C n r a w i is m meth b : w_nexts w !! r = Some (NxCall (i :: is) m meth b) ->
  run C (S n) (NextCall r a) w = run C n (c_icpt C i r a (m, meth)) (set_remaining r (fun is => NxCall is m meth b) is w).
Proof. intros E. cbn [run step]. unfold next_call, bindM, reads, modify. rewrite E. reflexivity. Qed.
Lemma run_NextCall_nil C n r a w m meth b : w_nexts w !! r = Some (NxCall [] m meth b) ->
  run C (S n) (NextCall r a) w = run_mbody (run C n) m b a w.
Proof. intros E. cbn [run step]. unfold next_call, bindM, reads, modify. rewrite E. reflexivity. Qed.

Lemma interceptors_onion C is before pass after m meth b (core : val -> world -> res val -> world -> Prop) :
  interceptors_call_once C is before pass after ->
  (forall n a w x w', run_mbody (run C n) m b a w = (x, w') -> core a w x w') ->
  forall n a w x w', w_icpt w = rev is -> heap_ok (not_next (List.length (w_nexts w))) w -> mbody_ok (not_next (List.length (w_nexts w))) b ->
  run_interceptors C (run C n) m meth b a w = (x, w') -> x <> Fuel ->
  onion C (before (m, meth)) pass (after (m, meth)) core (List.length (w_nexts w)) (fun is => NxCall is m meth b) is a
    (with_next (fun is => NxCall is m meth b) is w) x w'.
Proof.
  intros [HC HI HOwn] Hcore n a w x w' Hi HH HB E Hx. unfold run_interceptors, bindM at 1, reads in E. rewrite Hi in E.
  destruct is as [|i0 is0]; [cbn in E; apply on_core; eauto|].
  assert (E' : run C (S n) (NextCall (List.length (w_nexts w)) a) (with_next (fun is => NxCall is m meth b) (i0 :: is0) w) = (x, w')).
  { cbn [run step]. destruct (rev (i0 :: is0)) as [|j js] eqn:Er.
    - apply (f_equal (@List.length _)) in Er. rewrite rev_length in Er. discriminate.
    - unfold bindM at 1, alloc_next, bindM at 1, reads, bindM at 1, modify, retM in E. rewrite <- Er, rev_involutive in E. exact E. }
  refine (onion_run C _ _ _ core _ _ (fun a => NextCall (List.length (w_nexts w)) a) _ HOwn _ _ _ _ (S n) a _ x w' _ _ E' Hx).
  - intros k a1 v y v' Hr Er Hy. destruct k as [|k]; [injection Er as <- _; congruence|]. rewrite (run_NextCall_nil _ _ _ _ _ _ _ _ Hr) in Er. eauto.
  - intros ? ? G. exact G.
  - intros i a1 Hin. now apply HI.
  - intros k i is' a1 v y v' Hin Hr Er Hy. destruct k as [|k]; [injection Er as <- _; congruence|].
    rewrite (run_NextCall _ _ _ _ _ _ _ _ _ _ Hr) in Er. exists k. rewrite HC in Er by assumption. exact Er.
  - cbn. rewrite lookup_app_r by lia. now rewrite Nat.sub_diag.
  - unfold heap_ok. cbn. apply Forall_app. split; [exact HH|]. constructor; [exact HB|constructor].
Qed.

(** ** Creators *)
Lemma run_NextCreate C n r sh dt i w c cs ctx : w_nexts w !! r = Some (NxCreate (c :: cs) ctx) ->
  run C (S n) (NextCreate r sh dt i) w = run C n (c_creator C c r sh dt i ctx) (set_remaining r (fun is => NxCreate is ctx) cs w).
Proof. intros E. cbn [run step]. unfold next_create, bindM, reads, modify. rewrite E. reflexivity. Qed.
Lemma run_NextCreate_nil C n r sh dt i w ctx : w_nexts w !! r = Some (NxCreate [] ctx) ->
  run C (S n) (NextCreate r sh dt i) w = run C n (c_init C i sh dt) w.
Proof. intros E. cbn [run step]. unfold next_create, bindM, reads, modify. rewrite E. reflexivity. Qed.
Definition op_create (r : nat) (a : list nat * string * val) : prog := let '(sh, dt, i) := a in NextCreate r sh dt i.
Lemma creators_onion C cs before pass after ctx : creators_call_once C cs before pass after ->
  forall n sh dt i w x w', heap_ok (not_next (List.length (w_nexts w))) w -> run_creators C (run C n) (rev cs) ctx sh dt i w = (x, w') -> x <> Fuel ->
  onion C (before ctx) pass (after ctx) (init_core C) (List.length (w_nexts w)) (fun is => NxCreate is ctx) cs (sh, dt, i)
    (with_next (fun is => NxCreate is ctx) cs w) x w'.
Proof.
  intros [HC HI HOwn] n sh dt i w x w' HH E Hx. unfold run_creators in E.
  destruct cs as [|c0 cs0]; [cbn in E; apply on_core; exists n; exact E|].
  assert (E' : run C (S n) (op_create (List.length (w_nexts w)) (sh, dt, i)) (with_next (fun is => NxCreate is ctx) (c0 :: cs0) w) = (x, w')).
  { cbn [op_create run step]. destruct (rev (c0 :: cs0)) as [|j js] eqn:Er.
    - apply (f_equal (@List.length _)) in Er. rewrite rev_length in Er. discriminate.
    - unfold bindM at 1, alloc_next, bindM at 1, reads, bindM at 1, modify, retM in E. rewrite <- Er, rev_involutive in E. exact E. }
  refine (onion_run C _ _ _ (init_core C) _ _ (op_create (List.length (w_nexts w))) _ HOwn _ _ _ _ (S n) _ _ x w' _ _ E' Hx).
  - intros k [[sh1 dt1] i1] v y v' Hr Er Hy. destruct k as [|k]; [injection Er as <- _; congruence|]. cbn [op_create] in Er.
    rewrite (run_NextCreate_nil _ _ _ _ _ _ _ _ Hr) in Er. exists k. exact Er.
  - intros ? ? G. exact G.
  - intros c a1 Hin. now apply HI.
  - intros k c cs' [[sh1 dt1] i1] v y v' Hin Hr Er Hy. destruct k as [|k]; [injection Er as <- _; congruence|]. cbn [op_create] in Er.
    rewrite (run_NextCreate _ _ _ _ _ _ _ _ _ _ Hr) in Er. exists k. rewrite HC in Er by assumption. exact Er.
  - cbn. rewrite lookup_app_r by lia. now rewrite Nat.sub_diag.
  - unfold heap_ok. cbn. apply Forall_app. split; [exact HH|]. constructor; [exact Logic.I|constructor].
Qed.

(** ** Getters *)
Lemma run_NextGet C n r v w g gs ctx : w_nexts w !! r = Some (NxGet (g :: gs) ctx) ->
  run C (S n) (NextGet r v) w = run C n (c_getter C g r v ctx) (set_remaining r (fun is => NxGet is ctx) gs w).
Proof. intros E. cbn [run step]. unfold next_get, bindM, reads, modify. rewrite E. reflexivity. Qed.
Lemma run_NextGet_nil C n r v w ctx : w_nexts w !! r = Some (NxGet [] ctx) ->
  run C (S n) (NextGet r v) w = (Ok v, w).
Proof. intros E. cbn [run step]. unfold next_get, bindM, reads, modify. rewrite E. reflexivity. Qed.
Lemma getters_onion C gs before pass after ctx : getters_call_once C gs before pass after ->
  forall n v w x w', heap_ok (not_next (List.length (w_nexts w))) w -> run_getters C (run C n) (rev gs) ctx v w = (x, w') -> x <> Fuel ->
  onion C (before ctx) pass (after ctx) value_core (List.length (w_nexts w)) (fun is => NxGet is ctx) gs v
    (with_next (fun is => NxGet is ctx) gs w) x w'.
Proof.
  intros [HC HI HOwn] n v w x w' HH E Hx. unfold run_getters in E.
  destruct gs as [|g0 gs0]; [cbn in E; injection E as <- <-; apply on_core; split; reflexivity|].
  assert (E' : run C (S n) (NextGet (List.length (w_nexts w)) v) (with_next (fun is => NxGet is ctx) (g0 :: gs0) w) = (x, w')).
  { cbn [run step]. destruct (rev (g0 :: gs0)) as [|j js] eqn:Er.
    - apply (f_equal (@List.length _)) in Er. rewrite rev_length in Er. discriminate.
    - unfold bindM at 1, alloc_next, bindM at 1, reads, bindM at 1, modify, retM in E. rewrite <- Er, rev_involutive in E. exact E. }
  refine (onion_run C _ _ _ value_core _ _ (fun a => NextGet (List.length (w_nexts w)) a) _ HOwn _ _ _ _ (S n) _ _ x w' _ _ E' Hx).
  - intros k a1 u y u' Hr Er Hy. destruct k as [|k]; [injection Er as <- _; congruence|].
    rewrite (run_NextGet_nil _ _ _ _ _ _ Hr) in Er. injection Er as <- <-. split; reflexivity.
  - intros ? ? G. exact G.
  - intros c a1 Hin. now apply HI.
  - intros k c cs' a1 u y u' Hin Hr Er Hy. destruct k as [|k]; [injection Er as <- _; congruence|].
    rewrite (run_NextGet _ _ _ _ _ _ _ _ Hr) in Er. exists k. rewrite HC in Er by assumption. exact Er.
  - cbn. rewrite lookup_app_r by lia. now rewrite Nat.sub_diag.
  - unfold heap_ok. cbn. apply Forall_app. split; [exact HH|]. constructor; [exact Logic.I|constructor].
Qed.

(** ** Methods *)
Lemma notify_mods self name st : forall w x w', notify_parents self name st w = (x, w') ->
  exists ms, w' = set_mods ms w /\ (x = Ok tt \/ x = Exc EAttr).
Proof.
  induction st as [|[m meth] st IH]; intros w x w' E; cbn [notify_parents] in E.
  - injection E as <- <-. exists (w_mods w). split; [now destruct w|auto].
  - unfold bindM at 1 in E. destruct (decide (m = self)) as [->|].
    + cbn in E. exact (IH _ _ _ E).
    + unfold bindM, reads in E. destruct (w_mods w !! m) as [[nm [subs|]]|]; cbn in E.
      * destruct (IH _ _ _ E) as (ms & -> & Hx). exists ms. split; [now destruct w|assumption].
      * injection E as <- <-. exists (w_mods w). split; [now destruct w|auto].
      * injection E as <- <-. exists (w_mods w). split; [now destruct w|auto].
Qed.
Lemma pop_set_mods ms w : pop_module (set_mods ms w) = set_mods ms (pop_module w).
Proof. unfold pop_module, on_top. cbn. destruct (w_frames w); reflexivity. Qed.

Lemma wrap_method_interceptors C n m meth b arg w x w' :
  wrap_method C (run C n) m meth b arg w = (x, w') -> x <> Fuel ->
  w_frames w <> [] ->
  exists y w1, run_interceptors C (run C n) m meth b arg (push_module (m, meth) w) = (y, w1) /\
    ((x = y /\ exists ms, w' = set_mods ms (pop_module w1)) \/
     ((exists v, y = Ok v) /\ exists e, x = Exc e /\ exists ms, w' = set_mods ms (pop_module w1))).
Proof.
  intros E Hx HF. unfold wrap_method, bindM at 1, top_frame in E. destruct (w_frames w) as [|f fs] eqn:F; [congruence|].
  unfold scoped in E. unfold bindM at 1 in E.
  destruct (run_interceptors C (run C n) m meth b arg (push_module (m, meth) w)) as [y w1] eqn:Ei. exists y, w1. split; [reflexivity|].
  assert (Hid : forall v, exists ms, pop_module v = set_mods ms (pop_module v)).
  { intros v. exists (w_mods (pop_module v)). now destruct (pop_module v). }
  destruct y as [v|e|].
  - unfold bindM at 1 in E. destruct (w_frames w1) as [|f1 fs1] eqn:F1.
    + injection E as <- <-. right. split; [eauto|]. eauto.
    + unfold bindM at 1, reads in E. destruct (w_mods w1 !! m) as [[[name|] subs]|].
      * unfold bindM in E. destruct (notify_parents m name (f_mods f1) w1) as [z w2] eqn:En.
        destruct (notify_mods _ _ _ _ _ _ En) as (ms & -> & [-> | ->]); injection E as <- <-; rewrite pop_set_mods.
        -- left. eauto.
        -- right. eauto 6.
      * injection E as <- <-. left. eauto.
      * injection E as <- <-. left. eauto.
  - injection E as <- <-. left. eauto.
  - injection E as <- <-. congruence.
Qed.

(** ** What creators and getters leave alone *)
Lemma run_creators_as_run C n stack ctx sh dt i w x w' : run_creators C (run C n) stack ctx sh dt i w = (x, w') ->
  exists k p w0, run C k p w0 = (x, w') /\ w_frames w0 = w_frames w /\ w_pget w0 = w_pget w /\ w_sget w0 = w_sget w.
Proof.
  unfold run_creators. destruct stack as [|c cs]; intros E; [exists n, (c_init C i sh dt), w; auto|].
  unfold bindM at 1, alloc_next, bindM at 1, reads, bindM at 1, modify, retM in E.
  exists (S n), (NextCreate (List.length (w_nexts w)) sh dt i), (set_nexts (w_nexts w ++ [NxCreate (rev (c :: cs)) ctx]) w). auto.
Qed.
Lemma run_getters_as_run C n stack ctx v w x w' : run_getters C (run C n) stack ctx v w = (x, w') ->
  exists k p w0, run C k p w0 = (x, w') /\ w_frames w0 = w_frames w.
Proof.
  unfold run_getters. destruct stack as [|c cs]; intros E; [exists 1, (Ret v), w; auto|].
  unfold bindM at 1, alloc_next, bindM at 1, reads, bindM at 1, modify, retM in E.
  exists (S n), (NextGet (List.length (w_nexts w)) v), (set_nexts (w_nexts w ++ [NxGet (rev (c :: cs)) ctx]) w). auto.
Qed.
Lemma frames_top w w0 : w_frames w0 = w_frames w -> top w0 = top w.
Proof. unfold top. now intros ->. Qed.

Lemma get_param_create C n w f b name sh dt i v w' cs gs :
  top w = Some f -> in_module w b -> f_frozen f = false -> not_none (lookup2 b name (f_params f)) = None ->
  w_pcreate w = rev cs -> w_pget w = rev gs ->
  run C (S n) (GetParam name sh dt (Some i)) w = (Ok v, w') ->
  exists v1 w1, run_creators C (run C n) (rev cs) (GCtx (b +:+ "/" +:+ name) (current_module f) (Some dt) (Some sh)) sh dt i (touch_params b w) = (Ok v1, w1) /\
    run_getters C (run C n) (rev gs) (GCtx (b +:+ "/" +:+ name) (current_module f) (Some dt) (Some sh)) v1 (store_param b name v1 w1) = (Ok v, w') /\
    exists f', top w' = Some f' /\ (v1 <> VNone -> lookup2 b name (f_params f') = Some v1).
Proof.
  intros F B Z L EC EG E. pose proof (top_Some _ _ F) as [fs F'].
  cbn [run step] in E. unfold get_parameter in E.
  unfold bindM at 1, top_frame at 1 in E. rewrite F' in E.
  unfold bindM at 1 in E. rewrite (bundle_name_ok _ _ B) in E.
  unfold bindM at 1, top_frame at 1 in E. rewrite F', Z in E. cbn [andb] in E.
  unfold bindM at 1, modify at 1 in E. rewrite L in E. fold (touch_params b w) in E.
  apply bind_ok in E as (v2 & w2 & E1 & E2).
  apply bind_ok in E1 as (st & wx & Ex & E1). injection Ex as <- <-.
  assert (Hc : w_pcreate (touch_params b w) = rev cs). { unfold touch_params, on_top. rewrite F'. exact EC. }
  rewrite Hc in E1. apply bind_ok in E1 as (v1 & w1 & E1 & E3). exists v1, w1. split; [exact E1|].
  unfold bindM, modify, retM in E3. injection E3 as -> <-. fold (store_param b name v2 w1) in E2.
  apply bind_ok in E2 as (gs' & wx & Ex & E2). injection Ex as <- <-.
  destruct (run_creators_as_run _ _ _ _ _ _ _ _ _ _ E1) as (k & p & w0 & Er & Hf & Hp & _).
  pose proof (run_T _ _ _ (fun _ => False) _ _ _ Er) as HT.
  assert (Hg : w_pget (store_param b name v2 w1) = rev gs).
  { unfold store_param, on_top. transitivity (w_pget w1); [now destruct (w_frames w1)|]. rewrite (t_pget _ _ _ _ _ _ HT), Hp.
    unfold touch_params, on_top. rewrite F'. exact EG. }
  rewrite Hg in E2. apply bind_ok in E2 as (v3 & w3 & E2 & E4).
  assert (v3 = v /\ w3 = w') as [-> ->].
  { destruct (vshape v3) as [sh'|]; [|discriminate E4]. destruct (bool_decide (sh' = sh)); [|discriminate E4]. now injection E4. }
  split; [exact E2|].
  assert (exists f1, top w1 = Some f1) as [f1 F1].
  { assert (F0 : exists f0, top w0 = Some f0). { rewrite (frames_top _ _ Hf). unfold touch_params. rewrite (on_top_top _ _ _ F). eauto. }
    destruct F0 as [f0 F0]. destruct (run_top _ _ _ _ _ _ _ Er F0) as (f1 & F1 & _). eauto. }
  destruct (run_getters_as_run _ _ _ _ _ _ _ _ E2) as (k2 & p2 & w4 & Er2 & Hf2).
  assert (F4 : top w4 = Some (set_params (insert2 b name v2 (f_params f1)) f1)).
  { rewrite (frames_top _ _ Hf2). unfold store_param. now rewrite (on_top_top _ _ _ F1). }
  destruct (run_top _ _ _ _ _ _ _ Er2 F4) as (f' & F'' & HFT). exists f'. split; [assumption|]. intros Hn.
  apply (pt_val _ _ (ft_params _ _ _ _ HFT)); [assumption|]. cbn. apply lookup2_insert2_eq.
Qed.

Lemma get_param_read C n w f b name sh dt i v v0 w' gs :
  top w = Some f -> in_module w b -> lookup2 b name (f_params f) = Some v0 -> v0 <> VNone ->
  w_pget w = rev gs ->
  run C (S n) (GetParam name sh dt (Some i)) w = (Ok v, w') ->
  run_getters C (run C n) (rev gs) (GCtx (b +:+ "/" +:+ name) (current_module f) (Some dt) (Some sh)) v0 w = (Ok v, w') /\
  exists f', top w' = Some f' /\ lookup2 b name (f_params f') = Some v0.
Proof.
  intros F B L Hn EG E. pose proof (top_Some _ _ F) as [fs F'].
  cbn [run step] in E. unfold get_parameter in E.
  unfold bindM at 1, top_frame at 1 in E. rewrite F' in E.
  unfold bindM at 1 in E. rewrite (bundle_name_ok _ _ B) in E.
  unfold bindM at 1, top_frame at 1 in E. rewrite F' in E.
  assert (is_Some (f_params f !! b)) as HB by now apply lookup2_bundle in L.
  rewrite bool_decide_true in E by assumption. rewrite andb_false_r in E.
  unfold bindM at 1, modify at 1 in E.
  erewrite on_top_id in E; [|exact F'|].
  2: { destruct (f_frozen f); [reflexivity|]. rewrite touch_idem by assumption. apply set_params_id. }
  rewrite L in E. assert (HN : not_none (Some v0) = Some v0) by (destruct v0; auto; congruence). rewrite HN in E.
  unfold bindM at 1, retM at 1 in E. unfold bindM at 1, reads in E. rewrite EG in E.
  apply bind_ok in E as (v3 & w3 & E2 & E4).
  assert (v3 = v /\ w3 = w') as [-> ->].
  { destruct (vshape v3) as [sh'|]; [|discriminate E4]. destruct (bool_decide (sh' = sh)); [|discriminate E4]. now injection E4. }
  split; [exact E2|].
  destruct (run_getters_as_run _ _ _ _ _ _ _ _ E2) as (k2 & p2 & w4 & Er2 & Hf2).
  assert (F4 : top w4 = Some f) by now rewrite (frames_top _ _ Hf2).
  destruct (run_top _ _ _ _ _ _ _ Er2 F4) as (f' & F'' & HFT). exists f'. split; [assumption|].
  now apply (pt_val _ _ (ft_params _ _ _ _ HFT)).
Qed.

Lemma get_state_create C n w f b name sh dt i v w' cs gs :
  top w = Some f -> in_module w b -> lookup2 b name (f_state f) = None ->
  w_screate w = rev cs -> w_sget w = rev gs ->
  run C (S n) (GetState name (Some sh) (Some dt) (Some i)) w = (Ok v, w') ->
  exists v1 w1, run_creators C (run C n) (rev cs) (GCtx (b +:+ "/" +:+ name) (current_module f) (Some dt) (Some sh)) sh dt i (touch_state b w) = (Ok v1, w1) /\
    run_getters C (run C n) (rev gs) (GCtx (b +:+ "/" +:+ name) (current_module f) (Some dt) (Some sh)) v1 (store_state b name v1 w1) = (Ok v, w') /\
    exists f' c, top w' = Some f' /\ lookup2 b name (f_state f') = Some (v1, c).
Proof.
  intros F B L EC EG E. pose proof (top_Some _ _ F) as [fs F'].
  cbn [run step] in E. unfold get_state in E.
  unfold bindM at 1 in E. rewrite (bundle_name_ok _ _ B) in E.
  unfold bindM at 1, top_frame at 1 in E. rewrite F' in E.
  unfold bindM at 1, modify at 1 in E. rewrite L in E. fold (touch_state b w) in E.
  apply bind_ok in E as (v2 & w2 & E1 & E2).
  apply bind_ok in E1 as (st & wx & Ex & E1). injection Ex as <- <-.
  assert (Hc : w_screate (touch_state b w) = rev cs). { unfold touch_state, on_top. rewrite F'. exact EC. }
  rewrite Hc in E1. apply bind_ok in E1 as (v1 & w1 & E1 & E3). exists v1, w1. split; [exact E1|].
  unfold bindM, modify, retM in E3. injection E3 as -> <-. fold (store_state b name v2 w1) in E2.
  apply bind_ok in E2 as (gs' & wx & Ex & E2). injection Ex as <- <-.
  destruct (run_creators_as_run _ _ _ _ _ _ _ _ _ _ E1) as (k & p & w0 & Er & Hf & _ & Hp).
  pose proof (run_T _ _ _ (fun _ => False) _ _ _ Er) as HT.
  assert (Hg : w_sget (store_state b name v2 w1) = rev gs).
  { unfold store_state, on_top. transitivity (w_sget w1); [now destruct (w_frames w1)|]. rewrite (t_sget _ _ _ _ _ _ HT), Hp.
    unfold touch_state, on_top. rewrite F'. exact EG. }
  rewrite Hg in E2. split; [exact E2|].
  assert (exists f1, top w1 = Some f1) as [f1 F1].
  { assert (F0 : exists f0, top w0 = Some f0). { rewrite (frames_top _ _ Hf). unfold touch_state. rewrite (on_top_top _ _ _ F). eauto. }
    destruct F0 as [f0 F0]. destruct (run_top _ _ _ _ _ _ _ Er F0) as (f1 & F1 & _). eauto. }
  destruct (run_getters_as_run _ _ _ _ _ _ _ _ E2) as (k2 & p2 & w4 & Er2 & Hf2).
  assert (F4 : top w4 = Some (set_fstate (insert2 b name (v2, v2) (f_state f1)) f1)).
  { rewrite (frames_top _ _ Hf2). unfold store_state. now rewrite (on_top_top _ _ _ F1). }
  destruct (run_top _ _ _ _ _ _ _ Er2 F4) as (f' & F'' & HFT). exists f'.
  destruct (st_val _ _ _ (ft_state _ _ _ _ HFT) b name v2 v2) as [c Hc']; [cbn; apply lookup2_insert2_eq|]. eauto.
Qed.
Lemma get_state_read C n w f b name sh dt init v ini cur w' gs :
  top w = Some f -> in_module w b -> lookup2 b name (f_state f) = Some (ini, cur) ->
  w_sget w = rev gs ->
  run C (S n) (GetState name sh dt init) w = (Ok v, w') ->
  run_getters C (run C n) (rev gs) (GCtx (b +:+ "/" +:+ name) (current_module f) dt sh) cur w = (Ok v, w').
Proof.
  intros F B L EG E. pose proof (top_Some _ _ F) as [fs F'].
  cbn [run step] in E. unfold get_state in E.
  unfold bindM at 1 in E. rewrite (bundle_name_ok _ _ B) in E.
  unfold bindM at 1, top_frame at 1 in E. rewrite F' in E.
  unfold bindM at 1, modify at 1 in E. erewrite on_top_id in E; [|exact F'|].
  2: { rewrite touch_idem; [apply set_fstate_id|]. now apply lookup2_bundle in L. }
  rewrite L in E. unfold bindM at 1, retM at 1 in E. unfold bindM at 1, reads in E. rewrite EG in E. exact E.
Qed.

(** ** Callables that do not exist yet stay unknown *)
Lemma no_future_same w w' : w_nexts w' = w_nexts w -> no_future w -> no_future w'.
Proof. unfold no_future, heap_ok. intros ->. auto. Qed.
Lemma no_future_alloc w o : (forall r, next_ok (not_next r) o) -> no_future w -> no_future (set_nexts (w_nexts w ++ [o]) w).
Proof.
  intros Ho H r Hr. cbn in Hr. rewrite app_length in Hr. cbn in Hr. unfold heap_ok. cbn. apply Forall_app. split; [apply (H r); lia|].
  constructor; [apply Ho|constructor].
Qed.
Lemma ops_leaf (P : prog -> Prop) p : P p -> (forall q, ~ child p q) -> all_ops P p.
Proof. intros H K. constructor; [assumption|]. intros q Hq. destruct (K q Hq). Qed.
Lemma creators_no_future C n stack ctx sh dt i w x w' : own_next C -> no_future w ->
  run_creators C (run C n) stack ctx sh dt i w = (x, w') -> no_future w'.
Proof.
  intros HO HF. unfold run_creators. destruct stack as [|c cs]; intros E.
  - eapply run_no_future; eauto. intros. apply (ow_init _ HO).
  - unfold bindM at 1, alloc_next, bindM at 1, reads, bindM at 1, modify, retM in E.
    refine (run_no_future C (S n) (NextCreate (List.length (w_nexts w)) sh dt i) _ _ _ HO _ _ E).
    + intros r Hr. cbn in Hr. rewrite app_length in Hr. cbn in Hr. apply ops_leaf; [cbn; lia|intros q []].
    + apply no_future_alloc; [intros; exact Logic.I|assumption].
Qed.

(** Property C91: functions wrapped by [hk.jit] that are kept and called again. *)
From stdpp Require Import gmap list strings.
From Coq Require Import String Ascii ZArith Lia.
From Verif Require Import ModelStr ModelRng ModelCore SpecCore SpecStateful ProofsMap ProofsRng ProofsEvolve ProofsRun ProofsGraft ProofsDraws ModelJitCache Demo.
Local Open Scope string_scope.
Local Open Scope list_scope.

(** Two worlds in which Python code finds the same context: everything but the arrays (parameters, state and random keys of the current frame), the
    saved random sequences, the frames below and the count of keys. *)
Record same_context (w0 w : world) : Prop := {
  sx_pcreate : w_pcreate w0 = w_pcreate w;
  sx_screate : w_screate w0 = w_screate w;
  sx_pget : w_pget w0 = w_pget w;
  sx_sget : w_sget w0 = w_sget w;
  sx_icpt : w_icpt w0 = w_icpt w;
  sx_mods : w_mods w0 = w_mods w;
  sx_nexts : w_nexts w0 = w_nexts w;
  sx_top : forall f0 f, top w0 = Some f0 -> top w = Some f ->
    f_frozen f0 = f_frozen f /\ f_mods f0 = f_mods f /\ f_scopes f0 = f_scopes f }.

(** ** One call *)
Lemma stateful_fun_world C n fn x w f fs : w_frames w = f :: fs ->
  exists w1, stateful_fun C n fn x (hk_state f) w = (fst (stateful_fun C n fn x (hk_state f) w), set_frames (f :: fs) w1).
Proof.
  intros E. unfold stateful_fun.
  destruct (run C n (fn x) (set_frames (load (istate_of true f) f :: fs) w)) as [r w1] eqn:H.
  destruct (in_temp_spec C n (fn x) w f fs (istate_of true f)
     (fun out => let! s_out := internal_state true in retM (out, difference C (istate_of true f) s_out))
     (fun out h => Ok (out, difference C (istate_of true f) (istate_of true h))) r w1) as (f1 & E1 & E2); auto.
  { intros out v h t Ev. exact (k_internal true (fun s => (out, difference C (istate_of true f) s)) v h t Ev). }
  exists w1. change (hk_state f) with (istate_of true f). rewrite E2. reflexivity.
Qed.

Lemma stateful_fun_context C n fn x s b p st w0 w f0 fs0 f fs : s = IState (Some p) st b ->
  same_context w0 w -> w_frames w0 = f0 :: fs0 -> w_frames w = f :: fs ->
  fst (stateful_fun C n fn x s w0) = fst (stateful_fun C n fn x s w).
Proof.
  intros Es X E0 E.
  assert (Ht : f_frozen f0 = f_frozen f /\ f_mods f0 = f_mods f /\ f_scopes f0 = f_scopes f).
  { apply (sx_top _ _ X); unfold top; now rewrite ?E0, ?E. }
  destruct Ht as (T1 & T2 & T3). unfold stateful_fun.
  set (g := load s f). set (g0 := load s f0).
  assert (Hg : g0 = with_rngs (f_rngs f0) g).
  { unfold g0, g, load, with_rngs. subst s. cbn. now rewrite T1, T2, T3. }
  assert (Hw : set_frames (g0 :: fs0) w0 = set_draws (w_draws w0) (set_frames (g0 :: fs0) w)).
  { destruct X, w0, w; cbn in *. subst. reflexivity. }
  destruct (run C n (fn x) (set_frames (g :: fs) w)) as [r w1] eqn:H.
  destruct (in_temp_spec C n (fn x) w f fs s
     (fun out => let! s_out := internal_state true in retM (out, difference C s s_out))
     (fun out h => Ok (out, difference C s (istate_of true h))) r w1) as (f1 & E1 & E2); auto.
  { intros out v h t Ev. exact (k_internal true (fun s' => (out, difference C s s')) v h t Ev). }
  rewrite E2. cbn [fst].
  destruct (run_graft C n (fn x) w g (f_rngs f0) fs fs0 r w1 H) as (f2 & E3 & E4 & E5).
  rewrite E1 in E3. injection E3 as <-. rewrite <- Hg in E5.
  set (v := set_frames (g0 :: fs0) w) in *. set (v1 := set_frames (with_rngs (f_rngs f0) f1 :: fs0) w1) in *.
  assert (H0 : exists d, run C n (fn x) (set_frames (g0 :: fs0) w0) = (r, set_draws d v1)).
  { rewrite Hw.
    assert (A1 : v = more_draws (w_draws v) (set_draws 0 v)) by (unfold more_draws; cbn; rewrite Nat.add_0_r; reflexivity).
    assert (A2 : set_draws (w_draws w0) v = more_draws (w_draws w0) (set_draws 0 v)) by (unfold more_draws; cbn; rewrite Nat.add_0_r; reflexivity).
    rewrite A2, run_draws. rewrite A1, run_draws in E5. destruct (run C n (fn x) (set_draws 0 v)) as [r' z] eqn:Ez. cbn [fst snd] in *.
    assert (E6 : r' = r) by congruence. assert (E7 : more_draws (w_draws v) z = v1) by congruence. subst r'.
    exists (w_draws w0 + w_draws z). f_equal. rewrite <- E7. reflexivity. }
  destruct H0 as (d & H0).
  destruct (in_temp_spec C n (fn x) w0 f0 fs0 s
     (fun out => let! s_out := internal_state true in retM (out, difference C s s_out))
     (fun out h => Ok (out, difference C s (istate_of true h))) r (set_draws d v1)) as (h1 & F1 & F2); auto.
  { intros out v' h t Ev. exact (k_internal true (fun s' => (out, difference C s s')) v' h t Ev). }
  rewrite F2. cbn [fst]. cbn in F1. injection F1 as <-. destruct r; reflexivity.
Qed.

Lemma jit_stateful C n fn x w f fs : w_frames w = f :: fs ->
  exists w1, run C (S n) (Jit (fn x)) w =
    match fst (stateful_fun C n fn x (hk_state f) w) with
    | Ok (out, d) => (Ok out, on_top (apply_delta d) (set_frames (f :: fs) w1))
    | Exc e => (Exc e, set_frames (f :: fs) w1)
    | Fuel => (Fuel, set_frames (f :: fs) w1)
    end.
Proof.
  intros E. destruct (stateful_fun_world C n fn x w f fs E) as (w1 & H). exists w1.
  cbn [run step]. unfold jit.
  assert (Hi : internal_state true w = (Ok (hk_state f), w)) by (unfold internal_state, bindM, top_frame; now rewrite E).
  unfold bindM at 1. rewrite Hi. unfold bindM at 1. unfold stateful_fun in *. rewrite H.
  destruct (fst _) as [[out d]|e|]; reflexivity.
Qed.

(** A call that finds a trace made in the same context returns what a call that traces again returns, and leaves parameters, state, random keys and
    names the same. *)
Theorem C91_kept C n fn cache x w r w1 :
  (forall e, In e cache -> is_Some (top (e_world e)) /\ same_context (e_world e) w) ->
  run C (S n) (Jit (fn x)) w = (r, w1) ->
  exists cache' w1', kept_call C n fn x (cache, w) = (r, (cache', w1')) /\ w_frames w1' = w_frames w1 /\
    forall e, In e cache' -> In e cache \/ e_world e = w /\ is_Some (top w).
Proof.
  intros HC H. unfold kept_call. destruct (w_frames w) as [|f fs] eqn:E.
  { cbn [run step] in H. unfold jit, bindM at 1, internal_state, bindM, top_frame in H. rewrite E in H. injection H as <- <-.
    exists cache, w. rewrite E. repeat split; auto. }
  destruct (List.find _ cache) as [e|] eqn:F.
  - apply List.find_some in F. destruct F as [Hin Hm]. destruct (HC e Hin) as ([f0 Ht0] & X).
    destruct (w_frames (e_world e)) as [|f0' fs0] eqn:E0; [unfold top in Ht0; rewrite E0 in Ht0; discriminate|].
    rewrite (stateful_fun_context C n fn x (hk_state f) _ _ _ (e_world e) w f0' fs0 f fs eq_refl X E0 E).
    destruct (jit_stateful C n fn x w f fs E) as (w2 & H2). rewrite H in H2.
    destruct (fst (stateful_fun C n fn x (hk_state f) w)) as [[out d]|e0|].
    + injection H2 as -> ->. exists cache, (on_top (apply_delta d) w). split; [reflexivity|]. split; [|auto].
      unfold on_top. rewrite E. reflexivity.
    + injection H2 as -> ->. exists cache, w. repeat split; auto.
    + injection H2 as -> ->. exists cache, w. repeat split; auto.
  - rewrite H. eexists _, w1. split; [reflexivity|]. split; [reflexivity|].
    assert (Ht : top w = Some f) by (unfold top; now rewrite E).
    rewrite Ht. destruct r; auto. intros e' [<-|]; eauto.
Qed.
Print Assumptions C91_kept.
(** When a call traces: exactly when no trace was made for parameters, state and keys of the same structure, of the same type of mapping, and an
    argument of the same structure. *)
Theorem C91_traces C n fn cache x w f : top w = Some f ->
  (forall e, In e cache -> same_structure (IState (Some (f_params f)) (f_state f) (f_rng f)) (e_state e) = true -> f_frozen f = e_frozen e -> same_skel x (e_arg e) = false) ->
  let (r, w1) := run C (S n) (Jit (fn x)) w in
  kept_call C n fn x (cache, w) = (r, (match r with Ok _ => Entry (IState (Some (f_params f)) (f_state f) (f_rng f)) (f_frozen f) x w :: cache | _ => cache end, w1)).
Proof.
  intros T H. unfold top in T. destruct (w_frames w) as [|f' fs] eqn:E; [discriminate T|]. injection T as ->.
  assert (F : List.find (matches f x) cache = None).
  { destruct (List.find (matches f x) cache) as [e|] eqn:F; [|reflexivity]. apply List.find_some in F. destruct F as [Hin Hm]. unfold matches in Hm.
    apply andb_true_iff in Hm as [Hm H3]. apply andb_true_iff in Hm as [H1 H2]. apply Bool.eqb_prop in H2. rewrite (H e Hin H1 H2) in H3. discriminate H3. }
  destruct (run C (S n) (Jit (fn x)) w) as [r w1] eqn:R. unfold kept_call. rewrite E, F, R. reflexivity.
Qed.
Print Assumptions C91_traces.
Theorem C91_reuses C n fn cache x w f e : top w = Some f -> In e cache ->
  same_structure (IState (Some (f_params f)) (f_state f) (f_rng f)) (e_state e) = true -> f_frozen f = e_frozen e -> same_skel x (e_arg e) = true ->
  fst (snd (kept_call C n fn x (cache, w))) = cache.
Proof.
  intros T Hin H1 H2 H3. unfold top in T. destruct (w_frames w) as [|f' fs] eqn:E; [discriminate T|]. injection T as ->. unfold kept_call. rewrite E.
  destruct (List.find (matches f x) cache) as [e'|] eqn:F.
  - destruct (fst (stateful_fun C n fn x (hk_state f) (e_world e'))) as [[out d]| |]; reflexivity.
  - apply (List.find_none _ _ F) in Hin. unfold matches, hk_state in Hin. rewrite H1, H3, H2, Bool.eqb_reflx in Hin. discriminate Hin.
Qed.
Print Assumptions C91_reuses.

(** ** Sequences of calls *)
(** [calm ctx s w]: when the calls of [s] always trace again, they all happen in the context of [ctx] and allocate no modules and no [next]
    closures. *)
Fixpoint calm C n fn (ctx : world) (s : script) (w : world) : Prop :=
  match s with
  | Return _ => True
  | Do p k => match run C n p w with (Ok v, w1) => calm C n fn ctx (k v) w1 | _ => True end
  | Call x k =>
      same_context ctx w /\ is_Some (top w) /\
      let (r, w1) := run C (S n) (Jit (fn x)) w in
      w_mods w1 = w_mods w /\ w_nexts w1 = w_nexts w /\ match r with Ok v => calm C n fn ctx (k v) w1 | _ => True end
  | Method m meth s k =>
      let w0 := push_module (m, meth) w in
      calm C n fn ctx s w0 /\
      match play C n (fresh_call C n fn) s ([], w0) with (Ok v, (_, w1)) => calm C n fn ctx (k v) (pop_module w1) | _ => True end
  | Getter g s k =>
      let w0 := set_getters (g :: w_pget w) (g :: w_sget w) w in
      calm C n fn ctx s w0 /\
      match play C n (fresh_call C n fn) s ([], w0) with
      | (Ok v, (_, w1)) => calm C n fn ctx (k v) (set_getters (tail (w_pget w1)) (tail (w_sget w1)) w1)
      | _ => True
      end
  end.

(** Worlds that differ at most in the count of keys. *)
Definition like (w w' : world) : Prop := set_draws 0 w = set_draws 0 w'.
Lemma like_sym a b : like a b -> like b a. Proof. unfold like. congruence. Qed.
Lemma like_trans a b c : like a b -> like b c -> like a c. Proof. unfold like. congruence. Qed.
Lemma like_fields a b : like a b -> w_frames a = w_frames b /\ w_pcreate a = w_pcreate b /\ w_screate a = w_screate b /\ w_pget a = w_pget b /\
  w_sget a = w_sget b /\ w_icpt a = w_icpt b /\ w_mods a = w_mods b /\ w_nexts a = w_nexts b.
Proof. unfold like. destruct a, b; cbn. intros [= -> -> -> -> -> -> -> ->]. repeat split. Qed.
Lemma fields_like a b : w_frames a = w_frames b -> w_pcreate a = w_pcreate b -> w_screate a = w_screate b -> w_pget a = w_pget b ->
  w_sget a = w_sget b -> w_icpt a = w_icpt b -> w_mods a = w_mods b -> w_nexts a = w_nexts b -> like a b.
Proof. unfold like. destruct a, b; cbn. intros; subst; reflexivity. Qed.
Lemma run_like C n p w w' r w1 : like w w' -> run C n p w = (r, w1) -> exists w1', run C n p w' = (r, w1') /\ like w1 w1'.
Proof.
  intros L H.
  assert (A : forall v, v = more_draws (w_draws v) (set_draws 0 v)) by (intros []; unfold more_draws; cbn; now rewrite Nat.add_0_r).
  rewrite (A w), run_draws in H. rewrite (A w'), <- L, run_draws.
  destruct (run C n p (set_draws 0 w)) as [r' z]. cbn [fst snd] in *.
  assert (r' = r) as -> by congruence. assert (E : more_draws (w_draws w) z = w1) by congruence. subst w1.
  eexists. split; [reflexivity|]. reflexivity.
Qed.
Lemma context_like a b c : same_context a b -> like b c -> same_context a c.
Proof.
  intros [] L. apply like_fields in L. destruct L as (F & ? & ? & ? & ? & ? & ? & ?). split; try congruence.
  intros f0 f T0 T1. apply sx_top0; [assumption|]. unfold top in *. now rewrite F.
Qed.
Lemma context_sym a b : same_context a b -> same_context b a.
Proof. intros []. split; try congruence. intros f0 f H0 H1. destruct (sx_top0 f f0 H1 H0) as (? & ? & ?). auto. Qed.
Lemma context_trans a b c f : top b = Some f -> same_context a b -> same_context b c -> same_context a c.
Proof.
  intros Hb [] []. split; try congruence. intros f0 f1 H0 H1. destruct (sx_top0 f0 f H0 Hb) as (? & ? & ?), (sx_top1 f f1 Hb H1) as (? & ? & ?).
  split; [congruence|split; congruence].
Qed.

Definition good_cache (ctx : world) (cache : list entry) : Prop := forall e, In e cache -> is_Some (top (e_world e)) /\ same_context ctx (e_world e).
Definition agree ctx (x y : res val * (list entry * world)) : Prop :=
  fst y = fst x /\ good_cache ctx (fst (snd y)) /\ like (snd (snd x)) (snd (snd y)).

Lemma fresh_eq C n fn x c w : fresh_call C n fn x (c, w) =
  (fst (run C (S n) (Jit (fn x)) w), (c, snd (run C (S n) (Jit (fn x)) w))).
Proof. unfold fresh_call. cbn [fst snd]. destruct (run C (S n) (Jit (fn x)) w). reflexivity. Qed.
Lemma fresh_cache C n fn s : forall c c' w, play C n (fresh_call C n fn) s (c', w) =
  (fst (play C n (fresh_call C n fn) s (c, w)), (c', snd (snd (play C n (fresh_call C n fn) s (c, w))))).
Proof.
  induction s as [v|p k IH|x k IH|m meth s IHs k IH|g s IHs k IH]; intros c c' w; cbn [play fst snd].
  - reflexivity.
  - destruct (run C n p w) as [[v|e|] w1]; cbn; auto.
  - rewrite !fresh_eq. destruct (run C (S n) (Jit (fn x)) w) as [[v|e|] w1]; cbn [fst snd]; auto.
  - rewrite (IHs c c'). destruct (play C n _ s (c, _)) as [[v|e|] [c1 w1]] eqn:E; cbn [fst snd].
    + rewrite (IH v c1 c'). reflexivity.
    + reflexivity.
    + reflexivity.
  - rewrite (IHs c c'). destruct (play C n _ s (c, _)) as [[v|e|] [c1 w1]] eqn:E; cbn [fst snd].
    + rewrite (IH v c1 c'). reflexivity.
    + reflexivity.
    + reflexivity.
Qed.

Lemma like_push m meth a b : like a b -> like (push_module (m, meth) a) (push_module (m, meth) b).
Proof. intros L. apply like_fields in L. destruct a, b; cbn in *. destruct L as (-> & -> & -> & -> & -> & -> & -> & ->). unfold push_module, on_top. cbn. destruct w_frames0; reflexivity. Qed.
Lemma like_pop a b : like a b -> like (pop_module a) (pop_module b).
Proof. intros L. apply like_fields in L. destruct a, b; cbn in *. destruct L as (-> & -> & -> & -> & -> & -> & -> & ->). unfold pop_module, on_top. cbn. destruct w_frames0; reflexivity. Qed.
Lemma like_getters a b : like a b -> forall p s, like (set_getters p s a) (set_getters p s b).
Proof. intros L p s. apply like_fields in L. destruct a, b; cbn in *. destruct L as (-> & -> & -> & -> & -> & -> & -> & ->). reflexivity. Qed.

Lemma agree_intro ctx x y : fst y = fst x -> good_cache ctx (fst (snd y)) -> like (snd (snd x)) (snd (snd y)) -> agree ctx x y.
Proof. unfold agree. auto. Qed.
Lemma calm_agree C n fn ctx s : forall w w' cache, calm C n fn ctx s w -> good_cache ctx cache -> like w w' ->
  is_Some (top ctx) ->
  agree ctx (play C n (fresh_call C n fn) s ([], w)) (play C n (kept_call C n fn) s (cache, w')).
Proof.
  induction s as [v|p k IH|x k IH|m meth s IHs k IH|g s IHs k IH]; intros w w' cache HS HG HL HT; cbn [play calm fst snd] in *.
  - (apply agree_intro; cbn [fst snd]; auto).
  - destruct (run C n p w) as [r w1] eqn:E. destruct (run_like _ _ _ _ _ _ _ HL E) as (w1' & E' & L'). rewrite E'.
    destruct r; [apply IH; auto| |]; (apply agree_intro; cbn [fst snd]; auto).
  - destruct HS as (X & [f Hf] & HS). rewrite fresh_eq.
    destruct (run C (S n) (Jit (fn x)) w) as [r w1] eqn:E. cbn [fst snd]. destruct HS as (M1 & M2 & HS).
    destruct (run_like _ _ _ _ _ _ _ HL E) as (w1u & Eu & Lu).
    pose proof (like_fields _ _ HL) as (F0 & F1 & F2 & F3 & F4 & F5 & F6 & F7).
    pose proof (like_fields _ _ Lu) as (U0 & U1 & U2 & U3 & U4 & U5 & U6 & U7).
    assert (Hf' : top w' = Some f) by (unfold top in *; now rewrite <- F0).
    assert (X' : same_context ctx w') by (eapply context_like; eauto).
    assert (HC : forall e, In e cache -> is_Some (top (e_world e)) /\ same_context (e_world e) w').
    { intros e He. destruct (HG e He) as [T Y]. split; [assumption|]. destruct HT as [g0 HT].
      eapply context_trans; [exact HT|apply context_sym; exact Y|exact X']. }
    destruct (C91_kept C n fn cache x w' r w1u HC Eu) as (cache' & w1' & K1 & K2 & K3). rewrite K1.
    assert (HG' : good_cache ctx cache').
    { intros e He. destruct (K3 e He) as [Hi|(-> & T)]; [now apply HG|]. split; assumption. }
    assert (Hk : like w1 w1').
    { eapply like_trans; [exact Lu|]. 
      pose proof (run_T C (S n) (Jit (fn x)) (fun _ => False) w' r w1u Eu) as TT1.
      assert (Hw' : w_pcreate w1' = w_pcreate w' /\ w_screate w1' = w_screate w' /\ w_pget w1' = w_pget w' /\ w_sget w1' = w_sget w' /\
        w_icpt w1' = w_icpt w' /\ ((w_mods w1' = w_mods w' /\ w_nexts w1' = w_nexts w') \/ w1' = w1u)).
      { unfold kept_call in K1. destruct (w_frames w') as [|f' fs'] eqn:Ef; [injection K1 as _ _ <-; repeat split; auto|].
        destruct (List.find _ cache).
        - destruct (fst _) as [[out d]|e0|]; injection K1 as _ _ <-; unfold on_top; rewrite ?Ef; repeat split; auto.
        - rewrite Eu in K1. injection K1 as _ <-. destruct TT1. repeat split; auto. }
      destruct Hw' as (V1 & V2 & V3 & V4 & V5 & [[V6 V7]| ->]); [|reflexivity].
      destruct TT1. apply fields_like; congruence. }
    destruct r; [apply IH; auto| |]; (apply agree_intro; cbn [fst snd]; auto).
  - destruct HS as [HS1 HS2].
    specialize (IHs (push_module (m, meth) w) (push_module (m, meth) w') cache HS1 HG (like_push m meth _ _ HL) HT).
    destruct (play C n (fresh_call C n fn) s ([], push_module (m, meth) w)) as [r [c1 w1]] eqn:E.
    destruct (play C n (kept_call C n fn) s (cache, push_module (m, meth) w')) as [r' [c1' w1']] eqn:E'.
    destruct IHs as (A1 & A2 & A3). cbn [fst snd] in *. subst r'.
    pose proof (like_pop _ _ A3) as L'.
    destruct r as [v|e|].
    + rewrite (fresh_cache C n fn (k v) [] c1). specialize (IH v _ _ c1' HS2 A2 L' HT).
      destruct IH as (I1 & I2 & I3). (apply agree_intro; cbn [fst snd]; auto).
    + (apply agree_intro; cbn [fst snd]; auto).
    + (apply agree_intro; cbn [fst snd]; auto).
  - destruct HS as [HS1 HS2].
    pose proof (like_fields _ _ HL) as (F0 & F1 & F2 & F3 & F4 & F5 & F6 & F7).
    assert (Lg : like (set_getters (g :: w_pget w) (g :: w_sget w) w) (set_getters (g :: w_pget w') (g :: w_sget w') w')).
    { rewrite F3, F4. now apply like_getters. }
    specialize (IHs _ _ cache HS1 HG Lg HT).
    destruct (play C n (fresh_call C n fn) s ([], set_getters (g :: w_pget w) (g :: w_sget w) w)) as [r [c1 w1]] eqn:E.
    destruct (play C n (kept_call C n fn) s (cache, set_getters (g :: w_pget w') (g :: w_sget w') w')) as [r' [c1' w1']] eqn:E'.
    destruct IHs as (A1 & A2 & A3). cbn [fst snd] in *. subst r'.
    assert (L' : like (set_getters (tail (w_pget w1)) (tail (w_sget w1)) w1) (set_getters (tail (w_pget w1')) (tail (w_sget w1')) w1')).
    { pose proof (like_fields _ _ A3) as (_ & _ & _ & G3 & G4 & _). rewrite G3, G4. now apply like_getters. }
    destruct r as [v|e|].
    + rewrite (fresh_cache C n fn (k v) [] c1). specialize (IH v _ _ c1' HS2 A2 L' HT).
      destruct IH as (I1 & I2 & I3). (apply agree_intro; cbn [fst snd]; auto).
    + (apply agree_intro; cbn [fst snd]; auto).
    + (apply agree_intro; cbn [fst snd]; auto).
Qed.

(** As long as the context stays the same, keeping the wrapped function changes nothing: neither results nor exceptions nor what is left in the frames. *)
Theorem C91_calm C n fn ctx s w : is_Some (top ctx) -> calm C n fn ctx s w ->
  fst (play C n (kept_call C n fn) s ([], w)) = fst (play C n (fresh_call C n fn) s ([], w)) /\
  w_frames (snd (snd (play C n (kept_call C n fn) s ([], w)))) = w_frames (snd (snd (play C n (fresh_call C n fn) s ([], w)))).
Proof.
  intros HT HS. destruct (calm_agree C n fn ctx s w w [] HS) as (A1 & _ & A3); [intros e []|reflexivity|assumption|].
  split; [exact A1|]. symmetry. apply (like_fields _ _ A3).
Qed.
Print Assumptions C91_calm.

(** ** Calls in another context *)
Definition twice (x : val) (second : script -> (val -> script) -> script) : script :=
  Call x (fun u => second (Call x Return) (fun v => Return (VTup [u; v]))).
(** [g = hk.jit(lambda x: hk.get_parameter("w", [], init=...))], called in a method of one module and in a method of another: outside of JAX
    transformations, [apply] gives the second one the parameter of the first. *)
Definition C91_two_modules (m1 m2 : nat) (x : val) : script :=
  Method m1 "__call__" (Call x Return) (fun u => Method m2 "__call__" (Call x Return) (fun v => Return (VTup [u; v]))).
Definition C91_param (x : val) : prog := GetParam "w" [] "float32" (Some (VInt 1)).
Definition C91_params : bundles val := {[ "a" := {[ "w" := VArr [] 10 ]}; "b" := {[ "w" := VArr [] 20 ]}; "~" := {[ "w" := VArr [] 30 ]} ]}.
Definition C91_world : world := set_mods [MObj (Some "a") (Some ∅); MObj (Some "b") (Some ∅)] (apply_world C91_params ∅ None).
Lemma demo_sound : sound_identity demo.
Proof. split; intros a b H; now apply bool_decide_eq_true in H. Qed.
Theorem C91_modules_refuted :
  ~ (forall C n fn m1 m2 x w v v', sound_identity C ->
      fst (play C n (kept_call C n fn) (C91_two_modules m1 m2 x) ([], w)) = Ok v ->
      fst (play C n (fresh_call C n fn) (C91_two_modules m1 m2 x) ([], w)) = Ok v' -> v = v').
Proof.
  intros H.
  specialize (H demo 20 C91_param 0 1 VNone C91_world (VTup [VArr [] 10; VArr [] 10]) (VTup [VArr [] 10; VArr [] 20]) demo_sound).
  assert (E : VTup [VArr [] 10; VArr [] 10] = VTup [VArr [] 10; VArr [] 20]).
  { apply H; vm_compute; reflexivity. }
  discriminate E.
Qed.
Print Assumptions C91_modules_refuted.
(** During [init] the same two calls are right: the parameter made by the first changes the structure, so the second is traced again. *)
Example C91_modules_init :
  let w := set_mods (w_mods C91_world) (init_world None) in
  map_fold (fun b _ l => b :: l) [] (f_params (default (new_frame None None None) (top (snd (snd (play demo 20 (kept_call demo 20 C91_param) (C91_two_modules 0 1 VNone) ([], w)))))))
  = map_fold (fun b _ l => b :: l) [] ({[ "a" := ∅; "b" := ∅ ]} : gmap string (gmap string val)).
Proof. vm_compute. reflexivity. Qed.

(** A getter around a later call is ignored. *)
Definition C91_code : code := Code (c_fun demo) (c_init demo) (c_creator demo) (fun g r v ctx => Ret (VArr [] 99)) (c_icpt demo) (c_same demo) (c_same_rng demo) 1.
Theorem C91_getter_refuted :
  ~ (forall C n fn g x w v v', sound_identity C ->
      fst (play C n (kept_call C n fn) (twice x (Getter g)) ([], w)) = Ok v ->
      fst (play C n (fresh_call C n fn) (twice x (Getter g)) ([], w)) = Ok v' -> v = v').
Proof.
  intros H.
  specialize (H C91_code 20 C91_param (VInt 0) VNone C91_world (VTup [VArr [] 30; VArr [] 30]) (VTup [VArr [] 30; VArr [] 99]) demo_sound).
  assert (E : VTup [VArr [] 30; VArr [] 30] = VTup [VArr [] 30; VArr [] 99]).
  { apply H; vm_compute; reflexivity. }
  discriminate E.
Qed.
Print Assumptions C91_getter_refuted.

(** A module made between two calls does not shift the names of the modules made inside, as it does when the function is wrapped anew. *)
Definition C91_layer (x : val) : prog :=
  Bind (NewModule "Layer" (fun _ => Ret VNone) (fun _ => Some None) (fun _ _ => Ret VNone))
    (fun m => match m with
              | VMod m => CallMethod m "__call__" VNone (fun _ => GetParam "w" [] "float32" (Some (VInt 1)))
              | _ => Ret VNone
              end).
Definition C91_layers : bundles val := {[ "layer" := {[ "w" := VArr [] 10 ]}; "layer_1" := {[ "w" := VArr [] 20 ]} ]}.
Theorem C91_names_refuted :
  ~ (forall C n fn p x w v v', sound_identity C ->
      fst (play C n (kept_call C n fn) (Call x (fun u => Do p (fun _ => Call x (fun v => Return (VTup [u; v]))))) ([], w)) = Ok v ->
      fst (play C n (fresh_call C n fn) (Call x (fun u => Do p (fun _ => Call x (fun v => Return (VTup [u; v]))))) ([], w)) = Ok v' -> v = v').
Proof.
  intros H.
  specialize (H demo 20 C91_layer (C91_layer VNone) VNone (apply_world C91_layers ∅ None) (VTup [VArr [] 10; VArr [] 10]) (VTup [VArr [] 10; VArr [] 20]) demo_sound).
  assert (E : VTup [VArr [] 10; VArr [] 10] = VTup [VArr [] 10; VArr [] 20]).
  { apply H; vm_compute; reflexivity. }
  discriminate E.
Qed.
Print Assumptions C91_names_refuted.

(** A calm script: a counter and a random key, three calls, with a change of the state in between. *)
Definition C91_count (x : val) : prog :=
  Bind (GetState "n" (Some []) (Some "int32") (Some (VInt 0))) (fun v =>
  match v with
  | VArr sh z => then_ (SetState "n" (VArr sh (z + 1))) (Bind NextKey (fun k => Ret (VTup [VArr sh z; k; x])))
  | _ => Ret VNone
  end).
Definition C91_script : script :=
  Call (VInt 5) (fun a => Call (VInt 6) (fun b => Do (SetState "n" (VArr [] 40)) (fun _ => Call (VInt 7) (fun c => Return (VTup [a; b; c]))))).
Definition C91_start : world := apply_world ∅ {[ "~" := {[ "n" := VArr [] 3 ]} ]} (Some (Seed 0)).
(** A decidable sufficient condition for [calm], to compute the example: nothing on the stacks, no modules, no names used. *)
Definition isnil {A} (l : list A) : bool := match l with [] => true | _ => false end.
Definition plain_scope (s : scope) : bool := bool_decide (sc_ctr s = ∅) && bool_decide (sc_used s = ∅).
Definition plain (w : world) : bool :=
  isnil (w_pcreate w) && isnil (w_screate w) && isnil (w_pget w) && isnil (w_sget w) && isnil (w_icpt w) && isnil (w_mods w) && isnil (w_nexts w) &&
  match w_frames w with
  | f :: _ => f_frozen f && isnil (f_mods f) && match f_scopes f with [a; b] => plain_scope a && plain_scope b | _ => false end
  | [] => false
  end.
Lemma isnil_true A (l : list A) : isnil l = true -> l = [].
Proof. destruct l; [reflexivity|discriminate]. Qed.
Lemma plain_scope_true s : plain_scope s = true -> s = empty_scope.
Proof. unfold plain_scope. intros H. apply andb_prop in H. destruct H as [H1 H2]. apply bool_decide_eq_true in H1, H2. destruct s; cbn in *. now subst. Qed.
Lemma plain_same w0 w : plain w0 = true -> plain w = true -> same_context w0 w.
Proof.
  unfold plain. intros H0 H.
  repeat match goal with E : _ && _ = true |- _ => apply andb_prop in E; destruct E end.
  repeat match goal with E : isnil (_ ?w) = true |- _ => apply isnil_true in E end.
  split; try congruence. intros f0 f. unfold top. destruct (w_frames w0) as [|g0 fs0]; [discriminate|]. destruct (w_frames w) as [|g fs]; [discriminate|].
  cbn. intros [= <-] [= <-].
  repeat match goal with E : _ && _ = true |- _ => apply andb_prop in E; destruct E end.
  repeat match goal with E : isnil _ = true |- _ => apply isnil_true in E end.
  destruct (f_scopes g0) as [|a0 [|b0 [|? ?]]]; try discriminate. destruct (f_scopes g) as [|a [|b [|? ?]]]; try discriminate.
  repeat match goal with E : _ && _ = true |- _ => apply andb_prop in E; destruct E end.
  repeat match goal with E : plain_scope _ = true |- _ => apply plain_scope_true in E end.
  split; [congruence|]. split; congruence.
Qed.
Lemma plain_top w : plain w = true -> is_Some (top w).
Proof. unfold plain, top. destruct (w_frames w); [rewrite andb_comm; discriminate|]. eauto. Qed.
Lemma plain_kept w w1 : plain w = true -> plain w1 = true -> w_mods w1 = w_mods w /\ w_nexts w1 = w_nexts w.
Proof. intros A B. pose proof (plain_same w w1 A B) as X. split; symmetry; apply X. Qed.
(** The worlds of the runs of a script of [Do]s and [Call]s are plain. *)
Fixpoint plainb C n fn (s : script) (w : world) : bool :=
  match s with
  | Return _ => true
  | Do p k => match run C n p w with (Ok v, w1) => plainb C n fn (k v) w1 | _ => true end
  | Call x k => plain w && (let (r, w1) := run C (S n) (Jit (fn x)) w in plain w1 && match r with Ok v => plainb C n fn (k v) w1 | _ => true end)
  | _ => false
  end.
Lemma plainb_calm C n fn s : forall ctx w, plain ctx = true -> plainb C n fn s w = true -> calm C n fn ctx s w.
Proof.
  induction s as [v|p k IH|x k IH|m meth s IHs k IH|g s IHs k IH]; intros ctx w P H; cbn [plainb calm] in *; try discriminate.
  - exact Logic.I.
  - destruct (run C n p w) as [[v|e|] w1]; auto.
  - apply andb_prop in H. destruct H as [Pw H]. destruct (run C (S n) (Jit (fn x)) w) as [r w1].
    apply andb_prop in H. destruct H as [P1 H]. split; [now apply plain_same|]. split; [now apply plain_top|].
    destruct (plain_kept w w1 Pw P1) as [-> ->]. split; [reflexivity|]. split; [reflexivity|]. destruct r; auto.
Qed.
Example C91_script_calm : calm demo 20 C91_count C91_start C91_script C91_start.
Proof. apply plainb_calm; vm_compute; reflexivity. Qed.
Example C91_script_hits :
  let r := play demo 20 (kept_call demo 20 C91_count) C91_script ([], C91_start) in
  fst r = fst (play demo 20 (fresh_call demo 20 C91_count) C91_script ([], C91_start)) /\ List.length (fst (snd r)) = 1%nat.
Proof. vm_compute. split; reflexivity. Qed.
(** An argument of another structure is traced on its own, and both traces are used afterwards. *)
Example C91_traces_case :
  let s := Call (VInt 5) (fun a => Call (VTup [VInt 1; VInt 2]) (fun b => Call (VTup [VInt 3; VInt 4]) (fun c => Call (VInt 6) (fun d => Return (VTup [a; b; c; d]))))) in
  let r := play demo 20 (kept_call demo 20 C91_count) s ([], C91_start) in
  fst r = fst (play demo 20 (fresh_call demo 20 C91_count) s ([], C91_start)) /\ List.map e_arg (fst (snd r)) = [VTup [VInt 1; VInt 2]; VInt 5].
Proof. vm_compute. split; reflexivity. Qed.

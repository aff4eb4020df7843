(** Names of the modules made by a blueprint. *)
From stdpp Require Import gmap list strings.
From Coq Require Import String Ascii ZArith Lia.
From Verif Require Import ModelStr ModelRng ModelCore SpecCore SpecNames ProofsStr ProofsMap ProofsRng ProofsEvolve ProofsRun ProofsOps ProofsModule ProofsQuiet.
Local Open Scope string_scope.
Local Open Scope list_scope.

Lemma val_mods_map es : val_mods (List.map VMod es) = Some es.
Proof. induction es as [|e es IH]; cbn; [reflexivity|]. now rewrite IH. Qed.

Lemma named_keep w w' es names :
  (forall k, k < List.length (w_mods w) -> module_name w' k = module_name w k) -> named w es names -> named w' es names.
Proof.
  intros H. unfold named. induction 1 as [|m q es names Hm Hr IH]; constructor; auto.
  rewrite H; [assumption|]. unfold module_name in Hm. destruct (w_mods w !! m) eqn:E; [|discriminate].
  eapply lookup_lt_Some; eauto.
Qed.
Lemma name_lt w m q : module_name w m = Some q -> m < List.length (w_mods w).
Proof. unfold module_name. destruct (w_mods w !! m) eqn:E; [|discriminate]. intros _. eapply lookup_lt_Some; eauto. Qed.
Lemma prefix_keep w w' f f' fs fs' pfx :
  w_frames w = f :: fs -> w_frames w' = f' :: fs' -> f_mods f' = f_mods f ->
  (forall k, k < List.length (w_mods w) -> module_name w' k = module_name w k) -> name_prefix w pfx -> name_prefix w' pfx.
Proof.
  intros F F' Hm H (g & Hg & Hp). unfold top in Hg. rewrite F in Hg. injection Hg as <-.
  exists f'. split; [unfold top; now rewrite F'|]. rewrite Hm. destruct (f_mods f) as [|[m meth] r]; [assumption|].
  destruct Hp as (Q & HQ & ->). exists Q. split; [|reflexivity]. rewrite H; [assumption|]. eapply name_lt; eauto.
Qed.

(** Effects of [notify_parents], whatever its result. *)
Lemma notify_keep self name st : forall w x w', notify_parents self name st w = (x, w') ->
  w_frames w' = w_frames w /\ w_icpt w' = w_icpt w /\ List.length (w_mods w') = List.length (w_mods w) /\
  forall k, module_name w' k = module_name w k.
Proof.
  induction st as [|[m meth] st IH]; intros w x w' E; cbn [notify_parents] in E.
  - injection E as <- <-. auto.
  - unfold bindM at 1 in E. destruct (decide (m = self)) as [->|N]; [cbn in E; eauto|].
    unfold bindM at 1, reads in E. destruct (w_mods w !! m) as [[n [s|]]|] eqn:Em;
      [|injection E as <- <-; auto|injection E as <- <-; auto].
    cbn in E. apply IH in E as (H1 & H2 & H3 & H4). cbn in *. rewrite insert_length in H3.
    repeat split; auto. intros k. rewrite H4. apply (set_subs_names w m (MObj n (Some s))). exact Em.
Qed.

Definition effect (w w' : world) (f f' : frame) (fs : list frame) (sc' : scope) (srest : list scope) (k : nat) : Prop :=
  w_frames w' = f' :: fs /\ f_mods f' = f_mods f /\ f_scopes f' = sc' :: srest /\ w_icpt w' = [] /\
  List.length (w_mods w') = List.length (w_mods w) + k /\
  forall m, m < List.length (w_mods w) -> module_name w' m = module_name w m.

Lemma seq_split m k1 k2 : seq m (k1 + k2) = seq m k1 ++ seq (m + k1) k2.
Proof. apply seq_app. Qed.

(** A method call made of a body run in a fresh scope. *)
Lemma wrap_fun_ok C n m meth body w v w' f fs sc srest :
  w_icpt w = [] -> w_frames w = f :: fs -> f_scopes f = sc :: srest ->
  wrap_method C (run C n) m meth (MFun body) VNone w = (Ok v, w') ->
  exists w1 w2, w1 = set_frames (Frame (f_params f) (f_frozen f) (f_state f) (f_rng f) (f_rngs f) ((m, meth) :: f_mods f) (empty_scope :: sc :: srest) :: fs) w /\
    run C n (body VNone) w1 = (Ok v, w2) /\
    (forall f2 s2 k, effect w1 w2 (Frame (f_params f) (f_frozen f) (f_state f) (f_rng f) (f_rngs f) ((m, meth) :: f_mods f) (empty_scope :: sc :: srest)) f2 fs s2 (sc :: srest) k ->
       exists f', effect w w' f f' fs sc srest k /\ (forall j, module_name w' j = module_name w2 j)).
Proof.
  intros Hi F Hs E. unfold wrap_method in E. apply bind_ok in E as (f0 & w0 & E0 & E).
  unfold top_frame in E0. rewrite F in E0. injection E0 as <- <-.
  unfold scoped in E. destruct (bindM _ _ _) as [r4 w4] eqn:E4 in E. injection E as -> <-.
  apply bind_ok in E4 as (out & w2 & E2 & E4).
  unfold run_interceptors in E2. apply bind_ok in E2 as (is & w6 & E7 & E2). injection E7 as <- <-.
  unfold push_module, on_top in E2. rewrite F in E2. cbn [set_frames w_icpt] in E2. rewrite Hi, Hs in E2. cbn [run_mbody] in E2.
  eexists _, w2. split; [reflexivity|].
  apply bind_ok in E4 as (f2 & w5 & E5 & E4). unfold top_frame in E5.
  destruct (w_frames w2) as [|g2 fs2] eqn:F2; [discriminate|]. injection E5 as <- <-.
  apply bind_ok in E4 as (ms & w5 & E5 & E4). injection E5 as <- <-.
  assert (Hv : out = v /\ w_frames w4 = g2 :: fs2 /\ w_icpt w4 = w_icpt w2 /\ List.length (w_mods w4) = List.length (w_mods w2) /\
    forall k, module_name w4 k = module_name w2 k).
  { destruct (w_mods w2 !! m) as [[[nm|] s]|].
    - apply bind_ok in E4 as ([] & w5 & E5 & E4). injection E4 as <- <-. apply notify_keep in E5 as (H1 & H2 & H3 & H4).
      rewrite H1. auto.
    - injection E4 as <- <-. auto.
    - injection E4 as <- <-. auto. }
  destruct Hv as (-> & F4 & I4 & L4 & N4). split; [exact E2|].
  intros h2 s2 k (G1 & G2 & G3 & G4 & G5 & G6). rewrite F2 in G1. injection G1 as -> ->.
  eexists. split.
  - unfold effect, pop_module, on_top. rewrite F4. cbn. rewrite G2, G3. cbn. repeat split; auto.
    + congruence.
    + rewrite L4, G5. reflexivity.
    + intros j Hj. change (module_name w4 j = module_name w j). rewrite N4. rewrite G6 by exact Hj. reflexivity.
  - intros j. unfold pop_module, module_name. rewrite on_top_mods. apply N4.
Qed.

Lemma inside_prefix w f fs m meth rest Q : w_frames w = f :: fs -> f_mods f = (m, meth) :: rest -> module_name w m = Some Q ->
  name_prefix w (inside Q meth).
Proof. intros F Hm HQ. exists f. unfold top. rewrite F. split; [reflexivity|]. rewrite Hm. exists Q. split; [assumption|reflexivity]. Qed.

(** The constructor of a blueprint module. *)
Lemma new_ok C n cls name post w m w' f fs sc srest pfx :
  w_icpt w = [] -> w_frames w = f :: fs -> f_scopes f = sc :: srest -> name_prefix w pfx ->
  run C (S n) (NewModule cls (fun _ => Ret VNone) (fun _ => Some name) post) w = (Ok m, w') ->
  exists sc' q v w1 w2, m = VMod (List.length (w_mods w)) /\
    number_name sc (pfx +:+ requested cls name) = (sc', inr q) /\
    run C n (post (List.length (w_mods w)) VNone) w1 = (Ok v, w2) /\
    let f1 := Frame (f_params f) (f_frozen f) (f_state f) (f_rng f) (f_rngs f) ((List.length (w_mods w), "__init__") :: f_mods f) (empty_scope :: sc' :: srest) in
    w_frames w1 = f1 :: fs /\ w_icpt w1 = [] /\ module_name w1 (List.length (w_mods w)) = Some q /\
    List.length (w_mods w1) = S (List.length (w_mods w)) /\
    (forall j, j < List.length (w_mods w) -> module_name w1 j = module_name w j) /\
    (forall f2 s2 k, effect w1 w2 f1 f2 fs s2 (sc' :: srest) k ->
       exists f', effect w w' f f' fs sc' srest (S k) /\ (forall j, module_name w' j = module_name w2 j)).
Proof.
  intros Hi F Hs Hp E. cbn [run step] in E.
  apply bind_ok in E as (m0 & w0 & E & E0). injection E0 as <- <-.
  unfold new_module in E. apply bind_ok in E as (ms & w1 & E1 & E). injection E1 as <- <-.
  apply bind_ok in E as ([] & w1 & E1 & E). injection E1 as <-.
  set (m1 := List.length (w_mods w)) in *.
  apply bind_ok in E as (out & w2 & E1 & E).
  apply bind_ok in E as (ms & w3 & E3 & E). injection E3 as <- <-.
  destruct (w_mods w2 !! m1) as [[[q|] subs]|] eqn:Eq; try discriminate. injection E as <- <-.
  unfold wrap_method in E1. apply bind_ok in E1 as (f1 & w3 & E3 & E1).
  unfold top_frame in E3. cbn in E3. rewrite F in E3. injection E3 as <- <-.
  unfold scoped in E1. destruct (bindM _ _ _) as [r4 w4] eqn:E4 in E1. injection E1 as -> <-.
  apply bind_ok in E4 as (out' & w5 & E5 & E6).
  unfold run_interceptors in E5. apply bind_ok in E5 as (is & w6 & E7 & E5). injection E7 as <- <-.
  unfold push_module, on_top in E5. cbn in E5. rewrite F in E5. cbn in E5. rewrite Hi in E5.
  match type of E5 with bindM _ _ ?x = _ => set (wp := x) in * end.
  set (fp := Frame (f_params f) (f_frozen f) (f_state f) (f_rng f) (f_rngs f) ((m1, "__init__") :: f_mods f)
    (empty_scope :: f_scopes f)) in *.
  assert (Lp : List.length (w_mods wp) = S m1) by (cbn; rewrite app_length; cbn; unfold m1; lia).
  apply bind_ok in E5 as (v0 & w7 & E7 & E5).
  assert (v0 = VNone /\ w7 = wp) as [-> ->].
  { destruct n; [discriminate|]. cbn [run step] in E7. now injection E7 as <- <-. }
  apply bind_ok in E5 as ([] & w8 & E8 & E5).
  assert (Fp : w_frames wp = fp :: fs) by reflexivity.
  destruct (module_init_ok _ _ _ _ _ _ _ _ _ _ Fp (eq_refl : f_mods fp = _ :: _) E8) as (Hv & s0 & sc2 & srest2 & sc3 & full & q' & S2 & Hfull & Hnn & ->).
  unfold fp in S2. cbn in S2. rewrite Hs in S2. injection S2 as <- <- <-.
  assert (Nk : forall j, j < m1 -> module_name wp j = module_name w j).
  { intros j Hj. unfold module_name, wp. cbn. now rewrite lookup_app_l. }
  assert (full = pfx +:+ requested cls name) as ->.
  { destruct Hp as (g & Hg & Hp). unfold top in Hg. rewrite F in Hg. injection Hg as <-.
    unfold scoped_full in Hfull. destruct (f_mods f) as [|[pm meth] rest].
    - subst pfx. exact Hfull.
    - destruct Hp as (Q & HQ & ->). destruct Hfull as (Q' & HQ' & ->).
      rewrite Nk in HQ' by (eapply name_lt; eauto). rewrite HQ in HQ'. injection HQ' as <-. reflexivity. }
  match type of E5 with run _ _ _ ?x = _ => set (w8 := x) in * end.
  apply bind_ok in E6 as (f5 & w9 & E9 & E6). unfold top_frame in E9.
  destruct (w_frames w5) as [|g5 fs5] eqn:F5; [discriminate|]. injection E9 as <- <-.
  apply bind_ok in E6 as (ms & w9 & E9 & E6). injection E9 as <- <-.
  assert (Hv4 : w_frames w4 = g5 :: fs5 /\ w_icpt w4 = w_icpt w5 /\ List.length (w_mods w4) = List.length (w_mods w5) /\
    forall k, module_name w4 k = module_name w5 k).
  { destruct (w_mods w5 !! m1) as [[[nm|] s]|].
    - apply bind_ok in E6 as ([] & w9 & E9 & E6). injection E6 as <- <-. apply notify_keep in E9 as (H1 & H2 & H3 & H4).
      rewrite H1. auto.
    - injection E6 as <- <-. auto.
    - injection E6 as <- <-. auto. }
  destruct Hv4 as (F4 & I4 & L4 & N4).
  exists sc3, q', out', w8, w5. split; [reflexivity|]. split; [assumption|]. split; [exact E5|]. cbn zeta.
  assert (Hm1 : m1 < List.length (w_mods wp)) by lia.
  assert (L8 : List.length (w_mods w8) = S m1).
  { unfold w8. cbn [w_mods set_mods set_frames]. rewrite insert_length. exact Lp. }
  assert (N8 : forall j, j < m1 -> module_name w8 j = module_name w j).
  { intros j Hj. rewrite <- Nk by exact Hj. unfold module_name, w8. cbn [w_mods set_mods set_frames].
    rewrite list_lookup_insert_ne by lia. reflexivity. }
  split. { reflexivity. }
  split. { exact Hi. }
  split. { unfold module_name, w8. cbn [w_mods set_mods set_frames]. now rewrite list_lookup_insert by exact Hm1. }
  split. { exact L8. }
  split. { exact N8. }
  intros h2 s2 k (G1 & G2 & G3 & G4 & G5 & G6). rewrite F5 in G1. injection G1 as -> ->.
  eexists. split.
  - unfold effect, pop_module, on_top. rewrite F4. cbn. rewrite G2, G3. cbn. repeat split; auto.
    + congruence.
    + rewrite L4, G5, L8. unfold m1. lia.
    + intros j Hj. change (module_name w4 j = module_name w j). rewrite N4, G6 by (rewrite L8; unfold m1; lia). now apply N8.
  - intros j. unfold pop_module, module_name. rewrite on_top_mods. apply N4.
Qed.

Lemma effect_trans w w1 w2 f f1 f2 fs s1 s2 srest j k :
  effect w w1 f f1 fs s1 srest j -> effect w1 w2 f1 f2 fs s2 srest k -> effect w w2 f f2 fs s2 srest (j + k).
Proof.
  intros (A1 & A2 & A3 & A4 & A5 & A6) (B1 & B2 & B3 & B4 & B5 & B6). repeat split; auto.
  - congruence.
  - lia.
  - intros m Hm. rewrite B6, A6; [reflexivity|assumption|lia].
Qed.

Lemma bp_run C : quiet_code C -> forall b n es w v w' f fs sc srest pfx names,
  bp_ok b -> w_icpt w = [] -> w_frames w = f :: fs -> f_scopes f = sc :: srest -> name_prefix w pfx -> named w es names ->
  run C n (bp_prog b es) w = (Ok v, w') ->
  exists sc' names' f', bp_names b pfx sc names = Some (sc', names') /\
    v = mods_val (es ++ seq (List.length (w_mods w)) (bp_count b)) /\
    named w' (es ++ seq (List.length (w_mods w)) (bp_count b)) names' /\
    effect w w' f f' fs sc' srest (bp_count b).
Proof.
  intros HQ. induction b as [|p k IHk|cls name ctor IHc k IHk|h meth body IHb k IHk];
    intros n es w v w' f fs sc srest pfx names Hok Hi F Hs Hp Hn E; (destruct n as [|n]; [discriminate|]); cbn [bp_prog bp_count bp_names bp_ok] in *.
  - injection E as <- <-. exists sc, names, f. cbn [seq]. rewrite app_nil_r. unfold effect. repeat split; auto.
  - destruct Hok as [Hq Hok]. cbn [run step] in E. apply bind_ok in E as (a & w1 & E1 & E).
    pose proof (run_quiet _ _ _ _ _ _ HQ Hq E1) as [Q1 Q2].
    pose proof (run_T _ _ _ Xno _ _ _ E1) as T1. pose proof (t_frames _ _ _ _ _ _ T1) as TF. rewrite F in TF.
    destruct (w_frames w1) as [|f1 fs1] eqn:F1; [destruct TF|]. destruct TF as [FT1 ->].
    rewrite F in Q2. cbn in Q2. injection Q2 as Q2. pose proof (ft_mods _ _ _ _ FT1) as M1.
    assert (N1 : forall j, module_name w1 j = module_name w j) by (intros j; unfold module_name; now rewrite Q1).
    destruct (IHk n es w1 v w' f1 fs sc srest pfx names) as (sc' & names' & f' & H1 & H2 & H3 & H4); auto.
    + rewrite (t_icpt _ _ _ _ _ _ T1). assumption.
    + congruence.
    + exact (prefix_keep w w1 f f1 fs fs pfx F F1 M1 (fun j _ => N1 j) Hp).
    + exact (named_keep w w1 es names (fun j _ => N1 j) Hn).
    + exists sc', names', f'. rewrite Q1 in H2, H3. repeat split; auto; try apply H4.
      * destruct H4 as (_ & H4 & _). congruence.
      * destruct H4 as (_ & _ & _ & _ & H4 & _). now rewrite Q1 in H4.
      * intros j Hj. destruct H4 as (_ & _ & _ & _ & _ & H4). rewrite Q1 in H4. now rewrite H4, N1.
  - destruct Hok as [Hok1 Hok2]. cbn [run step] in E. apply bind_ok in E as (a & w1 & E1 & E).
    destruct n as [|n]; [discriminate|].
    destruct (new_ok _ _ _ _ _ _ _ _ _ _ _ _ _ Hi F Hs Hp E1) as (sc1 & q & v1 & wa & wb & -> & Hnum & Ec & Fa & Ia & Na & La & Ka & Heff).
    rewrite Hnum.
    pose proof (IHc n (es ++ [List.length (w_mods w)]) wa v1 wb _ fs _ _ (inside q "__init__") (names ++ [q]) Hok1 Ia Fa eq_refl) as IH1.
    destruct IH1 as (sc2 & names2 & f2 & H1 & H2 & H3 & H4); [| |exact Ec|].
    { eapply inside_prefix; [exact Fa|reflexivity|exact Na]. }
    { apply Forall2_app; [eapply named_keep; eauto|]. constructor; [exact Na|constructor]. }
    destruct (Heff _ _ _ H4) as (f3 & H5 & H6). rewrite H1. rewrite La in H2, H3.
    assert (Hes : (es ++ [List.length (w_mods w)]) ++ seq (S (List.length (w_mods w))) (bp_count ctor) = es ++ seq (List.length (w_mods w)) (S (bp_count ctor))).
    { rewrite <- app_assoc. reflexivity. }
    rewrite Hes in H2, H3.
    assert (Hn1 : named w1 (es ++ seq (List.length (w_mods w)) (S (bp_count ctor))) names2).
    { unfold named in *. eapply Forall2_impl; [exact H3|]. intros m q0 Hm. now rewrite H6. }
    destruct H5 as (G1 & G2 & G3 & G4 & G5 & G6).
    assert (Heff1 : effect w w1 f f3 fs sc1 srest (S (bp_count ctor))) by (unfold effect; auto 10).
    destruct (IHk (S n) (es ++ seq (List.length (w_mods w)) (S (bp_count ctor))) w1 v w' f3 fs sc1 srest pfx names2 Hok2 G4 G1 G3) as (sc' & names' & f' & K1 & K2 & K3 & K4); [| |exact E|].
    { eapply prefix_keep; [exact F|exact G1|exact G2|exact G6|exact Hp]. }
    { exact Hn1. }
    exists sc', names', f'. rewrite G5 in K2, K3.
    assert (Hes2 : (es ++ seq (List.length (w_mods w)) (S (bp_count ctor))) ++ seq (List.length (w_mods w) + S (bp_count ctor)) (bp_count k)
       = es ++ seq (List.length (w_mods w)) (S (bp_count ctor) + bp_count k)).
    { rewrite (seq_app (S (bp_count ctor))). now rewrite app_assoc. }
    rewrite Hes2 in K2, K3. split; [assumption|]. split; [exact K2|]. split; [exact K3|].
    eapply (effect_trans _ _ _ _ _ _ _ _ _ _ (S (bp_count ctor))); eauto.
  - destruct Hok as [Hok1 Hok2]. destruct (es !! h) as [m|] eqn:Eh; [|discriminate].
    destruct (Forall2_lookup_l _ _ _ _ _ Hn Eh) as (q & Eq & Hq). rewrite Eq.
    cbn [run step] in E. apply bind_ok in E as (a & w1 & E1 & E).
    destruct n as [|n]; [discriminate|]. cbn [run step] in E1.
    destruct (wrap_fun_ok _ _ _ _ _ _ _ _ _ _ _ _ Hi F Hs E1) as (wa & wb & Hwa & Eb & Heff).
    assert (Fa : w_frames wa = Frame (f_params f) (f_frozen f) (f_state f) (f_rng f) (f_rngs f) ((m, meth) :: f_mods f) (empty_scope :: sc :: srest) :: fs) by now subst wa.
    assert (Ia : w_icpt wa = []) by now subst wa.
    pose proof (IHb n es wa a wb _ fs _ _ (inside q meth) names Hok1 Ia Fa eq_refl) as IH1.
    destruct IH1 as (sc2 & names2 & f2 & H1 & H2 & H3 & H4); [|now subst wa|exact Eb|].
    { subst wa. eapply inside_prefix; [reflexivity|reflexivity|exact Hq]. }
    destruct (Heff _ _ _ H4) as (f3 & H5 & H6). rewrite H1.
    assert (La : List.length (w_mods wa) = List.length (w_mods w)) by now subst wa. rewrite La in H2, H3. subst a.
    unfold mods_val in E. rewrite val_mods_map in E.
    assert (Hn1 : named w1 (es ++ seq (List.length (w_mods w)) (bp_count body)) names2).
    { unfold named in *. eapply Forall2_impl; [exact H3|]. intros j q0 Hm. now rewrite H6. }
    destruct H5 as (G1 & G2 & G3 & G4 & G5 & G6).
    assert (Heff1 : effect w w1 f f3 fs sc srest (bp_count body)) by (unfold effect; auto 10).
    destruct (IHk (S n) (es ++ seq (List.length (w_mods w)) (bp_count body)) w1 v w' f3 fs sc srest pfx names2 Hok2 G4 G1 G3) as (sc' & names' & f' & K1 & K2 & K3 & K4); [| |exact E|].
    { eapply prefix_keep; [exact F|exact G1|exact G2|exact G6|exact Hp]. }
    { exact Hn1. }
    exists sc', names', f'. rewrite G5 in K2, K3.
    assert (Hes2 : (es ++ seq (List.length (w_mods w)) (bp_count body)) ++ seq (List.length (w_mods w) + bp_count body) (bp_count k)
       = es ++ seq (List.length (w_mods w)) (bp_count body + bp_count k)).
    { rewrite seq_app. now rewrite app_assoc. }
    rewrite Hes2 in K2, K3. split; [assumption|]. split; [exact K2|]. split; [exact K3|].
    eapply effect_trans; eauto.
Qed.

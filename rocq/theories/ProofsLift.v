(** [params_dict], [hk.lift], [optimize_rng_use]. *)
From stdpp Require Import gmap list strings.
From Coq Require Import String Ascii ZArith Lia.
From Verif Require Import ModelStr ModelRng ModelCore SpecCore SpecLift ProofsStr ProofsMap ProofsEvolve ProofsRun ProofsOps ProofsModule ProofsNext.
Local Open Scope string_scope.
Local Open Scope list_scope.

(** ** params_dict *)
Lemma owns_test mn subs b :
  bool_decide (b = mn) || starts_with (mn +:+ "/") b || bool_decide (b ∈ subs) = true <-> owns mn subs b.
Proof.
  rewrite !orb_true_iff, !bool_decide_eq_true. unfold owns, starts_with.
  assert (Hs : (match strip_prefix (mn +:+ "/") b with Some _ => true | None => false end = true) <-> exists t, b = mn +:+ "/" +:+ t).
  { destruct (strip_prefix (mn +:+ "/") b) as [t|] eqn:E.
    - apply strip_prefix_spec in E. rewrite app_assoc_str in E. split; eauto.
    - split; [discriminate|]. intros [t Ht]. assert (strip_prefix (mn +:+ "/") b = Some t) as E'.
      { apply strip_prefix_spec. now rewrite app_assoc_str. }
      congruence. }
  tauto.
Qed.

Lemma in_map_to_list {A} (k : string) (v : A) (m : gmap string A) : In (k, v) (map_to_list m) <-> m !! k = Some v.
Proof. rewrite <- elem_of_list_In. apply elem_of_map_to_list. Qed.

Lemma dict_in mn subs col k v : In (k, v) (params_or_state_dict mn subs col) <->
  exists b n, k = b +:+ "/" +:+ n /\ lookup2 b n col = Some v /\ owns mn subs b.
Proof.
  unfold params_or_state_dict. rewrite in_flat_map. split.
  - intros ([b x] & Hb & H). destruct (_ || _) eqn:E; [|destruct H].
    apply owns_test in E. apply in_map_iff in H as ([n v'] & [= <- <-] & Hn). exists b, n. split; [reflexivity|]. split; [|assumption].
    apply in_map_to_list in Hb. apply in_map_to_list in Hn. unfold lookup2. now rewrite Hb.
  - intros (b & n & -> & L & O). unfold lookup2 in L. destruct (col !! b) as [x|] eqn:Eb; [|discriminate].
    exists (b, x). split; [now apply in_map_to_list|]. apply owns_test in O. rewrite O.
    apply in_map_iff. exists (n, v). split; [reflexivity|]. now apply in_map_to_list.
Qed.

Lemma NoDup_flat_map {A B} (f : A -> list B) l : NoDup l -> (forall x, In x l -> NoDup (f x)) ->
  (forall x y z, In x l -> In y l -> x <> y -> In z (f x) -> ~ In z (f y)) -> NoDup (flat_map f l).
Proof.
  induction l as [|a l IH]; intros Hl Hf Hd; [constructor|]. cbn. inversion Hl as [|? ? Ha Hl']; subst.
  apply NoDup_app. split; [apply Hf; now left|]. split.
  - intros z Hz Hz'. apply elem_of_list_In in Hz, Hz'. apply in_flat_map in Hz' as (y & Hy & Hz').
    refine (Hd a y z _ _ _ Hz Hz'); [now left|now right|]. intros ->. apply Ha. now apply elem_of_list_In.
  - apply IH; [assumption|intros; apply Hf; now right|]. intros x y z Hx Hy. apply Hd; now right.
Qed.
Lemma map_flat_map {A B D} (g : B -> D) (f : A -> list B) l : List.map g (flat_map f l) = flat_map (fun x => List.map g (f x)) l.
Proof. induction l as [|a l IH]; [reflexivity|]. cbn. now rewrite List.map_app, IH. Qed.
Lemma NoDup_map_inj {A B} (g : A -> B) l : (forall x y, In x l -> In y l -> g x = g y -> x = y) -> NoDup l -> NoDup (List.map g l).
Proof.
  induction l as [|a l IH]; intros Hg Hl; [constructor|]. cbn. inversion Hl as [|? ? Ha Hl']; subst. constructor.
  - rewrite elem_of_list_In. intros H. apply in_map_iff in H as (y & E & Hy). apply Ha. apply elem_of_list_In.
    replace a with y; [assumption|]. apply Hg; auto; [now right|now left].
  - apply IH; [|assumption]. intros x y Hx Hy. apply Hg; now right.
Qed.

Lemma slash_inj b n b' n' : has_char "/" n = false -> has_char "/" n' = false ->
  b +:+ "/" +:+ n = b' +:+ "/" +:+ n' -> b = b' /\ n = n'.
Proof. intros H H' E. pose proof (rsplit_slash_app b n H) as R. rewrite E, (rsplit_slash_app b' n' H') in R. injection R as -> ->. auto. Qed.

Lemma dict_nodup mn subs col : slash_free col -> NoDup (List.map fst (params_or_state_dict mn subs col)).
Proof.
  intros HS. unfold params_or_state_dict. rewrite map_flat_map.
  assert (HL : forall b x, In (b, x) (map_to_list col) -> forall n v, In (n, v) (map_to_list x) -> lookup2 b n col = Some v).
  { intros b x Hb n v Hn. apply in_map_to_list in Hb, Hn. unfold lookup2. now rewrite Hb. }
  apply NoDup_flat_map.
  - apply NoDup_map_to_list.
  - intros [b x] Hb. destruct (_ || _); [|constructor]. rewrite List.map_map. apply NoDup_map_inj.
    + intros [n v] [n' v'] Hn Hn' E. cbn in E.
      destruct (slash_inj b n b n') as [_ ->]; [exact (HS _ _ _ (HL _ _ Hb _ _ Hn))|exact (HS _ _ _ (HL _ _ Hb _ _ Hn'))|assumption|].
      apply in_map_to_list in Hn, Hn'. congruence.
    + apply NoDup_map_to_list.
  - intros [b x] [b' x'] z Hb Hb' Hne Hz Hz'.
    destruct (bool_decide (b = mn) || _ || _); [|destruct Hz]. destruct (bool_decide (b' = mn) || _ || _); [|destruct Hz'].
    rewrite List.map_map in Hz, Hz'. apply in_map_iff in Hz as ([n v] & <- & Hn). apply in_map_iff in Hz' as ([n' v'] & E & Hn'). cbn in E.
    destruct (slash_inj b' n' b n) as [-> ->]; [exact (HS _ _ _ (HL _ _ Hb' _ _ Hn'))|exact (HS _ _ _ (HL _ _ Hb _ _ Hn))|assumption|].
    apply in_map_to_list in Hb, Hb'. congruence.
Qed.

(** ** Recording of submodules *)
Lemma notify_records self name st : forall w w', notify_parents self name st w = (Ok tt, w') ->
  (forall m, match submodules w m with Some s => exists s', submodules w' m = Some s' /\ s ⊆ s' | None => True end) /\
  (forall m meth, In (m, meth) st -> m <> self -> exists s', submodules w' m = Some s' /\ name ∈ s').
Proof.
  induction st as [|[m meth] st IH]; intros w w' E; cbn [notify_parents] in E.
  - injection E as <-. split; [|intros ? ? []]. intros m. destruct (submodules w m) as [s|]; eauto.
  - apply bind_ok in E as (u & w1 & E1 & E2).
    assert (H1 : (forall k, match submodules w k with Some s => exists s', submodules w1 k = Some s' /\ s ⊆ s' | None => True end) /\
        (m <> self -> exists s', submodules w1 m = Some s' /\ name ∈ s')).
    { destruct (decide (m = self)) as [->|Hne].
      - injection E1 as _ <-. split; [|congruence]. intros k. destruct (submodules w k); eauto.
      - unfold bindM, reads in E1. destruct (w_mods w !! m) as [[nm [subs|]]|] eqn:Em; try discriminate E1. injection E1 as _ <-.
        split.
        + intros k. unfold submodules. cbn. destruct (decide (k = m)) as [->|Hk].
          * rewrite Em, list_lookup_insert by (eapply lookup_lt_Some; eauto). cbn. eexists. split; [reflexivity|]. set_solver.
          * rewrite list_lookup_insert_ne by congruence. destruct (w_mods w !! k) as [[? [s|]]|]; cbn; eauto.
        + intros _. unfold submodules. cbn. rewrite list_lookup_insert by (eapply lookup_lt_Some; eauto). cbn. eexists. split; [reflexivity|]. set_solver. }
    destruct H1 as [H1 H2]. destruct (IH _ _ E2) as [H3 H4]. split.
    + intros k. specialize (H1 k). destruct (submodules w k) as [s|]; [|exact Logic.I].
      destruct H1 as (s1 & Es1 & Hs1). specialize (H3 k). rewrite Es1 in H3. destruct H3 as (s2 & Es2 & Hs2). exists s2. split; [assumption|set_solver].
    + intros m' meth' [[= -> ->]|Hin] Hne; [|eauto]. destruct (H2 Hne) as (s1 & Es1 & Hs1). specialize (H3 m'). rewrite Es1 in H3.
      destruct H3 as (s2 & Es2 & Hs2). exists s2. split; [assumption|set_solver].
Qed.

(** ** pack and unpack *)
Lemma pack_ok src pre : forall w f w', top w = Some f -> NoDup (List.map fst src) -> pack_into_dict src pre w = (Ok tt, w') ->
  exists ps, w' = on_top (set_params ps) w /\
    (forall k v, In (k, v) src -> f_params f !! (pre +:+ "/" +:+ k) = None /\ ps !! (pre +:+ "/" +:+ k) = Some v) /\
    (forall b, (forall k, In k (List.map fst src) -> b <> pre +:+ "/" +:+ k) -> ps !! b = f_params f !! b).
Proof.
  induction src as [|[k v] src IH]; intros w f w' F HN E; cbn [pack_into_dict] in E.
  - injection E as <-. exists (f_params f). destruct (top_Some _ _ F) as [fs F']. split.
    + symmetry. eapply on_top_id; [exact F'|]. apply set_params_id.
    + split; [intros ? ? []|auto].
  - destruct (top_Some _ _ F) as [fs F']. unfold bindM at 1, top_frame in E. rewrite F' in E.
    destruct (bool_decide (is_Some (f_params f !! (pre +:+ "/" +:+ k)))) eqn:EB; [discriminate E|].
    apply bool_decide_eq_false in EB. unfold bindM, modify in E. cbn in HN. inversion HN as [|? ? HNk HN']; subst.
    set (g := fun f : frame => set_params (<[pre +:+ "/" +:+ k:=v]> (f_params f)) f) in *.
    destruct (IH (on_top g w) (g f) w' (on_top_top _ _ _ F) HN' E) as (ps & -> & H1 & H2).
    exists ps. split; [|split].
    + unfold on_top. rewrite F'. cbn. reflexivity.
    + intros k' v' [[= <- <-]|Hin].
      * split; [destruct (f_params f !! _) eqn:Ex; [destruct EB; eauto|reflexivity]|]. rewrite H2; [cbn; apply lookup_insert|].
        intros k' Hk' Heq. apply app_inj_str in Heq. apply (app_inj_str "/") in Heq. subst k'. apply HNk. now apply elem_of_list_In.
      * destruct (H1 k' v' Hin) as [H3 H4]. split; [|assumption]. cbn in H3. rewrite lookup_insert_None in H3. tauto.
    + intros b Hb. rewrite H2; [cbn; apply lookup_insert_ne; intros <-; apply (Hb k); [now left|reflexivity]|].
      intros k' Hk'. apply Hb. now right.
Qed.
Lemma pack_clash src pre : forall w f e w', top w = Some f -> NoDup (List.map fst src) -> pack_into_dict src pre w = (Exc e, w') ->
  exists k, In k (List.map fst src) /\ is_Some (f_params f !! (pre +:+ "/" +:+ k)) /\ e = ELiftClash (pre +:+ "/" +:+ k).
Proof.
  induction src as [|[k v] src IH]; intros w f e w' F HN E; cbn [pack_into_dict] in E; [discriminate|].
  destruct (top_Some _ _ F) as [fs F']. unfold bindM at 1, top_frame in E. rewrite F' in E.
  destruct (bool_decide (is_Some (f_params f !! (pre +:+ "/" +:+ k)))) eqn:EB.
  - injection E as <- <-. apply bool_decide_eq_true in EB. exists k. split; [now left|]. auto.
  - unfold bindM, modify in E. cbn in HN. inversion HN as [|? ? HNk HN']; subst.
    set (g := fun f : frame => set_params (<[pre +:+ "/" +:+ k:=v]> (f_params f)) f) in *.
    destruct (IH (on_top g w) (g f) e w' (on_top_top _ _ _ F) HN' E) as (k' & Hk' & Hs & He). exists k'. split; [now right|]. split; [|assumption].
    cbn in Hs. rewrite lookup_insert_ne in Hs; [assumption|]. intros Heq. apply app_inj_str in Heq. apply (app_inj_str "/") in Heq. subst k'.
    apply HNk. now apply elem_of_list_In.
Qed.
Lemma pack_fuel src pre : forall w x w', pack_into_dict src pre w = (x, w') -> x <> Fuel.
Proof.
  induction src as [|[k v] src IH]; intros w x w' E; cbn [pack_into_dict] in E; [injection E as <- _; discriminate|].
  unfold bindM at 1, top_frame in E. destruct (w_frames w) as [|f fs]; [injection E as <- _; discriminate|].
  destruct (bool_decide _); [injection E as <- _; discriminate|]. unfold bindM, modify in E. eauto.
Qed.

Lemma unpack_lookup {A} (src : gmap string A) pre k : unpack_from_dict src pre !! k = src !! (pre +:+ k).
Proof.
  unfold unpack_from_dict.
  set (g := fun '(k, v) => match strip_prefix pre k with Some k' => [(k', v)] | None => [] end : list (string * A)).
  assert (HI : forall j v, In (j, v) (flat_map g (map_to_list src)) <-> src !! (pre +:+ j) = Some v).
  { intros j v. rewrite in_flat_map. split.
    - intros ([b x] & Hb & H). cbn in H. destruct (strip_prefix pre b) as [b'|] eqn:E; [|destruct H].
      apply strip_prefix_spec in E. destruct H as [[= <- <-]|[]]. apply in_map_to_list in Hb. now rewrite <- E.
    - intros L. exists (pre +:+ j, v). split; [now apply in_map_to_list|]. cbn.
      assert (strip_prefix pre (pre +:+ j) = Some j) as -> by now apply strip_prefix_spec. now left. }
  assert (HN : NoDup ((flat_map g (map_to_list src)).*1)).
  { change (NoDup (List.map fst (flat_map g (map_to_list src)))). rewrite map_flat_map. apply NoDup_flat_map.
    - apply NoDup_map_to_list.
    - intros [b x] _. cbn. destruct (strip_prefix pre b); cbn; [apply NoDup_singleton|constructor].
    - intros [b x] [b' x'] z Hb Hb' Hne Hz Hz'. cbn in Hz, Hz'.
      destruct (strip_prefix pre b) eqn:E; [|destruct Hz]. destruct (strip_prefix pre b') eqn:E'; [|destruct Hz'].
      destruct Hz as [Hz|[]]. destruct Hz' as [Hz'|[]]. cbn in Hz, Hz'. subst. apply strip_prefix_spec in E, E'.
      apply in_map_to_list in Hb, Hb'. congruence. }
  destruct (src !! (pre +:+ k)) as [v|] eqn:L.
  - apply elem_of_list_to_map; [assumption|]. apply elem_of_list_In. now apply HI.
  - apply not_elem_of_list_to_map. intros Hk. apply elem_of_list_In in Hk. apply in_map_iff in Hk as ([k' v] & <- & Hin).
    apply HI in Hin. cbn in *. congruence.
Qed.

(** A method call's body runs as a program. *)
Lemma run_interceptors_as_run C n m meth f arg w x w' : run_interceptors C (run C n) m meth (MFun f) arg w = (x, w') ->
  exists k p w0, run C k p w0 = (x, w') /\ w_frames w0 = w_frames w /\ w_mods w0 = w_mods w.
Proof.
  unfold run_interceptors. unfold bindM at 1, reads at 1. destruct (w_icpt w) as [|i is]; intros E; [exists n, (f arg), w; auto|].
  unfold bindM at 1, alloc_next, bindM at 1, reads, bindM at 1, modify, retM in E.
  exists (S n), (NextCall (List.length (w_nexts w)) arg), (set_nexts (w_nexts w ++ [NxCall (rev (i :: is)) m meth (MFun f)]) w). auto.
Qed.
Lemma notify_name self name st : forall w x w', notify_parents self name st w = (x, w') -> forall m, module_name w' m = module_name w m.
Proof.
  induction st as [|[k meth] st IH]; intros w x w' E m; cbn [notify_parents] in E.
  - now injection E as _ <-.
  - unfold bindM at 1 in E. destruct (decide (k = self)) as [->|]; [exact (IH _ _ _ E m)|].
    unfold bindM, reads in E. destruct (w_mods w !! k) as [[nm [subs|]]|] eqn:Ek; cbn in E; try (now injection E as _ <-).
    rewrite (IH _ _ _ E m). unfold module_name. cbn. destruct (decide (m = k)) as [->|].
    + rewrite list_lookup_insert by (eapply lookup_lt_Some; eauto). now rewrite Ek.
    + now rewrite list_lookup_insert_ne by congruence.
Qed.
Lemma pop_module_mods w : w_mods (pop_module w) = w_mods w.
Proof. apply on_top_mods. Qed.

Lemma method_records C n m meth arg body w v w' f : run C n (CallMethod m meth arg body) w = (Ok v, w') -> top w = Some f ->
  forall k s q, In (k, s) (f_mods f) -> k <> m -> module_name w' m = Some q ->
  exists s', submodules w' k = Some s' /\ q ∈ s'.
Proof.
  intros E F k s q Hk Hne Hq. destruct n as [|n]; [discriminate E|]. cbn [run step] in E.
  destruct (top_Some _ _ F) as [fs F']. unfold wrap_method, bindM at 1, top_frame at 1 in E. rewrite F' in E.
  unfold scoped in E. destruct (bindM _ _ (push_module (m, meth) w)) as [x w1] eqn:E1. injection E as -> <-.
  apply bind_ok in E1 as (out & w2 & Ei & E1).
  destruct (run_interceptors_as_run _ _ _ _ _ _ _ _ _ Ei) as (k0 & p & w0 & Er & F0 & M0).
  assert (T0 : top w0 = Some (Frame (f_params f) (f_frozen f) (f_state f) (f_rng f) (f_rngs f) ((m, meth) :: f_mods f) (empty_scope :: f_scopes f))).
  { unfold top. rewrite F0. unfold push_module, on_top. now rewrite F'. }
  destruct (run_top _ _ _ _ _ _ _ Er T0) as (f2 & T2 & HFT). pose proof (ft_mods _ _ _ _ HFT) as Hm. cbn in Hm.
  destruct (top_Some _ _ T2) as [fs2 F2]. unfold bindM at 1, top_frame in E1. rewrite F2 in E1. unfold bindM at 1, reads at 1 in E1.
  unfold module_name, submodules in *. rewrite pop_module_mods in *.
  destruct (w_mods w2 !! m) as [[[name|] subs]|] eqn:Em.
  - apply bind_ok in E1 as ([] & w3 & En & E1). injection E1 as _ <-. pose proof (notify_name _ _ _ _ _ _ En m) as Hn.
    unfold module_name in Hn. rewrite Em in Hn. assert (q = name) as -> by (cbn in Hn; congruence).
    destruct (notify_records _ _ _ _ _ En) as [_ H]. destruct (H k s) as (s' & Hs & Hin); [rewrite Hm; now right|assumption|].
    exists s'. unfold submodules in Hs. rewrite ?pop_module_mods. auto.
  - injection E1 as _ <-. rewrite Em in Hq. discriminate.
  - injection E1 as _ <-. rewrite Em in Hq. discriminate.
Qed.

(** ** hk.lift *)
Lemma map_fst_NoDup {A} (m : gmap string A) : NoDup (List.map fst (map_to_list m)).
Proof. apply (NoDup_fst_map_to_list m). Qed.
Lemma in_fst_map {A} (m : gmap string A) k : In k (List.map fst (map_to_list m)) <-> is_Some (m !! k).
Proof.
  rewrite in_map_iff. split.
  - intros ([k' v] & <- & H). apply in_map_to_list in H. eauto.
  - intros [v H]. exists (k, v). split; [reflexivity|]. now apply in_map_to_list.
Qed.

Lemma lift_init C n m rng body w f b v w' :
  top w = Some f -> f_frozen f = false -> module_name w m = Some b ->
  run C (S n) (LiftCall m rng body) w = (Ok v, w') ->
  exists ps w1 ps', hk_init C n rng body w = (Ok (ps, ∅), w1) /\ v = enc ps /\
    w' = on_top (set_params ps') w1 /\ top w1 = Some f /\
    (forall k x, ps !! k = Some x -> f_params f !! (b +:+ "/" +:+ k) = None /\ ps' !! (b +:+ "/" +:+ k) = Some x) /\
    (forall k, (forall k', is_Some (ps !! k') -> k <> b +:+ "/" +:+ k') -> ps' !! k = f_params f !! k).
Proof.
  intros F HF Hb E. cbn [run step] in E. unfold lift_call in E. destruct (top_Some _ _ F) as [fs F'].
  unfold bindM at 1, top_frame at 1 in E. rewrite F' in E. unfold bindM at 1 in E. rewrite safe_name_eq, Hb in E. rewrite HF in E.
  apply bind_ok in E as ([ps st] & w1 & E1 & E2). cbn [fst snd] in E2. fold (hk_init C n rng body) in E1.
  destruct (bool_decide (st = ∅)) eqn:EB; [|discriminate E2]. apply bool_decide_eq_true in EB as ->.
  apply bind_ok in E2 as ([] & w2 & E2 & E3). injection E3 as <- <-.
  assert (F1 : top w1 = Some f) by (unfold top; rewrite (proj2 (hk_init_T _ _ _ _ _ _ _ E1)); exact F).
  destruct (pack_ok _ _ _ _ _ F1 (map_fst_NoDup ps) E2) as (ps' & -> & H1 & H2).
  exists ps, w1, ps'. repeat split; auto.
  - apply (H1 k x). now apply in_map_to_list.
  - apply (H1 k x). now apply in_map_to_list.
  - intros k Hk. apply H2. intros k' Hk'. apply Hk. now apply in_fst_map.
Qed.
Lemma lift_apply C n m rng body w f b :
  top w = Some f -> f_frozen f = true -> module_name w m = Some b ->
  run C (S n) (LiftCall m rng body) w = (Ok (enc (unpack_from_dict (f_params f) (b +:+ "/"))), w).
Proof.
  intros F HF Hb. cbn [run step]. unfold lift_call. destruct (top_Some _ _ F) as [fs F'].
  unfold bindM at 1, top_frame at 1. rewrite F'. unfold bindM at 1. rewrite safe_name_eq, Hb. now rewrite HF.
Qed.

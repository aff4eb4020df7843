(** C100, part 1: what holds of every program over Haiku's operations: a run split into parts, init followed by apply, and when a checkpoint fits another program. *)
From Coq Require Import String Ascii NArith ZArith List Bool Lia.
From Verif Require Import ModelStr ModelUtils ModelShape ModelImageNets ModelConv ModelFormat.
Import ListNotations.
Local Open Scope string_scope.
Local Open Scope Z_scope.

(** ** Tables *)
Lemma key_eqb_eq a b : key_eqb a b = true <-> a = b.
Proof. destruct a, b. unfold key_eqb; cbn. rewrite andb_true_iff, !String.eqb_eq. split; [intros [-> ->]; reflexivity | intros [= -> ->]; split; reflexivity]. Qed.
Lemma key_eqb_refl a : key_eqb a a = true.
Proof. apply key_eqb_eq. reflexivity. Qed.
Lemma key_eqb_neq a b : key_eqb a b = false <-> a <> b.
Proof. rewrite <- key_eqb_eq. destruct (key_eqb a b); split; congruence. Qed.
Lemma shape_eqb_eq s t : shape_eqb s t = true <-> s = t.
Proof. unfold shape_eqb. destruct (list_eq_dec Z.eq_dec s t); split; congruence. Qed.
Lemma fetch_app {V} k (l m : list (key * V)) : fetch k (l ++ m)%list = match fetch k l with Some v => Some v | None => fetch k m end.
Proof. induction l as [|[k' v] l IH]; cbn; [reflexivity|]. destruct (key_eqb k k'); [reflexivity | apply IH]. Qed.
Lemma fetch_in {V} k (l : list (key * V)) v : fetch k l = Some v -> In (k, v) l.
Proof.
  induction l as [|[k' v'] l IH]; cbn; [discriminate|]. destruct (key_eqb k k') eqn:E; [|auto].
  apply key_eqb_eq in E. intros [= ->]. left. congruence.
Qed.
Lemma fetch_none {V} k (l : list (key * V)) : fetch k l = None <-> ~ In k (map fst l).
Proof.
  induction l as [|[k' v'] l IH]; cbn; [tauto|]. destruct (key_eqb k k') eqn:E.
  - apply key_eqb_eq in E. split; [discriminate | intros N; exfalso; apply N; auto].
  - apply key_eqb_neq in E. rewrite IH. split; [intros N [C | C]; auto | intros N C; apply N; auto].
Qed.
Lemma fetch_nodup {V} k v (l : list (key * V)) : NoDup (map fst l) -> In (k, v) l -> fetch k l = Some v.
Proof.
  induction l as [|[k' v'] l IH]; cbn; [tauto|]. intros N [E | I]; inversion N; subst.
  - injection E as -> ->. rewrite key_eqb_refl. reflexivity.
  - destruct (key_eqb k k') eqn:E; [|auto]. apply key_eqb_eq in E. subst k'. destruct H1. apply in_map_iff. exists (k, v). auto.
Qed.
Lemma fetch_put {V} k k' v (l : list (key * V)) : fetch k (put k' v l) = if key_eqb k k' then Some v else fetch k l.
Proof.
  induction l as [|[k2 v2] l IH]; cbn.
  - destruct (key_eqb k k'); reflexivity.
  - destruct (key_eqb k' k2) eqn:E; cbn.
    + apply key_eqb_eq in E. subst k2. destruct (key_eqb k k'); reflexivity.
    + rewrite IH. destruct (key_eqb k k2) eqn:E2; [|reflexivity]. apply key_eqb_eq in E2. subst k2.
      destruct (key_eqb k k') eqn:E3; [|reflexivity]. apply key_eqb_eq in E3. subst. rewrite key_eqb_refl in E. discriminate.
Qed.
Lemma put_keys {V} k v (l : list (key * V)) : map fst (put k v l) = match fetch k l with Some _ => map fst l | None => (map fst l ++ [k])%list end.
Proof.
  induction l as [|[k2 v2] l IH]; cbn; [reflexivity|]. destruct (key_eqb k k2); cbn; [reflexivity|]. rewrite IH. destruct (fetch k l); reflexivity.
Qed.
Lemma NoDup_snoc {A} (l : list A) a : NoDup l -> ~ In a l -> NoDup (l ++ [a]).
Proof. intros N I. apply NoDup_rev in N. rewrite <- (rev_involutive (l ++ [a])). apply NoDup_rev. rewrite rev_app_distr. cbn. constructor; [rewrite <- in_rev; exact I | exact N]. Qed.

(** ** Runs *)
Lemma run_bind {A B} fr (p : prog A) (f : A -> prog B) : forall w, run fr (bind p f) w = match run fr p w with Some (a, w') => run fr (f a) w' | None => None end.
Proof.
  induction p as [a | | n a k IH | n i k IH | n a k IH | n k IH | m t k IH | k IH]; intros w; cbn; try reflexivity.
  - destruct (fetch (bundle w, n) (w_params w)) as [a'|]; [destruct (shape_eqb (snd a') (snd a)); [apply IH | reflexivity] | destruct fr; [reflexivity | apply IH]].
  - destruct (fetch (bundle w, n) (w_state w)) as [[j v]|]; [apply IH | destruct i; [apply IH | reflexivity]].
  - apply IH.
  - destruct (w_stack w) as [|sc rest]; [reflexivity|]. destruct (unique_name sc n) as [[q sc']|]; [apply IH | reflexivity].
  - apply IH.
  - destruct (w_stack w) as [|sc [|sc' rest]]; [reflexivity..|]. apply IH.
Qed.

(** What a run only adds to. *)
Definition keys_ok (w : world) : Prop := NoDup (map fst (w_params w)) /\ NoDup (map fst (w_state w)).
Record grows (w w' : world) : Prop := Grows {
  gr_params : forall k v, fetch k (w_params w) = Some v -> fetch k (w_params w') = Some v;
  gr_state : forall k i c, fetch k (w_state w) = Some (i, c) -> exists c', fetch k (w_state w') = Some (i, c') }.
Lemma grows_refl w : grows w w.
Proof. split; eauto. Qed.
Lemma grows_trans w1 w2 w3 : grows w1 w2 -> grows w2 w3 -> grows w1 w3.
Proof. intros [P S] [P' S']. split; [auto|]. intros k i c F. destruct (S k i c F) as [c' F']. eauto. Qed.
Lemma grows_param w k a : fetch k (w_params w) = None -> grows w (World (w_params w ++ [(k, a)])%list (w_state w) (w_stack w)).
Proof. intros F. split; cbn; [|eauto]. intros k' v E. rewrite fetch_app, E. reflexivity. Qed.
Lemma grows_state w k v : fetch k (w_state w) = None -> grows w (World (w_params w) (w_state w ++ [(k, v)])%list (w_stack w)).
Proof. intros F. split; cbn; [auto|]. intros k' i c E. exists c. rewrite fetch_app, E. reflexivity. Qed.
Lemma grows_set w k a : grows w (World (w_params w) (put k (match fetch k (w_state w) with Some (i, _) => i | None => a end, a) (w_state w)) (w_stack w)).
Proof.
  split; cbn; [auto|]. intros k' i c E. rewrite fetch_put. destruct (key_eqb k' k) eqn:Q; [|eauto].
  apply key_eqb_eq in Q. subst. rewrite E. eauto.
Qed.
Lemma grows_stack w s : grows w (World (w_params w) (w_state w) s).
Proof. split; cbn; eauto. Qed.
Lemma keys_param w k a : keys_ok w -> fetch k (w_params w) = None -> keys_ok (World (w_params w ++ [(k, a)])%list (w_state w) (w_stack w)).
Proof. intros [N1 N2] F. split; [cbn; rewrite map_app; apply NoDup_snoc; [exact N1 | apply fetch_none, F] | exact N2]. Qed.
Lemma keys_state w k v : keys_ok w -> fetch k (w_state w) = None -> keys_ok (World (w_params w) (w_state w ++ [(k, v)])%list (w_stack w)).
Proof. intros [N1 N2] F. split; [exact N1 | cbn; rewrite map_app; apply NoDup_snoc; [exact N2 | apply fetch_none, F]]. Qed.
Lemma keys_set w k v : keys_ok w -> keys_ok (World (w_params w) (put k v (w_state w)) (w_stack w)).
Proof.
  intros [N1 N2]. split; [exact N1 | cbn]. rewrite put_keys. destruct (fetch k (w_state w)) eqn:F; [exact N2 | apply NoDup_snoc; [exact N2 | apply fetch_none, F]].
Qed.
Lemma run_grows {A} fr (p : prog A) : forall w a w', run fr p w = Some (a, w') -> keys_ok w -> grows w w' /\ keys_ok w'.
Proof.
  induction p as [b | | n b k IH | n i k IH | n b k IH | n k IH | m t k IH | k IH]; cbn; intros w a w' R K; try discriminate.
  - injection R as <- <-. split; [apply grows_refl | exact K].
  - destruct (fetch (bundle w, n) (w_params w)) as [a'|] eqn:F.
    + destruct (shape_eqb (snd a') (snd b)); [exact (IH _ _ _ R K) | discriminate].
    + destruct fr; [discriminate|]. destruct (IH _ _ _ R (keys_param _ _ _ K F)) as [G K']. split; [exact (grows_trans _ _ _ (grows_param _ _ _ F) G) | exact K'].
  - destruct (fetch (bundle w, n) (w_state w)) as [[j v]|] eqn:F; [exact (IH _ _ _ _ R K)|]. destruct i as [b|]; [|discriminate].
    destruct (IH _ _ _ _ R (keys_state _ _ _ K F)) as [G K']. split; [exact (grows_trans _ _ _ (grows_state _ _ _ F) G) | exact K'].
  - destruct (IH _ _ _ R (keys_set _ _ _ K)) as [G K']. split; [exact (grows_trans _ _ _ (grows_set _ _ _) G) | exact K'].
  - destruct (w_stack w) as [|sc rest]; [discriminate|]. destruct (unique_name sc n) as [[q sc']|]; [|discriminate].
    destruct (IH _ _ _ _ R K) as [G K']. split; [exact (grows_trans _ _ _ (grows_stack _ _) G) | exact K'].
  - destruct (IH _ _ _ R K) as [G K']. split; [exact (grows_trans _ _ _ (grows_stack _ _) G) | exact K'].
  - destruct (w_stack w) as [|sc [|sc' rest]]; [discriminate..|].
    destruct (IH _ _ _ R K) as [G K']. split; [exact (grows_trans _ _ _ (grows_stack _ _) G) | exact K'].
Qed.

(** ** A second run that starts with what the first one made *)
(** The state of the second run while the first one's is [now] and will be [fin]. *)
Definition overlay (now fin : list (key * (array * array))) : list (key * (array * array)) :=
  map (fun p => (fst p, match fetch (fst p) now with Some v => v | None => (fst (snd p), fst (snd p)) end)) fin.
Lemma overlay_self l : NoDup (map fst l) -> overlay l l = l.
Proof.
  intros N. unfold overlay. rewrite <- (map_id l) at 2. apply map_ext_in. intros [k v] I. cbn. rewrite (fetch_nodup k v l N I). reflexivity.
Qed.
Lemma overlay_fetch now fin k : fetch k (overlay now fin) = match fetch k fin with None => None | Some (i, _) => match fetch k now with Some v => Some v | None => Some (i, i) end end.
Proof.
  unfold overlay. induction fin as [|[k' [i c]] fin IH]; cbn; [reflexivity|]. destruct (key_eqb k k') eqn:E; [|apply IH].
  apply key_eqb_eq in E. subst k'. destruct (fetch k now); reflexivity.
Qed.
Lemma overlay_ext now now' fin : (forall k i c, In (k, (i, c)) fin -> match fetch k now with Some v => v | None => (i, i) end = match fetch k now' with Some v => v | None => (i, i) end) ->
  overlay now fin = overlay now' fin.
Proof. intros H. apply map_ext_in. intros [k [i c]] I. cbn. rewrite (H k i c I). reflexivity. Qed.
Lemma overlay_put now fin k v : NoDup (map fst fin) -> fetch k fin <> None -> put k v (overlay now fin) = overlay (put k v now) fin.
Proof.
  induction fin as [|[k' [i c]] fin IH]; cbn; [congruence|]. intros N H. inversion N; subst. destruct (key_eqb k k') eqn:E; cbn.
  - apply key_eqb_eq in E. subst k'. rewrite fetch_put, key_eqb_refl. f_equal. apply overlay_ext. intros k2 i2 c2 I. rewrite fetch_put.
    destruct (key_eqb k2 k) eqn:E2; [|reflexivity]. apply key_eqb_eq in E2. subst k2. exfalso. apply H2. apply in_map_iff. exists (k, (i2, c2)). auto.
  - rewrite fetch_put. destruct (key_eqb k' k) eqn:E2; [apply key_eqb_eq in E2; subst; rewrite key_eqb_refl in E; discriminate|]. f_equal. apply IH; assumption.
Qed.

(** The parameters [l] hold those of the run with the same shapes. *)
Definition holds (l m : list (key * array)) : Prop := forall k v, fetch k m = Some v -> exists v', fetch k l = Some v' /\ snd v' = snd v.
Lemma bundle_eq P S P' S' st : bundle (World P S st) = bundle (World P' S' st).
Proof. reflexivity. Qed.
Lemma run_again {A} fr (p : prog A) : forall w a w', run false p w = Some (a, w') -> keys_ok w ->
  forall l, holds l (w_params w) ->
    (holds l (w_params w') -> run fr p (World l (overlay (w_state w) (w_state w')) (w_stack w)) = Some (a, World l (w_state w') (w_stack w'))) /\
    (run true p (World l (overlay (w_state w) (w_state w')) (w_stack w)) <> None -> holds l (w_params w')).
Proof.
  induction p as [b | | n b k IH | n i k IH | n b k IH | n k IH | m t k IH | k IH]; cbn; intros w a w' R K l HL; try discriminate.
  - injection R as <- <-. split; [|auto]. intros _. rewrite overlay_self by apply K. reflexivity.
  - pose proof (fun w0 a0 w0' R0 K0 => proj1 (run_grows false k w0 a0 w0' R0 K0)) as GR.
    destruct (fetch (bundle w, n) (w_params w)) as [a'|] eqn:F.
    + destruct (shape_eqb (snd a') (snd b)) eqn:SH; [|discriminate]. apply shape_eqb_eq in SH.
      destruct (HL _ _ F) as (v' & F' & SV). change (bundle (World l _ (w_stack w))) with (bundle w). rewrite F', SV, SH.
      rewrite (proj2 (shape_eqb_eq _ _) eq_refl). exact (IH _ _ _ R K l HL).
    + set (w1 := World (w_params w ++ [(bundle w, n, b)])%list (w_state w) (w_stack w)) in *.
      assert (K1 : keys_ok w1) by exact (keys_param _ _ _ K F).
      assert (F1 : fetch (bundle w, n) (w_params w1) = Some b) by (cbn; rewrite fetch_app, F; cbn; rewrite key_eqb_refl; reflexivity).
      assert (HL1 : (exists v', fetch (bundle w, n) l = Some v' /\ snd v' = snd b) -> holds l (w_params w1)).
      { intros E k' v' E'. cbn in E'. rewrite fetch_app in E'. destruct (fetch k' (w_params w)) eqn:E2; [injection E' as <-; exact (HL _ _ E2)|].
        cbn in E'. destruct (key_eqb k' (bundle w, n)) eqn:E3; [|discriminate]. injection E' as <-. apply key_eqb_eq in E3. subst k'. exact E. }
      change (bundle (World l _ (w_stack w))) with (bundle w).
      split.
      * intros H. destruct (H _ _ (gr_params _ _ (GR _ _ _ R K1) _ _ F1)) as (v' & F' & SV). rewrite F', SV, (proj2 (shape_eqb_eq _ _) eq_refl).
        apply (IH _ _ _ R K1 l); [apply HL1; eauto | exact H].
      * destruct (fetch (bundle w, n) l) as [v'|] eqn:F'; [|congruence]. destruct (shape_eqb (snd v') (snd b)) eqn:SH; [|congruence].
        apply shape_eqb_eq in SH. apply (IH _ _ _ R K1 l). apply HL1. eauto.
  - change (bundle (World l _ (w_stack w))) with (bundle w). rewrite overlay_fetch.
    destruct (fetch (bundle w, n) (w_state w)) as [[j v]|] eqn:F.
    + destruct (gr_state _ _ (proj1 (run_grows _ _ _ _ _ R K)) _ _ _ F) as [c' F']. rewrite F'. exact (IH _ _ _ _ R K l HL).
    + destruct i as [b|]; [|discriminate].
      set (w1 := World (w_params w) (w_state w ++ [(bundle w, n, (b, b))])%list (w_stack w)) in *.
      assert (K1 : keys_ok w1) by exact (keys_state _ _ _ K F).
      assert (F1 : fetch (bundle w, n) (w_state w1) = Some (b, b)) by (cbn; rewrite fetch_app, F; cbn; rewrite key_eqb_refl; reflexivity).
      destruct (gr_state _ _ (proj1 (run_grows _ _ _ _ _ R K1)) _ _ _ F1) as [c' F']. rewrite F'.
      replace (overlay (w_state w) (w_state w')) with (overlay (w_state w1) (w_state w')); [exact (IH _ _ _ _ R K1 l HL)|].
      apply overlay_ext. intros k' i' c2 I. cbn. rewrite fetch_app. destruct (fetch k' (w_state w)) eqn:E; [reflexivity|]. cbn.
      destruct (key_eqb k' (bundle w, n)) eqn:Q; [|reflexivity]. apply key_eqb_eq in Q. subst k'.
      apply (fetch_nodup _ _ _ (proj2 (proj2 (run_grows _ _ _ _ _ R K1)))) in I. rewrite F' in I. injection I as -> ->. reflexivity.
  - change (bundle (World l _ (w_stack w))) with (bundle w). rewrite overlay_fetch.
    set (fst' := match fetch (bundle w, n) (w_state w) with Some (i, _) => i | None => b end) in *.
    set (w1 := World (w_params w) (put (bundle w, n) (fst', b) (w_state w)) (w_stack w)) in *.
    assert (K1 : keys_ok w1) by exact (keys_set _ _ _ K).
    assert (F1 : fetch (bundle w, n) (w_state w1) = Some (fst', b)) by (cbn; rewrite fetch_put, key_eqb_refl; reflexivity).
    destruct (run_grows _ _ _ _ _ R K1) as [G2 K2]. destruct (gr_state _ _ G2 _ _ _ F1) as [c' F']. rewrite F'.
    rewrite overlay_put; [|exact (proj2 K2) | congruence].
    match goal with |- context [put _ (?x, b) _] => replace x with fst' end; [exact (IH _ _ _ R K1 l HL)|].
    unfold fst'. destruct (fetch (bundle w, n) (w_state w)) as [[j v]|]; reflexivity.
  - destruct (w_stack w) as [|sc rest] eqn:ST; [discriminate|]. destruct (unique_name sc n) as [[q sc']|]; [|discriminate]. exact (IH _ _ _ _ R K l HL).
  - exact (IH _ _ _ R K l HL).
  - destruct (w_stack w) as [|sc [|sc' rest]] eqn:ST; [discriminate..|]. exact (IH _ _ _ R K l HL).
Qed.

Lemma start_ok : keys_ok (start [] []).
Proof. split; constructor. Qed.
Lemma overlay_start w : overlay [] (w_state w) = w_state (start [] (initial w)).
Proof. unfold overlay, start, initial; cbn. rewrite map_map. apply map_ext. intros [k [i c]]. reflexivity. Qed.

(** A checkpoint made by [init] of one program holds the entries of [init] of another one, with their shapes. *)
Definition fits (checkpoint needed : list (key * array)) : Prop := forall k a, In (k, a) needed -> exists a', fetch k checkpoint = Some a' /\ snd a' = snd a.

(** C100: whatever the program, [init] makes entries with distinct names; [apply] of the program on a checkpoint and the initial state succeeds exactly when every parameter
    that [init] makes is in the checkpoint with its shape -- other entries and element types do not matter -- and then the result and the state are those that the run of
    [init] had. *)
Theorem C100_loads {A} (p : prog A) a w : run false p (start [] []) = Some (a, w) ->
  exists params state, init p = Some (params, state) /\ NoDup (map fst params) /\ NoDup (map fst state) /\
    forall checkpoint,
      (fits checkpoint params -> apply p checkpoint state = Some (a, current w)) /\
      (apply p checkpoint state <> None -> fits checkpoint params).
Proof.
  intros R. exists (w_params w), (initial w). unfold init. rewrite R. split; [reflexivity|].
  destruct (run_grows _ _ _ _ _ R start_ok) as [_ [N1 N2]]. split; [exact N1|].
  split; [unfold initial; rewrite map_map; exact N2|]. intros l.
  assert (FH : fits l (w_params w) <-> holds l (w_params w)).
  { split; intros H k v E; [apply (H k v), fetch_in, E | apply (H k v), fetch_nodup; assumption]. }
  destruct (run_again true p _ _ _ R start_ok l) as [Y N]; [intros k v E; discriminate|].
  unfold apply. change (start l (initial w)) with (World l (w_state (start [] (initial w))) (w_stack (start [] []))). rewrite <- overlay_start.
  change (w_state (start [] [])) with (@nil (key * (array * array))) in Y, N. split.
  - intros F. rewrite Y by (apply FH, F). reflexivity.
  - intros E. apply FH, N. intros C. apply E. rewrite C. reflexivity.
Qed.
Print Assumptions C100_loads.

(** C100: what [init] made is accepted by [apply], which gives the result of the run of [init] and the state that it ended with. *)
Theorem C100_round_trip {A} (p : prog A) a w : run false p (start [] []) = Some (a, w) ->
  exists params state, init p = Some (params, state) /\ apply p params state = Some (a, current w).
Proof.
  intros R. destruct (C100_loads p a w R) as (params & state & I & N & _ & H). exists params, state. split; [exact I|].
  apply (proj1 (H params)). intros k v E. exists v. split; [apply fetch_nodup; assumption | reflexivity].
Qed.
Print Assumptions C100_round_trip.

(** A network of a linear layer and batch normalisation with 3 features; its checkpoint also fits one that has only the first layer, but not one of other sizes. *)
Definition demo (out : Z) (norm : bool) (x : array) : prog array :=
  l <- linear out true None ;; y <- l x ;;
  if norm then b <- batch_norm (BN true false false None true) None ;; b (true, false) y else Ret y.
Example C100_loads_case :
  init (demo 3 true (f32 [8; 2])) =
    Some ([(("linear", "w"), f32 [2; 3]); (("linear", "b"), f32 [3]); (("batch_norm", "scale"), f32 [1; 3])],
          [(("batch_norm/~/mean_ema", "counter"), (Int32, [])); (("batch_norm/~/mean_ema", "hidden"), f32 [1; 3]); (("batch_norm/~/mean_ema", "average"), f32 [1; 3]);
           (("batch_norm/~/var_ema", "counter"), (Int32, [])); (("batch_norm/~/var_ema", "hidden"), f32 [1; 3]); (("batch_norm/~/var_ema", "average"), f32 [1; 3])]) /\
  (forall params state, init (demo 3 true (f32 [8; 2])) = Some (params, state) ->
     apply (demo 3 true (f32 [8; 2])) params state = Some (f32 [8; 3], state) /\ apply (demo 3 false (f32 [5; 2])) params state = Some (f32 [5; 3], state) /\
     apply (demo 3 true (f32 [8; 4])) params state = None /\ apply (demo 4 false (f32 [8; 2])) params state = None).
Proof.
  split; [vm_compute; reflexivity|]. intros params state E.
  assert (H : Some (params, state) = init (demo 3 true (f32 [8; 2]))) by (symmetry; exact E). clear E. vm_compute in H.
  injection H as -> ->. vm_compute. auto.
Qed.

(** Loops of [jax.lax] over a Haiku body are Python loops. *)
From stdpp Require Import gmap list strings.
From Coq Require Import String Ascii ZArith Lia.
From Verif Require Import ModelStr ModelRng ModelCore SpecCore SpecStateful ProofsStr ProofsMap ProofsNames ProofsRng ProofsEvolve ProofsRun ProofsOps ProofsModule ProofsSim ProofsGraft ProofsStateful.
Local Open Scope string_scope.
Local Open Scope list_scope.
Local Arguments update_recursive : simpl never.
Local Arguments map2 : simpl never.
Local Arguments multimap : simpl never.

Lemma param_names_spec p b n : (b, n) ∈ param_names p <-> is_Some (lookup2 b n p).
Proof.
  unfold param_names, lookup2. rewrite elem_of_list_In, in_flat_map. split.
  - intros ([b' m] & H1 & H2). apply elem_of_list_In, elem_of_map_to_list in H1.
    apply in_map_iff in H2 as ([n' v] & [= -> ->] & H2). apply elem_of_list_In, elem_of_map_to_list in H2.
    rewrite H1. cbn. rewrite H2. eauto.
  - destruct (p !! b) as [m|] eqn:E; cbn; [|intros [? [=]]]. intros [v H].
    exists (b, m). split; [now apply elem_of_list_In, elem_of_map_to_list|].
    apply in_map_iff. exists (n, v). split; [reflexivity|]. now apply elem_of_list_In, elem_of_map_to_list.
Qed.
Lemma no_new_params_spec p p1 : no_new_params p p1 = true <-> no_new_names p p1.
Proof.
  unfold no_new_params, no_new_names. rewrite forallb_forall. split.
  - intros H b n Hn. apply param_names_spec. apply param_names_spec, elem_of_list_In, H in Hn.
    now apply bool_decide_eq_true in Hn.
  - intros H [b n] Hn. apply bool_decide_eq_true, param_names_spec, H, param_names_spec. now apply elem_of_list_In.
Qed.

(** With a block of one reserved key (or no random sequence), refilling the
    reserve early makes no difference. *)
Definition eager_ok (C : code) (md : mode) (b : bool) : Prop :=
  md = Strict /\ b = false \/ md = Lazy /\ c_block C = 1.

Lemma full_one q : List.length (sq_subs q) = 1 -> reserve_up_to_full 1 q = q.
Proof.
  unfold reserve_up_to_full. intros E. rewrite E. cbn. destruct q as [k [|a []] l]; cbn in *; try lia. reflexivity.
Qed.
Lemma full_zero q : sq_subs q = [] -> reserve_up_to_full 1 q = reserve 1 q.
Proof. unfold reserve_up_to_full. intros E. now rewrite E. Qed.
Lemma reserve_one q : sq_subs q = [] -> List.length (sq_subs (reserve 1 q)) = 1.
Proof. intros E. destruct (reserve_subs 1 q) as (l & H1 & H2). now rewrite H1, E. Qed.

Lemma rrs_eager C md b r r' : eager_ok C md b -> rrs C md (b, b) r r' ->
  rrs C md (b, b) r (fmap (M:=option) (reserve_up_to_full (c_block C)) r').
Proof.
  intros HE (H1 & H2 & HQ). cbn in *. split; [assumption|]. split; [now destruct r'|].
  destruct HE as [[-> ->]|[-> Hb]].
  - destruct r, r'; try discriminate. cbn. left. split; [reflexivity|]. intros [=].
  - rewrite Hb. destruct HQ as [[<- Hs]|[[[=] _]|(_ & q & -> & Eq & ->)]].
    + destruct r as [q|]; [|left; split; [reflexivity|apply small_none]].
      cbn. pose proof (Hs eq_refl q eq_refl) as Hl. rewrite Hb in Hl.
      assert (List.length (sq_subs q) = 1 \/ sq_subs q = []) as [E|E].
      { destruct (sq_subs q) as [|a []]; cbn in *; auto; lia. }
      * left. split; [|assumption]. now rewrite full_one.
      * right. right. split; [reflexivity|]. exists q. rewrite Hb, full_zero by assumption. auto.
    + right. right. split; [reflexivity|]. exists q. rewrite Hb. cbn. rewrite full_one by now apply reserve_one. auto.
Qed.
Lemma rrs_eager_final C md b r r' : eager_ok C md b -> rrs C md (b, b) r r' ->
  (forall q, r' = Some q -> List.length (sq_subs q) = c_block C) ->
  r' = fmap (M:=option) (reserve_up_to_full (c_block C)) r.
Proof.
  intros HE (H1 & H2 & HQ) HF. cbn in *. destruct HE as [[-> ->]|[-> Hb]].
  - destruct r, r'; try discriminate. reflexivity.
  - rewrite Hb in *. destruct HQ as [[<- Hs]|[[[=] _]|(_ & q & -> & Eq & ->)]].
    + destruct r as [q|]; [|reflexivity]. cbn. rewrite full_one; auto.
    + cbn. rewrite Hb. now rewrite full_zero.
Qed.

Section Loop.
Variable C : code.
Variable n : nat.
Variable md : mode.
Variable P : prog -> Prop.
Hypothesis P_ok : forall p, P p -> mode_ok C md p.
Hypothesis P_ret : forall v, P (Ret v).
Hypothesis C_ok : code_ok P C.
Hypothesis C_id : md = Lazy -> sound_identity C.
(** The frame the loop runs in. *)
Variable f : frame.
Variable fs : list frame.
Notation b := (is_some (f_rng f)).
Hypothesis HE : eager_ok C md b.
(** Whether the loop carries the parameters. *)
Variable bp : bool.

Definition ixl : base := Base (b, b) [] (f_rngs f) (f_rngs f).

Lemma not_loose : md <> Loose.
Proof. destruct HE as [[-> _]|[-> _]]; discriminate. Qed.

Lemma run_both p v w : all_ops P p -> R C md P ixl fs fs v w ->
  exists r v1 w1, run C n p v = (r, v1) /\ run C n p w = (r, w1) /\ R C md P ixl fs fs v1 w1.
Proof.
  intros Hp HR. pose proof (run_sim C md P P_ok P_ret C_ok C_id n p ixl fs fs Hp v w HR) as H. unfold post in H.
  destruct (run C n p v) as [[a|e|] v1].
  - destruct H as (a' & w1 & E & <- & HR'). eauto 10.
  - destruct H as [H|(w1 & E & HR')]; [now destruct not_loose|eauto 10].
  - destruct H as [H|(w1 & E & HR')]; [now destruct not_loose|eauto 10].
Qed.

(** [v]: the Python loop between two iterations; [w], [s]: the JAX loop, its
    carried Haiku state. *)
Record Inv (v w : world) (s : istate) : Prop := {
  i_frames : w_frames w = f :: fs;
  i_R : R C md P ixl fs fs v (set_frames (load s f :: fs) w);
  i_full : full_block C s;
  i_FT : FTT f (load s f);
  i_params : is_some (is_params s) = bp }.

Definition next_state (h : frame) : istate := istate_of bp (top_up C h).

Lemma Inv_top v w s : Inv v w s -> exists g, w_frames v = g :: fs /\ FR C md ixl g (load s f).
Proof.
  intros H. destruct (i_R _ _ _ H) as [_ (g & g' & E & E' & HF)]. exists g. split; [assumption|].
  cbn in E'. now injection E' as <-.
Qed.

Lemma Inv_step p v w s : Inv v w s -> all_ops P p ->
  exists r v1 wh g h g1, w_frames v = g :: fs /\ run C n p v = (r, v1)
    /\ run C n p (set_frames (load s f :: fs) w) = (r, wh)
    /\ w_frames v1 = g1 :: fs /\ w_frames wh = h :: fs
    /\ FR C md ixl g (load s f) /\ FR C md ixl g1 h /\ FTT (load s f) h
    /\ Inv (set_frames (reset bp g g1 :: fs) v1) (set_frames (f :: fs) wh) (next_state h).
Proof.
  intros HI Hp. destruct (Inv_top _ _ _ HI) as (g & Eg & HFg).
  destruct (run_both p _ _ Hp (i_R _ _ _ HI)) as (r & v1 & wh & E1 & E2 & HG & g1 & h & F1 & F2 & HF).
  assert (HFT : FTT (load s f) h).
  { eapply (run_FT C n p (set_frames (load s f :: fs) w)); [reflexivity|exact E2|assumption]. }
  exists r, v1, wh, g, h, g1. repeat (split; [assumption|]).
  assert (HFT2 : FTT (load s f) (top_up C h)) by (eapply FTT_trans; [exact HFT|apply FTT_top_up]).
  assert (HL : load (next_state h) f = reset bp f (top_up C h)) by now apply (load_load bp f s).
  assert (HFf : FTT f (top_up C h)) by (eapply FTT_trans; [apply (i_FT _ _ _ HI)|exact HFT2]).
  split.
  - reflexivity.
  - rewrite HL. split; [exact (GR_frames P v1 wh _ _ HG)|]. do 2 eexists. split; [reflexivity|]. split; [reflexivity|].
    assert (HGf : reset bp g g1 = reset bp f g1).
    { pose proof (fr_scopes _ _ _ _ _ HFg) as Hs. pose proof (fr_params _ _ _ _ _ HFg) as Hps. cbn in Hs, Hps.
      unfold reset. rewrite Hs. pose proof (i_params _ _ _ HI) as Hb. destruct bp; [reflexivity|].
      destruct (is_params s); [discriminate|]. cbn in Hps. now rewrite Hps. }
    rewrite HGf. unfold reset. apply FR_set_scopes.
    assert (HF3 : FR C md ixl g1 (top_up C h)).
    { destruct HF. split; cbn; auto. now apply rrs_eager. }
    destruct bp; [assumption|]. now apply FR_set_params.
  - intros q. cbn. destruct (f_rng h); cbn; [|discriminate]. intros [= <-]. apply full_length.
  - rewrite HL. now apply FTT_reset.
  - cbn. now destruct bp.
Qed.

End Loop.

Lemma Inv_start C md P f fs bp w : w_frames w = f :: fs -> heap_ok P w ->
  eager_ok C md (is_some (f_rng f)) ->
  small C md (f_rng f) ->
  Inv C md P (top_up C f) fs bp w (set_frames (top_up C f :: fs) w) (istate_of bp (top_up C f)).
Proof.
  intros E HI HE Hs. assert (Hb : is_some (f_rng (top_up C f)) = is_some (f_rng f)) by (cbn; now destruct (f_rng f)).
  split.
  - reflexivity.
  - rewrite load_self. split.
    + rewrite <- (set_frames_eq _ _ E) at 1. exact (GR_self P w (f :: fs) (top_up C f :: fs) HI).
    + exists f, (top_up C f). split; [assumption|]. split; [reflexivity|]. split; auto; [|now split].
      unfold ixl. rewrite Hb. apply rrs_eager; [assumption|]. repeat split; auto. now left.
  - intros q. cbn. destruct (f_rng f); cbn; [|discriminate]. intros [= <-]. apply full_length.
  - rewrite load_self. apply FTT_refl.
  - now destruct bp.
Qed.
(** At the end, the JAX loop has what the Python loop has, with the reserve topped up. *)
Lemma Inv_end C md P f fs bp v w s : eager_ok C md (is_some (f_rng f)) ->
  Inv C md P f fs bp v w s -> exists g, w_frames v = g :: fs /\ load s f = top_up C g
   /\ set_frames (load s f :: fs) w = on_top (top_up C) v.
Proof.
  intros HE HI. destruct (Inv_top _ _ _ _ _ _ _ _ _ HI) as (g & Eg & HF). exists g. split; [assumption|].
  assert (HL : load s f = top_up C g).
  { destruct HF as [H1 H2 H3 H4 H5 H6 [H7 H8]]. cbn in *.
    assert (HR : is_rng s = fmap (M:=option) (reserve_up_to_full (c_block C)) (f_rng g)).
    { eapply rrs_eager_final; eauto. apply (i_full _ _ _ _ _ _ _ _ _ HI). }
    unfold load, top_up. destruct g; cbn in *. subst. now rewrite <- HR. }
  split; [assumption|]. rewrite HL. unfold on_top. rewrite Eg.
  destruct (i_R _ _ _ _ _ _ _ _ _ HI) as [HG _]. pose proof (GR_eq _ _ _ HG) as Ew. cbn in Ew.
  transitivity (set_frames (top_up C g :: fs) (set_frames (load s f :: fs) w)); [reflexivity|].
  rewrite Ew. reflexivity.
Qed.

Lemma next_structure C f bp s h : full_block C s -> FTT (load s f) h -> is_some (is_params s) = bp ->
  (same_structure s (next_state C bp h) = true <->
   (bp = true -> map2 skel (f_params h) = map2 skel (f_params (load s f)))
   /\ state_skel (f_state h) = state_skel (f_state (load s f))).
Proof.
  intros Hf HF Hb. unfold same_structure. rewrite !andb_true_iff, !bool_decide_eq_true.
  assert (HR : is_rng (istate_skel s) = is_rng (istate_skel (next_state C bp h))).
  { destruct HF. cbn in *. destruct (is_rng s) as [x|] eqn:E, (f_rng h) as [y|]; cbn in *; try contradiction; auto.
    f_equal. apply skel_seq_len. now rewrite full_length, (Hf x). }
  assert (HP : is_params (istate_skel s) = is_params (istate_skel (next_state C bp h)) <->
    (bp = true -> map2 skel (f_params h) = map2 skel (f_params (load s f)))).
  { cbn. destruct (is_params s) as [p|]; cbn in *; subst bp; cbn.
    - rewrite some_eq. split; [intros ->; auto|intros H; now rewrite H].
    - split; [congruence|reflexivity]. }
  assert (HS : is_state (istate_skel s) = is_state (istate_skel (next_state C bp h)) <->
    state_skel (f_state h) = state_skel (f_state (load s f))).
  { cbn. split; congruence. }
  tauto.
Qed.

(** ** scan *)
Definition scan_out (C : code) (c : val) (s : istate) (p : bundles val) (out : val) (h : frame)
  : res ((val * istate) * val) :=
  match out with
  | VTup [a; y] =>
      if no_new_params p (f_params h) then
        if same_skel c a && same_structure s (next_state C false h) then Ok ((a, next_state C false h), y)
        else Exc ETypeError
      else Exc ENewParams
  | _ => Exc ETypeError
  end.

Lemma scan_step_run C n body c s x w f fs : w_frames w = f :: fs ->
  scan_step C (run C n) body (c, s) x w
  = (let '(r, wh) := run C n (body c x) (set_frames (load s f :: fs) w) in
     (keep_res r (fun out => match w_frames wh with
        | h :: _ => scan_out C c s (f_params (load s f)) out h | [] => Fuel end),
      set_frames (f :: fs) wh)).
Proof.
  intros E. unfold scan_step.
  rewrite (in_temp_run C n (body c x) w f fs s _ (scan_out C c s (f_params (load s f))) E); [reflexivity|].
  intros out v h t Ev. unfold scan_out.
  assert (Hth : forall e, exists h', (Exc e, v) = (@Exc ((val * istate) * val) e, set_frames (h' :: t) v)).
  { intros e. exists h. now rewrite set_frames_eq. }
  unfold as_pair. destruct out as [| | | | | |[|a [|y []]]| | |]; try apply Hth.
  rewrite (bind_Ok (retM (a, y)) _ v (a, y) v eq_refl). rewrite (bind_Ok _ _ _ _ _ (top_eq _ _ _ Ev)).
  change (f_params (temp_frame f s)) with (f_params (load s f)).
  destruct (no_new_params _ _); [|apply Hth].
  rewrite (bind_Ok (retM tt) _ v tt v eq_refl).
  apply (k_reserve C _ (fun h => if same_skel c a && same_structure s (istate_of false h) then Ok ((a, istate_of false h), y)
        else Exc ETypeError) v h t); [|assumption].
  intros v0 h0 t0 E0. exists h0. rewrite (bind_Ok _ _ _ _ _ (internal_eq false _ _ _ E0)). cbn [fst snd].
  rewrite (set_frames_eq _ _ E0). destruct (same_skel _ _ && same_structure _ _); reflexivity.
Qed.

Section ScanLoop.
Variable C : code.
Variable n : nat.
Variable md : mode.
Variable P : prog -> Prop.
Hypothesis P_ok : forall p, P p -> mode_ok C md p.
Hypothesis P_ret : forall v, P (Ret v).
Hypothesis C_ok : code_ok P C.
Hypothesis C_id : md = Lazy -> sound_identity C.
Variable f : frame.
Variable fs : list frame.
Hypothesis HE : eager_ok C md (is_some (f_rng f)).

Lemma scan_loop_iff body : (forall c x, all_ops P (body c x)) -> forall xs c s v w, Inv C md P f fs false v w s ->
  (forall c2 s2 ys w2, lax_scan (scan_step C (run C n) body) (c, s) xs w = (Ok ((c2, s2), ys), w2) ->
     exists v2, py_scan C n body c xs v c2 ys v2 /\ Inv C md P f fs false v2 w2 s2)
  /\ (forall c2 ys v2, py_scan C n body c xs v c2 ys v2 ->
     exists s2 w2, lax_scan (scan_step C (run C n) body) (c, s) xs w = (Ok ((c2, s2), ys), w2)
       /\ Inv C md P f fs false v2 w2 s2).
Proof.
  intros Hb. induction xs as [|x xs IH]; intros c s v w HI; cbn [lax_scan].
  - split.
    + intros c2 s2 ys w2 [= <- <- <- <-]. exists v. split; [constructor|assumption].
    + intros c2 ys v2 H. inversion H; subst. exists s, w. auto.
  - destruct (Inv_step C n md P P_ok P_ret C_ok C_id f fs HE false _ _ _ _ HI (Hb c x))
      as (r & v1 & wh & g & h & g1 & Eg & Er & Er' & Eg1 & Eh & HFg & HFh & HFT & HI').
    pose proof (scan_step_run C n body c s x w f fs (i_frames _ _ _ _ _ _ _ _ _ HI)) as Hst.
    rewrite Er', Eh in Hst.
    assert (Hnext : match w_frames v with
       | f :: _ => on_top (set_params (f_params f)) (next_iteration v v1) | [] => v1 end
       = set_frames (reset false g g1 :: fs) v1).
    { unfold next_iteration. rewrite Eg. unfold on_top at 2. rewrite Eg1. unfold on_top. cbn [w_frames set_frames].
      rewrite set_frames_twice. unfold reset. now destruct g1. }
    assert (Hcond : forall a, same_skel c a && same_structure s (next_state C false h) = true <-> same_shapes v v1 c a).
    { intros a. unfold same_skel, same_shapes. rewrite andb_true_iff, bool_decide_eq_true.
      rewrite (next_structure C f false s h (i_full _ _ _ _ _ _ _ _ _ HI) HFT (i_params _ _ _ _ _ _ _ _ _ HI)).
      unfold top. rewrite Eg, Eg1. cbn [head].
      rewrite (fr_state _ _ _ _ _ HFg), (fr_state _ _ _ _ _ HFh). split.
      - intros (H1 & _ & H2). split; [congruence|]. intros ? ? [= <-] [= <-]. assumption.
      - intros (H1 & H2). split; [congruence|]. split; [discriminate|]. now apply H2. }
    assert (Hnames : no_new_params (f_params (load s f)) (f_params h) = true <-> same_params_names v v1).
    { rewrite no_new_params_spec. unfold same_params_names, top. rewrite Eg, Eg1. cbn [head].
      rewrite (fr_params _ _ _ _ _ HFg), (fr_params _ _ _ _ _ HFh). split.
      - intros H ? ? [= <-] [= <-]. assumption.
      - intros H. now apply H. }
    split.
    + intros c2 s2 ys w2 H. apply bind_ok in H as ([[a s'] y] & w1 & H1 & H2).
      rewrite Hst in H1. injection H1 as H1 <-. destruct r as [out|e|]; try discriminate. cbn in H1.
      unfold scan_out in H1. destruct out as [| | | | | |[|a' [|y' []]]| | |]; try discriminate.
      destruct (no_new_params _ _) eqn:En; [|discriminate].
      destruct (_ && _) eqn:Ec in H1; [|discriminate]. injection H1 as -> <- ->.
      apply bind_ok in H2 as ([[c3 s3] ys'] & w3 & H2 & H3). cbn in H3. injection H3 as <- <- <- <-.
      cbn [fst] in H2. destruct (IH a _ _ _ HI') as [IH1 _]. destruct (IH1 _ _ _ _ H2) as (v2 & Hp & HI2).
      exists v2. split; [|assumption]. econstructor; [exact Er|now apply Hcond|now apply Hnames|].
      rewrite Hnext. exact Hp.
    + intros c2 ys v2 H. inversion H as [|c' x' xs' v' c1 y v1' c2' ys' v2' H1 H2 H3 H4]; subst.
      rewrite Er in H1. injection H1 as -> <-. rewrite Hnext in H4.
      destruct (IH c1 _ _ _ HI') as [_ IH2]. destruct (IH2 _ _ _ H4) as (s2 & w2 & Hl & HI2).
      exists s2, w2. split; [|assumption].
      unfold bindM at 1. rewrite Hst. cbn [keep_res]. unfold scan_out.
      rewrite (proj2 Hnames H3), (proj2 (Hcond c1) H2). cbn [fst snd].
      unfold bindM. now rewrite Hl.
Qed.
End ScanLoop.

Lemma loop_mode C P f : loop_rng_ok C P f -> exists md,
  (forall p, P p -> mode_ok C md p) /\ (md = Lazy -> sound_identity C)
  /\ eager_ok C md (is_some (f_rng f)) /\ small C md (f_rng f).
Proof.
  intros [H|(H1 & H2 & H3 & H4)].
  - exists Strict. rewrite H. repeat split; try discriminate; auto.
    + intros [] _; cbn; auto; discriminate.
    + left. auto.
  - exists Lazy. repeat split; auto.
    + intros p Hp. specialize (H3 p Hp). destruct p; cbn in *; auto; try contradiction; discriminate.
    + apply H1.
    + apply H1.
    + right. auto.
    + intros _ q Hq. rewrite H2. auto.
Qed.

Lemma scan_rest_iff C n (P : prog -> Prop) body c xs rv w f fs c2 ys w' :
  (forall v, P (Ret v)) -> code_ok P C -> heap_ok P w -> (forall c x, all_ops P (body c x)) ->
  w_frames w = f :: fs -> loop_rng_ok C P f ->
  (scan_rest C (run C n) body c xs rv w = (Ok (c2, ys), w') <->
   exists v2, py_scan C n body c (dir rv xs) w c2 (dir rv ys) v2 /\ w' = on_top (top_up C) v2).
Proof.
  intros HPr HC HI Hb E HL. destruct (loop_mode _ _ _ HL) as (md & HP & Hid & HE & Hs).
  pose proof (Inv_start C md P f fs false w E HI HE Hs) as HInv.
  set (f0 := top_up C f) in *. set (w0 := set_frames (f0 :: fs) w) in *.
  assert (HE0 : eager_ok C md (is_some (f_rng f0))).
  { subst f0. cbn. now destruct (f_rng f). }
  destruct (scan_loop_iff C n md P HP HPr HC Hid f0 fs HE0 body Hb (dir rv xs) c _ _ _ HInv) as [H1 H2].
  unfold scan_rest. rewrite (bind_Ok _ _ _ _ _ (reserve_eq C _ _ _ E)). fold f0 w0.
  rewrite (bind_Ok _ _ _ _ _ (internal_eq false w0 f0 fs eq_refl)).
  assert (Hfin : forall v2 w2 s2, Inv C md P f0 fs false v2 w2 s2 ->
     update_internal_state (full_delta s2) w2 = (Ok tt, on_top (top_up C) v2)).
  { intros v2 w2 s2 HI2. rewrite (update_eq _ _ _ _ (i_frames _ _ _ _ _ _ _ _ _ HI2)).
    rewrite commit_full; [|apply (i_FT _ _ _ _ _ _ _ _ _ HI2)|].
    - destruct (Inv_end C md P f0 fs false v2 w2 s2 HE0 HI2) as (g & _ & _ & ->). reflexivity.
    - intros p Hp. pose proof (i_params _ _ _ _ _ _ _ _ _ HI2) as Hpp. rewrite Hp in Hpp. discriminate. }
  assert (Hd : forall r w2, lax_scan_dir rv (scan_step C (run C n) body) (c, istate_of false f0) xs w0 = (Ok r, w2) <->
     lax_scan (scan_step C (run C n) body) (c, istate_of false f0) (dir rv xs) w0 = (Ok (fst r, dir rv (snd r)), w2)).
  { intros [[a s] zs] w2. unfold lax_scan_dir, dir. destruct rv; cbn; [|reflexivity]. unfold bindM.
    destruct (lax_scan _ _ (rev xs) w0) as [[[[a' s'] zs']|e|] w3]; cbn; [|split; discriminate|split; discriminate].
    split.
    - intros [= -> -> <- ->]. now rewrite rev_involutive.
    - intros [= -> -> -> ->]. unfold retM. now rewrite rev_involutive. }
  split.
  - intros H. apply bind_ok in H as ([[c' s2] zs] & w2 & H3 & H4). apply Hd in H3. cbn in H3.
    destruct (H1 _ _ _ _ H3) as (v2 & Hp & HI2).
    rewrite (bind_Ok _ _ _ _ _ (Hfin _ _ _ HI2)) in H4. injection H4 as <- <- <-.
    exists v2. auto.
  - intros (v2 & Hp & ->). destruct (H2 _ _ _ Hp) as (s2 & w2 & Hl & HI2).
    rewrite (bind_Ok _ _ _ ((c2, s2), ys) w2); [|now apply Hd].
    cbn [fst snd]. rewrite (bind_Ok _ _ _ _ _ (Hfin _ _ _ HI2)). reflexivity.
Qed.

(** [hk.scan] while applying. *)
Lemma scan_apply_iff C n (P : prog -> Prop) body c xs z rv w f fs out w' :
  (forall v, P (Ret v)) -> code_ok P C -> heap_ok P w -> (forall c x, all_ops P (body c x)) ->
  w_frames w = f :: fs -> f_frozen f = true -> loop_rng_ok C P f ->
  (run C (S n) (Scan body c xs z rv) w = (Ok out, w') <->
   exists c2 ys v2, py_scan C n body c (dir rv xs) w c2 (dir rv ys) v2
     /\ out = VTup [c2; VTup ys] /\ w' = on_top (top_up C) v2).
Proof.
  intros HPr HC HI Hb E Hz HL. cbn [run step]. unfold scan. rewrite (bind_Ok _ _ _ _ _ (top_eq _ _ _ E)), Hz.
  split.
  - intros H. apply bind_ok in H as ([c2 ys] & w2 & H1 & H2). injection H2 as <- <-.
    apply (scan_rest_iff C n P body c xs rv w f fs) in H1 as (v2 & Hp & ->); auto. eauto 6.
  - intros (c2 & ys & v2 & Hp & -> & ->). unfold bindM.
    rewrite (proj2 (scan_rest_iff C n P body c xs rv w f fs c2 ys _ HPr HC HI Hb E HL) (ex_intro _ v2 (conj Hp eq_refl))).
    reflexivity.
Qed.

Lemma self_R C md P f fs w : w_frames w = f :: fs -> heap_ok P w -> small C md (f_rng f) ->
  R C md P (ixl f) fs fs w w.
Proof.
  intros E HI Hs. split.
  - rewrite <- (set_frames_eq _ _ E). exact (GR_self P w (f :: fs) (f :: fs) HI).
  - exists f, f. split; [assumption|]. split; [assumption|]. split; auto; [|now split].
    repeat split; auto. now left.
Qed.
Lemma run_rng_ok C n (P : prog -> Prop) p w f fs r w1 f1 :
  (forall v, P (Ret v)) -> code_ok P C -> heap_ok P w -> all_ops P p ->
  w_frames w = f :: fs -> loop_rng_ok C P f -> run C n p w = (r, w1) -> w_frames w1 = f1 :: fs ->
  loop_rng_ok C P f1 /\ heap_ok P w1.
Proof.
  intros HPr HC HI Hp E HL H E1. destruct (loop_mode _ _ _ HL) as (md & HP & Hid & HE & Hs).
  destruct (run_both C n md P HP HPr HC Hid f fs HE p w w Hp (self_R C md P f fs w E HI Hs))
    as (r' & v1 & w1' & Er & Er' & HG & g & g' & Eg & Eg' & HF).
  rewrite H in Er, Er'. injection Er as <- <-. injection Er' as <-.
  rewrite E1 in Eg. injection Eg as <-. split; [|apply (r_heap _ _ _ HG)].
  destruct (fr_rng _ _ _ _ _ HF) as (S1 & _ & HQ). cbn in S1.
  destruct HL as [HL|(H1 & H2 & H3 & H4)].
  - left. rewrite HL in S1. now destruct (f_rng f1).
  - destruct HE as [[_ HN]|[-> _]].
    + left. rewrite HN in S1. now destruct (f_rng f1).
    + right. repeat split; auto; try apply H1. intros q Hq. apply rq_small in HQ. rewrite <- H2. now apply HQ.
Qed.

(** [hk.scan] during init, in forward direction. *)
Lemma scan_init_iff C n (P : prog -> Prop) body c x xs z w f fs out w' :
  (forall v, P (Ret v)) -> code_ok P C -> heap_ok P w -> (forall c x, all_ops P (body c x)) ->
  w_frames w = f :: fs -> f_frozen f = false -> loop_rng_ok C P f ->
  (run C (S n) (Scan body c (x :: xs) z false) w = (Ok out, w') <->
   exists c1 y w1 c2 ys v2, run C n (body c x) w = (Ok (VTup [c1; y]), w1)
     /\ py_scan C n body c1 xs w1 c2 ys v2
     /\ out = VTup [c2; VTup (y :: ys)]
     /\ w' = match xs with [] => v2 | _ => on_top (top_up C) v2 end).
Proof.
  intros HPr HC HI Hb E Hz HL. cbn [run step]. unfold scan. rewrite (bind_Ok _ _ _ _ _ (top_eq _ _ _ E)), Hz.
  split.
  - intros H. apply bind_ok in H as (r & w1 & H1 & H2). apply bind_ok in H2 as ([c1 y] & w2 & H2 & H3).
    assert (r = VTup [c1; y] /\ w2 = w1) as [-> ->].
    { unfold as_pair in H2. destruct r as [| | | | | |[|a [|b' []]]| | |]; try discriminate. injection H2 as <- <- <-. auto. }
    destruct (run_frames _ _ _ _ _ _ _ _ E H1) as (f1 & E1 & _).
    destruct (run_rng_ok C n P _ w f fs _ w1 f1 HPr HC HI (Hb c x) E HL H1 E1) as [HL1 HI1].
    destruct xs as [|x1 xs].
    + injection H3 as <- <-. exists c1, y, w1, c1, [], w1. repeat split; auto. constructor.
    + apply bind_ok in H3 as ([c2 ys] & w3 & H3 & H4). injection H4 as <- <-.
      apply (scan_rest_iff C n P body c1 (x1 :: xs) false w1 f1 fs) in H3 as (v2 & Hp & ->); auto.
      exists c1, y, w1, c2, ys, v2. auto.
  - intros (c1 & y & w1 & c2 & ys & v2 & H1 & Hp & -> & ->).
    rewrite (bind_Ok _ _ _ _ _ H1). cbn [as_pair]. rewrite (bind_Ok (retM (c1, y)) _ w1 (c1, y) w1 eq_refl).
    destruct (run_frames _ _ _ _ _ _ _ _ E H1) as (f1 & E1 & _).
    destruct (run_rng_ok C n P _ w f fs _ w1 f1 HPr HC HI (Hb c x) E HL H1 E1) as [HL1 HI1].
    destruct xs as [|x1 xs].
    + inversion Hp; subst. reflexivity.
    + cbn [fst snd]. unfold bindM. rewrite (proj2 (scan_rest_iff C n P body c1 (x1 :: xs) false w1 f1 fs c2 ys _ HPr HC HI1 Hb E1 HL1)
         (ex_intro _ v2 (conj Hp eq_refl))). reflexivity.
Qed.

(** ** fori_loop *)
Definition fori_out (C : code) (v : val) (s : istate) (out : val) (h : frame) : res (istate * val) :=
  if same_skel v out && same_structure s (next_state C true h) then Ok (next_state C true h, out) else Exc ETypeError.

Lemma fori_step_run C n body i v s w f fs : w_frames w = f :: fs ->
  fori_step C (run C n) body i (s, v) w
  = (let '(r, wh) := run C n (body i v) (set_frames (load s f :: fs) w) in
     (keep_res r (fun out => match w_frames wh with h :: _ => fori_out C v s out h | [] => Fuel end),
      set_frames (f :: fs) wh)).
Proof.
  intros E. unfold fori_step.
  rewrite (in_temp_run' C n (body i v) w f fs s _ (fori_out C v s) E); [reflexivity|].
  intros out u h t Eu. unfold fori_out.
  apply (k_reserve C _ (fun h => if same_skel v out && same_structure s (istate_of true h) then Ok (istate_of true h, out)
        else Exc ETypeError) u h t); [|assumption].
  intros v0 h0 t0 E0. exists h0. rewrite (bind_Ok _ _ _ _ _ (internal_eq true _ _ _ E0)).
  rewrite (set_frames_eq _ _ E0). destruct (same_skel _ _ && same_structure _ _); reflexivity.
Qed.

Section ForiLoop.
Variable C : code.
Variable n : nat.
Variable md : mode.
Variable P : prog -> Prop.
Hypothesis P_ok : forall p, P p -> mode_ok C md p.
Hypothesis P_ret : forall v, P (Ret v).
Hypothesis C_ok : code_ok P C.
Hypothesis C_id : md = Lazy -> sound_identity C.
Variable f : frame.
Variable fs : list frame.
Hypothesis HE : eager_ok C md (is_some (f_rng f)).

(** The parameters keep their shape from the start of the loop. *)
Definition pshape (s : istate) : Prop := map2 skel (f_params (load s f)) = map2 skel (f_params f).

Lemma fori_loop_iff body : (forall i v, all_ops P (body i v)) -> forall k i x s v w, Inv C md P f fs true v w s -> pshape s ->
  (forall x2 s2 w2, lax_fori (fori_step C (run C n) body) k i (s, x) w = (Ok (s2, x2), w2) ->
     exists v2, py_fori C n body i k x v x2 v2 /\ Inv C md P f fs true v2 w2 s2 /\ pshape s2)
  /\ (forall x2 v2, py_fori C n body i k x v x2 v2 ->
     exists s2 w2, lax_fori (fori_step C (run C n) body) k i (s, x) w = (Ok (s2, x2), w2)
       /\ Inv C md P f fs true v2 w2 s2 /\ pshape s2).
Proof.
  intros Hb. induction k as [|k IH]; intros i x s v w HI Hps; cbn [lax_fori].
  - split.
    + intros x2 s2 w2 [= <- <- <-]. exists v. split; [constructor|auto].
    + intros x2 v2 H. inversion H; subst. exists s, w. auto.
  - destruct (Inv_step C n md P P_ok P_ret C_ok C_id f fs HE true _ _ _ _ HI (Hb i x))
      as (r & v1 & wh & g & h & g1 & Eg & Er & Er' & Eg1 & Eh & HFg & HFh & HFT & HI').
    pose proof (fori_step_run C n body i x s w f fs (i_frames _ _ _ _ _ _ _ _ _ HI)) as Hst.
    rewrite Er', Eh in Hst.
    assert (Hnext : next_iteration v v1 = set_frames (reset true g g1 :: fs) v1).
    { unfold next_iteration. rewrite Eg. unfold on_top. now rewrite Eg1. }
    assert (Hcond : forall a, same_skel x a && same_structure s (next_state C true h) = true <->
        same_shapes v v1 x a /\ same_params_shape v v1).
    { intros a. unfold same_skel, same_shapes, same_params_shape. rewrite andb_true_iff, bool_decide_eq_true.
      rewrite (next_structure C f true s h (i_full _ _ _ _ _ _ _ _ _ HI) HFT (i_params _ _ _ _ _ _ _ _ _ HI)).
      unfold top. rewrite Eg, Eg1. cbn [head].
      rewrite (fr_state _ _ _ _ _ HFg), (fr_state _ _ _ _ _ HFh), (fr_params _ _ _ _ _ HFg), (fr_params _ _ _ _ _ HFh). split.
      - intros (H1 & H3 & H2). split; [split; [congruence|]|]; intros ? ? [= <-] [= <-]; auto.
      - intros ((H1 & H2) & H3). split; [congruence|]. split; [intros _; now apply H3|]. now apply H2. }
    assert (Hps' : same_params_shape v v1 -> pshape (next_state C true h)).
    { unfold same_params_shape, top. rewrite Eg, Eg1. cbn [head]. intros H. specialize (H _ _ eq_refl eq_refl).
      unfold pshape in *. rewrite <- Hps. cbn [load next_state istate_of is_params default f_params top_up set_rng].
      pose proof (fr_params _ _ _ _ _ HFh) as E1. pose proof (fr_params _ _ _ _ _ HFg) as E2.
      cbn in E2. cbn. rewrite E1, H. now rewrite <- E2. }
    split.
    + intros x2 s2 w2 H. apply bind_ok in H as ([s' a] & w1 & H1 & H2).
      rewrite Hst in H1. injection H1 as H1 <-. destruct r as [out|e|]; try discriminate. cbn in H1.
      unfold fori_out in H1. destruct (_ && _) eqn:Ec in H1; [|discriminate]. injection H1 as <- <-.
      apply Hcond in Ec as [Hc1 Hc2].
      destruct (IH (i + 1)%Z out _ _ _ HI' (Hps' Hc2)) as [IH1 _]. destruct (IH1 _ _ _ H2) as (v2 & Hp & HI2).
      exists v2. split; [|assumption]. econstructor; [exact Er|exact Hc1|exact Hc2|].
      rewrite Hnext. exact Hp.
    + intros x2 v2 H. inversion H as [|i' k' x' v' x1 v1' x2' v2' H1 H2 H3 H4]; subst.
      rewrite Er in H1. injection H1 as -> <-. rewrite Hnext in H4.
      destruct (IH (i + 1)%Z x1 _ _ _ HI' (Hps' H3)) as [_ IH2]. destruct (IH2 _ _ H4) as (s2 & w2 & Hl & HI2).
      exists s2, w2. split; [|assumption].
      unfold bindM at 1. rewrite Hst. cbn [keep_res]. unfold fori_out.
      rewrite (proj2 (Hcond x1) (conj H2 H3)). exact Hl.
Qed.
End ForiLoop.

Lemma fori_rest_iff C n (P : prog -> Prop) body lo hi v w f fs v2 w' :
  (forall v, P (Ret v)) -> code_ok P C -> heap_ok P w -> (forall i x, all_ops P (body i x)) ->
  w_frames w = f :: fs -> loop_rng_ok C P f ->
  (fori_rest C (run C n) lo hi body v w = (Ok v2, w') <->
   exists w2, py_fori C n body lo (Z.to_nat (hi - lo)) v w v2 w2 /\ w' = on_top (top_up C) w2).
Proof.
  intros HPr HC HI Hb E HL. destruct (loop_mode _ _ _ HL) as (md & HP & Hid & HE & Hs).
  pose proof (Inv_start C md P f fs true w E HI HE Hs) as HInv.
  set (f0 := top_up C f) in *. set (w0 := set_frames (f0 :: fs) w) in *.
  assert (HE0 : eager_ok C md (is_some (f_rng f0))).
  { subst f0. cbn. now destruct (f_rng f). }
  assert (Hps : pshape f0 (istate_of true f0)) by (unfold pshape; now rewrite load_self).
  destruct (fori_loop_iff C n md P HP HPr HC Hid f0 fs HE0 body Hb (Z.to_nat (hi - lo)) lo v _ _ _ HInv Hps) as [H1 H2].
  unfold fori_rest. rewrite (bind_Ok _ _ _ _ _ (reserve_eq C _ _ _ E)). fold f0 w0.
  rewrite (bind_Ok _ _ _ _ _ (internal_eq true w0 f0 fs eq_refl)).
  assert (Hfin : forall v2 w2 s2, Inv C md P f0 fs true v2 w2 s2 -> pshape f0 s2 ->
     update_internal_state (full_delta s2) w2 = (Ok tt, on_top (top_up C) v2)).
  { intros u2 w2 s2 HI2 Hps2. rewrite (update_eq _ _ _ _ (i_frames _ _ _ _ _ _ _ _ _ HI2)).
    rewrite commit_full; [|apply (i_FT _ _ _ _ _ _ _ _ _ HI2)|].
    - destruct (Inv_end C md P f0 fs true u2 w2 s2 HE0 HI2) as (g & _ & _ & ->). reflexivity.
    - intros p Hp _. apply same_skel_none. unfold pshape in Hps2. cbn in Hps2. now rewrite Hp in Hps2. }
  split.
  - intros H. apply bind_ok in H as ([s2 x2] & w2 & H3 & H4).
    destruct (H1 _ _ _ H3) as (u2 & Hp & HI2 & Hps2).
    rewrite (bind_Ok _ _ _ _ _ (Hfin _ _ _ HI2 Hps2)) in H4. injection H4 as <- <-. eauto.
  - intros (u2 & Hp & ->). destruct (H2 _ _ Hp) as (s2 & w2 & Hl & HI2 & Hps2).
    rewrite (bind_Ok _ _ _ _ _ Hl). cbn [fst snd]. rewrite (bind_Ok _ _ _ _ _ (Hfin _ _ _ HI2 Hps2)). reflexivity.
Qed.

Lemma fori_apply_iff C n (P : prog -> Prop) body lo hi v w f fs v2 w' :
  (forall v, P (Ret v)) -> code_ok P C -> heap_ok P w -> (forall i x, all_ops P (body i x)) ->
  w_frames w = f :: fs -> f_frozen f = true -> loop_rng_ok C P f ->
  (run C (S n) (Fori lo hi body v) w = (Ok v2, w') <->
   exists w2, py_fori C n body lo (Z.to_nat (hi - lo)) v w v2 w2 /\ w' = on_top (top_up C) w2).
Proof.
  intros HPr HC HI Hb E Hz HL. cbn [run step]. unfold fori_loop.
  rewrite (bind_Ok _ _ _ _ _ (top_eq _ _ _ E)), Hz. now apply (fori_rest_iff C n P body lo hi v w f fs).
Qed.
Lemma fori_init_iff C n (P : prog -> Prop) body lo hi v w f fs v2 w' :
  (forall v, P (Ret v)) -> code_ok P C -> heap_ok P w -> (forall i x, all_ops P (body i x)) ->
  w_frames w = f :: fs -> f_frozen f = false -> loop_rng_ok C P f ->
  (run C (S n) (Fori lo hi body v) w = (Ok v2, w') <->
   exists v1 w1 w2, run C n (body lo v) w = (Ok v1, w1)
     /\ py_fori C n body (lo + 1) (Z.to_nat (hi - (lo + 1))) v1 w1 v2 w2
     /\ w' = if (hi - (lo + 1) =? 0)%Z then w2 else on_top (top_up C) w2).
Proof.
  intros HPr HC HI Hb E Hz HL. cbn [run step]. unfold fori_loop.
  rewrite (bind_Ok _ _ _ _ _ (top_eq _ _ _ E)), Hz.
  split.
  - intros H. apply bind_ok in H as (v1 & w1 & H1 & H2).
    destruct (run_frames _ _ _ _ _ _ _ _ E H1) as (f1 & E1 & _).
    destruct (run_rng_ok C n P _ w f fs _ w1 f1 HPr HC HI (Hb lo v) E HL H1 E1) as [HL1 HI1].
    destruct (Z.eqb_spec (hi - (lo + 1)) 0) as [E0|E0].
    + injection H2 as <- <-. exists v1, w1, w1. split; [assumption|]. rewrite E0. split; [constructor|reflexivity].
    + apply (fori_rest_iff C n P body (lo + 1) hi v1 w1 f1 fs) in H2 as (w2 & Hp & ->); auto. eauto 8.
  - intros (v1 & w1 & w2 & H1 & Hp & ->). rewrite (bind_Ok _ _ _ _ _ H1).
    destruct (run_frames _ _ _ _ _ _ _ _ E H1) as (f1 & E1 & _).
    destruct (run_rng_ok C n P _ w f fs _ w1 f1 HPr HC HI (Hb lo v) E HL H1 E1) as [HL1 HI1].
    destruct (Z.eqb_spec (hi - (lo + 1)) 0) as [E0|E0].
    + rewrite E0 in Hp. inversion Hp; subst. reflexivity.
    + apply (fori_rest_iff C n P body (lo + 1) hi v1 w1 f1 fs); eauto.
Qed.

(** ** while_loop *)
Definition while_out (v : val) (s : istate) (out : val) (h : frame) : res (val * istate) :=
  if same_skel v out && same_structure s (istate_of true h) then Ok (out, istate_of true h) else Exc ETypeError.
Lemma while_step_run C n body v s w f fs : w_frames w = f :: fs ->
  while_step (run C n) body (v, s) w
  = (let '(r, wh) := run C n (body v) (set_frames (load s f :: fs) w) in
     (keep_res r (fun out => match w_frames wh with h :: _ => while_out v s out h | [] => Fuel end),
      set_frames (f :: fs) wh)).
Proof.
  intros E. unfold while_step.
  rewrite (in_temp_run' C n (body v) w f fs s _ (while_out v s) E); [reflexivity|].
  intros out u h t Eu. exists h. rewrite (bind_Ok _ _ _ _ _ (internal_eq true _ _ _ Eu)), (set_frames_eq _ _ Eu).
  unfold while_out. destruct (same_skel _ _ && same_structure _ _); reflexivity.
Qed.
Lemma skel_reserved (a b : option rngseq) :
  fmap (M:=option) (fun q => Seq (Seed 0) (List.map (fun _ => Seed 0) (sq_subs q)) []) a
  = fmap (M:=option) (fun q => Seq (Seed 0) (List.map (fun _ => Seed 0) (sq_subs q)) []) b
  <-> reserved a = reserved b.
Proof.
  unfold reserved. destruct a as [a|], b as [b|]; cbn; try (split; congruence). split.
  - intros [= H]. f_equal. apply (f_equal (List.length (A:=key))) in H. now rewrite !map_length in H.
  - intros [= H]. f_equal. now apply skel_seq_len.
Qed.

Section WhileLoop.
Variable C : code.
Variable n : nat.
Variable f : frame.
Variable fs : list frame.
Hypothesis Hz : f_frozen f = true.
Variable c : val -> prog.
Variable t : val -> bool.
Variable body : val -> prog.
Hypothesis Hc : pure_cond C n c t.

Lemma no_new_entries_refl {A} `{EqDecision A} (b : bundles A) : no_new_entries b b = true.
Proof.
  unfold no_new_entries. apply forallb_forall. intros [k x] Hk. apply forallb_forall. intros [m v] Hm.
  apply bool_decide_eq_true. apply elem_of_list_In, elem_of_map_to_list in Hk, Hm. unfold lookup2. rewrite Hk. exact Hm.
Qed.
Lemma no_new_keys_refl r : no_new_keys r r = true.
Proof.
  unfold no_new_keys. destruct r as [s|]; [|reflexivity]. apply forallb_forall. intros k Hk.
  apply bool_decide_eq_true. now apply elem_of_list_In.
Qed.
Lemma while_cond_eq v w : w_frames w = f :: fs ->
  (modify (on_top (set_rng (f_rng f))) ;;; while_cond (run C n) c v) w = (Ok (t v), w).
Proof.
  intros E. assert (Em : modify (on_top (set_rng (f_rng f))) w = (Ok tt, w)).
  { unfold modify, on_top. rewrite E. f_equal. replace (set_rng (f_rng f) f) with f by now destruct f.
    now apply set_frames_eq. }
  rewrite (bind_Ok _ _ _ _ _ Em). unfold while_cond.
  rewrite (bind_Ok _ _ _ _ _ (top_eq _ _ _ E)).
  rewrite (bind_Ok _ _ _ _ _ (Hc v w ltac:(congruence))).
  rewrite (bind_Ok _ _ _ _ _ (top_eq _ _ _ E)).
  now rewrite !no_new_entries_refl, no_new_keys_refl.
Qed.

Record WInv (v w : world) (s : istate) : Prop := {
  wi_frames : w_frames w = f :: fs;
  wi_eq : v = set_frames (load s f :: fs) w;
  wi_FT : FTT f (load s f);
  wi_params : is_some (is_params s) = true }.

Let lax m := lax_while m (fun vs : val * istate => modify (on_top (set_rng (f_rng f))) ;;; while_cond (run C n) c (fst vs))
  (while_step (run C n) body).

Lemma while_loop_iff : forall m x s v w, WInv v w s ->
  (forall x2 s2 w2, lax m (x, s) w = (Ok (x2, s2), w2) ->
     exists k v2, k < m /\ py_while C n t body k x v x2 v2 /\ WInv v2 w2 s2)
  /\ (forall k x2 v2, k < m -> py_while C n t body k x v x2 v2 ->
     exists s2 w2, lax m (x, s) w = (Ok (x2, s2), w2) /\ WInv v2 w2 s2).
Proof.
  induction m as [|m IH]; intros x s v w HI; subst lax; cbn [lax_while].
  { split; [discriminate|intros; lia]. }
  pose proof (while_cond_eq x w (wi_frames _ _ _ HI)) as Hcond.
  pose proof (while_step_run C n body x s w f fs (wi_frames _ _ _ HI)) as Hst.
  rewrite <- (wi_eq _ _ _ HI) in Hst.
  assert (Ev : w_frames v = load s f :: fs) by (rewrite (wi_eq _ _ _ HI); reflexivity).
  destruct (run C n (body x) v) as [r v1] eqn:Er.
  destruct (run_frames _ _ _ _ _ _ _ _ Ev Er) as (h & Eh & HFT). rewrite Eh in Hst.
  assert (HFf : FTT f h) by (eapply FTT_trans; [apply (wi_FT _ _ _ HI)|exact HFT]).
  assert (HI' : WInv (next_iteration v v1) (set_frames (f :: fs) v1) (istate_of true h)).
  { split; [reflexivity| | |reflexivity].
    - unfold next_iteration, on_top. rewrite Ev, Eh. now rewrite (load_reset true f h HFf).
    - rewrite (load_reset true f h HFf). now apply FTT_reset. }
  assert (Hsh : forall a, same_skel x a && same_structure s (istate_of true h) = true <->
     same_shapes v v1 x a /\ (forall f f1, top v = Some f -> top v1 = Some f1 -> reserved (f_rng f1) = reserved (f_rng f))).
  { intros a. unfold same_skel, same_structure, same_shapes, top. rewrite Ev, Eh. cbn [head].
    rewrite !andb_true_iff, !bool_decide_eq_true. unfold istate_skel, istate_of.
    cbn [is_params is_state is_rng load f_params f_state f_rng]. rewrite skel_reserved.
    assert (HP : fmap (M:=option) (map2 skel) (is_params s) = fmap (M:=option) (map2 skel) (Some (f_params h))).
    { pose proof (wi_params _ _ _ HI) as Hps. destruct (is_params s) as [p|] eqn:Ep; [|discriminate].
      destruct HFT. cbn. f_equal. rewrite (ft_frozen_params Hz). cbn. now rewrite Ep. }
    split.
    - intros (H1 & (_ & H2) & H3). split; [split; [congruence|]|]; intros ? ? [= <-] [= <-]; symmetry; assumption.
    - intros ((H1 & H2) & H3). specialize (H2 _ _ eq_refl eq_refl). specialize (H3 _ _ eq_refl eq_refl).
      cbn [load f_state f_rng] in H2, H3.
      split; [congruence|]. split; [split; [exact HP|congruence]|congruence]. }
  split.
  - intros x2 s2 w2 H. rewrite (bind_Ok _ _ _ _ _ Hcond) in H. destruct (t x) eqn:Et.
    + apply bind_ok in H as ([a s'] & w1 & H1 & H2).
      rewrite Hst in H1. injection H1 as H1 <-. destruct r as [out|e|]; try discriminate. cbn in H1.
      unfold while_out in H1. destruct (_ && _) eqn:Ec in H1; [|discriminate]. injection H1 as <- <-.
      apply Hsh in Ec as [Hc1 Hc2]. destruct (IH out _ _ _ HI') as [IH1 _].
      destruct (IH1 _ _ _ H2) as (k & v2 & Hk & Hp & HI2).
      exists (S k), v2. split; [lia|]. split; [|assumption]. econstructor; eauto.
    + injection H as <- <- <-. exists 0, v. split; [lia|]. split; [now constructor|assumption].
  - intros k x2 v2 Hk H. rewrite (bind_Ok _ _ _ _ _ Hcond).
    inversion H as [? ? Ht|k' x' v' x1 v1' x2' v2' Ht H1 H2 H3 H4]; subst; rewrite Ht.
    + exists s, w. auto.
    + rewrite Er in H1. injection H1 as -> <-.
      destruct (IH x1 _ _ _ HI') as [_ IH2]. destruct (IH2 k' x2 v2 ltac:(lia) H4) as (s2 & w2 & Hl & HI2).
      exists s2, w2. split; [|assumption].
      unfold bindM at 1. rewrite Hst. cbn [keep_res]. unfold while_out. now rewrite (proj2 (Hsh x1) (conj H2 H3)).
Qed.
End WhileLoop.

Lemma while_iff C n c t body v w f fs v2 w' : pure_cond C n c t -> w_frames w = f :: fs -> f_frozen f = true ->
  (run C (S n) (While c body v) w = (Ok v2, w') <-> exists k, k < n /\ py_while C n t body k v w v2 w').
Proof.
  intros Hc E Hz. cbn [run step]. unfold while_loop. rewrite (bind_Ok _ _ _ _ _ (top_eq _ _ _ E)), Hz. cbn [negb].
  rewrite (bind_Ok _ _ _ _ _ (internal_eq true _ _ _ E)).
  assert (HI : WInv f fs w w (istate_of true f)).
  { split; [assumption| | |reflexivity]; rewrite load_self; [now rewrite set_frames_eq|apply FTT_refl]. }
  destruct (while_loop_iff C n f fs Hz c t body Hc n v _ _ _ HI) as [H1 H2].
  assert (Hfin : forall v2 w2 s2, WInv f fs v2 w2 s2 ->
     update_internal_state (full_delta (add_log (f_rng f) (f_rng f) s2)) w2 = (Ok tt, v2)).
  { intros u2 w2 s2 HI2. rewrite (update_eq _ _ _ _ (wi_frames _ _ _ _ _ HI2)).
    assert (add_log (f_rng f) (f_rng f) s2 = s2) as ->.
    { unfold add_log. destruct (f_rng f); [|reflexivity]. destruct s2 as [p s [[k l lg]|]]; cbn; [|reflexivity].
      now rewrite Nat.sub_diag. }
    rewrite commit_full; [|apply (wi_FT _ _ _ _ _ HI2)|intros; congruence].
    now rewrite (wi_eq _ _ _ _ _ HI2). }
  split.
  - intros H. apply bind_ok in H as ([x2 s2] & w2 & H3 & H4). destruct (H1 _ _ _ H3) as (k & u2 & Hk & Hp & HI2).
    rewrite (bind_Ok _ _ _ _ _ (top_eq _ _ _ (wi_frames _ _ _ _ _ HI2))) in H4. cbn [fst snd] in H4.
    rewrite (bind_Ok _ _ _ _ _ (Hfin _ _ _ HI2)) in H4. injection H4 as <- <-. eauto.
  - intros (k & Hk & Hp). destruct (H2 _ _ _ Hk Hp) as (s2 & w2 & Hl & HI2).
    rewrite (bind_Ok _ _ _ _ _ Hl).
    rewrite (bind_Ok _ _ _ _ _ (top_eq _ _ _ (wi_frames _ _ _ _ _ HI2))). cbn [fst snd].
    rewrite (bind_Ok _ _ _ _ _ (Hfin _ _ _ HI2)). reflexivity.
Qed.

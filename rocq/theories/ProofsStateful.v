(** What the stateful JAX wrappers do, in terms of plain runs. *)
From stdpp Require Import gmap list strings.
From Coq Require Import String Ascii ZArith Lia.
From Verif Require Import ModelStr ModelRng ModelCore SpecCore SpecStateful ProofsStr ProofsMap ProofsNames ProofsRng ProofsEvolve ProofsRun ProofsOps ProofsModule ProofsSim ProofsGraft.
Local Open Scope string_scope.
Local Open Scope list_scope.
Local Arguments update_recursive : simpl never.
Local Arguments map2 : simpl never.
Local Arguments multimap : simpl never.

Lemma internal_eq b w f fs : w_frames w = f :: fs -> internal_state b w = (Ok (istate_of b f), w).
Proof. intros E. unfold internal_state, bindM, top_frame. rewrite E. now destruct b. Qed.
Lemma top_eq w f fs : w_frames w = f :: fs -> top_frame w = (Ok f, w).
Proof. intros E. unfold top_frame. now rewrite E. Qed.
Lemma bind_Ok {A B} (m : M A) (k : A -> M B) w a w1 : m w = (Ok a, w1) -> bindM m k w = k a w1.
Proof. intros E. unfold bindM. now rewrite E. Qed.
Lemma update_eq d w f fs : w_frames w = f :: fs -> update_internal_state d w = (Ok tt, set_frames (apply_delta d f :: fs) w).
Proof. intros E. unfold update_internal_state, modify, on_top. now rewrite E. Qed.
Lemma reserve_eq C w f fs : w_frames w = f :: fs -> reserve_block C w = (Ok tt, set_frames (top_up C f :: fs) w).
Proof. intros E. rewrite (reserve_block_eq C w f fs E). unfold on_top. now rewrite E. Qed.

Lemma run_frames C n p w f fs r w1 : w_frames w = f :: fs -> run C n p w = (r, w1) ->
  exists f1, w_frames w1 = f1 :: fs /\ FTT f f1.
Proof.
  intros E H. pose proof H as H'. rewrite <- (set_frames_eq (f :: fs) w E) in H'.
  destruct (run_nested C n p w f fs fs r w1 H') as (f1 & E1 & _). exists f1. split; [assumption|]. eauto using run_FT.
Qed.

(** Running in a temporary frame, equationally. *)
Lemma in_temp_run {A} C n p w f fs s (k : frame -> val -> M A) (y : val -> frame -> res A) :
  w_frames w = f :: fs ->
  (forall out v h t, w_frames v = h :: t -> exists h', k (temp_frame f s) out v = (y out h, set_frames (h' :: t) v)) ->
  in_temp s (let! f0 := top_frame in let! out := run C n p in k f0 out) w
  = (let '(r, w1) := run C n p (set_frames (load s f :: fs) w) in
     (keep_res r (fun out => match w_frames w1 with f1 :: _ => y out (with_rngs (f_rng f :: f_rngs f) f1) | [] => Fuel end),
      set_frames (f :: fs) w1)).
Proof.
  intros E Hk.
  assert (Hin : in_temp s (let! f0 := top_frame in let! out := run C n p in k f0 out) w
     = in_temp s (let! out := run C n p in k (temp_frame f s) out) w).
  { unfold in_temp. rewrite !(bind_Ok _ _ _ _ _ (top_eq _ _ _ E)). unfold bindM at 1 3. unfold in_frame.
    unfold bindM at 1, top_frame at 1. cbn [w_frames set_frames]. reflexivity. }
  rewrite Hin.
  destruct (run C n p (set_frames (load s f :: fs) w)) as [r w1] eqn:Er.
  destruct (in_temp_spec C n p w f fs s (k (temp_frame f s)) y r w1 Hk E Er) as (f1 & E1 & ->).
  now rewrite E1.
Qed.
Lemma in_temp_run' {A} C n p w f fs s (k : val -> M A) (y : val -> frame -> res A) :
  w_frames w = f :: fs ->
  (forall out v h t, w_frames v = h :: t -> exists h', k out v = (y out h, set_frames (h' :: t) v)) ->
  in_temp s (let! out := run C n p in k out) w
  = (let '(r, w1) := run C n p (set_frames (load s f :: fs) w) in
     (keep_res r (fun out => match w_frames w1 with f1 :: _ => y out (with_rngs (f_rng f :: f_rngs f) f1) | [] => Fuel end),
      set_frames (f :: fs) w1)).
Proof.
  intros E Hk. destruct (run C n p (set_frames (load s f :: fs) w)) as [r w1] eqn:Er.
  destruct (in_temp_spec C n p w f fs s k y r w1 Hk E Er) as (f1 & E1 & ->). now rewrite E1.
Qed.

(** Putting contents back into a frame. *)
Definition reset (b : bool) (f g : frame) : frame :=
  set_scopes (f_scopes f) (if b then g else set_params (f_params f) g).
Lemma load_reset b f f1 : FTT f f1 -> load (istate_of b f1) f = reset b f f1.
Proof. intros []. destruct b, f, f1; cbn in *; now subst. Qed.
Lemma load_load b f s f1 : FTT (load s f) f1 -> load (istate_of b f1) f = reset b f f1.
Proof. intros []. destruct b, f, f1, s; cbn in *; now subst. Qed.
Lemma rng_rel_full b r : rng_rel r (fmap (M:=option) (reserve_up_to_full b) r).
Proof. destruct r as [q|]; cbn; [|exact Logic.I]. intros k. apply below_full. Qed.
Lemma FTT_refl f : FTT f f.
Proof. apply FT_refl. intros [q|]; cbn; auto. Qed.
Lemma FTT_trans a b c : FTT a b -> FTT b c -> FTT a c.
Proof. apply FT_trans. intros [x|] [y|] [z|]; cbn; tauto || auto. Qed.
Lemma FTT_top_up C f : FTT f (top_up C f).
Proof. apply FT_set_rng; [intros [q|]; cbn; auto|apply rng_rel_full]. Qed.
Lemma FTT_reset b f g : FTT f g -> FTT f (reset b f g).
Proof.
  intros H. destruct b; cbn.
  - apply FT_scopes; [assumption|apply scopes_refl].
  - destruct H. split; cbn; auto using PT_refl. apply scopes_refl.
Qed.

(** ** eval_shape *)
Lemma bind_retM {A} (m : M A) w : bindM m retM w = m w.
Proof. unfold bindM. destruct (m w) as [[|?|] ?]; reflexivity. Qed.
Lemma in_temp_ext {A} s (m m' : M A) w : (forall v, m v = m' v) -> in_temp s m w = in_temp s m' w.
Proof.
  intros H. unfold in_temp, bindM. destruct (top_frame w) as [[f|e|] w1]; try reflexivity.
  unfold in_frame. now rewrite H.
Qed.
Lemma eval_shape_run C n p w f fs r w1 : w_frames w = f :: fs -> run C n p w = (r, w1) ->
  run C (S n) (EvalShape p) w = (keep_res r (fun v => Ok (skel v)), set_frames (w_frames w) w1).
Proof.
  intros E H. cbn [run step]. unfold eval_shape. rewrite (bind_Ok _ _ _ _ _ (internal_eq true _ _ _ E)).
  unfold bindM.
  rewrite <- (in_temp_ext _ (let! out := run C n p in retM out)) by (intros; apply bind_retM).
  rewrite (in_temp_run' C n p w f fs _ _ (fun out _ => Ok out) E).
  - rewrite load_self, (set_frames_eq _ _ E), H. destruct (run_frames _ _ _ _ _ _ _ _ E H) as (f1 & E1 & _).
    rewrite E1, E. now destruct r.
  - intros out v h t Ev. exists h. unfold retM. now rewrite set_frames_eq.
Qed.

(** ** cond and switch *)
Definition branch_state (C : code) (f1 : frame) : istate := istate_of true (top_up C f1).

Lemma branch_run C n b w f fs : w_frames w = f :: fs ->
  stateful_branch C (run C n) (istate_of true f) b w
  = (let '(r, w1) := run C n b w in
     (keep_res r (fun out => match w_frames w1 with f1 :: _ => Ok (out, branch_state C f1) | [] => Fuel end),
      set_frames (f :: fs) w1)).
Proof.
  intros E. unfold stateful_branch.
  rewrite (in_temp_run' C n b w f fs (istate_of true f) _ (fun out h => Ok (out, branch_state C h)) E).
  - rewrite load_self, (set_frames_eq _ _ E). destruct (run C n b w) as [r w1] eqn:Er.
    destruct (run_frames _ _ _ _ _ _ _ _ E Er) as (f1 & E1 & _). now rewrite E1.
  - intros out v h t Ev.
    apply (k_reserve C (let! s' := internal_state true in retM (out, s')) (fun h => Ok (out, istate_of true h)) v h t); [|assumption].
    intros v0 h0 t0 E0. exact (k_internal true (fun s => (out, s)) v0 h0 t0 E0).
Qed.

Lemma branches_iff C n bs : forall w f fs rs w2, w_frames w = f :: fs ->
  (run_branches C (run C n) (istate_of true f) bs w = (Ok rs, w2) <->
   exists l, traced C n bs w l w2 /\ rs = List.map (fun r => (fst r, branch_state C (snd r))) l).
Proof.
  induction bs as [|b bs IH]; intros w f fs rs w2 E; cbn [run_branches].
  - split.
    + intros [= <- <-]. exists []. split; [constructor|reflexivity].
    + intros (l & H & ->). inversion H; subst. reflexivity.
  - split.
    + intros H. apply bind_ok in H as (r & w1 & H1 & H2). apply bind_ok in H2 as (rs' & w3 & H2 & H3).
      injection H3 as <- <-. rewrite (branch_run C n b w f fs E) in H1.
      destruct (run C n b w) as [x w0] eqn:Er. destruct (run_frames _ _ _ _ _ _ _ _ E Er) as (f1 & E1 & _).
      rewrite E1 in H1. injection H1 as H1 <-. destruct x as [out|e|]; cbn in H1; try discriminate. injection H1 as <-.
      apply (IH (set_frames (f :: fs) w0) f fs _ _ eq_refl) in H2 as (l & H2 & ->).
      exists ((out, f1) :: l). split; [|reflexivity]. econstructor; [exact Er|unfold top; now rewrite E1|].
      rewrite E. exact H2.
    + intros (l & H & ->). inversion H as [|b' bs' w' out w1 f1 l' w2' Er Et Hl]; subst.
      destruct (run_frames _ _ _ _ _ _ _ _ E Er) as (f1' & E1 & _).
      unfold top in Et. rewrite E1 in Et. injection Et as <-.
      unfold bindM at 1. rewrite (branch_run C n b w f fs E), Er, E1. cbn.
      rewrite E in Hl. unfold bindM at 1.
      rewrite (proj2 (IH (set_frames (f :: fs) w1) f fs _ w2 eq_refl) (ex_intro _ _ (conj Hl eq_refl))). reflexivity.
Qed.

Lemma traced_length C n bs w l w2 : traced C n bs w l w2 -> List.length l = List.length bs.
Proof. induction 1; cbn; auto. Qed.
Lemma traced_frames C n bs w f fs l w2 : traced C n bs w l w2 -> w_frames w = f :: fs ->
  w_frames w2 = f :: fs /\ Forall (fun r => FTT f (snd r)) l.
Proof.
  intros H. revert f fs. induction H as [|b bs w out w1 f1 rs w2 Er Et Hl IH]; intros f fs E; [auto|].
  destruct (IH f fs) as [H1 H2]; [exact E|]. split; [assumption|]. constructor; [|assumption].
  destruct (run_frames _ _ _ _ _ _ _ _ E Er) as (f1' & E1 & HF).
  unfold top in Et. rewrite E1 in Et. now injection Et as <-.
Qed.

Lemma skel_none v : skel v = VNone -> v = VNone.
Proof. destruct v; cbn; congruence. Qed.
Lemma same_skel_none p p1 : map2 skel p1 = map2 skel p -> no_new_none p p1.
Proof.
  intros H b n E. pose proof (f_equal (lookup2 b n) H) as E2. rewrite !lookup2_map2, E in E2. cbn in E2.
  destruct (lookup2 b n p) as [v|] eqn:Ev; [|discriminate]. cbn in E2. injection E2 as E2. symmetry in E2.
  now apply skel_none in E2 as ->.
Qed.
Lemma full_structure C a b : rng_rel (is_rng a) (is_rng b) ->
  (forall q, is_rng a = Some q -> List.length (sq_subs q) = c_block C) ->
  (forall q, is_rng b = Some q -> List.length (sq_subs q) = c_block C) ->
  is_rng (istate_skel a) = is_rng (istate_skel b).
Proof.
  intros H Ha Hb. cbn. destruct (is_rng a) as [x|] eqn:Ea, (is_rng b) as [y|] eqn:Eb; cbn in *; try contradiction; auto.
  f_equal. apply skel_seq_len. now rewrite Ha, Hb.
Qed.
Lemma some_eq {A} (x y : A) : Some x = Some y <-> x = y.
Proof. split; [now intros [=]|now intros ->]. Qed.
Lemma branch_structure C f f1 f2 : FTT f f1 -> FTT f f2 ->
  same_structure (branch_state C f1) (branch_state C f2) = true <->
  (map2 skel (f_params f1) = map2 skel (f_params f2) /\ state_skel (f_state f1) = state_skel (f_state f2)).
Proof.
  intros H1 H2. unfold same_structure. rewrite !andb_true_iff, !bool_decide_eq_true.
  assert (HR : is_rng (istate_skel (branch_state C f1)) = is_rng (istate_skel (branch_state C f2))).
  { destruct H1, H2. cbn. destruct (f_rng f), (f_rng f1), (f_rng f2); cbn in *; try contradiction; auto.
    f_equal. apply skel_seq_len. now rewrite !full_length. }
  cbn [is_params is_state istate_skel branch_state istate_of fmap option_fmap option_map].
  cbn. rewrite some_eq. cbn in HR. tauto.
Qed.

Lemma forallb_map {A B} (g : A -> B) (h : B -> bool) l : forallb h (List.map g l) = forallb (fun x => h (g x)) l.
Proof. induction l; cbn; congruence. Qed.
Lemma lookup_map {A B} (g : A -> B) (l : list A) i : List.map g l !! i = fmap (M:=option) g (l !! i).
Proof. revert i. induction l; intros [|i]; cbn; auto. Qed.
Lemma forallb_Forall {A} (g : A -> bool) (G : A -> Prop) l :
  Forall (fun x => g x = true <-> G x) l -> (forallb g l = true <-> Forall G l).
Proof.
  induction 1 as [|x l H _ IH]; cbn; [split; auto|]. rewrite andb_true_iff, Forall_cons, H, IH. reflexivity.
Qed.

(** A switch succeeds exactly when every branch does, with results of the same
    structure, and then leaves the context as the selected branch did. *)
Theorem switch_iff C n i bs w f fs out w' : w_frames w = f :: fs ->
  (switch_fun C (run C n) i bs w = (Ok out, w') <->
   exists l w2 f1,
     traced C n bs (on_top (top_up C) w) l w2 /\
     l !! clamp i (List.length bs) = Some (out, f1) /\
     Forall (fun r => same_results r (out, f1)) l /\
     w' = set_frames (apply_delta (full_delta (branch_state C f1)) (top_up C f) :: fs) w2).
Proof.
  intros E. unfold switch_fun.
  set (f0 := top_up C f). set (w0 := set_frames (f0 :: fs) w).
  assert (Ew0 : on_top (top_up C) w = w0) by (unfold on_top; now rewrite E). rewrite Ew0.
  rewrite (bind_Ok _ _ _ _ _ (reserve_eq C _ _ _ E)). fold w0.
  rewrite (bind_Ok _ _ _ _ _ (internal_eq true w0 f0 fs eq_refl)).
  assert (HT : forall l w2, traced C n bs w0 l w2 ->
     forall out f1, l !! clamp i (List.length bs) = Some (out, f1) ->
     (forallb (fun r => same_skel (fst r) out && same_structure (snd r) (branch_state C f1))
        (List.map (fun r => (fst r, branch_state C (snd r))) l) = true <-> Forall (fun r => same_results r (out, f1)) l)).
  { intros l w2 Hl o f1 Hi. destruct (traced_frames _ _ _ _ f0 fs _ _ Hl eq_refl) as [_ HF].
    assert (Hf1 : FTT f0 f1).
    { rewrite Forall_lookup in HF. now specialize (HF _ _ Hi). }
    rewrite forallb_map. apply forallb_Forall.
    eapply Forall_impl; [exact HF|]. intros [v g] Hg. cbn in *. unfold same_results, same_skel. cbn.
    rewrite andb_true_iff, bool_decide_eq_true, (branch_structure C f0 g f1 Hg Hf1). tauto. }
  split.
  - intros H. apply bind_ok in H as (rs & w2 & H1 & H2).
    apply (branches_iff C n bs w0 f0 fs rs w2 eq_refl) in H1 as (l & Hl & ->).
    fold (clamp i (List.length bs)) in H2. rewrite lookup_map in H2.
    destruct (l !! clamp i (List.length bs)) as [[o f1]|] eqn:Ei; [|discriminate]. cbn in H2.
    destruct (forallb _ _) eqn:Ef in H2; [|discriminate].
    destruct (traced_frames _ _ _ _ f0 fs _ _ Hl eq_refl) as [E2 _].
    rewrite (bind_Ok _ _ _ _ _ (update_eq _ _ _ _ E2)) in H2. injection H2 as <- <-.
    exists l, w2, f1. split; [assumption|]. split; [assumption|]. split; [|reflexivity].
    now apply (HT l w2 Hl o f1 Ei).
  - intros (l & w2 & f1 & Hl & Hi & Hs & ->).
    rewrite (bind_Ok _ _ _ _ _ (proj2 (branches_iff C n bs w0 f0 fs _ w2 eq_refl) (ex_intro _ l (conj Hl eq_refl)))).
    fold (clamp i (List.length bs)). rewrite lookup_map, Hi. cbn.
    rewrite (proj2 (HT l w2 Hl out f1 Hi) Hs).
    destruct (traced_frames _ _ _ _ f0 fs _ _ Hl eq_refl) as [E2 _].
    rewrite (bind_Ok _ _ _ _ _ (update_eq _ _ _ _ E2)). reflexivity.
Qed.

Lemma switch_frame C f f1 : FTT (top_up C f) f1 ->
  (f_frozen f = false -> no_new_none (f_params f) (f_params f1)) ->
  apply_delta (full_delta (branch_state C f1)) (top_up C f) = set_scopes (f_scopes f) (top_up C f1).
Proof.
  intros H HN. set (f0 := top_up C f) in *.
  assert (H1 : FTT f0 (top_up C f1)) by (eapply FTT_trans; [exact H|apply FTT_top_up]).
  rewrite commit_full; unfold branch_state.
  - now rewrite (load_reset true f0).
  - rewrite load_reset by assumption. now apply FTT_reset.
  - intros p [= <-]. exact HN.
Qed.

(** ** vmap *)
Lemma lane_run C n b w f fs : w_frames w = f :: fs ->
  vmap_lane C (run C n) (istate_of true f) b w
  = (let '(r, w1) := run C n b w in
     (keep_res r (fun out => match w_frames w1 with
        | f1 :: _ => Ok (out, difference C (istate_of true f) (istate_of true f1)) | [] => Fuel end),
      set_frames (f :: fs) w1)).
Proof.
  intros E. unfold vmap_lane.
  rewrite (in_temp_run' C n b w f fs (istate_of true f) _
     (fun out h => Ok (out, difference C (istate_of true f) (istate_of true h))) E).
  - rewrite load_self, (set_frames_eq _ _ E). destruct (run C n b w) as [r w1] eqn:Er.
    destruct (run_frames _ _ _ _ _ _ _ _ E Er) as (f1 & E1 & _). now rewrite E1.
  - intros out v h t Ev. exact (k_internal true (fun s => (out, difference C (istate_of true f) s)) v h t Ev).
Qed.

Lemma lanes_iff C n g xs : forall w f fs rs w2, w_frames w = f :: fs ->
  (vmap_lanes C (run C n) (istate_of true f) g xs w = (Ok rs, w2) <->
   exists l, traced C n (List.map g xs) w l w2 /\
     rs = List.map (fun r => (fst r, difference C (istate_of true f) (istate_of true (snd r)))) l).
Proof.
  induction xs as [|x xs IH]; intros w f fs rs w2 E; cbn [vmap_lanes List.map].
  - split.
    + intros [= <- <-]. exists []. split; [constructor|reflexivity].
    + intros (l & H & ->). inversion H; subst. reflexivity.
  - split.
    + intros H. apply bind_ok in H as (r & w1 & H1 & H2). apply bind_ok in H2 as (rs' & w3 & H2 & H3).
      injection H3 as <- <-. rewrite (lane_run C n (g x) w f fs E) in H1.
      destruct (run C n (g x) w) as [y w0] eqn:Er. destruct (run_frames _ _ _ _ _ _ _ _ E Er) as (f1 & E1 & _).
      rewrite E1 in H1. injection H1 as H1 <-. destruct y as [out|e|]; cbn in H1; try discriminate. injection H1 as <-.
      apply (IH (set_frames (f :: fs) w0) f fs _ _ eq_refl) in H2 as (l & H2 & ->).
      exists ((out, f1) :: l). split; [|reflexivity]. econstructor; [exact Er|unfold top; now rewrite E1|].
      rewrite E. exact H2.
    + intros (l & H & ->). inversion H as [|b' bs' w' out w1 f1 l' w2' Er Et Hl]; subst.
      destruct (run_frames _ _ _ _ _ _ _ _ E Er) as (f1' & E1 & _).
      unfold top in Et. rewrite E1 in Et. injection Et as <-.
      unfold bindM at 1. rewrite (lane_run C n (g x) w f fs E), Er, E1. cbn.
      rewrite E in Hl. unfold bindM at 1.
      rewrite (proj2 (IH (set_frames (f :: fs) w1) f fs _ w2 eq_refl) (ex_intro _ _ (conj Hl eq_refl))). reflexivity.
Qed.

Lemma same_delta_eq a b : same_delta a b = true <-> a = b.
Proof.
  unfold same_delta. rewrite !andb_true_iff, !bool_decide_eq_true.
  destruct a, b; cbn. split; [intros [[-> ->] ->]; reflexivity|intros [= -> -> ->]; auto].
Qed.

(** What the lanes leave behind, compared. *)
Definition same_contents (f g : frame) : Prop :=
  f_params f = f_params g /\ f_state f = f_state g /\ f_rng f = f_rng g.

Lemma vmap_ok C n g xs w f fs out w' : sound_identity C -> w_frames w = f :: fs ->
  run C (S n) (Vmap g xs) w = (Ok out, w') ->
  exists l w2, traced C n (List.map g xs) w l w2 /\ l <> [] /\ out = VTup (List.map fst l) /\
    ((f_frozen f = false -> Forall (fun r => no_new_none (f_params f) (f_params (snd r))) l) ->
     Forall (fun r => w' = set_frames (set_scopes (f_scopes f) (snd r) :: fs) w2) l).
Proof.
  intros HC E H. cbn [run step] in H. unfold vmap in H. rewrite (bind_Ok _ _ _ _ _ (internal_eq true _ _ _ E)) in H.
  apply bind_ok in H as (rs & w2 & H1 & H2). apply (lanes_iff C n g xs w f fs rs w2 E) in H1 as (l & Hl & ->).
  destruct (traced_frames _ _ _ _ f fs _ _ Hl E) as [E2 HF].
  destruct l as [|[o1 f1] l]; [discriminate|]. cbn [List.map] in H2.
  destruct (forallb _ _) eqn:Ef in H2; [|discriminate].
  rewrite (bind_Ok _ _ _ _ _ (update_eq _ _ _ _ E2)) in H2. injection H2 as <- <-.
  exists ((o1, f1) :: l), w2. split; [assumption|]. split; [discriminate|]. split.
  { cbn. f_equal. f_equal. rewrite map_map. apply map_ext. now intros []. }
  intros HN.
  assert (HL : forall r : val * frame, FTT f (snd r) -> (f_frozen f = false -> no_new_none (f_params f) (f_params (snd r))) ->
     apply_delta (difference C (istate_of true f) (istate_of true (snd r))) f = set_scopes (f_scopes f) (snd r)).
  { intros r Hr HNr. rewrite commit_diff; auto.
    - now rewrite load_scopes.
    - now apply FT_load.
    - cbn. intros p [= <-]. assumption. }
  assert (Ef' : forallb (fun r' => same_delta (snd r') (difference C (istate_of true f) (istate_of true f1)))
     (List.map (fun r : val * frame => (fst r, difference C (istate_of true f) (istate_of true (snd r)))) ((o1, f1) :: l)) = true) by exact Ef.
  clear Ef. rename Ef' into Ef.
  apply Forall_forall. intros [o2 f2] Hin. cbn.
  rewrite forallb_map in Ef. rewrite forallb_forall in Ef. apply elem_of_list_In in Hin as Hin2.
  specialize (Ef _ Hin2). apply same_delta_eq in Ef. cbn in Ef. cbn. rewrite <- Ef.
  rewrite Forall_forall in HF. pose proof (HF _ Hin) as HF2. cbn in HF2. pose proof (HL (o2, f2) HF2) as HL2. cbn in HL2. rewrite HL2; [reflexivity|].
  intros Hz. specialize (HN Hz). rewrite Forall_forall in HN. now apply (HN _ Hin).
Qed.

Lemma vmap_succeeds C n g xs w f fs l w2 : w_frames w = f :: fs ->
  traced C n (List.map g xs) w l w2 -> l <> [] ->
  (forall r r', r ∈ l -> r' ∈ l -> same_contents (snd r) (snd r')) ->
  exists w', run C (S n) (Vmap g xs) w = (Ok (VTup (List.map fst l)), w').
Proof.
  intros E Hl Hne Hsame. cbn [run step]. unfold vmap. rewrite (bind_Ok _ _ _ _ _ (internal_eq true _ _ _ E)).
  rewrite (bind_Ok _ _ _ _ _ (proj2 (lanes_iff C n g xs w f fs _ w2 E) (ex_intro _ l (conj Hl eq_refl)))).
  destruct (traced_frames _ _ _ _ f fs _ _ Hl E) as [E2 HF].
  destruct l as [|[o1 f1] l]; [congruence|].
  destruct (List.map (fun r => (fst r, difference C (istate_of true f) (istate_of true (snd r)))) ((o1, f1) :: l)) as [|r0 rs] eqn:Em; [discriminate|].
  assert (r0 = (o1, difference C (istate_of true f) (istate_of true f1))) as -> by (cbn in Em; congruence).
  assert (forallb (fun r' => same_delta (snd r') (snd (o1, difference C (istate_of true f) (istate_of true f1))))
     ((o1, difference C (istate_of true f) (istate_of true f1)) :: rs) = true) as ->.
  { rewrite <- Em. rewrite forallb_map. apply forallb_forall. intros [o2 f2] Hin. apply same_delta_eq. cbn.
    apply elem_of_list_In in Hin. destruct (Hsame (o2, f2) (o1, f1)) as (E3 & E4 & E5); [assumption|left|].
    cbn in *. unfold istate_of. now rewrite E3, E4, E5. }
  rewrite (bind_Ok _ _ _ _ _ (update_eq _ _ _ _ E2)). eexists. unfold retM. f_equal. f_equal. f_equal.
  rewrite <- Em. rewrite map_map. apply map_ext. now intros [].
Qed.

(** Single API calls, and corollaries of the transition invariant. *)
From stdpp Require Import gmap list strings.
From Coq Require Import String Ascii ZArith Lia.
From Verif Require Import ModelStr ModelRng ModelCore SpecCore ProofsStr ProofsMap ProofsNames ProofsRng ProofsEvolve ProofsRun.
Local Open Scope string_scope.
Local Open Scope list_scope.

Lemma derived_anc a b : derived a b <-> anc a b.
Proof.
  split.
  - induction b as [z|k IH n i]; intros [->|H]; try constructor; try contradiction. auto.
  - induction 1 as [|b n i _ IH]; [destruct a; now left|]. right. exact IH.
Qed.

Lemma top_Some w f : top w = Some f -> exists fs, w_frames w = f :: fs.
Proof. unfold top. destruct (w_frames w); cbn; [discriminate|]. intros [= <-]. eauto. Qed.

Lemma on_top_id g w f fs : w_frames w = f :: fs -> g f = f -> on_top g w = w.
Proof. intros E H. unfold on_top. rewrite E, H. destruct w. cbn in *. now subst. Qed.
Lemma on_top_top g w f : top w = Some f -> top (on_top g w) = Some (g f).
Proof. intros E. apply top_Some in E as [fs E]. unfold top. now rewrite (on_top_frames _ _ _ _ E). Qed.

Lemma bundle_name_ok w b : in_module w b -> current_bundle_name w = (Ok b, w).
Proof.
  intros (f & E & H). apply top_Some in E as [fs E].
  unfold current_bundle_name, bindM, top_frame. rewrite E.
  destruct (f_mods f) as [|[m meth] ?]; [now subst|]. destruct H as [subs H].
  unfold safe_get_module_name, bindM, reads. now rewrite H.
Qed.

(** ** Context *)
Lemma T_same_context P K X w w' : T P K rng_rel X w w' -> same_context w w'.
Proof.
  intros []. split; auto.
  - destruct (w_frames w), (w_frames w'); cbn in *; try tauto. destruct t_frames as [_ ->]. reflexivity.
  - destruct (w_frames w), (w_frames w'); cbn in *; try tauto.
  - unfold top. destruct (w_frames w), (w_frames w'); cbn in *; try tauto; try discriminate.
    destruct t_frames as [[] _]. intros f1 f1' [= <-] [= <-]. repeat split; auto.
    + symmetry. eapply Forall2_length; eauto.
    + intros E. unfold rng_rel in ft_rng. rewrite E in ft_rng. destruct (f_rng f0); tauto.
    + intros E. unfold rng_rel in ft_rng. rewrite E in ft_rng. destruct (f_rng f); tauto.
Qed.
Lemma run_context C n p w r w' : run C n p w = (r, w') -> same_context w w'.
Proof. intros E. eapply T_same_context, (run_T _ _ _ (fun _ => False)), E. Qed.

Lemma in_frame_T {A} P K RR X f (m : M A) w r w' :
  (forall r1 w1, m (set_frames (f :: w_frames w) w) = (r1, w1) ->
     T P K RR X (set_frames (f :: w_frames w) w) w1) ->
  (forall a, RR a a) ->
  in_frame f m w = (r, w') ->
  T P K RR X w w' /\ w_frames w' = w_frames w /\
  forall a f', r = Ok (a, f') -> FT K RR f f' /\ exists w1, m (set_frames (f :: w_frames w) w) = (Ok a, w1)
     /\ w_frames w1 = f' :: w_frames w.
Proof.
  intros H HR E. unfold in_frame in E.
  destruct (m (set_frames (f :: w_frames w) w)) as [r1 w1] eqn:E1.
  specialize (H _ _ eq_refl).
  pose proof (t_frames _ _ _ _ _ _ H) as TF. unfold set_frames in TF at 1. cbn [w_frames] in TF.
  destruct (w_frames w1) as [|f1 fs1] eqn:F1; [destruct TF|]. destruct TF as [TF ->].
  assert (T P K RR X w (set_frames (w_frames w) w1)).
  { destruct H. destruct w, w1; cbn in *. split; cbn; auto. apply frames_T_refl; auto. }
  destruct r1 as [a|e|]; injection E as <- <-; (split; [assumption|]); (split; [reflexivity|]); try discriminate.
  intros a' f' [= <- <-]. split; [assumption|]. eauto.
Qed.

Lemma hk_init_T C n rng p w r w' : hk_init C n rng p w = (r, w') ->
  TT (fun _ => False) w w' /\ w_frames w' = w_frames w.
Proof.
  unfold hk_init, init_fn, bindM. intros E.
  destruct (in_frame _ _ w) as [r1 w1] eqn:E1.
  apply (in_frame_T (fun _ => True) (fun _ => False) rng_rel (fun _ => False)) in E1 as (HT & HF & _).
  - destruct r1 as [[a f]|e|]; injection E as <- <-; auto.
  - intros. eapply run_T; eauto.
  - apply rng_ok_rel. exact (Code (fun _ _ => Ret VNone) (fun _ _ _ => Ret VNone) (fun _ _ _ _ _ _ => Ret VNone)
      (fun _ _ _ _ => Ret VNone) (fun _ _ _ _ => Ret VNone) (fun _ _ => false) (fun _ _ => false) 0).
Qed.
Lemma rng_rel_refl a : rng_rel a a.
Proof. destruct a; cbn; auto. Qed.
Lemma hk_apply_T C n ps st rng p w r w' : hk_apply C n ps st rng p w = (r, w') ->
  TT (fun _ => False) w w' /\ w_frames w' = w_frames w.
Proof.
  unfold hk_apply, apply_fn, bindM. intros E.
  destruct (in_frame _ _ w) as [r1 w1] eqn:E1.
  apply (in_frame_T (fun _ => True) (fun _ => False) rng_rel (fun _ => False)) in E1 as (HT & HF & _).
  - destruct r1 as [[a f]|e|]; injection E as <- <-; auto.
  - intros. eapply run_T; eauto.
  - apply rng_rel_refl.
Qed.

(** ** Running to a point, then to the end *)
Lemma run_top C n p w r w' f : run C n p w = (r, w') -> top w = Some f ->
  exists f', top w' = Some f' /\ FTT f f'.
Proof.
  intros E F. apply top_Some in F as [fs F].
  pose proof (t_frames _ _ _ _ _ _ (run_T _ _ _ (fun _ => False) _ _ _ E)) as TF. rewrite F in TF.
  unfold top. destruct (w_frames w') as [|f1 fs1]; [destruct TF|]. destruct TF as [TF _]. eauto.
Qed.

Lemma hk_init_bind C n rng p k w ps st w' a w1 f1 :
  hk_init C (S n) rng (Bind p k) w = (Ok (ps, st), w') ->
  run C n p (set_frames (new_frame None None (rng_of rng) :: w_frames w) w) = (Ok a, w1) ->
  top w1 = Some f1 ->
  exists f2, FTT f1 f2 /\ ps = f_params f2 /\ st = extract_initial (f_state f2).
Proof.
  unfold hk_init, init_fn, bindM at 1. intros E E1 F1.
  destruct (in_frame _ _ w) as [r2 w2] eqn:E2.
  unfold in_frame in E2. cbn [run step] in E2. unfold bindM in E2. rewrite E1 in E2.
  destruct (run C n (k a) w1) as [r3 w3] eqn:E3.
  destruct (run_top _ _ _ _ _ _ _ E3 F1) as (f3 & F3 & HF).
  apply top_Some in F3 as [fs3 F3]. rewrite F3 in E2.
  destruct r3; injection E2 as <- <-; cbn in E; try discriminate.
  injection E as <- <- <-. eauto.
Qed.
Lemma hk_apply_bind C n ps0 st0 rng p k w v st w' a w1 f1 :
  hk_apply C (S n) ps0 st0 rng (Bind p k) w = (Ok (v, st), w') ->
  run C n p (set_frames (new_frame (Some ps0) (Some st0) (rng_of rng) :: w_frames w) w) = (Ok a, w1) ->
  top w1 = Some f1 ->
  exists w2 f2, run C n (k a) w1 = (Ok v, w2) /\ top w2 = Some f2 /\ st = extract_current (f_state f2).
Proof.
  unfold hk_apply, apply_fn, bindM at 1. intros E E1 F1.
  destruct (in_frame _ _ w) as [r2 w2] eqn:E2.
  unfold in_frame in E2. cbn [run step] in E2. unfold bindM in E2. rewrite E1 in E2.
  destruct (run C n (k a) w1) as [r3 w3] eqn:E3.
  destruct (run_top _ _ _ _ _ _ _ E3 F1) as (f3 & F3 & HF).
  pose proof F3 as F3'. apply top_Some in F3 as [fs3 F3]. rewrite F3 in E2.
  destruct r3; injection E2 as <- <-; cbn in E; try discriminate.
  injection E as <- <- <-. eauto.
Qed.

(** ** get_parameter *)
Lemma set_params_id f : set_params (f_params f) f = f.
Proof. now destruct f. Qed.

Lemma get_param_existing C n w f b name sh dt i v :
  top w = Some f -> in_module w b -> w_pget w = [] ->
  lookup2 b name (f_params f) = Some v -> v <> VNone ->
  run C (S n) (GetParam name sh dt (Some i)) w =
    ((match vshape v with
      | None => Exc EAttr
      | Some sh' => if bool_decide (sh' = sh) then Ok v else Exc (EShape (b +:+ "/" +:+ name))
      end), w).
Proof.
  intros F B G L V. pose proof (top_Some _ _ F) as [fs F'].
  cbn [run step]. unfold get_parameter, bindM, top_frame, modify, reads. rewrite F'.
  rewrite (bundle_name_ok _ _ B). rewrite F'.
  assert (is_Some (f_params f !! b)) as HB by now apply lookup2_bundle in L.
  rewrite bool_decide_true by assumption. rewrite andb_false_r.
  erewrite on_top_id; [|exact F'|].
  2: { destruct (f_frozen f); [reflexivity|]. rewrite touch_idem by assumption. apply set_params_id. }
  rewrite L. destruct v; try congruence; cbn [not_none]; unfold retM; rewrite G; cbn [run_getters retM];
    unfold retM; cbn [vshape]; try reflexivity;
    case_bool_decide; reflexivity.
Qed.

Lemma get_param_missing_frozen C n w f b name sh dt i :
  top w = Some f -> in_module w b -> f_frozen f = true ->
  not_none (lookup2 b name (f_params f)) = None ->
  run C (S n) (GetParam name sh dt (Some i)) w = (Exc (ENoParam b name), w).
Proof.
  intros F B Z L. pose proof (top_Some _ _ F) as [fs F'].
  cbn [run step]. unfold get_parameter, bindM, top_frame, modify, reads. rewrite F'.
  rewrite (bundle_name_ok _ _ B). rewrite F', Z. cbn [andb].
  case_bool_decide; cbn [negb]; [|reflexivity].
  erewrite on_top_id; [|exact F'|now rewrite Z].
  rewrite L. reflexivity.
Qed.

(** ** state *)
Lemma set_state_run C n w f b name v :
  top w = Some f -> in_module w b ->
  run C (S n) (SetState name v) w =
    (Ok VNone, on_top (fun f => set_fstate (insert2 b name
        (match lookup2 b name (f_state f) with Some (i, _) => i | None => v end, v) (f_state f)) f) w).
Proof.
  intros F B. cbn [run step]. unfold set_state, bindM, modify, retM. now rewrite (bundle_name_ok _ _ B).
Qed.
Lemma set_fstate_id f : set_fstate (f_state f) f = f.
Proof. now destruct f. Qed.
Lemma get_state_existing C n w f b name sh dt i init cur :
  top w = Some f -> in_module w b -> w_sget w = [] ->
  lookup2 b name (f_state f) = Some (i, cur) ->
  run C (S n) (GetState name sh dt init) w = (Ok cur, w).
Proof.
  intros F B G L. pose proof (top_Some _ _ F) as [fs F'].
  cbn [run step]. unfold get_state, bindM, top_frame, modify, reads.
  rewrite (bundle_name_ok _ _ B). rewrite F'.
  erewrite on_top_id; [|exact F'|].
  2: { rewrite touch_idem; [apply set_fstate_id|]. now apply lookup2_bundle in L. }
  rewrite L. unfold retM. rewrite G. reflexivity.
Qed.
Lemma in_module_on_top g w b : (forall f, f_mods (g f) = f_mods f) -> in_module w b -> in_module (on_top g w) b.
Proof.
  intros H (f & F & M). exists (g f). split; [now apply on_top_top|]. rewrite H.
  destruct (f_mods f) as [|[m ?] ?]; auto. now rewrite on_top_mods.
Qed.

(** * C93: [hk.value_and_grad] and [hk.grad] *)
From stdpp Require Import gmap list strings.
From Coq Require Import String Ascii ZArith Lia.
From Verif Require Import ModelStr ModelRng ModelCore SpecCore SpecStateful ProofsMap ProofsRng ProofsEvolve ProofsRun ProofsGraft ModelGrad Demo.
Local Open Scope string_scope.
Local Open Scope list_scope.

(** A derivative is a function of the function to be derived, not of the way it is written. *)
Definition respectful (D : (val -> res val) -> val -> res val) : Prop :=
  forall h h' x, (forall y, h y = h' y) -> D h x = D h' x.
(** The value that the function returns in world [w], without auxiliary data. *)
Definition value_of (C : code) (n : nat) (fn : val -> prog) (has_aux : bool) (w : world) (y : val) : res val :=
  match fst (run C n (fn y) w) with
  | Ok out => if has_aux then match out with VTup [v; _] => Ok v | _ => Exc ETypeError end else Ok out
  | Exc e => Exc e
  | Fuel => Fuel
  end.

Lemma grad_fun_spec C n fn has_aux y w f fs r w1 : w_frames w = f :: fs -> run C n (fn y) w = (r, w1) ->
  exists f1, w_frames w1 = f1 :: fs /\
  stateful_grad_fun C n fn has_aux y (istate_of true f) w =
    (keep_res r (fun out => keep_res (split_out has_aux out) (fun va => Ok (fst va, (snd va, difference C (istate_of true f) (istate_of true f1))))), set_frames (f :: fs) w1).
Proof.
  intros E H.
  assert (H' : run C n (fn y) (set_frames (load (istate_of true f) f :: fs) w) = (r, w1)).
  { rewrite load_self, set_frames_eq by assumption. exact H. }
  destruct (in_temp_spec C n (fn y) w f fs (istate_of true f)
     (fun out => let! va := lift (split_out has_aux out) in let! s_out := internal_state true in retM (fst va, (snd va, difference C (istate_of true f) s_out)))
     (fun out h => keep_res (split_out has_aux out) (fun va => Ok (fst va, (snd va, difference C (istate_of true f) (istate_of true h))))) r w1) as (f1 & E1 & E2); auto.
  { intros out v h t Ev. unfold bindM at 1, lift. destruct (split_out has_aux out) as [va|e|]; cbn [keep_res].
    - exact (k_internal true (fun s => (fst va, (snd va, difference C (istate_of true f) s))) v h t Ev).
    - exists h. now rewrite set_frames_eq.
    - exists h. now rewrite set_frames_eq. }
  exists f1. split; [exact E1|]. exact E2.
Qed.

Lemma value_of_spec C n fn has_aux y w f fs : w_frames w = f :: fs ->
  match fst (stateful_grad_fun C n fn has_aux y (istate_of true f) w) with Ok (v, _) => Ok v | Exc e => Exc e | Fuel => Fuel end = value_of C n fn has_aux w y.
Proof.
  intros E. unfold value_of. destruct (run C n (fn y) w) as [r w1] eqn:H. destruct (grad_fun_spec C n fn has_aux y w f fs r w1 E H) as (f1 & _ & ->). cbn [fst].
  destruct r as [out|e|]; cbn; [|reflexivity..]. unfold split_out. destruct has_aux; [|reflexivity].
  destruct out; try reflexivity. destruct l as [|a [|b [|]]]; reflexivity.
Qed.

Lemma top_frames w f : top w = Some f -> exists fs, w_frames w = f :: fs.
Proof. unfold top. destruct (w_frames w); cbn; [discriminate|]. intros [= ->]. eauto. Qed.

(** What the function must return: anything, or a pair of the value and auxiliary data. *)
Definition returns (has_aux : bool) (out : val) : Prop := has_aux = true -> exists v aux, out = VTup [v; aux].

Lemma value_and_grad_eq C n D fn has_aux x w f fs r w1 : respectful D -> w_frames w = f :: fs -> run C n (fn x) w = (r, w1) ->
  exists f1, w_frames w1 = f1 :: fs /\
  value_and_grad C n D fn has_aux x w =
    match r with
    | Ok out =>
        match split_out has_aux out with
        | Ok (v, aux) =>
            match D (value_of C n fn has_aux w) x with
            | Ok grads => (Ok (VTup [if has_aux then VTup [v; aux] else v; grads]), on_top (apply_delta (difference C (istate_of true f) (istate_of true f1))) (set_frames (f :: fs) w1))
            | Exc e => (Exc e, set_frames (f :: fs) w1)
            | Fuel => (Fuel, set_frames (f :: fs) w1)
            end
        | Exc e => (Exc e, set_frames (f :: fs) w1)
        | Fuel => (Fuel, set_frames (f :: fs) w1)
        end
    | Exc e => (Exc e, set_frames (f :: fs) w1)
    | Fuel => (Fuel, set_frames (f :: fs) w1)
    end.
Proof.
  intros HD E H. destruct (grad_fun_spec C n fn has_aux x w f fs r w1 E H) as (f1 & Eg & Hs). exists f1. split; [exact Eg|].
  assert (Hd : D (fun y => match fst (stateful_grad_fun C n fn has_aux y (istate_of true f) w) with Ok (v, _) => Ok v | Exc e => Exc e | Fuel => Fuel end) x = D (value_of C n fn has_aux w) x).
  { apply HD. intros y. eapply value_of_spec, E. }
  assert (Hi : internal_state true w = (Ok (istate_of true f), w)) by (unfold internal_state, bindM, top_frame; now rewrite E).
  unfold value_and_grad. rewrite E. unfold bindM at 1. rewrite Hi, Hd. unfold bindM at 1. rewrite Hs.
  destruct r as [out|e|]; cbn [keep_res]; [|reflexivity..]. destruct (split_out has_aux out) as [[v aux]|e|]; cbn [keep_res fst snd]; [|reflexivity..].
  unfold bindM at 1, lift. destruct (D _ _); reflexivity.
Qed.

(** What a call does: one run of the function in the current context, the derivative of its value there, and the effects of that run on
    parameters, state and random keys, but not on module names (as [hk.jit], C14 and C15). *)
Theorem C93_value_and_grad C n D fn has_aux x w f out w1 f1 grads :
  sound_identity C -> respectful D -> top w = Some f -> run C n (fn x) w = (Ok out, w1) -> top w1 = Some f1 ->
  (f_frozen f = false -> no_new_none (f_params f) (f_params f1)) ->
  returns has_aux out -> D (value_of C n fn has_aux w) x = Ok grads ->
  exists w', value_and_grad C n D fn has_aux x w = (Ok (VTup [out; grads]), w') /\
    top w' = Some (set_scopes (f_scopes f) f1) /\ tail (w_frames w') = tail (w_frames w1) /\ w' = set_frames (w_frames w') w1.
Proof.
  intros HC HD F H F1 HN HR Hg. apply top_frames in F as [fs E].
  destruct (value_and_grad_eq C n D fn has_aux x w f fs (Ok out) w1 HD E H) as (g & Eg & Hs).
  unfold top in F1. rewrite Eg in F1. injection F1 as ->. rewrite Hs, Hg.
  assert (Hp : exists v aux, split_out has_aux out = Ok (v, aux) /\ (if has_aux then VTup [v; aux] else v) = out).
  { unfold split_out. destruct has_aux; [|eauto]. destruct (HR eq_refl) as (v & aux & ->). eauto. }
  destruct Hp as (v & aux & -> & ->). eexists. split; [reflexivity|].
  pose proof (run_FT C n (fn x) w f fs (Ok out) w1 f1 E H Eg) as HF.
  assert (Ec : apply_delta (difference C (istate_of true f) (istate_of true f1)) f = set_scopes (f_scopes f) f1).
  { rewrite commit_diff; auto.
    - now rewrite load_scopes.
    - now apply FT_load.
    - cbn. intros q [= <-] Hz. auto. }
  unfold on_top, top. cbn. rewrite Ec, Eg. auto.
Qed.
Print Assumptions C93_value_and_grad.

(** When the function raises, does not return a pair although [has_aux] is set, or cannot be derived, the call raises, and parameters, state,
    random keys and names are as before. *)
Theorem C93_raises C n D fn has_aux x w f r w1 e :
  respectful D -> top w = Some f -> run C n (fn x) w = (r, w1) ->
  (r = Exc e \/ (exists out, r = Ok out /\ ~ returns has_aux out /\ e = ETypeError) \/ (exists out, r = Ok out /\ returns has_aux out /\ D (value_of C n fn has_aux w) x = Exc e)) ->
  exists w', value_and_grad C n D fn has_aux x w = (Exc e, w') /\ w_frames w' = w_frames w.
Proof.
  intros HD F H Hr. apply top_frames in F as [fs E].
  destruct (value_and_grad_eq C n D fn has_aux x w f fs r w1 HD E H) as (g & Eg & Hs). rewrite Hs. clear Hs.
  assert (Ef : w_frames (set_frames (f :: fs) w1) = w_frames w) by (cbn; congruence).
  destruct Hr as [->|[(out & -> & HR & ->)|(out & -> & HR & Hd)]].
  - eauto.
  - unfold split_out. destruct has_aux; [|destruct HR; intros [=]].
    assert (X : match out with VTup [v; aux] => Ok (v, aux) | _ => Exc ETypeError end = (Exc ETypeError : res (val * val))).
    { destruct out; try reflexivity. destruct l as [|a [|b [|]]]; try reflexivity. destruct HR. intros _. eauto. }
    rewrite X. eauto.
  - assert (Hp : exists v aux, split_out has_aux out = Ok (v, aux)).
    { unfold split_out. destruct has_aux; [|eauto]. destruct (HR eq_refl) as (v & aux & ->). eauto. }
    destruct Hp as (v & aux & ->). rewrite Hd. eauto.
Qed.
Print Assumptions C93_raises.

(** [hk.grad] leaves out the value, and puts the gradient before the auxiliary data. *)
Theorem C93_grad C n D fn has_aux x w out grads w' :
  value_and_grad C n D fn has_aux x w = (Ok (VTup [out; grads]), w') -> returns has_aux out ->
  grad C n D fn has_aux x w = (Ok (if has_aux then match out with VTup [_; aux] => VTup [grads; aux] | _ => VNone end else grads), w').
Proof.
  intros H HR. unfold grad, bindM. rewrite H. unfold lift. destruct has_aux; [|reflexivity]. destruct (HR eq_refl) as (v & aux & ->). reflexivity.
Qed.
Print Assumptions C93_grad.
Theorem C93_grad_raises C n D fn has_aux x w e w' :
  value_and_grad C n D fn has_aux x w = (Exc e, w') -> grad C n D fn has_aux x w = (Exc e, w').
Proof. intros H. unfold grad, bindM. now rewrite H. Qed.
Print Assumptions C93_grad_raises.
Theorem C93_not_in_transform C n D fn has_aux x w : top w = None ->
  value_and_grad C n D fn has_aux x w = (Exc ENotInTransform, w) /\ grad C n D fn has_aux x w = (Exc ENotInTransform, w).
Proof.
  unfold top. destruct (w_frames w) as [|f fs] eqn:E; [intros _|discriminate].
  assert (H : value_and_grad C n D fn has_aux x w = (Exc ENotInTransform, w)) by (unfold value_and_grad; now rewrite E).
  split; [exact H|]. now apply C93_grad_raises.
Qed.
Print Assumptions C93_not_in_transform.
Example C93_not_in_transform_case : top empty_world = None. Proof. reflexivity. Qed.

(** Inside and outside: the gradient that [hk.grad] computes at the start of a transformed function is the gradient of its [apply]: parameters and
    state are constants. *)
Theorem C93_outside C n D fn x params state rng w' r :
  respectful D -> grad C n D fn false x (apply_world params state rng) = (Ok r, w') ->
  D (fun y => match fst (hk_apply C n params state rng (fn y) empty_world) with Ok (v, _) => Ok v | Exc e => Exc e | Fuel => Fuel end) x = Ok r.
Proof.
  intros HD H.
  assert (Ef : w_frames (apply_world params state rng) = [new_frame (Some params) (Some state) (rng_of rng)]) by reflexivity.
  destruct (run C n (fn x) (apply_world params state rng)) as [o w1] eqn:Hr.
  destruct (value_and_grad_eq C n D fn false x _ _ _ o w1 HD Ef Hr) as (f1 & _ & Hs).
  assert (Hd : D (value_of C n fn false (apply_world params state rng)) x = Ok r).
  { unfold grad, bindM in H. rewrite Hs in H. destruct o as [out|e|]; try discriminate H. cbn [split_out] in H.
    destruct (D _ x) as [g|e|]; try discriminate H. unfold lift in H. assert (g = r) by congruence. now subst. }
  rewrite <- Hd. apply HD. intros y. unfold value_of, hk_apply, apply_fn, bindM, in_frame.
  change (set_frames (new_frame (Some params) (Some state) (rng_of rng) :: w_frames empty_world) empty_world) with (apply_world params state rng).
  destruct (run C n (fn y) (apply_world params state rng)) as [r' w2] eqn:Hy.
  destruct (grad_fun_spec C n fn false y _ _ _ r' w2 Ef Hy) as (g & Eg & _). rewrite Eg. destruct r'; reflexivity.
Qed.
Print Assumptions C93_outside.

(** A case: [fn x] reads a parameter [w], counts its calls and returns [w * x * x] and [x]; the difference quotient with step 1 stands for the
    derivative. *)
Definition C93_fn (x : val) : prog :=
  match x with
  | VArr sh z =>
      Bind (GetParam "w" [] "float32" (Some (VInt 1))) (fun w =>
      Bind (GetState "n" (Some []) (Some "int32") (Some (VInt 0))) (fun c =>
      match w, c with
      | VArr _ w, VArr _ c => then_ (SetState "n" (VArr [] (c + 1))) (Ret (VTup [VArr sh (w * z * z); x]))
      | _, _ => Ret VNone
      end))
  | _ => Raise (EUser (VStr "no array"))
  end.
Definition C93_D (h : val -> res val) (x : val) : res val :=
  match x with
  | VArr sh z => match h (VArr sh (z + 1)), h x with Ok (VArr _ b), Ok (VArr _ a) => Ok (VArr sh (b - a)) | Exc e, _ | _, Exc e => Exc e | _, _ => Exc ETypeError end
  | _ => Exc ETypeError
  end.
Lemma C93_D_respectful : respectful C93_D.
Proof. intros h h' x H. unfold C93_D. destruct x; try reflexivity. now rewrite !H. Qed.
Definition C93_world : world := apply_world {[ "~" := {[ "w" := VArr [] 3 ]} ]} {[ "~" := {[ "n" := VArr [] 7 ]} ]} None.
(** The counter is 8 afterwards: the function is run once for its effects. *)
Example C93_case :
  let r := value_and_grad demo 20 C93_D C93_fn true (VArr [] 5) C93_world in
  fst r = Ok (VTup [VTup [VArr [] 75; VArr [] 5]; VArr [] 33]) /\
  option_map (fun f => lookup2 "~" "n" (f_state f)) (top (snd r)) = Some (Some (VArr [] 7, VArr [] 8)) /\
  fst (grad demo 20 C93_D C93_fn true (VArr [] 5) C93_world) = Ok (VTup [VArr [] 33; VArr [] 5]).
Proof. vm_compute. auto. Qed.
Example C93_case_hypotheses : exists out w1 f f1, top C93_world = Some f /\ run demo 20 (C93_fn (VArr [] 5)) C93_world = (Ok out, w1) /\ top w1 = Some f1 /\ returns true out /\ f_frozen f = true.
Proof.
  destruct (run demo 20 (C93_fn (VArr [] 5)) C93_world) as [r w1] eqn:E.
  assert (Hr : fst (run demo 20 (C93_fn (VArr [] 5)) C93_world) = Ok (VTup [VArr [] 75; VArr [] 5])) by (vm_compute; reflexivity).
  rewrite E in Hr. cbn in Hr. subst r.
  destruct (grad_fun_spec demo 20 C93_fn true (VArr [] 5) C93_world _ [] _ w1 eq_refl E) as (f1 & Ef & _).
  eexists _, w1, _, f1. split; [reflexivity|]. split; [reflexivity|]. split; [unfold top; now rewrite Ef|]. split; [intros _; eauto|reflexivity].
Qed.
(** A function that does not return a pair. *)
Example C93_raises_case : fst (value_and_grad demo 20 C93_D (fun x => Ret x) true (VArr [] 5) C93_world) = Exc ETypeError.
Proof. vm_compute. reflexivity. Qed.

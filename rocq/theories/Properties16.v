(** C13: names of the modules created by methods. *)
From stdpp Require Import gmap list strings.
From Coq Require Import String Ascii ZArith Lia.
From Verif Require Import ModelStr ModelRng ModelCore SpecCore SpecNames Demo ProofsStr ProofsMap ProofsNames ProofsRng ProofsEvolve ProofsRun ProofsOps ProofsModule ProofsQuiet ProofsBlueprint.
From Verif Require ProofsScope.
Local Open Scope string_scope.
Local Open Scope list_scope.

(** A method call gives the same result and the same effects whatever counters and used names the
    enclosing scopes hold, that is, whatever modules were created and whatever methods were called there before, and
    leaves these scopes as they are. (No interceptors: the [next] callable of an intercepted constructor can
    be kept and called in another scope.) *)
Theorem C13_frame C n m meth arg body w f r w1 :
  (forall v, all_ops no_intercept (body v)) -> code_ok no_intercept C -> heap_ok no_intercept w ->
  w_icpt w = [] -> no_ctor_next w -> top w = Some f ->
  run C n (CallMethod m meth arg body) w = (r, w1) ->
  exists f1, top w1 = Some f1 /\ f_scopes f1 = f_scopes f /\
    forall scopes, run C n (CallMethod m meth arg body) (with_scopes scopes w) = (r, with_scopes scopes w1).
Proof.
  intros Hb HC Hh Hi Hn F E. apply top_Some in F as [fs F].
  assert (HX : Forall (ProofsScope.nx_ok no_intercept) (w_nexts w)).
  { apply Forall_lookup. intros k o Ho. split; [exact (Forall_lookup_1 _ _ _ _ Hh Ho)|].
    destruct o as [| |st mm me [?|cls pre super post]]; try exact Logic.I. exfalso. eapply Hn. exact Ho. }
  assert (HP : forall p, no_intercept p -> forall i b, p <> Intercept i b) by (intros p Hp i b ->; exact Hp).
  destruct (ProofsScope.call_scopes C no_intercept HP (fun _ => Logic.I) HC n m meth body arg w f fs [] r w1 Hb Hi HX F E)
    as (f1 & F1 & S1 & _).
  exists f1. unfold top. rewrite F1. split; [reflexivity|]. split; [assumption|]. intros s.
  destruct (ProofsScope.call_scopes C no_intercept HP (fun _ => Logic.I) HC n m meth body arg w f fs s r w1 Hb Hi HX F E)
    as (f2 & F2 & S2 & E2). exact E2.
Qed.
Print Assumptions C13_frame.

(** The names of the modules made by a method are a function ([bp_names]) of the prefix, that is of the module's
    name and the method, of the names of the modules the method already knows and of what the method does.  Nothing else matters: [w]
    is arbitrary (any parameters, modules, counters of other scopes, histories). *)
Theorem C13_names C n b es w v w' pfx names :
  quiet_code C -> bp_ok b -> w_icpt w = [] -> fresh_scope w -> name_prefix w pfx -> named w es names ->
  run C n (bp_prog b es) w = (Ok v, w') ->
  exists es' sc' names', v = mods_val es' /\ bp_names b pfx empty_scope names = Some (sc', names') /\ named w' es' names'.
Proof.
  intros HQ Hb Hi (f & F & Hs) Hp Hn E. apply top_Some in F as [fs F].
  destruct (f_scopes f) as [|s0 srest] eqn:Es; [discriminate|]. cbn in Hs. injection Hs as ->.
  destruct (bp_run C HQ b n es w v w' f fs empty_scope srest pfx names Hb Hi F Es Hp Hn E) as (sc' & names' & f' & H1 & H2 & H3 & _).
  eauto 8.
Qed.
Print Assumptions C13_names.

Lemma named_T w w' es names : TT Xno w w' -> Forall (fun m => noctor m (w_nexts w)) es -> named w es names ->
  named w' es names /\ Forall (fun m => noctor m (w_nexts w')) es.
Proof.
  intros HT HN H. induction H as [|m q es names Hm H IH]; [split; constructor|].
  inversion HN as [|? ? HN1 HN2]; subst. destruct (name_keep m w w' q HT HN1 Hm) as [H1 H2].
  destruct (IH HN2). split; constructor; auto.
Qed.

(** Calling the method again, anything in between: the modules made by the two calls have the same names. *)
Theorem C13_again C m Q meth b es names n w v w1 n0 p r w2 n2 v2 w3 f :
  quiet_code C -> bp_ok b -> w_icpt w = [] -> no_ctor_next w -> top w = Some f -> f_scopes f <> [] ->
  module_name w m = Some Q -> named w es names ->
  run C n (CallMethod m meth VNone (fun _ => bp_prog b es)) w = (Ok v, w1) ->
  run C n0 p w1 = (r, w2) ->
  run C n2 (CallMethod m meth VNone (fun _ => bp_prog b es)) w2 = (Ok v2, w3) ->
  exists es1 es2 sc' names', bp_names b (inside Q meth) empty_scope names = Some (sc', names') /\
    v = mods_val es1 /\ named w1 es1 names' /\ v2 = mods_val es2 /\ named w3 es2 names'.
Proof.
  intros HQ Hb Hi HN F Hne Hm Hn E E0 E2.
  assert (Hcall : forall n w v w' g, w_icpt w = [] -> top w = Some g -> f_scopes g <> [] -> module_name w m = Some Q -> named w es names ->
    run C n (CallMethod m meth VNone (fun _ => bp_prog b es)) w = (Ok v, w') ->
    exists es' sc' names', bp_names b (inside Q meth) empty_scope names = Some (sc', names') /\ v = mods_val es' /\ named w' es' names').
  { clear - HQ Hb. intros n w v w' g H H0 H1 H2 H3 H4. apply top_Some in H0 as [fs F]. destruct (f_scopes g) as [|sc srest] eqn:Es; [congruence|].
    destruct n as [|n]; [discriminate|]. cbn [run step] in H4.
    destruct (wrap_fun_ok _ _ _ _ _ _ _ _ _ _ _ _ H F Es H4) as (wa & wb & Hwa & Eb & Heff).
    assert (Ia : w_icpt wa = []) by now subst wa.
    match type of Hwa with wa = set_frames (?h :: _) _ => assert (Fa : w_frames wa = h :: fs) by now subst wa end.
    destruct (bp_run C HQ b n es wa v wb _ fs _ _ (inside Q meth) names Hb Ia Fa eq_refl) as (sc' & names' & f' & H5 & H6 & H7 & H8).
    - eapply inside_prefix; [exact Fa|reflexivity|now subst wa].
    - now subst wa.
    - exact Eb.
    - destruct (Heff _ _ _ H8) as (f3 & _ & Hk). eexists _, _, _. split; [exact H5|]. split; [exact H6|].
      unfold named in *. eapply Forall2_impl; [exact H7|]. intros j q Hj. now rewrite Hk. }
  destruct (Hcall _ _ _ _ _ Hi F Hne Hm Hn E) as (es1 & sc1 & names1 & A1 & A2 & A3).
  assert (HNes : Forall (fun j => noctor j (w_nexts w)) (m :: es)).
  { apply Forall_forall. intros j _ k s me cls pre super post. apply HN. }
  assert (Hnm : named w (m :: es) (Q :: names)) by (constructor; assumption).
  pose proof (T_trans _ _ _ (ro_trans C _ _ (rng_ok_rel C)) _ _ _ _ (run_T _ _ _ Xno _ _ _ E) (run_T _ _ _ Xno _ _ _ E0)) as HT.
  destruct (named_T _ _ _ _ HT HNes Hnm) as [Hnm2 _].
  inversion Hnm2 as [|? ? ? ? Hm2 Hn2]; subst.
  pose proof (t_frames _ _ _ _ _ _ HT) as TF. apply top_Some in F as [fs F]. rewrite F in TF.
  destruct (w_frames w2) as [|f2 fs2] eqn:F2; [destruct TF|]. destruct TF as [FT2 ->].
  assert (Hi2 : w_icpt w2 = []) by (rewrite (t_icpt _ _ _ _ _ _ HT); assumption).
  assert (F2' : top w2 = Some f2) by (unfold top; now rewrite F2).
  assert (Hne2 : f_scopes f2 <> []).
  { intros Es. pose proof (ft_scopes _ _ _ _ FT2) as HS. rewrite Es in HS. inversion HS. congruence. }
  destruct (Hcall _ _ _ _ _ Hi2 F2' Hne2 Hm2 Hn2 E2) as (es2 & sc2 & names2 & B1 & B2 & B3).
  rewrite A1 in B1. injection B1 as <- <-. eauto 10.
Qed.
Print Assumptions C13_again.

(** An encoder whose [__call__] makes two layers called "lin", one with a layer of its own, and requests parameters. *)
Definition layer : blueprint := BDo (GetParam "w" [2] "float32" (Some (VInt 1))) BEnd.
Definition C13_body : blueprint :=
  BNew "Linear" (Some "lin") (BNew "Norm" None BEnd BEnd)
 (BCall 1 "__call__" layer (BDo (SetState "calls" (VInt 1))
 (BNew "Linear" (Some "lin") BEnd (BCall 3 "__call__" (BNew "Linear" None BEnd (BCall 4 "helper" (BNew "Norm" (Some "lin_7") BEnd BEnd) BEnd)) BEnd)))).
Example C13_body_ok : bp_ok C13_body.
Proof. cbn. repeat match goal with |- _ /\ _ => split end; try exact Logic.I; ops. Qed.
Example C13_demo_quiet : quiet_code demo.
Proof. split; intros; cbn; repeat case_match; ops. Qed.
Example C13_body_names : fmap (M:=option) snd (bp_names C13_body (inside "enc" "__call__") empty_scope ["enc"]) =
  Some ["enc"; "enc/lin"; "enc/lin/~/norm"; "enc/lin_1"; "enc/lin_1/linear"; "enc/lin_1/linear/~helper/lin_7"].
Proof. vm_compute. reflexivity. Qed.

Definition show_names (v : val) : prog :=
  match v with
  | VTup l => (fix go l acc := match l with
                               | [] => Ret (VTup (rev acc))
                               | VMod m :: l => Bind (ModuleName m) (fun n => go l (n :: acc))
                               | _ => Raise EAttr
                               end) l []
  | _ => Raise EAttr
  end.
(** Two calls with another module created and a call of another method between them. *)
Definition C13_prog : prog :=
  Bind (plain_module "Encoder" "enc") (fun v => match v with
    | VMod m =>
        Bind (CallMethod m "__call__" VNone (fun _ => bp_prog C13_body [m])) (fun a =>
        Bind (plain_module "Linear" "enc_2") (fun _ =>
        Bind (CallMethod m "decode" VNone (fun _ => plain_module "Linear" "lin")) (fun _ =>
        Bind (CallMethod m "__call__" VNone (fun _ => bp_prog C13_body [m])) (fun b =>
        Bind (show_names a) (fun x => Bind (show_names b) (fun y => Ret (VTup [x; y])))))))
    | _ => Raise EAttr end).
Example C13_case : result (run demo 60 C13_prog (init_world None)) =
  (let l := VTup (List.map VStr ["enc"; "enc/lin"; "enc/lin/~/norm"; "enc/lin_1"; "enc/lin_1/linear"; "enc/lin_1/linear/~helper/lin_7"]) in Some (VTup [l; l])).
Proof. vm_compute. reflexivity. Qed.
(** The second call finds the parameter of the first. *)
Example C13_case_params : match hk_init demo 60 None C13_prog empty_world with
  | (Ok (ps, _), _) => lookup2 "enc/lin" "w" ps = Some (VArr [2] 1) /\ map_to_list ps = [("enc/lin", {["w" := VArr [2] 1]})]
  | _ => False end.
Proof. vm_compute. split; reflexivity. Qed.
(** Without the method call (twice in one scope) the second run gets other names. *)
Example C13_same_scope : result (run demo 60
  (Bind (plain_module "Encoder" "enc") (fun v => match v with VMod m =>
     Bind (bp_prog C13_body [m]) (fun _ => Bind (bp_prog C13_body [m]) show_names) | _ => Raise EAttr end)) (init_world None)) =
  Some (VTup (List.map VStr ["enc"; "lin_2"; "lin_2/~/norm"; "lin_3"; "lin_3/linear"; "lin_3/linear/~helper/lin_7"])).
Proof. vm_compute. reflexivity. Qed.
Example C13_hyps : w_icpt (init_world None) = [] /\ no_ctor_next (init_world None) /\ heap_ok no_intercept (init_world None)
  /\ fresh_scope (init_world None) /\ name_prefix (init_world None) "".
Proof.
  split; [reflexivity|]. split; [intros r s m meth cls pre super post; cbn; rewrite lookup_nil; discriminate|].
  split; [constructor|]. split; eexists; split; reflexivity.
Qed.

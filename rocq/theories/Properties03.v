(** C11, C12, C37, C38, C39: names. *)
From stdpp Require Import gmap list strings.
From Coq Require Import String Ascii ZArith Lia.
From Verif Require Import ModelStr ModelRng ModelCore SpecCore Demo ProofsStr ProofsMap ProofsNames ProofsRng ProofsEvolve ProofsRun ProofsOps ProofsModule.
Local Open Scope string_scope.
Local Open Scope list_scope.

(** ** C11: unique names carrying the parent's name *)

(** Create a module, run any program, create another module in the same scope: the
    full names differ, whatever names were asked for and whatever the constructors
    do. (No interceptor is active; see C24 for what they can do.) *)
Theorem C11_unique C n1 cls1 pre1 super1 post1 w m1 w1 n p r w2 n2 cls2 pre2 super2 post2 m2 w3 :
  w_icpt w = [] -> no_pending_ctor w ->
  run C (S n1) (NewModule cls1 pre1 super1 post1) w = (Ok (VMod m1), w1) ->
  run C n p w1 = (r, w2) ->
  run C (S n2) (NewModule cls2 pre2 super2 post2) w2 = (Ok (VMod m2), w3) ->
  exists q1 q2, module_name w3 m1 = Some q1 /\ module_name w3 m2 = Some q2 /\ q1 <> q2.
Proof. apply two_modules. Qed.
Print Assumptions C11_unique.

(** The name is the prefix of the creating method followed by a form of the
    requested name. (Code of the constructor before the super constructor is called
    may do anything, but if it does something the parent's own constructor must not
    be pending in an interceptor.) *)
Theorem C11_prefix C n cls pre super post w m w' pfx f :
  w_icpt w = [] -> no_pending_ctor w -> top w = Some f -> name_prefix w pfx ->
  (exists v, forall k, pre k = Ret v) \/
    (forall pm r s meth c pre super post, w_nexts w !! r <> Some (NxCall s pm meth (MCtor c pre super post))) ->
  run C (S n) (NewModule cls pre super post) w = (Ok (VMod m), w') ->
  exists v name x, super v = Some name /\ valid_identifier (requested cls name) = true /\
    module_name w' m = Some (pfx +:+ x) /\ name_form (requested cls name) x.
Proof.
  intros Hi Hc F Hp Hpre E. apply top_Some in F as [fs F].
  destruct (new_module_ok _ _ _ _ _ _ _ _ _ _ _ Hi Hc F E)
    as (sc & srest & sca & scb & f1 & sc1 & srest1 & name & full & q & v & w7 & S & La & Hv & E7 & Hfull & Hnn & Hn0 & Hq & _ & _ & _ & _ & Hsup).
  set (wp := push_module (m, "__init__") (set_mods (w_mods w ++ [MObj None None]) w)) in *.
  assert (Hfull' : scoped_full w (f_mods f) (requested cls name) full).
  { destruct Hp as (f0 & F0 & Hp). unfold top in F0. rewrite F in F0. injection F0 as <-.
    unfold scoped_full in *. destruct (f_mods f) as [|[pm meth] rest]; [assumption|].
    destruct Hp as (P & HP & ->). destruct Hfull as (P' & HP' & ->). exists P. split; [assumption|].
    assert (HPp : module_name wp pm = Some P).
    { unfold module_name, wp, push_module. rewrite on_top_mods. cbn. unfold module_name in HP.
      destruct (w_mods w !! pm) as [o|] eqn:Eo; [|discriminate]. now rewrite (lookup_app_l_Some _ _ _ _ Eo). }
    enough (module_name w7 pm = Some P) by congruence.
    destruct Hpre as [[v0 Hpre]|Hno].
    - rewrite Hpre in E7. destruct n; [discriminate|]. injection E7 as <- <-. assumption.
    - eapply name_keep; [eapply run_T; eauto| |exact HPp]. intros r s meth' c p' s' po'.
      unfold wp, push_module. rewrite on_top_nexts. apply Hno. }
  apply (scoped_full_prefix w pfx _ _ f fs F Hp) in Hfull'. subst full.
  destruct (number_name_form _ _ _ _ _ (name_prefix_slash _ _ Hp) (valid_nonempty _ Hv) Hnn) as (x & -> & Hx).
  exists v, name, x. auto.
Qed.
Print Assumptions C11_prefix.

Definition C11_demo : prog :=
  Bind (plain_module "Parent" "par") (fun v => match v with
    | VMod m => CallMethod m "encode" VNone (fun _ =>
        Bind (plain_module "Linear" "lin") (fun a => Bind (plain_module "Linear" "lin_3") (fun b =>
        Bind (plain_module "Linear" "lin") (fun c => match a, b, c with
          | VMod a, VMod b, VMod c => Bind (ModuleName a) (fun a => Bind (ModuleName b) (fun b =>
              Bind (ModuleName c) (fun c => Ret (VTup [a; b; c]))))
          | _, _, _ => Ret VNone end))))
    | _ => Ret VNone end).
Example C11_case : result (run demo 30 C11_demo (init_world None)) =
  Some (VTup [VStr "par/~encode/lin"; VStr "par/~encode/lin_3"; VStr "par/~encode/lin_4"]).
Proof. vm_compute. reflexivity. Qed.
Example C11_no_pending rng : no_pending_ctor (init_world rng).
Proof. intros m r s meth cls pre super post _. cbn. rewrite lookup_nil. discriminate. Qed.

(** ** C12: automatic numbering *)

(** In any scope, after any program has run in it (creating modules with arbitrary
    names, numbered or not, catching errors, ...), a module whose requested name has
    no number is created and named [name] or [name_k]. *)
Theorem C12_auto_never_fails C w0 n0 p r w n cls name pfx :
  fresh_scope w0 -> w_icpt w0 = [] -> run C n0 p w0 = (r, w) ->
  modules_ready w -> name_prefix w pfx ->
  valid_identifier name = true -> explicit_number name = None ->
  exists m w' k, run C (S (S n)) (plain_module cls name) w = (Ok (VMod m), w') /\
    module_name w' m = Some (pfx +:+ auto_name name k).
Proof.
  intros (f0 & F0 & Hs) Hi E Hr Hp Hv He.
  pose proof (run_T _ _ _ Xno _ _ _ E) as Ht. apply top_Some in F0 as [fs F0].
  pose proof (t_frames _ _ _ _ _ _ Ht) as TF. rewrite F0 in TF.
  destruct (w_frames w) as [|f fs'] eqn:F; [destruct TF|]. destruct TF as [FT' ->].
  pose proof (ft_scopes _ _ _ _ FT') as SS. destruct (f_scopes f0) as [|s0 rest0]; [discriminate|].
  cbn in Hs. injection Hs as ->. inversion SS as [|? sc ? srest L _ Ea Eb]; subst.
  destruct (auto_module C n cls name w f fs sc srest pfx) as (w' & sc' & E' & Nm & _); auto.
  - rewrite (t_icpt _ _ _ _ _ _ Ht). exact Hi.
  - apply (sle_inv _ _ L), sc_inv_empty.
  - eexists _, w', _. split; [exact E'|exact Nm].
Qed.
Print Assumptions C12_auto_never_fails.

(** Requests without numbers in a fresh scope: all succeed and the [i]-th gets the
    number of earlier requests of the same name: [x], [x_1], [x_2], ... *)
Theorem C12_numbering C cls w reqs pfx :
  fresh_scope w -> w_icpt w = [] -> modules_ready w -> name_prefix w pfx ->
  Forall (fun name => valid_identifier name = true /\ explicit_number name = None) reqs ->
  exists ms w', creates C cls w reqs ms w' /\
    forall i req m, reqs !! i = Some req -> ms !! i = Some m ->
      module_name w' m = Some (pfx +:+ auto_name req (occurrences req (take i reqs))).
Proof.
  intros (f0 & F0 & Hs) Hi Hr Hp Hall. apply top_Some in F0 as [fs F0].
  destruct (f_scopes f0) as [|s0 rest0] eqn:S0; [discriminate|]. cbn in Hs. injection Hs as ->.
  destruct (auto_modules C cls reqs w f0 fs empty_scope rest0 pfx []) as (ms & w' & Cr & _ & _ & H);
    auto using sc_inv_empty.
  exists ms, w'. split; [exact Cr|]. exact H.
Qed.
Print Assumptions C12_numbering.

Example C12_fresh rng : fresh_scope (init_world rng) /\ modules_ready (init_world rng) /\ name_prefix (init_world rng) "".
Proof.
  split; [eexists; split; reflexivity|]. split; eexists; (split; [reflexivity|]); [constructor|reflexivity].
Qed.
Example C12_case : result (run demo 30
  (then_ (TryExcept (then_ (plain_module "A" "x_1") (plain_module "A" "x_01")) (fun _ => Ret VNone))
    (Bind (plain_module "A" "x") (fun v => match v with VMod m => ModuleName m | _ => Ret VNone end))) (init_world None))
  = Some (VStr "x_2").
Proof. vm_compute. reflexivity. Qed.

(** Explicit numbers, in contrast, can clash: "x_01" is the same as "x_1". *)
Theorem C12_explicit_clash_refuted : exists C n w, fresh_scope w /\ w_icpt w = [] /\
  valid_identifier "x_1" = true /\ valid_identifier "x_01" = true /\ "x_1" <> "x_01" /\
  error (run C n (then_ (plain_module "A" "x_1") (plain_module "A" "x_01")) w) = Some (ENotUnique "x_1").
Proof.
  exists demo, 10, (init_world None). repeat split.
  - eexists; split; reflexivity.
  - discriminate.
Qed.
Print Assumptions C12_explicit_clash_refuted.

(** ** C37: default names *)
Theorem C37_default_valid cls : ident cls = true -> valid_identifier (camel_to_snake cls) = true.
Proof. apply camel_to_snake_valid. Qed.
Print Assumptions C37_default_valid.
(** Hence [Module.__init__] never rejects the default name. *)
Theorem C37_never_rejected m cls w x w' :
  ident cls = true -> module_init m cls None w <> (Exc (EBadName x), w').
Proof.
  intros H. unfold module_init. rewrite (camel_to_snake_valid _ H).
  unfold update_mod at 1, bindM at 1, bindM at 1, reads. destruct (w_mods w !! m) as [o|]; [|discriminate].
  cbn. set (w1 := set_mods _ w). unfold bindM at 1. destruct (unique_and_canonical_name _ w1) as [r w2] eqn:E.
  assert (r <> Exc (EBadName x)) as Hr.
  { intros ->. unfold unique_and_canonical_name, bindM at 1, top_frame in E.
    destruct (w_frames w1) as [|f fs]; [discriminate|]. unfold bindM at 1, scoped_name in E.
    assert (Hs : forall y, match (f_scopes f) with
       | s0 :: sc :: rest =>
           let '(sc', r) := number_name sc y in
           modify (on_top (set_scopes (s0 :: sc' :: rest))) ;;;
           match r with inr q => retM q | inl q => throw (ENotUnique q) end
       | _ => throw EIndex
       end w1 <> (Exc (EBadName x), w2)).
    { intros y. destruct (f_scopes f) as [|s0 [|sc rest]]; try discriminate.
      destruct (number_name sc y) as [sc' [q|q]]; discriminate. }
    destruct (f_mods f) as [|ms [|[pm meth] mrest]].
    1-2: cbn [retM] in E; unfold retM in E; now apply Hs in E.
    unfold bindM in E. rewrite safe_name_eq in E. destruct (module_name w1 pm); [|discriminate].
    unfold retM in E. now apply Hs in E. }
  destruct r as [q|e|]; [|congruence|discriminate].
  unfold update_mod, bindM, reads. destruct (w_mods w2 !! m); discriminate.
Qed.
Print Assumptions C37_never_rejected.

(** And [Module()] succeeds in any scope, after any history, when the derived name
    carries no number. *)
Definition default_module (cls : string) : prog :=
  NewModule cls (fun _ => Ret VNone) (fun _ => Some None) (fun _ _ => Ret VNone).
Theorem C37_default_module_created C w0 n0 p r w n cls pfx :
  fresh_scope w0 -> w_icpt w0 = [] -> run C n0 p w0 = (r, w) ->
  modules_ready w -> name_prefix w pfx ->
  ident cls = true -> explicit_number (camel_to_snake cls) = None ->
  exists m w' k, run C (S (S n)) (default_module cls) w = (Ok (VMod m), w') /\
    module_name w' m = Some (pfx +:+ auto_name (camel_to_snake cls) k).
Proof.
  intros Hs Hi E Hr Hp Hv He.
  destruct (C12_auto_never_fails C w0 n0 p r w n cls (camel_to_snake cls) pfx) as (m & w' & k & E' & Hn);
    auto using camel_to_snake_valid.
  exists m, w', k. split; [|exact Hn]. rewrite <- E'.
  pose proof (t_icpt _ _ _ _ _ _ (run_T _ _ _ Xno _ _ _ E)) as Hi'. rewrite Hi in Hi'.
  cbn [run]. unfold default_module, plain_module. cbn [step]. apply bind_ext. unfold new_module.
  apply bind_ext_r. intros ms w1 E1. injection E1 as <- <-.
  apply bind_ext_r. intros [] w1 E1. injection E1 as <-.
  apply bind_ext. unfold wrap_method. apply bind_ext_r. intros f w1 E1.
  unfold top_frame in E1. destruct (w_frames _) eqn:F in E1; [discriminate|]. injection E1 as _ <-.
  apply scoped_ext, bind_ext. unfold run_interceptors.
  apply bind_ext_r. intros is w1 E1. injection E1 as <- <-.
  match goal with |- match ?x with _ => _ end _ = _ => replace x with (@nil val); [reflexivity|] end.
  unfold push_module, on_top. cbn. destruct (w_frames w); symmetry; exact Hi'.
Qed.
Print Assumptions C37_default_module_created.
(** Names without upper-case letters are kept, and the conversion is idempotent. *)
Theorem C37_snake_unchanged s : all_chars (fun c => negb (is_upper c)) s = true -> camel_to_snake s = s.
Proof. apply camel_to_snake_id. Qed.
Print Assumptions C37_snake_unchanged.
Theorem C37_idempotent s : camel_to_snake (camel_to_snake s) = camel_to_snake s.
Proof. apply camel_to_snake_id, camel_no_upper. Qed.
Print Assumptions C37_idempotent.
Example C37_case : camel_to_snake "MLPLayer2D" = "mlp_layer2_d" /\ ident "MLPLayer2D" = true /\
  camel_to_snake "conv_2d" = "conv_2d".
Proof. vm_compute. auto. Qed.

(** ** C39: accepted module names *)
Theorem C39_accepted s : valid_identifier s = true <->
  ident s = true \/ exists t, s = t +:+ String newline "" /\ ident t = true.
Proof. apply valid_identifier_spec. Qed.
Print Assumptions C39_accepted.
Theorem C39_newline_refuted : exists s, valid_identifier s = true /\ ident s = false.
Proof. exists ("a" +:+ String newline ""). split; reflexivity. Qed.
Print Assumptions C39_newline_refuted.
(** Every other name is rejected by the constructor, whatever the module class is. *)
Theorem C39_rejected C n cls s post w f : top w = Some f -> w_icpt w = [] -> valid_identifier s = false ->
  exists w', run C (S (S n)) (NewModule cls (fun _ => Ret VNone) (fun _ => Some (Some s)) post) w = (Exc (EBadName s), w').
Proof.
  intros F I V. apply top_Some in F as [fs F]. cbn [run step]. unfold new_module.
  unfold bindM at 1 2 3, reads at 1, modify at 1.
  unfold bindM at 1, wrap_method, bindM at 1, top_frame at 1. cbn. rewrite F.
  unfold scoped, push_module, on_top, run_interceptors, bindM, reads. cbn. rewrite F. cbn. rewrite I. cbn.
  unfold module_init. rewrite V. cbn. eauto.
Qed.
Print Assumptions C39_rejected.
Example C39_rejected_case : error (run demo 30 (plain_module "A" "a b") (init_world None)) = Some (EBadName "a b").
Proof. vm_compute. reflexivity. Qed.
(** A module can really be created with such a name. *)
Example C39_case : result (run demo 30
  (Bind (plain_module "A" ("x" +:+ String newline "")) (fun v => match v with VMod m => ModuleName m | _ => Ret VNone end)) (init_world None))
  = Some (VStr ("x" +:+ String newline "")).
Proof. vm_compute. reflexivity. Qed.

(** ** C38: what creators and getters are told *)

(** The callable reports the module and parameter name it is given. *)
Definition report (ctx : gctx) : val :=
  VTup [match getter_module ctx with Some s => VStr s | None => VNone end;
        match getter_name ctx with Some s => VStr s | None => VNone end].

(** The outermost getter, reading an existing parameter. *)
Theorem C38_getter C n w f b name sh dt i v g gs :
  (forall r x ctx, c_getter C g r x ctx = Raise (EUser (report ctx))) ->
  in_module w b -> has_char "/" name = false ->
  top w = Some f -> lookup2 b name (f_params f) = Some v -> v <> VNone -> w_pget w = gs ++ [g] ->
  exists w', run C (S (S n)) (GetParam name sh dt (Some i)) w = (Exc (EUser (VTup [VStr b; VStr name])), w').
Proof.
  intros Hg Hm Hs F Hl Hv Hgs. apply top_Some in F as [fs F].
  cbn [run step]. unfold get_parameter. unfold bindM at 1, top_frame at 1. rewrite F.
  rewrite (bind_eq _ _ _ _ _ (bundle_name_ok _ _ Hm)).
  unfold bindM at 1, top_frame at 1. rewrite F.
  assert (Hb : is_Some (f_params f !! b)) by (unfold lookup2 in Hl; destruct (f_params f !! b); [eauto|discriminate]).
  rewrite bool_decide_true by assumption. rewrite andb_false_r.
  unfold bindM at 1, modify at 1. set (w1 := on_top _ w). rewrite Hl.
  replace (not_none (Some v)) with (Some v) by (destruct v; [congruence|reflexivity..]).
  unfold bindM at 1, retM at 1. unfold bindM at 1, reads at 1.
  replace (w_pget w1) with (gs ++ [g]) by (unfold w1, on_top; rewrite F; cbn; congruence).
  unfold bindM at 1, run_getters. destruct (gs ++ [g]) as [|g0 gs0] eqn:Eg; [destruct gs; discriminate|]. rewrite <- Eg.
  unfold alloc_next, bindM, reads, modify, retM, next_get. cbn.
  rewrite lookup_app_r by lia. rewrite Nat.sub_diag, rev_app_distr. cbn. rewrite Hg. cbn.
  eexists. unfold report, getter_module, getter_name. cbn [g_full].
  rewrite (rsplit_slash_app b name Hs). cbn. reflexivity.
Qed.
Print Assumptions C38_getter.

(** The outermost creator, creating a missing parameter. *)
Theorem C38_creator C n w f b name sh dt i c cs :
  (forall r sh dt i ctx, c_creator C c r sh dt i ctx = Raise (EUser (report ctx))) ->
  in_module w b -> has_char "/" name = false ->
  top w = Some f -> f_frozen f = false -> lookup2 b name (f_params f) = None -> w_pcreate w = cs ++ [c] ->
  exists w', run C (S (S n)) (GetParam name sh dt (Some i)) w = (Exc (EUser (VTup [VStr b; VStr name])), w').
Proof.
  intros Hg Hm Hs F Hf Hl Hgs. apply top_Some in F as [fs F].
  cbn [run step]. unfold get_parameter. unfold bindM at 1, top_frame at 1. rewrite F.
  rewrite (bind_eq _ _ _ _ _ (bundle_name_ok _ _ Hm)).
  unfold bindM at 1, top_frame at 1. rewrite F, Hf. cbn [andb].
  unfold bindM at 1, modify at 1. set (w1 := on_top _ w). rewrite Hl. cbn [not_none].
  unfold bindM at 1. unfold bindM at 1. unfold reads at 1.
  replace (w_pcreate w1) with (cs ++ [c]) by (unfold w1, on_top; rewrite F; cbn; congruence).
  unfold bindM at 1, run_creators. destruct (cs ++ [c]) as [|g0 gs0] eqn:Eg; [destruct cs; discriminate|]. rewrite <- Eg.
  unfold alloc_next, bindM at 1, bindM at 1, bindM at 1, bindM at 1, reads, modify, retM, next_create, bindM at 1. cbn.
  rewrite lookup_app_r by lia. rewrite Nat.sub_diag, rev_app_distr. cbn. rewrite Hg. cbn.
  eexists. unfold report, getter_module, getter_name. cbn [g_full].
  rewrite (rsplit_slash_app b name Hs). cbn. reflexivity.
Qed.
Print Assumptions C38_creator.

(** With a slash in the parameter name the getter is told a wrong module. *)
Definition C38_code : code := Code (fun _ x => Ret x) (fun _ sh _ => Ret (VArr sh 0))
  (fun _ r sh dt i ctx => NextCreate r sh dt i) (fun _ _ _ ctx => Raise (EUser (report ctx)))
  (fun _ r a _ => NextCall r a) (fun a b => bool_decide (a = b)) (fun a b => bool_decide (a = b)) 1.
Theorem C38_slash_refuted :
  exists C w b name f v, in_module w b /\ top w = Some f /\ lookup2 b name (f_params f) = Some v /\ v <> VNone /\
    w_pget w = [VNone] /\ (forall r x ctx, c_getter C VNone r x ctx = Raise (EUser (report ctx))) /\
    error (run C 5 (GetParam name [] "f" (Some VNone)) w) <> Some (EUser (VTup [VStr b; VStr name])).
Proof.
  exists C38_code.
  exists (set_getters [VNone] [] (apply_world {["~" := {["a/b" := VArr [] 0]}]} ∅ None)), "~", "a/b".
  do 2 eexists. split; [eexists; split; reflexivity|]. split; [reflexivity|]. split; [vm_compute; reflexivity|].
  split; [discriminate|]. split; [reflexivity|]. split; [reflexivity|]. vm_compute. discriminate.
Qed.
Print Assumptions C38_slash_refuted.
Example C38_case : error (run C38_code 5 (GetParam "b" [] "f" (Some VNone))
  (set_getters [VNone] [] (apply_world {["~" := {["b" := VArr [] 0]}]} ∅ None))) = Some (EUser (VTup [VStr "~"; VStr "b"])).
Proof. vm_compute. reflexivity. Qed.

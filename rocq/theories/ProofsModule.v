(** Creation of modules (module.py:124-147, 474-497, 556-601). *)
From stdpp Require Import gmap list strings.
From Coq Require Import String Ascii ZArith Lia.
From Verif Require Import ModelStr ModelRng ModelCore SpecCore ProofsStr ProofsMap ProofsNames ProofsRng ProofsEvolve ProofsRun ProofsOps.
Local Open Scope string_scope.
Local Open Scope list_scope.

Lemma bind_ok {A B} (m : M A) (k : A -> M B) w b w' :
  bindM m k w = (Ok b, w') -> exists a w1, m w = (Ok a, w1) /\ k a w1 = (Ok b, w').
Proof. unfold bindM. destruct (m w) as [[a|e|] w1]; try discriminate. eauto. Qed.
Lemma bind_eq {A B} (m : M A) (k : A -> M B) w a w1 :
  m w = (Ok a, w1) -> bindM m k w = k a w1.
Proof. unfold bindM. now intros ->. Qed.

Lemma bind_ext {A B} (m m' : M A) (k : A -> M B) w : m w = m' w -> bindM m k w = bindM m' k w.
Proof. unfold bindM. now intros ->. Qed.
Lemma bind_ext_r {A B} (m : M A) (k k' : A -> M B) w :
  (forall a w1, m w = (Ok a, w1) -> k a w1 = k' a w1) -> bindM m k w = bindM m k' w.
Proof. unfold bindM. intros H. destruct (m w) as [[a|e|] w1]; auto. Qed.
Lemma scoped_ext {A} push pop (m m' : M A) w : m (push w) = m' (push w) -> scoped push pop m w = scoped push pop m' w.
Proof. unfold scoped. now intros ->. Qed.

Definition Xno : nat -> Prop := fun _ => False.

Lemma no_pending_T w w' : TT Xno w w' -> no_pending_ctor w -> no_pending_ctor w'.
Proof.
  intros Ht H m r s meth cls pre super post E. apply (t_ctor _ _ _ _ _ _ Ht m E).
  intros r' s' meth' cls' pre' super' post'. apply H.
  destruct (w_mods w !! m) as [o|] eqn:Eo; [|reflexivity].
  destruct (t_mods _ _ _ _ _ _ Ht _ _ Eo) as (o' & E' & _). congruence.
Qed.

Lemma name_keep m w w' q : TT Xno w w' -> noctor m (w_nexts w) -> module_name w m = Some q ->
  module_name w' m = Some q /\ noctor m (w_nexts w').
Proof.
  intros Ht N. unfold module_name. destruct (w_mods w !! m) as [o|] eqn:E; [|discriminate]. intros Eq.
  destruct (t_names _ _ _ _ _ _ Ht m o) as (N' & o' & E' & En); auto. rewrite E'. split; [congruence|assumption].
Qed.

Lemma notify_T X self name st w r w' : notify_parents self name st w = (r, w') -> TT X w w'.
Proof.
  intros E. eapply (wp_notify (fun _ => True) (fun _ => False) rng_rel); eauto.
  - apply (ro_refl (Code (fun _ _ => Ret VNone) (fun _ _ _ => Ret VNone) (fun _ _ _ _ _ _ => Ret VNone)
      (fun _ _ _ _ => Ret VNone) (fun _ _ _ _ => Ret VNone) (fun _ _ => true) (fun _ _ => true) 1) _ _ (rng_ok_rel _)).
  - apply (ro_trans (Code (fun _ _ => Ret VNone) (fun _ _ _ => Ret VNone) (fun _ _ _ _ _ _ => Ret VNone)
      (fun _ _ _ _ => Ret VNone) (fun _ _ _ _ => Ret VNone) (fun _ _ => true) (fun _ _ => true) 1) _ _ (rng_ok_rel _)).
  - apply I_true.
Qed.

(** Result of the naming function. *)
Lemma unique_name_ok name w q w' :
  unique_and_canonical_name name w = (Ok q, w') ->
  exists f fs s0 sc rest sc' full, w_frames w = f :: fs /\ f_scopes f = s0 :: sc :: rest /\
    scoped_name f name w = (Ok full, w) /\
    number_name sc full = (sc', inr q) /\
    w' = set_frames (set_scopes (s0 :: sc' :: rest) f :: fs) w.
Proof.
  unfold unique_and_canonical_name. intros E.
  apply bind_ok in E as (f & w1 & E1 & E). unfold top_frame in E1.
  destruct (w_frames w) as [|f0 fs] eqn:F; [discriminate|]. injection E1 as <- <-.
  apply bind_ok in E as (full & w2 & E2 & E).
  assert (w2 = w) as -> by (eapply pure_scoped_name; eauto).
  destruct (f_scopes f0) as [|s0 [|sc rest]] eqn:S; try discriminate.
  destruct (number_name sc full) as [sc' [q'|q']] eqn:N; [discriminate|].
  injection E as <- <-. exists f0, fs, s0, sc, rest, sc', full. repeat (split; [auto|]).
  unfold on_top. now rewrite F.
Qed.

Lemma update_mod_ok m g w u w' :
  update_mod m g w = (Ok u, w') -> exists o, w_mods w !! m = Some o /\ w' = set_mods (<[m := g o]> (w_mods w)) w.
Proof.
  unfold update_mod, bindM, reads. destruct (w_mods w !! m) as [o|] eqn:E; [|discriminate].
  intros [= <- <-]. eauto.
Qed.



(** What [scoped_name] computes. *)
Definition meth_part (meth : string) : string :=
  if decide (meth = "__call__") then "" else if decide (meth = "__init__") then "~/" else "~" +:+ meth +:+ "/".
Definition scoped_full (w : world) (mods : list (nat * string)) (name full : string) : Prop :=
  match mods with
  | [] => full = name
  | (pm, meth) :: _ => exists P, module_name w pm = Some P /\ full = (P +:+ "/" +:+ meth_part meth) +:+ name
  end.
Lemma safe_name_eq m w : safe_get_module_name m w =
  match module_name w m with Some n => (Ok n, w) | None => (Exc ESuperFirst, w) end.
Proof.
  unfold safe_get_module_name, bindM, reads, module_name.
  destruct (w_mods w !! m) as [[[n|] s]|]; reflexivity.
Qed.
Lemma scoped_name_ok f name w full w' ms rest :
  f_mods f = ms :: rest -> scoped_name f name w = (Ok full, w') -> scoped_full w rest name full /\ w' = w.
Proof.
  intros F. unfold scoped_name, scoped_full. rewrite F. destruct rest as [|[pm meth] rest].
  - now intros [= <- <-].
  - unfold bindM. rewrite safe_name_eq. destruct (module_name w pm) as [P|]; [|discriminate].
    intros [= <- <-]. split; [|reflexivity]. exists P. split; [reflexivity|]. unfold meth_part.
    destruct (decide (meth = "__init__")) as [->|]; [cbn; now rewrite !app_assoc_str|].
    destruct (decide (meth = "__call__")); rewrite !app_assoc_str; reflexivity.
Qed.
Lemma scoped_name_total f name w full ms rest :
  f_mods f = ms :: rest -> scoped_full w rest name full -> scoped_name f name w = (Ok full, w).
Proof.
  intros F. unfold scoped_name, scoped_full. rewrite F. destruct rest as [|[pm meth] rest].
  - now intros ->.
  - intros (P & E & ->). unfold bindM. rewrite safe_name_eq, E. unfold meth_part, retM.
    destruct (decide (meth = "__init__")) as [->|]; [cbn; now rewrite !app_assoc_str|].
    destruct (decide (meth = "__call__")); rewrite !app_assoc_str; reflexivity.
Qed.
Lemma scoped_full_names w w' mods name full :
  (forall m, module_name w' m = module_name w m) -> scoped_full w mods name full -> scoped_full w' mods name full.
Proof. intros H. unfold scoped_full. destruct mods as [|[pm meth] ?]; [auto|]. now rewrite H. Qed.

Lemma set_subs_names w m o s : w_mods w !! m = Some o ->
  forall k, module_name (set_mods (<[m := MObj (mo_name o) s]> (w_mods w)) w) k = module_name w k.
Proof.
  intros E k. unfold module_name. cbn. destruct (decide (k = m)) as [->|N].
  - rewrite list_lookup_insert by (eapply lookup_lt_Some; eauto). now rewrite E.
  - now rewrite list_lookup_insert_ne by congruence.
Qed.

Lemma module_init_ok m cls name w u w' f fs ms rest :
  w_frames w = f :: fs -> f_mods f = ms :: rest ->
  module_init m cls name w = (Ok u, w') ->
  valid_identifier (requested cls name) = true /\
  exists s0 sc srest sc' full q, f_scopes f = s0 :: sc :: srest /\
    scoped_full w rest (requested cls name) full /\ number_name sc full = (sc', inr q) /\
    w' = set_mods (<[m := MObj (Some q) (Some ∅)]> (w_mods w)) (set_frames (set_scopes (s0 :: sc' :: srest) f :: fs) w).
Proof.
  intros F FM. unfold module_init. fold (requested cls name). destruct (valid_identifier _); [|discriminate]. intros E.
  split; [reflexivity|].
  apply bind_ok in E as ([] & w1 & E1 & E). apply update_mod_ok in E1 as (o & Eo & ->).
  apply bind_ok in E as (q & w2 & E2 & E). apply unique_name_ok in E2 as (f0 & fs0 & s0 & sc & srest & sc' & full & F' & S & Ef & N & ->).
  apply update_mod_ok in E as (o' & Eo' & ->).
  cbn in F', Eo'. rewrite F in F'. injection F' as <- <-.
  rewrite list_lookup_insert in Eo' by (eapply lookup_lt_Some; eauto). injection Eo' as <-.
  destruct (scoped_name_ok _ _ _ _ _ _ _ FM Ef) as [Hf _].
  exists s0, sc, srest, sc', full, q. split; [assumption|]. split.
  { revert Hf. apply scoped_full_names. intros k. symmetry. now apply set_subs_names. }
  split; [assumption|]. cbn. rewrite list_insert_insert. reflexivity.
Qed.

(** Creating a module, no interceptor being active. *)
Lemma new_module_ok C n cls pre super post w m w' f fs :
  w_icpt w = [] -> no_pending_ctor w -> w_frames w = f :: fs ->
  run C (S n) (NewModule cls pre super post) w = (Ok (VMod m), w') ->
  exists sc srest sc2 sc3 f' sc' srest' name full q v w7, f_scopes f = sc :: srest /\ scope_le sc sc2 /\
    valid_identifier (requested cls name) = true /\
    run C n (pre m) (push_module (m, "__init__") (set_mods (w_mods w ++ [MObj None None]) w)) = (Ok v, w7) /\
    scoped_full w7 (f_mods f) (requested cls name) full /\ number_name sc2 full = (sc3, inr q) /\
    module_name w m = None /\ module_name w' m = Some q /\ noctor m (w_nexts w') /\
    top w' = Some f' /\ f_scopes f' = sc' :: srest' /\ scope_le sc3 sc' /\ super v = Some name.
Proof.
  intros Hi Hc F E. cbn [run step] in E.
  apply bind_ok in E as (m0 & w0 & E & E0). injection E0 as <- <-.
  unfold new_module in E. apply bind_ok in E as (ms & w1 & E1 & E). injection E1 as <- <-.
  apply bind_ok in E as ([] & w1 & E1 & E). injection E1 as <-.
  set (m1 := List.length (w_mods w)) in *.
  set (w1 := set_mods (w_mods w ++ [MObj None None]) w) in *.
  apply bind_ok in E as (out & w2 & E1 & E).
  apply bind_ok in E as (ms & w3 & E3 & E). injection E3 as <- <-.
  destruct (w_mods w2 !! m1) as [[[q|] subs]|] eqn:Eq; try discriminate. injection E as <- <-.
  unfold wrap_method in E1. apply bind_ok in E1 as (f1 & w3 & E3 & E1).
  unfold top_frame in E3. cbn in E3. rewrite F in E3. injection E3 as <- <-.
  unfold scoped in E1. destruct (bindM _ _ _) as [r4 w4] eqn:E4 in E1. injection E1 as -> <-.
  apply bind_ok in E4 as (out' & w5 & E5 & E6).
  unfold run_interceptors in E5. apply bind_ok in E5 as (is & w6 & E7 & E5). injection E7 as <- <-.
  unfold push_module, on_top in E5. cbn in E5. rewrite F in E5. cbn in E5. rewrite Hi in E5.
  match type of E5 with bindM _ _ ?x = _ => set (wp := x) in * end.
  set (fp := Frame (f_params f) (f_frozen f) (f_state f) (f_rng f) (f_rngs f) ((m1, "__init__") :: f_mods f)
    (empty_scope :: f_scopes f)) in *.
  assert (Nm : noctor m1 (w_nexts wp)).
  { intros r s meth cls' pre' super' post'. cbn. apply Hc. apply lookup_ge_None_2. unfold m1. lia. }
  assert (Em : w_mods wp !! m1 = Some (MObj None None)).
  { cbn. rewrite lookup_app_r by (unfold m1; lia). unfold m1. now rewrite Nat.sub_diag. }
  (* user code before the super constructor *)
  apply bind_ok in E5 as (v & w7 & E7 & E5).
  pose proof (run_T _ _ _ Xno _ _ _ E7) as T7.
  destruct (t_names _ _ _ _ _ _ T7 m1 _ (fun H => H) Em Nm) as (Nm7 & o7 & Em7 & En7).
  pose proof (t_frames _ _ _ _ _ _ T7) as TF. unfold wp in TF at 1. cbn [w_frames set_frames] in TF.
  destruct (w_frames w7) as [|f7 fs7] eqn:F7; [destruct TF|]. destruct TF as [FT7 ->].
  pose proof (ft_mods _ _ _ _ FT7) as M7. cbn in M7.
  pose proof (ft_scopes _ _ _ _ FT7) as S7. cbn in S7.
  destruct (super v) as [name|] eqn:Esup.
  2: { exfalso.
    pose proof (run_T _ _ _ Xno _ _ _ E5) as T5.
    destruct (t_names _ _ _ _ _ _ T5 m1 _ (fun H => H) Em7 Nm7) as (Nm5 & o5 & Em5 & En5).
    apply bind_ok in E6 as (f5 & w8 & E8 & E6).
    unfold top_frame in E8. destruct (w_frames w5); [discriminate|]. injection E8 as <- <-.
    apply bind_ok in E6 as (ms & w8 & E8 & E6). injection E8 as <- <-. rewrite Em5 in E6.
    unfold pop_module in Eq. rewrite on_top_mods in Eq.
    rewrite En7 in En5. cbn in En5. destruct o5 as [[q5|] s5]; cbn in En5; [discriminate|].
    injection E6 as <- <-. congruence. }
  apply bind_ok in E5 as ([] & w8 & E8 & E5).
  destruct (module_init_ok _ _ _ _ _ _ _ _ _ _ F7 M7 E8) as (Hv & s0 & sc2 & srest2 & sc3 & full & q' & S2 & Hfull & Hnn & ->).
  rewrite S2 in S7. inversion S7 as [|? ? ? ? _ S7']; subst. inversion S7' as [|sc ? srest ? L7 S7'']; subst.
  match type of E5 with run _ _ _ ?x = _ => set (w8 := x) in * end.
  pose proof (run_T _ _ _ Xno _ _ _ E5) as T5.
  assert (N8 : module_name w8 m1 = Some q').
  { unfold module_name, w8. cbn. rewrite list_lookup_insert by (eapply lookup_lt_Some; eauto). reflexivity. }
  destruct (name_keep m1 _ _ _ T5 Nm7 N8) as [N5 C5].
  pose proof (t_frames _ _ _ _ _ _ T5) as TF. unfold w8 in TF at 1. cbn [w_frames set_frames set_mods] in TF.
  destruct (w_frames w5) as [|f5 fs5] eqn:F5; [destruct TF|]. destruct TF as [FT5 ->].
  apply bind_ok in E6 as (f5' & w9 & E9 & E6). unfold top_frame in E9. rewrite F5 in E9. injection E9 as <- <-.
  apply bind_ok in E6 as (ms & w9 & E9 & E6). injection E9 as <- <-.
  pose proof N5 as N5'. unfold module_name in N5'. destruct (w_mods w5 !! m1) as [[o5 s5]|] eqn:Em5; [|discriminate].
  cbn in N5'. subst o5.
  apply bind_ok in E6 as ([] & w9 & E9 & E6). injection E6 as <- <-.
  pose proof (notify_T Xno _ _ _ _ _ _ E9) as T9.
  destruct (name_keep m1 _ _ _ T9 C5 N5) as [N9 C9].
  pose proof (t_frames _ _ _ _ _ _ T9) as TF. rewrite F5 in TF. cbn in TF.
  destruct (w_frames w9) as [|f9 fs9] eqn:F9; [destruct TF|]. destruct TF as [FT9 ->].
  pose proof (ft_scopes _ _ _ _ (FT_trans _ _ (ro_trans C _ _ (rng_ok_rel C)) _ _ _ FT5 FT9)) as S9.
  cbn in S9. inversion S9 as [|? s9 ? sl9 _ S9' ES1 ES2]; subst. inversion S9' as [|? sc' ? srest' L9 _]; subst.
  exists sc, srest, sc2, sc3, (Frame (f_params f9) (f_frozen f9) (f_state f9) (f_rng f9) (f_rngs f9)
     (tail (f_mods f9)) (tail (f_scopes f9))), sc', srest', name, full, q', v, w7.
  split; [reflexivity|]. split; [assumption|]. split; [assumption|]. split.
  { unfold push_module, on_top. cbn. rewrite F. exact E7. }
  split; [assumption|].
  split; [assumption|]. split.
  { unfold module_name. rewrite (lookup_ge_None_2 (w_mods w)); [reflexivity|unfold m1; lia]. }
  split.
  { unfold pop_module, module_name. rewrite on_top_mods. exact N9. }
  split. { unfold pop_module. rewrite on_top_nexts. exact C9. }
  split. { unfold top, pop_module, on_top. rewrite F9. reflexivity. }
  split; [cbn; now rewrite <- ES2|]. split; assumption.
Qed.

Lemma scope_le_fresh sc sc' q : scope_le sc sc' -> q ∉ sc_used sc' -> q ∉ sc_used sc.
Proof. intros L N H. apply N. now apply (sle_used _ _ L). Qed.

(** Two modules created in the same scope, anything in between. *)
Lemma two_modules C n1 cls1 pre1 super1 post1 w m1 w1 n p r w2 n2 cls2 pre2 super2 post2 m2 w3 :
  w_icpt w = [] -> no_pending_ctor w ->
  run C (S n1) (NewModule cls1 pre1 super1 post1) w = (Ok (VMod m1), w1) ->
  run C n p w1 = (r, w2) ->
  run C (S n2) (NewModule cls2 pre2 super2 post2) w2 = (Ok (VMod m2), w3) ->
  exists q1 q2, module_name w3 m1 = Some q1 /\ module_name w3 m2 = Some q2 /\ q1 <> q2.
Proof.
  intros Hi Hc E1 E2 E3.
  pose proof (run_T _ _ _ Xno _ _ _ E1) as T1. pose proof (run_T _ _ _ Xno _ _ _ E2) as T2.
  pose proof (run_T _ _ _ Xno _ _ _ E3) as T3.
  destruct (w_frames w) as [|f fs] eqn:F.
  { cbn in E1. apply bind_ok in E1 as (? & ? & E & _). unfold new_module, wrap_method in E. cbn in E.
    unfold bindM, top_frame in E. cbn in E. rewrite F in E. discriminate. }
  destruct (new_module_ok _ _ _ _ _ _ _ _ _ _ _ Hi Hc F E1)
    as (sc & srest & sca & scb & f1 & sc1 & srest1 & name & full & q1 & v & w7 & S & La & _ & _ & _ & Hn & _ & Hq1 & C1 & F1 & S1 & Lb & _).
  assert (Hi2 : w_icpt w2 = []). { rewrite (t_icpt _ _ _ _ _ _ T2), (t_icpt _ _ _ _ _ _ T1). exact Hi. }
  assert (Hc2 : no_pending_ctor w2) by (eapply no_pending_T; [exact T2|]; eapply no_pending_T; eauto).
  apply top_Some in F1 as [fs1 F1].
  pose proof (t_frames _ _ _ _ _ _ T2) as TF. rewrite F1 in TF. cbn in TF.
  destruct (w_frames w2) as [|f2 fs2] eqn:F2; [destruct TF|]. destruct TF as [FT2 ->].
  pose proof (ft_scopes _ _ _ _ FT2) as SS. rewrite S1 in SS. inversion SS as [|? sc2 ? srest2 L2 _ Ex Es2]; subst.
  destruct (new_module_ok _ _ _ _ _ _ _ _ _ _ _ Hi2 Hc2 F2 E3)
    as (scc & srest3 & sc4 & sc5 & f3 & sc6 & srest6 & name' & full' & q2 & v' & w8 & S' & L4 & _ & _ & _ & Hn2 & _ & Hq2 & _).
  destruct (name_keep m1 _ _ _ T2 C1 Hq1) as [Hq1' C1']. destruct (name_keep m1 _ _ _ T3 C1' Hq1') as [Hq3 _].
  exists q1, q2. split; [assumption|]. split; [assumption|]. intros ->.
  rewrite <- Es2 in S'. injection S' as <- <-.
  destruct (number_name_fresh _ _ _ _ Hn2) as [N2 _]. destruct (number_name_fresh _ _ _ _ Hn) as [_ I1].
  apply N2. apply (sle_used _ _ L4). apply (sle_used _ _ L2). apply (sle_used _ _ Lb). exact I1.
Qed.

(** ** Prefix and suffix of the name *)
Lemma is_digit_slash : is_digit "/" = false.
Proof. reflexivity. Qed.
Lemma parse_digits_slash a b : parse_digits (a +:+ String "/" b) = None.
Proof.
  destruct (parse_digits (a +:+ String "/" b)) as [n|] eqn:E; [|reflexivity].
  apply parse_digits_digits in E. change (a +:+ String "/" b) with (String.append a (String "/" b)) in E.
  rewrite all_chars_app in E. cbn in E. rewrite is_digit_slash, andb_false_l, andb_false_r in E. discriminate.
Qed.
Lemma split_suffix_slash a s :
  split_suffix (a +:+ String "/" s) =
  match split_suffix s with Some (b, n) => Some (a +:+ String "/" b, n) | None => None end.
Proof.
  induction a as [|c a IH].
  - change ("" +:+ String "/" s) with (String "/" s). cbn. destruct (split_suffix s) as [[b n]|]; reflexivity.
  - change (String c a +:+ String "/" s) with (String c (a +:+ String "/" s)).
    cbn [split_suffix]. rewrite IH, parse_digits_slash.
    destruct (is_under c), (split_suffix s) as [[b n]|]; reflexivity.
Qed.
Lemma chomp_slash a s : chomp (a +:+ String "/" s) = if decide (s = "") then a +:+ "/" else a +:+ String "/" (chomp s).
Proof.
  change (a +:+ String "/" s) with (String.append a (String "/" s)). rewrite chomp_app by discriminate.
  destruct s; reflexivity.
Qed.

Lemma explicit_number_prefix pre s :
  (pre = "" \/ exists a, pre = a +:+ "/") -> s <> "" ->
  explicit_number (pre +:+ s) =
  match explicit_number s with Some (b, n) => Some (pre +:+ b, n) | None => None end.
Proof.
  unfold explicit_number. intros [->|[a ->]] Hs.
  - change ("" +:+ s) with s. destruct (split_suffix (chomp s)) as [[b n]|]; reflexivity.
  - replace ((a +:+ "/") +:+ s) with (a +:+ String "/" s).
    2:{ change ((a +:+ "/") +:+ s) with (String.append (String.append a "/") s). now rewrite app_assoc_str. }
    rewrite chomp_slash, decide_False by assumption. rewrite split_suffix_slash.
    destruct (split_suffix (chomp s)) as [[b n]|]; [|reflexivity]. f_equal. f_equal.
    change (String.append a (String "/" b) = String.append (String.append a "/") b). now rewrite app_assoc_str.
Qed.
Lemma valid_nonempty s : valid_identifier s = true -> s <> "".
Proof. now intros H ->. Qed.

Lemma meth_part_slash P meth : exists a, P +:+ "/" +:+ meth_part meth = a +:+ "/".
Proof.
  unfold meth_part. destruct (decide _); [|destruct (decide _)].
  - exists P. reflexivity.
  - exists (P +:+ "/~"). change (String.append P "/~/" = String.append (String.append P "/~") "/"). now rewrite app_assoc_str.
  - exists (P +:+ "/~" +:+ meth).
    change (String.append P (String.append "/" (String.append "~" (String.append meth "/"))) =
      String.append (String.append P (String.append "/~" meth)) "/").
    rewrite app_assoc_str. reflexivity.
Qed.

Lemma number_name_form sc pre s sc' q :
  (pre = "" \/ exists a, pre = a +:+ "/") -> s <> "" ->
  number_name sc (pre +:+ s) = (sc', inr q) -> exists x, q = pre +:+ x /\ name_form s x.
Proof.
  intros Hp Hs. rewrite number_name_eq. unfold numbered. rewrite (explicit_number_prefix _ _ Hp Hs).
  destruct (explicit_number s) as [[b n]|] eqn:E.
  - destruct (decide _); [discriminate|]. intros [= <- <-]. exists (b +:+ "_" +:+ str_of_N n).
    split; [apply app_assoc_str|]. right. right. eauto.
  - destruct (decide _); [discriminate|]. intros [= <- <-].
    destruct (_ =? _)%N.
    + exists s. split; [reflexivity|]. now left.
    + eexists. split; [apply app_assoc_str|]. right. left. eauto.
Qed.

(** ** Automatic names are always available *)
Definition ready (w : world) (m : nat) : Prop :=
  exists o, w_mods w !! m = Some o /\ is_Some (mo_name o) /\ is_Some (mo_subs o).

Lemma notify_ok self name st : forall w, Forall (fun ms : nat * string => ready w (fst ms)) st ->
  exists w', notify_parents self name st w = (Ok tt, w') /\ w_frames w' = w_frames w /\
    (forall k, module_name w' k = module_name w k) /\ w_nexts w' = w_nexts w /\ w_icpt w' = w_icpt w /\
    List.length (w_mods w') = List.length (w_mods w).
Proof.
  induction st as [|[m meth] st IH]; intros w H.
  - exists w. repeat split.
  - inversion H as [|? ? Hm Hst]; subst. cbn in Hm. cbn [notify_parents].
    destruct (decide (m = self)) as [->|N].
    + destruct (IH w Hst) as (w' & E & R). exists w'. split; [|exact R]. exact E.
    + destruct Hm as ([n s] & Em & Hn & [s' Hs]). cbn in Hs. subst s.
      set (w1 := set_mods (<[m := MObj n (Some ({[name]} ∪ s'))]> (w_mods w)) w).
      assert (Hst1 : Forall (fun ms : nat * string => ready w1 (fst ms)) st).
      { eapply Forall_impl; [exact Hst|]. intros [k mk] (o & Ek & Hk & Hks). cbn in *.
        unfold ready, w1. cbn. destruct (decide (k = m)) as [->|Nk].
        - rewrite list_lookup_insert by (eapply lookup_lt_Some; eauto). eexists. split; [reflexivity|]. cbn. eauto.
        - rewrite list_lookup_insert_ne by congruence. eauto. }
      destruct (IH w1 Hst1) as (w' & E & F & Nm & Nx & Ic & Ln). exists w'. split.
      * erewrite bind_eq; [exact E|]. unfold bindM, reads. rewrite Em. reflexivity.
      * split; [now rewrite F|]. split.
        { intros k. rewrite Nm. unfold module_name, w1. cbn. destruct (decide (k = m)) as [->|Nk].
          - rewrite list_lookup_insert by (eapply lookup_lt_Some; eauto). now rewrite Em.
          - now rewrite list_lookup_insert_ne by congruence. }
        split; [now rewrite Nx|]. split; [now rewrite Ic|]. rewrite Ln. unfold w1. cbn. now rewrite insert_length.
Qed.


Lemma plain_module_eq C n cls name w f fs sc srest sc' full q :
  w_icpt w = [] -> w_frames w = f :: fs -> f_scopes f = sc :: srest -> modules_ready w ->
  valid_identifier name = true -> scoped_full w (f_mods f) name full ->
  number_name sc full = (sc', inr q) ->
  exists w', run C (S (S n)) (plain_module cls name) w = (Ok (VMod (List.length (w_mods w))), w') /\
    module_name w' (List.length (w_mods w)) = Some q /\
    (forall m, m < List.length (w_mods w) -> module_name w' m = module_name w m) /\
    w_icpt w' = [] /\ List.length (w_mods w') = S (List.length (w_mods w)) /\
    exists f', w_frames w' = f' :: fs /\ f_scopes f' = sc' :: srest /\ f_mods f' = f_mods f.
Proof.
  intros Hi F S (f0 & F0 & Hr) Hv Hfull Hnn. unfold top in F0. rewrite F in F0. injection F0 as <-.
  set (m := List.length (w_mods w)).
  set (wp := push_module (m, "__init__") (set_mods (w_mods w ++ [MObj None None]) w)).
  set (fp := Frame (f_params f) (f_frozen f) (f_state f) (f_rng f) (f_rngs f) ((m, "__init__") :: f_mods f)
    (empty_scope :: f_scopes f)).
  assert (Fp : w_frames wp = fp :: fs) by (unfold wp, push_module, on_top; cbn; now rewrite F).
  assert (Mp : w_mods wp = w_mods w ++ [MObj None None]) by (unfold wp, push_module; rewrite on_top_mods; reflexivity).
  assert (Em : w_mods wp !! m = Some (MObj None None)).
  { rewrite Mp, lookup_app_r by (unfold m; lia). unfold m. now rewrite Nat.sub_diag. }
  assert (Old : forall k, k < m -> module_name wp k = module_name w k).
  { intros k Hk. unfold module_name. rewrite Mp, lookup_app_l by exact Hk. reflexivity. }
  set (f1 := set_scopes (empty_scope :: sc' :: srest) fp).
  set (w1 := set_mods (<[m := MObj (Some q) (Some ∅)]> (w_mods wp)) (set_frames (f1 :: fs) wp)).
  assert (Sf : scoped_full wp (f_mods f) name full).
  { revert Hfull. unfold scoped_full. destruct (f_mods f) as [|[pm meth] rest]; [auto|].
    intros (P & HP & ->). exists P. split; [|reflexivity]. rewrite Old; [assumption|].
    unfold module_name in HP. destruct (w_mods w !! pm) eqn:E; [|discriminate]. now apply lookup_lt_Some in E. }
  assert (Init : module_init m cls (Some name) wp = (Ok tt, w1)).
  { unfold module_init. rewrite Hv. unfold update_mod at 1.
    erewrite bind_eq; [|unfold bindM, reads; rewrite Em; reflexivity].
    set (w2 := set_mods _ wp).
    assert (F2 : w_frames w2 = fp :: fs) by exact Fp.
    assert (U : unique_and_canonical_name name w2 = (Ok q, set_frames (f1 :: fs) w2)).
    { unfold unique_and_canonical_name. unfold bindM at 1, top_frame. rewrite F2.
      assert (Es : scoped_name fp name w2 = (Ok full, w2)).
      { eapply scoped_name_total; [reflexivity|]. revert Sf. apply scoped_full_names.
        exact (set_subs_names wp m (MObj None None) (Some ∅) Em). }
      rewrite (bind_eq _ _ _ _ _ Es). cbn [f_scopes fp]. rewrite S, Hnn.
      unfold bindM, modify. f_equal. unfold on_top. now rewrite F2. }
    rewrite (bind_eq _ _ _ _ _ U). unfold update_mod, bindM, reads. cbn.
    rewrite list_lookup_insert by (eapply lookup_lt_Some; eauto). unfold modify. cbn.
    rewrite list_insert_insert. reflexivity. }
  assert (Fo : Forall (fun ms : nat * string => ready w1 (fst ms)) (f_mods f1)).
  { constructor.
    - exists (MObj (Some q) (Some ∅)). split; [|cbn; eauto].
      unfold w1. cbn. apply list_lookup_insert. eapply lookup_lt_Some; eauto.
    - eapply Forall_impl; [exact Hr|]. intros [k mk] (o & Ek & Hn & Hs). exists o. split; [|auto].
      unfold w1. cbn [w_mods set_mods fst]. pose proof (lookup_lt_Some _ _ _ Ek) as Lk.
      rewrite list_lookup_insert_ne by (unfold m; lia). rewrite Mp. now apply lookup_app_l_Some. }
  destruct (notify_ok m q (f_mods f1) w1 Fo) as (w2 & En & F2 & Nm & _ & Ic & Ln).
  exists (pop_module w2).
  assert (Nm1 : module_name w1 m = Some q).
  { unfold module_name, w1. cbn. rewrite list_lookup_insert by (eapply lookup_lt_Some; eauto). reflexivity. }
  assert (W : wrap_method C (run C (Datatypes.S n)) m "__init__"
      (MCtor cls (fun _ => Ret VNone) (fun _ => Some (Some name)) (fun _ _ => Ret VNone)) VNone
      (set_mods (w_mods w ++ [MObj None None]) w) = (Ok VNone, pop_module w2)).
  { unfold wrap_method. unfold bindM at 1, top_frame. cbn [w_frames set_mods]. rewrite F.
    unfold scoped. fold wp.
    assert (R : run_interceptors C (run C (Datatypes.S n)) m "__init__"
      (MCtor cls (fun _ => Ret VNone) (fun _ => Some (Some name)) (fun _ _ => Ret VNone)) VNone wp = (Ok VNone, w1)).
    { unfold run_interceptors, bindM at 1, reads.
      replace (w_icpt wp) with (@nil val)
        by (unfold wp, push_module, on_top; cbn; destruct (w_frames w); symmetry; exact Hi).
      unfold run_mbody. cbn [run step]. unfold bindM at 1, retM at 1.
      rewrite (bind_eq _ _ _ _ _ Init). reflexivity. }
    rewrite (bind_eq _ _ _ _ _ R). unfold bindM at 1, top_frame. cbn [w_frames w1 set_mods set_frames].
    unfold bindM at 1, reads. unfold module_name in Nm1. fold w1.
    destruct (w_mods w1 !! m) as [[o s]|]; [|discriminate]. cbn in Nm1. subst o.
    rewrite (bind_eq _ _ _ _ _ En). reflexivity. }
  split.
  { cbn [run step]. unfold plain_module. cbn [step]. unfold new_module.
    unfold bindM at 1, bindM at 1, reads at 1. unfold bindM at 1, modify at 1. fold m.
    rewrite (bind_eq _ _ _ _ _ W). unfold bindM, reads.
    pose proof (Nm m) as Nmm. rewrite Nm1 in Nmm. unfold module_name in Nmm.
    unfold pop_module at 1. rewrite on_top_mods.
    destruct (w_mods w2 !! m) as [[o s]|]; [|discriminate]. cbn in Nmm. subst o. reflexivity. }
  split. { unfold module_name, pop_module. rewrite on_top_mods. fold (module_name w2 m). now rewrite Nm. }
  split.
  { intros k Hk. unfold module_name at 1, pop_module. rewrite on_top_mods. fold (module_name w2 k). rewrite Nm.
    unfold module_name, w1. cbn. rewrite list_lookup_insert_ne by (unfold m; lia).
    exact (Old k Hk). }
  split. { unfold pop_module, on_top. destruct (w_frames w2); cbn; rewrite Ic; unfold w1, wp, push_module, on_top; cbn; destruct (w_frames w); exact Hi. }
  split. { unfold pop_module. rewrite on_top_mods, Ln. unfold w1. cbn. rewrite insert_length, Mp, app_length. cbn. lia. }
  unfold pop_module, on_top. rewrite F2. cbn [w_frames w1 set_mods set_frames].
  eexists. split; [reflexivity|]. cbn. split; reflexivity.
Qed.

Lemma scoped_full_prefix w pre name full f fs :
  w_frames w = f :: fs -> name_prefix w pre -> (scoped_full w (f_mods f) name full <-> full = pre +:+ name).
Proof.
  intros F (f0 & F0 & H). unfold top in F0. rewrite F in F0. injection F0 as <-. unfold scoped_full.
  destruct (f_mods f) as [|[m meth] rest].
  - subst pre. change ("" +:+ name) with name. tauto.
  - destruct H as (P & HP & ->). unfold meth_part. split.
    + intros (P' & HP' & ->). rewrite HP in HP'. injection HP' as <-. reflexivity.
    + intros ->. exists P. split; [assumption|reflexivity].
Qed.
Lemma name_prefix_slash w pre : name_prefix w pre -> pre = "" \/ exists a, pre = a +:+ "/".
Proof.
  intros (f & _ & H). destruct (f_mods f) as [|[m meth] rest]; [now left|].
  destruct H as (P & _ & ->). right. apply (meth_part_slash P meth).
Qed.

Lemma number_name_other sc name sc' r b :
  number_name sc name = (sc', r) -> explicit_number name = None -> b <> name -> sc_count sc' b = sc_count sc b.
Proof.
  rewrite number_name_eq. unfold numbered. intros E H N. rewrite H in E.
  destruct (decide _); injection E as <- _; rewrite sc_count_insert, decide_False by congruence; reflexivity.
Qed.

Lemma app_inj_str a b c : a +:+ b = a +:+ c -> b = c.
Proof. induction a as [|x a IH]; [exact (fun H => H)|]. intros H. injection H as H. exact (IH H). Qed.

Lemma ready_T C n p w r w' : run C n p w = (r, w') -> modules_ready w -> modules_ready w'.
Proof.
  intros E (f & F & H). pose proof (run_T _ _ _ Xno _ _ _ E) as Ht.
  apply top_Some in F as [fs F].
  pose proof (t_frames _ _ _ _ _ _ Ht) as TF. rewrite F in TF.
  destruct (w_frames w') as [|f' fs'] eqn:F'; [destruct TF|]. destruct TF as [FT' ->].
  exists f'. split; [unfold top; now rewrite F'|]. rewrite (ft_mods _ _ _ _ FT').
  eapply Forall_impl; [exact H|]. intros [m meth] (o & Eo & Hn & Hs).
  destruct (t_mods _ _ _ _ _ _ Ht _ _ Eo) as (o' & Eo' & Hn' & Hs').
  exists o'. auto.
Qed.


Lemma auto_module C n cls name w f fs sc srest pre :
  w_icpt w = [] -> w_frames w = f :: fs -> f_scopes f = sc :: srest -> modules_ready w -> name_prefix w pre ->
  valid_identifier name = true -> explicit_number name = None -> sc_inv sc ->
  exists w' sc', run C (S (S n)) (plain_module cls name) w = (Ok (VMod (List.length (w_mods w))), w') /\
    module_name w' (List.length (w_mods w)) = Some (pre +:+ auto_name name (N.to_nat (sc_count sc (pre +:+ name)))) /\
    (forall m, m < List.length (w_mods w) -> module_name w' m = module_name w m) /\
    w_icpt w' = [] /\ List.length (w_mods w') = S (List.length (w_mods w)) /\
    name_prefix w' pre /\
    sc_inv sc' /\ sc_count sc' (pre +:+ name) = (sc_count sc (pre +:+ name) + 1)%N /\
    (forall b, b <> pre +:+ name -> sc_count sc' b = sc_count sc b) /\
    exists f', w_frames w' = f' :: fs /\ f_scopes f' = sc' :: srest.
Proof.
  intros Hi F S Hr Hp Hv He Hinv.
  assert (He' : explicit_number (pre +:+ name) = None).
  { rewrite explicit_number_prefix; [now rewrite He|eapply name_prefix_slash; eauto|now apply valid_nonempty]. }
  destruct (number_name_auto sc (pre +:+ name) Hinv He') as (sc' & Hnn & Hcnt).
  assert (Hf : scoped_full w (f_mods f) name (pre +:+ name)) by (eapply scoped_full_prefix; eauto).
  destruct (plain_module_eq C n cls name w f fs sc srest sc' (pre +:+ name) _ Hi F S Hr Hv Hf Hnn) as
    (w' & E & Nm & Old & Ic & Ln & f' & F' & S' & M').
  exists w', sc'. split; [exact E|]. split.
  { rewrite Nm. f_equal. unfold auto_name. destruct (sc_count sc (pre +:+ name)) as [|c] eqn:Ec.
    - reflexivity.
    - cbn [N.eqb].
      replace (N.to_nat (N.pos c)) with (Datatypes.S (pred (Pos.to_nat c))) by (cbn; lia).
      cbv iota. replace (N.of_nat (Datatypes.S (Nat.pred (Pos.to_nat c)))) with (N.pos c) by lia.
      apply app_assoc_str. }
  split; [assumption|]. split; [assumption|]. split; [assumption|]. split.
  { destruct Hp as (f0 & F0 & Hp). unfold top in F0. rewrite F in F0. injection F0 as <-.
    exists f'. split; [unfold top; now rewrite F'|]. rewrite M'. destruct (f_mods f) as [|[m meth] rest]; [assumption|].
    destruct Hp as (P & HP & ->). exists P. split; [|reflexivity]. rewrite Old; [assumption|].
    unfold module_name in HP. destruct (w_mods w !! m) eqn:Em; [|discriminate]. now apply lookup_lt_Some in Em. }
  split; [apply (sle_inv _ _ (number_name_le _ _ _ _ Hnn)), Hinv|]. split; [assumption|].
  split; [|eauto]. intros b Hb. eapply number_name_other; eauto.
Qed.



Lemma auto_modules C cls reqs : forall w f fs sc srest pre hist,
  w_icpt w = [] -> w_frames w = f :: fs -> f_scopes f = sc :: srest -> modules_ready w -> name_prefix w pre ->
  Forall (fun name => valid_identifier name = true /\ explicit_number name = None) reqs -> sc_inv sc ->
  (forall x, sc_count sc (pre +:+ x) = N.of_nat (occurrences x hist)) ->
  exists ms w', creates C cls w reqs ms w' /\
    (forall m, m < List.length (w_mods w) -> module_name w' m = module_name w m) /\
    List.length (w_mods w) <= List.length (w_mods w') /\
    forall i req m, reqs !! i = Some req -> ms !! i = Some m ->
      module_name w' m = Some (pre +:+ auto_name req (occurrences req (hist ++ take i reqs))).
Proof.
  induction reqs as [|req reqs IH]; intros w f fs sc srest pre hist Hi F S Hr Hp Hall Hinv Hcnt.
  { exists [], w. split; [constructor|]. split; [auto|]. split; [lia|]. intros i req m H. now rewrite lookup_nil in H. }
  inversion Hall as [|? ? [Hv He] Hall']; subst.
  destruct (auto_module C 0 cls req w f fs sc srest pre Hi F S Hr Hp Hv He Hinv)
    as (w1 & sc1 & E & Nm & Old & Hi1 & Ln & Hp1 & Hinv1 & C1 & C2 & f1 & F1 & S1).
  destruct (IH w1 f1 fs sc1 srest pre (hist ++ [req]) Hi1 F1 S1 (ready_T _ _ _ _ _ _ E Hr) Hp1 Hall' Hinv1)
    as (ms & w2 & Cr & Old2 & Ln2 & Hn).
  { intros x. unfold occurrences. rewrite filter_app, app_length. destruct (decide (x = req)) as [->|N].
    - rewrite C1, Hcnt. rewrite filter_cons_True by reflexivity. unfold occurrences. cbn. lia.
    - rewrite C2 by (intros H; apply app_inj_str in H; congruence). rewrite Hcnt. unfold occurrences.
      rewrite filter_cons_False by congruence. cbn. lia. }
  exists (List.length (w_mods w) :: ms), w2. split; [econstructor; eauto|]. split.
  { intros m Hm. rewrite Old2 by lia. now apply Old. }
  split; [lia|]. intros [|i] r m Hr' Hm.
  - cbn in Hr', Hm. injection Hr' as <-. injection Hm as <-. rewrite Old2 by lia. rewrite Nm.
    rewrite Hcnt, Nat2N.id. cbn [take]. now rewrite app_nil_r.
  - cbn in Hr', Hm. rewrite (Hn _ _ _ Hr' Hm). cbn [take]. now rewrite <- app_assoc.
Qed.

(** C58, C59, C62: name scope objects, the module usage log, detection of changes by address. *)
From Coq Require Import String ZArith Lia.
From stdpp Require Import base list gmap.
From Verif Require Import ModelObjects.
Notation length := List.length.
Local Open Scope list_scope.

(** ** C58 *)

(** Object [h] cannot be entered any more. *)
Definition used_up (h : nat) (s : nsstate) : Prop :=
  exists o, ns_objs s !! h = Some o /\ (no_entered o = true \/ no_stack o = None).

Lemma objs_step o s h ob : ns_objs s !! h = Some ob -> exists ob', ns_objs (fst (ns_step o s)) !! h = Some ob'.
Proof.
  intros H.
  assert (HS : forall h' x s', ns_objs s' = ns_objs s -> exists ob', ns_objs (set_obj h' x s') !! h = Some ob').
  { intros h' x s' E. cbn. rewrite E. destruct (decide (h' = h)) as [->|Hne].
    - exists x. apply list_lookup_insert. eapply lookup_lt_Some. eassumption.
    - exists ob. now rewrite list_lookup_insert_ne. }
  destruct o; cbn; try (eexists; eassumption).
  - exists ob. rewrite lookup_app_l; [assumption|eapply lookup_lt_Some; eassumption].
  - destruct (ns_objs s !! h0) as [[[] [st|]]|]; cbn; try (eexists; eassumption).
    destruct (ns_frames s); apply (HS _ _ s eq_refl).
  - destruct (ns_objs s !! h0) as [[[] [[|[f x] st]|]]|]; cbn; try (eexists; eassumption); try apply (HS _ _ s eq_refl).
    all: unfold pop_mod; destruct (ns_mods s !! f) as [[|y l]|]; apply HS; reflexivity.
  - destruct (ns_frames s); eexists; eassumption.
  - destruct (ns_frames s) as [|f ?]; [eexists; eassumption|]. destruct (ns_mods s !! f) as [[|]|]; eexists; eassumption.
  - destruct (ns_frames s); eexists; eassumption.
Qed.

Lemma used_up_step o s h : used_up h s -> used_up h (fst (ns_step o s)).
Proof.
  intros (ob & H & Hu).
  assert (HK : forall s', ns_objs s' = ns_objs s -> used_up h s') by (intros s' E; exists ob; rewrite E; auto).
  assert (HS : forall h' x s', ns_objs s' = ns_objs s -> (no_entered x = true \/ no_stack x = None) -> used_up h (set_obj h' x s')).
  { intros h' x s' E Hx. unfold used_up. cbn. rewrite E. destruct (decide (h' = h)) as [->|Hne].
    - exists x. split; [|assumption]. apply list_lookup_insert. eapply lookup_lt_Some. eassumption.
    - exists ob. split; [|assumption]. now rewrite list_lookup_insert_ne. }
  destruct o; cbn; try (now apply HK).
  - exists ob. cbn. split; [|assumption]. rewrite lookup_app_l; [assumption|eapply lookup_lt_Some; eassumption].
  - destruct (ns_objs s !! h0) as [[[] [st|]]|]; cbn; try (now apply HK).
    destruct (ns_frames s); apply (HS _ _ s eq_refl); now left.
  - destruct (ns_objs s !! h0) as [[[] [[|[f x] st]|]]|]; cbn; try (now apply HK); try (apply (HS _ _ s eq_refl); now right).
    all: unfold pop_mod; destruct (ns_mods s !! f) as [[|y l]|]; apply HS; try reflexivity; now right.
  - destruct (ns_frames s); now apply HK.
  - destruct (ns_frames s) as [|f ?]; [now apply HK|]. destruct (ns_mods s !! f) as [[|]|]; now apply HK.
  - destruct (ns_frames s); now apply HK.
Qed.

Lemma used_up_entered os : forall h s, used_up h s -> entered h os s = 0.
Proof.
  induction os as [|o os IH]; intros h s H; [reflexivity|]. cbn. rewrite IH by now apply used_up_step.
  rewrite Nat.add_0_r. destruct H as (ob & H & Hu). destruct o; try reflexivity. cbn. rewrite H.
  destruct (decide (h = h0)) as [<-|Hne]; [|now repeat case_match]. rewrite H. destruct ob as [[] [st|]]; try reflexivity.
  destruct Hu; discriminate.
Qed.

(** Over any history, with exceptions caught or not, inside and outside of transforms, an object is entered at most once. *)
Theorem C58_single_use h os s : entered h os s <= 1.
Proof.
  revert s. induction os as [|o os IH]; intros s; [cbn; lia|]. cbn. destruct o; cbn; try apply IH.
  destruct (ns_objs s !! h0) as [[[] [st|]]|] eqn:E0; cbn; try apply IH.
  - destruct (ns_frames s) as [|f fs] eqn:Ef; [cbn; apply IH|]. cbn.
    destruct (ns_objs s !! h) eqn:Eh; [|apply IH]. destruct (decide (h = h0)) as [->|Hne]; [|apply IH].
    rewrite used_up_entered; [lia|]. eexists. cbn. rewrite list_lookup_insert by (eapply lookup_lt_Some; eassumption). split; [reflexivity|now left].
  - destruct (ns_objs s !! h) eqn:Eh; [|apply IH]. destruct (decide (h = h0)) as [->|Hne]; [congruence|apply IH].
Qed.
Print Assumptions C58_single_use.

(** After a successful enter or any exit of the object, whatever happened since, entering it raises and changes nothing. *)
Theorem C58_later_raises h os s ob o :
  ns_objs s !! h = Some ob -> (o = NSEnter h \/ o = NSExit h) ->
  let s1 := ns_run os (fst (ns_step o s)) in
  (snd (ns_step (NSEnter h) s1) = Some NotReusable \/ snd (ns_step (NSEnter h) s1) = Some NotReentrant) /\
  fst (ns_step (NSEnter h) s1) = s1.
Proof.
  intros H Ho s1. assert (U : used_up h s1).
  { subst s1. assert (U : used_up h (fst (ns_step o s))).
    { assert (L : h < length (ns_objs s)) by (eapply lookup_lt_Some; eassumption).
      destruct Ho as [-> | ->]; cbn; rewrite H; destruct ob as [[] [st|]]; cbn; try (eexists; split; [exact H|(now left) || (now right)]).
      - destruct (ns_frames s); (eexists; cbn; rewrite list_lookup_insert by assumption; split; [reflexivity|now left]).
      - destruct st as [|[f x] st]; [eexists; cbn; rewrite list_lookup_insert by assumption; split; [reflexivity|now right]|].
        unfold pop_mod. destruct (ns_mods s !! f) as [[|y l]|]; (eexists; cbn; rewrite list_lookup_insert by assumption; split; [reflexivity|now right]).
      - eexists; cbn; rewrite list_lookup_insert by assumption; split; [reflexivity|now right].
      - destruct st as [|[f x] st]; [eexists; cbn; rewrite list_lookup_insert by assumption; split; [reflexivity|now right]|].
        unfold pop_mod. destruct (ns_mods s !! f) as [[|y l]|]; (eexists; cbn; rewrite list_lookup_insert by assumption; split; [reflexivity|now right]).
      - eexists; cbn; rewrite list_lookup_insert by assumption; split; [reflexivity|now right]. }
    clear -U. revert U. generalize (fst (ns_step o s)). induction os as [|o' os IH]; intros s' U; [exact U|]. cbn. apply IH. now apply used_up_step. }
  destruct U as (ob1 & H1 & Hu). cbn. rewrite H1. destruct ob1 as [[] [st|]]; cbn in *; auto. destruct Hu; discriminate.
Qed.
Print Assumptions C58_later_raises.

(** [with name_scope(..): body]: if the body leaves the active frames and their module stacks alone, so does the whole. *)
Theorem C58_restores h body s f fs s2 :
  ns_objs s !! h = Some (NSObj false (Some [])) -> ns_frames s = f :: fs -> f < length (ns_mods s) ->
  s2 = ns_run body (fst (ns_step (NSEnter h) s)) ->
  ns_objs s2 !! h = ns_objs (fst (ns_step (NSEnter h) s)) !! h ->
  ns_frames s2 = ns_frames (fst (ns_step (NSEnter h) s)) ->
  (forall g, g < length (ns_mods s) -> ns_mods s2 !! g = ns_mods (fst (ns_step (NSEnter h) s)) !! g) ->
  snd (ns_step (NSEnter h) s) = None /\ snd (ns_step (NSExit h) s2) = None /\
  ns_frames (fst (ns_step (NSExit h) s2)) = ns_frames s /\
  forall g, g < length (ns_mods s) -> ns_mods (fst (ns_step (NSExit h) s2)) !! g = ns_mods s !! g.
Proof.
  intros H Hf Hl E2 Ho Hfr Hm. clear E2. destruct (lookup_lt_is_Some_2 _ _ Hl) as [ms Ems].
  revert Ho Hfr Hm. cbn. rewrite H, Hf. cbn. rewrite list_lookup_insert by (eapply lookup_lt_Some; eassumption).
  intros Ho Hfr Hm. split; [reflexivity|]. rewrite Ho. unfold pop_mod.
  pose proof (Hm f Hl) as Hmf. rewrite list_lookup_alter, Ems in Hmf. cbn in Hmf. rewrite Hmf. cbn.
  rewrite decide_True by reflexivity. split; [reflexivity|]. split; [congruence|]. intros g Hg.
  destruct (decide (g = f)) as [->|Hne].
  - rewrite list_lookup_insert by (eapply lookup_lt_Some; eassumption). congruence.
  - rewrite list_lookup_insert_ne by congruence. rewrite Hm by assumption. now rewrite list_lookup_alter_ne by congruence.
Qed.
Print Assumptions C58_restores.

(** Entered once inside a transform, left; entering again raises; another object, first entered outside of any transform, cannot be entered later
    (it has been marked as entered); one that was left without being entered cannot be entered either. *)
Definition C58_history := [NSPushFrame; NSNew; NSNew; NSNew; NSCall; NSEnter 0; NSEnter 0; NSExit 0; NSEnter 0; NSReturn; NSPopFrame; NSEnter 1;
  NSPushFrame; NSEnter 1; NSExit 2; NSEnter 2].
Example C58_case : entered 0 C58_history ns0 = 1 /\ entered 1 C58_history ns0 = 0 /\ entered 2 C58_history ns0 = 0 /\
  snd (ns_step (NSEnter 1) (ns_run C58_history ns0)) = Some NotReentrant /\
  snd (ns_step (NSEnter 0) (ns_run (firstn 6 C58_history) ns0)) = Some NotReentrant /\
  snd (ns_step (NSEnter 0) (ns_run (firstn 8 C58_history) ns0)) = Some NotReusable /\
  ns_mods (ns_run (firstn 6 C58_history) ns0) = [[1; 0]] /\ ns_mods (ns_run (firstn 8 C58_history) ns0) = [[0]].
Proof. vm_compute. repeat split; reflexivity. Qed.

(** ** C59 *)

(** What the log should contain for a call. *)
Definition entry {V} (c : ucall V) : option (urec V) :=
  match c_out c with
  | Some out => Some (URec _ (c_mod c) (c_meth c) (c_args c) out ((c_mod c, c_meth c) :: c_stack c))
  | None => None
  end.
(** Every call is logged but those of the three methods of [IGNORED_METHODS] (summarise.py:133). *)
Definition logged {V} (cs : list (ucall V)) : list (ucall V) :=
  filter (fun c => c_meth c <> "__init__"%string /\ c_meth c <> "params_dict"%string /\ c_meth c <> "state_dict"%string) cs.
Lemma ignored_false meth : ignored meth = false <-> meth <> "__init__"%string /\ meth <> "params_dict"%string /\ meth <> "state_dict"%string.
Proof. unfold ignored. rewrite bool_decide_eq_false, !not_elem_of_cons. pose proof (not_elem_of_nil meth). tauto. Qed.

Lemma logged_app {V} (a b : list (ucall V)) : logged (a ++ b) = logged a ++ logged b.
Proof. apply filter_app. Qed.

(** Under the logging interceptor a function returns what it returns without it, and the log grows by one entry per call of
    a method other than [__init__], [params_dict] and [state_dict], in the order in which the calls start.  The entry of a call that returned has
    its arguments, result and call stack (the call itself first); that of a call that raised is [None]. *)
Theorem C59_log {V} (p : uprog V) : forall stack fs log,
  urun p (stack :: fs) log = (fst (ucalls p stack), log ++ map entry (logged (snd (ucalls p stack)))).
Proof.
  induction p as [v| |m meth args body IHb k IHk|body IHb k IHk|body IHb k IHk h IHh]; intros stack fs log.
  - cbn. now rewrite app_nil_r.
  - cbn. now rewrite app_nil_r.
  - cbn [urun ucalls]. destruct (ignored meth) eqn:Ei.
    + rewrite IHb. destruct (ucalls body ((m, meth) :: stack)) as [[out|] l] eqn:Eb; cbn [fst snd].
      * rewrite IHk. destruct (ucalls (k out) stack) as [r' l']. cbn [fst snd]. f_equal.
        cbn [app]. unfold logged at 3. rewrite filter_cons. cbn [c_meth]. rewrite decide_False by (rewrite <- ignored_false; congruence).
        fold (logged (l ++ l')). rewrite logged_app, map_app, app_assoc. reflexivity.
      * f_equal. unfold logged at 2. rewrite filter_cons. cbn [c_meth]. rewrite decide_False by (rewrite <- ignored_false; congruence). reflexivity.
    + rewrite IHb. destruct (ucalls body ((m, meth) :: stack)) as [[out|] l] eqn:Eb; cbn [fst snd].
      * rewrite IHk. destruct (ucalls (k out) stack) as [r' l']. cbn [fst snd]. f_equal.
        cbn [app]. unfold logged at 3. rewrite filter_cons. cbn [c_meth]. rewrite decide_True by now apply ignored_false.
        fold (logged (l ++ l')). rewrite logged_app. cbn [map]. rewrite map_app.
        rewrite <- (app_assoc log). rewrite insert_app_r_alt by reflexivity. rewrite Nat.sub_diag. cbn [app insert list_insert entry c_out c_mod c_meth c_args c_stack].
        rewrite <- app_assoc. reflexivity.
      * f_equal. unfold logged at 2. rewrite filter_cons. cbn [c_meth]. rewrite decide_True by now apply ignored_false. cbn [map]. unfold entry at 2. cbn [c_out].
        rewrite <- app_assoc. reflexivity.
  - cbn [urun ucalls]. rewrite IHb. destruct (ucalls body []) as [[out|] l]; cbn [fst snd]; [|reflexivity].
    rewrite IHk. destruct (ucalls (k out) stack) as [r' l']. cbn [fst snd]. now rewrite logged_app, map_app, app_assoc.
  - cbn [urun ucalls]. rewrite IHb. destruct (ucalls body stack) as [[out|] l]; cbn [fst snd].
    + rewrite IHk. destruct (ucalls (k out) stack) as [r' l']. cbn [fst snd]. now rewrite logged_app, map_app, app_assoc.
    + rewrite IHh. destruct (ucalls h stack) as [r' l']. cbn [fst snd]. now rewrite logged_app, map_app, app_assoc.
Qed.
Print Assumptions C59_log.

Fixpoint catches {V} (p : uprog V) : Prop :=
  match p with
  | URet _ | URaise => False
  | UCall _ _ _ body k | UInner body k => catches body \/ exists v, catches (k v)
  | UTry _ _ _ => True
  end.
Lemma calls_return {V} (p : uprog V) : forall stack v l, ~ catches p -> ucalls p stack = (Some v, l) -> Forall (fun c => c_out c <> None) l.
Proof.
  induction p as [v| |m meth args body IHb k IHk|body IHb k IHk|body IHb k IHk h IHh]; intros stack v0 l Hc E; cbn in E, Hc.
  - injection E as <- <-. constructor.
  - discriminate.
  - destruct (ucalls body ((m, meth) :: stack)) as [[out|] l1] eqn:Eb; [|discriminate]. destruct (ucalls (k out) stack) as [r' l2] eqn:Ek.
    injection E as -> <-. constructor; [discriminate|]. apply Forall_app. split; [eapply IHb; eauto|eapply IHk; [|exact Ek]; eauto].
  - destruct (ucalls body []) as [[out|] l1] eqn:Eb; [|discriminate]. destruct (ucalls (k out) stack) as [r' l2] eqn:Ek.
    injection E as -> <-. apply Forall_app. split; [eapply IHb; eauto|eapply IHk; [|exact Ek]; eauto].
  - tauto.
Qed.
(** If the function returns and catches no exceptions, every entry is a record, so [tabulate] can print the table. *)
Theorem C59_complete {V} (p : uprog V) v log ho hp : ~ catches p -> urun p [[]] [] = (Some v, log) ->
  exists recs, log = map Some recs /\ utable ho hp log = Some (filter (fun r => ho r && hp r) recs).
Proof.
  intros Hc E. rewrite C59_log in E. destruct (ucalls p []) as [r l] eqn:Eu. cbn [fst snd app] in E. injection E as -> <-.
  assert (H := calls_return p [] v l Hc Eu). assert (HL : Forall (fun c => c_out c <> None) (logged l)).
  { apply Forall_forall. intros c Hin. apply elem_of_list_filter in Hin as [_ Hin]. now apply (proj1 (Forall_forall _ _) H). }
  induction (logged l) as [|c cs IH]; [exists []; split; reflexivity|]. inversion HL as [|? ? H1 H2]; subst.
  destruct (IH H2) as (recs & Er & Et). cbn [map]. unfold entry at 1 3. destruct (c_out c); [|congruence].
  exists (URec _ (c_mod c) (c_meth c) (c_args c) v0 ((c_mod c, c_meth c) :: c_stack c) :: recs). cbn [map utable]. rewrite Er, <- Er, Et. split; [reflexivity|].
  rewrite filter_cons. set (b := ho _ && hp _). destruct b; reflexivity.
Qed.
Print Assumptions C59_complete.

(** A function that catches the exception of a method call: the log has a [None], and [tabulate] fails. *)
Definition C59_catching : uprog nat := UTry (UCall 0 "__call__" 7 (UCall 1 "__call__" 8 (URet 3) (fun _ => URaise)) URet) URet (UCall 2 "decode" 9 (URet 4) URet).
Theorem C59_none_refuted : exists (p : uprog nat) v log, urun p [[]] [] = (Some v, log) /\ None ∈ log /\ forall ho hp, utable ho hp log = None.
Proof.
  exists C59_catching. eexists _, _. split; [reflexivity|]. cbn. split; [left|reflexivity].
Qed.
Print Assumptions C59_none_refuted.

(** A model with two layers, the second called twice, made in a constructor that calls a method; an inner transform. *)
Definition C59_net : uprog nat :=
  UCall 0 "__init__" 0 (UCall 0 "build" 1 (URet 2) URet) (fun _ =>
  UCall 0 "__call__" 5 (UCall 1 "__call__" 5 (URet 6) (fun x => UCall 2 "__call__" x (URet (x + 1)) (fun y => UCall 2 "__call__" y (URet (y + 1)) URet))) (fun z =>
  UInner (UCall 3 "__call__" z (URet 1) URet) (fun _ => URet z))).
Example C59_case : ~ catches C59_net /\ urun C59_net [[]] [] = (Some 8,
  [Some (URec _ 0 "build" 1 2 [(0, "build"); (0, "__init__")]);
   Some (URec _ 0 "__call__" 5 8 [(0, "__call__")]);
   Some (URec _ 1 "__call__" 5 6 [(1, "__call__"); (0, "__call__")]);
   Some (URec _ 2 "__call__" 6 7 [(2, "__call__"); (0, "__call__")]);
   Some (URec _ 2 "__call__" 7 8 [(2, "__call__"); (0, "__call__")]);
   Some (URec _ 3 "__call__" 8 1 [(3, "__call__")])]%string).
Proof. split; [cbn; firstorder|]. vm_compute. reflexivity. Qed.

(** ** C62 *)

Lemma elem_addrs s a : a ∈ addrs s <-> (exists n, as_params s !! n = Some a) \/ (exists n, as_state s !! n = Some a) \/ a ∈ rng_ids s.
Proof.
  unfold addrs. rewrite !elem_of_app.
  assert (HM : forall m : gmap nat nat, a ∈ map snd (map_to_list m) <-> exists n, m !! n = Some a).
  { intros m. rewrite elem_of_list_fmap. split.
    - intros ([n b] & -> & H). apply elem_of_map_to_list in H. eauto.
    - intros [n H]. exists (n, a). split; [reflexivity|]. now apply elem_of_map_to_list. }
  rewrite !HM. unfold rng_ids. destruct (as_rng s) as [[k ks]|]; set_solver.
Qed.
Lemma elem_ids (m : gmap nat nat) a : a ∈ ids m <-> exists n, m !! n = Some a.
Proof.
  unfold ids. rewrite elem_of_list_to_set, elem_of_list_fmap. split.
  - intros ([n b] & -> & H). apply elem_of_map_to_list in H. eauto.
  - intros [n H]. exists (n, a). split; [reflexivity|]. now apply elem_of_map_to_list.
Qed.
Lemma raises_spec b s : raises b s = true <-> (exists n a, as_params s !! n = Some a /\ a ∉ ids (as_params b)) \/
  (exists n a, as_state s !! n = Some a /\ a ∉ ids (as_state b)) \/ (exists a, a ∈ rng_ids s /\ a ∉ rng_ids b).
Proof.
  unfold raises. rewrite bool_decide_eq_true.
  assert (HD : forall X Y : gset nat, X ∖ Y ≠ ∅ <-> exists a, a ∈ X /\ a ∉ Y).
  { intros X Y. split.
    - intros H. apply set_choose_L in H as [a Ha]. exists a. set_solver.
    - intros (a & H1 & H2) E. set_solver. }
  rewrite !HD.
  split; (intros [H|[H|H]]; [left|right; left|right; right; exact H]).
  - destruct H as (a & H1 & H2). apply elem_ids in H1 as [n H1]. eauto.
  - destruct H as (a & H1 & H2). apply elem_ids in H1 as [n H1]. eauto.
  - destruct H as (n & a & H1 & H2). exists a. split; [apply elem_ids; eauto|assumption].
  - destruct H as (n & a & H1 & H2). exists a. split; [apply elem_ids; eauto|assumption].
Qed.

(** One step that makes a new object is detected, whatever the allocator does. *)
Theorem C62_one_step block o new s s' : astep block o new s s' -> new <> [] -> raises s s' = true.
Proof.
  intros H Hn. apply raises_spec. destruct H as [n a s Ha|n a s Ha|n a s Ha|s k k1 ks Hr|s k k' k1 ks Hr|s]; try congruence; cbn.
  - right. left. exists n, a. rewrite lookup_insert. split; [reflexivity|]. rewrite elem_addrs in Ha. rewrite elem_ids. tauto.
  - left. exists n, a. rewrite lookup_insert. split; [reflexivity|]. rewrite elem_addrs in Ha. rewrite elem_ids. tauto.
  - right. right. exists k'. split; [cbn; set_solver|]. intros Hk. apply (H1 k'); [now left|]. apply elem_addrs. auto.
Qed.
Print Assumptions C62_one_step.

(** Something made after [b]: a parameter, a state pair, or the key of the sequence (not one of the reserved keys). *)
Definition fresh_in (b s : astate) : Prop :=
  (exists n a, as_params s !! n = Some a /\ a ∉ addrs b) \/ (exists n a, as_state s !! n = Some a /\ a ∉ addrs b) \/
  (exists k ks, as_rng s = Some (k, ks) /\ k ∉ addrs b).
Lemma fresh_keep block o new s s' b : astep block o new s s' -> (forall a, a ∈ new -> a ∉ addrs b) -> fresh_in b s -> fresh_in b s'.
Proof.
  intros H Hn F. destruct H as [n a s Ha|n a s Ha Hno|n a s Ha Hno|s k k1 ks Hr|s k k' k1 ks Hr|s]; unfold fresh_in in *; cbn.
  - destruct F as [F|[(n' & a' & H1 & H2)|F]]; [left; assumption| |right; right; assumption]. right. left.
    destruct (decide (n = n')) as [<-|Hne]; [exists n, a; rewrite lookup_insert; split; [reflexivity|apply Hn; now left]|].
    exists n', a'. now rewrite lookup_insert_ne.
  - destruct F as [(n' & a' & H1 & H2)|F]; [left|right; assumption].
    exists n', a'. rewrite lookup_insert_ne by congruence. auto.
  - destruct F as [(n' & a' & H1 & H2)|F]; [left|right; assumption].
    exists n', a'. rewrite lookup_insert_ne by congruence. auto.
  - destruct F as [F|[F|(k0 & ks0 & H1 & H2)]]; [left; assumption|right; left; assumption|]. right. right. rewrite Hr in H1. injection H1 as <- <-. eauto.
  - right. right. exists k', ks. split; [reflexivity|]. apply Hn. now left.
  - exact F.
Qed.
Lemma fresh_make block o new s s' b : astep block o new s s' -> (forall a, a ∈ new -> a ∉ addrs b) -> new <> [] -> fresh_in b s'.
Proof.
  intros H Hn Hne. destruct H as [n a s Ha|n a s Ha Hno|n a s Ha Hno|s k k1 ks Hr|s k k' k1 ks Hr|s]; try congruence; unfold fresh_in; cbn.
  - right. left. exists n, a. rewrite lookup_insert. split; [reflexivity|]. apply Hn. now left.
  - left. exists n, a. rewrite lookup_insert. split; [reflexivity|]. apply Hn. now left.
  - right. right. exists k', ks. split; [reflexivity|]. apply Hn. now left.
Qed.
Lemma steps_fresh block os news s s' b : asteps block os news s s' -> (forall a, a ∈ news -> a ∉ addrs b) -> fresh_in b s \/ news <> [] -> fresh_in b s'.
Proof.
  induction 1 as [s|o os new news s s1 s2 H1 H2 IH]; intros Hn F; [destruct F; [assumption|congruence]|].
  assert (Hn1 : forall a, a ∈ new -> a ∉ addrs b) by (intros a Ha; apply Hn; apply elem_of_app; now left).
  assert (Hn2 : forall a, a ∈ news -> a ∉ addrs b) by (intros a Ha; apply Hn; apply elem_of_app; now right).
  apply IH; [assumption|]. destruct F as [F|F].
  - left. eapply fresh_keep; eauto.
  - destruct new as [|x new]; [right; exact F|]. left. eapply fresh_make; eauto.
Qed.
Lemma step_none block o new s s' b : astep block o new s s' -> new = [] ->
  (forall a, a ∈ ids (as_state s) -> a ∈ ids (as_state b)) -> (forall a, a ∈ rng_ids s -> a ∈ rng_ids b) ->
  (forall a, a ∈ ids (as_state s') -> a ∈ ids (as_state b)) /\ (forall a, a ∈ rng_ids s' -> a ∈ rng_ids b).
Proof.
  intros H E H1 H2. destruct H as [n a s Ha|n a s Ha Hno|n a s Ha Hno|s k k1 ks Hr|s k k' k1 ks Hr|s]; try discriminate; cbn; auto.
  split; [assumption|]. intros a Ha. apply H2. unfold rng_ids in *. rewrite Hr. cbn in *. set_solver.
Qed.

(** Without reuse of addresses, code is rejected if it called [set_state], split the key or made a parameter from a new array, that is,
    if it made any object that haiku keeps (the addresses of these objects are [news])... *)
Theorem C62_no_reuse block os news s s' :
  asteps block os news s s' -> (forall a, a ∈ news -> a ∉ addrs s) -> news <> [] -> raises s s' = true.
Proof.
  intros H Hn Hne. destruct (steps_fresh _ _ _ _ _ s H Hn (or_intror Hne)) as [(n & a & H1 & H2)|[(n & a & H1 & H2)|(k & ks & H1 & H2)]]; apply raises_spec.
  - left. exists n, a. split; [assumption|]. intros Hi. apply elem_ids in Hi. apply H2. apply elem_addrs. auto.
  - right. left. exists n, a. split; [assumption|]. intros Hi. apply elem_ids in Hi. apply H2. apply elem_addrs. auto.
  - right. right. exists k. split; [unfold rng_ids; rewrite H1; set_solver|]. intros Hi. apply H2. apply elem_addrs. auto.
Qed.
Print Assumptions C62_no_reuse.
(** ... and never rejected otherwise (during apply, where no parameters are made). *)
Theorem C62_no_false_alarm block os s s' : asteps block os [] s s' -> (forall n, AParam n ∉ os) -> raises s s' = false.
Proof.
  intros H Hp. apply not_true_iff_false. rewrite raises_spec.
  assert (HH : as_params s' = as_params s /\ (forall a, a ∈ ids (as_state s') -> a ∈ ids (as_state s)) /\ (forall a, a ∈ rng_ids s' -> a ∈ rng_ids s)).
  { remember [] as news eqn:En. assert (G : forall b, (forall a, a ∈ ids (as_state s) -> a ∈ ids (as_state b)) -> (forall a, a ∈ rng_ids s -> a ∈ rng_ids b) ->
      as_params s' = as_params s /\ (forall a, a ∈ ids (as_state s') -> a ∈ ids (as_state b)) /\ (forall a, a ∈ rng_ids s' -> a ∈ rng_ids b)).
    { induction H as [s|o os new news s s1 s2 H1 H2 IH]; intros b Hs Hr; [auto|].
      apply app_eq_nil in En as [E1 E2]. destruct (step_none _ _ _ _ _ b H1 E1 Hs Hr) as [Hs1 Hr1].
      destruct (IH E2) with (b := b) as (P & Q & R); auto; [intros n Hin; apply (Hp n); now right|]. split; [|auto].
      rewrite P. destruct H1 as [n a s Ha|n a s Ha Hno|n a s Ha Hno|s k k1 ks Hr2|s k k' k1 ks Hr2|s]; try discriminate; try reflexivity.
      exfalso. apply (Hp n). left. }
    apply G; auto. }
  destruct HH as (E & HS & HR). rewrite E. intros [(n & a & H1 & H2)|[(n & a & H1 & H2)|(a & H1 & H2)]]; [apply H2, elem_ids; eauto|apply H2, HS, elem_ids; eauto|auto].
Qed.
Print Assumptions C62_no_false_alarm.

(** [set_state] then [set_state] again, the second pair placed where the original one was: not detected, although the
    value changed. *)
Theorem C62_reuse_refuted : exists block os news s s',
  asteps block os news s s' /\ os = [ASet 0; ASet 0] /\ raises s s' = false.
Proof.
  exists 1, [ASet 0; ASet 0], [11; 10], (AS ∅ {[0 := 10]} None), (AS ∅ {[0 := 10]} None). split; [|split; [reflexivity|]].
  - change [11; 10] with ([11] ++ [10] ++ []). eapply A_cons; [apply A_set; rewrite elem_addrs; cbn|].
    + intros [[n H]|[[n H]|H]]; [now rewrite lookup_empty in H| |set_solver]. destruct (decide (n = 0)) as [->|Hne]; [rewrite lookup_singleton in H; congruence|now rewrite lookup_singleton_ne in H by congruence].
    + eapply A_cons; [apply A_set; rewrite elem_addrs; cbn|].
      * intros [[n H]|[[n H]|H]]; [now rewrite lookup_empty in H| |set_solver]. destruct (decide (n = 0)) as [->|Hne]; [rewrite lookup_insert in H; congruence|].
        now rewrite lookup_insert_ne, lookup_singleton_ne in H by congruence.
      * cbn. rewrite !insert_insert. rewrite insert_singleton. apply A_nil.
  - apply not_true_iff_false. rewrite raises_spec. cbn. intros [(n & a & H1 & H2)|[(n & a & H1 & H2)|(a & H1 & H2)]]; [now rewrite lookup_empty in H1| |set_solver].
    apply H2, elem_ids. eauto.
Qed.
Print Assumptions C62_reuse_refuted.

(** Taking a key that was already reserved is not detected under any allocator. *)
Theorem C62_reserved_refuted : exists block s s', asteps block [ANext] [] s s' /\ raises s s' = false /\ as_rng s' <> as_rng s.
Proof.
  exists 1, (AS ∅ ∅ (Some (1, [2; 3]))), (AS ∅ ∅ (Some (1, [3]))).
  assert (H : asteps 1 [ANext] [] (AS ∅ ∅ (Some (1, [2; 3]))) (AS ∅ ∅ (Some (1, [3])))).
  { refine (A_cons _ _ _ [] [] _ (AS ∅ ∅ (Some (1, [3]))) _ _ (A_nil _ _)). now eapply (A_next _ (AS ∅ ∅ (Some (1, [2; 3])))). }
  split; [exact H|]. split; [|discriminate]. eapply C62_no_false_alarm; [exact H|]. intros n Hin. set_solver.
Qed.
Print Assumptions C62_reserved_refuted.
(** Neither is a parameter initialised with an array that another parameter has already. *)
Theorem C62_alias_refuted : exists block s s', asteps block [AParam 1] [] s s' /\ raises s s' = false /\ as_params s !! 1 = None /\ as_params s' !! 1 <> None.
Proof.
  set (s0 := AS {[0 := 5]} ∅ None). exists 1, s0, (AS (<[1 := 5]> (as_params s0)) (as_state s0) (as_rng s0)).
  split; [|split; [vm_compute; reflexivity|split; [reflexivity|discriminate]]].
  refine (A_cons _ _ _ [] [] _ _ _ _ (A_nil _ _)).
  apply (A_param_old _ 1 5 s0); [|reflexivity]. apply elem_addrs. left. now exists 0.
Qed.
Print Assumptions C62_alias_refuted.
Example C62_case : exists s', asteps 1 [APure; ASet 0; ANext] [20; 21; 22] (AS {[0 := 1]} {[0 := 2]} (Some (3, []))) s' /\
  raises (AS {[0 := 1]} {[0 := 2]} (Some (3, []))) s' = true.
Proof.
  eexists. split.
  - change [20; 21; 22] with ([] ++ [20] ++ ([21; 22] ++ [])). eapply A_cons; [apply A_pure|]. eapply A_cons; [apply A_set; vm_compute; intros H; repeat (inversion H as [|? ? ? H']; clear H; rename H' into H); inversion H|].
    eapply A_cons; [|apply A_nil]. eapply A_split with (k' := 21) (k1 := 22) (ks := []); [reflexivity|reflexivity|repeat constructor; set_solver|].
    intros a Ha. vm_compute in Ha |- *. set_solver.
  - vm_compute. reflexivity.
Qed.

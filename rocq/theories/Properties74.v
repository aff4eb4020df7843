(** C100, part 7: evaluation does not change the state, names and state of every program, and the formats of further modules. *)
From Coq Require Import String Ascii NArith ZArith List Bool Lia.
From Verif Require Import ModelStr ModelUtils ModelShape ModelPool ModelImageNets ModelConv ProofsStr ProofsShape Properties32 ModelFormat ModelCheckpoints Properties68 Properties69 Properties70 Properties72.
Import ListNotations.
Local Open Scope string_scope.
Local Open Scope Z_scope.

(** ** Evaluation *)
(** Like [quiet], and the result satisfies [P]. *)
Definition quietly {A} (P : A -> Prop) (p : prog A) : Prop := forall fr w a w', run fr p w = Some (a, w') -> w_stack w <> [] ->
  (w_stack w' <> [] /\ tl (w_stack w') = tl (w_stack w) /\ w_state w' = w_state w) /\ P a.
Lemma quietly_quiet {A} (P : A -> Prop) p : quietly P p -> quiet p.
Proof. intros H fr w a w' E N. exact (proj1 (H _ _ _ _ E N)). Qed.
Lemma quiet_quietly {A} (p : prog A) : quiet p -> quietly (fun _ => True) p.
Proof. intros H fr w a w' E N. split; [exact (H _ _ _ _ E N) | exact I]. Qed.
Lemma quietly_bind {A B} (P : A -> Prop) (Q : B -> Prop) p f : quietly P p -> (forall a, P a -> quietly Q (f a)) -> quietly Q (bind p f).
Proof.
  intros H F fr w b w' E N. rewrite run_bind in E. destruct (run fr p w) as [[a w1]|] eqn:E1; [|discriminate].
  destruct (H _ _ _ _ E1 N) as ((N1 & T1 & S1) & Pa). destruct (F a Pa _ _ _ _ E N1) as ((N2 & T2 & S2) & Qb). split; [|exact Qb]. split; [exact N2|]. split; congruence.
Qed.
Lemma quietly_ret {A} (P : A -> Prop) a : P a -> quietly P (Ret a).
Proof. intros H fr w b w' E N. cbn in E. injection E as <- <-. auto. Qed.
Lemma quietly_raise {A} (P : A -> Prop) : quietly P Raise.
Proof. intros fr w b w' E. discriminate E. Qed.
Lemma quietly_each {A B} (P : B -> Prop) (f : A -> prog B) l : (forall a, quietly P (f a)) -> quietly (Forall P) (each f l).
Proof.
  intros H. induction l as [|a l IH]; cbn [each]; [now apply quietly_ret|]. apply (quietly_bind P); [apply H|]. intros b Pb. apply (quietly_bind (Forall P)); [exact IH|]. intros r Pr. apply quietly_ret. now constructor.
Qed.
Lemma quietly_construct {A} (P : A -> Prop) cls name p : quietly P p -> quietly (fun o => P (snd o)) (construct cls name p).
Proof.
  intros H fr w [q a] w' E N. split; [exact (quiet_construct cls name p (quietly_quiet _ _ H) _ _ _ _ E N)|].
  unfold construct in E. destruct (valid_identifier _); [|discriminate]. cbn [run] in E. destruct (w_stack w) as [|sc rest]; [discriminate|].
  destruct (unique_name sc _) as [[q' sc']|]; [|discriminate]. unfold within in E. cbn [bind run] in E. rewrite !run_bind in E. destruct (run fr p _) as [[b w1]|] eqn:E1; [|discriminate].
  destruct (H _ _ _ _ E1 ltac:(discriminate)) as [_ Pb]. cbn in E. destruct (w_stack w1) as [|? [|? ?]]; try discriminate. injection E as _ <- _. exact Pb.
Qed.
Lemma quietly_module {A X Y} (P : A -> Prop) cls name ctor (call : A -> X -> prog Y) : quietly P ctor -> (forall a x, P a -> quiet (call a x)) ->
  quietly (fun f : X -> prog Y => forall x, calm (f x)) (module cls name ctor call).
Proof.
  intros H L. unfold module. apply (quietly_bind _ _ _ _ (quietly_construct P cls name ctor H)). intros [q a] Pa. apply quietly_ret. intros x. apply calm_within, L, Pa.
Qed.
Lemma quietly_linear out bias name : quietly tame (linear out bias name).
Proof. apply (quietly_module (fun _ => True)); [now apply quietly_ret|]. intros [] [t s] _. destruct (rev s); [apply quiet_raise|]. quiets. Qed.
Lemma quietly_conv cls c bias name : quietly tame (conv cls c bias name).
Proof. apply (quietly_module (fun _ => True)); [apply quiet_quietly, quiet_check|]. intros [] [t s] _. apply quiet_bind; [apply quiet_lift|]. intros [[w b] o]. quiets. Qed.
Lemma quiet_chain (l : list layer) : Forall tame l -> forall x, quiet (chain l x).
Proof. induction 1 as [|f l F _ IH]; intros x; cbn [chain]; [apply quiet_ret|]. apply quiet_bind; [apply calm_quiet, F | exact IH]. Qed.
(** A layer with a mode that only reads the state when it is not training. *)
Definition reads (f : bn_mode -> layer) : Prop := forall local x, calm (f (false, local) x).
Lemma quiet_read n : quiet (get_state n None).
Proof. intros fr w a w' E N. unfold get_state in E. cbn in E. destruct (fetch _ _) as [[i v]|]; [|discriminate]. injection E as <- <-. auto. Qed.
Lemma quietly_ema name : quietly (fun _ => True) (ema name).
Proof. unfold ema. apply (quietly_bind (fun _ => True)); [|intros; now apply quietly_ret]. intros fr w a w' E N. split; [|exact I]. exact (quiet_construct _ _ _ (quiet_ret tt) _ _ _ _ E N). Qed.
Lemma quietly_batch_norm c name : quietly reads (batch_norm c name).
Proof.
  unfold batch_norm. apply (quietly_bind (fun _ => True)).
  - intros fr w a w' E N. split; [|exact I]. refine (quiet_construct _ _ _ _ _ _ _ _ E N). apply quiet_bind; [apply quiet_check|]. intros _. apply quiet_bind; [exact (quietly_quiet _ _ (quietly_ema _))|]. intros a0.
    apply quiet_bind; [exact (quietly_quiet _ _ (quietly_ema _))|]. intros b0. apply quiet_ret.
  - intros [q [m v]] _. apply quietly_ret. intros local [t s]. apply calm_within. cbv zeta. apply quiet_bind.
    + destruct local; cbn [orb]; [quiets|]. unfold ema_average. apply quiet_bind; [apply calm_quiet, calm_within, quiet_read|]. intros a. apply quiet_bind; [apply calm_quiet, calm_within, quiet_read|]. intros b. apply quiet_ret.
    + intros [m' v']. repeat first [apply quiet_bind; [|intros ?] | apply quiet_ret | apply quiet_when, quiet_param | apply quiet_broadcast | apply quiet_lift].
Qed.

Section ResNet.
Context (scale offset : bool).
Lemma quietly_block_convs ch st bo v1 : quietly (Forall (fun l => tame (fst l) /\ reads (snd l))) (block_convs scale offset ch st bo v1).
Proof.
  unfold block_convs. apply quietly_each. intros [i [[c k] s]]. apply (quietly_bind tame); [apply quietly_conv|]. intros f F. apply (quietly_bind reads); [apply quietly_batch_norm|]. intros b B. apply quietly_ret. auto.
Qed.
Lemma quietly_block_v1 ch st pr bo name : quietly reads (block_v1 scale offset ch st pr bo name).
Proof.
  unfold block_v1. eapply quietly_bind.
  - apply (quietly_construct (fun p => (forall local, Forall tame (fst p (false, local))) /\ Forall (fun l => tame (fst l) /\ reads (snd l)) (snd p))).
    apply (quietly_bind (fun p => forall local : bool, Forall tame (p (false, local)))).
    + destruct pr; [|apply quietly_ret; constructor]. apply (quietly_bind tame); [apply quietly_conv|]. intros f F. apply (quietly_bind reads); [apply quietly_batch_norm|]. intros b B. apply quietly_ret. intros local. constructor; [exact F|]. constructor; [intros x; apply B | constructor].
    + intros p Hp. eapply quietly_bind; [apply quietly_block_convs|]. intros l Hl. apply quietly_ret. auto.
  - intros [q [p l]] [Hp Hl]. apply quietly_ret. intros local x. apply calm_within. cbn [fst snd] in *. apply quiet_bind; [apply quiet_chain, Hp|]. intros s. apply quiet_bind; [|intros; apply quiet_broadcast].
    apply quiet_chain. apply Forall_forall. intros f I. apply in_flat_map in I as ([c b] & I & [<-|[<-|[]]]); rewrite Forall_forall in Hl; destruct (Hl _ I) as [C B]; [exact C | intros y; apply B].
Qed.
Lemma quietly_block_v2 ch st pr bo name : quietly reads (block_v2 scale offset ch st pr bo name).
Proof.
  unfold block_v2. eapply quietly_bind.
  - apply (quietly_construct (fun p => (forall c, fst p = Some c -> tame c) /\ Forall (fun l => tame (fst l) /\ reads (snd l)) (snd p))).
    apply (quietly_bind (fun p : option layer => forall c, p = Some c -> tame c)).
    + destruct pr; [|apply quietly_ret; discriminate]. apply (quietly_bind tame); [apply quietly_conv|]. intros f F. apply quietly_ret. intros c [= <-]. exact F.
    + intros p Hp. eapply quietly_bind; [apply quietly_block_convs|]. intros l Hl. apply quietly_ret. auto.
  - intros [q [p l]] [Hp Hl]. apply quietly_ret. intros local x. apply calm_within. cbn [fst snd] in *. destruct l as [|[c0 b0] l]; [apply quiet_raise|]. apply Forall_cons_iff in Hl as [[C0 B0] Hl].
    apply quiet_bind; [apply calm_quiet, B0|]. intros y. apply quiet_bind; [destruct p as [c|]; [apply calm_quiet, (Hp c eq_refl) | apply quiet_ret]|]. intros s. apply quiet_bind; [apply calm_quiet, C0|]. intros z.
    apply quiet_bind; [|intros; apply quiet_broadcast].
    apply quiet_chain. apply Forall_forall. intros f I. apply in_flat_map in I as ([c b] & I & [<-|[<-|[]]]); rewrite Forall_forall in Hl; destruct (Hl _ I) as [C B]; [intros w; apply B | exact C].
Qed.
Lemma tame_net f : tame (net_of f).
Proof. intros x fr w a w' E. unfold net_of, shape_map in E. rewrite run_bind in E. destruct (option_map snd (f (snd x))); [|discriminate E]. cbn in E. injection E as <- <-. auto. Qed.
Lemma quietly_resnet cls c v2 classes name : quietly reads (resnet scale offset cls c v2 classes name).
Proof.
  unfold resnet. destruct (rn_blocks c) as [|b0 [|b1 [|b2 [|b3 [|]]]]]; try apply quietly_raise. destruct (rn_channels c) as [|c0 [|c1 [|c2 [|c3 [|]]]]]; try apply quietly_raise.
  destruct (rn_projection c) as [|p0 [|p1 [|p2 [|p3 pr]]]]; try apply quietly_raise.
  set (G := fun f : bn_mode -> list layer => forall local, Forall tame (f (false, local))).
  eapply quietly_bind.
  - apply (quietly_construct (fun o => let '(i, f, g, l, m) := o in tame i /\ G f /\ Forall reads g /\ G l /\ tame m)).
    apply (quietly_bind tame); [apply quietly_conv|]. intros i Hi. apply (quietly_bind G).
    { destruct v2; [apply quietly_ret; intros local; constructor|]. apply (quietly_bind reads); [apply quietly_batch_norm|]. intros b B. apply quietly_ret. intros local. constructor; [intros x; apply B | constructor]. }
    intros f Hf. apply (quietly_bind (Forall reads)).
    { apply quietly_each. intros [[[[j ch] n] s] p]. unfold block_group. eapply quietly_bind.
      - apply (quietly_construct (Forall reads)). apply quietly_each. intros k. destruct v2; [apply quietly_block_v2 | apply quietly_block_v1].
      - intros [q bs] Hb. apply quietly_ret. intros local x. apply calm_within, quiet_chain. apply Forall_map. eapply Forall_impl; [|exact Hb]. intros b B y. apply B. }
    intros g Hg. apply (quietly_bind G).
    { destruct v2; [|apply quietly_ret; intros local; constructor]. apply (quietly_bind reads); [apply quietly_batch_norm|]. intros b B. apply quietly_ret. intros local. constructor; [intros x; apply B | constructor]. }
    intros l Hl. apply (quietly_bind tame); [apply quietly_linear|]. intros m Hm. apply quietly_ret. auto.
  - intros [q [[[[i f] g] l] m]] (Hi & Hf & Hg & Hl & Hm). apply quietly_ret. intros local x. apply calm_within, quiet_chain. cbn [snd app]. constructor; [exact Hi|].
    apply Forall_app. split; [apply Hf|]. constructor; [apply tame_net|]. apply Forall_app. split; [|apply Forall_app; split; [apply Hl|]].
    + apply Forall_map. eapply Forall_impl; [|exact Hg]. intros b B y. apply B.
    + constructor; [apply tame_net|]. constructor; [exact Hm | constructor].
Qed.
End ResNet.
Lemma quietly_depthwise m k s p last b name : quietly tame (depthwise m k s p last b name).
Proof.
  apply (quietly_module (fun _ => True)); [now apply quietly_ret|]. intros [] [t sh] _. apply quiet_bind; [apply quiet_lift|]. intros [[|w b'] o]; [apply quiet_raise|]. apply quiet_bind; [apply quiet_param|]. intros _.
  apply quiet_bind; [destruct b'; [apply quiet_ret | apply quiet_param]|]. intros _. apply quiet_ret.
Qed.
Lemma quiet_mobile_bn use_bn x : quiet (mobile_bn use_bn false x).
Proof. unfold mobile_bn. destruct use_bn; [|apply quiet_ret]. apply (quietly_quiet (fun _ => True)). apply (quietly_bind reads); [apply quietly_batch_norm|]. intros b B. apply quiet_quietly, calm_quiet, B. Qed.
Lemma quiet_chain' (l : list layer) : Forall (fun f => forall x, quiet (f x)) l -> forall x, quiet (chain l x).
Proof. induction 1 as [|f l F _ IH]; intros x; cbn [chain]; [apply quiet_ret|]. apply quiet_bind; [apply F | exact IH]. Qed.
Lemma quietly_mobilenet strides channels classes use_bn name : quietly (fun f : bool -> layer => forall x, calm (f false x)) (mobilenet strides channels classes use_bn name).
Proof.
  unfold mobilenet. apply (quietly_bind (fun _ => True)).
  { intros fr w a w' E N. split; [|exact I]. exact (quiet_construct _ _ _ (quiet_check _) _ _ _ _ E N). }
  intros [q []] _. apply quietly_ret. intros x. apply calm_within. apply (quietly_quiet (fun _ => True)). apply (quietly_bind tame); [apply quietly_conv|]. intros c C. apply (quietly_bind (fun _ => True)).
  - apply quiet_quietly, quiet_chain'. cbn [app]. constructor; [intros y; apply calm_quiet, C|]. constructor; [intros y; apply quiet_mobile_bn|]. apply Forall_app. split.
    + apply Forall_map, Forall_forall. intros [s ch] _ y. cbn [fst snd]. apply (quietly_quiet (fun _ => True)). apply (quietly_bind tame).
      * apply (quietly_module (fun _ => True)); [now apply quietly_ret|]. intros [] z _. apply (quietly_quiet (fun _ => True)). apply (quietly_bind tame); [apply quietly_depthwise|]. intros d D.
        apply (quietly_bind tame); [apply quietly_conv|]. intros p P. apply quiet_quietly, quiet_chain'. repeat apply Forall_cons; try apply Forall_nil; intros u; first [apply calm_quiet, D | apply calm_quiet, P | apply quiet_mobile_bn].
      * intros b B. apply quiet_quietly, calm_quiet, B.
    + constructor; [intros y; apply calm_quiet, tame_net | constructor].
  - intros y _. apply (quietly_bind tame).
    + apply (quietly_module (fun _ => True)); [now apply quietly_ret|]. intros [] z _. quiets.
    + intros f F. apply (quietly_bind (fun _ => True)); [apply quiet_quietly, calm_quiet, F|]. intros z _. apply (quietly_bind tame); [apply quietly_linear|]. intros l L. apply quiet_quietly, calm_quiet, L.
Qed.

(** With [is_training=False] the networks return the state they are given, for all configurations and inputs for which they return at all. *)
Lemma quiet_apply {A} (p : prog A) params state a state' : quiet p -> apply p params state = Some (a, state') -> state' = state.
Proof.
  intros Q H. unfold apply in H. destruct (run true p (start params state)) as [[b w]|] eqn:E; [|discriminate]. injection H as _ <-. destruct (Q _ _ _ _ E ltac:(discriminate)) as (_ & _ & S).
  unfold current. rewrite S. unfold start. cbn [w_state]. rewrite map_map. cbn [fst snd]. rewrite (map_ext _ (fun p => p)); [apply map_id | now intros []].
Qed.
Theorem C100_evaluation params state y state' x local : 
  (forall c name, apply (f <- batch_norm c name ;; f (false, local) x) params state = Some (y, state') -> state' = state) /\
  (forall scale offset cls c v2 classes name, apply (f <- resnet scale offset cls c v2 classes name ;; f (false, local) x) params state = Some (y, state') -> state' = state) /\
  (forall strides channels classes use_bn name, apply (f <- mobilenet strides channels classes use_bn name ;; f false x) params state = Some (y, state') -> state' = state).
Proof.
  split; [|split]; intros *; apply quiet_apply, (quietly_quiet (fun _ => True)).
  - apply (quietly_bind reads); [apply quietly_batch_norm|]. intros f F. apply quiet_quietly, calm_quiet, F.
  - apply (quietly_bind reads); [apply quietly_resnet|]. intros f F. apply quiet_quietly, calm_quiet, F.
  - eapply quietly_bind; [apply quietly_mobilenet|]. intros f F. apply quiet_quietly, calm_quiet, F.
Qed.
Print Assumptions C100_evaluation.
(** A BatchNorm that has never been trained has no averages: init in evaluation mode without local statistics raises, whatever the input. *)
Theorem C100_untrained c name x : init (f <- batch_norm c name ;; f (false, false) x) = None.
Proof.
  unfold init. rewrite run_bind. destruct (run false (batch_norm c name) (start [] [])) as [[f w]|] eqn:E; [|reflexivity].
  destruct (quietly_batch_norm c name _ _ _ _ E ltac:(discriminate)) as ((N & T & S) & _). cbn in S. unfold batch_norm in E. rewrite run_bind in E.
  destruct (run false (construct _ _ _) _) as [[[q [m v]] w1]|]; [|discriminate E]. cbn [run] in E. injection E as <- <-. destruct x as [t s]. unfold within. cbn [orb run bind].
  unfold ema_average, within. cbn [bind run]. rewrite S. cbn. reflexivity.
Qed.
Print Assumptions C100_untrained.
Example C100_evaluation_case : let bn := fun mode => f <- batch_norm (BN true true false None true) None ;; f mode (f32 [8; 2; 2; 3]) in
  exists params state, init (bn (true, false)) = Some (params, state) /\ apply (bn (false, false)) params state = Some (f32 [8; 2; 2; 3], state) /\
  apply (bn (false, true)) params state = Some (f32 [8; 2; 2; 3], state) /\ List.length state = 6%nat /\ init (bn (false, true)) = Some (params, []).
Proof. vm_compute. do 2 eexists. repeat split. Qed.

(** ** Names and state *)
(** Outside modules the name of the module is "~"; state set at init is the initial state the first time only, and later reads see the last value. *)
Theorem C100_outside n a b c : init (param n a) = Some ([(("~", n), a)], []) /\
  init (set_state n a ;;; set_state n b ;;; get_state n None) = Some ([], [(("~", n), a)]) /\
  apply (set_state n a ;;; set_state n b ;;; get_state n None) [] [(("~", n), c)] = Some (b, [(("~", n), b)]) /\
  init (get_state n (Some a) ;;; set_state n b) = Some ([], [(("~", n), a)]) /\
  apply (get_state n (Some a)) [] [(("~", n), c)] = Some (c, [(("~", n), c)]).
Proof.
  unfold init, apply, start, initial, current, get_state, set_state, param. cbn [bind run map fst snd w_state w_params w_stack fetch bundle app put]. rewrite !key_eqb_refl.
  cbn [run bind fetch put w_state w_params w_stack fst snd map bundle app]. rewrite !key_eqb_refl. cbn [run bind fetch put w_state w_params w_stack fst snd map bundle app]. rewrite ?key_eqb_refl. cbn [run map fst snd w_state]. repeat split.
Qed.
Print Assumptions C100_outside.
(** In every program at every point: what is read after setting is what was set, and nothing else has changed. *)
Theorem C100_set_get fr n a i w : exists w', run fr (set_state n a ;;; get_state n i) w = Some (a, w') /\ w_params w' = w_params w /\ w_stack w' = w_stack w /\
  (forall k, k <> (bundle w, n) -> fetch k (w_state w') = fetch k (w_state w)) /\
  (forall j v, fetch (bundle w, n) (w_state w) = Some (j, v) -> fetch (bundle w, n) (w_state w') = Some (j, a)) /\
  (fetch (bundle w, n) (w_state w) = None -> fetch (bundle w, n) (w_state w') = Some (a, a)).
Proof.
  unfold set_state, get_state. cbn [bind run]. set (first := match fetch (bundle w, n) (w_state w) with Some (j, _) => j | None => a end).
  assert (B : bundle (World (w_params w) (put (bundle w, n) (first, a) (w_state w)) (w_stack w)) = bundle w) by reflexivity. rewrite B. cbn [w_state]. rewrite fetch_put, key_eqb_refl. cbn [run].
  exists (World (w_params w) (put (bundle w, n) (first, a) (w_state w)) (w_stack w)). cbn [w_params w_state w_stack]. split; [reflexivity|]. split; [reflexivity|]. split; [reflexivity|]. split; [|split].
  - intros k K. rewrite fetch_put. apply key_eqb_neq in K. now rewrite K.
  - intros j v F. rewrite fetch_put, key_eqb_refl. unfold first. now rewrite F.
  - intros F. rewrite fetch_put, key_eqb_refl. unfold first. now rewrite F.
Qed.
Print Assumptions C100_set_get.

(** The names of one scope. *)
Definition below (sc : scope) : Prop := forall u, In u (sc_used sc) -> match explicit_number u with Some (b, i) => u = b ++ "_" ++ str_of_N i /\ (i < counter b (sc_counters sc))%N | None => (0 < counter u (sc_counters sc))%N end.
Lemma counter_cons b c n l : counter n ((b, c) :: l) = if String.eqb n b then c else counter n l.
Proof. unfold counter, ModelUtils.lookup. cbn [find fst]. rewrite (String.eqb_sym b n). destruct (String.eqb n b); reflexivity. Qed.
Lemma explicit_canon b i : explicit_number (b ++ String "_" (str_of_N i)) = Some (b, i).
Proof. exact (explicit_number_canon b i). Qed.
Lemma unique_name_below sc n q sc' : unique_name sc n = Some (q, sc') -> below sc -> below sc' /\ sc_module sc' = sc_module sc /\ sc_used sc' = q :: sc_used sc /\ ~ In q (sc_used sc).
Proof.
  unfold unique_name. set (full := scoped sc n). intros E Bl. destruct (explicit_number full) as [[b i]|] eqn:X.
  - destruct (existsb _ (sc_used sc)) eqn:U; [discriminate|]. injection E as <- <-. cbn [sc_module sc_used]. split; [|split; [reflexivity|split; [reflexivity|]]].
    + intros u [<-|I]; cbn [sc_counters].
      * rewrite explicit_canon, counter_cons, String.eqb_refl. split; [reflexivity | lia].
      * specialize (Bl u I). destruct (explicit_number u) as [[b' j]|].
        -- destruct Bl as [-> L]. split; [reflexivity|]. rewrite counter_cons. destruct (String.eqb_spec b' b) as [->|_]; lia.
        -- rewrite counter_cons. destruct (String.eqb_spec u b) as [->|_]; lia.
    + intros I. rewrite (proj2 (existsb_exists _ _)) in U; [discriminate|]. exists (b ++ "_" ++ str_of_N i). split; [exact I | apply String.eqb_refl].
  - destruct (existsb _ (sc_used sc)) eqn:U; [discriminate|]. injection E as <- <-. cbn [sc_module sc_used]. split; [|split; [reflexivity|split; [reflexivity|]]].
    + intros u [<-|I]; cbn [sc_counters].
      * destruct (counter full (sc_counters sc) =? 0)%N eqn:Z; [rewrite X | rewrite explicit_canon]; rewrite counter_cons, String.eqb_refl; [lia|]. split; [reflexivity | lia].
      * specialize (Bl u I). destruct (explicit_number u) as [[b' j]|].
        -- destruct Bl as [-> L]. split; [reflexivity|]. rewrite counter_cons. destruct (String.eqb_spec b' full) as [->|_]; lia.
        -- rewrite counter_cons. destruct (String.eqb_spec u full) as [->|_]; lia.
    + intros I. rewrite (proj2 (existsb_exists _ _)) in U; [discriminate|]. eexists. split; [exact I | apply String.eqb_refl].
Qed.
Lemma unique_name_plain sc n : below sc -> explicit_number (scoped sc n) = None -> exists q sc', unique_name sc n = Some (q, sc').
Proof.
  intros Bl X. unfold unique_name. rewrite X. destruct (existsb _ (sc_used sc)) eqn:U; [exfalso | eauto]. apply existsb_exists in U as (u & I & E). apply String.eqb_eq in E. subst u. specialize (Bl _ I).
  destruct (counter (scoped sc n) (sc_counters sc) =? 0)%N eqn:Z.
  - rewrite X in Bl. apply N.eqb_eq in Z. lia.
  - rewrite explicit_number_canon in Bl. lia.
Qed.
(** The modules made in one method call have different names, and a module whose name does not end in a number can always be made. *)
Theorem C100_names fr m ns rest P S qs w' : run fr (each (fun n => Name n Ret) ns) (World P S (Scope m [] [] :: rest)) = Some (qs, w') ->
  NoDup qs /\ forall n, explicit_number (scoped (Scope m [] []) n) = None -> exists q w'', run fr (Name n Ret) w' = Some (q, w'') /\ ~ In q qs.
Proof.
  assert (H : forall ns sc qs w', below sc -> NoDup (sc_used sc) -> run fr (each (fun n => Name n Ret) ns) (World P S (sc :: rest)) = Some (qs, w') ->
    exists sc', w' = World P S (sc' :: rest) /\ below sc' /\ sc_module sc' = sc_module sc /\ sc_used sc' = (rev qs ++ sc_used sc)%list /\ NoDup (sc_used sc')).
  { clear. induction ns as [|n ns IH]; intros sc qs w' Bl N E; cbn [each] in E.
    - cbn in E. injection E as <- <-. exists sc. auto.
    - cbn [bind run w_stack] in E. destruct (unique_name sc n) as [[q sc1]|] eqn:U; [|discriminate]. cbn [w_params w_state] in E. rewrite run_bind in E. destruct (unique_name_below _ _ _ _ U Bl) as (B1 & M1 & U1 & F1).
      destruct (run fr (each _ ns) _) as [[r w1]|] eqn:E1; [|discriminate]. cbn in E. injection E as <- <-.
      destruct (IH sc1 r w1 B1) as (sc' & -> & B' & M' & U' & N'); [rewrite U1; now constructor | exact E1|].
      exists sc'. split; [reflexivity|]. split; [exact B'|]. split; [congruence|]. split; [|exact N']. rewrite U', U1. cbn [rev]. now rewrite <- app_assoc. }
  intros E. destruct (H ns (Scope m [] []) qs w') as (sc' & -> & B & M & U & N); [intros u [] | constructor | exact E|]. cbn [sc_used sc_module] in *. rewrite app_nil_r in U. split.
  - rewrite U in N. apply NoDup_rev in N. now rewrite rev_involutive in N.
  - intros n X. destruct (unique_name_plain sc' n B) as (q & sc'' & Uq).
    { unfold scoped in *. rewrite M. exact X. }
    destruct (unique_name_below _ _ _ _ Uq B) as (_ & _ & _ & F). exists q, (World P S (sc'' :: rest)). cbn [run w_stack]. rewrite Uq. split; [reflexivity|]. intros I. apply F. rewrite U. now apply in_rev in I.
Qed.
Print Assumptions C100_names.
Example C100_names_case : let w := World [] [] [Scope None [] []] in
  option_map fst (run false (each (fun n => Name n Ret) ["linear_3"; "linear_1"; "linear"; "linear"]) w) = Some ["linear_3"; "linear_1"; "linear_4"; "linear_5"] /\
  run false (each (fun n => Name n Ret) ["linear"; "linear"; "linear_1"]) w = None /\
  option_map fst (run false (each (fun n => Name n Ret) ["linear"; "linear_0"]) w) = Some ["linear"; "linear_0"] /\
  init (f <- linear 3 true (Some "linear_3") ;; g <- linear 2 true None ;; y <- f (f32 [4; 1]) ;; g y) =
    Some ([(("linear_3", "w"), f32 [1; 3]); (("linear_3", "b"), f32 [3]); (("linear_4", "w"), f32 [3; 2]); (("linear_4", "b"), f32 [2])], []).
Proof. vm_compute. repeat split. Qed.

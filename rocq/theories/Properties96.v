(** * C109: the library built in docs/notebooks/build_your_own_haiku.ipynb *)
From Coq Require Import String Ascii List Bool Arith NArith Lia.
From Verif Require Import ModelStr ProofsStr ModelMini.
Import ListNotations.
Open Scope string_scope.
Open Scope list_scope.

Local Arguments param_path : simpl never.
Local Arguments unique_name : simpl never.

(** ** Dictionaries *)
Lemma pget_pset_same {A} (d : list (string * A)) k v : pget (pset d k v) k = Some v.
Proof.
  induction d as [|[k' v'] d IH]; cbn; [now rewrite String.eqb_refl|].
  destruct (String.eqb k k') eqn:E; cbn; [now rewrite String.eqb_refl|]. now rewrite E.
Qed.
Lemma pget_pset_other {A} (d : list (string * A)) k k' v : k' <> k -> pget (pset d k v) k' = pget d k'.
Proof.
  intros N. induction d as [|[k2 v2] d IH]; cbn.
  - destruct (String.eqb_spec k' k); [contradiction|reflexivity].
  - destruct (String.eqb_spec k k2) as [<-|]; cbn.
    + destruct (String.eqb_spec k' k); [contradiction|reflexivity].
    + destruct (String.eqb k' k2); [reflexivity|exact IH].
Qed.
Lemma pset_fresh {A} (d : list (string * A)) k v : ~ In k (map fst d) -> pset d k v = d ++ [(k, v)].
Proof.
  induction d as [|[k' v'] d IH]; cbn; intros H; [reflexivity|].
  destruct (String.eqb_spec k k') as [<-|]; [exfalso; auto|]. rewrite IH by auto. reflexivity.
Qed.

(** ** Paths *)
Lemma has_char_cons c d s : has_char c (String d s) = orb (Ascii.eqb d c) (has_char c s).
Proof. unfold has_char. cbn. now rewrite negb_andb, negb_involutive. Qed.
Lemma has_char_app' c a b : has_char c (a ++ b)%string = orb (has_char c a) (has_char c b).
Proof. induction a as [|d a IH]; [reflexivity|]. cbn [append]. rewrite !has_char_cons, IH. apply orb_assoc. Qed.
Lemma split_slash_plain s : has_char "/"%char s = false -> split_slash s = [s].
Proof.
  induction s as [|c s IH]; [reflexivity|]. rewrite has_char_cons. intros H. apply orb_false_iff in H as [H1 H2].
  cbn [split_slash]. rewrite H1, (IH H2). reflexivity.
Qed.
Lemma split_slash_app a b : has_char "/"%char a = false -> split_slash (a ++ "/" ++ b)%string = a :: split_slash b.
Proof.
  induction a as [|c a IH]; [reflexivity|]. rewrite has_char_cons. intros H. apply orb_false_iff in H as [H1 H2].
  change (split_slash (String c (a ++ "/" ++ b)) = String c a :: split_slash b). cbn [split_slash]. rewrite H1, (IH H2). reflexivity.
Qed.
Lemma split_slash_concat l : l <> [] -> Forall (fun s => has_char "/"%char s = false) l -> split_slash (String.concat "/" l) = l.
Proof.
  induction l as [|a l IH]; [congruence|]. intros _ F. inversion F as [|? ? Ha Fl]; subst.
  destruct l as [|b l]; [now apply split_slash_plain|].
  change (split_slash (a ++ "/" ++ String.concat "/" (b :: l))%string = a :: b :: l).
  rewrite (split_slash_app _ _ Ha), IH; [reflexivity|discriminate|exact Fl].
Qed.
Theorem C109_path : forall s s' i i',
  Forall (fun n => has_char "/"%char n = false) (i :: i' :: s ++ s') ->
  param_path s i = param_path s' i' -> s = s' /\ i = i'.
Proof.
  intros s s' i i' F E. inversion F as [|? ? Hi F1]; subst. inversion F1 as [|? ? Hi' F2]; subst.
  apply Forall_app in F2 as [Fs Fs'].
  assert (L : forall t j, Forall (fun n => has_char "/"%char n = false) t -> has_char "/"%char j = false ->
             split_slash (param_path t j) = "~" :: t ++ [j]).
  { intros t j Ft Fj. apply split_slash_concat; [discriminate|]. constructor; [reflexivity|]. apply Forall_app. split; [exact Ft|]. constructor; [exact Fj|constructor]. }
  pose proof (f_equal split_slash E) as E'. rewrite !L in E' by assumption. injection E' as E'. now apply app_inj_tail in E'.
Qed.
(** With a slash in an identifier two places share a parameter. *)
Theorem C109_path_refuted : exists s i s' i', (s, i) <> (s', i') /\ param_path s i = param_path s' i'.
Proof. exists ["Linear_0"; "__call__"], "w", [], "Linear_0/__call__/w". split; [discriminate|reflexivity]. Qed.

Section Runs.
Context {V : Type} (normal : nat -> list nat -> V).
Notation frame := (frame V).
Notation mini := (mini V).
Notation run := (run normal).

(** ** The stacks *)
(** The same frames below, and the frame in use with the same call stack (if [b]), the same mode and, unless it initialises, the same parameters. *)
Definition below (b : bool) (fs fs' : list frame) : Prop :=
  match fs with
  | [] => fs' = []
  | fr :: r => exists fr', fs' = fr' :: r /\ (b = true -> f_stack fr' = f_stack fr) /\ f_init fr' = f_init fr
                           /\ (f_init fr = false -> f_params fr' = f_params fr)
  end.
Lemma below_refl b fs : below b fs fs.
Proof. destruct fs; cbn; [reflexivity|]. eexists. auto. Qed.
Lemma below_trans b c d fs1 fs2 fs3 : (d = true -> b = true /\ c = true) -> below b fs1 fs2 -> below c fs2 fs3 -> below d fs1 fs3.
Proof.
  destruct fs1 as [|fr r]; cbn; intros D.
  - intros ->. auto.
  - intros (fr2 & -> & S2 & I2 & P2). cbn. intros (fr3 & -> & S3 & I3 & P3). exists fr3. split; [reflexivity|].
    split; [|split].
    + intros Hd. destruct (D Hd) as [-> ->]. rewrite S3, S2; auto.
    + congruence.
    + intros H. rewrite P3, P2; [reflexivity|exact H|congruence].
Qed.
Lemma pop_last (fr : frame) s n : f_stack fr = s ++ [n] ->
  pop fr n = Some (Frame V (f_params fr) (f_init fr) (f_counts fr) s (f_made fr) (f_asked fr)).
Proof. intros E. unfold pop. rewrite E, rev_app_distr. cbn. now rewrite String.eqb_refl, rev_involutive. Qed.

Definition ends (fs : list frame) (o : outcome V) (fs' : list frame) : Prop :=
  match o with
  | Ok _ => below true fs fs'
  | Err e => e <> AssertionError /\ exists pre rest, fs' = pre ++ rest /\ below false fs rest
  end.
Lemma ends_step b fs1 fs2 o fs3 : (forall v, o = Ok v -> b = true) -> below b fs1 fs2 -> ends fs2 o fs3 -> ends fs1 o fs3.
Proof.
  intros B H. destruct o as [v|e]; cbn.
  - apply below_trans with b; auto. intros _. split; [eapply B; reflexivity|reflexivity].
  - intros [N (pre & rest & -> & R)]. split; [exact N|]. exists pre, rest. split; [reflexivity|].
    refine (below_trans b false false _ _ _ _ H R). discriminate.
Qed.
Lemma ends_here b fs1 fs2 e : e <> AssertionError -> below b fs1 fs2 -> ends fs1 (Err e) fs2.
Proof. intros N B. split; [exact N|]. exists [], fs2. split; [reflexivity|]. refine (below_trans b false false _ _ _ _ B (below_refl _ _)). discriminate. Qed.
(** A run started with one more frame. *)
Lemma ends_above fr fs e fs' : ends (fr :: fs) (Err e) fs' -> ends fs (Err e) fs'.
Proof.
  intros [N (pre & rest & -> & fr' & -> & _)]. split; [exact N|]. exists (pre ++ [fr']), fs. split; [now rewrite <- app_assoc|apply below_refl].
Qed.
Lemma run_ends p : forall fs g o fs' g', run p fs g = (o, fs', g') -> ends fs o fs'.
Proof.
  induction p as [v| |i sh k IH|c k IH|self meth body IHb k IH|body IHb k IH|ps body IHb k IH]; intros fs g o fs' g' E; cbn [ModelMini.run] in E.
  - injection E as <- <- <-. apply below_refl.
  - injection E as <- <- <-. apply (ends_here true); [discriminate|apply below_refl].
  - destruct fs as [|fr r]; [injection E as <- <- <-; apply (ends_here true); [discriminate|apply below_refl]|].
    cbv zeta in E. destruct (f_init (ask fr (param_path (f_stack fr) i))) eqn:I.
    + apply IH in E. refine (ends_step true _ _ _ _ _ _ E); [auto|]. eexists. split; [reflexivity|]. cbn in *. split; [auto|]. split; [auto|]. rewrite I. discriminate.
    + destruct (pget _ _) as [v|].
      * apply IH in E. refine (ends_step true _ _ _ _ _ _ E); [auto|]. eexists. split; [reflexivity|]. cbn. auto.
      * injection E as <- <- <-. apply (ends_here true); [discriminate|]. eexists. split; [reflexivity|]. cbn. auto.
  - destruct fs as [|fr r]; [injection E as <- <- <-; apply (ends_here true); [discriminate|apply below_refl]|].
    apply IH in E. refine (ends_step true _ _ _ _ _ _ E); [auto|]. eexists. split; [reflexivity|]. cbn. auto.
  - destruct fs as [|fr r]; [injection E as <- <- <-; apply (ends_here true); [discriminate|apply below_refl]|].
    destruct (run body (push fr [self; meth] :: r) g) as [[o1 fs1] g1] eqn:E1. apply IHb in E1.
    destruct o1 as [v|e].
    + destruct E1 as (fr1 & -> & S1 & I1 & P1). specialize (S1 eq_refl). cbn in S1, I1, P1.
      rewrite (pop_last fr1 (f_stack fr ++ [self]) meth) in E by now rewrite S1, <- app_assoc.
      erewrite (pop_last _ (f_stack fr) self) in E by reflexivity. cbn in E. apply IH in E.
      refine (ends_step true _ _ _ _ _ _ E); [auto|]. eexists. split; [reflexivity|]. cbn. auto.
    + injection E as <- <- <-. refine (ends_step false _ _ _ _ _ _ E1); [discriminate|]. eexists. split; [reflexivity|]. cbn. split; [discriminate|auto].
  - destruct (run body (init_frame :: fs) g) as [[o1 fs1] g1] eqn:E1. apply IHb in E1. destruct o1 as [v|e].
    + destruct E1 as (fr1 & -> & _). apply IH in E. exact E.
    + injection E as <- <- <-. exact (ends_above _ _ _ _ E1).
  - destruct (run body (apply_frame ps :: fs) g) as [[o1 fs1] g1] eqn:E1. apply IHb in E1. destruct o1 as [v|e].
    + destruct E1 as (fr1 & -> & _). apply IH in E. exact E.
    + injection E as <- <- <-. exact (ends_above _ _ _ _ E1).
Qed.

(** "We leave the global state after a function call the same as before it": on every normal return, nested transforms and all. *)
Theorem C109_restores : forall p fs g v fs' g',
  (run (MInit p (fun _ => MRet v)) fs g = (Ok v, fs', g') -> fs' = fs)
  /\ (forall ps, run (MApply ps p MRet) fs g = (Ok v, fs', g') -> fs' = fs).
Proof.
  assert (K : forall p fr fs g v fs' g', run p (fr :: fs) g = (Ok v, fs', g') -> exists fr', fs' = fr' :: fs).
  { intros p fr fs g v fs' g' E. apply run_ends in E. destruct E as (fr' & -> & _). eauto. }
  intros p fs g v fs' g'. split; [|intros ps]; cbn [ModelMini.run]; intros E.
  - destruct (run p (init_frame :: fs) g) as [[[w|e] fs1] g1] eqn:E1; [|discriminate]. apply K in E1 as [fr' ->]. now injection E as <- _.
  - destruct (run p (apply_frame ps :: fs) g) as [[[w|e] fs1] g1] eqn:E1; [|discriminate]. apply K in E1 as [fr' ->]. now injection E as _ <- _.
Qed.
(** The assertions of [module_method] never fail, and a method that returns leaves the call stack as it was. *)
Theorem C109_call_stack : forall p fr r g o fs' g', run p (fr :: r) g = (o, fs', g') ->
  o <> Err AssertionError /\ (forall v, o = Ok v -> exists fr', fs' = fr' :: r /\ f_stack fr' = f_stack fr).
Proof.
  intros p fr r g o fs' g' E. apply run_ends in E. destruct o as [v|e].
  - destruct E as (fr' & -> & S & _). split; [discriminate|]. intros _ _. eauto.
  - destruct E as [N _]. split; [congruence|discriminate].
Qed.
(** Applying never changes the parameters it was given. *)
Theorem C109_apply_params : forall p ps fs g v fs' g',
  run p (apply_frame ps :: fs) g = (Ok v, fs', g') -> exists fr, fs' = fr :: fs /\ f_params fr = ps.
Proof. intros p ps fs g v fs' g' E. apply run_ends in E. destruct E as (fr & -> & _ & _ & P). exists fr. split; [reflexivity|]. now apply P. Qed.

(** ** "The outputs of a wrapped function depend only on its inputs" *)
Lemma apply_uniform p : no_init p -> forall fr, f_init fr = false ->
  exists o pre, (forall r g, run p (fr :: r) g = (o, pre ++ r, g))
                /\ (forall v, o = Ok v -> exists fr', pre = [fr'] /\ f_init fr' = false /\ f_stack fr' = f_stack fr).
Proof.
  induction p as [v| |i sh k IH|c k IH|self meth body IHb k IH|body IHb k IH|ps body IHb k IH]; intros N fr I; cbn [ModelMini.run no_init] in *.
  - exists (Ok v), [fr]. split; [reflexivity|]. eauto.
  - exists (Err UserError), [fr]. split; [reflexivity|discriminate].
  - cbv zeta. cbn. rewrite I. destruct (pget _ _) as [v|].
    + destruct (IH v (N v) (ask fr (param_path (f_stack fr) i)) I) as (o & pre & R & S). exists o, pre. auto.
    + eexists _, [_]. split; [reflexivity|discriminate].
  - destruct (IH _ (N (unique_name c (count_of (f_counts fr) c))) (make fr c) I) as (o & pre & R & S). exists o, pre. auto.
  - destruct N as [Nb N]. destruct (IHb Nb (push fr [self; meth]) I) as (o & pre & R & S). destruct o as [v|e].
    + destruct (S v eq_refl) as (fr1 & -> & I1 & S1). cbn in S1.
      destruct (IH v (N v) (Frame V (f_params fr1) (f_init fr1) (f_counts fr1) (f_stack fr) (f_made fr1) (f_asked fr1)) I1) as (o & pre & R2 & S2).
      exists o, pre. split; [|exact S2]. intros r g. rewrite R. cbn.
      rewrite (pop_last fr1 (f_stack fr ++ [self]) meth) by now rewrite S1, <- app_assoc.
      erewrite (pop_last _ (f_stack fr) self) by reflexivity. cbn. apply R2.
    + exists (Err e), pre. split; [|discriminate]. intros r g. now rewrite R.
  - destruct N.
  - destruct N as [Nb N]. destruct (IHb Nb (apply_frame ps) eq_refl) as (o & pre & R & S). destruct o as [v|e].
    + destruct (S v eq_refl) as (fr1 & -> & _). destruct (IH v (N v) fr I) as (o & pre & R2 & S2).
      exists o, pre. split; [|exact S2]. intros r g. rewrite R. cbn. apply R2.
    + exists (Err e), (pre ++ [fr]). split; [|discriminate]. intros r g. rewrite R, <- app_assoc. reflexivity.
Qed.
(** Whether a transformed function raises, and what it returns, is the same whatever frames lie below and however many random numbers were drawn; it draws none. *)
Theorem C109_apply_pure : forall p ps, no_init p -> exists o, forall fs g, exists fs',
  run (MApply ps p MRet) fs g = (o, fs', g) /\ (forall v, o = Ok v -> fs' = fs).
Proof.
  intros p ps N. destruct (apply_uniform p N (apply_frame ps) eq_refl) as (o & pre & R & S). exists o. intros fs g.
  cbn [ModelMini.run]. rewrite R. destruct o as [v|e].
  - destruct (S v eq_refl) as (fr' & -> & _). exists fs. split; [reflexivity|auto].
  - exists (pre ++ fs). split; [reflexivity|discriminate].
Qed.

(** Initialising, too, is independent of the frames below, though not of the draws made before. *)
Lemma run_uniform p : forall fr g,
  exists o pre g', (forall r, run p (fr :: r) g = (o, pre ++ r, g'))
                   /\ (forall v, o = Ok v -> exists fr', pre = [fr'] /\ f_stack fr' = f_stack fr).
Proof.
  induction p as [v| |i sh k IH|c k IH|self meth body IHb k IH|body IHb k IH|ps body IHb k IH]; intros fr g; cbn [ModelMini.run].
  - exists (Ok v), [fr], g. split; [reflexivity|]. eauto.
  - exists (Err UserError), [fr], g. split; [reflexivity|discriminate].
  - cbv zeta. destruct (f_init _); [apply (IH _ (store (ask fr _) _ _))|].
    destruct (pget _ _) as [v|]; [apply (IH v (ask fr _))|]. eexists _, [_], _. split; [reflexivity|discriminate].
  - apply (IH _ (make fr c)).
  - destruct (IHb (push fr [self; meth]) g) as (o & pre & g1 & R & S). destruct o as [v|e].
    + destruct (S v eq_refl) as (fr1 & -> & S1). cbn in S1.
      destruct (IH v (Frame V (f_params fr1) (f_init fr1) (f_counts fr1) (f_stack fr) (f_made fr1) (f_asked fr1)) g1) as (o & pre & g2 & R2 & S2).
      exists o, pre, g2. split; [|exact S2]. intros r. rewrite R. cbn.
      rewrite (pop_last fr1 (f_stack fr ++ [self]) meth) by now rewrite S1, <- app_assoc.
      erewrite (pop_last _ (f_stack fr) self) by reflexivity. cbn. apply R2.
    + exists (Err e), pre, g1. split; [|discriminate]. intros r. now rewrite R.
  - destruct (IHb init_frame g) as (o & pre & g1 & R & S). destruct o as [v|e].
    + destruct (S v eq_refl) as (fr1 & -> & _). destruct (IH (f_params fr1) fr g1) as (o & pre & g2 & R2 & S2).
      exists o, pre, g2. split; [|exact S2]. intros r. rewrite R. cbn. apply R2.
    + exists (Err e), (pre ++ [fr]), g1. split; [|discriminate]. intros r. rewrite R, <- app_assoc. reflexivity.
  - destruct (IHb (apply_frame ps) g) as (o & pre & g1 & R & S). destruct o as [v|e].
    + destruct (S v eq_refl) as (fr1 & -> & _). destruct (IH v fr g1) as (o & pre & g2 & R2 & S2).
      exists o, pre, g2. split; [|exact S2]. intros r. rewrite R. cbn. apply R2.
    + exists (Err e), (pre ++ [fr]), g1. split; [|discriminate]. intros r. rewrite R, <- app_assoc. reflexivity.
Qed.
(** What a transformed function does is the same whatever frames lie below, for instance frames that exceptions have left behind; on an exception at least its own frame stays. *)
Theorem C109_surroundings : forall p g, exists o pre g', forall fs,
  run p (init_frame :: fs) g = (o, pre ++ fs, g')
  /\ (forall k, run (MInit p k) fs g = match o, pre with
                                       | Ok _, fr :: _ => run (k (f_params fr)) fs g'
                                       | Ok _, [] => (Err IndexError, [], g')
                                       | Err e, _ => (Err e, pre ++ fs, g')
                                       end)
  /\ pre <> [].
Proof.
  intros p g. destruct (run_uniform p init_frame g) as (o & pre & g' & R & S). exists o, pre, g'. intros fs. split; [apply R|]. split.
  - intros k. cbn [ModelMini.run]. rewrite R. destruct o as [v|e]; [|reflexivity]. destruct (S v eq_refl) as (fr & -> & _). reflexivity.
  - pose proof (run_ends _ _ _ _ _ _ (R [])) as E. rewrite app_nil_r in E. destruct o as [v|e].
    + destruct E as (fr & -> & _). discriminate.
    + destruct E as [_ (a & b & -> & fr & -> & _)]. now destruct a.
Qed.

(** ** Module names *)
Definition named (fr : frame) : Prop :=
  NoDup (f_made fr) /\ forall n, In n (f_made fr) -> exists c m, n = unique_name c m /\ (m < count_of (f_counts fr) c)%N.
Lemma unique_name_inj c m c' m' : unique_name c m = unique_name c' m' -> c = c' /\ m = m'.
Proof.
  unfold unique_name. intros E. pose proof (explicit_number_canon c m) as A. rewrite E, explicit_number_canon in A. injection A as -> ->. auto.
Qed.
Lemma count_pset d c c' : count_of (pset d c (count_of d c + 1)%N) c' = (if String.eqb c' c then count_of d c + 1 else count_of d c')%N.
Proof.
  unfold count_of at 1. destruct (String.eqb_spec c' c) as [->|N]; [now rewrite pget_pset_same|]. now rewrite pget_pset_other.
Qed.
Lemma named_make fr c : named fr -> named (make fr c).
Proof.
  intros [D H]. split; cbn.
  - constructor; [|exact D]. intros I. apply H in I as (c' & m & E & L). apply unique_name_inj in E as [E1 E2]. subst. lia.
  - intros n [<-|I].
    + exists c, (count_of (f_counts fr) c). split; [reflexivity|]. rewrite count_pset, String.eqb_refl. lia.
    + apply H in I as (c' & m & -> & L). exists c', m. split; [reflexivity|]. rewrite count_pset. destruct (String.eqb_spec c' c) as [->|]; lia.
Qed.
Lemma pop_named fr n fr' : named fr -> pop fr n = Some fr' -> named fr'.
Proof. unfold pop. destruct (rev (f_stack fr)) as [|t b]; [discriminate|]. destruct (String.eqb t n); [|discriminate]. intros H E. injection E as <-. exact H. Qed.
Lemma run_named p : forall fs g, Forall named fs -> Forall named (snd (fst (run p fs g))).
Proof.
  induction p as [v| |i sh k IH|c k IH|self meth body IHb k IH|body IHb k IH|ps body IHb k IH]; intros fs g F; cbn [ModelMini.run]; try exact F.
  - destruct fs as [|fr r]; [exact F|]. inversion F as [|? ? F1 F2]; subst. cbv zeta. destruct (f_init _); [apply IH; constructor; assumption|].
    destruct (pget _ _); [apply IH; constructor; assumption|constructor; assumption].
  - destruct fs as [|fr r]; [exact F|]. inversion F as [|? ? F1 F2]; subst. apply IH. constructor; [now apply named_make|exact F2].
  - destruct fs as [|fr r]; [exact F|]. inversion F as [|? ? F1 F2]; subst.
    assert (G : Forall named (push fr [self; meth] :: r)) by (constructor; assumption).
    apply (IHb _ g) in G. destruct (run body _ g) as [[[v|e] fs1] g1]; cbn in G; [|exact G].
    destruct fs1 as [|fr1 r1]; [constructor|]. inversion G as [|? ? G1 G2]; subst.
    destruct (pop fr1 meth) as [fr2|] eqn:P1; [|exact G]. pose proof (pop_named _ _ _ G1 P1) as G3.
    destruct (pop fr2 self) as [fr3|] eqn:P2; [|cbn; constructor; assumption]. pose proof (pop_named _ _ _ G3 P2) as G4.
    apply IH. constructor; assumption.
  - assert (G : Forall named (init_frame :: fs)) by (constructor; [split; [constructor|intros n []]|exact F]).
    apply (IHb _ g) in G. destruct (run body _ g) as [[[v|e] fs1] g1]; cbn in G; [|exact G].
    destruct fs1 as [|fr1 r1]; [constructor|]. inversion G; subst. now apply IH.
  - assert (G : Forall named (apply_frame ps :: fs)) by (constructor; [split; [constructor|intros n []]|exact F]).
    apply (IHb _ g) in G. destruct (run body _ g) as [[[v|e] fs1] g1]; cbn in G; [|exact G].
    destruct fs1 as [|fr1 r1]; [constructor|]. inversion G; subst. now apply IH.
Qed.
(** "A unique (for the current [transform] call) name": the names handed out in one call are pairwise different, however it ends. *)
Theorem C109_names : forall p g,
  (forall fr, In fr (snd (fst (run p [init_frame] g))) -> NoDup (f_made fr))
  /\ (forall ps fr, In fr (snd (fst (run p [apply_frame ps] g))) -> NoDup (f_made fr)).
Proof.
  intros p g. split; [|intros ps]; intros fr I.
  - assert (G : Forall named [@init_frame V]) by (constructor; [split; [constructor|intros n []]|constructor]).
    apply (run_named p _ g) in G. exact (proj1 (proj1 (Forall_forall _ _) G fr I)).
  - assert (G : Forall named [apply_frame ps]) by (constructor; [split; [constructor|intros n []]|constructor]).
    apply (run_named p _ g) in G. exact (proj1 (proj1 (Forall_forall _ _) G fr I)).
Qed.

(** ** Applying the parameters of an initialisation *)
(** A run only adds to what was asked, and a path asked for earlier and not again keeps its value. *)
Lemma run_asked p : forall fr r g v fr' r' g', run p (fr :: r) g = (Ok v, fr' :: r', g') ->
  exists new, f_asked fr' = new ++ f_asked fr /\ forall path, ~ In path new -> pget (f_params fr') path = pget (f_params fr) path.
Proof.
  induction p as [v0| |i sh k IH|c k IH|self meth body IHb k IH|body IHb k IH|ps body IHb k IH]; intros fr r g v fr' r' g' E; cbn [ModelMini.run] in E.
  - injection E as _ <- _ _. exists []. auto.
  - discriminate.
  - cbv zeta in E. destruct (f_init _).
    + apply IH in E as (new & A & P). cbn in A, P. exists (new ++ [param_path (f_stack fr) i]). rewrite A, <- app_assoc. split; [reflexivity|].
      intros path N. rewrite P by (intros H; apply N, in_or_app; auto). apply pget_pset_other. intros ->. apply N, in_or_app. right. now left.
    + destruct (pget _ _) as [w|]; [|discriminate]. apply IH in E as (new & A & P). cbn in A, P.
      exists (new ++ [param_path (f_stack fr) i]). rewrite A, <- app_assoc. split; [reflexivity|].
      intros path N. apply P. intros H; apply N, in_or_app; auto.
  - apply IH in E. exact E.
  - destruct (run body (push fr [self; meth] :: r) g) as [[o1 fs1] g1] eqn:E1. destruct o1 as [w|e]; [|discriminate].
    destruct (run_ends _ _ _ _ _ _ E1) as (fr1 & -> & S1 & _). specialize (S1 eq_refl). cbn in S1. apply IHb in E1 as (new1 & A1 & P1). cbn in A1, P1.
    rewrite (pop_last fr1 (f_stack fr ++ [self]) meth) in E by now rewrite S1, <- app_assoc.
    erewrite (pop_last _ (f_stack fr) self) in E by reflexivity. cbn in E. apply IH in E as (new & A & P). cbn in A, P.
    exists (new ++ new1). rewrite A, A1, <- app_assoc. split; [reflexivity|]. intros path N. rewrite P, P1; [reflexivity| |]; intros H; apply N, in_or_app; auto.
  - destruct (run body (init_frame :: fr :: r) g) as [[o1 fs1] g1] eqn:E1. destruct o1 as [w|e]; [|discriminate].
    destruct (run_ends _ _ _ _ _ _ E1) as (fr1 & -> & _). now apply IH in E.
  - destruct (run body (apply_frame ps :: fr :: r) g) as [[o1 fs1] g1] eqn:E1. destruct o1 as [w|e]; [|discriminate].
    destruct (run_ends _ _ _ _ _ _ E1) as (fr1 & -> & _). now apply IH in E.
Qed.
(** The frame of an application that mirrors one of an initialisation. *)
Definition mirror (Q : list (string * V)) (fr : frame) : frame := Frame V Q false (f_counts fr) (f_stack fr) (f_made fr) (f_asked fr).
Lemma run_mirror p : no_init p -> forall Q fr r g v fr' r' g', f_init fr = true ->
  run p (fr :: r) g = (Ok v, fr' :: r', g') -> NoDup (f_asked fr') ->
  (forall path, In path (f_asked fr') -> pget Q path = pget (f_params fr') path) ->
  forall r2 g2, run p (mirror Q fr :: r2) g2 = (Ok v, mirror Q fr' :: r2, g2).
Proof.
  induction p as [v0| |i sh k IH|c k IH|self meth body IHb k IH|body IHb k IH|ps body IHb k IH]; intros N Q fr r g v fr' r' g' I E D H r2 g2; cbn [ModelMini.run no_init] in *.
  - injection E as <- <- _ _. reflexivity.
  - discriminate.
  - cbv zeta in *. cbn in E. rewrite I in E. cbn.
    pose proof (run_asked _ _ _ _ _ _ _ _ E) as (new & A & P). cbn in A, P.
    assert (Q1 : pget Q (param_path (f_stack fr) i) = Some (normal g sh)).
    { rewrite H by (rewrite A; apply in_or_app; right; now left). rewrite P, pget_pset_same; [reflexivity|].
      intros B. rewrite A in D. apply NoDup_remove_2 in D. apply D, in_or_app. now left. }
    rewrite Q1. match type of E with run _ (?f :: _) _ = _ => exact (IH _ (N _) Q f _ _ _ _ _ _ I E D H r2 g2) end.
  - match type of E with run _ (?f :: _) _ = _ => exact (IH _ (N _) Q f _ _ _ _ _ _ I E D H r2 g2) end.
  - destruct N as [Nb N]. destruct (run body (push fr [self; meth] :: r) g) as [[o1 fs1] g1] eqn:E1. destruct o1 as [w|e]; [|discriminate].
    destruct (run_ends _ _ _ _ _ _ E1) as (fr1 & -> & S1 & I1 & _). specialize (S1 eq_refl). cbn in S1, I1.
    rewrite (pop_last fr1 (f_stack fr ++ [self]) meth) in E by now rewrite S1, <- app_assoc.
    erewrite (pop_last _ (f_stack fr) self) in E by reflexivity. cbn in E.
    pose proof (run_asked _ _ _ _ _ _ _ _ E) as (new & A & P). cbn in A, P.
    assert (D1 : NoDup (f_asked fr1)) by (rewrite A in D; clear - D; induction new as [|a new IHn]; [exact D|inversion D; auto]).
    assert (H1 : forall path, In path (f_asked fr1) -> pget Q path = pget (f_params fr1) path).
    { intros path B. rewrite H by (rewrite A; apply in_or_app; auto). apply P. intros C. rewrite A in D.
      apply in_split in B as (l1 & l2 & B). rewrite B, app_assoc in D. apply NoDup_remove_2 in D. apply D, in_or_app. left. apply in_or_app. now left. }
    change (push (mirror Q fr) [self; meth]) with (mirror Q (push fr [self; meth])).
    assert (Ip : f_init (push fr [self; meth]) = true) by exact I.
    rewrite (IHb Nb Q _ _ _ _ _ _ _ Ip E1 D1 H1 r2 g2).
    rewrite (pop_last (mirror Q fr1) (f_stack fr ++ [self]) meth) by (cbn; now rewrite S1, <- app_assoc).
    erewrite (pop_last _ (f_stack fr) self) by reflexivity. cbn.
    match type of E with run _ (?f :: _) _ = _ => assert (I2 : f_init f = true) by (cbn; congruence) end.
    match type of E with run _ (?f :: _) _ = _ => exact (IH _ (N _) Q f _ _ _ _ _ _ I2 E D H r2 g2) end.
  - destruct N.
  - destruct N as [Nb N]. destruct (apply_uniform body Nb (apply_frame ps) eq_refl) as (o & pre & R & S). rewrite R in E. rewrite R.
    destruct o as [w|e]; [|discriminate]. destruct (S w eq_refl) as (fr1 & -> & _). cbn in E |- *.
    match type of E with run _ (?f :: _) _ = _ => exact (IH _ (N _) Q f _ _ _ _ _ _ I E D H r2 g2) end.
Qed.
(** If an initialisation asks for no path twice, applying its parameters replays it: the same value, no draw, in any surroundings. *)
Theorem C109_replay : forall p g v fr g', no_init p ->
  run p [init_frame] g = (Ok v, [fr], g') -> NoDup (f_asked fr) ->
  forall fs g2, run (MApply (f_params fr) p MRet) fs g2 = (Ok v, fs, g2).
Proof.
  intros p g v fr g' N E D fs g2. cbn [ModelMini.run].
  change (apply_frame (f_params fr)) with (mirror (f_params fr) (@init_frame V)).
  rewrite (run_mirror p N (f_params fr) init_frame [] g v fr [] g' eq_refl E D (fun _ _ => eq_refl) fs g2). reflexivity.
Qed.
End Runs.

(** ** The modules of the notebook *)
Lemma digits_no_slash s : all_chars is_digit s = true -> has_char "/"%char s = false.
Proof.
  induction s as [|c s IH]; [reflexivity|]. cbn [all_chars]. intros H. apply andb_true_iff in H as [H1 H2]. rewrite has_char_cons, (IH H2), orb_false_r.
  destruct (Ascii.eqb_spec c "/"%char) as [->|]; [discriminate H1|reflexivity].
Qed.
Lemma name_no_slash c n : has_char "/"%char c = false -> has_char "/"%char (unique_name c n) = false.
Proof. intros H. unfold unique_name. rewrite !has_char_app', H, (digits_no_slash _ (str_of_N_digits n)). reflexivity. Qed.

Section Mlp.
Context {V : Type} (normal : nat -> list nat -> V) (last_dim : V -> nat) (affine : V -> V -> V -> V) (act : V -> V).
Definition lpath (i : N) (identifier : string) : string :=
  param_path ["MLP_0"; "__call__"; unique_name "Linear" i; "__call__"] identifier.
(** What the initialisation of the layers from the [i]th on makes, and what the network computes meanwhile. *)
Fixpoint mlp_params (i : N) (g : nat) (widths : list nat) (x : V) : list (string * V) :=
  match widths with
  | [] => []
  | n :: widths =>
      let w := normal g [last_dim x; n] in
      let b := normal (S g) [n] in
      (lpath i "w", w) :: (lpath i "b", b) :: mlp_params (i + 1) (S (S g)) widths (act (affine x w b))
  end.
Fixpoint mlp_value (g : nat) (widths : list nat) (x : V) (out : V) : V :=
  match widths with
  | [] => out
  | n :: widths =>
      let o := affine x (normal g [last_dim x; n]) (normal (S g) [n]) in
      mlp_value (S (S g)) widths (act o) o
  end.

Lemma lpath_inj i j a b : In a ["w"; "b"] -> In b ["w"; "b"] -> lpath i a = lpath j b -> i = j /\ a = b.
Proof.
  intros Ha Hb E. apply C109_path in E as [E ->].
  - injection E as E. apply str_of_N_inj in E as ->. auto.
  - assert (W : forall a, In a ["w"; "b"] -> has_char "/"%char a = false) by (intros c [<-|[<-|[]]]; reflexivity).
    repeat (constructor; [first [now apply W|now apply name_no_slash|reflexivity]|]). constructor.
Qed.
Definition earlier (i : N) (keys : list string) : Prop :=
  forall k, In k keys -> exists j a, k = lpath j a /\ (j < i)%N /\ In a ["w"; "b"].
Lemma earlier_fresh i keys a : earlier i keys -> In a ["w"; "b"] -> ~ In (lpath i a) keys.
Proof. intros H Ha I. apply H in I as (j & b & E & L & Hb). apply lpath_inj in E as [-> _]; [lia|assumption|assumption]. Qed.
Lemma mlp_keys_later widths : forall i g x k, In k (map fst (mlp_params i g widths x)) -> exists j a, k = lpath j a /\ (i <= j)%N /\ In a ["w"; "b"].
Proof.
  induction widths as [|n widths IH]; intros i g x k; cbn; [tauto|].
  intros [<-|[<-|H]]; [exists i, "w"|exists i, "b"|]; cbn; [auto with arith| |]; [split; [reflexivity|split; [lia|auto]]..|].
  apply IH in H as (j & a & -> & L & Ha). exists j, a. split; [reflexivity|]. split; [lia|exact Ha].
Qed.
Lemma mlp_keys_nodup widths : forall i g x, NoDup (map fst (mlp_params i g widths x)).
Proof.
  induction widths as [|n widths IH]; intros i g x; cbn; [constructor|].
  constructor; [|constructor; [|apply IH]].
  - intros [E|H]; [apply lpath_inj in E as [_ E]; [discriminate|cbn; auto|cbn; auto]|].
    apply mlp_keys_later in H as (j & a & E & L & Ha). apply lpath_inj in E as [-> _]; [lia|cbn; auto|exact Ha].
  - intros H. apply mlp_keys_later in H as (j & a & E & L & Ha). apply lpath_inj in E as [-> _]; [lia|cbn; auto|exact Ha].
Qed.

Notation run := (run normal).
Lemma mlp_loop_run widths : forall x out g P A M counts i, count_of counts "Linear" = i -> earlier i (map fst P) ->
  exists counts' M', run (mlp_loop last_dim affine act widths x (Some out)) [Frame V P true counts ["MLP_0"; "__call__"] M A] g
    = (Ok (mlp_value g widths x out),
       [Frame V (P ++ mlp_params i g widths x) true counts' ["MLP_0"; "__call__"] M' (rev (map fst (mlp_params i g widths x)) ++ A)],
       g + 2 * length widths).
Proof.
  induction widths as [|n widths IH]; intros x out g P A M counts i C F.
  - exists counts, M. cbn. now rewrite app_nil_r, Nat.add_0_r.
  - cbn [mlp_loop]. unfold linear, linear_call. cbn. rewrite C. change (param_path ["MLP_0"; "__call__"; unique_name "Linear" i; "__call__"]) with (lpath i).
    unfold store, ask, make, push, pop. cbn.
    change (param_path ["MLP_0"; "__call__"; unique_name "Linear" i; "__call__"]) with (lpath i).
    rewrite String.eqb_refl. cbn.
    rewrite (pset_fresh P) by (apply (earlier_fresh _ _ _ F); cbn; auto).
    rewrite pset_fresh by (rewrite map_app; intros I; apply in_app_or in I as [I|[I|[]]]; [revert I; apply (earlier_fresh _ _ _ F); cbn; auto|apply lpath_inj in I as [_ I]; [discriminate|cbn; auto|cbn; auto]]).
    match goal with |- context [Frame V ?P' true ?C' _ ?M' ?A'] => destruct (IH (act (affine x (normal g [last_dim x; n]) (normal (S g) [n]))) (affine x (normal g [last_dim x; n]) (normal (S g) [n])) (S (S g)) P' A' M' C' (i + 1)%N) as (c' & m' & R) end.
    + rewrite <- C at 1. now rewrite count_pset, C.
    + intros k. rewrite !map_app. cbn. rewrite <- app_assoc. intros I. apply in_app_or in I as [I|[<-|[<-|[]]]].
      * apply F in I as (j & a & -> & L & Ha). exists j, a. split; [reflexivity|]. split; [lia|exact Ha].
      * exists i, "w". split; [reflexivity|]. split; [lia|cbn; auto].
      * exists i, "b". split; [reflexivity|]. split; [lia|cbn; auto].
    + exists c', m'. rewrite R, <- !app_assoc. cbn [app]. f_equal. lia.
Qed.
(** For all widths (at least one): the parameters of the network [MLP(widths)] are, in order and each once, those of [Linear_0], [Linear_1], … inside [MLP_0]; and applying them gives what the initialisation computed. *)
Theorem C109_mlp : forall n widths x g, exists fr,
  run (mlp last_dim affine act (n :: widths) x) [init_frame] g
    = (Ok (mlp_value g (n :: widths) x x), [fr], g + 2 * length (n :: widths))
  /\ f_params fr = mlp_params 0 g (n :: widths) x
  /\ NoDup (map fst (f_params fr))
  /\ forall fs g2, run (MApply (f_params fr) (mlp last_dim affine act (n :: widths) x) MRet) fs g2 = (Ok (mlp_value g (n :: widths) x x), fs, g2).
Proof.
  intros n widths x g.
  assert (L : run (mlp_loop last_dim affine act (n :: widths) x None) = run (mlp_loop last_dim affine act (n :: widths) x (Some x))) by reflexivity.
  assert (R : exists c' m', run (mlp last_dim affine act (n :: widths) x) [init_frame] g
            = (Ok (mlp_value g (n :: widths) x x), [Frame V (mlp_params 0 g (n :: widths) x) true c' [] m' (rev (map fst (mlp_params 0 g (n :: widths) x)))], g + 2 * length (n :: widths))).
  { unfold mlp. cbn [ModelMini.run init_frame f_counts count_of pget]. change (unique_name "MLP" 0) with "MLP_0". unfold push, make. cbn [f_params f_init f_counts f_stack f_made f_asked init_frame app count_of pget].
    rewrite L. destruct (mlp_loop_run (n :: widths) x x g [] [] ["MLP_0"] [("MLP", 1%N)] 0%N eq_refl) as (c' & m' & R); [intros k []|].
    exists c', m'. change (unique_name "MLP" 0) with "MLP_0" in *. change (pset [] "MLP" (0 + 1)%N) with [("MLP", 1%N)]. rewrite R. cbn [pop f_stack rev app String.eqb Ascii.eqb Bool.eqb]. now rewrite app_nil_r. }
  destruct R as (c' & m' & R). eexists. split; [exact R|]. split; [reflexivity|]. split; [apply mlp_keys_nodup|].
  intros fs g2.
  refine (C109_replay normal _ g _ _ _ _ R _ fs g2).
  - unfold mlp. cbn [no_init]. intros nm. split; [|intros v; exact I]. clear.
    assert (K : forall widths x out, no_init (mlp_loop last_dim affine act widths x (Some out))).
    { intros us; induction us as [|w ws IH]; intros y o; cbn; [exact I|]. intros nm'. split; [intros ? ?; exact I|]. intros v. apply IH. }
    exact (K (n :: widths) x x).
  - apply NoDup_rev, mlp_keys_nodup.
Qed.
End Mlp.

(** ** What the notebook's library does not do *)
(** Draws are 1, 2, …; every array has last dimension 3. *)
Definition draw (g : nat) (shape : list nat) : nat := S g.
Definition dim3 (x : nat) : nat := 3.
Definition affine_nat (x w b : nat) : nat := x + 10 * w + 100 * b.
(** "The same module called in different places reuses parameters", and they are drawn again at each request: the values computed with while initialising are not those returned. *)
Theorem C109_replay_refuted : exists p v fr g' w,
  no_init p /\ run draw p [init_frame] 0 = (Ok v, [fr], g')
  /\ run draw (MApply (f_params fr) p MRet) [] g' = (Ok w, [], g') /\ v <> w.
Proof.
  exists (reuse_test dim3 affine_nat (fun x => x) 0). eexists _, _, _, _.
  split; [cbn; repeat split; exact I|]. split; [vm_compute; reflexivity|]. split; [vm_compute; reflexivity|]. discriminate.
Qed.
(** A module called inside another one's method and outside of it has two sets of parameters: it does not share them. *)
Theorem C109_reuse_refuted : exists p fr v g', run draw p [init_frame] 0 = (Ok v, [fr], g')
  /\ f_made fr = ["Block_0"; "Linear_0"]
  /\ map fst (f_params fr) = ["~/Linear_0/__call__/w"; "~/Linear_0/__call__/b"; "~/Block_0/__call__/Linear_0/__call__/w"; "~/Block_0/__call__/Linear_0/__call__/b"].
Proof.
  exists (MNew "Linear" (fun f => linear_call dim3 affine_nat f 3 0 (fun y =>
            MNew "Block" (fun b => MCall b "__call__" (linear_call dim3 affine_nat f 3 y MRet) MRet)))).
  eexists _, _, _. split; [vm_compute; reflexivity|]. split; reflexivity.
Qed.
(** After an exception the frame stays: [get_param] outside of any transform, which raises, then hands out numbers. *)
Theorem C109_leak_refuted : exists p fs g v fs' g',
  run draw (MInit p (fun _ => MRet 0)) [] 0 = (Err UserError, fs, g) /\ fs <> []
  /\ run draw (MParam "w" [3] MRet) [] 0 = (Err IndexError, [], 0)
  /\ run draw (MParam "w" [3] MRet) fs g = (Ok v, fs', g').
Proof.
  exists (MNew "Linear" (fun f => MCall f "__call__" MRaise MRet)). eexists _, _, _, _, _.
  split; [vm_compute; reflexivity|]. split; [discriminate|]. split; vm_compute; reflexivity.
Qed.

(** The names printed in the notebook, and a function applied inside another one that initialises. *)
Example C109_mlp_case :
  map fst (f_params (hd init_frame (snd (fst (run draw (mlp dim3 affine_nat (fun x => x) [3; 5] 0) [init_frame] 0)))))
    = ["~/MLP_0/__call__/Linear_0/__call__/w"; "~/MLP_0/__call__/Linear_0/__call__/b"; "~/MLP_0/__call__/Linear_1/__call__/w"; "~/MLP_0/__call__/Linear_1/__call__/b"].
Proof. vm_compute. reflexivity. Qed.
(** No widths: [out] is never bound. *)
Example C109_mlp_empty_case : fst (fst (run draw (mlp dim3 affine_nat (fun x => x) [] 0) [init_frame] 0)) = Err UserError.
Proof. vm_compute. reflexivity. Qed.
Example C109_reuse_case :
  f_params (hd init_frame (snd (fst (run draw (reuse_test dim3 affine_nat (fun x => x) 0) [init_frame] 0))))
    = [("~/ParameterReuseTest_0/__call__/Linear_0/__call__/w", 3); ("~/ParameterReuseTest_0/__call__/Linear_0/__call__/b", 4)].
Proof. vm_compute. reflexivity. Qed.
Example C109_nested_case :
  run draw (MInit (linear dim3 affine_nat 4 0 MRet) (fun ps => MApply ps (linear dim3 affine_nat 4 0 MRet) MRet)) [] 0 = (Ok 210, [], 2)
  /\ run draw (MApply [] (linear dim3 affine_nat 4 0 MRet) MRet) [] 0
     = (Err KeyError, [Frame nat [] false [("Linear", 1%N)] ["Linear_0"; "__call__"] ["Linear_0"] ["~/Linear_0/__call__/w"]], 0).
Proof. split; vm_compute; reflexivity. Qed.

Print Assumptions C109_path.
Print Assumptions C109_path_refuted.
Print Assumptions C109_restores.
Print Assumptions C109_call_stack.
Print Assumptions C109_apply_params.
Print Assumptions C109_apply_pure.
Print Assumptions C109_surroundings.
Print Assumptions C109_names.
Print Assumptions C109_replay.
Print Assumptions C109_mlp.
Print Assumptions C109_replay_refuted.
Print Assumptions C109_reuse_refuted.
Print Assumptions C109_leak_refuted.

(** * C110: training a subset of the parameters *)
From stdpp Require Import base list strings option.
From Coq Require Import Reals Lra Permutation.
From Verif Require Import ModelDict ProofsDict Properties06 ModelReal ModelFreeze.
From Verif Require Properties24.
Local Open Scope R_scope.

Lemma dlim_ext f g x l : (forall t, f t = g t) -> derivable_pt_lim f x l -> derivable_pt_lim g x l.
Proof. intros E H eps He. destruct (H eps He) as [d Hd]. exists d. intros h Hh Hd'. rewrite <- !E. auto. Qed.

Lemma merge2_entry {A} (s s' : structure A) m n : wf_structure s -> wf_structure s' ->
  entry (merge_ [s; s']) m n = match entry s' m n with Some v => Some v | None => entry s m n end.
Proof.
  intros W W'. unfold merge_. rewrite merge_entry_step by (repeat (apply List.Forall_cons; [assumption|]); apply List.Forall_nil).
  cbn [fold_left]. rewrite entry_nil. destruct (entry s' m n), (entry s m n); reflexivity.
Qed.
Lemma wf_map {A B} (f : string -> string -> A -> B) (s : structure A) : wf_structure (map_ f s).
Proof. rewrite map_puts. apply puts_wf, wf_nil. Qed.

(** The loss reads its parameters by path. *)
Definition by_path (L : weights -> R) : Prop :=
  forall s s', (forall m n, entry s m n = entry s' m n) -> L s = L s'.
(** The whole training, told without splitting: in each step every number at a trainable path moves against the derivative of that step's loss as a function of all parameters, and nothing else moves. *)
Inductive masked (lr : R) (free : string -> string -> bool) : list (weights -> R) -> weights -> weights -> Prop :=
| masked_nil p p' : (forall m n, entry p m n = entry p' m n) -> masked lr free [] p p'
| masked_cons L Ls p q p' :
    (forall m n, match entry p m n with
                 | None => entry q m n = None
                 | Some v => if free m n
                             then exists v', entry q m n = Some v' /\ List.length v' = List.length v
                                  /\ forall i x, v !! i = Some x -> exists d, derivable_pt_lim (fun u => L (put m n (<[i := u]> v) p)) x d /\ v' !! i = Some (x - d * lr)
                             else entry q m n = Some v
                 end) ->
    masked lr free Ls q p' -> masked lr free (L :: Ls) p p'.
Definition is_some {A} (o : option A) : bool := match o with Some _ => true | None => false end.
Lemma trained_masked lr nt free Ls t t' : trained lr nt Ls t t' -> wf_structure nt -> List.Forall by_path Ls -> wf_structure t ->
  (forall m n, is_some (entry t m n) = free m n) -> (forall m n, free m n = true -> entry nt m n = None) ->
  forall p, (forall m n, entry p m n = entry (merge_ [t; nt]) m n) -> masked lr free Ls p (merge_ [t'; nt]).
Proof.
  intros T Wn. induction T as [t|L Ls t g t' G T IH]; intros BP Wt Fr Dj p E; [now constructor|].
  inversion BP as [|? ? B1 B2]; subst. apply (masked_cons _ _ _ _ _ (merge_ [sgd_step t g lr; nt])).
  - intros m n. rewrite E, !merge2_entry by (first [assumption|apply wf_map]). unfold sgd_step. rewrite C36_map by exact Wt.
    specialize (G m n). pose proof (Fr m n) as F. pose proof (Dj m n) as D. destruct (entry t m n) as [v|] eqn:Et; cbn [is_some] in F; rewrite <- F in *.
    + rewrite (D eq_refl). destruct G as (gv & -> & Lg & Dg). cbn. eexists. split; [reflexivity|]. split; [rewrite zip_with_length; lia|].
      intros i x Hx. destruct (lookup_lt_is_Some_2 gv i) as [d Hd]; [rewrite Lg; eapply lookup_lt_Some; exact Hx|]. exists d. split.
      * apply (dlim_ext (fun u => split_loss L (put m n (<[i:=u]> v) t) nt)); [|now apply Dg]. intros u. unfold split_loss. apply B1. intros a b.
        rewrite merge2_entry by (first [assumption|now apply wf_put]). rewrite !entry_put, E, merge2_entry by assumption.
        destruct (String.eqb_spec a m) as [->|]; cbn; [|reflexivity]. destruct (String.eqb_spec b n) as [->|]; [|reflexivity]. now rewrite (D eq_refl).
      * rewrite lookup_zip_with, Hx, Hd. reflexivity.
    + destruct (entry nt m n) as [w|]; reflexivity.
  - apply IH; [exact B2|apply wf_map| |exact Dj|reflexivity].
    intros m n. rewrite <- Fr. unfold sgd_step. rewrite C36_map by exact Wt. now destruct (entry t m n).
Qed.

Section Freeze.
Context (pred : string -> string -> list R -> bool) (params t nt : weights)
        (W : wf_structure params) (P : partition pred params = (t, nt)).

Lemma wf_t : wf_structure t. Proof. exact (proj1 (proj2 (proj2 (C35_partition_modules pred params t nt EmptyString W P)))). Qed.
Lemma wf_nt : wf_structure nt. Proof. exact (proj2 (proj2 (proj2 (C35_partition_modules pred params t nt EmptyString W P)))). Qed.

Lemma put_merged m n v v' a b : entry t m n = Some v ->
  entry (merge_ [put m n v' t; nt]) a b = entry (put m n v' params) a b.
Proof.
  intros E. rewrite merge2_entry by (try apply wf_put; first [apply wf_t|apply wf_nt]). rewrite !entry_put.
  destruct (C35_partition pred params t nt a b W P) as [Ea Eb]. rewrite Ea, Eb.
  destruct (String.eqb_spec a m) as [->|]; cbn.
  - destruct (String.eqb_spec b n) as [->|].
    + rewrite E in Ea. destruct (entry params m n) as [w|]; [|discriminate]. destruct (pred m n w); [reflexivity|discriminate].
    + destruct (entry params m b) as [w|]; [destruct (pred m b w)|]; reflexivity.
  - destruct (entry params a b) as [w|]; [destruct (pred a b w)|]; reflexivity.
Qed.

(** The gradient in the trainable group is the part of the whole gradient with its paths: splitting the parameters changes no derivative. *)
Theorem C110_gradient : forall L g, by_path L -> is_gradient L params g ->
  forall gt, wf_structure g -> gt = filter_ (fun m n _ => match entry t m n with Some _ => true | None => false end) g ->
  is_gradient (fun s => split_loss L s nt) t gt.
Proof.
  intros L g BP G gt Wg -> m n. specialize (G m n). rewrite C36_filter by exact Wg.
  destruct (C35_partition pred params t nt m n W P) as [Ea _].
  destruct (entry t m n) as [v|] eqn:E.
  - destruct (entry params m n) as [w|]; [|discriminate]. destruct (pred m n w); [|discriminate]. injection Ea as <-.
    destruct G as (gv & -> & L1 & D). exists gv. split; [reflexivity|]. split; [exact L1|].
    intros i x gx Hx Hg. apply (dlim_ext (fun u => L (put m n (<[i:=u]> v) params))); [|now apply D].
    intros u. unfold split_loss. apply BP. intros a b. symmetry. now apply put_merged with v.
  - destruct (entry g m n); reflexivity.
Qed.
(** … and it is the only one. *)
Theorem C110_gradient_unique : forall L p g g', is_gradient L p g -> is_gradient L p g' -> forall m n, entry g m n = entry g' m n.
Proof.
  clear. intros L p g g' G G' m n. specialize (G m n). specialize (G' m n). destruct (entry p m n) as [v|]; [|congruence].
  destruct G as (gv & -> & L1 & D). destruct G' as (gv' & -> & L2 & D'). f_equal. apply list_eq. intros i.
  destruct (gv !! i) as [a|] eqn:Ea.
  - assert (Hi : (i < List.length v)%nat) by (rewrite <- L1; eapply lookup_lt_Some; exact Ea).
    destruct (lookup_lt_is_Some_2 v i Hi) as [x Hx]. destruct (lookup_lt_is_Some_2 gv' i) as [b Hb]; [now rewrite L2|].
    rewrite Hb. f_equal. eapply uniqueness_limite; [eapply D|eapply D']; eassumption.
  - symmetry. apply lookup_ge_None. apply lookup_ge_None in Ea. congruence.
Qed.

(** One step: the merged parameters are those of a step with the whole gradient where the predicate holds, and untouched elsewhere. *)
Theorem C110_step : forall L g gt lr m n, by_path L -> wf_structure g -> is_gradient L params g ->
  is_gradient (fun s => split_loss L s nt) t gt ->
  entry (merge_ [sgd_step t gt lr; nt]) m n
  = match entry params m n with
    | None => None
    | Some v => if pred m n v then entry (sgd_step params g lr) m n else Some v
    end.
Proof.
  intros L g gt lr m n BP Wg G Gt.
  pose proof (C110_gradient L g BP G _ Wg eq_refl) as G0. pose proof (C110_gradient_unique _ _ _ _ Gt G0 m n) as U.
  rewrite C36_filter in U by exact Wg.
  unfold sgd_step. rewrite merge2_entry by (first [apply wf_map|apply wf_nt]). rewrite !C36_map by (first [exact W|apply wf_t]).
  destruct (C35_partition pred params t nt m n W P) as [Ea Eb]. rewrite Ea, Eb. rewrite Ea in U.
  destruct (entry params m n) as [v|]; [|reflexivity]. destruct (pred m n v); [|reflexivity]. cbn. rewrite U. now destruct (entry g m n).
Qed.

(** Any number of steps, with any losses: the trainable group keeps its paths and sizes. *)
Lemma sgd_keeps s g lr m n L : wf_structure s -> is_gradient L s g ->
  fmap (M := option) (@List.length R) (entry (sgd_step s g lr) m n) = fmap (M := option) (@List.length R) (entry s m n).
Proof.
  intros Ws G. unfold sgd_step. rewrite C36_map by exact Ws. specialize (G m n). destruct (entry s m n) as [v|]; [|reflexivity].
  destruct G as (gv & -> & E & _). cbn. f_equal. rewrite zip_with_length. lia.
Qed.
Theorem C110_frozen : forall lr Ls t' m n, trained lr nt Ls t t' ->
  (forall v, entry params m n = Some v -> pred m n v = false -> entry (merge_ [t'; nt]) m n = Some v)
  /\ fmap (M := option) (@List.length R) (entry (merge_ [t'; nt]) m n) = fmap (M := option) (@List.length R) (entry params m n).
Proof.
  intros lr Ls t' m n T.
  assert (K : wf_structure t' /\ fmap (M := option) (@List.length R) (entry t' m n) = fmap (M := option) (@List.length R) (entry t m n)).
  { pose proof wf_t as Wt. clear P W. induction T as [|L Ls t g t' G T IH]; [auto|]. destruct (IH (wf_map _ _)) as [W1 E1]. split; [exact W1|].
    rewrite E1. eapply sgd_keeps; eassumption. }
  destruct K as [Wt' K]. rewrite merge2_entry by (first [exact Wt'|apply wf_nt]).
  destruct (C35_partition pred params t nt m n W P) as [Ea Eb]. rewrite Eb. rewrite Ea in K. split.
  - intros v E N. now rewrite E, N.
  - destruct (entry params m n) as [v|]; [destruct (pred m n v)|]; [exact K|reflexivity|exact K].
Qed.
Theorem C110_training : forall lr Ls t', trained lr nt Ls t t' -> List.Forall by_path Ls ->
  masked lr (fun m n => match entry params m n with Some v => pred m n v | None => false end) Ls params (merge_ [t'; nt]).
Proof.
  intros lr Ls t' T B. apply (trained_masked lr nt _ Ls t t' T); [apply wf_nt|exact B|apply wf_t| | |].
  - intros m n. rewrite (proj1 (C35_partition pred params t nt m n W P)). destruct (entry params m n) as [v|]; [|reflexivity]. now destruct (pred m n v).
  - intros m n. rewrite (proj2 (C35_partition pred params t nt m n W P)). destruct (entry params m n) as [v|]; [|reflexivity]. now intros ->.
  - intros m n. rewrite merge2_entry by (first [apply wf_t|apply wf_nt]). destruct (C35_partition pred params t nt m n W P) as [-> ->].
    destruct (entry params m n) as [v|]; [|reflexivity]. now destruct (pred m n v).
Qed.
End Freeze.
Print Assumptions C110_gradient.
Print Assumptions C110_gradient_unique.
Print Assumptions C110_step.
Print Assumptions C110_frozen.
Print Assumptions C110_training.

(** ** The batches *)
(** A record has as many different classes as its size, each with itself as input; larger sizes than there are classes raise. *)
Theorem C110_records : forall classes perm batch_size, Permutation perm (seq 0 classes) ->
  match record perm batch_size with
  | None => (classes < batch_size)%nat
  | Some batch => (batch_size <= classes)%nat /\ List.length batch = batch_size /\ List.NoDup (List.map snd batch)
                  /\ List.Forall (fun xy => fst xy = INR (snd xy) /\ (snd xy < classes)%nat) batch
  end.
Proof.
  intros classes perm bs P. unfold record. pose proof (Permutation_length P) as L. rewrite seq_length in L.
  destruct (Nat.eqb_spec (List.length (take bs perm)) bs) as [E|E]; rewrite take_length in E.
  - split; [lia|]. rewrite map_length, take_length. split; [lia|]. rewrite map_map. cbn. rewrite map_id.
    assert (N : List.NoDup perm) by (eapply Permutation_NoDup; [symmetry; exact P|apply List.seq_NoDup]).
    split.
    + rewrite <- (take_drop bs perm) in N. clear - N. induction (take bs perm) as [|a l IH]; [constructor|]. inversion N; subst. constructor; [|auto].
      intros H. apply H1. apply List.in_or_app. now left.
    + apply List.Forall_forall. intros xy H. apply List.in_map_iff in H as (c & <- & H). cbn. split; [reflexivity|].
      assert (I : List.In c perm) by (rewrite <- (take_drop bs perm); apply List.in_or_app; now left).
      apply (Permutation_in _ P) in I. apply List.in_seq in I. lia.
  - lia.
Qed.
(** With [batch_size = num_classes], as in the notebook, every record gives the same loss: the training depends on no random number but the initial parameters. *)
Theorem C110_full_batch : forall example classes perm, Permutation perm (seq 0 classes) ->
  exists batch, record perm classes = Some batch
  /\ forall p, batch_loss example batch p = Rsum (List.map (fun c => example p (INR c) c) (seq 0 classes)) / INR classes.
Proof.
  intros example classes perm P. pose proof (Permutation_length P) as L. rewrite seq_length in L.
  unfold record. rewrite take_ge by lia. rewrite L, Nat.eqb_refl. eexists. split; [reflexivity|]. intros p. unfold batch_loss.
  rewrite map_length, L, map_map. f_equal. apply Properties24.Rsum_perm. cbn. now apply Permutation_map.
Qed.
(** With fewer it does depend on them. *)
Theorem C110_full_batch_refuted : exists example perm perm' batch batch' p,
  Permutation perm (seq 0 2) /\ Permutation perm' (seq 0 2) /\ record perm 1 = Some batch /\ record perm' 1 = Some batch'
  /\ batch_loss example batch p <> batch_loss example batch' p.
Proof.
  exists (fun _ x _ => x), [0%nat; 1%nat], [1%nat; 0%nat], [(INR 0, 0%nat)], [(INR 1, 1%nat)], [].
  split; [reflexivity|]. split; [apply perm_swap|]. split; [reflexivity|]. split; [reflexivity|].
  unfold batch_loss. cbn. lra.
Qed.
Print Assumptions C110_records.
Print Assumptions C110_full_batch.
Print Assumptions C110_full_batch_refuted.

(** A loss w * v of two layers, the second frozen. *)
Definition two_layers : weights := [("mlp/~/linear_0", [("w", [2; 5])]); ("mlp/~/linear_1", [("w", [3])])].
Definition first_of (m : string) (s : weights) : R := match entry s m "w" with Some (x :: _) => x | _ => 0 end.
Definition product_loss (s : weights) : R := first_of "mlp/~/linear_0" s * first_of "mlp/~/linear_1" s.
Definition not_second (m n : string) (p : list R) : bool := negb (String.eqb m "mlp/~/linear_1").
Ltac line := let eps := fresh "eps" in let He := fresh "He" in let h := fresh "h" in let Hh := fresh "Hh" in intros eps He; exists (mkposreal 1 Rlt_0_1); intros h Hh _; match goal with |- Rabs ?e < _ => replace e with 0 by (field; assumption) end; rewrite Rabs_R0; assumption.
Example C110_case :
  partition not_second two_layers = ([("mlp/~/linear_0", [("w", [2; 5])])], [("mlp/~/linear_1", [("w", [3])])])
  /\ is_gradient product_loss two_layers [("mlp/~/linear_0", [("w", [3; 0])]); ("mlp/~/linear_1", [("w", [2])])]
  /\ merge_ [sgd_step [("mlp/~/linear_0", [("w", [2; 5])])] [("mlp/~/linear_0", [("w", [3; 0])])] (1/3); [("mlp/~/linear_1", [("w", [3])])]]
     = [("mlp/~/linear_0", [("w", [2 - 3 * (1/3); 5 - 0 * (1/3)])]); ("mlp/~/linear_1", [("w", [3])])].
Proof.
  split; [reflexivity|]. split; [|reflexivity].
  intros m n. unfold two_layers, entry. cbn [d_get]. destruct (String.eqb_spec m "mlp/~/linear_0") as [->|].
  - cbn [d_get]. destruct (String.eqb_spec n "w") as [->|]; [|reflexivity]. eexists. split; [reflexivity|]. split; [reflexivity|].
    intros [|[|i]] x gx; cbn; intros [= <-] [= <-].
    + change (derivable_pt_lim (fun u => u * 3) 2 3). line.
    + change (derivable_pt_lim (fun u => 2 * 3) 5 0). line.
  - destruct (String.eqb_spec m "mlp/~/linear_1") as [->|]; [|reflexivity].
    cbn [d_get]. destruct (String.eqb_spec n "w") as [->|]; [|reflexivity]. eexists. split; [reflexivity|]. split; [reflexivity|].
    intros [|i] x gx; cbn; intros [= <-] [= <-].
    change (derivable_pt_lim (fun u => 2 * u) 3 2). line.
Qed.

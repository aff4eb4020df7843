(** * C71: combinators of basic.py *)
From Coq Require Import String ZArith List Bool Lia.
From Verif Require Import ModelStr ModelShape ModelBasic ProofsShape Properties11.
Import ListNotations.

(** ** Sequential *)
Section Seq.
Context {W E V X : Type} (none : X).
Implicit Types (l : layer W E V X) (ls : list (layer W E V X)).
(** Layers applied in order, each to the value and the world left by the one before it, until one raises. *)
Inductive runs : list (V -> effect W E V) -> V -> W -> (E + V) -> W -> Prop :=
| runs_nil v w : runs [] v w (inr v) w
| runs_ok m ms v w v' w' r w'' : m v w = (inr v', w') -> runs ms v' w' r w'' -> runs (m :: ms) v w r w''
| runs_raise m ms v w e w' : m v w = (inl e, w') -> runs (m :: ms) v w (inl e) w'.
(** The first layer gets the arguments, the others do not. *)
Definition given (args : X) ls : list (V -> effect W E V) :=
  match ls with [] => [] | l :: ls => (fun v => l v args) :: map (fun l v => l v none) ls end.

Lemma later_runs : forall ls i args v w r w', seq_loop none (S i) ls v args w = (r, w') <-> runs (map (fun l v => l v none) ls) v w r w'.
Proof.
  induction ls as [|l ls IH]; intros i args v w r w'; cbn [seq_loop map].
  - split; [intros [= <- <-]; constructor | intros H; inversion H; subst; reflexivity].
  - cbn [Nat.eqb]. unfold bind. destruct (l v none w) as [[e|v'] w1] eqn:El; split.
    + intros [= <- <-]. now apply runs_raise.
    + intros H. inversion H; congruence.
    + intros H. eapply runs_ok; [exact El|]. apply IH in H. exact H.
    + intros H. inversion H as [|? ? ? ? v2 w2 ? ? E1 E2|? ? ? ? ? ? E1]; subst; [|congruence]. rewrite El in E1. injection E1 as <- <-.
      eapply IH. exact E2.
Qed.
(** What a call does: the layers in order; nothing after the layer that raises; the arguments only to the first layer. *)
Theorem C71_sequential ls v args w r w' : sequential none ls v args w = (r, w') <-> runs (given args ls) v w r w'.
Proof.
  unfold sequential. destruct ls as [|l ls]; cbn [seq_loop given].
  - split; [intros [= <- <-]; constructor | intros H; inversion H; subst; reflexivity].
  - cbn [Nat.eqb]. unfold bind. destruct (l v args w) as [[e|v'] w1] eqn:El; split.
    + intros [= <- <-]. now apply runs_raise.
    + intros H. inversion H; congruence.
    + intros H. eapply runs_ok; [exact El|]. apply later_runs in H. exact H.
    + intros H. inversion H as [|? ? ? ? v2 w2 ? ? E1 E2|? ? ? ? ? ? E1]; subst; [|congruence]. rewrite El in E1. injection E1 as <- <-.
      eapply later_runs. exact E2.
Qed.

Lemma seq_loop_app : forall ls ms i v args w, seq_loop none i (ls ++ ms) v args w =
  bind (seq_loop none i ls v args) (fun v => seq_loop none (i + length ls) ms v args) w.
Proof.
  induction ls as [|l ls IH]; intros ms i v args w; cbn [app seq_loop length].
  - unfold bind, return_. now rewrite Nat.add_0_r.
  - unfold bind. destruct ((if Nat.eqb i 0 then l v args else l v none) w) as [[e|v'] w1]; [reflexivity|]. rewrite IH. unfold bind.
    replace (S i + length ls)%nat with (i + S (length ls))%nat by lia. reflexivity.
Qed.
Lemma seq_loop_later ls i j v a b w : seq_loop none (S i) ls v a w = seq_loop none (S j) ls v b w.
Proof.
  revert i j v w. induction ls as [|l ls IH]; intros i j v w; [reflexivity|]. cbn [seq_loop Nat.eqb]. unfold bind.
  destruct (l v none w) as [[e|v'] w1]; [reflexivity|]. apply IH.
Qed.
Lemma seq_loop_none ls i j v a w : seq_loop none (S i) ls v a w = seq_loop none j ls v none w.
Proof.
  revert i j v w. induction ls as [|l ls IH]; intros i j v w; [reflexivity|]. cbn [seq_loop Nat.eqb]. unfold bind.
  replace (if Nat.eqb j 0 then l v none else l v none) with (l v none) by now destruct (Nat.eqb j 0).
  destruct (l v none w) as [[e|v'] w1]; [reflexivity|]. apply IH.
Qed.
(** Nesting is concatenation, at any position; a nested empty [Sequential] only matters in front of further layers, with arguments. *)
Theorem C71_nesting ls ms ns v args w : (ls <> [] \/ ms <> [] \/ ns = [] \/ args = none) ->
  sequential none (ls ++ sequential none ms :: ns) v args w = sequential none (ls ++ ms ++ ns) v args w.
Proof.
  intros H. unfold sequential. rewrite (seq_loop_app ls (_ :: ns)), (seq_loop_app ls (ms ++ ns)). unfold bind at 1.
  unfold bind. destruct (seq_loop none 0 ls v args w) as [[e|v'] w1]; [reflexivity|].
  rewrite seq_loop_app. cbn [seq_loop Nat.add]. destruct ls as [|l ls]; cbn [length Nat.eqb].
  - fold (sequential none ms). unfold sequential, bind. destruct (seq_loop none 0 ms v' args w1) as [[e|v2] w2] eqn:Em; [reflexivity|].
    destruct ms as [|m ms].
    + cbn in Em. injection Em as <- <-. cbn [length Nat.add]. destruct H as [H|[H|[->| ->]]]; try congruence; [reflexivity|]. apply seq_loop_none.
    + cbn [length Nat.add]. apply seq_loop_later.
  - unfold sequential, bind. rewrite (seq_loop_none ms (length ls) 0 v' args w1). destruct (seq_loop none 0 ms v' none w1) as [[e|v2] w2]; [reflexivity|].
    cbn [Nat.add]. apply seq_loop_later.
Qed.
End Seq.
Print Assumptions C71_sequential.
Print Assumptions C71_nesting.

(** A logging layer: adds its argument to the input and records its name. *)
Definition tally (n : nat) : layer (list nat) unit nat nat := fun v a w => (inr (v + a)%nat, w ++ [n]).
Definition raises (n : nat) : layer (list nat) unit nat nat := fun v a w => (inl tt, w ++ [n]).
Example C71_sequential_case :
  sequential 0 [tally 1; tally 2; tally 3] 10 5 [] = (inr 15, [1; 2; 3])%nat /\
  sequential 0 [tally 1; raises 2; tally 3] 10 5 [] = (inl tt, [1; 2])%nat /\
  sequential 0 [tally 1; sequential 0 [tally 2; tally 3]] 10 5 [] = (inr 15, [1; 2; 3])%nat.
Proof. repeat split. Qed.
(** An empty [Sequential] in front swallows the arguments, so nesting is not concatenation there; and an empty [Sequential] accepts
    and ignores arguments. *)
Theorem C71_empty_front_refuted : ~ (forall (ms ns : list (layer (list nat) unit nat nat)) v args w,
  sequential 0%nat (sequential 0%nat ms :: ns) v args w = sequential 0%nat (ms ++ ns) v args w).
Proof. intros H. specialize (H [] [tally 1] 10 5 [])%nat. discriminate H. Qed.
Print Assumptions C71_empty_front_refuted.

(** ** BatchApply with any number of arguments and results *)
Local Open Scope Z_scope.
(** [f] works example by example as [g]: from arrays of which the marked ones have leading dimension [n] it makes arrays with leading
    dimension [n], whose entries number [i] are [g] of the entries number [i] of the marked arrays and of the whole other ones. *)
Definition rowwise {A B} (marks : list bool) (f : list (arr A) -> option (list (arr B))) (g : list (list A) -> list (list B)) : Prop :=
  forall n ys zs, 0 <= n -> Forall wf_arr ys -> Forall2 (fun (m : bool) y => m = true -> exists r, a_shape y = n :: r) marks ys -> f ys = Some zs ->
    Forall wf_arr zs /\ Forall (fun z => exists r, a_shape z = n :: r) zs /\
    forall i, 0 <= i < n ->
      map (fun z => sub_array z [i]) zs = g (map (fun p : bool * arr A => if fst p then sub_array (snd p) [i] else a_data (snd p)) (combine marks ys)).

Lemma all_some_map {A B} (f : A -> option B) : forall l r, all_some (map f l) = Some r <-> Forall2 (fun a b => f a = Some b) l r.
Proof.
  induction l as [|a l IH]; intros r; cbn [map all_some].
  - split; [intros [= <-]; constructor | intros H; inversion H; reflexivity].
  - destruct (f a) as [b|] eqn:Ea.
    + destruct (all_some (map f l)) as [t|] eqn:Et.
      * split; [intros [= <-]; constructor; [exact Ea | now apply IH]|].
        intros H. inversion H as [|? ? ? ? H1 H2]; subst. apply IH in H2. congruence.
      * split; [discriminate|]. intros H. inversion H as [|? ? ? ? H1 H2]; subst. apply IH in H2. discriminate H2.
    + split; [discriminate|]. intros H. inversion H; congruence.
Qed.

Section Lead.
Variable k : nat.
Variable lead : list Z.
Hypothesis Hk : length lead = k.
Hypothesis Hlead : Forall (fun d => 0 <= d) lead.
Lemma merge_one {A} (x : arr A) : wf_arr x -> ndim_at_least k x = true -> firstn k (a_shape x) = lead ->
  exists y, merge_leading_dims x k = Some y /\ wf_arr y /\ (exists r, a_shape y = prod lead :: r) /\
    forall ix, length ix = k -> sub_array y [flat_index lead ix] = sub_array x ix.
Proof.
  intros Wx Hn Hl. apply Nat.leb_le in Hn. destruct (C45_merge_split x k Wx Hn) as (y & Ey & Dy & Sy & Wy & _).
  exists y. split; [exact Ey|]. split; [exact Wy|]. rewrite Hl in Sy. split; [eauto|]. intros ix Hix.
  rewrite (sub_array_lead y [prod lead] (skipn k (a_shape x))) by (try reflexivity; assumption).
  rewrite (sub_array_lead x lead (skipn k (a_shape x))) by (try congruence; rewrite <- Hl; symmetry; apply firstn_skipn).
  cbn [flat_index prod]. now rewrite Z.mul_1_r, Z.add_0_r, Dy.
Qed.
Lemma split_one {A} (z : arr A) r : wf_arr z -> a_shape z = prod lead :: r ->
  exists o, split_leading_dim z lead = Some o /\ wf_arr o /\ firstn k (a_shape o) = lead /\ a_shape o = lead ++ r /\
    forall ix, length ix = k -> sub_array o ix = sub_array z [flat_index lead ix].
Proof.
  intros [W1 W2] Sz. exists (Arr (lead ++ r) (a_data z)). rewrite Sz in W1, W2. inversion W1 as [|? ? Hp Hr]; subst.
  assert (F : Forall (fun d => 0 <= d) (lead ++ r)) by now apply Forall_app.
  split. { unfold split_leading_dim. apply np_reshape_spec. rewrite Sz. cbn [tl]. split; [reflexivity|]. split; [exact F|]. now rewrite prod_app. }
  split. { split; cbn [a_shape a_data]; [exact F|]. rewrite prod_app. exact W2. }
  cbn [a_shape]. split; [rewrite firstn_app, Nat.sub_diag, firstn_all; apply app_nil_r|]. split; [reflexivity|].
  intros ix Hix. rewrite (sub_array_lead (Arr (lead ++ r) (a_data z)) lead r) by (try reflexivity; assumption). rewrite (sub_array_lead z [prod lead] r) by (try reflexivity; assumption).
  cbn [flat_index prod a_data]. now rewrite Z.mul_1_r, Z.add_0_r.
Qed.
End Lead.

(** The part of an argument that belongs to the leading index [ix]: the entry, or all of it when its rank is too small. *)
Definition part {A} (k : nat) (ix : list Z) (x : arr A) : list A := if Nat.leb k (length (a_shape x)) then sub_array x ix else a_data x.

(** When the arguments of sufficient rank agree on the leading dimensions: every result has them, and its entry at each leading index
    is [g] of the parts of the arguments there. It only fails when [f] does. *)
Theorem C71_batch_apply {A B} (f : list (arr A) -> option (list (arr B))) g k lead args :
  Forall wf_arr args -> Exists (fun x => (k <= length (a_shape x))%nat) args ->
  Forall (fun x => (k <= length (a_shape x))%nat -> firstn k (a_shape x) = lead) args ->
  rowwise (map (fun x => Nat.leb k (length (a_shape x))) args) f g ->
  (forall outs, batch_apply_n f k args = Some outs ->
     Forall wf_arr outs /\ Forall (fun o => firstn k (a_shape o) = lead) outs /\
     forall ix, Forall2 (fun i d => 0 <= i < d) ix lead -> map (fun o => sub_array o ix) outs = g (map (part k ix) args)) /\
  exists merged, all_some (map (fun x => merge_leading_dims x k) args) = Some merged /\ (batch_apply_n f k args = None -> f merged = None).
Proof.
  intros Wf Ex Hl Hg. apply Exists_exists in Ex as (x0 & Hx0 & Hk0).
  rewrite Forall_forall in Wf, Hl. pose proof (Hl x0 Hx0 Hk0) as L0. assert (Lk : length lead = k) by (rewrite <- L0, firstn_length; lia).
  assert (Lp : Forall (fun d => 0 <= d) lead).
  { destruct (Wf x0 Hx0) as [W1 _]. rewrite <- (firstn_skipn k (a_shape x0)), L0 in W1. apply Forall_app in W1. tauto. }
  assert (M : forall l, incl l args -> exists ys, Forall2 (fun x y => merge_leading_dims x k = Some y) l ys /\ Forall wf_arr ys /\
    Forall2 (fun (m : bool) y => m = true -> exists r, a_shape y = prod lead :: r) (map (fun x => Nat.leb k (length (a_shape x))) l) ys /\
    forall ix, length ix = k -> map (fun p : bool * arr A => if fst p then sub_array (snd p) [flat_index lead ix] else a_data (snd p))
      (combine (map (fun x => Nat.leb k (length (a_shape x))) l) ys) = map (part k ix) l).
  { induction l as [|x l IH]; intros Hi.
    - exists []. repeat split; constructor.
    - destruct IH as (ys & I1 & I2 & I3 & I4); [intros z Hz; apply Hi; now right|]. assert (Hx : In x args) by (apply Hi; now left).
      destruct (Nat.leb_spec k (length (a_shape x))) as [Hr|Hr].
      + destruct (merge_one k lead Lk x (Wf x Hx) (proj2 (Nat.leb_le _ _) Hr) (Hl x Hx Hr)) as (y & Ey & Wy & Sy & Hy).
        exists (y :: ys). split; [now constructor|]. split; [now constructor|]. cbn [map combine fst snd]. rewrite (proj2 (Nat.leb_le _ _) Hr).
        split; [constructor; [auto | exact I3]|]. intros ix Hix. rewrite (I4 ix Hix). f_equal. unfold part. rewrite (proj2 (Nat.leb_le _ _) Hr).
        now apply Hy.
      + exists (x :: ys). split; [constructor; [|exact I1]; unfold merge_leading_dims; now rewrite (proj2 (Nat.ltb_lt _ _) Hr)|].
        split; [constructor; auto|]. cbn [map combine fst snd]. rewrite (proj2 (Nat.leb_gt _ _) Hr).
        split; [constructor; [discriminate | exact I3]|]. intros ix Hix. rewrite (I4 ix Hix). f_equal. unfold part. now rewrite (proj2 (Nat.leb_gt _ _) Hr). }
  destruct (M args (incl_refl _)) as (ys & M1 & M2 & M3 & M4). clear M. apply all_some_map in M1.
  assert (Ee : exists e, mergeable_leaf k args = Some e /\ firstn k (a_shape e) = lead).
  { unfold mergeable_leaf. destruct (find (ndim_at_least k) args) as [e|] eqn:Ef.
    - exists e. split; [reflexivity|]. apply find_some in Ef as [F1 F2]. apply Hl; [exact F1|]. now apply Nat.leb_le.
    - pose proof (find_none _ _ Ef x0 Hx0) as F. apply Nat.leb_gt in F. lia. }
  destruct Ee as (e & Ee & Le).
  assert (Sp : forall zs : list (arr B), Forall wf_arr zs -> Forall (fun z => exists r, a_shape z = prod lead :: r) zs ->
    exists outs, Forall2 (fun z o => split_leading_dim z lead = Some o) zs outs /\ Forall wf_arr outs /\ Forall (fun o => firstn k (a_shape o) = lead) outs /\
      forall ix, length ix = k -> map (fun o => sub_array o ix) outs = map (fun z => sub_array z [flat_index lead ix]) zs).
  { induction zs as [|z zs IH]; intros Z1 Z2; [exists []; repeat split; constructor|]. apply Forall_cons_iff in Z1 as [Z1 Z1']. apply Forall_cons_iff in Z2 as [(r & Hr) Z2].
    destruct IH as (outs & I1 & I2 & I3 & I4); [assumption..|]. destruct (split_one k lead Lk Lp z r Z1 Hr) as (o & O1 & O2 & O3 & _ & O4).
    exists (o :: outs). repeat split; [now constructor.. |]. intros ix Hix. cbn [map]. now rewrite I4, O4. }
  assert (N0 : 0 <= prod lead) by now apply prod_nonneg.
  split.
  - intros outs. unfold batch_apply_n. rewrite Ee, M1, Le. destruct (f ys) as [zs|] eqn:Ez; [|discriminate]. intros Eo.
    destruct (Hg (prod lead) ys zs N0 M2 M3 Ez) as (Z1 & Z2 & Z3). destruct (Sp zs Z1 Z2) as (outs' & O1 & O2 & O3 & O4).
    apply all_some_map in O1. rewrite O1 in Eo. injection Eo as <-. split; [exact O2|]. split; [exact O3|]. intros ix Hix.
    assert (Lx : length ix = k) by (rewrite <- Lk; eapply Forall2_len; eauto).
    rewrite (O4 ix Lx). pose proof (flat_index_bound lead ix ltac:(congruence) Hix) as Bd. rewrite (Z3 _ Bd). f_equal. now apply M4.
  - exists ys. split; [exact M1|]. unfold batch_apply_n. rewrite Ee, M1, Le. destruct (f ys) as [zs|] eqn:Ez; [|reflexivity]. intros Eo. exfalso.
    destruct (Hg (prod lead) ys zs N0 M2 M3 Ez) as (Z1 & Z2 & Z3). destruct (Sp zs Z1 Z2) as (outs' & O1 & _).
    apply all_some_map in O1. congruence.
Qed.
Print Assumptions C71_batch_apply.
(** Without an argument of sufficient rank the call raises. *)
Theorem C71_batch_apply_rank {A B} (f : list (arr A) -> option (list (arr B))) k args :
  Forall (fun x => (length (a_shape x) < k)%nat) args -> batch_apply_n f k args = None.
Proof.
  intros H. unfold batch_apply_n, mergeable_leaf. destruct (find (ndim_at_least k) args) as [e|] eqn:Ef; [|reflexivity]. exfalso.
  apply find_some in Ef as [F1 F2]. rewrite Forall_forall in H. specialize (H e F1). apply Nat.leb_le in F2. lia.
Qed.
Print Assumptions C71_batch_apply_rank.
(** On one argument and one result it is the call of C45. *)
Theorem C71_batch_apply_one {A B} (f : arr A -> option (arr B)) k x :
  batch_apply_n (fun ys => match ys with [y] => option_map (fun z => [z]) (f y) | _ => None end) k [x] = option_map (fun o => [o]) (batch_apply f k x).
Proof.
  unfold batch_apply_n, batch_apply, mergeable_leaf. cbn [find map all_some]. unfold ndim_at_least.
  destruct (Nat.leb_spec k (length (a_shape x))); destruct (Nat.ltb_spec (length (a_shape x)) k); try lia; [|reflexivity].
  destruct (merge_leading_dims x k) as [y|]; [|reflexivity]. destruct (f y) as [z|]; [|reflexivity]. cbn [option_map map all_some].
  destruct (split_leading_dim z _); reflexivity.
Qed.
Print Assumptions C71_batch_apply_one.

(** Adding vectors elementwise: two merged arguments of the same shape. *)
Definition add_arrays (ys : list (arr Z)) : option (list (arr Z)) :=
  match ys with
  | [y1; y2] => if list_eq_dec Z.eq_dec (a_shape y1) (a_shape y2)
                then Some [Arr (a_shape y1) (map (fun p => fst p + snd p) (combine (a_data y1) (a_data y2)))] else None
  | _ => None
  end.
(** Adding a bias (rank 0 or 1, never merged) to rows. *)
Example C71_batch_apply_case :
  batch_apply_n add_arrays 2 [Arr [2; 3] [0; 1; 2; 3; 4; 5]; Arr [2; 3] [10; 20; 30; 40; 50; 60]]
    = Some [Arr [2; 3] [10; 21; 32; 43; 54; 65]] /\
  batch_apply_n add_arrays 2 [Arr [2; 3] [0; 1; 2; 3; 4; 5]; Arr [6] [10; 20; 30; 40; 50; 60]]
    = Some [Arr [2; 3] [10; 21; 32; 43; 54; 65]] /\
  batch_apply_n add_arrays 2 [Arr [6] [0; 1; 2; 3; 4; 5]; Arr [6] [10; 20; 30; 40; 50; 60]] = None.
Proof. repeat split. Qed.
Lemma firstn_map_combine : forall (n : nat) (a b : list Z), firstn n (map (fun p => fst p + snd p) (combine a b)) = map (fun p => fst p + snd p) (combine (firstn n a) (firstn n b)).
Proof. induction n as [|n IH]; intros [|x a] [|y b]; cbn [combine map firstn]; try reflexivity. now rewrite IH. Qed.
Lemma skipn_map_combine : forall (n : nat) (a b : list Z), skipn n (map (fun p => fst p + snd p) (combine a b)) = map (fun p => fst p + snd p) (combine (skipn n a) (skipn n b)).
Proof.
  induction n as [|n IH]; intros [|x a] [|y b]; cbn [combine map skipn]; try reflexivity; [|apply IH].
  now destruct (skipn n a).
Qed.
(** The hypothesis of the theorem holds of it. *)
Example C71_rowwise_case : rowwise [true; true] add_arrays
  (fun parts => match parts with [a; b] => [map (fun p => fst p + snd p) (combine a b)] | _ => [] end).
Proof.
  intros n ys zs Hn Wy Hs. inversion Hs as [|? y1 ? l1 H1 T1]; subst. inversion T1 as [|? y2 ? l2 H2 T2]; subst. inversion T2; subst. cbn [add_arrays].
  destruct (list_eq_dec _ _ _) as [Es|]; [|discriminate]. intros [= <-]. destruct (H1 eq_refl) as (r & Er). inversion Wy as [|? ? [Wa Wb] Wr]; subst.
  inversion Wr as [|? ? [Wc Wd] _]; subst. split; [|split].
  - constructor; [|constructor]. split; cbn [a_shape a_data]; [exact Wa|]. rewrite map_length, combine_length. rewrite <- Es in Wd. rewrite Nat2Z.inj_min. lia.
  - constructor; [exists r; exact Er | constructor].
  - intros i Hi. cbn [map combine fst snd]. f_equal. rewrite (sub_array_lead _ [n] r) by (try exact Er; reflexivity).
    rewrite (sub_array_lead y1 [n] r) by (try exact Er; reflexivity). rewrite (sub_array_lead y2 [n] r) by (try reflexivity; rewrite <- Es; exact Er).
    cbn [a_data]. unfold block. now rewrite skipn_map_combine, firstn_map_combine.
Qed.
(** Leading dimensions that differ are not detected when their products agree: entries of different indices are combined and the
    result takes the leading dimensions of the first argument. *)
Theorem C71_lead_mismatch_refuted : ~ (forall (args outs : list (arr Z)), Forall wf_arr args ->
  Forall (fun x => (2 <= length (a_shape x))%nat) args -> batch_apply_n add_arrays 2 args = Some outs ->
  forall x y, In x args -> In y args -> firstn 2 (a_shape x) = firstn 2 (a_shape y)).
Proof.
  intros H. specialize (H [Arr [2; 3] [0; 1; 2; 3; 4; 5]; Arr [3; 2] [10; 20; 30; 40; 50; 60]] [Arr [2; 3] [10; 21; 32; 43; 54; 65]]).
  assert (E : firstn 2 [2; 3] = firstn 2 [3; 2]); [|discriminate E].
  apply (H ltac:(repeat constructor; cbn; lia) ltac:(repeat constructor; cbn; lia) eq_refl (Arr [2; 3] [0; 1; 2; 3; 4; 5]) (Arr [3; 2] [10; 20; 30; 40; 50; 60]));
    [now left | right; now left].
Qed.
Print Assumptions C71_lead_mismatch_refuted.

(** ** expand_apply *)
Lemma expand_row {A} (x : arr A) : wf_arr x -> sub_array (expand_dims 0 x) [0] = a_data x.
Proof.
  intros [W1 W2]. rewrite (sub_array_lead _ [1] (a_shape x)) by reflexivity. cbn [flat_index expand_dims a_data]. unfold block. cbn [Z.mul Z.add Z.to_nat Nat.mul skipn].
  apply firstn_all2. rewrite <- W2. lia.
Qed.
(** A function that works example by example is applied to one example: the results are [g] of the arguments. *)
Theorem C71_expand_apply {A B} (f : list (arr A) -> option (list (arr B))) g args :
  Forall wf_arr args -> rowwise (map (fun _ => true) args) f g ->
  (forall outs, expand_apply f 0 args = Some outs -> Forall wf_arr outs /\ map (@a_data B) outs = g (map (@a_data A) args)) /\
  (expand_apply f 0 args = None -> f (map (expand_dims 0) args) = None).
Proof.
  intros Wf Hg. set (ys := map (expand_dims 0) args).
  assert (W : Forall wf_arr ys).
  { unfold ys. apply Forall_map. eapply Forall_impl; [|exact Wf]. intros x [W1 W2]. split; cbn [expand_dims a_shape a_data Z.eqb]; [constructor; [lia | exact W1]|].
    cbn [prod]. lia. }
  assert (S1 : Forall2 (fun (m : bool) y => m = true -> exists r, a_shape y = 1 :: r) (map (fun _ => true) args) ys).
  { unfold ys. clear. induction args as [|a l IH]; cbn [map]; constructor; [|exact IH]. intros _. exists (a_shape a). reflexivity. }
  assert (R : forall zs, f ys = Some zs -> exists outs, all_some (map (squeeze 0) zs) = Some outs /\ Forall wf_arr outs /\ map (@a_data B) outs = g (map (@a_data A) args)).
  { intros zs Ez. destruct (Hg 1 ys zs ltac:(lia) W S1 Ez) as (Z1 & Z2 & Z3). specialize (Z3 0 ltac:(lia)).
    assert (G : map (fun p : bool * arr A => if fst p then sub_array (snd p) [0] else a_data (snd p)) (combine (map (fun _ => true) args) ys) = map (@a_data A) args).
    { unfold ys. clear - Wf. induction Wf as [|x l Hx _ IH]; [reflexivity|]. cbn [map combine fst snd]. now rewrite IH, expand_row. }
    rewrite G in Z3. rewrite <- Z3. clear - Z1 Z2. induction zs as [|z zs IH]; cbn [map all_some]; [exists []; repeat split; constructor|].
    inversion Z1 as [|? ? [W1 W2]]; subst. inversion Z2 as [|? ? (r & Hr)]; subst. destruct IH as (outs & I1 & I2 & I3); [assumption..|].
    assert (Q : squeeze 0 z = Some (Arr r (a_data z))) by (unfold squeeze; rewrite Hr; reflexivity). rewrite Q, I1.
    rewrite Hr in W1, W2. cbn [prod] in W2. inversion W1; subst. assert (Wo : wf_arr (Arr r (a_data z))) by (split; cbn [a_shape a_data]; [assumption | lia]).
    eexists. split; [reflexivity|]. split; [now constructor|]. cbn [map a_data]. f_equal; [|exact I3].
    pose proof (expand_row (Arr r (a_data z)) Wo) as X. symmetry. etransitivity; [|exact X]. f_equal. destruct z as [s d]. cbn in *. now subst. }
  split.
  - intros outs. unfold expand_apply. cbn [Z.eqb orb]. fold ys. destruct (f ys) as [zs|] eqn:Ez; [|discriminate]. destruct (R zs eq_refl) as (o & -> & H2 & H3).
    now intros [= <-].
  - unfold expand_apply. cbn [Z.eqb orb]. fold ys. destruct (f ys) as [zs|] eqn:Ez; [|reflexivity]. destruct (R zs eq_refl) as (o & -> & _). discriminate.
Qed.
Print Assumptions C71_expand_apply.
(** On both axes expanding and squeezing cancel, the elements are untouched, other axes are rejected, and so are results whose axis
    does not have size 1. *)
Theorem C71_expand_squeeze {A B} axis : (axis = 0 \/ axis = -1) ->
  (forall x : arr A, squeeze axis (expand_dims axis x) = Some x) /\
  (forall (y : arr B) x, squeeze axis y = Some x <-> y = expand_dims axis x).
Proof.
  intros Ha.
  assert (E1 : forall T (x : arr T), squeeze axis (expand_dims axis x) = Some x).
  { intros T [s d]. destruct Ha as [->| ->]; unfold squeeze, expand_dims; cbn [Z.eqb a_shape a_data]; [reflexivity|].
    rewrite last_last, removelast_last. cbn. destruct (s ++ [1]) eqn:E; [now destruct s | reflexivity]. }
  split; [apply E1|]. intros y x. split; [|intros ->; apply E1]. destruct y as [s d]. unfold squeeze, expand_dims. cbn [a_shape a_data].
  destruct s as [|n r]; [discriminate|]. destruct Ha as [->| ->]; cbn [Z.eqb].
  - destruct (Z.eqb_spec n 1) as [->|]; [|discriminate]. now intros [= <-].
  - destruct (Z.eqb_spec (last (n :: r) 0) 1) as [El|]; [|discriminate]. intros [= <-]. cbn [a_shape a_data].
    assert (X : n :: r = removelast (n :: r) ++ [last (n :: r) 0]) by (apply app_removelast_last; discriminate). rewrite El in X. now rewrite X at 1.
Qed.
Print Assumptions C71_expand_squeeze.
Theorem C71_expand_axis {A B} (f : list (arr A) -> option (list (arr B))) axis args outs :
  expand_apply f axis args = Some outs <->
  (axis = 0 \/ axis = -1) /\ exists ys, f (map (expand_dims axis) args) = Some ys /\ ys = map (expand_dims axis) outs.
Proof.
  unfold expand_apply. destruct (Z.eqb_spec axis 0) as [->|N0]; [|destruct (Z.eqb_spec axis (-1)) as [->|N1]]; cbn [orb].
  3: { split; [discriminate | intros [[?|?] _]; contradiction]. }
  all: match goal with |- context [expand_dims ?a] => set (ax := a); assert (Ha : ax = 0 \/ ax = -1) by (unfold ax; auto) end; destruct (f (map (expand_dims ax) args)) as [ys|];
    [|split; [discriminate | now intros [_ (? & ? & _)]]].
  all: rewrite all_some_map; split.
  all: try (intros H; split; [exact Ha|]; exists ys; split; [reflexivity|]; induction H as [|y x l m Hy _ IH]; [reflexivity|]; cbn [map];
    rewrite <- IH; f_equal; now apply (proj2 (@C71_expand_squeeze A B ax Ha))).
  all: intros [_ (ys' & [= <-] & ->)]; induction outs as [|x l IH]; [constructor|]; constructor; [|exact IH]; now apply (proj2 (@C71_expand_squeeze A B ax Ha)).
Qed.
Print Assumptions C71_expand_axis.
Example C71_expand_case :
  expand_apply add_arrays 0 [Arr [2] [1; 2]; Arr [2] [10; 20]] = Some [Arr [2] [11; 22]] /\
  expand_apply add_arrays (-1) [Arr [] [1]; Arr [] [10]] = Some [Arr [] [11]] /\
  expand_apply add_arrays 1 [Arr [2] [1; 2]; Arr [2] [10; 20]] = None /\
  expand_apply (fun _ => Some [Arr [2; 2] [0; 0; 0; 0]]) 0 [Arr [2] [1; 2]] = None.
Proof. repeat split. Qed.

(** ** to_module *)
Local Open Scope string_scope.
(** A given string is the name if it is valid, the function's name is the default, anything else is a [TypeError]; in particular a
    module made from a lambda needs a name. *)
Theorem C71_to_module fname arg s : to_module_name fname arg = ModuleName s <->
  valid_identifier s = true /\ (arg = NoName /\ s = fname \/ arg = StrName s).
Proof.
  unfold to_module_name. destruct arg as [|t|]; [destruct (valid_identifier fname) eqn:E | destruct (valid_identifier t) eqn:E |]; split;
    try discriminate; try (intros [= <-]; auto); intros [H [[H1 H2]|H1]]; congruence.
Qed.
Print Assumptions C71_to_module.
Theorem C71_to_module_lambda arg : (forall s, arg <> StrName s) -> forall s, to_module_name "<lambda>" arg <> ModuleName s.
Proof. destruct arg as [|t|]; intros H s; [discriminate | now specialize (H t) | discriminate]. Qed.
Print Assumptions C71_to_module_lambda.
Example C71_to_module_case : to_module_name "bias_fn" NoName = ModuleName "bias_fn" /\ to_module_name "<lambda>" (StrName "my_bias") = ModuleName "my_bias" /\
  to_module_name "<lambda>" NoName = RaisesValueError /\ to_module_name "bias_fn" OtherName = RaisesTypeError.
Proof. repeat split. Qed.

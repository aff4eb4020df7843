(** * C65: VectorQuantizerEMA, in exact arithmetic *)
From Coq Require Import Reals ZArith List Bool Lia Lra.
From Verif Require Import ModelReal ModelVqEma Properties14 Properties15.
Import ListNotations.
Local Open Scope R_scope.

(** ** What a history of training batches should leave behind *)
(** [wavg d vs]: the average of the values with weights proportional to d^(age); newest last (C48). *)
Definition wavg (d : R) (vs : list R) : R := weighted_sum d vs / (1 - d ^ length vs).
(** A training step as seen from outside: the vectors of the batch with the code each was assigned to. *)
Definition assigned (embeddings : list (list R)) (k : nat) (xs : list (list R)) : list (nat * list R) :=
  map (fun x => (vq_index x embeddings k, x)) xs.
Definition members (j : nat) (a : list (nat * list R)) : list (list R) := map snd (filter (fun p => (fst p =? j)%nat) a).
Definition count_of (j : nat) (a : list (nat * list R)) : R := INR (length (members j a)).
Definition sum_of (d j : nat) (a : list (nat * list R)) : R := Rsum (map (fun x => nth d x 0) (members j a)).
(** The assignments of all training steps of a history. *)
Fixpoint assignments (dim k : nat) (decay eps : R) (st : vqe_state) (calls : list (list (list R) * bool)) : list (list (nat * list R)) :=
  match calls with
  | [] => []
  | (xs, t) :: calls => (if t then [assigned (vqe_embeddings st) k xs] else []) ++
                        assignments dim k decay eps (vqe_call dim k decay eps st xs t) calls
  end.

(** ** Lemmas *)
Lemma Rsum_ext {A} (f g : A -> R) l : (forall x, In x l -> f x = g x) -> Rsum (map f l) = Rsum (map g l).
Proof. intros H. f_equal. now apply map_ext_in. Qed.
Lemma seq_nth_map {A} (f : nat -> A) (d : A) n i : (i < n)%nat -> nth i (map f (seq 0 n)) d = f i.
Proof.
  intros H. rewrite nth_indep with (d' := f 0%nat) by (rewrite map_length, seq_length; exact H).
  rewrite map_nth, seq_nth by exact H. reflexivity.
Qed.
Lemma one_hot_nth k i j : (j < k)%nat -> nth j (one_hot k i) 0 = if (j =? i)%nat then 1 else 0.
Proof. intros H. unfold one_hot. now rewrite seq_nth_map. Qed.
Lemma cluster_size_count emb k xs j : (j < k)%nat ->
  vqe_cluster_size (vq_encodings emb k xs) j = count_of j (assigned emb k xs).
Proof.
  intros H. unfold vqe_cluster_size, vq_encodings, column, count_of, members, assigned. rewrite map_length.
  induction xs as [|x xs IH]; [reflexivity|]. cbn [map filter fst]. rewrite Rsum_cons, IH, one_hot_nth, Nat.eqb_sym by exact H.
  destruct (vq_index x emb k =? j)%nat; cbn [length]; rewrite ?S_INR; lra.
Qed.
Lemma sums_of emb k xs d j : (j < k)%nat ->
  vqe_sums xs (vq_encodings emb k xs) d j = sum_of d j (assigned emb k xs).
Proof.
  intros H. unfold vqe_sums, vq_encodings, column, sum_of, members, assigned, dot. rewrite !map_map.
  induction xs as [|x xs IH]; [reflexivity|]. cbn [map combine filter fst snd]. rewrite Rsum_cons, IH, one_hot_nth, Nat.eqb_sym by exact H.
  destruct (vq_index x emb k =? j)%nat; cbn [map snd fst]; rewrite ?Rsum_cons; lra.
Qed.
(** An average that has seen the values [vs]. *)
Definition ema_seen (d : R) (vs : list R) (st : ema_state) : Prop :=
  snd (get_or (e_counter st) 0%Z) = Z.of_nat (length vs) /\ snd (get_or (e_hidden st) 0) = weighted_sum d vs.
Lemma ema_seen_call d vs st v : ema_seen d vs st ->
  ema_seen d (vs ++ [v]) (fst (ema_call d true 0 st v true)) /\ snd (ema_call d true 0 st v true) = wavg d (vs ++ [v]).
Proof.
  intros [Hc Hh]. unfold ema_call. change (- 0)%Z with 0%Z. change (0 <? 0)%Z with false. cbn [fst snd e_counter e_hidden get_or].
  unfold ema_seen, wavg. cbn [e_counter e_hidden get_or snd fst]. rewrite Hc, Hh, weighted_snoc, app_length. cbn [length].
  repeat split; [lia|]. do 3 f_equal. lia.
Qed.
Definition vqe_seen (k : nat) (decay : R) (as_ : list (list (nat * list R))) (st : vqe_state) : Prop :=
  (forall j, (j < k)%nat -> ema_seen decay (map (count_of j) as_) (vqe_size st j)) /\
  (forall d j, (j < k)%nat -> ema_seen decay (map (sum_of d j) as_) (vqe_dw st d j)).
Lemma vqe_seen_call dim k decay eps as_ st xs (t : bool) : vqe_seen k decay as_ st ->
  vqe_seen k decay (as_ ++ if t then [assigned (vqe_embeddings st) k xs] else []) (vqe_call dim k decay eps st xs t).
Proof.
  intros [H1 H2]. destruct t; [|rewrite app_nil_r; now split]. unfold vqe_call. split; cbn [vqe_size vqe_dw].
  - intros j Hj. rewrite map_app. cbn [map]. rewrite cluster_size_count by exact Hj. now apply ema_seen_call, H1.
  - intros d j Hj. rewrite map_app. cbn [map]. rewrite sums_of by exact Hj. now apply ema_seen_call, H2.
Qed.
Lemma vqe_seen_run dim k decay eps calls : forall as_ st, vqe_seen k decay as_ st ->
  vqe_seen k decay (as_ ++ assignments dim k decay eps st calls) (vqe_run dim k decay eps st calls).
Proof.
  induction calls as [|[xs t] calls IH]; intros as_ st H; cbn [vqe_run assignments]; [now rewrite app_nil_r|].
  rewrite app_assoc. apply IH. now apply vqe_seen_call.
Qed.
Lemma vqe_new_seen k decay emb : vqe_seen k decay [] (vqe_new emb).
Proof. split; intros; split; reflexivity. Qed.
Lemma weighted_plus {A} d (f g : A -> R) vs : weighted_sum d (map (fun x => f x + g x) vs) = weighted_sum d (map f vs) + weighted_sum d (map g vs).
Proof.
  induction vs as [|v vs IH] using rev_ind; [cbn; lra|]. rewrite !map_app. cbn [map]. rewrite !weighted_snoc, IH. lra.
Qed.
Lemma weighted_zero {A} d (vs : list A) : weighted_sum d (map (fun _ => 0) vs) = 0.
Proof. induction vs as [|v vs IH] using rev_ind; [cbn; lra|]. rewrite map_app. cbn [map]. rewrite weighted_snoc, IH. lra. Qed.
Lemma weighted_Rsum {A B} d (f : B -> A -> R) (l : list B) (vs : list A) :
  weighted_sum d (map (fun a => Rsum (map (fun b => f b a) l)) vs) = Rsum (map (fun b => weighted_sum d (map (f b) vs)) l).
Proof.
  induction l as [|b l IH]; cbn [map]; [apply weighted_zero|]. rewrite Rsum_cons, <- IH, <- weighted_plus. reflexivity.
Qed.
Lemma wavg_Rsum {A B} d (f : B -> A -> R) (l : list B) (vs : list A) :
  wavg d (map (fun a => Rsum (map (fun b => f b a) l)) vs) = Rsum (map (fun b => wavg d (map (f b) vs)) l).
Proof.
  unfold wavg. rewrite weighted_Rsum, map_length. unfold Rdiv. rewrite Rmult_comm, <- Rsum_scale, map_map.
  apply Rsum_ext. intros b _. rewrite map_length. lra.
Qed.
Lemma count_total k a : Forall (fun p => (fst p < k)%nat) a -> Rsum (map (fun j => count_of j a) (seq 0 k)) = INR (length a).
Proof.
  induction 1 as [|[i x] a Hi _ IH].
  - unfold count_of, members. cbn. rewrite Rsum_const. lra.
  - cbn [length]. rewrite S_INR, <- IH. cbn [fst] in Hi.
    transitivity (Rsum (map (fun j => (if (j =? i)%nat then 1 else 0) + count_of j a) (seq 0 k))).
    + apply Rsum_ext. intros j _. unfold count_of, members. cbn [filter fst]. rewrite (Nat.eqb_sym j i).
      destruct (i =? j)%nat; cbn [map length]; rewrite ?S_INR; lra.
    + rewrite Rsum_plus. enough (E : Rsum (map (fun j => if (j =? i)%nat then 1 else 0) (seq 0 k)) = 1) by (rewrite E; lra).
      clear - Hi. assert (G : forall n s, Rsum (map (fun j => if (j =? i)%nat then 1 else 0) (seq s n)) = if ((s <=? i) && (i <? s + n))%nat%bool then 1 else 0).
      { induction n as [|n IH]; intros s; cbn [seq map]; rewrite ?Rsum_cons, ?IH.
        - rewrite Rsum_nil. destruct (Nat.leb_spec s i), (Nat.ltb_spec i (s + 0)); cbn [andb]; lia || lra.
        - destruct (Nat.eqb_spec s i), (Nat.leb_spec (S s) i), (Nat.leb_spec s i), (Nat.ltb_spec i (S s + n)), (Nat.ltb_spec i (s + S n)); cbn [andb]; try lia; lra. }
      rewrite G. destruct (Nat.leb_spec 0 i), (Nat.ltb_spec i (0 + k)); cbn [andb]; lia || lra.
Qed.
Lemma wavg_bounds d vs lo hi : 0 <= d < 1 -> vs <> [] -> Forall (fun v => lo <= v <= hi) vs -> lo <= wavg d vs <= hi.
Proof.
  intros Hd Hne HF. pose proof (weighted_bounds d vs lo hi Hd HF) as B. unfold wavg.
  assert (P : 0 < 1 - d ^ length vs).
  { pose proof (pow_lt_1 d (length vs) Hd). destruct vs; [congruence|]. cbn [length] in *. specialize (H ltac:(lia)). lra. }
  split; apply Rmult_le_reg_r with (1 - d ^ length vs); try exact P; unfold Rdiv; rewrite Rmult_assoc, Rinv_l by lra; lra.
Qed.
Lemma assigned_lt emb k xs : (0 < k)%nat -> Forall (fun p => (fst p < k)%nat) (assigned emb k xs).
Proof.
  intros Hk. apply Forall_forall. intros p Hp. apply in_map_iff in Hp as (x & <- & _). cbn [fst]. unfold vq_index.
  assert (L : length (map Ropp (vq_distances x emb k)) = k) by (unfold vq_distances; now rewrite !map_length, seq_length).
  rewrite <- L at 2. apply argmax_spec. intros E. rewrite E in L. cbn in L. lia.
Qed.

(** ** The theorems *)
(** The state after any history followed by a training step, in terms of the assignments of all training steps so far: with
    [c j] and [s d j] the weighted averages of the number of vectors assigned to code [j] and of the sums of their coordinates,
    and [n] the weighted average of the batch sizes, coordinate [d] of code [j] is [s d j] divided by
    [(c j + eps) / (n + k eps) n]. *)
Theorem C65_embedding dim k decay eps emb0 calls xs d j :
  (0 < k)%nat -> (d < dim)%nat -> (j < k)%nat ->
  let st := vqe_run dim k decay eps (vqe_new emb0) calls in
  let as_ := assignments dim k decay eps (vqe_new emb0) (calls ++ [(xs, true)]) in
  let n := wavg decay (map (fun a => INR (length a)) as_) in
  nth j (nth d (vqe_embeddings (vqe_call dim k decay eps st xs true)) []) 0 =
    wavg decay (map (sum_of d j) as_) / ((wavg decay (map (count_of j) as_) + eps) / (n + INR k * eps) * n).
Proof.
  intros Hk Hd Hj. cbv zeta.
  assert (Ea : forall st calls, assignments dim k decay eps st (calls ++ [(xs, true)]) =
     assignments dim k decay eps st calls ++ [assigned (vqe_embeddings (vqe_run dim k decay eps st calls)) k xs]).
  { intros st0 cs. revert st0. induction cs as [|[ys t] cs IH]; intros st0; cbn [assignments app vqe_run]; [reflexivity|].
    now rewrite IH, app_assoc. }
  assert (Hlt : Forall (Forall (fun p => (fst p < k)%nat)) (assignments dim k decay eps (vqe_new emb0) (calls ++ [(xs, true)]))).
  { generalize (vqe_new emb0) (calls ++ [(xs, true)]). intros st0 cs. revert st0.
    induction cs as [|[ys t] cs IH]; intros st0; cbn [assignments]; [constructor|]. apply Forall_app. split; [|apply IH].
    destruct t; [|constructor]. constructor; [now apply assigned_lt | constructor]. }
  rewrite Ea in *. pose proof (vqe_seen_run dim k decay eps calls [] _ (vqe_new_seen k decay emb0)) as [H1 H2]. cbn [app] in H1, H2.
  set (st := vqe_run dim k decay eps (vqe_new emb0) calls) in *. set (as0 := assignments dim k decay eps (vqe_new emb0) calls) in *.
  set (a := assigned (vqe_embeddings st) k xs) in *.
  unfold vqe_call. cbn [vqe_embeddings]. rewrite !seq_nth_map by assumption.
  assert (Es : forall i, (i < k)%nat -> snd (ema_call decay true 0 (vqe_size st i) (vqe_cluster_size (vq_encodings (vqe_embeddings st) k xs) i) true)
     = wavg decay (map (count_of i) (as0 ++ [a]))).
  { intros i Hi. rewrite cluster_size_count by exact Hi. fold a. rewrite map_app. now apply ema_seen_call, H1. }
  rewrite sums_of by exact Hj. fold a.
  destruct (ema_seen_call decay _ _ (sum_of d j a) (H2 d j Hj)) as [_ ->].
  unfold vqe_smoothed. rewrite Es by exact Hj. rewrite map_app at 1. cbn [map].
  assert (En : Rsum (map (fun i => snd (ema_call decay true 0 (vqe_size st i) (vqe_cluster_size (vq_encodings (vqe_embeddings st) k xs) i) true)) (seq 0 k))
    = wavg decay (map (fun a => INR (length a)) (as0 ++ [a]))).
  { transitivity (Rsum (map (fun i => wavg decay (map (count_of i) (as0 ++ [a]))) (seq 0 k))).
    - apply Rsum_ext. intros i Hi. apply in_seq in Hi. apply Es. lia.
    - rewrite <- (wavg_Rsum decay (fun i a => count_of i a)). f_equal. apply map_ext_in. intros b Hb. apply count_total.
      rewrite Forall_forall in Hlt. now apply Hlt. }
  rewrite En, !map_app. reflexivity.
Qed.
Print Assumptions C65_embedding.

Lemma weighted_le {A} d (f g : A -> R) vs : 0 <= d <= 1 -> (forall v, In v vs -> f v <= g v) ->
  weighted_sum d (map f vs) <= weighted_sum d (map g vs).
Proof.
  intros Hd. induction vs as [|v vs IH] using rev_ind; intros H; [cbn; lra|].
  rewrite !map_app. cbn [map]. rewrite !weighted_snoc.
  assert (I1 : weighted_sum d (map f vs) <= weighted_sum d (map g vs)) by (apply IH; intros; apply H, in_or_app; now left).
  assert (I2 : f v <= g v) by (apply H, in_or_app; right; now left).
  apply Rplus_le_compat; apply Rmult_le_compat_r; lra.
Qed.
Lemma weighted_scale {A} d c (f : A -> R) vs : weighted_sum d (map (fun a => c * f a) vs) = c * weighted_sum d (map f vs).
Proof. induction vs as [|v vs IH] using rev_ind; [cbn; lra|]. rewrite !map_app. cbn [map]. rewrite !weighted_snoc, IH. lra. Qed.
Lemma wavg_le {A} d (f g : A -> R) vs : 0 <= d < 1 -> (forall v, In v vs -> f v <= g v) -> wavg d (map f vs) <= wavg d (map g vs).
Proof.
  intros Hd H. unfold wavg. rewrite !map_length. pose proof (weighted_le d f g vs ltac:(lra) H) as L. unfold Rdiv.
  destruct vs as [|v vs]; [cbn; lra|]. pose proof (pow_lt_1 d (length (v :: vs)) Hd ltac:(cbn; lia)) as P.
  apply Rmult_le_compat_r; [|exact L]. left. apply Rinv_0_lt_compat. lra.
Qed.
Lemma wavg_scale {A} d c (f : A -> R) vs : wavg d (map (fun a => c * f a) vs) = c * wavg d (map f vs).
Proof. unfold wavg. rewrite weighted_scale, !map_length. unfold Rdiv. lra. Qed.
(** The coordinates of the vectors assigned to code [j] all satisfy [P]. *)
Definition coords (P : R -> Prop) (d j : nat) (a : list (nat * list R)) : Prop := Forall (fun x => P (nth d x 0)) (members j a).
Lemma sum_of_le hi d j a : coords (fun v => v <= hi) d j a -> sum_of d j a <= hi * count_of j a.
Proof.
  unfold coords, sum_of, count_of. induction 1 as [|x l H _ IH]; [cbn; lra|]. cbn [map length]. rewrite Rsum_cons, S_INR. lra.
Qed.
Lemma sum_of_ge lo d j a : coords (fun v => lo <= v) d j a -> lo * count_of j a <= sum_of d j a.
Proof.
  unfold coords, sum_of, count_of. induction 1 as [|x l H _ IH]; [cbn; lra|]. cbn [map length]. rewrite Rsum_cons, S_INR. lra.
Qed.
Lemma wavg_sum_bounds decay lo hi d j as_ : 0 <= decay < 1 -> Forall (coords (fun v => lo <= v <= hi) d j) as_ ->
  lo * wavg decay (map (count_of j) as_) <= wavg decay (map (sum_of d j) as_) <= hi * wavg decay (map (count_of j) as_).
Proof.
  intros Hd H. rewrite Forall_forall in H. rewrite <- !wavg_scale. split; apply wavg_le; try exact Hd; intros a Ha.
  - apply sum_of_ge. eapply Forall_impl; [|apply H, Ha]. cbn. intros; lra.
  - apply sum_of_le. eapply Forall_impl; [|apply H, Ha]. cbn. intros; lra.
Qed.

(** The smoothing keeps the total and makes every size positive: the division that follows is defined. *)
Theorem C65_smoothing k eps avg : 0 < eps -> (forall j, (j < k)%nat -> 0 <= avg j) ->
  0 < Rsum (map avg (seq 0 k)) ->
  Rsum (map (vqe_smoothed k eps avg) (seq 0 k)) = Rsum (map avg (seq 0 k)) /\
  forall j, (j < k)%nat -> 0 < vqe_smoothed k eps avg j.
Proof.
  intros He Ha Hn. assert (Hp : 0 < Rsum (map avg (seq 0 k)) + INR k * eps).
  { assert (0 <= INR k * eps) by (apply Rmult_le_pos; [apply pos_INR | lra]). lra. }
  split.
  - unfold vqe_smoothed. cbv zeta. set (n := Rsum (map avg (seq 0 k))) in *.
    transitivity (Rsum (map (fun x => (n / (n + INR k * eps)) * x) (map (fun j => avg j + eps) (seq 0 k)))).
    + rewrite map_map. apply Rsum_ext. intros. unfold Rdiv. lra.
    + rewrite Rsum_scale, Rsum_plus, Rsum_const, seq_length. fold n. field. lra.
  - intros j Hj. unfold vqe_smoothed. cbv zeta. specialize (Ha j Hj). apply Rmult_lt_0_compat; [|exact Hn].
    apply Rmult_lt_0_compat; [lra | now apply Rinv_0_lt_compat].
Qed.
Print Assumptions C65_smoothing.

(** Without smoothing, the code is the weighted mean of all vectors ever assigned to it: it lies between their smallest and
    largest coordinates. *)
Theorem C65_mean dim k decay emb0 calls xs d j lo hi :
  (0 < k)%nat -> (d < dim)%nat -> (j < k)%nat -> 0 <= decay < 1 ->
  let st := vqe_run dim k decay 0 (vqe_new emb0) calls in
  let as_ := assignments dim k decay 0 (vqe_new emb0) (calls ++ [(xs, true)]) in
  let e := nth j (nth d (vqe_embeddings (vqe_call dim k decay 0 st xs true)) []) 0 in
  0 < wavg decay (map (count_of j) as_) ->
  e = wavg decay (map (sum_of d j) as_) / wavg decay (map (count_of j) as_) /\
  (Forall (coords (fun v => lo <= v <= hi) d j) as_ -> lo <= e <= hi).
Proof.
  intros Hk Hd Hj Hdec. cbv zeta. intros Hc. rewrite C65_embedding by assumption.
  set (as_ := assignments dim k decay 0 (vqe_new emb0) (calls ++ [(xs, true)])) in *.
  assert (Hn : 0 < wavg decay (map (fun a => INR (length a)) as_)).
  { eapply Rlt_le_trans; [exact Hc|]. apply wavg_le; [exact Hdec|]. intros a _. unfold count_of, members. apply le_INR. rewrite map_length.
    clear. induction a as [|p a IH]; cbn [filter length]; [lia|]. destruct (fst p =? j)%nat; cbn [length]; lia. }
  assert (E : wavg decay (map (sum_of d j) as_) / ((wavg decay (map (count_of j) as_) + 0) / (wavg decay (map (fun a => INR (length a)) as_) + INR k * 0) * wavg decay (map (fun a => INR (length a)) as_))
    = wavg decay (map (sum_of d j) as_) / wavg decay (map (count_of j) as_)) by (field; lra).
  rewrite E. split; [reflexivity|]. intros HF. pose proof (wavg_sum_bounds decay lo hi d j as_ Hdec HF) as B.
  split; apply Rmult_le_reg_r with (wavg decay (map (count_of j) as_)); try exact Hc; unfold Rdiv; rewrite Rmult_assoc, Rinv_l by lra; lra.
Qed.
Print Assumptions C65_mean.
(** With smoothing the code is shorter than that, and exceeds the bound on the inputs by at most the factor [1 + k eps / n]. *)
Theorem C65_bounded dim k decay eps emb0 calls xs d j M :
  (0 < k)%nat -> (d < dim)%nat -> (j < k)%nat -> 0 <= decay < 1 -> 0 < eps -> 0 <= M ->
  let st := vqe_run dim k decay eps (vqe_new emb0) calls in
  let as_ := assignments dim k decay eps (vqe_new emb0) (calls ++ [(xs, true)]) in
  let n := wavg decay (map (fun a => INR (length a)) as_) in
  0 < n -> Forall (coords (fun v => - M <= v <= M) d j) as_ ->
  Rabs (nth j (nth d (vqe_embeddings (vqe_call dim k decay eps st xs true)) []) 0) <= (1 + INR k * eps / n) * M.
Proof.
  intros Hk Hd Hj Hdec He HM. cbv zeta. intros Hn HF. rewrite C65_embedding by assumption.
  set (as_ := assignments dim k decay eps (vqe_new emb0) (calls ++ [(xs, true)])) in *.
  set (n := wavg decay (map (fun a => INR (length a)) as_)) in *.
  pose proof (wavg_sum_bounds decay (- M) M d j as_ Hdec HF) as B.
  set (c := wavg decay (map (count_of j) as_)) in *. set (sm := wavg decay (map (sum_of d j) as_)) in *.
  assert (Hc : 0 <= c).
  { unfold c. apply Rle_trans with (wavg decay (map (fun _ : list (nat * list R) => 0) as_)).
    - unfold wavg. rewrite weighted_zero. unfold Rdiv. lra.
    - apply wavg_le; [exact Hdec|]. intros. apply pos_INR. }
  assert (Hke : 0 <= INR k * eps) by (apply Rmult_le_pos; [apply pos_INR | lra]).
  replace (sm / ((c + eps) / (n + INR k * eps) * n)) with (sm / (c + eps) * (1 + INR k * eps / n)) by (field; lra).
  assert (F : 0 <= 1 + INR k * eps / n).
  { assert (0 <= INR k * eps / n) by (apply Rmult_le_pos; [exact Hke | left; now apply Rinv_0_lt_compat]). lra. }
  rewrite Rabs_mult, (Rabs_pos_eq _ F), Rmult_comm. apply Rmult_le_compat_l; [exact F|].
  apply Rabs_le. assert (M * c <= M * (c + eps)) by (apply Rmult_le_compat_l; lra).
  split; apply Rmult_le_reg_r with (c + eps); try lra; unfold Rdiv; rewrite Rmult_assoc, Rinv_l by lra; lra.
Qed.
Print Assumptions C65_bounded.
(** Batches of one size: [n] is that size. *)
Theorem C65_batch_size {A} d N (as_ : list (list A)) : 0 <= d < 1 -> as_ <> [] -> Forall (fun a => length a = N) as_ ->
  wavg d (map (fun a => INR (length a)) as_) = INR N.
Proof.
  intros Hd Hne HF. destruct (wavg_bounds d (map (fun a => INR (length a)) as_) (INR N) (INR N) Hd) as [H1 H2]; [| |lra].
  - destruct as_; [congruence | discriminate].
  - apply Forall_forall. intros v Hv. apply in_map_iff in Hv as (a & <- & Ha). rewrite Forall_forall in HF. rewrite (HF a Ha). lra.
Qed.
Print Assumptions C65_batch_size.
(** A code that no vector was assigned to is the zero vector after any training step, whatever it was initialised with. *)
Theorem C65_unused dim k decay eps emb0 calls xs d j :
  (0 < k)%nat -> (d < dim)%nat -> (j < k)%nat ->
  let as_ := assignments dim k decay eps (vqe_new emb0) (calls ++ [(xs, true)]) in
  Forall (fun a => members j a = []) as_ ->
  nth j (nth d (vqe_embeddings (vqe_call dim k decay eps (vqe_run dim k decay eps (vqe_new emb0) calls) xs true)) []) 0 = 0.
Proof.
  intros Hk Hd Hj. cbv zeta. intros HF. rewrite C65_embedding by assumption.
  set (as_ := assignments dim k decay eps (vqe_new emb0) (calls ++ [(xs, true)])) in *.
  replace (map (sum_of d j) as_) with (map (fun _ : list (nat * list R) => 0) as_).
  - unfold wavg at 1. rewrite weighted_zero. unfold Rdiv. lra.
  - apply map_ext_in. intros a Ha. rewrite Forall_forall in HF. unfold sum_of. now rewrite (HF a Ha).
Qed.
Print Assumptions C65_unused.
(** Calls for evaluation leave no trace. *)
Theorem C65_evaluation dim k decay eps st calls :
  vqe_run dim k decay eps st calls = vqe_run dim k decay eps st (filter snd calls).
Proof. revert st. induction calls as [|[xs []] calls IH]; intros st; cbn [filter snd vqe_run]; [reflexivity | apply IH | apply IH]. Qed.
Print Assumptions C65_evaluation.

Lemma ln_le_sub x : 0 < x -> ln x <= x - 1.
Proof.
  intros H. destruct (Req_dec x 1) as [->|Hx]; [rewrite ln_1; lra|].
  pose proof (exp_ineq1 (ln x)) as E. rewrite exp_ln in E by exact H. enough (ln x <> 0) by (specialize (E H0); lra).
  intros E0. apply Hx. rewrite <- (exp_ln x H), E0. apply exp_0.
Qed.
(** The perplexity lies between (nearly) 1 and the number of codes. *)
Theorem C65_perplexity emb k xs delta : (0 < k)%nat -> xs <> [] -> 0 < delta ->
  / (1 + delta) <= vq_perplexity delta (vq_encodings emb k xs) k <= INR k.
Proof.
  intros Hk Hx Hd. unfold vq_perplexity. set (p := vq_avg_prob (vq_encodings emb k xs)).
  assert (HL : 0 < INR (length xs)) by (apply lt_0_INR; destruct xs; [congruence | cbn; lia]).
  assert (Hpc : forall j, (j < k)%nat -> p j = count_of j (assigned emb k xs) / INR (length xs)).
  { intros j Hj. unfold p, vq_avg_prob, mean. unfold column at 2, vq_encodings at 2. rewrite !map_length. f_equal.
    now apply cluster_size_count. }
  assert (Hp0 : forall j, (j < k)%nat -> 0 <= p j).
  { intros j Hj. rewrite Hpc by exact Hj. apply Rmult_le_pos; [apply pos_INR | left; now apply Rinv_0_lt_compat]. }
  assert (Hsum : Rsum (map p (seq 0 k)) = 1).
  { transitivity (Rsum (map (fun x => / INR (length xs) * x) (map (fun j => count_of j (assigned emb k xs)) (seq 0 k)))).
    - rewrite map_map. apply Rsum_ext. intros j Hj. apply in_seq in Hj. rewrite Hpc by lia. unfold Rdiv. lra.
    - rewrite Rsum_scale, count_total by now apply assigned_lt. unfold assigned. rewrite map_length. apply Rinv_l. lra. }
  assert (Hp1 : forall j, (j < k)%nat -> p j <= 1).
  { intros j Hj. rewrite <- Hsum. assert (G : forall l, (forall i, In i l -> 0 <= p i) -> In j l -> p j <= Rsum (map p l)).
    { induction l as [|i l IH]; intros Hi Hin; [easy|]. cbn [map]. rewrite Rsum_cons.
      assert (0 <= Rsum (map p l)) by (apply Rsum_nonneg, Forall_forall; intros y Hy; apply in_map_iff in Hy as (z & <- & Hz); apply Hi; now right).
      pose proof (Hi i (or_introl eq_refl)). destruct Hin as [->|Hin]; [lra|]. specialize (IH (fun z Hz => Hi z (or_intror Hz)) Hin). lra. }
    apply G; [intros i Hi; apply Hp0; apply in_seq in Hi; lia | apply in_seq; lia]. }
  assert (Rsum_le : forall f g : nat -> R, (forall j, (j < k)%nat -> f j <= g j) -> Rsum (map f (seq 0 k)) <= Rsum (map g (seq 0 k))).
  { intros f g H. assert (G : forall l, (forall i, In i l -> f i <= g i) -> Rsum (map f l) <= Rsum (map g l)).
    { induction l as [|i l IH]; intros Hi; [cbn; lra|]. cbn [map]. rewrite !Rsum_cons. pose proof (Hi i (or_introl eq_refl)).
      specialize (IH (fun z Hz => Hi z (or_intror Hz))). lra. }
    apply G. intros i Hi. apply in_seq in Hi. apply H. lia. }
  assert (exp_le : forall a b, a <= b -> exp a <= exp b) by (intros a b [H| ->]; [left; now apply exp_increasing | lra]).
  split.
  - rewrite <- (exp_ln (/ (1 + delta))) by (apply Rinv_0_lt_compat; lra). rewrite ln_Rinv by lra. apply exp_le.
    apply Ropp_le_contravar. apply Rle_trans with (Rsum (map (fun j => ln (1 + delta) * p j) (seq 0 k))).
    + apply Rsum_le. intros j Hj. rewrite Rmult_comm. apply Rmult_le_compat_r; [now apply Hp0|].
      pose proof (Hp1 j Hj). pose proof (Hp0 j Hj). destruct (Req_dec (p j) 1) as [E|E]; [rewrite E; lra|]. left. apply ln_increasing; lra.
    + rewrite <- (map_map p (fun x => ln (1 + delta) * x)), Rsum_scale, Hsum. lra.
  - assert (HK : 0 < INR k) by (now apply lt_0_INR). rewrite <- (exp_ln (INR k)) by exact HK. apply exp_le.
    enough (Rsum (map (fun j => - (p j * ln (p j + delta)) + - ln (INR k) * p j) (seq 0 k)) <= 0) as E.
    { rewrite Rsum_plus in E. rewrite <- (map_map p (fun x => - ln (INR k) * x)), Rsum_scale, Hsum in E.
      rewrite <- (map_map (fun j => p j * ln (p j + delta)) Ropp) in E.
      replace (Rsum (map Ropp (map (fun j => p j * ln (p j + delta)) (seq 0 k)))) with (- Rsum (map (fun j => p j * ln (p j + delta)) (seq 0 k))) in E; [lra|].
      generalize (map (fun j => p j * ln (p j + delta)) (seq 0 k)). clear. induction l as [|a l IH]; cbn [map]; rewrite ?Rsum_cons, ?Rsum_nil, <- ?IH; lra. }
    apply Rle_trans with (Rsum (map (fun j => / INR k + -1 * p j) (seq 0 k))).
    + apply Rsum_le. intros j Hj. pose proof (Hp0 j Hj) as P0.
      replace (- (p j * ln (p j + delta)) + - ln (INR k) * p j) with (p j * ln (/ (INR k * (p j + delta)))).
      2:{ rewrite ln_Rinv by (apply Rmult_lt_0_compat; lra). rewrite ln_mult by lra. lra. }
      apply Rle_trans with (p j * (/ (INR k * (p j + delta)) - 1)).
      * apply Rmult_le_compat_l; [exact P0|]. apply ln_le_sub. apply Rinv_0_lt_compat, Rmult_lt_0_compat; lra.
      * rewrite Rmult_minus_distr_l. enough (p j * / (INR k * (p j + delta)) <= / INR k) by lra.
        apply Rmult_le_reg_r with (INR k * (p j + delta)); [apply Rmult_lt_0_compat; lra|].
        rewrite Rmult_assoc, Rinv_l by (apply Rgt_not_eq, Rmult_lt_0_compat; lra). field_simplify; lra.
    + rewrite Rsum_plus, Rsum_const, seq_length. rewrite <- (map_map p (fun x => -1 * x)), Rsum_scale, Hsum. rewrite Rinv_r by lra. lra.
Qed.
Print Assumptions C65_perplexity.

(** Dimension 1, two codes 0 and 10, the batch 1, 3, 11: code 0 becomes the mean 2 of its vectors and code 1 becomes 11. *)
Lemma vq_index_1 x a b : square (x - a) < square (x - b) -> vq_index [x] [[a; b]] 2 = 0%nat.
Proof.
  intros H. destruct (C53_nearest [x] [[a; b]] 2) as (A & B & _); [lia | reflexivity |]. set (j := vq_index _ _ _) in *. clearbody j.
  pose proof (B 0%nat ltac:(lia)) as B2. destruct j as [|[|j]]; [reflexivity| |lia]. exfalso.
  unfold sq_distance, column, Rsum in B2. cbn [map combine fst snd fold_right nth] in B2. lra.
Qed.
Lemma vq_index_2 x a b : square (x - b) < square (x - a) -> vq_index [x] [[a; b]] 2 = 1%nat.
Proof.
  intros H. destruct (C53_nearest [x] [[a; b]] 2) as (A & B & _); [lia | reflexivity |]. set (j := vq_index _ _ _) in *. clearbody j.
  pose proof (B 1%nat ltac:(lia)) as B2. destruct j as [|[|j]]; [|reflexivity|lia]. exfalso.
  unfold sq_distance, column, Rsum in B2. cbn [map combine fst snd fold_right nth] in B2. lra.
Qed.
Example C65_values : vqe_embeddings (vqe_call 1 2 (1/2) 0 (vqe_new [[0; 10]]) [[1]; [3]; [11]] true) = [[2; 11]].
Proof.
  unfold vqe_call. cbn [vqe_embeddings vqe_new]. unfold vq_encodings. cbn [map].
  rewrite (vq_index_1 1 0 10), (vq_index_1 3 0 10), (vq_index_2 11 0 10) by (unfold square; lra).
  unfold vqe_smoothed, vqe_sums, vqe_cluster_size, column, one_hot, dot, ema_call. cbn [map seq nth combine fst snd Nat.eqb]. unfold Rsum. cbn.
  change (Pos.to_nat 1) with 1%nat. cbn [pow]. do 3 f_equal; try field. all: f_equal; field.
Qed.
Example C65_history : 0 < wavg (1/2) (map (count_of 0) (assignments 1 2 (1/2) 0 (vqe_new [[0; 10]]) ([] ++ [([[1]; [3]; [11]], true)]))) /\
  Forall (coords (fun v => 1 <= v <= 3) 0 0) (assignments 1 2 (1/2) 0 (vqe_new [[0; 10]]) ([] ++ [([[1]; [3]; [11]], true)])).
Proof.
  cbn [app assignments]. unfold assigned. cbn [vqe_embeddings vqe_new map].
  rewrite (vq_index_1 1 0 10), (vq_index_1 3 0 10), (vq_index_2 11 0 10) by (unfold square; lra). split.
  - unfold wavg, weighted_sum, count_of, members, Rsum. cbn. lra.
  - repeat constructor; cbn; lra.
Qed.
(** Initial values do not survive: with codes 0 and 10 and the single vector 1, code 1 becomes the zero vector. *)
Theorem C65_keep_refuted : ~ (forall dim k decay eps emb0 xs d j, (d < dim)%nat -> (j < k)%nat -> 0 <= decay < 1 -> 0 < eps ->
  members j (assigned emb0 k xs) = [] ->
  nth j (nth d (vqe_embeddings (vqe_call dim k decay eps (vqe_new emb0) xs true)) []) 0 = nth j (nth d emb0 []) 0).
Proof.
  intros H. specialize (H 1%nat 2%nat (1/2) 1 [[0; 10]] [[1]] 0%nat 1%nat). 
  assert (E : vq_index [1] [[0; 10]] 2 = 0%nat) by (apply vq_index_1; unfold square; lra).
  assert (HF : members 1 (assigned [[0; 10]] 2 [[1]]) = []) by (unfold assigned; cbn [map]; rewrite E; reflexivity).
  pose proof (C65_unused 1 2 (1/2) 1 [[0; 10]] [] [[1]] 0 1 ltac:(lia) ltac:(lia) ltac:(lia)) as U. cbv zeta in U. cbn [vqe_run] in U.
  rewrite U in H; [|cbn [app assignments]; constructor; [exact HF | constructor]].
  cbn [nth] in H. enough (0 = 10) by lra. apply H; try lia; try lra. exact HF.
Qed.
Print Assumptions C65_keep_refuted.
(** Exactly the decays in [0, 1] are accepted. *)
Theorem C65_accepts decay : vqe_accepts decay = true <-> 0 <= decay <= 1.
Proof. unfold vqe_accepts. destruct (Rle_dec 0 decay), (Rle_dec decay 1); split; try discriminate; try reflexivity; lra. Qed.
Print Assumptions C65_accepts.
(** The output for a row is the first of its nearest codes among the embeddings held before the update. *)
Theorem C65_output st k x : (0 < k)%nat -> length (vqe_embeddings st) = length x ->
  exists j, (j < k)%nat /\ vqe_output st k x = map (fun row => nth j row 0) (vqe_embeddings st) /\
    (forall m, (m < k)%nat -> sq_distance x (vqe_output st k x) <= sq_distance x (map (fun row => nth m row 0) (vqe_embeddings st))) /\
    (forall m, (m < j)%nat -> sq_distance x (vqe_output st k x) < sq_distance x (map (fun row => nth m row 0) (vqe_embeddings st))).
Proof.
  intros Hk HL. destruct (C53_nearest x (vqe_embeddings st) k Hk HL) as (A & B & C & D). exists (vq_index x (vqe_embeddings st) k).
  unfold vqe_output. rewrite D. split; [exact A|]. split; [reflexivity|]. split; [exact B | exact C].
Qed.
Print Assumptions C65_output.
Lemma Rsum_concat (l : list (list R)) : Rsum (concat l) = Rsum (map Rsum l).
Proof. induction l as [|x l IH]; [reflexivity|]. cbn [concat map]. rewrite Rsum_app, Rsum_cons, IH. reflexivity. Qed.
Lemma Rsum_le {A} (f g : A -> R) l : (forall a, In a l -> f a <= g a) -> Rsum (map f l) <= Rsum (map g l).
Proof.
  induction l as [|a l IH]; intros H; cbn [map]; rewrite ?Rsum_nil, ?Rsum_cons; [lra|].
  pose proof (H a (or_introl eq_refl)). pose proof (IH (fun b Hb => H b (or_intror Hb))). lra.
Qed.
(** The latent loss is the mean over all entries of the squared distances of the rows to their codes, and no other assignment of
    codes to rows has a smaller one. *)
Theorem C65_latent_loss emb dim k xs (assign : list R -> nat) : (0 < k)%nat -> (0 < dim)%nat -> xs <> [] -> length emb = dim ->
  Forall (fun x => length x = dim) xs -> (forall x, In x xs -> (assign x < k)%nat) ->
  vq_latent_loss emb k xs = Rsum (map (fun x => sq_distance x (column (vq_index x emb k) emb)) xs) / (INR (length xs) * INR dim) /\
  0 <= vq_latent_loss emb k xs <= Rsum (map (fun x => sq_distance x (column (assign x) emb)) xs) / (INR (length xs) * INR dim).
Proof.
  intros Hk Hd Hx He HF Ha. rewrite Forall_forall in HF.
  assert (E : vq_latent_loss emb k xs = Rsum (map (fun x => sq_distance x (column (vq_index x emb k) emb)) xs) / (INR (length xs) * INR dim)).
  { unfold vq_latent_loss, mean. f_equal.
    - rewrite Rsum_concat, map_map. f_equal. apply map_ext_in. intros x Hin. unfold zipw, sq_distance, vq_quantize.
      assert (Lx : length (column (vq_index x emb k) emb) = length x) by (unfold column; rewrite map_length; rewrite (HF x Hin); exact He).
      revert Lx. generalize (column (vq_index x emb k) emb). clear. induction x as [|a x IH]; intros [|b y] L; try discriminate L; [reflexivity|].
      cbn [combine map fst snd]. rewrite !Rsum_cons. rewrite IH by (cbn in L; lia). unfold square. ring.
    - rewrite <- mult_INR. f_equal. clear Hx Ha. induction xs as [|x xs IH]; [reflexivity|]. cbn [map concat length]. rewrite app_length, IH by (intros; apply HF; now right).
      unfold zipw. rewrite map_length, combine_length. unfold vq_quantize, column. rewrite map_length, He, (HF x) by now left. rewrite Nat.min_id. cbn [Nat.mul]. lia. }
  assert (Hn : 0 < INR (length xs) * INR dim) by (apply Rmult_lt_0_compat; apply lt_0_INR; [destruct xs; [congruence | cbn; lia] | exact Hd]).
  split; [exact E|]. rewrite E. split.
  - apply Rle_mult_inv_pos; [|exact Hn]. apply Rsum_nonneg, Forall_forall. intros y Hy. apply in_map_iff in Hy as (x & <- & _). unfold sq_distance.
    apply Rsum_nonneg, Forall_forall. intros z Hz. apply in_map_iff in Hz as (q & <- & _). unfold square. apply Rle_0_sqr.
  - unfold Rdiv. apply Rmult_le_compat_r; [left; now apply Rinv_0_lt_compat|]. apply Rsum_le. intros x Hin.
    destruct (C53_nearest x emb k Hk) as (_ & B & _); [rewrite (HF x Hin); exact He|]. apply B, Ha, Hin.
Qed.
Print Assumptions C65_latent_loss.
(** The accepted decay 1 divides by zero in the first step (C48). *)
Theorem C65_decay_refuted : ~ (forall decay, vqe_accepts decay = true -> 1 - decay ^ 1 <> 0).
Proof. intros H. apply (H 1); [|lra]. unfold vqe_accepts. destruct (Rle_dec 0 1); [|lra]. destruct (Rle_dec 1 1); [reflexivity | lra]. Qed.
Print Assumptions C65_decay_refuted.
(** The perplexity can be (slightly) below 1. *)
Theorem C65_perplexity_refuted : ~ (forall emb k xs delta, (0 < k)%nat -> xs <> [] -> 0 < delta -> 1 <= vq_perplexity delta (vq_encodings emb k xs) k).
Proof.
  intros H. specialize (H [[0]] 1%nat [[0]] 1 ltac:(lia) ltac:(discriminate) ltac:(lra)).
  assert (E : vq_index [0] [[0]] 1 = 0%nat) by (destruct (C53_nearest [0] [[0]] 1) as [L _]; [lia | reflexivity | lia]).
  unfold vq_perplexity, vq_encodings in H. cbn [map seq] in H. rewrite E in H. unfold vq_avg_prob, mean, column, one_hot in H. cbn in H.
  assert (L : 0 < ln 2) by (rewrite <- ln_1; apply ln_increasing; lra).
  match type of H with _ <= exp ?e => replace e with (- ln 2) in H end.
  - pose proof (exp_increasing (- ln 2) 0 ltac:(lra)) as X. rewrite exp_0 in X. lra.
  - replace ((1 + 0) / 1) with 1 by lra. replace (1 + 1) with 2 by lra. lra.
Qed.
Print Assumptions C65_perplexity_refuted.

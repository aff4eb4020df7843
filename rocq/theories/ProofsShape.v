(** Lemmas about ModelShape. *)
From Coq Require Import ZArith List Bool Lia.
From Verif Require Import ModelShape.
Import ListNotations.
Local Open Scope Z_scope.

(** ** Lists *)
Lemma nth_error_map_seq {B} (f : nat -> B) n t : nth_error (map f (seq 0 n)) t = if Nat.ltb t n then Some (f t) else None.
Proof.
  destruct (Nat.ltb_spec t n) as [H|H].
  - rewrite nth_error_map. erewrite nth_error_nth' with (d := O) by (rewrite seq_length; lia).
    rewrite seq_nth by lia. reflexivity.
  - apply nth_error_None. rewrite map_length, seq_length. lia.
Qed.

Lemma map2_length {A B D} (f : A -> B -> D) l : forall m, length (map2 f l m) = Nat.min (length l) (length m).
Proof. induction l as [|a l IH]; intros [|b m]; cbn; try reflexivity. now rewrite IH. Qed.
Lemma map2_nth {A B D} (f : A -> B -> D) l : forall m i a b, nth_error l i = Some a -> nth_error m i = Some b ->
  nth_error (map2 f l m) i = Some (f a b).
Proof.
  induction l as [|x l IH]; intros [|y m] [|i] a b; cbn; try discriminate; intros H1 H2.
  - now injection H1 as ->; injection H2 as ->.
  - now apply IH.
Qed.

Lemma all_some_Some {A} (l : list (option A)) : forall l', all_some l = Some l' <-> l = map Some l'.
Proof.
  induction l as [|[a|] l IH]; intros l'; cbn.
  - split; [intros [= <-]; reflexivity|]. destruct l'; [reflexivity|discriminate].
  - destruct (all_some l) as [m|] eqn:E.
    + split.
      * intros [= <-]. cbn. f_equal. now apply IH.
      * destruct l' as [|b l']; cbn; [discriminate|]. intros [= -> H]. apply IH in H. now injection H as ->.
    + split; [discriminate|]. destruct l' as [|b l']; cbn; [discriminate|]. intros [= -> H]. apply IH in H. discriminate.
  - split; [discriminate|]. destruct l'; discriminate.
Qed.

(** The [i]-th value meant by a scalar or a sequence. *)
Definition entry {A} (e : scalar_or_seq A) (i : nat) : option A :=
  match e with
  | Scalar a => Some a
  | Sequence [a] => Some a
  | Sequence l => nth_error l i
  end.
Definition fits {A} (e : scalar_or_seq A) (n : nat) : Prop :=
  match e with
  | Scalar _ => True
  | Sequence l => length l = 1%nat \/ length l = n
  end.

Lemma nth_error_repeat' {A} (a : A) n i : (i < n)%nat -> nth_error (repeat a n) i = Some a.
Proof. revert i. induction n as [|n IH]; intros [|i] H; try lia; cbn; [reflexivity|]. apply IH. lia. Qed.

Lemma replicate_spec {A} (e : scalar_or_seq A) n l : replicate e n = Some l ->
  length l = n /\ forall i, (i < n)%nat -> nth_error l i = entry e i.
Proof.
  destruct e as [a|[|a [|b m]]]; unfold replicate.
  - intros [= <-]. split; [apply repeat_length|]. intros i Hi. now apply nth_error_repeat'.
  - destruct (Nat.eqb_spec (length (@nil A)) n) as [E|]; [|discriminate]. intros [= <-]. split; [assumption|]. reflexivity.
  - intros [= <-]. split; [apply repeat_length|]. intros i Hi. now apply nth_error_repeat'.
  - destruct (Nat.eqb_spec (length (a :: b :: m)) n) as [E|]; [|discriminate]. intros [= <-]. split; [assumption|]. reflexivity.
Qed.
Lemma replicate_fits {A} (e : scalar_or_seq A) n : (exists l, replicate e n = Some l) <-> fits e n.
Proof.
  destruct e as [a|[|a [|b m]]]; unfold replicate, fits.
  - split; eauto.
  - destruct (Nat.eqb_spec (length (@nil A)) n) as [E|E]; split; eauto; intros H; [|exfalso].
    + destruct H; discriminate.
    + cbn in *. lia.
  - split; eauto.
  - destruct (Nat.eqb_spec (length (a :: b :: m)) n) as [E|E]; split; eauto; intros H; [|exfalso].
    + destruct H; discriminate.
    + cbn in *. lia.
Qed.

(** ** Windows *)
Lemma div_unique' a b q : 0 < b -> q * b <= a < q * b + b -> a / b = q.
Proof. intros. symmetry. apply (Z.div_unique a b q (a - q * b)); lia. Qed.

Lemma ceil_pred n s : 0 < s -> (n - 1) / s + 1 = (n + s - 1) / s.
Proof. intros H. replace (n + s - 1) with ((n - 1) + 1 * s) by lia. rewrite Z.div_add by lia. reflexivity. Qed.

Lemma half_bounds a : 2 * (a / 2) <= a < 2 * (a / 2) + 2.
Proof. pose proof (Z.div_mod a 2 ltac:(lia)). pose proof (Z.mod_pos_bound a 2 ltac:(lia)). lia. Qed.

Lemma same_total ek : fst (pad_same ek) + snd (pad_same ek) = ek - 1.
Proof.
  cbn. pose proof (half_bounds (ek - 1)). pose proof (half_bounds ek). lia.
Qed.

Lemma effective_pos k r : 1 <= k -> 1 <= r -> 1 <= effective k r.
Proof. unfold effective. nia. Qed.

Lemma at_pad_same {A} (x x' : list A) i : length x = length x' ->
  (0 <= i -> nth_error x (Z.to_nat i) = nth_error x' (Z.to_nat i)) -> at_pad x i = at_pad x' i.
Proof.
  intros L H. unfold at_pad. rewrite L. destruct (Z.leb_spec 0 i); [|reflexivity]. cbn. rewrite H by lia. reflexivity.
Qed.

Lemma conv1d_nth {A B} (F : list (option A) -> B) x k rate stride lo hi t :
  nth_error (conv1d F x k rate stride lo hi) t =
  if Nat.ltb t (Z.to_nat (window_count (Z.of_nat (length x)) lo hi (effective (Z.of_nat k) rate) stride))
  then Some (F (window x k rate stride lo t)) else None.
Proof. exact (nth_error_map_seq (fun t => F (window x k rate stride lo t)) _ _). Qed.

Lemma window_nth {A} (x : list A) k rate stride lo t j : (j < k)%nat ->
  nth_error (window x k rate stride lo t) j = Some (at_pad x (Z.of_nat t * stride + Z.of_nat j * rate - lo)).
Proof. intros H. unfold window. rewrite nth_error_map_seq. apply Nat.ltb_lt in H. now rewrite H. Qed.

Lemma window_same {A} (x x' : list A) k rate stride lo t : length x = length x' ->
  (forall j i, (j < k)%nat -> i = Z.of_nat t * stride + Z.of_nat j * rate - lo -> 0 <= i ->
     nth_error x (Z.to_nat i) = nth_error x' (Z.to_nat i)) ->
  window x k rate stride lo t = window x' k rate stride lo t.
Proof.
  intros L H. unfold window. apply map_ext_in. intros j Hj. apply in_seq in Hj.
  apply at_pad_same; [assumption|]. intros Hi. apply (H j); lia.
Qed.

(** SAME padding of lax. *)
Lemma lax_same_spec n ek s : 0 < s -> 1 <= n -> 1 <= ek ->
  let out := (n + s - 1) / s in
  let '(lo, hi) := lax_pads PtSame n ek s in
  0 <= lo /\ 0 <= hi /\ 2 * lo <= ek - 1 /\ (out - 1) * s < n <= out * s /\ 1 <= out /\
  n + lo + hi = Z.max n ((out - 1) * s + ek) /\ 0 <= (out - 1) * s.
Proof.
  intros Hs Hn Hk out. unfold lax_pads. fold out.
  assert (H : (out - 1) * s < n <= out * s).
  { unfold out. pose proof (Z.div_mod (n + s - 1) s ltac:(lia)). pose proof (Z.mod_pos_bound (n + s - 1) s Hs). nia. }
  assert (1 <= out) by nia.
  assert (0 <= (out - 1) * s) by nia.
  replace (out * s) with ((out - 1) * s + s) in * by lia.
  revert H H1. generalize ((out - 1) * s) as q. intros q H H1.
  pose proof (half_bounds (Z.max 0 (q + ek - n))). repeat split; lia.
Qed.

Lemma lax_same_count n ek s : 0 < s -> 0 <= n -> 1 <= ek ->
  let '(lo, hi) := lax_pads PtSame n ek s in window_count n lo hi ek s = (n + s - 1) / s.
Proof.
  intros Hs Hn Hk. destruct (Z.eq_dec n 0) as [->|Hn0].
  - assert (E : (0 + s - 1) / s = 0) by (apply div_unique'; lia).
    unfold lax_pads, window_count. rewrite E.
    pose proof (half_bounds (Z.max 0 ((0 - 1) * s + ek - 0))) as Hb. revert Hb.
    generalize (Z.max 0 ((0 - 1) * s + ek - 0) / 2) as h. intros h Hb.
    replace (0 + h + (Z.max 0 ((0 - 1) * s + ek - 0) - h) - ek) with (Z.max (- ek) (- s)) by lia.
    assert (Z.max (- ek) (- s) / s < 0) by (apply Z.div_lt_upper_bound; lia). lia.
  - pose proof (lax_same_spec n ek s Hs ltac:(lia) Hk) as H. revert H.
    destruct (lax_pads PtSame n ek s) as [lo hi]. intros (H1 & H2 & H3 & H4 & H5 & H6 & H7).
    unfold window_count. rewrite H6. set (out := (n + s - 1) / s) in *.
    replace ((Z.max n ((out - 1) * s + ek) - ek) / s) with (out - 1); [lia|].
    symmetry. apply div_unique'; [assumption|]. nia.
Qed.

(** ** Specifications and shapes *)
Lemma last_app {A} (l : list A) a d : last (l ++ [a]) d = a.
Proof. induction l as [|b l IH]; [reflexivity|]. cbn. rewrite IH. destruct l; reflexivity. Qed.
Lemma removelast_snoc {A} (l : list A) a : removelast (l ++ [a]) = l.
Proof. apply removelast_last. Qed.

Lemma snoc_inv {A} (l : list A) : l <> [] -> exists m a, l = m ++ [a].
Proof. intros H. destruct (exists_last H) as (m & a & ->). eauto. Qed.

Lemma map_nth_seq (l : list Z) : forall pre n, map (fun d => nth d (pre ++ l) 0) (seq (length pre) (min n (length l))) = firstn n l.
Proof.
  induction l as [|a l IH]; intros pre n; [now rewrite Nat.min_0_r, firstn_nil|].
  destruct n as [|n]; [reflexivity|]. cbn [length min seq map firstn]. f_equal.
  - rewrite app_nth2, Nat.sub_diag by lia. reflexivity.
  - specialize (IH (pre ++ [a]) n). rewrite app_length, Nat.add_1_r, <- app_assoc in IH. exact IH.
Qed.
Lemma map_nth_seq_all (l : list Z) pre : map (fun d => nth d (pre ++ l) 0) (seq (length pre) (length l)) = l.
Proof. pose proof (map_nth_seq l pre (length l)) as H. rewrite Nat.min_id, firstn_all in H. exact H. Qed.
Lemma map_nth_seq_mid (l : list Z) pre post :
  map (fun d => nth d (pre ++ l ++ post) 0) (seq (length pre) (length l)) = l.
Proof.
  rewrite <- (map_nth_seq_all l pre) at 2. apply map_ext_in. intros d Hd. apply in_seq in Hd.
  rewrite app_assoc, app_nth1; [reflexivity|]. rewrite app_length. lia.
Qed.

Lemma index_of_seq d a n : (a <= d < a + n)%nat -> index_of d (seq a n) = (d - a)%nat.
Proof.
  revert a. induction n as [|n IH]; intros a H; [lia|]. cbn. destruct (Nat.eqb_spec a d) as [->|]; [lia|].
  rewrite IH by lia. lia.
Qed.

Lemma map_seq_shift {B} (f : nat -> B) a n : map f (seq a n) = map (fun i => f (a + i)%nat) (seq 0 n).
Proof.
  revert a f. induction n as [|n IH]; intros a f; [reflexivity|]. cbn. rewrite Nat.add_0_r. f_equal.
  rewrite IH. symmetry. rewrite <- seq_shift, map_map. apply map_ext. intros i. f_equal. lia.
Qed.

Lemma write_last (n : nat) (batch features : Z) (sizes : list Z) : length sizes = n ->
  write_spec (0%nat :: (n + 1)%nat :: seq 1 n) (batch :: features :: sizes) = batch :: sizes ++ [features].
Proof.
  intros L. unfold write_spec. cbn [length]. rewrite seq_length.
  change (seq 0 (S (S n))) with (0%nat :: seq 1 (S n)). cbn [map index_of nth Nat.eqb]. f_equal.
  replace (S n) with (n + 1)%nat by lia. rewrite seq_app, map_app. f_equal.
  - transitivity (map (fun d => nth d sizes 0) (seq 0 (length sizes))); [|exact (map_nth_seq_all sizes [])].
    rewrite L, map_seq_shift.
    apply map_ext_in. intros i Hi. apply in_seq in Hi. cbn [Nat.add Nat.eqb index_of].
    destruct (Nat.eqb_spec (n + 1) (S i)); [lia|].
    rewrite index_of_seq by lia. replace (S i - 1)%nat with i by lia. reflexivity.
  - cbn [seq map Nat.add Nat.eqb]. destruct (Nat.eqb_spec (n + 1) (S n)); [|lia]. reflexivity.
Qed.
Lemma write_first (n : nat) (batch features : Z) (sizes : list Z) : length sizes = n ->
  write_spec (0%nat :: 1%nat :: seq 2 n) (batch :: features :: sizes) = batch :: features :: sizes.
Proof.
  intros L. unfold write_spec. cbn [length]. rewrite seq_length. cbn. f_equal. f_equal.
  transitivity (map (fun d => nth d sizes 0) (seq 0 (length sizes))); [|exact (map_nth_seq_all sizes [])].
    rewrite L, map_seq_shift.
  apply map_ext_in. intros i Hi. apply in_seq in Hi. cbn [Nat.add Nat.eqb].
  rewrite index_of_seq by lia. replace (S (S i) - 2)%nat with i by lia. reflexivity.
Qed.

Lemma out_sizes_length ns : forall pads ks rs ss, length pads = length ns -> length ks = length ns ->
  length rs = length ns -> length ss = length ns -> length (out_sizes ns pads ks rs ss) = length ns.
Proof.
  induction ns as [|n ns IH]; intros [|[lo hi] pads] [|k ks] [|r rs] [|s ss]; cbn; try discriminate; [reflexivity|].
  intros. f_equal. apply IH; congruence.
Qed.
Lemma out_sizes_nth ns : forall pads ks rs ss i n lo hi k r s, nth_error ns i = Some n -> nth_error pads i = Some (lo, hi) ->
  nth_error ks i = Some k -> nth_error rs i = Some r -> nth_error ss i = Some s ->
  nth_error (out_sizes ns pads ks rs ss) i = Some (window_count n lo hi (effective k r) s).
Proof.
  induction ns as [|n ns IH]; intros [|[lo hi] pads] [|k ks] [|r rs] [|s ss] [|i] *; cbn; try discriminate.
  - intros [= <-] [= <- <-] [= <-] [= <-] [= <-]. reflexivity.
  - apply IH.
Qed.
Lemma string_pads_length t ns : forall ks rs ss, length ks = length ns ->
  length rs = length ns -> length ss = length ns -> length (string_pads t ns ks rs ss) = length ns.
Proof.
  induction ns as [|n ns IH]; intros [|k ks] [|r rs] [|s ss]; cbn; try discriminate; [reflexivity|].
  intros. f_equal. apply IH; congruence.
Qed.

Lemma read_image_last batch ns ch :
  read_spec (0%nat :: (length ns + 1)%nat :: seq 1 (length ns)) (batch :: ns ++ [ch]) = batch :: ch :: ns.
Proof.
  unfold read_spec. cbn [map nth]. f_equal. f_equal.
  - rewrite Nat.add_1_r. rewrite app_nth2, Nat.sub_diag by lia. reflexivity.
  - exact (map_nth_seq_mid ns [batch] [ch]).
Qed.
Lemma read_image_first batch ns ch :
  read_spec (0%nat :: 1%nat :: seq 2 (length ns)) (batch :: ch :: ns) = batch :: ch :: ns.
Proof.
  unfold read_spec. cbn [map nth]. f_equal. f_equal. exact (map_nth_seq_all ns [batch; ch]).
Qed.
Lemma read_kernel ks a b :
  read_spec ((length ks + 1)%nat :: length ks :: seq 0 (length ks)) (ks ++ [a; b]) = b :: a :: ks.
Proof.
  unfold read_spec. cbn [map nth]. f_equal; [|f_equal].
  - rewrite app_nth2 by lia. replace (length ks + 1 - length ks)%nat with 1%nat by lia. reflexivity.
  - rewrite app_nth2, Nat.sub_diag by lia. reflexivity.
  - exact (map_nth_seq_mid ks [] [a; b]).
Qed.

Lemma broadcast_rev_app s : forall t u, broadcast_rev s t = true -> broadcast_rev s (t ++ u) = true.
Proof.
  induction s as [|a s IH]; intros [|b t] u; cbn; try reflexivity; try discriminate.
  rewrite !andb_true_iff. intros [H1 H2]. auto.
Qed.
Lemma broadcast_refl s : broadcast_rev s s = true.
Proof. induction s as [|a s IH]; cbn; [reflexivity|]. rewrite Z.eqb_refl, orb_true_r, IH. reflexivity. Qed.
Lemma broadcast_to_app u s t : broadcast_to s t = true -> broadcast_to s (u ++ t) = true.
Proof. unfold broadcast_to. rewrite rev_app_distr. apply broadcast_rev_app. Qed.
Lemma broadcast_to_refl s : broadcast_to s s = true.
Proof. apply broadcast_refl. Qed.

(** Broadcasting, entry by entry. *)
Lemma broadcast_cons a s b t : length s = length t ->
  broadcast_to (a :: s) (b :: t) = broadcast_to s t && ((a =? 1) || (a =? b)).
Proof.
  unfold broadcast_to. cbn. intros L.
  assert (L' : length (rev s) = length (rev t)) by now rewrite !rev_length.
  revert L'. generalize (rev s) (rev t). clear. intros s. induction s as [|c s IH]; intros [|d t]; cbn; try discriminate.
  - intros _. now rewrite andb_true_r.
  - intros [= L]. rewrite IH by assumption. now rewrite andb_assoc.
Qed.
Lemma broadcast_ones n : forall t, length t = n -> broadcast_to (repeat 1 n) t = true.
Proof.
  induction n as [|n IH]; intros [|b t]; try discriminate; [reflexivity|]. cbn [repeat length]. intros [= L].
  rewrite broadcast_cons by (rewrite repeat_length; congruence). rewrite IH by assumption. reflexivity.
Qed.

(** ** Products and arrays *)
Lemma prod_app l m : prod (l ++ m) = prod l * prod m.
Proof. induction l as [|d l IH]; [now rewrite Z.mul_1_l|]. cbn [app prod]. rewrite IH. lia. Qed.
Lemma prod_nonneg l : Forall (fun d => 0 <= d) l -> 0 <= prod l.
Proof. induction 1; cbn; [lia|]. nia. Qed.
Lemma prod_firstn_skipn n l : prod (firstn n l) * prod (skipn n l) = prod l.
Proof. rewrite <- prod_app, firstn_skipn. reflexivity. Qed.

Lemma np_reshape_spec {A} (x : arr A) shape y : np_reshape x shape = Some y <->
  y = Arr shape (a_data x) /\ Forall (fun d => 0 <= d) shape /\ prod shape = prod (a_shape x).
Proof.
  unfold np_reshape. destruct (forallb _ shape && _) eqn:E.
  - apply andb_true_iff in E as [E1 E2]. rewrite forallb_forall in E1. apply Z.eqb_eq in E2.
    split; [|intros (-> & _); reflexivity]. intros [= <-]. split; [reflexivity|]. split; [|assumption].
    apply Forall_forall. intros d Hd. apply E1, Z.leb_le in Hd. assumption.
  - split; [discriminate|]. intros (_ & E1 & E2). apply andb_false_iff in E as [E|E].
    + rewrite Forall_forall in E1. assert (forallb (fun d => 0 <=? d) shape = true); [|congruence].
      apply forallb_forall. intros d Hd. now apply Z.leb_le, E1.
    + apply Z.eqb_neq in E. contradiction.
Qed.

Lemma flat_index_bound shape : forall ix, length ix = length shape ->
  Forall2 (fun i d => 0 <= i < d) ix shape -> 0 <= flat_index shape ix < prod shape.
Proof.
  induction shape as [|d shape IH]; intros [|i ix]; cbn; try discriminate; intros L H; [lia|].
  inversion H; subst. specialize (IH ix ltac:(congruence) ltac:(assumption)). nia.
Qed.

Lemma block_length {A} k i (l : list A) n : length l = (n * k)%nat -> (i < n)%nat -> length (block k i l) = k.
Proof. intros L H. unfold block. rewrite firstn_length, skipn_length, L. nia. Qed.

Lemma nth_error_skipn {A} (l : list A) : forall n i, nth_error (skipn n l) i = nth_error l (n + i).
Proof. induction l as [|a l IH]; intros [|n] i; cbn; try reflexivity; [now destruct i|apply IH]. Qed.
Lemma nth_error_firstn {A} (l : list A) : forall n i, (i < n)%nat -> nth_error (firstn n l) i = nth_error l i.
Proof. induction l as [|a l IH]; intros [|n] [|i] H; cbn; try reflexivity; try lia. apply IH. lia. Qed.

Lemma Forall2_len {A B} (R : A -> B -> Prop) l m : Forall2 R l m -> length l = length m.
Proof. induction 1; cbn; congruence. Qed.

Lemma skipn_skipn' {A} (l : list A) : forall n m, skipn n (skipn m l) = skipn (m + n) l.
Proof. induction l as [|a l IH]; intros n [|m]; cbn; try reflexivity; [now rewrite skipn_nil|apply IH]. Qed.

(** A function applied to consecutive blocks. *)
Fixpoint map_blocks {A B} (k : nat) (g : list A -> list B) (n : nat) (l : list A) : list B :=
  match n with O => [] | S n => g (firstn k l) ++ map_blocks k g n (skipn k l) end.

Lemma map_blocks_length {A B} k k' (g : list A -> list B) n : forall l, length l = (n * k)%nat ->
  (forall b, length b = k -> length (g b) = k') -> length (map_blocks k g n l) = (n * k')%nat.
Proof.
  induction n as [|n IH]; intros l L H; [reflexivity|]. cbn [map_blocks]. rewrite app_length, IH, H; [lia| | |assumption].
  - rewrite firstn_length. lia.
  - rewrite skipn_length. lia.
Qed.
Lemma map_blocks_block {A B} k k' (g : list A -> list B) n : forall l i, length l = (n * k)%nat ->
  (forall b, length b = k -> length (g b) = k') -> (i < n)%nat ->
  block k' i (map_blocks k g n l) = g (block k i l).
Proof.
  induction n as [|n IH]; intros l i L H Hi; [lia|]. cbn [map_blocks].
  assert (Lg : length (g (firstn k l)) = k') by (apply H; rewrite firstn_length; lia).
  destruct i as [|i].
  - unfold block. cbn [Nat.mul skipn]. rewrite firstn_app, Lg, Nat.sub_diag. cbn. rewrite app_nil_r. rewrite <- Lg. now rewrite firstn_all.
  - unfold block in *. cbn [Nat.mul]. rewrite skipn_app, Lg.
    rewrite skipn_all2 by lia. cbn [app]. replace (k' + i * k' - k')%nat with (i * k')%nat by lia.
    rewrite IH; [|rewrite skipn_length; lia|assumption|lia]. now rewrite skipn_skipn'.
Qed.

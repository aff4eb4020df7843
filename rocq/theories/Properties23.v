(** * C66: average and max pooling on arrays of any rank *)
From Coq Require Import Reals ZArith List Bool Lia Lra FinFun.
From Verif Require Import ModelShape ModelReal ModelPool ProofsShape Properties14 Properties22.
Import ListNotations.

(** Axes with sizes, windows and strides of at least 1; indices inside a shape. *)
Definition axis_ok (a : pool_axis) : Prop := (1 <= pa_n a /\ 1 <= pa_k a /\ 1 <= pa_s a)%Z.
Definition in_shape (shape o : list Z) : Prop := Forall2 (fun n i => 0 <= i < n)%Z shape o.
(** What the window of output index [o] should contain: the indices of the array with [o s - lo <= i < o s - lo + k] on every axis. *)
Definition covered (t : padtype) (a : pool_axis) (o i : Z) : Prop :=
  (0 <= i < pa_n a /\ o * pa_s a - pool_lo t a <= i < o * pa_s a - pool_lo t a + pa_k a)%Z.

Lemma in_product {A} : forall (l : list (list A)) x, In x (product l) <-> Forall2 (fun xs y => In y xs) l x.
Proof.
  induction l as [|xs l IH]; intros x; cbn [product].
  - split; [intros [<-|[]]; constructor | intros H; inversion H; now left].
  - rewrite in_flat_map. split.
    + intros (y & Hy & Hx). apply in_map_iff in Hx as (z & <- & Hz). constructor; [exact Hy | now apply IH].
    + intros H. inversion H as [|? y ? z H1 H2]; subst. exists y. split; [exact H1|]. apply in_map, IH, H2.
Qed.
Lemma length_product {A} : forall (l : list (list A)), length (product l) = fold_right Nat.mul 1%nat (map (@length A) l).
Proof.
  induction l as [|xs l IH]; [reflexivity|]. cbn [product map fold_right]. rewrite <- IH.
  induction xs as [|x xs IHx]; [reflexivity|]. cbn [flat_map length]. rewrite app_length, map_length, IHx. reflexivity.
Qed.
Lemma NoDup_app' {A} (l m : list A) : NoDup l -> NoDup m -> (forall x, In x l -> ~ In x m) -> NoDup (l ++ m).
Proof.
  intros Hl Hm H. induction Hl as [|x l Hx _ IH]; [exact Hm|]. cbn [app]. constructor.
  - rewrite in_app_iff. intros [G|G]; [easy | apply (H x (or_introl eq_refl) G)].
  - apply IH. intros y Hy. apply H. now right.
Qed.
Lemma NoDup_product {A} : forall (l : list (list A)), Forall (@NoDup A) l -> NoDup (product l).
Proof.
  induction 1 as [|xs l Hx _ IH]; cbn [product]; [repeat constructor; intros []|].
  induction Hx as [|x xs Hn Hx IHx]; cbn [flat_map]; [constructor|]. apply NoDup_app'; [| exact IHx |].
  - apply Injective_map_NoDup; [|exact IH]. intros a b E. now injection E.
  - intros y Hy Hy'. apply in_map_iff in Hy as (z & <- & _). apply in_flat_map in Hy' as (x' & Hx' & Hz').
    apply in_map_iff in Hz' as (z' & E & _). injection E as -> _. now apply Hn.
Qed.
Lemma in_axis_window n k s lo o i : In i (axis_window n k s lo o) <-> (0 <= i < n /\ o * s - lo <= i < o * s - lo + k)%Z.
Proof.
  unfold axis_window. rewrite filter_In, in_map_iff, andb_true_iff, Z.leb_le, Z.ltb_lt. split.
  - intros ((j & <- & Hj) & H). apply in_seq in Hj. lia.
  - intros [H1 H2]. split; [|lia]. exists (Z.to_nat (i - o * s + lo)). split; [lia|]. apply in_seq. lia.
Qed.
Lemma NoDup_axis_window n k s lo o : NoDup (axis_window n k s lo o).
Proof.
  unfold axis_window. apply NoDup_filter. apply Injective_map_NoDup; [|apply seq_NoDup]. intros a b E. lia.
Qed.

(** The window is exactly the covered indices, each once. *)
Theorem C66_window t axes o : length o = length axes ->
  NoDup (pool_window t axes o) /\
  forall i, In i (pool_window t axes o) <-> (length i = length axes /\
    forall d a, nth_error axes d = Some a -> covered t a (nth d o 0%Z) (nth d i 0%Z)).
Proof.
  intros HL. unfold pool_window. split.
  - apply NoDup_product, Forall_forall. intros l Hl. apply in_map_iff in Hl as (p & <- & _). apply NoDup_axis_window.
  - intros i. rewrite in_product. revert o i HL. induction axes as [|a axes IH]; intros o i HL; destruct o as [|b o]; try discriminate HL; cbn [combine map].
    + split; [intros H; inversion H; split; [reflexivity | intros [] ? E; discriminate E] | intros [H _]; destruct i; [constructor | discriminate H]].
    + injection HL as HL. specialize (IH o). split.
      * intros H. inversion H as [|? y ? z H1 H2]; subst. apply IH in H2 as [H2 H3]; [|exact HL]. apply in_axis_window in H1. cbn [length].
        split; [now f_equal|]. intros [|d] a' E; cbn [nth nth_error] in *; [injection E as <-; exact H1 | now apply H3].
      * intros [H1 H2]. destruct i as [|y z]; [discriminate H1|]. constructor.
        -- apply in_axis_window. apply (H2 0%nat a eq_refl).
        -- apply IH; [exact HL|]. injection H1 as H1. split; [exact H1|]. intros d a' E. apply (H2 (S d) a' E).
Qed.
Print Assumptions C66_window.

Lemma fold_mul_one l : fold_right Nat.mul 1%nat l = 0%nat -> In 0%nat l.
Proof. induction l as [|a l IH]; cbn [fold_right]; [lia|]. intros H. apply Nat.mul_eq_0 in H as [->|H]; [now left | right; auto]. Qed.
Lemma axis_window_nonempty t a o : axis_ok a ->
  (0 <= o < let p := lax_pads t (pa_n a) (pa_k a) (pa_s a) in window_count (pa_n a) (fst p) (snd p) (pa_k a) (pa_s a))%Z ->
  exists i, covered t a o i.
Proof.
  intros (Hn & Hk & Hs) Ho. unfold covered, pool_lo. destruct t; cbv zeta in Ho.
  - pose proof (lax_same_spec (pa_n a) (pa_k a) (pa_s a) ltac:(lia) ltac:(lia) ltac:(lia)) as P.
    pose proof (lax_same_count (pa_n a) (pa_k a) (pa_s a) ltac:(lia) ltac:(lia) ltac:(lia)) as Q.
    destruct (lax_pads PtSame _ _ _) as [lo hi]. cbn [fst snd] in *. cbv zeta in P. destruct P as (P1 & P2 & P3 & P4 & P5 & P6 & P7).
    rewrite Q in Ho. exists (Z.max 0 (o * pa_s a - lo))%Z. nia.
  - cbn [lax_pads fst snd] in *. unfold window_count in Ho. exists (o * pa_s a)%Z.
    assert (H : (o <= (pa_n a + 0 + 0 - pa_k a) / pa_s a)%Z) by lia.
    pose proof (Z.mul_div_le (pa_n a + 0 + 0 - pa_k a) (pa_s a) ltac:(lia)). nia.
Qed.
Lemma pool_window_nonempty t axes o : Forall axis_ok axes -> in_shape (pool_out t axes) o -> pool_window t axes o <> [].
Proof.
  intros Ha Ho. unfold in_shape, pool_out in Ho.
  assert (G : exists i, Forall2 (fun xs y => In y xs) (map (fun p => axis_window (pa_n (fst p)) (pa_k (fst p)) (pa_s (fst p)) (pool_lo t (fst p)) (snd p)) (combine axes o)) i).
  { revert o Ho. induction Ha as [|a axes Ha _ IH]; intros o Ho; cbn [map] in Ho; inversion Ho as [|? y ? z H1 H2]; subst; cbn [combine map].
    - exists []. constructor.
    - destruct (IH _ H2) as [i Hi]. destruct (axis_window_nonempty t a y Ha H1) as [j Hj]. exists (j :: i). constructor; [|exact Hi].
      apply in_axis_window. exact Hj. }
  destruct G as [i Hi]. apply in_product in Hi. intros E. unfold pool_window in E. rewrite E in Hi. destruct Hi.
Qed.

Lemma filter_all {A} (f : A -> bool) l : (forall x, In x l -> f x = true) -> filter f l = l.
Proof.
  induction l as [|x l IH]; intros H; [reflexivity|]. cbn [filter]. rewrite (H x (or_introl eq_refl)). f_equal. apply IH. intros y Hy. apply H. now right.
Qed.
Lemma valid_length axes o : Forall axis_ok axes -> in_shape (pool_out PtValid axes) o ->
  Z.of_nat (length (pool_window PtValid axes o)) = ModelShape.prod (map pa_k axes).
Proof.
  intros Ha Ho. unfold pool_window. rewrite length_product, map_map. revert o Ho.
  induction Ha as [|a axes (Hn & Hk & Hs) _ IH]; intros o Ho; cbn [map pool_out] in Ho; inversion Ho as [|? y ? z H1 H2]; subst; cbn [combine map fold_right ModelShape.prod]; [reflexivity|].
  rewrite Nat2Z.inj_mul, (IH _ H2). f_equal. cbn [fst snd]. unfold axis_window, pool_lo. cbn [lax_pads fst snd] in *.
  cbv zeta in H1. unfold window_count in H1.
  assert (H : (y <= (pa_n a + 0 + 0 - pa_k a) / pa_s a)%Z) by lia.
  pose proof (Z.mul_div_le (pa_n a + 0 + 0 - pa_k a) (pa_s a) ltac:(lia)).
  rewrite filter_all.
  - rewrite map_length, seq_length. lia.
  - intros i Hi. apply in_map_iff in Hi as (j & <- & Hj). apply in_seq in Hj. rewrite andb_true_iff, Z.leb_le, Z.ltb_lt. nia.
Qed.
Lemma mean_bounds l lo hi : l <> [] -> Forall (fun v => (lo <= v <= hi)%R) l -> (lo <= mean l <= hi)%R.
Proof.
  intros Hne HF. unfold mean. assert (HL : (0 < INR (length l))%R) by (apply lt_0_INR; destruct l; [congruence | cbn; lia]).
  assert (B : (INR (length l) * lo <= Rsum l <= INR (length l) * hi)%R).
  { clear Hne HL. induction HF as [|v l Hv _ IH]; [cbn; lra|]. cbn [length]. rewrite Rsum_cons, S_INR. lra. }
  split; apply Rmult_le_reg_r with (INR (length l)); try exact HL; unfold Rdiv; rewrite Rmult_assoc, Rinv_l by lra; lra.
Qed.
Definition entries (t : padtype) (axes : list pool_axis) (x : list Z -> R) (o : list Z) : list R := map x (pool_window t axes o).

(** With both paddings every output is the arithmetic mean of the entries its window covers, of which there is at least one;
    padding never counts. *)
Theorem C66_average t axes x o : Forall axis_ok axes -> in_shape (pool_out t axes) o ->
  entries t axes x o <> [] /\ avg_pool t axes x o = mean (entries t axes x o).
Proof.
  intros Ha Ho. pose proof (pool_window_nonempty t axes o Ha Ho) as Hne. unfold entries. split; [intros E; now apply map_eq_nil in E|].
  unfold avg_pool, mean. destruct t; cbv zeta.
  - rewrite Rsum_const, map_length. now rewrite Rmult_1_r.
  - rewrite <- (valid_length axes o Ha Ho), map_length, INR_IZR_INZ. reflexivity.
Qed.
Print Assumptions C66_average.
(** It lies between the smallest and the largest of them; a constant array stays constant. *)
Theorem C66_average_bounds t axes x o lo hi : Forall axis_ok axes -> in_shape (pool_out t axes) o ->
  (forall i, In i (pool_window t axes o) -> (lo <= x i <= hi)%R) -> (lo <= avg_pool t axes x o <= hi)%R.
Proof.
  intros Ha Ho H. destruct (C66_average t axes x o Ha Ho) as [Hne ->]. apply mean_bounds; [exact Hne|].
  apply Forall_forall. intros v Hv. apply in_map_iff in Hv as (i & <- & Hi). now apply H.
Qed.
Print Assumptions C66_average_bounds.
Theorem C66_average_constant t axes c o : Forall axis_ok axes -> in_shape (pool_out t axes) o -> avg_pool t axes (fun _ => c) o = c.
Proof. intros Ha Ho. destruct (C66_average_bounds t axes (fun _ => c) o c c Ha Ho); [intros; cbn; lra | cbn in *; lra]. Qed.
Print Assumptions C66_average_constant.
(** Max pooling returns one of the covered entries, the largest; never minus infinity. *)
Theorem C66_max t axes x o : Forall axis_ok axes -> in_shape (pool_out t axes) o ->
  exists m, max_pool t axes x o = Some m /\ In m (entries t axes x o) /\ forall v, In v (entries t axes x o) -> (v <= m)%R.
Proof.
  intros Ha Ho. pose proof (pool_window_nonempty t axes o Ha Ho) as Hne. unfold max_pool, entries.
  destruct (map x (pool_window t axes o)) as [|v l] eqn:E; [now apply map_eq_nil in E|]. clear E. cbn [fold_left max_opt].
  revert v. induction l as [|w l IH]; intros v; cbn [fold_left max_opt].
  - exists v. repeat split; [now left | intros u [<-|[]]; lra].
  - destruct (IH (Rmax v w)) as (m & E & Hin & Hle). exists m. split; [exact E|].
    pose proof (Hle _ (or_introl eq_refl)) as Hm. pose proof (Rmax_l v w). pose proof (Rmax_r v w). split.
    + destruct Hin as [<-|Hin]; [|right; now right]. unfold Rmax. destruct (Rle_dec v w); [right; left; reflexivity | left; reflexivity].
    + intros u [<-|[<-|Hu]]; [lra | lra | apply Hle; now right].
Qed.
Print Assumptions C66_max.

Lemma Forall2_len {A B} (P : A -> B -> Prop) l m : Forall2 P l m -> length l = length m.
Proof. induction 1; cbn; congruence. Qed.
Lemma unit_axis t n o i : (0 <= o)%Z -> covered t (PoolAxis n 1 1) o i -> i = o.
Proof.
  unfold covered, pool_lo. cbn [pa_n pa_k pa_s]. intros Ho. destruct t; cbn [lax_pads fst]; [|lia].
  replace ((n + 1 - 1) / 1)%Z with n by (rewrite Z.div_1_r; lia). replace (Z.max 0 ((n - 1) * 1 + 1 - n)) with 0%Z by lia. cbn. lia.
Qed.
(** With integer sizes each example and each channel is pooled on its own: a window never leaves the row of its output index on
    the batch axis and on the channel axis. *)
Theorem C66_separate t shape k s c axes o i : (-(Z.of_nat (length shape)) < c < Z.of_nat (length shape))%Z ->
  pool_axes shape (inl k) (inl s) (Some c) = Some axes ->
  in_shape (pool_out t axes) o -> In i (pool_window t axes o) ->
  nth 0 i 0%Z = nth 0 o 0%Z /\
  (let c' := Z.to_nat (if (c <? 0)%Z then Z.of_nat (length shape) + c else c) in nth c' i 0%Z = nth c' o 0%Z).
Proof.
  intros Hc Hax Ho Hi. cbv zeta. set (c' := Z.to_nat _).
  assert (HLo : length o = length axes) by (apply Forall2_len in Ho; unfold pool_out in Ho; now rewrite map_length in Ho).
  apply C66_window in Hi as [HLi Hcov]; [|exact HLo].
  assert (Hpos : forall d, (d < length axes)%nat -> (0 <= nth d o 0)%Z).
  { intros d Hd. clear - Ho Hd. unfold in_shape, pool_out in Ho. revert o d Ho Hd.
    induction axes as [|a axes IH]; intros o d Ho Hd; cbn [map length] in *; [lia|].
    inversion Ho as [|? y ? z H1 H2]; subst. destruct d as [|d]; cbn [nth]; [lia | apply IH; [exact H2 | lia]]. }
  enough (G : forall d, (d = 0 \/ d = c')%nat -> (d < length shape)%nat -> exists n, nth_error axes d = Some (PoolAxis n 1 1)).
  { assert (HLs : length axes = length shape).
    { unfold pool_axes, pool_infer_shape in Hax. destruct (negb (c =? 0)%Z && negb (Z.abs c <? Z.of_nat (length shape))%Z)%bool; [discriminate|].
      apply (f_equal (fun o => match o with Some l => l | None => [] end)) in Hax. cbv beta iota in Hax. subst axes. rewrite map_length, !combine_length. cbn [length].
      rewrite !map_length, seq_length. lia. }
    split; [destruct (G 0%nat) as [n E]|destruct (G c') as [n E]]; auto; try (unfold c'; destruct (Z.ltb_spec c 0); lia).
    all: eapply unit_axis; [apply Hpos|apply Hcov; exact E]; rewrite HLs; unfold c'; destruct (Z.ltb_spec c 0); lia. }
  intros d Hd Hlt. unfold pool_axes, pool_infer_shape in Hax. destruct (negb (c =? 0)%Z && negb (Z.abs c <? Z.of_nat (length shape))%Z)%bool; [discriminate|].
  apply (f_equal (fun o => match o with Some l => l | None => [] end)) in Hax. cbv beta iota in Hax. subst axes. exists (nth d shape 0%Z). 
  assert (N1 : forall z, nth_error (1%Z :: map (fun d => if (Z.of_nat d =? (if (c <? 0)%Z then Z.of_nat (length shape) + c else c))%Z then 1%Z else z) (seq 1 (length shape - 1))) d = Some 1%Z).
  { intros z. destruct d as [|d]; [reflexivity|]. cbn [nth_error]. rewrite nth_error_map.
    rewrite (nth_error_nth' _ 0%nat) by (rewrite seq_length; lia). rewrite seq_nth by lia. cbn [option_map]. f_equal.
    destruct Hd as [Hd|Hd]; [lia|]. unfold c' in Hd. destruct (Z.eqb_spec (Z.of_nat (1 + d)) (if (c <? 0)%Z then Z.of_nat (length shape) + c else c)) as [_|Hne]; [reflexivity|].
    destruct (Z.ltb_spec c 0); lia. }
  rewrite nth_error_map.
  assert (NC : forall {A B} (l : list A) (m : list B) d a b, nth_error l d = Some a -> nth_error m d = Some b -> nth_error (combine l m) d = Some (a, b)).
  { clear. induction l as [|x l IH]; intros m d a b; destruct d, m; cbn; try discriminate; [congruence | apply IH]. }
  rewrite (NC _ _ _ _ _ (nth d shape 0%Z) (1%Z, 1%Z)); [reflexivity | now apply nth_error_nth' | now apply NC].
Qed.
Print Assumptions C66_separate.

(** A row 1, 2, 3, 4, 5 with window 3 and stride 2. *)
Definition row (i : list Z) : R := (IZR (nth 0 i 0%Z) + 1)%R.
Example C66_values : let x := row in let axes := [PoolAxis 5 3 2] in
  map (fun o => avg_pool PtSame axes x [o]) [0; 1; 2]%Z = [3/2; 3; 9/2]%R /\ pool_out PtSame axes = [3]%Z /\
  map (fun o => avg_pool PtValid axes x [o]) [0; 1]%Z = [2; 4]%R /\ pool_out PtValid axes = [2]%Z.
Proof.
  cbv zeta. split; [|split; [reflexivity|split; [|reflexivity]]]; cbn [map]; unfold avg_pool.
  - replace (pool_window PtSame [PoolAxis 5 3 2] [0]%Z) with [[0]; [1]]%Z by reflexivity.
    replace (pool_window PtSame [PoolAxis 5 3 2] [1]%Z) with [[1]; [2]; [3]]%Z by reflexivity.
    replace (pool_window PtSame [PoolAxis 5 3 2] [2]%Z) with [[3]; [4]]%Z by reflexivity.
    unfold row, Rsum. cbn -[Rplus Rmult Rdiv IZR]. repeat (apply f_equal2; [field|]). reflexivity.
  - replace (pool_window PtValid [PoolAxis 5 3 2] [0]%Z) with [[0]; [1]; [2]]%Z by reflexivity.
    replace (pool_window PtValid [PoolAxis 5 3 2] [1]%Z) with [[2]; [3]; [4]]%Z by reflexivity.
    unfold row, Rsum. cbn -[Rplus Rmult Rdiv IZR]. repeat (apply f_equal2; [field|]). reflexivity.
Qed.
Example C66_reachable : Forall axis_ok [PoolAxis 5 3 2; PoolAxis 4 2 2] /\ in_shape (pool_out PtSame [PoolAxis 5 3 2; PoolAxis 4 2 2]) [2; 1]%Z /\
  pool_window PtSame [PoolAxis 5 3 2; PoolAxis 4 2 2] [2; 1]%Z = [[3; 2]; [3; 3]; [4; 2]; [4; 3]]%Z /\
  pool_axes [8; 5; 5; 3]%Z (inl 3%Z) (inl 2%Z) (Some (-1)%Z) = Some [PoolAxis 8 1 1; PoolAxis 5 3 2; PoolAxis 5 3 2; PoolAxis 3 1 1].
Proof. repeat split; try (repeat constructor; cbn; lia); vm_compute; reflexivity. Qed.
(** Padding counts in neither case, so SAME pooling is not a plain sum divided by the window size (Sonnet's and TensorFlow's rule,
    which this is, not PyTorch's). *)
Theorem C66_window_size_refuted : ~ (forall t axes x o, Forall axis_ok axes -> in_shape (pool_out t axes) o ->
  avg_pool t axes x o = Rsum (entries t axes x o) / IZR (ModelShape.prod (map pa_k axes)))%R.
Proof.
  intros H. specialize (H PtSame [PoolAxis 1 2 1] (fun _ => 1%R) [0%Z] ltac:(repeat constructor; cbn; lia) ltac:(repeat constructor; cbn; lia)).
  rewrite C66_average_constant in H; [|repeat constructor; cbn; lia|repeat constructor; cbn; lia].
  unfold entries in H. replace (pool_window PtSame [PoolAxis 1 2 1] [0]%Z) with [[0]]%Z in H by reflexivity.
  unfold Rsum in H. cbn -[Rplus Rmult Rdiv IZR] in H. lra.
Qed.
Print Assumptions C66_window_size_refuted.

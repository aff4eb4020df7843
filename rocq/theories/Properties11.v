(** C44-C46: reshape, BatchApply, GroupNorm. *)
From Coq Require Import ZArith List Bool Lia.
From Verif Require Import ModelShape ProofsShape.
Import ListNotations.
Local Open Scope Z_scope.

(** ** C44: Reshape and Flatten *)

(** An accepted reshape keeps the elements, their number and the preserved dimensions. *)
Theorem C44_elements {A} os p (x y : arr A) : reshape_call os p x = Some y ->
  a_data y = a_data x /\ prod (a_shape y) = prod (a_shape x) /\
  firstn p (a_shape y) = firstn p (a_shape x) /\ (wf_arr x -> wf_arr y).
Proof.
  unfold reshape_call. destruct (Nat.leb_spec (length (a_shape x)) p).
  - intros [= <-]. auto.
  - intros E. apply np_reshape_spec in E as (-> & F & E). cbn [a_shape a_data]. split; [reflexivity|]. split; [assumption|].
    split.
    + rewrite firstn_app, firstn_firstn, Nat.min_id, firstn_length, Nat.min_l by lia. rewrite Nat.sub_diag. cbn. apply app_nil_r.
    + intros [W1 W2]. split; [assumption|]. cbn. lia.
Qed.
Print Assumptions C44_elements.

Lemma infer_shape_at l1 l2 dims : Forall (fun d => 0 < d) l1 -> Forall (fun d => 0 < d) l2 ->
  infer_shape (l1 ++ -1 :: l2) dims = l1 ++ prod dims / (prod l1 * prod l2) :: l2.
Proof.
  intros H1 H2. unfold infer_shape.
  assert (P : forall l, Forall (fun d => 0 < d) l -> 0 < prod l) by (induction 1; cbn; nia).
  assert (Q : forall v l, Forall (fun d => 0 < d) l -> map (fun d => if d =? -1 then v else d) l = l).
  { intros v. induction 1 as [|d l Hd _ IH]; [reflexivity|]. cbn [map]. rewrite IH. destruct (Z.eqb_spec d (-1)); [lia|reflexivity]. }
  assert (M : Z.abs (prod (l1 ++ -1 :: l2)) = prod l1 * prod l2).
  { rewrite prod_app. cbn [prod]. pose proof (P _ H1). pose proof (P _ H2). nia. }
  rewrite M, map_app. cbn [map]. rewrite !Q by assumption. cbn [Z.eqb]. f_equal. f_equal.
  unfold np_floordiv. pose proof (P _ H1). pose proof (P _ H2). destruct (Z.eqb_spec (prod l1 * prod l2) 0); [nia|reflexivity].
Qed.

(** A wildcard: with positive other dimensions it takes the exact quotient, and the
    reshape is rejected when there is none (unless a preserved dimension is 0). *)
Theorem C44_wildcard {A} l1 l2 p (x : arr A) : wf_arr x -> (p < length (a_shape x))%nat ->
  Forall (fun d => 0 < d) l1 -> Forall (fun d => 0 < d) l2 ->
  let rest := prod (skipn p (a_shape x)) in let m := prod l1 * prod l2 in
  (rest mod m = 0 -> reshape_call (l1 ++ -1 :: l2) p x = Some (Arr (firstn p (a_shape x) ++ l1 ++ rest / m :: l2) (a_data x))) /\
  (rest mod m <> 0 -> prod (firstn p (a_shape x)) <> 0 -> reshape_call (l1 ++ -1 :: l2) p x = None).
Proof.
  intros [W1 W2] Hp H1 H2 rest m.
  assert (P : forall l, Forall (fun d => 0 < d) l -> 0 < prod l) by (induction 1; cbn; nia).
  assert (Hm : 0 < m) by (unfold m; pose proof (P _ H1); pose proof (P _ H2); nia).
  assert (Hr : 0 <= rest).
  { apply prod_nonneg. rewrite <- (firstn_skipn p (a_shape x)) in W1. apply Forall_app in W1. tauto. }
  assert (NN : forall l, Forall (fun d => 0 < d) l -> Forall (fun d => 0 <= d) l) by (intros l; apply Forall_impl; intros; lia).
  assert (PP : prod (firstn p (a_shape x) ++ l1 ++ rest / m :: l2) = prod (firstn p (a_shape x)) * (m * (rest / m))).
  { rewrite !prod_app. cbn [prod]. unfold m. ring. }
  assert (PS : prod (a_shape x) = prod (firstn p (a_shape x)) * rest) by (symmetry; apply prod_firstn_skipn).
  assert (C : reshape_call (l1 ++ -1 :: l2) p x = np_reshape x (firstn p (a_shape x) ++ l1 ++ rest / m :: l2)).
  { unfold reshape_call. rewrite (proj2 (Nat.leb_gt _ _)) by lia.
    assert (E : existsb (Z.eqb (-1)) (l1 ++ -1 :: l2) = true) by (apply existsb_exists; exists (-1); split; [apply in_elt|reflexivity]).
    rewrite E, infer_shape_at by assumption. reflexivity. }
  rewrite C. split.
  - intros Hd. apply np_reshape_spec. split; [reflexivity|]. split.
    + rewrite !Forall_app. split; [|split].
      * rewrite <- (firstn_skipn p (a_shape x)) in W1. apply Forall_app in W1. tauto.
      * auto.
      * constructor; [apply Z.div_pos; lia|auto].
    + rewrite PP, PS. pose proof (Z.div_mod rest m). rewrite Hd in H. f_equal. lia.
  - intros Hd Hb. destruct (np_reshape x _) as [y|] eqn:E; [|reflexivity]. exfalso.
    apply np_reshape_spec in E as (_ & _ & E). rewrite PP, PS in E.
    apply Z.mul_cancel_l in E; [|assumption]. apply Hd. rewrite <- E. rewrite Z.mul_comm. apply Z.mod_mul. lia.
Qed.
Print Assumptions C44_wildcard.

(** [Flatten] always succeeds and merges everything after the preserved dimensions. *)
Theorem C44_flatten {A} p (x : arr A) : wf_arr x ->
  flatten_call p x = Some (if Nat.leb (length (a_shape x)) p then x
                           else Arr (firstn p (a_shape x) ++ [prod (skipn p (a_shape x))]) (a_data x)).
Proof.
  intros W. unfold flatten_call. destruct (Nat.leb_spec (length (a_shape x)) p) as [H|H].
  - unfold reshape_call. rewrite (proj2 (Nat.leb_le _ _)) by lia. reflexivity.
  - destruct (C44_wildcard [] [] p x W H ltac:(constructor) ltac:(constructor)) as [F _]. cbn [prod Z.mul app] in F.
    rewrite Z.mod_1_r, Z.div_1_r in F. now apply F.
Qed.
Print Assumptions C44_flatten.

(** The constructor: at most one wildcard and at least one preserved dimension. *)
Theorem C44_constructor os p : (exists r, reshape_init os p = Some r) <-> 1 <= p /\ (count_occ Z.eq_dec os (-1)%Z <= 1)%nat.
Proof.
  unfold reshape_init. destruct (Z.leb_spec p 0); [split; [intros [? E]; discriminate E|lia]|].
  destruct (Nat.ltb_spec 1 (count_occ Z.eq_dec os (-1))); [split; [intros [? E]; discriminate E|lia]|].
  split; [lia|eauto].
Qed.
Print Assumptions C44_constructor.
Example C44_case :
  reshape_call [-1; 4] 1 (Arr [2; 2; 2; 4] (seq 0 32)) = Some (Arr [2; 4; 4] (seq 0 32)) /\
  reshape_call [-1; 3] 1 (Arr [2; 2; 2; 4] (seq 0 32)) = None /\
  flatten_call 1 (Arr [3; 2; 4] (seq 0 24)) = Some (Arr [3; 8] (seq 0 24)).
Proof. now vm_compute. Qed.
(** With an empty batch a size that does not divide is accepted, so the shape of a
    layer's output depends on the batch size. *)
Theorem C44_empty_batch_refuted :
  ~ (forall (os : list Z) (x y : arr unit), wf_arr x -> (1 < length (a_shape x))%nat -> count_occ Z.eq_dec os (-1) = 1%nat ->
       reshape_call os 1 x = Some y -> prod (skipn 1 (a_shape y)) = prod (skipn 1 (a_shape x))).
Proof.
  intros H. specialize (H [-1; 2] (Arr [0; 5] []) (Arr [0; 2; 2] [])).
  assert (W : wf_arr (Arr [0; 5] (@nil unit))) by (split; [repeat constructor; lia|reflexivity]).
  specialize (H W ltac:(cbn; lia) eq_refl eq_refl). discriminate H.
Qed.
Print Assumptions C44_empty_batch_refuted.

(** A wildcard next to a 0: numpy divides by zero and the wildcard becomes 0, whatever the input is. The reshape is
    accepted exactly when the input has no elements. *)
Theorem C44_zero {A} l1 l2 p (x : arr A) : wf_arr x -> (p < length (a_shape x))%nat ->
  Forall (fun d => 0 <= d) l1 -> Forall (fun d => 0 <= d) l2 -> In 0 (l1 ++ l2) ->
  reshape_call (l1 ++ -1 :: l2) p x =
    if prod (a_shape x) =? 0 then Some (Arr (firstn p (a_shape x) ++ l1 ++ 0 :: l2) (a_data x)) else None.
Proof.
  intros [W1 W2] Hp H1 H2 Hz.
  assert (Q : forall v l, Forall (fun d => 0 <= d) l -> map (fun d => if d =? -1 then v else d) l = l).
  { intros v. induction 1 as [|d l Hd _ IH]; [reflexivity|]. cbn [map]. rewrite IH. destruct (Z.eqb_spec d (-1)); [lia|reflexivity]. }
  assert (Z0 : forall l, In 0 l -> prod l = 0).
  { induction l as [|d l IH]; [intros []|]. intros [->|H]; cbn [prod]; [ring|rewrite IH by assumption; ring]. }
  assert (P : forall v, prod (l1 ++ v :: l2) = 0).
  { intros v. apply Z0. apply in_app_iff in Hz. apply in_app_iff. cbn [In]. tauto. }
  assert (I : infer_shape (l1 ++ -1 :: l2) (skipn p (a_shape x)) = l1 ++ 0 :: l2).
  { unfold infer_shape. rewrite P, map_app. cbn [map]. rewrite !Q by assumption. reflexivity. }
  unfold reshape_call. rewrite (proj2 (Nat.leb_gt _ _)) by lia.
  assert (E : existsb (Z.eqb (-1)) (l1 ++ -1 :: l2) = true) by (apply existsb_exists; exists (-1); split; [apply in_elt|reflexivity]).
  rewrite E, I. unfold np_reshape.
  assert (F : forallb (fun d => 0 <=? d) (firstn p (a_shape x) ++ l1 ++ 0 :: l2) = true).
  { apply forallb_forall. intros d Hd. apply Z.leb_le. apply in_app_iff in Hd as [Hd|Hd].
    - rewrite Forall_forall in W1. apply W1. rewrite <- (firstn_skipn p (a_shape x)). apply in_app_iff. now left.
    - rewrite Forall_forall in H1, H2. apply in_app_iff in Hd as [Hd|[<-|Hd]]; [auto|lia|auto]. }
  rewrite F, prod_app, P, Z.mul_0_r, (Z.eqb_sym 0). reflexivity.
Qed.
Print Assumptions C44_zero.
Example C44_zero_case :
  reshape_call [0; -1] 1 (Arr [0; 5] (@nil nat)) = Some (Arr [0; 0; 0] []) /\
  reshape_call [0; -1] 1 (Arr [1; 2] [7; 8]%nat) = None.
Proof. now vm_compute. Qed.

(** ** C45: BatchApply *)

(** Merging and splitting leading dimensions are inverse and never fail. *)
Theorem C45_merge_split {A} (x : arr A) k : wf_arr x -> (k <= length (a_shape x))%nat ->
  exists y, merge_leading_dims x k = Some y /\ a_data y = a_data x /\
    a_shape y = prod (firstn k (a_shape x)) :: skipn k (a_shape x) /\ wf_arr y /\
    split_leading_dim y (firstn k (a_shape x)) = Some x.
Proof.
  intros [W1 W2] Hk. unfold merge_leading_dims. rewrite (proj2 (Nat.ltb_ge _ _)) by lia.
  assert (WS : Forall (fun d => 0 <= d) (firstn k (a_shape x)) /\ Forall (fun d => 0 <= d) (skipn k (a_shape x))).
  { rewrite <- (firstn_skipn k (a_shape x)) in W1. now apply Forall_app in W1. }
  destruct WS as [WS1 WS2].
  assert (P : prod (prod (firstn k (a_shape x)) :: skipn k (a_shape x)) = prod (a_shape x)) by apply prod_firstn_skipn.
  assert (F : Forall (fun d => 0 <= d) (prod (firstn k (a_shape x)) :: skipn k (a_shape x))) by (constructor; [now apply prod_nonneg|assumption]).
  exists (Arr (prod (firstn k (a_shape x)) :: skipn k (a_shape x)) (a_data x)).
  split; [apply np_reshape_spec; auto|]. split; [reflexivity|]. split; [reflexivity|]. split; [split; cbn [a_shape a_data]; [assumption|congruence]|].
  unfold split_leading_dim. apply np_reshape_spec. cbn [a_shape a_data tl]. rewrite firstn_skipn.
  split; [now destruct x|]. split; [assumption|congruence].
Qed.
Print Assumptions C45_merge_split.

(** [f] works example by example as [g]. *)
Definition example_wise {A B} (f : arr A -> option (arr B)) (g : list A -> list B) : Prop :=
  forall y z, wf_arr y -> f y = Some z -> wf_arr z /\
    exists n ry rz, a_shape y = n :: ry /\ a_shape z = n :: rz /\
      forall i, 0 <= i < n -> sub_array z [i] = g (sub_array y [i]).

Lemma sub_array_lead {A} (x : arr A) lead rest ix : a_shape x = lead ++ rest -> length ix = length lead ->
  sub_array x ix = block (Z.to_nat (prod rest)) (Z.to_nat (flat_index lead ix)) (a_data x).
Proof.
  intros E L. unfold sub_array. rewrite E, L, firstn_app, skipn_app, Nat.sub_diag, firstn_all, skipn_all. cbn [skipn firstn app].
  now rewrite app_nil_r.
Qed.

(** The result has the leading dimensions of the input, and its entry at each leading
    index is [g] of the input's entry there. *)
Theorem C45_batch_apply {A B} (f : arr A -> option (arr B)) g k x out : wf_arr x -> (1 <= k)%nat ->
  example_wise f g -> batch_apply f k x = Some out ->
  firstn k (a_shape out) = firstn k (a_shape x) /\ wf_arr out /\
  forall ix, Forall2 (fun i d => 0 <= i < d) ix (firstn k (a_shape x)) -> sub_array out ix = g (sub_array x ix).
Proof.
  intros W Hk Hf. unfold batch_apply. destruct (Nat.ltb_spec (length (a_shape x)) k) as [|L]; [discriminate|].
  destruct (C45_merge_split x k W L) as (y & -> & Dy & Sy & Wy & _).
  destruct (f y) as [z|] eqn:Ez; [|discriminate]. intros E.
  destruct (Hf y z Wy Ez) as (Wz & n & ry & rz & Sy' & Sz & Hi).
  rewrite Sy in Sy'. injection Sy' as <- <-.
  unfold split_leading_dim in E. apply np_reshape_spec in E as (-> & F & E). rewrite Sz in *. cbn [tl] in *. cbn [a_shape a_data].
  set (lead := firstn k (a_shape x)) in *.
  assert (Ll : length lead = k) by (unfold lead; rewrite firstn_length; lia).
  split; [rewrite firstn_app, Ll, Nat.sub_diag; cbn; rewrite app_nil_r; rewrite <- Ll; apply firstn_all|].
  split. { split; [assumption|]. cbn [a_shape a_data]. destruct Wz as [_ Wz]. rewrite Sz in Wz. congruence. }
  intros ix Hix. assert (Lx : length ix = length lead) by (eapply Forall2_len; eauto).
  assert (Bd : 0 <= flat_index lead ix < prod lead) by (apply flat_index_bound; assumption).
  rewrite (sub_array_lead _ lead rz) by (try reflexivity; assumption). cbn [a_data].
  rewrite (sub_array_lead x lead (skipn k (a_shape x))) by (try assumption; unfold lead; now rewrite firstn_skipn).
  specialize (Hi (flat_index lead ix) Bd).
  rewrite (sub_array_lead z [prod lead] rz) in Hi by (try reflexivity; assumption).
  rewrite (sub_array_lead y [prod lead] (skipn k (a_shape x))) in Hi by (try reflexivity; assumption).
  cbn [flat_index prod] in Hi. rewrite Z.mul_1_r, Z.add_0_r, Dy in Hi. exact Hi.
Qed.
Print Assumptions C45_batch_apply.
(** It fails exactly when the rank is too small, [f] fails, or [f] changes the leading
    dimension's number of elements. *)
Theorem C45_total {A B} (f : arr A -> option (arr B)) g k x y : wf_arr x -> (1 <= k <= length (a_shape x))%nat ->
  example_wise f g -> merge_leading_dims x k = Some y -> f y <> None -> batch_apply f k x <> None.
Proof.
  intros W Hk Hf Ey Hy. unfold batch_apply. destruct (Nat.ltb_spec (length (a_shape x)) k); [lia|].
  destruct (C45_merge_split x k W ltac:(lia)) as (y' & Ey' & Dy & Sy & Wy & _). rewrite Ey' in *. injection Ey as ->.
  destruct (f y) as [z|] eqn:Ez; [|contradiction].
  destruct (Hf y z Wy Ez) as ([Wz1 Wz2] & n & ry & rz & Sy' & Sz & Hi). rewrite Sy in Sy'. injection Sy' as <- <-.
  unfold split_leading_dim. rewrite Sz. cbn [tl].
  assert (E : np_reshape z (firstn k (a_shape x) ++ rz) = Some (Arr (firstn k (a_shape x) ++ rz) (a_data z))); [|now rewrite E].
  apply np_reshape_spec. split; [reflexivity|]. rewrite Sz in Wz1. inversion Wz1; subst. split.
  - apply Forall_app. split; [|assumption]. destruct W as [W _]. rewrite <- (firstn_skipn k (a_shape x)) in W. apply Forall_app in W. tauto.
  - rewrite prod_app, Sz. reflexivity.
Qed.
Print Assumptions C45_total.

(** An example-wise function: summing each row. *)
Definition row_sums (y : arr Z) : option (arr Z) :=
  match a_shape y with
  | n :: rest => Some (Arr [n] (map (fun i => fold_right Z.add 0 (sub_array y [Z.of_nat i])) (seq 0 (Z.to_nat n))))
  | [] => None
  end.
Lemma row_sums_example_wise : example_wise row_sums (fun l => [fold_right Z.add 0 l]).
Proof.
  intros y z [W1 W2]. unfold row_sums. destruct (a_shape y) as [|n rest] eqn:E; [discriminate|]. intros [= <-].
  inversion W1; subst. split.
  - split; [repeat constructor; assumption|]. cbn [a_data a_shape prod]. rewrite map_length, seq_length. lia.
  - exists n, rest, []. split; [reflexivity|]. split; [reflexivity|]. intros i Hi.
    rewrite (sub_array_lead _ [n] []) by reflexivity. cbn [prod flat_index a_data].
    unfold block. rewrite Z.mul_1_r, Z.add_0_r. change (Z.to_nat 1) with 1%nat. rewrite Nat.mul_1_r.
    set (h := fun i => fold_right Z.add 0 (sub_array y [Z.of_nat i])).
    assert (N : nth_error (map h (seq 0 (Z.to_nat n))) (Z.to_nat i) = Some (h (Z.to_nat i))).
    { rewrite nth_error_map_seq. rewrite (proj2 (Nat.ltb_lt _ _)) by lia. reflexivity. }
    revert N. generalize (map h (seq 0 (Z.to_nat n))) as l. intros l N.
    assert (Sk : skipn (Z.to_nat i) l = h (Z.to_nat i) :: skipn (S (Z.to_nat i)) l).
    { clear - N. revert l N. generalize (h (Z.to_nat i)) as v. induction (Z.to_nat i) as [|j IH]; intros v [|b l] N; try discriminate.
      - cbn in N. injection N as ->. reflexivity.
      - cbn [skipn]. now apply IH. }
    rewrite Sk. cbn [firstn]. unfold h. rewrite Z2Nat.id by lia. reflexivity.
Qed.
Example C45_case : batch_apply row_sums 2 (Arr [2; 2; 3] [0; 1; 2; 3; 4; 5; 6; 7; 8; 9; 10; 11]) = Some (Arr [2; 2] [3; 12; 21; 30]).
Proof. now vm_compute. Qed.

(** ** C46: GroupNorm *)

(** Position of the channel axis, and of the created group axis. *)
Definition channel_axis (rank : nat) (last : bool) : nat := if last then rank - 1 else 1.

Lemma np_axes_nonneg rank axes : Forall (fun a => 0 <= a < rank) axes -> np_axes rank axes = Some axes.
Proof.
  intros H. unfold np_axes. rewrite Forall_forall in H.
  assert (E : forallb (fun a => (- rank <=? a) && (a <? rank)) axes = true).
  { apply forallb_forall. intros a Ha. specialize (H a Ha). rewrite andb_true_iff, Z.leb_le, Z.ltb_lt. lia. }
  rewrite E. f_equal. rewrite <- (map_id axes) at 2. apply map_ext_in. intros a Ha. specialize (H a Ha).
  destruct (Z.ltb_spec a 0); [lia|reflexivity].
Qed.

Lemma in_gn_axis rank last axis b : (2 <= rank)%nat -> Forall (fun a => 0 <= a < Z.of_nat rank) axis ->
  In b (gn_axis (Z.of_nat rank) last axis) <->
  exists a, In a axis /\ b = (if last then (if a =? Z.of_nat rank - 1 then a + 1 else a) else (if a =? 0 then a else a + 1)).
Proof.
  intros Hr H. unfold gn_axis. destruct last; rewrite in_map_iff; split; intros (a & H1 & H2); exists a;
    (try (destruct (Z.eqb_spec a (Z.of_nat rank - 1)); cbn [negb] in *)); (split; [auto; congruence|auto]).
Qed.

Lemma gn_axis_bound rank last axis : (2 <= rank)%nat -> Forall (fun a => 0 <= a < Z.of_nat rank) axis ->
  Forall (fun a => 0 <= a < Z.of_nat rank + 1) (gn_axis (Z.of_nat rank) last axis).
Proof.
  intros Hr H. apply Forall_forall. intros b Hb. apply in_gn_axis in Hb; [|assumption..].
  destruct Hb as (a & Ha & ->). rewrite Forall_forall in H. specialize (H a Ha).
  destruct last; [destruct (Z.eqb_spec a (Z.of_nat rank - 1))|destruct (Z.eqb_spec a 0)]; lia.
Qed.

(** For non-negative axes the reduction axes are valid, never contain the group axis,
    and contain the batch axis only if asked. *)
Theorem C46_axes rank last axis : (2 <= rank)%nat -> Forall (fun a => 0 <= a < Z.of_nat rank) axis ->
  exists ax, np_axes (Z.of_nat rank + 1) (gn_axis (Z.of_nat rank) last axis) = Some ax /\
    ~ In (Z.of_nat (channel_axis rank last)) ax /\ (In 0 ax <-> In 0 axis).
Proof.
  intros Hr H. exists (gn_axis (Z.of_nat rank) last axis). split; [apply np_axes_nonneg, gn_axis_bound; assumption|].
  rewrite Forall_forall in H. split.
  - intros Hb. apply in_gn_axis in Hb; [|assumption|now apply Forall_forall]. destruct Hb as (a & Ha & Hb). specialize (H a Ha). unfold channel_axis in Hb.
    destruct last; [destruct (Z.eqb_spec a (Z.of_nat rank - 1))|destruct (Z.eqb_spec a 0)]; lia.
  - rewrite in_gn_axis by (try assumption; now apply Forall_forall). split.
    + intros (a & Ha & Hb). pose proof (H a Ha).
      assert (a = 0); [|congruence].
      destruct last; [destruct (Z.eqb_spec a (Z.of_nat rank - 1))|destruct (Z.eqb_spec a 0)]; lia.
    + intros Ha. exists 0. split; [assumption|]. destruct last; [|reflexivity]. destruct (Z.eqb_spec 0 (Z.of_nat rank - 1)); lia.
Qed.
Print Assumptions C46_axes.

Lemma nth_snoc2 (l : list Z) a b i d : nth i (l ++ [a; b]) d =
  if Nat.ltb i (length l) then nth i l d else if Nat.eqb i (length l) then a else if Nat.eqb i (S (length l)) then b else d.
Proof.
  destruct (Nat.ltb_spec i (length l)); [now apply app_nth1|]. rewrite app_nth2 by lia.
  destruct (Nat.eqb_spec i (length l)) as [->|]; [now rewrite Nat.sub_diag|].
  destruct (Nat.eqb_spec i (S (length l))) as [->|]; [replace (S (length l) - length l)%nat with 1%nat by lia; reflexivity|].
  apply nth_overflow. cbn. lia.
Qed.

(** Which elements are normalised together: those that agree on every axis not reduced,
    lie in the same group of channels, and in the same channel if the channel axis is not
    reduced. *)
Theorem C46_cells rank last axis pg i j : (2 <= rank)%nat -> Forall (fun a => 0 <= a < Z.of_nat rank) axis ->
  1 <= pg -> length i = rank -> length j = rank ->
  let c := channel_axis rank last in
  same_cell (gn_axis (Z.of_nat rank) last axis) (gn_index last pg i) (gn_index last pg j) <->
  (forall a, (a < rank)%nat -> a <> c -> ~ In (Z.of_nat a) axis -> nth a i 0 = nth a j 0) /\
  nth c i 0 / pg = nth c j 0 / pg /\
  (~ In (Z.of_nat c) axis -> nth c i 0 = nth c j 0).
Proof.
  intros Hr Hax Hpg Li Lj c.
  assert (DM : forall u v, u = v <-> u / pg = v / pg /\ u mod pg = v mod pg).
  { intros u v. split; [now intros ->|]. intros [H1 H2]. rewrite (Z.div_mod u pg), (Z.div_mod v pg) by lia. congruence. }
  unfold same_cell, gn_index, c, channel_axis. destruct last.
  - destruct (snoc_inv i) as (i' & ci & ->); [intros ->; cbn in Li; lia|].
    destruct (snoc_inv j) as (j' & cj & ->); [intros ->; cbn in Lj; lia|].
    rewrite !last_app, !removelast_snoc. rewrite app_length in Li, Lj. cbn in Li, Lj.
    assert (Lij : length i' = length j') by lia. rewrite !app_length. cbn [length].
    assert (Nl : forall (l : list Z) x a, nth a (l ++ [x]) 0 = if Nat.ltb a (length l) then nth a l 0 else if Nat.eqb a (length l) then x else 0).
    { intros l x a. destruct (Nat.ltb_spec a (length l)); [now apply app_nth1|]. rewrite app_nth2 by lia.
      destruct (Nat.eqb_spec a (length l)) as [->|]; [now rewrite Nat.sub_diag|]. apply nth_overflow. cbn. lia. }
    assert (Ic : forall a, (a < length i')%nat -> In (Z.of_nat a) (gn_axis (Z.of_nat rank) true axis) <-> In (Z.of_nat a) axis).
    { intros a Ha. rewrite in_gn_axis by assumption. rewrite Forall_forall in Hax. split.
      - intros (b & Hb & E). specialize (Hax b Hb). destruct (Z.eqb_spec b (Z.of_nat rank - 1)); [lia|]. congruence.
      - intros H. exists (Z.of_nat a). split; [assumption|]. destruct (Z.eqb_spec (Z.of_nat a) (Z.of_nat rank - 1)); [lia|reflexivity]. }
    assert (Il : In (Z.of_nat (S (length i'))) (gn_axis (Z.of_nat rank) true axis) <-> In (Z.of_nat (rank - 1)) axis).
    { rewrite in_gn_axis by assumption. rewrite Forall_forall in Hax. split.
      - intros (b & Hb & E). specialize (Hax b Hb). destruct (Z.eqb_spec b (Z.of_nat rank - 1)); [|lia]. now replace (Z.of_nat (rank - 1)) with b by lia.
      - intros H. exists (Z.of_nat (rank - 1)). split; [assumption|]. destruct (Z.eqb_spec (Z.of_nat (rank - 1)) (Z.of_nat rank - 1)); lia. }
    assert (Ig : ~ In (Z.of_nat (length i')) (gn_axis (Z.of_nat rank) true axis)).
    { destruct (C46_axes rank true axis Hr Hax) as (ax & E & H & _). rewrite np_axes_nonneg in E by (now apply gn_axis_bound).
      injection E as <-. unfold channel_axis in H. now replace (length i') with (rank - 1)%nat by lia. }
    replace (rank - 1)%nat with (length i') in * by lia.
    rewrite !Nl, <- Lij, !Nat.ltb_irrefl, !Nat.eqb_refl. split.
    + intros [_ H]. split; [|split].
      * intros a Ha Hc Hn. specialize (H a ltac:(lia)). rewrite !nth_snoc2, !Nl in *. rewrite <- Lij in *.
        rewrite (proj2 (Nat.ltb_lt a (length i'))) in * by lia. apply H. now rewrite Ic by lia.
      * specialize (H (length i') ltac:(lia) Ig). rewrite !nth_snoc2 in H. rewrite <- Lij, Nat.ltb_irrefl, Nat.eqb_refl in H. exact H.
      * intros Hn. apply DM. split.
        -- specialize (H (length i') ltac:(lia) Ig). rewrite !nth_snoc2 in H. rewrite <- Lij, Nat.ltb_irrefl, Nat.eqb_refl in H. exact H.
        -- specialize (H (S (length i')) ltac:(lia)). rewrite !nth_snoc2 in H. rewrite <- Lij in H.
           rewrite (proj2 (Nat.ltb_ge (S (length i')) (length i'))), (proj2 (Nat.eqb_neq (S (length i')) (length i'))), Nat.eqb_refl in H by lia.
           apply H. now rewrite Il.
    + intros (H1 & H2 & H3). split; [lia|]. intros a Ha Hn. rewrite !nth_snoc2. rewrite <- Lij.
      destruct (Nat.ltb_spec a (length i')).
      * specialize (H1 a ltac:(lia) ltac:(lia)). rewrite !Nl in H1. rewrite <- Lij in H1. rewrite (proj2 (Nat.ltb_lt a (length i'))) in H1 by lia.
        apply H1. now rewrite <- Ic by lia.
      * destruct (Nat.eqb_spec a (length i')); [assumption|].
        destruct (Nat.eqb_spec a (S (length i'))) as [->|]; [|reflexivity]. rewrite H3; [reflexivity|]. now rewrite <- Il.
  - destruct i as [|bi [|ci i]]; [cbn in Li; lia..|]. destruct j as [|bj [|cj j]]; [cbn in Lj; lia..|].
    cbn [length] in *. cbn [nth].
    assert (I0 : In 0 (gn_axis (Z.of_nat rank) false axis) <-> In 0 axis).
    { destruct (C46_axes rank false axis Hr Hax) as (ax & E & _ & H). rewrite np_axes_nonneg in E by (now apply gn_axis_bound). now injection E as <-. }
    assert (Ig : ~ In 1 (gn_axis (Z.of_nat rank) false axis)).
    { destruct (C46_axes rank false axis Hr Hax) as (ax & E & H & _). rewrite np_axes_nonneg in E by (now apply gn_axis_bound). now injection E as <-. }
    assert (Is : forall a, (1 <= a)%nat -> In (Z.of_nat (S a)) (gn_axis (Z.of_nat rank) false axis) <-> In (Z.of_nat a) axis).
    { intros a Ha. rewrite in_gn_axis by assumption. rewrite Forall_forall in Hax. split.
      - intros (b & Hb & E). destruct (Z.eqb_spec b 0); [lia|]. now replace (Z.of_nat a) with b by lia.
      - intros H. exists (Z.of_nat a). split; [assumption|]. destruct (Z.eqb_spec (Z.of_nat a) 0); lia. }
    split.
    + intros [_ H]. split; [|split].
      * intros a Ha Hc Hn. destruct a as [|[|a]]; [|lia|].
        -- apply (H 0%nat ltac:(lia)). now rewrite I0.
        -- apply (H (S (S (S a))) ltac:(lia)). now rewrite Is by lia.
      * apply (H 1%nat ltac:(lia)). assumption.
      * intros Hn. apply DM. split; [apply (H 1%nat ltac:(lia)); assumption|]. apply (H 2%nat ltac:(lia)). now rewrite (Is 1%nat) by lia.
    + intros (H1 & H2 & H3). split; [lia|]. intros a Ha Hn. destruct a as [|[|[|a]]].
      * apply (H1 0%nat); [lia|lia|]. now rewrite <- I0.
      * exact H2.
      * cbn [nth]. rewrite H3; [reflexivity|]. now rewrite <- (Is 1%nat) by lia.
      * apply (H1 (S (S a))); [lia|lia|]. now rewrite <- Is by lia.
Qed.
Print Assumptions C46_cells.
(** The default axes (all but the first), 4 channels in 2 groups, shape [N, W, C]. *)
(** The grouped array holds the element of index [ix] at [gn_index ix]: both indices have the same position in row-major order. *)
Lemma flat_index_app s1 s2 : forall i1 i2, length i1 = length s1 ->
  flat_index (s1 ++ s2) (i1 ++ i2) = flat_index s1 i1 * prod s2 + flat_index s2 i2.
Proof.
  induction s1 as [|d s1 IH]; intros [|i i1] i2 L; cbn [length] in L; try lia; [cbn; lia|].
  cbn [app flat_index]. rewrite IH by lia. rewrite prod_app. ring.
Qed.
Theorem C46_position last groups shape ix : (2 <= length shape)%nat -> length ix = length shape -> 0 < groups ->
  channel_of last shape mod groups = 0 -> 0 < channel_of last shape ->
  flat_index (hd 0 shape :: tl (gn_group_shape last groups (channel_of last shape) shape))
    (gn_index last (channel_of last shape / groups) ix) = flat_index shape ix.
Proof.
  intros L Li Hg Hm Hc. set (c := channel_of last shape) in *. set (pg := c / groups).
  assert (Ec : c = groups * pg) by (unfold pg; apply Z.div_exact; lia). assert (Hp : 0 < pg) by nia.
  assert (D : forall i, i / pg * pg + i mod pg = i) by (intros i; pose proof (Z.div_mod i pg ltac:(lia)); lia).
  destruct shape as [|b shape]; [cbn in L; lia|]. destruct ix as [|i0 ix]; [cbn in Li; lia|]. unfold gn_group_shape, gn_index. destruct last; cbn [hd tl].
  - assert (Ns : shape <> []) by (intros ->; cbn in L; lia). assert (Ni : ix <> []) by (intros ->; cbn in L, Li; lia).
    assert (Cl : c = List.last shape 0) by (unfold c, channel_of; destruct shape; [congruence|reflexivity]).
    pose proof (app_removelast_last 0 Ns) as Es. pose proof (app_removelast_last 0 Ni) as Ei. rewrite <- Cl in Es.
    set (sh := removelast shape) in *. set (il := removelast ix) in *. set (x := List.last ix 0) in *.
    assert (El : List.last (i0 :: ix) 0 = x) by (unfold x; destruct ix; [congruence|reflexivity]).
    assert (Er : removelast (i0 :: ix) = i0 :: il) by (unfold il; destruct ix; [congruence|reflexivity]).
    rewrite El, Er, Es, Ei. assert (LL : length (i0 :: il) = length (b :: sh)).
    { rewrite Es, Ei in Li. cbn [length] in Li |- *. rewrite !app_length in Li. cbn [length] in Li. lia. }
    fold pg. change (b :: sh ++ [groups; pg]) with ((b :: sh) ++ [groups; pg]). change (b :: sh ++ [c]) with ((b :: sh) ++ [c]).
    change (i0 :: il ++ [x]) with ((i0 :: il) ++ [x]). rewrite !flat_index_app by exact LL. cbn [prod flat_index].
    specialize (D x). nia.
  - destruct shape as [|c' shape]; [cbn in L; lia|]. destruct ix as [|i1 ix]; [cbn in Li; lia|].
    assert (H : c' = groups * pg) by exact Ec. fold pg. cbn [tl flat_index prod]. rewrite H. set (q := i1 / pg) in *. set (r := i1 mod pg) in *.
    rewrite <- (D i1). fold q r. ring.
Qed.
Print Assumptions C46_position.
Example C46_position_case : flat_index [7; 3; 2; 5] (gn_index false 2 [6; 5; 4]) = flat_index [7; 6; 5] [6; 5; 4] /\
  flat_index [7; 6; 5] [6; 5; 4] = 209.
Proof. now vm_compute. Qed.

Example C46_case : gn_axis 3 true [1; 2] = [1; 3] /\ gn_axis 3 false [1; 2] = [2; 3] /\
  gn_group_shape true 2 4 [7; 5; 4] = [-1; 5; 2; 2] /\ gn_group_shape false 2 4 [7; 4; 5] = [-1; 2; 2; 5] /\
  gn_index true 2 [6; 4; 3] = [6; 4; 1; 1] /\
  same_cell (gn_axis 3 true [1; 2]) (gn_index true 2 [6; 4; 3]) (gn_index true 2 [6; 0; 2]) /\
  ~ same_cell (gn_axis 3 true [1; 2]) (gn_index true 2 [6; 4; 3]) (gn_index true 2 [6; 0; 1]).
Proof.
  repeat (split; [reflexivity|]). split.
  - split; [reflexivity|]. intros [|[|[|[|a]]]] Ha Hn; cbn in *; try reflexivity; try lia; exfalso; apply Hn; auto.
  - intros [_ H]. specialize (H 2%nat). cbn in H. assert (F : 1 = 0); [|discriminate F]. apply H; [lia|]. intros [|[|[]]]; discriminate.
Qed.

(** Negative axes: in channels-first layout [-1] becomes 0, so different examples of the
    batch are normalised together; in channels-last layout [-2] is the group axis, so
    different groups are. *)
Theorem C46_batch_refuted :
  ~ (forall rank axis pg i j, (2 <= rank)%nat -> Forall (fun a => - Z.of_nat rank <= a < Z.of_nat rank) axis ->
       ~ In 0 axis -> ~ In (- Z.of_nat rank) axis -> 1 <= pg -> length i = rank -> length j = rank ->
       forall ax, np_axes (Z.of_nat rank + 1) (gn_axis (Z.of_nat rank) false axis) = Some ax ->
       same_cell ax (gn_index false pg i) (gn_index false pg j) -> nth 0 i 0 = nth 0 j 0).
Proof.
  intros H. specialize (H 3%nat [-1] 2 [0; 0; 0] [1; 0; 0] ltac:(lia)).
  assert (F : 0 = 1); [|discriminate F].
  eapply H; try reflexivity; try lia.
  - repeat constructor; lia.
  - intros [|[]]; discriminate.
  - intros [|[]]; discriminate.
  - split; [reflexivity|]. intros [|[|[|[|a]]]] Ha Hn; cbn in *; try reflexivity; try lia; exfalso; apply Hn; now left.
Qed.
Print Assumptions C46_batch_refuted.
Theorem C46_groups_refuted :
  ~ (forall rank axis pg i j, (2 <= rank)%nat -> Forall (fun a => - Z.of_nat rank <= a < Z.of_nat rank) axis ->
       1 <= pg -> length i = rank -> length j = rank ->
       forall ax, np_axes (Z.of_nat rank + 1) (gn_axis (Z.of_nat rank) true axis) = Some ax ->
       same_cell ax (gn_index true pg i) (gn_index true pg j) -> last i 0 / pg = last j 0 / pg).
Proof.
  intros H. specialize (H 3%nat [-2] 2 [0; 0; 0] [0; 0; 2] ltac:(lia)).
  assert (F : 0 = 1); [|discriminate F].
  eapply H; try reflexivity; try lia.
  - repeat constructor; lia.
  - split; [reflexivity|]. intros [|[|[|[|a]]]] Ha Hn; cbn in *; try reflexivity; try lia; exfalso; apply Hn; now left.
Qed.
Print Assumptions C46_groups_refuted.

(** Shapes: the first call returns an array of its input's shape, and so does every later
    call with the same trailing dimensions (the batch size may change). *)
Definition gn_ok (last : bool) (axis : list Z) (groups : Z) (shape : list Z) : Prop :=
  (2 <= length shape)%nat /\ Forall (fun d => 0 < d) (tl shape) /\ 0 <= hd 0 shape /\ 1 <= groups /\
  channel_of last shape mod groups = 0 /\ Forall (fun a => 0 <= a < Z.of_nat (length shape)) axis.

Lemma channel_tl last shape : (2 <= length shape)%nat -> channel_of last shape = if last then List.last (tl shape) 0 else nth 0 (tl shape) 0.
Proof. destruct shape as [|a [|b l]]; cbn; try lia. intros _. destruct last; reflexivity. Qed.

Lemma gn_shape_prod last groups shape : (2 <= length shape)%nat -> 1 <= groups -> channel_of last shape mod groups = 0 ->
  prod (tl (gn_group_shape last groups (channel_of last shape) shape)) = prod (tl shape).
Proof.
  intros L G M. pose proof (Z.div_mod (channel_of last shape) groups ltac:(lia)) as D. rewrite M in D.
  destruct shape as [|b [|c shape]]; cbn [length] in L; try lia. unfold gn_group_shape. destruct last; cbn [tl] in *.
  - unfold channel_of in *. destruct (snoc_inv (c :: shape)) as (m & d & E); [discriminate|]. rewrite E in *.
    rewrite app_comm_cons, last_app in *. rewrite removelast_snoc, !prod_app. cbn [prod]. nia.
  - unfold channel_of in *. cbn [nth] in *. cbn [prod]. nia.
Qed.

Lemma gn_shape_pos last groups shape : (2 <= length shape)%nat -> 1 <= groups -> channel_of last shape mod groups = 0 ->
  Forall (fun d => 0 < d) (tl shape) ->
  Forall (fun d => 0 < d) (tl (gn_group_shape last groups (channel_of last shape) shape)).
Proof.
  intros L G M F. pose proof (Z.div_mod (channel_of last shape) groups ltac:(lia)) as D. rewrite M in D.
  destruct shape as [|b [|c shape]]; cbn [length] in L; try lia. unfold gn_group_shape. destruct last; cbn [tl] in *.
  - unfold channel_of in *. destruct (snoc_inv (c :: shape)) as (m & d & E); [discriminate|]. rewrite E in *.
    rewrite app_comm_cons, last_app in *. rewrite removelast_snoc. apply Forall_app in F as [F1 F2]. inversion F2; subst.
    apply Forall_app. split; [assumption|]. repeat constructor; nia.
  - unfold channel_of in *. cbn [nth] in *. inversion F; subst. repeat constructor; try assumption; nia.
Qed.

Lemma prod_pos l : Forall (fun d => 0 < d) l -> 0 < prod l.
Proof. induction 1; cbn; nia. Qed.

Lemma np_reshape_lead_ok {A} (x : arr A) n rest : prod (a_shape x) = n * prod rest -> Forall (fun d => 0 < d) rest ->
  np_reshape_lead x rest = Some (Arr (n :: rest) (a_data x)).
Proof.
  intros E F. unfold np_reshape_lead. pose proof (prod_pos _ F) as P. rewrite E.
  rewrite (proj2 (Z.ltb_lt _ _)) by assumption. rewrite Z.mod_mul by lia. rewrite Z.div_mul by lia.
  assert (B : forallb (fun d => 0 <=? d) rest = true).
  { apply forallb_forall. intros d Hd. rewrite Forall_forall in F. apply Z.leb_le. specialize (F d Hd). lia. }
  rewrite B. reflexivity.
Qed.

Theorem C46_shapes groups last axis shape : gn_ok last axis groups shape ->
  exists o, gn_call groups last axis None shape = Some (shape, o) /\
  forall batch, 0 <= batch -> gn_call groups last axis (Some o) (batch :: tl shape) = Some (batch :: tl shape, o).
Proof.
  intros (L & F & Hb & G & M & Hax).
  set (o := GN (length shape) (gn_axis (Z.of_nat (length shape)) last axis)
              (tl (gn_group_shape last groups (channel_of last shape) shape)) (tl shape)).
  pose proof (gn_shape_prod last groups shape L G M) as PP.
  pose proof (gn_shape_pos last groups shape L G M F) as FP.
  assert (LG : length (tl (gn_group_shape last groups (channel_of last shape) shape)) = length shape).
  { destruct shape as [|b [|c shape]]; cbn [length] in L; try lia. unfold gn_group_shape. destruct last; [|reflexivity].
    cbn [tl]. rewrite app_length. destruct (snoc_inv (c :: shape)) as (m & d & E); [discriminate|]. rewrite E, removelast_snoc.
    cbn [length]. rewrite app_length. cbn. lia. }
  assert (Main : forall batch, 0 <= batch ->
    match np_reshape_lead (Arr (batch :: tl shape) (repeat tt (Z.to_nat (prod (batch :: tl shape))))) (gn_shape o) with
    | None => None
    | Some x =>
        match np_axes (Z.of_nat (length (a_shape x))) (gn_axes o) with
        | None => None
        | Some _ => match np_reshape_lead x (gn_first o) with None => None | Some y => Some (a_shape y, o) end
        end
    end = Some (batch :: tl shape, o)).
  { intros batch Hbatch. unfold o at 1. cbn [gn_shape].
    rewrite (np_reshape_lead_ok _ batch); [|cbn [a_shape prod]; now rewrite PP|assumption].
    cbn [a_shape a_data length]. rewrite LG. unfold o at 1. cbn [gn_axes].
    replace (Z.of_nat (S (length shape))) with (Z.of_nat (length shape) + 1) by lia.
    rewrite np_axes_nonneg by (now apply gn_axis_bound).
    unfold o at 1. cbn [gn_first]. rewrite (np_reshape_lead_ok _ batch); [|cbn [a_shape prod]; now rewrite PP|assumption].
    reflexivity. }
  exists o. assert (Esh : hd 0 shape :: tl shape = shape) by (destruct shape; [cbn in L; lia|reflexivity]). split.
  - unfold gn_call. rewrite M. cbn [Z.eqb negb]. fold o. pose proof (Main (hd 0 shape) Hb) as H. rewrite Esh in H. exact H.
  - intros batch Hbatch. unfold gn_call.
    assert (Le : length (batch :: tl shape) = length shape) by (destruct shape; [cbn in L; lia|reflexivity]).
    rewrite Le. unfold o at 1. cbn [gn_rank]. rewrite Nat.eqb_refl. cbn [negb].
    assert (Ec : channel_of last (batch :: tl shape) = channel_of last shape).
    { rewrite !channel_tl by lia. reflexivity. }
    rewrite Ec, M. cbn [Z.eqb negb]. now apply Main.
Qed.
Print Assumptions C46_shapes.
Example C46_shapes_case : option_map fst (gn_call 2 true [1; 2; 3] None [2; 4; 4; 6]) = Some [2; 4; 4; 6].
Proof. now vm_compute. Qed.

(** A later call with other spatial sizes of the same rank is not rejected: the array is
    cut up with the sizes of the first call and comes back with another shape. *)
Theorem C46_second_shape_refuted :
  ~ (forall groups last axis s1 s2 out o o', gn_ok last axis groups s1 -> gn_ok last axis groups s2 ->
       gn_call groups last axis None s1 = Some (s1, o) -> gn_call groups last axis (Some o) s2 = Some (out, o') -> out = s2).
Proof.
  intros H.
  pose proof (C46_shapes 2 true [1; 2; 3] [2; 4; 4; 6]) as S.
  assert (K1 : gn_ok true [1; 2; 3] 2 [2; 4; 4; 6]) by (repeat split; cbn; try lia; repeat constructor; lia).
  assert (K2 : gn_ok true [1; 2; 3] 2 [2; 8; 8; 6]) by (repeat split; cbn; try lia; repeat constructor; lia).
  specialize (H 2 true [1; 2; 3] [2; 4; 4; 6] [2; 8; 8; 6] [8; 4; 4; 6]
                (GN 4 [1; 2; 4] [4; 4; 2; 3] [4; 4; 6]) (GN 4 [1; 2; 4] [4; 4; 2; 3] [4; 4; 6]) K1 K2).
  assert (F : [8; 4; 4; 6] = [2; 8; 8; 6]); [|discriminate F]. apply H; vm_compute; reflexivity.
Qed.
Print Assumptions C46_second_shape_refuted.

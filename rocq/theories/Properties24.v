(** * C67: MultiHeadAttention, in exact arithmetic *)
From Coq Require Import Reals ZArith List Bool Lia Lra Permutation.
From Verif Require Import ModelReal ModelLayers Properties14 Properties15 Properties22.
Import ListNotations.
Local Open Scope R_scope.

Lemma softmax_shift c l : softmax (map (fun x => x + c) l) = softmax l.
Proof.
  unfold softmax. rewrite !map_map. destruct l as [|a l]; [reflexivity|]. set (m := a :: l).
  assert (E : Rsum (map (fun x => exp (x + c)) m) = exp c * Rsum (map exp m)).
  { rewrite <- Rsum_scale, map_map. apply Rsum_ext. intros. rewrite exp_plus. lra. }
  rewrite E. apply map_ext. intros x. rewrite exp_plus. pose proof (exp_pos c).
  assert (0 < Rsum (map exp m)) by (apply exp_sum_pos; discriminate). field. split; lra.
Qed.
Lemma jax_softmax_eq l : jax_softmax l = softmax l.
Proof. unfold jax_softmax. apply softmax_shift. Qed.
Lemma softmax_length l : length (softmax l) = length l. Proof. apply map_length. Qed.

(** A mask has one entry for every key. *)
Definition mask_fits (ks : list (list R)) (mask : option (list R)) : Prop := match mask with None => True | Some m => length m = length ks end.
Lemma att_logits_length ks mask d big q : mask_fits ks mask -> length (att_logits d big q ks mask) = length ks.
Proof.
  unfold att_logits. destruct mask as [m|]; cbn [mask_fits]; intros H; rewrite ?map_length, ?combine_length, ?map_length; [lia | reflexivity].
Qed.

(** The weights are positive and add up to 1, whatever the mask. *)
Theorem C67_weights d big q ks mask : ks <> [] -> mask_fits ks mask ->
  let w := att_weights d big q ks mask in
  length w = length ks /\ Forall (fun x => 0 < x <= 1) w /\ Rsum w = 1.
Proof.
  intros Hne Hm. cbv zeta. unfold att_weights. rewrite jax_softmax_eq. set (l := att_logits d big q ks mask).
  assert (L : length l = length ks) by now apply att_logits_length.
  assert (Hl : l <> []) by (intros E; rewrite E in L; destruct ks; [congruence | discriminate L]).
  pose proof (softmax_sum l Hl) as S. pose proof (softmax_pos l) as P. rewrite softmax_length. split; [exact L|]. split; [|exact S].
  assert (G : Forall (fun x => 0 < x <= Rsum (softmax l)) (softmax l)); [|rewrite S in G; exact G].
  clear S L Hl. revert P. generalize (softmax l). clear. intros w P.
  apply Forall_forall. intros x Hx. split; [rewrite Forall_forall in P; auto|].
  induction P as [|y w Hy P IH]; [easy|]. rewrite Rsum_cons. assert (0 <= Rsum w) by (apply Rsum_nonneg; eapply Forall_impl; [|exact P]; cbn; intros; lra).
  destruct Hx as [->|Hx]; [lra|]. specialize (IH Hx). lra.
Qed.
Print Assumptions C67_weights.

Lemma dot_bounds : forall w v lo hi, length w = length v -> Forall (fun x => 0 <= x) w -> Forall (fun x => lo <= x <= hi) v ->
  lo * Rsum w <= dot w v <= hi * Rsum w.
Proof.
  unfold dot. induction w as [|a w IH]; intros [|b v] lo hi L Hw Hv; try discriminate L; cbn [combine map fst snd]; rewrite ?Rsum_cons, ?Rsum_nil; [lra|].
  inversion Hw; inversion Hv; subst. injection L as L. destruct (IH v lo hi L) as [I1 I2]; auto.
  assert (a * lo <= a * b <= a * hi) by (split; apply Rmult_le_compat_l; lra). lra.
Qed.
(** Every coordinate of the result of a head lies between the smallest and largest such coordinate of the values. *)
Theorem C67_convex d n big q ks vs mask j lo hi : ks <> [] -> mask_fits ks mask -> length vs = length ks -> (j < n)%nat ->
  Forall (fun v => lo <= nth j v 0 <= hi) vs -> lo <= nth j (att_head d n big q ks vs mask) 0 <= hi.
Proof.
  intros Hne Hm HL Hj HF. unfold att_head, matmul. rewrite seq_nth_map by exact Hj.
  destruct (C67_weights d big q ks mask Hne Hm) as (L & P & S). cbv zeta in *. set (w := att_weights d big q ks mask) in *.
  assert (B : lo * Rsum w <= dot w (column j vs) <= hi * Rsum w).
  { apply dot_bounds; [unfold column; rewrite map_length; congruence | eapply Forall_impl; [|exact P]; cbn; intros; lra |].
    unfold column. apply Forall_forall. intros x Hx. apply in_map_iff in Hx as (v & <- & Hv). rewrite Forall_forall in HF. auto. }
  rewrite S in B. lra.
Qed.
Print Assumptions C67_convex.

Lemma Rsum_perm l m : Permutation l m -> Rsum l = Rsum m.
Proof. induction 1; rewrite ?Rsum_cons; lra. Qed.
(** Positions of the memory as triples of key, value and mask entry. *)
Definition keys_of (l : list (list R * list R * R)) := map (fun p => fst (fst p)) l.
Definition values_of (l : list (list R * list R * R)) := map (fun p => snd (fst p)) l.
Definition mask_of (l : list (list R * list R * R)) := map snd l.
Lemma att_head_triples d n big q l (masked : bool) j : (j < n)%nat ->
  let e p := exp (dot q (fst (fst p)) / sqrt (INR d) - if masked then big * (1 - snd p) else 0) in
  nth j (att_head d n big q (keys_of l) (values_of l) (if masked then Some (mask_of l) else None)) 0 =
  Rsum (map (fun p => e p / Rsum (map e l) * nth j (snd (fst p)) 0) l).
Proof.
  intros Hj. cbv zeta. unfold att_head, matmul. rewrite seq_nth_map by exact Hj. unfold att_weights. rewrite jax_softmax_eq.
  assert (E : att_logits d big q (keys_of l) (if masked then Some (mask_of l) else None) =
     map (fun p => dot q (fst (fst p)) / sqrt (INR d) - if masked then big * (1 - snd p) else 0) l).
  { unfold att_logits, keys_of, mask_of. destruct masked.
    - rewrite map_map. induction l as [|p l IH]; [reflexivity|]. cbn [map combine fst snd]. now rewrite IH.
    - rewrite map_map. apply map_ext. intros. lra. }
  rewrite E. unfold softmax. rewrite !map_map. unfold dot at 1, column, values_of. rewrite map_map.
  set (T := Rsum (map (fun p => exp _) l)). clearbody T. f_equal. clear E. induction l as [|p l IH]; [reflexivity|]. cbn [map combine fst snd]. now rewrite IH.
Qed.
(** Attention does not see the order of the memory: permuting keys, values and mask together changes nothing. *)
Theorem C67_permutation d n big q l l' (masked : bool) : Permutation l l' ->
  let m l := if masked then Some (mask_of l) else None in
  att_head d n big q (keys_of l) (values_of l) (m l) = att_head d n big q (keys_of l') (values_of l') (m l').
Proof.
  intros HP. cbv zeta. apply (nth_ext _ _ 0 0).
  - unfold att_head, matmul. now rewrite !map_length.
  - intros j Hj. unfold att_head, matmul in Hj. rewrite map_length, seq_length in Hj. rewrite !att_head_triples by exact Hj.
    pose (e := fun p : list R * list R * R => exp (dot q (fst (fst p)) / sqrt (INR d) - (if masked then big * (1 - snd p) else 0))).
    change (Rsum (map (fun p => e p / Rsum (map e l) * nth j (snd (fst p)) 0) l) = Rsum (map (fun p => e p / Rsum (map e l') * nth j (snd (fst p)) 0) l')).
    rewrite (Rsum_perm _ _ (Permutation_map e HP)).
    apply Rsum_perm, Permutation_map, HP.
Qed.
Print Assumptions C67_permutation.

(** A mask of ones is no mask; so is any mask with equal entries, also zeros. *)
Theorem C67_uniform_mask d big q ks c : att_weights d big q ks (Some (repeat c (length ks))) = att_weights d big q ks None.
Proof.
  unfold att_weights. rewrite !jax_softmax_eq. unfold att_logits. 
  rewrite <- (softmax_shift (- (big * (1 - c))) (map (fun k => dot q k / sqrt (INR d)) ks)). f_equal. rewrite map_map.
  induction ks as [|k ks IH]; [reflexivity|]. cbn [length repeat map combine fst snd]. rewrite IH. reflexivity.
Qed.
Print Assumptions C67_uniform_mask.

Lemma nth_map_in {A B} (f : A -> B) l i a b : (i < length l)%nat -> nth i (map f l) b = f (nth i l a).
Proof. intros H. rewrite nth_indep with (d' := f a) by (now rewrite map_length). apply map_nth. Qed.
(** Masked positions get next to nothing, provided some position is not masked: with logits of size at most [B], at most
    exp(2 B - 1e10). *)
Theorem C67_masked d big q ks m i B : length m = length ks -> (i < length ks)%nat -> nth i m 1 = 0 -> In 1 m ->
  Forall (fun k => Rabs (dot q k / sqrt (INR d)) <= B) ks ->
  nth i (att_weights d big q ks (Some m)) 0 <= exp (2 * B - big).
Proof.
  intros HL Hi Hm Hin HB. unfold att_weights. rewrite jax_softmax_eq. unfold softmax.
  set (l := att_logits d big q ks (Some m)).
  assert (Ll : length l = length ks) by now apply att_logits_length.
  assert (Hnth : forall p, (p < length ks)%nat -> nth p l 0 = dot q (nth p ks []) / sqrt (INR d) - big * (1 - nth p m 1)).
  { intros p Hp. unfold l, att_logits. rewrite (nth_map_in _ _ _ (0, 1)) by (rewrite combine_length, map_length; lia).
    rewrite combine_nth by (rewrite map_length; lia). cbn [fst snd]. now rewrite (nth_map_in _ _ _ []) by exact Hp. }
  rewrite (nth_map_in _ _ _ 0) by lia.
  destruct (In_nth m 1 0 Hin) as (p & Hp & Ep). rewrite HL in Hp.
  rewrite nth_indep with (d' := 1) in Ep by lia.
  assert (HBp : forall p, (p < length ks)%nat -> - B <= dot q (nth p ks []) / sqrt (INR d) <= B).
  { intros p' Hp'. rewrite Forall_forall in HB. specialize (HB (nth p' ks []) (nth_In _ _ Hp')). now apply Rabs_le_between || (unfold Rabs in HB; destruct (Rcase_abs _); lra). }
  assert (Gi : exp (nth i l 0) <= exp (B - big)).
  { rewrite Hnth, Hm by exact Hi. pose proof (HBp i Hi). destruct (Req_dec (dot q (nth i ks []) / sqrt (INR d)) B) as [->|]; [right; f_equal; lra | left; apply exp_increasing; lra]. }
  assert (Gp : exp (- B) <= exp (nth p l 0)).
  { rewrite Hnth, Ep by exact Hp. pose proof (HBp p Hp). destruct (Req_dec (dot q (nth p ks []) / sqrt (INR d)) (- B)) as [->|]; [right; f_equal; lra | left; apply exp_increasing; lra]. }
  assert (Gs : exp (nth p l 0) <= Rsum (map exp l)).
  { assert (Hpl : (p < length l)%nat) by lia. clear - Hpl. revert p Hpl. induction l as [|a l IH]; intros [|p] Hp; cbn [length] in Hp; try lia; cbn [map nth]; rewrite Rsum_cons.
    - assert (0 <= Rsum (map exp l)) by (apply Rsum_nonneg, Forall_forall; intros y Hy; apply in_map_iff in Hy as (z & <- & _); left; apply exp_pos). lra.
    - specialize (IH p ltac:(lia)). pose proof (exp_pos a). lra. }
  pose proof (exp_pos (- B)) as EB. replace (2 * B - big) with ((B - big) + B) by lra. rewrite exp_plus.
  assert (EBi : exp B = / exp (- B)) by (rewrite exp_Ropp, Rinv_inv; reflexivity). rewrite EBi.
  unfold Rdiv. apply Rmult_le_compat; [left; apply exp_pos | left; apply Rinv_0_lt_compat; lra | exact Gi |].
  apply Rinv_le_contravar; [exact EB | lra].
Qed.
Print Assumptions C67_masked.
(** Without an unmasked position the mask has no effect: the only position, masked, gets all the weight. *)
Theorem C67_all_masked_refuted : ~ (forall d big q ks m i B, 0 < big -> length m = length ks -> (i < length ks)%nat -> nth i m 1 = 0 ->
  Forall (fun k => Rabs (dot q k / sqrt (INR d)) <= B) ks -> nth i (att_weights d big q ks (Some m)) 0 <= exp (2 * B - big)).
Proof.
  intros H. specialize (H 1%nat 1 [0] [[0]] [0] 0%nat 0 ltac:(lra) eq_refl ltac:(cbn; lia) eq_refl).
  change (Some [0]) with (Some (repeat 0 (length [[0]]))) in H. rewrite C67_uniform_mask in H.
  destruct (C67_weights 1 1 [0] [[0]] None ltac:(discriminate) Logic.I) as (L & _ & S). cbv zeta in *.
  set (w := att_weights 1 1 [0] [[0]] None) in *. destruct w as [|a [|b w]]; try discriminate L. rewrite Rsum_cons, Rsum_nil in S. cbn [nth] in H.
  assert (a <= exp (2 * 0 - 1)) as Ha.
  { apply H. constructor; [|constructor]. unfold dot, Rsum. cbn [combine map fold_right fst snd]. replace ((0 * 0 + 0) / sqrt (INR 1)) with 0 by (unfold Rdiv; ring). rewrite Rabs_R0. lra. }
  pose proof (exp_increasing (2 * 0 - 1) 0 ltac:(lra)) as E. rewrite exp_0 in E. lra.
Qed.
Print Assumptions C67_all_masked_refuted.

(** ** The whole module *)
(** The result for one query: all heads, concatenated and projected. *)
Definition mha_row heads d n model big (lq lk lv lo : linear) (q : list R) (key value : list (list R)) (mask : nat -> option (list R)) : list R :=
  affine model (l_w lo) (Some (l_b lo))
    (flat_map (fun h => att_head d n big (project heads d lq q h) (map (fun k => project heads d lk k h) key)
                          (map (fun v => project heads n lv v h) value) (mask h)) (seq 0 heads)).
Lemma nth_combine_seq {A B} (f : nat * A -> B) : forall (l : list A) s t d d', (t < length l)%nat ->
  nth t (map f (combine (seq s (length l)) l)) d' = f ((s + t)%nat, nth t l d).
Proof.
  induction l as [|a l IH]; intros s t d d' Ht; cbn [length] in Ht; [lia|]. cbn [length seq combine map].
  destruct t as [|t]; cbn [nth]; [now rewrite Nat.add_0_r|]. rewrite (IH (S s) t d d') by lia. do 2 f_equal. lia.
Qed.
(** The module accepts exactly inputs with as many values as keys, when the query size is the key size. *)
Theorem C67_accepts heads qs d n model big lq lk lv lo query key value mask :
  mha heads qs d n model big lq lk lv lo query key value mask <> None <-> qs = d /\ length key = length value.
Proof.
  unfold mha. destruct (Nat.eqb_spec qs d), (Nat.eqb_spec (length key) (length value)); cbn [andb]; split; try tauto; try discriminate; intros H; now destruct H.
Qed.
Print Assumptions C67_accepts.
(** Row t of the result depends on query t and row t of the mask only. *)
Theorem C67_rows heads d n model big lq lk lv lo query key value mask t : length key = length value -> (t < length query)%nat ->
  exists out, mha heads d d n model big lq lk lv lo query key value mask = Some out /\ length out = length query /\
    nth t out [] = mha_row heads d n model big lq lk lv lo (nth t query []) key value (fun h => mask h t).
Proof.
  intros HL Ht. unfold mha. rewrite HL, !Nat.eqb_refl. cbn [andb]. eexists. split; [reflexivity|]. split.
  - rewrite map_length, combine_length, seq_length. lia.
  - now rewrite (nth_combine_seq _ query 0 t []) by exact Ht.
Qed.
Print Assumptions C67_rows.
(** Permuting keys, values and the columns of the mask together leaves the result unchanged. *)
Definition mem_keys (l : list (list R * list R * (nat -> nat -> R))) := map (fun p => fst (fst p)) l.
Definition mem_values (l : list (list R * list R * (nat -> nat -> R))) := map (fun p => snd (fst p)) l.
Definition mem_mask (masked : bool) (l : list (list R * list R * (nat -> nat -> R))) (h t : nat) : option (list R) :=
  if masked then Some (map (fun p => snd p h t) l) else None.
Theorem C67_memory_order heads d n model big lq lk lv lo query l l' (masked : bool) : Permutation l l' ->
  mha heads d d n model big lq lk lv lo query (mem_keys l) (mem_values l) (mem_mask masked l) =
  mha heads d d n model big lq lk lv lo query (mem_keys l') (mem_values l') (mem_mask masked l').
Proof.
  intros HP. unfold mha, mem_keys, mem_values. rewrite !map_length, !Nat.eqb_refl. cbn [andb]. f_equal.
  apply map_ext. intros [t q]. cbn [fst snd]. f_equal. apply flat_map_ext. intros h. rewrite !map_map. unfold mem_mask.
  pose (g := fun p : list R * list R * (nat -> nat -> R) => (project heads d lk (fst (fst p)) h, project heads n lv (snd (fst p)) h, snd p h t)).
  pose proof (C67_permutation d n big (project heads d lq q h) (map g l) (map g l') masked (Permutation_map g HP)) as H. cbv zeta in H.
  unfold keys_of, values_of, mask_of in H. rewrite !map_map in H. exact H.
Qed.
Print Assumptions C67_memory_order.
(** Changing the values at masked positions (a causal mask: the future) by at most D changes a coordinate of the result by at most
    D exp(2 B - 1e10) for each of them. *)
Lemma dot_diff : forall w v v' e, length w = length v -> length w = length v' ->
  (forall i, (i < length w)%nat -> Rabs (nth i w 0 * (nth i v 0 - nth i v' 0)) <= e) -> Rabs (dot w v - dot w v') <= INR (length w) * e.
Proof.
  unfold dot. induction w as [|a w IH]; intros [|b v] [|c v'] e L1 L2 H; try discriminate; cbn [combine map fst snd length]; rewrite ?Rsum_cons, ?Rsum_nil.
  - rewrite Rminus_0_r, Rabs_R0. cbn. lra.
  - injection L1 as L1. injection L2 as L2. rewrite S_INR.
    specialize (IH v v' e L1 L2 (fun i Hi => H (S i) ltac:(cbn; lia))). specialize (H 0%nat ltac:(cbn; lia)). cbn [nth] in H.
    match goal with |- Rabs (a * b + ?x - (a * c + ?y)) <= _ => replace (a * b + x - (a * c + y)) with (a * (b - c) + (x - y)) by ring end.
    eapply Rle_trans; [apply Rabs_triang|]. lra.
Qed.
Theorem C67_masked_values d n big q ks vs vs' m j B D : length m = length ks -> length vs = length ks -> length vs' = length ks -> (j < n)%nat ->
  In 1 m -> Forall (fun k => Rabs (dot q k / sqrt (INR d)) <= B) ks ->
  (forall i, (i < length ks)%nat -> nth i m 1 = 0 \/ nth i vs [] = nth i vs' []) ->
  (forall i, (i < length ks)%nat -> Rabs (nth j (nth i vs []) 0 - nth j (nth i vs' []) 0) <= D) ->
  Rabs (nth j (att_head d n big q ks vs (Some m)) 0 - nth j (att_head d n big q ks vs' (Some m)) 0) <= INR (length ks) * (exp (2 * B - big) * D).
Proof.
  intros Hm Hv Hv' Hj Hin HB Hsame HD. unfold att_head, matmul. rewrite !seq_nth_map by exact Hj.
  assert (Hne : ks <> []) by (intros ->; destruct m; [destruct Hin | discriminate Hm]).
  destruct (C67_weights d big q ks (Some m) Hne Hm) as (L & P & _). cbv zeta in *. pose proof (fun i => C67_masked d big q ks m i B Hm) as W.
  set (w := att_weights d big q ks (Some m)) in *. rewrite <- L. unfold column.
  apply dot_diff; rewrite ?map_length; try congruence. intros i Hi. rewrite L in Hi.
  rewrite !(nth_map_in _ _ _ []) by lia. specialize (HD i Hi). rewrite Rabs_mult.
  assert (0 < nth i w 0) by (rewrite Forall_forall in P; apply (P (nth i w 0)), nth_In; lia).
  pose proof (Rabs_pos (nth j (nth i vs []) 0 - nth j (nth i vs' []) 0)). pose proof (exp_pos (2 * B - big)).
  destruct (Hsame i Hi) as [Z| ->].
  - apply Rmult_le_compat; [apply Rabs_pos | lra | rewrite Rabs_pos_eq by lra; auto | exact HD].
  - rewrite Rminus_eq_0, Rabs_R0, Rmult_0_r. apply Rmult_le_pos; lra.
Qed.
Print Assumptions C67_masked_values.
(** The sizes left out, or given as 0, are replaced by the default; others are kept. *)
Theorem C67_defaults o d : or_default o d = match o with None => d | Some n => if (n =? 0)%nat then d else n end.
Proof. destruct o as [[|n]|]; reflexivity. Qed.
Print Assumptions C67_defaults.
(** The constructor takes a [query_size], but only the key size works. *)
Theorem C67_query_size_refuted : ~ (forall heads qs d n model big lq lk lv lo query key value mask, length key = length value ->
  mha heads (or_default qs d) d n model big lq lk lv lo query key value mask <> None).
Proof.
  intros H. specialize (H 1%nat (Some 2%nat) 3%nat 3%nat 3%nat 1 (Lin [] []) (Lin [] []) (Lin [] []) (Lin [] []) [] [] [] (fun _ _ => None) eq_refl).
  apply H. reflexivity.
Qed.
Print Assumptions C67_query_size_refuted.

(** ** Examples *)
Example att_example : att_head 1 1 1 [0] [[3]; [5]] [[2]; [4]] None = [3].
Proof.
  unfold att_head, att_weights. rewrite jax_softmax_eq. unfold att_logits, softmax, matmul, dot, column, Rsum.
  cbn [map combine fst snd fold_right seq nth]. replace ((0 * 3 + 0) / sqrt (INR 1)) with 0 by (unfold Rdiv; ring).
  replace ((0 * 5 + 0) / sqrt (INR 1)) with 0 by (unfold Rdiv; ring). rewrite exp_0. f_equal. field.
Qed.
Example mha_example : mha 1 1 1 1 1 1 (Lin [[0]] [0]) (Lin [[1]] [0]) (Lin [[1]] [0]) (Lin [[2]] [1]) [[7]; [9]] [[3]; [5]] [[2]; [4]] (fun _ _ => None)
  = Some [[7]; [7]].
Proof.
  unfold mha. cbn [Nat.eqb length andb map combine seq fst snd flat_map app]. 
  assert (Q : forall x, project 1 1 (Lin [[0]] [0]) [x] 0 = [0]) by (intros; unfold project, affine, matmul, chunk, dot, column, Rsum, zipw; cbn; f_equal; ring).
  assert (K : forall x, project 1 1 (Lin [[1]] [0]) [x] 0 = [x]) by (intros; unfold project, affine, matmul, chunk, dot, column, Rsum, zipw; cbn; f_equal; ring).
  rewrite !Q, !K, att_example. do 2 f_equal; unfold affine, matmul, dot, column, Rsum, zipw; cbn; [|f_equal]; f_equal; ring.
Qed.
Example masked_example : nth 0 (att_weights 1 10 [0] [[3]; [5]] (Some [0; 1])) 0 <= exp (-10).
Proof.
  replace (-10) with (2 * 0 - 10) by ring. apply C67_masked; try reflexivity; [cbn; lia | right; now left |].
  apply Forall_cons; [|apply Forall_cons; [|constructor]]; unfold dot, Rsum; cbn [combine map fold_right fst snd];
    match goal with |- Rabs ?x <= _ => replace x with 0 by (unfold Rdiv; ring) end; rewrite Rabs_R0; lra.
Qed.

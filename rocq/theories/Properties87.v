(** * C104, continued: embeddings, recurrent cells and resets *)
From Coq Require Import Reals ZArith List Bool Lia Lra.
From Verif Require Import ModelNets ModelTransformer ModelTraining ModelReal ModelLayers ModelVqEma ModelGradients Properties14 Properties15 Properties22 Properties80 Properties81 Properties83.
From Verif Require Import ModelBackprop Properties86.
Import ListNotations.
Local Open Scope R_scope.

(** ** Embed *)
Definition tvar : Type := nat * nat.
Definition tvar_eqb (a b : tvar) : bool := (fst a =? fst b)%nat && (snd a =? snd b)%nat.
Definition etable (n d : nat) : list (list (expr tvar)) := map (fun r => map (fun c => Var (r, c)) (seq 0 d)) (seq 0 n).
(** The gradient with respect to the outputs for the ids is [ct]. *)
Definition embed_loss (st : style) (n d : nat) (ids : list Z) (ct : nat -> nat -> R) : expr tvar :=
  esum (zip2 (fun k id => esum (zip2 (fun c y => Mul (Const c) y) (map (ct k) (seq 0 d)) (match eembed st d (etable n d) id with Some row => row | None => [] end))) (seq 0 (length ids)) ids).
(** The row that an id takes: negative ids count from the end, and what is outside takes the nearest row ... *)
Definition wrapped_row (n : nat) (id : Z) : Z := Z.min (Z.max (if (id <? 0)%Z then (id + Z.of_nat n)%Z else id) 0) (Z.of_nat n - 1).

Lemma sum_rows_entries (g : nat -> nat -> expr tvar) d rows : forall acc : nat -> expr tvar,
  fold_left (fun acc r => map (fun p => Add (fst p) (snd p)) (combine acc r)) (map (fun r => map (g r) (seq 0 d)) rows) (map acc (seq 0 d)) =
  map (fun c => fold_left (fun a r => Add a (g r c)) rows (acc c)) (seq 0 d).
Proof.
  induction rows as [|r rows IH]; intros acc; [reflexivity|]. cbn [map fold_left].
  change (map (fun p => Add (fst p) (snd p)) (combine (map acc (seq 0 d)) (map (g r) (seq 0 d)))) with (zip2 Add (map acc (seq 0 d)) (map (g r) (seq 0 d))). rewrite zip2_seq. apply IH.
Qed.
Lemma jvp_fold env dir (f : nat -> expr tvar) l : forall a, jvp env dir (fold_left (fun a r => Add a (f r)) l a) = jvp env dir a + Rsum (map (fun r => jvp env dir (f r)) l).
Proof. induction l as [|r l IH]; intros a; cbn [fold_left map]; [rewrite Rsum_nil; ring|]. rewrite IH, Rsum_cons. cbn [jvp]. ring. Qed.
Lemma good_fold env (f : nat -> expr tvar) l : (forall r, good env (f r)) -> forall a, good env a -> good env (fold_left (fun a r => Add a (f r)) l a).
Proof. intros F. induction l as [|r l IH]; intros a A; cbn [fold_left]; [exact A|]. apply IH. cbn [good]. auto. Qed.
Lemma repeat_seq {A} (a : A) d : repeat a d = map (fun _ => a) (seq 0 d).
Proof. generalize 0%nat. induction d as [|d IH]; intros k; cbn [repeat seq map]; [reflexivity|]. now rewrite <- IH. Qed.
Lemma one_hot_entries n d id : eembed OneHot d (etable n d) id =
  Some (map (fun c => fold_left (fun a r => Add a (Mul (Var (r, c)) (if (Z.of_nat r =? id)%Z then Const 1 else Const 0))) (seq 0 n) (Const 0)) (seq 0 d)).
Proof.
  unfold eembed, one_hot_lookup. f_equal. unfold sum_rows. rewrite repeat_seq. rewrite <- (sum_rows_entries (fun r c => Mul (Var (r, c)) (if (Z.of_nat r =? id)%Z then Const 1 else Const 0))). f_equal.
  unfold etable at 2, one_hot. rewrite map_length, seq_length.
  change (zip2 (fun a k => map (fun x => Mul x k) a) (etable n d) (map (fun k : nat => if (Z.of_nat k =? id)%Z then Const 1 else Const 0) (seq 0 n)) = map (fun r => map (fun c => Mul (Var (r, c)) (if (Z.of_nat r =? id)%Z then Const 1 else Const 0)) (seq 0 d)) (seq 0 n)).
  unfold etable. rewrite zip2_seq. apply map_ext. intros r. now rewrite map_map.
Qed.
Lemma array_index_entries n d id : (0 < n)%nat -> eembed ArrayIndex d (etable n d) id = Some (map (fun c => Var (Z.to_nat (wrapped_row n id), c)) (seq 0 d)).
Proof.
  intros N. unfold eembed, array_index, etable at 2 3. rewrite map_length, seq_length. fold (wrapped_row n id). unfold etable. set (k := Z.to_nat (wrapped_row n id)). assert (K : (k < n)%nat).
  { unfold k, wrapped_row. destruct (id <? 0)%Z; lia. }
  apply (map_nth_error (fun r => map (fun c => @Var tvar (r, c)) (seq 0 d))). rewrite (nth_error_nth' _ 0%nat) by now rewrite seq_length. now rewrite seq_nth.
Qed.
Lemma Rsum_only (n k : nat) (f : nat -> R) : (k < n)%nat -> (forall r, (r < n)%nat -> r <> k -> f r = 0) -> Rsum (map f (seq 0 n)) = f k.
Proof.
  intros K F. rewrite <- (Rsum_pick n f k K). apply Rsum_ext. intros r I. apply in_seq in I. destruct (Nat.eqb_spec r k) as [->|N]; [reflexivity|]. apply F; lia.
Qed.
(** Each id adds its gradient to its row; [ONE_HOT] has no row for an id outside the vocabulary. *)
Theorem C104_embed n d ids ct env r c : (r < n)%nat -> (c < d)%nat ->
  gradient tvar_eqb env (embed_loss ArrayIndex n d ids ct) (r, c) = Rsum (zip2 (fun k id => if (wrapped_row n id =? Z.of_nat r)%Z then ct k c else 0) (seq 0 (length ids)) ids) /\
  gradient tvar_eqb env (embed_loss OneHot n d ids ct) (r, c) = Rsum (zip2 (fun k id => if (id =? Z.of_nat r)%Z then ct k c else 0) (seq 0 (length ids)) ids).
Proof.
  intros Hr Hc. assert (Hn : (0 < n)%nat) by lia. unfold gradient, embed_loss. split.
  - rewrite C103_reverse, Rmult_1_l, jvp_esum.
    + f_equal. rewrite zip2_map. apply zip2_ext. intros k id _. rewrite array_index_entries by exact Hn. rewrite jvp_esum, zip2_seq, map_map. cbn [jvp ev]. unfold basis, tvar_eqb. cbn [fst snd].
      rewrite (Rsum_only d c); [|exact Hc | intros c' _ N; destruct (Nat.eqb_spec c' c); [lia | rewrite Bool.andb_false_r; ring]].
      rewrite Nat.eqb_refl, Bool.andb_true_r. destruct (Z.eqb_spec (wrapped_row n id) (Z.of_nat r)) as [E|E], (Nat.eqb_spec (Z.to_nat (wrapped_row n id)) r) as [E'|E']; try ring; exfalso; unfold wrapped_row in *; lia.
    + apply good_esum. unfold zip2. apply Forall_map, Forall_forall. intros [k id] _. cbn [fst snd]. rewrite array_index_entries by exact Hn. apply good_esum.
      change (map _ (combine (map (ct k) (seq 0 d)) ?b)) with (zip2 (fun c (y : expr tvar) => Mul (Const c) y) (map (ct k) (seq 0 d)) b). rewrite zip2_seq. apply Forall_map, Forall_forall. intros c' _. cbn [good]. tauto.
  - rewrite C103_reverse, Rmult_1_l, jvp_esum.
    + f_equal. rewrite zip2_map. apply zip2_ext. intros k id _. rewrite one_hot_entries, jvp_esum, zip2_seq, map_map. cbn [jvp ev].
      rewrite (Rsum_ext _ (fun c' => ct k c' * Rsum (map (fun r' => if ((r' =? r) && (c' =? c))%nat then if (Z.of_nat r' =? id)%Z then 1 else 0 else 0) (seq 0 n)))).
      2: { intros c' _. rewrite jvp_fold. cbn [jvp]. rewrite Rmult_0_l, !Rplus_0_l. f_equal. apply Rsum_ext. intros r' _. cbn [jvp ev]. unfold basis, tvar_eqb. cbn [fst snd]. destruct (r' =? r)%nat, (c' =? c)%nat, (Z.of_nat r' =? id)%Z; cbn [andb jvp ev]; ring. }
      rewrite (Rsum_only d c); [|exact Hc|].
      * rewrite (Rsum_only n r); [|exact Hr|].
        -- rewrite !Nat.eqb_refl. cbn [andb]. rewrite (Z.eqb_sym id). destruct (Z.of_nat r =? id)%Z; ring.
        -- intros r' _ N. destruct (Nat.eqb_spec r' r); [lia | reflexivity].
      * intros c' _ N. destruct (Nat.eqb_spec c' c); [lia|]. rewrite (Rsum_ext _ (fun _ => 0)) by (intros r' _; now rewrite Bool.andb_false_r). rewrite Rsum_zero. ring.
    + apply good_esum. unfold zip2. apply Forall_map, Forall_forall. intros [k id] _. cbn [fst snd]. rewrite one_hot_entries. apply good_esum.
      change (map _ (combine (map (ct k) (seq 0 d)) ?b)) with (zip2 (fun c (y : expr tvar) => Mul (Const c) y) (map (ct k) (seq 0 d)) b). rewrite zip2_seq. apply Forall_map, Forall_forall. intros c' _. cbn [good]. split; [exact I|].
      apply good_fold; [|exact I]. intros r'. cbn [good]. split; [exact I|]. destruct (Z.of_nat r' =? id)%Z; exact I.
Qed.
Print Assumptions C104_embed.
(** Within the vocabulary both lookups have the same gradient ... *)
Theorem C104_embed_styles n d ids ct env r c : (r < n)%nat -> (c < d)%nat -> Forall (fun id => (0 <= id < Z.of_nat n)%Z) ids ->
  gradient tvar_eqb env (embed_loss ArrayIndex n d ids ct) (r, c) = gradient tvar_eqb env (embed_loss OneHot n d ids ct) (r, c).
Proof.
  intros Hr Hc F. destruct (C104_embed n d ids ct env r c Hr Hc) as [-> ->]. f_equal. apply zip2_ext. intros k id P. rewrite Forall_forall in F. specialize (F id (in_combine_r _ _ _ _ P)).
  unfold wrapped_row. destruct (Z.ltb_spec id 0); [lia|]. rewrite Z.max_l, Z.min_l by lia. reflexivity.
Qed.
Print Assumptions C104_embed_styles.
(** ... outside it they do not: an id that is too large trains the last row, or nothing. *)
Theorem C104_embed_styles_refuted : ~ (forall n d ids ct env r c, (r < n)%nat -> (c < d)%nat -> gradient tvar_eqb env (embed_loss ArrayIndex n d ids ct) (r, c) = gradient tvar_eqb env (embed_loss OneHot n d ids ct) (r, c)).
Proof.
  intros H. specialize (H 2%nat 1%nat [7%Z] (fun _ _ => 1) (fun _ => 0) 1%nat 0%nat ltac:(lia) ltac:(lia)).
  destruct (C104_embed 2 1 [7%Z] (fun _ _ => 1) (fun _ => 0) 1 0) as [E1 E2]; [lia | lia|]. rewrite E1, E2 in H. unfold zip2 in H. cbn [length seq combine map fst snd] in H.
  change (wrapped_row 2 7) with 1%Z in H. cbn [Z.eqb Z.of_nat Pos.of_succ_nat Pos.eqb] in H. rewrite !Rsum_cons, !Rsum_nil in H. lra.
Qed.
Print Assumptions C104_embed_styles_refuted.
(** A row that is used twice receives both gradients. *)
Example C104_embed_case : let ids := [2%Z; 0%Z; 2%Z; (-1)%Z; 9%Z] in
  gradient tvar_eqb (fun _ => 0) (embed_loss ArrayIndex 3 2 ids (fun k c => INR (10 * k + c))) (2%nat, 1%nat) = 1 + 21 + 31 + 41 /\
  gradient tvar_eqb (fun _ => 0) (embed_loss OneHot 3 2 ids (fun k c => INR (10 * k + c))) (2%nat, 1%nat) = 1 + 21 /\
  gradient tvar_eqb (fun _ => 0) (embed_loss OneHot 3 2 ids (fun k c => INR (10 * k + c))) (1%nat, 1%nat) = 0.
Proof.
  cbv zeta. destruct (C104_embed 3 2 [2%Z; 0%Z; 2%Z; (-1)%Z; 9%Z] (fun k c => INR (10 * k + c)) (fun _ => 0) 2 1) as [E1 E2]; [lia | lia|].
  destruct (C104_embed 3 2 [2%Z; 0%Z; 2%Z; (-1)%Z; 9%Z] (fun k c => INR (10 * k + c)) (fun _ => 0) 1 1) as [_ E3]; [lia | lia|]. rewrite E1, E2, E3. unfold zip2, wrapped_row. cbn [length seq combine map fst snd].
  cbn -[Rsum INR Nat.mul Nat.add]. rewrite !Rsum_cons, !Rsum_nil. rewrite !INR_IZR_INZ. cbn -[IZR]. repeat split; lra.
Qed.

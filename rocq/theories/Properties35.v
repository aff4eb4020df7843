(** * C79: the transformer example is causal *)
From Coq Require Import Reals ZArith List Bool Lia Lra.
From Verif Require Import ModelNets ModelReal ModelPool ModelLayers ModelTransformer Properties14 Properties15 Properties22 Properties24 Properties25.
Import ListNotations.
Local Open Scope R_scope.

(** With the exact exponential this is the attention of C67. *)
Lemma softmax_with_exp l : softmax_with exp l = jax_softmax l.
Proof. unfold softmax_with, jax_softmax, softmax. cbv zeta. rewrite !map_map. reflexivity. Qed.
Theorem C79_exact heads qs d n model big lq lk lv lo query key value mask :
  mha_with exp heads qs d n model big lq lk lv lo query key value mask = mha heads qs d n model big lq lk lv lo query key value mask.
Proof.
  unfold mha_with, mha. destruct (_ && _)%bool; [|reflexivity]. f_equal. apply map_ext. intros p. f_equal. apply flat_map_ext. intros h.
  unfold att_head, att_weights. now rewrite softmax_with_exp.
Qed.
Print Assumptions C79_exact.

(** Each row of [layer_norm] is the LayerNorm of C68 over the last axis of the whole array. *)
Lemma map_nth_seq {A} (l : list A) d : map (fun i => nth i l d) (seq 0 (length l)) = l.
Proof.
  apply (nth_ext _ _ d d); [now rewrite map_length, seq_length|]. intros i Hi. rewrite map_length, seq_length in Hi.
  rewrite (nth_map_in _ _ _ 0%nat) by now rewrite seq_length. now rewrite seq_nth.
Qed.
Lemma map_seq_nth {A B} (g : A -> B) (l : list A) d : map g l = map (fun i => g (nth i l d)) (seq 0 (length l)).
Proof. rewrite <- (map_nth_seq l d) at 1. now rewrite map_map. Qed.
Theorem C79_layer_norm eps sc off h T H t j : length h = T -> Forall (fun r => length r = H) h -> (t < T)%nat -> (j < H)%nat ->
  nth j (ln_row eps sc off (nth t h [])) 0 =
  layer_norm eps (ln_axes 2 (AxList [-1]%Z)) [T; H] (LParam sc) (LParam off) (fun i => nth (nth 1 i 0%nat) (nth (nth 0 i 0%nat) h []) 0) [t; j].
Proof.
  intros HT HH Ht Hj. assert (L : length (nth t h []) = H) by (rewrite Forall_forall in HH; apply HH, nth_In; lia).
  unfold ln_row. rewrite (nth_map_in _ _ _ 0%nat) by (rewrite seq_length; lia). rewrite seq_nth by lia. cbn [Nat.add].
  unfold layer_norm. replace (map _ (ln_cell _ _ _)) with (nth t h []). { reflexivity. }
  unfold ln_cell. rewrite <- (map_nth_seq (nth t h []) 0) at 1. rewrite L. cbn -[seq nth]. 
  change (seq 0 2) with [0; 1]%nat. cbn -[seq nth]. rewrite app_nil_r. change (nth 1 [T; H] 0%nat) with H. change (nth 0 [t; j] 0%nat) with t.
  rewrite map_map. generalize (seq 0 H) as l. induction l as [|a l IH]; [reflexivity|]. cbn [map flat_map app nth] in *. now rewrite IH.
Qed.
Print Assumptions C79_layer_norm.

(** ** The weights of masked positions *)
Definition flushes (e : R -> R) (U : R) : Prop := forall x, x <= - U -> e x = 0.
Lemma Rsum_restrict (P : nat -> bool) f l : (forall i, In i l -> P i = false -> f i = 0) -> Rsum (map f l) = Rsum (map f (filter P l)).
Proof.
  induction l as [|a l IH]; intros H; [reflexivity|]. cbn [map filter]. rewrite Rsum_cons, IH by (intros i Hi; apply H; now right).
  destruct (P a) eqn:E; [reflexivity|]. rewrite (H a (or_introl eq_refl) E). ring.
Qed.
Lemma filter_seq_bound (P : nat -> bool) k n : (forall i, P i = true -> (i < k)%nat) -> (k <= n)%nat -> filter P (seq 0 n) = filter P (seq 0 k).
Proof.
  intros HP Hk. replace n with (k + (n - k))%nat by lia. rewrite seq_app, filter_app. cbn [Nat.add]. rewrite <- app_nil_r. f_equal.
  assert (G : forall s m, (k <= s)%nat -> filter P (seq s m) = []); [|now apply G].
  intros s m. revert s. induction m as [|m IH]; intros s Hs; [reflexivity|]. cbn [seq filter]. destruct (P s) eqn:E; [apply HP in E; lia|]. apply IH. lia.
Qed.
Lemma dot_seq : forall w v, length v = length w -> dot w v = Rsum (map (fun i => nth i w 0 * nth i v 0) (seq 0 (length w))).
Proof.
  induction w as [|a w IH]; intros [|b v] H; try discriminate H; [reflexivity|]. cbn [length] in H. injection H as H.
  unfold dot in *. cbn [combine map length seq fst snd nth]. rewrite !Rsum_cons, (IH v H), <- seq_shift, map_map. reflexivity.
Qed.
Lemma softmax_with_nth e l i : (i < length l)%nat ->
  nth i (softmax_with e l) 0 = e (nth i l 0 - nth (argmax l) l 0) / Rsum (map (fun k => e (nth k l 0 - nth (argmax l) l 0)) (seq 0 (length l))).
Proof.
  intros Hi. unfold softmax_with. cbv zeta. rewrite (nth_map_in _ _ _ 0) by now rewrite map_length. rewrite (nth_map_in _ _ _ 0) by exact Hi.
  f_equal. f_equal. f_equal. apply (map_seq_nth (fun x => e (x - nth (argmax l) l 0)) l 0).
Qed.
Lemma softmax_with_length e l : length (softmax_with e l) = length l. Proof. unfold softmax_with. cbv zeta. now rewrite !map_length. Qed.
Section masked.
Variables (e : R -> R) (U : R) (P : nat -> bool) (k i0 : nat).
Hypothesis (He : flushes e U) (HU : 0 <= U) (HP : forall i, P i = true -> (i < k)%nat) (Hi0 : P i0 = true).
Definition below (l : list R) : Prop := (k <= length l)%nat /\ forall i, (i < length l)%nat -> P i = false -> nth i l 0 <= nth i0 l 0 - U.
Lemma max_unmasked l : below l -> exists b, P b = true /\ nth (argmax l) l 0 = nth b l 0 /\ forall i, (i < length l)%nat -> nth i l 0 <= nth b l 0.
Proof.
  intros [Hk Hb]. assert (Li : (i0 < length l)%nat) by (apply HP in Hi0; lia).
  destruct (argmax_spec l) as (A & M & _); [intros ->; cbn in Li; lia|]. destruct (P (argmax l)) eqn:E; [eauto|].
  pose proof (Hb _ A E). pose proof (M _ Li). exists i0. assert (nth (argmax l) l 0 = nth i0 l 0) by lra. rewrite <- H1. auto.
Qed.
Lemma masked_sum l v : below l -> length v = length l ->
  dot (softmax_with e l) v =
  Rsum (map (fun i => e (nth i l 0 - nth (argmax l) l 0) / Rsum (map (fun j => e (nth j l 0 - nth (argmax l) l 0)) (filter P (seq 0 k))) * nth i v 0) (filter P (seq 0 k))).
Proof.
  intros Hb Hv. destruct (max_unmasked l Hb) as (b & Pb & Eb & Mb). destruct Hb as [Hk Hb]. assert (Li : (i0 < length l)%nat) by (apply HP in Hi0; lia).
  assert (Z : forall i, (i < length l)%nat -> P i = false -> e (nth i l 0 - nth (argmax l) l 0) = 0).
  { intros i Hi Pi. apply He. rewrite Eb. pose proof (Hb i Hi Pi). pose proof (Mb i0 Li). lra. }
  rewrite dot_seq by now rewrite softmax_with_length. rewrite softmax_with_length.
  rewrite (Rsum_restrict P). 2:{ intros i Hi Pi. apply in_seq in Hi. rewrite softmax_with_nth by lia. rewrite (Z i) by (assumption || lia). unfold Rdiv. ring. }
  rewrite (filter_seq_bound P k) by assumption. apply Rsum_ext. intros i Hi. apply filter_In in Hi as [_ Pi]. apply HP in Pi.
  rewrite softmax_with_nth by lia. rewrite (Rsum_restrict P _ (seq 0 (length l))). 2:{ intros j Hj Pj. apply in_seq in Hj. apply Z; [lia | exact Pj]. }
  now rewrite (filter_seq_bound P k) by assumption.
Qed.
Lemma masked_same l l' v v' : below l -> below l' -> length v = length l -> length v' = length l' ->
  (forall i, P i = true -> nth i l 0 = nth i l' 0 /\ nth i v 0 = nth i v' 0) -> dot (softmax_with e l) v = dot (softmax_with e l') v'.
Proof.
  intros Hb Hb' Hv Hv' HS. rewrite !masked_sum by assumption.
  assert (M : nth (argmax l) l 0 = nth (argmax l') l' 0).
  { destruct (max_unmasked l Hb) as (b & Pb & -> & Mb). destruct (max_unmasked l' Hb') as (b' & Pb' & -> & Mb').
    destruct (HS b Pb) as [E _]. destruct (HS b' Pb') as [E' _]. destruct Hb as [Hk _], Hb' as [Hk' _]. pose proof (HP _ Pb). pose proof (HP _ Pb').
    assert (nth b l 0 <= nth b' l' 0) by (rewrite E; apply Mb'; lia). assert (nth b' l' 0 <= nth b l 0) by (rewrite <- E'; apply Mb; lia). lra. }
  rewrite <- M. assert (S : forall i, In i (filter P (seq 0 k)) -> P i = true) by (intros i Hi; now apply filter_In in Hi).
  set (m := nth (argmax l) l 0) in *. assert (D : Rsum (map (fun j => e (nth j l 0 - m)) (filter P (seq 0 k))) = Rsum (map (fun j => e (nth j l' 0 - m)) (filter P (seq 0 k)))).
  { apply Rsum_ext. intros i Hi. destruct (HS i (S i Hi)) as [E _]. now rewrite E. }
  rewrite D. apply Rsum_ext. intros i Hi. destruct (HS i (S i Hi)) as [-> ->]. reflexivity.
Qed.
End masked.

(** ** One layer *)
(** Position [s] has a token that is not padding at or before it. *)
Definition real (tokens : list Z) (s : nat) : Prop := (0 < nth s tokens 0)%Z.
Definition live (tokens : list Z) (s : nat) : Prop := exists r, (r <= s)%nat /\ real tokens r.
(** The logits of a layer are within [B], whatever its input. *)
Definition logits_within (u : setup) (B : R) (l : layer) : Prop :=
  forall x y h, length x = (u_key u * u_heads u)%nat -> length y = (u_key u * u_heads u)%nat ->
  Rabs (dot (project (u_heads u) (u_key u) (y_q l) (ln_row (u_eps u) (fst (y_ln1 l)) (snd (y_ln1 l)) x) h)
            (project (u_heads u) (u_key u) (y_k l) (ln_row (u_eps u) (fst (y_ln1 l)) (snd (y_ln1 l)) y) h) / sqrt (INR (u_key u))) <= B.
(** What one row of the attention is. *)
Definition att_row (u : setup) (l : layer) (tokens : list Z) (h : list (list R)) (s : nat) : list R :=
  let h_norm := map (ln_row (u_eps u) (fst (y_ln1 l)) (snd (y_ln1 l))) h in
  affine (u_key u * u_heads u) (l_w (y_o l)) (Some (l_b (y_o l)))
    (flat_map (fun a =>
       matmul (u_key u)
         (softmax_with (u_exp u) (att_logits (u_key u) (u_big u) (project (u_heads u) (u_key u) (y_q l) (nth s h_norm []) a)
            (map (fun k => project (u_heads u) (u_key u) (y_k l) k a) h_norm) (Some (causal_row (Some (input_mask tokens)) (length h) s))))
         (map (fun v => project (u_heads u) (u_key u) (y_v l) v a) h_norm)) (seq 0 (u_heads u))).
Definition dense_row (u : setup) (l : layer) (x : list R) : list R :=
  dense_block (u_act u) (u_wide u) (y_1 l) (y_2 l) (ln_row (u_eps u) (fst (y_ln2 l)) (snd (y_ln2 l)) x).
Definition add_row (x y : list R) (f : nat -> R) : list R := map (fun j => nth j x 0 + f j * nth j y 0) (seq 0 (length x)).
Lemma residual_nth h y f s : (s < length h)%nat -> nth s (residual h y f) [] = add_row (nth s h []) (nth s y []) (f s).
Proof. intros Hs. unfold residual. rewrite (nth_map_in _ _ _ 0%nat) by now rewrite seq_length. rewrite seq_nth by exact Hs. reflexivity. Qed.
Lemma residual_length h y f : length (residual h y f) = length h. Proof. unfold residual. now rewrite map_length, seq_length. Qed.
Lemma add_row_length x y f : length (add_row x y f) = length x. Proof. unfold add_row. now rewrite map_length, seq_length. Qed.
Lemma layer_step_rows u tokens l h : length tokens = length h ->
  if forallb (fun r => (length r =? u_key u * u_heads u)%nat) h then
    exists g, layer_step u (Some (input_mask tokens)) l h = Some g /\ length g = length h /\
      forall s, (s < length h)%nat ->
        let x := add_row (nth s h []) (att_row u l tokens h s) (y_drop1 l s) in
        nth s g [] = add_row x (dense_row u l x) (y_drop2 l s)
  else layer_step u (Some (input_mask tokens)) l h = None.
Proof.
  intros HT. unfold layer_step, mha_with. rewrite !Nat.eqb_refl. cbn [andb].
  destruct (forallb _ h); [|reflexivity]. eexists. split; [reflexivity|]. split; [now rewrite !residual_length|].
  intros s Hs. cbv zeta. rewrite residual_nth by now rewrite residual_length. rewrite residual_nth by exact Hs.
  rewrite (nth_map_in _ _ _ []) by now rewrite residual_length. rewrite residual_nth by exact Hs.
  fold (dense_row u l). 
  match goal with |- context [nth s (map ?f (combine (seq 0 ?n) ?q)) []] => assert (E : nth s (map f (combine (seq 0 n) q)) [] = att_row u l tokens h s) end.
  { rewrite (nth_combine_seq _ _ 0 s [] []) by now rewrite map_length. cbn [Nat.add fst snd]. reflexivity. }
  rewrite E. reflexivity.
Qed.
Lemma input_mask_nth tokens i : (i < length tokens)%nat -> nth i (input_mask tokens) 0 = if (0 <? nth i tokens 0)%Z then 1 else 0.
Proof. intros Hi. unfold input_mask. now rewrite (nth_map_in _ _ _ 0%Z) by exact Hi. Qed.
Lemma zipw_nth f x y i : (i < length x)%nat -> (i < length y)%nat -> nth i (zipw f x y) 0 = f (nth i x 0) (nth i y 0).
Proof. intros Hx Hy. unfold zipw. rewrite (nth_map_in _ _ _ (0, 0)) by (rewrite combine_length; lia). revert x y Hx Hy. induction i as [|i IH]; intros [|a x] [|b y] Hx Hy; cbn in Hx, Hy |- *; try lia; [reflexivity|]. apply IH; lia. Qed.
(** The dense block widens and comes back to the width of its input, without help from the sizes of the parameters. *)
Theorem C79_dense_width act widening l1 l2 x : (length x <= length (l_b l2))%nat -> length (dense_block act widening l1 l2 x) = length x /\
  forall j, (j < length x)%nat -> nth j (dense_block act widening l1 l2 x) 0 =
    dot (map act (affine (widening * length x) (l_w l1) (Some (l_b l1)) x)) (map (fun r => nth j r 0) (l_w l2)) + nth j (l_b l2) 0.
Proof.
  intros H. unfold dense_block. set (y := map act _). unfold affine. assert (L : length (zipw Rplus (matmul (length x) y (l_w l2)) (l_b l2)) = length x).
  { unfold zipw. rewrite map_length, combine_length. unfold matmul. rewrite map_length, seq_length. lia. }
  split; [exact L|]. intros j Hj. rewrite zipw_nth by (unfold matmul; rewrite ?map_length, ?seq_length; lia).
  f_equal. unfold matmul. rewrite (nth_map_in _ _ _ 0%nat) by now rewrite seq_length. now rewrite seq_nth.
Qed.
Print Assumptions C79_dense_width.
Lemma combine_nth' {A B} : forall (x : list A) (y : list B) i a b, (i < length x)%nat -> (i < length y)%nat -> nth i (combine x y) (a, b) = (nth i x a, nth i y b).
Proof. induction x as [|c x IH]; intros [|d y] [|i] a b Hx Hy; cbn in *; try lia; [reflexivity|]. apply IH; lia. Qed.
Definition seen (tokens : list Z) (s i : nat) : bool := ((i <=? s)%nat && (0 <? nth i tokens 0)%Z)%bool.
Lemma causal_row_nth tokens s i : (i < length tokens)%nat -> nth i (causal_row (Some (input_mask tokens)) (length tokens) s) 0 = if seen tokens s i then 1 else 0.
Proof.
  intros Hi. unfold causal_row, tril_row, seen. rewrite zipw_nth; [|unfold input_mask; now rewrite map_length | now rewrite map_length, seq_length].
  rewrite input_mask_nth by exact Hi. rewrite (nth_map_in _ _ _ 0%nat) by now rewrite seq_length. rewrite seq_nth by exact Hi. cbn [Nat.add].
  destruct (i <=? s)%nat, (0 <? nth i tokens 0)%Z; cbn [andb]; ring.
Qed.
Lemma causal_row_length tokens s : length (causal_row (Some (input_mask tokens)) (length tokens) s) = length tokens.
Proof. unfold causal_row, tril_row, zipw, input_mask. rewrite map_length, combine_length, !map_length, seq_length. lia. Qed.
Lemma att_logits_nth d big q ks m i : (i < length ks)%nat -> length m = length ks ->
  nth i (att_logits d big q ks (Some m)) 0 = dot q (nth i ks []) / sqrt (INR d) - big * (1 - nth i m 0).
Proof.
  intros Hi Hm. unfold att_logits. rewrite (nth_map_in _ _ _ (0, 0)) by (rewrite combine_length, map_length; lia).
  rewrite combine_nth' by (rewrite ?map_length; lia). cbn [fst snd]. now rewrite (nth_map_in _ _ _ []) by exact Hi.
Qed.
Lemma Rabs_def2_le x B : Rabs x <= B -> - B <= x <= B.
Proof. intros H. pose proof (Rle_abs x). pose proof (Rle_abs (- x)). rewrite Rabs_Ropp in *. lra. Qed.
Lemma att_row_agree u B U l tokens tokens' h h' t s : flushes (u_exp u) U -> 0 <= U -> U + 2 * B <= u_big u -> logits_within u B l ->
  length h = length tokens -> length h' = length tokens' -> (t < length tokens)%nat -> (t < length tokens')%nat ->
  Forall (fun r => length r = (u_key u * u_heads u)%nat) h -> Forall (fun r => length r = (u_key u * u_heads u)%nat) h' ->
  (forall s, (s <= t)%nat -> nth s tokens 0%Z = nth s tokens' 0%Z) ->
  (forall s, (s <= t)%nat -> live tokens s -> nth s h [] = nth s h' []) ->
  (s <= t)%nat -> live tokens s -> att_row u l tokens h s = att_row u l tokens' h' s.
Proof.
  intros He HU HB HW Lh Lh' Ht Ht' Fh Fh' HT HA Hs (r & Hr & Rr).
  unfold att_row. cbv zeta. f_equal. apply flat_map_ext. intros a. unfold matmul. apply map_ext. intros j.
  set (N := ln_row (u_eps u) (fst (y_ln1 l)) (snd (y_ln1 l))).
  assert (Len : forall (g : list (list R)) i, Forall (fun r => length r = (u_key u * u_heads u)%nat) g -> (i < length g)%nat -> length (nth i g []) = (u_key u * u_heads u)%nat).
  { intros g i F Hi. rewrite Forall_forall in F. now apply F, nth_In. }
  assert (E : forall i, (i <= t)%nat -> live tokens i -> nth i (map N h) [] = nth i (map N h') []).
  { intros i Hi Li. rewrite !(nth_map_in _ _ _ []) by lia. now rewrite (HA i Hi Li). }
  assert (Q : forall i, seen tokens s i = true <-> seen tokens' s i = true).
  { intros i. unfold seen. rewrite !andb_true_iff, !Nat.leb_le. split; intros [A C]; (split; [exact A|]); [rewrite <- HT | rewrite HT]; auto; lia. }
  assert (Q' : forall i, seen tokens s i = seen tokens' s i) by (intros i; specialize (Q i); destruct (seen tokens s i), (seen tokens' s i); try reflexivity; exfalso; intuition discriminate).
  assert (Sr : seen tokens s r = true) by (unfold seen; apply andb_true_iff; split; [now apply Nat.leb_le | now apply Z.ltb_lt]).
  assert (G : forall (tk : list Z) (g : list (list R)) (q : list R), length g = length tk -> (t < length tk)%nat -> Forall (fun r => length r = (u_key u * u_heads u)%nat) g ->
    (forall i, seen tk s i = seen tokens s i) -> (exists x, length x = (u_key u * u_heads u)%nat /\ q = N x) ->
    below U (seen tokens s) (S s) r (att_logits (u_key u) (u_big u) (project (u_heads u) (u_key u) (y_q l) q a)
            (map (fun k => project (u_heads u) (u_key u) (y_k l) k a) (map N g)) (Some (causal_row (Some (input_mask tk)) (length g) s)))).
  { intros tk g q Lg Htk Fg Sg (x & Lx & ->). assert (LK : length (map (fun k => project (u_heads u) (u_key u) (y_k l) k a) (map N g)) = length g) by now rewrite !map_length.
    assert (LC : length (causal_row (Some (input_mask tk)) (length g) s) = length g) by (rewrite Lg; apply causal_row_length).
    split. { rewrite att_logits_length by (unfold mask_fits; congruence). lia. }
    intros i Hi Si. rewrite att_logits_length in Hi by (unfold mask_fits; congruence). rewrite LK in Hi.
    rewrite !att_logits_nth by (rewrite ?LK; congruence || lia). rewrite Lg, !causal_row_nth by lia. rewrite !Sg, Si, Sr.
    rewrite !(nth_map_in (fun k => project (u_heads u) (u_key u) (y_k l) k a) _ _ []) by (rewrite map_length; lia). rewrite !(nth_map_in N _ _ []) by lia.
    pose proof (HW x (nth i g []) a Lx (Len g i Fg Hi)) as B1. pose proof (HW x (nth r g []) a Lx (Len g r Fg ltac:(lia))) as B2. fold N in B1, B2.
    apply Rabs_def2_le in B1. apply Rabs_def2_le in B2. lra. }
  assert (QS : nth s (map N h) [] = nth s (map N h') []) by (apply E; [exact Hs | now exists r]).
  rewrite QS. 
  apply (masked_same (u_exp u) U (seen tokens s) (S s) r); try assumption.
  - intros i Si. unfold seen in Si. apply andb_true_iff in Si as [Si _]. apply Nat.leb_le in Si. lia.
  - apply G; try assumption. { reflexivity. } exists (nth s h' []). split; [apply Len; [exact Fh'|lia]|]. now rewrite (nth_map_in N _ _ []) by lia.
  - apply G; try assumption. { intros i. now rewrite Q'. } exists (nth s h' []). split; [apply Len; [exact Fh'|lia]|]. now rewrite (nth_map_in N _ _ []) by lia.
  - rewrite att_logits_length by (unfold mask_fits; rewrite Lh, causal_row_length, !map_length; congruence). unfold column. now rewrite !map_length.
  - rewrite att_logits_length by (unfold mask_fits; rewrite Lh', causal_row_length, !map_length; congruence). unfold column. now rewrite !map_length.
  - intros i Si. assert (Hi : (i <= s)%nat) by (unfold seen in Si; apply andb_true_iff in Si as [Si _]; now apply Nat.leb_le in Si).
    assert (Li : live tokens i) by (exists i; split; [lia|]; unfold seen in Si; apply andb_true_iff in Si as [_ Si]; now apply Z.ltb_lt in Si).
    pose proof (E i ltac:(lia) Li) as Ei. split.
    + rewrite !att_logits_nth by (rewrite ?map_length, ?Lh, ?Lh', ?causal_row_length; congruence || lia).
      rewrite Lh, Lh', !causal_row_nth by lia. rewrite <- Q'.
      rewrite !(nth_map_in (fun k => project (u_heads u) (u_key u) (y_k l) k a) _ _ []) by (rewrite map_length; lia). now rewrite Ei.
    + unfold column. rewrite !(nth_map_in (fun r => nth j r 0) _ _ []) by (rewrite !map_length; lia).
      rewrite !(nth_map_in (fun v => project (u_heads u) (u_key u) (y_v l) v a) _ _ []) by (rewrite map_length; lia). now rewrite Ei.
Qed.
Lemma forallb_width w (h : list (list R)) : forallb (fun r => (length r =? w)%nat) h = true <-> Forall (fun r => length r = w) h.
Proof. rewrite forallb_forall, Forall_forall. split; intros H x Hx; specialize (H x Hx); now apply Nat.eqb_eq. Qed.
Lemma layers_agree u B U tokens tokens' t : flushes (u_exp u) U -> 0 <= U -> U + 2 * B <= u_big u ->
  (t < length tokens)%nat -> (t < length tokens')%nat -> (forall s, (s <= t)%nat -> nth s tokens 0%Z = nth s tokens' 0%Z) ->
  forall ls h h' g g', Forall (logits_within u B) ls -> length h = length tokens -> length h' = length tokens' ->
  (forall s, (s <= t)%nat -> live tokens s -> nth s h [] = nth s h' []) ->
  layers u (Some (input_mask tokens)) ls h = Some g -> layers u (Some (input_mask tokens')) ls h' = Some g' ->
  length g = length tokens /\ length g' = length tokens' /\ (forall s, (s <= t)%nat -> live tokens s -> nth s g [] = nth s g' []).
Proof.
  intros He HU HB Ht Ht' HT. induction ls as [|l ls IH]; intros h h' g g' HW Lh Lh' HA R R'.
  - injection R as <-. injection R' as <-. auto.
  - apply Forall_cons_iff in HW as [HWl HW]. cbn [layers] in R, R'.
    pose proof (layer_step_rows u tokens l h (eq_sym Lh)) as S. pose proof (layer_step_rows u tokens' l h' (eq_sym Lh')) as S'.
    destruct (forallb _ h) eqn:F; [|rewrite S in R; discriminate R]. destruct (forallb _ h') eqn:F'; [|rewrite S' in R'; discriminate R'].
    destruct S as (k & E & Lk & Nk). destruct S' as (k' & E' & Lk' & Nk'). rewrite E in R. rewrite E' in R'.
    apply forallb_width in F. apply forallb_width in F'.
    apply (IH k k' g g' HW); try congruence. intros s Hs Ls. rewrite Nk, Nk' by lia. cbv zeta.
    rewrite (att_row_agree u B U l tokens tokens' h h' t s) by assumption. now rewrite (HA s Hs Ls).
Qed.

(** ** Causality *)
Lemma firstn_nth {A} : forall t (l l' : list A) d, firstn (S t) l = firstn (S t) l' -> forall s, (s <= t)%nat -> nth s l d = nth s l' d.
Proof.
  induction t as [|t IH]; intros [|a l] [|b l'] d H s Hs; try discriminate H; try (replace s with 0%nat by lia); try reflexivity.
  - now injection H as ->.
  - injection H as -> H. destruct s as [|s]; [reflexivity|]. cbn [nth]. apply IH; [exact H | lia].
Qed.
Lemma embeddings_spec m tokens : embeddings m tokens =
  if (length (m_pos m) =? length tokens)%nat then
    Some (map (fun s => match array_index (m_emb m) (nth s tokens 0%Z) with Some r => zipw Rplus r (nth s (m_pos m) []) | None => [] end) (seq 0 (length tokens)))
  else None.
Proof.
  unfold embeddings. destruct (Nat.eqb_spec (length (m_pos m)) (length tokens)) as [E|]; [|reflexivity]. f_equal.
  rewrite (map_seq_nth _ (combine tokens (m_pos m)) (0%Z, [])). rewrite combine_length, E, Nat.min_id. apply map_ext_in. intros s Hs. apply in_seq in Hs.
  rewrite combine_nth' by lia. reflexivity.
Qed.
(** The output at position [t] depends only on the tokens up to [t], also between sequences of different lengths, if one of these tokens
    is not padding and the logits of the layers are not too large. *)
Theorem C79_causal u vocab emb pos pos' ls lnf lo tokens tokens' out out' t B U :
  flushes (u_exp u) U -> 0 <= U -> U + 2 * B <= u_big u -> Forall (logits_within u B) ls ->
  forward u vocab (Model emb pos ls lnf lo) tokens = Some out -> forward u vocab (Model emb pos' ls lnf lo) tokens' = Some out' ->
  (t < length tokens)%nat -> (t < length tokens')%nat -> firstn (S t) tokens = firstn (S t) tokens' -> firstn (S t) pos = firstn (S t) pos' ->
  (exists s, (s <= t)%nat /\ (0 < nth s tokens 0)%Z) ->
  nth t out [] = nth t out' [].
Proof.
  intros He HU HB HW R R' Ht Ht' HT HP Hl. unfold forward, transformer in R, R'. rewrite embeddings_spec in R, R'. cbn [m_emb m_pos m_layers m_lnf m_out] in R, R'.
  destruct (_ =? _)%nat in R; [|discriminate R]. destruct (_ =? _)%nat in R'; [|discriminate R'].
  set (h := map _ (seq 0 (length tokens))) in R. set (h' := map _ (seq 0 (length tokens'))) in R'.
  destruct (layers u _ ls h) as [g|] eqn:G; [|discriminate R]. destruct (layers u _ ls h') as [g'|] eqn:G'; [|discriminate R'].
  injection R as <-. injection R' as <-.
  pose proof (firstn_nth t tokens tokens' 0%Z HT) as NT. pose proof (firstn_nth t pos pos' [] HP) as NP.
  destruct (layers_agree u B U tokens tokens' t He HU HB Ht Ht' NT ls h h' g g' HW) as (L & L' & A); try assumption.
  - unfold h. now rewrite map_length, seq_length.
  - unfold h'. now rewrite map_length, seq_length.
  - intros s Hs _. unfold h, h'. rewrite !(nth_map_in _ (seq _ _) _ 0%nat) by (rewrite seq_length; lia). rewrite !seq_nth by lia. cbn [Nat.add]. now rewrite (NT s Hs), (NP s Hs).
  - rewrite !(nth_map_in (affine _ _ _) _ _ []) by (rewrite map_length; lia). rewrite !(nth_map_in (ln_row _ _ _) _ _ []) by lia.
    now rewrite (A t (le_n t) Hl).
Qed.
Print Assumptions C79_causal.

(** ** The bound on the logits follows from the size of the parameters *)
Definition within (M : R) (l : list R) : Prop := Forall (fun x => Rabs x <= M) l.
Lemma ln_row_length eps sc off x : length (ln_row eps sc off x) = length x. Proof. unfold ln_row. now rewrite map_length, seq_length. Qed.
Lemma nth_within M l j : 0 <= M -> within M l -> Rabs (nth j l 0) <= M.
Proof. intros HM H. destruct (Nat.lt_ge_cases j (length l)) as [Hj|Hj]; [unfold within in H; rewrite Forall_forall in H; now apply H, nth_In|]. rewrite nth_overflow by exact Hj. now rewrite Rabs_R0. Qed.
Lemma deviation x j : (j < length x)%nat -> square (nth j x 0 - mean x) <= INR (length x) * variance x.
Proof.
  intros Hj. assert (N : 0 < INR (length x)) by (apply lt_0_INR; lia).
  replace (INR (length x) * variance x) with (Rsum (map (fun y => square (y - mean x)) x)).
  - apply sq_le_sum; [apply in_map_iff; exists (nth j x 0); split; [reflexivity | now apply nth_In]|]. apply Forall_forall. intros z Hz. apply in_map_iff in Hz as (y & <- & _). apply Rle_0_sqr.
  - unfold variance, mean at 2. rewrite map_length. field. lra.
Qed.
Lemma ln_row_within eps sc off x S O : 0 < eps -> 0 <= S -> 0 <= O -> within S sc -> within O off -> within (S * sqrt (INR (length x)) + O) (ln_row eps sc off x).
Proof.
  intros He HS HO Hs Ho. unfold within, ln_row. apply Forall_forall. intros y Hy. apply in_map_iff in Hy as (j & <- & Hj). apply in_seq in Hj.
  pose proof (nth_within S sc j HS Hs) as B1. pose proof (nth_within O off j HO Ho) as B2.
  pose proof (deviation x j ltac:(lia)) as D. pose proof (variance_nonneg x) as V. assert (N : 0 <= INR (length x)) by apply pos_INR.
  set (v := variance x) in *. set (n := INR (length x)) in *. set (d := nth j x 0 - mean x) in *.
  assert (Q : Rabs (/ sqrt (v + eps) * d) <= sqrt n).
  { assert (P : 0 < sqrt (v + eps)) by (apply sqrt_lt_R0; lra). rewrite <- (sqrt_Rsqr_abs (/ sqrt (v + eps) * d)). apply sqrt_le_1_alt. unfold Rsqr.
    replace (/ sqrt (v + eps) * d * (/ sqrt (v + eps) * d)) with (square d / (sqrt (v + eps) * sqrt (v + eps))) by (unfold square; field; lra).
    rewrite sqrt_sqrt by lra. apply (Rmult_le_reg_r (v + eps)); [lra|]. unfold Rdiv. rewrite Rmult_assoc, Rinv_l by lra. nra. }
  eapply Rle_trans; [apply Rabs_triang|]. rewrite Rmult_assoc, Rabs_mult. pose proof (Rabs_pos (nth j sc 0)). pose proof (Rabs_pos (/ sqrt (v + eps) * d)). nra.
Qed.
Lemma dot_within : forall n x y M K, (length x <= n)%nat -> 0 <= M -> 0 <= K -> within M x -> within K y -> Rabs (dot x y) <= INR n * (M * K).
Proof.
  induction n as [|n IH]; intros x y M K Hn HM HK Hx Hy.
  - destruct x; [|cbn in Hn; lia]. unfold dot. cbn. rewrite Rabs_R0. nra.
  - assert (Z : 0 <= INR (S n) * (M * K)) by (apply Rmult_le_pos; [apply pos_INR | now apply Rmult_le_pos]).
    destruct x as [|a x]; [unfold dot; cbn; now rewrite Rabs_R0|]. destruct y as [|b y]; [unfold dot; cbn; now rewrite Rabs_R0|].
    apply Forall_cons_iff in Hx as [Ha Hx]. apply Forall_cons_iff in Hy as [Hb Hy]. cbn in Hn.
    replace (dot (a :: x) (b :: y)) with (a * b + dot x y) by reflexivity. eapply Rle_trans; [apply Rabs_triang|]. rewrite S_INR, Rabs_mult.
    pose proof (IH x y M K ltac:(lia) HM HK Hx Hy). pose proof (Rabs_pos a). pose proof (Rabs_pos b). nra.
Qed.
Lemma within_firstn M n : forall l, within M l -> within M (firstn n l).
Proof. induction n as [|n IH]; intros [|a l] H; try constructor; apply Forall_cons_iff in H as [A H]; [exact A | now apply IH]. Qed.
Lemma within_skipn M n : forall l, within M l -> within M (skipn n l).
Proof. induction n as [|n IH]; intros [|a l] H; try assumption; try constructor. apply Forall_cons_iff in H as [A H]. now apply IH. Qed.
(** A linear layer with weights within [W] and bias within [b]. *)
Definition lin_within (W b : R) (l : linear) : Prop := Forall (within W) (l_w l) /\ within b (l_b l).
Lemma project_within heads d l x h W b M n : 0 <= W -> 0 <= b -> 0 <= M -> lin_within W b l -> within M x -> (length x <= n)%nat ->
  within (INR n * (M * W) + b) (project heads d l x h).
Proof.
  intros HW Hb HM [Hw Hl] Hx Hn. unfold project, chunk. apply within_firstn, within_skipn. unfold affine, zipw. unfold within. apply Forall_forall. intros y Hy.
  apply in_map_iff in Hy as ((p & q) & <- & Hp). cbn [fst snd]. pose proof (in_combine_l _ _ _ _ Hp) as P. pose proof (in_combine_r _ _ _ _ Hp) as Q.
  unfold matmul in P. apply in_map_iff in P as (j & <- & _). unfold within in Hl. rewrite Forall_forall in Hl. specialize (Hl q Q).
  eapply Rle_trans; [apply Rabs_triang|]. apply Rplus_le_compat; [|exact Hl]. apply dot_within; try assumption.
  unfold within, column. apply Forall_forall. intros z Hz. apply in_map_iff in Hz as (r & <- & Hr). rewrite Forall_forall in Hw. apply nth_within; auto.
Qed.
Theorem C79_logits u l S O W b : 0 < u_eps u -> 0 <= S -> 0 <= O -> 0 <= W -> 0 <= b ->
  within S (fst (y_ln1 l)) -> within O (snd (y_ln1 l)) -> lin_within W b (y_q l) -> lin_within W b (y_k l) ->
  let n := INR (u_key u * u_heads u) in
  logits_within u (sqrt (INR (u_key u)) * square (n * ((S * sqrt n + O) * W) + b)) l.
Proof.
  intros He HS HO HW Hb Hs Ho Hq Hk n x y h Lx Ly. set (M := S * sqrt n + O). assert (HM : 0 <= M) by (pose proof (sqrt_pos n); unfold M; nra).
  assert (Nn : 0 <= n) by apply pos_INR. set (P := n * (M * W) + b). assert (HP : 0 <= P) by (unfold P; pose proof (Rmult_le_pos _ _ HM HW); nra).
  set (qx := project _ _ (y_q l) _ h). set (ky := project _ _ (y_k l) _ h).
  assert (Q : within P qx). { unfold P, n, qx. apply project_within; try assumption; [unfold M, n; rewrite <- Lx; now apply ln_row_within | now rewrite ln_row_length, Lx]. }
  assert (K : within P ky). { unfold P, n, ky. apply project_within; try assumption; [unfold M, n; rewrite <- Ly; now apply ln_row_within | now rewrite ln_row_length, Ly]. }
  assert (D : Rabs (dot qx ky) <= INR (u_key u) * (P * P)) by (apply dot_within; try assumption; unfold qx, project, chunk; rewrite firstn_length; lia).
  destruct (Nat.eq_dec (u_key u) 0) as [Z|Z].
  - rewrite Z in *. cbn [INR] in *. rewrite sqrt_0 in *. replace (dot qx ky) with 0. + unfold Rdiv. rewrite !Rmult_0_l, Rabs_R0. lra.
    + rewrite Rmult_0_l in D. pose proof (Rabs_pos (dot qx ky)). symmetry. destruct (Req_dec (dot qx ky) 0) as [|N]; [assumption|]. apply Rabs_pos_lt in N. lra.
  - assert (KP : 0 < INR (u_key u)) by (apply lt_0_INR; lia). pose proof (sqrt_lt_R0 _ KP) as SP. unfold Rdiv. rewrite Rabs_mult, (Rabs_pos_eq (/ _)) by (left; now apply Rinv_0_lt_compat).
    apply (Rmult_le_reg_r (sqrt (INR (u_key u)))); [exact SP|]. rewrite Rmult_assoc, Rinv_l by lra. rewrite Rmult_1_r. unfold square.
    replace (sqrt (INR (u_key u)) * (P * P) * sqrt (INR (u_key u))) with (sqrt (INR (u_key u)) * sqrt (INR (u_key u)) * (P * P)) by ring. rewrite sqrt_sqrt by lra. exact D.
Qed.
Print Assumptions C79_logits.

(** ** Which sizes are accepted *)
Lemma array_index_some {A} (table : list (list A)) id H : table <> [] -> Forall (fun r => length r = H) table -> exists r, array_index table id = Some r /\ length r = H.
Proof.
  intros Hne HF. unfold array_index. set (k := Z.to_nat _). assert (Hk : (k < length table)%nat).
  { unfold k. assert (0 < Z.of_nat (length table))%Z by (destruct table; [congruence | cbn; lia]). destruct (id <? 0)%Z; lia. }
  destruct (nth_error table k) as [r|] eqn:E; [|apply nth_error_None in E; lia]. exists r. split; [reflexivity|]. rewrite Forall_forall in HF. eapply HF, nth_error_In, E.
Qed.
Lemma layers_width u tokens : forall ls h, length h = length tokens -> Forall (fun r => length r = (u_key u * u_heads u)%nat) h ->
  exists g, layers u (Some (input_mask tokens)) ls h = Some g.
Proof.
  induction ls as [|l ls IH]; intros h Lh Fh; [now exists h|]. cbn [layers]. pose proof (layer_step_rows u tokens l h (eq_sym Lh)) as S.
  rewrite (proj2 (forallb_width _ h) Fh) in S. destruct S as (g & -> & Lg & Ng). apply IH; [congruence|].
  apply Forall_forall. intros r Hr. apply (In_nth _ _ []) in Hr as (s & Hs & <-). rewrite Ng by lia. cbv zeta. rewrite !add_row_length.
  rewrite Forall_forall in Fh. apply Fh, nth_In. lia.
Qed.
Lemma embeddings_rows emb pos ls lnf lo tokens H : emb <> [] -> Forall (fun r => length r = H) emb -> Forall (fun r => length r = H) pos -> length pos = length tokens ->
  exists h, embeddings (Model emb pos ls lnf lo) tokens = Some h /\ length h = length tokens /\ Forall (fun r => length r = H) h.
Proof.
  intros Hne He Hp HL. rewrite embeddings_spec. cbn [m_pos m_emb]. rewrite HL, Nat.eqb_refl. eexists. split; [reflexivity|]. split; [now rewrite map_length, seq_length|].
  apply Forall_forall. intros r Hr. apply in_map_iff in Hr as (s & <- & Hs). apply in_seq in Hs.
  destruct (array_index_some emb (nth s tokens 0%Z) H Hne He) as (r & -> & Lr). unfold zipw. rewrite map_length, combine_length, Lr.
  rewrite Forall_forall in Hp. rewrite (Hp (nth s pos [])) by (apply nth_In; lia). lia.
Qed.
(** The width of the model is no free choice: it must be [key_size] (64) times the number of heads; and the table of positions has the
    length of the sequence. *)
Theorem C79_accepts u vocab emb pos l ls lnf lo tokens H : emb <> [] -> Forall (fun r => length r = H) emb -> Forall (fun r => length r = H) pos -> tokens <> [] ->
  forward u vocab (Model emb pos (l :: ls) lnf lo) tokens <> None <-> length pos = length tokens /\ H = (u_key u * u_heads u)%nat.
Proof.
  intros Hne He Hp Ht. unfold forward, transformer. destruct (Nat.eq_dec (length pos) (length tokens)) as [HL|HL].
  - destruct (embeddings_rows emb pos (l :: ls) lnf lo tokens H Hne He Hp HL) as (h & -> & Lh & Fh). cbn [m_layers m_lnf m_out].
    destruct (Nat.eq_dec H (u_key u * u_heads u)%nat) as [E|E].
    + subst H. destruct (layers_width u tokens (l :: ls) h Lh Fh) as (g & ->). cbn [option_map]. split; [auto | discriminate].
    + cbn [layers]. pose proof (layer_step_rows u tokens l h (eq_sym Lh)) as S.
      destruct (forallb _ h) eqn:F. { apply forallb_width in F. destruct h as [|r h]; [destruct tokens; [congruence | discriminate Lh]|]. apply Forall_cons_iff in F as [F _]. apply Forall_cons_iff in Fh as [Fh _]. congruence. }
      rewrite S. cbn [option_map]. split; [congruence | intros [_ B]; congruence].
  - rewrite embeddings_spec. cbn [m_pos]. apply Nat.eqb_neq in HL. rewrite HL. apply Nat.eqb_neq in HL. split; [congruence | intros [B _]; congruence].
Qed.
Print Assumptions C79_accepts.

(** ** The loss *)
Lemma Rsum_single (f : nat -> R) i : forall l, NoDup l -> In i l -> (forall j, In j l -> j <> i -> f j = 0) -> Rsum (map f l) = f i.
Proof.
  induction l as [|a l IH]; intros N I Z; [destruct I|]. apply NoDup_cons_iff in N as [Na N]. cbn [map]. rewrite Rsum_cons. destruct I as [->|I].
  - rewrite (Rsum_ext f (fun _ => 0)). + rewrite Rsum_const. ring. + intros j Hj. apply Z; [now right|]. intros ->. contradiction.
  - rewrite (Z a) by (try (now left); intros ->; contradiction). rewrite IH; try assumption. + ring. + intros j Hj. apply Z. now right.
Qed.
Lemma log_softmax_nth l k : (k < length l)%nat -> nth k (log_softmax l) 0 = ln (nth k (softmax l) 0).
Proof.
  intros Hk. rewrite <- (jax_softmax_eq l). unfold log_softmax, jax_softmax, softmax. cbv zeta. set (m := nth (argmax l) l 0).
  rewrite (nth_map_in _ _ _ 0) by exact Hk. rewrite (nth_map_in _ _ _ 0) by now rewrite map_length. rewrite (nth_map_in _ _ _ 0) by exact Hk. rewrite map_map.
  assert (P : 0 < Rsum (map (fun x => exp (x - m)) l)). { rewrite <- (map_map (fun x => x - m) exp). apply exp_sum_pos. destruct l; [cbn in Hk; lia | discriminate]. }
  unfold Rdiv. rewrite ln_mult by (apply exp_pos || now apply Rinv_0_lt_compat). rewrite ln_exp, ln_Rinv by exact P. reflexivity.
Qed.
Theorem C79_cross_entropy vocab logits target : length logits = vocab -> (0 <= target < Z.of_nat vocab)%Z ->
  cross_entropy vocab logits target = - ln (nth (Z.to_nat target) (softmax logits) 0) /\ 0 <= cross_entropy vocab logits target.
Proof.
  intros HL Ht. set (k := Z.to_nat target). assert (Hk : (k < vocab)%nat) by lia.
  assert (E : cross_entropy vocab logits target = - ln (nth k (softmax logits) 0)).
  { unfold cross_entropy. f_equal. rewrite <- log_softmax_nth by lia.
    change (Rsum (zipw Rmult (one_hot 0 1 vocab target) (log_softmax logits))) with (dot (one_hot 0 1 vocab target) (log_softmax logits)).
    assert (L1 : length (one_hot 0 1 vocab target) = vocab) by (unfold one_hot; now rewrite map_length, seq_length).
    assert (L2 : length (log_softmax logits) = vocab) by (unfold log_softmax; cbv zeta; now rewrite map_length).
    rewrite dot_seq by congruence. rewrite L1.
    assert (N : forall i, (i < vocab)%nat -> nth i (one_hot 0 1 vocab target) 0 = if (Z.of_nat i =? target)%Z then 1 else 0).
    { intros i Hi. unfold one_hot. rewrite (nth_map_in _ _ _ 0%nat) by now rewrite seq_length. now rewrite seq_nth. }
    rewrite (Rsum_single _ k); [|apply seq_NoDup | apply in_seq; lia |].
    - rewrite N by exact Hk. replace (Z.of_nat k =? target)%Z with true by (symmetry; apply Z.eqb_eq; lia). ring.
    - intros i Hi Hne. apply in_seq in Hi. rewrite N by lia. replace (Z.of_nat i =? target)%Z with false by (symmetry; apply Z.eqb_neq; lia). ring. }
  split; [exact E|]. rewrite E. assert (Hne : logits <> []) by (intros ->; cbn in HL; lia).
  pose proof (softmax_pos logits) as P. pose proof (softmax_sum logits Hne) as S. rewrite Forall_forall in P.
  assert (I : In (nth k (softmax logits) 0) (softmax logits)) by (apply nth_In; rewrite softmax_length; lia).
  pose proof (P _ I) as P0. pose proof (sq_le_sum (softmax logits) _ I) as Q. rewrite S in Q.
  assert (nth k (softmax logits) 0 <= 1) by (apply Q, Forall_forall; intros z Hz; left; auto).
  destruct (Req_dec (nth k (softmax logits) 0) 1) as [->|N]; [rewrite ln_1; lra|]. assert (ln (nth k (softmax logits) 0) < ln 1) by (apply ln_increasing; lra). rewrite ln_1 in *. lra.
Qed.
Print Assumptions C79_cross_entropy.
Lemma layers_length u tokens : forall ls h g, length h = length tokens -> layers u (Some (input_mask tokens)) ls h = Some g -> length g = length tokens.
Proof.
  induction ls as [|l ls IH]; intros h g Lh R; [injection R as <-; exact Lh|]. cbn [layers] in R. pose proof (layer_step_rows u tokens l h (eq_sym Lh)) as S.
  destruct (forallb _ h); [|rewrite S in R; discriminate R]. destruct S as (k & E & Lk & _). rewrite E in R. apply (IH k); congruence.
Qed.
Lemma forward_length u vocab m tokens out : forward u vocab m tokens = Some out -> length out = length tokens.
Proof.
  unfold forward, transformer. rewrite embeddings_spec. destruct (_ =? _)%nat; [|discriminate]. set (h := map _ (seq 0 (length tokens))).
  destruct (layers u _ (m_layers m) h) as [g|] eqn:G; [|discriminate]. intros R. injection R as <-. rewrite !map_length. eapply layers_length; [|exact G]. unfold h. now rewrite map_length, seq_length.
Qed.
Lemma combine_app {A B} : forall (a : list A) (c : list B) b d, length a = length c -> combine (a ++ b) (c ++ d) = combine a c ++ combine b d.
Proof. induction a as [|x a IH]; intros [|y c] b d H; try discriminate H; [reflexivity|]. cbn. now rewrite IH by (cbn in H; lia). Qed.
Lemma zipw_app f a b c d : length a = length c -> zipw f (a ++ b) (c ++ d) = zipw f a c ++ zipw f b d.
Proof. intros H. unfold zipw. now rewrite combine_app, map_app. Qed.
Lemma zipw_zero x y : Forall (fun v => v = 0) y -> Rsum (zipw Rmult x y) = 0.
Proof. intros H. revert x. induction H as [|v y -> _ IH]; intros [|a x]; try reflexivity. unfold zipw in *. cbn [combine map fst snd]. rewrite Rsum_cons, IH. ring. Qed.
Lemma mask_pads pads : Forall (fun z => (z <= 0)%Z) pads -> Forall (fun v => v = 0) (input_mask pads).
Proof. intros H. unfold input_mask. apply Forall_map. eapply Forall_impl; [|exact H]. cbn. intros z Hz. destruct (Z.ltb_spec 0 z); [lia | reflexivity]. Qed.
Lemma Rsum_zero l : Forall (fun v => v = 0) l -> Rsum l = 0.
Proof. induction 1 as [|v l -> _ IH]; [reflexivity|]. rewrite Rsum_cons, IH. ring. Qed.
(** Padding at the end of the sequence changes nothing in the loss. *)
Theorem C79_padding u vocab emb pos pos' ls lnf lo obs pads target target' out out' B U :
  flushes (u_exp u) U -> 0 <= U -> U + 2 * B <= u_big u -> Forall (logits_within u B) ls ->
  forward u vocab (Model emb pos ls lnf lo) obs = Some out -> forward u vocab (Model emb (pos ++ pos') ls lnf lo) (obs ++ pads) = Some out' ->
  length pos = length obs -> length target = length obs -> Forall (fun z => (z <= 0)%Z) pads ->
  lm_loss vocab out' (obs ++ pads) (target ++ target') = lm_loss vocab out obs target.
Proof.
  intros He HU HB HW R R' Lp Lt Hp. unfold lm_loss. pose proof (forward_length _ _ _ _ _ R) as L. pose proof (forward_length _ _ _ _ _ R') as L'. rewrite app_length in L'.
  assert (M : input_mask (obs ++ pads) = input_mask obs ++ input_mask pads) by apply map_app.
  rewrite M, Rsum_app, (Rsum_zero (input_mask pads)) by now apply mask_pads. rewrite Rplus_0_r. destruct (Req_EM_T _ _); [reflexivity|]. do 2 f_equal.
  assert (LF : length (firstn (length obs) out') = length obs) by (rewrite firstn_length; lia).
  rewrite <- (firstn_skipn (length obs) out') at 1. rewrite combine_app, map_app by congruence.
  assert (Lm : length (input_mask obs) = length obs) by apply map_length.
  rewrite zipw_app by (rewrite map_length, combine_length; lia). rewrite Rsum_app, (zipw_zero _ (input_mask pads)), Rplus_0_r by now apply mask_pads.
  change (dot (map (fun p => cross_entropy vocab (fst p) (snd p)) (combine (firstn (length obs) out') target)) (input_mask obs) =
          dot (map (fun p => cross_entropy vocab (fst p) (snd p)) (combine out target)) (input_mask obs)).
  rewrite !dot_seq by (rewrite map_length, combine_length; lia). rewrite !map_length, !combine_length, L, Lt, LF, Nat.min_id. apply Rsum_ext. intros i Hi. apply in_seq in Hi.
  rewrite input_mask_nth by lia. destruct (Z.ltb_spec 0 (nth i obs 0%Z)) as [P|P]; [|ring]. do 1 f_equal.
  rewrite !(nth_map_in _ (combine _ _) _ ([], 0%Z)) by (rewrite combine_length; lia). rewrite !combine_nth' by lia. cbn [fst snd]. f_equal.
  transitivity (nth i out' []). { rewrite <- (firstn_skipn (length obs) out') at 2. now rewrite app_nth1 by lia. }
  symmetry. eapply (C79_causal u vocab emb pos (pos ++ pos') ls lnf lo obs (obs ++ pads) out out' i B U); try eassumption; try lia.
  - rewrite app_length. lia.
  - rewrite firstn_app. replace (S i - length obs)%nat with 0%nat by lia. cbn [firstn]. now rewrite app_nil_r.
  - rewrite firstn_app. replace (S i - length pos)%nat with 0%nat by lia. cbn [firstn]. now rewrite app_nil_r.
  - now exists i.
Qed.
Print Assumptions C79_padding.

(** ** Leading padding *)
(** Without a token at or before [t] the mask of row [t] is constant, and position [t] sees the whole sequence. *)
Definition flush100 (x : R) : R := if Rle_dec x (- 100) then 0 else exp x.
Lemma flush100_flushes : flushes flush100 100. Proof. intros x Hx. unfold flush100. destruct (Rle_dec x (- 100)); [reflexivity | contradiction]. Qed.
Lemma flush100_0 : flush100 0 = 1. Proof. unfold flush100. destruct (Rle_dec 0 (- 100)); [lra | apply exp_0]. Qed.
Definition zero_lin (n : nat) : linear := Lin [] (repeat 0 n).
Definition id_lin : linear := Lin [[1; 0]; [0; 1]] [0; 0].
Definition wit_setup : setup := Setup 1 2 (1 / 100000) 10000000000 flush100 relu 4.
Definition wit_layer : layer := Layer ([1; 1], [0; 0]) (zero_lin 2) (zero_lin 2) id_lin id_lin ([1; 1], [0; 0]) (zero_lin 8) (zero_lin 2) (fun _ _ => 1) (fun _ _ => 1).
Definition wit_model : model := Model [[0; 0]; [1; -1]; [-1; 1]] [[0; 0]; [0; 0]] [wit_layer] ([1; 1], [0; 0]) id_lin.
Lemma wit_bound : logits_within wit_setup 0 wit_layer.
Proof.
  intros x y h _ _. cbn [wit_setup u_heads u_key u_eps wit_layer y_ln1 y_q y_k fst snd].
  assert (E : forall v, within 0 (project 1 2 (zero_lin 2) v h)).
  { intros v. unfold project, chunk. apply within_firstn, within_skipn. unfold affine, matmul, column, dot. cbn [zero_lin l_w l_b map seq Nat.mul Nat.add repeat].
    rewrite combine_nil. cbn. repeat constructor; rewrite Rplus_0_r, Rabs_R0; lra. }
  assert (D : Rabs (dot (project 1 2 (zero_lin 2) (ln_row (1 / 100000) [1; 1] [0; 0] x) h) (project 1 2 (zero_lin 2) (ln_row (1 / 100000) [1; 1] [0; 0] y) h)) <= INR 2 * (0 * 0)).
  { apply dot_within; try lra; try apply E. unfold project, chunk. rewrite firstn_length. lia. }
  unfold Rdiv. rewrite Rabs_mult. pose proof (Rabs_pos (dot (project 1 2 (zero_lin 2) (ln_row (1 / 100000) [1; 1] [0; 0] x) h) (project 1 2 (zero_lin 2) (ln_row (1 / 100000) [1; 1] [0; 0] y) h))) as P.
  unfold Rdiv in *. set (a := Rabs (dot _ _)) in *. assert (a = 0) by (clearbody a; nra). rewrite H. lra.
Qed.
Lemma ln_pair a : ln_row (1 / 100000) [1; 1] [0; 0] [a; - a] = [/ sqrt (a * a + 1 / 100000) * a; - (/ sqrt (a * a + 1 / 100000) * a)].
Proof.
  unfold ln_row. cbn [length seq map nth]. assert (M : mean [a; - a] = 0) by (unfold mean, Rsum; cbn [fold_right length INR]; field).
  assert (V : variance [a; - a] = a * a) by (unfold variance; rewrite M; unfold mean, Rsum, square; cbn [map fold_right length INR]; field). rewrite M, V.
  f_equal; [ring|]. f_equal. ring.
Qed.
Lemma softmax_pair c : softmax_with flush100 [c; c] = [/ 2; / 2].
Proof.
  unfold softmax_with. assert (M : nth (argmax [c; c]) [c; c] 0 = c) by (unfold argmax; cbn; destruct (Rlt_dec c c); reflexivity). rewrite M. cbv zeta. cbn [map].
  rewrite Rminus_diag_eq by reflexivity. rewrite flush100_0. unfold Rsum. cbn [fold_right]. f_equal; [field|]. f_equal. field.
Qed.
Lemma id_project x y : project 1 2 id_lin [x; y] 0 = [x; y].
Proof. unfold project, chunk, affine, zipw, matmul, column, dot, Rsum. cbn. f_equal; [ring|]. f_equal. ring. Qed.
Lemma id_affine x y : affine 2 (l_w id_lin) (Some (l_b id_lin)) [x; y] = [x; y].
Proof. unfold affine, zipw, matmul, column, dot, Rsum. cbn. f_equal; [ring|]. f_equal. ring. Qed.
Lemma zero_dense x y : dense_row wit_setup wit_layer [x; y] = [0; 0].
Proof.
  unfold dense_row, dense_block. rewrite ln_row_length. cbn [wit_setup wit_layer u_act u_wide y_1 y_2 length]. unfold affine at 1. cbn [zero_lin l_w l_b].
  set (v := map _ _). unfold matmul, column, dot. cbn [map seq]. rewrite combine_nil. cbn. f_equal; [ring|]. f_equal. ring.
Qed.
Definition kk (a : R) : R := / sqrt (a * a + 1 / 100000) * a.
Lemma wit_att a z : att_row wit_setup wit_layer [0%Z; z] [[0; 0]; [a; - a]] 0 = [kk a / 2; - (kk a / 2)].
Proof.
  unfold att_row. cbv zeta. change (fst (y_ln1 wit_layer)) with [1; 1]. change (snd (y_ln1 wit_layer)) with [0; 0]. change (u_eps wit_setup) with (1 / 100000).
  change (u_heads wit_setup) with 1%nat. change (seq 0 1) with [0%nat]. cbn [flat_map]. rewrite app_nil_r.
  set (L := att_logits _ _ _ _ _). assert (E : L = [- 10000000000; - 10000000000]).
  { assert (LL : length L = 2%nat) by reflexivity.
    assert (V : forall i, (i < 2)%nat -> nth i L 0 = - 10000000000).
    { intros i Hi. unfold L. rewrite att_logits_nth; [|rewrite !map_length; exact Hi | reflexivity].
      change (length [[0; 0]; [a; - a]]) with (length [0%Z; z]). rewrite causal_row_nth by exact Hi. replace (seen [0%Z; z] 0 i) with false by (destruct i as [|[|i]]; [reflexivity | reflexivity | lia]).
      rewrite (nth_map_in (fun k => project _ _ _ k _) _ _ []) by (rewrite map_length; exact Hi). rewrite !(nth_map_in (ln_row _ _ _) _ _ []) by (exact Hi || (cbn; lia)).
      pose proof (wit_bound (nth 0 [[0; 0]; [a; - a]] []) (nth i [[0; 0]; [a; - a]] []) 0%nat eq_refl ltac:(destruct i as [|[|i]]; [reflexivity | reflexivity | lia])) as B.
      apply Rabs_def2_le in B. cbn [wit_setup u_heads u_key u_eps u_big wit_layer y_ln1 y_q y_k fst snd] in B |- *. lra. }
    destruct L as [|x [|y [|w L']]]; try discriminate LL. pose proof (V 0%nat ltac:(lia)) as V0. pose proof (V 1%nat ltac:(lia)) as V1. cbn [nth] in V0, V1. now rewrite V0, V1. }
  rewrite E. change (u_exp wit_setup) with flush100. rewrite softmax_pair. cbn [map]. 
  replace [0; 0] with [0; - 0] at 2 by (f_equal; f_equal; ring). replace [0; 0] with [0; - 0] at 3 by (f_equal; f_equal; ring).
  rewrite !ln_pair. change (u_key wit_setup) with 2%nat. change (y_v wit_layer) with id_lin. rewrite !id_project.
  change (y_o wit_layer) with id_lin. unfold matmul. cbn [seq map]. change (2 * 1)%nat with 2%nat. rewrite id_affine. unfold dot, column, Rsum, kk. cbn [map combine fst snd nth fold_right].
  set (q0 := / sqrt (0 * 0 + _)). set (qa := / sqrt (a * a + _)). f_equal; [unfold Rdiv; ring|]. f_equal. unfold Rdiv. ring.
Qed.
Lemma wit_first a z r : array_index [[0; 0]; [1; -1]; [-1; 1]] z = Some r -> r = [a; - a] ->
  exists out, forward wit_setup 2 wit_model [0%Z; z] = Some out /\ nth 0 (nth 0 out []) 0 = kk (kk a / 2).
Proof.
  intros Hz Hr. assert (E : embeddings wit_model [0%Z; z] = Some [[0; 0]; [a; - a]]).
  { unfold embeddings, wit_model. cbn [m_pos m_emb length Nat.eqb combine map fst snd]. change (array_index [[0; 0]; [1; -1]; [-1; 1]] 0) with (Some [0; 0]). rewrite Hz, Hr.
    unfold zipw. cbn [combine map fst snd]. rewrite !Rplus_0_r. reflexivity. }
  unfold forward, transformer. rewrite E. cbn [m_layers m_lnf m_out wit_model layers].
  pose proof (layer_step_rows wit_setup [0%Z; z] wit_layer [[0; 0]; [a; - a]] eq_refl) as S. change (forallb _ _) with true in S. destruct S as (g & -> & Lg & Ng).
  specialize (Ng 0%nat ltac:(cbn; lia)). cbv zeta in Ng. rewrite wit_att in Ng.
  eexists. split; [reflexivity|]. destruct g as [|r0 g]; [discriminate Lg|]. cbn [nth] in Ng. subst r0. cbn [map nth fst snd].
  assert (X : add_row [0; 0] [kk a / 2; - (kk a / 2)] (y_drop1 wit_layer 0) = [kk a / 2; - (kk a / 2)]).
  { unfold add_row. cbn [length seq map nth wit_layer y_drop1]. f_equal; [ring|]. f_equal. ring. }
  rewrite X, zero_dense. assert (Y : add_row [kk a / 2; - (kk a / 2)] [0; 0] (y_drop2 wit_layer 0) = [kk a / 2; - (kk a / 2)]).
  { unfold add_row. cbn [length seq map nth wit_layer y_drop2]. f_equal; [ring|]. f_equal. ring. }
  rewrite Y. change (u_eps wit_setup) with (1 / 100000). rewrite ln_pair, id_affine. reflexivity.
Qed.
Lemma kk_sign a : 0 < a -> 0 < kk a /\ kk (- a) = - kk a.
Proof.
  intros Ha. assert (0 < / sqrt (a * a + 1 / 100000)) by (apply Rinv_0_lt_compat, sqrt_lt_R0; nra). unfold kk. split; [nra|].
  replace (- a * - a) with (a * a) by ring. ring.
Qed.
Theorem C79_leading_padding_refuted : ~ (forall u vocab emb pos ls lnf lo tokens tokens' out out' t B U,
  flushes (u_exp u) U -> 0 <= U -> U + 2 * B <= u_big u -> Forall (logits_within u B) ls ->
  forward u vocab (Model emb pos ls lnf lo) tokens = Some out -> forward u vocab (Model emb pos ls lnf lo) tokens' = Some out' ->
  (t < length tokens)%nat -> (t < length tokens')%nat -> firstn (S t) tokens = firstn (S t) tokens' ->
  nth t out [] = nth t out' []).
Proof.
  intros H. destruct (wit_first 1 1 [1; -1] eq_refl ltac:(f_equal; f_equal; lra)) as (out & R & V).
  destruct (wit_first (- (1)) 2 [-1; 1] eq_refl ltac:(f_equal; f_equal; lra)) as (out' & R' & V').
  pose proof (H wit_setup 2%nat (m_emb wit_model) (m_pos wit_model) (m_layers wit_model) (m_lnf wit_model) (m_out wit_model) [0; 1]%Z [0; 2]%Z out out' 0%nat 0 100 flush100_flushes) as C. cbn [wit_setup u_big] in C.
  specialize (C ltac:(lra) ltac:(lra) ltac:(constructor; [exact wit_bound | constructor]) R R' ltac:(cbn; lia) ltac:(cbn; lia) eq_refl).
  rewrite C, V' in V. destruct (kk_sign 1 ltac:(lra)) as [P E]. rewrite E in V. destruct (kk_sign (kk 1 / 2) ltac:(lra)) as [P' E'].
  replace (- kk 1 / 2) with (- (kk 1 / 2)) in V by field. rewrite E' in V. lra.
Qed.
Print Assumptions C79_leading_padding_refuted.

(** ** Examples *)
(** The bound holds for the sizes of train.py: width 256, 4 heads of 64, scales up to 2, offsets and weights up to 1. *)
Example C79_bound_case : let n := INR 256 in 100 + 2 * (sqrt (INR 64) * square (n * ((2 * sqrt n + 1) * 1) + 1)) <= 10000000000.
Proof.
  cbv zeta. replace (INR 256) with 256 by (rewrite INR_IZR_INZ; reflexivity). replace (INR 64) with 64 by (rewrite INR_IZR_INZ; reflexivity).
  replace 256 with (16 * 16) at 2 by lra. replace 64 with (8 * 8) by lra. rewrite !sqrt_square by lra. unfold square. lra.
Qed.
(** With the witness model: after a real token the future is not seen. *)
Example C79_causal_case out out' : forward wit_setup 2 wit_model [1; 1]%Z = Some out -> forward wit_setup 2 wit_model [1; 2]%Z = Some out' -> nth 0 out [] = nth 0 out' [].
Proof.
  intros R R'. refine (C79_causal wit_setup 2 (m_emb wit_model) (m_pos wit_model) (m_pos wit_model) (m_layers wit_model) (m_lnf wit_model) (m_out wit_model)
    [1; 1]%Z [1; 2]%Z out out' 0 0 100 flush100_flushes _ _ _ R R' _ _ eq_refl eq_refl _); cbn [wit_setup u_big]; try lra; try (cbn; lia).
  - constructor; [exact wit_bound | constructor].
  - exists 0%nat. cbn. lia.
Qed.
Example C79_accepts_case : forward wit_setup 2 wit_model [1; 2]%Z <> None /\ forward wit_setup 2 wit_model [1; 2; 1]%Z = None.
Proof. split; [apply (C79_accepts wit_setup 2 _ _ wit_layer [] _ _ [1; 2]%Z 2); try discriminate; try (repeat constructor); split; reflexivity | reflexivity]. Qed.
Example C79_loss_case : exists v, lm_loss 2 [[0; 0]; [5; 7]] [3; 0]%Z [1; 0]%Z = Some v /\ v = ln 2.
Proof.
  unfold lm_loss. cbn [input_mask map Z.ltb Z.compare]. unfold Rsum at 1. cbn [fold_right]. destruct (Req_EM_T (1 + (0 + 0)) 0) as [E|_]; [lra|].
  eexists. split; [reflexivity|]. cbn [combine map fst snd]. rewrite (proj1 (C79_cross_entropy 2 [0; 0] 1 eq_refl ltac:(lia))).
  unfold zipw, Rsum, softmax. cbn [combine map fst snd fold_right nth Z.to_nat Pos.to_nat Pos.iter_op Nat.add]. rewrite exp_0. unfold Rsum. cbn [fold_right].
  change (Pos.to_nat 1) with 1%nat. cbn iota.   replace (1 / (1 + (1 + 0))) with (/ 2) by field. rewrite ln_Rinv by lra. field.
Qed.


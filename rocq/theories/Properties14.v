(** * C48, C49 (moving averages) and C55 (BatchNorm), in exact arithmetic *)
From Coq Require Import Reals ZArith List Bool Lia Lra.
From Verif Require Import ModelReal.
Import ListNotations.
Local Open Scope R_scope.

(** ** Sums *)
Lemma Rsum_cons a l : Rsum (a :: l) = a + Rsum l. Proof. reflexivity. Qed.
Lemma Rsum_nil : Rsum [] = 0. Proof. reflexivity. Qed.
Lemma Rsum_app l m : Rsum (l ++ m) = Rsum l + Rsum m.
Proof. induction l as [|a l IH]; cbn [app]; rewrite ?Rsum_cons, ?Rsum_nil, ?IH; lra. Qed.
Lemma Rsum_scale c l : Rsum (map (fun x => c * x) l) = c * Rsum l.
Proof. induction l as [|a l IH]; cbn [map]; rewrite ?Rsum_cons, ?Rsum_nil, ?IH; lra. Qed.
Lemma Rsum_plus {A} (f g : A -> R) l : Rsum (map (fun x => f x + g x) l) = Rsum (map f l) + Rsum (map g l).
Proof. induction l as [|a l IH]; cbn [map]; rewrite ?Rsum_cons, ?Rsum_nil, ?IH; lra. Qed.
Lemma Rsum_const {A} c (l : list A) : Rsum (map (fun _ => c) l) = INR (length l) * c.
Proof. induction l as [|a l IH]; [cbn; lra|]. cbn [map length]. rewrite Rsum_cons, IH, S_INR. lra. Qed.
Lemma Rsum_nonneg l : Forall (fun x => 0 <= x) l -> 0 <= Rsum l.
Proof. induction 1 as [|x l H _ IH]; rewrite ?Rsum_cons, ?Rsum_nil; lra. Qed.

(** ** C48 ExponentialMovingAverage *)
(** The geometrically weighted sum of the values [v_0 .. v_{n-1}]: weight [(1-d) d^{n-1-i}] for [v_i]. *)
Definition weighted_sum (d : R) (vs : list R) : R :=
  Rsum (map (fun p => (1 - d) * d ^ (length vs - 1 - fst p) * snd p) (combine (seq 0 (length vs)) vs)).
Lemma weighted_snoc d vs v : weighted_sum d (vs ++ [v]) = weighted_sum d vs * d + v * (1 - d).
Proof.
  unfold weighted_sum. rewrite app_length. cbn [length].
  assert (C : forall vs k, combine (seq k (length vs + 1)) (vs ++ [v]) = combine (seq k (length vs)) vs ++ [((k + length vs)%nat, v)]).
  { clear. induction vs as [|a vs IH]; intros k; cbn; [f_equal; f_equal; lia|]. f_equal. rewrite IH. f_equal. f_equal. f_equal. lia. }
  rewrite C, map_app, Rsum_app. cbn [map fst snd Rsum fold_right Nat.add].
  replace (length vs + 1 - 1 - length vs)%nat with 0%nat by lia. cbn [pow].
  replace (Rsum (map (fun p : nat * R => (1 - d) * d ^ (length vs + 1 - 1 - fst p) * snd p) (combine (seq 0 (length vs)) vs)))
    with (Rsum (map (fun x => d * x) (map (fun p : nat * R => (1 - d) * d ^ (length vs - 1 - fst p) * snd p) (combine (seq 0 (length vs)) vs)))).
  - rewrite Rsum_scale. lra.
  - rewrite map_map. f_equal. apply map_ext_in. intros [i x] Hi. apply in_combine_l in Hi. apply in_seq in Hi. cbn [fst snd].
    replace (length vs + 1 - 1 - i)%nat with (S (length vs - 1 - i)) by lia. cbn [pow]. lra.
Qed.

(** The values of the calls that update the statistics. *)
Definition updates (vs : list (R * bool)) : list R := map fst (filter snd vs).
(** Without warmup: the state after any history depends on the updating calls only. *)
Definition ema_after (d : R) (deb : bool) (vs : list R) (st : ema_state) : Prop :=
  match vs with
  | [] => get_or (e_counter st) 0%Z = (0%Z, 0%Z) /\ get_or (e_hidden st) 0 = (0, 0) /\ e_average st = None
  | _ => (exists c0, e_counter st = Some (c0, Z.of_nat (length vs))) /\ (exists h0, e_hidden st = Some (h0, weighted_sum d vs)) /\
         ema_average st = Some (if deb then weighted_sum d vs / (1 - d ^ length vs) else weighted_sum d vs)
  end.
Lemma ema_after_get d deb vs st : ema_after d deb vs st ->
  snd (get_or (e_counter st) 0%Z) = Z.of_nat (length vs) /\ snd (get_or (e_hidden st) 0) = weighted_sum d vs.
Proof.
  destruct vs as [|v vs]; cbn [ema_after].
  - intros (E1 & E2 & _). rewrite E1, E2. split; [reflexivity|]. reflexivity.
  - intros ((c0 & ->) & (h0 & ->) & _). split; reflexivity.
Qed.
Lemma ema_call_value d deb vs st v u : ema_after d deb vs st ->
  snd (ema_call d deb 0 st v u) = (if deb then weighted_sum d (vs ++ [v]) / (1 - d ^ S (length vs)) else weighted_sum d (vs ++ [v])).
Proof.
  intros H. destruct (ema_after_get d deb vs st H) as [Hc Hh].
  assert (V : forall b, snd (ema_call d deb 0 st v b) = (let hidden := snd (get_or (e_hidden st) 0) * d + v * (1 - d) in
     if deb then hidden / (1 - d ^ Z.to_nat (snd (get_or (e_counter st) 0%Z) + 1)) else hidden)) by (intros []; reflexivity).
  rewrite V, Hc, Hh, weighted_snoc. replace (Z.to_nat (Z.of_nat (length vs) + 1)) with (S (length vs)) by lia. reflexivity.
Qed.
Lemma ema_call_state d deb vs st v (u : bool) : ema_after d deb vs st ->
  ema_after d deb (if u then vs ++ [v] else vs) (fst (ema_call d deb 0 st v u)).
Proof.
  intros H. pose proof (ema_call_value d deb vs st v u H) as V. destruct (ema_after_get d deb vs st H) as [Hc Hh]. destruct u.
  - assert (N : vs ++ [v] <> []) by now destruct vs. unfold ema_after. destruct (vs ++ [v]) as [|a l] eqn:E; [congruence|]. rewrite <- E in *. clear N.
    unfold ema_call in *. cbn [fst snd e_counter e_hidden e_average] in *.
    split; [|split].
    + eexists. rewrite app_length. cbn [length]. repeat f_equal. change (- 0)%Z with 0%Z. lia.
    + eexists. change (0 <? 0)%Z with false. cbn iota. rewrite Hh. now rewrite <- weighted_snoc.
    + unfold ema_average. cbn [e_average]. change (0 <? 0)%Z with false in *. cbn iota in *.
      transitivity (Some (if deb then weighted_sum d (vs ++ [v]) / (1 - d ^ S (length vs)) else weighted_sum d (vs ++ [v]))).
      * rewrite <- V. unfold set_to. destruct (e_average st) as [[? ?]|]; reflexivity.
      * rewrite app_length. cbn [length]. now replace (length vs + 1)%nat with (S (length vs)) by lia.
  - unfold ema_call. cbn [fst]. destruct vs as [|w vs].
    + destruct H as (E1 & E2 & E3). cbn. change (- 0)%Z with 0%Z. rewrite E1, E2. auto.
    + destruct H as ((c0 & E1) & (h0 & E2) & E3). cbn [ema_after e_counter e_hidden]. unfold ema_average in *. cbn [e_average].
      rewrite E1, E2. cbn [get_or]. eauto.
Qed.
Lemma ema_run_after d deb vs : forall st us, ema_after d deb us st ->
  ema_after d deb (us ++ updates vs) (fst (ema_run d deb 0 st vs)).
Proof.
  induction vs as [|[v u] vs IH]; intros st us H; cbn [ema_run].
  - cbn. now rewrite app_nil_r.
  - pose proof (ema_call_state d deb us st v u H) as H'. destruct (ema_call d deb 0 st v u) as [st1 a]. cbn [fst] in H'.
    specialize (IH st1 _ H'). destruct (ema_run d deb 0 st1 vs) as [st2 l]. cbn [fst] in *. unfold updates in *. cbn [filter snd].
    destruct u; cbn [map fst]; [rewrite <- app_assoc in IH|]; exact IH.
Qed.
Lemma ema_empty_after d deb : ema_after d deb [] ema_empty. Proof. repeat split. Qed.

(** After any history of calls, whatever their [update_stats] flags: the hidden value is the weighted sum of the updating values, the
    next call returns the weighted sum including its value (divided by [1 - d^n] with debiasing), and the stored average is what the
    last updating call returned. *)
Theorem C48_average d deb vs v u :
  let st := fst (ema_run d deb 0 ema_empty vs) in
  let n := length (updates vs) in
  snd (ema_call d deb 0 st v u) =
    (if deb then weighted_sum d (updates vs ++ [v]) / (1 - d ^ S n) else weighted_sum d (updates vs ++ [v])) /\
  snd (get_or (e_hidden st) 0) = weighted_sum d (updates vs) /\
  ema_average st = (if (n =? 0)%nat then None
                    else Some (if deb then weighted_sum d (updates vs) / (1 - d ^ n) else weighted_sum d (updates vs))).
Proof.
  cbv zeta. pose proof (ema_run_after d deb vs ema_empty [] (ema_empty_after d deb)) as H. cbn [app] in H. split; [|split].
  - now apply ema_call_value.
  - now apply (ema_after_get d deb).
  - destruct (updates vs) as [|w ws]; cbn [length Nat.eqb].
    + destruct H as (_ & _ & E). unfold ema_average. now rewrite E.
    + destruct H as (_ & _ & E). exact E.
Qed.

(** The weights of the debiased average sum to one. *)
Lemma weighted_const d c n : weighted_sum d (repeat c n) = (1 - d ^ n) * c.
Proof.
  induction n as [|n IH]; [cbn; lra|]. rewrite <- (Nat.add_1_r n) at 1. rewrite repeat_app. cbn [repeat]. rewrite weighted_snoc, IH.
  cbn [pow]. lra.
Qed.
Lemma pow_lt_1 d n : 0 <= d < 1 -> (0 < n)%nat -> d ^ n < 1.
Proof.
  intros [H0 H1] Hn. destruct n as [|n]; [lia|]. cbn [pow]. assert (0 <= d ^ n <= 1).
  { clear Hn. induction n as [|n IH]; cbn [pow]; [lra|]. split; [apply Rmult_le_pos; lra|].
    replace 1 with (1 * 1) by lra. apply Rmult_le_compat; lra. }
  destruct H as [Ha Hb]. apply Rle_lt_trans with (d * 1); [apply Rmult_le_compat_l; lra | lra].
Qed.
Lemma weighted_bounds d vs lo hi : 0 <= d < 1 -> Forall (fun v => lo <= v <= hi) vs ->
  (1 - d ^ length vs) * lo <= weighted_sum d vs <= (1 - d ^ length vs) * hi.
Proof.
  intros Hd. induction vs as [|v vs IH] using rev_ind; intros HF; [cbn; lra|].
  apply Forall_app in HF as [HF Hv]. inversion Hv; subst. specialize (IH HF). rewrite weighted_snoc, app_length. cbn [length].
  rewrite Nat.add_1_r. cbn [pow]. set (w := weighted_sum d vs) in *. set (p := d ^ length vs) in *.
  assert (A1 : (1 - p) * lo * d <= w * d) by (apply Rmult_le_compat_r; lra).
  assert (A2 : w * d <= (1 - p) * hi * d) by (apply Rmult_le_compat_r; lra).
  assert (A3 : lo * (1 - d) <= v * (1 - d)) by (apply Rmult_le_compat_r; lra).
  assert (A4 : v * (1 - d) <= hi * (1 - d)) by (apply Rmult_le_compat_r; lra).
  lra.
Qed.
(** With debiasing the average of any history always lies between the bounds of the values it has seen. *)
Theorem C48_bounds d vs v u lo hi : 0 <= d < 1 -> Forall (fun p => lo <= fst p <= hi) vs -> lo <= v <= hi ->
  lo <= snd (ema_call d true 0 (fst (ema_run d true 0 ema_empty vs)) v u) <= hi.
Proof.
  intros Hd HF Hv. destruct (C48_average d true vs v u) as [E _]. cbv zeta in E. rewrite E. clear E.
  assert (HF' : Forall (fun v => lo <= v <= hi) (updates vs ++ [v])).
  { apply Forall_app. split; [|auto]. unfold updates. apply Forall_forall. intros x Hx. apply in_map_iff in Hx as (p & <- & Hp).
    apply filter_In in Hp as [Hp _]. rewrite Forall_forall in HF. auto. }
  pose proof (weighted_bounds d _ lo hi Hd HF') as B. rewrite app_length in B. cbn [length] in B. rewrite Nat.add_1_r in B.
  set (n := length (updates vs)) in *. set (w := weighted_sum d (updates vs ++ [v])) in *.
  assert (P : 0 < 1 - d ^ S n) by (pose proof (pow_lt_1 d (S n) Hd); assert ((0 < S n)%nat) by lia; specialize (H H0); lra).
  set (q := 1 - d ^ S n) in *. clearbody q w. clear - P B. unfold Rdiv. split.
  - apply Rmult_le_reg_r with q; [lra|]. rewrite Rmult_assoc, Rinv_l by lra. lra.
  - apply Rmult_le_reg_r with q; [lra|]. rewrite Rmult_assoc, Rinv_l by lra. lra.
Qed.
Print Assumptions C48_bounds.
(** Hence the average of a constant sequence is the constant; without debiasing it is too small by the factor [1 - d^n]. *)
Theorem C48_constant d n c u : 0 <= d < 1 ->
  snd (ema_call d true 0 (fst (ema_run d true 0 ema_empty (repeat (c, true) n))) c u) = c /\
  snd (ema_call d false 0 (fst (ema_run d false 0 ema_empty (repeat (c, true) n))) c u) = (1 - d ^ S n) * c.
Proof.
  intros Hd. split.
  - destruct (C48_bounds d (repeat (c, true) n) c u c c Hd) as [H1 H2]; [|lra|lra].
    apply Forall_forall. intros p Hp. apply repeat_spec in Hp. subst. cbn. lra.
  - destruct (C48_average d false (repeat (c, true) n) c u) as [E _]. cbv zeta in E. rewrite E.
    replace (updates (repeat (c, true) n) ++ [c]) with (repeat c (S n)).
    + apply weighted_const.
    + unfold updates. replace (filter snd (repeat (c, true) n)) with (repeat (c, true) n) by (clear; induction n; cbn; congruence).
      rewrite <- (Nat.add_1_r n), repeat_app. f_equal. clear. induction n; cbn; congruence.
Qed.
(** Decay 1, which VectorQuantizerEMA accepts (vqvae.py:223-224), makes the debiasing divide by zero at every call. *)
Theorem C48_decay_one_refuted : ~ (forall d n, 0 <= d <= 1 -> (0 < n)%nat -> 1 - d ^ n <> 0).
Proof. intros H. apply (H 1 1%nat); [lra | lia | cbn; lra]. Qed.
(** The state that [init] returns after one call: counter and hidden value are the initial ones, but the average is the value
    seen during [init], because it is only ever written (moving_averages.py:128-131). *)
Theorem C48_init d (deb : bool) v : 0 <= d < 1 ->
  let st := ema_restart (fst (ema_call d deb 0 ema_empty v true)) in
  e_counter st = Some (0%Z, 0%Z) /\ e_hidden st = Some (0, 0) /\ ema_average st = Some (if deb then v else (1 - d) * v).
Proof.
  intros Hd. cbn. repeat split. unfold ema_average. cbn. f_equal. destruct deb.
  - change (Pos.to_nat 1) with 1%nat. cbn [pow]. field. lra.
  - lra.
Qed.
(** The values 1, 5 with decay 1/2: weights 1/3 and 2/3. *)
Example C48_values : snd (ema_run (1/2) true 0 ema_empty [(1, true); (5, true)]) = [1; (1 + 2 * 5) / 3].
Proof. cbn. change (Pos.to_nat 1) with 1%nat. change (Pos.to_nat 2) with 2%nat. cbn [pow]. apply f_equal2; [field | apply f_equal2; [field | reflexivity]]. Qed.

(** ** C49 warmup *)
Lemma warmup_state d W : (0 < W)%Z -> forall vs st k,
  (e_counter st = Some ((- W)%Z, (k - W)%Z) \/ (k = 0%Z /\ e_counter st = None)) -> (0 <= k)%Z -> (k + Z.of_nat (length vs) <= W)%Z ->
  vs <> [] ->
  e_counter (fst (ema_run d false W st (map (fun v => (v, true)) vs))) = Some ((- W)%Z, (k + Z.of_nat (length vs) - W)%Z) /\
  snd (get_or (e_hidden (fst (ema_run d false W st (map (fun v => (v, true)) vs)))) 0) = last vs 0 /\
  snd (ema_run d false W st (map (fun v => (v, true)) vs)) = vs.
Proof.
  intros HW vs. induction vs as [|v vs IH]; intros st k Hc Hk Hle Hne; [congruence|].
  cbn [map ema_run]. destruct (ema_call d false W st v true) as [st1 a] eqn:E.
  assert (Hg : get_or (e_counter st) (- W)%Z = ((- W)%Z, (k - W)%Z)).
  { destruct Hc as [-> | [-> ->]]; [reflexivity|]. cbn. f_equal. }
  cbn [length] in Hle. rewrite Nat2Z.inj_succ in Hle.
  unfold ema_call in E. rewrite Hg in E. cbn [fst snd] in E.
  replace (0 <? W)%Z with true in E by (symmetry; apply Z.ltb_lt; lia).
  replace (k - W + 1 <=? 0)%Z with true in E by (symmetry; apply Z.leb_le; lia).
  injection E as <- <-.
  destruct vs as [|v2 vs].
  - cbn. split; [|split]; [do 2 f_equal; lia | lra | f_equal; lra].
  - set (st1 := EmaState _ _ _). destruct (IH st1 (k + 1)%Z) as (I1 & I2 & I3); try (cbn [length] in *; lia); [left; cbn; do 2 f_equal; lia | congruence |].
    destruct (ema_run d false W st1 (map (fun v => (v, true)) (v2 :: vs))) as [st2 l]. cbn [fst snd] in *.
    split; [rewrite I1; do 2 f_equal; cbn [length]; lia | split; [rewrite I2; reflexivity | rewrite I3; f_equal; lra]].
Qed.
Lemma after_warmup d W : (0 < W)%Z -> forall vs st c0 c h0 h, e_counter st = Some (c0, c) -> (0 <= c)%Z -> e_hidden st = Some (h0, h) ->
  snd (get_or (e_hidden (fst (ema_run d false W st (map (fun v => (v, true)) vs)))) 0) = d ^ length vs * h + weighted_sum d vs /\
  (vs <> [] -> last (snd (ema_run d false W st (map (fun v => (v, true)) vs))) 0 = d ^ length vs * h + weighted_sum d vs).
Proof.
  intros HW vs. assert (G : forall vs st c0 c h0 h, e_counter st = Some (c0, c) -> (0 <= c)%Z -> e_hidden st = Some (h0, h) ->
    exists c0' h0', let r := ema_run d false W st (map (fun v => (v, true)) vs) in
    e_counter (fst r) = Some (c0', (c + Z.of_nat (length vs))%Z) /\ e_hidden (fst r) = Some (h0', d ^ length vs * h + weighted_sum d vs) /\
    (vs <> [] -> last (snd r) 0 = d ^ length vs * h + weighted_sum d vs)).
  { clear vs. intros vs. induction vs as [|v vs IH] using rev_ind; intros st c0 c h0 h Hc Hc0 Hh.
    - exists c0, h0. cbn. split; [rewrite Hc; do 2 f_equal; lia | split; [rewrite Hh; do 2 f_equal; lra | congruence]].
    - destruct (IH st c0 c h0 h Hc Hc0 Hh) as (c1 & h1 & E1 & E2 & _). clear IH.
      assert (Ap : forall a b st, ema_run d false W st (a ++ b) =
        let '(st1, l1) := ema_run d false W st a in let '(st2, l2) := ema_run d false W st1 b in (st2, l1 ++ l2)).
      { clear. induction a as [|[v u] a IH]; intros b st; cbn.
        - destruct (ema_run d false W st b); reflexivity.
        - destruct (ema_call d false W st v u) as [st1 x]. rewrite IH. destruct (ema_run d false W st1 a) as [st2 l2].
          destruct (ema_run d false W st2 b) as [st3 l3]. reflexivity. }
      rewrite map_app. cbv zeta. rewrite Ap. destruct (ema_run d false W st (map (fun v => (v, true)) vs)) as [st1 l1]. cbn [fst snd] in E1, E2.
      cbn [map ema_run]. unfold ema_call. rewrite E1, E2. cbn [get_or fst snd].
      replace (0 <? W)%Z with true by (symmetry; apply Z.ltb_lt; lia).
      replace (c + Z.of_nat (length vs) + 1 <=? 0)%Z with false by (symmetry; apply Z.leb_gt; lia).
      cbn [fst snd e_counter e_hidden]. exists c1, h1. rewrite app_length. cbn [length].
      assert (EQ : (d ^ length vs * h + weighted_sum d vs) * d + v * (1 - d) = d ^ (length vs + 1) * h + weighted_sum d (vs ++ [v])).
      { rewrite weighted_snoc, Nat.add_1_r. cbn [pow]. lra. }
      split; [do 2 f_equal; lia | split; [now rewrite EQ |]]. intros _. rewrite last_last. exact EQ. }
  intros st c0 c h0 h Hc Hc0 Hh. destruct (G vs st c0 c h0 h Hc Hc0 Hh) as (c1 & h1 & E1 & E2 & E3). rewrite E2. auto.
Qed.

(** With a warmup of [W] calls the first [W] calls return their value; after [n] further calls the average is [d^n] times the last value of
    the warmup plus the weighted sum of the later values. *)
Theorem C49_warmup d W (warm later : list R) : (0 < W)%Z -> length warm = Z.to_nat W ->
  let r := ema_run d false W ema_empty (map (fun v => (v, true)) warm) in
  snd r = warm /\
  (later <> [] -> last (snd (ema_run d false W (fst r) (map (fun v => (v, true)) later))) 0
                  = d ^ length later * last warm 0 + weighted_sum d later) /\
  ema_accepts false W = true /\ ema_accepts true W = false.
Proof.
  intros HW HL. cbv zeta. assert (Hne : warm <> []) by (destruct warm; [cbn in HL; lia | congruence]).
  destruct (warmup_state d W HW warm ema_empty 0%Z) as (E1 & E2 & E3); auto; [lia | lia |].
  split; [exact E3|]. split.
  - intros Hl. destruct (fst (ema_run d false W ema_empty (map (fun v => (v, true)) warm))) as [c h a] eqn:Est. cbn [e_counter e_hidden] in *.
    destruct h as [[h0 h]|].
    + cbn in E2. subst h. destruct (after_warmup d W HW later (EmaState c (Some (h0, last warm 0)) a) _ _ h0 (last warm 0) E1) as [_ G]; [lia | reflexivity |]. auto.
    + exfalso. assert (N : e_hidden (fst (ema_run d false W ema_empty (map (fun v => (v, true)) warm))) <> None).
      { clear -Hne. destruct (exists_last Hne) as (w & v & ->). generalize ema_empty. clear Hne. induction w as [|x w IH]; intros st.
        - cbn. discriminate.
        - cbn [app map ema_run]. destruct (ema_call d false W st x true) as [st1 y]. specialize (IH st1).
          destruct (ema_run d false W st1 (map (fun v => (v, true)) (w ++ [v]))). exact IH. }
      rewrite Est in N. now apply N.
  - unfold ema_accepts. replace (W <? 0)%Z with false by (symmetry; apply Z.ltb_ge; lia).
    replace (W =? 0)%Z with false by (symmetry; apply Z.eqb_neq; lia). auto.
Qed.
Print Assumptions C49_warmup.
Example C49_values : snd (ema_run (1/2) false 2 ema_empty [(7, true); (4, true); (8, true)]) = [7; 4; 6].
Proof. cbn. repeat f_equal; field. Qed.

(** ** C55 BatchNorm *)
Definition train_stats (calls : list (list R * bool * bool)) : list (R * R) :=
  map (fun c => bn_stats (fst (fst c))) (filter (fun c => snd (fst c)) calls).
(** A history of calls: inputs, [is_training], [test_local_stats]; [None] once a call raises. *)
Fixpoint bn_run (decay eps : R) (st : bn_state) (calls : list (list R * bool * bool)) : option bn_state :=
  match calls with
  | [] => Some st
  | (xs, tr, tl) :: calls => match bn_call decay eps 1 0 st xs tr tl with Some (st, _) => bn_run decay eps st calls | None => None end
  end.
Definition bn_empty : bn_state := BnState ema_empty ema_empty.

Lemma ema_call_training d st v vs : ema_after d true vs st -> ema_after d true (vs ++ [v]) (fst (ema_call d true 0 st v true)).
Proof. intros H. exact (ema_call_state d true vs st v true H). Qed.
Lemma bn_run_after d eps calls : forall st st' ms, ema_after d true (map fst ms) (bn_mean st) -> ema_after d true (map snd ms) (bn_var st) ->
  bn_run d eps st calls = Some st' ->
  ema_after d true (map fst (ms ++ train_stats calls)) (bn_mean st') /\ ema_after d true (map snd (ms ++ train_stats calls)) (bn_var st').
Proof.
  induction calls as [|[[xs tr] tl] calls IH]; intros st st' ms H1 H2 E; cbn [bn_run] in E.
  - injection E as <-. cbn. rewrite !app_nil_r. auto.
  - unfold bn_call in E. unfold train_stats in *. cbn [filter fst snd].
    destruct tr; cbn [orb] in E.
    + cbn [map fst]. replace (ms ++ bn_stats xs :: map (fun c => bn_stats (fst (fst c))) (filter (fun c => snd (fst c)) calls))
        with ((ms ++ [bn_stats xs]) ++ map (fun c => bn_stats (fst (fst c))) (filter (fun c => snd (fst c)) calls)) by now rewrite <- app_assoc.
      eapply IH; [| |exact E]; cbn [bn_mean bn_var]; rewrite map_app; cbn [map]; now apply ema_call_training.
    + destruct (if tl then _ else _) as [stats|]; [|discriminate]. eapply IH; eauto.
Qed.

(** Evaluation after any history from scratch: the moving averages are the debiased moving averages of the batch statistics of the training
    calls (evaluation calls leave no trace), they are what the call normalises with, and the call does not change the state. An
    evaluation call before any training call raises. *)
Theorem C55_eval d eps scale offset calls st xs : bn_run d eps bn_empty calls = Some st ->
  let ts := train_stats calls in let n := length ts in
  bn_call d eps scale offset st xs false false =
  (if (n =? 0)%nat then None
   else Some (st, bn_normalize eps scale offset
     (weighted_sum d (map fst ts) / (1 - d ^ n), weighted_sum d (map snd ts) / (1 - d ^ n)) xs)).
Proof.
  intros E. cbv zeta. destruct (bn_run_after d eps calls bn_empty st [] (ema_empty_after d true) (ema_empty_after d true) E) as [H1 H2].
  cbn [app] in H1, H2. unfold bn_call. cbn [orb]. destruct (train_stats calls) as [|p ts]; cbn [length Nat.eqb].
  - destruct H1 as (_ & _ & E1). unfold ema_average. now rewrite E1.
  - cbn [map] in H1, H2. destruct H1 as (_ & _ & E1). destruct H2 as (_ & _ & E2). rewrite E1, E2. cbn [map length]. rewrite !map_length. reflexivity.
Qed.
(** Training and [test_local_stats] calls normalise with the statistics of their own batch; training advances both averages by one step
    of the moving average, [test_local_stats] leaves the state unchanged. *)
Theorem C55_train d eps scale offset st xs tl :
  bn_call d eps scale offset st xs true tl =
    Some (BnState (fst (ema_call d true 0 (bn_mean st) (fst (bn_stats xs)) true)) (fst (ema_call d true 0 (bn_var st) (snd (bn_stats xs)) true)),
          bn_normalize eps scale offset (bn_stats xs) xs) /\
  bn_call d eps scale offset st xs false true = Some (st, bn_normalize eps scale offset (bn_stats xs) xs).
Proof. split; reflexivity. Qed.

Lemma len_pos {A} (xs : list A) : xs <> [] -> 0 < INR (length xs).
Proof. intros H. apply lt_0_INR. destruct xs; [congruence | cbn; lia]. Qed.
Lemma mean_affine a b xs : xs <> [] -> mean (map (fun x => a * x + b) xs) = a * mean xs + b.
Proof.
  intros H. unfold mean. rewrite map_length. rewrite Rsum_plus, Rsum_scale, Rsum_const. pose proof (len_pos xs H). field. lra.
Qed.
(** The batch variance is the mean squared deviation from the batch mean, hence never negative. *)
Theorem C55_variance xs : xs <> [] ->
  snd (bn_stats xs) = mean (map (fun x => square (x - mean xs)) xs) /\ 0 <= snd (bn_stats xs).
Proof.
  intros H. assert (E : snd (bn_stats xs) = mean (map (fun x => square (x - mean xs)) xs)).
  { unfold bn_stats. cbn [snd]. set (m := mean xs).
    assert (E1 : Rsum (map (fun x => square (x - m)) xs) = Rsum (map square xs) + (-2 * m) * Rsum xs + INR (length xs) * square m).
    { rewrite <- (Rsum_scale (-2 * m)), <- (Rsum_const (square m) xs), <- (Rsum_plus square), <- Rsum_plus. f_equal. apply map_ext. intros x. unfold square. lra. }
    unfold mean at 2. rewrite map_length, E1. unfold mean at 1. rewrite map_length.
    replace (Rsum xs) with (INR (length xs) * m) by (unfold m, mean; pose proof (len_pos xs H); field; lra).
    pose proof (len_pos xs H). unfold square. field. lra. }
  split; [exact E|]. rewrite E. unfold mean. apply Rmult_le_pos.
  - apply Rsum_nonneg. apply Forall_forall. intros y Hy. apply in_map_iff in Hy as (x & <- & _). unfold square. apply Rle_0_sqr.
  - rewrite map_length. left. apply Rinv_0_lt_compat, len_pos, H.
Qed.
(** A batch normalised with its own statistics has mean [offset], and mean square deviation [scale^2 var / (var + eps)]. *)
Theorem C55_normalised xs eps scale offset : xs <> [] -> 0 < eps ->
  let ys := bn_normalize eps scale offset (bn_stats xs) xs in let var := snd (bn_stats xs) in
  mean ys = offset /\ mean (map (fun y => square (y - offset)) ys) = square scale * (var / (var + eps)).
Proof.
  intros H He. cbv zeta. destruct (C55_variance xs H) as [Ev Hv]. set (v := snd (bn_stats xs)) in *.
  set (s := scale * / sqrt (v + eps)). split.
  - unfold bn_normalize. fold v s. replace (map (fun x => (x - fst (bn_stats xs)) * s + offset) xs)
      with (map (fun x => s * x + (offset - fst (bn_stats xs) * s)) xs) by (apply map_ext; intros; lra).
    rewrite mean_affine by assumption. unfold bn_stats. cbn [fst]. lra.
  - unfold bn_normalize. fold v s. rewrite map_map.
    replace (map (fun x => square ((x - fst (bn_stats xs)) * s + offset - offset)) xs)
      with (map (fun x => square s * x + 0) (map (fun x => square (x - mean xs)) xs)).
    2:{ rewrite map_map. apply map_ext. intros x. unfold bn_stats, square. cbn [fst]. lra. }
    rewrite mean_affine by (destruct xs; [congruence | discriminate]). rewrite <- Ev.
    assert (Q : square (/ sqrt (v + eps)) = / (v + eps)).
    { unfold square. rewrite <- Rinv_mult. f_equal. apply sqrt_sqrt. lra. }
    unfold s. replace (square (scale * / sqrt (v + eps))) with (square scale * square (/ sqrt (v + eps))) by (unfold square; lra).
    rewrite Q. unfold Rdiv. lra.
Qed.
Print Assumptions C55_normalised.
(** Statistics across replicas of equally large batches are the statistics of all their elements together. *)
Theorem C55_cross_replica replicas n : (0 < n)%nat -> replicas <> [] -> Forall (fun xs => length xs = n) replicas ->
  bn_stats_cross replicas = bn_stats (concat replicas).
Proof.
  intros Hn Hne HF.
  assert (M : forall f : R -> R, mean (map (fun xs => mean (map f xs)) replicas) = mean (map f (concat replicas))).
  { intros f. unfold mean. rewrite !map_length.
    assert (L : INR (length (concat replicas)) = INR (length replicas) * INR n).
    { clear Hne. induction HF as [|x l Hx _ IH]; [cbn; lra|]. cbn [concat length]. rewrite app_length, plus_INR, IH, S_INR, Hx. lra. }
    assert (Sm : Rsum (map (fun xs => Rsum (map f xs) / INR (length (map f xs))) replicas) = Rsum (map f (concat replicas)) / INR n).
    { clear Hne L. induction HF as [|x l Hx _ IH]; [cbn; lra|]. cbn [map concat]. rewrite Rsum_cons, IH, map_app, Rsum_app, map_length, Hx. lra. }
    rewrite Sm, L. assert (0 < INR n) by now apply lt_0_INR. pose proof (len_pos replicas Hne). field. lra. }
  unfold bn_stats_cross, bn_stats. pose proof (M (fun x => x)) as M1.
  replace (map (fun xs => mean (map (fun x => x) xs)) replicas) with (map mean replicas) in M1 by (apply map_ext; intros; now rewrite map_id).
  rewrite map_id in M1. rewrite M1, M. reflexivity.
Qed.
(** The default axes are all but the channel axis, and [scale] and [offset] then have the shape of the statistics. *)
Theorem C55_axis channel_index shape : (- Z.of_nat (length shape) <= channel_index < Z.of_nat (length shape))%Z ->
  let axis := bn_axis channel_index (length shape) None in
  bn_w_shape axis shape = np_mean_shape axis shape /\
  forall i, (i < length shape)%nat -> nth i (bn_w_shape axis shape) 0%Z =
    if (Z.of_nat i =? channel_index mod Z.of_nat (length shape))%Z then nth i shape 0%Z else 1%Z.
Proof.
  intros Hc. cbv zeta. set (c := (if (channel_index <? 0)%Z then (channel_index + Z.of_nat (length shape))%Z else channel_index)).
  assert (Ec : (channel_index mod Z.of_nat (length shape) = c)%Z).
  { unfold c. destruct (Z.ltb_spec channel_index 0).
    - symmetry. apply Z.mod_unique with (-1)%Z; lia.
    - apply Z.mod_small. lia. }
  assert (Hin : forall i, (i < length shape)%nat -> existsb (Z.eqb (Z.of_nat i)) (bn_axis channel_index (length shape) None) = negb (Z.of_nat i =? c)%Z).
  { intros i Hi. unfold bn_axis. fold c. apply eq_true_iff_eq. rewrite existsb_exists. split.
    - intros (z & Hz & E). apply Z.eqb_eq in E. subst z. now apply filter_In in Hz as [_ Hz].
    - intros E. exists (Z.of_nat i). split; [|apply Z.eqb_refl]. apply filter_In. split; [|exact E]. apply in_map, in_seq. lia. }
  split.
  - unfold bn_w_shape, np_mean_shape. apply map_ext_in. intros i Hi. f_equal.
    assert (G : forall l, Forall (fun z => (0 <= z)%Z) l -> existsb (Z.eqb (Z.of_nat i)) l =
        existsb (fun a => ((if a <? 0 then a + Z.of_nat (length shape) else a) =? Z.of_nat i)%Z) l).
    { induction 1 as [|z l Hz _ IH]; cbn; [reflexivity|]. rewrite IH. replace (z <? 0)%Z with false by (symmetry; apply Z.ltb_ge; lia).
      now rewrite Z.eqb_sym. }
    rewrite G; [reflexivity|]. unfold bn_axis. apply Forall_forall. intros z Hz. apply filter_In in Hz as [Hz _].
    apply in_map_iff in Hz as (k & <- & _). lia.
  - intros i Hi. rewrite Ec. unfold bn_w_shape.
    rewrite nth_indep with (d' := (fun i => if existsb (Z.eqb (Z.of_nat i)) (bn_axis channel_index (length shape) None) then 1%Z else nth i shape 0%Z) 0%nat)
      by (rewrite map_length, seq_length; assumption).
    rewrite (map_nth (fun i => if existsb (Z.eqb (Z.of_nat i)) (bn_axis channel_index (length shape) None) then 1%Z else nth i shape 0%Z)).
    rewrite seq_nth by assumption. cbn [Nat.add]. rewrite Hin by assumption. now destruct (Z.of_nat i =? c)%Z.
Qed.
(** A negative axis is understood by the reduction but not by the shape of [scale] and [offset]. *)
Theorem C55_negative_axis_refuted : ~ (forall axis shape, Forall (fun a => - Z.of_nat (length shape) <= a < Z.of_nat (length shape))%Z axis ->
  bn_w_shape axis shape = np_mean_shape axis shape).
Proof.
  intros H. specialize (H [(-2)%Z] [8; 3]%Z). assert (E := H ltac:(repeat constructor; cbn; lia)). vm_compute in E. discriminate E.
Qed.
(** Right after [init], evaluation uses the statistics of the batch that [init] was called with. *)
Theorem C55_eval_after_init d eps scale offset init_xs xs st ys : 0 <= d < 1 ->
  bn_call d eps scale offset bn_empty init_xs true false = Some (st, ys) ->
  bn_call d eps scale offset (BnState (ema_restart (bn_mean st)) (ema_restart (bn_var st))) xs false false =
  Some (BnState (ema_restart (bn_mean st)) (ema_restart (bn_var st)), bn_normalize eps scale offset (bn_stats init_xs) xs).
Proof.
  intros Hd E. unfold bn_call in E. cbn [orb bn_empty bn_mean bn_var] in E.
  apply (f_equal (fun o => match o with Some p => fst p | None => st end)) in E. cbv beta iota zeta in E. cbn [fst] in E. rewrite <- E. clear E. unfold bn_call. cbn [orb bn_mean bn_var bn_empty].
  destruct (C48_init d true (fst (bn_stats init_xs)) Hd) as (_ & _ & E1). destruct (C48_init d true (snd (bn_stats init_xs)) Hd) as (_ & _ & E2).
  cbv zeta in E1, E2. rewrite E1, E2. now destruct (bn_stats init_xs).
Qed.
(** Inputs 1, 3 (mean 2, variance 1) in a training call, then an evaluation call. *)
Example C55_values : exists st ys, bn_call (1/2) 3 1 0 bn_empty [1; 3] true false = Some (st, ys) /\
  bn_call (1/2) 3 1 0 st [4] false false = Some (st, [(4 - 2) * (1 * / sqrt (1 + 3)) + 0]) /\ snd (bn_stats [1; 3]) = 1.
Proof.
  do 2 eexists. split; [reflexivity|].
  assert (M : fst (bn_stats [1; 3]) = 2) by (cbn; unfold mean, Rsum; cbn; field).
  assert (V : snd (bn_stats [1; 3]) = 1) by (cbn; unfold mean, Rsum, square; cbn; field).
  split; [|exact V]. unfold bn_call. cbn [orb bn_mean bn_var bn_empty].
  destruct (C48_average (1/2) true [(fst (bn_stats [1; 3]), true)] 0 true) as (_ & _ & A1).
  destruct (C48_average (1/2) true [(snd (bn_stats [1; 3]), true)] 0 true) as (_ & _ & A2).
  cbn [ema_run fst] in A1, A2. destruct (ema_call (1/2) true 0 ema_empty (fst (bn_stats [1;3])) true) as [s1 r1] eqn:X1.
  destruct (ema_call (1/2) true 0 ema_empty (snd (bn_stats [1;3])) true) as [s2 r2] eqn:X2. cbn [fst] in *.
  rewrite A1, A2. cbn [updates filter map fst snd length Nat.eqb]. rewrite M, V.
  assert (W : forall x, weighted_sum (1/2) [x] / (1 - (1/2) ^ 1) = x) by (intros; unfold weighted_sum, Rsum; cbn; field).
  rewrite !W. reflexivity.
Qed.

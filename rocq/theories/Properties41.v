(** C85: values of GroupNorm. *)
From Coq Require Import Reals ZArith List Bool Lia Lra Permutation.
From Verif Require Import ModelShape ProofsShape ModelReal ModelPool ModelLayers Properties11 Properties14 Properties22 Properties23 Properties24 Properties25 ModelGroupNorm.
Import ListNotations.
Local Open Scope R_scope.

(** The checks of the call: at least two axes, a number of channels divisible by the groups, axes that exist and are not negative (what
    negative axes do is C46). *)
Definition gn_args (last : bool) (groups : nat) (axis : list Z) (shape : list nat) : Prop :=
  (2 <= length shape)%nat /\ (1 <= groups)%nat /\ (gn_channel last shape mod groups = 0)%nat /\
  Forall (fun a => 0 <= a < Z.of_nat (length shape))%Z axis.
(** Entries that are normalised together: same place on every axis that is not reduced; same group; same channel, if the channel axis is not
    reduced. *)
Definition together (last : bool) (pg : nat) (axis : list Z) (i j : list nat) : Prop :=
  let c := channel_axis (length i) last in
  (forall a, (a < length i)%nat -> a <> c -> ~ In (Z.of_nat a) axis -> nth a i 0%nat = nth a j 0%nat) /\
  (nth c i 0 / pg = nth c j 0 / pg)%nat /\ (~ In (Z.of_nat c) axis -> nth c i 0%nat = nth c j 0%nat).
(** [l] lists the entries normalised together with [idx], each once. *)
Definition cell (last : bool) (groups : nat) (axis : list Z) (shape idx : list nat) (l : list (list nat)) : Prop :=
  NoDup l /\ forall j, In j l <-> fits shape j /\ together last (gn_channel last shape / groups) axis idx j.

Lemma last_nth (l : list nat) : last l 0%nat = nth (length l - 1) l 0%nat.
Proof.
  induction l as [|a l IH]; [reflexivity|]. destruct l as [|b l]; [reflexivity|]. change (last (a :: b :: l) 0%nat) with (last (b :: l) 0%nat).
  rewrite IH. cbn [length]. replace (S (S (length l)) - 1)%nat with (S (S (length l) - 1)) by lia. reflexivity.
Qed.
Lemma channel_nth last (idx : list nat) : gn_channel last idx = nth (channel_axis (length idx) last) idx 0%nat.
Proof. unfold gn_channel, channel_axis. destruct last; [apply last_nth|reflexivity]. Qed.
Lemma group_Z last pg idx : (2 <= length idx)%nat -> gn_index last (Z.of_nat pg) (map Z.of_nat idx) = map Z.of_nat (gn_group last pg idx).
Proof.
  intros L. unfold gn_index, gn_group. destruct last.
  - destruct (exists_last (l := idx)) as (l & c & ->); [intros ->; cbn in L; lia|]. rewrite map_app. cbn [map].
    rewrite !removelast_last, !last_last. rewrite map_app. cbn [map]. now rewrite Nat2Z.inj_div, Nat2Z.inj_mod.
  - destruct idx as [|b [|c l]]; [cbn in L; lia..|]. cbn [map]. now rewrite Nat2Z.inj_div, Nat2Z.inj_mod.
Qed.
Lemma nth_of_nat l a : nth a (map Z.of_nat l) 0%Z = Z.of_nat (nth a l 0%nat).
Proof. change 0%Z with (Z.of_nat 0). apply map_nth. Qed.
Lemma group_length last pg idx : (2 <= length idx)%nat -> length (gn_group last pg idx) = S (length idx).
Proof.
  intros L. unfold gn_group. destruct last.
  - destruct (exists_last (l := idx)) as (l & c & ->); [intros ->; cbn in L; lia|]. rewrite removelast_last, !app_length. cbn. lia.
  - destruct idx as [|b [|c l]]; [cbn in L; lia..|]. reflexivity.
Qed.
Lemma ungroup_group last pg idx : (2 <= length idx)%nat -> gn_ungroup last pg (gn_group last pg idx) = idx.
Proof.
  intros L. unfold gn_ungroup, gn_group. destruct last.
  - destruct (exists_last (l := idx)) as (l & c & ->); [intros ->; cbn in L; lia|]. rewrite !removelast_last, !last_last.
    change (l ++ [(c / pg)%nat; (c mod pg)%nat]) with (l ++ [(c / pg)%nat] ++ [(c mod pg)%nat]). rewrite app_assoc, removelast_last, last_last, removelast_last, last_last.
    do 2 f_equal. rewrite Nat.mul_comm. symmetry. apply Nat.div_mod_eq.
  - destruct idx as [|b [|c l]]; [cbn in L; lia..|]. f_equal. f_equal. rewrite Nat.mul_comm. symmetry. apply Nat.div_mod_eq.
Qed.
Lemma div_mod_small q pg r : (r < pg)%nat -> ((q * pg + r) / pg = q /\ (q * pg + r) mod pg = r)%nat.
Proof.
  intros H. split.
  - rewrite Nat.div_add_l by lia. rewrite Nat.div_small by lia. lia.
  - rewrite Nat.add_comm, Nat.mod_add by lia. apply Nat.mod_small. lia.
Qed.
Lemma fits_snoc s n i k : fits (s ++ [n]) (i ++ [k]) <-> fits s i /\ (k < n)%nat.
Proof.
  unfold fits. split.
  - intros H. apply Forall2_app_inv_l in H as (l1 & l2 & H1 & H2 & E). inversion H2 as [|? ? ? ? H3 H4]; subst. inversion H4; subst. apply app_inj_tail in E as [-> ->]. auto.
  - intros [H1 H2]. apply Forall2_app; [assumption|]. repeat constructor. assumption.
Qed.
Lemma exact_div c g : (1 <= g)%nat -> (c mod g = 0)%nat -> (c = g * (c / g))%nat.
Proof. intros Hg H. rewrite (Nat.div_mod_eq c g) at 1. lia. Qed.
(** The two index maps are inverse to each other. *)
Lemma group_fits last groups shape idx : (2 <= length shape)%nat -> (1 <= groups)%nat -> (gn_channel last shape mod groups = 0)%nat -> fits shape idx ->
  fits (gn_grouped_shape last groups shape) (gn_group last (gn_channel last shape / groups) idx).
Proof.
  intros L Hg M H. pose proof (exact_div _ _ Hg M) as E. set (pg := (gn_channel last shape / groups)%nat) in *.
  unfold gn_grouped_shape, gn_group. unfold gn_channel in E, pg. destruct last.
  - destruct (exists_last (l := shape)) as (s & n & ->); [intros ->; cbn in L; lia|]. unfold pg in *. clear pg. rewrite last_last in *. 
    destruct (exists_last (l := idx)) as (i & k & ->); [intros ->; apply fits_nth in H as [H _]; rewrite app_length in H; cbn in H; lia|].
    apply fits_snoc in H as [H Hk]. rewrite !removelast_last, last_last.
    assert (n / groups <> 0)%nat by nia.
    change (fits (s ++ [groups] ++ [(n / groups)%nat]) (i ++ [(k / (n / groups))%nat] ++ [(k mod (n / groups))%nat])). rewrite !app_assoc. rewrite !fits_snoc. split; [split; [exact H|]|].
    + apply Nat.div_lt_upper_bound; [assumption|]. nia.
    + now apply Nat.mod_upper_bound.
  - destruct shape as [|b [|n s]]; [cbn in L; lia..|]. inversion H as [|? ? ? ? Hb H']; subst. inversion H' as [|? k ? i Hk Hi]; subst. cbn [nth] in *. unfold pg in *. clear pg.
    assert (n / groups <> 0)%nat by nia.
    constructor; [assumption|]. constructor; [apply Nat.div_lt_upper_bound; [assumption|]; nia|]. constructor; [now apply Nat.mod_upper_bound|]. assumption.
Qed.
Lemma ungroup_fits last groups shape g : (2 <= length shape)%nat -> (1 <= groups)%nat -> (gn_channel last shape mod groups = 0)%nat ->
  let pg := (gn_channel last shape / groups)%nat in fits (gn_grouped_shape last groups shape) g -> fits shape (gn_ungroup last pg g) /\ gn_group last pg (gn_ungroup last pg g) = g.
Proof.
  intros L Hg M pg H. pose proof (exact_div _ _ Hg M) as E. fold pg in E.
  unfold gn_grouped_shape in H. unfold gn_group, gn_ungroup. unfold gn_channel in E, pg. destruct last.
  - destruct (exists_last (l := shape)) as (s & n & ->); [intros ->; cbn in L; lia|]. unfold pg in *. clear pg. rewrite removelast_last, last_last in *.
    change (fits (s ++ [groups] ++ [(n / groups)%nat]) g) in H. rewrite app_assoc in H.
    destruct (exists_last (l := g)) as (g1 & r & ->); [intros ->; apply fits_nth in H as [H _]; rewrite !app_length in H; cbn in H; lia|].
    apply fits_snoc in H as [H Hr]. destruct (exists_last (l := g1)) as (i & q & ->); [intros ->; apply fits_nth in H as [H _]; rewrite !app_length in H; cbn in H; lia|].
    apply fits_snoc in H as [H Hq]. rewrite !removelast_last, !last_last. destruct (div_mod_small q (n / groups) r Hr) as [-> ->]. split.
    + apply fits_snoc. split; [exact H|]. rewrite E at 2. nia.
    + now rewrite <- app_assoc.
  - destruct shape as [|b [|n s]]; [cbn in L; lia..|]. cbn [nth] in *. unfold pg in *. clear pg.
    inversion H as [|? b' ? g' Hb H']; subst. inversion H' as [|? q ? g'' Hq H'']; subst. inversion H'' as [|? r ? i Hr Hi]; subst.
    destruct (div_mod_small q (n / groups) r Hr) as [-> ->]. split; [|reflexivity]. constructor; [assumption|]. constructor; [|assumption]. rewrite E at 2. nia.
Qed.
Lemma grouped_length last groups shape : (2 <= length shape)%nat -> length (gn_grouped_shape last groups shape) = S (length shape).
Proof.
  intros L. unfold gn_grouped_shape. destruct last.
  - destruct (exists_last (l := shape)) as (s & n & ->); [intros ->; cbn in L; lia|]. rewrite removelast_last, !app_length. cbn. lia.
  - destruct shape as [|b [|n s]]; [cbn in L; lia..|]. reflexivity.
Qed.
Lemma fits_length shape idx : fits shape idx -> length idx = length shape.
Proof. intros H. now apply fits_nth in H. Qed.
Lemma together_group last pg axis (shape i j : list nat) : (2 <= length shape)%nat -> (1 <= pg)%nat -> Forall (fun a => 0 <= a < Z.of_nat (length shape))%Z axis ->
  length i = length shape -> length j = length shape ->
  (forall d, (d < S (length shape))%nat -> ~ normalised (gn_axis (Z.of_nat (length shape)) last axis) d -> nth d (gn_group last pg j) 0%nat = nth d (gn_group last pg i) 0%nat) <-> together last pg axis i j.
Proof.
  intros L Hpg Hax Li Lj.
  pose proof (C46_cells (length shape) last axis (Z.of_nat pg) (map Z.of_nat i) (map Z.of_nat j) L Hax ltac:(lia) ltac:(now rewrite map_length) ltac:(now rewrite map_length)) as C. cbv zeta in C.
  rewrite !group_Z in C by lia. unfold same_cell in C. rewrite !map_length, !group_length in C by lia. rewrite !Li, !Lj in C.
  unfold together. rewrite Li. set (c := channel_axis (length shape) last) in *.
  assert (A : forall a, nth a (map Z.of_nat i) 0%Z = nth a (map Z.of_nat j) 0%Z <-> nth a i 0%nat = nth a j 0%nat) by (intros a; rewrite !nth_of_nat; split; [apply Nat2Z.inj|congruence]).
  rewrite A in C. rewrite !nth_of_nat, <- !Nat2Z.inj_div in C.
  split.
  - intros H. destruct C as [C _]. destruct C as (C1 & C2 & C3).
    + split; [reflexivity|]. intros a Ha Hn. rewrite !nth_of_nat. f_equal. symmetry. now apply H.
    + split; [|split; [|exact C3]].
      * intros a Ha Hc Hn. apply A. now apply C1.
      * now apply Nat2Z.inj.
  - intros (H1 & H2 & H3). destruct C as [_ C]. destruct C as (_ & C).
    + split; [|split; [now rewrite H2|exact H3]]. intros a Ha Hc Hn. apply A. now apply H1.
    + intros d Hd Hn. specialize (C d Hd Hn). rewrite !nth_of_nat in C. symmetry. now apply Nat2Z.inj.
Qed.
Lemma together_sym last pg axis i j : length i = length j -> together last pg axis i j -> together last pg axis j i.
Proof. unfold together. intros L (H1 & H2 & H3). rewrite <- L. split; [intros; symmetry; auto|]. split; [auto|]. intros; symmetry; auto. Qed.
Lemma together_trans last pg axis i j k : length i = length j -> together last pg axis i j -> together last pg axis j k -> together last pg axis i k.
Proof.
  unfold together. intros L (H1 & H2 & H3) (H4 & H5 & H6). rewrite <- L in *. split; [intros; rewrite H1 by auto; auto|]. split; [congruence|]. intros; rewrite H3 by auto; auto.
Qed.
Lemma pg_pos last groups shape idx : (2 <= length shape)%nat -> (1 <= groups)%nat -> (gn_channel last shape mod groups = 0)%nat -> fits shape idx -> (1 <= gn_channel last shape / groups)%nat.
Proof.
  intros L Hg M H. pose proof (exact_div _ _ Hg M) as E. apply fits_nth in H as [HL H]. rewrite channel_nth in E |- *.
  assert (channel_axis (length shape) last < length shape)%nat by (unfold channel_axis; destruct last; lia). specialize (H _ H0). nia.
Qed.
Lemma mean_perm l m : Permutation l m -> mean l = mean m.
Proof. intros H. unfold mean. now rewrite (Rsum_perm _ _ H), (Permutation_length H). Qed.
Lemma variance_perm l m : Permutation l m -> variance l = variance m.
Proof. intros H. unfold variance. rewrite (mean_perm _ _ H). apply mean_perm. now apply Permutation_map. Qed.

(** The reduced axes of the grouped array give such a list. *)
Lemma cell_grouped last groups axis shape idx : gn_args last groups axis shape -> fits shape idx ->
  let pg := (gn_channel last shape / groups)%nat in
  cell last groups axis shape idx (map (gn_ungroup last pg) (ln_cell (gn_axis (Z.of_nat (length shape)) last axis) (gn_grouped_shape last groups shape) (gn_group last pg idx))).
Proof.
  intros (L & Hg & M & Hax) Hf pg. set (gs := gn_grouped_shape last groups shape).
  set (ax := gn_axis (Z.of_nat (length shape)) last axis).
  pose proof (group_fits last groups shape idx L Hg M Hf) as Gf. fold pg gs in Gf. pose proof (pg_pos last groups shape idx L Hg M Hf) as Hpg. fold pg in Hpg.
  destruct (C68_cell ax gs (gn_group last pg idx) Gf) as [NC HC]. split.
  - assert (F : forall g, In g (ln_cell ax gs (gn_group last pg idx)) -> gn_group last pg (gn_ungroup last pg g) = g).
    { intros g H. apply HC in H as [H _]. now apply ungroup_fits in H. }
    clear HC. induction (ln_cell ax gs (gn_group last pg idx)) as [|g cl IH]; [constructor|]. cbn [map]. inversion NC; subst. constructor.
    + intros H. apply in_map_iff in H as (g' & E & H). assert (g' = g); [|congruence]. rewrite <- (F g (or_introl eq_refl)), <- (F g' (or_intror H)). now rewrite E.
    + apply IH; [assumption|]. intros g' H. apply F. now right.
  - intros j. fold pg. rewrite in_map_iff. split.
    + intros (g & <- & H). apply HC in H as [Fg H]. destruct (ungroup_fits last groups shape g L Hg M Fg) as [Fu E]. fold pg in Fu, E. split; [exact Fu|].
      apply (together_group last pg axis shape); [exact L|exact Hpg|exact Hax|now apply fits_length|now apply fits_length|]. rewrite E. unfold gs in H. rewrite grouped_length in H by exact L. exact H.
    + intros [Fj T]. exists (gn_group last pg j). split; [apply ungroup_group; rewrite (fits_length _ _ Fj); exact L|]. apply HC. split; [now apply group_fits|].
      unfold gs. rewrite grouped_length by exact L. apply together_group; [exact L|exact Hpg|exact Hax|now apply fits_length|now apply fits_length|exact T].
Qed.
Lemma cell_exists last groups axis shape idx : gn_args last groups axis shape -> fits shape idx -> exists l, cell last groups axis shape idx l.
Proof. intros A Hf. eexists. now apply cell_grouped. Qed.

(** Every entry becomes (x - mean) / sqrt(var + eps) * scale + offset, with the mean and the variance of the entries normalised together
    with it, however they are listed. *)
Theorem C85_formula eps last groups axis shape scale offset x : gn_args last groups axis shape ->
  exists f, group_norm eps last groups axis shape scale offset x = Some f /\
  forall idx l, fits shape idx -> cell last groups axis shape idx l ->
    f idx = (x idx - mean (map x l)) / sqrt (variance (map x l) + eps) * gn_factor last 1 scale idx + gn_factor last 0 offset idx.
Proof.
  intros A. pose proof A as (L & Hg & M & Hax). unfold group_norm. rewrite np_axes_nonneg by now apply gn_axis_bound. eexists. split; [reflexivity|]. cbv beta zeta.
  intros idx l Hf C. set (pg := (gn_channel last shape / groups)%nat) in *. pose proof (cell_grouped last groups axis shape idx A Hf) as C'. cbv zeta in C'. fold pg in C'.
  set (cl := ln_cell _ _ _) in *.
  assert (P : Permutation (map x l) (map (fun g => x (gn_ungroup last pg g)) cl)).
  { rewrite <- (map_map (gn_ungroup last pg) x). apply Permutation_map. destruct C as [N1 H1], C' as [N2 H2]. apply NoDup_Permutation; [exact N1|exact N2|]. intros j. now rewrite H1, H2. }
  rewrite <- (mean_perm _ _ P), <- (variance_perm _ _ P). reflexivity.
Qed.
Print Assumptions C85_formula.

(** Nothing outside the cell matters; so with the default axes an example's result does not depend on the rest of the batch, and a group's
    not on the other groups. *)
Theorem C85_local eps last groups axis shape scale offset x y f g idx l : gn_args last groups axis shape ->
  group_norm eps last groups axis shape scale offset x = Some f -> group_norm eps last groups axis shape scale offset y = Some g ->
  fits shape idx -> cell last groups axis shape idx l -> (forall j, In j l -> x j = y j) -> f idx = g idx.
Proof.
  intros A Ef Eg Hf C E. destruct (C85_formula eps last groups axis shape scale offset x A) as (f' & E1 & F1). destruct (C85_formula eps last groups axis shape scale offset y A) as (g' & E2 & F2).
  rewrite Ef in E1. injection E1 as <-. rewrite Eg in E2. injection E2 as <-. rewrite (F1 idx l), (F2 idx l) by assumption.
  rewrite (map_ext_in x y) by exact E. rewrite (E idx); [reflexivity|]. apply C. split; [exact Hf|]. unfold together. auto.
Qed.
Print Assumptions C85_local.
(** With the default axes (all but the first) example [b] of the result depends only on the same group of channels of example [b]. *)
Theorem C85_example eps last groups shape scale offset x y f g idx : gn_args last groups (map Z.of_nat (seq 1 (length shape - 1))) shape ->
  let axis := map Z.of_nat (seq 1 (length shape - 1)) in let pg := (gn_channel last shape / groups)%nat in
  group_norm eps last groups axis shape scale offset x = Some f -> group_norm eps last groups axis shape scale offset y = Some g -> fits shape idx ->
  (forall j, fits shape j -> nth 0 j 0%nat = nth 0 idx 0%nat -> (gn_channel last j / pg = gn_channel last idx / pg)%nat -> x j = y j) -> f idx = g idx.
Proof.
  intros A axis pg Ef Eg Hf E. destruct (cell_exists last groups axis shape idx A Hf) as [l C]. refine (C85_local _ _ _ _ _ _ _ _ _ _ _ _ l A Ef Eg Hf C _).
  intros j Hj. apply C in Hj as [Fj (T1 & T2 & _)]. pose proof A as (L & _). rewrite (fits_length _ _ Hf) in *.
  apply E; [exact Fj| |].
  - symmetry. apply T1; [lia|unfold channel_axis; destruct last; lia|]. intros H. apply in_map_iff in H as (k & Hk & H). apply in_seq in H. lia.
  - rewrite !channel_nth. rewrite (fits_length _ _ Fj), (fits_length _ _ Hf). symmetry. exact T2.
Qed.
Print Assumptions C85_example.

(** Where scale and offset are constant over a cell, the results of the cell have mean [offset] and variance scale^2 var/(var+eps). *)
Theorem C85_moments eps last groups axis shape scale offset x f idx l s o : gn_args last groups axis shape -> 0 < eps ->
  group_norm eps last groups axis shape scale offset x = Some f -> fits shape idx -> cell last groups axis shape idx l ->
  (forall j, In j l -> gn_factor last 1 scale j = s /\ gn_factor last 0 offset j = o) ->
  let v := variance (map x l) in mean (map f l) = o /\ variance (map f l) = square s * (v / (v + eps)).
Proof.
  intros A He Ef Hf C Hso v. destruct (C85_formula eps last groups axis shape scale offset x A) as (f' & E1 & F1). rewrite Ef in E1. injection E1 as <-.
  assert (Hin : In idx l) by (apply C; split; [exact Hf|unfold together; auto]).
  assert (E : map f l = map (fun z => s / sqrt (v + eps) * z + (o - s / sqrt (v + eps) * mean (map x l))) (map x l)).
  { rewrite map_map. apply map_ext_in. intros j Hj. destruct (Hso j Hj) as [Es Eo]. apply C in Hj as [Fj T].
    assert (Cj : cell last groups axis shape j l).
    { destruct C as [ND Hl]. assert (Lij : length idx = length j) by (rewrite (fits_length shape idx), (fits_length shape j) by assumption; reflexivity). split; [exact ND|]. intros k. specialize (Hl k). rewrite Hl.
      split; intros [Fk Tk]; (split; [exact Fk|]); [eapply together_trans; [|apply together_sym; [|exact T]|exact Tk]; congruence|eapply together_trans; [exact Lij|exact T|exact Tk]]. }
    rewrite (F1 j l Fj Cj), Es, Eo. fold v. unfold Rdiv. ring. }
  assert (Hne : map x l <> []) by (destruct l; [destruct Hin|discriminate]).
  pose proof (variance_nonneg (map x l)) as Hv. fold v in Hv. rewrite E, mean_affine, variance_affine by exact Hne. split; [ring|]. fold v.
  unfold square, Rdiv. rewrite <- (sqrt_sqrt (v + eps)) at 3 by lra. pose proof (sqrt_lt_R0 (v + eps) ltac:(lra)). field. lra.
Qed.
Print Assumptions C85_moments.
(** Adding a number to all entries of a cell changes nothing; multiplying them by [a > 0] divides eps by its square. A cell of equal entries
    gives the offset. *)
Theorem C85_affine eps last groups axis shape scale offset x y f g idx l a b : gn_args last groups axis shape -> 0 < eps -> 0 < a ->
  group_norm (eps / square a) last groups axis shape scale offset x = Some f -> group_norm eps last groups axis shape scale offset y = Some g ->
  fits shape idx -> cell last groups axis shape idx l -> (forall j, In j l -> y j = a * x j + b) -> g idx = f idx.
Proof.
  intros A He Ha Ef Eg Hf C E. destruct (C85_formula (eps / square a) last groups axis shape scale offset x A) as (f' & E1 & F1). destruct (C85_formula eps last groups axis shape scale offset y A) as (g' & E2 & F2).
  rewrite Ef in E1. injection E1 as <-. rewrite Eg in E2. injection E2 as <-. rewrite (F1 idx l), (F2 idx l) by assumption.
  assert (Hin : In idx l) by (apply C; split; [exact Hf|unfold together; auto]).
  rewrite (map_ext_in y (fun j => a * x j + b)) by exact E. rewrite <- (map_map x (fun z => a * z + b)).
  assert (Hne : map x l <> []) by (destruct l; [destruct Hin|discriminate]). rewrite mean_affine, variance_affine by exact Hne. rewrite (E idx Hin).
  pose proof (variance_nonneg (map x l)) as Hv. set (v := variance (map x l)) in *. set (m := mean (map x l)).
  f_equal. f_equal. assert (Hs : 0 < square a) by (apply Rmult_lt_0_compat; lra).
  assert (0 < v + eps / square a) by (pose proof (Rdiv_lt_0_compat _ _ He Hs); lra).
  replace (square a * v + eps) with (square a * (v + eps / square a)) by (field; lra).
  rewrite sqrt_mult by lra. unfold square at 1. rewrite sqrt_square by lra. pose proof (sqrt_lt_R0 (v + eps / square a) ltac:(lra)). field. lra.
Qed.
Print Assumptions C85_affine.
Theorem C85_constant eps last groups axis shape scale offset x f idx l : gn_args last groups axis shape ->
  group_norm eps last groups axis shape scale offset x = Some f -> fits shape idx -> cell last groups axis shape idx l ->
  (forall j, In j l -> x j = x idx) -> f idx = gn_factor last 0 offset idx.
Proof.
  intros A Ef Hf C E. destruct (C85_formula eps last groups axis shape scale offset x A) as (f' & E1 & F1). rewrite Ef in E1. injection E1 as <-. rewrite (F1 idx l) by assumption.
  assert (Hin : In idx l) by (apply C; split; [exact Hf|unfold together; auto]).
  assert (Em : mean (map x l) = x idx).
  { rewrite (map_ext_in x (fun _ => x idx)) by exact E. unfold mean. rewrite map_length. clear C F1 E. rewrite Rsum_const. unfold Rdiv. field.
    destruct l; [destruct Hin|]. apply not_0_INR. discriminate. }
  rewrite Em. unfold Rdiv. ring.
Qed.
Print Assumptions C85_constant.

(** ** The two ends: one group is LayerNorm, as many groups as channels InstanceNorm *)
Definition gn_to_ln (default : R) (s : gn_source) : ln_source := match s with GParam p => LParam p | GArg a => LArg a | GNone => LDefault default end.
Theorem C85_one_group eps shape scale offset x f idx : (2 <= length shape)%nat -> fits shape idx ->
  let axis := map Z.of_nat (seq 1 (length shape - 1)) in group_norm eps true 1 axis shape scale offset x = Some f ->
  f idx = layer_norm eps (ln_axes (length shape) (AxSlice 1 false)) shape (gn_to_ln 1 scale) (gn_to_ln 0 offset) x idx.
Proof.
  intros L Hf axis Ef.
  assert (A : gn_args true 1 axis shape).
  { split; [exact L|]. split; [lia|]. split; [apply Nat.mod_1_r|]. apply Forall_forall. intros a Ha. apply in_map_iff in Ha as (k & <- & Hk). apply in_seq in Hk. lia. }
  destruct (C85_formula eps true 1 axis shape scale offset x A) as (f' & E1 & F1). rewrite Ef in E1. injection E1 as <-.
  set (ax := ln_axes (length shape) (AxSlice 1 false)).
  assert (C : cell true 1 axis shape idx (ln_cell ax shape idx)).
  { destruct (C68_cell ax shape idx Hf) as [ND H]. split; [exact ND|]. intros j. rewrite H. split; intros [Fj T]; (split; [exact Fj|]).
    - unfold together. rewrite (fits_length _ _ Hf). split; [|split].
      + intros a Ha Hc Hn. symmetry. apply T; [exact Ha|]. exact Hn.
      + assert (B : forall i, fits shape i -> (nth (channel_axis (length shape) true) i 0 < gn_channel true shape)%nat) by (intros i Fi; rewrite channel_nth; apply fits_nth in Fi as [_ Fi]; apply Fi; unfold channel_axis; lia).
        rewrite Nat.div_1_r. now rewrite !Nat.div_small by (now apply B).
      + intros Hn. exfalso. apply Hn. apply in_map_iff. exists (length shape - 1)%nat. split; [reflexivity|]. apply in_seq. lia.
    - intros d Hd Hn. assert (d = 0)%nat as ->.
      { destruct d as [|d]; [reflexivity|]. exfalso. apply Hn. apply in_map_iff. exists (S d). split; [reflexivity|]. apply in_seq. lia. }
      symmetry. destruct T as [T _]. rewrite (fits_length _ _ Hf) in T. apply T; [lia|unfold channel_axis; lia|exact Hn]. }
  rewrite (F1 idx _ Hf C). unfold layer_norm, Rdiv.
  assert (G : forall d s, gn_factor true d s idx = ln_factor (gn_to_ln d s) idx) by (intros d [p|a|]; reflexivity). rewrite !G. ring.
Qed.
Print Assumptions C85_one_group.
(** With as many groups as channels, without scale and offset, in both formats. *)
Theorem C85_all_groups eps last shape x f idx : (2 <= length shape)%nat -> fits shape idx ->
  let axis := map Z.of_nat (seq 1 (length shape - 1)) in group_norm eps last (gn_channel last shape) axis shape GNone GNone x = Some f ->
  f idx = layer_norm eps (ln_axes (length shape) (in_axis (negb last))) shape (LDefault 1) (LDefault 0) x idx.
Proof.
  intros L Hf axis Ef. set (n := gn_channel last shape) in *.
  assert (Hc : (channel_axis (length shape) last < length shape)%nat) by (unfold channel_axis; destruct last; lia).
  assert (Hn : (1 <= n)%nat) by (unfold n; rewrite channel_nth; apply fits_nth in Hf as [_ Hf]; specialize (Hf _ Hc); lia).
  assert (A : gn_args last n axis shape).
  { split; [exact L|]. split; [exact Hn|]. split; [now apply Nat.mod_same; lia|]. apply Forall_forall. intros a Ha. apply in_map_iff in Ha as (k & <- & Hk). apply in_seq in Hk. lia. }
  destruct (C85_formula eps last n axis shape GNone GNone x A) as (f' & E1 & F1). rewrite Ef in E1. injection E1 as <-.
  set (ax := ln_axes (length shape) (in_axis (negb last))).
  assert (Hax : forall d, (d < length shape)%nat -> normalised ax d <-> d <> 0%nat /\ d <> channel_axis (length shape) last).
  { intros d Hd. destruct (C68_axes (length shape) d Hd) as (_ & B1 & B2). unfold ax, channel_axis. destruct last; assumption. }
  assert (Hin : forall d, (d < length shape)%nat -> In (Z.of_nat d) axis <-> d <> 0%nat).
  { intros d Hd. unfold axis. rewrite in_map_iff. split.
    - intros (k & E & Hk). apply in_seq in Hk. lia.
    - intros H. exists d. split; [reflexivity|]. apply in_seq. lia. }
  assert (C : cell last n axis shape idx (ln_cell ax shape idx)).
  { destruct (C68_cell ax shape idx Hf) as [ND H]. split; [exact ND|]. intros j. rewrite H. unfold together. rewrite (fits_length _ _ Hf). fold n. rewrite Nat.div_same by lia. rewrite !Nat.div_1_r.
    split; intros [Fj T]; (split; [exact Fj|]).
    - split; [|split].
      + intros a Ha Hca Hni. symmetry. apply T; [exact Ha|]. rewrite Hax by exact Ha. rewrite Hin in Hni by exact Ha. lia.
      + symmetry. apply T; [exact Hc|]. rewrite Hax by exact Hc. lia.
      + intros _. symmetry. apply T; [exact Hc|]. rewrite Hax by exact Hc. lia.
    - destruct T as (T1 & T2 & _). intros d Hd Hnd. rewrite Hax in Hnd by exact Hd. destruct (Nat.eq_dec d (channel_axis (length shape) last)) as [->|Hne]; [now symmetry|].
      symmetry. apply T1; [exact Hd|exact Hne|]. rewrite Hin by exact Hd. lia. }
  rewrite (F1 idx _ Hf C). unfold layer_norm, Rdiv. cbn [gn_factor ln_factor]. ring.
Qed.
Print Assumptions C85_all_groups.

(** The class docstring divides by the standard deviation plus eps; the code does not. *)
Theorem C85_docstring_refuted : ~ (forall eps last groups axis shape scale offset x f idx l, gn_args last groups axis shape -> 0 < eps ->
  group_norm eps last groups axis shape scale offset x = Some f -> fits shape idx -> cell last groups axis shape idx l ->
  f idx = gn_factor last 1 scale idx * ((x idx - mean (map x l)) / (sqrt (variance (map x l)) + eps)) + gn_factor last 0 offset idx).
Proof.
  intros H. set (x := fun i => INR (2 * nth 1 i 0%nat)).
  assert (A : gn_args true 1 [1]%Z [1; 2]%nat) by (repeat split; cbn; try lia; repeat constructor; lia).
  assert (F : fits [1; 2]%nat [0; 1]%nat) by (repeat constructor).
  assert (C : cell true 1 [1]%Z [1; 2]%nat [0; 1]%nat [[0; 0]; [0; 1]]%nat).
  { split; [repeat constructor; cbn; intuition discriminate|]. intros j. cbn [In]. split.
    - intros [<-|[<-|[]]]; (split; [repeat constructor|]); (split; [intros [|[|a]] Ha; cbn in *; try lia; reflexivity|]); (split; [reflexivity|]); cbn; intros K; exfalso; apply K; auto.
    - intros [Fj _]. inversion Fj as [|? a ? j' Ha Fj']; subst. inversion Fj' as [|? b ? j'' Hb Fj'']; subst. inversion Fj''; subst.
      destruct a as [|a]; [|lia]. destruct b as [|[|b]]; [auto|auto|lia]. }
  destruct (C85_formula 1 true 1 [1]%Z [1; 2]%nat GNone GNone x A) as (f & Ef & Ff). specialize (Ff _ _ F C).
  specialize (H 1 true 1%nat [1]%Z [1; 2]%nat GNone GNone x f _ _ A ltac:(lra) Ef F C). rewrite Ff in H. cbn [gn_factor map] in H.
  assert (Em : mean [x [0; 0]%nat; x [0; 1]%nat] = 1) by (unfold mean, x, Rsum; cbn; lra).
  assert (Ev : variance [x [0; 0]%nat; x [0; 1]%nat] = 1) by (unfold variance; rewrite Em; unfold mean, x, Rsum, square; cbn; lra).
  rewrite Em, Ev in H. assert (Ex : x [0; 1]%nat = 2) by (unfold x; cbn; lra). rewrite Ex, sqrt_1 in H.
  assert (S2 : sqrt (1 + 1) * sqrt (1 + 1) = 2) by (rewrite sqrt_sqrt; lra). pose proof (sqrt_lt_R0 (1 + 1) ltac:(lra)).
  assert (sqrt (1 + 1) = 2); [|nra]. set (r := sqrt (1 + 1)) in *. apply (f_equal (fun t => t * r)) in H. replace (((2 - 1) / r * 1 + 0) * r) with 1 in H by (field; lra). lra.
Qed.
Print Assumptions C85_docstring_refuted.

(** Two examples, four channels in two groups: the entries normalised with the last channel of the second example. *)
Example C85_cell_example : cell true 2 [1]%Z [2; 4]%nat [1; 3]%nat [[1; 2]; [1; 3]]%nat.
Proof.
  split; [repeat constructor; cbn; intuition discriminate|]. intros j. cbn [In]. split.
  - intros [<-|[<-|[]]]; (split; [repeat constructor|]); (split; [intros [|[|a]] Ha; cbn in *; try lia; reflexivity|]); (split; [reflexivity|]); cbn; intros K; exfalso; apply K; auto.
  - intros [Fj (T1 & T2 & _)]. inversion Fj as [|? a ? j' Ha Fj']; subst. inversion Fj' as [|? b ? j'' Hb Fj'']; subst. inversion Fj''; subst.
    specialize (T1 0%nat ltac:(cbn; lia) ltac:(cbn; lia)). cbn in T1. assert (a = 1%nat) as -> by (symmetry; apply T1; intros [K|[]]; discriminate).
    destruct b as [|[|[|[|b]]]]; cbn in T2; try discriminate; auto. lia.
Qed.
Example C85_example_values : exists f, group_norm 0 true 2 [1]%Z [2; 4]%nat (GParam [1; 1; 2; 2]) (GParam [0; 0; 0; 5]) (fun i => INR (nth 1 i 0%nat * nth 1 i 0%nat)) = Some f /\
  f [1; 3]%nat = 7 /\ f [1; 2]%nat = -2.
Proof.
  destruct (C85_formula 0 true 2 [1]%Z [2; 4]%nat (GParam [1; 1; 2; 2]) (GParam [0; 0; 0; 5]) (fun i => INR (nth 1 i 0%nat * nth 1 i 0%nat))) as (f & Ef & Ff).
  { repeat split; cbn; try lia. repeat constructor; lia. }
  exists f. split; [exact Ef|].
  assert (Em : mean [4; 9] = 13 / 2) by (unfold mean, Rsum; cbn; lra).
  assert (Ev : variance [4; 9] = 5 / 2 * (5 / 2)) by (unfold variance; rewrite Em; unfold mean, Rsum, square; cbn; lra).
  assert (C2 : cell true 2 [1]%Z [2; 4]%nat [1; 2]%nat [[1; 2]; [1; 3]]%nat).
  { destruct C85_cell_example as [ND H]. split; [exact ND|]. intros j. rewrite H. split; intros [Fj T]; (split; [exact Fj|]).
    - eapply together_trans; [| |exact T]; [reflexivity|]. split; [intros [|[|a]] Ha; cbn in *; try lia; reflexivity|]. split; [reflexivity|]. cbn. intros K. exfalso. apply K. auto.
    - eapply together_trans; [| |exact T]; [reflexivity|]. split; [intros [|[|a]] Ha; cbn in *; try lia; reflexivity|]. split; [reflexivity|]. cbn. intros K. exfalso. apply K. auto. }
  rewrite (Ff [1; 3]%nat _ ltac:(repeat constructor) C85_cell_example), (Ff [1; 2]%nat _ ltac:(repeat constructor) C2). cbn [map nth gn_factor gn_channel List.last].
  replace (INR (2 * 2)) with 4 by (cbn; lra). replace (INR (3 * 3)) with 9 by (cbn; lra). rewrite Em, Ev, Rplus_0_r, sqrt_square by lra. split; field.
Qed.

(** C78: ConvNDTranspose is the transpose of ConvND. *)
From Coq Require Import Reals ZArith List Bool Lia Lra.
From Verif Require Import ModelShape ProofsShape Properties10 ModelReal Properties14 Properties22 ModelConv Properties33.
Import ListNotations.
Local Open Scope R_scope.

(** ** Sums over boxes as sums over lists *)
Definition lsum {A} (l : list A) (f : A -> R) : R := Rsum (map f l).
Fixpoint box (sizes : list Z) : list (list Z) :=
  match sizes with [] => [[]] | n :: sizes => flat_map (fun i => map (cons i) (box sizes)) (zseq n) end.
Lemma lsum_app {A} (l m : list A) f : lsum (l ++ m) f = lsum l f + lsum m f.
Proof. unfold lsum. now rewrite map_app, Rsum_app. Qed.
Lemma bsum_lsum sizes : forall f, bsum sizes f = lsum (box sizes) f.
Proof.
  induction sizes as [|n sizes IH]; intros f; cbn [bsum box]; [unfold lsum; cbn; ring|]. unfold zsum.
  induction (zseq n) as [|i l IHl]; [reflexivity|]. cbn [map flat_map]. rewrite Rsum_cons, lsum_app, IHl, IH. f_equal. unfold lsum. now rewrite map_map.
Qed.
Lemma zsum_lsum n f : zsum n f = lsum (zseq n) f.
Proof. reflexivity. Qed.
Lemma in_box_iff sizes : forall l, In l (box sizes) <-> in_box sizes l.
Proof.
  induction sizes as [|n sizes IH]; intros l; cbn [box].
  - split; [intros [<-|[]]; constructor|intros H; inversion H; now left].
  - rewrite in_flat_map. split.
    + intros [i [Hi H]]. apply in_map_iff in H as [m [<- Hm]]. constructor; [now apply in_zseq|now apply IH].
    + intros H. inversion H as [|? i ? m Hi Hm]; subst. exists i. split; [now apply in_zseq|]. apply in_map. now apply IH.
Qed.
Lemma lsum_ext {A} (l : list A) f g : (forall x, In x l -> f x = g x) -> lsum l f = lsum l g.
Proof. apply Rsum_ext. Qed.
Lemma lsum_plus {A} (l : list A) f g : lsum l (fun x => f x + g x) = lsum l f + lsum l g.
Proof. apply Rsum_plus. Qed.
Lemma lsum_scale {A} (l : list A) c f : lsum l (fun x => c * f x) = c * lsum l f.
Proof. unfold lsum. now rewrite <- Rsum_scale, map_map. Qed.
Lemma lsum_0 {A} (l : list A) : lsum l (fun _ => 0) = 0.
Proof. unfold lsum. rewrite Rsum_const. ring. Qed.
Lemma lsum_swap {A B} (l : list A) (m : list B) f : lsum l (fun x => lsum m (fun y => f x y)) = lsum m (fun y => lsum l (fun x => f x y)).
Proof.
  induction l as [|a l IH].
  - change (lsum [] (fun x => lsum m (fun y => f x y))) with 0. symmetry. apply (lsum_0 m).
  - change (lsum (a :: l) (fun x => lsum m (fun y => f x y))) with (lsum m (fun y => f a y) + lsum l (fun x => lsum m (fun y => f x y))).
    rewrite IH, <- lsum_plus. reflexivity.
Qed.
(** The last of five sums first; four sums in reverse. *)
Lemma lsum_front {A B C D E} (la : list A) (lb : list B) (lc : list C) (ld : list D) (le : list E) f :
  lsum la (fun a => lsum lb (fun b => lsum lc (fun c => lsum ld (fun d => lsum le (fun e => f a b c d e))))) =
  lsum le (fun e => lsum la (fun a => lsum lb (fun b => lsum lc (fun c => lsum ld (fun d => f a b c d e))))).
Proof.
  rewrite (lsum_swap le la). apply lsum_ext. intros a _. rewrite (lsum_swap le lb). apply lsum_ext. intros b _.
  rewrite (lsum_swap le lc). apply lsum_ext. intros c _. apply lsum_swap.
Qed.
Lemma lsum_rev4 {A B C D} (la : list A) (lb : list B) (lc : list C) (ld : list D) f :
  lsum la (fun a => lsum lb (fun b => lsum lc (fun c => lsum ld (fun d => f a b c d)))) =
  lsum ld (fun d => lsum lc (fun c => lsum lb (fun b => lsum la (fun a => f a b c d)))).
Proof.
  transitivity (lsum ld (fun d => lsum la (fun a => lsum lb (fun b => lsum lc (fun c => f a b c d))))).
  - rewrite (lsum_swap ld la). apply lsum_ext. intros a _. rewrite (lsum_swap ld lb). apply lsum_ext. intros b _. apply lsum_swap.
  - apply lsum_ext. intros d _.
    transitivity (lsum lc (fun c => lsum la (fun a => lsum lb (fun b => f a b c d)))).
    + rewrite (lsum_swap lc la). apply lsum_ext. intros a _. apply lsum_swap.
    + apply lsum_ext. intros c _. apply lsum_swap.
Qed.

(** ** One summand *)
Fixpoint leqb (l m : list Z) : bool :=
  match l, m with [], [] => true | a :: l, b :: m => (a =? b)%Z && leqb l m | _, _ => false end.
Lemma zsum_delta n i f : zsum n (fun a => if (a =? i)%Z then f a else 0) = if (0 <=? i)%Z && (i <? n)%Z then f i else 0.
Proof.
  unfold zsum, zseq. rewrite map_map.
  assert (G : forall k, Rsum (map (fun x => if (Z.of_nat x =? i)%Z then f (Z.of_nat x) else 0) (seq 0 k)) = if (0 <=? i)%Z && (i <? Z.of_nat k)%Z then f i else 0).
  { induction k as [|k IH].
    - cbn. destruct (Z.leb_spec 0 i), (Z.ltb_spec i 0); try reflexivity; lia.
    - rewrite seq_S, map_app, Rsum_app, IH. cbn [map Nat.add]. rewrite Rsum_cons, Rsum_nil.
      destruct (Z.leb_spec 0 i), (Z.ltb_spec i (Z.of_nat k)), (Z.ltb_spec i (Z.of_nat (S k))), (Z.eqb_spec (Z.of_nat k) i); subst; cbn [andb]; try lia; lra. }
  rewrite G. destruct (Z.leb_spec 0 i), (Z.ltb_spec i (Z.of_nat (Z.to_nat n))), (Z.ltb_spec i n); cbn [andb]; reflexivity || lia.
Qed.
Lemma bsum_delta ns : forall q f, bsum ns (fun p => if leqb p q then f p else 0) = if inside ns q then f q else 0.
Proof.
  induction ns as [|n ns IH]; intros [|i q] f; cbn [bsum inside leqb]; try reflexivity.
  - rewrite (zsum_ext n _ (fun _ => 0)) by (intros; apply bsum_0). apply zsum_0.
  - transitivity (zsum n (fun a => if (a =? i)%Z then (fun a => if inside ns q then f (a :: q) else 0) a else 0)).
    + apply zsum_ext. intros a _. destruct (a =? i)%Z; cbn [andb]; [exact (IH q (fun l => f (a :: l)))|apply bsum_0].
    + rewrite (zsum_delta n i (fun a => if inside ns q then f (a :: q) else 0)). destruct ((0 <=? i)%Z && (i <? n)%Z), (inside ns q); reflexivity.
Qed.
(** Reversing the kernel along every axis. *)
Definition flip (ks j : list Z) : list Z := map2 (fun k j => k - 1 - j)%Z ks j.
Lemma zsum_rev n f : zsum n f = zsum n (fun i => f (n - 1 - i)%Z).
Proof.
  unfold zsum, zseq. rewrite !map_map.
  destruct (Z_le_gt_dec n 0) as [Hn|Hn]; [replace (Z.to_nat n) with 0%nat by lia; reflexivity|].
  assert (En : n = Z.of_nat (Z.to_nat n)) by lia. revert En. generalize (Z.to_nat n) as k. intros k ->. clear.
  assert (G : forall k g, Rsum (map g (seq 0 k)) = Rsum (map (fun i => g (k - 1 - i)%nat) (seq 0 k))).
  { clear. induction k as [|k IH]; intros g; [reflexivity|]. rewrite seq_S at 1. rewrite map_app, Rsum_app. cbn [map Nat.add seq]. rewrite !Rsum_cons, Rsum_nil.
    rewrite <- seq_shift, map_map. rewrite (IH g). replace (S k - 1 - 0)%nat with k by lia. rewrite Rplus_0_r, Rplus_comm. f_equal.
    apply Rsum_ext. intros i Hi. apply in_seq in Hi. f_equal. lia. }
  rewrite (G k (fun x => f (Z.of_nat x))). apply Rsum_ext. intros i Hi. apply in_seq in Hi. f_equal. lia.
Qed.
Lemma bsum_flip ks : forall f, bsum ks f = bsum ks (fun j => f (flip ks j)).
Proof.
  induction ks as [|k ks IH]; intros f; cbn [bsum flip map2]; [reflexivity|]. rewrite zsum_rev. apply zsum_ext. intros i _. apply IH.
Qed.
Lemma flip_box ks : forall j, in_box ks j -> in_box ks (flip ks j).
Proof.
  induction ks as [|k ks IH]; intros j H; inversion H; subst; [constructor|]. cbn. constructor; [lia|]. now apply IH.
Qed.
Lemma leqb_sym l : forall m, leqb l m = leqb m l.
Proof. induction l as [|a l IH]; intros [|b m]; cbn; try reflexivity. now rewrite IH, Z.eqb_sym. Qed.
Lemma taps_inside ns : forall ks ss ds rs los o j p, length ks = length ns -> length ss = length ns -> length ds = length ns -> length rs = length ns -> length los = length ns ->
  Forall (fun d => 0 < d)%Z ds -> taps (mk_axes ns ks ss ds rs los) o j = Some p -> inside ns p = true.
Proof.
  induction ns as [|n ns IH]; intros [|k ks] [|s ss] [|d ds] [|r rs] [|lo los] [|o os] [|j js] p L1 L2 L3 L4 L5 F; try discriminate; cbn [mk_axes taps].
  - now intros [= <-].
  - apply Forall_cons_iff in F as [Hd F]. unfold axis_tap. cbn [ax_n ax_k ax_stride ax_dil ax_rate ax_lo]. set (q := (o * s + j * r - lo)%Z).
    destruct ((0 <=? q)%Z && (q mod d =? 0)%Z && (q / d <? n)%Z) eqn:C; [|discriminate].
    destruct (taps _ os js) as [ps|] eqn:T; [|discriminate]. intros [= <-]. cbn [inside].
    rewrite !andb_true_iff, Z.leb_le, Z.eqb_eq, Z.ltb_lt in C. destruct C as [[C1 C2] C3].
    rewrite (IH ks ss ds rs los os js ps) by (congruence || (now injection L1) || (now injection L2) || (now injection L3) || (now injection L4) || (now injection L5) || assumption).
    rewrite andb_true_r, andb_true_iff, Z.leb_le, Z.ltb_lt. split; [apply Z.div_pos; assumption|assumption].
Qed.

(** ** The transpose *)
(** [taps] of the transposed convolution with the reversed kernel against the positions of the forward one. *)
Lemma taps_transpose t ns : forall ms ks ss pads o p j, length ms = length ns -> length ks = length ns -> length ss = length ns ->
  adjusted_pads ms ns ks ss t = Some pads -> Forall (fun s => 0 < s)%Z ss ->
  in_box ms o -> in_box ns p -> in_box ks j ->
  match taps (mk_axes ms ks (repeat 1%Z (length ns)) ss (repeat 1%Z (length ns)) (map fst pads)) p (flip ks j) with Some q => leqb o q | None => false end =
  leqb p (position ss (repeat 1%Z (length ns)) (map fst (string_pads t ns ks (repeat 1%Z (length ns)) ss)) o j).
Proof.
  induction ns as [|n ns IH]; intros [|m ms] [|k ks] [|s ss] pads o p j L1 L2 L3 A Fs Ho Hp Hj; try discriminate.
  - cbn in A. injection A as <-. inversion Ho; inversion Hp; inversion Hj; subst. reflexivity.
  - inversion Ho as [|? o0 ? os Ho0 Hos]; inversion Hp as [|? p0 ? ps Hp0 Hps]; inversion Hj as [|? j0 ? js Hj0 Hjs]; subst.
    apply Forall_cons_iff in Fs as [Hs Fs]. injection L1 as L1. injection L2 as L2. injection L3 as L3.
    cbn [adjusted_pads] in A. destruct (compute_adjusted_padding m n k s t 1) as [[lo hi]|] eqn:C; [|discriminate].
    destruct (adjusted_pads ms ns ks ss t) as [pads'|] eqn:A'; [|discriminate]. injection A as <-.
    specialize (IH ms ks ss pads' os ps js L1 L2 L3 A' Fs Hos Hps Hjs).
    cbn [length repeat mk_axes taps flip map2 map fst position string_pads leqb]. fold (flip ks js).
    replace (effective k 1) with k by (unfold effective; lia).
    pose proof (C41_transpose m n k s t lo hi o0 p0 (k - 1 - j0) ltac:(lia) ltac:(lia) ltac:(lia) ltac:(lia) C Ho0 Hp0) as E.
    unfold conv_transpose_tap, conv_tap in E. replace (k - 1 - (k - 1 - j0))%Z with j0 in E by lia.
    unfold axis_tap. cbn [ax_n ax_k ax_stride ax_dil ax_rate ax_lo]. set (q := (p0 * 1 + (k - 1 - j0) * 1 - lo)%Z) in *.
    set (lo0 := fst (lax_pads t n k s)) in *. replace (j0 * 1)%Z with j0 by lia.
    destruct (Z.eqb_spec p0 (o0 * s + j0 - lo0)) as [P|P]; cbn [andb].
    + assert (Q : q = (o0 * s)%Z) by (unfold q; lia).
      rewrite Q, Z.mod_mul, Z.div_mul, Z.eqb_refl by lia.
      replace ((0 <=? o0 * s)%Z && true && (o0 <? m)%Z)%bool with true.
      2:{ symmetry. rewrite !andb_true_iff, Z.leb_le, Z.ltb_lt. nia. }
      rewrite <- IH. destruct (taps _ ps _); [|reflexivity]. cbn [leqb]. now rewrite Z.eqb_refl.
    + destruct ((0 <=? q)%Z && (q mod s =? 0)%Z && (q / s <? m)%Z)%bool eqn:B; [|reflexivity].
      destruct (taps _ ps _) as [r|]; [|reflexivity]. cbn [leqb].
      destruct (Z.eqb_spec o0 (q / s)) as [O|O]; [|reflexivity]. exfalso. apply P.
      rewrite !andb_true_iff, Z.eqb_eq in B. destruct B as [[_ B] _]. apply Z.mod_divide in B as [z B]; [|lia].
      rewrite B, Z.div_mul in O by lia. subst z. unfold q in B. lia.
Qed.

(** The value of the layer: a convolution with stride one of the input spread out by the stride. *)
Theorem C78_formula c pads bsize ms ch w mask bias y b p a : length ms = ct_spatial c -> length (ct_kernel c) = ct_spatial c -> length (ct_stride c) = ct_spatial c ->
  length pads = ct_spatial c -> length p = ct_spatial c -> (0 <= a < ct_out c)%Z ->
  let last := ct_last c in let ones := repeat 1%Z (ct_spatial c) in
  conv_t_batched c pads (image_index last bsize ms ch) w mask bias y (image_index last b p a) =
  bsum (ct_kernel c) (fun j => zsum ch (fun ci =>
    match taps (mk_axes ms (ct_kernel c) ones (ct_stride c) ones (map fst pads)) p j with Some q => y (image_index last b q ci) | None => 0 end * opt_mul w mask (j ++ [a; ci])))
  + opt_bias bias (if last then [a] else a :: repeat 0%Z (ct_spatial c)).
Proof.
  intros L1 L2 L3 L4 L5 Ha last ones. subst last ones. unfold conv_t_batched. rewrite channel_image. set (last := ct_last c).
  assert (B : forall v, match bias with None => v | Some f => v + f (bias_index last (ct_spatial c) (image_index last b p a)) end = v + opt_bias bias (if last then [a] else a :: repeat 0%Z (ct_spatial c))).
  { intros v. destruct bias as [f|]; cbn [opt_bias]; [|ring]. f_equal. f_equal. unfold bias_index, image_index. destruct last; [|reflexivity].
    f_equal. change (b :: p ++ [a]) with ((b :: p) ++ [a]). apply last_app. }
  rewrite B. f_equal. rewrite <- L1. rewrite lax_conv_eq by (rewrite ?repeat_length; congruence). cbn zeta. apply bsum_ext. intros j Hj. apply zsum_ext. intros ci Hci.
  f_equal; [|destruct mask; reflexivity]. rewrite Z.div_1_r, (Z.div_small a) by assumption. rewrite Z.mul_0_l, Z.add_0_l. reflexivity.
Qed.
Print Assumptions C78_formula.
(** Each example of a batch is treated on its own, like an input without a batch axis, with the same mask and bias. *)
Theorem C78_per_example c pads bsize ms ch w mask bias y b p a : length ms = ct_spatial c -> length (ct_kernel c) = ct_spatial c -> length (ct_stride c) = ct_spatial c ->
  length pads = ct_spatial c -> length p = ct_spatial c -> (0 <= a < ct_out c)%Z ->
  let last := ct_last c in
  conv_t_values c pads (image_index last bsize ms ch) w mask bias y (image_index last b p a) = conv_t_batched c pads (image_index last bsize ms ch) w mask bias y (image_index last b p a) /\
  conv_t_values c pads (image_index last bsize ms ch) w mask bias y (image_index last b p a) =
  conv_t_values c pads (tl (image_index last 0 ms ch)) w mask bias (fun i => y (b :: i)) (tl (image_index last 0 p a)).
Proof.
  intros L1 L2 L3 L4 L5 Ha last. unfold conv_t_values.
  assert (E1 : Nat.eqb (length (image_index last bsize ms ch)) (S (ct_spatial c)) = false).
  { apply Nat.eqb_neq. unfold image_index. destruct last; cbn [length]; rewrite ?app_length; cbn [length]; lia. }
  assert (E2 : Nat.eqb (length (tl (image_index last 0 ms ch))) (S (ct_spatial c)) = true).
  { apply Nat.eqb_eq. unfold image_index. destruct last; cbn [tl length]; rewrite ?app_length; cbn [length]; lia. }
  rewrite E1, E2. split; [reflexivity|].
  replace (1%Z :: tl (image_index last 0 ms ch)) with (image_index last 1 ms ch) by (unfold image_index; destruct last; reflexivity).
  replace (0%Z :: tl (image_index last 0 p a)) with (image_index last 0 p a) by (unfold image_index; destruct last; reflexivity).
  unfold last. rewrite !C78_formula by assumption. f_equal. apply bsum_ext. intros j Hj. apply zsum_ext. intros ci Hci. f_equal.
  destruct (taps _ p j); [|reflexivity]. unfold image_index. destruct (ct_last c); reflexivity.
Qed.
Print Assumptions C78_per_example.

(** With the spatial shape of the input of a forward convolution as [output_shape] and the same string as padding, the layer is its transpose:
    the inner products of "output of the forward layer, y" and "x, output of the transposed layer" agree for all x and y. The kernel
    is read backwards, since [lax.conv_transpose] does not flip it; in the weights the two channel axes keep their places. *)
Theorem C78_adjoint n chx chy ks ss t last pads bsize ns ms w wt x y b :
  let c := ConvND n chy ks ss (repeat 1%Z n) (inl t) last 1 in let ct := ConvT n chx ks ss last in
  length ns = n -> length ks = n -> length ss = n -> Forall (fun s => 0 < s)%Z ss ->
  ms = out_sizes ns (pads_for c ns) ks (repeat 1%Z n) ss -> adjusted_pads ms ns ks ss t = Some pads ->
  (forall j a d, in_box ks j -> wt (flip ks j ++ [a; d]) = w (j ++ [a; d])) ->
  bsum ms (fun o => zsum chy (fun d => conv_batched c (image_index last bsize ns chx) w None None x (image_index last b o d) * y (image_index last b o d))) =
  bsum ns (fun p => zsum chx (fun a => x (image_index last b p a) * conv_t_batched ct pads (image_index last bsize ms chy) wt None None y (image_index last b p a))).
Proof.
  intros c ct L1 L2 L3 Fs Ems A Ew.
  assert (W : wf_conv c ns) by (unfold wf_conv; cbn; rewrite repeat_length; repeat split; try assumption; discriminate).
  assert (Lms : length ms = length ns).
  { rewrite Ems. apply out_sizes_length; rewrite ?repeat_length; try congruence. now apply pads_for_length. }
  assert (LP : length pads = n).
  { rewrite <- L1. clear - A Lms L1 L2 L3. revert ms ks ss pads A Lms L2 L3. rewrite <- L1. clear. induction ns as [|m ns IH]; intros [|o ms] [|k ks] [|s ss] pads A Lms L2 L3; try discriminate; cbn in A.
    - now injection A as <-.
    - destruct (compute_adjusted_padding o m k s t 1); [|discriminate]. destruct (adjusted_pads ms ns ks ss t) eqn:E; [|discriminate]. injection A as <-. cbn. f_equal.
      injection Lms as ?. injection L2 as ?. injection L3 as ?. eapply IH; eassumption. }
  pose (T := fun o d j a p => (if leqb p (position ss (repeat 1%Z n) (map fst (string_pads t ns ks (repeat 1%Z n) ss)) o j) then x (image_index last b p a) else 0) * w (j ++ [a; d]) * y (image_index last b o d)).
  transitivity (lsum (box ms) (fun o => lsum (zseq chy) (fun d => lsum (box ks) (fun j => lsum (zseq chx) (fun a => lsum (box ns) (fun p => T o d j a p)))))).
  - rewrite bsum_lsum. apply lsum_ext. intros o Ho. apply in_box_iff in Ho. pose proof (in_box_length _ _ Ho) as Lo. apply zsum_ext. intros d Hd.
    pose proof (C77_formula c bsize ns chx w None None x b o d W ltac:(congruence)) as F. cbn [c cv_last cv_groups cv_out cv_kernel cv_stride cv_rate cv_spatial opt_bias] in F.
    fold c in F. rewrite F, Rplus_0_r, Z.div_1_r. clear F. rewrite (Z.div_1_r chy), (Z.div_small d) by lia. cbn [pads_for cv_padding c cv_kernel cv_rate cv_stride].
    rewrite Rmult_comm, <- bsum_scale, bsum_lsum. apply lsum_ext. intros j Hj. rewrite <- zsum_scale. apply zsum_ext. intros a Ha.
    rewrite Z.mul_0_l, Z.add_0_l. cbn zeta. cbn [opt_mul]. rewrite <- (bsum_delta ns _ (fun q => x (image_index last b q a))), bsum_lsum.
    rewrite <- Rmult_assoc, (Rmult_comm (y _)), Rmult_assoc, Rmult_comm, <- lsum_scale. apply lsum_ext. intros p Hp. unfold T. ring.
  - rewrite lsum_front, bsum_lsum. apply lsum_ext. intros p Hp. apply in_box_iff in Hp. pose proof (in_box_length _ _ Hp) as Lp.
    rewrite lsum_rev4. apply lsum_ext. intros a Ha. apply in_zseq in Ha.
    rewrite C78_formula by (cbn; congruence || assumption). cbn [opt_bias ct ct_kernel ct_stride ct_spatial ct_last]. rewrite Rplus_0_r.
    rewrite bsum_flip, <- bsum_scale, bsum_lsum. apply lsum_ext. intros j Hj. apply in_box_iff in Hj.
    rewrite <- zsum_scale. apply lsum_ext. intros d Hd. cbn [opt_mul]. rewrite Ew by assumption.
    set (K := match taps _ p (flip ks j) with Some q => y (image_index last b q d) | None => 0 end).
    assert (EK : K = lsum (box ms) (fun o => if match taps (mk_axes ms ks (repeat 1%Z n) ss (repeat 1%Z n) (map fst pads)) p (flip ks j) with Some q => leqb o q | None => false end then y (image_index last b o d) else 0)).
    { unfold K. destruct (taps (mk_axes ms ks (repeat 1%Z n) ss (repeat 1%Z n) (map fst pads)) p (flip ks j)) as [q|] eqn:E; [|symmetry; apply lsum_0].
      rewrite <- bsum_lsum, bsum_delta. rewrite (taps_inside ms ks _ _ _ _ p (flip ks j) q) with (7 := E); try reflexivity; rewrite ?repeat_length, ?map_length; congruence || assumption. }
    rewrite EK. clear K EK. rewrite (Rmult_comm (lsum _ _)), <- Rmult_assoc, <- lsum_scale. apply lsum_ext. intros o Ho. apply in_box_iff in Ho.
    unfold T.
    rewrite <- L1, (taps_transpose t ns ms ks ss pads o p j) by (congruence || assumption).
    destruct (leqb p _); ring.
Qed.
Print Assumptions C78_adjoint.

(** Such paddings exist whenever the image is not smaller than the kernel (VALID) or not empty (SAME). *)
Theorem C78_accepts t ns : forall ks ss, length ks = length ns -> length ss = length ns ->
  Forall (fun s => 0 < s)%Z ss -> Forall (fun k => 1 <= k)%Z ks -> Forall (fun n => 1 <= n)%Z ns -> (t = PtValid -> Forall2 Z.le ks ns) ->
  let ones := repeat 1%Z (length ns) in
  exists pads, adjusted_pads (out_sizes ns (string_pads t ns ks ones ss) ks ones ss) ns ks ss t = Some pads.
Proof.
  induction ns as [|n ns IH]; intros [|k ks] [|s ss] L1 L2 Fs Fk Fn V ones; try discriminate; [eexists; reflexivity|].
  apply Forall_cons_iff in Fs as [Hs Fs], Fk as [Hk Fk], Fn as [Hn Fn]. injection L1 as L1. injection L2 as L2.
  destruct (IH ks ss L1 L2 Fs Fk Fn) as [pads E].
  { intros T. specialize (V T). now inversion V. }
  unfold ones. cbn [length repeat string_pads].
  destruct (lax_pads t n (effective k 1) s) as [lo hi] eqn:P. cbn [out_sizes adjusted_pads]. rewrite E.
  assert (N : (0 <= window_count n lo hi (effective k 1) s)%Z) by (unfold window_count; lia).
  destruct (proj2 (C41_accepts (window_count n lo hi (effective k 1) s) n k s t 1 ltac:(lia) Hk ltac:(lia) N Hn
    ltac:(intros T; specialize (V T); inversion V; subst; unfold effective; lia))) as [q Q]; [now rewrite P|].
  rewrite Q. eexists. reflexivity.
Qed.
Print Assumptions C78_accepts.

(** Without [output_shape] the result has [n * stride] positions (SAME), or as many more as the kernel exceeds the stride (VALID);
    asking for exactly this shape gives the same padding. *)
Theorem C78_default_shape n k s t : (1 <= n)%Z -> (1 <= k)%Z -> (1 <= s)%Z ->
  let o := match t with PtSame => n * s | PtValid => n * s + Z.max (k - s) 0 end%Z in
  compute_adjusted_padding n o k s t 1 = Some (conv_transpose_padding k s t) /\
  conv_transpose_size n (fst (conv_transpose_padding k s t)) (snd (conv_transpose_padding k s t)) k s = o.
Proof.
  intros Hn Hk Hs o.
  assert (A : compute_adjusted_padding n o k s t 1 = Some (conv_transpose_padding k s t)).
  { unfold compute_adjusted_padding, conv_transpose_padding, o. replace ((k - 1) * 1 + 1)%Z with k by lia. destruct t.
    - assert (E : ((n * s + s - 1) / s = n)%Z) by (apply div_unique'; lia). rewrite E, Z.eqb_refl. cbn [negb].
      assert (P : (k - 1 - Z.max 0 ((n - 1) * s + k - n * s) / 2 = if s >? k - 1 then k - 1 else (k + s - 2 + 1) / 2)%Z).
      { destruct (Z.gtb_spec s (k - 1)).
        - rewrite Z.max_l by lia. cbn. lia.
        - rewrite Z.max_r by lia. replace ((n - 1) * s + k - n * s)%Z with (k - s)%Z by lia.
          pose proof (half_bounds (k - s)). pose proof (half_bounds (k + s - 2 + 1)). lia. }
      rewrite P. do 2 f_equal. lia.
    - assert (E : ((n * s + Z.max (k - s) 0 - k + s) / s = n)%Z) by (apply div_unique'; lia). rewrite E, Z.eqb_refl. cbn [negb]. do 2 f_equal; lia. }
  split; [exact A|]. destruct (conv_transpose_padding k s t) as [lo hi]. pose proof (C41_size n o k s t 1 lo hi Hn ltac:(unfold o; destruct t; lia) Hs A) as S.
  replace (effective k 1) with k in S by (unfold effective; lia). exact S.
Qed.
Print Assumptions C78_default_shape.

(** Examples: stride two, kernel three, one channel, seven positions. *)
Definition c78_w (i : list Z) : R := nth (Z.to_nat (nth 0 i 0%Z)) [1; 10; 100] 0.
Definition c78_wt (i : list Z) : R := nth (Z.to_nat (nth 0 i 0%Z)) [100; 10; 1] 0.
Example C78_adjoint_case : adjusted_pads [3]%Z [7]%Z [3]%Z [2]%Z PtValid = Some [(2, 2)]%Z /\
  conv_batched (ConvND 1 1 [3]%Z [2]%Z [1]%Z (inl PtValid) true 1) [1; 7; 1]%Z c78_w None None (row [1; 2; 3; 4; 5; 6; 7]) [0; 1; 0]%Z = 543 /\
  conv_t_batched (ConvT 1 1 [3]%Z [2]%Z true) [(2, 2)]%Z [1; 3; 1]%Z c78_wt None None (row [1; 2; 3]) [0; 2; 0]%Z = 102.
Proof. split; [reflexivity|]. split; cbv -[Rplus Rmult IZR]; lra. Qed.
(** Without reading the kernel backwards it is not the transpose. *)
Theorem C78_unflipped_refuted :
  ~ (forall n chx chy ks ss t last pads bsize ns ms w wt x y b,
     let c := ConvND n chy ks ss (repeat 1%Z n) (inl t) last 1 in let ct := ConvT n chx ks ss last in
     length ns = n -> length ks = n -> length ss = n -> Forall (fun s => 0 < s)%Z ss ->
     ms = out_sizes ns (pads_for c ns) ks (repeat 1%Z n) ss -> adjusted_pads ms ns ks ss t = Some pads ->
     (forall j a d, in_box ks j -> wt (j ++ [a; d]) = w (j ++ [a; d])) ->
     bsum ms (fun o => zsum chy (fun d => conv_batched c (image_index last bsize ns chx) w None None x (image_index last b o d) * y (image_index last b o d))) =
     bsum ns (fun p => zsum chx (fun a => x (image_index last b p a) * conv_t_batched ct pads (image_index last bsize ms chy) wt None None y (image_index last b p a)))).
Proof.
  intros H. specialize (H 1%nat 1%Z 1%Z [2]%Z [1]%Z PtValid true [(1, 1)]%Z 1%Z [2]%Z [1]%Z c78_w c78_w (row [1; 0]) (row [1]) 0%Z eq_refl eq_refl eq_refl).
  assert (F : Forall (fun s => 0 < s)%Z [1]%Z) by (constructor; [lia|constructor]). specialize (H F eq_refl eq_refl (fun _ _ _ _ => eq_refl)).
  cbv -[Rplus Rmult IZR] in H. lra.
Qed.
Print Assumptions C78_unflipped_refuted.
Example C78_default_case : conv_transpose_padding 3 2 PtSame = (2, 1)%Z /\ conv_transpose_padding 5 2 PtValid = (4, 4)%Z /\ conv_transpose_size 4 4 4 5 2 = 11%Z.
Proof. now vm_compute. Qed.

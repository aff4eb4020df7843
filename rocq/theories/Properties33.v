(** C77: values of ConvND, DepthwiseConv2D and SeparableDepthwiseConv2D. *)
From Coq Require Import Reals ZArith List Bool Lia Lra.
From Verif Require Import ModelShape ProofsShape ModelReal Properties14 Properties22 ModelConv ModelImageNets.
Import ListNotations.
Local Open Scope R_scope.

(** ** Sums *)
Definition in_box (sizes l : list Z) : Prop := Forall2 (fun n i => 0 <= i < n)%Z sizes l.
Lemma in_zseq n i : In i (zseq n) <-> (0 <= i < n)%Z.
Proof.
  unfold zseq. rewrite in_map_iff. split.
  - intros [k [<- H]]. apply in_seq in H. lia.
  - intros H. exists (Z.to_nat i). rewrite in_seq. lia.
Qed.
Lemma zsum_ext n f g : (forall i, (0 <= i < n)%Z -> f i = g i) -> zsum n f = zsum n g.
Proof. intros H. apply Rsum_ext. intros i Hi. apply in_zseq in Hi. now apply H. Qed.
Lemma bsum_ext sizes : forall f g, (forall l, in_box sizes l -> f l = g l) -> bsum sizes f = bsum sizes g.
Proof.
  induction sizes as [|n sizes IH]; intros f g H; cbn; [apply H; constructor|].
  apply zsum_ext. intros i Hi. apply IH. intros l Hl. apply H. now constructor.
Qed.
Lemma zsum_plus n f g : zsum n (fun i => f i + g i) = zsum n f + zsum n g.
Proof. apply Rsum_plus. Qed.
Lemma zsum_scale n c f : zsum n (fun i => c * f i) = c * zsum n f.
Proof. unfold zsum. now rewrite <- Rsum_scale, map_map. Qed.
Lemma zsum_0 n : zsum n (fun _ => 0) = 0.
Proof. unfold zsum. rewrite Rsum_const. ring. Qed.
Lemma bsum_plus sizes : forall f g, bsum sizes (fun l => f l + g l) = bsum sizes f + bsum sizes g.
Proof.
  induction sizes as [|n sizes IH]; intros f g; cbn; [reflexivity|]. rewrite <- zsum_plus. apply zsum_ext. intros i _. apply IH.
Qed.
Lemma bsum_scale sizes : forall c f, bsum sizes (fun l => c * f l) = c * bsum sizes f.
Proof.
  induction sizes as [|n sizes IH]; intros c f; cbn; [reflexivity|]. rewrite <- zsum_scale. apply zsum_ext. intros i _. apply IH.
Qed.
Lemma bsum_0 sizes : bsum sizes (fun _ => 0) = 0.
Proof. induction sizes as [|n sizes IH]; cbn; [reflexivity|]. rewrite (zsum_ext n _ (fun _ => 0)) by (intros; apply IH). apply zsum_0. Qed.
Lemma zsum_1 f : zsum 1 f = f 0%Z.
Proof. change (zsum 1 f) with (f 0%Z + 0). ring. Qed.
Lemma zsum_swap n m f : zsum n (fun i => zsum m (fun j => f i j)) = zsum m (fun j => zsum n (fun i => f i j)).
Proof.
  unfold zsum at 1 4. induction (zseq n) as [|a l IH]; cbn [map].
  - rewrite Rsum_nil. symmetry. apply (zsum_0 m).
  - rewrite Rsum_cons, IH. fold (zsum m (fun j => Rsum (map (fun i => f i j) l))). rewrite <- zsum_plus.
    apply zsum_ext. intros j _. unfold zsum. cbn [map]. now rewrite Rsum_cons.
Qed.
Lemma in_box_length sizes l : in_box sizes l -> length l = length sizes.
Proof. intros H. symmetry. exact (Forall2_len _ _ _ H). Qed.

(** ** The formula *)
(** Where a kernel element meets the input, one axis at a time, and whether that is inside the image. *)
Fixpoint position (strides rates los o j : list Z) : list Z :=
  match strides, rates, los, o, j with
  | s :: strides, r :: rates, lo :: los, o :: os, j :: js => (o * s + j * r - lo)%Z :: position strides rates los os js
  | _, _, _, _, _ => []
  end.
Fixpoint inside (ns p : list Z) : bool :=
  match ns, p with
  | [], [] => true
  | n :: ns, i :: p => (0 <=? i)%Z && (i <? n)%Z && inside ns p
  | _, _ => false
  end.
Lemma taps_position ns : forall ks ss rs los o j, length ks = length ns -> length ss = length ns -> length rs = length ns -> length los = length ns ->
  length o = length ns -> length j = length ns ->
  taps (mk_axes ns ks ss (repeat 1%Z (length ns)) rs los) o j =
  if inside ns (position ss rs los o j) then Some (position ss rs los o j) else None.
Proof.
  induction ns as [|n ns IH]; intros [|k ks] [|s ss] [|r rs] [|lo los] [|o os] [|j js]; try discriminate; [reflexivity|].
  cbn [length repeat mk_axes taps position inside]. intros L1 L2 L3 L4 L5 L6. injection L1 as L1. injection L2 as L2. injection L3 as L3.
  injection L4 as L4. injection L5 as L5. injection L6 as L6. rewrite IH by assumption.
  unfold axis_tap. cbn [ax_n ax_k ax_stride ax_dil ax_rate ax_lo]. rewrite Z.mod_1_r, Z.div_1_r, Z.eqb_refl, andb_true_r.
  destruct ((0 <=? _)%Z && _)%bool; cbn [andb]; [|reflexivity]. destruct (inside ns _); reflexivity.
Qed.
Lemma write_kernel (j : list Z) ci co :
  write_spec ((length j + 1)%nat :: length j :: seq 0 (length j)) (co :: ci :: j) = j ++ [ci; co].
Proof.
  unfold write_spec. cbn [length]. rewrite seq_length. replace (S (S (length j))) with (length j + 2)%nat by lia. rewrite seq_app, map_app.
  f_equal.
  - transitivity (map (fun d => nth d j 0%Z) (seq 0 (length j))); [|exact (map_nth_seq_all j [])].
    apply map_ext_in. intros i Hi. apply in_seq in Hi. cbn [index_of].
    destruct (Nat.eqb_spec (length j + 1) i); [lia|]. destruct (Nat.eqb_spec (length j) i); [lia|].
    rewrite index_of_seq by lia. rewrite Nat.sub_0_r. reflexivity.
  - cbn [seq map Nat.add index_of]. destruct (Nat.eqb_spec (length j + 1) (length j)); [lia|]. rewrite Nat.eqb_refl.
    destruct (Nat.eqb_spec (length j + 1) (S (length j))); [|lia]. reflexivity.
Qed.
Lemma write_kernel_t (j : list Z) ci co :
  write_spec (length j :: (length j + 1)%nat :: seq 0 (length j)) (co :: ci :: j) = j ++ [co; ci].
Proof.
  unfold write_spec. cbn [length]. rewrite seq_length. replace (S (S (length j))) with (length j + 2)%nat by lia. rewrite seq_app, map_app.
  f_equal.
  - transitivity (map (fun d => nth d j 0%Z) (seq 0 (length j))); [|exact (map_nth_seq_all j [])].
    apply map_ext_in. intros i Hi. apply in_seq in Hi. cbn [index_of].
    destruct (Nat.eqb_spec (length j) i); [lia|]. destruct (Nat.eqb_spec (length j + 1) i); [lia|].
    rewrite index_of_seq by lia. rewrite Nat.sub_0_r. reflexivity.
  - cbn [seq map Nat.add index_of]. rewrite Nat.eqb_refl. destruct (Nat.eqb_spec (length j) (S (length j))); [lia|].
    destruct (Nat.eqb_spec (length j + 1) (S (length j))); [|lia]. reflexivity.
Qed.
Lemma read_kernel_t ks a b :
  read_spec (length ks :: (length ks + 1)%nat :: seq 0 (length ks)) (ks ++ [a; b]) = a :: b :: ks.
Proof.
  unfold read_spec. cbn [map nth]. f_equal; [|f_equal].
  - rewrite app_nth2, Nat.sub_diag by lia. reflexivity.
  - rewrite app_nth2 by lia. replace (length ks + 1 - length ks)%nat with 1%nat by lia. reflexivity.
  - exact (map_nth_seq_mid ks [] [a; b]).
Qed.
Definition image_index (last : bool) (b : Z) (p : list Z) (c : Z) : list Z := if last then b :: p ++ [c] else b :: c :: p.
Lemma dn_eq n last t : to_dimension_numbers n last t =
  let image := if last then 0%nat :: (n + 1)%nat :: seq 1 n else 0%nat :: 1%nat :: seq 2 n in
  ConvDN image (if t then n :: (n + 1)%nat :: seq 0 n else (n + 1)%nat :: n :: seq 0 n) image.
Proof.
  unfold to_dimension_numbers. replace (n + 2 - 1)%nat with (n + 1)%nat by lia. replace (n + 2 - 2)%nat with n by lia.
  destruct last, t; reflexivity.
Qed.
Lemma read_image last b p c : read_spec (lhs_spec (to_dimension_numbers (length p) last false)) (image_index last b p c) = b :: c :: p.
Proof. rewrite dn_eq. destruct last; [apply read_image_last|apply read_image_first]. Qed.
Lemma write_image last b p c : write_spec (lhs_spec (to_dimension_numbers (length p) last false)) (b :: c :: p) = image_index last b p c.
Proof. rewrite dn_eq. destruct last; [now apply write_last|now apply write_first]. Qed.
Lemma image_spec n last t t' : lhs_spec (to_dimension_numbers n last t) = lhs_spec (to_dimension_numbers n last t') /\ out_spec (to_dimension_numbers n last t) = lhs_spec (to_dimension_numbers n last t').
Proof. rewrite !dn_eq. now destruct last. Qed.
Lemma taps_length l : forall o j p, taps l o j = Some p -> length p = length l.
Proof.
  induction l as [|a l IH]; intros [|o os] [|j js] p; cbn; try discriminate; [now intros [= <-]|].
  destruct (axis_tap a o j); [|discriminate]. destruct (taps l os js) as [q|] eqn:E; [|discriminate]. intros [= <-]. cbn. f_equal. eauto.
Qed.
Lemma mk_axes_length ns : forall ks ss ds rs los, length ks = length ns -> length ss = length ns -> length ds = length ns -> length rs = length ns -> length los = length ns ->
  length (mk_axes ns ks ss ds rs los) = length ns.
Proof.
  induction ns as [|n ns IH]; intros [|k ks] [|s ss] [|d ds] [|r rs] [|lo los]; try discriminate; [reflexivity|].
  cbn. intros. f_equal. apply IH; congruence.
Qed.
(** [lax.conv_general_dilated] with the dimension numbers of haiku. *)
Lemma lax_conv_eq last t bsize ns ch ks a1 a2 pads ss ds rs groups x w b o co :
  length ks = length ns -> length pads = length ns -> length ss = length ns -> length ds = length ns -> length rs = length ns -> length o = length ns ->
  lax_conv (image_index last bsize ns ch) (ks ++ [a1; a2]) (to_dimension_numbers (length ns) last t) pads ss ds rs groups x w (image_index last b o co) =
  let cout := if t then a1 else a2 in let cin := if t then a2 else a1 in
  bsum ks (fun j => zsum cin (fun ci =>
    match taps (mk_axes ns ks ss ds rs (map fst pads)) o j with
    | Some p => x (image_index last b p (co / (cout / groups) * cin + ci)%Z)
    | None => 0
    end * w (j ++ (if t then [co; ci] else [ci; co])))).
Proof.
  intros L1 L2 L3 L4 L5 L6. unfold lax_conv.
  destruct (image_spec (length ns) last t false) as [E1 E2]. rewrite E1, E2.
  rewrite <- L6 at 1. rewrite read_image, read_image.
  assert (K : read_spec (rhs_spec (to_dimension_numbers (length ns) last t)) (ks ++ [a1; a2]) = (if t then a1 else a2) :: (if t then a2 else a1) :: ks).
  { rewrite dn_eq. cbn [rhs_spec]. rewrite <- L1. destruct t; [apply read_kernel_t|apply read_kernel]. }
  rewrite K. cbn zeta. apply bsum_ext. intros j Hj. apply zsum_ext. intros ci Hci. f_equal.
  - destruct (taps _ o j) as [p|] eqn:T; [|reflexivity].
    assert (Lp : length p = length ns) by (rewrite (taps_length _ _ _ _ T); apply mk_axes_length; rewrite ?map_length; congruence).
    rewrite <- Lp, write_image. reflexivity.
  - apply in_box_length in Hj. rewrite dn_eq. cbn [rhs_spec]. rewrite <- L1, <- Hj. f_equal. destruct t; [apply write_kernel_t|apply write_kernel].
Qed.

(** What the constructor and the checks of [__call__] guarantee. *)
Definition wf_conv (c : conv_nd) (ns : list Z) : Prop :=
  length ns = cv_spatial c /\ length (cv_kernel c) = cv_spatial c /\ length (cv_stride c) = cv_spatial c /\ length (cv_rate c) = cv_spatial c /\
  (forall l, cv_padding c = inr l -> length l = cv_spatial c).
Definition pads_for (c : conv_nd) (ns : list Z) : list (Z * Z) :=
  match cv_padding c with inl t => string_pads t ns (cv_kernel c) (cv_rate c) (cv_stride c) | inr l => l end.
Lemma spatial_image last b ns ch : spatial_of last (image_index last b ns ch) = ns.
Proof. destruct last; cbn; [apply removelast_snoc|reflexivity]. Qed.
Lemma channel_image last b ns ch : channel_of last (image_index last b ns ch) = ch.
Proof. destruct last; [|reflexivity]. change (b :: ns ++ [ch]) with ((b :: ns) ++ [ch]). unfold channel_of, image_index. change (b :: ns ++ [ch]) with ((b :: ns) ++ [ch]). apply last_app. Qed.
Lemma conv_pads_image c b ns ch : conv_pads c (image_index (cv_last c) b ns ch) = pads_for c ns.
Proof. unfold conv_pads. now rewrite spatial_image. Qed.
Lemma pads_for_length c ns : wf_conv c ns -> length (pads_for c ns) = length ns.
Proof.
  intros (L1 & L2 & L3 & L4 & L5). unfold pads_for. destruct (cv_padding c) as [t|l] eqn:P; [apply string_pads_length; congruence|].
  rewrite L1. now apply L5.
Qed.
Definition opt_mul (w : list Z -> R) (mask : option (list Z -> R)) (i : list Z) : R := match mask with None => w i | Some m => w i * m i end.
Definition opt_bias (bias : option (list Z -> R)) (i : list Z) : R := match bias with None => 0 | Some b => b i end.

(** The value of the layer, in both data formats: the kernel is moved over the image (not flipped), positions outside count as zero, the
    weights are multiplied by the mask, and the bias of the output channel is added. Output channel [co] belongs to group
    [co / (out / groups)] and sees the input channels of that group. *)
Theorem C77_formula c bsize ns ch w mask bias x b o co : wf_conv c ns -> length o = length ns ->
  let last := cv_last c in let cin := (ch / cv_groups c)%Z in
  conv_batched c (image_index last bsize ns ch) w mask bias x (image_index last b o co) =
  bsum (cv_kernel c) (fun j => zsum cin (fun ci =>
    (let p := position (cv_stride c) (cv_rate c) (map fst (pads_for c ns)) o j in
     if inside ns p then x (image_index last b p (co / (cv_out c / cv_groups c) * cin + ci)%Z) else 0) * opt_mul w mask (j ++ [ci; co])))
  + opt_bias bias (if last then [co] else co :: repeat 0%Z (cv_spatial c)).
Proof.
  intros W Lo last cin. pose proof W as (L1 & L2 & L3 & L4 & L5). pose proof (pads_for_length c ns W) as LP.
  subst last cin. unfold conv_batched. rewrite channel_image, conv_pads_image. set (last := cv_last c). set (cin := (ch / cv_groups c)%Z).
  rewrite <- L1.
  assert (B : forall a, match bias with None => a | Some f => a + f (bias_index last (length ns) (image_index last b o co)) end = a + opt_bias bias (if last then [co] else co :: repeat 0%Z (length ns))).
  { intros a. destruct bias as [f|]; cbn [opt_bias]; [|ring]. f_equal. f_equal. unfold bias_index, image_index. destruct last; [|reflexivity].
    f_equal. change (b :: o ++ [co]) with ((b :: o) ++ [co]). apply last_app. }
  rewrite B. f_equal. rewrite lax_conv_eq by (rewrite ?repeat_length; congruence). cbn zeta. apply bsum_ext. intros j Hj. apply zsum_ext. intros ci Hci.
  apply in_box_length in Hj. rewrite taps_position by (rewrite ?map_length; congruence).
  f_equal; [|destruct mask; reflexivity]. destruct (inside ns _); reflexivity.
Qed.
Print Assumptions C77_formula.

(** Each example of a batch is treated on its own, like an input without a batch axis. *)
Theorem C77_per_example c bsize ns ch w mask bias x b o co : wf_conv c ns -> length o = length ns ->
  let last := cv_last c in
  conv_values c (image_index last bsize ns ch) w mask bias x (image_index last b o co) =
  conv_values c (tl (image_index last 0 ns ch)) w mask bias (fun i => x (b :: i)) (tl (image_index last 0 o co)).
Proof.
  intros W Lo last. pose proof W as (L1 & L2 & L3 & L4 & L5). unfold conv_values.
  assert (E1 : Nat.eqb (length (image_index last bsize ns ch)) (S (cv_spatial c)) = false).
  { apply Nat.eqb_neq. unfold image_index. destruct last; cbn [length]; rewrite ?app_length; cbn [length]; lia. }
  assert (E2 : Nat.eqb (length (tl (image_index last 0 ns ch))) (S (cv_spatial c)) = true).
  { apply Nat.eqb_eq. unfold image_index. destruct last; cbn [tl length]; rewrite ?app_length; cbn [length]; lia. }
  rewrite E1, E2.
  replace (1%Z :: tl (image_index last 0 ns ch)) with (image_index last 1 ns ch) by (unfold image_index; destruct last; reflexivity).
  replace (0%Z :: tl (image_index last 0 o co)) with (image_index last 0 o co) by (unfold image_index; destruct last; reflexivity).
  unfold last. rewrite !C77_formula by assumption. f_equal. apply bsum_ext. intros j Hj. apply zsum_ext. intros ci Hci. f_equal.
  cbn zeta. destruct (inside ns _); [|reflexivity]. unfold image_index. destruct (cv_last c); reflexivity.
Qed.
Print Assumptions C77_per_example.

(** The two data formats compute the same, on the same weights. *)
Definition with_last (c : conv_nd) (last : bool) : conv_nd := ConvND (cv_spatial c) (cv_out c) (cv_kernel c) (cv_stride c) (cv_rate c) (cv_padding c) last (cv_groups c).
Theorem C77_formats c bsize ns ch w mask bl bf x y b o co : wf_conv c ns -> length o = length ns ->
  (forall b p i, x (b :: p ++ [i]) = y (b :: i :: p)) -> opt_bias bl [co] = opt_bias bf (co :: repeat 0%Z (cv_spatial c)) ->
  conv_batched (with_last c true) (bsize :: ns ++ [ch]) w mask bl x (b :: o ++ [co]) = conv_batched (with_last c false) (bsize :: ch :: ns) w mask bf y (b :: co :: o).
Proof.
  intros W Lo E EB. pose proof (C77_formula (with_last c true) bsize ns ch w mask bl x b o co W Lo) as F1.
  pose proof (C77_formula (with_last c false) bsize ns ch w mask bf y b o co W Lo) as F2.
  cbn [with_last cv_last image_index cv_spatial] in F1, F2. etransitivity; [exact F1|]. etransitivity; [|symmetry; exact F2]. rewrite EB. f_equal.
  apply bsum_ext. intros j Hj. apply zsum_ext. intros ci Hci. f_equal.
  change (pads_for (with_last c false) ns) with (pads_for (with_last c true) ns). cbn [cv_stride cv_rate cv_out cv_groups with_last].
  cbn zeta. destruct (inside ns _); [|reflexivity]. apply E.
Qed.
Print Assumptions C77_formats.

(** Linear in the input. *)
Theorem C77_linear c bsize ns ch w mask x y a b o co : wf_conv c ns -> length o = length ns ->
  let f x := conv_batched c (image_index (cv_last c) bsize ns ch) w mask None x (image_index (cv_last c) b o co) in
  f (fun i => a * x i + y i) = a * f x + f y.
Proof.
  intros W Lo f. unfold f. rewrite !C77_formula by assumption. cbn [opt_bias]. rewrite !Rplus_0_r. cbn zeta.
  rewrite <- bsum_scale, <- bsum_plus. apply bsum_ext. intros j Hj. rewrite <- zsum_scale, <- zsum_plus. apply zsum_ext. intros ci Hci.
  cbn zeta. destruct (inside ns _); ring.
Qed.
Print Assumptions C77_linear.

(** "Convolutions are applied separately to that many groups, then stacked together": channel [co] of group [g] is channel
    [co - g * (out / groups)] of an ungrouped convolution of the input channels of the group, with the weights of the group. *)
Definition ungrouped (c : conv_nd) : conv_nd := ConvND (cv_spatial c) (cv_out c / cv_groups c)%Z (cv_kernel c) (cv_stride c) (cv_rate c) (cv_padding c) (cv_last c) 1.
Theorem C77_groups c bsize ns ch w mask x b o g d : wf_conv c ns -> length o = length ns ->
  let last := cv_last c in let cin := (ch / cv_groups c)%Z in let cout := (cv_out c / cv_groups c)%Z in (0 <= d < cout)%Z ->
  conv_batched c (image_index last bsize ns ch) w mask None x (image_index last b o (g * cout + d)) =
  conv_batched (ungrouped c) (image_index last bsize ns cin)
    (fun i => w (firstn (cv_spatial c) i ++ [nth (cv_spatial c) i 0; g * cout + nth (cv_spatial c + 1) i 0]%Z))
    (option_map (fun m i => m (firstn (cv_spatial c) i ++ [nth (cv_spatial c) i 0; g * cout + nth (cv_spatial c + 1) i 0]%Z)) mask) None
    (fun i => x (if last then firstn (S (cv_spatial c)) i ++ [(g * cin + nth (S (cv_spatial c)) i 0)%Z] else nth 0 i 0%Z :: (g * cin + nth 1 i 0)%Z :: skipn 2 i))
    (image_index last b o d).
Proof.
  intros W Lo last cin cout Hd. pose proof W as (L1 & L2 & L3 & L4 & L5).
  assert (W' : wf_conv (ungrouped c) ns) by exact W.
  pose proof (C77_formula (ungrouped c) bsize ns cin) as F. cbn [ungrouped cv_last] in F. fold last in F. rewrite F by assumption. clear F.
  unfold last. rewrite C77_formula by assumption. fold last. fold cin cout. cbn zeta. f_equal.
  cbn [ungrouped cv_kernel cv_groups cv_stride cv_rate cv_out]. rewrite !Z.div_1_r. change (pads_for (ungrouped c) ns) with (pads_for c ns).
  assert (Eg : ((g * cout + d) / cout = g)%Z) by (rewrite Z.div_add_l by lia; rewrite Z.div_small by lia; lia).
  assert (Ed : (d / cout = 0)%Z) by (apply Z.div_small; lia).
  apply bsum_ext. intros j Hj. apply in_box_length in Hj. apply zsum_ext. intros ci Hci. fold cout; rewrite Eg, Ed. f_equal.
  - cbn zeta. destruct (inside ns _) eqn:I; [|reflexivity]. f_equal. set (p := position _ _ _ _ _) in *.
    assert (Lp : length p = cv_spatial c).
    { rewrite <- L1. clear - I. revert I. generalize p. clear. induction ns as [|n ns IH]; intros [|i p]; cbn; try discriminate; [reflexivity|].
      destruct ((0 <=? i)%Z && (i <? n)%Z); [|discriminate]. cbn. intros I. f_equal. now apply IH. }
    unfold image_index. destruct last.
    + assert (F1 : firstn (S (cv_spatial c)) (b :: p ++ [(0 * cin + ci)%Z]) = b :: p).
      { cbn [firstn]. rewrite <- Lp, firstn_app, firstn_all, Nat.sub_diag. cbn. now rewrite app_nil_r. }
      rewrite F1. cbn [nth]. rewrite app_nth2, Lp, Nat.sub_diag by lia. cbn [nth]. now rewrite Z.mul_0_l, Z.add_0_l.
    + cbn [nth skipn]. now rewrite Z.mul_0_l, Z.add_0_l.
  - assert (Lj : length j = cv_spatial c) by congruence.
    assert (K : firstn (cv_spatial c) (j ++ [ci; d]) ++ [nth (cv_spatial c) (j ++ [ci; d]) 0; g * cout + nth (cv_spatial c + 1) (j ++ [ci; d]) 0]%Z = j ++ [ci; (g * cout + d)%Z]).
    { rewrite <- Lj, firstn_app, firstn_all, Nat.sub_diag, app_nil_r, !app_nth2 by lia. replace (length j + 1 - length j)%nat with 1%nat by lia.
      rewrite Nat.sub_diag. reflexivity. }
    unfold opt_mul. destruct mask as [m|]; cbn [option_map]; now rewrite K.
Qed.
Print Assumptions C77_groups.

(** ** Without padding *)
Lemma window_inside n ek s o p : (0 < s)%Z -> (0 <= o < window_count n 0 0 ek s)%Z -> (0 <= p < ek)%Z -> (0 <= o * s + p < n)%Z.
Proof.
  intros Hs Ho Hp. unfold window_count in Ho. pose proof (Z.mul_div_le (n + 0 + 0 - ek) s Hs) as D. 
  destruct (Z.max_spec 0 ((n + 0 + 0 - ek) / s + 1)) as [[_ M]|[_ M]]; rewrite M in Ho; nia.
Qed.
Lemma valid_inside ns : forall ks ss rs o j, length ks = length ns -> length ss = length ns -> length rs = length ns ->
  Forall (fun s => 0 < s)%Z ss -> Forall (fun r => 0 < r)%Z rs ->
  in_box (out_sizes ns (string_pads PtValid ns ks rs ss) ks rs ss) o -> in_box ks j ->
  inside ns (position ss rs (map fst (string_pads PtValid ns ks rs ss)) o j) = true.
Proof.
  induction ns as [|n ns IH]; intros [|k ks] [|s ss] [|r rs] o j L1 L2 L3 Fs Fr Ho Hj; try discriminate.
  - inversion Ho; subst. inversion Hj; subst. reflexivity.
  - cbn [string_pads lax_pads out_sizes] in Ho. inversion Ho as [|? o0 ? os Ho0 Hos]; subst. inversion Hj as [|? j0 ? js Hj0 Hjs]; subst.
    apply Forall_cons_iff in Fs as [Hs Fs], Fr as [Hr Fr].
    cbn [string_pads lax_pads map fst position inside]. injection L1 as L1. injection L2 as L2. injection L3 as L3.
    rewrite IH by assumption. rewrite andb_true_r. unfold effective in Ho0.
    pose proof (window_inside n ((k - 1) * r + 1) s o0 (j0 * r) Hs Ho0 ltac:(nia)) as B.
    apply andb_true_iff. split; [apply Z.leb_le|apply Z.ltb_lt]; lia.
Qed.
Definition add2 (l m : list Z) : list Z := map2 Z.add l m.
Definition mul2 (l m : list Z) : list Z := map2 Z.mul l m.
Lemma position_valid_add ns : forall ks ss rs t o j, length ks = length ns -> length ss = length ns -> length rs = length ns ->
  length t = length ns -> length o = length ns -> length j = length ns ->
  position ss rs (map fst (string_pads PtValid ns ks rs ss)) (add2 o t) j = add2 (position ss rs (map fst (string_pads PtValid ns ks rs ss)) o j) (mul2 t ss).
Proof.
  unfold add2, mul2. induction ns as [|n ns IH]; intros [|k ks] [|s ss] [|r rs] [|t ts] [|o os] [|j js] L1 L2 L3 L4 L5 L6; try discriminate; [reflexivity|].
  cbn [string_pads lax_pads map fst position map2]. f_equal; [lia|]. apply IH; [now injection L1|now injection L2|now injection L3|now injection L4|now injection L5|now injection L6].
Qed.
Lemma position_valid_ns ns : forall ns' ks ss rs o j, length ns = length ns' -> 
  position ss rs (map fst (string_pads PtValid ns ks rs ss)) o j = position ss rs (map fst (string_pads PtValid ns' ks rs ss)) o j.
Proof.
  induction ns as [|n ns IH]; intros [|n' ns'] [|k ks] [|s ss] [|r rs] [|o os] [|j js] L; try discriminate; try reflexivity.
  cbn [string_pads lax_pads map fst position]. f_equal. apply IH. now injection L.
Qed.
(** Convolving a crop is cropping the convolution: moving the image by whole strides moves the result. *)
Theorem C77_crop c bsize ns ns' ch w mask bias x y b t o co : wf_conv c ns -> wf_conv c ns' -> cv_padding c = inl PtValid ->
  Forall (fun s => 0 < s)%Z (cv_stride c) -> Forall (fun r => 0 < r)%Z (cv_rate c) -> length t = length ns ->
  let last := cv_last c in
  let size ns := out_sizes ns (pads_for c ns) (cv_kernel c) (cv_rate c) (cv_stride c) in
  in_box (size ns') o -> in_box (size ns) (add2 o t) ->
  (forall p i, in_box ns' p -> y (image_index last b p i) = x (image_index last b (add2 p (mul2 t (cv_stride c))) i)) ->
  conv_batched c (image_index last bsize ns' ch) w mask bias y (image_index last b o co) =
  conv_batched c (image_index last bsize ns ch) w mask bias x (image_index last b (add2 o t) co).
Proof.
  intros W W' P Fs Fr Lt last size Ho Hot E. pose proof W as (L1 & L2 & L3 & L4 & L5). pose proof W' as (L1' & _).
  assert (Lsize : forall ns, wf_conv c ns -> length (size ns) = length ns).
  { intros m (M1 & M2 & M3 & M4 & M5). unfold size. apply out_sizes_length; try congruence. apply pads_for_length. now repeat split. }
  pose proof (in_box_length _ _ Ho) as Lo. rewrite (Lsize ns' W') in Lo. pose proof (in_box_length _ _ Hot) as Lot. rewrite (Lsize ns W) in Lot.
  unfold last. rewrite !C77_formula by congruence. f_equal. cbn zeta. apply bsum_ext. intros j Hj. apply zsum_ext. intros ci Hci.
  unfold size, pads_for in Ho, Hot. unfold pads_for. rewrite P in *.
  rewrite !valid_inside by (assumption || congruence). f_equal. rewrite E; [|].
  - f_equal. f_equal. apply in_box_length in Hj. rewrite (position_valid_ns ns' ns) by congruence. symmetry. apply position_valid_add; congruence.
  - apply in_box_length in Hj as Lj.
    assert (I : inside ns' (position (cv_stride c) (cv_rate c) (map fst (string_pads PtValid ns' (cv_kernel c) (cv_rate c) (cv_stride c))) o j) = true) by (apply valid_inside; assumption || congruence).
    clear - I. revert I. generalize (position (cv_stride c) (cv_rate c) (map fst (string_pads PtValid ns' (cv_kernel c) (cv_rate c) (cv_stride c))) o j).
    induction ns' as [|n ns' IH]; intros [|i p]; cbn; try discriminate; [constructor|]. rewrite !andb_true_iff, Z.leb_le, Z.ltb_lt. intros [H I].
    constructor; [assumption|]. now apply IH.
Qed.
Print Assumptions C77_crop.

(** ** Special cases *)
Lemma bsum_ones n : forall f, bsum (repeat 1%Z n) f = f (repeat 0%Z n).
Proof. induction n as [|n IH]; intros f; cbn [repeat bsum]; [reflexivity|]. rewrite zsum_1. apply IH. Qed.
Lemma lax_pads_unit t n : lax_pads t n 1 1 = (0, 0)%Z.
Proof. destruct t; [|reflexivity]. unfold lax_pads. rewrite Z.div_1_r. replace (Z.max 0 ((n + 1 - 1 - 1) * 1 + 1 - n)) with 0%Z by lia. reflexivity. Qed.
Lemma unit_position t ns : forall rs o, length rs = length ns -> length o = length ns ->
  position (repeat 1%Z (length ns)) rs (map fst (string_pads t ns (repeat 1%Z (length ns)) rs (repeat 1%Z (length ns)))) o (repeat 0%Z (length ns)) = o.
Proof.
  induction ns as [|n ns IH]; intros [|r rs] [|o os] L1 L2; try discriminate; [reflexivity|]. cbn [length repeat string_pads position map].
  replace (effective 1 r) with 1%Z by (unfold effective; lia). rewrite lax_pads_unit. cbn [fst]. f_equal; [lia|]. apply IH; [now injection L1|now injection L2].
Qed.
Lemma in_box_inside ns : forall o, in_box ns o -> inside ns o = true.
Proof.
  induction ns as [|n ns IH]; intros o H; inversion H; subst; [reflexivity|]. cbn. rewrite IH by assumption. rewrite andb_true_r, andb_true_iff, Z.leb_le, Z.ltb_lt. assumption.
Qed.
(** A kernel of size one with stride one is the same linear layer at every position. *)
Theorem C77_pointwise n cout rate t last bsize ns ch w bias x b o co : length ns = n -> length rate = n -> in_box ns o -> (0 <= co < cout)%Z ->
  conv_batched (ConvND n cout (repeat 1%Z n) (repeat 1%Z n) rate (inl t) last 1) (image_index last bsize ns ch) w None bias x (image_index last b o co) =
  zsum ch (fun ci => x (image_index last b o ci) * w (repeat 0%Z n ++ [ci; co])) + opt_bias bias (if last then [co] else co :: repeat 0%Z n).
Proof.
  intros L1 L2 Ho Hco. pose proof (in_box_length _ _ Ho) as Lo.
  set (c := ConvND n cout (repeat 1%Z n) (repeat 1%Z n) rate (inl t) last 1).
  assert (W : wf_conv c ns) by (unfold wf_conv; cbn; rewrite repeat_length; repeat split; try assumption; discriminate).
  pose proof (C77_formula c bsize ns ch w None bias x b o co W Lo) as F. cbn [c cv_last cv_kernel cv_spatial cv_groups cv_out cv_stride cv_rate] in F.
  fold c in F. rewrite F. f_equal. rewrite bsum_ones, !Z.div_1_r. apply zsum_ext. intros ci Hci. unfold pads_for. cbn [c cv_padding cv_kernel cv_rate cv_stride].
  rewrite <- L1, unit_position by congruence. cbn zeta. rewrite in_box_inside by assumption.
  rewrite (Z.div_small co cout) by assumption. rewrite Z.mul_0_l, Z.add_0_l. reflexivity.
Qed.
Print Assumptions C77_pointwise.
Lemma full_position ns : forall ss j, length ss = length ns -> length j = length ns ->
  position ss (repeat 1%Z (length ns)) (map fst (string_pads PtValid ns ns (repeat 1%Z (length ns)) ss)) (repeat 0%Z (length ns)) j = j.
Proof.
  induction ns as [|n ns IH]; intros [|s ss] [|j js] L1 L2; try discriminate; [reflexivity|]. cbn [length repeat string_pads position map lax_pads fst].
  f_equal; [lia|]. apply IH; [now injection L1|now injection L2].
Qed.
(** A kernel as large as the image, without padding, is one linear layer on all the entries of the image. *)
Theorem C77_dense n cout stride last bsize ns ch w bias x b co : length ns = n -> length stride = n -> (0 <= co < cout)%Z ->
  conv_batched (ConvND n cout ns stride (repeat 1%Z n) (inl PtValid) last 1) (image_index last bsize ns ch) w None bias x (image_index last b (repeat 0%Z n) co) =
  bsum ns (fun j => zsum ch (fun ci => x (image_index last b j ci) * w (j ++ [ci; co]))) + opt_bias bias (if last then [co] else co :: repeat 0%Z n).
Proof.
  intros L1 L2 Hco.
  set (c := ConvND n cout ns stride (repeat 1%Z n) (inl PtValid) last 1).
  assert (W : wf_conv c ns) by (unfold wf_conv; cbn; rewrite repeat_length; repeat split; try assumption; discriminate).
  pose proof (C77_formula c bsize ns ch w None bias x b (repeat 0%Z n) co W) as F. cbn [c cv_last cv_kernel cv_spatial cv_groups cv_out cv_stride cv_rate] in F.
  fold c in F. rewrite F by (rewrite repeat_length; congruence). f_equal. rewrite !Z.div_1_r. apply bsum_ext. intros j Hj. apply zsum_ext. intros ci Hci. unfold pads_for. cbn [c cv_padding cv_kernel cv_rate cv_stride].
  apply in_box_length in Hj as Lj. rewrite <- L1, full_position by congruence. cbn zeta. rewrite in_box_inside by assumption.
  rewrite (Z.div_small co cout) by assumption. rewrite Z.mul_0_l, Z.add_0_l. reflexivity.
Qed.
Print Assumptions C77_dense.

(** ** Depthwise *)
Definition dw_pads (kernel stride : list Z) (padding : padtype + list (Z * Z)) (ns : list Z) : list (Z * Z) :=
  match padding with inl t => string_pads t ns kernel [1; 1]%Z stride | inr l => l end.
(** Every output channel is a convolution of one input channel: [multiplier] consecutive output channels for each. *)
Theorem C77_depthwise m k0 k1 s0 s1 padding last bsize h w ch W bias x b o0 o1 co : (0 < ch)%Z ->
  (forall l, padding = inr l -> length l = 2%nat) ->
  depthwise_values m [k0; k1] [s0; s1] padding last (image_index last bsize [h; w] ch) W bias x (image_index last b [o0; o1] co) =
  bsum [k0; k1] (fun j =>
    (let p := position [s0; s1] [1; 1]%Z (map fst (dw_pads [k0; k1] [s0; s1] padding [h; w])) [o0; o1] j in
     if inside [h; w] p then x (image_index last b p (co / m)%Z) else 0) * W (j ++ [0%Z; co])) + opt_bias bias (if last then [co] else [co; 0; 0]%Z).
Proof.
  intros Hc L5. unfold depthwise_values, depthwise_pads. rewrite channel_image, spatial_image. fold (dw_pads [k0; k1] [s0; s1] padding [h; w]).
  assert (LP : length (dw_pads [k0; k1] [s0; s1] padding [h; w]) = 2%nat) by (destruct padding as [t|l]; [reflexivity|now apply L5]).
  assert (B : forall a, match bias with None => a | Some f => a + f (bias_index last 2 (image_index last b [o0; o1] co)) end = a + opt_bias bias (if last then [co] else [co; 0; 0]%Z)).
  { intros a. destruct bias as [f|]; cbn [opt_bias]; [|ring]. destruct last; reflexivity. }
  rewrite B. f_equal.
  pose proof (lax_conv_eq last false bsize [h; w] ch [k0; k1] 1 (m * ch) (dw_pads [k0; k1] [s0; s1] padding [h; w]) [s0; s1] [1; 1]%Z [1; 1]%Z ch x W b [o0; o1] co
    eq_refl LP eq_refl eq_refl eq_refl eq_refl) as E.
  change (length [h; w]) with 2%nat in E. rewrite E. cbn zeta. apply bsum_ext. intros j Hj. apply in_box_length in Hj. rewrite zsum_1.
  change ([1; 1]%Z) with (repeat 1%Z (length [h; w])) at 1. rewrite taps_position by (rewrite ?map_length; (assumption || reflexivity)).
  rewrite Z.div_mul by lia. rewrite Z.mul_1_r, Z.add_0_r. destruct (inside [h; w] _); reflexivity.
Qed.
Print Assumptions C77_depthwise.

(** Without padding, the separable convolution is a depthwise one with the product of the two kernels, as long as its columns are
    read with distance [s1]: the second kernel runs over the columns that the first has left. *)
Theorem C77_separable_valid m k0 k1 s0 s1 last bsize h w ch w1 w2 bias x b o0 o1 co : (0 < ch)%Z -> (0 < m)%Z -> (0 < s0)%Z -> (0 < s1)%Z -> (1 <= k0)%Z -> (1 <= k1)%Z ->
  (0 <= co < m * ch)%Z ->
  let h1 := window_count h 0 0 k0 s0 in let wd1 := window_count w 0 0 1 s1 in
  (0 <= o0 < h1)%Z -> (0 <= o1 < window_count wd1 0 0 k1 1)%Z ->
  separable_values m k0 k1 [s0; s1] (inl PtValid) last (image_index last bsize [h; w] ch) (image_index last bsize [h1; wd1] (m * ch)) w1 w2 bias x (image_index last b [o0; o1] co) =
  bsum [k0; k1] (fun j => match j with
    | [j0; j1] => x (image_index last b [o0 * s0 + j0; o1 * s1 + j1 * s1]%Z (co / m)%Z) * (w1 [j0; 0; 0; co]%Z * w2 [0; j1; 0; co]%Z)
    | _ => 0
    end) + opt_bias bias (if last then [co] else [co; 0; 0]%Z).
Proof.
  intros Hc Hm Hs0 Hs1 Hk0 Hk1 Hco h1 wd1 Ho0 Ho1. unfold separable_values.
  rewrite C77_depthwise by (discriminate || nia). f_equal. cbn [dw_pads string_pads lax_pads map fst bsum].
  rewrite zsum_1. rewrite zsum_swap. apply zsum_ext. intros j1 Hj1.
  assert (P1 : (0 <= o1 * 1 + j1 < wd1)%Z) by (apply (window_inside wd1 k1 1); [lia|exact Ho1|lia]).
  cbn [position inside]. replace (o0 * 1 + 0 * 1 - 0)%Z with o0 by lia. replace (o1 * 1 + j1 * 1 - 0)%Z with (o1 + j1)%Z by lia.
  assert (I : ((0 <=? o0) && (o0 <? h1) && ((0 <=? o1 + j1) && (o1 + j1 <? wd1) && true) = true)%Z).
  { rewrite !andb_true_iff, !Z.leb_le, !Z.ltb_lt. lia. }
  rewrite I. cbn zeta. rewrite Z.div_1_r. rewrite C77_depthwise by (discriminate || assumption).
  cbn [dw_pads string_pads lax_pads map fst bsum opt_bias app]. rewrite Rplus_0_r.
  rewrite Rmult_comm, <- zsum_scale. apply zsum_ext. intros j0 Hj0. rewrite zsum_1. cbn [position inside app].
  assert (P0 : (0 <= o0 * s0 + j0 < h)%Z) by (apply (window_inside h k0 s0); assumption).
  assert (P2 : (0 <= (o1 + j1) * s1 + 0 < w)%Z) by (apply (window_inside w 1 s1); [assumption|lia|lia]).
  replace (o0 * s0 + j0 * 1 - 0)%Z with (o0 * s0 + j0)%Z by lia. replace ((o1 + j1) * s1 + 0 * 1 - 0)%Z with (o1 * s1 + j1 * s1)%Z by lia.
  assert (I2 : ((0 <=? o0 * s0 + j0) && (o0 * s0 + j0 <? h) && ((0 <=? o1 * s1 + j1 * s1) && (o1 * s1 + j1 * s1 <? w) && true) = true)%Z).
  { rewrite !andb_true_iff, !Z.leb_le, !Z.ltb_lt. lia. }
  cbn zeta. rewrite I2. ring.
Qed.
Print Assumptions C77_separable_valid.
(** With stride one this is an ordinary depthwise convolution with the product kernel, without padding and with SAME. *)
Theorem C77_separable_unit m k0 k1 t last bsize h w ch w1 w2 w12 bias x b o0 o1 co : (0 < ch)%Z -> (0 < m)%Z -> (1 <= k0)%Z -> (1 <= k1)%Z -> (0 <= h)%Z -> (0 <= w)%Z ->
  (0 <= co < m * ch)%Z -> (forall j0 j1, w12 [j0; j1; 0; co]%Z = w1 [j0; 0; 0; co]%Z * w2 [0; j1; 0; co]%Z) ->
  let h1 := window_count h (fst (lax_pads t h k0 1)) (snd (lax_pads t h k0 1)) k0 1 in
  (0 <= o0 < h1)%Z ->
  separable_values m k0 k1 [1; 1]%Z (inl t) last (image_index last bsize [h; w] ch) (image_index last bsize [h1; w] (m * ch)) w1 w2 bias x (image_index last b [o0; o1] co) =
  depthwise_values m [k0; k1] [1; 1]%Z (inl t) last (image_index last bsize [h; w] ch) w12 bias x (image_index last b [o0; o1] co).
Proof.
  intros Hc Hm Hk0 Hk1 Hh Hw Hco E12 h1 Ho0. unfold separable_values.
  rewrite !C77_depthwise by (discriminate || nia). f_equal. cbn [dw_pads string_pads map fst bsum].
  rewrite zsum_1. rewrite zsum_swap. apply zsum_ext. intros j1 Hj1.
  assert (K : forall k, effective k 1 = k) by (intros k; unfold effective; lia). rewrite !K, !lax_pads_unit.
  cbn [position inside fst app]. cbn zeta.
  replace (o0 * 1 + 0 * 1 - 0)%Z with o0 by lia. 
  assert (I : ((0 <=? o0) && (o0 <? h1) = true)%Z) by (rewrite !andb_true_iff, !Z.leb_le, !Z.ltb_lt; lia).
  rewrite I. cbn [andb]. set (p1 := (o1 * 1 + j1 * 1 - fst (lax_pads t w k1 1))%Z).
  destruct ((0 <=? p1)%Z && (p1 <? w)%Z) eqn:I1; cbn [andb].
  - rewrite Z.div_1_r. rewrite C77_depthwise by (discriminate || assumption).
    cbn [dw_pads string_pads map fst bsum opt_bias app]. rewrite !K, !lax_pads_unit, Rplus_0_r.
    rewrite Rmult_comm, <- zsum_scale. apply zsum_ext. intros j0 Hj0. rewrite zsum_1. cbn [position inside app fst].
    replace (p1 * 1 + 0 * 1 - 0)%Z with p1 by lia. rewrite I1. cbn zeta. rewrite E12.
    destruct (_ && _)%bool; cbn [andb]; ring.
  - rewrite Rmult_0_l. symmetry. rewrite <- (zsum_0 k0). apply zsum_ext. intros j0 Hj0. rewrite andb_false_r. rewrite zsum_0. ring.
Qed.
Print Assumptions C77_separable_unit.

(** With a stride it is not the depthwise convolution with the product kernel, neither in values nor in sizes: the first convolution
    drops columns before the second one sees them. *)
Theorem C77_separable_stride_refuted :
  (exists w1 w2 w12 x, (forall j0 j1 co, w12 [j0; j1; 0; co]%Z = w1 [j0; 0; 0; co]%Z * w2 [0; j1; 0; co]%Z) /\
     separable_values 1 1 3 [2; 2]%Z (inl PtValid) true [1; 1; 7; 1]%Z [1; 1; 4; 1]%Z w1 w2 None x [0; 0; 0; 0]%Z <>
     depthwise_values 1 [1; 3]%Z [2; 2]%Z (inl PtValid) true [1; 1; 7; 1]%Z w12 None x [0; 0; 0; 0]%Z) /\
  option_map snd (separable 1 1 3 [2; 2]%Z (inl PtValid) true false [1; 1; 7; 1]%Z) = Some [1; 1; 2; 1]%Z /\
  option_map snd (depthwise 1 [1; 3]%Z [2; 2]%Z (inl PtValid) true false [1; 1; 7; 1]%Z) = Some [1; 1; 3; 1]%Z.
Proof.
  split; [|split; reflexivity].
  exists (fun _ => 1), (fun _ => 1), (fun _ => 1), (fun i => if (nth 2 i 0 =? 1)%Z then 1 else 0). split; [intros; lra|].
  cbv -[Rplus Rmult IZR]. lra.
Qed.
Print Assumptions C77_separable_stride_refuted.
(** An explicit padding is applied by both convolutions to both sides: the image grows. *)
Theorem C77_separable_padding_refuted :
  option_map snd (separable 1 3 3 [1; 1]%Z (inr [(1, 1); (1, 1)]%Z) true false [1; 5; 5; 1]%Z) = Some [1; 7; 7; 1]%Z /\
  option_map snd (depthwise 1 [3; 3]%Z [1; 1]%Z (inr [(1, 1); (1, 1)]%Z) true false [1; 5; 5; 1]%Z) = Some [1; 5; 5; 1]%Z.
Proof. split; reflexivity. Qed.
Print Assumptions C77_separable_padding_refuted.

(** Examples. *)
Definition row (l : list R) (i : list Z) : R := nth (Z.to_nat (nth 1 i 0%Z)) l 0.
Example C77_formula_case : conv_batched (ConvND 1 1 [2]%Z [1]%Z [1]%Z (inl PtSame) true 1) [1; 3; 1]%Z (fun i => nth (Z.to_nat (nth 0 i 0%Z)) [10; 100] 0) None
  (Some (fun _ => 1)) (row [1; 2; 3]) [0; 2; 0]%Z = 31.
Proof. cbv -[Rplus Rmult IZR]. lra. Qed.
Example C77_stride_case : conv_batched (ConvND 1 1 [2]%Z [2]%Z [2]%Z (inl PtValid) true 1) [1; 7; 1]%Z (fun i => nth (Z.to_nat (nth 0 i 0%Z)) [10; 100] 0) None
  None (row [1; 2; 3; 4; 5; 6; 7]) [0; 1; 0]%Z = 3 * 10 + 5 * 100.
Proof. cbv -[Rplus Rmult IZR]. lra. Qed.
Example C77_mask_case : conv_batched (ConvND 1 1 [2]%Z [1]%Z [1]%Z (inl PtValid) false 1) [1; 1; 3]%Z (fun i => nth (Z.to_nat (nth 0 i 0%Z)) [10; 100] 0)
  (Some (fun i => if (nth 0 i 0 =? 0)%Z then 0 else 1)) None (fun i => nth (Z.to_nat (nth 2 i 0%Z)) [1; 2; 3] 0) [0; 0; 1]%Z = 300.
Proof. cbv -[Rplus Rmult IZR]. lra. Qed.
(** Two groups: the second output channel sees the second input channel only. *)
Example C77_groups_case : conv_batched (ConvND 1 2 [1]%Z [1]%Z [1]%Z (inl PtValid) true 2) [1; 1; 2]%Z (fun _ => 1) None None
  (fun i => if (nth 2 i 0 =? 0)%Z then 5 else 7) [0; 0; 1]%Z = 7.
Proof. cbv -[Rplus Rmult IZR]. lra. Qed.
Example C77_depthwise_case : depthwise_values 2 [1; 1]%Z [1; 1]%Z (inl PtSame) true [1; 1; 1; 2]%Z (fun _ => 1) None (fun i => if (nth 3 i 0 =? 0)%Z then 5 else 7) [0; 0; 0; 2]%Z = 7.
Proof. cbv -[Rplus Rmult IZR]. lra. Qed.
Example C77_unbatched_case : conv_values (ConvND 1 1 [2]%Z [1]%Z [1]%Z (inl PtValid) true 1) [3; 1]%Z (fun i => nth (Z.to_nat (nth 0 i 0%Z)) [10; 100] 0) None
  None (fun i => nth (Z.to_nat (nth 0 i 0%Z)) [1; 2; 3] 0) [1; 0]%Z = 320.
Proof. cbv -[Rplus Rmult IZR]. lra. Qed.

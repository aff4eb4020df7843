(** * C106 (part 2): the gradients that a convolution passes on *)
From Coq Require Import Reals ZArith List Bool Lia Lra.
From Verif Require Import ModelNets ModelTransformer ModelTraining ModelShape ProofsShape ModelReal ModelConv ModelPool ModelGradients ModelConvGrad Properties10 Properties14 Properties22 Properties33 Properties34 Properties80 Properties84.
Import ListNotations.
Local Open Scope R_scope.

(** Input, weights and bias of a layer. *)
Inductive cvar := CX (i : list Z) | CW (i : list Z) | CB (i : list Z).
Definition cvar_eqb (u v : cvar) : bool :=
  match u, v with CX i, CX j => leqb i j | CW i, CW j => leqb i j | CB i, CB j => leqb i j | _, _ => false end.
Definition xs_of (env : cvar -> R) (i : list Z) : R := env (CX i).
Definition ws_of (env : cvar -> R) (i : list Z) : R := env (CW i).
Definition bs_of (env : cvar -> R) (i : list Z) : R := env (CB i).
(** A batch through the layer; [ct] is the gradient with respect to its output. *)
Definition out_of (c : conv_nd) (ns : list Z) : list Z := out_sizes ns (pads_for c ns) (cv_kernel c) (cv_rate c) (cv_stride c).
Definition closs (c : conv_nd) (bsize : Z) (ns : list Z) (ch : Z) (mask : option (list Z -> R)) (ct : list Z -> R) : expr cvar :=
  ezsum bsize (fun b => ebsum (out_of c ns) (fun o => ezsum (cv_out c) (fun d =>
    Mul (Const (ct (image_index (cv_last c) b o d)))
      (econv c (image_index (cv_last c) bsize ns ch) (fun i => Var (CW i)) mask (Some (fun i => Var (CB i))) (fun i => Var (CX i)) (image_index (cv_last c) b o d))))).

Lemma leqb_iff l : forall m, leqb l m = true <-> l = m.
Proof.
  induction l as [|x l IH]; intros [|y m]; cbn [leqb]; [tauto|split; discriminate..|]. rewrite andb_true_iff, IH, Z.eqb_eq. split; [intros [-> ->]; reflexivity | intros E; now injection E].
Qed.
Lemma leqb_app l : forall m l' m', length l = length m -> leqb (l ++ l') (m ++ m') = (leqb l m && leqb l' m')%bool.
Proof. induction l as [|x l IH]; intros [|y m] l' m' L; try discriminate L; cbn [app leqb]; [reflexivity|]. rewrite IH by (injection L; auto). now rewrite andb_assoc. Qed.
Lemma leqb_image last b p a b' p' a' : length p = length p' -> leqb (image_index last b p a) (image_index last b' p' a') = ((b =? b')%Z && leqb p p' && (a =? a')%Z)%bool.
Proof.
  intros L. destruct last; cbn [image_index leqb].
  - rewrite leqb_app by exact L. cbn [leqb]. now rewrite andb_true_r, andb_assoc.
  - destruct (b =? b')%Z, (a =? a')%Z, (leqb p p'); reflexivity.
Qed.
Lemma leqb_refl l : leqb l l = true.
Proof. now apply leqb_iff. Qed.
Lemma good_closs env c bsize ns ch mask ct : good env (closs c bsize ns ch mask ct).
Proof.
  assert (S : forall l, good env (esum l) <-> Forall (good env) l) by (intros l; apply good_esum).
  unfold closs. apply all_ezsum; [exact S|]. intros b. apply all_ebsum; [exact S|]. intros o. apply all_ezsum; [exact S|]. intros d. cbn [good]. split; [exact I|].
  apply (all_econv (good env) S); try (cbn [good]; tauto). intros b' i E. injection E as <-. exact I.
Qed.
Lemma differentiable_esum (l : list (expr cvar)) : differentiable (esum l) <-> Forall differentiable l.
Proof. induction l as [|e l IH]; cbn [esum fold_right differentiable]; [easy|]. fold (esum l). rewrite Forall_cons_iff. tauto. Qed.
Lemma settled_closs env dir c bsize ns ch mask ct : settled env dir (closs c bsize ns ch mask ct).
Proof.
  apply differentiable_settled. unfold closs. pose proof differentiable_esum as S. apply all_ezsum; [exact S|]. intros b. apply all_ebsum; [exact S|]. intros o. apply all_ezsum; [exact S|].
  intros d. cbn [differentiable]. split; [exact I|]. apply (all_econv differentiable S); try (cbn [differentiable]; tauto). intros b' i E. injection E as <-. exact I.
Qed.
Lemma jvp_closs env dir c bsize ns ch mask ct : jvp env dir (closs c bsize ns ch mask ct) =
  zsum bsize (fun b => bsum (out_of c ns) (fun o => zsum (cv_out c) (fun d => let shape := image_index (cv_last c) bsize ns ch in let idx := image_index (cv_last c) b o d in
    ct idx * (conv_batched c shape (ws_of env) mask None (xs_of dir) idx + conv_batched c shape (ws_of dir) mask (Some (bs_of dir)) (xs_of env) idx)))).
Proof.
  unfold closs. rewrite jvp_ezsum. apply zsum_ext. intros b _. rewrite jvp_ebsum. apply bsum_ext. intros o _. rewrite jvp_ezsum. apply zsum_ext. intros d _. cbn [jvp ev].
  rewrite (proj1 (C106_derivative env dir _ _ mask _ _ _)). rewrite Rmult_0_l, Rplus_0_l. reflexivity.
Qed.
(** Reverse mode gives the partial derivatives of the weighted sum of the outputs. *)
Theorem C106_gradient env c bsize ns ch mask ct v :
  derivable_pt_lim (fun t => let env := line env (basis cvar_eqb v) t in
    zsum bsize (fun b => bsum (out_of c ns) (fun o => zsum (cv_out c) (fun d => let idx := image_index (cv_last c) b o d in
      ct idx * conv_batched c (image_index (cv_last c) bsize ns ch) (ws_of env) mask (Some (bs_of env)) (xs_of env) idx)))) 0
    (gradient cvar_eqb env (closs c bsize ns ch mask ct) v).
Proof.
  eapply derivable_local; [|apply C103_gradient; [apply good_closs | apply settled_closs]]. apply locally_all. intros t. cbv zeta. set (e := line env (basis cvar_eqb v) t).
  unfold closs. rewrite ev_ezsum. apply zsum_ext. intros b _. rewrite ev_ebsum. apply bsum_ext. intros o _. rewrite ev_ezsum. apply zsum_ext. intros d _. cbn [ev].
  rewrite (proj1 (C106_values e _ _ mask _ _ _)). reflexivity.
Qed.
Print Assumptions C106_gradient.

Section Layer.
Context (c : conv_nd) (bsize : Z) (ns : list Z) (ch : Z) (mask : option (list Z -> R)) (ct : list Z -> R) (env : cvar -> R) (W : wf_conv c ns).
Let last := cv_last c.
Let cin := (ch / cv_groups c)%Z.
Lemma out_of_length : length (out_of c ns) = length ns.
Proof. destruct W as (L1 & L2 & L3 & L4 & L5). apply out_sizes_length; try congruence. rewrite (pads_for_length c ns W). congruence. Qed.
Lemma conv_zero w x b o d : length o = length ns -> (forall i, x i = 0) \/ (forall i, w i = 0) -> conv_batched c (image_index last bsize ns ch) w mask None x (image_index last b o d) = 0.
Proof.
  intros L H. unfold last. rewrite C77_formula by assumption. cbn [opt_bias]. rewrite (bsum_ext _ _ (fun _ => 0)), bsum_0; [ring|]. intros j _. rewrite (zsum_ext _ _ (fun _ => 0)), zsum_0; [reflexivity|]. intros ci _. cbv zeta.
  destruct H as [H|H]; [rewrite H; destruct (inside _ _); ring|]. unfold opt_mul. destruct mask; rewrite H; ring.
Qed.
Lemma conv_bias w b' x b o d : length o = length ns -> conv_batched c (image_index last bsize ns ch) w mask (Some b') x (image_index last b o d) =
  conv_batched c (image_index last bsize ns ch) w mask None x (image_index last b o d) + b' (if last then [d] else d :: repeat 0%Z (cv_spatial c)).
Proof. intros L. unfold last. rewrite !C77_formula by assumption. cbn [opt_bias]. ring. Qed.

(** The gradient with respect to a weight: what the position of the kernel reads, times the gradient of the output it goes to, summed over the
    batch and over the positions of the output; nothing where the mask is zero. *)
Theorem C106_kernel_gradient j ci co : in_box (cv_kernel c) j -> (0 <= ci < cin)%Z -> (0 <= co < cv_out c)%Z ->
  gradient cvar_eqb env (closs c bsize ns ch mask ct) (CW (j ++ [ci; co])) =
  (match mask with None => 1 | Some m => m (j ++ [ci; co]) end) *
  zsum bsize (fun b => bsum (out_of c ns) (fun o => ct (image_index last b o co) *
    (let p := position (cv_stride c) (cv_rate c) (map fst (pads_for c ns)) o j in
     if inside ns p then env (CX (image_index last b p (co / (cv_out c / cv_groups c) * cin + ci)%Z)) else 0))).
Proof.
  intros Hj Hi Hd. unfold gradient. rewrite C103_reverse by apply good_closs. rewrite Rmult_1_l, jvp_closs, <- zsum_scale. apply zsum_ext. intros b _. rewrite <- bsum_scale. apply bsum_ext. intros o Ho.
  pose proof (in_box_length _ _ Ho) as Lo. rewrite out_of_length in Lo. cbv zeta. fold last.
  set (F := fun d => ct (image_index last b o d) * ((let p := position (cv_stride c) (cv_rate c) (map fst (pads_for c ns)) o j in
     if inside ns p then env (CX (image_index last b p (d / (cv_out c / cv_groups c) * cin + ci)%Z)) else 0) * (match mask with None => 1 | Some m => m (j ++ [ci; d]) end))).
  rewrite (zsum_ext (cv_out c) _ (fun d => if (d =? co)%Z then F d else 0)).
  - rewrite zsum_delta. replace ((0 <=? co)%Z && (co <? cv_out c)%Z)%bool with true by (symmetry; apply andb_true_iff; rewrite Z.leb_le, Z.ltb_lt; lia). unfold F. cbv zeta. ring.
  - intros d _. rewrite conv_zero, Rplus_0_l by (auto; left; intros i; reflexivity). rewrite conv_bias by exact Lo. unfold bs_of at 1, basis at 1. cbn [cvar_eqb]. rewrite Rplus_0_r.
    unfold last. rewrite C77_formula by assumption. cbn [opt_bias]. rewrite Rplus_0_r. fold last cin.
    rewrite (bsum_ext (cv_kernel c) _ (fun j' => if leqb j' j then if (d =? co)%Z then (let p := position (cv_stride c) (cv_rate c) (map fst (pads_for c ns)) o j' in
       if inside ns p then env (CX (image_index last b p (d / (cv_out c / cv_groups c) * cin + ci)%Z)) else 0) * (match mask with None => 1 | Some m => m (j' ++ [ci; d]) end) else 0 else 0)).
    + rewrite bsum_delta, in_box_inside by exact Hj. unfold F. destruct (d =? co)%Z; ring.
    + intros j' Hj'. assert (LJ : length j' = length j) by (rewrite (in_box_length _ _ Hj), (in_box_length _ _ Hj'); reflexivity).
      rewrite (zsum_ext cin _ (fun ci' => if (ci' =? ci)%Z then if leqb j' j then if (d =? co)%Z then (let p := position (cv_stride c) (cv_rate c) (map fst (pads_for c ns)) o j' in
       if inside ns p then env (CX (image_index last b p (d / (cv_out c / cv_groups c) * cin + ci')%Z)) else 0) * (match mask with None => 1 | Some m => m (j' ++ [ci'; d]) end) else 0 else 0 else 0)).
      * rewrite zsum_delta. replace ((0 <=? ci)%Z && (ci <? cin)%Z)%bool with true by (symmetry; apply andb_true_iff; rewrite Z.leb_le, Z.ltb_lt; lia). reflexivity.
      * intros ci' _. cbv zeta. unfold xs_of. unfold opt_mul, ws_of, basis. cbn [cvar_eqb]. rewrite leqb_app by exact LJ. cbn [leqb]. rewrite andb_true_r.
        destruct mask; destruct (leqb j' j), (ci' =? ci)%Z, (d =? co)%Z; cbn [andb]; ring.
Qed.
(** A weight that the mask removes gets no gradient: it keeps its value under plain gradient descent. *)
Theorem C106_masked m j ci co : mask = Some m -> in_box (cv_kernel c) j -> (0 <= ci < cin)%Z -> (0 <= co < cv_out c)%Z -> m (j ++ [ci; co]) = 0 ->
  gradient cvar_eqb env (closs c bsize ns ch mask ct) (CW (j ++ [ci; co])) = 0.
Proof. intros E Hj Hi Hd Z. rewrite C106_kernel_gradient by assumption. rewrite E, Z. ring. Qed.
(** The gradient with respect to the bias of a channel: the sum over the batch and the positions. *)
Theorem C106_bias_gradient co : (0 <= co < cv_out c)%Z ->
  gradient cvar_eqb env (closs c bsize ns ch mask ct) (CB (if last then [co] else co :: repeat 0%Z (cv_spatial c))) =
  zsum bsize (fun b => bsum (out_of c ns) (fun o => ct (image_index last b o co))).
Proof.
  intros Hd. unfold gradient. rewrite C103_reverse by apply good_closs. rewrite Rmult_1_l, jvp_closs. apply zsum_ext. intros b _. apply bsum_ext. intros o Ho.
  pose proof (in_box_length _ _ Ho) as Lo. rewrite out_of_length in Lo. cbv zeta. fold last.
  rewrite (zsum_ext (cv_out c) _ (fun d => if (d =? co)%Z then ct (image_index last b o d) else 0)).
  - rewrite zsum_delta. now replace ((0 <=? co)%Z && (co <? cv_out c)%Z)%bool with true by (symmetry; apply andb_true_iff; rewrite Z.leb_le, Z.ltb_lt; lia).
  - intros d _. rewrite conv_zero, Rplus_0_l by (auto; left; intros i; reflexivity). rewrite conv_bias by exact Lo. rewrite conv_zero, Rplus_0_l by (auto; right; intros i; reflexivity).
    unfold bs_of, basis. cbn [cvar_eqb]. destruct last; cbn [leqb]; rewrite ?leqb_refl, ?andb_true_r; destruct (d =? co)%Z; ring.
Qed.
End Layer.
Print Assumptions C106_kernel_gradient.
Print Assumptions C106_masked.
Print Assumptions C106_bias_gradient.

(** The gradient with respect to the input is [ConvNDTranspose] of the gradient of the output, with the (masked) kernel read backwards and the spatial shape of
    the input as [output_shape]. *)
Theorem C106_input_gradient n chx chy ks ss t last pads bsize ns mask ct env wt b p a :
  let c := ConvND n chy ks ss (repeat 1%Z n) (inl t) last 1 in
  length ns = n -> length ks = n -> length ss = n -> Forall (fun s => 0 < s)%Z ss ->
  adjusted_pads (out_of c ns) ns ks ss t = Some pads ->
  (forall j a d, in_box ks j -> wt (flip ks j ++ [a; d]) = env (CW (j ++ [a; d])) * match mask with None => 1 | Some m => m (j ++ [a; d]) end) ->
  (0 <= b < bsize)%Z -> in_box ns p -> (0 <= a < chx)%Z ->
  gradient cvar_eqb env (closs c bsize ns chx mask ct) (CX (image_index last b p a)) =
  conv_t_batched (ConvT n chx ks ss last) pads (image_index last bsize (out_of c ns) chy) wt None None ct (image_index last b p a).
Proof.
  intros c L1 L2 L3 Fs A Ew Hb Hp Ha. set (v := CX (image_index last b p a)).
  assert (W : wf_conv c ns) by (unfold wf_conv; cbn; rewrite repeat_length; repeat split; try assumption; discriminate).
  set (K := fun b' p' a' => conv_t_batched (ConvT n chx ks ss last) pads (image_index last bsize (out_of c ns) chy) wt None None ct (image_index last b' p' a')).
  change (gradient cvar_eqb env (closs c bsize ns chx mask ct) v = K b p a).
  unfold gradient. rewrite C103_reverse by apply good_closs. rewrite Rmult_1_l, jvp_closs. cbv zeta. change (cv_last c) with last.
  rewrite (zsum_ext bsize _ (fun b' => if (b' =? b)%Z then K b' p a else 0)).
  { rewrite zsum_delta. now replace ((0 <=? b)%Z && (b <? bsize)%Z)%bool with true by (symmetry; apply andb_true_iff; rewrite Z.leb_le, Z.ltb_lt; lia). }
  intros b' _. pose (w := opt_mul (ws_of env) mask).
  transitivity (bsum (out_of c ns) (fun o => zsum chy (fun d => conv_batched c (image_index last bsize ns chx) w None None (xs_of (basis cvar_eqb v)) (image_index last b' o d) * ct (image_index last b' o d)))).
  { apply bsum_ext. intros o Ho. pose proof (in_box_length _ _ Ho) as Lo. rewrite (out_of_length c ns W) in Lo. apply zsum_ext. intros d _.
    rewrite (conv_bias c bsize ns chx mask W) by exact Lo. rewrite (conv_zero c bsize ns chx mask W (ws_of (basis cvar_eqb v))) by (auto; right; intros i; reflexivity).
    unfold bs_of, basis at 2. cbn [cvar_eqb v]. rewrite !Rplus_0_r, Rmult_comm. f_equal. unfold w. destruct mask; reflexivity. }
  etransitivity; [apply (C78_adjoint n chx chy ks ss t last pads bsize ns (out_of c ns) w wt (xs_of (basis cvar_eqb v)) ct b' L1 L2 L3 Fs eq_refl A)|].
  { intros j a0 d Hj. rewrite Ew by exact Hj. unfold w, opt_mul, ws_of. destruct mask; ring. }
  rewrite (bsum_ext ns _ (fun p' => if leqb p' p then if (b' =? b)%Z then K b' p' a else 0 else 0)); [now rewrite bsum_delta, in_box_inside by exact Hp|].
  intros p' Hp'. rewrite (zsum_ext chx _ (fun a' => if (a' =? a)%Z then if leqb p' p then if (b' =? b)%Z then K b' p' a' else 0 else 0 else 0)).
  { rewrite zsum_delta. now replace ((0 <=? a)%Z && (a <? chx)%Z)%bool with true by (symmetry; apply andb_true_iff; rewrite Z.leb_le, Z.ltb_lt; lia). }
  intros a' _. unfold xs_of, basis, v. cbn [cvar_eqb]. rewrite leqb_image by (rewrite (in_box_length _ _ Hp), (in_box_length _ _ Hp'); reflexivity). fold (K b' p' a').
  destruct (b' =? b)%Z, (leqb p' p), (a' =? a)%Z; cbn [andb]; ring.
Qed.
Print Assumptions C106_input_gradient.

(** Inputs 1, 2, 3, kernel 10, 100, output gradients 1, 7 in both data formats; the second weight is masked in the last line. *)
Definition c106_env (v : cvar) : R := match v with CX i => IZR (fold_right Z.add 1%Z i) | CW i => match i with 0%Z :: _ => 10 | _ => 100 end | CB _ => 5 end.
Definition c106_ct (i : list Z) : R := match fold_right Z.add 0%Z i with 0%Z => 1 | _ => 7 end.
Definition c106_conv (last : bool) : conv_nd := ConvND 1 1 [2]%Z [1]%Z [1]%Z (inl PtValid) last 1.
Definition c106_mask (i : list Z) : R := match i with 0%Z :: _ => 1 | _ => 0 end.
Example C106_conv_case : 
  out_of (c106_conv true) [3]%Z = [2]%Z /\
  map (gradient cvar_eqb c106_env (closs (c106_conv true) 1 [3]%Z 1 None c106_ct)) [CW [0; 0; 0]; CW [1; 0; 0]; CB [0]; CX [0; 0; 0]; CX [0; 1; 0]; CX [0; 2; 0]]%Z = [15; 23; 8; 10; 170; 700] /\
  map (gradient cvar_eqb c106_env (closs (c106_conv false) 1 [3]%Z 1 None c106_ct)) [CW [0; 0; 0]; CW [1; 0; 0]; CB [0; 0]; CX [0; 0; 0]; CX [0; 0; 1]; CX [0; 0; 2]]%Z = [15; 23; 8; 10; 170; 700] /\
  map (gradient cvar_eqb c106_env (closs (c106_conv true) 1 [3]%Z 1 (Some c106_mask) c106_ct)) [CW [0; 0; 0]; CW [1; 0; 0]; CX [0; 0; 0]; CX [0; 1; 0]; CX [0; 2; 0]]%Z = [15; 0; 10; 70; 0].
Proof. split; [reflexivity|]. split; [|split]; cbv -[Rplus Rmult Rminus Ropp Rdiv IZR]; repeat (apply f_equal2; [ring|]); reflexivity. Qed.

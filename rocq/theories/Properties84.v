(** * C106: gradients of convolutions, in exact arithmetic *)
From Coq Require Import Reals ZArith List Bool Lia Lra.
From Verif Require Import ModelNets ModelTransformer ModelTraining ModelShape ProofsShape ModelReal ModelConv ModelPool ModelGradients ModelConvGrad Properties10 Properties14 Properties22 Properties33 Properties34 Properties80.
Import ListNotations.
Local Open Scope R_scope.

Section Arrays.
Context {V : Type}.
Implicit Types (env dir : V -> R).
(** The values and the derivatives of an array of expressions. *)
Definition avals env (x : earray V) : list Z -> R := fun i => ev env (x i).
Definition ajvp env dir (x : earray V) : list Z -> R := fun i => jvp env dir (x i).

Lemma ev_ezsum env n f : ev env (ezsum n f) = zsum n (fun i => ev env (f i)).
Proof. unfold ezsum, zsum. now rewrite ev_esum, map_map. Qed.
Lemma jvp_ezsum env dir n f : jvp env dir (ezsum n f) = zsum n (fun i => jvp env dir (f i)).
Proof. unfold ezsum, zsum. now rewrite jvp_esum, map_map. Qed.
Lemma ev_ebsum env sizes : forall f, ev env (ebsum sizes f) = bsum sizes (fun i => ev env (f i)).
Proof. induction sizes as [|n sizes IH]; intros f; cbn [ebsum bsum]; [reflexivity|]. rewrite ev_ezsum. apply zsum_ext. intros i _. apply IH. Qed.
Lemma jvp_ebsum env dir sizes : forall f, jvp env dir (ebsum sizes f) = bsum sizes (fun i => jvp env dir (f i)).
Proof. induction sizes as [|n sizes IH]; intros f; cbn [ebsum bsum]; [reflexivity|]. rewrite jvp_ezsum. apply zsum_ext. intros i _. apply IH. Qed.
Lemma all_ezsum (P : expr V -> Prop) n f : (forall l, P (esum l) <-> Forall P l) -> (forall i, P (f i)) -> P (ezsum n f).
Proof. intros S H. unfold ezsum. apply S, Forall_map, Forall_forall. auto. Qed.
Lemma all_ebsum (P : expr V -> Prop) sizes : (forall l, P (esum l) <-> Forall P l) -> forall f, (forall i, P (f i)) -> P (ebsum sizes f).
Proof. intros S. induction sizes as [|n sizes IH]; intros f H; cbn [ebsum]; [apply H|]. apply all_ezsum; auto. Qed.

(** ** [lax.conv_general_dilated] is linear in the input and in the kernel *)
Lemma lax_ext lhs rhs dn pads ss ds rs g x x' w w' idx : (forall i, x i = x' i) -> (forall i, w i = w' i) ->
  lax_conv lhs rhs dn pads ss ds rs g x w idx = lax_conv lhs rhs dn pads ss ds rs g x' w' idx.
Proof.
  intros Hx Hw. unfold lax_conv. destruct (read_spec (out_spec dn) idx) as [|b [|co o]]; [reflexivity..|]. destruct (read_spec (lhs_spec dn) lhs) as [|? [|? ns]]; [reflexivity..|].
  destruct (read_spec (rhs_spec dn) rhs) as [|cout [|cin ks]]; [reflexivity..|]. apply bsum_ext. intros j _. apply zsum_ext. intros ci _. rewrite Hw. destruct (taps _ o j); now rewrite ?Hx.
Qed.
Lemma depthwise_ext m ks ss p last shape w bias x x' idx : (forall i, x i = x' i) -> depthwise_values m ks ss p last shape w bias x idx = depthwise_values m ks ss p last shape w bias x' idx.
Proof. intros H. unfold depthwise_values. destruct bias; [f_equal|]; now apply lax_ext. Qed.
Lemma ev_elax env lhs rhs dn pads ss ds rs g (x w : earray V) idx : ev env (elax_conv lhs rhs dn pads ss ds rs g x w idx) = lax_conv lhs rhs dn pads ss ds rs g (avals env x) (avals env w) idx.
Proof.
  unfold elax_conv, lax_conv. destruct (read_spec (out_spec dn) idx) as [|b [|co o]]; [reflexivity..|]. destruct (read_spec (lhs_spec dn) lhs) as [|? [|? ns]]; [reflexivity..|].
  destruct (read_spec (rhs_spec dn) rhs) as [|cout [|cin ks]]; [reflexivity..|]. rewrite ev_ebsum. apply bsum_ext. intros j _. rewrite ev_ezsum. apply zsum_ext. intros ci _. cbn [ev].
  destruct (taps _ o j); reflexivity.
Qed.
Lemma jvp_elax env dir lhs rhs dn pads ss ds rs g (x w : earray V) idx : jvp env dir (elax_conv lhs rhs dn pads ss ds rs g x w idx) =
  lax_conv lhs rhs dn pads ss ds rs g (ajvp env dir x) (avals env w) idx + lax_conv lhs rhs dn pads ss ds rs g (avals env x) (ajvp env dir w) idx.
Proof.
  unfold elax_conv, lax_conv. destruct (read_spec (out_spec dn) idx) as [|b [|co o]]; try (cbn; ring). destruct (read_spec (lhs_spec dn) lhs) as [|? [|? ns]]; try (cbn; ring).
  destruct (read_spec (rhs_spec dn) rhs) as [|cout [|cin ks]]; try (cbn; ring). rewrite jvp_ebsum, <- bsum_plus. apply bsum_ext. intros j _. rewrite jvp_ezsum, <- zsum_plus. apply zsum_ext. intros ci _. cbn [jvp].
  destruct (taps _ o j); reflexivity.
Qed.
Lemma all_elax (P : expr V -> Prop) lhs rhs dn pads ss ds rs g (x w : earray V) idx : (forall l, P (esum l) <-> Forall P l) -> P (Const 0) -> (forall a b, P a -> P b -> P (Mul a b)) ->
  (forall i, P (x i)) -> (forall i, P (w i)) -> P (elax_conv lhs rhs dn pads ss ds rs g x w idx).
Proof.
  intros S C M Hx Hw. unfold elax_conv. destruct (read_spec (out_spec dn) idx) as [|b [|co o]]; [exact C..|]. destruct (read_spec (lhs_spec dn) lhs) as [|? [|? ns]]; [exact C..|].
  destruct (read_spec (rhs_spec dn) rhs) as [|cout [|cin ks]]; [exact C..|]. apply all_ebsum; [exact S|]. intros j. apply all_ezsum; [exact S|]. intros ci. apply M; [|apply Hw].
  destruct (taps _ o j); auto.
Qed.
Definition obias env (b : option (earray V)) : option (list Z -> R) := option_map (avals env) b.
Definition ojvp env dir (b : option (earray V)) : option (list Z -> R) := option_map (ajvp env dir) b.
Lemma ev_emasked env w mask i : avals env (emasked w mask) i = match mask with None => avals env w | Some m => fun i => avals env w i * m i end i.
Proof. now destruct mask. Qed.
Lemma jvp_emasked env dir w mask i : ajvp env dir (emasked w mask) i = match mask with None => ajvp env dir w | Some m => fun i => ajvp env dir w i * m i end i.
Proof. destruct mask; [|reflexivity]. unfold emasked, ajvp. cbn [jvp ev]. ring. Qed.

(** The expressions have the values of the layers of ModelConv. *)
Theorem C106_values env shape w mask bias x idx :
  (forall c, ev env (econv c shape w mask bias x idx) = conv_batched c shape (avals env w) mask (obias env bias) (avals env x) idx) /\
  (forall c pads, ev env (econv_t c pads shape w mask bias x idx) = conv_t_batched c pads shape (avals env w) mask (obias env bias) (avals env x) idx) /\
  (forall m ks ss p last, ev env (edepthwise m ks ss p last shape w bias x idx) = depthwise_values m ks ss p last shape (avals env w) (obias env bias) (avals env x) idx) /\
  (forall m k0 k1 ss p last shape1 w2, ev env (eseparable m k0 k1 ss p last shape shape1 w w2 bias x idx) =
    separable_values m k0 k1 ss p last shape shape1 (avals env w) (avals env w2) (obias env bias) (avals env x) idx).
Proof.
  assert (D : forall m ks ss p last shape w bias x idx, ev env (edepthwise m ks ss p last shape w bias x idx) = depthwise_values m ks ss p last shape (avals env w) (obias env bias) (avals env x) idx).
  { clear. intros. unfold edepthwise, depthwise_values, obias. destruct bias; cbn [ebiased option_map ev]; now rewrite ev_elax. }
  split; [|split; [|split]].
  - intros c. unfold econv, conv_batched, obias. destruct bias; cbn [ebiased option_map ev]; rewrite ev_elax; [f_equal|]; apply lax_ext; auto using ev_emasked.
  - intros c pads. unfold econv_t, conv_t_batched, obias. destruct bias; cbn [ebiased option_map ev]; rewrite ev_elax; [f_equal|]; apply lax_ext; auto using ev_emasked.
  - intros. apply D.
  - intros. unfold eseparable, separable_values. rewrite D. apply depthwise_ext. intros i. apply (D m [k0; 1%Z] ss p last shape w None x i).
Qed.

(** Forward mode: the derivative is the layer without bias on the derivative of the input, plus the layer whose weights and bias are the
    derivatives of the weights and of the bias. *)
Theorem C106_derivative env dir shape w mask bias x idx :
  (forall c, jvp env dir (econv c shape w mask bias x idx) =
    conv_batched c shape (avals env w) mask None (ajvp env dir x) idx + conv_batched c shape (ajvp env dir w) mask (ojvp env dir bias) (avals env x) idx) /\
  (forall c pads, jvp env dir (econv_t c pads shape w mask bias x idx) =
    conv_t_batched c pads shape (avals env w) mask None (ajvp env dir x) idx + conv_t_batched c pads shape (ajvp env dir w) mask (ojvp env dir bias) (avals env x) idx) /\
  (forall m ks ss p last, jvp env dir (edepthwise m ks ss p last shape w bias x idx) =
    depthwise_values m ks ss p last shape (avals env w) None (ajvp env dir x) idx + depthwise_values m ks ss p last shape (ajvp env dir w) (ojvp env dir bias) (avals env x) idx).
Proof.
  split; [|split].
  - intros c. unfold econv, conv_batched, ojvp. destruct bias; cbn [ebiased option_map jvp]; rewrite jvp_elax, <- ?Rplus_assoc; [f_equal|]; f_equal; apply lax_ext; auto using ev_emasked, jvp_emasked.
  - intros c pads. unfold econv_t, conv_t_batched, ojvp. destruct bias; cbn [ebiased option_map jvp]; rewrite jvp_elax, <- ?Rplus_assoc; [f_equal|]; f_equal; apply lax_ext; auto using ev_emasked, jvp_emasked.
  - intros. unfold edepthwise, depthwise_values, ojvp. destruct bias; cbn [ebiased option_map jvp]; rewrite jvp_elax, <- ?Rplus_assoc; reflexivity.
Qed.

Lemma all_econv (P : expr V -> Prop) : (forall l, P (esum l) <-> Forall P l) -> (forall r, P (Const r)) -> (forall a b, P a -> P b -> P (Mul a b)) -> (forall a b, P a -> P b -> P (Add a b)) ->
  forall shape w mask bias x idx, (forall i, P (x i)) -> (forall i, P (w i)) -> (forall b i, bias = Some b -> P (b i)) ->
  (forall c, P (econv c shape w mask bias x idx)) /\ (forall c pads, P (econv_t c pads shape w mask bias x idx)) /\ (forall m ks ss p last, P (edepthwise m ks ss p last shape w bias x idx)).
Proof.
  intros S C M A shape w mask bias x idx Hx Hw Hb.
  assert (Hm : forall i, P (emasked w mask i)) by (intros i; unfold emasked; destruct mask; auto).
  assert (B : forall e i, P e -> P (ebiased e bias i)) by (intros e i He; unfold ebiased; destruct bias; auto).
  split; [|split]; intros; apply B, all_elax; auto.
Qed.
(** It is the derivative, wherever input, weights and bias are differentiable. *)
Theorem C106_sound env dir shape w mask bias x idx :
  (forall i, good env (x i) /\ settled env dir (x i)) -> (forall i, good env (w i) /\ settled env dir (w i)) -> (forall b i, bias = Some b -> good env (b i) /\ settled env dir (b i)) ->
  (forall c, derivable_pt_lim (fun t => conv_batched c shape (avals (line env dir t) w) mask (obias (line env dir t) bias) (avals (line env dir t) x) idx) 0 (jvp env dir (econv c shape w mask bias x idx))) /\
  (forall c pads, derivable_pt_lim (fun t => conv_t_batched c pads shape (avals (line env dir t) w) mask (obias (line env dir t) bias) (avals (line env dir t) x) idx) 0 (jvp env dir (econv_t c pads shape w mask bias x idx))) /\
  (forall m ks ss p last, derivable_pt_lim (fun t => depthwise_values m ks ss p last shape (avals (line env dir t) w) (obias (line env dir t) bias) (avals (line env dir t) x) idx) 0
    (jvp env dir (edepthwise m ks ss p last shape w bias x idx))) /\
  (forall m k0 k1 ss p last shape1 w2, (forall i, good env (w2 i) /\ settled env dir (w2 i)) ->
    derivable_pt_lim (fun t => separable_values m k0 k1 ss p last shape shape1 (avals (line env dir t) w) (avals (line env dir t) w2) (obias (line env dir t) bias) (avals (line env dir t) x) idx) 0
    (jvp env dir (eseparable m k0 k1 ss p last shape shape1 w w2 bias x idx))).
Proof.
  intros Hx Hw Hb. set (P := fun e => good env e /\ settled env dir e).
  assert (SS : forall l, P (esum l) <-> Forall P l).
  { intros l. unfold P. rewrite good_esum, settled_esum, !Forall_forall. split; [intros [A B] e He; auto | intros H; split; intros e He; now apply H]. }
  assert (K : forall r, P (Const r)) by (intros r; split; exact I).
  assert (MM : forall a b, P a -> P b -> P (Mul a b)) by (unfold P; cbn [good settled]; tauto).
  assert (AA : forall a b, P a -> P b -> P (Add a b)) by (unfold P; cbn [good settled]; tauto).
  pose proof (all_econv P SS K MM AA) as Q. destruct (Q shape w mask bias x idx Hx Hw Hb) as (Q1 & Q2 & Q3).
  assert (D : forall e f, P e -> (forall t, f t = ev (line env dir t) e) -> derivable_pt_lim f 0 (jvp env dir e)).
  { intros e f [G S] E. eapply derivable_local; [apply locally_all; exact E | now apply C103_sound]. }
  split; [|split; [|split]].
  - intros c. apply D; [apply Q1|]. intros t. symmetry. exact (proj1 (C106_values (line env dir t) shape w mask bias x idx) c).
  - intros c pads. apply D; [apply Q2|]. intros t. symmetry. exact (proj1 (proj2 (C106_values (line env dir t) shape w mask bias x idx)) c pads).
  - intros m ks ss p last. apply D; [apply Q3|]. intros t. symmetry. exact (proj1 (proj2 (proj2 (C106_values (line env dir t) shape w mask bias x idx))) m ks ss p last).
  - intros m k0 k1 ss p last shape1 w2 H2.
    apply D; [|intros t; symmetry; exact (proj2 (proj2 (proj2 (C106_values (line env dir t) shape w mask bias x idx))) m k0 k1 ss p last shape1 w2)].
    unfold eseparable. refine (proj2 (proj2 (Q shape1 w2 mask bias _ idx _ H2 Hb)) _ _ _ _ _). intros i.
    refine (proj2 (proj2 (Q shape w mask None x i Hx Hw _)) _ _ _ _ _). discriminate.
Qed.
End Arrays.
Print Assumptions C106_values.
Print Assumptions C106_derivative.
Print Assumptions C106_sound.

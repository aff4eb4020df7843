(** * C69: SpectralNorm, in exact arithmetic *)
From Coq Require Import Reals ZArith List Bool Lia Lra Psatz.
From Verif Require Import ModelReal ModelPool ModelLayers Properties14 Properties22 Properties24.
Import ListNotations.
Local Open Scope R_scope.

(** ** Vectors *)
Lemma dot_nil_r x : dot x [] = 0. Proof. unfold dot. destruct x; reflexivity. Qed.
Lemma dot_cons a x b y : dot (a :: x) (b :: y) = a * b + dot x y. Proof. reflexivity. Qed.
Lemma dot_comm : forall x y, dot x y = dot y x.
Proof. induction x as [|a x IH]; intros [|b y]; try reflexivity. rewrite !dot_cons, IH. ring. Qed.
Lemma dot_scale k : forall x y, dot (map (fun a => a * k) x) y = k * dot x y.
Proof. induction x as [|a x IH]; intros [|b y]; cbn [map]; rewrite ?dot_nil_r, ?dot_cons, ?IH; try (unfold dot; cbn); ring. Qed.
Definition lincomb (a : R) (x : list R) (b : R) (y : list R) : list R := zipw (fun x y => a * x + b * y) x y.
Lemma lincomb_cons a x xs b y ys : lincomb a (x :: xs) b (y :: ys) = (a * x + b * y) :: lincomb a xs b ys. Proof. reflexivity. Qed.
Lemma lincomb_length a x b y : length x = length y -> length (lincomb a x b y) = length x.
Proof. intros H. unfold lincomb, zipw. rewrite map_length, combine_length. lia. Qed.
Lemma dot_lincomb : forall x y z a b, length x = length y -> dot (lincomb a x b y) z = a * dot x z + b * dot y z.
Proof.
  induction x as [|c x IH]; intros [|d y] [|e z] a b L; try discriminate L; rewrite ?lincomb_cons, ?dot_cons, ?dot_nil_r; try (unfold dot; cbn; ring).
  injection L as L. rewrite IH by exact L. ring.
Qed.
Lemma norm_sq_nonneg x : 0 <= norm_sq x.
Proof. unfold norm_sq. induction x as [|a x IH]; [unfold dot; cbn; lra|]. rewrite dot_cons. pose proof (Rle_0_sqr a) as H. unfold Rsqr in H. lra. Qed.
Lemma norm_sq_zero x : norm_sq x = 0 -> Forall (fun a => a = 0) x.
Proof.
  unfold norm_sq. induction x as [|a x IH]; [constructor|]. rewrite dot_cons. intros H. pose proof (norm_sq_nonneg x) as N. unfold norm_sq in N.
  pose proof (Rle_0_sqr a) as S. unfold Rsqr in S. constructor; [nra | apply IH; nra].
Qed.
Lemma cauchy_schwarz x y : length x = length y -> square (dot x y) <= norm_sq x * norm_sq y.
Proof.
  intros L. destruct (Req_dec (norm_sq y) 0) as [E|E].
  - rewrite E, Rmult_0_r. assert (dot x y = 0) as ->; [|unfold square; lra].
    apply norm_sq_zero in E. revert y L E. induction x as [|a x IH]; intros [|b y] L E; try discriminate L; [reflexivity|]. rewrite dot_cons.
    inversion E; subst. injection L as L. rewrite (IH y L) by assumption. ring.
  - pose proof (norm_sq_nonneg y) as Hy. pose proof (norm_sq_nonneg (lincomb (norm_sq y) x (- dot x y) y)) as H.
    unfold norm_sq at 1 in H. rewrite dot_lincomb in H by exact L.
    rewrite (dot_comm x (lincomb _ _ _ _)), (dot_comm y (lincomb _ _ _ _)), !dot_lincomb in H by exact L. rewrite (dot_comm y x) in H.
    fold (norm_sq x) (norm_sq y) in H. unfold square. set (X := norm_sq x) in *. set (Y := norm_sq y) in *. set (d := dot x y) in *.
    assert (G : 0 <= Y * (X * Y - d * d)) by nra. apply Rnot_lt_le. intros C. assert (0 < Y) by lra. nra.
Qed.
Lemma l2_length eps x : length (l2_normalize eps x) = length x. Proof. apply map_length. Qed.
Lemma dot_l2 eps x y : dot (l2_normalize eps x) y = dot x y / sqrt (norm_sq x + eps).
Proof. unfold l2_normalize. rewrite dot_scale. unfold Rdiv. ring. Qed.
Lemma norm_l2 eps x : 0 < norm_sq x + eps -> norm_sq (l2_normalize eps x) = norm_sq x / (norm_sq x + eps).
Proof.
  intros H. unfold norm_sq at 1. rewrite dot_l2, dot_comm, dot_l2. fold (norm_sq x). pose proof (sqrt_lt_R0 _ H).
  rewrite <- (sqrt_sqrt (norm_sq x + eps)) at 3 by lra. field. lra.
Qed.
Lemma norm_l2_le eps x : 0 <= eps -> norm_sq (l2_normalize eps x) <= 1.
Proof.
  intros He. pose proof (norm_sq_nonneg x) as Hx. destruct (Req_dec (norm_sq x + eps) 0) as [E|E].
  - assert (Z : norm_sq x = 0) by lra. unfold norm_sq at 1. rewrite dot_l2, dot_comm, dot_l2. fold (norm_sq x). rewrite Z. unfold Rdiv. rewrite !Rmult_0_l. lra.
  - rewrite norm_l2 by lra. apply (Rmult_le_reg_r (norm_sq x + eps)); [lra|]. unfold Rdiv. rewrite Rmult_assoc, Rinv_l by lra. lra.
Qed.

(** ** Matrices *)
Definition matrix (n : nat) (w : list (list R)) : Prop := Forall (fun r => length r = n) w.
(** A matrix times a column. *)
Definition times (w : list (list R)) (u : list R) : list R := map (fun r => dot u r) w.
Lemma matmul_length n v w : length (matmul n v w) = n. Proof. unfold matmul. now rewrite map_length, seq_length. Qed.
Lemma times_length w u : length (times w u) = length w. Proof. apply map_length. Qed.
Lemma list_nth_map (r : list R) : map (fun j => nth j r 0) (seq 0 (length r)) = r.
Proof.
  induction r as [|a r IH]; [reflexivity|]. cbn [length seq map nth]. f_equal. rewrite <- seq_shift, map_map. exact IH.
Qed.
Lemma dot_map_lin {A} (f g : A -> R) a : forall (l : list A) u, dot (map (fun j => a * f j + g j) l) u = a * dot (map f l) u + dot (map g l) u.
Proof. induction l as [|j l IH]; intros [|b u]; cbn [map]; rewrite ?dot_nil_r, ?dot_cons, ?IH; try (unfold dot; cbn); ring. Qed.
Lemma adjoint n w : matrix n w -> forall v u, length v = length w -> dot (matmul n v w) u = dot v (times w u).
Proof.
  induction 1 as [|r w Hr Hw IH]; intros [|a v] u L; try discriminate L.
  - unfold matmul, column. cbn [map times]. rewrite dot_nil_r. generalize (seq 0 n). intros l. revert u. induction l as [|j l IHl]; intros [|b u]; try reflexivity.
    cbn [map]. rewrite dot_cons, IHl. ring.
  - injection L as L. cbn [times map]. rewrite dot_cons. fold (times w u). rewrite <- (IH v u L). unfold matmul, column. cbn [map].
    rewrite (map_ext (fun j => dot (a :: v) (nth j r 0 :: map (fun r0 => nth j r0 0) w)) (fun j => a * nth j r 0 + dot v (map (fun r0 => nth j r0 0) w))) by reflexivity.
    rewrite dot_map_lin. rewrite <- Hr at 1. rewrite list_nth_map, (dot_comm r u). reflexivity.
Qed.
Lemma times_lincomb w x y a b : length x = length y -> times w (lincomb a x b y) = lincomb a (times w x) b (times w y).
Proof.
  intros L. unfold times. induction w as [|r w IH]; [reflexivity|]. cbn [map]. rewrite lincomb_cons, <- IH, dot_lincomb by exact L. reflexivity.
Qed.
Lemma times_scale w k u : times w (map (fun a => a * k) u) = map (fun a => a * k) (times w u).
Proof. unfold times. rewrite map_map. apply map_ext. intros r. rewrite dot_scale. ring. Qed.
Lemma matmul_scale n w k v : matmul n (map (fun a => a * k) v) w = map (fun a => a * k) (matmul n v w).
Proof. unfold matmul. rewrite map_map. apply map_ext. intros r. rewrite dot_scale. ring. Qed.

(** Many calls: each continues with the u0 that the one before stored (update_stats=True); the matrix may change between calls. *)
Definition sn_call (n_steps n : nat) (eps : R) (w : list (list R)) (u : list R) : list R := snd (sn_loop n_steps n eps w None u).
Lemma sn_loop_v steps n eps w : forall v v' u, snd (sn_loop steps n eps w v u) = snd (sn_loop steps n eps w v' u).
Proof. induction steps as [|k IH]; intros v v' u; [reflexivity|]. cbn [sn_loop]. destruct (sn_step n eps w u). reflexivity. Qed.
(** A loop of k+1 steps: k steps, then one. *)
Lemma sn_loop_last k n eps w : forall v u, let u' := snd (sn_loop k n eps w None u) in
  sn_loop (S k) n eps w v u = (Some (fst (sn_step n eps w u')), snd (sn_step n eps w u')).
Proof.
  induction k as [|k IH]; intros v u; cbv zeta.
  - cbn [sn_loop snd]. now destruct (sn_step n eps w u).
  - cbn [sn_loop]. destruct (sn_step n eps w u) as [v1 u1] eqn:E. specialize (IH (Some v1) u1). cbv zeta in IH.
    cbn [sn_loop] in IH. rewrite IH. rewrite (sn_loop_v k n eps w (Some v1) None). reflexivity.
Qed.
(** The result of a call with at least one step. *)
Lemma sn_matrix_last k n eps w u0 : let u := sn_call k n eps w u0 in
  let v := fst (sn_step n eps w u) in let u' := snd (sn_step n eps w u) in let sigma := dot (matmul n v w) u' in
  sn_matrix (S k) n eps w u0 = Some (u', sigma, map (map (fun a => a / sigma)) w).
Proof. cbv zeta. unfold sn_matrix, sn_call. rewrite (sn_loop_last k n eps w None u0). reflexivity. Qed.
(** Calls on the same matrix are one call with the steps of all. *)
Theorem C69_calls a b n eps w u : sn_call b n eps w (sn_call a n eps w u) = sn_call (a + b) n eps w u.
Proof.
  unfold sn_call. revert u. induction a as [|a IH]; intros u; [reflexivity|]. cbn [Nat.add sn_loop]. destruct (sn_step n eps w u) as [v1 u1].
  rewrite (sn_loop_v a n eps w (Some v1) None), (sn_loop_v (a + b) n eps w (Some v1) None). apply IH.
Qed.
Print Assumptions C69_calls.

(** ** Bounds *)
(** [L] bounds the operator norm (of the row vector times matrix map). *)
Definition op_bound (w : list (list R)) (n : nat) (L : R) : Prop := 0 <= L /\ forall v, length v = length w -> norm_sq (matmul n v w) <= square L * norm_sq v.
(** sigma is between 0 and every bound of the operator norm: the largest singular value is never overestimated. *)
Theorem C69_sigma k n eps w u0 L : 0 <= eps -> op_bound w n L ->
  exists u sigma out, sn_matrix (S k) n eps w u0 = Some (u, sigma, out) /\ 0 <= sigma <= L /\ length u = n /\ norm_sq u <= 1 /\
    out = map (map (fun a => a / sigma)) w.
Proof.
  intros He [HL HB]. rewrite sn_matrix_last. cbv zeta. do 3 eexists. split; [reflexivity|].
  unfold sn_step. cbn [fst snd]. set (v := l2_normalize eps _). assert (Lv : length v = length w) by (unfold v; rewrite l2_length; apply map_length).
  specialize (HB v Lv). pose proof (norm_l2_le eps (map (fun r => dot (sn_call k n eps w u0) r) w) He) as Nv. fold v in Nv.
  set (z := matmul n v w) in *. rewrite dot_comm, dot_l2. fold (norm_sq z). pose proof (norm_sq_nonneg z) as Nz. pose proof (norm_sq_nonneg v) as Nv0.
  assert (Z1 : norm_sq z <= square L) by (unfold square in *; nra).
  split; [|split; [rewrite l2_length; apply matmul_length | split; [now apply norm_l2_le | reflexivity]]].
  destruct (Req_dec (norm_sq z) 0) as [->|E]; [unfold Rdiv; rewrite Rmult_0_l; lra|].
  assert (Hp : 0 < norm_sq z) by lra. assert (Hs : 0 < sqrt (norm_sq z + eps)) by (apply sqrt_lt_R0; lra). split.
  - left. apply Rdiv_lt_0_compat; assumption.
  - assert (S1 : sqrt (norm_sq z) <= L) by (rewrite <- (sqrt_square L) by exact HL; apply sqrt_le_1_alt; exact Z1).
    assert (S2 : sqrt (norm_sq z) <= sqrt (norm_sq z + eps)) by (apply sqrt_le_1_alt; lra).
    apply (Rmult_le_reg_r (sqrt (norm_sq z + eps))); [exact Hs|]. unfold Rdiv. rewrite Rmult_assoc, Rinv_l, Rmult_1_r by lra.
    rewrite <- (sqrt_sqrt (norm_sq z)) at 1 by lra. pose proof (sqrt_pos (norm_sq z)). apply Rmult_le_compat; lra.
Qed.
Print Assumptions C69_sigma.

(** Without eps, repeated calls on the same matrix never decrease sigma once it is positive. *)
Theorem C69_monotone n w u : matrix n w -> length u = n ->
  forall u1 s1 o1 u2 s2 o2 k k', sn_matrix (S k) n 0 w u = Some (u1, s1, o1) -> 0 < s1 -> sn_matrix (S k') n 0 w u1 = Some (u2, s2, o2) -> s1 <= s2.
Proof.
  intros Hm Hu.
  (* one step *)
  assert (Step : forall v, length v = length w -> norm_sq v = 1 -> 0 < norm_sq (matmul n v w) ->
    let u1 := l2_normalize 0 (matmul n v w) in let v2 := l2_normalize 0 (times w u1) in
    norm_sq (matmul n v w) <= norm_sq (matmul n v2 w) /\ norm_sq v2 = 1).
  { intros v Lv Nv Hz. cbv zeta. set (z := matmul n v w) in *. set (u1 := l2_normalize 0 z). set (t := times w u1).
    assert (Lz : length z = n) by apply matmul_length. assert (Lt : length t = length w) by apply times_length.
    assert (Lu : length u1 = n) by (unfold u1; now rewrite l2_length).
    assert (Nu : norm_sq u1 = 1) by (unfold u1; rewrite norm_l2, Rplus_0_r by lra; field; lra).
    assert (D1 : dot v t = sqrt (norm_sq z)).
    { unfold t. rewrite <- (adjoint n w Hm v u1 Lv). fold z. unfold u1. rewrite dot_comm, dot_l2, Rplus_0_r. fold (norm_sq z).
      pose proof (sqrt_lt_R0 _ Hz). rewrite <- (sqrt_sqrt (norm_sq z)) at 1 by lra. field. lra. }
    pose proof (cauchy_schwarz v t ltac:(congruence)) as C1. rewrite D1, Nv, Rmult_1_l in C1. unfold square in C1. rewrite sqrt_sqrt in C1 by lra.
    assert (Ht : 0 < norm_sq t) by lra. set (v2 := l2_normalize 0 t). assert (Lv2 : length v2 = length w) by (unfold v2; now rewrite l2_length).
    assert (Nv2 : norm_sq v2 = 1) by (unfold v2; rewrite norm_l2, Rplus_0_r by lra; field; lra). split; [|exact Nv2].
    assert (D2 : dot (matmul n v2 w) u1 = sqrt (norm_sq t)).
    { rewrite (adjoint n w Hm v2 u1 Lv2). fold t. unfold v2. rewrite dot_l2, Rplus_0_r. fold (norm_sq t). pose proof (sqrt_lt_R0 _ Ht).
      rewrite <- (sqrt_sqrt (norm_sq t)) at 1 by lra. field. lra. }
    pose proof (cauchy_schwarz (matmul n v2 w) u1 ltac:(rewrite matmul_length; congruence)) as C2. rewrite D2, Nu, Rmult_1_r in C2. unfold square in C2.
    rewrite sqrt_sqrt in C2 by lra. lra. }
  intros u1 s1 o1 u2 s2 o2 k k' E1 P1 E2. rewrite sn_matrix_last in E1. cbv zeta in E1. injection E1 as E1u E1s _.
  set (v := fst (sn_step n 0 w (sn_call k n 0 w u))) in *. 
  assert (Lv : length v = length w) by (unfold v, sn_step; cbn [fst]; rewrite l2_length; apply map_length).
  assert (Hu1 : u1 = l2_normalize 0 (matmul n v w)) by (rewrite <- E1u; reflexivity).
  assert (Es : forall v', length v' = length w -> dot (matmul n v' w) (l2_normalize 0 (matmul n v' w)) = sqrt (norm_sq (matmul n v' w))).
  { intros v' _. rewrite dot_comm, dot_l2, Rplus_0_r. fold (norm_sq (matmul n v' w)). set (a := norm_sq _). pose proof (norm_sq_nonneg (matmul n v' w)) as Na. fold a in Na.
    destruct (Req_dec a 0) as [->|]; [rewrite sqrt_0; unfold Rdiv; ring|]. assert (0 < sqrt a) by (apply sqrt_lt_R0; lra). rewrite <- (sqrt_sqrt a) at 1 by lra. field. lra. }
  assert (Es1 : s1 = sqrt (norm_sq (matmul n v w))) by (rewrite <- E1s, <- (Es v Lv); reflexivity).
  assert (Hz : 0 < norm_sq (matmul n v w)).
  { pose proof (norm_sq_nonneg (matmul n v w)). destruct (Req_dec (norm_sq (matmul n v w)) 0) as [E|]; [|lra]. rewrite E, sqrt_0 in Es1. lra. }
  assert (Nv : norm_sq v = 1).
  { unfold v, sn_step. cbn [fst]. set (t := map _ w). destruct (Req_dec (norm_sq t) 0) as [E|E].
    - exfalso. assert (Z : Forall (fun a => a = 0) v).
      { unfold v, sn_step. cbn [fst]. fold t. apply norm_sq_zero in E. unfold l2_normalize. apply Forall_forall. intros a Ha. apply in_map_iff in Ha as (b & <- & Hb).
        rewrite Forall_forall in E. rewrite (E b Hb). ring. }
      assert (Z2 : forall y, dot v y = 0) by (clear - Z; induction Z as [|a v Ha _ IH]; intros [|b y]; try reflexivity; rewrite dot_cons, IH, Ha; ring).
      assert (Z3 : norm_sq (matmul n v w) = 0) by (unfold norm_sq; rewrite (adjoint n w Hm v _ Lv); apply Z2). lra.
    - pose proof (norm_sq_nonneg t). rewrite norm_l2, Rplus_0_r by lra. field. lra. }
  (* all later steps *)
  rewrite sn_matrix_last in E2. cbv zeta in E2. injection E2 as _ E2s _.
  assert (Later : forall j, exists v', length v' = length w /\ norm_sq v' = 1 /\ norm_sq (matmul n v w) <= norm_sq (matmul n v' w) /\ sn_call j n 0 w u1 = l2_normalize 0 (matmul n v' w)).
  { induction j as [|j (v' & L' & N' & G & E)]; [exists v; repeat split; auto; lra|].
    unfold sn_call in *. rewrite (sn_loop_last j n 0 w None u1). cbv zeta. cbn [snd]. rewrite E. unfold sn_step. cbn [snd]. fold (times w (l2_normalize 0 (matmul n v' w))).
    destruct (Step v' L' N' ltac:(lra)) as [S1 S2]. eexists. split; [|split; [exact S2 | split; [lra | reflexivity]]]. rewrite l2_length. apply times_length. }
  destruct (Later k') as (v' & L' & N' & G & E). rewrite E in E2s. unfold sn_step in E2s. cbn [fst snd] in E2s. fold (times w (l2_normalize 0 (matmul n v' w))) in E2s.
  destruct (Step v' L' N' ltac:(lra)) as [S1 S2]. rewrite Es in E2s by (rewrite l2_length; apply times_length).
  rewrite Es1, <- E2s. apply sqrt_le_1_alt. lra.
Qed.
Print Assumptions C69_monotone.
(** ** Convergence *)
(** A singular value [s] with its vectors, and a bound [s2] for the matrix on what is orthogonal to them. *)
Record singular (n : nat) (w : list (list R)) (p q : list R) (s : R) : Prop := Singular {
  sg_p : length p = length w; sg_q : length q = n; sg_np : norm_sq p = 1; sg_nq : norm_sq q = 1;
  sg_right : times w q = map (fun a => a * s) p; sg_left : matmul n p w = map (fun a => a * s) q }.
Definition gap (n : nat) (w : list (list R)) (q : list R) (s2 : R) : Prop :=
  forall x, length x = n -> dot q x = 0 -> norm_sq (times w x) <= square s2 * norm_sq x.
Lemma lincomb_back : forall u q c, length u = length q -> lincomb 1 (lincomb 1 u (- c) q) c q = u.
Proof.
  induction u as [|a u IH]; intros [|b q] c L; try discriminate L; [reflexivity|]. injection L as L. rewrite !lincomb_cons, IH by exact L. f_equal. ring.
Qed.
Lemma orth_part u q : length u = length q -> norm_sq q = 1 ->
  let x := lincomb 1 u (- dot q u) q in length x = length q /\ dot q x = 0 /\ norm_sq x = norm_sq u - square (dot q u).
Proof.
  intros L N. cbv zeta. set (c := dot q u). set (x := lincomb 1 u (- c) q). assert (Lx : length x = length q) by (unfold x; now rewrite lincomb_length).
  assert (D : forall z, dot x z = dot u z - c * dot q z) by (intros z; unfold x; rewrite dot_lincomb by exact L; ring).
  assert (O : dot q x = 0) by (rewrite dot_comm, D; fold (norm_sq q); rewrite N, (dot_comm u q); fold c; ring).
  split; [exact Lx|]. split; [exact O|]. unfold norm_sq. rewrite D, O, (dot_comm u x), D. fold c. unfold square. ring.
Qed.
Lemma norm_lincomb x y c : length x = length y -> norm_sq (lincomb 1 x c y) = norm_sq x + 2 * c * dot x y + square c * norm_sq y.
Proof.
  intros L. unfold norm_sq at 1. rewrite dot_lincomb by exact L. rewrite (dot_comm x (lincomb _ _ _ _)), (dot_comm y (lincomb _ _ _ _)), !dot_lincomb by exact L.
  rewrite (dot_comm y x). unfold norm_sq, square. ring.
Qed.
Lemma norm_scale k x : norm_sq (map (fun a => a * k) x) = square k * norm_sq x.
Proof. unfold norm_sq. rewrite dot_scale, dot_comm, dot_scale. unfold square. ring. Qed.
Section singular_vectors.
  Context (n : nat) (w : list (list R)) (p q : list R) (s s2 : R).
  Context (Hm : matrix n w) (Hs : singular n w p q s) (Hg : gap n w q s2).
  Lemma times_p u : dot p (times w u) = s * dot q u.
  Proof. rewrite <- (adjoint n w Hm p u (sg_p _ _ _ _ _ Hs)), (sg_left _ _ _ _ _ Hs), dot_scale. reflexivity. Qed.
  Lemma matmul_q v : length v = length w -> dot q (matmul n v w) = s * dot p v.
  Proof. intros L. rewrite dot_comm, (adjoint n w Hm v q L), (sg_right _ _ _ _ _ Hs), dot_comm, dot_scale. reflexivity. Qed.
  Lemma times_gap u : length u = n -> norm_sq (times w u) <= square s * square (dot q u) + square s2 * (norm_sq u - square (dot q u)).
  Proof.
    intros Lu. pose proof (sg_q _ _ _ _ _ Hs) as Lq. destruct (orth_part u q ltac:(congruence) (sg_nq _ _ _ _ _ Hs)) as (Lx & Ox & Nx). cbv zeta in *.
    set (c := dot q u) in *. set (x := lincomb 1 u (- c) q) in *. rewrite <- (lincomb_back u q c ltac:(congruence)) at 1. fold x.
    rewrite times_lincomb by exact Lx. rewrite norm_lincomb by now rewrite !times_length.
    rewrite (sg_right _ _ _ _ _ Hs), norm_scale, (sg_np _ _ _ _ _ Hs). rewrite (dot_comm (times w x)), dot_scale, times_p, Ox.
    pose proof (Hg x ltac:(congruence) Ox) as G. rewrite Nx in G. lra.
  Qed.
  Lemma left_gap y : length y = length w -> dot p y = 0 -> norm_sq (matmul n y w) <= square s2 * norm_sq y.
  Proof.
    intros Ly Oy. set (x := matmul n y w). assert (Lx : length x = n) by apply matmul_length.
    assert (Ox : dot q x = 0) by (unfold x; rewrite matmul_q, Oy by exact Ly; ring).
    pose proof (Hg x Lx Ox) as G. assert (E : norm_sq x = dot y (times w x)) by (unfold norm_sq; unfold x at 1; now rewrite (adjoint n w Hm y x Ly)).
    pose proof (cauchy_schwarz y (times w x) ltac:(rewrite times_length; congruence)) as C. rewrite <- E in C.
    pose proof (norm_sq_nonneg x) as Nx. pose proof (norm_sq_nonneg y) as Ny. set (X := norm_sq x) in *. set (Y := norm_sq y) in *. unfold square in *.
    destruct (Req_dec X 0) as [->|NE]; [pose proof (Rle_0_sqr s2) as Q; unfold Rsqr in Q; nra|].
    assert (X * X <= Y * (s2 * s2 * X)) by (eapply Rle_trans; [exact C | apply Rmult_le_compat_l; [exact Ny | exact G]]).
    apply (Rmult_le_reg_l X); [lra|]. lra.
  Qed.
  Lemma matmul_lincomb x y a b : length x = length y -> matmul n (lincomb a x b y) w = lincomb a (matmul n x w) b (matmul n y w).
  Proof.
    intros L. unfold matmul. generalize (seq 0 n). intros l. induction l as [|j l IH]; [reflexivity|]. cbn [map]. rewrite lincomb_cons, <- IH, dot_lincomb by exact L. reflexivity.
  Qed.
  Lemma matmul_gap v : length v = length w -> norm_sq (matmul n v w) <= square s * square (dot p v) + square s2 * (norm_sq v - square (dot p v)).
  Proof.
    intros Lv. pose proof (sg_p _ _ _ _ _ Hs) as Lp. destruct (orth_part v p ltac:(congruence) (sg_np _ _ _ _ _ Hs)) as (Lx & Ox & Nx). cbv zeta in *.
    set (c := dot p v) in *. set (x := lincomb 1 v (- c) p) in *. rewrite <- (lincomb_back v p c ltac:(congruence)) at 1. fold x.
    rewrite matmul_lincomb by exact Lx. rewrite norm_lincomb by now rewrite !matmul_length.
    rewrite (sg_left _ _ _ _ _ Hs), norm_scale, (sg_nq _ _ _ _ _ Hs). rewrite (dot_comm (matmul n x w)), dot_scale, matmul_q, Ox by congruence.
    pose proof (left_gap x ltac:(congruence) Ox) as G. rewrite Nx in G. lra.
  Qed.
  Lemma singular_bound : 0 <= s -> square s2 <= square s -> op_bound w n s.
  Proof.
    intros H0 H2. split; [exact H0|]. intros v Lv. pose proof (matmul_gap v Lv) as G. pose proof (sg_p _ _ _ _ _ Hs) as Lp.
    pose proof (cauchy_schwarz p v ltac:(congruence)) as C. rewrite (sg_np _ _ _ _ _ Hs), Rmult_1_l in C. nra.
  Qed.
  (** [close r e x]: the part of x orthogonal to e is at most r times as large (squared) as the part along it. *)
  Definition close (r : R) (e x : list R) : Prop := dot e x <> 0 /\ norm_sq x <= (1 + r) * square (dot e x).
  Lemma close_step (r : R) (e e' x y : list R) : 0 < s -> 0 <= r -> close r e x -> dot e' y = s * dot e x ->
    norm_sq y <= square s * square (dot e x) + square s2 * (norm_sq x - square (dot e x)) -> close (square (s2 / s) * r) e' y.
  Proof.
    intros H0 Hr [Hc Hn] E G. split; [rewrite E; apply Rmult_integral_contrapositive_currified; lra|]. rewrite E.
    assert (Sq : 0 < square (dot e x)) by (apply Rsqr_pos_lt; exact Hc). assert (S2 : 0 <= square s2) by apply Rle_0_sqr.
    replace ((1 + square (s2 / s) * r) * square (s * dot e x)) with (square s * square (dot e x) + square s2 * (r * square (dot e x))) by (unfold square; field; lra).
    eapply Rle_trans; [exact G|]. apply Rplus_le_compat_l, Rmult_le_compat_l; [exact S2 | lra].
  Qed.
  Lemma close_pos r e x : length e = length x -> norm_sq e = 1 -> close r e x -> 0 < norm_sq x.
  Proof.
    intros L N [Hc _]. pose proof (cauchy_schwarz e x L) as C. rewrite N, Rmult_1_l in C. assert (0 < square (dot e x)) by (apply Rsqr_pos_lt; exact Hc). lra.
  Qed.
  Lemma close_l2 r e x : length e = length x -> norm_sq e = 1 -> close r e x -> close r e (l2_normalize 0 x) /\ norm_sq (l2_normalize 0 x) = 1.
  Proof.
    intros L N H. pose proof (close_pos r e x L N H) as Hp. destruct H as [Hc Hn]. pose proof (sqrt_lt_R0 _ Hp) as Hq.
    assert (E : norm_sq (l2_normalize 0 x) = 1) by (rewrite norm_l2, Rplus_0_r by lra; field; lra). split; [|exact E].
    assert (D : dot e (l2_normalize 0 x) = dot e x / sqrt (norm_sq x)) by (rewrite dot_comm, dot_l2, Rplus_0_r, (dot_comm x e); reflexivity).
    split; rewrite ?D.
    - unfold Rdiv. apply Rmult_integral_contrapositive_currified; [exact Hc | apply Rinv_neq_0_compat; lra].
    - rewrite E. apply (Rmult_le_reg_r (norm_sq x)); [exact Hp|].
      replace ((1 + r) * square (dot e x / sqrt (norm_sq x)) * norm_sq x) with ((1 + r) * square (dot e x)); [lra|].
      unfold square. rewrite <- (sqrt_sqrt (norm_sq x)) at 3 by lra. field. lra.
  Qed.
  Lemma sn_step_close r u : 0 < s -> 0 <= r -> length u = n -> close r q u ->
    let v := fst (sn_step n 0 w u) in let u' := snd (sn_step n 0 w u) in
    (length v = length w /\ norm_sq v = 1 /\ close (square (s2 / s) * r) p v) /\ length u' = n /\ close (square (s2 / s) * (square (s2 / s) * r)) q u'.
  Proof.
    intros H0 Hr Lu Hc. unfold sn_step. cbn [fst snd]. fold (times w u). set (v := l2_normalize 0 (times w u)).
    assert (Lv : length v = length w) by (unfold v; rewrite l2_length; apply times_length).
    assert (C1 : close (square (s2 / s) * r) p (times w u)) by (apply (close_step r q p u); auto using times_p, times_gap).
    destruct (close_l2 _ p (times w u) ltac:(rewrite times_length; apply (sg_p _ _ _ _ _ Hs)) (sg_np _ _ _ _ _ Hs) C1) as [C2 N2]. fold v in C2, N2.
    assert (R1 : 0 <= square (s2 / s) * r) by (apply Rmult_le_pos; [apply Rle_0_sqr | exact Hr]).
    assert (C3 : close (square (s2 / s) * (square (s2 / s) * r)) q (matmul n v w)) by (apply (close_step _ p q v); auto using matmul_q, matmul_gap).
    destruct (close_l2 _ q (matmul n v w) ltac:(rewrite matmul_length; apply (sg_q _ _ _ _ _ Hs)) (sg_nq _ _ _ _ _ Hs) C3) as [C4 _].
    split; [auto|]. split; [rewrite l2_length; apply matmul_length | exact C4].
  Qed.
  Lemma sn_call_close r u k : 0 < s -> 0 <= r -> length u = n -> close r q u ->
    length (sn_call k n 0 w u) = n /\ close ((s2 / s) ^ (4 * k) * r) q (sn_call k n 0 w u).
  Proof.
    intros H0 Hr Lu Hc. induction k as [|k [L IH]]; [rewrite Nat.mul_0_r; cbn [pow]; rewrite Rmult_1_l; auto|].
    unfold sn_call in *. rewrite (sn_loop_last k n 0 w None u). cbv zeta. cbn [snd].
    assert (R1 : 0 <= (s2 / s) ^ (4 * k) * r).
    { apply Rmult_le_pos; [|exact Hr]. replace (4 * k)%nat with (2 * (2 * k))%nat by lia. rewrite pow_mult. apply pow_le. cbn [pow]. rewrite Rmult_1_r. apply Rle_0_sqr. }
    destruct (sn_step_close _ _ H0 R1 L IH) as (_ & L' & C). split; [exact L'|].
    replace ((s2 / s) ^ (4 * S k) * r) with (square (s2 / s) * (square (s2 / s) * ((s2 / s) ^ (4 * k) * r))); [exact C|].
    replace (4 * S k)%nat with (4 + 4 * k)%nat by lia. rewrite pow_add. unfold square. ring.
  Qed.
End singular_vectors.
(** Without eps, sigma converges to the largest singular value from below, from every start that is not orthogonal to its vector;
    the error after k+1 steps is at most s r (s2/s)^(4k+2), r being the squared ratio of the two parts of the start. *)
Theorem C69_converges n w p q s s2 u0 k : matrix n w -> singular n w p q s -> gap n w q s2 -> 0 <= s2 < s -> length u0 = n -> dot q u0 <> 0 ->
  let r := (norm_sq u0 - square (dot q u0)) / square (dot q u0) in
  exists u sigma out, sn_matrix (S k) n 0 w u0 = Some (u, sigma, out) /\ s - s * r * (s2 / s) ^ (4 * k + 2) <= sigma <= s.
Proof.
  intros Hm Hs Hg H2 Lu Hc. cbv zeta. set (r := (norm_sq u0 - square (dot q u0)) / square (dot q u0)).
  assert (Sq : 0 < square (dot q u0)) by (apply Rsqr_pos_lt; exact Hc).
  pose proof (cauchy_schwarz q u0 ltac:(rewrite (sg_q _ _ _ _ _ Hs); congruence)) as CS. rewrite (sg_nq _ _ _ _ _ Hs), Rmult_1_l in CS.
  assert (Hr : 0 <= r) by (apply Rmult_le_pos; [lra | left; now apply Rinv_0_lt_compat]).
  assert (C0 : close r q u0) by (split; [exact Hc|]; unfold r; right; field; lra).
  assert (B : op_bound w n s) by (apply (singular_bound n w p q s s2); auto; unfold square; nra).
  destruct (C69_sigma k n 0 w u0 s ltac:(lra) B) as (u & sigma & out & E & [S0 S1] & _). exists u, sigma, out. split; [exact E|]. split; [|exact S1].
  rewrite sn_matrix_last in E. cbv zeta in E. injection E as _ Es _.
  destruct (sn_call_close n w p q s s2 Hm Hs Hg r u0 k ltac:(lra) Hr Lu C0) as [Lk Ck]. set (uk := sn_call k n 0 w u0) in *.
  set (rk := (s2 / s) ^ (4 * k) * r) in *. assert (T0 : 0 <= s2 / s) by (apply Rmult_le_pos; [lra | left; apply Rinv_0_lt_compat; lra]).
  assert (Hrk : 0 <= rk) by (apply Rmult_le_pos; [apply pow_le, T0 | exact Hr]).
  destruct (sn_step_close n w p q s s2 Hm Hs Hg rk uk ltac:(lra) Hrk Lk Ck) as ((Lv & Nv & Cv) & _). cbv zeta in *.
  set (v := fst (sn_step n 0 w uk)) in *. set (z := matmul n v w) in *.
  assert (Es' : sigma = sqrt (norm_sq z)).
  { assert (Es2 : dot z (l2_normalize 0 z) = sigma) by exact Es. rewrite <- Es2, dot_comm, dot_l2, Rplus_0_r. fold (norm_sq z). pose proof (norm_sq_nonneg z) as Nz.
    destruct (Req_dec (norm_sq z) 0) as [->|]; [rewrite sqrt_0; unfold Rdiv; ring|]. assert (0 < sqrt (norm_sq z)) by (apply sqrt_lt_R0; lra). rewrite <- (sqrt_sqrt (norm_sq z)) at 1 by lra. field. lra. }
  (* sigma^2 >= s^2 <p,v>^2 >= s^2 / (1 + x) *)
  set (x := s * r * (s2 / s) ^ (4 * k + 2)). assert (Ex : square (s2 / s) * rk = x / s) by (unfold x, rk, square; rewrite pow_add; field; lra).
  rewrite Ex in Cv. destruct Cv as [_ Cv]. rewrite Nv in Cv.
  pose proof (cauchy_schwarz q z ltac:(unfold z; rewrite matmul_length; apply (sg_q _ _ _ _ _ Hs))) as CZ. rewrite (sg_nq _ _ _ _ _ Hs), Rmult_1_l in CZ.
  unfold z in CZ at 1. rewrite (matmul_q n w p q s Hm Hs v Lv) in CZ. fold z in CZ.
  assert (Q : square sigma = norm_sq z) by (rewrite Es'; unfold square; apply sqrt_sqrt, norm_sq_nonneg).
  assert (X0 : 0 <= x / s) by (rewrite <- Ex; apply Rmult_le_pos; [apply Rle_0_sqr | exact Hrk]).
  assert (X1 : 0 <= x) by (replace x with (x / s * s) by (field; lra); apply Rmult_le_pos; lra).
  set (d := square (dot p v)) in *.
  assert (D : 1 - x / s <= d).
  { assert (D0 : 0 <= d) by apply Rle_0_sqr. assert (d <= 1 \/ 1 < d) as [D1|D1] by lra; nra. }
  assert (F : square s * (1 - x / s) <= square sigma).
  { rewrite Q. replace (square (s * dot p v)) with (square s * d) in CZ by (unfold d, square; ring). eapply Rle_trans; [|exact CZ]. apply Rmult_le_compat_l; [apply Rle_0_sqr | exact D]. }
  assert (F' : s * s - s * x <= sigma * sigma) by (unfold square in F; replace (s * s - s * x) with (s * s * (1 - x / s)) by (field; lra); exact F).
  nra.
Qed.
Print Assumptions C69_converges.
(** Hence the limit, for any number of steps per call. *)
Theorem C69_limit n w p q s s2 u0 sigmas : matrix n w -> singular n w p q s -> gap n w q s2 -> 0 <= s2 < s -> length u0 = n -> dot q u0 <> 0 ->
  (forall k, exists u out, sn_matrix (S k) n 0 w u0 = Some (u, sigmas k, out)) -> Un_cv sigmas s.
Proof.
  intros Hm Hs Hg H2 Lu Hc Hsig. set (r := (norm_sq u0 - square (dot q u0)) / square (dot q u0)). set (t := s2 / s).
  assert (T : 0 <= t < 1).
  { unfold t. split; [apply Rmult_le_pos; [lra | left; apply Rinv_0_lt_compat; lra]|]. apply (Rmult_lt_reg_r s); [lra|]. unfold Rdiv. rewrite Rmult_assoc, Rinv_l by lra. lra. }
  assert (Conv : Un_cv (fun k => s * r * t ^ (4 * k + 2)) 0).
  { intros e He. destruct (pow_lt_1_zero t ltac:(rewrite Rabs_pos_eq; lra) (e / (Rabs (s * r) + 1))) as [N HN].
    { apply Rdiv_lt_0_compat; [lra|]. pose proof (Rabs_pos (s * r)). lra. }
    exists N. intros k Hk. unfold R_dist. rewrite Rminus_0_r, Rabs_mult. specialize (HN (4 * k + 2)%nat ltac:(lia)). pose proof (Rabs_pos (s * r)) as P. pose proof (Rabs_pos (t ^ (4 * k + 2))) as P'.
    apply (Rmult_lt_compat_r (Rabs (s * r) + 1)) in HN; [|lra]. unfold Rdiv in HN. rewrite Rmult_assoc, Rinv_l in HN by lra. nra. }
  intros e He. destruct (Conv e He) as [N HN]. exists N. intros k Hk. specialize (HN k Hk). unfold R_dist in *. rewrite Rminus_0_r in HN.
  destruct (Hsig k) as (u & out & E). destruct (C69_converges n w p q s s2 u0 k Hm Hs Hg H2 Lu Hc) as (u' & sg & out' & E' & B). fold r t in B.
  rewrite E in E'. injection E' as _ Eq _. rewrite <- Eq in B. apply Rabs_def2 in HN. apply Rabs_def1; lra.
Qed.
Print Assumptions C69_limit.
(** ** With eps *)
Lemma l2_scaled eps k e x : norm_sq e = 1 -> 0 < x -> square x = square k + eps -> l2_normalize eps (map (fun a => a * k) e) = map (fun a => a * (k / x)) e.
Proof.
  intros N Hx E. unfold l2_normalize. rewrite norm_scale, N, Rmult_1_r, <- E. unfold square. rewrite sqrt_square by lra. rewrite map_map. apply map_ext. intros a. field. lra.
Qed.
(** Where the iteration comes to rest with eps: along the singular vectors of s > sqrt eps, with sigma = s - eps / s, strictly less than s.
    The result then has a singular value s^2 / (s^2 - eps) > 1. *)
Theorem C69_fixed_point k n eps w p q s : matrix n w -> singular n w p q s -> 0 <= eps -> 0 < s -> eps < square s ->
  let u := map (fun a => a * sqrt (1 - eps / square s)) q in
  sn_matrix (S k) n eps w u = Some (u, s - eps / s, map (map (fun a => a / (s - eps / s))) w).
Proof.
  intros Hm Hs He H0 Hlt. cbv zeta. set (t := sqrt (1 - eps / square s)). set (u := map (fun a => a * t) q).
  assert (Sp : 0 < square s) by (apply Rmult_lt_0_compat; lra).
  assert (T : square t = 1 - eps / square s).
  { unfold t, square at 1. apply sqrt_sqrt. enough (eps / square s <= 1) by lra. apply (Rmult_le_reg_r (square s)); [exact Sp|]. unfold Rdiv. rewrite Rmult_assoc, Rinv_l by lra. lra. }
  assert (Es : square s = square (s * t) + eps).
  { replace (square (s * t)) with (square s * square t) by (unfold square; ring). rewrite T. field. lra. }
  assert (S : sn_step n eps w u = (map (fun a => a * t) p, u)).
  { unfold sn_step. fold (times w u). unfold u. rewrite times_scale, (sg_right _ _ _ _ _ Hs), map_map.
    rewrite (map_ext (fun a => a * s * t) (fun a => a * (s * t))) by (intros; ring). rewrite (l2_scaled eps (s * t) p s (sg_np _ _ _ _ _ Hs) H0 Es).
    replace (s * t / s) with t by (field; lra). rewrite matmul_scale, (sg_left _ _ _ _ _ Hs), map_map.
    rewrite (map_ext (fun a => a * s * t) (fun a => a * (s * t))) by (intros; ring). rewrite (l2_scaled eps (s * t) q s (sg_nq _ _ _ _ _ Hs) H0 Es).
    replace (s * t / s) with t by (field; lra). reflexivity. }
  assert (C : sn_call k n eps w u = u).
  { induction k as [|k IH]; [reflexivity|]. unfold sn_call in *. rewrite (sn_loop_last k n eps w None u). cbv zeta. cbn [snd]. rewrite IH, S. reflexivity. }
  rewrite sn_matrix_last. cbv zeta. rewrite C, S. cbn [fst snd].
  assert (Sg : dot (matmul n (map (fun a => a * t) p) w) u = s - eps / s).
  { rewrite matmul_scale, (sg_left _ _ _ _ _ Hs), !dot_scale. unfold u. rewrite dot_comm, dot_scale. fold (norm_sq q). rewrite (sg_nq _ _ _ _ _ Hs).
    replace (t * (s * (t * 1))) with (s * square t) by (unfold square; ring). rewrite T. unfold square. field. lra. }
  now rewrite Sg.
Qed.
Print Assumptions C69_fixed_point.
Lemma op_bound_times n w L u : matrix n w -> op_bound w n L -> length u = n -> norm_sq (times w u) <= square L * norm_sq u.
Proof.
  intros Hm [HL HB] Lu. set (t := times w u). assert (Lt : length t = length w) by apply times_length.
  assert (E : norm_sq t = dot (matmul n t w) u) by (rewrite (adjoint n w Hm t u Lt); reflexivity).
  pose proof (cauchy_schwarz (matmul n t w) u ltac:(rewrite matmul_length; congruence)) as C. rewrite <- E in C. specialize (HB t Lt).
  pose proof (norm_sq_nonneg t) as Nt. pose proof (norm_sq_nonneg u) as Nu. set (X := norm_sq t) in *. set (Y := norm_sq u) in *.
  assert (Lp : 0 <= square L) by apply Rle_0_sqr.
  destruct (Req_dec X 0) as [->|NE]; [apply Rmult_le_pos; assumption|].
  assert (X * X <= square L * X * Y) by (eapply Rle_trans; [exact C | apply Rmult_le_compat_r; assumption]).
  apply (Rmult_le_reg_l X); [lra|]. lra.
Qed.
(** A matrix whose singular values are below sqrt eps: sigma tends to 0 over the calls although the matrix stays the same. *)
Theorem C69_small k n eps w u0 L : matrix n w -> op_bound w n L -> 0 < eps -> length u0 = n ->
  exists u sigma out, sn_matrix (S k) n eps w u0 = Some (u, sigma, out) /\ 0 <= sigma <= sqrt eps * (square L / eps) ^ (2 * k + 2) * norm_sq u0.
Proof.
  intros Hm HB He Lu. destruct (C69_sigma k n eps w u0 L ltac:(lra) HB) as (u & sigma & out & E & [S0 _] & _). exists u, sigma, out. split; [exact E|]. split; [exact S0|].
  rewrite sn_matrix_last in E. cbv zeta in E. injection E as _ Es _. set (a := square L / eps).
  assert (Ha : 0 <= a) by (apply Rmult_le_pos; [apply Rle_0_sqr | left; now apply Rinv_0_lt_compat]).
  assert (N : forall x, norm_sq (l2_normalize eps x) <= norm_sq x / eps).
  { intros x. pose proof (norm_sq_nonneg x). rewrite norm_l2 by lra. unfold Rdiv. apply Rmult_le_compat_l; [assumption|]. apply Rinv_le_contravar; lra. }
  assert (V : forall x, length x = n -> norm_sq (fst (sn_step n eps w x)) <= a * norm_sq x).
  { intros x Lx. unfold sn_step. cbn [fst]. fold (times w x). eapply Rle_trans; [apply N|]. pose proof (op_bound_times n w L x Hm HB Lx) as B.
    apply (Rmult_le_compat_r (/ eps)) in B; [|left; now apply Rinv_0_lt_compat]. unfold a, Rdiv in *. lra. }
  assert (Lv : forall x, length (fst (sn_step n eps w x)) = length w) by (intros; unfold sn_step; cbn [fst]; rewrite l2_length; apply map_length).
  assert (U : forall x, length x = n -> norm_sq (snd (sn_step n eps w x)) <= a * (a * norm_sq x)).
  { intros x Lx. specialize (V x Lx). specialize (Lv x). change (snd (sn_step n eps w x)) with (l2_normalize eps (matmul n (fst (sn_step n eps w x)) w)).
    eapply Rle_trans; [apply N|]. destruct HB as [_ HB]. specialize (HB _ Lv). apply (Rmult_le_compat_r (/ eps)) in HB; [|left; now apply Rinv_0_lt_compat].
    apply (Rmult_le_compat_l a) in V; [|exact Ha]. unfold a, Rdiv in *. lra. }
  assert (Ind : length (sn_call k n eps w u0) = n /\ norm_sq (sn_call k n eps w u0) <= a ^ (2 * k) * norm_sq u0).
  { clear Es. induction k as [|k [L' IH]]; [split; [exact Lu | change (norm_sq u0 <= 1 * norm_sq u0); lra]|].
    unfold sn_call in *. rewrite (sn_loop_last k n eps w None u0). cbv zeta. cbn [snd]. split.
    - unfold sn_step. cbn [snd]. rewrite l2_length. apply matmul_length.
    - eapply Rle_trans; [apply (U _ L')|]. replace (2 * S k)%nat with (2 + 2 * k)%nat by lia. rewrite pow_add. cbn [pow].
      apply (Rmult_le_compat_l (a * a)) in IH; [lra | now apply Rmult_le_pos]. }
  destruct Ind as [Lk Nk]. set (uk := sn_call k n eps w u0) in *. set (v := fst (sn_step n eps w uk)) in *. set (z := matmul n v w) in *.
  assert (Es2 : dot z (l2_normalize eps z) = sigma) by exact Es. rewrite <- Es2, dot_comm, dot_l2. fold (norm_sq z).
  pose proof (norm_sq_nonneg z) as Nz. pose proof (sqrt_lt_R0 eps He) as Se.
  assert (Z : norm_sq z <= eps * a ^ (2 * k + 2) * norm_sq u0).
  { destruct HB as [_ HB]. specialize (HB v (Lv uk)). fold z in HB. specialize (V uk Lk). fold v in V. rewrite pow_add.
    eapply Rle_trans; [exact HB|]. replace (square L) with (eps * a) by (unfold a; field; lra).
    apply Rle_trans with (eps * a * (a * norm_sq uk)); [apply Rmult_le_compat_l; [apply Rmult_le_pos; lra | exact V]|].
    apply (Rmult_le_compat_l (eps * a * a)) in Nk; [|apply Rmult_le_pos; [apply Rmult_le_pos; lra | exact Ha]].
    replace (eps * a * (a * norm_sq uk)) with (eps * a * a * norm_sq uk) by ring. eapply Rle_trans; [exact Nk|]. right. ring. }
  apply Rle_trans with (norm_sq z / sqrt eps).
  - unfold Rdiv. apply Rmult_le_compat_l; [exact Nz|]. apply Rinv_le_contravar; [exact Se | apply sqrt_le_1_alt; lra].
  - apply (Rmult_le_reg_r (sqrt eps)); [exact Se|]. unfold Rdiv. rewrite Rmult_assoc, Rinv_l, Rmult_1_r by lra.
    replace (sqrt eps * a ^ (2 * k + 2) * norm_sq u0 * sqrt eps) with (sqrt eps * sqrt eps * a ^ (2 * k + 2) * norm_sq u0) by ring. rewrite sqrt_sqrt by lra. exact Z.
Qed.
Print Assumptions C69_small.

(** ** What does not hold *)
Lemma dot_1 a b : dot [a] [b] = a * b. Proof. unfold dot, Rsum. cbn. ring. Qed.
Lemma step_1 eps a u : 0 < eps -> 0 < a -> 0 < u -> exists v u', 0 < v /\ 0 < u' /\ sn_step 1 eps [[a]] [u] = ([v], [u']).
Proof.
  intros He Ha Hu. unfold sn_step, matmul, column, l2_normalize. cbn [map seq nth].
  assert (P : forall x, 0 < x -> 0 < x * / sqrt (norm_sq [x] + eps)).
  { intros x Hx. apply Rmult_lt_0_compat; [exact Hx|]. apply Rinv_0_lt_compat, sqrt_lt_R0. unfold norm_sq. rewrite dot_1. nra. }
  rewrite !dot_1. do 2 eexists. split; [|split; [|reflexivity]]; apply P; [nra|]. apply Rmult_lt_0_compat; [apply P; nra | exact Ha].
Qed.
Lemma call_1 eps a u k : 0 < eps -> 0 < a -> 0 < u -> exists u' sigma,
  sn_matrix (S k) 1 eps [[a]] [u] = Some ([u'], sigma, [[a / sigma]]) /\ 0 < sigma.
Proof.
  intros He Ha Hu. assert (C : exists u1, 0 < u1 /\ sn_call k 1 eps [[a]] [u] = [u1]).
  { induction k as [|k (u1 & P & E)]; [eauto|]. unfold sn_call in *. rewrite (sn_loop_last k 1 eps [[a]] None [u]). cbv zeta. cbn [snd]. rewrite E.
    destruct (step_1 eps a u1 He Ha P) as (v & u' & _ & P' & ->). eauto. }
  destruct C as (u1 & P & E). rewrite sn_matrix_last. cbv zeta. rewrite E. destruct (step_1 eps a u1 He Ha P) as (v & u' & Pv & P' & ->). cbn [fst snd map].
  do 2 eexists. split; [reflexivity|]. unfold matmul, column. cbn [map seq nth]. rewrite !dot_1. apply Rmult_lt_0_compat; [|exact P']. now apply Rmult_lt_0_compat.
Qed.
Lemma op_bound_1 a : 0 <= a -> op_bound [[a]] 1 a.
Proof.
  intros Ha. split; [exact Ha|]. intros [|v [|]] L; try discriminate L. unfold matmul, column. cbn [map seq nth]. unfold norm_sq. rewrite !dot_1. unfold square. right. ring.
Qed.
(** Whatever eps is, there are matrices for which the result grows beyond all bounds over the calls. *)
Theorem C69_bounded_refuted eps : 0 < eps -> ~ (forall n w u0, matrix n w -> length u0 = n ->
  exists M, forall k u sigma out, sn_matrix (S k) n eps w u0 = Some (u, sigma, out) -> 0 < sigma -> Forall (Forall (fun a => Rabs a <= M)) out).
Proof.
  intros He H. pose proof (sqrt_lt_R0 eps He) as Se. set (a := sqrt eps / 2). assert (Ha : 0 < a) by (unfold a; lra).
  destruct (H 1%nat [[a]] [1] ltac:(repeat constructor) eq_refl) as [M HM].
  assert (R4 : square a / eps = / 4).
  { unfold a, square. replace (sqrt eps / 2 * (sqrt eps / 2)) with (sqrt eps * sqrt eps / 4) by field. rewrite sqrt_sqrt by lra. field. lra. }
  assert (Mp : 0 < M).
  { destruct (call_1 eps a 1 0 He Ha ltac:(lra)) as (u & sg & E & P). specialize (HM 0%nat _ _ _ E P). inversion HM as [|? ? H1 _]; subst. inversion H1 as [|? ? H2 _]; subst.
    assert (0 < a / sg) by now apply Rdiv_lt_0_compat. rewrite Rabs_pos_eq in H2 by lra. lra. }
  destruct (pow_lt_1_zero (/ 4) ltac:(rewrite Rabs_pos_eq; lra) (/ (2 * M)) ltac:(apply Rinv_0_lt_compat; lra)) as [N HN].
  destruct (call_1 eps a 1 N He Ha ltac:(lra)) as (u & sg & E & P).
  destruct (C69_small N 1 eps [[a]] [1] a ltac:(repeat constructor) (op_bound_1 a ltac:(lra)) He eq_refl) as (u2 & sg2 & out2 & E2 & _ & B).
  rewrite E in E2. injection E2 as _ <- _. specialize (HM N _ _ _ E P). inversion HM as [|? ? H1 _]; subst. inversion H1 as [|? ? H2 _]; subst.
  assert (Pa : 0 < a / sg) by now apply Rdiv_lt_0_compat. rewrite Rabs_pos_eq in H2 by lra.
  specialize (HN (2 * N + 2)%nat ltac:(lia)). rewrite R4 in B. unfold norm_sq in B. rewrite dot_1 in B. set (x := (/ 4) ^ (2 * N + 2)) in *.
  assert (X : 0 < x) by (apply pow_lt; lra). rewrite Rabs_pos_eq in HN by lra.
  assert (A1 : a <= M * sg) by (apply (Rmult_le_compat_r sg) in H2; [|lra]; unfold Rdiv in H2; rewrite Rmult_assoc, Rinv_l, Rmult_1_r in H2 by lra; exact H2).
  assert (A2 : x * (2 * M) < 1) by (apply (Rmult_lt_compat_r (2 * M)) in HN; [|lra]; rewrite Rinv_l in HN by lra; exact HN).
  unfold a in A1. assert (A3 : M * sg <= M * (sqrt eps * x)) by (apply Rmult_le_compat_l; lra).
  assert (A4 : sqrt eps * (x * (2 * M)) < sqrt eps * 1) by (apply Rmult_lt_compat_l; assumption). lra.
Qed.
Print Assumptions C69_bounded_refuted.
(** With eps sigma may decrease from call to call. *)
Theorem C69_monotone_refuted eps : 0 < eps -> ~ (forall n w u k k' u1 s1 o1 u2 s2 o2, matrix n w -> length u = n ->
  sn_matrix (S k) n eps w u = Some (u1, s1, o1) -> 0 < s1 -> sn_matrix (S k') n eps w u1 = Some (u2, s2, o2) -> s1 <= s2).
Proof.
  intros He H. pose proof (sqrt_lt_R0 eps He) as Se. set (a := sqrt eps / 2). assert (Ha : 0 < a) by (unfold a; lra).
  assert (R4 : square a / eps = / 4).
  { unfold a, square. replace (sqrt eps / 2 * (sqrt eps / 2)) with (sqrt eps * sqrt eps / 4) by field. rewrite sqrt_sqrt by lra. field. lra. }
  assert (W : matrix 1 [[a]]) by repeat constructor. pose proof (op_bound_1 a ltac:(lra)) as B1.
  destruct (C69_sigma 0 1 eps [[a]] [1] a ltac:(lra) B1) as (u1 & s1 & o1 & E1 & _ & L1 & N1 & _).
  destruct (call_1 eps a 1 0 He Ha ltac:(lra)) as (x1 & y1 & E1' & P1). rewrite E1 in E1'. injection E1' as Eu <- Eo.
  destruct (pow_lt_1_zero (/ 4) ltac:(rewrite Rabs_pos_eq; lra) (s1 / sqrt eps) ltac:(apply Rdiv_lt_0_compat; lra)) as [N HN].
  destruct (C69_small N 1 eps [[a]] u1 a W B1 He L1) as (u2 & s2 & o2 & E2 & _ & B). rewrite R4 in B.
  specialize (HN (2 * N + 2)%nat ltac:(lia)). set (x := (/ 4) ^ (2 * N + 2)) in *. assert (X : 0 < x) by (apply pow_lt; lra). rewrite Rabs_pos_eq in HN by lra.
  specialize (H 1%nat [[a]] [1] 0%nat N u1 s1 o1 u2 s2 o2 W eq_refl E1 P1 E2).
  assert (A1 : x * sqrt eps < s1) by (apply (Rmult_lt_compat_r (sqrt eps)) in HN; [|lra]; unfold Rdiv in HN; rewrite Rmult_assoc, Rinv_l, Rmult_1_r in HN by lra; exact HN).
  assert (A2 : sqrt eps * x * norm_sq u1 <= sqrt eps * x * 1) by (apply Rmult_le_compat_l; [apply Rmult_le_pos; lra | exact N1]). lra.
Qed.
Print Assumptions C69_monotone_refuted.
(** n_steps=0 is accepted by the constructor but [v0] is never assigned. *)
Theorem C69_no_steps n eps w u : sn_matrix 0 n eps w u = None. Proof. reflexivity. Qed.
Print Assumptions C69_no_steps.
(** From an orthogonal start the largest singular value is not found: the result need not have norm at most 1. *)
Theorem C69_norm_refuted : ~ (forall k n w u0 u sigma out, matrix n w -> length u0 = n -> sn_matrix (S k) n 0 w u0 = Some (u, sigma, out) -> 0 < sigma -> op_bound out n 1).
Proof.
  intros H. assert (S : sn_step 2 0 [[1; 0]; [0; 2]] [1; 0] = ([1; 0], [1; 0])).
  { unfold sn_step, matmul, column, l2_normalize, norm_sq, dot, Rsum. cbn [map seq nth combine fold_right fst snd].
    replace (1 * 1 + (0 * 0 + 0)) with 1 by ring. replace (1 * 0 + (0 * 2 + 0)) with 0 by ring.
    replace (1 * 1 + (0 * 0 + 0) + 0) with 1 by ring. rewrite sqrt_1, Rinv_1. replace (0 * 1) with 0 by ring. replace (1 * 1) with 1 by ring.
    replace (1 * 1 + (0 * 0 + 0)) with 1 by ring. replace (1 * 0 + (0 * 2 + 0)) with 0 by ring. replace (1 + (0 * 0 + 0)) with 1 by ring.
    replace (1 * 1 + (0 * 0 + 0) + 0) with 1 by ring. replace (1 * 1 + 0 + 0) with 1 by ring. rewrite ?sqrt_1, ?Rinv_1.
    apply f_equal2; repeat (apply f_equal2; [try ring|]); reflexivity. }
  specialize (H 0%nat 2%nat [[1; 0]; [0; 2]] [1; 0]). rewrite sn_matrix_last in H. cbv zeta in H. unfold sn_call in H. cbn [sn_loop snd] in H. rewrite S in H. cbn [fst snd] in H.
  assert (Sg : dot (matmul 2 [1; 0] [[1; 0]; [0; 2]]) [1; 0] = 1) by (unfold matmul, column, dot, Rsum; cbn [map seq nth combine fold_right fst snd]; ring).
  rewrite Sg in H. specialize (H _ _ _ ltac:(repeat constructor) eq_refl eq_refl ltac:(lra)). destruct H as [_ H]. specialize (H [0; 1] eq_refl).
  unfold matmul, column, norm_sq, dot, Rsum, square in H. cbn [map seq nth combine fold_right fst snd] in H. lra.
Qed.
Print Assumptions C69_norm_refuted.
(** The zero matrix has sigma 0 and is divided by it. *)
Theorem C69_zero_refuted : ~ (forall k n eps w u0 u sigma out, 0 < eps -> matrix n w -> length u0 = n -> sn_matrix (S k) n eps w u0 = Some (u, sigma, out) -> sigma <> 0).
Proof.
  intros H. destruct (C69_sigma 0 1 1 [[0]] [1] 0 ltac:(lra) (op_bound_1 0 ltac:(lra))) as (u & sg & out & E & B & _).
  apply (H 0%nat 1%nat 1 [[0]] [1] u sg out ltac:(lra) ltac:(repeat constructor) eq_refl E). lra.
Qed.
Print Assumptions C69_zero_refuted.
(** ** Shapes *)
Lemma prod_app l m : fold_right Z.mul 1%Z (l ++ m) = (fold_right Z.mul 1 l * fold_right Z.mul 1 m)%Z.
Proof. induction l as [|a l IH]; cbn [app fold_right]; [lia|]. rewrite IH. lia. Qed.
(** Arrays of rank two and more are accepted - more only without [error_on_non_matrix]; the matrix used has all entries of the array
    and its last axis as the columns. *)
Theorem C69_shape shape flag :
  (sn_shape shape flag <> None <-> (2 <= length shape)%nat /\ (length shape = 2%nat \/ flag = false)) /\
  (forall m, sn_shape shape flag = Some m -> length m = 2%nat /\ last m 0%Z = last shape 0%Z /\ fold_right Z.mul 1%Z m = fold_right Z.mul 1%Z shape).
Proof.
  unfold sn_shape. destruct shape as [|a [|b [|c l]]]; try (split; [split; [congruence | cbn [length]; lia] | discriminate]).
  - split; [split; [cbn; auto | discriminate]|]. intros m E. injection E as <-. auto.
  - destruct flag; (split; [split; [try (intros []; reflexivity) | try discriminate]|]).
    + cbn [length]. intros [_ [?|?]]; [lia | discriminate].
    + discriminate.
    + cbn [length]. split; [lia | auto].
    + intros m E. injection E as <-. split; [reflexivity|]. split; [reflexivity|].
      pose proof (app_removelast_last 0%Z (l := a :: b :: c :: l) ltac:(discriminate)) as A. set (x := a :: b :: c :: l) in *.
      apply (f_equal (fold_right Z.mul 1%Z)) in A. rewrite prod_app in A. rewrite A. change (fold_right Z.mul 1%Z [fold_right Z.mul 1 (removelast x); last x 0] = fold_right Z.mul 1 (removelast x) * fold_right Z.mul 1 [last x 0])%Z.
      generalize (fold_right Z.mul 1%Z (removelast x)), (last x 0%Z). intros y z. cbn [fold_right]. lia.
Qed.
Print Assumptions C69_shape.
(** The documentation says that scalars are returned unchanged; they are rejected whatever the flag. *)
Theorem C69_scalar_refuted : ~ (exists m, sn_shape [] false = Some m). Proof. intros [m E]. discriminate E. Qed.
Print Assumptions C69_scalar_refuted.

(** ** Examples *)
Example singular_example : singular 2 [[3; 0]; [0; 1]] [1; 0] [1; 0] 3 /\ gap 2 [[3; 0]; [0; 1]] [1; 0] 1.
Proof.
  split.
  - constructor; try reflexivity; unfold norm_sq, times, matmul, column, dot, Rsum; cbn [map seq nth combine fold_right fst snd]; try ring; repeat (apply f_equal2; [ring|]); reflexivity.
  - intros [|x [|y [|]]] L O; try discriminate L. unfold norm_sq, times, dot, Rsum in *. cbn [map combine fold_right fst snd] in *. unfold square. nra.
Qed.
(** From (1, 1) the error after one step is at most 3 * 1 * (1/3)^2. *)
Example converge_example : exists u sigma out, sn_matrix 1 2 0 [[3; 0]; [0; 1]] [1; 1] = Some (u, sigma, out) /\ 3 - / 3 <= sigma <= 3.
Proof.
  destruct singular_example as [Hs Hg]. assert (D : dot [1; 0] [1; 1] = 1) by (unfold dot, Rsum; cbn; ring).
  destruct (C69_converges 2 [[3; 0]; [0; 1]] [1; 0] [1; 0] 3 1 [1; 1] 0 ltac:(repeat constructor) Hs Hg ltac:(lra) eq_refl ltac:(rewrite D; lra)) as (u & sg & out & E & B).
  exists u, sg, out. split; [exact E|]. rewrite D in B. replace (norm_sq [1; 1]) with 2 in B by (unfold norm_sq, dot, Rsum; cbn; ring). unfold square in B. cbn [Nat.mul Nat.add pow] in B. lra.
Qed.
Example fixed_example : exists u out, sn_matrix 1 2 1 [[3; 0]; [0; 1]] u = Some (u, 3 - 1 / 3, out).
Proof.
  destruct singular_example as [Hs _]. do 2 eexists. apply (C69_fixed_point 0 2 1 [[3; 0]; [0; 1]] [1; 0] [1; 0] 3 ltac:(repeat constructor) Hs); unfold square; lra.
Qed.
Example shape_example : sn_shape [3; 4; 5]%Z false = Some [12; 5]%Z. Proof. reflexivity. Qed.

(** * Lemmas about ModelRnn.v *)
From Coq Require Import List Arith Bool Lia.
From Verif Require Import ModelShape ProofsShape ModelRnn.
Import ListNotations.
Local Open Scope list_scope.

Lemma bindo_assoc {A B C} (o : option A) (f : A -> option B) (g : B -> option C) :
  bindo (bindo o f) g = bindo o (fun a => bindo (f a) g).
Proof. now destruct o. Qed.
Lemma all_some_map_eq {A B} (f : A -> option B) g l : (forall a, In a l -> f a = Some (g a)) ->
  all_some (map f l) = Some (map g l).
Proof.
  induction l as [|a l IH]; cbn; intros H; [reflexivity|].
  rewrite H by now left. rewrite IH; auto.
Qed.
Lemma map_nth_seq0 {A B} (f : A -> B) d l : map f l = map (fun j => f (nth j l d)) (seq 0 (length l)).
Proof.
  induction l as [|a l IH]; cbn; [reflexivity|]. f_equal.
  rewrite <- seq_shift, map_map. exact IH.
Qed.

Lemma unroll_ext {X Y St} (f g : X -> St -> option (Y * St)) xs : forall s,
  (forall x s, In x xs -> f x s = g x s) -> unroll f xs s = unroll g xs s.
Proof.
  induction xs as [|x xs IH]; intros s H; cbn; [reflexivity|].
  rewrite (H x s) by now left. destruct (g x s) as [[y s']|]; cbn; [|reflexivity].
  rewrite (IH s'); [reflexivity|]. intros; apply H; now right.
Qed.
Lemma unroll_length {X Y St} (f : X -> St -> option (Y * St)) xs : forall s ys s', unroll f xs s = Some (ys, s') ->
  length ys = length xs.
Proof.
  induction xs as [|x xs IH]; intros s ys s'; cbn; [intros [= <- <-]; reflexivity|].
  destruct (f x s) as [[y s1]|]; cbn; [|discriminate]. destruct (unroll f xs s1) as [[ys1 s2]|] eqn:E; cbn; [|discriminate].
  intros [= <- <-]. cbn. f_equal. exact (IH _ _ _ E).
Qed.

(** ** Blocks *)
Lemma firstn_length_eq {A} (l : list A) n : length l = n -> firstn n l = l.
Proof. intros <-. apply firstn_all. Qed.
Lemma block_concat {A} k (ls : list (list A)) : forall i, Forall (fun l => length l = k) ls -> (i < length ls)%nat ->
  block k i (concat ls) = nth i ls [].
Proof.
  unfold block. induction ls as [|l ls IH]; cbn; intros i H Hi; [lia|].
  inversion H; subst. destruct i as [|i]; cbn.
  - rewrite firstn_app, firstn_all, Nat.sub_diag. cbn. now rewrite app_nil_r.
  - rewrite skipn_app, skipn_all2, app_nil_l by lia.
    replace (length l + i * length l - length l) with (i * length l) by lia.
    apply IH; [assumption | lia].
Qed.
Lemma block_block {A} r b k i (l : list A) n : length l = n * (b * r) -> k < n -> i < b ->
  block r i (block (b * r) k l) = block r (k * b + i) l.
Proof.
  intros Hl Hk Hi. unfold block. rewrite skipn_firstn_comm, firstn_firstn, skipn_skipn'.
  replace (Nat.min r (b * r - i * r)) with r by nia.
  f_equal. f_equal. nia.
Qed.
Lemma block_app_concat {A} r b (ls : list (list A)) i k : Forall (fun l => length l = b * r) ls -> k < length ls -> i < b ->
  block r (k * b + i) (concat ls) = block r i (nth k ls []).
Proof.
  intros H Hk Hi. rewrite <- (block_concat (b * r)) by assumption. symmetry. apply block_block with (n := length ls); auto.
  clear Hk Hi. induction H as [|l ls Hl H IH]; cbn; [reflexivity|]. rewrite app_length, IH, Hl. lia.
Qed.
Lemma concat_blocks {A} k n : forall l : list A, length l = n * k -> concat (map (fun i => block k i l) (seq 0 n)) = l.
Proof.
  induction n as [|n IH]; intros l H; cbn in *; [destruct l; [reflexivity | discriminate]|].
  unfold block at 1. cbn [Nat.mul skipn]. rewrite <- seq_shift, map_map.
  transitivity (firstn k l ++ concat (map (fun i => block k i (skipn k l)) (seq 0 n))).
  - f_equal. f_equal. apply map_ext. intros i. unfold block. now rewrite skipn_skipn'.
  - rewrite IH by (rewrite skipn_length; lia). apply firstn_skipn.
Qed.

(** ** Static and dynamic unrolls *)
Section agree.
Context {A : Type}.
Notation core_fn := (nest A -> nest A -> option (nest A * nest A)).

Lemma index0_slice n t (l : leaf A) : nth_error (l_shape l) 0 = Some n -> t < n -> index0 t l = Some (slice t l).
Proof.
  unfold index0, slice. destruct l as [[|m rest] d]; cbn; [discriminate|]. intros [= ->] H.
  destruct n as [|n]; [lia|]. now rewrite Nat.min_l by lia.
Qed.
Lemma slice_wf n t (l : leaf A) : wf_leaf l -> nth_error (l_shape l) 0 = Some n -> t < n -> wf_leaf (slice t l).
Proof.
  unfold wf_leaf, slice. destruct l as [[|m rest] d]; cbn; [discriminate|]. intros Hw [= ->] H.
  now apply block_length with (n := n).
Qed.

Lemma swap_slice n t (l : leaf A) : wf_leaf l -> nth_error (l_shape l) 1 = Some n -> t < n ->
  exists l', swapaxes l = Some l' /\ wf_leaf l' /\ nth_error (l_shape l') 0 = Some n /\ index1 t l = Some (slice t l').
Proof.
  unfold wf_leaf, swapaxes, index1, slice. destruct l as [[|b [|m rest]] d]; cbn; try discriminate. intros Hw [= ->] H.
  eexists; split; [reflexivity|]. cbn [l_shape l_data nprod tl nth_error].
  assert (HL : Forall (fun x => length x = b * nprod rest)
    (map (fun k => concat (map (fun i => block (nprod rest) (i * n + k) d) (seq 0 b))) (seq 0 n))).
  { apply Forall_forall. intros x Hx. apply in_map_iff in Hx as (k & <- & Hk). apply in_seq in Hk.
    assert (HB : Forall (fun x => length x = nprod rest) (map (fun i => block (nprod rest) (i * n + k) d) (seq 0 b))).
    { apply Forall_forall. intros x Hx. apply in_map_iff in Hx as (i & <- & Hi). apply in_seq in Hi.
      apply block_length with (n := b * n); [rewrite Hw; lia | nia]. }
    clear -HB. assert (E : length (map (fun i => block (nprod rest) (i * n + k) d) (seq 0 b)) = b)
      by now rewrite map_length, seq_length.
    revert HB E. generalize (map (fun i => block (nprod rest) (i * n + k) d) (seq 0 b)). intros ls. revert b.
    induction ls as [|x ls IH]; intros b HB E; cbn in *; [now subst|]. inversion HB; subst.
    rewrite app_length, (IH (length ls)) by auto. lia. }
  split; [|split; [reflexivity|]].
  - clear -HL. assert (E : length (map (fun k => concat (map (fun i => block (nprod rest) (i * n + k) d) (seq 0 b))) (seq 0 n)) = n)
      by now rewrite map_length, seq_length.
    revert HL E. generalize (map (fun k => concat (map (fun i => block (nprod rest) (i * n + k) d) (seq 0 b))) (seq 0 n)).
    intros ls. revert n. induction ls as [|x ls IH]; intros n HB E; cbn in *; [now subst|]. inversion HB; subst.
    rewrite app_length, (IH (length ls)) by auto. cbn. lia.
  - destruct n as [|n]; [lia|]. rewrite Nat.min_l by lia. f_equal. f_equal.
    rewrite block_concat; [|exact HL | rewrite map_length, seq_length; lia].
    symmetry. rewrite nth_indep with (d' := (fun k => concat (map (fun i => block (nprod rest) (i * S n + k) d) (seq 0 b))) 0)
      by (rewrite map_length, seq_length; lia).
    rewrite (map_nth (fun k => concat (map (fun i => block (nprod rest) (i * S n + k) d) (seq 0 b)))).
    now rewrite seq_nth by lia.
Qed.

(** Outputs of equal type stack to the arrays the scan returns. *)
Lemma ty_nth (y : nest A) t j : ty y = t -> j < length (snd t) ->
  l_shape (nth j (n_leaves y) (Leaf [] [])) = nth j (snd t) [].
Proof.
  intros <- H. cbn in *. rewrite <- (map_nth l_shape). reflexivity.
Qed.
Lemma same_shapes_nth t (ys : list (nest A)) j : Forall (fun y => ty y = t) ys -> j < length (snd t) ->
  same_shapes (nth j (snd t) []) (map (fun m => nth j (n_leaves m) (Leaf [] [])) ys) = true.
Proof.
  intros H Hj. apply forallb_forall. intros l Hl. apply in_map_iff in Hl as (y & <- & Hy).
  rewrite Forall_forall in H. rewrite (ty_nth y t j (H y Hy) Hj). now destruct list_eq_dec.
Qed.
Lemma tree_stack_ty (stack : list (leaf A) -> option (leaf A)) t y ys : Forall (fun y => ty y = t) (y :: ys) ->
  tree_stack stack (y :: ys) =
  bindo (all_some (map (fun j => stack (map (fun m => nth j (n_leaves m) (Leaf [] [])) (y :: ys))) (seq 0 (length (snd t)))))
    (fun ls => Some (Nest (fst t) ls)).
Proof.
  intros H. unfold tree_stack. assert (Hy : ty y = t) by now inversion H.
  assert (E : forallb (fun m => (n_def m =? n_def y) && (length (n_leaves m) =? length (n_leaves y))) (y :: ys) = true).
  { apply forallb_forall. intros m Hm. rewrite Forall_forall in H. specialize (H m Hm). rewrite <- Hy in H.
    unfold ty in H. injection H as H1 H2. apply andb_true_intro. split; apply Nat.eqb_eq; [assumption|].
    rewrite <- (map_length l_shape (n_leaves m)), H2. now rewrite map_length. }
  rewrite E. rewrite <- Hy. cbn [ty fst snd]. now rewrite map_length.
Qed.
Lemma stack0_outputs t (y : nest A) ys : Forall (fun y => ty y = t) (y :: ys) ->
  tree_stack stack0 (y :: ys) = Some (stack_outputs t (y :: ys)).
Proof.
  intros H. rewrite (tree_stack_ty stack0 t y ys H). unfold stack_outputs.
  rewrite all_some_map_eq with (g := fun j => Leaf (length (y :: ys) :: nth j (snd t) [])
    (concat (map (fun y => l_data (nth j (n_leaves y) (Leaf [] []))) (y :: ys)))); [reflexivity|].
  intros j Hj. apply in_seq in Hj. unfold stack0. cbn [map].
  rewrite (ty_nth y t j) by (inversion H; auto; lia).
  pose proof (same_shapes_nth t (y :: ys) j H ltac:(lia)) as E. cbn [map] in E. rewrite E.
  f_equal. f_equal; [cbn; now rewrite map_length | cbn; now rewrite map_map].
Qed.
Lemma wf_nth (y : nest A) j : wf_nest y -> j < length (n_leaves y) -> wf_leaf (nth j (n_leaves y) (Leaf [] [])).
Proof. intros H Hj. unfold wf_nest in H. rewrite Forall_forall in H. apply H. now apply nth_In. Qed.
Lemma stack_inner b r i (ls : list (leaf A)) : Forall (fun x => length (l_data x) = b * r) ls -> i < b ->
  concat (map (fun x => block r i (l_data x)) ls) =
  concat (map (fun k => block r (k * b + i) (concat (map l_data ls))) (seq 0 (length ls))).
Proof.
  intros H Hi. f_equal. rewrite (map_nth_seq0 (fun x => block r i (l_data x)) (Leaf [] [])).
  apply map_ext_in. intros k Hk. apply in_seq in Hk.
  rewrite block_app_concat; [| |rewrite map_length; lia | lia].
  - f_equal. rewrite <- (map_nth l_data). reflexivity.
  - apply Forall_forall. intros d Hd. apply in_map_iff in Hd as (m & <- & Hm). rewrite Forall_forall in H. auto.
Qed.
Lemma stack1_outputs t (y : nest A) ys : Forall (fun y => ty y = t) (y :: ys) -> Forall wf_nest (y :: ys) ->
  tree_stack stack1 (y :: ys) = tree_map swapaxes (stack_outputs t (y :: ys)).
Proof.
  intros H Hw. rewrite (tree_stack_ty stack1 t y ys H). unfold tree_map, stack_outputs. cbn [n_leaves n_def].
  rewrite map_map. f_equal. f_equal. apply map_ext_in. intros j Hj. apply in_seq in Hj.
  unfold stack1, swapaxes. cbn [map l_shape l_data].
  rewrite (ty_nth y t j) by (inversion H; auto; lia).
  destruct (nth j (snd t) []) as [|b rest] eqn:Es; [reflexivity|].
  pose proof (same_shapes_nth t (y :: ys) j H ltac:(lia)) as E. cbn [map] in E. rewrite Es in E. rewrite E.
  f_equal. f_equal; [cbn; now rewrite map_length|]. f_equal. apply map_ext_in. intros i Hi. apply in_seq in Hi.
  change (nth j (n_leaves y) (Leaf [] []) :: map (fun m => nth j (n_leaves m) (Leaf [] [])) ys)
    with (map (fun m => nth j (n_leaves m) (Leaf [] [])) (y :: ys)).
  change (l_data (nth j (n_leaves y) (Leaf [] [])) :: map (fun y => l_data (nth j (n_leaves y) (Leaf [] []))) ys)
    with (map (fun y => l_data (nth j (n_leaves y) (Leaf [] []))) (y :: ys)).
  rewrite <- (map_map (fun m => nth j (n_leaves m) (Leaf [] [])) l_data (y :: ys)).
  replace (length (y :: ys)) with (length (map (fun m => nth j (n_leaves m) (Leaf [] [])) (y :: ys))) by apply map_length.
  apply (stack_inner b (nprod rest) i (map (fun m => nth j (n_leaves m) (Leaf [] [])) (y :: ys))); [|lia].
  apply Forall_forall. intros x Hx. apply in_map_iff in Hx as (m & <- & Hm).
  rewrite Forall_forall in H, Hw. specialize (H m Hm). specialize (Hw m Hm).
  assert (Hl : j < length (n_leaves m)).
  { rewrite <- (map_length l_shape). change (map l_shape (n_leaves m)) with (snd (ty m)). rewrite H. lia. }
  pose proof (wf_nth m j Hw Hl) as W. unfold wf_leaf in W. rewrite W, (ty_nth m t j H) by lia. rewrite Es. reflexivity.
Qed.

(** A traceable core that keeps the type of its state behaves uniformly along the sequence. *)
Lemma unroll_uniform abs (core : core_fn) (xs : nat -> nest A) tx ts tout : traceable abs core ->
  forall ix s, (forall i, In i ix -> wf_nest (xs i) /\ ty (xs i) = tx) -> wf_nest s -> ty s = ts ->
  abs tx ts = Some (tout, ts) ->
  exists ys s', unroll (fun i s => core (xs i) s) ix s = Some (ys, s') /\ Forall (fun y => ty y = tout) ys /\ Forall wf_nest ys.
Proof.
  intros Ht ix. induction ix as [|i ix IH]; intros s Hx Hs Es Ha; cbn.
  - exists [], s. auto.
  - destruct (Hx i) as [Hw Ex]; [now left|]. pose proof (Ht (xs i) s Hw Hs) as T.
    rewrite Ex, Es, Ha in T. destruct (core (xs i) s) as [[y s1]|]; [|discriminate].
    destruct T as (Wy & Ws & [= E1 E2]). destruct (IH s1) as (ys & s2 & E & F & W).
    + intros k Hk; apply Hx; now right.
    + assumption.
    + congruence.
    + assumption.
    + cbn. rewrite E. cbn. exists (y :: ys), s2. repeat split; constructor; auto.
Qed.
Lemma unroll_fail abs (core : core_fn) (xs : nat -> nest A) tx i ix s : traceable abs core ->
  wf_nest (xs i) -> ty (xs i) = tx -> wf_nest s -> abs tx (ty s) = None ->
  unroll (fun i s => core (xs i) s) (i :: ix) s = None.
Proof.
  intros Ht Hw Ex Hs Ha. cbn. pose proof (Ht (xs i) s Hw Hs) as T. rewrite Ex, Ha in T.
  destruct (core (xs i) s) as [[y s1]|]; [destruct T as (_ & _ & T); discriminate | reflexivity].
Qed.

Definition leading (axis n : nat) (xs : nest A) : Prop :=
  n_leaves xs <> [] /\ Forall (fun l => nth_error (l_shape l) axis = Some n) (n_leaves xs).

Lemma tree_map_index0 n t (xs : nest A) : leading 0 n xs -> t < n ->
  tree_map (index0 t) xs = Some (Nest (n_def xs) (map (slice t) (n_leaves xs))).
Proof.
  intros [_ H] Ht. unfold tree_map. rewrite all_some_map_eq with (g := slice t); [reflexivity|].
  intros l Hl. rewrite Forall_forall in H. apply index0_slice with (n := n); auto.
Qed.
Lemma num_steps_leading axis n (xs : nest A) : leading axis n xs -> num_steps axis xs = Some n.
Proof. unfold num_steps, leading. intros [H1 H2]. destruct (n_leaves xs); [congruence|]. now inversion H2. Qed.
Lemma scan_length_leading n (xs : nest A) : leading 0 n xs -> scan_length xs = Some n.
Proof.
  unfold scan_length, leading. intros [H1 H2]. destruct (n_leaves xs) as [|l ls]; [congruence|].
  inversion H2 as [|? ? E F]; subst. destruct (l_shape l) as [|m r]; [discriminate|]. injection E as ->.
  assert (forallb (fun m => match l_shape m with k :: _ => k =? n | [] => false end) ls = true) as ->; [|reflexivity].
  apply forallb_forall. intros x Hx. rewrite Forall_forall in F. specialize (F x Hx).
  destruct (l_shape x); [discriminate|]. injection F as ->. apply Nat.eqb_refl.
Qed.
Lemma scan_length_inv n (xs : nest A) : scan_length xs = Some n -> leading 0 n xs.
Proof.
  unfold scan_length, leading. destruct (n_leaves xs) as [|l ls]; [discriminate|].
  destruct (l_shape l) as [|m r] eqn:E; [discriminate|]. destruct forallb eqn:F; [|discriminate]. intros [= ->].
  split; [congruence|]. constructor; [now rewrite E|]. apply Forall_forall. intros x Hx.
  rewrite forallb_forall in F. specialize (F x Hx). destruct (l_shape x); [discriminate|].
  apply Nat.eqb_eq in F. now subst.
Qed.
Lemma slices_wf n t (xs : nest A) : wf_nest xs -> leading 0 n xs -> t < n ->
  wf_nest (Nest (n_def xs) (map (slice t) (n_leaves xs))).
Proof.
  unfold wf_nest. cbn. intros H [_ F] Ht. rewrite Forall_forall in *. intros l Hl. apply in_map_iff in Hl as (x & <- & Hx).
  apply slice_wf with (n := n); auto.
Qed.
Lemma slices_ty t (xs : nest A) : ty (Nest (n_def xs) (map (slice t) (n_leaves xs))) = slice_ty xs.
Proof. unfold ty, slice_ty. cbn. now rewrite map_map. Qed.

(** Swapping the first two axes of every leaf. *)
Lemma swap_leading n (xs : nest A) : wf_nest xs -> leading 1 n xs ->
  exists xs', tree_map swapaxes xs = Some xs' /\ wf_nest xs' /\ leading 0 n xs' /\
    forall t, t < n -> tree_map (index1 t) xs = Some (Nest (n_def xs') (map (slice t) (n_leaves xs'))).
Proof.
  unfold wf_nest, leading, tree_map. destruct xs as [d ls]. cbn [n_def n_leaves]. intros Hw [Hne Hn].
  assert (P : exists ls', all_some (map swapaxes ls) = Some ls' /\ Forall wf_leaf ls' /\
     Forall (fun l => nth_error (l_shape l) 0 = Some n) ls' /\ length ls' = length ls /\
     forall t, t < n -> all_some (map (index1 t) ls) = Some (map (slice t) ls')).
  { clear Hne. induction ls as [|l ls IH]; [exists []; repeat split; constructor|].
    inversion Hw; subst. inversion Hn; subst. destruct IH as (ls' & E & W & F & L & HS); auto.
    assert (HX : exists l', swapaxes l = Some l' /\ wf_leaf l' /\ nth_error (l_shape l') 0 = Some n /\
                 forall t, t < n -> index1 t l = Some (slice t l')).
    { destruct n as [|n].
      - destruct l as [[|b [|m rest]] dd]; cbn in *; try discriminate. match goal with H : Some _ = Some 0 |- _ => injection H as -> end.
        eexists; split; [reflexivity|]. split; [reflexivity | split; [reflexivity | intros; lia]].
      - destruct (swap_slice (S n) 0 l) as (l' & E1 & E2 & E3 & _); auto; [lia|].
        exists l'. repeat split; auto. intros t Ht. destruct (swap_slice (S n) t l) as (l2 & F1 & _ & _ & F4); auto. congruence. }
    destruct HX as (l' & E1 & E2 & E3 & E4). exists (l' :: ls'). cbn. rewrite E1, E. split; [reflexivity|]. split; [auto|]. split; [auto|].
    split; [cbn; congruence|]. intros t Ht. rewrite E4, HS by auto. reflexivity. }
  destruct P as (ls' & E & W & F & L & HS). exists (Nest d ls'). rewrite E. cbn. repeat split; auto.
  - destruct ls'; [destruct ls; [congruence | discriminate] | congruence].
  - intros t Ht. now rewrite HS.
Qed.

Lemma scan_static abs (core : core_fn) (tm : bool) xs xs' s0 n : traceable abs core ->
  wf_nest xs' -> wf_nest s0 -> leading 0 n xs' -> 0 < n ->
  num_steps (if tm then 0 else 1) xs = Some n ->
  (forall t, t < n -> tree_map (if tm then index0 t else index1 t) xs = Some (Nest (n_def xs') (map (slice t) (n_leaves xs')))) ->
  (forall yt st, abs (slice_ty xs') (ty s0) = Some (yt, st) -> st = ty s0) ->
  static_unroll core xs s0 tm =
  bindo (lax_scan abs core s0 xs') (fun r => let '(ys, s) := r in
  bindo (if tm then Some ys else tree_map swapaxes ys) (fun ys => Some (ys, s))).
Proof.
  intros Ht Hw Hs Hl Hn En Hx Hc. unfold static_unroll, lax_scan. rewrite En, (scan_length_leading n xs' Hl).
  cbn [bindo].
  rewrite (unroll_ext _ (fun t s => core (Nest (n_def xs') (map (slice t) (n_leaves xs'))) s)).
  2:{ intros t s Hi. apply in_seq in Hi. rewrite Hx by lia. reflexivity. }
  destruct (abs (slice_ty xs') (ty s0)) as [[yt st]|] eqn:Ea.
  - cbn [bindo]. assert (st = ty s0) as -> by eauto. destruct nty_eq_dec; [|congruence].
    destruct (unroll_uniform abs core (fun t => Nest (n_def xs') (map (slice t) (n_leaves xs'))) (slice_ty xs') (ty s0) yt Ht
      (seq 0 n) s0) as (ys & s' & E & F & W); auto.
    { intros i Hi. apply in_seq in Hi. split; [apply slices_wf with (n := n); auto; lia | apply slices_ty]. }
    rewrite E. cbn [bindo].
    pose proof (unroll_length _ _ _ _ _ E) as Len. rewrite seq_length in Len. destruct ys as [|y ys]; [cbn in Len; lia|].
    destruct tm.
    + now rewrite (stack0_outputs yt y ys F).
    + now rewrite (stack1_outputs yt y ys F W).
  - cbn [bindo]. destruct n as [|n]; [lia|]. cbn [seq].
    rewrite (unroll_fail abs core (fun t => Nest (n_def xs') (map (slice t) (n_leaves xs'))) (slice_ty xs')); auto.
    + apply slices_wf with (n := S n); auto; lia.
    + apply slices_ty.
Qed.
End agree.

(** ** [DeepRNN]: running layer after layer over the whole sequence *)
Section deep.
Context {V St : Type}.
Variable concat : list V -> option V.
Notation layers := (list (layer V St)).

Fixpoint ncores (ls : layers) : nat :=
  match ls with [] => 0 | LCore _ _ :: ls => S (ncores ls) | LFun _ :: ls => ncores ls end.
Fixpoint lw (skip : bool) (idx : nat) (ls : layers) (xs ps : list V) (ss : list St) : option (list V * list (list V) * list St) :=
  match ls with
  | [] => Some (ps, [], [])
  | l :: ls =>
      bindo (if skip && (0 <? idx) then all_some (map2 (fun x p => concat [x; p]) xs ps) else Some ps) (fun ps =>
      match l with
      | LCore call _ => match ss with
          | [] => None
          | s :: ss => bindo (unroll call ps s) (fun r => let '(ys, s') := r in
              bindo (lw skip (S idx) ls xs ys ss) (fun q => let '(zs, outs, ss) := q in Some (zs, ys :: outs, s' :: ss)))
          end
      | LFun f => bindo (all_some (map f ps)) (fun ys => lw skip (S idx) ls xs ys ss)
      end)
  end.

Lemma all_some_cons {A} (o : option A) l : all_some (o :: l) = bindo o (fun a => bindo (all_some l) (fun r => Some (a :: r))).
Proof. cbn. destruct o; [|reflexivity]. now destruct (all_some l). Qed.

Lemma all_some_length {A} (l : list (option A)) l' : all_some l = Some l' -> length l' = length l.
Proof. intros H. apply all_some_Some in H. subst. now rewrite map_length. Qed.

Lemma lw_cons skip ls : forall idx x xs p ps ss, length xs = length ps ->
  lw skip idx ls (x :: xs) (p :: ps) ss =
  bindo (deep_loop concat skip x idx ls p ss) (fun r => let '(cur, outs, ss1) := r in
  bindo (lw skip idx ls xs ps ss1) (fun q => let '(curs, outss, ss2) := q in Some (cur :: curs, map2 cons outs outss, ss2))).
Proof.
  induction ls as [|l ls IH]; intros idx x xs p ps ss HL; [reflexivity|]. cbn [lw deep_loop].
  assert (K : forall P PS, length PS = length xs ->
    match l with
    | LCore call _ => match ss with
          | [] => None
          | s :: ss => bindo (unroll call (P :: PS) s) (fun r => let '(ys, s') := r in
              bindo (lw skip (S idx) ls (x :: xs) ys ss) (fun q => let '(zs, outs, ss) := q in Some (zs, ys :: outs, s' :: ss)))
          end
      | LFun f => bindo (all_some (map f (P :: PS))) (fun ys => lw skip (S idx) ls (x :: xs) ys ss)
      end =
    bindo (match l with
      | LCore call _ =>
          match ss with
          | [] => None
          | s :: state => bindo (call P s) (fun r => let '(y, s') := r in
              bindo (deep_loop concat skip x (S idx) ls y state) (fun q => let '(cur, outs, ss) := q in
              Some (cur, y :: outs, s' :: ss)))
          end
      | LFun f => bindo (f P) (fun y => deep_loop concat skip x (S idx) ls y ss)
      end) (fun r => let '(cur, outs, ss1) := r in
      bindo (match l with
      | LCore call _ => match ss1 with
          | [] => None
          | s :: ss => bindo (unroll call PS s) (fun r => let '(ys, s') := r in
              bindo (lw skip (S idx) ls xs ys ss) (fun q => let '(zs, outs, ss) := q in Some (zs, ys :: outs, s' :: ss)))
          end
      | LFun f => bindo (all_some (map f PS)) (fun ys => lw skip (S idx) ls xs ys ss1)
      end) (fun q => let '(curs, outss, ss2) := q in Some (cur :: curs, map2 cons outs outss, ss2)))).
  { intros P PS HP. destruct l as [call ini | f].
    - destruct ss as [|s ss]; [reflexivity|]. cbn [unroll]. destruct (call P s) as [[y s1]|]; [|reflexivity]. cbn [bindo].
      destruct (deep_loop concat skip x (S idx) ls y ss) as [[[cur outs] ss1]|] eqn:D; cbn [bindo].
      + destruct (unroll call PS s1) as [[ys s2]|] eqn:U; [|reflexivity]. cbn [bindo].
        rewrite IH by (rewrite (unroll_length _ _ _ _ _ U); auto). rewrite D. cbn [bindo].
        destruct (lw skip (S idx) ls xs ys ss1) as [[[curs outss] ss2]|]; reflexivity.
      + destruct (unroll call PS s1) as [[ys s2]|] eqn:U; [|reflexivity]. cbn [bindo].
        rewrite IH by (rewrite (unroll_length _ _ _ _ _ U); auto). now rewrite D.
    - rewrite map_cons, all_some_cons. destruct (f P) as [y|]; [|reflexivity]. cbn [bindo].
      destruct (all_some (map f PS)) as [ys|] eqn:U; cbn [bindo].
      + apply IH. rewrite (all_some_length _ _ U), map_length. auto.
      + destruct (deep_loop concat skip x (S idx) ls y ss) as [[[cur outs] ss1]|]; reflexivity. }
  destruct (skip && (0 <? idx)).
  - cbn [map2]. rewrite all_some_cons. destruct (concat [x; p]) as [P|]; [|reflexivity]. cbn [bindo].
    destruct (all_some (map2 (fun x p => concat [x; p]) xs ps)) as [PS|] eqn:E; cbn [bindo].
    + apply K. rewrite (all_some_length _ _ E), map2_length. lia.
    + match goal with |- None = bindo ?o _ => destruct o as [[[? ?] ?]|]; reflexivity end.
  - cbn [bindo]. apply K. auto.
Qed.

Lemma lw_nil skip ls : forall idx ss, length ss = ncores ls ->
  lw skip idx ls [] [] ss = Some ([], repeat [] (ncores ls), ss).
Proof.
  induction ls as [|l ls IH]; intros idx ss H; cbn in *.
  - destruct ss; [reflexivity | discriminate].
  - destruct (skip && _); cbn; destruct l; cbn; try (destruct ss as [|s ss]; [discriminate|]; cbn; rewrite IH by (cbn in H; lia); reflexivity);
      apply IH; assumption.
Qed.
Lemma deep_loop_length skip ls : forall x idx p ss cur outs ss1, deep_loop concat skip x idx ls p ss = Some (cur, outs, ss1) ->
  length outs = ncores ls /\ length ss1 = ncores ls.
Proof.
  induction ls as [|l ls IH]; intros x idx p ss cur outs ss1; cbn; [intros [= <- <- <-]; auto|].
  destruct (if skip && _ then _ else _) as [q|]; [|discriminate]. cbn. destruct l as [call ini|f]; cbn.
  - destruct ss as [|s ss]; [discriminate|]. destruct (call q s) as [[y s']|]; [|discriminate]. cbn.
    destruct (deep_loop _ _ _ _ _ _ _) as [[[c o] ss2]|] eqn:D; [|discriminate]. cbn. intros [= <- <- <-].
    destruct (IH _ _ _ _ _ _ _ D). cbn. auto.
  - destruct (f q) as [y|]; [|discriminate]. cbn. apply IH.
Qed.
Lemma lw_length skip ls : forall idx xs ps ss cur outs ss1, length ps = length xs ->
  lw skip idx ls xs ps ss = Some (cur, outs, ss1) -> length cur = length xs /\ length outs = ncores ls.
Proof.
  induction ls as [|l ls IH]; intros idx xs ps ss cur outs ss1 HL; cbn; [intros [= <- <- <-]; auto|].
  destruct (if skip && _ then _ else _) as [q|] eqn:Q; [|discriminate]. cbn.
  assert (HQ : length q = length xs).
  { destruct (skip && _); [|now injection Q as <-]. rewrite (all_some_length _ _ Q), map2_length. lia. }
  destruct l as [call ini|f]; cbn.
  - destruct ss as [|s ss]; [discriminate|]. destruct (unroll call q s) as [[y s']|] eqn:U; [|discriminate]. cbn.
    destruct (lw _ _ _ _ _ _) as [[[c o] ss2]|] eqn:D; [|discriminate]. cbn. intros [= <- <- <-].
    destruct (IH (S idx) xs y ss c o ss2); auto. { rewrite (unroll_length _ _ _ _ _ U). auto. } cbn. auto.
  - destruct (all_some (map f q)) as [y|] eqn:U; [|discriminate]. cbn. apply IH.
    rewrite (all_some_length _ _ U), map_length. auto.
Qed.

(** The output at each time from the outputs of all cores. *)
Definition at_time (outss : list (list V)) (t : nat) : option V :=
  bindo (all_some (map (fun ys => nth_error ys t) outss)) concat.
Lemma at_time_0 outs outss : length outs = length outss -> at_time (map2 cons outs outss) 0 = concat outs.
Proof.
  intros H. unfold at_time. assert (all_some (map (fun ys => nth_error ys 0) (map2 cons outs outss)) = Some outs) as ->; [|reflexivity].
  revert outss H. induction outs as [|o outs IH]; intros [|os outss] H; try discriminate; cbn; [reflexivity|].
  rewrite IH by (cbn in H; lia). reflexivity.
Qed.
Lemma at_time_S outs outss t : length outs = length outss -> at_time (map2 cons outs outss) (S t) = at_time outss t.
Proof.
  intros H. unfold at_time. f_equal. f_equal. revert outss H.
  induction outs as [|o outs IH]; intros [|os outss] H; try discriminate; cbn; [reflexivity|].
  f_equal. apply IH. cbn in H; lia.
Qed.

Lemma deep_unroll_false ls xs : forall ss, length ss = ncores ls ->
  unroll (deep_call concat false ls) xs ss =
  bindo (lw false 0 ls xs xs ss) (fun r => let '(curs, _, ss) := r in Some (curs, ss)).
Proof.
  induction xs as [|x xs IH]; intros ss H.
  - rewrite lw_nil by assumption. reflexivity.
  - rewrite lw_cons by reflexivity. cbn [unroll]. unfold deep_call at 1.
    destruct (deep_loop concat false x 0 ls x ss) as [[[cur outs] ss1]|] eqn:D; [|reflexivity]. cbn [bindo].
    rewrite IH by apply (deep_loop_length _ _ _ _ _ _ _ _ _ D).
    destruct (lw false 0 ls xs xs ss1) as [[[curs outss] ss2]|]; reflexivity.
Qed.
Lemma deep_unroll_true ls xs : forall ss, length ss = ncores ls ->
  unroll (deep_call concat true ls) xs ss =
  bindo (lw true 0 ls xs xs ss) (fun r => let '(_, outss, ss) := r in
  bindo (all_some (map (at_time outss) (seq 0 (length xs)))) (fun ys => Some (ys, ss))).
Proof.
  induction xs as [|x xs IH]; intros ss H.
  - rewrite lw_nil by assumption. reflexivity.
  - rewrite lw_cons by reflexivity. cbn [unroll]. unfold deep_call at 1.
    destruct (deep_loop concat true x 0 ls x ss) as [[[cur outs] ss1]|] eqn:D; [|reflexivity]. cbn [bindo].
    destruct (deep_loop_length _ _ _ _ _ _ _ _ _ D) as [L1 L2].
    specialize (IH ss1 L2).
    destruct (lw true 0 ls xs xs ss1) as [[[curs outss] ss2]|] eqn:W; cbn [bindo] in *.
    + assert (L3 : length outs = length outss) by (rewrite L1; symmetry; apply (lw_length _ _ _ _ _ _ _ _ _ eq_refl W)).
      cbn [length seq map]. rewrite all_some_cons, at_time_0 by assumption.
      rewrite <- seq_shift, map_map. rewrite (map_ext _ (at_time outss)) by (intros; apply at_time_S; assumption).
      destruct (concat outs) as [o|]; [|reflexivity]. cbn [bindo]. rewrite IH.
      destruct (all_some (map (at_time outss) (seq 0 (length xs)))); reflexivity.
    + destruct (concat outs) as [o|]; [|reflexivity]. cbn [bindo]. now rewrite IH.
Qed.
End deep.

(** ** [where_] with a flag per leading position *)
Lemma nprod_app s t : nprod (s ++ t) = nprod s * nprod t.
Proof. induction s as [|d s IH]; cbn; [lia|]. rewrite IH. lia. Qed.
Lemma nprod_ones n : nprod (repeat 1 n) = 1.
Proof. induction n; cbn; lia. Qed.
Lemma bshape_refl s : bshape s s = Some s.
Proof.
  unfold bshape, pad_left. rewrite Nat.max_id, Nat.sub_diag. cbn. apply all_some_Some.
  induction s as [|d s IH]; cbn; [reflexivity|]. rewrite IH. unfold bdim. now rewrite Nat.eqb_refl.
Qed.
Lemma map2_app {A B C} (f : A -> B -> C) l1 l2 m1 m2 : length l1 = length m1 ->
  map2 f (l1 ++ l2) (m1 ++ m2) = map2 f l1 m1 ++ map2 f l2 m2.
Proof. revert m1. induction l1 as [|a l1 IH]; intros [|b m1] H; try discriminate; cbn; [reflexivity|]. f_equal. apply IH. cbn in H; lia. Qed.
Lemma bshape_ones p rest : bshape (p ++ repeat 1 (length rest)) (p ++ rest) = Some (p ++ rest).
Proof.
  unfold bshape, pad_left. rewrite !app_length, repeat_length, Nat.max_id, Nat.sub_diag. cbn.
  apply all_some_Some. rewrite map_app, map2_app by reflexivity. f_equal.
  - induction p as [|d s IH]; cbn; [reflexivity|]. rewrite IH. unfold bdim. now rewrite Nat.eqb_refl.
  - induction rest as [|d s IH]; cbn; [reflexivity|]. rewrite IH. unfold bdim. now destruct d as [|[|d]].
Qed.
Lemma ravel_ones n : forall ix, ravel_b (repeat 1 n) ix = 0.
Proof. induction n as [|n IH]; intros [|i ix]; cbn; auto. Qed.
Lemma ravel_prefix p rest : forall k, k < nprod (p ++ rest) ->
  ravel_b (p ++ repeat 1 (length rest)) (unravel (p ++ rest) k) = k / nprod rest.
Proof.
  induction p as [|d p IH]; intros k H; cbn [app ravel_b unravel] in *.
  - rewrite ravel_ones. symmetry. now apply Nat.div_small.
  - cbn [nprod] in H. set (N := nprod (p ++ rest)) in *. assert (HN : N <> 0) by nia.
    assert (Hm : k mod N < N) by now apply Nat.mod_upper_bound.
    rewrite IH by assumption.
    assert (Hq : k / N < d) by (apply Nat.div_lt_upper_bound; lia).
    rewrite (Nat.mod_small _ _ Hq). replace (if d =? 1 then 0 else k / N) with (k / N) by
      (destruct (Nat.eqb_spec d 1); [lia | reflexivity]).
    rewrite nprod_app, nprod_ones, Nat.mul_1_r.
    assert (EN : N = nprod p * nprod rest) by apply nprod_app.
    assert (HR : nprod rest <> 0) by (intros E; rewrite E in EN; lia).
    rewrite <- (Nat.div_add_l (k / N * nprod p) (nprod rest) (k mod N) HR). f_equal.
    pose proof (Nat.div_mod k N HN) as E. rewrite <- Nat.mul_assoc, <- EN. lia.
Qed.
Lemma ravel_id s : forall k, k < nprod s -> ravel_b s (unravel s k) = k.
Proof.
  intros k H. pose proof (ravel_prefix s [] k) as E. rewrite !app_nil_r in E. cbn [nprod] in E.
  rewrite E by assumption. apply Nat.div_1_r.
Qed.
Lemma bget_same {A} (d : A) (x : leaf A) k : wf_leaf x -> k < nprod (l_shape x) -> bget d (l_shape x) x k = nth k (l_data x) d.
Proof. intros W H. unfold bget, pad_left. rewrite Nat.sub_diag. cbn. now rewrite ravel_id. Qed.
Lemma bget_flag (r : leaf bool) p rest k : l_shape r = p ++ repeat 1 (length rest) -> k < nprod (p ++ rest) ->
  bget false (p ++ rest) r k = nth (k / nprod rest) (l_data r) false.
Proof.
  intros E H. unfold bget, pad_left. rewrite E, !app_length, repeat_length, Nat.sub_diag. cbn [repeat app].
  now rewrite ravel_prefix.
Qed.
Lemma where_flag {A} (d : A) (r : leaf bool) (a b : leaf A) p rest :
  l_shape r = p ++ repeat 1 (length rest) -> l_shape a = p ++ rest -> l_shape b = p ++ rest -> wf_leaf a -> wf_leaf b ->
  where_ d r a b = Some (Leaf (p ++ rest) (map (fun k => if nth (k / nprod rest) (l_data r) false
                                                          then nth k (l_data a) d else nth k (l_data b) d)
                                                (seq 0 (nprod (p ++ rest))))).
Proof.
  intros Er Ea Eb Wa Wb. unfold where_. rewrite Er, Ea, bshape_ones. cbn [bindo]. rewrite Eb, bshape_refl. cbn [bindo].
  f_equal. f_equal. apply map_ext_in. intros k Hk. apply in_seq in Hk.
  rewrite (bget_flag r p rest k Er) by lia. rewrite <- Ea at 1. rewrite bget_same by (rewrite ?Ea; auto; lia).
  rewrite <- Eb. rewrite bget_same by (rewrite ?Eb; auto; lia). reflexivity.
Qed.
Lemma nth_seq_block {A} (d : A) R i (l : list A) n : length l = n * R -> i < n ->
  map (fun k => nth k l d) (seq (i * R) R) = block R i l.
Proof.
  intros HL Hi. unfold block. transitivity (map (fun k => nth k (firstn R (skipn (i * R) l)) d) (seq 0 R)).
  - rewrite (map_seq_shift _ (i * R)). apply map_ext_in. intros k Hk. apply in_seq in Hk.
    transitivity (nth k (skipn (i * R) l) d).
    + rewrite <- (firstn_skipn (i * R) l) at 1. rewrite app_nth2; rewrite firstn_length_le by nia; [|lia].
      f_equal. lia.
    + rewrite <- (firstn_skipn R (skipn (i * R) l)) at 1. rewrite app_nth1; [reflexivity|].
      rewrite firstn_length_le; [lia|]. rewrite skipn_length. nia.
  - assert (E : length (firstn R (skipn (i * R) l)) = R) by (rewrite firstn_length_le; [reflexivity | rewrite skipn_length; nia]).
    revert E. generalize (firstn R (skipn (i * R) l)). intros m <-. transitivity (map (fun a => a) m); [|apply map_id]. symmetry.
    apply (map_nth_seq0 (fun a => a) d).
Qed.
Lemma block_map_seq {A} (f : nat -> A) R i n : i < n -> block R i (map f (seq 0 (n * R))) = map f (seq (i * R) R).
Proof.
  intros H. unfold block. rewrite skipn_map, firstn_map. f_equal.
  replace (n * R) with (i * R + (R + (n - i - 1) * R)) by nia.
  rewrite seq_app, skipn_app, skipn_all2, seq_length, Nat.sub_diag by (rewrite seq_length; lia). cbn [skipn app].
  rewrite seq_app, firstn_app, firstn_all2, seq_length, Nat.sub_diag by (rewrite seq_length; lia). cbn [firstn]. now rewrite app_nil_r.
Qed.
Lemma where_rows {A} (d : A) (r : leaf bool) (a b : leaf A) B rest : l_shape r = B :: repeat 1 (length rest) ->
  l_shape a = B :: rest -> l_shape b = B :: rest -> wf_leaf a -> wf_leaf b ->
  exists c, where_ d r a b = Some c /\ l_shape c = B :: rest /\ wf_leaf c /\
    forall i, i < B -> block (nprod rest) i (l_data c) =
      if nth i (l_data r) false then block (nprod rest) i (l_data a) else block (nprod rest) i (l_data b).
Proof.
  intros Er Ea Eb Wa Wb. rewrite (where_flag d r a b [B] rest Er Ea Eb Wa Wb).
  eexists; split; [reflexivity|]. split; [reflexivity|]. split.
  { unfold wf_leaf. cbn [l_data l_shape]. now rewrite map_length, seq_length. }
  intros i Hi. cbn [l_data]. cbn [app nprod]. rewrite block_map_seq by assumption.
  unfold wf_leaf in *. rewrite Ea in Wa. rewrite Eb in Wb. cbn [nprod] in *.
  transitivity (map (fun k => if nth i (l_data r) false then nth k (l_data a) d else nth k (l_data b) d) (seq (i * nprod rest) (nprod rest))).
  - apply map_ext_in. intros k Hk. apply in_seq in Hk. replace (k / nprod rest) with i; [reflexivity|].
    apply (Nat.div_unique k (nprod rest) i (k - i * nprod rest)); lia.
  - destruct (nth i (l_data r) false); apply nth_seq_block with (n := B); auto.
Qed.

(** ** Rows of batched nests and [ResetCore] *)
(** The data of batch element [b], one list per leaf. *)
Definition row {A} (b : nat) (n : nest A) : list (list A) :=
  map (fun l => block (nprod (tl (l_shape l))) b (l_data l)) (n_leaves n).
(** Every leaf has a leading batch axis of size [B] in front of the shapes of [t]. *)
Definition batched_as {A} (B : nat) (t : nty) (n : nest A) : Prop :=
  wf_nest n /\ ty n = (fst t, map (cons B) (snd t)).
(** The core acts on every batch element by [core1]. *)
Definition batchwise {A} (B : nat) (tx ts tout : nty) (call : nest A -> nest A -> option (nest A * nest A))
    (core1 : list (list A) -> list (list A) -> list (list A) * list (list A)) : Prop :=
  forall x s, batched_as B tx x -> batched_as B ts s -> exists y s', call x s = Some (y, s') /\
    batched_as B tout y /\ batched_as B ts s' /\ forall b, b < B -> core1 (row b x) (row b s) = (row b y, row b s').

Lemma batched_leaves {A} B t (n : nest A) : batched_as B t n -> map l_shape (n_leaves n) = map (cons B) (snd t).
Proof. intros [_ H]. unfold ty in H. now injection H. Qed.

(** The leaves after the reset. *)
Lemma reset_leaves {A} (d : A) B (r : leaf bool) shs : l_shape r = [B] ->
  forall (ini st : list (leaf A)), Forall wf_leaf ini -> Forall wf_leaf st ->
  map l_shape ini = map (cons B) shs -> map l_shape st = map (cons B) shs ->
  exists conf ls, all_some (map2 validate_and_conform (map (fun _ => r) st) st) = Some conf /\
    all_some (map2 (fun r p => where_ d r (fst p) (snd p)) conf (combine ini st)) = Some ls /\
    Forall wf_leaf ls /\ map l_shape ls = map (cons B) shs /\
    forall b, b < B -> map (fun l => block (nprod (tl (l_shape l))) b (l_data l)) ls =
      if nth b (l_data r) false then map (fun l => block (nprod (tl (l_shape l))) b (l_data l)) ini
      else map (fun l => block (nprod (tl (l_shape l))) b (l_data l)) st.
Proof.
  intros Er. induction shs as [|sh shs IH]; intros [|i ini] [|s st] Wi Ws Ei Es; try discriminate.
  - exists [], []. repeat split; auto. intros b _. now destruct nth.
  - inversion Wi; subst. inversion Ws; subst. cbn [map] in Ei, Es. injection Ei as Ei1 Ei2. injection Es as Es1 Es2.
    destruct (IH ini st) as (conf & ls & C & L & W & S & R); auto.
    set (r' := Leaf (B :: repeat 1 (length sh)) (l_data r)).
    destruct (where_rows d r' i s B sh) as (c & Wc & Sc & Fc & Rc); auto.
    exists (r' :: conf), (c :: ls).
    assert (V : validate_and_conform r s = Some r').
    { unfold validate_and_conform. rewrite Er, Es1. cbn [length firstn]. destruct list_eq_dec; [|congruence].
      cbn [length app]. now rewrite Nat.sub_succ, Nat.sub_0_r. }
    cbn [map map2 combine all_some fst snd]. rewrite V, C, Wc, L. repeat split; auto.
    + cbn. now rewrite Sc, S.
    + intros b Hb. rewrite R by assumption. rewrite Sc, Ei1, Es1. cbn [tl]. rewrite Rc by assumption. cbn [l_data r'].
      now destruct nth.
Qed.

Lemma is_batched_true {A} B t (c : rnn_core A) s : snd t <> [] -> batched_as B t s ->
  batched_as 1 t (rc_initial c (Some 1)) -> is_batched c s = true.
Proof.
  intros Hne H1 H2. apply batched_leaves in H1, H2. unfold is_batched.
  destruct (n_leaves s) as [|l ls] eqn:E; [destruct (snd t); [congruence | discriminate]|]. rewrite <- E in *. clear E l ls Hne.
  revert H1 H2. generalize (n_leaves s) (n_leaves (rc_initial c (Some 1))). generalize (snd t). clear.
  intros shs. induction shs as [|sh shs IH]; intros [|a l] [|b m]; cbn; try discriminate; auto. intros [= E1 E2] [= F1 F2].
  rewrite E1, F1. cbn [tl]. destruct (list_eq_dec Nat.eq_dec sh sh); [|congruence]. cbn. auto.
Qed.

Lemma reset_step {A} (d : A) B tx ts tout (c : rnn_core A) core1 init1 x r s :
  snd tx <> [] -> snd ts <> [] ->
  batchwise B tx ts tout (rc_call c) core1 ->
  (forall n, batched_as n ts (rc_initial c (Some n))) ->
  (forall b, b < B -> row b (rc_initial c (Some B)) = init1) ->
  l_shape r = [B] -> batched_as B tx x -> batched_as B ts s ->
  exists y s', reset_call d c x (inl r) s = Some (y, s') /\ batched_as B tout y /\ batched_as B ts s' /\
    forall b, b < B -> core1 (row b x) (if nth b (l_data r) false then init1 else row b s) = (row b y, row b s').
Proof.
  intros Hx Hs Hc Hi Hr Er Bx Bs. unfold reset_call. cbn [bindo].
  destruct (reset_leaves d B r (snd ts) Er (n_leaves (rc_initial c (Some B))) (n_leaves s)) as (conf & ls & C & L & W & Sh & R).
  { apply (Hi B). } { apply Bs. } { now apply batched_leaves. } { now apply batched_leaves. }
  rewrite C. cbn [bindo]. rewrite (is_batched_true B ts c s Hs Bs (Hi 1)).
  destruct (n_leaves x) as [|l lx] eqn:Ex; [pose proof (batched_leaves B tx x Bx) as E; rewrite Ex in E; destruct (snd tx); [congruence | discriminate]|].
  pose proof (batched_leaves B tx x Bx) as Ex'. rewrite Ex in Ex'. destruct (snd tx) as [|sx stx]; [congruence|]. cbn [map] in Ex'.
  injection Ex' as Ex1 _. rewrite Ex1. cbn [bindo].
  assert (D : (n_def (rc_initial c (Some B)) =? n_def s) && (length (n_leaves (rc_initial c (Some B))) =? length (n_leaves s)) = true).
  { destruct (Hi B) as [_ E1]. destruct Bs as [_ E2]. unfold ty in E1, E2. injection E1 as E1 F1. injection E2 as E2 F2.
    apply andb_true_intro. split; apply Nat.eqb_eq; [congruence|].
    rewrite <- (map_length l_shape (n_leaves s)), <- (map_length l_shape (n_leaves (rc_initial c (Some B)))). congruence. }
  rewrite D, L. cbn [bindo].
  destruct (Hc x (Nest (n_def s) ls)) as (y & s' & E & By & Bs' & Rows); auto.
  { split; [exact W|]. unfold ty. cbn. rewrite Sh. f_equal. destruct Bs as [_ E2]. unfold ty in E2. now injection E2. }
  exists y, s'. rewrite E. repeat split; try apply By; try apply Bs'.
  intros b Hb. rewrite <- (Rows b Hb). f_equal. unfold row at 2. cbn [n_leaves]. rewrite R by assumption.
  destruct (nth b (l_data r) false); [symmetry; apply Hr; assumption | reflexivity].
Qed.

(** The run of one batch element, with resets. *)
Fixpoint reset_run {X Y St} (core1 : X -> St -> Y * St) (init1 : St) (xs : list (bool * X)) (s : St) : list Y * St :=
  match xs with
  | [] => ([], s)
  | (r, x) :: xs => let '(y, s) := core1 x (if r then init1 else s) in
                    let '(ys, s) := reset_run core1 init1 xs s in (y :: ys, s)
  end.

Lemma reset_unroll {A} (d : A) B tx ts tout (c : rnn_core A) core1 init1 :
  snd tx <> [] -> snd ts <> [] ->
  batchwise B tx ts tout (rc_call c) core1 ->
  (forall n, batched_as n ts (rc_initial c (Some n))) ->
  (forall b, b < B -> row b (rc_initial c (Some B)) = init1) ->
  forall xs s, Forall (fun p => batched_as B tx (fst p) /\ l_shape (snd p) = [B]) xs -> batched_as B ts s ->
  exists ys s', unroll (fun p s => reset_call d c (fst p) (inl (snd p)) s) xs s = Some (ys, s') /\
    Forall (batched_as B tout) ys /\ batched_as B ts s' /\
    forall b, b < B -> reset_run core1 init1 (map (fun p => (nth b (l_data (snd p)) false, row b (fst p))) xs) (row b s)
                       = (map (row b) ys, row b s').
Proof.
  intros Hx Hs Hc Hi Hr xs. induction xs as [|[x r] xs IH]; intros s HF Bs; cbn [unroll].
  - exists [], s. repeat split; auto; try apply Bs.
  - inversion HF as [|? ? [Bx Er] HF']; subst. cbn [fst snd] in *.
    destruct (reset_step d B tx ts tout c core1 init1 x r s) as (y & s1 & E & By & Bs1 & R); auto.
    destruct (IH s1 HF' Bs1) as (ys & s2 & E2 & Bys & Bs2 & R2).
    rewrite E. cbn [bindo]. rewrite E2. cbn [bindo]. exists (y :: ys), s2. repeat split; auto; try apply Bs2.
    intros b Hb. cbn [map reset_run fst snd]. rewrite R by assumption. now rewrite R2.
Qed.

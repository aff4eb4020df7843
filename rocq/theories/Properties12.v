(** * C50-C52: unrolls, [ResetCore], [DeepRNN] *)
From Coq Require Import List Arith Bool Lia.
From Verif Require Import ModelShape ProofsShape ModelRnn ProofsRnn.
Import ListNotations.
Local Open Scope list_scope.

(** ** C50 static_unroll and dynamic_unroll agree *)
(** The time axis of every leaf has [n] elements ([axis] 0 for time-major, 1 for batch-major sequences), and
    there is at least one leaf. *)
Definition time_length {A} (time_major : bool) (n : nat) (xs : nest A) : Prop :=
  n_leaves xs <> [] /\ Forall (fun l => nth_error (l_shape l) (if time_major then 0 else 1) = Some n) (n_leaves xs).

(** On every sequence of at least one step the two unrolls give the same outputs and final state, or both raise.
    Hypotheses: the core can be traced, it keeps the structure and shapes of its state, and the leaves of the
    sequence agree on the number of steps. *)
Theorem C50_agree {A} abs (core : nest A -> nest A -> option (nest A * nest A)) (time_major : bool) n xs s0 :
  traceable abs core -> (forall x s y s', core x s = Some (y, s') -> ty s' = ty s) ->
  wf_nest xs -> wf_nest s0 -> time_length time_major n xs -> 0 < n ->
  static_unroll core xs s0 time_major = dynamic_unroll abs core xs s0 time_major.
Proof.
  intros Ht Hc Hw Hs Hl Hn. unfold dynamic_unroll.
  assert (Hcar : forall xs' : nest A, wf_nest xs' -> leading 0 n xs' -> forall yt st,
    abs (slice_ty xs') (ty s0) = Some (yt, st) -> st = ty s0).
  { intros xs' Hw' Hl' yt st E. pose proof (Ht _ s0 (slices_wf n 0 xs' Hw' Hl' Hn) Hs) as T.
    rewrite slices_ty, E in T. destruct (core _ s0) as [[y s1]|] eqn:C; [|discriminate].
    destruct T as (_ & _ & [= -> ->]). now apply (Hc _ _ _ _ C). }
  destruct time_major.
  - cbn [bindo]. erewrite scan_static with (xs' := xs) (n := n); eauto.
    + now apply num_steps_leading.
    + intros t Hlt. now apply tree_map_index0 with (n := n).
  - destruct (swap_leading n xs Hw Hl) as (xs' & E & Hw' & Hl' & Hx). rewrite E. cbn [bindo].
    erewrite scan_static with (xs' := xs') (n := n); eauto. now apply num_steps_leading.
Qed.

(** Without assumptions on the state's shapes or on equal lengths: whenever dynamic_unroll returns, on a sequence of at
    least one step, static_unroll returns the same. *)
Theorem C50_dynamic_then_static {A} abs (core : nest A -> nest A -> option (nest A * nest A)) (time_major : bool) xs s0 r :
  traceable abs core -> wf_nest xs -> wf_nest s0 -> num_steps (if time_major then 0 else 1) xs <> Some 0 ->
  dynamic_unroll abs core xs s0 time_major = Some r -> static_unroll core xs s0 time_major = Some r.
Proof.
  intros Ht Hw Hs Hn0 D. unfold dynamic_unroll in D.
  destruct (if time_major then Some xs else tree_map swapaxes xs) as [xs'|] eqn:X; [|discriminate]. cbn [bindo] in D.
  pose proof D as D0. unfold lax_scan in D.
  destruct (scan_length xs') as [n|] eqn:L; [|discriminate]. cbn [bindo] in D.
  destruct (abs (slice_ty xs') (ty s0)) as [[yt st]|] eqn:Ea; [|discriminate]. cbn [bindo] in D.
  destruct (nty_eq_dec st (ty s0)) as [->|]; [|discriminate].
  apply scan_length_inv in L.
  assert (HL : time_length time_major n xs).
  { destruct time_major; [injection X as <-; exact L|]. unfold tree_map in X.
    destruct (all_some (map swapaxes (n_leaves xs))) as [ls|] eqn:E; [|discriminate]. injection X as <-.
    destruct L as [L1 L2]. cbn [n_leaves] in *. clear -E L1 L2. split.
    - intros H. rewrite H in E. injection E as <-. congruence.
    - clear L1. revert ls E L2. induction (n_leaves xs) as [|l m IH]; intros ls E L2; constructor;
        cbn in E; destruct (swapaxes l) as [l'|] eqn:Sw; try discriminate;
        destruct (all_some (map swapaxes m)) as [ls'|] eqn:E'; try discriminate; injection E as <-; inversion L2; subst.
      + unfold swapaxes in Sw. destruct (l_shape l) as [|b [|k rest]]; try discriminate. injection Sw as <-. assumption.
      + eapply IH; eauto. }
  assert (Hn : 0 < n).
  { destruct n; [|lia]. exfalso. apply Hn0. destruct time_major; now apply num_steps_leading. }
  rewrite <- D0. destruct time_major.
  - injection X as <-. apply (scan_static abs core true xs xs s0 n); auto.
    + now apply num_steps_leading.
    + intros t Hlt. now apply tree_map_index0 with (n := n).
    + intros yt' st' E'. congruence.
  - destruct (swap_leading n xs Hw HL) as (xs2 & E & Hw' & Hl' & Hx). rewrite X in E. injection E as <-.
    apply (scan_static abs core false xs xs' s0 n); auto.
    + now apply num_steps_leading.
    + intros yt' st' E'. congruence.
Qed.

(** Both are the documented loop: the state is threaded through the steps and entry [t] of the output sequence is the
    output of step [t]. *)
Lemma stack_index0 {A} (ls : list (leaf A)) out t : Forall wf_leaf ls -> stack0 ls = Some out -> t < length ls ->
  index0 t out = nth_error ls t.
Proof.
  intros W E Ht. destruct ls as [|l ls]; [discriminate|]. unfold stack0 in E.
  destruct (same_shapes (l_shape l) (l :: ls)) eqn:HS; [|discriminate]. injection E as <-.
  unfold index0. cbn [l_shape length]. rewrite Nat.min_l by (cbn in Ht; lia). cbn [l_data].
  assert (F : forall x, In x (l :: ls) -> l_shape x = l_shape l).
  { intros x Hx. unfold same_shapes in HS. rewrite forallb_forall in HS. specialize (HS x Hx). destruct list_eq_dec; congruence. }
  change (l_data l ++ concat (map l_data ls)) with (concat (map l_data (l :: ls))).
  rewrite block_concat.
  - rewrite (nth_error_nth' _ (Leaf [] [])) by assumption. f_equal.
    change (@nil A) with (l_data (Leaf (A := A) [] [])) at 1. rewrite map_nth.
    rewrite <- (F (nth t (l :: ls) (Leaf [] []))) by now apply nth_In. now destruct (nth t (l :: ls) (Leaf [] [])).
  - apply Forall_forall. intros x Hx. apply in_map_iff in Hx as (y & <- & Hy). rewrite Forall_forall in W.
    rewrite <- (F y Hy). now apply W.
  - now rewrite map_length.
Qed.
Lemma stack_index1 {A} (ls : list (leaf A)) out t : Forall wf_leaf ls -> stack1 ls = Some out -> t < length ls ->
  index1 t out = nth_error ls t.
Proof.
  intros W E Ht. destruct ls as [|l ls]; [discriminate|]. unfold stack1 in E.
  destruct (l_shape l) as [|b rest] eqn:El; [discriminate|].
  destruct (same_shapes (b :: rest) (l :: ls)) eqn:HS; [|discriminate]. injection E as <-.
  unfold index1. cbn [l_shape]. change (length (l :: ls)) with (S (length ls)). rewrite Nat.min_l by (cbn in Ht; lia). cbn [l_data].
  assert (F : forall x, In x (l :: ls) -> l_shape x = b :: rest).
  { intros x Hx. unfold same_shapes in HS. rewrite forallb_forall in HS. specialize (HS x Hx). destruct list_eq_dec; congruence. }
  rewrite Forall_forall in W.
  rewrite (nth_error_nth' _ (Leaf [] [])) by assumption. f_equal.
  set (x := nth t (l :: ls) (Leaf [] [])). assert (Hx : In x (l :: ls)) by now apply nth_In.
  replace x with (Leaf (l_shape x) (l_data x)) by now destruct x. rewrite (F x Hx). f_equal.
  rewrite <- (concat_blocks (nprod rest) b (l_data x)).
  2:{ specialize (W x Hx). unfold wf_leaf in W. rewrite W, (F x Hx). reflexivity. }
  f_equal. apply map_ext_in. intros i Hi. apply in_seq in Hi.
  rewrite <- (block_block (nprod rest) (S (length ls)) i t _ b); [| | lia | cbn in Ht; lia].
  - rewrite (block_concat (S (length ls) * nprod rest)).
    + rewrite nth_indep with (d' := (fun i => concat (map (fun x => block (nprod rest) i (l_data x)) (l :: ls))) 0)
        by (rewrite map_length, seq_length; lia).
      rewrite (map_nth (fun i => concat (map (fun x => block (nprod rest) i (l_data x)) (l :: ls)))), seq_nth by lia.
      cbn [Nat.add]. rewrite block_concat.
      * rewrite nth_indep with (d' := (fun x => block (nprod rest) i (l_data x)) (Leaf [] [])) by (rewrite map_length; assumption).
        now rewrite (map_nth (fun x => block (nprod rest) i (l_data x))).
      * apply Forall_forall. intros y Hy. apply in_map_iff in Hy as (z & <- & Hz).
        apply block_length with (n := b); [|lia]. specialize (W z Hz). unfold wf_leaf in W. now rewrite W, (F z Hz).
      * now rewrite map_length.
    + apply Forall_forall. intros y Hy. apply in_map_iff in Hy as (k & <- & Hk). apply in_seq in Hk.
      assert (G : forall m, (forall z, In z m -> In z (l :: ls)) ->
        length (concat (map (fun x => block (nprod rest) k (l_data x)) m)) = length m * nprod rest).
      { induction m as [|z m IH]; intros Hm; cbn; [reflexivity|]. rewrite app_length, IH by (intros; apply Hm; now right).
        rewrite (block_length (nprod rest) k (l_data z) b); [lia | | lia].
        assert (Hz : In z (l :: ls)) by (apply Hm; now left). specialize (W z Hz). unfold wf_leaf in W. now rewrite W, (F z Hz). }
      exact (G (l :: ls) (fun z H => H)).
    + now rewrite map_length, seq_length.
  - assert (G : forall m, (forall z, In z m -> In z (l :: ls)) -> forall k, k < b ->
        length (concat (map (fun x => block (nprod rest) k (l_data x)) m)) = length m * nprod rest).
    { intros m. induction m as [|z m IH]; intros Hm k Hk; cbn; [reflexivity|]. rewrite app_length, IH by (auto; intros; apply Hm; now right).
      rewrite (block_length (nprod rest) k (l_data z) b); [lia | | lia].
      assert (Hz : In z (l :: ls)) by (apply Hm; now left). specialize (W z Hz). unfold wf_leaf in W. now rewrite W, (F z Hz). }
    assert (G2 : forall ks, (forall k, In k ks -> k < b) ->
      length (concat (map (fun i => concat (map (fun x => block (nprod rest) i (l_data x)) (l :: ls))) ks)) =
      length ks * (S (length ls) * nprod rest)).
    { induction ks as [|k ks IH]; intros Hk; [reflexivity|]. rewrite map_cons. cbn [concat]. rewrite app_length, IH by (intros; apply Hk; now right).
      rewrite (G (l :: ls) (fun z H => H) k) by (apply Hk; now left). cbn [length]. lia. }
    rewrite G2; [now rewrite seq_length | intros k Hk; apply in_seq in Hk; lia].
Qed.

Theorem C50_loop {A} (core : nest A -> nest A -> option (nest A * nest A)) (time_major : bool) xs s0 out sT :
  (forall x s y s', core x s = Some (y, s') -> wf_nest y) ->
  static_unroll core xs s0 time_major = Some (out, sT) ->
  exists n ys, num_steps (if time_major then 0 else 1) xs = Some n /\ length ys = n /\
    unroll (fun t s => bindo (tree_map (if time_major then index0 t else index1 t) xs) (fun x => core x s)) (seq 0 n) s0 = Some (ys, sT) /\
    forall t, t < n -> tree_map (if time_major then index0 t else index1 t) out = nth_error ys t.
Proof.
  intros Hwf E. unfold static_unroll in E.
  destruct (num_steps _ xs) as [n|]; [|discriminate]. cbn [bindo] in E.
  destruct (unroll _ (seq 0 n) s0) as [[ys s']|] eqn:U; [|discriminate]. cbn [bindo] in E.
  destruct (tree_stack _ ys) as [o|] eqn:T; [|discriminate]. injection E as -> ->.
  exists n, ys. pose proof (unroll_length _ _ _ _ _ U) as L. rewrite seq_length in L. repeat split; auto.
  assert (W : Forall wf_nest ys).
  { clear -U Hwf. revert s0 ys U. induction (seq 0 n) as [|i l IH]; cbn; intros s0 ys U; [injection U as <- <-; constructor|].
    destruct (tree_map _ xs) as [x|]; [|discriminate]. cbn in U. destruct (core x s0) as [[y s1]|] eqn:C; [|discriminate]. cbn in U.
    destruct (unroll _ l s1) as [[ys' s2]|] eqn:U'; [|discriminate]. cbn in U. injection U as <- <-.
    constructor; [eapply Hwf; eauto | eapply IH; eauto]. }
  intros t Ht. unfold tree_stack in T. destruct ys as [|y0 ys0]; [cbn in L; lia|].
  set (ys := y0 :: ys0) in *.
  destruct (forallb _ ys) eqn:F; [|discriminate].
  destruct (all_some _) as [ls|] eqn:AS; [|discriminate]. cbn [bindo] in T. injection T as <-.
  unfold tree_map. cbn [n_leaves n_def].
  rewrite (nth_error_nth' ys y0) by lia. set (yt := nth t ys y0). assert (Hyt : In yt ys) by (apply nth_In; lia).
  rewrite forallb_forall in F. pose proof (F yt Hyt) as Fy. apply andb_prop in Fy as [F1 F2].
  apply Nat.eqb_eq in F1, F2.
  assert (K : all_some (map (if time_major then index0 t else index1 t) ls) = Some (n_leaves yt)).
  { apply all_some_Some. apply all_some_Some in AS.
    assert (L1 : length ls = length (n_leaves y0)) by (rewrite <- (map_length Some ls), <- AS, map_length, seq_length; reflexivity).
    apply nth_ext with (d := None) (d' := None); [rewrite !map_length; lia|].
    intros j Hj. rewrite map_length in Hj.
    assert (Ej : (if time_major then stack0 else stack1) (map (fun m => nth j (n_leaves m) (Leaf [] [])) ys) = Some (nth j ls (Leaf [] []))).
    { transitivity (nth j (map Some ls) None).
      - rewrite <- AS. rewrite nth_indep with (d' := (fun j => (if time_major then stack0 else stack1) (map (fun m => nth j (n_leaves m) (Leaf [] [])) ys)) 0)
          by (rewrite map_length, seq_length; lia).
        rewrite (map_nth (fun j => (if time_major then stack0 else stack1) (map (fun m => nth j (n_leaves m) (Leaf [] [])) ys))).
        rewrite seq_nth by lia. reflexivity.
      - rewrite nth_indep with (d' := Some (Leaf [] [])) by (rewrite map_length; lia). now rewrite (map_nth Some). }
    assert (Wj : Forall wf_leaf (map (fun m => nth j (n_leaves m) (Leaf [] [])) ys)).
    { apply Forall_forall. intros x Hx. apply in_map_iff in Hx as (m & <- & Hm). rewrite Forall_forall in W.
      specialize (F m Hm). apply andb_prop in F as [_ F]. apply Nat.eqb_eq in F. apply wf_nth; [auto | lia]. }
    assert (Ix : (if time_major then index0 t else index1 t) (nth j ls (Leaf [] [])) = Some (nth j (n_leaves yt) (Leaf [] []))).
    { transitivity (nth_error (map (fun m => nth j (n_leaves m) (Leaf [] [])) ys) t).
      - destruct time_major; [apply stack_index0 | apply stack_index1]; auto; rewrite map_length; lia.
      - now rewrite nth_error_map, (nth_error_nth' ys y0) by lia. }
    rewrite nth_indep with (d' := (if time_major then index0 t else index1 t) (Leaf [] [])) by (rewrite map_length; lia).
    rewrite (map_nth (if time_major then index0 t else index1 t)), Ix.
    rewrite nth_indep with (d' := Some (Leaf [] [])) by (rewrite map_length; lia). now rewrite (map_nth Some). }
  rewrite K. cbn [bindo]. rewrite <- F1. now destruct yt.
Qed.
Print Assumptions C50_loop.

(** Empty sequences: dynamic_unroll returns the initial state and empty outputs, static_unroll always raises. *)
Theorem C50_empty {A} abs (core : nest A -> nest A -> option (nest A * nest A)) xs s0 :
  traceable abs core -> wf_nest s0 -> time_length true 0 xs ->
  static_unroll core xs s0 true = None /\
  forall yt, abs (n_def xs, map (fun l => tl (l_shape l)) (n_leaves xs)) (ty s0) = Some (yt, ty s0) ->
    exists ys, dynamic_unroll abs core xs s0 true = Some (ys, s0) /\ ty ys = (fst yt, map (cons 0) (snd yt)).
Proof.
  intros Ht Hs Hl. split.
  - unfold static_unroll. rewrite (num_steps_leading 0 0 xs Hl). reflexivity.
  - intros yt Ea. unfold dynamic_unroll, lax_scan. cbn [bindo]. rewrite (scan_length_leading 0 xs Hl). cbn [bindo].
    unfold slice_ty. rewrite Ea. cbn [bindo]. destruct nty_eq_dec; [|congruence]. cbn [seq unroll bindo].
    eexists; split; [reflexivity|]. unfold ty, stack_outputs. cbn. f_equal. rewrite map_map. cbn.
    rewrite (map_nth_seq0 (cons 0) []). reflexivity.
Qed.

(** Witness cores over arrays of naturals: forward the input and keep the state; keep the input as the state. *)
Definition forward (x s : nest nat) : option (nest nat * nest nat) := Some (x, s).
Definition remember (x s : nest nat) : option (nest nat * nest nat) := Some (s, x).
Lemma forward_traceable : traceable (fun tx ts => Some (tx, ts)) forward.
Proof. intros x s Wx Ws. cbn. auto. Qed.
Lemma remember_traceable : traceable (fun tx ts => Some (ts, tx)) remember.
Proof. intros x s Wx Ws. cbn. auto. Qed.

Theorem C50_empty_refuted : ~ (forall abs (core : nest nat -> nest nat -> option (nest nat * nest nat)) xs s0,
  traceable abs core -> (forall x s y s', core x s = Some (y, s') -> ty s' = ty s) -> wf_nest xs -> wf_nest s0 ->
  time_length true 0 xs -> static_unroll core xs s0 true = dynamic_unroll abs core xs s0 true).
Proof.
  intros H. specialize (H _ _ (Nest 0 [Leaf [0; 2] []]) (Nest 0 [Leaf [1] [7]]) forward_traceable).
  assert (E : static_unroll forward (Nest 0 [Leaf [0; 2] []]) (Nest 0 [Leaf [1] [7]]) true =
              dynamic_unroll (fun tx ts => Some (tx, ts)) forward (Nest 0 [Leaf [0; 2] []]) (Nest 0 [Leaf [1] [7]]) true).
  { apply H; [intros ? ? ? ? [= <- <-]; reflexivity | | | ]; repeat constructor; cbn; congruence. }
  vm_compute in E. discriminate E.
Qed.
(** Leaves of different lengths: static_unroll follows the first leaf and re-reads the last element of shorter ones,
    dynamic_unroll raises. *)
Theorem C50_ragged_refuted : ~ (forall abs (core : nest nat -> nest nat -> option (nest nat * nest nat)) xs s0 n,
  traceable abs core -> (forall x s y s', core x s = Some (y, s') -> ty s' = ty s) -> wf_nest xs -> wf_nest s0 ->
  num_steps 0 xs = Some n -> 0 < n -> static_unroll core xs s0 true = dynamic_unroll abs core xs s0 true).
Proof.
  intros H. specialize (H _ _ (Nest 0 [Leaf [3] [1; 2; 3]; Leaf [2] [8; 9]]) (Nest 0 [Leaf [1] [7]]) 3 forward_traceable).
  assert (E : static_unroll forward (Nest 0 [Leaf [3] [1; 2; 3]; Leaf [2] [8; 9]]) (Nest 0 [Leaf [1] [7]]) true =
              dynamic_unroll (fun tx ts => Some (tx, ts)) forward (Nest 0 [Leaf [3] [1; 2; 3]; Leaf [2] [8; 9]]) (Nest 0 [Leaf [1] [7]]) true).
  { apply H; [intros ? ? ? ? [= <- <-]; reflexivity | | | reflexivity | lia]; repeat constructor. }
  vm_compute in E. discriminate E.
Qed.
Example C50_ragged_values :
  static_unroll forward (Nest 0 [Leaf [3] [1; 2; 3]; Leaf [2] [8; 9]]) (Nest 0 [Leaf [1] [7]]) true
  = Some (Nest 0 [Leaf [3] [1; 2; 3]; Leaf [3] [8; 9; 9]], Nest 0 [Leaf [1] [7]]).
Proof. vm_compute. reflexivity. Qed.
(** A core whose state changes shape: static_unroll returns, dynamic_unroll raises. *)
Theorem C50_carry_refuted : ~ (forall abs (core : nest nat -> nest nat -> option (nest nat * nest nat)) xs s0 n,
  traceable abs core -> wf_nest xs -> wf_nest s0 -> time_length true n xs -> 0 < n ->
  static_unroll core xs s0 true = dynamic_unroll abs core xs s0 true).
Proof.
  intros H. specialize (H _ _ (Nest 0 [Leaf [1; 2] [1; 2]]) (Nest 0 [Leaf [1] [7]]) 1 remember_traceable).
  assert (E : static_unroll remember (Nest 0 [Leaf [1; 2] [1; 2]]) (Nest 0 [Leaf [1] [7]]) true =
              dynamic_unroll (fun tx ts => Some (ts, tx)) remember (Nest 0 [Leaf [1; 2] [1; 2]]) (Nest 0 [Leaf [1] [7]]) true).
  { apply H; [ | | | lia]; repeat constructor; cbn; congruence. }
  vm_compute in E. discriminate E.
Qed.
(** A running sum over a batch-major sequence of two elements and three steps. *)
Definition summer (x s : nest nat) : option (nest nat * nest nat) :=
  match n_leaves x, n_leaves s with
  | [a], [b] => if list_eq_dec Nat.eq_dec (l_shape a) (l_shape b)
                then let r := Leaf (l_shape b) (map2 Nat.add (l_data a) (l_data b)) in Some (Nest 0 [r], Nest (n_def s) [r]) else None
  | _, _ => None
  end.
Definition summer_abs (tx ts : nty) : option (nty * nty) :=
  match snd tx, snd ts with
  | [a], [b] => if list_eq_dec Nat.eq_dec a b then Some ((0, [b]), (fst ts, [b])) else None
  | _, _ => None
  end.
Example C50_batch_major :
  traceable summer_abs summer /\ (forall x s y s', summer x s = Some (y, s') -> ty s' = ty s) /\
  let xs := Nest 0 [Leaf [2; 3] [1; 2; 3; 10; 20; 30]] in
  time_length false 3 xs /\ wf_nest xs /\
  static_unroll summer xs (Nest 0 [Leaf [2] [0; 0]]) false
  = Some (Nest 0 [Leaf [2; 3] [1; 3; 6; 10; 30; 60]], Nest 0 [Leaf [2] [6; 60]]) /\
  dynamic_unroll summer_abs summer xs (Nest 0 [Leaf [2] [0; 0]]) false
  = Some (Nest 0 [Leaf [2; 3] [1; 3; 6; 10; 30; 60]], Nest 0 [Leaf [2] [6; 60]]).
Proof.
  split; [|split; [|cbv zeta; split; [|split; [|split; vm_compute; reflexivity]]]].
  - intros [dx lx] [ds ls] Wx Ws. unfold summer, summer_abs, ty. cbn.
    destruct lx as [|a [|]], ls as [|b [|]]; cbn; try reflexivity.
    destruct list_eq_dec as [E|]; cbn; [|reflexivity]. destruct (list_eq_dec Nat.eq_dec (l_shape a) (l_shape b)) as [_|]; [|congruence].
    inversion Wx; subst. inversion Ws; subst.
    assert (W : wf_leaf (Leaf (l_shape b) (map2 Nat.add (l_data a) (l_data b)))).
    { unfold wf_leaf in *. cbn. rewrite map2_length. rewrite E in *. lia. }
    repeat split; repeat constructor; exact W.
  - intros [dx lx] [ds ls] y s'. unfold summer, ty. cbn. destruct lx as [|a [|]], ls as [|b [|]]; try discriminate.
    destruct list_eq_dec; [|discriminate]. intros [= <- <-]. reflexivity.
  - split; [cbn; congruence | repeat constructor].
  - repeat constructor.
Qed.

(** ** C51 ResetCore restarts the wrapped core *)
(** One batch element on its own: a loop over its inputs. *)
Fixpoint loop {X Y St} (core : X -> St -> Y * St) (xs : list X) (s : St) : list Y * St :=
  match xs with
  | [] => ([], s)
  | x :: xs => let '(y, s) := core x s in let '(ys, s) := loop core xs s in (y :: ys, s)
  end.
(** Cutting a flagged sequence in front of every reset: the inputs before the first reset, then one piece per reset. *)
Fixpoint pieces {X} (xs : list (bool * X)) : list X * list (list X) :=
  match xs with
  | [] => ([], [])
  | (reset, x) :: xs => let '(h, t) := pieces xs in if reset then ([], (x :: h) :: t) else (x :: h, t)
  end.
(** Running the pieces separately, the first from the given state and the others from the initial state. *)
Definition run_pieces {X Y St} (core : X -> St -> Y * St) (initial : St) (ps : list X * list (list X)) (s : St) : list Y * St :=
  (fst (loop core (fst ps) s) ++ concat (map (fun p => fst (loop core p initial)) (snd ps)),
   match snd ps with [] => snd (loop core (fst ps) s) | _ => snd (loop core (last (snd ps) []) initial) end).

Lemma reset_run_pieces {X Y St} (core : X -> St -> Y * St) initial xs : forall s,
  reset_run core initial xs s = run_pieces core initial (pieces xs) s.
Proof.
  induction xs as [|[r x] xs IH]; intros s; [reflexivity|]. cbn [reset_run pieces].
  destruct (pieces xs) as [h t] eqn:P. unfold run_pieces in *. cbn [fst snd] in IH.
  destruct r.
  - cbn [fst snd]. destruct (core x initial) as [y s1] eqn:C. rewrite IH. cbn [loop map concat app fst]. rewrite C.
    destruct (loop core h s1) as [ys s2] eqn:L. cbn [fst snd app].
    f_equal; destruct t as [|p t]; cbn [last loop]; rewrite ?C, ?L; reflexivity.
  - cbn [fst snd]. destruct (core x s) as [y s1] eqn:C. rewrite IH. cbn [loop]. rewrite C.
    destruct (loop core h s1) as [ys s2] eqn:L. cbn [fst snd app]. f_equal; now destruct t.
Qed.

(** For every core that treats batch elements independently (element function [core1], initial state [initial1] per
    element), every batch size, every sequence of inputs with one reset flag per batch element and step, and every
    starting state: the unroll of the ResetCore succeeds and for each batch element gives the outputs and final state of
    running the pieces between its resets separately. *)
Theorem C51_segments {A} (d : A) (c : rnn_core A) B tx ts tout core1 initial1 xs s :
  snd tx <> [] -> snd ts <> [] ->
  batchwise B tx ts tout (rc_call c) core1 ->
  (forall n, batched_as n ts (rc_initial c (Some n))) ->
  (forall b, b < B -> row b (rc_initial c (Some B)) = initial1) ->
  Forall (fun p => batched_as B tx (fst p) /\ l_shape (snd p) = [B]) xs -> batched_as B ts s ->
  exists ys s', unroll (fun p s => reset_call d c (fst p) (inl (snd p)) s) xs s = Some (ys, s') /\
    forall b, b < B ->
      (map (row b) ys, row b s') =
      run_pieces core1 initial1 (pieces (map (fun p => (nth b (l_data (snd p)) false, row b (fst p))) xs)) (row b s).
Proof.
  intros Hx Hs Hc Hi Hr HF Bs.
  destruct (reset_unroll d B tx ts tout c core1 initial1 Hx Hs Hc Hi Hr xs s HF Bs) as (ys & s' & E & _ & _ & R).
  exists ys, s'. split; [exact E|]. intros b Hb. rewrite <- R by assumption. apply reset_run_pieces.
Qed.
Print Assumptions C51_segments.

(** Flags of any shape that is a prefix of the shape of the state: entry [k] of the new state is taken from the initial
    state exactly when the flag at the leading position of [k] is set. *)
Theorem C51_prefix {A} (d : A) (r r' : leaf bool) (initial s : leaf A) :
  wf_leaf initial -> wf_leaf s -> l_shape initial = l_shape s -> validate_and_conform r s = Some r' ->
  exists c, where_ d r' initial s = Some c /\ l_shape c = l_shape s /\
    forall k, k < nprod (l_shape s) -> nth_error (l_data c) k =
      nth_error (if nth (k / nprod (skipn (length (l_shape r)) (l_shape s))) (l_data r) false then l_data initial else l_data s) k.
Proof.
  intros Wi Ws Ei V. unfold validate_and_conform in V. destruct list_eq_dec as [E|]; [|discriminate]. injection V as <-.
  pose (p := l_shape r). pose (rest := skipn (length (l_shape r)) (l_shape s)).
  assert (Es : l_shape s = p ++ rest) by (unfold p, rest; rewrite E at 1; symmetry; apply firstn_skipn).
  erewrite (where_flag d _ initial s p rest); [| | congruence | assumption | assumption | assumption].
  - eexists; split; [reflexivity|]. split; [cbn; congruence|]. intros k Hk. rewrite Es in Hk. cbn [l_data].
    rewrite nth_error_map, (nth_error_nth' (seq 0 (nprod (p ++ rest))) 0) by now rewrite seq_length.
    rewrite seq_nth by assumption. cbn [option_map Nat.add]. fold rest.
    unfold wf_leaf in *. rewrite Ei in Wi. rewrite Es in Wi, Ws.
    destruct (nth (k / nprod rest) (l_data r) false); symmetry; apply nth_error_nth'; lia.
  - cbn [l_shape]. unfold p, rest. f_equal. f_equal. now rewrite skipn_length.
Qed.
(** Any other shape is rejected, whatever the state. *)
Theorem C51_rejected {A} (d : A) c x (r : leaf bool) (s : nest A) l : In l (n_leaves s) ->
  l_shape r <> firstn (length (l_shape r)) (l_shape l) -> reset_call d c x (inl r) s = None.
Proof.
  intros Hl Hne. unfold reset_call. cbn [bindo].
  assert (all_some (map2 validate_and_conform (map (fun _ => r) (n_leaves s)) (n_leaves s)) = None) as ->; [|reflexivity].
  induction (n_leaves s) as [|a ls IH]; [contradiction|]. cbn [map map2]. rewrite all_some_cons.
  destruct Hl as [->|Hl].
  - unfold validate_and_conform. destruct list_eq_dec; [contradiction | reflexivity].
  - rewrite (IH Hl). now destruct (validate_and_conform r a).
Qed.

(** Without a batch axis: one flag resets the whole state, provided some leaf of the state is not a scalar. *)
Lemma where_scalar {A} (d : A) (f : bool) (a b : leaf A) : wf_leaf a -> wf_leaf b -> l_shape a = l_shape b ->
  where_ d (Leaf (repeat 1 (length (l_shape b))) [f]) a b = Some (if f then a else b).
Proof.
  intros Wa Wb E. rewrite (where_flag d _ a b [] (l_shape b)); auto. cbn [app].
  unfold wf_leaf in *. rewrite E in Wa. destruct a as [sa da], b as [sb db]; cbn in *. subst sa.
  transitivity (Some (Leaf sb (map (fun k => nth k (if f then da else db) d) (seq 0 (nprod sb))))).
  - f_equal. f_equal. apply map_ext_in. intros k Hk. apply in_seq in Hk. rewrite Nat.div_small by lia. now destruct f.
  - f_equal. destruct f; f_equal.
    + rewrite <- Wa. symmetry. rewrite <- (map_id da) at 1. apply (map_nth_seq0 (fun x => x) d).
    + rewrite <- Wb. symmetry. rewrite <- (map_id db) at 1. apply (map_nth_seq0 (fun x => x) d).
Qed.
Theorem C51_unbatched {A} (d : A) (c : rnn_core A) x (f : bool) s ts :
  wf_nest s -> ty s = ts -> wf_nest (rc_initial c None) -> ty (rc_initial c None) = ts ->
  batched_as 1 ts (rc_initial c (Some 1)) -> Exists (fun sh => sh <> []) (snd ts) ->
  reset_call d c x (inl (Leaf [] [f])) s = rc_call c x (if f then rc_initial c None else s).
Proof.
  intros Ws Es Wi Ei B1 Hex. unfold reset_call. cbn [bindo].
  assert (C : forall ls : list (leaf A), all_some (map2 validate_and_conform (map (fun _ => Leaf [] [f]) ls) ls)
     = Some (map (fun l => Leaf (repeat 1 (length (l_shape l))) [f]) ls)).
  { induction ls as [|l ls IH]; [reflexivity|]. cbn [map map2]. rewrite all_some_cons, IH. cbn. now rewrite Nat.sub_0_r. }
  rewrite C. cbn [bindo].
  assert (NB : is_batched c s = false).
  { unfold is_batched. apply batched_leaves in B1. rewrite <- Es in B1, Hex. unfold ty in B1, Hex. cbn [snd] in B1, Hex.
    destruct (n_leaves s) as [|l0 ls0] eqn:El; [reflexivity|]. rewrite <- El in *. clear El l0 ls0.
    revert B1 Hex. generalize (n_leaves (rc_initial c (Some 1))). clear. induction (n_leaves s) as [|l ls IH]; intros m B1 Hex; [inversion Hex|].
    destruct m as [|a m]; [discriminate|]. cbn in B1. injection B1 as E1 E2. cbn [combine forallb fst snd]. rewrite E1. cbn [tl].
    inversion Hex as [? ? H|? ? H]; subst.
    - destruct (l_shape l) as [|k sh] eqn:El; [congruence|]. cbn [tl]. destruct list_eq_dec as [E|]; [|reflexivity].
      exfalso. apply (f_equal (@length nat)) in E. cbn in E. lia.
    - rewrite (IH m E2 H). apply andb_false_r. }
  rewrite NB. cbn [bindo].
  rewrite <- Ei in Es. unfold ty in Es. injection Es as Ed El.
  assert (D : (n_def (rc_initial c None) =? n_def s) && (length (n_leaves (rc_initial c None)) =? length (n_leaves s)) = true).
  { apply andb_true_intro. split; apply Nat.eqb_eq; [auto|]. rewrite <- (map_length l_shape), <- El. now rewrite map_length. }
  rewrite D.
  assert (W : all_some (map2 (fun r p => where_ d r (fst p) (snd p)) (map (fun l => Leaf (repeat 1 (length (l_shape l))) [f]) (n_leaves s))
     (combine (n_leaves (rc_initial c None)) (n_leaves s))) = Some (if f then n_leaves (rc_initial c None) else n_leaves s)).
  { unfold wf_nest in Ws, Wi. clear D NB C. revert Ws Wi El. generalize (n_leaves (rc_initial c None)).
    induction (n_leaves s) as [|l ls IH]; intros [|i is] Ws Wi El; try discriminate; [now destruct f|].
    inversion Ws; subst. inversion Wi; subst. cbn in El. injection El as E1 E2.
    cbn [map combine map2 fst snd]. rewrite all_some_cons, where_scalar, IH by auto. cbn. now destruct f. }
  rewrite W. cbn [bindo]. f_equal. destruct f; [rewrite Ed; now destruct (rc_initial c None) | now destruct s].
Qed.

(** A scalar state is taken for a batched one: even without a reset the state is replaced by one of a different shape
    (recurrent.py:686-691). *)
Definition scalar_core : rnn_core nat :=
  RnnCore (fun x s => Some (x, s)) (fun b => Nest 0 [match b with None => Leaf [] [0] | Some n => Leaf [n] (repeat 0 n) end]).
Theorem C51_scalar_refuted : ~ (forall (d : nat) (c : rnn_core nat) x (f : bool) s ts,
  wf_nest s -> ty s = ts -> wf_nest (rc_initial c None) -> ty (rc_initial c None) = ts ->
  (forall n, batched_as n ts (rc_initial c (Some n))) -> snd ts <> [] ->
  reset_call d c x (inl (Leaf [] [f])) s = rc_call c x (if f then rc_initial c None else s)).
Proof.
  intros H. assert (E := H 0 scalar_core (Nest 0 [Leaf [3] [1; 2; 3]]) false (Nest 0 [Leaf [] [5]]) (0, [[]])).
  assert (E' : reset_call 0 scalar_core (Nest 0 [Leaf [3] [1; 2; 3]]) (inl (Leaf [] [false])) (Nest 0 [Leaf [] [5]])
             = rc_call scalar_core (Nest 0 [Leaf [3] [1; 2; 3]]) (Nest 0 [Leaf [] [5]])).
  { apply E; try reflexivity; try (repeat constructor); [| cbn; congruence].
    unfold wf_nest. cbn. repeat constructor. unfold wf_leaf. cbn. rewrite repeat_length. lia. }
  vm_compute in E'. discriminate E'.
Qed.

(** The shape of [jnp.where]'s result: shapes are aligned at the right and missing axes count as one; two axes must be equal unless
    one of them is one, and then the other one is taken. *)
Theorem C51_broadcast (s t out : shape) : let n := Nat.max (length s) (length t) in
  let s' := repeat 1 (n - length s) ++ s in let t' := repeat 1 (n - length t) ++ t in
  bshape s t = Some out <-> length out = n /\
    forall i, i < n -> (nth i s' 1 = nth i t' 1 \/ nth i s' 1 = 1 \/ nth i t' 1 = 1) /\
      nth i out 1 = if nth i s' 1 =? 1 then nth i t' 1 else nth i s' 1.
Proof.
  intros n s' t'. unfold bshape. fold n. change (pad_left n s) with s'. change (pad_left n t) with t'.
  assert (Ls : length s' = n) by (unfold s'; rewrite app_length, repeat_length; lia).
  assert (Lt : length t' = n) by (unfold t'; rewrite app_length, repeat_length; lia).
  clearbody s' t' n. clear s t. rename s' into s, t' into t. revert s t Ls Lt out.
  induction n as [|n IH]; intros [|a s] [|b t] Ls Lt out; try discriminate.
  - cbn. split; [intros [= <-]; split; [reflexivity|lia]|]. intros [L _]. destruct out; [reflexivity|discriminate].
  - injection Ls as Ls. injection Lt as Lt. cbn [map2 all_some].
    assert (B : forall c, bdim a b = Some c <-> (a = b \/ a = 1 \/ b = 1) /\ c = if a =? 1 then b else a).
    { intros c. unfold bdim. destruct (Nat.eqb_spec a b) as [->|N]; [destruct (b =? 1); split; [intros [= <-]; auto|intros [_ ->]; reflexivity|intros [= <-]; auto|intros [_ ->]; reflexivity]|].
      destruct (Nat.eqb_spec a 1) as [->|Na]; [split; [intros [= <-]; auto|intros [_ ->]; reflexivity]|].
      destruct (Nat.eqb_spec b 1) as [->|Nb]; [split; [intros [= <-]; auto|intros [_ ->]; reflexivity]|]. split; [discriminate|intros [H _]; lia]. }
    destruct (bdim a b) as [c|].
    + destruct (proj1 (B c) eq_refl) as [B1 B2]. destruct (all_some (map2 bdim s t)) as [out'|] eqn:E.
      * pose proof (proj1 (IH s t Ls Lt out') E) as [I1 I2]. split.
        -- intros [= <-]. split; [cbn; now rewrite I1|]. intros [|i] Hi; cbn [nth]; [auto|apply I2; lia].
        -- intros [L H]. destruct out as [|o out]; [discriminate|]. injection L as L. pose proof (H 0 ltac:(lia)) as [_ H0]. cbn [nth] in H0.
           f_equal. f_equal; [congruence|]. assert (X : Some out' = Some out); [|congruence]. rewrite <- E. apply (IH s t Ls Lt out).
           split; [exact L|]. intros i Hi. exact (H (S i) ltac:(lia)).
      * split; [discriminate|]. intros [L H]. destruct out as [|o out]; [discriminate|]. injection L as L.
        assert (X : all_some (map2 bdim s t) = Some out); [|congruence]. apply (IH s t Ls Lt out). split; [exact L|]. intros i Hi. exact (H (S i) ltac:(lia)).
    + split; [discriminate|]. intros [_ H]. destruct (H 0 ltac:(lia)) as [H0 _]. cbn [nth] in H0. discriminate (proj2 (B _) (conj H0 eq_refl)).
Qed.
Print Assumptions C51_broadcast.
Example C51_broadcast_case : bshape [4; 1] [3; 1; 5] = Some [3; 4; 5] /\ bshape [4; 7] [1] = Some [4; 7] /\ bshape [2] [3] = None /\ bshape [0] [1] = Some [0].
Proof. repeat split; reflexivity. Qed.

(** Two batch elements, four steps, a core that adds its input to its state: element 0 is reset at step 2, element 1
    at steps 0 and 3. *)
Definition add_core : rnn_core nat := RnnCore summer (fun b => Nest 0 [Leaf [match b with Some n => n | None => 0 end]
  (repeat 0 (match b with Some n => n | None => 0 end))]).
Example C51_values :
  unroll (fun p s => reset_call 0 add_core (fst p) (inl (snd p)) s)
    [(Nest 0 [Leaf [2] [1; 10]], Leaf [2] [false; true]); (Nest 0 [Leaf [2] [2; 20]], Leaf [2] [false; false]);
     (Nest 0 [Leaf [2] [3; 30]], Leaf [2] [true; false]); (Nest 0 [Leaf [2] [4; 40]], Leaf [2] [false; true])]
    (Nest 0 [Leaf [2] [100; 200]])
  = Some ([Nest 0 [Leaf [2] [101; 10]]; Nest 0 [Leaf [2] [103; 30]]; Nest 0 [Leaf [2] [3; 60]]; Nest 0 [Leaf [2] [7; 40]]],
          Nest 0 [Leaf [2] [7; 40]]).
Proof. vm_compute. reflexivity. Qed.
Example C51_hypotheses : batchwise 2 (0, [[]]) (0, [[]]) (0, [[]]) (rc_call add_core)
    (fun x s => (map2 (map2 Nat.add) x s, map2 (map2 Nat.add) x s)) /\
  (forall n, batched_as n (0, [[]]) (rc_initial add_core (Some n))) /\
  (forall b, b < 2 -> row b (rc_initial add_core (Some 2)) = [[0]]).
Proof.
  split; [|split].
  - intros [dx lx] [ds ls] [Wx Ex] [Ws Es]. unfold ty in Ex, Es. cbn in Ex, Es. injection Ex as -> Ex. injection Es as -> Es.
    destruct lx as [|[sx vx] [|]]; try discriminate. destruct ls as [|[ss vs] [|]]; try discriminate. cbn in Ex, Es.
    injection Ex as ->. injection Es as ->.
    inversion Wx as [|? ? W1 _]; subst. inversion Ws as [|? ? W2 _]; subst. unfold wf_leaf in W1, W2. cbn in W1, W2.
    destruct vx as [|a [|b [|]]]; try discriminate. destruct vs as [|a' [|b' [|]]]; try discriminate.
    do 2 eexists. split; [reflexivity|]. split; [split; [repeat constructor | reflexivity]|].
    split; [split; [repeat constructor | reflexivity]|]. intros [|[|k]] Hk; [reflexivity | reflexivity | lia].
  - intros n. split; [|reflexivity]. repeat constructor. unfold wf_leaf. cbn. rewrite repeat_length. lia.
  - intros [|[|k]] Hk; [reflexivity | reflexivity | lia].
Qed.

(** ** C52 DeepRNN composes cores *)
Section deep.
Context {V St : Type}.
Variable concat : list V -> option V.
Notation layers := (list (layer V St)).

(** Layer after layer, each unrolled over the whole output sequence of the one before, from its own state. *)
Fixpoint layer_by_layer (ls : layers) (xs : list V) (ss : list St) : option (list V * list St) :=
  match ls, ss with
  | [], _ => Some (xs, [])
  | LCore call _ :: ls, s :: ss => bindo (unroll call xs s) (fun r => bindo (layer_by_layer ls (fst r) ss) (fun q =>
      Some (fst q, snd r :: snd q)))
  | LCore _ _ :: _, [] => None
  | LFun f :: ls, ss => bindo (all_some (map f xs)) (fun ys => layer_by_layer ls ys ss)
  end.
(** With skip connections: the first core reads the inputs, every later one the concatenation of the inputs and the
    outputs of the core before it; the result lists the output sequence of every core. *)
Fixpoint skip_layers (xs : list V) (prev : option (list V)) (calls : list (V -> St -> option (V * St))) (ss : list St)
    : option (list (list V) * list St) :=
  match calls, ss with
  | [], _ => Some ([], [])
  | call :: calls, s :: ss =>
      bindo (match prev with None => Some xs | Some ps => all_some (map2 (fun x p => concat [x; p]) xs ps) end) (fun ins =>
      bindo (unroll call ins s) (fun r => bindo (skip_layers xs (Some (fst r)) calls ss) (fun q =>
      Some (fst r :: fst q, snd r :: snd q))))
  | _ :: _, [] => None
  end.

Theorem C52_unroll (ls : layers) xs ss batch_size : length ss = length (deep_initial ls batch_size) ->
  unroll (deep_call concat false ls) xs ss = layer_by_layer ls xs ss.
Proof.
  intros H. assert (N : length ss = ncores ls).
  { rewrite H. clear. induction ls as [|[call ini|f] ls IH]; cbn; auto. }
  rewrite deep_unroll_false by assumption. clear. generalize 0 at 1. revert ss.
  assert (G : forall (ls : layers) X xs idx ss, bindo (lw concat false idx ls X xs ss) (fun r => let '(curs, _, ss) := r in Some (curs, ss)) = layer_by_layer ls xs ss).
  { clear. induction ls as [|[call ini|f] ls IH]; intros X xs idx ss; [destruct ss; reflexivity| |]; cbn [lw andb bindo layer_by_layer].
    - destruct ss as [|s ss]; [reflexivity|]. destruct (unroll call xs s) as [[ys s']|]; [|reflexivity]. cbn [bindo fst snd].
      rewrite <- (IH X ys (S idx) ss). destruct (lw concat false (S idx) ls X ys ss) as [[[? ?] ?]|]; reflexivity.
    - destruct (all_some (map f xs)) as [ys|]; [|destruct ss; reflexivity]. cbn [bindo]. rewrite <- (IH X ys (S idx) ss). destruct ss; reflexivity. }
  intros ss idx. apply G.
Qed.

Theorem C52_skip_unroll (calls : list ((V -> St -> option (V * St)) * (option nat -> St))) xs ss :
  length ss = length calls ->
  unroll (deep_call concat true (map (fun c => LCore (fst c) (snd c)) calls)) xs ss =
  bindo (skip_layers xs None (map fst calls) ss) (fun r =>
  bindo (all_some (map (fun t => bindo (all_some (map (fun ys => nth_error ys t) (fst r))) concat) (seq 0 (length xs)))) (fun ys =>
  Some (ys, snd r))).
Proof.
  intros H. assert (N : length ss = ncores (map (fun c => LCore (fst c) (snd c)) calls)).
  { rewrite H. clear. induction calls as [|c calls IH]; cbn; auto. }
  rewrite deep_unroll_true by assumption. clear N H.
  assert (G : forall (calls : list ((V -> St -> option (V * St)) * (option nat -> St))) ps idx ss,
    skip_layers xs (Some ps) (map fst calls) ss =
    bindo (lw concat true (S idx) (map (fun c => LCore (fst c) (snd c)) calls) xs ps ss) (fun r => let '(_, outs, ss) := r in Some (outs, ss))).
  { clear. induction calls as [|c calls IH]; intros ps idx ss; [destruct ss; reflexivity|].
    cbn [map skip_layers lw]. change (true && (0 <? S idx)) with true. cbn iota.
    destruct ss as [|s ss].
    - now destruct (all_some _).
    - destruct (all_some (map2 (fun x p => concat [x; p]) xs ps)) as [ins|]; [|reflexivity]. cbn [bindo].
      destruct (unroll (fst c) ins s) as [[ys s']|]; [|reflexivity]. cbn [bindo fst snd]. rewrite (IH ys (S idx) ss).
      destruct (lw concat true (S (S idx)) (map (fun c => LCore (fst c) (snd c)) calls) xs ys ss) as [[[? ?] ?]|]; reflexivity. }
  destruct calls as [|c calls].
  - destruct ss; reflexivity.
  - cbn [map skip_layers lw]. change (true && (0 <? 0)) with false. cbn iota. destruct ss as [|s ss]; [reflexivity|]. cbn [bindo].
    destruct (unroll (fst c) xs s) as [[ys s']|]; [|reflexivity]. cbn [bindo fst snd]. rewrite (G calls ys 0 ss).
    destruct (lw concat true 1 (map (fun c => LCore (fst c) (snd c)) calls) xs ys ss) as [[[? ?] ?]|]; reflexivity.
Qed.

(** The state is a tuple with one entry per core: [initial_state] has that length, a step returns that length, and a
    tuple that is too short is an error. *)
Theorem C52_state (skip : bool) (ls : layers) x ss batch_size :
  (length ss < length (deep_initial ls batch_size) -> deep_call concat skip ls x ss = None) /\
  (forall y ss', deep_call concat skip ls x ss = Some (y, ss') -> length ss' = length (deep_initial ls batch_size)).
Proof.
  assert (N : length (deep_initial ls batch_size) = ncores ls).
  { clear. induction ls as [|[call ini|f] ls IH]; cbn; auto. }
  rewrite N. split.
  - intros H. unfold deep_call.
    assert (E : forall (ls : layers) idx p ss, length ss < ncores ls -> deep_loop concat skip x idx ls p ss = None).
    { clear. induction ls as [|[call ini|f] ls IH]; intros idx p ss H; cbn in *; [lia| |];
        (destruct (if skip && _ then _ else _) as [q|]; [|reflexivity]); cbn.
      - destruct ss as [|s ss]; [reflexivity|]. destruct (call q s) as [[y s']|]; [|reflexivity]. cbn.
        rewrite IH by (cbn in H; lia). reflexivity.
      - destruct (f q); [|reflexivity]. cbn. now apply IH. }
    now rewrite E.
  - intros y ss' E. unfold deep_call in E. destruct (deep_loop concat skip x 0 ls x ss) as [[[cur outs] ss1]|] eqn:D; [|discriminate].
    cbn in E. destruct (if skip then _ else _); [|discriminate]. injection E as -> ->. now apply (deep_loop_length _ _ _ _ _ _ _ _ _ _ D).
Qed.
(** Layers are accepted as they are, except that skip connections need every layer to be a core. *)
Theorem C52_skip_needs_cores (ls : layers) skip :
  (deep_init ls skip = Some ls <-> (skip = true -> Forall (fun l => exists c i, l = LCore c i) ls)) /\
  (deep_init ls skip = Some ls \/ deep_init ls skip = None).
Proof.
  unfold deep_init. split; [|destruct (_ && _); auto]. destruct skip; cbn [andb]; [|split; [discriminate|reflexivity]].
  destruct forallb eqn:F; cbn; split; intros H; try reflexivity; try discriminate.
  - intros _. rewrite forallb_forall in F. apply Forall_forall. intros l Hl. specialize (F l Hl). destruct l; [eauto | discriminate].
  - exfalso. assert (forallb (fun l : layer V St => match l with LCore _ _ => true | LFun _ => false end) ls = true); [|congruence].
    apply forallb_forall. intros l Hl. specialize (H eq_refl). rewrite Forall_forall in H. now destruct (H l Hl) as (c & i & ->).
Qed.
End deep.
Print Assumptions C52_unroll.
Print Assumptions C52_skip_unroll.

(** Two accumulators around a doubling function, over three inputs; and two accumulators with skip connections, where
    concatenation is modelled by addition. *)
Definition acc : layer nat nat := LCore (fun x s => Some (x + s, x + s)) (fun _ => 0).
Example C52_values : unroll (deep_call (fun l => Some (list_sum l)) false [acc; LFun (fun x => Some (2 * x)); acc]) [1; 2; 3] [0; 100]
  = Some ([102; 108; 120], [6; 120]).
Proof. vm_compute. reflexivity. Qed.
Example C52_skip_values : unroll (deep_call (fun l => Some (list_sum l)) true [acc; acc]) [1; 2; 3] [0; 100]
  = Some ([1 + 102; 3 + 107; 6 + 116], [6; 116]).
Proof. vm_compute. reflexivity. Qed.

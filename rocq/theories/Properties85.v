(** C100, part 8: the formats of further modules, and stacks of cores. *)
From Coq Require Import String Ascii NArith ZArith List Bool Lia.
From Verif Require Import ModelStr ModelUtils ModelShape ModelPool ModelImageNets ModelConv ProofsStr ProofsShape Properties10 Properties32 ModelFormat ModelCheckpoints Properties68 Properties69 Properties70 Properties72 Properties74.
Import ListNotations.
Local Open Scope string_scope.
Local Open Scope Z_scope.

(** ** Transposed convolutions *)
(** One example is a batch of one. *)
Theorem C100_conv_transpose_unbatched c padding o s : length s = S (ct_spatial c) ->
  conv_t_call c padding o s = option_map (fun r => (fst r, tl (snd r))) (conv_t_call c padding o (1 :: s)).
Proof.
  intros L. unfold conv_t_call. cbn [length]. rewrite L, !Nat.eqb_refl. cbn [orb negb]. replace (Nat.eqb (S (S (ct_spatial c))) (S (ct_spatial c))) with false by (symmetry; apply Nat.eqb_neq; lia). cbn [orb negb].
  match goal with |- match ?p with _ => _ end = _ => destruct p; reflexivity end.
Qed.
Print Assumptions C100_conv_transpose_unbatched.
Lemma adjusted_sizes t ns : forall os ks ss pads, length os = length ns -> length ks = length ns -> length ss = length ns -> Forall (fun n => 1 <= n) ns -> Forall (fun n => 0 <= n) os -> Forall (fun n => 1 <= n) ss ->
  adjusted_pads ns os ks ss t = Some pads ->
  map2 (fun n p => conv_transpose_size n (fst (fst p)) (snd (fst p)) (fst (snd p)) (snd (snd p))) ns (combine pads (combine ks ss)) = os.
Proof.
  induction ns as [|n ns IH]; intros [|o os] [|k ks] [|s ss] pads L1 L2 L3 F1 F2 F3 E; try discriminate; [reflexivity|].
  cbn [adjusted_pads] in E. destruct (compute_adjusted_padding n o k s t 1) as [[lo hi]|] eqn:C; [|discriminate]. destruct (adjusted_pads ns os ks ss t) as [ps|] eqn:A; [|discriminate]. injection E as <-.
  apply Forall_cons_iff in F1 as [N F1]. apply Forall_cons_iff in F2 as [O F2]. apply Forall_cons_iff in F3 as [S F3]. cbn [combine map2 fst snd]. f_equal.
  - rewrite <- (C41_size _ _ _ _ _ _ _ _ N O S C). unfold effective. f_equal. lia.
  - apply IH; auto.
Qed.
(** The shapes of weights, bias and output, channels last and first; a given [output_shape] is the one of the output. *)
Theorem C100_conv_transpose_shapes c t o b sp cin w bs out : length sp = ct_spatial c -> length o = ct_spatial c -> length (ct_kernel c) = ct_spatial c -> length (ct_stride c) = ct_spatial c ->
  Forall (fun n => 1 <= n) sp -> Forall (fun n => 0 <= n) o -> Forall (fun n => 1 <= n) (ct_stride c) ->
  conv_t_call c (inl t) (Some o) (if ct_last c then b :: sp ++ [cin] else b :: cin :: sp)%list = Some (w, bs, out) ->
  w = (ct_kernel c ++ [ct_out c; cin])%list /\ bs = (if ct_last c then [ct_out c] else ct_out c :: repeat 1 (ct_spatial c)) /\ out = (if ct_last c then b :: o ++ [ct_out c] else b :: ct_out c :: o)%list.
Proof.
  intros L1 L2 L3 L4 F1 F2 F3. unfold conv_t_call. destruct (ct_last c).
  - cbn [length]. rewrite app_length, L1. cbn [length]. rewrite Nat.add_1_r. rewrite Nat.eqb_refl. replace (Nat.eqb (S (S (ct_spatial c))) (S (ct_spatial c))) with false by (symmetry; apply Nat.eqb_neq; lia). cbn [orb negb].
    unfold channel_of, spatial_of. cbn [tl hd]. rewrite removelast_last. replace (last (b :: sp ++ [cin]) 0) with cin by now rewrite app_comm_cons, last_last.
    destruct (adjusted_pads sp o (ct_kernel c) (ct_stride c) t) as [pads|] eqn:A; [|discriminate]. intros [= <- <- <-]. rewrite (adjusted_sizes t sp o) by (congruence || assumption). auto.
  - cbn [length]. rewrite L1. rewrite Nat.eqb_refl. replace (Nat.eqb (S (S (ct_spatial c))) (S (ct_spatial c))) with false by (symmetry; apply Nat.eqb_neq; lia). cbn [orb negb].
    unfold channel_of, spatial_of. cbn [tl hd nth]. 
    destruct (adjusted_pads sp o (ct_kernel c) (ct_stride c) t) as [pads|] eqn:A; [|discriminate]. intros [= <- <- <-]. rewrite (adjusted_sizes t sp o) by (congruence || assumption). auto.
Qed.
Print Assumptions C100_conv_transpose_shapes.
Example C100_conv_transpose_case : let c last := ConvT 2 5 [3; 3] [2; 2] last in
  init (use (conv_transpose "Conv2DTranspose" (c false) (inl PtSame) (Some [7; 8]) true None) (f32 [6; 3; 4; 4])) =
    Some ([(("conv2_d_transpose", "w"), f32 [3; 3; 5; 3]); (("conv2_d_transpose", "b"), f32 [5; 1; 1])], []) /\
  conv_t_call (c true) (inl PtSame) (Some [7; 8]) [4; 4; 3] = Some ([3; 3; 5; 3], [5], [7; 8; 5]) /\
  conv_t_call (c true) (inl PtSame) None [6; 4; 4; 3] = Some ([3; 3; 5; 3], [5], [6; 8; 8; 5]) /\
  conv_t_call (c true) (inr [(0, 0); (1, 1)]) None [6; 4; 4; 3] = Some ([3; 3; 5; 3], [5], [6; 5; 7; 5]) /\
  conv_t_call (c true) (inl PtSame) None [4; 3] = None.
Proof. vm_compute. repeat split. Qed.

(** ** Norms and biases *)
(** InstanceNorm normalises over all axes but the batch and the channels. *)
Theorem C100_instance_axes last rank i : 2 <= rank -> In i (instance_axis last rank) <-> 0 < i < rank /\ i <> (if last then rank - 1 else 1).
Proof.
  intros R. unfold instance_axis, range. destruct last; rewrite in_map_iff; split.
  - intros (j & <- & I). apply in_seq in I. lia.
  - intros [I N]. exists (Z.to_nat (i - 1)). split; [lia|]. apply in_seq. lia.
  - intros (j & <- & I). apply in_seq in I. lia.
  - intros [I N]. exists (Z.to_nat (i - 2)). split; [lia|]. apply in_seq. lia.
Qed.
Print Assumptions C100_instance_axes.
Lemma doomed_init {A} (p : prog A) : doomed p -> init p = None.
Proof. intros H. unfold init. now rewrite H. Qed.
Lemma doomed_use {A} (P : A -> Prop) cls name (ctor : prog A) call x : (forall a, doomed (call a x)) -> doomed (use (module cls name ctor call) x).
Proof.
  intros H fr w. unfold use, module. rewrite run_bind, run_bind. destruct (run fr (construct cls name ctor) w) as [[[q a] w']|]; [|reflexivity]. cbn [run]. apply (doomed_within q "__call__" _ (H a)).
Qed.
(** Bias wants a batch, and with [output_size] the shape of an example. *)
Theorem C100_bias_raises o dims name t s : (length s < 2)%nat \/ (exists l, o = Some l /\ l <> tl s) -> init (use (bias o dims name) (t, s)) = None.
Proof.
  intros H. apply doomed_init, (doomed_use (fun _ : unit => True)). intros []. destruct H as [H|(l & -> & N)].
  - apply doomed_first. intros fr w. replace (Nat.leb 2 (length s)) with false by (symmetry; apply Nat.leb_gt; lia). reflexivity.
  - apply doomed_later. intros []. apply doomed_first. intros fr w. destruct (shape_eqb l (tl s)) eqn:E; [apply shape_eqb_eq in E; contradiction | reflexivity].
Qed.
Print Assumptions C100_bias_raises.
Lemma broadcast_tail b s : broadcast_to s (b :: s) = true.
Proof. unfold broadcast_to. cbn [rev]. induction (rev s) as [|a l IH]; [reflexivity|]. cbn [app broadcast_rev]. rewrite Z.eqb_refl, orb_true_r. exact IH. Qed.
Theorem C100_bias o t b s : (1 <= length s)%nat -> o = None \/ o = Some s -> init (use (bias o None None) (t, b :: s)) = Some ([(("bias", "b"), (t, s))], []).
Proof.
  intros L O. unfold init, use, bias, module. rewrite !run_bind. replace (run false (construct "Bias" None (Ret tt)) (start [] [])) with (Some (("bias", tt), World [] [] [Scope None [("bias", 1%N)] ["bias"]])) by reflexivity.
  cbn [run]. unfold within. cbn [run length tl].
  replace (Nat.leb 2 (S (length s))) with true by (symmetry; apply Nat.leb_le; lia). cbn [check bind calculate_bias_shape tl lift]. replace (match o with Some o => shape_eqb o s | None => true end) with true by (destruct O as [-> | ->]; [reflexivity | symmetry; now apply shape_eqb_eq]).
  cbn [check bind param run]. rewrite broadcast_tail. reflexivity.
Qed.
Print Assumptions C100_bias.
Example C100_bias_case : init (use (bias (Some [4; 3]) None None) (f32 [2; 4; 3])) = Some ([(("bias", "b"), f32 [4; 3])], []) /\ init (use (bias (Some [2; 4; 3]) None None) (f32 [2; 4; 3])) = None /\
  init (use (bias None (Some [-1]) None) (f32 [2; 4; 3])) = Some ([(("bias", "b"), f32 [3])], []) /\ init (use (bias None (Some []) None) (f32 [2; 4; 3])) = Some ([(("bias", "b"), f32 [])], []) /\
  init (use (bias None None None) (f32 [4])) = None.
Proof. vm_compute. repeat split. Qed.
Example C100_norms_case :
  init (use (group_norm 2 (range 1) true true false None) (f32 [2; 6; 4; 5])) = Some ([(("group_norm", "scale"), f32 [6; 1; 1]); (("group_norm", "offset"), f32 [6; 1; 1])], []) /\
  init (use (group_norm 4 (range 1) true true false None) (f32 [2; 6; 4; 5])) = None /\
  init (use (layer_norm "InstanceNorm" (instance_axis false) true false None) (f32 [2; 6; 4; 5])) = Some ([(("instance_norm", "scale"), f32 [5])], []) /\
  instance_axis true 4 = [1; 2] /\ instance_axis false 4 = [2; 3] /\
  init (a <- ema None ;; ema_call a true (f32 [3]) ;;; ema_call a true (f32 [2; 3])) =
    Some ([], [(("exponential_moving_average", "counter"), (Int32, [])); (("exponential_moving_average", "hidden"), f32 [3]); (("exponential_moving_average", "average"), f32 [3])]) /\
  (exists s, apply (a <- ema None ;; ema_call a true (f32 [2; 3])) [] [(("exponential_moving_average", "counter"), (Int32, [])); (("exponential_moving_average", "hidden"), f32 [3]); (("exponential_moving_average", "average"), f32 [3])]
     = Some (f32 [2; 3], s) /\ map snd s = [(Int32, []); f32 [2; 3]; f32 [2; 3]]) /\
  init (a <- ema None ;; ema_initialize a (f32 [3])) = Some ([], [(("exponential_moving_average", "hidden"), f32 [3]); (("exponential_moving_average", "average"), f32 [3])]) /\
  init (use (a <- attention 2 3 3 4 5 None ;; multi_input a) (f32 [7; 6; 8])) =
    Some ([(("multi_head_attention/query", "w"), f32 [8; 6]); (("multi_head_attention/query", "b"), f32 [6]); (("multi_head_attention/key", "w"), f32 [8; 6]); (("multi_head_attention/key", "b"), f32 [6]);
           (("multi_head_attention/value", "w"), f32 [8; 8]); (("multi_head_attention/value", "b"), f32 [8]); (("multi_head_attention/linear", "w"), f32 [8; 5]); (("multi_head_attention/linear", "b"), f32 [5])], []) /\
  init (use (a <- attention 2 3 4 4 5 None ;; multi_input a) (f32 [7; 6; 8])) = None.
Proof. vm_compute. repeat split. eexists. split; reflexivity. Qed.

(** ** Stacks of cores *)
Definition part_still (l : core + layer) : Prop := match l with inl c => still c | inr f => tame f end.
Lemma quiet_deep_steps skip layers : Forall part_still layers -> forall idx inputs cur state outputs, quiet (deep_steps skip idx layers inputs cur state outputs).
Proof.
  induction 1 as [|[c|f] layers S _ IH]; intros; cbn [deep_steps].
  - apply quiet_bind; [apply quiet_check|]. intros _. apply quiet_ret.
  - apply quiet_bind; [destruct (skip && _); [apply quiet_concat | apply quiet_ret]|]. intros x. apply quiet_bind; [apply calm_quiet, S|]. intros [y s]. apply quiet_bind; [apply IH|]. intros [[y' ss] outs]. apply quiet_ret.
  - apply quiet_bind; [destruct (skip && _); [apply quiet_concat | apply quiet_ret]|]. intros x. apply quiet_bind; [apply calm_quiet, S|]. intros y. apply IH.
Qed.
Lemma quiet_concat_all l : forall a, quiet (concat_all a l).
Proof. induction l as [|b l IH]; intros a; cbn [concat_all]; [apply quiet_ret|]. apply quiet_bind; [apply quiet_concat | apply IH]. Qed.
Lemma deep_still skip layers name : Forall part_still layers -> makes still (deep_rnn skip layers name).
Proof.
  intros F. unfold deep_rnn. apply (makes_bind (fun _ => True)); [apply makes_any|]. intros [q []] _. apply makes_ret. intros x u. apply calm_within. apply quiet_bind; [now apply quiet_deep_steps|].
  intros [[y s] outs]. apply quiet_bind; [|intros; apply quiet_ret]. destruct skip; [|apply quiet_ret]. destruct outs; [apply quiet_raise | apply quiet_concat_all].
Qed.
(** A core that maps a batch of vectors to a batch of vectors of size [h] and keeps its state, whatever the size of the batch and of its inputs. *)
Definition vector_core (h : Z) (c : core) : Prop := still c /\ (forall b, length (initial_state c b) = length (initial_state c None)) /\
  forall n t b b', alike (fun r r' => r = ((t, [b; h]), states c t b) /\ r' = ((t, [b'; h]), states c t b')) (step c (t, [b; n]) (states c t b)) (step c (t, [b'; n]) (states c t b')).
Lemma makes_both {A} (P Q : A -> Prop) p : makes P p -> makes Q p -> makes (fun a => P a /\ Q a) p.
Proof. unfold makes. induction p; intros HP HQ; inversion HP; subst; inversion HQ; subst; constructor; intuition. Qed.
Lemma vanilla_vector hidden db name : makes (vector_core hidden) (vanilla_rnn hidden db name).
Proof.
  apply makes_both; [apply vanilla_still|]. unfold vanilla_rnn. apply (makes_bind (fun _ => True)); [apply makes_any|]. intros [q []] _. apply makes_ret. split; [reflexivity|]. intros n t b b'. cbn [step initial_state states map snd add_batch]. apply alike_within.
  apply (alike_makes _ _ _ _ _ (linear_rows hidden true None)). intros i I. apply (alike_makes _ _ _ _ _ (linear_rows hidden db None)). intros r R.
  apply (alike_bind _ _ _ _ _ _ (I (n, [b], [b'], t) _ _ (conj eq_refl eq_refl))). intros u u' [-> ->].
  apply (alike_bind _ _ _ _ _ _ (R (hidden, [b], [b'], t) _ _ (conj eq_refl eq_refl))). intros v v' [-> ->].
  cbn [app]. rewrite !broadcast_eq. apply alike_ret. split; reflexivity.
Qed.
Lemma lstm_vector hidden name : makes (vector_core hidden) (lstm hidden name).
Proof.
  apply makes_both; [apply lstm_still|]. unfold lstm. apply (makes_bind (fun _ => True)); [apply makes_any|]. intros [q []] _. apply makes_ret. split; [reflexivity|]. intros n t b b'. cbn [step initial_state states map snd add_batch]. apply alike_within.
  apply alike_check; [auto|]. intros _. unfold concat_last. cbn [snd fst rev app]. unfold shape_eqb.
  destruct (list_eq_dec Z.eq_dec [b] [b]); [|contradiction]. destruct (list_eq_dec Z.eq_dec [b'] [b']); [|contradiction]. cbn [check bind].
  apply (alike_makes _ _ _ _ _ (linear_rows (4 * hidden) true None)). intros l L.
  apply (alike_bind _ _ _ _ _ _ (L (n + hidden, [b], [b'], t) _ _ (conj eq_refl eq_refl))). intros u u' [-> ->]. cbn [snd fst app removelast].
  rewrite !broadcast_eq. cbn [bind]. rewrite !broadcast_eq. apply alike_ret. split; reflexivity.
Qed.
Lemma gru_vector hidden name : makes (vector_core hidden) (gru hidden name).
Proof.
  apply makes_both; [apply gru_still|]. unfold gru. apply (makes_bind (fun _ => True)); [apply makes_any|]. intros [q []] _. apply makes_ret. split; [reflexivity|]. intros n t b b'. cbn [step initial_state states map snd add_batch rev app]. apply alike_within.
  apply alike_check; [auto|]. intros _. cbn [fst]. do 3 apply alike_param. rewrite Z.eqb_refl. cbn [check]. apply alike_done. rewrite !broadcast_eq. cbn [bind]. rewrite !broadcast_eq.
  apply alike_ret. split; reflexivity.
Qed.
Definition sum (l : list Z) : Z := fold_right Z.add 0 l.
Definition all_states (cs : list core) (t : dtype) (b : Z) : list array := flat_map (fun c => states c t b) cs.
Lemma concat_last_rows t b n m : concat_last (t, [b; n]) (t, [b; m]) = Ret (t, [b; n + m]).
Proof. unfold concat_last. cbn [snd fst rev app]. replace (shape_eqb [b] [b]) with true by (symmetry; now apply shape_eqb_eq). reflexivity. Qed.
Lemma concat_all_rows t b hs : forall h, concat_all (t, [b; h]) (map (fun h => (t, [b; h])) hs) = Ret (t, [b; h + sum hs]).
Proof. induction hs as [|k hs IH]; intros h; cbn [concat_all map sum fold_right]; [now rewrite Z.add_0_r|]. rewrite concat_last_rows. cbn [bind]. rewrite IH. do 4 f_equal. unfold sum. cbn. lia. Qed.
Lemma states_length c t b : (forall b, length (initial_state c b) = length (initial_state c None)) -> length (states c t b) = length (initial_state c None).
Proof. intros H. unfold states. now rewrite map_length. Qed.
Lemma states_split c t b X : (forall b, length (initial_state c b) = length (initial_state c None)) ->
  firstn (length (initial_state c None)) (states c t b ++ X)%list = states c t b /\ skipn (length (initial_state c None)) (states c t b ++ X)%list = X.
Proof. intros H. rewrite <- (states_length c t b H). rewrite firstn_app, skipn_app, Nat.sub_diag, firstn_all, skipn_all. cbn. now rewrite app_nil_r. Qed.
Lemma last_cons (l : list Z) : forall h d, last (h :: l) d = last l h.
Proof. induction l as [|k l IH]; intros h d; [reflexivity|]. change (last (h :: k :: l) d) with (last (k :: l) d). now rewrite (IH k d), (IH k h). Qed.
Lemma deep_steps_rows skip t b b' n cs hs : Forall2 vector_core hs cs -> forall idx d outs outs',
  alike (fun r r' => r = ((t, [b; last hs d]), all_states cs t b, (outs ++ map (fun h => (t, [b; h])) hs)%list) /\
                     r' = ((t, [b'; last hs d]), all_states cs t b', (outs' ++ map (fun h => (t, [b'; h])) hs)%list))
    (deep_steps skip idx (map inl cs) (t, [b; n]) (t, [b; d]) (all_states cs t b) outs) (deep_steps skip idx (map inl cs) (t, [b'; n]) (t, [b'; d]) (all_states cs t b') outs').
Proof.
  induction 1 as [|h c hs cs (_ & LC & C) _ IH]; intros idx d outs outs'; cbn [map deep_steps all_states flat_map].
  - cbn. apply alike_ret. rewrite !app_nil_r. auto.
  - fold (all_states cs t b) (all_states cs t b').
    apply (alike_bind (fun x x' => exists m, x = (t, [b; m]) /\ x' = (t, [b'; m]))).
    { destruct (skip && _); [rewrite !concat_last_rows|]; apply alike_ret; eauto. }
    intros x x' (m & -> & ->). destruct (states_split c t b (all_states cs t b) LC) as [-> ->], (states_split c t b' (all_states cs t b') LC) as [-> ->].
    apply (alike_bind _ _ _ _ _ _ (C m t b b')). intros r r' [-> ->].
    apply (alike_bind _ _ _ _ _ _ (IH (S idx) h (outs ++ [(t, [b; h])])%list (outs' ++ [(t, [b'; h])])%list)). intros r r' [-> ->]. apply alike_ret.
    rewrite <- !app_assoc, last_cons. cbn [app]. auto.
Qed.
Lemma deep_vector (skip : bool) hs cs name : hs <> [] -> Forall2 vector_core hs cs -> makes (vector_core (if skip then sum hs else last hs 0)) (deep_rnn skip (map inl cs) name).
Proof.
  intros N F. assert (ST : Forall part_still (map inl cs)).
  { apply Forall_map. clear N. induction F as [|h c hs cs [C _] _ IH]; constructor; auto. }
  apply makes_both; [now apply deep_still|]. unfold deep_rnn. apply (makes_bind (fun _ => True)); [apply makes_any|]. intros [q []] _. apply makes_ret. cbn [initial_state step].
  assert (I : forall b, flat_map (fun l : core + layer => match l with inl c => initial_state c b | inr _ => [] end) (map inl cs) = flat_map (fun c => initial_state c b) cs).
  { clear. intros b. induction cs as [|c cs IH]; [reflexivity|]. cbn [map flat_map]. now rewrite IH. }
  split.
  - intros b. rewrite !I. clear -F. induction F as [|h c hs cs (_ & L & _) _ IH]; [reflexivity|]. cbn [flat_map]. rewrite !app_length, L, IH. reflexivity.
  - intros n t b b'. apply alike_within.
    assert (SS : forall b, states (Core (fun b => flat_map (fun l : core + layer => match l with inl c => initial_state c b | inr _ => [] end) (map inl cs)) (fun _ _ => Raise)) t b = all_states cs t b).
    { intros b0. unfold states. cbn [initial_state]. rewrite I. clear. induction cs as [|c cs IH]; [reflexivity|]. unfold all_states in *. cbn [flat_map]. rewrite map_app. apply f_equal2; [reflexivity | exact IH]. }
    unfold states in SS. cbn [initial_state] in SS. unfold states. cbn [initial_state]. rewrite !SS.
    apply (alike_bind _ _ _ _ _ _ (deep_steps_rows skip t b b' n cs hs F 0%nat n [] [])). intros r r' [-> ->]. cbn [app]. destruct hs as [|h hs]; [contradiction|]. destruct skip.
    + cbn [map]. rewrite !concat_all_rows. cbn [bind]. apply alike_ret. auto.
    + cbn [bind]. apply alike_ret. rewrite !last_cons. auto.
Qed.
(** The recurrent cores on vectors, and stacks of them to any depth. *)
Inductive vector_stack : Z -> prog core -> Prop :=
| vs_vanilla h db name : vector_stack h (vanilla_rnn h db name)
| vs_lstm h name : vector_stack h (lstm h name)
| vs_gru h name : vector_stack h (gru h name)
| vs_deep (skip : bool) hs ps name : hs <> [] -> Forall2 vector_stack hs ps -> vector_stack (if skip then sum hs else last hs 0) (cs <- each (fun p => p) ps ;; deep_rnn skip (map inl cs) name).
Lemma stack_vector : forall h p, vector_stack h p -> makes (vector_core h) p.
Proof.
  fix REC 3. intros h p [h' db name | h' name | h' name | skip hs ps name N F]; [apply vanilla_vector | apply lstm_vector | apply gru_vector|].
  assert (H : Forall2 (fun h p => makes (vector_core h) p) hs ps) by (clear N; induction F as [|a b l m V F IH]; constructor; [exact (REC _ _ V) | exact IH]).
  apply (makes_bind (Forall2 vector_core hs)); [|intros cs; now apply deep_vector].
  clear -H. induction H as [|a b l m V F IH]; cbn [each]; [apply makes_ret; constructor|]. apply (makes_bind (vector_core a)); [exact V|]. intros c C. apply (makes_bind (Forall2 vector_core l)); [exact IH|]. intros r R. apply makes_ret. now constructor.
Qed.
Lemma quiet_core cls name {B} (f : string -> B) (p : prog unit) : quiet p -> quiet (m <- construct cls name p ;; let '(q, _) := m in Ret (f q)).
Proof. intros H. apply quiet_bind; [now apply quiet_construct|]. intros [q []]. apply quiet_ret. Qed.
Lemma stack_quiet : forall h p, vector_stack h p -> quiet p.
Proof.
  fix REC 3. intros h p [h' db name | h' name | h' name | skip hs ps name N F]; [apply quiet_core, quiet_ret .. |].
  apply quiet_bind.
  - clear N. induction F as [|a b l m V F IH]; cbn [each]; [apply quiet_ret|]. apply quiet_bind; [exact (REC _ _ V)|]. intros c. apply quiet_bind; [exact IH|]. intros r. apply quiet_ret.
  - intros cs. apply quiet_core, quiet_check.
Qed.
Lemma rows_steps h c t b d n : vector_core h c -> forall fr w ys s w', run fr (static_steps c n (t, [b; d]) (states c t b)) w = Some ((ys, s), w') ->
  ys = repeat (t, [b; h]) n /\ s = states c t b /\ w_state w' = w_state w.
Proof.
  intros (ST & _ & C). induction n as [|n IH]; intros fr w ys s w' E; cbn [static_steps] in E.
  - cbn in E. injection E as <- <- <-. auto.
  - rewrite run_bind in E. destruct (run fr (step c _ _) w) as [[[y s1] w1]|] eqn:E1; [|discriminate]. destruct (ST _ _ _ _ _ _ E1) as [_ W1].
    destruct (alike_run _ _ _ (C d t b b) _ _ _ _ E1) as (_ & _ & R & _). injection R as -> ->. rewrite run_bind in E. destruct (run fr (static_steps c n _ _) w1) as [[[ys' s2] w2]|] eqn:E2; [|discriminate].
    destruct (IH _ _ _ _ _ E2) as (-> & -> & W2). cbn in E. injection E as <- <- <-. split; [reflexivity|]. split; [reflexivity | congruence].
Qed.
(** Their parameters depend neither on how nor over how many steps they are unrolled, nor on the size of the batch; the output has the size of the last layer, with skip connections the sum of all layers' sizes. *)
Theorem C100_stacks h p t d : vector_stack h p ->
  (forall b n m, init (unrolled p static_unroll (S n) t [d] b) = init (unrolled p dynamic_unroll m t [d] b)) /\
  (forall b b' m, init (unrolled p dynamic_unroll m t [d] b) = init (unrolled p dynamic_unroll m t [d] b')) /\
  (forall b n params state y s state', apply (unrolled p static_unroll (S n) t [d] b) params state = Some ((y, s), state') -> y = (t, [Z.of_nat (S n); b; h]) /\ state' = state) /\
  (forall b n params state y s state', apply (unrolled p dynamic_unroll n t [d] b) params state = Some ((y, s), state') -> y = (t, [Z.of_nat n; b; h]) /\ state' = state).
Proof.
  intros V. pose proof (stack_vector h p V) as M. assert (OK : makes (fun c => still c /\ core_ok [d] c /\ vector_core h c) p).
  { eapply makes_mono; [|exact M]. intros c C. split; [apply C|]. split; [|exact C]. destruct C as (_ & _ & C). intros t0 b b'. eapply alike_mono; [|apply (C d t0 b b')]. intros r r' [_ ->]. reflexivity. }
  split; [|split; [|split]].
  - intros b n m. unfold init, unrolled. rewrite !run_bind. destruct (run false p (start [] [])) as [[c w]|] eqn:E; [|reflexivity].
    destruct (makes_run _ _ _ _ _ _ OK E) as (Sc & Oc & _). destruct (run_grows _ _ _ _ _ E start_ok) as [_ K].
    destruct (C100_unroll c (t, b :: [d]) (states c t b) w (Sc _ _) K) with (n := n) (m := m) as [U _].
    { intros fr w0 y s' w' R. destruct (alike_run _ _ _ (Oc t b b) _ _ _ _ R) as ([y' s''] & R' & E'). rewrite R in R'. injection R' as _ <-. exact E'. }
    destruct (run false (static_unroll c (S n) _ _) w) as [[r w1]|], (run false (dynamic_unroll c m _ _) w) as [[r' w2]|]; cbn in U; try discriminate; [injection U as ->|]; reflexivity.
  - assert (G : forall b b' m params state, init (unrolled p dynamic_unroll m t [d] b) = Some (params, state) -> init (unrolled p dynamic_unroll m t [d] b') = Some (params, state)).
    { intros b b' m params state. apply C100_same_format with (R := fun _ _ => True). unfold unrolled. apply (alike_makes _ _ _ _ _ OK). intros c (_ & Oc & _). unfold dynamic_unroll.
      apply (alike_bind _ _ _ _ _ _ (Oc t b b')). intros [y u] [y' u'] E. cbn [snd] in E. subst u'. apply alike_check; [|intros _; apply alike_ret; exact I]. intros _. apply arrays_eqb_refl. }
    intros b b' m. destruct (init (unrolled p dynamic_unroll m t [d] b)) as [[P S]|] eqn:E; [symmetry; exact (G _ b' _ _ _ E)|].
    destruct (init (unrolled p dynamic_unroll m t [d] b')) as [[P S]|] eqn:E'; [rewrite (G _ b _ _ _ E') in E; discriminate | reflexivity].
  - intros b n params state y s state' H. assert (Q : w_state (start params state) = w_state (start params state) /\ current (start params state) = state).
    { split; [reflexivity|]. unfold current, start. cbn [w_state]. rewrite map_map. cbn [fst snd]. rewrite (map_ext _ (fun p => p)); [apply map_id | now intros []]. }
    destruct Q as [_ Q]. unfold apply, unrolled in H. rewrite run_bind in H. destruct (run true p (start params state)) as [[c w]|] eqn:E; [|discriminate].
    destruct (stack_quiet h p V _ _ _ _ E ltac:(discriminate)) as (_ & _ & W). pose proof (makes_run _ _ _ _ _ _ M E) as C. unfold static_unroll in H. rewrite run_bind in H.
    destruct (run true (static_steps c (S n) _ _) w) as [[[ys s1] w1]|] eqn:E1; [|discriminate]. destruct (rows_steps h c t b d (S n) C _ _ _ _ _ E1) as (-> & -> & W1). cbn [repeat] in H. rewrite run_bind in H.
    destruct (forallb _ _); [|discriminate]. cbn [check run] in H. injection H as <- <- <-. split; [reflexivity|]. rewrite <- Q. unfold current. now rewrite W1, W.
  - intros b n params state y s state' H. assert (Q : current (start params state) = state).
    { unfold current, start. cbn [w_state]. rewrite map_map. cbn [fst snd]. rewrite (map_ext _ (fun p => p)); [apply map_id | now intros []]. }
    unfold apply, unrolled in H. rewrite run_bind in H. destruct (run true p (start params state)) as [[c w]|] eqn:E; [|discriminate].
    destruct (stack_quiet h p V _ _ _ _ E ltac:(discriminate)) as (_ & _ & W). pose proof (makes_run _ _ _ _ _ _ M E) as C. unfold dynamic_unroll in H. rewrite run_bind in H.
    destruct (run true (step c _ _) w) as [[[y1 s1] w1]|] eqn:E1; [|discriminate]. destruct C as (ST & _ & C). destruct (ST _ _ _ _ _ _ E1) as [_ W1]. destruct (alike_run _ _ _ (C d t b b) _ _ _ _ E1) as (_ & _ & R & _).
    injection R as -> ->. rewrite run_bind in H. destruct (arrays_eqb _ _); [|discriminate]. cbn [check run] in H. injection H as <- <- <-. split; [reflexivity|]. rewrite <- Q. unfold current. now rewrite W1, W.
Qed.
Print Assumptions C100_stacks.
Example C100_stacks_case : let p skip := cs <- each (fun p => p) [lstm 3 None; vanilla_rnn 5 false None; gru 2 None] ;; deep_rnn skip (map inl cs) None in
  vector_stack 10 (p true) /\ vector_stack 2 (p false) /\
  init (unrolled (p true) dynamic_unroll 4 Float32 [7] 6) =
    Some ([(("lstm/linear", "w"), f32 [10; 12]); (("lstm/linear", "b"), f32 [12]); (("vanilla_rnn/linear", "w"), f32 [10; 5]); (("vanilla_rnn/linear", "b"), f32 [5]); (("vanilla_rnn/linear_1", "w"), f32 [5; 5]);
           (("gru", "w_i"), f32 [12; 6]); (("gru", "w_h"), f32 [2; 6]); (("gru", "b"), f32 [6])], []) /\
  init (unrolled (p false) static_unroll 4 Float32 [7] 6) =
    Some ([(("lstm/linear", "w"), f32 [10; 12]); (("lstm/linear", "b"), f32 [12]); (("vanilla_rnn/linear", "w"), f32 [3; 5]); (("vanilla_rnn/linear", "b"), f32 [5]); (("vanilla_rnn/linear_1", "w"), f32 [5; 5]);
           (("gru", "w_i"), f32 [5; 6]); (("gru", "w_h"), f32 [2; 6]); (("gru", "b"), f32 [6])], []) /\
  run false (c <- p true ;; step c (f32 [6; 7]) (initial_state c (Some 6))) (start [] []) <> None /\
  option_map fst (run false (c <- p true ;; step c (f32 [6; 7]) (initial_state c (Some 6))) (start [] [])) = Some (f32 [6; 10], [f32 [6; 3]; f32 [6; 3]; f32 [6; 5]; f32 [6; 2]]).
Proof.
  cbv zeta. split; [|split].
  - exact (vs_deep true [3; 5; 2] [lstm 3 None; vanilla_rnn 5 false None; gru 2 None] None ltac:(discriminate) ltac:(repeat constructor)).
  - exact (vs_deep false [3; 5; 2] [lstm 3 None; vanilla_rnn 5 false None; gru 2 None] None ltac:(discriminate) ltac:(repeat constructor)).
  - vm_compute. repeat split; discriminate.
Qed.
(** Skip connections are for cores only; a stack of layers that are no cores has no state; [ResetCore] wants flags that fit the leading sizes of the state, for a core on vectors of one or of a batch of examples. *)
Example C100_cores_case : let after {A} (p : prog A) := option_map fst (run false p (start [] [])) in
  init (l <- linear 3 true None ;; deep_rnn true [inr l] None) = None /\
  after (l <- linear 3 true None ;; c <- deep_rnn false [inr l; inr l] None ;; r <- step c (f32 [2; 3]) [] ;; Ret r) = Some (f32 [2; 3], []) /\
  after (c <- lstm 3 None ;; r <- reset_core c None ;; step (r [4]) (f32 [4; 5]) [f32 [4; 3]; f32 [4; 3]]) = Some (f32 [4; 3], [f32 [4; 3]; f32 [4; 3]]) /\
  after (c <- lstm 3 None ;; r <- reset_core c None ;; step (r []) (f32 [5]) [f32 [3]; f32 [3]]) = Some (f32 [3], [f32 [3]; f32 [3]]) /\
  after (c <- lstm 3 None ;; r <- reset_core c None ;; step (r [3]) (f32 [4; 5]) [f32 [4; 3]; f32 [4; 3]]) = None /\
  after (c <- identity_core None ;; r <- reset_core c None ;; step (r [3]) (f32 []) []) = Some (f32 [], []) /\
  after (c <- gru 3 None ;; step c (f32 [2; 4; 5]) [f32 [2; 4; 3]]) = None /\
  after (c <- gru 3 None ;; step c (f32 [4; 5]) [f32 [4; 2]]) = None /\
  after (c <- lstm 3 None ;; step c (f32 [4; 5]) [f32 [3; 3]; f32 [3; 3]]) = None /\
  after (c <- vanilla_rnn 3 true None ;; step c (f32 [4; 5]) [f32 [1; 3]]) = Some (f32 [4; 3], [f32 [4; 3]]) /\
  after (c <- vanilla_rnn 3 true None ;; dynamic_unroll c 2 (f32 [4; 5]) [f32 [1; 3]]) = None /\
  after (c <- vanilla_rnn 3 true None ;; static_unroll c 2 (f32 [4; 5]) [f32 [1; 3]]) = Some (f32 [2; 4; 3], [f32 [4; 3]]) /\
  after (c <- vanilla_rnn 3 true None ;; r <- recurrent c dynamic_unroll ;; r (Bfloat16, [4; 5])) = Some (Bfloat16, [1; 4; 3]).
Proof. vm_compute. repeat split. Qed.
(** Leading axes must agree in a concatenation even if they would broadcast; an LSTM takes no more than a batch of vectors; flags must fit, not broadcast, and may have more than one axis; what a core makes in its step is named after the class that runs it. *)
Example C100_cores_fit_case : let after {A} (p : prog A) := option_map fst (run false p (start [] [])) in
  after (c <- lstm 3 None ;; step c (f32 [2; 5]) [f32 [4; 3]; f32 [2; 3]]) = None /\
  after (c <- lstm 3 None ;; step c (f32 [2; 2; 5]) [f32 [2; 2; 3]; f32 [2; 2; 3]]) = None /\
  after (c <- lstm 3 None ;; r <- reset_core c None ;; step (r [1]) (f32 [4; 5]) [f32 [4; 3]; f32 [4; 3]]) = None /\
  after (c <- dummy_core ;; r <- reset_core c None ;; step (r [2; 128]) (f32 [2; 7]) [f32 [2; 128; 1]]) = Some (f32 [2; 7], [f32 [2; 128; 1]]) /\
  (let c := Core (fun _ => []) (fun x s => l <- linear 4 false None ;; y <- l x ;; Ret (y, s)) in
   init (d <- deep_rnn true [inl c; inl c] None ;; step d (f32 [2; 3]) []) = Some ([(("__deep_rnn/linear", "w"), f32 [3; 4]); (("__deep_rnn/linear_1", "w"), f32 [7; 4])], []) /\
   init (d <- deep_rnn false [inl c; inl c] None ;; step d (f32 [2; 3]) []) = Some ([(("deep_rnn/linear", "w"), f32 [3; 4]); (("deep_rnn/linear_1", "w"), f32 [4; 4])], [])).
Proof. vm_compute. repeat split. Qed.
(** The texts of arrays and the sums over a tree. *)
Example C100_texts_case : format_tensor (f32 [2; 10; 3]) = "f32[2, 10, 3]" /\ format_tensor (Int32, []) = "s32[]" /\ str_of_Z (-12) = "-12" /\ str_of_Z 0 = "0" /\
  tree_bytes [(("a", "w"), (Float64, [2; 3])); (("a", "b"), (Bfloat16, [3])); (("c", "n"), (Int8, []))] = 55 /\
  tree_size [(("a", "w"), (Float64, [2; 3])); (("a", "b"), (Bfloat16, [3])); (("c", "n"), (Int8, []))] = 10 /\
  option_map t_leaves (summarize_tree [(("b", "x"), f32 []); (("a", "w"), f32 [1]); (("a/b", "b"), f32 [2]); (("a", "b"), f32 [3])]) =
    Some [(("a", "b"), "f32[3]"); (("a", "w"), "f32[1]"); (("a/b", "b"), "f32[2]"); (("b", "x"), "f32[]")] /\ summarize_tree [] = None.
Proof. vm_compute. repeat split. Qed.
(** The quantizer's averages exist from construction on; the counters from the first step of training. *)
Example C100_quantizer_case : let p train := v <- vector_quantizer_ema 2 3 None ;; v train (f32 [4; 2]) in let q := "vector_quantizer_ema" in
  let averages n s := [(((q ++ "/~/" ++ n)%string, "hidden"), f32 s); (((q ++ "/~/" ++ n)%string, "average"), f32 s)] in
  init (p false) = Some ([], ((q, "embeddings"), f32 [2; 3]) :: averages "ema_cluster_size" [3] ++ averages "ema_dw" [2; 3])%list /\
  init (p true) = Some ([], ((q, "embeddings"), f32 [2; 3]) :: averages "ema_cluster_size" [3] ++ averages "ema_dw" [2; 3] ++ [(("vector_quantizer_ema/~/ema_cluster_size", "counter"), (Int32, [])); (("vector_quantizer_ema/~/ema_dw", "counter"), (Int32, []))])%list.
Proof. vm_compute. repeat split. Qed.

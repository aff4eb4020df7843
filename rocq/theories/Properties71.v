(** C100, part 4: the checkpoint files, at every size of the inputs. *)
From Coq Require Import String Ascii NArith ZArith List Bool Lia.
From Verif Require Import ModelStr ModelUtils ModelShape ModelPool ModelImageNets ModelConv ProofsShape Properties09 Properties11 Properties32 ModelFormat ModelCheckpoints Properties68 Properties69 Properties70.
Import ListNotations.
Local Open Scope string_scope.
Local Open Scope Z_scope.

(** ** The files *)
Definition file (n : string) : option summary := option_map snd (List.find (fun p => String.eqb n (fst p)) checkpoint_files).
Fixpoint distinct (l : list string) : bool := match l with [] => true | a :: l => negb (existsb (String.eqb a) l) && distinct l end.
Lemma distinct_NoDup l : distinct l = true -> NoDup l.
Proof.
  induction l as [|a l IH]; cbn; intros H; [constructor|]. apply andb_prop in H as [H1 H2]. constructor; [|exact (IH H2)].
  intros I. apply negb_true_iff in H1. rewrite <- not_true_iff_false in H1. apply H1. apply existsb_exists. exists a. split; [exact I | apply String.eqb_refl].
Qed.
Lemma file_names_distinct : NoDup (map fst checkpoint_files) /\ NoDup (map to_file_name all_modules) /\ NoDup (map d_name all_modules).
Proof. split; [|split]; apply distinct_NoDup; vm_compute; reflexivity. Qed.
Lemma find_In {A} (l : list (string * A)) n v : NoDup (map fst l) -> (option_map snd (List.find (fun p => String.eqb n (fst p)) l) = Some v <-> In (n, v) l).
Proof.
  induction l as [|[m u] l IH]; cbn; intros D; [split; [discriminate | contradiction]|]. inversion D as [|? ? N D']; subst. destruct (String.eqb n m) eqn:E.
  - apply String.eqb_eq in E. subst m. cbn. split; [intros H; injection H as ->; auto|]. intros [H|H]; [injection H as ->; reflexivity|].
    exfalso. apply N. apply in_map_iff. exists (n, v). auto.
  - rewrite (IH D'). split; [auto|]. intros [H|H]; [injection H as -> ->; rewrite String.eqb_refl in E; discriminate | exact H].
Qed.
Lemma files_computed : map (fun d => file (to_file_name d)) all_modules = map summarize all_modules.
Proof. vm_compute. reflexivity. Qed.
Lemma all_summarized : forallb (fun d => match summarize d with Some _ => true | None => false end) all_modules = true.
Proof. vm_compute. reflexivity. Qed.
Lemma files_named : forallb (fun f => existsb (fun d => String.eqb (fst f) (to_file_name d)) all_modules) checkpoint_files = true.
Proof. vm_compute. reflexivity. Qed.
Lemma map_eq_In {A B} (f g : A -> B) l : map f l = map g l -> forall a, In a l -> f a = g a.
Proof. induction l as [|b l IH]; cbn; [contradiction|]. intros H a [->|I]; injection H as H1 H2; auto. Qed.

(** The checkpoint test passes: the files are the summaries of the descriptors, one file for each of them. *)
Theorem C100_files : NoDup (map fst checkpoint_files) /\ NoDup (map to_file_name all_modules) /\
  forall n s, In (n, s) checkpoint_files <-> exists d, In d all_modules /\ to_file_name d = n /\ summarize d = Some s.
Proof.
  destruct file_names_distinct as (D & D' & _). split; [exact D|]. split; [exact D'|]. intros n s. split.
  - intros I. pose proof files_named as F. rewrite forallb_forall in F. specialize (F _ I). apply existsb_exists in F as (d & Id & E). apply String.eqb_eq in E. cbn in E. subst n.
    exists d. split; [exact Id|]. split; [reflexivity|]. rewrite <- (map_eq_In _ _ _ files_computed d Id). apply find_In; assumption.
  - intros (d & Id & <- & E). apply find_In; [exact D|]. rewrite <- E. exact (map_eq_In _ _ _ files_computed d Id).
Qed.
Print Assumptions C100_files.
Example C100_files_case : In "Recurrent-LSTM-dynamic_unroll" (map fst checkpoint_files) /\ length checkpoint_files = 42%nat.
Proof. vm_compute. split; [tauto | reflexivity]. Qed.

(** ** Every size *)
(** The inputs with which a descriptor's module has the parameters and state of the file. *)
Definition images (n : nat) (c : Z) (x : array) : Prop := fst x = Float32 /\ exists ns, length ns = n /\ (snd x = ns ++ [c] \/ exists b, snd x = b :: ns ++ [c])%list.
Definition nhwc (c : Z) (x : array) : Prop := exists b h w, 0 <= b /\ 0 <= h /\ 0 <= w /\ x = f32 [b; h; w; c].
Definition ending (r : nat) (c : Z) (x : array) : Prop := exists s, (r <= length s)%nat /\ x = f32 (s ++ [c])%list.
Definition batches (s : list Z) (x : array) : Prop := exists b, x = f32 (b :: s).
Definition admits : list (string * (array -> Prop)) :=
  [("Embed", fun x => is_integer (fst x) = true); ("Linear", ending 0 1); ("Sequential", fun _ => True); ("nets.MLP", ending 0 3);
   ("ConvND", images 1 2); ("ConvNDTranspose", images 1 2); ("Conv1D", images 1 2); ("Conv1DTranspose", images 1 2);
   ("Conv2D", images 2 2); ("Conv2DTranspose", images 2 2); ("Conv3D", images 3 2); ("Conv3DTranspose", images 3 2)] ++
  [("BatchNorm", nhwc 3); ("Bias", batches [3; 3; 3]); ("Flatten", fun x => Forall (fun n => 0 <= n) (snd x)); ("InstanceNorm", ending 0 2);
   ("GroupNorm", fun x => exists b s, x = f32 (b :: s ++ [10])%list /\ 0 <= b /\ Forall (fun n => 0 < n) s); ("LayerNorm", ending 1 2);
   ("MultiHeadAttention", fun x => exists b t, x = f32 [b; t; 2] /\ 0 < b /\ 0 < t); ("SpectralNorm", ending 1 2); ("nets.ResNet", nhwc 2); ("nets.MobileNetV1", nhwc 2);
   ("nets.VectorQuantizer", fun x => exists s, snd x = (s ++ [64])%list /\ Forall (fun n => 0 < n) s);
   ("nets.VectorQuantizerEMA", fun x => exists s, snd x = (s ++ [64])%list /\ Forall (fun n => 0 < n) s);
   ("DepthwiseConv2D", nhwc 2); ("SeparableDepthwiseConv2D", nhwc 2)] ++
  flat_map (fun u => map (fun e => ("Recurrent(" ++ fst e ++ ", " ++ u ++ ")", batches (snd e)))
    [("ResetCore", [128]); ("GRU", [128]); ("IdentityCore", [128]); ("LSTM", [128]); ("Conv1DLSTM", [2; 2]); ("Conv2DLSTM", [2; 2; 2]); ("Conv3DLSTM", [2; 2; 2; 2]); ("VanillaRNN", [128])])
    ["dynamic_unroll"; "static_unroll"].
Definition serves (d : descriptor) (a : string * (array -> Prop)) : Prop :=
  d_name d = fst a /\ snd a (d_input d) /\ forall x, snd a x -> exists S, alike S (use (d_create d) (d_input d)) (use (d_create d) x).
Lemma by_good (R S : rel) (P : array -> Prop) create x : makes (fun f => good R S f f) create -> (forall y, P y -> R x y) -> forall y, P y -> exists S, alike S (use create x) (use create y).
Proof. intros H L y Py. exists S. exact (good_use R S create x y H (L y Py)). Qed.
Lemma makes_at {I} (F : I -> layer -> Prop) (i : I) p : makes (fun f => forall i, F i f) p -> makes (F i) p.
Proof. apply makes_mono. intros f H. exact (H i). Qed.
Lemma nhwc_img c x x' : nhwc c x -> nhwc c x' -> exists d d', img c d d' x x'.
Proof.
  intros (b & h & w & B & H & W & ->) (b' & h' & w' & B' & H' & W' & ->). exists (b, h, w), (b', h', w'). split; [cbn; auto|]. split; [cbn; auto|]. exists Float32. split; reflexivity.
Qed.
Lemma by_img (S : size3 -> size3 -> rel) c create x : makes (fun f => forall d d', good (img c d d') (S d d') f f) create -> nhwc c x -> forall y, nhwc c y -> exists S, alike S (use create x) (use create y).
Proof.
  intros H X y Y. destruct (nhwc_img c x y X Y) as (d & d' & I). exists (S d d'). apply (good_use (img c d d') (S d d')); [|exact I].
  apply (makes_mono (fun f => forall d d', good (img c d d') (S d d') f f)); [intros f G; exact (G d d') | exact H].
Qed.
Lemma ending_ends r c x y : ending r c x -> ending r c y -> ends c x y.
Proof. intros (s & _ & ->) (s' & _ & ->). split; [reflexivity|]. exists s, s'. split; reflexivity. Qed.
Lemma images_spatial n c x y : images n c x -> images n c y -> spatial n c x y.
Proof. intros [T (ns & L & E)] [T' (ns' & L' & E')]. split; [congruence|]. exists ns, ns'. split; [exact L|]. split; [exact L'|]. split; assumption. Qed.
Lemma batches_batch s x y : batches s x -> batches s y -> batch s x y.
Proof. intros (b & ->) (b' & ->). exists Float32, b, b'. split; reflexivity. Qed.
Lemma by_core s core c u : makes (core_ok s) core -> (forall c, core_ok s c -> makes (fun f => good (batch s) (fun _ _ => True) f f) (recurrent c u)) ->
  d_create c = (x <- core ;; recurrent x u) -> batches s (d_input c) -> forall y, batches s y -> exists S, alike S (use (d_create c) (d_input c)) (use (d_create c) y).
Proof.
  intros M U E X. rewrite E. apply (by_good (batch s) (fun _ _ => True)); [|intros y Y; apply batches_batch; assumption].
  exact (makes_bind _ _ _ _ M U).
Qed.
Lemma gn_ok_10 b s : 0 <= b -> Forall (fun n => 0 < n) s -> gn_ok true (range 1 (Z.of_nat (length (b :: s ++ [10])%list))) 5 (b :: s ++ [10])%list.
Proof.
  intros B F. unfold gn_ok. cbn [tl hd length]. rewrite app_length. cbn [length]. split; [lia|]. split; [apply Forall_app; split; [exact F | repeat constructor]|].
  split; [exact B|]. split; [lia|]. split.
  - unfold channel_of. change (b :: s ++ [10])%list with ((b :: s) ++ [10])%list. rewrite last_last. reflexivity.
  - unfold range. apply Forall_forall. intros z I. apply in_map_iff in I as (i & <- & I). apply in_seq in I. lia.
Qed.
Lemma instance_axes_ok rank : 0 <= rank -> np_axes rank (instance_axis true rank) <> None.
Proof.
  intros R. unfold np_axes, instance_axis, range. destruct (forallb _ _) eqn:E; [discriminate|]. exfalso. rewrite <- not_true_iff_false in E. apply E. apply forallb_forall.
  intros a I. apply in_map_iff in I as (i & <- & I). apply in_seq in I. apply andb_true_intro. rewrite Z.leb_le, Z.ltb_lt. lia.
Qed.
Lemma prod_pos s : Forall (fun n => 0 < n) s -> 0 < ModelShape.prod s.
Proof. induction 1; cbn; [lia | nia]. Qed.
Lemma vectors_64 x y : (exists s, snd y = (s ++ [64])%list /\ Forall (fun n => 0 < n) s) -> vectors 64 x y.
Proof. intros (s & E & F). exists s. split; [exact E|]. split; [lia|]. rewrite E. apply prod_pos. apply Forall_app. split; [exact F | repeat constructor]. Qed.

Ltac end_case := match goal with |- ending _ _ (f32 ?l) => exists (removelast l); split; [cbn; lia | reflexivity] end.
Ltac nhwc_case := match goal with |- nhwc _ (f32 [?b; ?h; ?w; _]) => exists b, h, w; repeat split; lia end.
Lemma all_serve : Forall2 serves all_modules admits.
Proof.
  assert (IM : forall n c b ns, length ns = n -> images n c (f32 (b :: ns ++ [c])%list)).
  { intros n c b ns L. split; [reflexivity|]. exists ns. split; [exact L|]. right. exists b. reflexivity. }
  unfold all_modules, admits. apply Forall2_app; [|apply Forall2_app].
  - repeat (apply Forall2_cons; [split; [reflexivity|]; cbn [snd d_input d_create]|]); [..|constructor].
    + split; [reflexivity|]. apply (by_good _ _ _ _ _ (embed_good 6 12 None)). auto.
    + assert (X : ending 0 1 (f32 [8; 1])) by end_case. split; [exact X|]. apply (by_good _ _ _ _ _ (makes_at _ 1 _ (linear_good 10 true None))). intros y. apply ending_ends. exact X.
    + split; [exact I|]. apply (by_good _ _ _ _ _ (sequential_good None)). auto.
    + assert (X : ending 0 3 (f32 [8; 3])) by end_case. split; [exact X|]. apply (by_good _ _ _ _ _ (makes_at _ 3 _ (mlp_good [3; 4; 5] true None))). intros y. apply ending_ends. exact X.
    + pose proof (IM 1%nat 2 8 [2] eq_refl) as X. split; [exact X|]. apply (by_good _ _ _ _ _ (makes_at _ 2 _ (conv_good "ConvND" 1 3 3 None))). intros y. apply images_spatial, X.
    + pose proof (IM 1%nat 2 8 [2] eq_refl) as X. split; [exact X|]. apply (by_good _ _ _ _ _ (makes_at _ 2 _ (conv_t_good "ConvNDTranspose" 1 3 3 None))). intros y. apply images_spatial, X.
    + pose proof (IM 1%nat 2 8 [2] eq_refl) as X. split; [exact X|]. apply (by_good _ _ _ _ _ (makes_at _ 2 _ (conv_good "Conv1D" 1 3 3 None))). intros y. apply images_spatial, X.
    + pose proof (IM 1%nat 2 8 [2] eq_refl) as X. split; [exact X|]. apply (by_good _ _ _ _ _ (makes_at _ 2 _ (conv_t_good "Conv1DTranspose" 1 3 3 None))). intros y. apply images_spatial, X.
    + pose proof (IM 2%nat 2 8 [2; 2] eq_refl) as X. split; [exact X|]. apply (by_good _ _ _ _ _ (makes_at _ 2 _ (conv_good "Conv2D" 2 3 3 None))). intros y. apply images_spatial, X.
    + pose proof (IM 2%nat 2 8 [2; 2] eq_refl) as X. split; [exact X|]. apply (by_good _ _ _ _ _ (makes_at _ 2 _ (conv_t_good "Conv2DTranspose" 2 3 3 None))). intros y. apply images_spatial, X.
    + pose proof (IM 3%nat 2 8 [2; 2; 2] eq_refl) as X. split; [exact X|]. apply (by_good _ _ _ _ _ (makes_at _ 2 _ (conv_good "Conv3D" 3 3 3 None))). intros y. apply images_spatial, X.
    + pose proof (IM 3%nat 2 8 [2; 2; 2] eq_refl) as X. split; [exact X|]. apply (by_good _ _ _ _ _ (makes_at _ 2 _ (conv_t_good "Conv3DTranspose" 3 3 3 None))). intros y. apply images_spatial, X.
  - repeat (apply Forall2_cons; [split; [reflexivity|]; cbn [snd d_input d_create]|]); [..|constructor].
    + assert (X : nhwc 3 (f32 [8; 2; 2; 3])) by nhwc_case. split; [exact X|]. apply (by_img (img 3)); [|exact X].
      apply (makes_bind (fun f => forall mode, local mode -> img_keeps (f mode))); [apply bn_good; reflexivity|]. intros f G.
      apply (makes_mono (fun f => forall i : size3 * size3, good (img 3 (fst i) (snd i)) (img 3 (fst i) (snd i)) f f)); [intros g H d d'; exact (H (d, d'))|].
      apply makes_simple. intros [d d']. exact (G (true, false) eq_refl 3 d d').
    + split; [exists 8; reflexivity|]. apply (by_good _ _ _ _ _ (makes_at _ [3; 3; 3] _ (bias_good None None))). intros y (b & ->). split; [reflexivity|]. exists 8, b. split; reflexivity.
    + split; [repeat constructor; lia|]. apply (by_good _ _ _ _ _ (flatten_good None)). auto.
    + assert (X : ending 0 2 (f32 [8; 3; 2])) by end_case. split; [exact X|].
      apply (by_good _ _ _ _ _ (makes_at _ 2 _ (layer_norm_good "InstanceNorm" (instance_axis true) true true None))). intros y Y. split; [exact (ending_ends _ _ _ _ X Y)|].
      apply instance_axes_ok. lia.
    + split; [exists 8, [4; 4]; split; [reflexivity|]; split; [lia | repeat constructor]|].
      apply (by_good _ _ _ _ _ (makes_at _ 10 _ (group_norm_good 5 (range 1) true true None))). intros y (b & s & -> & B & F).
      split; [split; [reflexivity|]; exists [8; 4; 4], (b :: s); split; reflexivity|]. split; [apply (gn_ok_10 8 [4; 4]); [lia | repeat constructor]|]. exact (gn_ok_10 b s B F).
    + assert (X : ending 1 2 (f32 [8; 3; 2])) by end_case. split; [exact X|].
      apply (by_good _ _ _ _ _ (makes_at _ 2 _ (layer_norm_good "LayerNorm" (fun _ => [1]) true true None))). intros y Y. split; [exact (ending_ends _ _ _ _ X Y)|].
      destruct Y as (s & L & ->). cbn [f32 snd]. rewrite app_length. cbn [length]. unfold np_axes. cbn [forallb].
      rewrite (proj2 (Z.leb_le _ _)), (proj2 (Z.ltb_lt _ _)) by lia. discriminate.
    + split; [exists 8, 3; repeat split; lia|]. apply (by_good (seqs 2) (ends 512)).
      * apply (makes_bind _ _ _ _ (attention_good 8 64 512 None 2)). intros f G. apply multi_good, G.
      * intros y (b & t & -> & B & T). exists Float32, 8, 3, b, t. split; [nia|]. split; reflexivity.
    + assert (X : ending 1 2 (f32 [8; 3; 2])) by end_case. split; [exact X|]. apply (by_good _ _ _ _ _ (makes_at _ 2 _ (spectral_good 1 None))). intros y Y.
      split; [exact (ending_ends _ _ _ _ X Y)|]. destruct Y as (s & L & ->). cbn [f32 snd]. rewrite app_length. cbn [length]. lia.
    + assert (X : nhwc 2 (f32 [8; 3; 3; 2])) by nhwc_case. split; [exact X|]. apply (by_img (fun _ _ => ends 1000)); [|exact X].
      eapply makes_bind; [eapply resnet_good; try reflexivity; [repeat constructor; discriminate | left; reflexivity]|]. intros f G.
      apply (makes_mono (fun f => forall i : size3 * size3, good (img 2 (fst i) (snd i)) (ends 1000) f f)); [intros g H d d'; exact (H (d, d'))|].
      apply (makes_simple _ (fun _ => ends 1000)). intros [d d']. exact (G (true, false) eq_refl 2 d d').
    + assert (X : nhwc 2 (f32 [8; 64; 64; 2])) by nhwc_case. split; [exact X|]. apply (by_img (fun _ _ => ends 1000)); [|exact X].
      eapply makes_bind; [apply mobilenet_good; repeat constructor|]. intros f G.
      apply (makes_mono (fun f => forall i : size3 * size3, good (img 2 (fst i) (snd i)) (ends 1000) f f)); [intros g H d d'; exact (H (d, d'))|].
      apply (makes_simple _ (fun _ => ends 1000)). intros [d d']. exact (G 2 d d').
    + split; [exists [8]; split; [reflexivity | repeat constructor]|]. apply (by_good (vectors 64) (fun _ _ => True)); [|intros y; apply vectors_64].
      apply (makes_bind _ _ _ _ (vq_good 64 512 None)). intros f G. apply training_good, G.
    + split; [exists [8]; split; [reflexivity | repeat constructor]|]. apply (by_good (vectors 64) (fun _ _ => True)); [|intros y; apply vectors_64].
      apply (makes_bind _ _ _ _ (vq_ema_good 64 512 None)). intros f G. apply training_good, G.
    + assert (X : nhwc 2 (f32 [8; 2; 2; 2])) by nhwc_case. split; [exact X|]. intros y Y. destruct (nhwc_img 2 _ y X Y) as (d & d' & J). exists (fun _ _ => True).
      apply (alike_makes _ _ _ _ _ (depthwise_good 1 3 3 1 1 (inl PtSame) true None ltac:(discriminate))). intros f G. destruct (G 2 d d' ltac:(lia)) as (e & e' & H).
      apply (alike_mono (img (1 * 2) e e')); [auto|]. exact (H _ _ J).
    + assert (X : nhwc 2 (f32 [8; 2; 2; 2])) by nhwc_case. split; [exact X|]. intros y Y. destruct (nhwc_img 2 _ y X Y) as (d & d' & J). exists (fun _ _ => True).
      apply (alike_makes _ _ _ _ _ (separable_good 1 3 3 [1; 1] (inl PtSame) true None ltac:(lia) ltac:(discriminate) eq_refl)). intros f G. destruct (G 2 d d' ltac:(lia)) as (e & e' & H).
      apply (alike_mono (img (1 * 2) e e')); [auto|]. exact (H _ _ J).
  - assert (C : forall u n, (forall s c, core_ok s c -> makes (fun f => good (batch s) (fun _ _ => True) f f) (recurrent c u)) ->
      Forall2 serves (unroll_descriptors u n) (map (fun e => ("Recurrent(" ++ fst e ++ ", " ++ n ++ ")", batches (snd e)))
        [("ResetCore", [128]); ("GRU", [128]); ("IdentityCore", [128]); ("LSTM", [128]); ("Conv1DLSTM", [2; 2]); ("Conv2DLSTM", [2; 2; 2]); ("Conv3DLSTM", [2; 2; 2; 2]); ("VanillaRNN", [128])])).
    { intros u n U. unfold unroll_descriptors, rnn_cores. cbn [map].
      repeat (apply Forall2_cons; [split; [reflexivity|]; split; [exists 8; reflexivity|]; cbn [snd fst]|]); [..|constructor];
        (eapply by_core; [|apply U|reflexivity|exists 8; reflexivity]).
      - apply reset_good.
      - apply gru_good.
      - apply identity_good.
      - apply lstm_good.
      - apply (conv_lstm_good "Conv1DLSTM" 1). auto.
      - apply (conv_lstm_good "Conv2DLSTM" 2). auto.
      - apply (conv_lstm_good "Conv3DLSTM" 3). auto.
      - apply vanilla_good. }
    cbn [flat_map]. rewrite app_nil_r. apply Forall2_app; apply C; [exact dynamic_good | exact static_good].
Qed.
(** The parameters and the state in a file do not depend on the sizes that the file mentions: every admitted input has them, and the file's own input is one of these. *)
Theorem C100_files_all_sizes d : In d all_modules ->
  exists P s, In (d_name d, P) admits /\ In (to_file_name d, s) checkpoint_files /\ P (d_input d) /\
  forall x, P x -> summarize (Desc (d_name d) (d_create d) x) = Some (Summary (format_tensor x) (s_params s) (s_state s)).
Proof.
  intros I. assert (H : exists a, In a admits /\ serves d a).
  { pose proof all_serve as F. revert I F. generalize all_modules, admits. intros l m I F. induction F as [|e a l m S F IH]; [contradiction|].
    destruct I as [->|I]; [exists a; split; [left; reflexivity | exact S]|]. destruct (IH I) as (a' & Ia & Sa). exists a'. split; [right; exact Ia | exact Sa]. }
  destruct H as ([n P] & Ia & (E & X & L)). cbn [fst snd] in E, X, L. subst n.
  pose proof all_summarized as A. rewrite forallb_forall in A. specialize (A d I). destruct (summarize d) as [s|] eqn:Es; [|discriminate].
  exists P, s. split; [exact Ia|]. split; [apply C100_files; eauto|]. split; [exact X|]. intros x Px. destruct (L x Px) as (S & AL).
  unfold summarize in *. destruct (init (use (d_create d) (d_input d))) as [[params state]|] eqn:Ei; [|discriminate]. injection Es as <-.
  cbn [d_create d_input s_params s_state]. rewrite (C100_same_format S _ _ params state AL Ei). reflexivity.
Qed.
Print Assumptions C100_files_all_sizes.
Example C100_files_all_sizes_case : exists s, In ("nets.ResNet", s) checkpoint_files /\
  forall b h w, 0 <= b -> 0 <= h -> 0 <= w -> option_map s_params (summarize (Desc "nets.ResNet" (r <- resnet true true "ResNet" resnet_default false 1000 None ;; training r (true, false)) (f32 [b; h; w; 2]))) = Some (s_params s).
Proof.
  set (d := Desc "nets.ResNet" (r <- resnet true true "ResNet" resnet_default false 1000 None ;; training r (true, false)) (f32 [8; 3; 3; 2])).
  assert (I : In d all_modules) by (unfold all_modules, batch_modules; apply in_or_app; right; apply in_or_app; left; do 8 right; left; reflexivity).
  destruct (C100_files_all_sizes d I) as (P & s & Ia & If & _ & H). exists s. split; [exact If|]. intros b h w B Hh W.
  assert (EP : P = nhwc 2). { unfold admits in Ia. repeat (destruct Ia as [Ia|Ia]; [injection Ia as E; first [discriminate E | exact (eq_sym Ia) | now subst] |]). all: contradiction. }
  rewrite H; [reflexivity|]. subst P. exists b, h, w. auto.
Qed.

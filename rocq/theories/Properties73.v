(** C100, part 6: the names of a perceptron's parameters; the sizes of residual networks. *)
From Coq Require Import String Ascii NArith ZArith List Bool Lia.
From Verif Require Import ModelStr ModelUtils ModelShape ModelPool ModelImageNets ModelConv ProofsStr ProofsShape Properties32 ModelFormat Properties68 Properties69.
Import ListNotations.
Local Open Scope string_scope.
Local Open Scope Z_scope.

(** ** [hk.nets.MLP] *)
Definition linear_call (q : string) (out : Z) (bias : bool) : layer := fun x => within q "__call__"
  (let '(t, s) := x in match rev s with [] => Raise | d :: _ => param "w" (t, [d; out]) ;;; when bias (param "b" (t, [out])) ;;; Ret (t, (removelast s ++ [out])%list) end).
Lemma linear_valid i : valid_identifier ("linear_" ++ str_of_nat i) = true.
Proof.
  unfold valid_identifier, str_of_nat. rewrite chomp_app by apply str_of_N_nonempty. rewrite chomp_digits by apply str_of_N_digits.
  cbn. assert (H : forall s, all_chars is_digit s = true -> all_chars ident_char s = true); [|apply H, str_of_N_digits].
  induction s as [|c s IH]; cbn; [auto|]. intros E. apply andb_prop in E as [E1 E2]. unfold ident_char. rewrite E1, orb_true_r. exact (IH E2).
Qed.
Lemma linear_run out bias i P S sc rest : run false (linear out bias (Some ("linear_" ++ str_of_nat i))) (World P S (sc :: rest)) =
  match unique_name sc ("linear_" ++ str_of_nat i) with Some (q, sc') => Some (linear_call q out bias, World P S (sc' :: rest)) | None => None end.
Proof.
  unfold linear, module, construct. rewrite linear_valid. cbn [bind run w_stack]. destruct (unique_name sc _) as [[q sc']|]; [|reflexivity]. cbn. reflexivity.
Qed.
Lemma append_assoc (a b c : string) : (a ++ b) ++ c = a ++ (b ++ c).
Proof. induction a as [|x a IH]; cbn; [reflexivity | f_equal; exact IH]. Qed.
Definition layer_name (n : string) (i : nat) : string := (n ++ "/~/linear") ++ "_" ++ str_of_nat i.
Lemma layer_name_inj n i j : layer_name n i = layer_name n j -> i = j.
Proof. intros E. apply numbered_inj in E as [_ E]. lia. Qed.
Definition fresh_from (n : string) (i : nat) (used : list string) : Prop := forall j, (i <= j)%nat -> ~ In (layer_name n j) used.
Lemma layer_unique n i cnt used : fresh_from n i used -> exists cnt', unique_name (Scope (Some (n, "__init__")) cnt used) ("linear_" ++ str_of_nat i) =
  Some (layer_name n i, Scope (Some (n, "__init__")) cnt' (layer_name n i :: used)).
Proof.
  intros F. unfold unique_name, scoped. cbn [sc_module sc_counters sc_used]. change (String.eqb "__init__" "__init__") with true. cbn iota.
  replace (n ++ "/" ++ "~/" ++ "linear_" ++ str_of_nat i) with (layer_name n i) by (unfold layer_name; rewrite append_assoc; reflexivity).
  unfold layer_name at 1, str_of_nat. rewrite explicit_number_canon. fold (str_of_nat i). fold (layer_name n i).
  replace (existsb (String.eqb (layer_name n i)) used) with false; [eauto|]. symmetry. apply not_true_iff_false. intros E. apply existsb_exists in E as (z & I & E).
  apply String.eqb_eq in E. subst z. exact (F i (le_n i) I).
Qed.
Lemma each_run n bias P S rest sizes : forall i cnt used, fresh_from n i used -> exists cnt' used',
  run false (each (fun p => linear (snd p) bias (Some ("linear_" ++ str_of_nat (fst p)))) (combine (seq i (length sizes)) sizes)) (World P S (Scope (Some (n, "__init__")) cnt used :: rest)) =
  Some (map (fun p => linear_call (layer_name n (fst p)) (snd p) bias) (combine (seq i (length sizes)) sizes), World P S (Scope (Some (n, "__init__")) cnt' used' :: rest)).
Proof.
  induction sizes as [|m sizes IH]; intros i cnt used F; [cbn; eauto|]. cbn [length seq combine each map fst snd]. rewrite run_bind, linear_run.
  destruct (layer_unique n i cnt used F) as (cnt1 & ->). rewrite run_bind.
  destruct (IH (Datatypes.S i) cnt1 (layer_name n i :: used)) as (cnt2 & used2 & ->).
  - intros j L [E|I]; [apply layer_name_inj in E; lia | exact (F j ltac:(lia) I)].
  - cbn. eauto.
Qed.
(** What the layers make, in the order in which they make it. *)
Fixpoint mlp_params (n : string) (bias : bool) (t : dtype) (i : nat) (d : Z) (sizes : list Z) : list (key * array) :=
  match sizes with
  | [] => []
  | m :: sizes => ((layer_name n i, "w"), (t, [d; m])) :: (if bias then [((layer_name n i, "b"), (t, [m]))] else []) ++ mlp_params n bias t (S i) m sizes
  end%list.
Definition vacant (n : string) (i : nat) (P : list (key * array)) : Prop := forall j v, (i <= j)%nat -> fetch (layer_name n j, v) P = None.
Lemma call_run q out bias t s d P st sc rest : (forall v, fetch (q, v) P = None) ->
  run false (linear_call q out bias (t, s ++ [d])%list) (World P st (sc :: rest)) =
  Some ((t, s ++ [out])%list, World (P ++ ((q, "w"), (t, [d; out])) :: (if bias then [((q, "b"), (t, [out]))] else []))%list st (sc :: rest)).
Proof.
  intros V. unfold linear_call, within. rewrite rev_snoc, removelast_last. cbn. rewrite V. destruct bias; cbn; [|reflexivity].
  rewrite fetch_app, V. cbn. unfold key_eqb. cbn. rewrite andb_false_r. cbn. rewrite <- app_assoc. reflexivity.
Qed.
Lemma chain_run n bias t s st sc rest sizes : forall i d P, vacant n i P ->
  run false (chain (map (fun p => linear_call (layer_name n (fst p)) (snd p) bias) (combine (seq i (length sizes)) sizes)) (t, s ++ [d])%list) (World P st (sc :: rest)) =
  Some ((t, s ++ [last sizes d])%list, World (P ++ mlp_params n bias t i d sizes)%list st (sc :: rest)).
Proof.
  induction sizes as [|m sizes IH]; intros i d P V; [cbn; rewrite app_nil_r; reflexivity|]. cbn [length seq combine map chain fst snd]. rewrite run_bind.
  rewrite call_run by (intros v; apply V; lia). rewrite IH.
  - rewrite <- app_assoc. replace (last (m :: sizes) d) with (last sizes m); [destruct bias; reflexivity|].
    clear. destruct sizes as [|a l]; [reflexivity|]. change (last (a :: l) m = last (a :: l) d). revert a. induction l as [|b l IH]; intros a; [reflexivity | exact (IH b)].
  - intros j v L. rewrite fetch_app, V by lia. apply fetch_none. intros I. assert (E : layer_name n j = layer_name n i).
    { destruct I as [E|I]; [injection E as -> _; reflexivity|]. destruct bias; [destruct I as [E|[]]; injection E as -> _; reflexivity | destruct I]. }
    apply layer_name_inj in E. lia.
Qed.
(** For every list of sizes: the layers are called "linear_0", "linear_1", ... under "~" of the module; the shapes chain; no state is made. *)
Theorem C100_mlp n sizes bias t s d : valid_identifier n = true -> explicit_number n = None ->
  run false (use (mlp sizes bias (Some n)) (t, s ++ [d])%list) (start [] []) =
    Some ((t, s ++ [last sizes d])%list, World (mlp_params n bias t 0 d sizes) [] [Scope None [(n, 1%N)] [n]]).
Proof.
  intros V X. unfold use, mlp, module, construct. rewrite V. cbn [bind run w_stack start]. unfold unique_name, scoped. cbn [sc_module sc_counters sc_used]. rewrite X.
  change (counter n []) with 0%N. cbn [N.eqb existsb]. rewrite !run_bind. cbn [within run w_params w_state w_stack]. rewrite !run_bind.
  destruct (each_run n bias [] [] [Scope None [(n, 1%N)] [n]] sizes 0 [] []) as (cnt & used & E); [intros j _ []|].
  change (w_params (start [] [])) with (@nil (key * array)). change (w_state (start [] [])) with (@nil (key * (array * array))). change (0 + 1)%N with 1%N. rewrite E. cbn [run w_stack w_params w_state].
  unfold within. cbn [run w_params w_state w_stack]. rewrite run_bind. rewrite chain_run by (intros j v _; reflexivity). reflexivity.
Qed.
Print Assumptions C100_mlp.
Lemma mlp_params_length n bias t d sizes : forall i, length (mlp_params n bias t i d sizes) = ((if bias then 2 else 1) * length sizes)%nat.
Proof. revert d. induction sizes as [|m sizes IH]; intros d i; cbn [mlp_params]; [destruct bias; reflexivity|]. cbn [length]. rewrite app_length, IH. destruct bias; cbn [length]; lia. Qed.
(** The i-th layer's weight, read by its name. *)
Theorem C100_mlp_weights n sizes bias t s d i m : valid_identifier n = true -> explicit_number n = None -> nth_error sizes i = Some m ->
  exists params, init (use (mlp sizes bias (Some n)) (t, s ++ [d])%list) = Some (params, []) /\ length params = ((if bias then 2 else 1) * length sizes)%nat /\
    fetch (n ++ "/~/linear_" ++ str_of_N (N.of_nat i), "w") params = Some (t, [nth i (d :: sizes) 0; m]).
Proof.
  intros V X N. exists (mlp_params n bias t 0 d sizes). split; [unfold init; rewrite (C100_mlp n sizes bias t s d V X); reflexivity|]. split; [apply mlp_params_length|].
  replace (n ++ "/~/linear_" ++ str_of_N (N.of_nat i)) with (layer_name n (0 + i)) by (unfold layer_name; rewrite append_assoc; reflexivity).
  revert N. generalize 0%nat. revert d i. induction sizes as [|m' sizes IH]; intros d i k N; [destruct i; discriminate|]. cbn [mlp_params]. destruct i as [|i].
  - injection N as <-. cbn. rewrite Nat.add_0_r. unfold key_eqb. cbn. rewrite String.eqb_refl. reflexivity.
  - change (nth (S i) (d :: m' :: sizes) 0) with (nth i (m' :: sizes) 0). replace (k + S i)%nat with (S k + i)%nat by lia.
    assert (Q : forall v, key_eqb (layer_name n (S k + i), "w") (layer_name n k, v) = false).
    { intros v. apply key_eqb_neq. intros E. injection E as E _. apply layer_name_inj in E. lia. }
    cbn [fetch]. rewrite Q. rewrite fetch_app. replace (fetch _ (if bias then _ else _)) with (@None array); [exact (IH m' i (S k) N)|].
    destruct bias; [cbn [fetch]; rewrite Q|]; reflexivity.
Qed.
Print Assumptions C100_mlp_weights.
Example C100_mlp_case : init (use (mlp [300; 100; 10] true (Some "net")) (f32 [32; 784])) =
  Some ([(("net/~/linear_0", "w"), f32 [784; 300]); (("net/~/linear_0", "b"), f32 [300]); (("net/~/linear_1", "w"), f32 [300; 100]); (("net/~/linear_1", "b"), f32 [100]);
         (("net/~/linear_2", "w"), f32 [100; 10]); (("net/~/linear_2", "b"), f32 [10])], []).
Proof. vm_compute. reflexivity. Qed.

(** ** [hk.nets.ResNet] *)
Definition net_class (n : Z) : string := "ResNet" ++ str_of_N (Z.to_N n).
Definition resnet_use (n : Z) (c : resnet_config) (v2 : bool) (x : array) : prog array := use (r <- resnet true true (net_class n) c v2 1000 None ;; training r (true, false)) x.
Lemma sizes_computed : forallb (fun p => forallb (fun v2 => match published v2 (fst p) with
  | Some count => match init (resnet_use (fst p) (snd p) v2 (f32 [0; 0; 0; 3])) with Some (params, _) => tree_size params =? count | None => false end
  | None => true end) [false; true]) configs = true.
Proof. vm_compute. reflexivity. Qed.
Lemma config_shape n c : In (n, c) configs -> exists b0 b1 b2 b3 c0 c1 c2 c3 p0, rn_blocks c = [b0; b1; b2; b3] /\ rn_channels c = [c0; c1; c2; c3] /\ rn_projection c = p0 :: true :: true :: true :: [] /\
  Forall (fun b => b <> 0%nat) [b0; b1; b2; b3] /\ (p0 = true \/ c0 = 64).
Proof.
  intros I. cbn [configs In] in I.
  repeat match type of I with _ \/ _ => destruct I as [I|I] | False => destruct I end; injection I as <- <-; do 9 eexists; repeat split; try reflexivity;
    try (repeat constructor; discriminate); first [left; reflexivity | right; reflexivity].
Qed.
(** The parameters that a network makes under its modules' names add up to the published numbers, at every batch and image size. *)
Theorem C100_resnet_sizes n c v2 count b h w : In (n, c) configs -> published v2 n = Some count -> 0 <= b -> 0 <= h -> 0 <= w ->
  exists params state, init (resnet_use n c v2 (f32 [b; h; w; 3])) = Some (params, state) /\ tree_size params = count /\ NoDup (map fst params).
Proof.
  intros I P B H W. pose proof sizes_computed as S. rewrite forallb_forall in S. specialize (S _ I). rewrite forallb_forall in S. specialize (S v2 ltac:(destruct v2; cbn; auto)).
  cbn [fst snd] in S. rewrite P in S. destruct (init (resnet_use n c v2 (f32 [0; 0; 0; 3]))) as [[params state]|] eqn:E; [|discriminate]. apply Z.eqb_eq in S.
  destruct (config_shape n c I) as (b0 & b1 & b2 & b3 & c0 & c1 & c2 & c3 & p0 & E1 & E2 & E3 & NZ & F0).
  assert (L : alike (ends 1000) (resnet_use n c v2 (f32 [0; 0; 0; 3])) (resnet_use n c v2 (f32 [b; h; w; 3]))).
  { apply (good_use (img 3 (0, 0, 0) (b, h, w)) (ends 1000)).
    - eapply makes_bind; [exact (resnet_good true true (net_class n) c v2 1000 None _ _ _ _ _ _ _ _ _ _ E1 E2 E3 NZ F0)|]. intros f G.
      apply makes_plain. exact (G (true, false) eq_refl 3 (0, 0, 0) (b, h, w)).
    - split; [cbn; lia|]. split; [cbn; auto|]. exists Float32. split; reflexivity. }
  exists params, state. split; [exact (C100_same_format _ _ _ _ _ L E)|]. split; [exact S|].
  unfold init in E. destruct (run false _ (start [] [])) as [[y w']|] eqn:R; [|discriminate]. injection E as <- _. exact (proj1 (proj2 (run_grows _ _ _ _ _ R start_ok))).
Qed.
Print Assumptions C100_resnet_sizes.
Example C100_resnet_case : exists params state, init (resnet_use 50 (snd (nth 2 configs (0, ResNetConfig [] true [] []))) false (f32 [2; 7; 9; 3])) = Some (params, state) /\ tree_size params = 25557032.
Proof.
  destruct (C100_resnet_sizes 50 (snd (nth 2 configs (0, ResNetConfig [] true [] []))) false 25557032 2 7 9) as (p & s & E & T & _);
    [cbn; tauto | reflexivity | lia | lia | lia |]. exists p, s. split; [exact E | exact T].
Qed.

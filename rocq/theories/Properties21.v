(** C64: the names of the modules of [EMAParamsTree] and [SNParamsTree]. *)
From stdpp Require Import gmap list strings.
From Coq Require Import String Ascii ZArith Lia.
From Verif Require Import ModelStr ModelRng ModelCore SpecCore Demo ProofsStr ProofsLex ProofsMap ProofsEvolve ProofsRun ProofsModule
  SpecStr ModelParamsTree SpecParamsTree ProofsParamsTree Properties03.
Local Open Scope string_scope.
Local Open Scope list_scope.

Lemma occurrences_none x l : ~ In x l -> occurrences x l = 0.
Proof.
  intros H. unfold occurrences. induction l as [|y l IH]; [reflexivity|].
  rewrite filter_cons_False by (intros ->; apply H; now left). apply IH. intros G. apply H. now right.
Qed.

(** With the marker ["_" u] for "~", in any fresh name scope: one module for every
    parameter that is not ignored, named after the parameter alone. *)
Lemma tree_names u C cls w t (ignored : string -> bool) pfx :
  all_chars ident_char u = true -> (forall y d, String "_" u = y +:+ String d "" -> is_digit d = false) ->
  fresh_scope w -> w_icpt w = [] -> modules_ready w -> name_prefix w pfx ->
  tree_ok t -> (forall k, In k (tree_keys t) -> ignored k = false -> key_ok k /\ not_numbered k) ->
  exists ms w', creates C cls w (requested (mangle (String "_" u)) ignored t) ms w' /\
    forall i k m, List.filter (fun k => negb (ignored k)) (tree_keys t) !! i = Some k -> ms !! i = Some m ->
      module_name w' m = Some (pfx +:+ mangle (String "_" u) k).
Proof.
  intros Hu Hl Hs Hi Hr Hp Ht Hk. unfold requested.
  pose proof (tree_keys_nodup _ Ht) as Hnd. set (ks := List.filter (fun k => negb (ignored k)) (tree_keys t)).
  assert (Hks : forall k, In k ks -> key_ok k /\ not_numbered k).
  { intros k H. apply filter_In in H as [H H']. apply Hk; [assumption|]. now destruct (ignored k). }
  assert (Hnd' : List.NoDup ks) by (now apply List.NoDup_filter). clearbody ks.
  destruct (C12_numbering C cls w (List.map (mangle (String "_" u)) ks) pfx) as (ms & w' & Cr & H); auto.
  { apply List.Forall_forall. intros x Hx. apply in_map_iff in Hx as (k & <- & Hin). destruct (Hks k Hin) as [K1 K2]. split.
    - apply valid_identifier_spec. left. now apply mangle_ident.
    - now apply mangle_not_numbered. }
  exists ms, w'. split; [exact Cr|]. intros i k m Ei Em.
  assert (Ei' : List.map (mangle (String "_" u)) ks !! i = Some (mangle (String "_" u) k)).
  { rewrite list_lookup_fmap. now rewrite Ei. }
  rewrite (H _ _ _ Ei' Em). rewrite occurrences_none; [reflexivity|].
  intros Hin. change (take i (List.map (mangle (String "_" u)) ks)) with (firstn i (List.map (mangle (String "_" u)) ks)) in Hin.
  rewrite firstn_map in Hin. apply in_map_iff in Hin as (k' & E & Hin).
  apply elem_of_list_In in Hin. apply elem_of_take in Hin as (j & Ej & Hj).
  assert (Hin' : In k' ks) by (eapply elem_of_list_In, elem_of_list_lookup_2; exact Ej).
  assert (Hin : In k ks) by (eapply elem_of_list_In, elem_of_list_lookup_2; exact Ei).
  apply mangle_inj in E; [|now apply Hks|now apply Hks]. subst k'.
  apply NoDup_ListNoDup in Hnd'. pose proof (NoDup_lookup _ _ _ _ Hnd' Ej Ei). lia.
Qed.

(** In the name scope of the call of [EMAParamsTree] every parameter gets a module of its
    own, whose name depends on the parameter only, not on the rest of the tree or the order
    of iteration. *)
Theorem C64_ema C w t (ignored : string -> bool) pfx :
  fresh_scope w -> w_icpt w = [] -> modules_ready w -> name_prefix w pfx ->
  tree_ok t -> (forall k, In k (tree_keys t) -> ignored k = false -> key_ok k /\ not_numbered k) ->
  exists ms w', creates C "ExponentialMovingAverage" w (requested ema_name ignored t) ms w' /\
    forall i k m, List.filter (fun k => negb (ignored k)) (tree_keys t) !! i = Some k -> ms !! i = Some m ->
      module_name w' m = Some (pfx +:+ ema_name k).
Proof.
  apply tree_names; [reflexivity|]. intros y d E.
  assert (E' : "_tilde" +:+ String "_" "" = y +:+ String d "") by exact E.
  clear E. assert (G : forall a b x y, a +:+ String x "" = b +:+ String y "" -> x = y).
  { clear. induction a as [|c a IH]; intros [|c' b] x y E; cbn in E.
    - now injection E.
    - injection E as _ E. destruct b; discriminate.
    - injection E as _ E. destruct a; discriminate.
    - injection E as _ E. eauto. }
  apply G in E'. now subst d.
Qed.
Print Assumptions C64_ema.
Theorem C64_sn C w t (ignored : string -> bool) pfx :
  fresh_scope w -> w_icpt w = [] -> modules_ready w -> name_prefix w pfx ->
  tree_ok t -> (forall k, In k (tree_keys t) -> ignored k = false -> key_ok k /\ not_numbered k) ->
  exists ms w', creates C "SpectralNorm" w (requested sn_name ignored t) ms w' /\
    forall i k m, List.filter (fun k => negb (ignored k)) (tree_keys t) !! i = Some k -> ms !! i = Some m ->
      module_name w' m = Some (pfx +:+ sn_name k).
Proof.
  apply tree_names; [reflexivity|]. intros y d E.
  assert (E' : "_tild" +:+ String "e" "" = y +:+ String d "") by exact E.
  clear E. assert (G : forall a b x y, a +:+ String x "" = b +:+ String y "" -> x = y).
  { clear. induction a as [|c a IH]; intros [|c' b] x y E; cbn in E.
    - now injection E.
    - injection E as _ E. destruct b; discriminate.
    - injection E as _ E. destruct a; discriminate.
    - injection E as _ E. eauto. }
  apply G in E'. now subst d.
Qed.
Print Assumptions C64_sn.

(** Different parameters never share a name. *)
Theorem C64_injective k k' : key_ok k -> key_ok k' -> k <> k' -> ema_name k <> ema_name k' /\ sn_name k <> sn_name k'.
Proof. intros H H' N. split; intros E; apply N; eapply mangle_inj; eassumption. Qed.
Print Assumptions C64_injective.

(** The program: make the modules and return their names. *)
Fixpoint names_of (ms : list string) (acc : list val) : prog :=
  match ms with
  | [] => Ret (VTup acc)
  | x :: ms => Bind (plain_module "ExponentialMovingAverage" x) (fun v =>
      match v with VMod m => Bind (ModuleName m) (fun s => names_of ms (acc ++ [s])) | _ => Ret VNone end)
  end.
Definition ema_names (t : params_tree) : res val * world :=
  run demo 60 (names_of (requested ema_name (fun _ => false) t) []) (init_world None).

Example C64_case : result (ema_names [("mlp/~/linear_0", ["w"; "b"]); ("mlp/~encode/conv", ["w"])])
  = Some (VTup [VStr "mlp___tilde___linear_0__w"; VStr "mlp___tilde___linear_0__b"; VStr "mlp___tilde_encode__conv__w"]).
Proof. vm_compute. reflexivity. Qed.

(** The restrictions are needed. Two modules of a network, "a/b" and "a__b": which of them gets
    the number depends on the order of iteration, and [jax.tree_map] changes the order of a
    [FlatMapping]: an unflattened one lists its keys in sorted order. *)
Theorem C64_collision_refuted :
  result (ema_names [("a__b", ["w"]); ("a/b", ["w"])]) = Some (VTup [VStr "a__b__w"; VStr "a__b__w_1"]) /\
  result (ema_names [("a/b", ["w"]); ("a__b", ["w"])]) = Some (VTup [VStr "a__b__w"; VStr "a__b__w_1"]).
Proof. split; vm_compute; reflexivity. Qed.
Print Assumptions C64_collision_refuted.
(** Numbered parameter names: a parameter "w" after "w_1" is called something else than before it, *)
Theorem C64_order_refuted :
  result (ema_names [("m", ["w"; "w_1"])]) = Some (VTup [VStr "m__w"; VStr "m__w_1"]) /\
  result (ema_names [("m", ["w_1"; "w"])]) = Some (VTup [VStr "m__w_1"; VStr "m__w_2"]).
Proof. split; vm_compute; reflexivity. Qed.
Print Assumptions C64_order_refuted.
(** and a third one makes the call fail. *)
Theorem C64_numbered_refuted :
  error (ema_names [("m", ["w_1"; "w"; "w_2"])]) = Some (ENotUnique "m__w_2").
Proof. vm_compute. reflexivity. Qed.
Print Assumptions C64_numbered_refuted.
(** Parameter names need not be identifiers, module names do. *)
Theorem C64_invalid_refuted :
  error (ema_names [("m", ["log-scale"])]) = Some (EBadName "m__log-scale") /\
  exists v, result (run demo 30 (GetParam "log-scale" [] "f" (Some (VInt 0))) (init_world None)) = Some v.
Proof. split; [vm_compute; reflexivity|]. eexists. vm_compute. reflexivity. Qed.
Print Assumptions C64_invalid_refuted.

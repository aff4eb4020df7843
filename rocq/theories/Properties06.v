(** C33, C34, C35, C36: parameter dictionaries. *)
From stdpp Require Import base list strings option.
From Coq Require Import String ZArith Lia.
From Verif Require Import ModelDict ModelTree ModelHeap ProofsDict ProofsTree ProofsHeap.
Local Open Scope string_scope.
Local Open Scope list_scope.

(** ** C33: immutable and mutable copies *)

(** Converting to immutable and back gives an equal mapping, for any nesting of any
    mappings. *)
Theorem C33_round_trip p i : items_of p = Some i -> wf_pt p -> py_eq (to_mutable (to_immutable p)) p = true.
Proof.
  intros E W. assert (Hw : wf_items i) by (now apply (wf_of p)). apply py_eq_same; [|assumption|].
  - destruct p; cbn in E; try discriminate; injection E as ->; cbn [to_immutable to_mutable]; apply wf_dict_pt.
    + apply wf_items_map; [apply thaw_wf|]. now apply wf_items_map; [apply freeze_wf|].
    + apply wf_items_map; [apply thaw_wf|]. now apply wf_items_map; [apply freeze_wf|].
    + now apply wf_items_map; [apply thaw_wf|].
  - destruct p; cbn in E; try discriminate; injection E as ->; cbn [to_immutable to_mutable].
    + apply (map_same_at (fun p => thaw (freeze p)) _ (PDict i) i); auto.
      * apply List.Forall_forall. intros. now apply thaw_freeze_same.
      * cbn [items_of]. f_equal. unfold mapv. rewrite map_map. reflexivity.
    + apply (map_same_at (fun p => thaw (freeze p)) _ (PODict i) i); auto.
      * apply List.Forall_forall. intros. now apply thaw_freeze_same.
      * cbn [items_of]. f_equal. unfold mapv. rewrite map_map. reflexivity.
    + apply (map_same_at thaw _ (PFlat i) i); auto. apply List.Forall_forall. intros. now apply thaw_same.
Qed.
Print Assumptions C33_round_trip.

Definition nested : pt := PDict [("b", PDict [("w", PLeaf 1); ("a", PLeaf 2)]); ("a", PODict [("x", PLeaf 3)]); ("c", PFlat [("y", PDict [])])].
Example nested_round_trip : to_mutable (to_immutable nested) =
  PDict [("b", PDict [("w", PLeaf 1); ("a", PLeaf 2)]); ("a", PODict [("x", PLeaf 3)]); ("c", PDict [("y", PDict [])])]
  /\ py_eq (to_mutable (to_immutable nested)) nested = true.
Proof. split; vm_compute; reflexivity. Qed.

(** The conversion on the heap: it succeeds on everything readable, changes no existing
    object and the result has the contents given by [to_immutable]. *)
Theorem C33_immutable_contents n h l t : read n h (HRef l) = Some t ->
  exists h' l', imm n h l = Some (h', l') /\ h `prefix_of` h' /\ read n h' (HRef l') = Some (to_immutable t).
Proof. apply imm_spec. Qed.
Print Assumptions C33_immutable_contents.
Theorem C33_mutable_contents n h l t : read n h (HRef l) = Some t ->
  exists h' l', mut n h l = Some (h', l') /\ h `prefix_of` h' /\ read n h' (HRef l') = Some (to_mutable t).
Proof. apply mut_reads_spec. Qed.
Print Assumptions C33_mutable_contents.

(** Later mutation of anything that can be mutated does not change the immutable copy
    of a nested plain dictionary (or of an ordered dictionary with plain contents). *)
Theorem C33_isolated n h l t i h' l' h2 : read n h (HRef l) = Some t ->
  items_of t = Some i -> plain (PDict i) -> (forall j, t = PFlat j -> all_flat t) ->
  imm n h l = Some (h', l') -> later h' h2 ->
  read n h2 (HRef l') = Some (to_immutable t).
Proof.
  intros HR Hi HP HF HI HL. destruct (imm_spec n h l t HR) as (h1 & l1 & E & _ & R). rewrite HI in E. injection E as <- <-.
  refine (read_stable n h' h2 _ _ HL _ R). apply plain_freeze in HP. cbn [freeze] in HP.
  destruct t; cbn in Hi; try discriminate; injection Hi as ->; cbn [to_immutable]; auto. exact (HF i eq_refl).
Qed.
Print Assumptions C33_isolated.

(** The mutable copy of a completely immutable structure shares no object with what was
    there before, so mutating the copy cannot affect it. *)
Theorem C33_mutable_fresh n h l t h' l' j : read n h (HRef l) = Some t -> all_flat t ->
  mut n h l = Some (h', l') -> reach h' l' j -> List.length h <= j.
Proof.
  intros HR HF HM Hj. destruct (mut_spec n (List.length h) h l t HR HF (le_n _)) as (h1 & l1 & E & _ & C1 & L1).
  { intros k o Hk E. apply lookup_lt_Some in E. unfold Datatypes.length in *. lia. }
  rewrite HM in E. injection E as <- <-. exact (reach_closed _ _ _ _ C1 L1 Hj).
Qed.
Print Assumptions C33_mutable_fresh.

Definition h0 : heap := [Obj KDict [("w", HLeaf 1)]; Obj KOther [("v", HLeaf 2)]; Obj KDict [("a", HRef 0); ("b", HRef 1)];
                         Obj KFlat [("a", HRef 0)]; Obj KDict [("a", HRef 0)]].
Example h0_copy : exists h' l', imm 5 h0 4 = Some (h', l') /\ read 5 h' (HRef l') = Some (PFlat [("a", PFlat [("w", PLeaf 1)])])
  /\ read 5 (<[0 := Obj KDict []]> h') (HRef l') = Some (PFlat [("a", PFlat [("w", PLeaf 1)])]).
Proof. do 2 eexists. split; [vm_compute; reflexivity|]. split; vm_compute; reflexivity. Qed.

(** Nested mappings that are not plain dictionaries stay aliased: mutating one changes
    the contents of the "immutable" copy, behind the leaves it computed when built. *)
Theorem C33_nested_mapping_aliased_refuted :
  ~ (forall n h l t h' l' h2, read n h (HRef l) = Some t -> imm n h l = Some (h', l') -> later h' h2 ->
     read n h2 (HRef l') = Some (to_immutable t)).
Proof.
  intros H. specialize (H 5 h0 2 (PDict [("a", PDict [("w", PLeaf 1)]); ("b", PODict [("v", PLeaf 2)])])
    (h0 ++ [Obj KFlat [("w", HLeaf 1)]; Obj KFlat [("a", HRef 5); ("b", HRef 1)]]) 6
    (<[1 := Obj KOther []]> (h0 ++ [Obj KFlat [("w", HLeaf 1)]; Obj KFlat [("a", HRef 5); ("b", HRef 1)]])) eq_refl eq_refl).
  assert (HL : later (h0 ++ [Obj KFlat [("w", HLeaf 1)]; Obj KFlat [("a", HRef 5); ("b", HRef 1)]])
    (<[1 := Obj KOther []]> (h0 ++ [Obj KFlat [("w", HLeaf 1)]; Obj KFlat [("a", HRef 5); ("b", HRef 1)]]))).
  { intros j items E. destruct (decide (j = 1)) as [->|Hj]; [discriminate E|]. rewrite list_lookup_insert_ne by auto. exact E. }
  specialize (H HL). vm_compute in H. discriminate H.
Qed.
Print Assumptions C33_nested_mapping_aliased_refuted.

(** [to_mutable_dict] does not copy nested plain dictionaries: its result shares them. *)
Theorem C33_mutable_copy_shared_refuted :
  ~ (forall n h l t h' l' j, read n h (HRef l) = Some t -> mut n h l = Some (h', l') -> reach h' l' j -> List.length h <= j).
Proof.
  intros H. specialize (H 5 h0 3 (PFlat [("a", PDict [("w", PLeaf 1)])]) (h0 ++ [Obj KDict [("a", HRef 0)]]) 5 0 eq_refl eq_refl).
  assert (HR : reach (h0 ++ [Obj KDict [("a", HRef 0)]]) 5 0).
  { eapply RE_step; [apply RE_self|reflexivity|]. left. reflexivity. }
  specialize (H HR). cbn in H. lia.
Qed.
Print Assumptions C33_mutable_copy_shared_refuted.

(** ** C34: FlatMapping *)

(** Flattening and unflattening gives an equal tree, with nothing left over. *)
Theorem C34_lossless p rest : wf_pt p ->
  exists q, unflatten (struct p) (List.map PLeaf (leaves p) ++ rest) = Some (q, rest) /\ py_eq q p = true.
Proof.
  intros W. exists (canon PLeaf p). split; [apply unflatten_struct|]. apply py_eq_same; [now apply canon_wf|assumption|]. now apply canon_same.
Qed.
Print Assumptions C34_lossless.

(** Mapping a function over the leaves replaces each leaf where it is. *)
Theorem C34_tree_map f p : wf_pt p ->
  exists q, tree_map (fun x => PLeaf (f x)) p = Some q /\ py_eq q (rep f p) = true.
Proof.
  intros W. exists (canon (fun x => PLeaf (f x)) p). split.
  - unfold tree_map. pose proof (unflatten_struct (fun x => PLeaf (f x)) p []) as H. rewrite app_nil_r in H. now rewrite H.
  - rewrite canon_rep. apply py_eq_same; [now apply canon_wf, rep_wf|now apply rep_wf|]. now apply canon_same, rep_wf.
Qed.
Print Assumptions C34_tree_map.

(** [==] holds exactly for the same contents, whatever kinds of mappings hold them. *)
Theorem C34_equality a b : wf_pt a -> wf_pt b -> (py_eq a b = true <-> same a b).
Proof. apply py_eq_same. Qed.
Print Assumptions C34_equality.

(** Equal mappings have equal hash inputs (data_structures.py:184-185) when all levels
    are [FlatMapping]s, as [to_immutable_dict] makes them. *)
Theorem C34_hash a b : all_flat a -> all_flat b -> wf_pt a -> wf_pt b -> py_eq a b = true ->
  struct a = struct b /\ leaves a = leaves b.
Proof. intros Fa Fb Wa Wb H. apply py_eq_same in H; [|assumption..]. now apply flat_same_hash. Qed.
Print Assumptions C34_hash.

Definition fm (a b : pt) : pt := PFlat [("b", a); ("a", b)].
Example fm_hash : py_eq (fm (PLeaf 1) (PFlat [("x", PLeaf 2)])) (PFlat [("a", PFlat [("x", PLeaf 2)]); ("b", PLeaf 1)]) = true
  /\ leaves (fm (PLeaf 1) (PFlat [("x", PLeaf 2)])) = [2%Z; 1%Z]
  /\ py_eq (fm (PLeaf 1) PNone) (fm (PLeaf 1) (PLeaf 0)) = false
  /\ tree_map (fun x => PLeaf (x + 1)) nested = Some (PDict [("a", PODict [("x", PLeaf 4)]); ("b", PDict [("a", PLeaf 3); ("w", PLeaf 2)]); ("c", PFlat [("y", PDict [])])]).
Proof. repeat split; vm_compute; reflexivity. Qed.

(** In general equal [FlatMapping]s can have different hash inputs: the structure
    remembers the kinds of the nested mappings, [==] ignores them. *)
Theorem C34_hash_refuted :
  ~ (forall i j, wf_pt (PFlat i) -> wf_pt (PFlat j) -> py_eq (PFlat i) (PFlat j) = true -> struct (PFlat i) = struct (PFlat j)).
Proof.
  intros H. specialize (H [("a", PDict [("b", PLeaf 1)])] [("a", PFlat [("b", PLeaf 1)])]).
  assert (N : forall s : string, NoDup [s]) by (intros; apply NoDup_singleton).
  discriminate H; cbn; auto 10.
Qed.
Print Assumptions C34_hash_refuted.

(** ** C35: partition *)
Section Dicts.
Context {V : Type}.
Implicit Types s : structure V.

Lemma partition_puts p s : partition p s =
  (puts (fun m n v => if p m n v then Some v else None) (flat s) [], puts (fun m n v => if p m n v then None else Some v) (flat s) []).
Proof.
  unfold partition. rewrite each_flat. fold (flat s). unfold puts. generalize (@nil (string * pydict V)) at 1 3. generalize (@nil (string * pydict V)).
  induction (flat s) as [|[[m n] v] l IH]; intros o1 o2; [reflexivity|]. cbn [fold_left fst snd]. destruct (p m n v); apply IH.
Qed.
Lemma filter_puts p s : filter_ p s = puts (fun m n v => if p m n v then Some v else None) (flat s) [].
Proof.
  unfold filter_. rewrite each_flat. fold (flat s). unfold puts. generalize (@nil (string * pydict V)).
  induction (flat s) as [|[[m n] v] l IH]; intros o1; [reflexivity|]. cbn [fold_left fst snd]. destruct (p m n v); apply IH.
Qed.
Lemma map_puts {W} (f : string -> string -> V -> W) s : map_ f s = puts (fun m n v => Some (f m n v)) (flat s) [].
Proof. unfold map_. rewrite each_flat. reflexivity. Qed.
Lemma put_puts s out : each put s out = puts (fun m n v => Some v) (flat s) out.
Proof. now rewrite each_flat. Qed.
Lemma entry_nil {W} m n : entry ([] : structure W) m n = None.
Proof. reflexivity. Qed.
Lemma wf_nil {W} : wf_structure ([] : structure W).
Proof. split; constructor. Qed.

(** Every entry goes to exactly one of the outputs, the one the predicate chooses, and
    the outputs contain nothing else. *)
Theorem C35_partition p s yes no m n : wf_structure s -> partition p s = (yes, no) ->
  entry yes m n = (match entry s m n with Some v => if p m n v then Some v else None | None => None end) /\
  entry no m n = (match entry s m n with Some v => if p m n v then None else Some v | None => None end).
Proof.
  intros W. rewrite partition_puts. intros [= <- <-]. rewrite !puts_entry, !pick_flat, entry_nil by assumption.
  destruct (entry s m n) as [v|]; [destruct (p m n v)|]; auto.
Qed.
(** Modules appear in an output exactly if one of their entries does. *)
Theorem C35_partition_modules p s yes no m : wf_structure s -> partition p s = (yes, no) ->
  (is_Some (d_get m yes) <-> exists n v, entry s m n = Some v /\ p m n v = true) /\
  (is_Some (d_get m no) <-> exists n v, entry s m n = Some v /\ p m n v = false) /\
  wf_structure yes /\ wf_structure no.
Proof.
  intros W. rewrite partition_puts. intros [= <- <-]. rewrite !puts_module.
  assert (HN : forall P, is_Some (d_get m ([] : structure V)) \/ P <-> P) by (intros P; split; [intros [[? E]|]; [discriminate E|assumption]|auto]).
  rewrite !HN. split; [|split; [|split; apply puts_wf, wf_nil]].
  - split; intros (n & v & H1 & H2); exists n, v.
    + apply flat_entry in H1; [|assumption]. split; [assumption|]. destruct (p m n v); [reflexivity|now destruct H2].
    + split; [now apply flat_entry|]. rewrite H2. eauto.
  - split; intros (n & v & H1 & H2); exists n, v.
    + apply flat_entry in H1; [|assumption]. split; [assumption|]. destruct (p m n v); [now destruct H2|reflexivity].
    + split; [now apply flat_entry|]. rewrite H2. eauto.
Qed.

Lemma merge_entry_step ss : forall out m n, Forall wf_structure ss ->
  entry (fold_left (fun out s => each put s out) ss out) m n =
  fold_left (fun acc s => match entry s m n with Some v => Some v | None => acc end) ss (entry out m n).
Proof.
  induction ss as [|s ss IH]; intros out m n HF; [reflexivity|]. inversion HF; subst. cbn [fold_left]. rewrite IH by assumption.
  f_equal. rewrite put_puts, puts_entry, pick_flat by assumption. now destruct (entry s m n).
Qed.
Lemma merge_module_step ss : forall out m, is_Some (d_get m (fold_left (fun out s => each put s out) ss out)) <->
  is_Some (d_get m out) \/ exists s n v, In s ss /\ In ((m, n), v) (flat s).
Proof.
  induction ss as [|s ss IH]; intros out m; [cbn; naive_solver|]. cbn [fold_left]. rewrite IH, put_puts, puts_module. cbn [In]. naive_solver.
Qed.

(** Merging the two parts, in either order, gives the entries of the input, in exactly
    the modules of the input that have entries. *)
Theorem C35_merge_partition p s yes no merged m n : wf_structure s -> partition p s = (yes, no) ->
  merged = merge_ [yes; no] \/ merged = merge_ [no; yes] ->
  entry merged m n = entry s m n /\ (is_Some (d_get m merged) <-> exists n v, entry s m n = Some v).
Proof.
  intros W HP HM. destruct (C35_partition_modules p s yes no m W HP) as (M1 & M2 & W1 & W2).
  assert (HE : forall n, entry merged m n = entry s m n).
  { intros n0. destruct (C35_partition p s yes no m n0 W HP) as [E1 E2].
    destruct HM as [-> | ->]; unfold merge_; rewrite merge_entry_step by (repeat (apply List.Forall_cons; [assumption|]); apply List.Forall_nil);
      cbn [fold_left]; rewrite E1, E2, entry_nil; destruct (entry s m n0) as [v|]; try destruct (p m n0 v); reflexivity. }
  split; [apply HE|]. split.
  - intros HS. assert (exists s0 n v, (s0 = yes \/ s0 = no) /\ entry s0 m n = Some v) as (s0 & n0 & v & Hs & E).
    { destruct HM as [-> | ->]; unfold merge_ in HS; apply merge_module_step in HS as [[? HS]|(s0 & n0 & v & Hi & Hf)]; try discriminate HS.
      - exists s0, n0, v. destruct Hi as [<-|[<-|[]]]; (split; [auto|]); now apply flat_entry in Hf.
      - exists s0, n0, v. destruct Hi as [<-|[<-|[]]]; (split; [auto|]); now apply flat_entry in Hf. }
    exists n0. destruct (C35_partition p s yes no m n0 W HP) as [E1 E2].
    destruct (entry s m n0) as [v0|] eqn:E0; [eauto|]. destruct Hs as [-> | ->]; congruence.
  - intros (n0 & v & E). rewrite <- HE in E. unfold entry in E. destruct (d_get m merged); [eauto|discriminate].
Qed.

(** ** C36: filter, map, merge *)
Theorem C36_filter p s m n : wf_structure s ->
  entry (filter_ p s) m n = match entry s m n with Some v => if p m n v then Some v else None | None => None end.
Proof.
  intros W. rewrite filter_puts, puts_entry, pick_flat, entry_nil by assumption. destruct (entry s m n) as [v|]; [destruct (p m n v)|]; auto.
Qed.
Theorem C36_map {W} (f : string -> string -> V -> W) s m n : wf_structure s ->
  entry (map_ f s) m n = option_map (f m n) (entry s m n).
Proof.
  intros Hw. rewrite map_puts, puts_entry, pick_flat, entry_nil by assumption. now destruct (entry s m n).
Qed.
(** The value of a path is that of the last structure that has it. *)
Theorem C36_merge ss m n : Forall wf_structure ss ->
  (forall v, entry (merge_ ss) m n = Some v <->
     exists l s r, ss = l ++ s :: r /\ entry s m n = Some v /\ Forall (fun s => entry s m n = None) r) /\
  (entry (merge_ ss) m n = None <-> Forall (fun s => entry s m n = None) ss).
Proof.
  intros HF. unfold merge_. rewrite merge_entry_step by assumption. rewrite entry_nil. clear HF.
  induction ss as [|s ss [IH1 IH2]] using rev_ind.
  - cbn. split; [|split; constructor]. intros v. split; [discriminate|]. intros ([|] & ? & ? & H & _); discriminate H.
  - rewrite fold_left_app. cbn [fold_left]. destruct (entry s m n) as [v0|] eqn:E.
    + split.
      * intros v. split.
        -- intros [= <-]. exists ss, s, []. repeat split; [assumption|constructor].
        -- intros (l & s0 & r & Es & E0 & Hr). destruct r as [|r0 r] using rev_ind.
           ++ apply app_inj_tail in Es as [-> ->]. congruence.
           ++ clear IHr. rewrite app_comm_cons, app_assoc in Es. apply app_inj_tail in Es as [_ ->].
              apply Forall_app in Hr as [_ Hr]. inversion Hr; subst. congruence.
      * split; [discriminate|]. intros H. apply Forall_app in H as [_ H]. inversion H; subst. congruence.
    + split.
      * intros v. rewrite IH1. split.
        -- intros (l & s0 & r & -> & E0 & Hr). exists l, s0, (r ++ [s]). split; [now rewrite <- app_assoc|]. split; [assumption|].
           apply Forall_app. auto.
        -- intros (l & s0 & r & Es & E0 & Hr). destruct r as [|r0 r] using rev_ind.
           ++ apply app_inj_tail in Es as [_ ->]. congruence.
           ++ clear IHr. rewrite app_comm_cons, app_assoc in Es. apply app_inj_tail in Es as [-> ->].
              apply Forall_app in Hr as [Hr _]. eauto 10.
      * rewrite IH2, Forall_app. split; [auto|tauto].
Qed.
(** A module is in the merged structure exactly if an input has an entry for it. *)
Theorem C36_merge_modules ss m : Forall wf_structure ss ->
  (is_Some (d_get m (merge_ ss)) <-> exists s n v, In s ss /\ entry s m n = Some v).
Proof.
  intros HF. unfold merge_. rewrite merge_module_step. split.
  - intros [[? E]|(s & n & v & Hi & H)]; [discriminate E|]. exists s, n, v. split; [assumption|]. apply flat_entry; [|assumption].
    rewrite List.Forall_forall in HF. auto.
  - intros (s & n & v & Hi & H). right. exists s, n, v. split; [assumption|]. apply flat_entry; [|assumption]. rewrite List.Forall_forall in HF. auto.
Qed.
End Dicts.
Print Assumptions C35_partition.
Print Assumptions C35_partition_modules.
Print Assumptions C35_merge_partition.
Print Assumptions C36_filter.
Print Assumptions C36_map.
Print Assumptions C36_merge.
Print Assumptions C36_merge_modules.

Definition weights : structure Z := [("lin", [("w", 1%Z); ("b", 2%Z)]); ("none", []); ("out", [("w", 3%Z)])].
Example weights_split : partition (fun _ n _ => String.eqb n "w") weights = ([("lin", [("w", 1%Z)]); ("out", [("w", 3%Z)])], [("lin", [("b", 2%Z)])])
  /\ merge_ [weights; [("lin", [("w", 7%Z)])]] = [("lin", [("w", 7%Z); ("b", 2%Z)]); ("out", [("w", 3%Z)])]
  /\ map_ (fun _ n v => (n, v)) weights = [("lin", [("w", ("w", 1%Z)); ("b", ("b", 2%Z))]); ("out", [("w", ("w", 3%Z))])]
  /\ filter_ (fun m _ v => String.eqb m "lin" && Z.eqb v 2) weights = [("lin", [("b", 2%Z)])].
Proof. repeat split; vm_compute; reflexivity. Qed.

(** Modules without entries are lost. *)
Theorem C35_empty_modules_refuted :
  ~ (forall (p : string -> string -> Z -> bool) s yes no m, wf_structure s -> partition p s = (yes, no) ->
     is_Some (d_get m s) -> is_Some (d_get m (merge_ [yes; no]))).
Proof.
  intros H. specialize (H (fun _ _ _ => true) [("none", [])] [] [] "none").
  assert (W : wf_structure ([("none", [])] : structure Z)) by (split; [apply NoDup_singleton|repeat constructor]).
  destruct (H W eq_refl (ex_intro _ [] eq_refl)) as [? E]. discriminate E.
Qed.
Print Assumptions C35_empty_modules_refuted.
Theorem C36_map_empty_modules_refuted :
  ~ (forall (f : string -> string -> Z -> Z) s m, wf_structure s -> is_Some (d_get m s) -> is_Some (d_get m (map_ f s))).
Proof.
  intros H. specialize (H (fun _ _ v => v) [("none", [])] "none").
  assert (W : wf_structure ([("none", [])] : structure Z)) by (split; [apply NoDup_singleton|repeat constructor]).
  destruct (H W (ex_intro _ [] eq_refl)) as [? E]. discriminate E.
Qed.
Print Assumptions C36_map_empty_modules_refuted.

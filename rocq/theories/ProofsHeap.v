(** Lemmas about ModelHeap.v. *)
From stdpp Require Import base list strings option.
From Coq Require Import String ZArith Lia.
From Verif Require Import ModelDict ModelTree ModelHeap ProofsDict ProofsTree.
Local Open Scope string_scope.
Local Open Scope list_scope.

Definition read_items (n : nat) (h : heap) := fix go (i : list (string * hval)) := match i with
                     | [] => Some []
                     | (k, v) :: i => match read n h v, go i with
                                      | Some p, Some ps => Some ((k, p) :: ps)
                                      | _, _ => None
                                      end
                     end.
Lemma read_ref n h l : read (S n) h (HRef l) = match h !! l with None => None | Some o => fmap (M:=option) (mk (o_kind o)) (read_items n h (o_items o)) end.
Proof. reflexivity. Qed.
Lemma read_leaf n h x : read n h (HLeaf x) = Some (PLeaf x).
Proof. now destruct n. Qed.

Definition imm_val (n : nat) (h : heap) (v : hval) : option (heap * hval) :=
  match v with
  | HRef l' => match h !! l' with
               | Some (Obj KDict _) => match imm n h l' with Some (h, l2) => Some (h, HRef l2) | None => None end
               | Some _ => Some (h, v)
               | None => None
               end
  | HLeaf _ => Some (h, v)
  end.
Definition imm_items (n : nat) := fix go (h : heap) (i : list (string * hval)) : option (heap * list (string * hval)) := match i with
   | [] => Some (h, [])
   | (k, v) :: i => match imm_val n h v with
                    | Some (h, v) => match go h i with Some (h, i) => Some (h, (k, v) :: i) | None => None end
                    | None => None
                    end
   end.
Lemma imm_eq n h l : imm (S n) h l = match h !! l with
  | None => None
  | Some (Obj KFlat _) => Some (h, l)
  | Some (Obj _ items) => match imm_items n h items with Some (h', items') => Some (h' ++ [Obj KFlat items'], List.length h') | None => None end
  end.
Proof. reflexivity. Qed.
Definition mut_val (n : nat) (h : heap) (v : hval) : option (heap * hval) :=
  match v with
  | HRef l' => match h !! l' with
               | Some (Obj KFlat _) => match mut n h l' with Some (h, l2) => Some (h, HRef l2) | None => None end
               | Some _ => Some (h, v)
               | None => None
               end
  | HLeaf _ => Some (h, v)
  end.
Definition mut_items (n : nat) := fix go (h : heap) (i : list (string * hval)) : option (heap * list (string * hval)) := match i with
   | [] => Some (h, [])
   | (k, v) :: i => match mut_val n h v with
                    | Some (h, v) => match go h i with Some (h, i) => Some (h, (k, v) :: i) | None => None end
                    | None => None
                    end
   end.
Lemma mut_eq n h l : mut (S n) h l = match h !! l with
  | None => None
  | Some (Obj _ items) => match mut_items n h items with Some (h', items') => Some (h' ++ [Obj KDict items'], List.length h') | None => None end
  end.
Proof. reflexivity. Qed.

(** Reading a prefix-extended heap. *)
Lemma read_ext n : forall h h2 v p, h `prefix_of` h2 -> read n h v = Some p -> read n h2 v = Some p.
Proof.
  induction n as [|n IH]; intros h h2 v p Hp; destruct v as [x|l]; try (rewrite !read_leaf; auto); [discriminate|].
  rewrite !read_ref. destruct (h !! l) as [o|] eqn:E; [|discriminate]. rewrite (prefix_lookup h h2 l o E Hp).
  destruct (read_items n h (o_items o)) as [ps|] eqn:Ei; [|discriminate].
  enough (read_items n h2 (o_items o) = Some ps) as -> by auto.
  revert ps Ei. induction (o_items o) as [|[k v] items IHi]; intros ps; cbn; [auto|].
  destruct (read n h v) as [q|] eqn:Eq; [|discriminate]. rewrite (IH _ _ _ _ Hp Eq).
  fold (read_items n h). fold (read_items n h2). destruct (read_items n h items) as [qs|]; [|discriminate]. now rewrite (IHi qs eq_refl).
Qed.
Lemma read_items_ext n h h2 i ps : h `prefix_of` h2 -> read_items n h i = Some ps -> read_items n h2 i = Some ps.
Proof.
  intros Hp. revert ps. induction i as [|[k v] i IH]; intros ps; cbn; [auto|].
  destruct (read n h v) as [q|] eqn:Eq; [|discriminate]. rewrite (read_ext _ _ _ _ _ Hp Eq).
  destruct (read_items n h i) as [qs|]; [|discriminate]. now rewrite (IH qs eq_refl).
Qed.

Definition imm_ok (n : nat) : Prop := forall h l t, read n h (HRef l) = Some t ->
  exists h' l', imm n h l = Some (h', l') /\ h `prefix_of` h' /\ read n h' (HRef l') = Some (to_immutable t).
Lemma imm_val_spec n : imm_ok n -> forall h v p, read n h v = Some p ->
  exists h' v', imm_val n h v = Some (h', v') /\ h `prefix_of` h' /\ read n h' v' = Some (freeze p).
Proof.
  intros IH h v p H. destruct v as [x|l]; cbn.
  - rewrite read_leaf in H. injection H as <-. exists h, (HLeaf x). repeat split; [reflexivity|now rewrite read_leaf].
  - pose proof H as H0. destruct n as [|n]; [discriminate|]. rewrite read_ref in H. destruct (h !! l) as [[kd items]|] eqn:E; [|discriminate].
    cbn [o_kind o_items] in H. destruct (read_items n h items) as [ps|] eqn:Ei; [|discriminate]. injection H as <-.
    destruct kd.
    + destruct (IH _ _ _ H0) as (h' & l' & E1 & E2 & E3). rewrite E1. exists h', (HRef l'). auto.
    + exists h, (HRef l). split; [reflexivity|]. split; [reflexivity|]. rewrite H0. reflexivity.
    + exists h, (HRef l). split; [reflexivity|]. split; [reflexivity|]. rewrite H0. reflexivity.
Qed.
Lemma imm_items_spec n : imm_ok n -> forall i h ps, read_items n h i = Some ps ->
  exists h' i', imm_items n h i = Some (h', i') /\ h `prefix_of` h' /\ read_items n h' i' = Some (mapv freeze ps).
Proof.
  intros IH. induction i as [|[k v] i IHi]; intros h ps H.
  - injection H as <-. exists h, []. auto.
  - cbn in H. destruct (read n h v) as [p|] eqn:Ep; [|discriminate]. destruct (read_items n h i) as [qs|] eqn:Eq; [|discriminate]. injection H as <-.
    destruct (imm_val_spec n IH h v p Ep) as (h1 & v1 & E1 & P1 & R1).
    destruct (IHi h1 qs (read_items_ext _ _ _ _ _ P1 Eq)) as (h2 & i2 & E2 & P2 & R2).
    exists h2, ((k, v1) :: i2). cbn. rewrite E1. fold (imm_items n). rewrite E2. split; [reflexivity|]. split; [now transitivity h1|].
    rewrite (read_ext _ _ _ _ _ P2 R1). fold (read_items n h2). now rewrite R2.
Qed.
Lemma imm_spec n : imm_ok n.
Proof.
  induction n as [|n IH]; intros h l t H; [discriminate|]. pose proof H as H0. rewrite read_ref in H. rewrite imm_eq.
  destruct (h !! l) as [[kd items]|] eqn:E; [|discriminate]. cbn [o_kind o_items] in H.
  destruct (read_items n h items) as [ps|] eqn:Ei; [|discriminate]. injection H as <-.
  destruct (imm_items_spec n IH items h ps Ei) as (h1 & i1 & E1 & P1 & R1).
  assert (HN : read (S n) (h1 ++ [Obj KFlat i1]) (HRef (List.length h1)) = Some (PFlat (mapv freeze ps))).
  { rewrite read_ref. rewrite lookup_app_r by lia. rewrite Nat.sub_diag. cbn [lookup list_lookup o_kind o_items].
    rewrite (read_items_ext n h1 _ i1 _ (prefix_app_r h1 h1 _ (reflexivity h1)) R1). reflexivity. }
  destruct kd; cbn [mk to_immutable].
  - rewrite E1. do 2 eexists. split; [reflexivity|]. split; [now apply prefix_app_r|exact HN].
  - exists h, l. auto.
  - rewrite E1. do 2 eexists. split; [reflexivity|]. split; [now apply prefix_app_r|exact HN].
Qed.

(** Immutable all the way down: stable under later mutation. *)
Lemma read_stable n : forall h h2 v p, later h h2 -> all_flat p -> read n h v = Some p -> read n h2 v = Some p.
Proof.
  induction n as [|n IH]; intros h h2 v p HL HF; destruct v as [x|l]; try (rewrite !read_leaf; auto); [discriminate|].
  rewrite !read_ref. destruct (h !! l) as [[kd items]|] eqn:E; [|discriminate]. cbn [o_kind o_items].
  destruct (read_items n h items) as [ps|] eqn:Ei; [|discriminate]. intros [= <-].
  destruct kd; try (now destruct HF). rewrite (HL l items E). cbn [o_kind o_items].
  enough (read_items n h2 items = Some ps) as -> by reflexivity.
  apply all_flat_flat in HF. revert ps HF Ei. clear E. induction items as [|[k v] items IHi]; intros ps HF Ei; [exact Ei|].
  cbn in Ei. destruct (read n h v) as [q|] eqn:Eq; [|discriminate]. fold (read_items n h) in Ei.
  destruct (read_items n h items) as [qs|] eqn:Eqs; [|discriminate]. injection Ei as <-. inversion HF as [|? ? F1 F2]; subst.
  cbn. rewrite (IH _ _ _ _ HL F1 Eq). fold (read_items n h2). now rewrite (IHi qs F2 eq_refl).
Qed.
Lemma plain_dict i : plain (PDict i) <-> Forall (fun kv => plain (snd kv)) i.
Proof. induction i as [|x l IH]; cbn; [split; constructor|]. cbn in IH. rewrite IH. split; [now intros []; constructor|now inversion 1]. Qed.
Lemma plain_freeze p : plain p -> all_flat (freeze p).
Proof.
  induction p using pt_ind'; intros HP; try exact HP; try exact Logic.I; [destruct HP|].
  apply plain_dict in HP. cbn [freeze]. apply all_flat_flat. apply List.Forall_forall. intros kv Hi. apply in_map_iff in Hi as (kv0 & <- & Hi).
  rewrite List.Forall_forall in H, HP. exact (H _ Hi (HP _ Hi)).
Qed.

(** The mutable copy of a frozen structure is made of new objects. *)
Definition sees (n : nat) (h : heap) (b : nat) (v : hval) : Prop := forall l, v = HRef l -> forall j, reach h l j -> b <= j.
Definition fresh_obj (b : nat) (o : obj) : Prop := forall k j, In (k, HRef j) (o_items o) -> b <= j.
(** All objects from [b] on only refer to objects from [b] on. *)
Definition closed_from (b : nat) (h : heap) : Prop := forall j o, b <= j -> h !! j = Some o -> fresh_obj b o.
Lemma reach_closed b h l j : closed_from b h -> b <= l -> reach h l j -> b <= j.
Proof. intros HC Hl. induction 1 as [|j o k j' HR IH E Hi]; [assumption|]. exact (HC j o IH E k j' Hi). Qed.

Definition mut_ok (n : nat) : Prop := forall b h l t, read n h (HRef l) = Some t -> all_flat t -> b <= List.length h -> closed_from b h ->
  exists h' l', mut n h l = Some (h', l') /\ h `prefix_of` h' /\ closed_from b h' /\ b <= l'.
Lemma mut_items_spec n : mut_ok n -> forall i b h ps, read_items n h i = Some ps -> Forall (fun kv => all_flat (snd kv)) ps ->
  b <= List.length h -> closed_from b h ->
  exists h' i', mut_items n h i = Some (h', i') /\ h `prefix_of` h' /\ closed_from b h' /\ (forall k j, In (k, HRef j) i' -> b <= j).
Proof.
  intros IH. induction i as [|[k v] i IHi]; intros b h ps H HF Hb HC.
  - exists h, []. cbn. split; [reflexivity|]. split; [reflexivity|]. split; [assumption|]. intros ? ? [].
  - cbn in H. destruct (read n h v) as [p|] eqn:Ep; [|discriminate]. fold (read_items n h) in H.
    destruct (read_items n h i) as [qs|] eqn:Eq; [|discriminate]. injection H as <-. inversion HF as [|? ? F1 F2]; subst.
    assert (exists h1 v1, mut_val n h v = Some (h1, v1) /\ h `prefix_of` h1 /\ closed_from b h1 /\ (forall j, v1 = HRef j -> b <= j)) as (h1 & v1 & E1 & P1 & C1 & V1).
    { destruct v as [x|l]; [exists h, (HLeaf x); cbn; repeat split; auto; discriminate|]. pose proof Ep as Ep0.
      destruct n as [|n]; [discriminate|]. rewrite read_ref in Ep. destruct (h !! l) as [[kd items]|] eqn:E; [|discriminate].
      cbn [o_kind o_items] in Ep. destruct (read_items n h items) as [ps|] eqn:Ei; [|discriminate]. injection Ep as <-.
      destruct kd; try (now destruct F1). destruct (IH b h l _ Ep0 F1 Hb HC) as (h' & l' & E1 & P1 & C1 & L1).
      exists h', (HRef l'). cbn [mut_val]. rewrite E, E1. repeat split; auto. intros j [= <-]. assumption. }
    assert (Hb1 : b <= List.length h1) by (apply prefix_length in P1; lia).
    destruct (IHi b h1 qs (read_items_ext _ _ _ _ _ P1 Eq) F2 Hb1 C1) as (h2 & i2 & E2 & P2 & C2 & I2).
    exists h2, ((k, v1) :: i2). cbn. rewrite E1. fold (mut_items n). rewrite E2. split; [reflexivity|]. split; [now transitivity h1|].
    split; [assumption|]. intros k0 j [[= -> ->]|Hi]; [auto|eauto].
Qed.
Lemma mut_spec n : mut_ok n.
Proof.
  induction n as [|n IH]; intros b h l t H HF Hb HC; [discriminate|]. rewrite read_ref in H. rewrite mut_eq.
  destruct (h !! l) as [[kd items]|] eqn:E; [|discriminate]. cbn [o_kind o_items] in H.
  destruct (read_items n h items) as [ps|] eqn:Ei; [|discriminate]. injection H as <-.
  destruct kd; try (now destruct HF). apply all_flat_flat in HF.
  destruct (mut_items_spec n IH items b h ps Ei HF Hb HC) as (h1 & i1 & E1 & P1 & C1 & I1). rewrite E1.
  do 2 eexists. split; [reflexivity|]. split; [now apply prefix_app_r|].
  assert (b <= List.length h1) by (apply prefix_length in P1; lia). split; [|assumption].
  intros j o Hj Ej. apply lookup_app_Some in Ej as [Ej|[Hj2 Ej]]; [exact (C1 j o Hj Ej)|].
  apply list_lookup_singleton_Some in Ej as [_ <-]. exact I1.
Qed.

(** Contents of the mutable copy. *)
Definition mut_reads (n : nat) : Prop := forall h l t, read n h (HRef l) = Some t ->
  exists h' l', mut n h l = Some (h', l') /\ h `prefix_of` h' /\ read n h' (HRef l') = Some (to_mutable t).
Lemma mut_items_reads n : mut_reads n -> forall i h ps, read_items n h i = Some ps ->
  exists h' i', mut_items n h i = Some (h', i') /\ h `prefix_of` h' /\ read_items n h' i' = Some (mapv thaw ps).
Proof.
  intros IH. induction i as [|[k v] i IHi]; intros h ps H.
  - injection H as <-. exists h, []. auto.
  - cbn in H. destruct (read n h v) as [p|] eqn:Ep; [|discriminate]. destruct (read_items n h i) as [qs|] eqn:Eq; [|discriminate]. injection H as <-.
    assert (exists h1 v1, mut_val n h v = Some (h1, v1) /\ h `prefix_of` h1 /\ read n h1 v1 = Some (thaw p)) as (h1 & v1 & E1 & P1 & R1).
    { destruct v as [x|l]; [rewrite read_leaf in Ep; injection Ep as <-; exists h, (HLeaf x); rewrite read_leaf; cbn; auto|]. pose proof Ep as Ep0.
      destruct n as [|n]; [discriminate|]. rewrite read_ref in Ep. destruct (h !! l) as [[kd items]|] eqn:E; [|discriminate].
      cbn [o_kind o_items] in Ep. destruct (read_items n h items) as [ps|] eqn:Ei; [|discriminate]. injection Ep as <-.
      cbn [mut_val]. rewrite E. destruct kd.
      - exists h, (HRef l). auto.
      - destruct (IH _ _ _ Ep0) as (h' & l' & E1 & P1 & R1). rewrite E1. exists h', (HRef l'). auto.
      - exists h, (HRef l). auto. }
    destruct (IHi h1 qs (read_items_ext _ _ _ _ _ P1 Eq)) as (h2 & i2 & E2 & P2 & R2).
    exists h2, ((k, v1) :: i2). cbn. rewrite E1. fold (mut_items n). rewrite E2. split; [reflexivity|]. split; [now transitivity h1|].
    rewrite (read_ext _ _ _ _ _ P2 R1). fold (read_items n h2). now rewrite R2.
Qed.
Lemma mut_reads_spec n : mut_reads n.
Proof.
  induction n as [|n IH]; intros h l t H; [discriminate|]. rewrite read_ref in H. rewrite mut_eq.
  destruct (h !! l) as [[kd items]|] eqn:E; [|discriminate]. cbn [o_kind o_items] in H.
  destruct (read_items n h items) as [ps|] eqn:Ei; [|discriminate]. injection H as <-.
  destruct (mut_items_reads n IH items h ps Ei) as (h1 & i1 & E1 & P1 & R1). rewrite E1.
  do 2 eexists. split; [reflexivity|]. split; [now apply prefix_app_r|].
  rewrite read_ref, lookup_app_r by lia. rewrite Nat.sub_diag. cbn [lookup list_lookup o_kind o_items].
  rewrite (read_items_ext n h1 _ i1 _ (prefix_app_r h1 h1 _ (reflexivity h1)) R1). destruct kd; reflexivity.
Qed.

Lemma thaw_freeze_same p : wf_pt p -> same (thaw (freeze p)) p.
Proof.
  induction p using pt_ind'; intros W; try now apply same_refl.
  - apply wf_dict_pt in W. cbn [freeze thaw].
    apply (map_same_at (fun p => thaw (freeze p)) _ (PDict i) i); auto. cbn [items_of]. f_equal. unfold mapv. rewrite map_map. reflexivity.
  - apply thaw_same. exact W.
Qed.

(** ** Well-formedness *)
Lemma wf_items_map f i : (forall p, wf_pt p -> wf_pt (f p)) -> wf_items i -> wf_items (List.map (fun kv => (fst kv, f (snd kv))) i).
Proof.
  intros Hf [H1 H2]. split; [rewrite map_map; exact H1|]. apply List.Forall_forall. intros kv Hi.
  apply in_map_iff in Hi as (kv0 & <- & Hi). rewrite List.Forall_forall in H2. cbn. apply Hf. exact (H2 _ Hi).
Qed.
Lemma wf_items_map_at f i : Forall (fun kv => wf_pt (snd kv) -> wf_pt (f (snd kv))) i -> wf_items i -> wf_items (List.map (fun kv => (fst kv, f (snd kv))) i).
Proof.
  intros Hf [H1 H2]. split; [rewrite map_map; exact H1|]. apply List.Forall_forall. intros kv Hi.
  apply in_map_iff in Hi as (kv0 & <- & Hi). rewrite List.Forall_forall in H2, Hf. cbn. apply (Hf _ Hi). exact (H2 _ Hi).
Qed.
Lemma freeze_wf p : wf_pt p -> wf_pt (freeze p).
Proof.
  induction p using pt_ind'; intros W; try exact W. cbn [freeze]. apply wf_flat_pt. apply wf_dict_pt in W. now apply wf_items_map_at.
Qed.
Lemma thaw_wf p : wf_pt p -> wf_pt (thaw p).
Proof.
  induction p using pt_ind'; intros W; try exact W. cbn [thaw]. apply wf_dict_pt. apply wf_flat_pt in W. now apply wf_items_map_at.
Qed.
Lemma canon_wf p : wf_pt p -> wf_pt (canon PLeaf p).
Proof.
  induction p using pt_ind'; intros W; try exact W.
  - cbn [canon]. apply wf_tup. apply wf_tup in W. induction H; [constructor|]. inversion W; subst. constructor; auto.
  - cbn [canon]. apply wf_dict_pt. apply wf_dict_pt in W. apply (wf_items_map_at (canon PLeaf)) in W as [W1 W2]; [|assumption].
    split; [now apply sort_NoDup|now apply Forall_sort].
  - cbn [canon]. apply wf_odict_pt. apply wf_odict_pt in W. now apply (wf_items_map_at (canon PLeaf)).
  - cbn [canon]. apply wf_flat_pt. apply wf_flat_pt in W. apply (wf_items_map_at (canon PLeaf)) in W as [W1 W2]; [|assumption].
    split; [now apply sort_NoDup|now apply Forall_sort].
Qed.

(** Replacing leaves in place. *)
Fixpoint rep (f : Z -> Z) (p : pt) : pt :=
  match p with
  | PLeaf x => PLeaf (f x)
  | PNone => PNone
  | PTup l => PTup (List.map (rep f) l)
  | PDict i => PDict (List.map (fun kv => (fst kv, rep f (snd kv))) i)
  | PODict i => PODict (List.map (fun kv => (fst kv, rep f (snd kv))) i)
  | PFlat i => PFlat (List.map (fun kv => (fst kv, rep f (snd kv))) i)
  end.
Lemma rep_wf f p : wf_pt p -> wf_pt (rep f p).
Proof.
  induction p using pt_ind'; intros W; try exact W.
  - cbn [rep]. apply wf_tup. apply wf_tup in W. induction H; [constructor|]. inversion W; subst. constructor; auto.
  - cbn [rep]. apply wf_dict_pt. apply wf_dict_pt in W. now apply wf_items_map_at.
  - cbn [rep]. apply wf_odict_pt. apply wf_odict_pt in W. now apply wf_items_map_at.
  - cbn [rep]. apply wf_flat_pt. apply wf_flat_pt in W. now apply wf_items_map_at.
Qed.
Lemma canon_rep f p : canon (fun x => PLeaf (f x)) p = canon PLeaf (rep f p).
Proof.
  induction p using pt_ind'; cbn [canon rep]; try reflexivity.
  - f_equal. rewrite map_map. apply map_ext_in. now apply List.Forall_forall.
  - do 2 f_equal. rewrite map_map. apply map_ext_in. intros kv Hi. cbn. f_equal. rewrite List.Forall_forall in H. auto.
  - f_equal. rewrite map_map. apply map_ext_in. intros kv Hi. cbn. f_equal. rewrite List.Forall_forall in H. auto.
  - do 2 f_equal. rewrite map_map. apply map_ext_in. intros kv Hi. cbn. f_equal. rewrite List.Forall_forall in H. auto.
Qed.

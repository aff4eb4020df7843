(** Lemmas about ModelTree.v. *)
From stdpp Require Import base list strings option sorting.
From Coq Require Import String Ascii ZArith Lia.
From Verif Require Import ModelDict ModelTree ProofsDict.
Local Open Scope string_scope.
Local Open Scope list_scope.

(** Induction over trees. *)
Section Ind.
Variable P : pt -> Prop.
Hypothesis H1 : forall x, P (PLeaf x).
Hypothesis H2 : P PNone.
Hypothesis H3 : forall l, Forall P l -> P (PTup l).
Hypothesis H4 : forall i, Forall (fun kv => P (snd kv)) i -> P (PDict i).
Hypothesis H5 : forall i, Forall (fun kv => P (snd kv)) i -> P (PODict i).
Hypothesis H6 : forall i, Forall (fun kv => P (snd kv)) i -> P (PFlat i).
Fixpoint pt_ind' (p : pt) : P p :=
  let pairs := fix go (i : list (string * pt)) : Forall (fun kv => P (snd kv)) i :=
    match i with [] => List.Forall_nil _ | kv :: i => List.Forall_cons _ kv i (pt_ind' (snd kv)) (go i) end in
  match p with
  | PLeaf x => H1 x
  | PNone => H2
  | PTup l => H3 l ((fix go l : Forall P l := match l with [] => List.Forall_nil _ | x :: l => List.Forall_cons _ x l (pt_ind' x) (go l) end) l)
  | PDict i => H4 i (pairs i)
  | PODict i => H5 i (pairs i)
  | PFlat i => H6 i (pairs i)
  end.
End Ind.

Lemma wf_tup l : wf_pt (PTup l) <-> Forall wf_pt l.
Proof. induction l as [|x l IH]; cbn; [split; constructor|]. cbn in IH. rewrite IH. split; [now intros []; constructor|now inversion 1]. Qed.
Definition wf_items (i : list (string * pt)) : Prop := NoDup (List.map fst i) /\ Forall (fun kv => wf_pt (snd kv)) i.
Lemma wf_go i : (fix go (l : list (string * pt)) := match l with [] => True | kv :: l => wf_pt (snd kv) /\ go l end) i <-> Forall (fun kv => wf_pt (snd kv)) i.
Proof. induction i as [|x l IH]; cbn; [split; constructor|]. rewrite IH. split; [now intros []; constructor|now inversion 1]. Qed.
Lemma wf_dict_pt i : wf_pt (PDict i) <-> wf_items i.
Proof. cbn. rewrite wf_go. reflexivity. Qed.
Lemma wf_odict_pt i : wf_pt (PODict i) <-> wf_items i.
Proof. cbn. rewrite wf_go. reflexivity. Qed.
Lemma wf_flat_pt i : wf_pt (PFlat i) <-> wf_items i.
Proof. cbn. rewrite wf_go. reflexivity. Qed.
Lemma all_flat_tup l : all_flat (PTup l) <-> Forall all_flat l.
Proof. induction l as [|x l IH]; cbn; [split; constructor|]. cbn in IH. rewrite IH. split; [now intros []; constructor|now inversion 1]. Qed.
Lemma all_flat_flat i : all_flat (PFlat i) <-> Forall (fun kv => all_flat (snd kv)) i.
Proof. induction i as [|x l IH]; cbn; [split; constructor|]. cbn in IH. rewrite IH. split; [now intros []; constructor|now inversion 1]. Qed.

(** ** Order on keys *)
Lemma leb_spec a b : String.leb a b = true <-> String.compare a b <> Gt.
Proof. unfold String.leb. destruct (String.compare a b); split; congruence. Qed.
Lemma leb_trans a b c : String.leb a b = true -> String.leb b c = true -> String.leb a c = true.
Proof.
  rewrite !leb_spec. revert b c. induction a as [|x a IH]; intros [|y b] [|z c]; cbn; try congruence.
  destruct (Ascii.compare x y) eqn:E1; intros H1 H2; try congruence.
  - apply Ascii.compare_eq_iff in E1. subst. destruct (Ascii.compare y z); try congruence. now apply (IH b).
  - destruct (Ascii.compare y z) eqn:E2; try congruence.
    + apply Ascii.compare_eq_iff in E2. subst. rewrite E1. discriminate.
    + assert (Ascii.compare x z = Lt) as ->; [|discriminate]. unfold Ascii.compare in *.
      rewrite N.compare_lt_iff in *. lia.
Qed.
Definition key_lt {V} (a b : string * V) : Prop := String.leb (fst a) (fst b) = true /\ fst a <> fst b.
Global Instance key_lt_trans {V} : Transitive (key_lt (V:=V)).
Proof.
  intros [a u] [b v] [c w] [H1 H1'] [H2 H2']. split; cbn in *; [now apply (leb_trans a b c)|].
  intros ->. apply H1'. now apply String.leb_antisym.
Qed.
Global Instance key_lt_anti {V} : AntiSymm (=) (key_lt (V:=V)).
Proof. intros [a u] [b v] [H1 H1'] [H2 H2']. destruct H1'. now apply String.leb_antisym. Qed.

Section Sort.
Context {V : Type}.
Implicit Types (l : pydict V).
Lemma ins_perm kv l : ins kv l ≡ₚ kv :: l.
Proof.
  induction l as [|x l IH]; cbn; [reflexivity|]. destruct (String.leb _ _); [reflexivity|]. rewrite IH. constructor.
Qed.
Lemma sort_perm l : sort_keys l ≡ₚ l.
Proof. induction l as [|x l IH]; cbn; [reflexivity|]. rewrite ins_perm. now constructor. Qed.
Lemma sort_fst_perm l : List.map fst (sort_keys l) ≡ₚ List.map fst l.
Proof. apply Permutation_map, sort_perm. Qed.
Lemma sort_NoDup l : NoDup (List.map fst l) -> NoDup (List.map fst (sort_keys l)).
Proof. intros H. now rewrite sort_fst_perm. Qed.
Lemma ins_sorted kv l : StronglySorted key_lt l -> ~ In (fst kv) (List.map fst l) -> StronglySorted key_lt (ins kv l).
Proof.
  induction 1 as [|x l HS IH HF]; intros Hn; cbn; [repeat constructor|].
  destruct (String.leb (fst kv) (fst x)) eqn:E.
  - assert (Hx : key_lt kv x). { split; [assumption|]. intros Ex. apply Hn. left. auto. }
    constructor; [constructor; auto|]. constructor; [assumption|]. eapply Forall_impl; [exact HF|]. intros y Hy. now transitivity x.
  - constructor; [apply IH; intros H; apply Hn; now right|].
    assert (Hx : key_lt x kv).
    { split; [destruct (String.leb_total (fst kv) (fst x)); congruence|]. intros Ex. apply Hn. now left. }
    rewrite ins_perm. now constructor.
Qed.
Lemma sort_sorted l : NoDup (List.map fst l) -> StronglySorted key_lt (sort_keys l).
Proof.
  induction l as [|x l IH]; cbn; [constructor|]. intros [H1 H2]%stdpp.list.NoDup_cons. apply ins_sorted; [auto|].
  intros H. apply H1. rewrite <- (sort_fst_perm l). now apply elem_of_list_In.
Qed.
Lemma sort_unique l l' : NoDup (List.map fst l) -> l ≡ₚ l' -> sort_keys l = sort_keys l'.
Proof.
  intros H HP. apply (StronglySorted_unique key_lt).
  - now apply sort_sorted.
  - apply sort_sorted. now rewrite <- HP.
  - now rewrite !sort_perm.
Qed.
Lemma d_get_perm l l' k : NoDup (List.map fst l) -> l ≡ₚ l' -> d_get k l = d_get k l'.
Proof.
  intros H HP. assert (H' : NoDup (List.map fst l')) by now rewrite <- HP.
  destruct (d_get k l) as [v|] eqn:E.
  - symmetry. apply In_d_get; [assumption|]. apply d_get_In in E. eapply Permutation_in; eauto.
  - symmetry. apply d_get_None. apply d_get_None in E. intros Hi. apply E. unfold d_keys in *.
    eapply Permutation_in; [|exact Hi]. symmetry. now apply Permutation_map.
Qed.
Lemma d_get_sort l k : NoDup (List.map fst l) -> d_get k (sort_keys l) = d_get k l.
Proof. intros H. apply d_get_perm; [now apply sort_NoDup|apply sort_perm]. Qed.
Lemma same_gets_perm l l' : NoDup (List.map fst l) -> NoDup (List.map fst l') -> (forall k, d_get k l = d_get k l') -> l ≡ₚ l'.
Proof.
  intros H H' HE. apply NoDup_Permutation.
  - now apply (NoDup_fmap_1 fst).
  - now apply (NoDup_fmap_1 fst).
  - intros [k v]. rewrite !elem_of_list_In. split; intros Hi.
    + apply d_get_In. rewrite <- HE. now apply In_d_get.
    + apply d_get_In. rewrite HE. now apply In_d_get.
Qed.
End Sort.
Definition mapv {V W} (f : V -> W) (l : pydict V) : pydict W := List.map (fun kv => (fst kv, f (snd kv))) l.
Lemma mapv_keys {V W} (f : V -> W) l : List.map fst (mapv f l) = List.map fst l.
Proof. unfold mapv. rewrite map_map. reflexivity. Qed.
Lemma ins_map {V W} (f : V -> W) kv l : ins (fst kv, f (snd kv)) (mapv f l) = mapv f (ins kv l).
Proof. induction l as [|x l IH]; [reflexivity|]. cbn [mapv List.map ins fst]. destruct (String.leb _ _); cbn; [reflexivity|]. f_equal. exact IH. Qed.
Lemma sort_map {V W} (f : V -> W) l : sort_keys (mapv f l) = mapv f (sort_keys l).
Proof. induction l as [|x l IH]; [reflexivity|]. cbn [mapv List.map sort_keys]. unfold mapv in IH. rewrite IH. apply ins_map. Qed.
Lemma d_get_mapv {V W} (f : V -> W) k l : d_get k (mapv f l) = option_map f (d_get k l).
Proof. induction l as [|[k' v] l IH]; cbn; [reflexivity|]. now destruct (String.eqb k k'). Qed.
Lemma Forall_sort {V} (P : string * V -> Prop) l : Forall P l -> Forall P (sort_keys l).
Proof. intros H. now rewrite sort_perm. Qed.

(** ** Flatten / unflatten *)

(** Replace the leaves and sort the keys of all dictionaries but [OrderedDict]s. *)
Fixpoint canon (g : Z -> pt) (p : pt) : pt :=
  match p with
  | PLeaf x => g x
  | PNone => PNone
  | PTup l => PTup (List.map (canon g) l)
  | PDict i => PDict (sort_keys (List.map (fun kv => (fst kv, canon g (snd kv))) i))
  | PODict i => PODict (List.map (fun kv => (fst kv, canon g (snd kv))) i)
  | PFlat i => PFlat (sort_keys (List.map (fun kv => (fst kv, canon g (snd kv))) i))
  end.

Definition un_items := fix go (l : list (string * td)) ls := match l with
       | [] => Some ([], ls)
       | (k, t) :: l => match unflatten t ls with
                   | Some (p, ls) => match go l ls with Some (ps, ls) => Some ((k, p) :: ps, ls) | None => None end
                   | None => None
                   end
       end.
Lemma un_dict i ls : unflatten (TDict i) ls = un_items i ls ≫= fun r => Some (PDict (fst r), snd r).
Proof. reflexivity. Qed.

Lemma un_odict i ls : unflatten (TODict i) ls = un_items i ls ≫= fun r => Some (PODict (fst r), snd r).
Proof. reflexivity. Qed.
Lemma un_flat s n ls : unflatten (TFlat s n) ls =
  if decide (List.length ls < n) then None
  else match unflatten s (take n ls) with Some (PDict items, []) => Some (PFlat items, drop n ls) | _ => None end.
Proof. reflexivity. Qed.

Definition good (g : Z -> pt) (p : pt) : Prop :=
  forall rest, unflatten (struct p) (List.map g (leaves p) ++ rest) = Some (canon g p, rest).
Lemma un_items_good g i : Forall (fun kv => good g (snd kv)) i -> forall rest,
  un_items (mapv struct i) (List.map g (List.concat (List.map snd (mapv leaves i))) ++ rest) = Some (mapv (canon g) i, rest).
Proof.
  induction 1 as [|[k p] i H HF IH]; intros rest; [reflexivity|]. cbn [mapv List.map fst snd List.concat un_items].
  rewrite map_app, <- app_assoc. unfold good in H. cbn in H. rewrite H. unfold mapv in IH. now rewrite IH.
Qed.
Lemma unflatten_struct g p : good g p.
Proof.
  induction p using pt_ind'; intros rest.
  - reflexivity.
  - reflexivity.
  - cbn [struct leaves canon unflatten].
    enough (E : (fix go l ls := match l with
       | [] => Some ([], ls)
       | t :: l => match unflatten t ls with
                   | Some (p, ls) => match go l ls with Some (ps, ls) => Some (p :: ps, ls) | None => None end
                   | None => None
                   end
       end) (List.map struct l) (List.map g (List.concat (List.map leaves l)) ++ rest) = Some (List.map (canon g) l, rest)).
    { rewrite E. reflexivity. }
    induction H as [|p l H HF IH]; [reflexivity|]. cbn [List.map List.concat]. rewrite map_app, <- app_assoc, H. now rewrite IH.
  - cbn [struct leaves canon]. rewrite un_dict.
    change (List.map (fun kv : string * pt => (fst kv, struct (snd kv))) i) with (mapv struct i).
    change (List.map (fun kv : string * pt => (fst kv, leaves (snd kv))) i) with (mapv leaves i).
    change (List.map (fun kv : string * pt => (fst kv, canon g (snd kv))) i) with (mapv (canon g) i).
    rewrite !sort_map, (un_items_good g); [reflexivity|]. now apply Forall_sort.
  - cbn [struct leaves canon]. rewrite un_odict.
    change (List.map (fun kv : string * pt => (fst kv, struct (snd kv))) i) with (mapv struct i).
    assert (E : List.map (fun kv : string * pt => leaves (snd kv)) i = List.map snd (mapv leaves i)).
    { unfold mapv. now rewrite map_map. }
    rewrite E, (un_items_good g i H rest). reflexivity.
  - assert (El : leaves (PFlat i) = List.concat (List.map snd (mapv leaves (sort_keys i)))).
    { cbn [leaves]. change (List.map (fun kv : string * pt => (fst kv, leaves (snd kv))) i) with (mapv leaves i). now rewrite sort_map. }
    assert (Es : struct (PFlat i) = TFlat (TDict (mapv struct (sort_keys i))) (List.length (leaves (PFlat i)))).
    { cbn [struct]. change (List.map (fun kv : string * pt => (fst kv, struct (snd kv))) i) with (mapv struct i). now rewrite sort_map. }
    rewrite Es, un_flat. cbn [canon].
    rewrite decide_False by (rewrite app_length, map_length; lia).
    rewrite take_app_alt, drop_app_alt by now rewrite map_length.
    change (List.map (fun kv : string * pt => (fst kv, canon g (snd kv))) i) with (mapv (canon g) i).
    rewrite un_dict, El, !sort_map. rewrite <- (app_nil_r (List.map g _)).
    rewrite (un_items_good g (sort_keys i)); [reflexivity|]. now apply Forall_sort.
Qed.

(** ** Equality *)

Lemma py_eq_map a b ia ib : items_of a = Some ia -> items_of b = Some ib ->
  py_eq a b = Nat.eqb (List.length ia) (List.length ib)
          && forallb (fun kv => match d_get (fst kv) ib with Some v => py_eq (snd kv) v | None => false end) ia
          && (if is_od a && is_od b then bool_decide (List.map fst ia = List.map fst ib) else true).
Proof. destruct a; try discriminate; intros [= ->] E; cbn [py_eq]; rewrite E; reflexivity. Qed.
Lemma py_eq_not_map a b ia : items_of a = Some ia -> items_of b = None -> py_eq a b = false.
Proof. destruct a; try discriminate; intros [= ->] E; cbn [py_eq]; rewrite E; reflexivity. Qed.
Lemma keys_match {V} (ia ib : pydict V) : NoDup (List.map fst ia) -> NoDup (List.map fst ib) ->
  (List.length ia = List.length ib /\ (forall k, In k (List.map fst ia) -> In k (List.map fst ib))) <->
  (forall k, d_get k ia = None <-> d_get k ib = None).
Proof.
  intros Na Nb. split.
  - intros [Hl Hi] k. rewrite !d_get_None. unfold d_keys.
    assert (Hj : incl (List.map fst ib) (List.map fst ia)).
    { apply NoDup_length_incl; [now apply NoDup_ListNoDup|rewrite !map_length; lia|exact Hi]. }
    split; intros H H'; apply H; auto.
  - intros H. assert (HP : List.map fst ia ≡ₚ List.map fst ib).
    { apply NoDup_Permutation; auto. intros k. specialize (H k). rewrite !d_get_None in H. unfold d_keys in H.
      rewrite !elem_of_list_In. destruct (in_dec String.string_dec k (List.map fst ia)), (in_dec String.string_dec k (List.map fst ib)); tauto. }
    split.
    + apply Permutation_length in HP. now rewrite !map_length in HP.
    + intros k Hk. eapply Permutation_in; eauto.
Qed.
Lemma wf_of a ia : items_of a = Some ia -> wf_pt a -> wf_items ia.
Proof. destruct a; try discriminate; intros [= ->] H; [now apply wf_dict_pt|now apply wf_odict_pt|now apply wf_flat_pt]. Qed.
Lemma wf_get k v ia : wf_items ia -> d_get k ia = Some v -> wf_pt v.
Proof. intros [_ H] E. apply d_get_In in E. rewrite List.Forall_forall in H. exact (H _ E). Qed.

Lemma py_eq_mapping a b ia : items_of a = Some ia ->
  Forall (fun kv => forall b, wf_pt (snd kv) -> wf_pt b -> (py_eq (snd kv) b = true <-> same (snd kv) b)) ia ->
  wf_pt a -> wf_pt b -> (py_eq a b = true <-> same a b).
Proof.
  intros Ea IH Wa Wb. destruct (items_of b) as [ib|] eqn:Eb.
  2: { rewrite (py_eq_not_map a b ia Ea Eb). split; [discriminate|]. intros H. inversion H; subst; try discriminate Ea. congruence. }
  pose proof (wf_of a ia Ea Wa) as WA. pose proof (wf_of b ib Eb Wb) as WB. destruct WA as [Na Fa]. destruct WB as [Nb Fb].
  rewrite (py_eq_map a b ia ib Ea Eb), !andb_true_iff, Nat.eqb_eq, forallb_forall. rewrite List.Forall_forall in IH, Fa, Fb.
  split.
  - intros [[Hl Hf] Ho]. apply (S_map a b ia ib Ea Eb).
    + intros Ha Hb. rewrite Ha, Hb in Ho. cbn in Ho. now apply bool_decide_eq_true in Ho.
    + apply keys_match; auto. split; [assumption|]. intros k Hk. apply in_map_iff in Hk as ([k0 v] & <- & Hi).
      specialize (Hf _ Hi). cbn in *. destruct (d_get k0 ib) as [v'|] eqn:E; [|discriminate]. apply d_get_In in E.
      apply in_map_iff. now exists (k0, v').
    + intros k v v' E E'. apply d_get_In in E. pose proof (Hf _ E) as Hv. cbn in Hv. rewrite E' in Hv.
      apply (IH _ E); [exact (Fa _ E)|apply d_get_In in E'; exact (Fb _ E')|exact Hv].
  - intros H. inversion H as [| | |? ? ia' ib' Ea' Eb' Ho Hk Hs]; subst; try discriminate Ea.
    rewrite Ea in Ea'. injection Ea' as <-. rewrite Eb in Eb'. injection Eb' as <-.
    pose proof (proj2 (keys_match ia ib Na Nb) Hk) as [Hl Hi]. split; [split; [assumption|]|].
    + intros [k v] Hkv. cbn. pose proof (In_d_get k v ia Na Hkv) as E.
      destruct (d_get k ib) as [v'|] eqn:E'; [|apply Hk in E'; congruence].
      apply (IH _ Hkv); [exact (Fa _ Hkv)|apply d_get_In in E'; exact (Fb _ E')|]. now apply (Hs k).
    + destruct (is_od a) eqn:Oa; [|reflexivity]. destruct (is_od b) eqn:Ob; [|reflexivity]. cbn. apply bool_decide_eq_true. auto.
Qed.
Lemma py_eq_same a : forall b, wf_pt a -> wf_pt b -> (py_eq a b = true <-> same a b).
Proof.
  induction a using pt_ind'; intros b Wa Wb.
  - cbn [py_eq]. destruct b; try (split; [discriminate|inversion 1; subst; discriminate]).
    rewrite Z.eqb_eq. split; [intros ->; constructor|inversion 1; subst; [reflexivity|discriminate]].
  - cbn [py_eq]. destruct b; try (split; [discriminate|inversion 1; subst; discriminate]). split; [constructor|auto].
  - cbn [py_eq]. destruct b as [| |l'| | |]; try (split; [discriminate|inversion 1; subst; discriminate]).
    apply wf_tup in Wa, Wb.
    enough (E : (fix go (l l' : list pt) := match l, l' with
                    | [], [] => true
                    | x :: l, y :: l' => py_eq x y && go l l'
                    | _, _ => false
                    end) l l' = true <-> Forall2 same l l').
    { rewrite E. split; [constructor; assumption|]. inversion 1; subst; [assumption|discriminate]. }
    revert l' Wb. induction H as [|x l Hx HF IH]; intros [|y l'] Wb; try (split; [discriminate|inversion 1]); [split; constructor|].
    inversion Wa; inversion Wb; subst. rewrite andb_true_iff, IH, Hx by assumption.
    split; [intros []; now constructor|now inversion 1].
  - now apply (py_eq_mapping (PDict i) b i).
  - now apply (py_eq_mapping (PODict i) b i).
  - now apply (py_eq_mapping (PFlat i) b i).
Qed.

Lemma d_get_mapv_None {V W} (f : V -> W) k l : d_get k (mapv f l) = None <-> d_get k l = None.
Proof. rewrite d_get_mapv. destruct (d_get k l); cbn; split; congruence. Qed.

(** Normalising the order of keys does not change the contents. *)
Lemma canon_same p : wf_pt p -> same (canon PLeaf p) p.
Proof.
  assert (HM : forall a b i, Forall (fun kv => wf_pt (snd kv) -> same (canon PLeaf (snd kv)) (snd kv)) i ->
    wf_items i -> items_of b = Some i -> items_of a = Some (sort_keys (mapv (canon PLeaf) i)) -> is_od a = false -> same a b).
  { intros a b i HF [Hn Hw] Eb Ea Ho. apply (S_map _ _ _ _ Ea Eb); [congruence| |].
    - intros k. rewrite d_get_sort by now rewrite mapv_keys. apply d_get_mapv_None.
    - intros k v v'. rewrite d_get_sort by now rewrite mapv_keys. rewrite d_get_mapv. intros E E'. rewrite E' in E. injection E as <-.
      apply d_get_In in E'. rewrite List.Forall_forall in HF, Hw. apply (HF _ E'), (Hw _ E'). }
  induction p using pt_ind'; intros W.
  - constructor.
  - constructor.
  - cbn. constructor. apply wf_tup in W. induction H as [|x l Hx HF IH]; [constructor|]. inversion W; subst. cbn. constructor; auto.
  - apply wf_dict_pt in W. now apply (HM _ (PDict i) i).
  - apply wf_odict_pt in W as [Hn Hw]. apply (S_map _ _ (mapv (canon PLeaf) i) i); [reflexivity|reflexivity|intros; apply mapv_keys|intros; apply d_get_mapv_None|].
    intros k v v'. rewrite d_get_mapv. intros E E'. rewrite E' in E. injection E as <-.
    apply d_get_In in E'. rewrite List.Forall_forall in H, Hw. apply (H _ E'), (Hw _ E').
  - apply wf_flat_pt in W. now apply (HM _ (PFlat i) i).
Qed.

(** ** Hashes *)
Lemma flat_same_hash a : forall b, all_flat a -> all_flat b -> wf_pt a -> wf_pt b -> same a b -> struct a = struct b /\ leaves a = leaves b.
Proof.
  induction a using pt_ind'; intros b Fa Fb Wa Wb HS.
  - inversion HS; subst; [auto|discriminate].
  - inversion HS; subst; [auto|discriminate].
  - inversion HS as [| |? l' HF2|]; subst; [|discriminate]. apply all_flat_tup in Fa, Fb. apply wf_tup in Wa, Wb. cbn.
    enough (List.map struct l = List.map struct l' /\ List.concat (List.map leaves l) = List.concat (List.map leaves l')) as [-> ->] by auto.
    clear HS. revert Fa Fb Wa Wb H. induction HF2 as [|x y l l' Hxy HF2 IH]; [auto|]. intros Fa Fb Wa Wb H.
    inversion Fa as [|? ? Fx Fl]; inversion Fb as [|? ? Fy Fl']; inversion Wa as [|? ? Wx Wl]; inversion Wb as [|? ? Wy Wl'];
      inversion H as [|? ? Hx Hl]; subst. cbn.
    destruct IH as [-> ->]; auto. destruct (Hx y) as [-> ->]; auto.
  - destruct Fa.
  - destruct Fa.
  - destruct b as [| | | | |ib]; try (now destruct Fb); try (inversion HS as [| | |? ? ? ? ? Eb]; subst; discriminate Eb).
    apply all_flat_flat in Fa, Fb. apply wf_flat_pt in Wa as [Na Wa], Wb as [Nb Wb].
    inversion HS as [| | |? ? ia' ib' Ea' Eb' Ho Hk Hs]; subst. injection Ea' as <-. injection Eb' as <-.
    rewrite List.Forall_forall in H, Fa, Fb, Wa, Wb.
    assert (HP : forall W (f : pt -> W), (forall k v v', d_get k i = Some v -> d_get k ib = Some v' -> f v = f v') ->
      sort_keys (mapv f i) = sort_keys (mapv f ib)).
    { intros W f Hf. apply sort_unique; [now rewrite mapv_keys|]. apply same_gets_perm; [now rewrite mapv_keys|now rewrite mapv_keys|].
      intros k. rewrite !d_get_mapv. destruct (d_get k i) as [v|] eqn:E, (d_get k ib) as [v'|] eqn:E'; cbn.
      - f_equal. now apply (Hf k).
      - apply Hk in E'. congruence.
      - apply Hk in E. congruence.
      - reflexivity. }
    assert (Hv : forall k v v', d_get k i = Some v -> d_get k ib = Some v' -> struct v = struct v' /\ leaves v = leaves v').
    { intros k v v' E E'. pose proof (Hs k v v' E E') as Hsv. apply d_get_In in E, E'.
      apply (H _ E); [exact (Fa _ E)|exact (Fb _ E')|exact (Wa _ E)|exact (Wb _ E')|exact Hsv]. }
    assert (El : leaves (PFlat i) = leaves (PFlat ib)).
    { cbn [leaves]. fold (mapv leaves i). fold (mapv leaves ib).
      change (List.map (fun kv : string * pt => (fst kv, leaves (snd kv))) i) with (mapv leaves i).
      change (List.map (fun kv : string * pt => (fst kv, leaves (snd kv))) ib) with (mapv leaves ib).
      rewrite (HP _ leaves); [reflexivity|]. intros k v v' E E'. now apply (Hv k). }
    split; [|assumption]. cbn [struct]. rewrite El.
    change (List.map (fun kv : string * pt => (fst kv, struct (snd kv))) i) with (mapv struct i).
    change (List.map (fun kv : string * pt => (fst kv, struct (snd kv))) ib) with (mapv struct ib).
    rewrite (HP _ struct); [reflexivity|]. intros k v v' E E'. now apply (Hv k).
Qed.

(** ** Freezing and thawing *)
Lemma same_refl p : wf_pt p -> same p p.
Proof.
  induction p using pt_ind'; intros W; try constructor.
  - apply wf_tup in W. induction H; [constructor|]. inversion W; subst. constructor; auto.
  - apply wf_dict_pt in W as [Hn Hw]. apply (S_map _ _ i i); auto; try reflexivity. intros k v v' E E'. rewrite E' in E. injection E as <-.
    apply d_get_In in E'. rewrite List.Forall_forall in H, Hw. apply (H _ E'), (Hw _ E').
  - apply wf_odict_pt in W as [Hn Hw]. apply (S_map _ _ i i); auto; try reflexivity. intros k v v' E E'. rewrite E' in E. injection E as <-.
    apply d_get_In in E'. rewrite List.Forall_forall in H, Hw. apply (H _ E'), (Hw _ E').
  - apply wf_flat_pt in W as [Hn Hw]. apply (S_map _ _ i i); auto; try reflexivity. intros k v v' E E'. rewrite E' in E. injection E as <-.
    apply d_get_In in E'. rewrite List.Forall_forall in H, Hw. apply (H _ E'), (Hw _ E').
Qed.
Lemma map_same f a b ia : (forall p, wf_pt p -> same (f p) p) -> wf_items ia ->
  items_of b = Some ia -> items_of a = Some (mapv f ia) -> same a b.
Proof.
  intros Hf [Hn Hw] Eb Ea. apply (S_map _ _ _ _ Ea Eb).
  - intros _ _. apply mapv_keys.
  - intros k. apply d_get_mapv_None.
  - intros k v v'. rewrite d_get_mapv. intros E E'. rewrite E' in E. injection E as <-. apply Hf.
    apply d_get_In in E'. rewrite List.Forall_forall in Hw. exact (Hw _ E').
Qed.
Lemma map_same_at f a b ia : Forall (fun kv => wf_pt (snd kv) -> same (f (snd kv)) (snd kv)) ia -> wf_items ia ->
  items_of b = Some ia -> items_of a = Some (mapv f ia) -> same a b.
Proof.
  intros Hf [Hn Hw] Eb Ea. apply (S_map _ _ _ _ Ea Eb).
  - intros _ _. apply mapv_keys.
  - intros k. apply d_get_mapv_None.
  - intros k v v'. rewrite d_get_mapv. intros E E'. rewrite E' in E. injection E as <-.
    apply d_get_In in E'. rewrite List.Forall_forall in Hf, Hw. apply (Hf _ E'), (Hw _ E').
Qed.
Lemma freeze_same p : wf_pt p -> same (freeze p) p.
Proof.
  induction p using pt_ind'; intros W; try now apply same_refl.
  apply (map_same_at freeze (freeze (PDict i)) (PDict i) i); try reflexivity; auto. now apply wf_dict_pt.
Qed.
Lemma thaw_same p : wf_pt p -> same (thaw p) p.
Proof.
  induction p using pt_ind'; intros W; try now apply same_refl.
  apply (map_same_at thaw (thaw (PFlat i)) (PFlat i) i); try reflexivity; auto. now apply wf_flat_pt.
Qed.

(** Lemmas about ModelDict.v. *)
From stdpp Require Import base list strings option.
From Coq Require Import String.
From Verif Require Import ModelDict.
Local Open Scope string_scope.
Local Open Scope list_scope.

Section D.
Context {V : Type}.
Implicit Types (d : pydict V) (s : structure V).

Lemma eqb_spec' (a b : string) : String.eqb a b = bool_decide (a = b).
Proof. destruct (String.eqb_spec a b); [now rewrite bool_decide_eq_true_2|now rewrite bool_decide_eq_false_2]. Qed.

Lemma d_get_set k v k' d : d_get k (d_set k' v d) = if String.eqb k k' then Some v else d_get k d.
Proof.
  induction d as [|[k0 v0] d IH]; cbn [d_set d_get].
  - reflexivity.
  - destruct (String.eqb_spec k' k0) as [->|H0]; cbn [d_get].
    + now destruct (String.eqb k k0).
    + rewrite IH. destruct (String.eqb_spec k k0) as [->|]; [|reflexivity].
      destruct (String.eqb_spec k0 k'); [congruence|reflexivity].
Qed.
Lemma d_get_In k v d : d_get k d = Some v -> In (k, v) d.
Proof.
  induction d as [|[k0 v0] d IH]; [discriminate|]. cbn. destruct (String.eqb_spec k k0) as [->|]; [intros [= ->]|]; auto.
Qed.
Lemma d_get_None k d : d_get k d = None <-> ~ In k (d_keys d).
Proof.
  induction d as [|[k0 v0] d IH]; cbn; [tauto|]. destruct (String.eqb_spec k k0) as [->|]; [split; [discriminate|tauto]|].
  rewrite IH. split; [intros H [|]; [congruence|auto]|tauto].
Qed.
Lemma In_d_get k v d : wf_dict d -> In (k, v) d -> d_get k d = Some v.
Proof.
  unfold wf_dict. induction d as [|[k0 v0] d IH]; [intros _ []|]. cbn [d_keys List.map fst]. intros Hn Hi.
  apply stdpp.list.NoDup_cons in Hn as [H1 H2]. cbn. destruct Hi as [[= -> ->]|Hi].
  - now rewrite String.eqb_refl.
  - destruct (String.eqb_spec k k0) as [->|]; [|auto]. destruct H1. apply elem_of_list_In. apply (in_map fst) in Hi. exact Hi.
Qed.
Lemma d_keys_set k v d : d_keys (d_set k v d) = d_keys d \/ (~ In k (d_keys d) /\ d_keys (d_set k v d) = d_keys d ++ [k]).
Proof.
  unfold d_keys. induction d as [|[k0 v0] d IH]; cbn; [right; auto|]. destruct (String.eqb_spec k k0) as [->|Hk]; [now left|]. cbn.
  destruct IH as [->|[H ->]]; [now left|right]. split; [intros [|]; [congruence|auto]|reflexivity].
Qed.
Lemma wf_set k v d : wf_dict d -> wf_dict (d_set k v d).
Proof.
  unfold wf_dict. intros H. destruct (d_keys_set k v d) as [->|[Hk ->]]; [assumption|].
  apply NoDup_app. split; [assumption|]. split; [|apply NoDup_singleton].
  intros x Hx ->%elem_of_list_singleton. apply Hk. now apply elem_of_list_In.
Qed.

End D.
Section S.
Context {V : Type}.
Implicit Types (s : structure V).
Lemma entry_put m n v s m' n' :
  entry (put m n v s) m' n' = if String.eqb m' m && String.eqb n' n then Some v else entry s m' n'.
Proof.
  unfold entry, put. rewrite d_get_set. destruct (String.eqb_spec m' m) as [->|]; [|reflexivity]. cbn.
  rewrite d_get_set. destruct (String.eqb n' n); [reflexivity|]. now destruct (d_get m s).
Qed.
Lemma module_put m n v s m' : is_Some (d_get m' (put m n v s)) <-> m' = m \/ is_Some (d_get m' s).
Proof.
  unfold put. rewrite d_get_set. destruct (String.eqb_spec m' m); split; eauto. intros [|]; [congruence|auto].
Qed.
Lemma wf_put m n v s : wf_structure s -> wf_structure (put m n v s).
Proof.
  intros [H1 H2]. split; [now apply wf_set|].
  assert (Hb : wf_dict (d_set n v (default [] (d_get m s)))).
  { apply wf_set. destruct (d_get m s) as [b|] eqn:E; [|constructor]. cbn. apply d_get_In in E.
    rewrite List.Forall_forall in H2. exact (H2 _ E). }
  unfold put. clear H1. revert H2. generalize dependent (d_set n v (default [] (d_get m s))). intros b Hb.
  induction s as [|[k0 v0] s IH]; intros H2; cbn; [constructor; auto|]. inversion H2; subst.
  destruct (String.eqb m k0); constructor; auto.
Qed.

(** An entry of a structure, as an element of the nested lists. *)
Lemma entry_In s m n v : wf_structure s ->
  (entry s m n = Some v <-> exists b, In (m, b) s /\ In (n, v) b).
Proof.
  intros [H1 H2]. unfold entry. split.
  - destruct (d_get m s) as [b|] eqn:E; [|discriminate]. intros H. exists b. split; now apply d_get_In.
  - intros (b & Hb & Hn). rewrite (In_d_get _ _ _ H1 Hb). apply In_d_get; [|assumption].
    rewrite List.Forall_forall in H2. exact (H2 _ Hb).
Qed.
End S.

(** Invariant rule for the nested loops: [seen] are the entries visited so far. *)
Lemma each_flat {V A} (f : string -> string -> V -> A -> A) (s : structure V) acc :
  each f s acc = fold_left (fun acc e => f (fst (fst e)) (snd (fst e)) (snd e) acc)
    (flat_map (fun mb => List.map (fun nv => ((fst mb, fst nv), snd nv)) (snd mb)) s) acc.
Proof.
  unfold each. revert acc. induction s as [|[m b] s IH]; intros acc; cbn; [reflexivity|].
  rewrite fold_left_app, IH. f_equal. clear. revert acc. induction b as [|[n v] b IH]; intros acc; cbn; auto.
Qed.
Definition flat {V} (s : structure V) : list (string * string * V) :=
  flat_map (fun mb => List.map (fun nv => ((fst mb, fst nv), snd nv)) (snd mb)) s.
Lemma flat_In {V} (s : structure V) m n v : In ((m, n), v) (flat s) <-> exists b, In (m, b) s /\ In (n, v) b.
Proof.
  unfold flat. rewrite in_flat_map. split.
  - intros ([m' b] & Hb & H). apply in_map_iff in H as ([n' v'] & [= -> -> ->] & H). eauto.
  - intros (b & Hb & H). exists (m, b). split; [assumption|]. apply in_map_iff. exists (n, v). auto.
Qed.
Lemma flat_entry {V} (s : structure V) m n v : wf_structure s -> (In ((m, n), v) (flat s) <-> entry s m n = Some v).
Proof. intros H. rewrite flat_In. symmetry. now apply entry_In. Qed.

(** Folding [put] over the entries selected by [g]. *)
Section Puts.
Context {V W : Type}.
Variable g : string -> string -> V -> option W.
Definition puts (l : list (string * string * V)) (out : structure W) : structure W :=
  fold_left (fun out e => match g (fst (fst e)) (snd (fst e)) (snd e) with Some w => put (fst (fst e)) (snd (fst e)) w out | None => out end) l out.
Definition pick (m n : string) (l : list (string * string * V)) (acc : option W) : option W :=
  fold_left (fun acc e => if String.eqb m (fst (fst e)) && String.eqb n (snd (fst e))
                          then match g m n (snd e) with Some w => Some w | None => acc end else acc) l acc.
Lemma puts_entry l : forall out m n, entry (puts l out) m n = pick m n l (entry out m n).
Proof.
  induction l as [|[[m0 n0] v0] l IH]; intros out m n; [reflexivity|]. cbn [puts pick fold_left fst snd]. fold (puts l).
  unfold puts in IH. rewrite IH. unfold pick. f_equal.
  destruct (String.eqb_spec m m0) as [->|Hm]; cbn.
  - destruct (String.eqb_spec n n0) as [->|Hn].
    + destruct (g m0 n0 v0) as [w|]; [|reflexivity]. now rewrite entry_put, !String.eqb_refl.
    + destruct (g m0 n0 v0) as [w|]; [|reflexivity]. rewrite entry_put. now destruct (String.eqb_spec n n0); [|rewrite andb_false_r].
  - destruct (g m0 n0 v0) as [w|]; [|reflexivity]. rewrite entry_put. now destruct (String.eqb_spec m m0).
Qed.
Lemma puts_module l : forall out m,
  is_Some (d_get m (puts l out)) <-> is_Some (d_get m out) \/ exists n v, In ((m, n), v) l /\ is_Some (g m n v).
Proof.
  induction l as [|[[m0 n0] v0] l IH]; intros out m; [cbn; naive_solver|]. cbn [puts fold_left fst snd]. unfold puts in IH. rewrite IH.
  destruct (g m0 n0 v0) as [w|] eqn:E.
  - rewrite module_put. split.
    + intros [[->|H]|(n & v & H & H')]; [right|now left|right].
      * exists n0, v0. rewrite E. split; [now left|eauto].
      * exists n, v. split; [now right|assumption].
    + intros [H|(n & v & [[= <- <- <-]|H] & H')]; eauto 8.
  - split.
    + intros [H|(n & v & H & H')]; [now left|right; exists n, v; split; [now right|assumption]].
    + intros [H|(n & v & [[= <- <- <-]|H] & H')]; eauto 8. rewrite E in H'. destruct H'. discriminate.
Qed.
Lemma puts_wf l : forall out, wf_structure out -> wf_structure (puts l out).
Proof.
  induction l as [|[[m0 n0] v0] l IH]; intros out H; [assumption|]. cbn [puts fold_left fst snd]. unfold puts in IH. apply IH.
  destruct (g m0 n0 v0); [now apply wf_put|assumption].
Qed.
Lemma pick_other m n l acc : (forall v, ~ In ((m, n), v) l) -> pick m n l acc = acc.
Proof.
  revert acc. induction l as [|[[m0 n0] v0] l IH]; intros acc H; [reflexivity|]. cbn [pick fold_left fst snd]. unfold pick in IH. rewrite IH.
  - destruct (String.eqb_spec m m0) as [->|]; [|reflexivity]. destruct (String.eqb_spec n n0) as [->|]; [|reflexivity].
    destruct (H v0). now left.
  - intros v Hv. apply (H v). now right.
Qed.
Lemma pick_unique m n l v acc : NoDup (List.map fst l) -> In ((m, n), v) l ->
  pick m n l acc = match g m n v with Some w => Some w | None => acc end.
Proof.
  revert acc. induction l as [|[[m0 n0] v0] l IH]; intros acc Hn [].
  - injection H as -> -> ->. cbn [pick fold_left fst snd]. rewrite !String.eqb_refl. cbn [andb].
    change (pick m n l (match g m n v with Some w => Some w | None => acc end) = match g m n v with Some w => Some w | None => acc end).
    apply pick_other. intros v' Hv. cbn in Hn. apply stdpp.list.NoDup_cons in Hn as [Hn _]. apply Hn.
    apply elem_of_list_In. apply in_map_iff. now exists ((m, n), v').
  - cbn in Hn. apply stdpp.list.NoDup_cons in Hn as [Hn0 Hn]. cbn [pick fold_left fst snd]. unfold pick in IH. rewrite IH; auto.
    destruct (String.eqb_spec m m0) as [->|]; [|reflexivity]. destruct (String.eqb_spec n n0) as [->|]; [|reflexivity].
    destruct Hn0. apply elem_of_list_In. apply in_map_iff. now exists ((m0, n0), v).
Qed.
End Puts.

Lemma flat_NoDup {V} (s : structure V) : wf_structure s -> NoDup (List.map fst (flat s)).
Proof.
  intros [H1 H2]. induction s as [|[m b] s IH]; [constructor|].
  unfold wf_dict, d_keys in H1. cbn in H1. apply stdpp.list.NoDup_cons in H1 as [Hm H1]. inversion H2 as [|? ? Hb H2']; subst. cbn in Hb.
  cbn [flat flat_map fst snd]. rewrite map_app. apply NoDup_app. split; [|split].
  - clear -Hb. unfold wf_dict, d_keys in Hb. rewrite map_map. cbn. revert Hb. induction b as [|[n v] b IH]; [constructor|].
    cbn. intros [Hn Hb]%stdpp.list.NoDup_cons. apply stdpp.list.NoDup_cons. split; [|auto].
    rewrite elem_of_list_In, in_map_iff. intros ([n' v'] & [= ->] & H). apply Hn, elem_of_list_In, in_map_iff. now exists (n, v').
  - intros [m' n'] Hi Hi'. apply elem_of_list_In, in_map_iff in Hi as ([[m1 n1] v1] & [= -> ->] & Hi).
    apply in_map_iff in Hi as ([n2 v2] & [= -> -> ->] & Hi).
    apply elem_of_list_In, in_map_iff in Hi' as ([[m1' n1'] v1'] & [= -> ->] & Hi').
    apply flat_In in Hi' as (b' & Hb' & _). apply Hm, elem_of_list_In, in_map_iff. now exists (m', b').
  - apply IH; assumption.
Qed.
Lemma pick_flat {V W} (g : string -> string -> V -> option W) (s : structure V) m n acc : wf_structure s ->
  pick g m n (flat s) acc = match entry s m n with Some v => match g m n v with Some w => Some w | None => acc end | None => acc end.
Proof.
  intros H. destruct (entry s m n) as [v|] eqn:E.
  - apply pick_unique; [now apply flat_NoDup|now apply flat_entry].
  - apply pick_other. intros v Hv. apply flat_entry in Hv; [congruence|assumption].
Qed.

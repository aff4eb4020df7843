(** Random sequences: independence of keys, FIFO delivery, buffer sizes. *)
From stdpp Require Import list.
From Coq Require Import ZArith Lia.
From Verif Require Import ModelRng.

(** [anc a b]: key [b] is [a] or was obtained from it by splitting. *)
Inductive anc (a : key) : key -> Prop :=
| anc_refl : anc a a
| anc_split b n i : anc a b -> anc a (Split b n i).

(** Neither key is derived from the other (in particular they differ). *)
Definition indep (a b : key) : Prop := ~ anc a b /\ ~ anc b a.

Lemma indep_sym a b : indep a b -> indep b a.
Proof. unfold indep. tauto. Qed.
Lemma anc_trans a b c : anc a b -> anc b c -> anc a c.
Proof. intros H. induction 1; auto. now constructor. Qed.
Lemma anc_size a b : anc a b -> a = b \/ exists c n i, b = Split c n i /\ anc a c.
Proof. destruct 1; eauto 6. Qed.
Fixpoint ksize (k : key) : nat := match k with Seed _ => 0 | Split k _ _ => S (ksize k) end.
Lemma anc_ksize a b : anc a b -> ksize a <= ksize b.
Proof. induction 1; cbn; lia. Qed.
Lemma indep_child a k n i : indep k a -> indep (Split k n i) a.
Proof.
  intros [H1 H2]. split; intros H.
  - apply H1. eapply anc_trans; [|exact H]. apply anc_split, anc_refl.
  - inversion H; subst; [|contradiction]. apply H1. apply anc_split, anc_refl.
Qed.
Lemma indep_siblings k n i j : i <> j -> indep (Split k n i) (Split k n j).
Proof.
  intros N. split; intros H; inversion H; subst; try congruence;
    match goal with H : anc _ _ |- _ => apply anc_ksize in H; cbn in H; lia end.
Qed.

(** Pairwise independence of a list of keys. *)
Definition antichain (l : list key) : Prop := ForallOrdPairs indep l.

Lemma antichain_lookup l i j a b :
  antichain l -> i <> j -> l !! i = Some a -> l !! j = Some b -> indep a b.
Proof.
  intros H. revert i j. induction H as [|x l Hx _ IH]; intros i j N Hi Hj; [discriminate|].
  destruct i as [|i], j as [|j]; cbn in *; try congruence.
  - injection Hi as <-. rewrite Forall_forall in Hx. apply Hx. eapply elem_of_list_lookup_2; eauto.
  - injection Hj as <-. rewrite Forall_forall in Hx. apply indep_sym, Hx. eapply elem_of_list_lookup_2; eauto.
  - apply (IH i j); auto.
Qed.
Lemma antichain_NoDup l : antichain l -> NoDup l.
Proof.
  induction 1 as [|x l Hx _ IH]; constructor; auto.
  intros H. rewrite Forall_forall in Hx. destruct (Hx _ H) as [K _]. apply K, anc_refl.
Qed.
Lemma antichain_perm l l' : l ≡ₚ l' -> antichain l -> antichain l'.
Proof.
  induction 1 as [|x l l' HP IH|x y l|l1 l2 l3 _ IH1 _ IH2]; intros A; auto.
  - inversion A; subst. constructor; [now rewrite <- HP|apply IH; assumption].
  - inversion A as [|? ? Hy A1]; subst. inversion A1 as [|? ? Hx A2]; subst.
    inversion Hy; subst. constructor; [constructor; [now apply indep_sym|assumption]|].
    constructor; assumption.
Qed.
Lemma antichain_app a b :
  antichain a -> antichain b -> Forall (fun x => Forall (indep x) b) a -> antichain (a ++ b).
Proof.
  intros Ha Hb H. induction Ha as [|x l Hx _ IH]; cbn; [assumption|].
  inversion H; subst. constructor; [apply Forall_app; auto|apply IH; assumption].
Qed.
Lemma antichain_app_inv a b : antichain (a ++ b) -> antichain a /\ antichain b.
Proof.
  induction a as [|x a IH]; cbn; intros H; [split; [constructor|assumption]|].
  inversion H; subst. destruct (IH H3). split; [|assumption]. constructor; [|assumption].
  now apply Forall_app in H2 as [? _].
Qed.

Lemma split_keys_elem k n x : x ∈ split_keys k n -> exists i, i < n /\ x = Split k n i.
Proof.
  unfold split_keys. intros H. apply elem_of_list_In, in_map_iff in H as (i & <- & H).
  apply in_seq in H. exists i. split; [lia|reflexivity].
Qed.
Lemma split_keys_antichain k n : antichain (split_keys k n).
Proof.
  unfold split_keys. generalize (proj2 (NoDup_ListNoDup _) (seq_NoDup n 0)). generalize (seq 0 n). intros l.
  induction l as [|i l IH]; cbn; intros H; constructor.
  - inversion H; subst. rewrite Forall_forall. intros x Hx.
    apply elem_of_list_In, in_map_iff in Hx as (j & <- & Hj). apply indep_siblings.
    intros ->. apply H2. now apply elem_of_list_In.
  - apply IH. now inversion H.
Qed.
Lemma split_keys_length k n : length (split_keys k n) = n.
Proof. unfold split_keys. now rewrite map_length, seq_length. Qed.

(** All keys a sequence holds or has delivered. *)
Definition seq_keys (s : rngseq) : list key := sq_key s :: sq_subs s ++ sq_log s.
Definition good (s : rngseq) : Prop := antichain (seq_keys s).

Lemma good_of_key k : good (seq_of_key k).
Proof. repeat constructor. Qed.

Lemma reserve_spec n s :
  reserve n s = if Nat.ltb 0 n then
    Seq (Split (sq_key s) (n + 1) 0)
        (sq_subs s ++ List.map (Split (sq_key s) (n + 1)) (seq 1 n)) (sq_log s) else s.
Proof.
  unfold reserve. destruct (Nat.ltb 0 n); [|reflexivity].
  unfold split_keys. rewrite Nat.add_comm. reflexivity.
Qed.
Lemma reserve_log n s : sq_log (reserve n s) = sq_log s.
Proof. rewrite reserve_spec. destruct (Nat.ltb 0 n); reflexivity. Qed.
Lemma reserve_subs n s :
  exists l, sq_subs (reserve n s) = sq_subs s ++ l /\ length l = n.
Proof.
  rewrite reserve_spec. destruct (Nat.ltb_spec 0 n).
  - eexists. split; [reflexivity|]. now rewrite map_length, seq_length.
  - exists []. split; [now rewrite app_nil_r|cbn; lia].
Qed.

Lemma good_reserve n s : good s -> good (reserve n s).
Proof.
  unfold good, seq_keys. intros H. rewrite reserve_spec. destruct (Nat.ltb 0 n); [|assumption].
  cbn. set (k := sq_key s) in *. inversion H as [|? ? Hk Hr]; subst.
  set (new := List.map (Split k (n + 1)) (seq 1 n)).
  apply antichain_perm with ((Split k (n + 1) 0 :: new) ++ (sq_subs s ++ sq_log s)).
  { cbn. apply perm_skip. rewrite <- app_assoc. rewrite (app_assoc (sq_subs s) new).
    rewrite (Permutation_app_comm (sq_subs s) new). now rewrite <- app_assoc. }
  apply antichain_app; [| assumption|].
  - assert (Split k (n + 1) 0 :: new = split_keys k (n + 1)) as ->.
    { unfold split_keys, new. rewrite Nat.add_comm. reflexivity. }
    apply split_keys_antichain.
  - rewrite Forall_forall. intros x Hx.
    assert (exists i, x = Split k (n + 1) i) as [i ->].
    { apply elem_of_cons in Hx as [->|Hx]; [eauto|].
      apply elem_of_list_In, in_map_iff in Hx as (i & <- & _). eauto. }
    eapply Forall_impl; [exact Hk|]. intros a Ha. now apply indep_child.
Qed.

Lemma good_drop s n : good s -> good (Seq (sq_key s) (firstn n (sq_subs s)) (sq_log s)).
Proof.
  unfold good, seq_keys. cbn. intros H. inversion H as [|? ? Hk Hr]; subst.
  rewrite <- (take_drop n (sq_subs s)) in Hk, Hr.
  constructor.
  - rewrite !Forall_app in *. tauto.
  - apply (antichain_perm _ (drop n (sq_subs s) ++ (take n (sq_subs s) ++ sq_log s))) in Hr.
    + now apply antichain_app_inv in Hr.
    + rewrite (app_assoc (drop n _)). apply Permutation_app; [|reflexivity].
      apply Permutation_app_comm.
Qed.

Lemma good_full b s : good s -> good (reserve_up_to_full b s).
Proof.
  unfold reserve_up_to_full. destruct (Nat.ltb _ _); [apply good_reserve|apply good_drop].
Qed.

Lemma seq_next_log b s k s' : seq_next b s = Some (k, s') -> sq_log s' = k :: sq_log s.
Proof.
  unfold seq_next. destruct (sq_subs s) as [|x l] eqn:E.
  - destruct (sq_subs (reserve b s)) as [|x l] eqn:F; [discriminate|].
    intros [= <- <-]. cbn. now rewrite reserve_log.
  - rewrite E. intros [= <- <-]. reflexivity.
Qed.
Lemma good_next b s k s' : good s -> seq_next b s = Some (k, s') -> good s'.
Proof.
  unfold seq_next. intros H.
  assert (G : good (match sq_subs s with [] => reserve b s | _ => s end)).
  { destruct (sq_subs s); auto using good_reserve. }
  destruct (sq_subs (match sq_subs s with [] => reserve b s | _ => s end)) as [|x l] eqn:E; [discriminate|].
  intros [= <- <-]. unfold good, seq_keys in *. rewrite E in G. cbn in *.
  eapply antichain_perm; [|exact G]. apply perm_skip. now rewrite Permutation_middle.
Qed.
Lemma seq_nexts_log b n : forall s ks s', seq_nexts b n s = Some (ks, s') ->
  sq_log s' = rev ks ++ sq_log s /\ length ks = n.
Proof.
  induction n as [|n IH]; cbn; intros s ks s'; [intros [= <- <-]; auto|].
  destruct (seq_next b s) as [[k s1]|] eqn:E; [|discriminate].
  destruct (seq_nexts b n s1) as [[ks' s2]|] eqn:E2; [|discriminate].
  intros [= <- <-]. apply IH in E2 as [-> <-]. apply seq_next_log in E as ->.
  cbn. now rewrite <- app_assoc.
Qed.
Lemma good_nexts b n : forall s ks s', good s -> seq_nexts b n s = Some (ks, s') -> good s'.
Proof.
  induction n as [|n IH]; cbn; intros s ks s' G; [now intros [= <- <-]|].
  destruct (seq_next b s) as [[k s1]|] eqn:E; [|discriminate].
  destruct (seq_nexts b n s1) as [[ks' s2]|] eqn:E2; [|discriminate].
  intros [= <- <-]. eauto using good_next.
Qed.
Lemma seq_take_log b n s ks s' : seq_take b n s = Some (ks, s') ->
  sq_log s' = rev ks ++ sq_log s /\ length ks = n.
Proof. unfold seq_take. intros H. apply seq_nexts_log in H. now rewrite reserve_log in H. Qed.
Lemma good_take b n s ks s' : good s -> seq_take b n s = Some (ks, s') -> good s'.
Proof. unfold seq_take. intros G. apply good_nexts. now apply good_reserve. Qed.

(** ** FIFO delivery *)
Lemma seq_nexts_reserved b n : forall s, n <= length (sq_subs s) ->
  seq_nexts b n s = Some (take n (sq_subs s), Seq (sq_key s) (drop n (sq_subs s)) (rev (take n (sq_subs s)) ++ sq_log s)).
Proof.
  induction n as [|n IH]; intros [k subs log] H; [reflexivity|].
  destruct subs as [|x subs]; cbn in *; [lia|].
  rewrite IH by (cbn; lia). cbn. f_equal. f_equal. rewrite <- app_assoc. reflexivity.
Qed.
Lemma seq_next_total b s : 0 < b -> is_Some (seq_next b s).
Proof.
  intros Hb. unfold seq_next. destruct (sq_subs s) as [|x l] eqn:E; [|rewrite E; eauto].
  destruct (reserve_subs b s) as (l & -> & Hl). rewrite E. destruct l; cbn in *; [lia|eauto].
Qed.
Lemma seq_take_spec b n s :
  exists l, sq_subs (reserve (n - length (sq_subs s)) s) = sq_subs s ++ l /\
  seq_take b n s = Some (take n (sq_subs s ++ l),
     Seq (sq_key (reserve (n - length (sq_subs s)) s)) (drop n (sq_subs s ++ l))
         (rev (take n (sq_subs s ++ l)) ++ sq_log s)).
Proof.
  destruct (reserve_subs (n - length (sq_subs s)) s) as (l & E & Hl). exists l. split; [assumption|].
  unfold seq_take. rewrite seq_nexts_reserved.
  - rewrite E, reserve_log. reflexivity.
  - rewrite E, app_length. lia.
Qed.

(** ** Buffer size *)
Lemma full_length b s : length (sq_subs (reserve_up_to_full b s)) = b.
Proof.
  unfold reserve_up_to_full. destruct (Nat.ltb_spec 0 (b - length (sq_subs s))).
  - destruct (reserve_subs (b - length (sq_subs s)) s) as (l & -> & Hl). rewrite app_length. lia.
  - cbn. rewrite take_length. lia.
Qed.
Lemma full_prefix b s : exists l, sq_subs (reserve_up_to_full b s) = take b (sq_subs s) ++ l.
Proof.
  unfold reserve_up_to_full. destruct (Nat.ltb_spec 0 (b - length (sq_subs s))).
  - destruct (reserve_subs (b - length (sq_subs s)) s) as (l & -> & Hl). exists l.
    rewrite take_ge by lia. reflexivity.
  - exists []. now rewrite app_nil_r.
Qed.
Lemma full_log b s : sq_log (reserve_up_to_full b s) = sq_log s.
Proof. unfold reserve_up_to_full. destruct (Nat.ltb _ _); [apply reserve_log|reflexivity]. Qed.

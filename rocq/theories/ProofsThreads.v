(** Proofs about interleaved threads. *)
From stdpp Require Import base list gmap.
From Coq Require Import ZArith Lia.
From Verif Require Import ModelRng ModelThreads.
Local Open Scope list_scope.

Section Proofs.
Context {F E O V : Type}.
Notation mem := (mem F E). Notation tprog := (tprog F E O V). Notation proc := (proc F E O V).
Implicit Types (m : mem) (p : proc).

(** What thread [t] can see. *)
Definition view (m : mem) (t : nat) : list (option F) := map (fun a => m_heap m !! a) (storage (m_frames m) t).
Definition same_view (t : nat) (m m' : mem) : Prop :=
  view m t = view m' t /\ forall s, storage (cb_tls m s) t = storage (cb_tls m' s) t.

Lemma storage_insert_eq {A} (tls : gmap nat (list A)) t l : storage (<[t := l]> tls) t = l.
Proof. unfold storage. now rewrite lookup_insert. Qed.
Lemma storage_insert_ne {A} (tls : gmap nat (list A)) t t' l : t <> t' -> storage (<[t := l]> tls) t' = storage tls t'.
Proof. intros. unfold storage. now rewrite lookup_insert_ne. Qed.
Lemma cb_insert_eq h fr c s x : cb_tls (Mem h fr (<[s := x]> c) : mem) s = x.
Proof. unfold cb_tls. cbn. now rewrite lookup_insert. Qed.
Lemma cb_insert_ne h fr c s s' x : s <> s' -> cb_tls (Mem h fr (<[s := x]> c) : mem) s' = default ∅ (c !! s').
Proof. intros. unfold cb_tls. cbn. now rewrite lookup_insert_ne. Qed.

Lemma exec_sep t (o : op F E O) m : separated m -> separated (fst (exec_op t o m)).
Proof.
  intros (N & B & D). destruct o; cbn; try (split; [|split]; assumption).
  - (* push *) split; [|split]; cbn.
    + intros t'. destruct (decide (t = t')) as [<-|Ht]; [|rewrite storage_insert_ne by assumption; apply N].
      rewrite storage_insert_eq. constructor; [|apply N]. intros Ha. apply B in Ha. lia.
    + intros t' a. rewrite app_length. cbn. destruct (decide (t = t')) as [<-|Ht].
      * rewrite storage_insert_eq. intros [->|Ha]%elem_of_cons; [lia|]. apply B in Ha. lia.
      * rewrite storage_insert_ne by assumption. intros Ha. apply B in Ha. lia.
    + intros t1 t2 a. destruct (decide (t = t1)) as [<-|H1], (decide (t = t2)) as [<-|H2]; auto.
      * rewrite storage_insert_eq, storage_insert_ne by assumption. intros [->|Ha]%elem_of_cons Hb; [apply B in Hb; lia|eauto].
      * rewrite storage_insert_eq, storage_insert_ne by assumption. intros Hb [->|Ha]%elem_of_cons; [apply B in Hb; lia|eauto].
      * rewrite !storage_insert_ne by assumption. eauto.
  - (* pop *) destruct (storage (m_frames m) t) as [|a0 l] eqn:Es; cbn; [split; [|split]; assumption|].
    assert (Hin : forall t' a, a ∈ storage (<[t:=l]> (m_frames m)) t' -> a ∈ storage (m_frames m) t').
    { intros t' a. destruct (decide (t = t')) as [<-|Ht]; [rewrite storage_insert_eq, Es; now right|now rewrite storage_insert_ne]. }
    split; [|split]; cbn.
    + intros t'. destruct (decide (t = t')) as [<-|Ht]; [|rewrite storage_insert_ne by assumption; apply N].
      rewrite storage_insert_eq. specialize (N t). rewrite Es in N. now inversion N.
    + intros t' a Ha. eapply B. eauto.
    + intros t1 t2 a H1 H2. eapply D; eauto.
  - destruct (storage (m_frames m) t) as [|a0 l] eqn:Es; cbn; [split; [|split]; assumption|].
    destruct (m_heap m !! a0); cbn; [|split; [|split]; assumption].
    split; [|split]; cbn; auto. intros t' a Ha. rewrite insert_length. eauto.
  - destruct (storage (cb_tls m s) t); split; [|split| |split]; assumption.
Qed.

Lemma exec_other t t' (o : op F E O) m : t <> t' -> separated m -> same_view t' m (fst (exec_op t o m)).
Proof.
  intros Ht (N & B & D). unfold same_view, view. destruct o; cbn; try (split; reflexivity).
  - split; [|reflexivity]. rewrite storage_insert_ne by assumption. apply map_ext_in. intros a Ha.
    apply elem_of_list_In, B in Ha. now rewrite lookup_app_l.
  - destruct (storage (m_frames m) t); cbn; [split; reflexivity|]. split; [|reflexivity]. now rewrite storage_insert_ne.
  - destruct (storage (m_frames m) t) as [|a0 l] eqn:Es; cbn; [split; reflexivity|].
    destruct (m_heap m !! a0) eqn:Eh; cbn; [|split; reflexivity]. split; [|reflexivity].
    apply map_ext_in. intros a Ha. apply elem_of_list_In in Ha. rewrite list_lookup_insert_ne; [reflexivity|].
    intros <-. apply Ht. apply (D t t' a0); [rewrite Es; now left|assumption].
  - split; [reflexivity|]. intros s'. destruct (decide (s = s')) as [<-|Hs].
    + rewrite cb_insert_eq. now rewrite storage_insert_ne.
    + now rewrite cb_insert_ne.
  - destruct (storage (cb_tls m s) t); cbn; [split; reflexivity|]. split; [reflexivity|]. intros s'.
    destruct (decide (s = s')) as [<-|Hs]; [rewrite cb_insert_eq; now rewrite storage_insert_ne|now rewrite cb_insert_ne].
Qed.

Lemma view_cons m t a l : storage (m_frames m) t = a :: l -> view m t = (m_heap m !! a) :: map (fun a => m_heap m !! a) l.
Proof. intros H. unfold view. now rewrite H. Qed.

Lemma exec_same t (o : op F E O) m m' : separated m -> separated m' -> same_view t m m' ->
  snd (exec_op t o m) = snd (exec_op t o m') /\ same_view t (fst (exec_op t o m)) (fst (exec_op t o m')).
Proof.
  intros (N & B & D) (N' & B' & D') [HV HC].
  assert (HE : storage (m_frames m) t = [] <-> storage (m_frames m') t = []).
  { unfold view in HV. destruct (storage (m_frames m) t), (storage (m_frames m') t); try discriminate; split; congruence. }
  destruct o; cbn.
  - split; [|split; assumption]. destruct (storage (m_frames m) t), (storage (m_frames m') t); try reflexivity; destruct HE as [H1 H2]; (discriminate (H1 eq_refl) || discriminate (H2 eq_refl)).
  - split; [reflexivity|]. split; [|exact HC]. unfold view in *. cbn. rewrite !storage_insert_eq. cbn.
    rewrite !lookup_app_r, !Nat.sub_diag by lia. cbn. f_equal.
    rewrite (map_ext_in _ (fun a => m_heap m !! a) (storage (m_frames m) t)), (map_ext_in _ (fun a => m_heap m' !! a) (storage (m_frames m') t)); [exact HV| |];
      intros a Ha; apply elem_of_list_In in Ha; rewrite lookup_app_l; eauto.
  - destruct (storage (m_frames m) t) as [|a l] eqn:Es, (storage (m_frames m') t) as [|a' l'] eqn:Es'; cbn; try (destruct HE as [H1 H2]; (discriminate (H1 eq_refl) || discriminate (H2 eq_refl))).
    + split; [reflexivity|split; assumption].
    + split; [reflexivity|]. split; [|exact HC]. rewrite (view_cons _ _ _ _ Es), (view_cons _ _ _ _ Es') in HV.
      unfold view. cbn. rewrite !storage_insert_eq. congruence.
  - destruct (storage (m_frames m) t) as [|a l] eqn:Es, (storage (m_frames m') t) as [|a' l'] eqn:Es'; cbn; try (destruct HE as [H1 H2]; (discriminate (H1 eq_refl) || discriminate (H2 eq_refl))).
    + split; [reflexivity|split; assumption].
    + pose proof HV as HV0. rewrite (view_cons _ _ _ _ Es), (view_cons _ _ _ _ Es') in HV. injection HV as Ha Hl. rewrite <- Ha.
      destruct (m_heap m !! a) as [f|] eqn:Eh; cbn; [|split; [reflexivity|split; assumption]]. split; [reflexivity|]. split; [|exact HC].
      unfold view. cbn. rewrite Es, Es'. cbn. specialize (N t). rewrite Es in N. apply NoDup_cons in N as [N _].
      specialize (N' t). rewrite Es' in N'. apply NoDup_cons in N' as [N' _].
      rewrite !list_lookup_insert; [|eapply lookup_lt_Some; symmetry; eassumption|eapply lookup_lt_Some; eassumption]. f_equal.
      rewrite (map_ext_in _ (fun a => m_heap m !! a) l), (map_ext_in _ (fun a => m_heap m' !! a) l'); [exact Hl| |];
        intros b Hb; apply elem_of_list_In in Hb; rewrite list_lookup_insert_ne; [reflexivity|congruence|reflexivity|congruence].
  - split; [reflexivity|]. split; [exact HV|]. intros s'. destruct (decide (s = s')) as [<-|Hs].
    + rewrite !cb_insert_eq, !storage_insert_eq. now rewrite HC.
    + rewrite !cb_insert_ne by assumption. apply HC.
  - rewrite <- HC. destruct (storage (cb_tls m s) t) as [|x l] eqn:Es; cbn; [split; [reflexivity|split; assumption]|].
    split; [reflexivity|]. split; [exact HV|]. intros s'. destruct (decide (s = s')) as [<-|Hs].
    + rewrite !cb_insert_eq, !storage_insert_eq. reflexivity.
    + rewrite !cb_insert_ne by assumption. apply HC.
  - rewrite <- HC. split; [reflexivity|split; assumption].
Qed.

Lemma step_mem_sep t p : separated (p_mem p) -> separated (p_mem (tstep t p)).
Proof.
  intros H. unfold tstep. destruct (p_pool p !! t) as [[v|o k]|]; try assumption.
  pose proof (exec_sep t o (p_mem p) H). destruct (exec_op t o (p_mem p)). assumption.
Qed.

Lemma exec_iso t sched : forall p p', separated (p_mem p) -> separated (p_mem p') -> same_view t (p_mem p) (p_mem p') ->
  p_pool p !! t = p_pool p' !! t ->
  p_pool (exec sched p) !! t = p_pool (exec (filter (fun u => u = t) sched) p') !! t /\
  same_view t (p_mem (exec sched p)) (p_mem (exec (filter (fun u => u = t) sched) p')).
Proof.
  induction sched as [|u sched IH]; intros p p' S S' HV HP; [split; assumption|].
  rewrite filter_cons. destruct (decide (u = t)) as [->|Hu]; cbn [exec].
  - apply IH; [now apply step_mem_sep|now apply step_mem_sep| |]; unfold tstep; rewrite <- HP;
    destruct (p_pool p !! t) as [[v|o k]|] eqn:Et; try assumption; try congruence.
    + pose proof (exec_same t o _ _ S S' HV) as [_ H]. destruct (exec_op t o (p_mem p)), (exec_op t o (p_mem p')). exact H.
    + pose proof (exec_same t o _ _ S S' HV) as [H _]. destruct (exec_op t o (p_mem p)), (exec_op t o (p_mem p')). cbn in *.
      rewrite !lookup_insert. now subst.
  - apply IH; [now apply step_mem_sep|assumption| |]; unfold tstep; destruct (p_pool p !! u) as [[v|o k]|] eqn:Et; try assumption.
    + pose proof (exec_other u t o _ Hu S) as [H1 H2]. destruct (exec_op u o (p_mem p)). cbn in *.
      destruct HV as [H3 H4]. split; [congruence|]. intros s. now rewrite <- H2.
    + destruct (exec_op u o (p_mem p)). cbn. now rewrite lookup_insert_ne.
Qed.

Lemma exec_mem_sep sched : forall p, separated (p_mem p) -> separated (p_mem (exec sched p)).
Proof. induction sched; intros p H; [assumption|]. cbn. apply IHsched. now apply step_mem_sep. Qed.
Lemma fresh_sep : separated (fresh_mem : mem).
Proof.
  assert (H : forall t, storage (m_frames (fresh_mem : mem)) t = []) by (intros t; unfold storage; cbn; now rewrite lookup_empty).
  split; [|split]; intros t; rewrite H; [constructor|intros a Ha|intros t' a Ha]; inversion Ha.
Qed.
Lemma exec_untouched t sched : forall p, ~ t ∈ sched -> storage (m_frames (p_mem (exec sched p))) t = storage (m_frames (p_mem p)) t
  /\ forall s, storage (cb_tls (p_mem (exec sched p)) s) t = storage (cb_tls (p_mem p) s) t.
Proof.
  induction sched as [|u sched IH]; intros p H; [now split|]. cbn. apply not_elem_of_cons in H as [Hu H]. apply not_eq_sym in Hu.
  destruct (IH (tstep u p) H) as [H1 H2]. clear IH.
  assert (HH : storage (m_frames (p_mem (tstep u p))) t = storage (m_frames (p_mem p)) t /\ forall s, storage (cb_tls (p_mem (tstep u p)) s) t = storage (cb_tls (p_mem p) s) t).
  { unfold tstep. destruct (p_pool p !! u) as [[v|o k]|]; try (split; reflexivity).
    destruct o; cbn; try (split; reflexivity).
    - split; [|reflexivity]. now rewrite storage_insert_ne.
    - destruct (storage (m_frames (p_mem p)) u); cbn; [now split|]. split; [|reflexivity]. now rewrite storage_insert_ne.
    - destruct (storage (m_frames (p_mem p)) u) as [|a l]; cbn; [now split|]. destruct (m_heap (p_mem p) !! a); now split.
    - split; [reflexivity|]. intros s'. destruct (decide (s = s')) as [<-|Hs]; [rewrite cb_insert_eq; now rewrite storage_insert_ne|now rewrite cb_insert_ne].
    - destruct (storage (cb_tls (p_mem p) s) u); cbn; [now split|]. split; [reflexivity|].
      intros s'. destruct (decide (s = s')) as [<-|Hs]; [rewrite cb_insert_eq; now rewrite storage_insert_ne|now rewrite cb_insert_ne]. }
  destruct HH as [H3 H4]. split; [congruence|]. intros s. now rewrite H2.
Qed.
End Proofs.

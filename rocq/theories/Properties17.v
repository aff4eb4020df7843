(** C31, C32: threads. *)
From stdpp Require Import base list gmap.
From Coq Require Import ZArith Lia.
From Verif Require Import ModelRng ModelThreads ProofsThreads.
Local Open Scope list_scope.

(** Whatever the other threads do and however the operations interleave, thread [t] goes through the same states, hence observes and returns
    the same, as if only its own operations were executed. *)
Theorem C31_isolation {F E O V} (sched : list nat) (pool : gmap nat (tprog F E O V)) (m : mem F E) t :
  separated m ->
  p_pool (exec sched (Proc m pool)) !! t = p_pool (exec (filter (fun u => u = t) sched) (Proc m pool)) !! t.
Proof. intros H. apply exec_iso; auto. split; reflexivity. Qed.
Print Assumptions C31_isolation.
(** Even if the other threads do not exist. *)
Theorem C31_alone {F E O V} (sched : list nat) (pool : gmap nat (tprog F E O V)) t q :
  pool !! t = Some q ->
  p_pool (exec sched (Proc fresh_mem pool)) !! t =
  p_pool (exec (filter (fun u => u = t) sched) (Proc fresh_mem {[t := q]})) !! t.
Proof.
  intros H. apply (exec_iso t sched (Proc fresh_mem pool) (Proc fresh_mem {[t := q]})); cbn; auto using fresh_sep.
  - split; reflexivity.
  - rewrite H. now rewrite lookup_singleton.
Qed.
Print Assumptions C31_alone.
(** The frames of different threads stay different objects. *)
Theorem C31_separated {F E O V} (sched : list nat) (pool : gmap nat (tprog F E O V)) :
  separated (p_mem (exec sched (Proc fresh_mem pool))).
Proof. apply exec_mem_sep, fresh_sep. Qed.
Print Assumptions C31_separated.
(** A thread that has not run yet, also one started from inside a transformed function, is outside of any
    transform and sees none of the creators, getters and interceptors of its parent. *)
Theorem C31_new_thread {F E O V} (sched : list nat) (pool : gmap nat (tprog F E O V)) t s :
  ~ t ∈ sched -> let m := p_mem (exec sched (Proc fresh_mem pool)) in
  snd (exec_op (O:=O) t Inside m) = Flag false /\ snd (exec_op (O:=O) t (ReadCbs s) m) = Elems [].
Proof.
  intros H m. destruct (exec_untouched t sched (Proc fresh_mem pool) H) as [H1 H2]. fold m in H1, H2. cbn.
  rewrite H1, H2. unfold storage, cb_tls. cbn. now rewrite !lookup_empty.
Qed.
Print Assumptions C31_new_thread.

(** Two threads that each enter a transform, add to a value in their frame and read it, and a third that does nothing but ask. *)
Definition worker (x : nat) : tprog nat nat nat (list (obs nat nat)) :=
  Do (PushFrame x) (fun _ => Do (OnFrame (fun f => (f + 10, f))) (fun a => Do (PushCb 0 x) (fun _ =>
  Do (OnFrame (fun f => (f, f))) (fun b => Do (ReadCbs 0) (fun c => Do PopFrame (fun _ => Do Inside (fun d => Done [a; b; c; d]))))))).
Definition asker : tprog nat nat nat (list (obs nat nat)) := Do Inside (fun a => Done [a]).
Definition C31_sched := [0; 1; 0; 2; 1; 1; 0; 0; 1; 0; 0; 1; 1; 0; 1].
Example C31_case : exists p, p = exec C31_sched (Proc fresh_mem {[0 := worker 1; 1 := worker 2; 2 := asker]}) /\
  p_pool p !! 0 = Some (Done [Got 1; Got 11; Elems [1]; Flag false]) /\
  p_pool p !! 1 = Some (Done [Got 2; Got 12; Elems [2]; Flag false]) /\
  p_pool p !! 2 = Some (Done [Flag false]).
Proof. eexists. split; [reflexivity|]. vm_compute. auto. Qed.

(** The other stacks, thread by thread: the last one pushed is read first and popped first, and a push is seen by no other thread and on no other
    stack. *)
Theorem C31_stacks {F E O} (m : mem F E) t s e :
  let read t s m := snd (exec_op (O := O) t (ReadCbs s) m) in
  let pushed := fst (exec_op (O := O) t (PushCb s e) m) in
  exists l, read t s m = Elems l /\ read t s pushed = Elems (e :: l) /\ read t s (fst (exec_op (O := O) t (PopCb s) pushed)) = Elems l /\
    forall t' s', t' <> t \/ s' <> s -> read t' s' pushed = read t' s' m /\ read t' s' (fst (exec_op (O := O) t (PopCb s) pushed)) = read t' s' m.
Proof.
  cbn. unfold cb_tls, storage. cbn. rewrite !lookup_insert. cbn. rewrite !lookup_insert. cbn. eexists. split; [reflexivity|]. split; [reflexivity|].
  rewrite !lookup_insert. cbn. rewrite !lookup_insert. split; [reflexivity|]. intros t' s' N. destruct (decide (s' = s)) as [->|Ns].
  - destruct N as [N|N]; [|congruence]. rewrite !lookup_insert. cbn. now rewrite !lookup_insert_ne by congruence.
  - now rewrite !lookup_insert_ne by congruence.
Qed.
Print Assumptions C31_stacks.

(** ** Counting key requests *)

(** One thread: nested [with count_hk_rngs_requested()] blocks and requests. *)
Inductive balanced : list gop -> Prop :=
| B_nil : balanced []
| B_req l : balanced l -> balanced (Request :: l)
| B_with body l : balanced body -> balanced l -> balanced (Begin :: body ++ EndCount :: l).
Fixpoint requests (l : list gop) : Z :=
  match l with [] => 0%Z | Request :: l => (1 + requests l)%Z | _ :: l => requests l end.
(** All wrappers in the chain own a counter, and different ones. *)
Definition gok (m : gmem) : Prop := NoDup (g_fn m) /\ Forall (fun c => c < length (g_count m)) (g_fn m).

Lemma requests_app a b : requests (a ++ b) = (requests a + requests b)%Z.
Proof. induction a as [|[] a IH]; cbn; lia. Qed.
Lemma bump_cons i l c : bump (i :: l) c = bump l (alter (Z.add 1) i c).
Proof. reflexivity. Qed.
Lemma bump_length l c : length (bump l c) = length c.
Proof. revert c. induction l as [|i l IH]; intros c; [reflexivity|]. rewrite bump_cons. now rewrite IH, alter_length. Qed.
Lemma bump_notin l c i : ~ i ∈ l -> bump l c !! i = c !! i.
Proof.
  revert c. induction l as [|j l IH]; intros c H; [reflexivity|]. rewrite bump_cons. apply not_elem_of_cons in H as [H1 H2].
  rewrite IH by assumption. apply list_lookup_alter_ne. congruence.
Qed.
Lemma bump_in l c i : NoDup l -> i ∈ l -> bump l c !! i = Z.add 1 <$> c !! i.
Proof.
  revert c. induction l as [|j l IH]; intros c N H; [inversion H|]. rewrite bump_cons. apply NoDup_cons in N as [Nj N].
  apply elem_of_cons in H as [->|H]; [rewrite bump_notin by assumption; apply list_lookup_alter|].
  rewrite IH by assumption. rewrite list_lookup_alter_ne; [reflexivity|congruence].
Qed.

Definition thread_of (ths : gmap nat gthread) (t : nat) : gthread := default (GT [] []) (ths !! t).
Lemma grun_app s1 s2 m ths : grun (s1 ++ s2) m ths = let (m1, ths1) := grun s1 m ths in grun s2 m1 ths1.
Proof. revert m ths. induction s1 as [|[t o] s1 IH]; intros; [cbn; now destruct (grun s2 m ths)|]. cbn. destruct (gexec _ _ _). apply IH. Qed.

Lemma grun_other t s : forall m ths, ~ t ∈ map fst s -> thread_of (snd (grun s m ths)) t = thread_of ths t.
Proof.
  induction s as [|[u o] s IH]; intros m ths H; [reflexivity|]. cbn in H. apply not_elem_of_cons in H as [Hu H]. cbn.
  destruct (gexec _ _ _). rewrite IH by assumption. unfold thread_of. now rewrite lookup_insert_ne by congruence.
Qed.
Lemma balanced_run t l : balanced l -> forall m ths, gok m ->
  exists m' ths' rd, grun (map (pair t) l) m ths = (m', ths') /\ gok m' /\ g_fn m' = g_fn m /\
    length (g_count m) <= length (g_count m') /\
    (forall i, i < length (g_count m) -> g_count m' !! i = if decide (i ∈ g_fn m) then Z.add (requests l) <$> g_count m !! i else g_count m !! i) /\
    gt_saved (thread_of ths' t) = gt_saved (thread_of ths t) /\ gt_read (thread_of ths' t) = rd ++ gt_read (thread_of ths t) /\
    (forall u, u <> t -> thread_of ths' u = thread_of ths u).
Proof.
  induction 1 as [|l H IH|body l Hb IHb Hl IHl]; intros m ths G.
  - exists m, ths, []. split; [reflexivity|]. repeat split; auto; try apply G. intros i Hi. destruct (decide _); [|reflexivity].
    destruct (g_count m !! i); reflexivity.
  - cbn. destruct (IH (GMem (g_fn m) (bump (g_fn m) (g_count m))) (<[t := thread_of ths t]> ths)) as (m' & ths' & rd & E & G' & Hf & Hlen & Hc & Hs & Hr & Ho).
    { destruct G as [G1 G2]. split; [assumption|]. cbn. now rewrite bump_length. }
    exists m', ths', rd. cbn in *. rewrite bump_length in *. unfold thread_of in *. rewrite lookup_insert in Hs, Hr. cbn in Hs, Hr.
    split; [exact E|]. split; [assumption|]. split; [assumption|]. split; [assumption|].
    split; [|split; [assumption|split; [assumption|intros u Hu; rewrite Ho by assumption; rewrite lookup_insert_ne by congruence; reflexivity]]].
    intros i Hi. rewrite Hc by assumption. destruct (decide (i ∈ g_fn m)) as [Hin|Hin].
    + rewrite bump_in by (assumption || apply G). destruct (g_count m !! i); [|reflexivity]. cbn. f_equal. lia.
    + now rewrite bump_notin.
  - cbn [map]. rewrite map_app. cbn [map grun gexec]. fold (thread_of ths t). cbn [gexec].
    set (c := length (g_count m)) in *. set (m1 := GMem (c :: g_fn m) (g_count m ++ [0%Z])).
    assert (G1 : gok m1).
    { destruct G as [G1 G2]. split; cbn.
      - constructor; [|assumption]. intros Hc. rewrite Forall_forall in G2. apply G2 in Hc. lia.
      - rewrite app_length. cbn. constructor; [lia|]. eapply Forall_impl; [exact G2|]. cbn. lia. }
    destruct (IHb m1 (<[t := GT ((c, g_fn m) :: gt_saved (thread_of ths t)) (gt_read (thread_of ths t))]> ths) G1)
      as (m2 & ths2 & rd & E & G2 & Hf & Hlen & Hc & Hs & Hr & Ho).
    rewrite grun_app, E. cbn [grun]. fold (thread_of ths2 t). cbn [gexec]. rewrite Hs. unfold thread_of at 1. rewrite lookup_insert. cbn [default from_option id gt_saved].
    set (m3 := GMem (g_fn m) (g_count m2)).
    assert (L1 : c < length (g_count m2)). { cbn in Hlen. rewrite app_length in Hlen. cbn in Hlen. lia. }
    assert (G3 : gok m3).
    { destruct G as [G3 G4]. split; [assumption|]. cbn. eapply Forall_impl; [exact G4|]. cbn. lia. }
    match goal with |- context[grun _ m3 (<[t := ?th]> ths2)] => set (th3 := th) end.
    destruct (IHl m3 (<[t := th3]> ths2) G3) as (m' & ths' & rd' & E' & G' & Hf' & Hlen' & Hc' & Hs' & Hr' & Ho').
    exists m', ths', (rd' ++ default 0%Z (g_count m2 !! c) :: rd). split; [exact E'|]. split; [assumption|]. split; [assumption|].
    split; [cbn in Hlen'; lia|]. split; [|split; [|split]].
    + intros i Hi. rewrite Hc' by (cbn; lia). cbn. assert (Hi' : i < length (g_count m1)) by (cbn; rewrite app_length; lia).
      rewrite Hc by assumption. cbn. rewrite lookup_app_l by assumption. assert (i <> c) by lia.
      rewrite (decide_ext (i ∈ c :: g_fn m) (i ∈ g_fn m)) by (rewrite elem_of_cons; tauto).
      destruct (decide (i ∈ g_fn m)); [|reflexivity]. destruct (g_count m !! i); [|reflexivity]. cbn. rewrite requests_app. cbn. f_equal. lia.
    + rewrite Hs'. unfold thread_of at 1. rewrite lookup_insert. reflexivity.
    + rewrite Hr'. unfold thread_of at 1. rewrite lookup_insert. cbn. unfold th3. cbn.
      rewrite Hr. unfold thread_of at 1. rewrite lookup_insert. cbn. now rewrite <- app_assoc.
    + intros u Hu. rewrite Ho' by assumption. unfold thread_of at 1. rewrite lookup_insert_ne by congruence. fold (thread_of ths2 u).
      rewrite Ho by assumption. unfold thread_of at 1. now rewrite lookup_insert_ne by congruence.
Qed.

(** Used by one thread only (others may have patched before), a block counts exactly the requests made inside it and
    restores the function. *)
Theorem C32_alone t body m ths : balanced body -> gok m ->
  exists m' ths' rest, grun (map (pair t) (Begin :: body ++ [EndCount])) m ths = (m', ths') /\
    g_fn m' = g_fn m /\ gt_read (thread_of ths' t) = requests body :: rest.
Proof.
  intros Hb G. cbn [map]. rewrite map_app. cbn [map grun gexec]. fold (thread_of ths t). cbn [gexec].
  set (c := length (g_count m)) in *. set (m1 := GMem (c :: g_fn m) (g_count m ++ [0%Z])).
  assert (G1 : gok m1).
  { destruct G as [G1 G2]. split; cbn.
    - constructor; [|assumption]. intros Hc. rewrite Forall_forall in G2. apply G2 in Hc. lia.
    - rewrite app_length. cbn. constructor; [lia|]. eapply Forall_impl; [exact G2|]. cbn. lia. }
  destruct (balanced_run t body Hb m1 (<[t := GT ((c, g_fn m) :: gt_saved (thread_of ths t)) (gt_read (thread_of ths t))]> ths) G1)
    as (m2 & ths2 & rd & E & G2 & Hf & Hlen & Hc & Hs & Hr & Ho).
  rewrite grun_app, E. cbn [grun]. fold (thread_of ths2 t). cbn [gexec]. rewrite Hs. unfold thread_of at 1. rewrite lookup_insert. cbn [default from_option id gt_saved].
  eexists _, _, _. split; [reflexivity|]. split; [reflexivity|]. unfold thread_of at 1. rewrite lookup_insert. cbn.
  rewrite Hc by (cbn; rewrite app_length; cbn; lia). cbn. rewrite decide_True by now left.
  rewrite lookup_app_r, Nat.sub_diag by reflexivity. cbn. f_equal. lia.
Qed.
Print Assumptions C32_alone.
Definition C32_body := [Request; Begin; Request; Request; EndCount; Request].
Example C32_case : balanced C32_body /\ gok g0 /\ requests C32_body = 4%Z /\
  counts (map (pair 0) (Begin :: C32_body ++ [EndCount])) 0 = [4%Z; 2%Z].
Proof.
  split; [apply B_req, (B_with [Request; Request]); repeat constructor|]. split; [split; constructor|]. vm_compute. split; reflexivity.
Qed.

(** Two threads: thread 0 makes one request inside its block, the count it reads is 2. *)
Theorem C32_count_refuted : exists s,
  map snd (filter (fun x => fst x = 0) s) = [Begin; Request; EndCount] /\
  map snd (filter (fun x => fst x = 1) s) = [Request] /\ counts s 0 = [2%Z].
Proof. exists [(0, Begin); (1, Request); (0, Request); (0, EndCount)]. vm_compute. repeat split; reflexivity. Qed.
Print Assumptions C32_count_refuted.
(** Or misses its own request. *)
Theorem C32_missed_refuted : exists s,
  map snd (filter (fun x => fst x = 0) s) = [Begin; Request; EndCount] /\
  map snd (filter (fun x => fst x = 1) s) = [Begin; EndCount] /\ counts s 0 = [0%Z].
Proof. exists [(1, Begin); (0, Begin); (1, EndCount); (0, Request); (0, EndCount)]. vm_compute. repeat split; reflexivity. Qed.
Print Assumptions C32_missed_refuted.
(** After two overlapping blocks have been left a wrapper remains installed, and stays whatever well-nested
    blocks follow. *)
Theorem C32_leak_refuted : exists s, map snd (filter (fun x => fst x = 0) s) = [Begin; EndCount] /\
  map snd (filter (fun x => fst x = 1) s) = [Begin; EndCount] /\
  let (m, ths) := grun s g0 ∅ in
  g_fn m <> [] /\ (forall t, gt_saved (thread_of ths t) = []) /\
  forall t l, balanced l -> g_fn (fst (grun (map (pair t) l) m ths)) = g_fn m.
Proof.
  exists [(0, Begin); (1, Begin); (0, EndCount); (1, EndCount)]. split; [reflexivity|]. split; [reflexivity|].
  assert (E : fst (grun [(0, Begin); (1, Begin); (0, EndCount); (1, EndCount)] g0 ∅) = GMem [0] [0%Z; 0%Z]) by reflexivity.
  destruct (grun _ _ _) as [m ths] eqn:Eg. cbn in E. subst m. split; [discriminate|]. split.
  - intros t. apply (f_equal snd) in Eg. cbn [snd] in Eg. rewrite <- Eg. destruct (decide (t = 0)) as [->|H0]; [reflexivity|].
    destruct (decide (t = 1)) as [->|H1]; [reflexivity|]. rewrite grun_other; [reflexivity|]. cbn. set_solver.
  - intros t l Hl. destruct (balanced_run t l Hl (GMem [0] [0%Z; 0%Z]) ths) as (m' & ths' & rd & -> & _ & Hf & _); [|exact Hf].
    split; cbn; repeat constructor. inversion 1.
Qed.
Print Assumptions C32_leak_refuted.
(** The count decides how [optimize_rng_use] splits the key, so a request by another thread changes every random number of
    the function. *)
Theorem C32_keys_refuted : exists s, map snd (filter (fun x => fst x = 0) s) = [Begin; Request; EndCount] /\
  exists c, counts s 0 = [Z.of_nat c] /\ optimized_keys 1 c 1 (Seed 0) <> optimized_keys 1 1 1 (Seed 0).
Proof.
  exists [(0, Begin); (1, Request); (0, Request); (0, EndCount)]. split; [reflexivity|]. exists 2. vm_compute. split; [reflexivity|discriminate].
Qed.
Print Assumptions C32_keys_refuted.

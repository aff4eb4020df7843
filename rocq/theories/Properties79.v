(** * C102: replicas that share their statistics compute what one device computes on all their batches *)
From Coq Require Import Reals ZArith String List Bool Arith Lia Lra.
From Verif Require Import ModelReal ModelVqEma ModelReplicas Properties14 Properties15 Properties22 Properties47 Properties48.
Import ListNotations.
Local Open Scope R_scope.

(** ** Groups *)
Definition members (gs : groups) (n : nat) : list (list nat) := match gs with None => [seq 0 n] | Some gs => gs end.
(** Every replica is in exactly one group (JAX insists). *)
Definition partition (gs : groups) (n : nat) : Prop := NoDup (concat (members gs n)) /\ forall i, In i (concat (members gs n)) <-> (i < n)%nat.
(** The values of the replicas of a group. *)
Definition of_group {A} (d : A) (g : list nat) (l : list A) : list A := map (fun j => nth j l d) g.
Definition gather {A} (g : list nat) (l : list (list A)) : list A := concat (of_group [] g l).
Definition synced {A} (d : A) (gs : groups) (n : nat) (l : list A) : Prop := forall g, In g (members gs n) -> forall i, In i g -> nth i l d = nth (hd 0%nat g) l d.

Lemma existsb_nat i g : existsb (Nat.eqb i) g = true <-> In i g.
Proof. rewrite existsb_exists. split; [intros (j & J & E); apply Nat.eqb_eq in E; now subst | intros H; exists i; split; [exact H | apply Nat.eqb_refl]]. Qed.
Lemma NoDup_app_disjoint {A} (l m : list A) x : NoDup (l ++ m) -> In x l -> In x m -> False.
Proof. induction l as [|y l IH]; intros N L M; [exact L|]. apply NoDup_cons_iff in N as [N1 N2]. destruct L as [->|L]; [apply N1, in_or_app; auto | auto]. Qed.
Lemma NoDup_app_right {A} (l m : list A) : NoDup (l ++ m) -> NoDup m.
Proof. induction l as [|y l IH]; [auto|]. intros N. apply NoDup_cons_iff in N. apply IH, N. Qed.
Lemma find_group gs g i : NoDup (concat gs) -> In g gs -> In i g -> find (existsb (Nat.eqb i)) gs = Some g.
Proof.
  induction gs as [|h gs IH]; intros N G I; [destruct G|]. cbn [find concat] in *. destruct G as [->|G].
  - now rewrite (proj2 (existsb_nat i g) I).
  - destruct (existsb (Nat.eqb i) h) eqn:E; [|apply IH; [now apply NoDup_app_right in N | exact G | exact I]].
    apply existsb_nat in E. exfalso. apply (NoDup_app_disjoint h (concat gs) i N E). apply in_concat. eauto.
Qed.
Lemma group_of_member gs n g i : partition gs n -> In g (members gs n) -> In i g -> group_of gs n i = g.
Proof.
  intros [N _] G I. destruct gs as [gs|]; cbn [group_of members] in *; [now rewrite (find_group gs g i N G I)|]. destruct G as [<-|[]]. reflexivity.
Qed.
Lemma member_lt gs n g i : partition gs n -> In g (members gs n) -> In i g -> (i < n)%nat.
Proof. intros [_ P] G I. apply P, in_concat. eauto. Qed.
Lemma member_of gs n i : partition gs n -> (i < n)%nat -> exists g, In g (members gs n) /\ In i g.
Proof. intros [_ P] H. apply P, in_concat in H as (g & G & I). eauto. Qed.
Lemma hd_in (g : list nat) : g <> [] -> In (hd 0%nat g) g.
Proof. destruct g; [easy | now left]. Qed.
Lemma no_groups n : partition None n.
Proof. split; cbn [members concat]; rewrite app_nil_r; [apply seq_NoDup | intros i; rewrite in_seq; lia]. Qed.

(** ** Collectives *)
Lemma psum_nth gs vs i : (i < length vs)%nat -> nth i (psum gs vs) 0 = Rsum (of_group 0 (group_of gs (length vs) i) vs).
Proof. intros H. unfold psum. now rewrite seq_nth_map. Qed.
Lemma psum_length gs vs : length (psum gs vs) = length vs. Proof. unfold psum. now rewrite map_length, seq_length. Qed.
Lemma pmean_length gs vs : length (pmean gs vs) = length vs. Proof. unfold pmean. rewrite map_length, combine_length, !psum_length, map_length. lia. Qed.
Lemma nth_map_in {A B} (f : A -> B) da db l i : (i < length l)%nat -> nth i (map f l) db = f (nth i l da).
Proof. intros H. rewrite nth_indep with (d' := f da) by (rewrite map_length; exact H). apply map_nth. Qed.
Lemma pmean_nth gs n g vs i : partition gs n -> length vs = n -> In g (members gs n) -> In i g -> nth i (pmean gs vs) 0 = mean (of_group 0 g vs).
Proof.
  intros P L G I. pose proof (member_lt gs n g i P G I) as Hi. unfold pmean.
  rewrite (nth_map_in _ (0, 0)) by (rewrite combine_length, !psum_length, map_length; lia). rewrite combine_nth by (rewrite !psum_length, map_length; reflexivity). cbn [fst snd].
  rewrite !psum_nth by (rewrite ?map_length; lia). rewrite map_length, L, (group_of_member gs n g i P G I). unfold mean. f_equal. unfold of_group.
  rewrite (map_ext_in _ (fun _ => 1)); [rewrite Rsum_const, map_length; lra|].
  intros j J. rewrite (nth_map_in _ 0); [reflexivity|]. rewrite L. now apply (member_lt gs n g j).
Qed.

(** ** BatchNorm *)
Definition no_stats : R * R := (0, 0).
Lemma replica_stats_length axis gs xss : length (bn_replica_stats axis gs xss) = length xss.
Proof. unfold bn_replica_stats. rewrite map_length, combine_length. destruct (crosses axis); rewrite ?pmean_length, !map_length; lia. Qed.
Lemma replica_stats axis gs n g xss m i : crosses axis = true -> partition gs n -> length xss = n -> (0 < m)%nat -> Forall (fun xs => length xs = m) xss ->
  In g (members gs n) -> In i g -> nth i (bn_replica_stats axis gs xss) no_stats = bn_stats (gather g xss).
Proof.
  intros C P L M F G I. pose proof (member_lt gs n g i P G I) as Hi. unfold gather.
  rewrite <- (C55_cross_replica (of_group [] g xss) m); [| exact M | unfold of_group; destruct g; [destruct I | easy] |].
  2:{ apply Forall_map, Forall_forall. intros j J. rewrite Forall_forall in F. apply F, nth_In. rewrite L. now apply (member_lt gs n g j). }
  unfold bn_replica_stats. rewrite C. rewrite (nth_map_in _ no_stats) by (rewrite combine_length, !pmean_length, !map_length; lia).
  unfold no_stats. rewrite !combine_nth by (rewrite !pmean_length, !map_length; reflexivity). cbn [fst snd].
  rewrite !(pmean_nth gs n g) by (auto; rewrite map_length; exact L). unfold bn_stats_cross, of_group. rewrite !map_map.
  assert (E : forall f : list R -> R, map (fun j => nth j (map f xss) 0) g = map (fun j => f (nth j xss [])) g).
  { intros f. apply map_ext_in. intros j J. apply nth_map_in. rewrite L. now apply (member_lt gs n g j). }
  now rewrite !E.
Qed.
Lemma all_some_nth {A} (l : list (option A)) : match all_some l with
  | Some r => length r = length l /\ forall i d, (i < length l)%nat -> nth i l None = Some (nth i r d)
  | None => exists i, (i < length l)%nat /\ nth i l None = None end.
Proof.
  induction l as [|[a|] l IH]; cbn [all_some].
  - split; [reflexivity | intros i d H; inversion H].
  - destruct (all_some l) as [r|]; cbn [option_map].
    + destruct IH as [L IH]. cbn [length]. split; [now rewrite L|]. intros [|i] d H; [reflexivity|]. cbn [nth]. apply IH. lia.
    + destruct IH as (i & H & E). exists (S i). cbn [length nth]. split; [lia | exact E].
  - exists 0%nat. cbn [length nth]. split; [lia | reflexivity].
Qed.
Lemma normalize_concat eps scale offset stats l : bn_normalize eps scale offset stats (concat l) = concat (map (bn_normalize eps scale offset stats) l).
Proof. unfold bn_normalize. now rewrite concat_map. Qed.

Definition wf_inputs (n : nat) (xss : list (list R)) : Prop := length xss = n /\ exists m, (0 < m)%nat /\ Forall (fun xs => length xs = m) xss.
Lemma bn_step axis gs n decay eps scale offset sts xss tr tl : crosses axis = true -> partition gs n -> length sts = n -> wf_inputs n xss -> synced bn_empty gs n sts ->
  match bn_replicas axis gs decay eps scale offset sts xss tr tl with
  | Some (sts', ys) => length sts' = n /\ synced bn_empty gs n sts' /\ forall g, In g (members gs n) -> g <> [] ->
      bn_call decay eps scale offset (nth (hd 0%nat g) sts bn_empty) (gather g xss) tr tl = Some (nth (hd 0%nat g) sts' bn_empty, gather g ys)
  | None => exists g, In g (members gs n) /\ g <> [] /\ bn_call decay eps scale offset (nth (hd 0%nat g) sts bn_empty) (gather g xss) tr tl = None
  end.
Proof.
  intros C P L [LX (m & M & F)] Y. unfold bn_replicas.
  assert (K : forall stats, length stats = n -> (forall g, In g (members gs n) -> forall i, In i g ->
      (if tr || tl then Some (bn_stats (gather g xss)) else bn_averages (nth (hd 0%nat g) sts bn_empty)) = Some (nth i stats no_stats)) ->
    let results := map (fun p => bn_finish decay eps scale offset (fst (fst p)) (snd (fst p)) (snd p) tr) (combine (combine sts stats) xss) in
    length (map fst results) = n /\ synced bn_empty gs n (map fst results) /\ forall g, In g (members gs n) -> g <> [] ->
      bn_call decay eps scale offset (nth (hd 0%nat g) sts bn_empty) (gather g xss) tr tl = Some (nth (hd 0%nat g) (map fst results) bn_empty, gather g (map snd results))).
  { intros stats LS S results.
    assert (LR : length results = n) by (unfold results; rewrite map_length, !combine_length; lia).
    assert (R : forall i d, (i < n)%nat -> nth i results d = bn_finish decay eps scale offset (nth i sts bn_empty) (nth i stats no_stats) (nth i xss []) tr).
    { intros i d Hi. unfold results. rewrite (nth_map_in _ ((bn_empty, no_stats), [])) by (rewrite !combine_length; lia).
      rewrite combine_nth by (rewrite combine_length; lia). rewrite combine_nth by lia. reflexivity. }
    assert (EQ : forall g, In g (members gs n) -> forall i, In i g -> nth i stats no_stats = nth (hd 0%nat g) stats no_stats).
    { intros g G i I. pose proof (S g G i I) as E1. pose proof (S g G (hd 0%nat g) (hd_in g ltac:(intros ->; destruct I))) as E2. congruence. }
    assert (NF : forall i, (i < n)%nat -> nth i (map fst results) bn_empty = fst (bn_finish decay eps scale offset (nth i sts bn_empty) (nth i stats no_stats) (nth i xss []) tr)).
    { intros i Hi. rewrite (nth_map_in _ (bn_empty, [])) by lia. now rewrite R by exact Hi. }
    split; [now rewrite map_length|]. split.
    - intros g G i I. assert (I0 : In (hd 0%nat g) g) by (apply hd_in; intros ->; destruct I).
      rewrite !NF by (eapply member_lt; eauto). unfold bn_finish. cbn [fst]. rewrite (Y g G i I), (EQ g G i I). reflexivity.
    - intros g G NE. assert (I0 := hd_in g NE). rewrite NF by (eapply member_lt; eauto).
      assert (O : gather g (map snd results) = bn_normalize eps scale offset (nth (hd 0%nat g) stats no_stats) (gather g xss)).
      { unfold gather. rewrite normalize_concat. f_equal. unfold of_group. rewrite map_map. apply map_ext_in. intros j J. pose proof (member_lt gs n g j P G J) as Hj.
        rewrite (nth_map_in _ (bn_empty, [])) by lia. rewrite R by exact Hj. unfold bn_finish. cbn [snd]. now rewrite (EQ g G j J). }
      rewrite O. unfold bn_call. fold (bn_averages (nth (hd 0%nat g) sts bn_empty)). rewrite (S g G _ I0). reflexivity. }
  destruct (tr || tl) eqn:T.
  - apply K; [now rewrite replica_stats_length|]. intros g G i I. f_equal. symmetry. now apply (replica_stats axis gs n g xss m).
  - pose proof (all_some_nth (map bn_averages sts)) as A. destruct (all_some (map bn_averages sts)) as [stats|].
    + destruct A as [LA A]. rewrite map_length in LA, A. apply K; [congruence|]. intros g G i I. rewrite <- (A i no_stats) by (rewrite L; now apply (member_lt gs n g i)).
      rewrite (nth_map_in _ bn_empty) by (rewrite L; now apply (member_lt gs n g i)). now rewrite (Y g G i I).
    + destruct A as (i & Hi & E). rewrite map_length in Hi. destruct (member_of gs n i P ltac:(lia)) as (g & G & I). exists g. split; [exact G|]. split; [intros ->; destruct I|].
      rewrite (nth_map_in _ bn_empty) in E by exact Hi. rewrite (Y g G i I) in E. unfold bn_call. rewrite T. fold (bn_averages (nth (hd 0%nat g) sts bn_empty)). now rewrite E.
Qed.
(** One device: the states after and the outputs of a history of calls. *)
Fixpoint bn_run_outputs (decay eps scale offset : R) (st : bn_state) (calls : list (list R * bool * bool)) : option (bn_state * list (list R)) :=
  match calls with
  | [] => Some (st, [])
  | (xs, tr, tl) :: calls =>
      match bn_call decay eps scale offset st xs tr tl with
      | None => None
      | Some (st, ys) => option_map (fun r => (fst r, ys :: snd r)) (bn_run_outputs decay eps scale offset st calls)
      end
  end.
Definition calls_of_group (g : list nat) (calls : list (list (list R) * bool * bool)) : list (list R * bool * bool) :=
  map (fun c => (gather g (fst (fst c)), snd (fst c), snd c)) calls.
(** Over any history of calls - training, evaluation, [test_local_stats] - the replicas of a group keep equal states, namely those of one device that is
    given the concatenated batches of the group, and their outputs are the pieces of its outputs.  They raise exactly if such a device raises. *)
Theorem C102_batch_norm axis gs n decay eps scale offset calls : crosses axis = true -> partition gs n -> Forall (fun c => wf_inputs n (fst (fst c))) calls ->
  forall sts, length sts = n -> synced bn_empty gs n sts ->
  match bn_replicas_run axis gs decay eps scale offset sts calls with
  | Some (sts', outs) => length sts' = n /\ synced bn_empty gs n sts' /\ forall g, In g (members gs n) -> g <> [] ->
      bn_run_outputs decay eps scale offset (nth (hd 0%nat g) sts bn_empty) (calls_of_group g calls) = Some (nth (hd 0%nat g) sts' bn_empty, map (gather g) outs)
  | None => exists g, In g (members gs n) /\ g <> [] /\ bn_run_outputs decay eps scale offset (nth (hd 0%nat g) sts bn_empty) (calls_of_group g calls) = None
  end.
Proof.
  intros C P W. induction W as [|[[xss tr] tl] calls W1 W2 IH]; intros sts L Y; cbn [bn_replicas_run calls_of_group map fst snd bn_run_outputs].
  - auto.
  - cbn [fst snd] in W1. pose proof (bn_step axis gs n decay eps scale offset sts xss tr tl C P L W1 Y) as S.
    destruct (bn_replicas axis gs decay eps scale offset sts xss tr tl) as [[sts1 ys]|].
    + destruct S as (L1 & Y1 & S). specialize (IH sts1 L1 Y1). destruct (bn_replicas_run axis gs decay eps scale offset sts1 calls) as [[sts' outs]|]; cbn [option_map fst snd].
      * destruct IH as (L2 & Y2 & IH). split; [exact L2|]. split; [exact Y2|]. intros g G NE. rewrite (S g G NE). fold (calls_of_group g calls). rewrite (IH g G NE). reflexivity.
      * destruct IH as (g & G & NE & IH). exists g. split; [exact G|]. split; [exact NE|]. rewrite (S g G NE). fold (calls_of_group g calls). now rewrite IH.
    + destruct S as (g & G & NE & S). exists g. split; [exact G|]. split; [exact NE|]. now rewrite S.
Qed.
Print Assumptions C102_batch_norm.
(** Four replicas in two groups, a training call followed by an evaluation: the replicas 0 and 2 act as one device with a batch of four. *)
Example C102_batch_norm_case :
  let calls := [([[1; 2]; [0; 0]; [3; 4]; [8; 8]], true, false); ([[1; 2]; [0; 0]; [3; 4]; [8; 8]], false, false)] in
  let gs := Some [[0; 2]; [1; 3]]%nat in
  partition gs 4 /\ crosses (Some "i"%string) = true /\ bn_accepts_groups (Some "i"%string) gs = true /\
  match bn_replicas_run (Some "i"%string) gs (1 / 2) 1 1 0 (repeat bn_empty 4) calls with
  | Some (sts, outs) => map (fun st => option_map (fun p => fst p) (bn_averages st)) sts = [Some (5 / 2); Some 4; Some (5 / 2); Some 4] /\ List.length outs = 2%nat
  | None => False
  end.
Proof.
  cbv zeta. split; [|split; [reflexivity | split; [reflexivity|]]].
  - split; cbn [members concat app].
    + repeat constructor; cbn [In]; lia.
    + intros i. cbn [In]. lia.
  - assert (Q : forall a b c d : R, a = 5 / 2 -> b = 4 -> c = 5 / 2 -> d = 4 -> [Some a; Some b; Some c; Some d] = [Some (5 / 2); Some 4; Some (5 / 2); Some 4]) by (intros; subst; reflexivity).
    cbv -[Rplus Rmult Rdiv Rminus Rinv Ropp IZR sqrt]. split; [|reflexivity]. apply Q; field.
Qed.
(** Groups are rejected exactly without the name of an axis. *)
Theorem C102_accepts axis gs : bn_accepts_groups axis gs = false <-> axis = None /\ gs <> None.
Proof. unfold bn_accepts_groups. destruct axis, gs; split; intros H; try discriminate H; try (destruct H; congruence); split; congruence. Qed.
Print Assumptions C102_accepts.
Example C102_accepts_case : bn_accepts_groups None (Some [[0; 1]]%nat) = false /\ bn_accepts_groups None None = true.
Proof. split; reflexivity. Qed.

(** The empty string is accepted as the name of the axis, together with groups, and then nothing is shared. *)
Theorem C102_empty_name_refuted : ~ (forall name gs n xss m, bn_accepts_groups (Some name) (Some gs) = true -> partition (Some gs) n -> wf_inputs n xss -> (0 < m)%nat ->
  forall g i, In g gs -> In i g -> nth i (bn_replica_stats (Some name) (Some gs) xss) no_stats = bn_stats (gather g xss)).
Proof.
  intros H. specialize (H ""%string [[0; 1]]%nat 2%nat [[0]; [2]] 1%nat eq_refl). cbn in H.
  assert (P : partition (Some [[0; 1]]%nat) 2) by (split; cbn [members concat app]; [repeat constructor; cbn [In]; lia | intros i; cbn [In]; lia]).
  assert (W : wf_inputs 2 [[0]; [2]]) by (split; [reflexivity|]; exists 1%nat; split; [lia | repeat constructor]).
  specialize (H P W ltac:(lia) [0; 1]%nat 0%nat (or_introl eq_refl) (or_introl eq_refl)). unfold bn_stats, gather, of_group, mean, square in H. cbn in H. injection H as H _. lra.
Qed.
Print Assumptions C102_empty_name_refuted.

(** ** VectorQuantizerEMA *)
Definition vqe_same (st st' : vqe_state) : Prop :=
  vqe_embeddings st = vqe_embeddings st' /\ (forall j, vqe_size st j = vqe_size st' j) /\ (forall d j, vqe_dw st d j = vqe_dw st' d j).
Lemma of_group_all {A} (d : A) l : of_group d (seq 0 (length l)) l = l.
Proof.
  apply (nth_ext _ _ d d); unfold of_group; rewrite map_length, seq_length; [reflexivity|]. intros i H. now rewrite seq_nth_map.
Qed.
Lemma psum_all vs i : (i < length vs)%nat -> nth i (psum None vs) 0 = Rsum vs.
Proof. intros H. rewrite psum_nth by exact H. cbn [group_of]. now rewrite of_group_all. Qed.
Lemma cluster_size_concat encs j : Rsum (map (fun enc => vqe_cluster_size enc j) encs) = vqe_cluster_size (concat encs) j.
Proof. unfold vqe_cluster_size, column. rewrite concat_map, Rsum_concat, map_map. reflexivity. Qed.
Lemma combine_app {A B} (a a' : list A) (b b' : list B) : length a = length b -> combine (a ++ a') (b ++ b') = combine a b ++ combine a' b'.
Proof. revert b. induction a as [|x a IH]; intros [|y b] E; try discriminate E; [reflexivity|]. cbn [app combine]. f_equal. apply IH. now injection E. Qed.
Lemma sums_concat E k xss d j : Rsum (map (fun p => vqe_sums (fst p) (snd p) d j) (combine xss (map (vq_encodings E k) xss))) = vqe_sums (concat xss) (vq_encodings E k (concat xss)) d j.
Proof.
  induction xss as [|xs xss IH]; [reflexivity|]. cbn [map combine concat fst snd]. rewrite Rsum_cons, IH. unfold vqe_sums, dot, column, vq_encodings.
  rewrite !map_app, combine_app by now rewrite !map_length. now rewrite map_app, Rsum_app.
Qed.
Lemma smoothed_ext k eps f g : (forall j, f j = g j) -> forall j, vqe_smoothed k eps f j = vqe_smoothed k eps g j.
Proof. intros H j. unfold vqe_smoothed. rewrite H. now rewrite (map_ext f g H). Qed.
Lemma vqe_step dim k decay eps sts xss t st : length xss = length sts -> Forall (vqe_same st) sts ->
  Forall (vqe_same (vqe_call dim k decay eps st (concat xss) t)) (vqe_replicas true dim k decay eps sts xss t).
Proof.
  intros L F. destruct t; [|exact F]. unfold vqe_replicas. cbv zeta.
  assert (EN : map (fun p => vq_encodings (vqe_embeddings (fst p)) k (snd p)) (combine sts xss) = map (vq_encodings (vqe_embeddings st) k) xss).
  { clear -L F. revert xss L. induction F as [|s sts S F IH]; intros [|xs xss] L; try discriminate L; [reflexivity|]. cbn [combine map fst snd]. rewrite IH by now injection L. now rewrite (proj1 S). }
  rewrite EN. apply Forall_map, Forall_forall. intros [i s] I. assert (Hi : (i < length sts)%nat) by (apply in_combine_l, in_seq in I; lia). apply in_combine_r in I.
  rewrite Forall_forall in F. destruct (F s I) as (S1 & S2 & S3).
  assert (Z1 : forall j, nth i (psum None (map (fun enc => vqe_cluster_size enc j) (map (vq_encodings (vqe_embeddings st) k) xss))) 0 = vqe_cluster_size (vq_encodings (vqe_embeddings st) k (concat xss)) j).
  { intros j. rewrite psum_all by (rewrite !map_length; lia). rewrite cluster_size_concat. f_equal. unfold vq_encodings. now rewrite <- concat_map. }
  assert (Z2 : forall d j, nth i (psum None (map (fun p => vqe_sums (fst p) (snd p) d j) (combine xss (map (vq_encodings (vqe_embeddings st) k) xss)))) 0 = vqe_sums (concat xss) (vq_encodings (vqe_embeddings st) k (concat xss)) d j).
  { intros d j. rewrite psum_all by (rewrite map_length, combine_length, map_length; lia). apply sums_concat. }
  unfold vqe_call, vqe_same. cbn [vqe_embeddings vqe_size vqe_dw]. split; [|split].
  - apply map_ext. intros d. apply map_ext. intros j. rewrite Z2, <- S3. apply (f_equal2 Rdiv); [reflexivity|]. apply smoothed_ext. intros j'. now rewrite Z1, <- S2.
  - intros j. now rewrite Z1, <- S2.
  - intros d j. now rewrite Z2, <- S3.
Qed.
Lemma vqe_call_same dim k decay eps st st' xs t : vqe_same st st' -> vqe_same (vqe_call dim k decay eps st xs t) (vqe_call dim k decay eps st' xs t).
Proof.
  intros (S1 & S2 & S3). destruct t; [|repeat split; auto]. unfold vqe_call, vqe_same. cbn [vqe_embeddings vqe_size vqe_dw]. rewrite S1. split; [|split].
  - apply map_ext. intros d. apply map_ext. intros j. rewrite S3. apply (f_equal2 Rdiv); [reflexivity|]. apply smoothed_ext. intros j'. now rewrite S2.
  - intros j. now rewrite S2.
  - intros d j. now rewrite S3.
Qed.
(** Over any history, replicas with batches of any sizes that start with equal states keep equal states: those of one device that is given all their vectors. *)
Theorem C102_vq_ema dim k decay eps calls : forall sts st, Forall (fun c => length (fst c) = length sts) calls -> Forall (vqe_same st) sts ->
  let sts' := vqe_replicas_run true dim k decay eps sts calls in
  length sts' = length sts /\ Forall (vqe_same (vqe_run dim k decay eps st (map (fun c => (concat (fst c), snd c)) calls))) sts'.
Proof.
  cbv zeta. induction calls as [|[xss t] calls IH]; intros sts st W F; cbn [vqe_replicas_run map fst snd vqe_run]; [auto|].
  apply Forall_cons_iff in W as [W1 W2]. cbn [fst] in W1. assert (L : length (vqe_replicas true dim k decay eps sts xss t) = length sts).
  { destruct t; [|reflexivity]. unfold vqe_replicas. rewrite map_length, combine_length, seq_length. lia. }
  rewrite <- L. apply IH; [now rewrite L | now apply vqe_step].
Qed.
Print Assumptions C102_vq_ema.
Example C102_vq_ema_case : let st := vqe_new [[0; 4]] in
  map vqe_embeddings (vqe_replicas_run true 1 2 0 1 [st; st] [([[[1]; [3]]; [[5]; [7]]], true)]) =
  map vqe_embeddings [vqe_run 1 2 0 1 st [([[1]; [3]; [5]; [7]], true)]; vqe_run 1 2 0 1 st [([[1]; [3]; [5]; [7]], true)]].
Proof.
  cbv zeta. set (st := vqe_new [[0; 4]]). pose proof (C102_vq_ema 1 2 0 1 [([[[1]; [3]]; [[5]; [7]]], true)] [st; st] st) as H.
  specialize (H ltac:(repeat constructor) ltac:(repeat constructor)). cbv zeta in H. destruct H as [L H].
  destruct (vqe_replicas_run true 1 2 0 1 [st; st] [([[[1]; [3]]; [[5]; [7]]], true)]) as [|a [|b [|c l]]]; try discriminate L.
  apply Forall_cons_iff in H as [(A & _) H]. apply Forall_cons_iff in H as [(B & _) _]. cbn [map fst snd concat app] in A, B |- *. now rewrite <- A, <- B.
Qed.
(** Without [cross_replica_axis] the codebooks drift apart. *)
Theorem C102_local_codebooks_refuted : ~ (forall dim k decay eps st xss t, (forall a b, In a (vqe_replicas false dim k decay eps (map (fun _ => st) xss) xss t) -> In b (vqe_replicas false dim k decay eps (map (fun _ => st) xss) xss t) -> vqe_embeddings a = vqe_embeddings b)).
Proof.
  intros H. specialize (H 1%nat 1%nat 0 1 (vqe_new [[0]]) [[[1]]; [[3]]] true _ _ (or_introl eq_refl) (or_intror (or_introl eq_refl))).
  cbv -[Rplus Rmult Rdiv Rminus Rinv Ropp IZR] in H. injection H as H.
  match type of H with ?a = ?b => assert (A : a = 1) by field; assert (B : b = 3) by field; rewrite A, B in H end. lra.
Qed.
Print Assumptions C102_local_codebooks_refuted.
Lemma pmean_all vs i : (i < length vs)%nat -> nth i (pmean None vs) 0 = mean vs.
Proof. intros H. rewrite (pmean_nth None (length vs) (seq 0 (length vs))); [now rewrite of_group_all | apply no_groups | reflexivity | now left | apply in_seq; lia]. Qed.
(** The perplexity every replica reports is that of the encodings of all replicas, for batches of one size. *)
Theorem C102_perplexity delta k encs m i : (0 < m)%nat -> Forall (fun enc => length enc = m) encs -> (i < length encs)%nat ->
  nth i (vqe_replica_perplexities true delta k encs) 0 = vq_perplexity delta (concat encs) k.
Proof.
  intros M F Hi. unfold vqe_replica_perplexities. rewrite seq_nth_map by exact Hi. unfold vq_perplexity.
  assert (E : forall j, nth i (pmean None (map (fun enc => vq_avg_prob enc j) encs)) 0 = vq_avg_prob (concat encs) j).
  { intros j. rewrite pmean_all by now rewrite map_length. unfold vq_avg_prob. replace (map (fun enc => mean (column j enc)) encs) with (map mean (map (column j) encs)) by apply map_map.
    rewrite (C90_pmean _ m M); [unfold column; now rewrite concat_map|]. apply Forall_map. eapply Forall_impl; [|exact F]. intros enc H. unfold column. now rewrite map_length. }
  do 3 f_equal. apply map_ext. intros j. now rewrite E.
Qed.
Print Assumptions C102_perplexity.
Example C102_perplexity_case : nth 1 (vqe_replica_perplexities true 0 2 [[[1; 0]]; [[0; 1]]]) 0 = 2.
Proof.
  rewrite (C102_perplexity 0 2 _ 1) by (auto; repeat constructor). unfold vq_perplexity, vq_avg_prob, mean, column. cbn -[Rplus Rmult Rdiv Rminus Rinv ln exp].
  replace (- _) with (ln 2); [apply exp_ln; lra|]. replace ((1 + (0 + 0)) / (1 + 1) + 0) with (/ 2) by field. replace ((0 + (1 + 0)) / (1 + 1) + 0) with (/ 2) by field. rewrite ln_Rinv by lra. field.
Qed.
(** The loss is not shared; the mean of the replicas' losses is the loss on all vectors. *)
Theorem C102_loss E k dim xss m : (0 < m)%nat -> (0 < dim)%nat -> length E = dim -> Forall (fun xs => length xs = m /\ Forall (fun x => length x = dim) xs) xss ->
  mean (map (vq_latent_loss E k) xss) = vq_latent_loss E k (concat xss).
Proof.
  intros M D LE F. unfold vq_latent_loss. set (f := fun x => zipw (fun q v => square (q - v)) (vq_quantize E (vq_index x E k)) x).
  replace (map (fun xs => mean (concat (map f xs))) xss) with (map mean (map (fun xs => concat (map f xs)) xss)) by apply map_map.
  rewrite (C90_pmean _ (m * dim)%nat); [| nia |].
  - f_equal. rewrite concat_map, <- map_map. clear. induction xss as [|xs xss IH]; [reflexivity|]. cbn [map concat]. now rewrite concat_app, IH.
  - apply Forall_map. eapply Forall_impl; [|exact F]. intros xs [L X]. rewrite <- L. clear -X LE. induction X as [|x xs Hx X IH]; [reflexivity|]. cbn [map concat length]. rewrite app_length, IH.
    unfold f, zipw, vq_quantize, column. rewrite map_length, combine_length, map_length. lia.
Qed.
Print Assumptions C102_loss.

(** * C88: the transformer's training loop - keys, checkpoints, restarts - and its dataset *)
From Coq Require Import String Ascii List Bool Arith NArith Lia Permutation Sorted.
From Verif Require Import ModelCheckpoint.
Import ListNotations.

(** ** File names are ordered as numbers below ten million *)
Definition lex (c1 c2 : comparison) : comparison := match c1 with Eq => c2 | c => c end.
(** [w] digits. *)
Fixpoint fixed (w : nat) (n : N) (acc : string) : string := match w with O => acc | S w => fixed w (n / 10)%N (String (digit (n mod 10)) acc) end.
Lemma fixed_zero w : forall acc, fixed w 0 acc = zeros w acc.
Proof.
  induction w as [|w IH]; intros acc; [reflexivity|]. cbn [fixed]. change (0 / 10)%N with 0%N. change (digit (0 mod 10)) with "0"%char. rewrite IH. clear IH.
  induction w as [|w IH]; [reflexivity|]. cbn [zeros] in *. now rewrite IH.
Qed.
Lemma digits_longer f : forall n acc, String.length acc <= String.length (digits_of f n acc).
Proof. induction f as [|f IH]; intros n acc; cbn [digits_of]; [lia|]. destruct (n <? 10)%N; [cbn; lia|]. specialize (IH (n / 10)%N (String (digit (n mod 10)) acc)). cbn in IH. lia. Qed.
Lemma pad_fixed w : forall f n acc, (n < 10 ^ N.of_nat w)%N -> 0 < w -> (n < 2 ^ N.of_nat f)%N -> 0 < f -> zeros (w + String.length acc - String.length (digits_of f n acc)) (digits_of f n acc) = fixed w n acc.
Proof.
  induction w as [|w IH]; intros f n acc Hn Hw Hf Hf'; [lia|]. destruct f as [|f]; [lia|]. cbn [digits_of fixed]. destruct (N.ltb_spec n 10) as [L|L].
  - rewrite N.div_small by exact L. rewrite fixed_zero. cbn [String.length]. f_equal. lia.
  - assert (D : (n / 10 < 10 ^ N.of_nat w)%N) by (apply N.div_lt_upper_bound; [lia|]; rewrite Nat2N.inj_succ, N.pow_succ_r' in Hn; exact Hn).
    assert (W : 0 < w). { destruct w; [|lia]. cbn in D. assert (n / 10 >= 1)%N by (apply N.le_ge, N.div_le_lower_bound; lia). lia. }
    rewrite Nat2N.inj_succ, N.pow_succ_r' in Hf. assert (Q : (n / 10 < 2 ^ N.of_nat f)%N) by (apply N.div_lt_upper_bound; lia).
    rewrite <- (IH f (n / 10)%N (String (digit (n mod 10)) acc) D W Q).
    + f_equal. cbn [String.length]. lia.
    + destruct f; [|lia]. change (2 ^ N.of_nat 0)%N with 1%N in Q. assert (n / 10 >= 1)%N by (apply N.le_ge, N.div_le_lower_bound; lia). lia.
Qed.
Lemma pad7_fixed n : (n < 10000000)%N -> pad7 n = fixed 7 n "".
Proof.
  intros H. unfold pad7, decimal. set (f := S (N.to_nat (N.log2 n))). rewrite <- (pad_fixed 7 f n ""); [reflexivity|exact H|lia| |unfold f; lia].
  unfold f. rewrite Nat2N.inj_succ, N2Nat.id. destruct n as [|n]; [reflexivity|]. now apply N.log2_spec.
Qed.
Lemma digit_order a b : (a < 10)%N -> (b < 10)%N -> Ascii.compare (digit a) (digit b) = (a ?= b)%N.
Proof. intros A B. unfold Ascii.compare, digit. rewrite !N_ascii_embedding by lia. destruct (N.compare_spec a b), (N.compare_spec (48 + a) (48 + b)); try reflexivity; lia. Qed.
Lemma fixed_order w : forall m n a b, (m < 10 ^ N.of_nat w)%N -> (n < 10 ^ N.of_nat w)%N -> String.compare (fixed w m a) (fixed w n b) = lex (m ?= n)%N (String.compare a b).
Proof.
  induction w as [|w IH]; intros m n a b Hm Hn.
  - change (10 ^ N.of_nat 0)%N with 1%N in *. replace m with 0%N by lia. replace n with 0%N by lia. reflexivity.
  - rewrite Nat2N.inj_succ, N.pow_succ_r' in Hm, Hn. cbn [fixed]. rewrite IH by (apply N.div_lt_upper_bound; lia). cbn [String.compare].
    rewrite digit_order by (apply N.mod_lt; lia). pose proof (N.div_mod m 10 ltac:(lia)). pose proof (N.div_mod n 10 ltac:(lia)). pose proof (N.mod_lt m 10 ltac:(lia)). pose proof (N.mod_lt n 10 ltac:(lia)).
    revert H H0 H1 H2. generalize (m / 10)%N (n / 10)%N (m mod 10)%N (n mod 10)%N. intros q q' r r' H H0 H1 H2.
    unfold lex. destruct (N.compare_spec q q'), (N.compare_spec r r'), (N.compare_spec m n); try reflexivity; lia.
Qed.
Lemma compare_app s : forall a b, String.compare (s ++ a) (s ++ b) = String.compare a b.
Proof. induction s as [|c s IH]; intros a b; [reflexivity|]. cbn. unfold Ascii.compare. rewrite N.compare_refl. apply IH. Qed.
Lemma fixed_app w : forall n a s, (fixed w n a ++ s)%string = fixed w n (a ++ s).
Proof. induction w as [|w IH]; intros n a s; [reflexivity|]. cbn [fixed]. rewrite IH. reflexivity. Qed.
Theorem C88_names m n : (m < 10000000)%N -> (n < 10000000)%N -> String.compare (checkpoint_name m) (checkpoint_name n) = (m ?= n)%N.
Proof.
  intros Hm Hn. unfold checkpoint_name. rewrite compare_app, !pad7_fixed by assumption. rewrite !fixed_app, fixed_order by assumption.
  unfold lex. destruct (m ?= n)%N eqn:E; reflexivity.
Qed.
(** From ten million steps on the order of the names is no longer that of the steps. *)
Theorem C88_names_refuted : ~ (forall m n, (m < n)%N -> String.compare (checkpoint_name m) (checkpoint_name n) = Lt).
Proof. intros H. specialize (H 9990000 10000000 ltac:(lia))%N. vm_compute in H. discriminate. Qed.
Lemma name_checkpoint n : is_checkpoint (checkpoint_name n) = true.
Proof. unfold checkpoint_name. generalize (pad7 n ++ ".pkl")%string. intros [|c s]; reflexivity. Qed.
Lemma name_inj m n : (m < 10000000)%N -> (n < 10000000)%N -> checkpoint_name m = checkpoint_name n -> m = n.
Proof.
  intros Hm Hn E. pose proof (C88_names m n Hm Hn) as C. rewrite E in C. apply N.compare_eq. rewrite <- C.
  clear. induction (checkpoint_name n) as [|c s IH]; [reflexivity|]. cbn. unfold Ascii.compare. rewrite N.compare_refl. exact IH.
Qed.
Print Assumptions C88_names.
Print Assumptions C88_names_refuted.

Section Loop.
Context {K D P O : Type} (split : K -> K * K) (net_init : K -> D -> P) (opt_init : P -> O) (learn : P -> O -> K -> D -> P * O).
Notation ustate := (ustate K P O). Notation dir := (dir K P O).
Notation u_init := (u_init split net_init opt_init). Notation u_update := (u_update split learn).
Notation restore := (restore split net_init opt_init). Notation c_update := (c_update split learn).
Notation run_session := (run_session split net_init opt_init learn). Notation run_sessions := (run_sessions split net_init opt_init learn).

(** ** What the files hold *)
(** The state after the given batches, when nothing interrupts. *)
Definition uninterrupted (master : K) (first : D) (batches : list D) : ustate := fold_left u_update batches (u_init master first).
Definition trained (master : K) (s : ustate) : Prop := exists first batches, s = uninterrupted master first batches.
Lemma update_step s d : u_step (u_update s d) = (u_step s + 1)%N.
Proof. unfold u_update. destruct (split (u_rng s)), (learn (u_params s) (u_opt s) k d). reflexivity. Qed.
Lemma fold_step ds : forall s, u_step (fold_left u_update ds s) = (u_step s + N.of_nat (length ds))%N.
Proof. induction ds as [|d ds IH]; intros s; cbn [fold_left length]; [lia|]. rewrite IH, update_step. lia. Qed.
Lemma uninterrupted_step master first ds : u_step (uninterrupted master first ds) = N.of_nat (length ds).
Proof. unfold uninterrupted. rewrite fold_step. unfold u_init. destruct (split master). reflexivity. Qed.
Lemma trained_update master s d : trained master s -> trained master (u_update s d).
Proof. intros (first & ds & ->). exists first, (ds ++ [d]). unfold uninterrupted. now rewrite fold_left_app. Qed.
(** A directory in which every file is a checkpoint of this training. *)
Definition sound (every : N) (master : K) (d : dir) : Prop :=
  NoDup (map fst d) /\ forall p x, In (p, x) d -> exists c, p = checkpoint_name c /\ (c mod every = 0)%N /\ forall s, x = Some s -> u_step s = c /\ trained master s.
Lemma lookup_in p x d : lookup (K := K) (P := P) (O := O) p d = Some x -> In (p, x) d.
Proof. induction d as [|[q y] d IH]; cbn [lookup]; [discriminate|]. destruct (String.eqb_spec p q) as [->|]; [intros [= ->]; now left|right; auto]. Qed.
Lemma in_lookup p x d : NoDup (map fst d) -> In (p, x) d -> lookup (K := K) (P := P) (O := O) p d = Some x.
Proof.
  induction d as [|[q y] d IH]; cbn [lookup map fst]; intros ND [].
  - injection H as -> ->. now rewrite String.eqb_refl.
  - apply NoDup_cons_iff in ND as [N ND]. destruct (String.eqb_spec p q) as [->|]; [|auto]. destruct N. apply in_map_iff. now exists (q, x).
Qed.
Lemma in_write p x d q y : In (q, y) (write (K := K) (P := P) (O := O) p x d) -> (q = p /\ y = x) \/ (q <> p /\ In (q, y) d) \/ In (q, y) d.
Proof.
  induction d as [|[r z] d IH]; cbn [write].
  - intros [[= -> ->]|[]]. auto.
  - destruct (String.eqb_spec p r) as [->|Hn].
    + intros [[= -> ->]|H]; [auto|]. right. right. now right.
    + intros [[= -> ->]|H]; [right; right; now left|]. destruct (IH H) as [?|[[? ?]|?]]; [auto|right; right; now right..].
Qed.
Lemma write_keys p x d : map fst (write (K := K) (P := P) (O := O) p x d) = map fst d \/ (~ In p (map fst d) /\ map fst (write p x d) = map fst d ++ [p]).
Proof.
  induction d as [|[r z] d IH]; cbn [write map fst].
  - right. split; [intros []|reflexivity].
  - destruct (String.eqb_spec p r) as [->|Hn]; [now left|]. cbn [map fst]. destruct IH as [->|[N ->]]; [now left|]. right. split; [intros [->|H]; [now apply Hn|auto]|reflexivity].
Qed.
Lemma write_nodup p x d : NoDup (map fst d) -> NoDup (map fst (write (K := K) (P := P) (O := O) p x d)).
Proof.
  intros ND. destruct (write_keys p x d) as [->|[N ->]]; [exact ND|]. apply (Permutation_NoDup (l := p :: map fst d)); [apply Permutation_cons_append|]. now constructor.
Qed.
Lemma lookup_write p x d q : lookup q (write (K := K) (P := P) (O := O) p x d) = if String.eqb q p then Some x else lookup q d.
Proof.
  induction d as [|[r z] d IH]; cbn [write lookup]; [reflexivity|]. destruct (String.eqb_spec p r) as [->|Hn]; cbn [lookup].
  - now destruct (String.eqb_spec q r).
  - destruct (String.eqb_spec q r) as [->|]; [now destruct (String.eqb_spec r p) as [->|]|exact IH].
Qed.
Lemma sound_write every master d s x : sound every master d -> (u_step s mod every = 0)%N -> (forall s', x = Some s' -> s' = s) -> trained master s -> sound every master (write (checkpoint_name (u_step s)) x d).
Proof.
  intros [ND F] E X T. split; [now apply write_nodup|]. intros p y H. apply in_write in H as [[-> ->]|[[_ H]|H]]; [|now apply F..].
  exists (u_step s). split; [reflexivity|]. split; [exact E|]. intros s' ->. now rewrite (X s' eq_refl).
Qed.
Lemma sound_updates every master ds : forall d s, sound every master d -> trained master s ->
  let (d', s') := fold_left (c_update every) ds (d, s) in sound every master d' /\ trained master s' /\ s' = fold_left u_update ds s.
Proof.
  induction ds as [|b ds IH]; intros d s S T; cbn [fold_left]; [auto|].
  assert (E : c_update every (d, s) b = (if (u_step s mod every =? 0)%N then write (checkpoint_name (u_step s)) (Some s) d else d, u_update s b)) by reflexivity. rewrite E. clear E.
  apply IH; [|now apply trained_update]. destruct (N.eqb_spec (u_step s mod every) 0); [|exact S]. apply sound_write; auto. intros s' [= ->]; reflexivity.
Qed.
Definition any_order (listdir : list string -> list string) : Prop := forall l, Permutation l (listdir l).
Lemma restore_sound every master listdir first d s : any_order listdir -> sound every master d -> restore listdir master first d = Some s -> trained master s.
Proof.
  intros A [ND S] R. unfold restore in R. destruct (rev (checkpoint_paths listdir d)) as [|p ps].
  - injection R as <-. exists first, []. reflexivity.
  - destruct (lookup p d) as [[s'|]|] eqn:L; try discriminate. injection R as <-. apply lookup_in, S in L as (c & _ & _ & H). now apply (H s').
Qed.
(** Whatever the order of the files, and wherever processes are killed: a complete file named after step c holds the state of an uninterrupted
    training of c steps, and the state of a process is always that of an uninterrupted training. *)
Theorem C88_files every master rs : Forall (fun r => any_order (s_listdir r)) rs ->
  let d := run_sessions every master [] rs in
  (forall p s, lookup p d = Some (Some s) -> exists first batches, s = uninterrupted master first batches /\ p = checkpoint_name (N.of_nat (length batches)) /\ (N.of_nat (length batches) mod every = 0)%N) /\
  (forall r, any_order (s_listdir r) -> forall s, snd (run_session every master d r) = Some s -> trained master s).
Proof.
  intros F. assert (S : sound every master (run_sessions every master [] rs)).
  { unfold run_sessions. assert (G : forall d, sound every master d -> sound every master (fold_left (fun d r => fst (run_session every master d r)) rs d)); [|apply G; split; [constructor|intros p x []]].
    induction F as [|r rs A F IH]; intros d S; cbn [fold_left]; [exact S|]. apply IH. unfold run_session.
    destruct (restore (s_listdir r) master (s_first r) d) as [s|] eqn:R; [|exact S]. apply (restore_sound every) in R; [|exact A|exact S].
    pose proof (sound_updates every master (s_batches r) d s S R) as G. destruct (fold_left (c_update every) (s_batches r) (d, s)) as [d' s']. destruct G as (S' & T' & _). cbn [fst].
    destruct (s_torn r); cbn [andb]; [|exact S']. destruct (N.eqb_spec (u_step s' mod every) 0); [|exact S']. apply sound_write; auto. discriminate. }
  intros d. fold d in S. split.
  - intros p s L. apply lookup_in in L. destruct S as [_ S]. apply S in L as (c & -> & Ec & H). destruct (H s eq_refl) as [Es (first & ds & ->)]. rewrite uninterrupted_step in Es. subst c. now exists first, ds.
  - intros r A s E. unfold run_session in E. destruct (restore (s_listdir r) master (s_first r) d) as [s0|] eqn:R; [|discriminate]. apply (restore_sound every) in R; [|exact A|exact S].
    pose proof (sound_updates every master (s_batches r) d s0 S R) as G. destruct (fold_left (c_update every) (s_batches r) (d, s0)) as [d' s']. injection E as <-. apply G.
Qed.

(** ** With names in alphabetical order, restarts continue from the last checkpoint *)
Definition alphabetical (listdir : list string -> list string) : Prop := any_order listdir /\ forall l, StronglySorted (fun a b => String.compare a b <> Gt) (listdir l).
(** The newest file of the directory. *)
Definition newest (d : dir) (c : N) : Prop := In (checkpoint_name c) (map fst d) /\ forall c', In (checkpoint_name c') (map fst d) -> (c' < 10000000)%N -> (c' <= c)%N.
(** All files are complete, and of steps below ten million. *)
Definition complete (every : N) (master : K) (d : dir) : Prop := sound every master d /\ forall p x, In (p, x) d -> exists s, x = Some s /\ p = checkpoint_name (u_step s) /\ (u_step s < 10000000)%N.
Lemma sorted_filter {A} (R : A -> A -> Prop) f l : StronglySorted R l -> StronglySorted R (filter f l).
Proof.
  induction 1 as [|x l S IH F]; [constructor|]. cbn. destruct (f x); [|exact IH]. constructor; [exact IH|]. apply Forall_forall. intros y Hy. apply filter_In in Hy as [Hy _]. rewrite Forall_forall in F. auto.
Qed.
Lemma sorted_last {A} (R : A -> A -> Prop) l x : StronglySorted R (l ++ [x]) -> forall y, In y l -> R y x.
Proof. induction l as [|z l IH]; intros S y []; cbn [app] in S; apply StronglySorted_inv in S as [S F]; [subst; rewrite Forall_forall in F; apply F, in_or_app; right; now left|auto]. Qed.
Lemma newest_restored every master listdir first d c : alphabetical listdir -> complete every master d -> newest d c -> (c < 10000000)%N ->
  exists s, restore listdir master first d = Some s /\ u_step s = c /\ lookup (checkpoint_name c) d = Some (Some s).
Proof.
  intros [A S] [[ND So] C] [N1 N2] Hc. unfold restore. set (l := checkpoint_paths listdir d).
  assert (IL : forall c', In (checkpoint_name c') (map fst d) -> In (checkpoint_name c') l). { intros c' H. apply filter_In. split; [apply (Permutation_in _ (A _)), H|apply name_checkpoint]. }
  assert (SL : StronglySorted (fun a b => String.compare a b <> Gt) l) by apply sorted_filter, S.
  destruct (rev l) as [|p ps] eqn:R.
  - assert (l = []) by (rewrite <- (rev_involutive l), R; reflexivity). specialize (IL c N1). rewrite H in IL. destruct IL.
  - assert (EL : l = rev ps ++ [p]) by (rewrite <- (rev_involutive l), R; reflexivity).
    assert (IP : In p (map fst d)). { assert (IP : In p l) by (rewrite EL; apply in_or_app; right; now left). apply filter_In in IP as [IP _]. now apply (Permutation_in _ (Permutation_sym (A _))). }
    apply in_map_iff in IP as ([p' x] & E & IP). cbn in E. subst p'. destruct (C p x IP) as (s & -> & -> & Hs).
    assert (Es : u_step s = c). { apply N.le_antisymm.
      - apply N2; [apply in_map_iff; now exists (checkpoint_name (u_step s), Some s)|exact Hs].
      - specialize (IL c N1). rewrite EL in IL, SL. apply in_app_or in IL as [IL|[IL|[]]]; [|apply name_inj in IL; [lia|assumption..]].
        pose proof (sorted_last _ _ _ SL _ IL) as L. cbv beta in L. rewrite C88_names in L by assumption. destruct (N.compare_spec c (u_step s)); [lia..|congruence]. }
    rewrite (in_lookup _ _ _ ND IP). exists s. rewrite <- Es. split; [reflexivity|]. split; [reflexivity|]. now apply in_lookup.
Qed.
Lemma complete_write every master d s : complete every master d -> (u_step s mod every = 0)%N -> trained master s -> (u_step s < 10000000)%N -> complete every master (write (checkpoint_name (u_step s)) (Some s) d).
Proof.
  intros [S C] E T L. split; [apply sound_write; auto; intros s' [= ->]; reflexivity|]. intros p x H. apply in_write in H as [[-> ->]|[[_ H]|H]]; [|now apply C..]. now exists s.
Qed.
Lemma newest_write every master d s c : complete every master d -> newest d c \/ d = [] -> (c <= u_step s)%N -> (c < 10000000)%N -> (u_step s < 10000000)%N -> newest (write (checkpoint_name (u_step s)) (Some s) d) (u_step s).
Proof.
  intros C N L Hc Hs. split.
  - apply in_map_iff. exists (checkpoint_name (u_step s), Some s). split; [reflexivity|]. apply lookup_in. now rewrite lookup_write, String.eqb_refl.
  - intros c' H Hc'. destruct (write_keys (checkpoint_name (u_step s)) (Some s) d) as [E|[_ E]]; rewrite E in H.
    + destruct N as [N| ->]; [|destruct H]. destruct N as [_ N]. specialize (N c' H Hc'). lia.
    + apply in_app_or in H as [H|[H|[]]]; [|apply name_inj in H; [lia|assumption..]]. destruct N as [N| ->]; [|destruct H]. destruct N as [_ N]. specialize (N c' H Hc'). lia.
Qed.
Lemma running every master ds : (0 < every)%N -> forall d s, complete every master d -> trained master s -> (u_step s + N.of_nat (length ds) < 10000000)%N -> (0 < u_step s)%N ->
  newest d ((u_step s - 1) / every * every) ->
  let (d', s') := fold_left (c_update every) ds (d, s) in complete every master d' /\ trained master s' /\ u_step s' = (u_step s + N.of_nat (length ds))%N /\ newest d' ((u_step s' - 1) / every * every).
Proof.
  intros He. induction ds as [|b ds IH]; intros d s C T L L0 N.
  - cbn. split; [exact C|]. split; [exact T|]. split; [lia|exact N].
  - cbn [fold_left length] in *.
    assert (E : c_update every (d, s) b = (if (u_step s mod every =? 0)%N then write (checkpoint_name (u_step s)) (Some s) d else d, u_update s b)) by reflexivity. rewrite E. clear E.
    set (d1 := if (u_step s mod every =? 0)%N then write (checkpoint_name (u_step s)) (Some s) d else d).
    assert (G : complete every master d1 /\ newest d1 (u_step s / every * every)).
    { unfold d1. pose proof (N.div_mod (u_step s) every ltac:(lia)) as DM. pose proof (N.mod_lt (u_step s) every ltac:(lia)) as ML. destruct (N.eqb_spec (u_step s mod every) 0) as [E|E].
      - split; [apply complete_write; auto; lia|]. replace (u_step s / every * every)%N with (u_step s) by lia.
        apply (newest_write every master d s ((u_step s - 1) / every * every) C); [now left| |..|lia]; pose proof (N.mul_div_le (u_step s - 1) every ltac:(lia)); lia.
      - split; [exact C|]. replace (u_step s / every)%N with ((u_step s - 1) / every)%N; [exact N|].
        symmetry. apply N.div_unique with (r := (u_step s mod every - 1)%N); [lia|]. clear -DM E L0. generalize dependent (every * (u_step s / every))%N. generalize dependent (u_step s mod every)%N. intros. lia. }
    destruct G as [C1 N1]. specialize (IH d1 (u_update s b) C1 (trained_update _ _ _ T)). rewrite update_step in IH.
    replace (u_step s + 1 - 1)%N with (u_step s) in IH by lia. specialize (IH ltac:(lia) ltac:(lia) N1). destruct (fold_left (c_update every) ds (d1, u_update s b)) as [d' s'].
    destruct IH as (I1 & I2 & I3 & I4). split; [exact I1|]. split; [exact I2|]. split; [lia|exact I4].
Qed.
(** With no checkpoint, training starts at step 0; with checkpoints it continues from the newest. After k more batches the newest checkpoint is that of
    the last multiple of [every] below the current step. *)
Theorem C88_resume every master d c r : (0 < every)%N -> alphabetical (s_listdir r) -> s_torn r = false -> s_batches r <> [] ->
  complete every master d -> (newest d c \/ d = [] /\ c = 0%N) -> (c + N.of_nat (length (s_batches r)) < 10000000)%N ->
  exists d' s, run_session every master d r = (d', Some s) /\ u_step s = (c + N.of_nat (length (s_batches r)))%N /\ complete every master d' /\
    newest d' ((u_step s - 1) / every * every).
Proof.
  intros He A T B C N L. destruct (s_batches r) as [|b ds] eqn:EB; [congruence|]. clear B.
  assert (R : exists s, restore (s_listdir r) master (s_first r) d = Some s /\ u_step s = c /\ trained master s /\ (c mod every = 0)%N).
  { destruct N as [N|[-> ->]].
    - destruct (newest_restored every master (s_listdir r) (s_first r) d c A C N ltac:(lia)) as (s & R & Es & Ls). exists s. split; [exact R|]. split; [exact Es|].
      apply lookup_in in Ls. destruct (proj2 (proj1 C) _ _ Ls) as (c' & _ & E' & H). destruct (H s eq_refl) as [H1 H2]. split; [exact H2|]. rewrite <- Es, H1. exact E'.
    - exists (u_init master (s_first r)). split.
      + unfold restore, checkpoint_paths. cbn [map]. destruct A as [A _]. specialize (A []). apply Permutation_nil in A. now rewrite A.
      + split; [apply (uninterrupted_step master (s_first r) [])|]. split; [now exists (s_first r), []|]. now apply N.mod_0_l; lia. }
  destruct R as (s & R & Es & Ts & Ec). unfold run_session. rewrite R, EB, T. cbn [fold_left length] in *.
  assert (E : c_update every (d, s) b = (write (checkpoint_name (u_step s)) (Some s) d, u_update s b)) by (unfold c_update; rewrite Es, Ec; reflexivity). rewrite E. clear E.
  assert (C1 : complete every master (write (checkpoint_name (u_step s)) (Some s) d)) by (apply complete_write; auto; [now rewrite Es|lia]).
  assert (N1 : newest (write (checkpoint_name (u_step s)) (Some s) d) (u_step s)) by (apply (newest_write every master d s c C); [destruct N as [N|[N _]]; auto|lia..]).
  pose proof (running every master ds He _ (u_update s b) C1 (trained_update _ _ b Ts)) as G. rewrite update_step in G. replace (u_step s + 1 - 1)%N with (u_step s) in G by lia.
  replace (u_step s / every * every)%N with (u_step s) in G by (rewrite Es; pose proof (N.div_mod c every ltac:(lia)); lia).
  specialize (G ltac:(lia) ltac:(lia) N1). destruct (fold_left (c_update every) ds (write (checkpoint_name (u_step s)) (Some s) d, u_update s b)) as [d' s'].
  destruct G as (G1 & G2 & G3 & G4). exists d', s'. split; [reflexivity|]. split; [lia|]. split; [exact G1|exact G4].
Qed.
(** So what a killed process had done since is lost: at least the last step, at most [every] steps. *)
Theorem C88_lost every t : (0 < every)%N -> (0 < t)%N -> ((t - 1) / every * every < t <= (t - 1) / every * every + every)%N.
Proof. intros He Ht. pose proof (N.div_mod (t - 1) every ltac:(lia)). pose proof (N.mod_lt (t - 1) every ltac:(lia)) as M. rewrite (N.mul_comm _ every). revert H M. generalize (every * ((t - 1) / every))%N ((t - 1) mod every)%N. intros; lia. Qed.
(** A process that is killed while it writes a checkpoint leaves a file that cannot be read. All later processes fail, until it is removed. *)
Theorem C88_torn every master d c rs : sound every master d -> (forall p x, In (p, x) d -> exists c', p = checkpoint_name c' /\ (c' < 10000000)%N) -> newest d c -> (c < 10000000)%N -> lookup (checkpoint_name c) d = Some None ->
  Forall (fun r => alphabetical (s_listdir r)) rs -> run_sessions every master d rs = d /\ forall r, alphabetical (s_listdir r) -> snd (run_session every master d r) = None.
Proof.
  intros So Nm [N1 N2] Hc Lc F.
  assert (G : forall r, alphabetical (s_listdir r) -> run_session every master d r = (d, None)).
  { intros r [A S]. unfold run_session, restore. set (l := checkpoint_paths (s_listdir r) d).
    assert (IL : In (checkpoint_name c) l). { apply filter_In. split; [apply (Permutation_in _ (A _)), N1|apply name_checkpoint]. }
    assert (SL : StronglySorted (fun a b => String.compare a b <> Gt) l) by apply sorted_filter, S.
    destruct (rev l) as [|p ps] eqn:R; [assert (l = []) as E by (rewrite <- (rev_involutive l), R; reflexivity); rewrite E in IL; destruct IL|].
    assert (EL : l = rev ps ++ [p]) by (rewrite <- (rev_involutive l), R; reflexivity).
    assert (IP : In p (map fst d)). { assert (IP : In p l) by (rewrite EL; apply in_or_app; right; now left). apply filter_In in IP as [IP _]. now apply (Permutation_in _ (Permutation_sym (A _))). }
    assert (E : p = checkpoint_name c).
    { pose proof IP as IP'. apply in_map_iff in IP' as ([p' x] & E & IP'). cbn in E. subst p'. destruct (Nm p x IP') as (c' & -> & Hc'). specialize (N2 c' IP Hc'). f_equal. apply N.le_antisymm; [exact N2|].
      rewrite EL in IL, SL. apply in_app_or in IL as [IL|[IL|[]]]; [|apply name_inj in IL; [lia|assumption..]].
      pose proof (sorted_last _ _ _ SL _ IL) as L. cbv beta in L. rewrite C88_names in L by assumption. destruct (N.compare_spec c c'); [lia..|congruence]. }
    rewrite E, Lc. reflexivity. }
  split; [|intros r A; now rewrite G]. unfold run_sessions. induction F as [|r rs A F IH]; [reflexivity|]. cbn [fold_left]. rewrite G by exact A. exact IH.
Qed.
(** ** The number of steps *)
(** Every process makes up to MAX_STEPS steps, wherever it starts; the step counter is not looked at. *)
Theorem C88_steps every master d r s s' : restore (s_listdir r) master (s_first r) d = Some s -> snd (run_session every master d r) = Some s' ->
  u_step s' = (u_step s + N.of_nat (length (s_batches r)))%N.
Proof.
  intros R E. unfold run_session in E. rewrite R in E. assert (G : forall ds acc, snd (fold_left (c_update every) ds acc) = fold_left u_update ds (snd acc)).
  { induction ds as [|b ds IH]; intros [d1 s1]; cbn [fold_left]; [reflexivity|]. rewrite IH. reflexivity. }
  specialize (G (s_batches r) (d, s)). destruct (fold_left (c_update every) (s_batches r) (d, s)) as [d' s1]. cbn [snd] in *. injection E as <-. rewrite G. apply fold_step.
Qed.
End Loop.
Print Assumptions C88_files.
Print Assumptions C88_resume.
Print Assumptions C88_lost.
Print Assumptions C88_torn.
Print Assumptions C88_steps.

(** ** Keys: [jax.random.split] as a free operation, a key is the path to it *)
Definition free_split (k : list bool) : list bool * list bool := (k ++ [false], k ++ [true]).
Definition master : list bool := [].
Section Keys.
Context {D P O : Type} (net_init : list bool -> D -> P) (opt_init : P -> O) (learn : P -> O -> list bool -> D -> P * O).
Definition key_of (i : nat) : list bool := [false] ++ repeat true i ++ [false].
Lemma rng_of first ds : u_rng (uninterrupted free_split net_init opt_init learn master first ds) = [false] ++ repeat true (length ds).
Proof.
  induction ds as [|b ds IH] using rev_ind; [reflexivity|]. unfold uninterrupted in *. rewrite fold_left_app. cbn [fold_left]. unfold u_update at 1. unfold free_split at 1.
  destruct (learn _ _ _ b) as [p o]. cbn [u_rng]. rewrite IH. rewrite app_length. cbn [length]. rewrite <- app_assoc. f_equal. replace (length ds + 1) with (S (length ds)) by lia. clear. induction (length ds) as [|n IH]; [reflexivity|]. cbn. f_equal. exact IH.
Qed.
(** The key of step i is the same in all processes, and no key of a step, nor that of the initialization, is derived from that of another step: all the
    keys derived from them are distinct. *)
Theorem C88_keys : (forall first ds b, let s := uninterrupted free_split net_init opt_init learn master first ds in
    u_params (u_update free_split learn s b) = fst (learn (u_params s) (u_opt s) (key_of (length ds)) b)) /\
  (forall first, u_params (u_init free_split net_init opt_init master first) = net_init (snd (free_split master)) first) /\
  (forall i j k k', key_of i ++ k = key_of j ++ k' -> i = j /\ k = k') /\ (forall i k k', key_of i ++ k <> snd (free_split master) ++ k').
Proof.
  split; [|split; [|split]].
  - intros first ds b s. unfold u_update, free_split. unfold s at 3. rewrite rng_of. fold s. rewrite <- app_assoc. unfold key_of. now destruct (learn _ _ _ b).
  - reflexivity.
  - intros i j k k' H. unfold key_of in H. cbn in H. injection H as H. rewrite <- !app_assoc in H. revert j H. induction i as [|i IH]; intros [|j] H; cbn in H; try discriminate.
    + injection H as ->. auto.
    + injection H as H. destruct (IH j H) as [-> ->]. auto.
  - intros i k k' H. discriminate H.
Qed.
End Keys.
Print Assumptions C88_keys.

(** ** What is false *)
(** A training whose parameters are the list of the batches, with a checkpoint every other step. *)
Definition toy_learn (p : list nat) (o : unit) (k : list bool) (b : nat) : list nat * unit := (p ++ [b], tt).
Definition toy_session := run_session free_split (fun _ _ => []) (fun _ => tt) toy_learn 2 master.
Definition listed (l : list string) : list string := l.
Definition newest_first (l : list string) : list string := rev l.
(** With the names in another order, training goes back to an older checkpoint: here to the beginning, though that of step 4 is there. *)
Theorem C88_order_refuted : ~ (forall d d' r s, fst (toy_session [] d) = d' -> any_order (s_listdir r) -> snd (toy_session d' r) = Some s ->
  forall c, In (checkpoint_name c) (map fst d') -> (c <= u_step s)%N).
Proof.
  intros H. specialize (H (Session listed 0 [1; 2; 3; 4; 5] false) _ (Session newest_first 0 [6] false) _ eq_refl (fun l => Permutation_rev l) eq_refl 4%N).
  assert (E : (4 <= 1)%N); [apply H; vm_compute; auto|lia].
Qed.
(** Training is not over after MAX_STEPS steps if it was interrupted. *)
Theorem C88_max_steps_refuted : ~ (forall max d d' r s, length (s_batches d) <= max -> length (s_batches r) <= max -> fst (toy_session [] d) = d' -> snd (toy_session d' r) = Some s -> (u_step s <= N.of_nat max)%N).
Proof.
  intros H. specialize (H 5 (Session listed 0 [1; 2; 3] false) _ (Session listed 0 [6; 7; 8; 9] false) _ ltac:(cbn; lia) ltac:(cbn; lia) eq_refl eq_refl). vm_compute in H. now apply H.
Qed.
Print Assumptions C88_order_refuted.
Print Assumptions C88_max_steps_refuted.

(** ** The dataset *)
Lemma crop_length {A} size (pad : A) l : length (crop_or_pad size pad l) = size.
Proof. unfold crop_or_pad. destruct (Nat.ltb_spec (length l) size); [rewrite app_length, repeat_length; lia|rewrite firstn_length; lia]. Qed.
Lemma crop_nth {A} size (pad : A) l i : i < size -> nth i (crop_or_pad size pad l) pad = nth i l pad.
Proof.
  intros H. unfold crop_or_pad. destruct (Nat.ltb_spec (length l) size).
  - destruct (Nat.lt_ge_cases i (length l)); [now rewrite app_nth1|]. rewrite app_nth2 by lia. rewrite (nth_overflow l) by lia. generalize (size - length l) (i - length l). clear. induction n as [|n IH]; intros [|m]; cbn; auto.
  - rewrite <- (firstn_skipn size l) at 2. rewrite app_nth1; [reflexivity|]. rewrite firstn_length. lia.
Qed.
Lemma removelast_nth {A} (d : A) l i : i < length l - 1 -> nth i (removelast l) d = nth i l d.
Proof. revert i. induction l as [|x [|y l] IH]; intros [|i] H; cbn [length] in *; try lia; [reflexivity|]. cbn [removelast nth]. apply IH. cbn [length]. lia. Qed.
Lemma removelast_length {A} (l : list A) : length (removelast l) = length l - 1.
Proof. induction l as [|x [|y l] IH]; [reflexivity|reflexivity|]. cbn [removelast length] in *. lia. Qed.
(** Observations and targets have the sequence length; each target is the next token of the text, or padding after its end. The positions that count in
    the loss (observation above 0) are the first min(length, sequence length) ones; the target of a text's last token, if it is not cropped, is padding. *)
Theorem C88_shift n text obs target : Forall (fun t => 0 < t) text -> language_example n text = (obs, target) ->
  length obs = n /\ length target = n /\
  (forall i, i < n -> nth i obs 0 = nth i text 0 /\ nth i target 0 = nth (S i) text 0 /\ (0 < nth i obs 0 <-> i < length text)) /\
  (forall i, S i < n -> nth (S i) obs 0 = nth i target 0) /\
  length (filter (fun t => 0 <? t) obs) = Nat.min (length text) n.
Proof.
  intros P E. unfold language_example in E. set (t := crop_or_pad (n + 1) 0 text) in *. injection E as <- <-. pose proof (crop_length (n + 1) 0 text) as L. fold t in L.
  assert (O : forall i, i < n -> nth i (removelast t) 0 = nth i text 0) by (intros i Hi; rewrite removelast_nth by lia; apply crop_nth; lia).
  assert (T : forall i, i < n -> nth i (tl t) 0 = nth (S i) text 0).
  { intros i Hi. transitivity (nth (S i) t 0); [destruct t; [destruct i; reflexivity|reflexivity]|apply crop_nth; lia]. }
  assert (OL : length (removelast t) = n) by (rewrite removelast_length; lia).
  assert (PO : forall i, 0 < nth i text 0 <-> i < length text).
  { intros i. destruct (Nat.lt_ge_cases i (length text)) as [H|H]; [split; [auto|intros _; rewrite Forall_forall in P; apply P, nth_In, H]|rewrite nth_overflow by lia; lia]. }
  split; [exact OL|]. split; [destruct t; cbn in *; lia|]. split; [|split].
  - intros i Hi. rewrite O, T by exact Hi. auto.
  - intros i Hi. rewrite O, T by lia. reflexivity.
  - assert (G : forall (l : list nat) k, (forall i, 0 < nth i l 0 <-> i < k) -> k <= length l -> length (filter (fun t => 0 <? t) l) = k).
    { clear. induction l as [|x l IH]; intros k H Hk; cbn [length] in Hk; [cbn; lia|]. cbn [filter]. destruct k as [|k].
      - assert (x = 0) by (specialize (H 0); cbn in H; lia). subst x. cbn. apply IH; [|lia]. intros i. specialize (H (S i)). cbn in H. lia.
      - assert (0 < x) by (specialize (H 0); cbn in H; lia). destruct (Nat.ltb_spec 0 x); [|lia]. cbn [length]. f_equal. apply IH; [|lia]. intros i. specialize (H (S i)). cbn in H. lia. }
    apply G; [|lia]. intros i. destruct (Nat.lt_ge_cases i n) as [H|H]; [rewrite O by exact H; rewrite PO; lia|rewrite nth_overflow by lia; lia].
Qed.
Print Assumptions C88_shift.

(** ** Examples *)
Example C88_name_case : checkpoint_name 20000 = "checkpoint_0020000.pkl"%string /\ checkpoint_name 12345678 = "checkpoint_12345678.pkl"%string /\
  is_checkpoint "checkpoint_0020000.pkl.tmp" = true /\ is_checkpoint "params.pkl" = false.
Proof. repeat split; vm_compute; reflexivity. Qed.
Example C88_resume_case : let d := fst (toy_session [] (Session listed 0 [1; 2; 3; 4] false)) in
  option_map (u_params (K := _) (P := _) (O := _)) (snd (toy_session d (Session listed 0 [6; 7] false))) = Some [1; 2; 6; 7].
Proof. vm_compute. reflexivity. Qed.
Example C88_torn_case : let d := fst (toy_session [] (Session listed 0 [1; 2; 3; 4] true)) in
  map fst d = ["checkpoint_0000000.pkl"; "checkpoint_0000002.pkl"; "checkpoint_0000004.pkl"]%string /\ toy_session d (Session listed 0 [6; 7] false) = (d, None).
Proof. vm_compute. auto. Qed.
Example C88_shift_case : language_example 4 [5; 6; 7] = ([5; 6; 7; 0], [6; 7; 0; 0]) /\ language_example 2 [5; 6; 7; 8] = ([5; 6], [6; 7]).
Proof. split; reflexivity. Qed.

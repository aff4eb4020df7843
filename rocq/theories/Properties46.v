(** * C89: examples/rnn draws samples one token after the other from the model *)
From Coq Require Import List Bool Arith Lia.
From Verif Require Import ModelSampling.
Import ListNotations.

Section Sample.
Context {K T L S : Type} (split : K -> K * K) (categorical : K -> L -> T) (core : T -> S -> L * S) (zero : T) (s0 : S).
Notation unrolled := (unrolled core). Notation sample := (sample split categorical core zero s0).
(** The logits of the network after a text. *)
Definition logits_after (text : list T) : option L := match rev (fst (unrolled text s0)) with [] => None | l :: _ => Some l end.
(** The key of the i-th token. *)
Definition token_key (key : K) (i : nat) : K := snd (split (Nat.iter i (fun k => fst (split k)) key)).

Lemma unrolled_snoc xs x s : unrolled (xs ++ [x]) s = let (ls, s1) := unrolled xs s in let (l, s2) := core x s1 in (ls ++ [l], s2).
Proof.
  revert s. induction xs as [|y xs IH]; intros s; cbn.
  - now destruct (core x s).
  - destruct (core y s) as [l s1]. rewrite IH. destruct (unrolled xs s1) as [ls s2]. now destruct (core x s2).
Qed.
Lemma update_length l : forall i (x : T), length (index_update l i x) = length l.
Proof. induction l as [|y l IH]; intros [|i] x; cbn; auto. Qed.
Lemma update_firstn l : forall i (x : T) j, j <= i -> firstn j (index_update l i x) = firstn j l.
Proof. induction l as [|y l IH]; intros [|i] x [|j] H; cbn; auto; [lia|]. f_equal. apply IH. lia. Qed.
Lemma update_same l : forall i (x : T), i < length l -> nth_error (index_update l i x) i = Some x.
Proof. induction l as [|y l IH]; intros [|i] x H; cbn in *; try lia; [reflexivity|]. apply IH. lia. Qed.
Lemma update_other l : forall i j (x : T), i <> j -> nth_error (index_update l i x) j = nth_error l j.
Proof. induction l as [|y l IH]; intros [|i] [|j] x H; cbn; auto; lia || (apply IH; lia). Qed.
(** Tokens up to position [t] are drawn. *)
Definition drawn (key : K) (context : list T) (tk : list T) (t : nat) : Prop :=
  forall i, i < t -> i < length tk -> exists l, logits_after (context ++ firstn i tk) = Some l /\ nth_error tk i = Some (categorical (token_key key i) l).
Lemma drawn_update key context tk t x : drawn key context tk t -> (t < length tk -> exists l, logits_after (context ++ firstn t tk) = Some l /\ x = categorical (token_key key t) l) ->
  drawn key context (index_update tk t x) (t + 1).
Proof.
  intros D X i Hi Hl. rewrite update_length in Hl. rewrite update_firstn by lia. destruct (Nat.eq_dec i t) as [->|Hn].
  - destruct (X Hl) as (l & E & ->). exists l. split; [exact E|]. now apply update_same.
  - rewrite update_other by lia. apply D; lia.
Qed.
(** [sample] returns [sample_length] tokens, and each is drawn, with a key of its own, from the logits that the network has after the context and all
    the tokens before. *)
Theorem C89_sample key context n : context <> [] ->
  exists r, sample key context n = Some r /\ length r = n /\
    forall i, i < n -> exists l, logits_after (context ++ firstn i r) = Some l /\ nth_error r i = Some (categorical (token_key key i) l).
Proof.
  intros HC. unfold ModelSampling.sample, sample_with. destruct (unrolled context s0) as [logits st] eqn:U. destruct (split key) as [k sub] eqn:SK.
  assert (LA : logits_after context = match rev logits with [] => None | l :: _ => Some l end) by (unfold logits_after; now rewrite U).
  assert (NE : rev logits <> []).
  { destruct (exists_last HC) as (xs & x & ->). rewrite unrolled_snoc in U. destruct (unrolled xs s0) as [ls s1]. destruct (core x s1) as [l s2]. injection U as <- _. rewrite rev_app_distr. discriminate. }
  destruct (rev logits) as [|lst rest]; [congruence|]. eexists. split; [reflexivity|].
  set (v0 := Loop (index_update (repeat zero n) 0 (categorical sub lst)) st k).
  assert (I : forall t, t <= n -> let v := fold_left (fun v t => body_fn split categorical core zero index_update t v) (seq 0 t) v0 in
    length (tokens v) = n /\ drawn key context (tokens v) (t + 1) /\ state v = snd (unrolled (context ++ firstn t (tokens v)) s0) /\ rng_key v = Nat.iter (Datatypes.S t) (fun k => fst (split k)) key).
  { induction t as [|t IH]; intros Ht.
    - cbn [seq fold_left]. unfold v0. cbn [tokens state rng_key]. split; [now rewrite update_length, repeat_length|]. split; [|split].
      + apply (drawn_update key context (repeat zero n) 0); [intros i Hi; lia|]. intros _. exists lst. cbn [firstn]. rewrite app_nil_r. split; [exact LA|]. unfold token_key. cbn [Nat.iter nat_rect]. now rewrite SK.
      + cbn [firstn]. now rewrite app_nil_r, U.
      + cbn. now rewrite SK.
    - rewrite seq_S, fold_left_app. cbn [fold_left plus]. specialize (IH ltac:(lia)). cbn zeta in IH. set (v := fold_left _ (seq 0 t) v0) in *. destruct IH as (L1 & D & St & Ky).
      unfold body_fn. destruct (core (index zero (tokens v) t) (state v)) as [nl ns] eqn:C. destruct (split (rng_key v)) as [k' sub'] eqn:SP. cbn [tokens state rng_key].
      assert (TK : index zero (tokens v) t = nth t (tokens v) zero) by (unfold index; f_equal; lia).
      assert (FS : firstn (t + 1) (tokens v) = firstn t (tokens v) ++ [nth t (tokens v) zero]).
      { clear -L1 Ht. assert (H : t < length (tokens v)) by lia. revert H. generalize (tokens v). clear. induction t as [|t IH]; intros [|x l] H; cbn in *; try lia; [reflexivity|]. f_equal. apply IH. lia. }
      assert (UN : unrolled (context ++ firstn (t + 1) (tokens v)) s0 = (fst (unrolled (context ++ firstn t (tokens v)) s0) ++ [nl], ns)).
      { rewrite FS, app_assoc, unrolled_snoc. destruct (unrolled (context ++ firstn t (tokens v)) s0) as [ls s1] eqn:E. cbn [snd] in St. rewrite <- St, <- TK, C. reflexivity. }
      split; [now rewrite update_length|]. split; [|split].
      + change (Datatypes.S t + 1) with (Datatypes.S (t + 1)); replace (Datatypes.S (t + 1)) with (t + 1 + 1) by lia. apply drawn_update; [exact D|]. intros _. exists nl. split.
        * unfold logits_after. rewrite UN. cbn [fst]. now rewrite rev_app_distr.
        * unfold token_key. replace (t + 1) with (Datatypes.S t) by lia. rewrite <- Ky, SP. reflexivity.
      + rewrite update_firstn by lia. replace (Datatypes.S t) with (t + 1) by lia. now rewrite UN.
      + change (Nat.iter (Datatypes.S (Datatypes.S t)) (fun k => fst (split k)) key) with (fst (split (Nat.iter (Datatypes.S t) (fun k => fst (split k)) key))). now rewrite <- Ky, SP. }
  destruct (I n (le_n n)) as (L1 & D & _). unfold fori_loop. split; [exact L1|]. intros i Hi. apply D; lia.
Qed.
(** These properties determine the sample, so a longer sample continues a shorter one. *)
Theorem C89_prefix key context n m r : context <> [] -> n <= m -> sample key context m = Some r -> sample key context n = Some (firstn n r).
Proof.
  intros HC H E. destruct (C89_sample key context n HC) as (r1 & E1 & L1 & D1). destruct (C89_sample key context m HC) as (r2 & E2 & L2 & D2). rewrite E in E2. injection E2 as <-. rewrite E1. f_equal.
  assert (G : forall k, k <= n -> firstn k r1 = firstn k r).
  { induction k as [|k IH]; intros Hk; [reflexivity|]. destruct (D1 k ltac:(lia)) as (l1 & A1 & B1). destruct (D2 k ltac:(lia)) as (l2 & A2 & B2). rewrite IH in A1 by lia. rewrite A1 in A2. injection A2 as <-.
    assert (X : forall (l : list T) x, nth_error l k = Some x -> firstn (Datatypes.S k) l = firstn k l ++ [x]).
    { clear. induction k as [|k IH]; intros [|y l] x H; cbn in *; try discriminate; [now injection H as ->|]. f_equal. now apply IH. }
    rewrite (X _ _ B1), (X _ _ B2), IH by lia. reflexivity. }
  rewrite <- (G n (le_n n)), <- L1. now rewrite firstn_all.
Qed.
(** An empty context fails. *)
Theorem C89_empty key n : sample key [] n = None.
Proof. unfold ModelSampling.sample, sample_with. cbn. now destruct (split key). Qed.
End Sample.
Print Assumptions C89_sample.
Print Assumptions C89_prefix.
Print Assumptions C89_empty.

(** The keys of the tokens, with [jax.random.split] as a free operation: none is derived from another, nor from the key that is left. *)
Definition free_split (k : list bool) : list bool * list bool := (k ++ [false], k ++ [true]).
Theorem C89_keys key i j a b : token_key free_split key i ++ a = token_key free_split key j ++ b -> i = j /\ a = b.
Proof.
  assert (E : forall i, token_key free_split key i = key ++ repeat false i ++ [true]).
  { intros n. unfold token_key. assert (I : Nat.iter n (fun k => fst (free_split k)) key = key ++ repeat false n).
    { induction n as [|n IH]; [now rewrite app_nil_r|]. change (Nat.iter (S n) (fun k => fst (free_split k)) key) with (fst (free_split (Nat.iter n (fun k => fst (free_split k)) key))).
      rewrite IH. cbn [free_split fst]. rewrite <- app_assoc. f_equal. clear. induction n as [|n IH]; [reflexivity|]. cbn. now rewrite IH. }
    rewrite I. cbn [free_split snd]. now rewrite app_assoc. }
  rewrite !E, <- !app_assoc. intros H. apply app_inv_head in H. revert j H. induction i as [|i IH]; intros [|j] H; cbn in H; try discriminate.
  - injection H as ->. auto.
  - injection H as H. destruct (IH j H) as [-> ->]. auto.
Qed.
Print Assumptions C89_keys.

(** The last iteration writes one position past the end, which is harmless only because JAX drops such writes. With positions moved into the array, as for
    reads, the last token is replaced by the one after it. Here the network counts: the logits after token x are x+1. *)
Definition count_core (x s : nat) : nat * nat := (x + 1, s).
Theorem C89_clamped_refuted : ~ (forall n, sample_with free_split (fun _ l => l) count_core 0 clamped_update 0 [] [4] n = sample free_split (fun _ l => l) count_core 0 0 [] [4] n).
Proof. intros H. specialize (H 3). vm_compute in H. discriminate. Qed.
Print Assumptions C89_clamped_refuted.

(** ** The dataset *)
Lemma windows_spec {A} n : 0 < n -> forall fuel (l : list A), length l <= fuel ->
  length (full_windows fuel n l) = length l / n /\ Forall (fun w => length w = n) (full_windows fuel n l) /\ concat (full_windows fuel n l) = firstn (length l / n * n) l.
Proof.
  intros Hn. induction fuel as [|f IH]; intros l H.
  - destruct l; [|cbn in H; lia]. cbn [full_windows length concat]. rewrite Nat.div_0_l by lia. repeat split; constructor.
  - cbn [full_windows]. destruct (Nat.ltb_spec (length l) n) as [L|L].
    + rewrite Nat.div_small by exact L. repeat split; constructor.
    + destruct (IH (skipn n l)) as (I1 & I2 & I3); [rewrite skipn_length; lia|]. rewrite skipn_length in I1, I3.
      assert (E : length l / n = Datatypes.S ((length l - n) / n)). { replace (length l) with (length l - n + 1 * n) at 1 by lia. rewrite Nat.div_add by lia. lia. }
      rewrite E. cbn [length concat]. rewrite I1, I3. split; [reflexivity|]. split; [constructor; [rewrite firstn_length; lia|exact I2]|].
      change (Datatypes.S ((length l - n) / n) * n) with (n + (length l - n) / n * n). generalize ((length l - n) / n * n). intros q.
      rewrite <- (firstn_skipn n l) at 3. rewrite firstn_app, firstn_firstn, firstn_length, Nat.min_r by lia. replace (n + q - Nat.min n (length l)) with q by lia. reflexivity.
Qed.
Lemma nth_concat {A} (d : A) n ws : Forall (fun w => length w = n) ws -> forall w i, i < n -> w < length ws -> nth i (nth w ws []) d = nth (w * n + i) (concat ws) d.
Proof.
  induction 1 as [|x ws Hx F IH]; intros w i Hi Hw; cbn [length] in Hw; [lia|]. destruct w as [|w]; cbn [nth concat].
  - now rewrite app_nth1 by lia.
  - rewrite app_nth2 by (cbn; lia). rewrite IH by lia. f_equal. cbn. lia.
Qed.
(** Every window has the sequence length and is a piece of the text, the w-th from position w * sequence_length on; the target of each character is the next
    one of the text, across windows too. There are (length - 1) / sequence_length windows, so all but fewer than [sequence_length] characters (and the last) are inputs. *)
Theorem C89_windows {A} (d : A) n (x : list A) : 0 < n -> let ws := text_windows n x in
  length ws = (length x - 1) / n /\ forall w i, w < length ws -> i < n -> length (nth w ws []) = n /\ nth i (nth w ws []) (d, d) = (nth (w * n + i) x d, nth (w * n + i + 1) x d) /\ w * n + i + 1 < length x.
Proof.
  intros Hn ws. unfold ws, text_windows. set (pairs := combine (removelast x) (tl x)).
  assert (RL : length (removelast x) = length x - 1). { clear. induction x as [|a [|b l] IH]; [reflexivity|reflexivity|]. cbn [removelast length] in *. lia. }
  assert (TL : length (tl x) = length x - 1) by (destruct x; cbn; lia).
  assert (LP : length pairs = length x - 1) by (unfold pairs; rewrite combine_length; lia).
  destruct (windows_spec n Hn (length pairs) pairs (le_n _)) as (W1 & W2 & W3). rewrite LP in W1, W3. rewrite LP in W2. rewrite LP. split; [exact W1|]. intros w i Hw Hi.
  assert (B : w * n + i + 1 < length x). { pose proof (Nat.mul_div_le (length x - 1) n ltac:(lia)). rewrite W1 in Hw. assert ((w + 1) * n <= length x - 1) by nia. nia. }
  split; [rewrite Forall_forall in W2; apply W2, nth_In, Hw|]. split; [|exact B]. rewrite (nth_concat (d, d) n) by assumption. rewrite W3.
  assert (F : nth (w * n + i) (firstn ((length x - 1) / n * n) pairs) (d, d) = nth (w * n + i) pairs (d, d)).
  { assert (w * n + i < (length x - 1) / n * n) by (rewrite W1 in Hw; nia). rewrite <- (firstn_skipn ((length x - 1) / n * n) pairs) at 2. rewrite app_nth1; [reflexivity|]. rewrite firstn_length, LP. pose proof (Nat.mul_div_le (length x - 1) n ltac:(lia)). nia. }
  rewrite F. unfold pairs. rewrite combine_nth by lia. f_equal.
  - assert (R : forall (l : list A) k, k < length l - 1 -> nth k (removelast l) d = nth k l d). { clear. induction l as [|a [|b l] IH]; intros [|k] H; cbn [length] in *; try lia; [reflexivity|]. cbn [removelast nth]. apply IH. cbn [length]. lia. }
    apply R. lia.
  - replace (w * n + i + 1) with (Datatypes.S (w * n + i)) by lia. destruct x; [cbn in B; lia|reflexivity].
Qed.
(** The first column of a transposed batch is the first window: the context of a sample is a piece of text. *)
Theorem C89_context {A} (d : A) n batch b : Forall (fun w => length w = n) batch -> b < length batch -> column d (time_major d n batch) b = nth b batch [].
Proof.
  intros F Hb. unfold column, time_major. rewrite map_map. assert (L : length (nth b batch []) = n) by (rewrite Forall_forall in F; apply F, nth_In, Hb).
  apply (nth_ext _ _ d d); [now rewrite map_length, seq_length|]. intros i Hi. rewrite map_length, seq_length in Hi.
  rewrite (nth_indep _ d ((fun t => nth b (map (fun w => nth t w d) batch) d) 0)) by now rewrite map_length, seq_length.
  rewrite (map_nth (fun t => nth b (map (fun w => nth t w d) batch) d)), seq_nth by exact Hi. cbn [plus].
  rewrite (nth_indep _ d ((fun w => nth i w d) [])) by now rewrite map_length. now rewrite (map_nth (fun w => nth i w d)).
Qed.
Print Assumptions C89_windows.
Print Assumptions C89_context.

(** ** Examples: the network that counts, and adds its state (the number of tokens seen so far) to the logits *)
Definition sum_core (x s : nat) : nat * nat := (x + s, s + 1).
Example C89_sample_case : sample free_split (fun k l => l + length k) sum_core 0 0 [] [4; 5] 3 = Some [7; 11; 17] /\ sample free_split (fun k l => l + length k) sum_core 0 0 [] [4; 5] 0 = Some [].
Proof. split; reflexivity. Qed.
Example C89_clamped_case : sample_with free_split (fun _ l => l) count_core 0 clamped_update 0 [] [4] 3 = Some [5; 6; 8] /\ sample free_split (fun _ l => l) count_core 0 0 [] [4] 3 = Some [5; 6; 7].
Proof. split; reflexivity. Qed.
Example C89_windows_case : text_windows 2 [1; 2; 3; 4; 5; 6] = [[(1, 2); (2, 3)]; [(3, 4); (4, 5)]].
Proof. reflexivity. Qed.
Example C89_context_case : column 0 (time_major 0 2 [[1; 2]; [3; 4]; [5; 6]]) 1 = [3; 4] /\ time_major 0 2 [[1; 2]; [3; 4]; [5; 6]] = [[1; 3; 5]; [2; 4; 6]].
Proof. split; reflexivity. Qed.

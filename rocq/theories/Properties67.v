(** C99, continued: strictness only refuses; exactly which arguments make it refuse; the code that always promotes. *)
From Coq Require Import String List Bool Arith Lia.
From Verif Require Import ModelRank Properties65 Properties66.
Import ListNotations.
Local Open Scope string_scope.
Local Open Scope nat_scope.

(** *** Strictness only refuses *)
Definition refines {A} (m : bool -> M A) : Prop := forall w r, m true w = Some r -> m false w = Some r.
Lemma refines_bind {A B} (m : bool -> M A) (f : bool -> A -> M B) : refines m -> (forall a, refines (fun b => f b a)) -> refines (fun b => bind (m b) (f b)).
Proof. intros Hm Hf w r. unfold bind. destruct (m true w) as [[a w1]|] eqn:E; [|discriminate]. rewrite (Hm _ _ E). apply Hf. Qed.
Lemma refines_const {A} (m : M A) : refines (fun _ => m). Proof. intros w r E. exact E. Qed.
Lemma refines_promote l : refines (fun b => lift (promote b l)).
Proof. intros w r. unfold lift, promote. destruct (true && _); [discriminate|]. cbn. auto. Qed.
Lemma refines_op x y : refines (fun b => op b x y). Proof. apply refines_promote. Qed.
Ltac ref := repeat first
  [ apply refines_const | apply refines_op | apply refines_promote
  | apply refines_bind; [|intros ?]
  | match goal with |- refines (fun b => if ?c then _ else _) => destruct c end
  | match goal with |- refines (fun b => match ?c with Some _ => _ | None => _ end) => destruct c end
  | match goal with |- refines (fun b => let (_, _) := ?c in _) => destruct c end ].
Lemma linear_refines wb x : refines (fun b => linear b wb x). Proof. unfold linear. ref. Qed.
Lemma conv_refines n f m wb x : refines (fun b => conv b n f m wb x). Proof. unfold conv. ref. Qed.
Lemma ema_refines p zd us x : refines (fun b => ema b p zd us x). Proof. unfold ema. ref. Qed.
Lemma l2_refines v : refines (fun b => l2_normalize b v). Proof. unfold l2_normalize. ref. Qed.
Lemma power_refines n : forall value u v, refines (fun b => power b n value u v).
Proof. induction n as [|n IH]; intros; cbn [power]; ref; first [apply l2_refines | apply IH]. Qed.
Lemma heads_refines x : refines (fun b => heads b x). Proof. unfold heads. ref. apply linear_refines. Qed.

(** With promotion allowed a module gives what it gives with promotion raising, whenever the latter gives anything, on any arguments and any state. *)
Theorem C99_refuses x w r :
  (forall wb, linear true wb x w = Some r -> linear false wb x w = Some r) /\
  (forall d m, bias true d m x w = Some r -> bias false d m x w = Some r) /\
  (forall n f m wb, conv true n f m wb x w = Some r -> conv false n f m wb x w = Some r) /\
  (forall f wb, depthwise true f wb x w = Some r -> depthwise false f wb x w = Some r) /\
  (forall p zd us, ema true p zd us x w = Some r -> ema false p zd us x w = Some r) /\
  (forall p cs co tr loc sc off, batch_norm true p cs co tr loc sc off x w = Some r -> batch_norm false p cs co tr loc sc off x w = Some r) /\
  (forall cs co sc off, layer_norm true cs co sc off x w = Some r -> layer_norm false cs co sc off x w = Some r) /\
  (forall f cs co sc off, group_norm true f cs co sc off x w = Some r -> group_norm false f cs co sc off x w = Some r) /\
  (forall p n us err, spectral_norm true p n us err x w = Some r -> spectral_norm false p n us err x w = Some r) /\
  (forall m k v, attention true m x k v w = Some r -> attention false m x k v w = Some r) /\
  (vq true x w = Some r -> vq false x w = Some r) /\
  (forall p tr, vq_ema true p tr x w = Some r -> vq_ema false p tr x w = Some r).
Proof.
  split. { intros wb. apply (linear_refines wb x). }
  split. { intros d m. apply (fun H : refines (fun b => bias b d m x) => H w r). unfold bias. ref. }
  split. { intros n f m wb. apply (conv_refines n f m wb x). }
  split. { intros f wb. apply (fun H : refines (fun b => depthwise b f wb x) => H w r). unfold depthwise. ref. }
  split. { intros p zd us. apply (ema_refines p zd us x). }
  split. { intros p cs co tr loc sc off. apply (fun H : refines (fun b => batch_norm b p cs co tr loc sc off x) => H w r). unfold batch_norm. ref; apply ema_refines. }
  split. { intros cs co sc off. apply (fun H : refines (fun b => layer_norm b cs co sc off x) => H w r). unfold layer_norm. ref. }
  split. { intros f cs co sc off. apply (fun H : refines (fun b => group_norm b f cs co sc off x) => H w r). unfold group_norm. ref. }
  split. { intros p n us err. apply (fun H : refines (fun b => spectral_norm b p n us err x) => H w r). unfold spectral_norm. ref; apply power_refines. }
  split. { intros m k v. apply (fun H : refines (fun b => attention b m x k v) => H w r). unfold attention. ref; first [apply heads_refines | apply linear_refines]. }
  split. { apply (fun H : refines (fun b => vq b x) => H w r). unfold vq, vq_distances, vq_perplexity. ref. }
  intros p tr. apply (fun H : refines (fun b => vq_ema b p tr x) => H w r). unfold vq_ema, vq_distances, vq_perplexity. ref; apply ema_refines.
Qed.
Print Assumptions C99_refuses.

(** *** Exact conditions *)
Lemma op_false x y w : op false x y w = Some (Nat.max x y, w).
Proof. unfold op, lift, promote. cbn [andb list_max fold_right]. now rewrite Nat.max_0_r. Qed.
Lemma op_true x y w : op true x y w = if (x =? y) || (x =? 0) || (y =? 0) then Some (Nat.max x y, w) else None.
Proof.
  unfold op, lift, promote. cbn [list_max fold_right]. rewrite Nat.max_0_r. cbn [forallb andb].
  destruct (x =? y) eqn:E; [apply Nat.eqb_eq in E; subst y; now rewrite Nat.max_id, Nat.eqb_refl, !orb_true_r|]. apply Nat.eqb_neq in E.
  destruct (x =? 0) eqn:X; [apply Nat.eqb_eq in X; subst x; cbn [Nat.max]; now rewrite Nat.eqb_refl, !orb_true_r|].
  destruct (y =? 0) eqn:Y; [apply Nat.eqb_eq in Y; subst y; now rewrite Nat.max_0_r, Nat.eqb_refl, !orb_true_r|].
  apply Nat.eqb_neq in X, Y. cbn [orb].
  destruct (x =? Nat.max x y) eqn:A; [|reflexivity]. destruct (y =? Nat.max x y) eqn:B; [|reflexivity].
  apply Nat.eqb_eq in A, B. lia.
Qed.
Lemma linear_runs b wb x w : 1 <= x -> linear b wb x w = Some (x, w).
Proof.
  intros H. unfold linear. destruct (x =? 0) eqn:X; [apply Nat.eqb_eq in X; lia|].
  unfold param, bind, ret, dot. rewrite X. cbn [Nat.eqb orb]. replace (x + 2 - 2) with x by lia. unfold ret.
  destruct wb; [|reflexivity]. unfold broadcast_to. cbv beta iota. rewrite (proj2 (Nat.leb_le 1 x) H). unfold ret. cbv beta iota.
  destruct b; [rewrite op_true, Nat.eqb_refl; cbn [orb] | rewrite op_false]; now rewrite Nat.max_id.
Qed.
Ltac cond H := destruct H as [H|H]; subst.
Lemma op_both b x y w : (x = y \/ x = 0 \/ y = 0) -> op b x y w = Some (Nat.max x y, w).
Proof.
  intros H. destruct b; [|apply op_false]. rewrite op_true.
  replace ((x =? y) || (x =? 0) || (y =? 0)) with true; [reflexivity|]. symmetry. rewrite !orb_true_iff, !Nat.eqb_eq. lia.
Qed.
Lemma op_refused x y w : 1 <= x -> 1 <= y -> x <> y -> op true x y w = None.
Proof. intros X Y N. rewrite op_true. replace ((x =? y) || (x =? 0) || (y =? 0)) with false; [reflexivity|]. symmetry. rewrite !orb_false_iff, !Nat.eqb_neq. lia. Qed.

(** A multiplier of a bias: a scalar or of the inputs' rank, although "anything which works in the expression" is documented as acceptable. *)
Theorem C99_multiplier dims m x w : 2 <= x -> (forall d, dims = Some d -> d <= x) ->
  bias false dims (Some m) x w = Some (Nat.max x m, w) /\ (bias true dims (Some m) x w = bias false dims (Some m) x w <-> m = 0 \/ m = x).
Proof.
  intros X D. unfold bias. replace (x <? 2) with false by (symmetry; apply Nat.ltb_ge; lia).
  unfold bind at 1 4 7, param, ret, broadcast_to.
  replace (match dims with Some d => d | None => x - 1 end <=? x) with true
    by (symmetry; apply Nat.leb_le; destruct dims as [d|]; [now apply D | lia]).
  unfold bind, ret. rewrite !op_false. rewrite Nat.max_assoc, Nat.max_id.
  split; [reflexivity|]. split.
  - intros E. destruct (Nat.eq_dec m 0) as [|M]; [now left|]. right. destruct (Nat.eq_dec m x) as [|N]; [assumption|].
    rewrite (op_refused x m w) in E by lia. discriminate.
  - intros M. rewrite (op_both true x m) by lia. rewrite op_both by lia. f_equal. f_equal. lia.
Qed.
Print Assumptions C99_multiplier.

(** A mask of attention logits: a scalar or of rank 4. *)
Theorem C99_mask m q k v w : 2 <= q -> 2 <= k -> 2 <= v -> m <= 4 ->
  attention false (Some m) q k v w = Some (3, w) /\ (attention true (Some m) q k v w = attention false (Some m) q k v w <-> m = 0 \/ m = 4).
Proof.
  intros Q K V M. assert (Hd : forall b x, 2 <= x -> heads b x w = Some (4, w)).
  { intros b x X. unfold heads, bind. rewrite linear_runs by lia. replace (x <? 2) with false by (symmetry; apply Nat.ltb_ge; lia). reflexivity. }
  assert (F : attention false (Some m) q k v w = Some (3, w)).
  { unfold attention, bind. rewrite !Hd by assumption. rewrite !op_false. rewrite ?Nat.max_0_r, ?Nat.max_0_l.
    replace (Nat.max 4 m) with 4 by lia. cbn [Nat.eqb negb]. apply linear_runs. lia. }
  split; [exact F|]. rewrite F. unfold attention, bind. rewrite !Hd by assumption. rewrite (op_both true 4 0) by lia. rewrite ?Nat.max_0_r, ?Nat.max_0_l.
  rewrite (op_both true 0 m) by lia. rewrite ?Nat.max_0_r, ?Nat.max_0_l. rewrite (op_both true 0 m) by lia. rewrite ?Nat.max_0_r, ?Nat.max_0_l. split.
  - intros E. destruct (Nat.eq_dec m 0) as [|N]; [now left|]. right. destruct (Nat.eq_dec m 4) as [|N4]; [assumption|].
    rewrite (op_refused 4 m w) in E by lia. discriminate.
  - intros C. rewrite op_both by lia. replace (Nat.max 4 m) with 4 by lia. cbn [Nat.eqb negb]. apply linear_runs. lia.
Qed.
Print Assumptions C99_mask.

(** The scale and offset of a call of batch normalization (with test-time local statistics, so that no state is involved): scalars or of the inputs' rank, although lower ranks are documented. *)
Theorem C99_batch_norm p s o x w : 1 <= x -> s <= x -> o <= x ->
  batch_norm false p false false false true (Some s) (Some o) x w = Some (x, w) /\
  (batch_norm true p false false false true (Some s) (Some o) x w = Some (x, w) <-> (s = 0 \/ s = x) /\ (o = 0 \/ o = x)).
Proof.
  intros X S O. unfold batch_norm. cbn [andb orb]. unfold bind, ret. rewrite !op_false, !Nat.max_0_r, !Nat.max_id.
  replace (Nat.max s x) with x by lia. rewrite Nat.max_id. replace (Nat.max x o) with x by lia. split; [reflexivity|].
  rewrite (op_both true x 0) by lia. rewrite Nat.max_0_r. rewrite (op_both true x x) by lia. rewrite Nat.max_id. rewrite (op_both true x 0) by lia. rewrite Nat.max_0_r.
  destruct (Nat.eq_dec s 0) as [Zs|Zs]; [|destruct (Nat.eq_dec s x) as [Es|Es]; [|rewrite (op_refused s x) by lia; split; [discriminate | lia]]];
  (rewrite (op_both true s x) by lia; replace (Nat.max s x) with x by lia; rewrite !(op_both true x x) by lia; rewrite Nat.max_id; rewrite (op_both true x x) by lia; rewrite Nat.max_id;
   destruct (Nat.eq_dec o 0) as [Zo|Zo]; [|destruct (Nat.eq_dec o x) as [Eo|Eo]; [|rewrite (op_refused x o) by lia; split; [discriminate | lia]]];
   (rewrite (op_both true x o) by lia; replace (Nat.max x o) with x by lia; split; [intros _; lia | reflexivity])).
Qed.
Print Assumptions C99_batch_norm.

(** Test-time statistics that were stored for inputs of another rank. *)
Theorem C99_other_rank p q x w : 1 <= x -> 1 <= q -> find (inside p "~/mean_ema", "average") w = Some q -> find (inside p "~/var_ema", "average") w = Some q ->
  batch_norm false p true true false false None None x w = Some (Nat.max x q, w) /\ (batch_norm true p true true false false None None x w <> None <-> q = x).
Proof.
  intros X Q Fm Fv. unfold batch_norm. cbn [andb orb given]. unfold bind, ret, param, read_state. rewrite Fm, Fv. unfold ret. cbv beta iota. rewrite !op_false.
  split; [f_equal; f_equal; lia|]. rewrite (op_both true q 0) by lia. rewrite Nat.max_0_r.
  destruct (Nat.eq_dec q x) as [->|N].
  - rewrite !(op_both true x x) by lia. rewrite Nat.max_id, !(op_both true x x) by lia. rewrite Nat.max_id, !(op_both true x x) by lia. split; [reflexivity | discriminate].
  - rewrite (op_refused x q) by lia. split; [congruence | lia].
Qed.
Print Assumptions C99_other_rank.

(** Cores whose state has not the rank of the inputs. *)
Theorem C99_cores x h c w : 1 <= x -> 1 <= h -> 1 <= c ->
  (forall db, vanilla false db x [h] w = Some ((Nat.max x h, [Nat.max x h]), w) /\ (vanilla true db x [h] w <> None <-> h = x)) /\
  (x <= 2 -> gru false x [h] w <> None /\ (gru true x [h] w <> None <-> h = x)) /\
  (x <= 2 -> lstm false x [x; c] w <> None /\ (lstm true x [x; c] w <> None <-> c = x)).
Proof.
  intros X Hh C. split; [|split].
  - intros db. unfold vanilla, bind. rewrite !linear_runs by assumption. rewrite op_false. split; [reflexivity|].
    destruct (Nat.eq_dec h x) as [->|N]; [rewrite op_both by lia; split; [reflexivity | discriminate]|]. rewrite op_refused by lia. split; [congruence | lia].
  - intros X2. unfold gru. replace (negb ((x =? 1) || (x =? 2))) with false by (symmetry; rewrite negb_false_iff, orb_true_iff, !Nat.eqb_eq; lia).
    unfold bind, param, ret. unfold dot at 1 2 4 5. replace (x =? 0) with false by (symmetry; apply Nat.eqb_neq; lia). replace (h =? 0) with false by (symmetry; apply Nat.eqb_neq; lia).
    cbn [Nat.eqb orb]. unfold ret. replace (x + 2 - 2) with x by lia. replace (h + 2 - 2) with h by lia. rewrite !op_false. split.
    + unfold broadcast_to. replace (1 <=? h) with true by (symmetry; apply Nat.leb_le; lia). unfold ret, dot.
      rewrite op_false. rewrite op_false. replace (Nat.max (Nat.max (Nat.max x h) h) h =? 0) with false by (symmetry; apply Nat.eqb_neq; lia). cbn [Nat.eqb orb]. unfold ret. rewrite op_false.
      replace (1 <=? Nat.max (Nat.max (Nat.max x h) h) h + 2 - 2) with true by (symmetry; apply Nat.leb_le; lia). rewrite !op_false. discriminate.
    + destruct (Nat.eq_dec h x) as [->|N]; [|rewrite op_refused by lia; split; [congruence | lia]]. split; [reflexivity | intros _].
      unfold broadcast_to. replace (1 <=? x) with true by (symmetry; apply Nat.leb_le; lia). unfold ret, dot.
      do 3 (rewrite (op_both true x x) by lia; rewrite Nat.max_id). replace (x =? 0) with false by (symmetry; apply Nat.eqb_neq; lia). cbn [Nat.eqb orb]. unfold ret.
      replace (x + 2 - 2) with x by lia. replace (1 <=? x) with true by (symmetry; apply Nat.leb_le; lia).
      do 2 (rewrite (op_both true x x) by lia; rewrite Nat.max_id). rewrite (op_both true 0 x) by lia. cbn [Nat.max].
      do 3 (rewrite (op_both true x x) by lia; rewrite Nat.max_id). discriminate.
  - intros X2. unfold lstm. replace ((2 <? x) || (x =? 0)) with false by (symmetry; rewrite orb_false_iff, Nat.ltb_ge, Nat.eqb_neq; lia).
    unfold bind, concat. cbn [forallb]. rewrite Nat.eqb_refl. cbn [andb]. unfold ret. rewrite !linear_runs by lia. unfold lstm_gates, bind. rewrite !op_false. split; [discriminate|].
    rewrite (op_both true x 0) by lia. rewrite Nat.max_0_r. destruct (Nat.eq_dec c x) as [->|N]; [|rewrite op_refused by lia; split; [congruence | lia]].
    split; [reflexivity|]. intros _. do 4 (rewrite (op_both true x x) by lia; rewrite ?Nat.max_id). discriminate.
Qed.
Print Assumptions C99_cores.

(** Initializers: all but [Orthogonal] agree when their constants are scalars, and those that broadcast whatever the constants. *)
Theorem C99_initializers i r w :
  match i with IConstant _ => True | INormal c | ITruncated c | IIdentity c => c = 0 \/ c = r | IOrthogonal _ => False | _ => True end ->
  initialize true i r w = initialize false i r w /\ (forall a w', initialize true i r w = Some (a, w') -> a = r /\ w' = w).
Proof.
  intros H. destruct i as [c|c|c| |[|[|d]]| |c|c]; cbn [initialize].
  - unfold broadcast_to. destruct (c <=? r); unfold ret, fail; split; try reflexivity; intros a w' E; [injection E as <- <-; auto | discriminate].
  - unfold bind. rewrite op_false, (op_both true c r) by lia. rewrite op_false, op_both by lia. split; [reflexivity|]. intros a w' E. injection E as <- <-. split; [lia | reflexivity].
  - unfold bind. rewrite op_false, (op_both true c r) by lia. rewrite op_false, op_both by lia. split; [reflexivity|]. intros a w' E. injection E as <- <-. split; [lia | reflexivity].
  - split; [reflexivity|]. intros a w' E. injection E as <- <-. auto.
  - unfold bind. rewrite op_false, (op_both true 0 r) by lia. rewrite op_false, op_both by lia. split; [reflexivity|]. intros a w' E. injection E as <- <-. split; [lia | reflexivity].
  - unfold bind. rewrite op_false, (op_both true 0 r) by lia. rewrite op_false, op_both by lia. split; [reflexivity|]. intros a w' E. injection E as <- <-. split; [lia | reflexivity].
  - split; [reflexivity|]. intros a w' E. injection E as <- <-. auto.
  - split; [reflexivity|]. intros a w' E. injection E as <- <-. auto.
  - easy.
  - destruct (r <? 2); [split; [reflexivity | discriminate]|]. rewrite op_false, op_both by lia. split; [reflexivity|]. intros a w' E. injection E as <- <-. split; [lia | reflexivity].
Qed.
Print Assumptions C99_initializers.
(** [Orthogonal] multiplies a matrix by a vector of signs: with promotion raising it can initialize nothing. *)
Theorem C99_orthogonal_refuted :
  (forall r w, 2 <= r -> initialize false (IOrthogonal 0) r w = Some (r, w)) /\ (forall c r w, initialize true (IOrthogonal c) r w = None).
Proof.
  split.
  - intros r w R. cbn [initialize]. replace (r <? 2) with false by (symmetry; apply Nat.ltb_ge; lia). unfold bind. rewrite op_false. apply op_false.
  - intros c r w. cbn [initialize]. destruct (r <? 2); [reflexivity|]. unfold bind. now rewrite op_refused by lia.
Qed.
Print Assumptions C99_orthogonal_refuted.

(** The transformer example: its forward function, its layers and its attention promote, whatever the mask. *)
Theorem C99_transformer_refuted layers z w :
  forward false layers z 2 w = Some (3, w) /\ forward true layers z 2 w = None /\
  (forall mask q, causal_attention true mask q w = None) /\ (forall masked h, transformer_layer true masked z h w = None).
Proof.
  assert (L : forall b x, 1 <= x -> layer_norm b true true None None x w = Some (x, w)).
  { intros b x X. unfold layer_norm. cbn [andb orb given]. unfold bind, param, ret, broadcast_to.
    replace (Nat.min 1 x <=? x) with true by (symmetry; apply Nat.leb_le; lia). rewrite Nat.leb_refl. unfold ret.
    rewrite op_both by lia. rewrite Nat.max_0_r. do 4 (rewrite op_both by lia; rewrite ?Nat.max_id). reflexivity. }
  assert (Dp : forall b, dropout b z 3 w = Some (3, w)). { intros b. unfold dropout. destruct z; [reflexivity|]. unfold bind. rewrite op_both by lia. rewrite op_both by lia. reflexivity. }
  assert (A : forall mask q, causal_attention true mask q w = None).
  { intros mask q. unfold causal_attention, bind.
    assert (At : forall m, m <> 0 -> m <> 4 -> attention true (Some m) q q q w = None).
    { intros m M0 M4. unfold attention, bind. destruct (heads true q w) as [[a w1]|] eqn:E1; [|reflexivity].
      destruct (heads true q w1) as [[a2 w2]|] eqn:E2; [|reflexivity]. destruct (heads true q w2) as [[a3 w3]|] eqn:E3; [|reflexivity].
      rewrite (op_both true 4 0) by lia. rewrite ?Nat.max_0_r, ?Nat.max_0_l. rewrite (op_both true 0 m) by lia. rewrite ?Nat.max_0_r, ?Nat.max_0_l. rewrite (op_both true 0 m) by lia. rewrite ?Nat.max_0_r, ?Nat.max_0_l.
      now rewrite op_refused by lia. }
    destruct mask as [m|]; [|apply At; lia]. destruct (Nat.eq_dec m 0) as [->|M]; [rewrite op_both by lia; apply At; lia|].
    destruct (Nat.eq_dec m 2) as [->|M2]; [rewrite op_both by lia; apply At; lia|]. now rewrite op_refused by lia. }
  split; [|split; [|split; [exact A|]]].
  - unfold forward, embed, bind, param, ret. cbv beta iota. rewrite op_false. cbn [Nat.add Nat.max]. unfold transformer, bind.
    assert (T : transformer_layer false true z 3 w = Some (3, w)).
    { unfold transformer_layer, bind. rewrite L by lia. unfold causal_attention, bind. rewrite op_false. cbn [Nat.max].
      rewrite (proj1 (C99_mask 4 3 3 3 w ltac:(lia) ltac:(lia) ltac:(lia) ltac:(lia))). rewrite Dp. rewrite op_false. cbn [Nat.max]. rewrite L by lia.
      unfold dense_block, bind. rewrite !linear_runs by lia. rewrite Dp. rewrite op_false. reflexivity. }
    assert (Ch : chain (repeat (transformer_layer false true z) layers) 3 w = Some (3, w)).
    { induction layers as [|n IH]; [reflexivity|]. cbn [repeat chain]. unfold bind. rewrite T. exact IH. }
    rewrite Ch, L by lia. apply linear_runs. lia.
  - unfold forward, embed, bind, param, ret. cbv beta iota. now rewrite op_refused by lia.
  - intros masked h. unfold transformer_layer, bind. destruct (layer_norm true true true None None h w) as [[n w1]|] eqn:E; [|reflexivity].
    assert (w1 = w).
    { destruct (Nat.eq_dec h 0) as [->|Hh]; [|rewrite L in E by lia; now injection E].
      cbv in E. now injection E. }
    subst w1. now rewrite A.
Qed.
Print Assumptions C99_transformer_refuted.

(** *** Examples *)
(** A ResNet of two blocks over two training steps and a test step, in the two modes. *)
Definition images (p n : string) : nat := if String.eqb n "counter" then 0 else 4.
Lemma images_norm q : norm_at images q 4. Proof. split; split; try split; reflexivity. Qed.
Example C99_resnet_case :
  let net tr := fun b => resnet b "res_net18" true false tr false [("block_0", true); ("block_1", false)] in
  match steps [net true; net true; net false] true 4 [] with Some (ys, w) => ys = [2; 2; 2] /\ List.length w = 30 | None => False end /\
  steps [net true; net true; net false] true 4 [] = steps [net true; net true; net false] false 4 [] /\
  steps [net false] true 4 [] = None.
Proof.
  split; [vm_compute; auto|]. split; [|vm_compute; reflexivity].
  apply (C99_training images). repeat constructor; exists 2; apply (NResNet images "res_net18" true false _ false _ 4 images_norm).
Qed.
Example C99_modules_case :
  vq_ema true "vq" true 4 [] <> None /\ spectral_norm true "sn" 3 true false 4 [] <> None /\ group_norm true true true true None None 4 [] = Some (4, []) /\
  layer_norm true false false (Some 1) (Some 2) 4 [] = Some (4, []) /\ conv true 2 true (Some 4) true 3 [] = Some (3, []) /\ separable true false true 4 [] = Some (4, []) /\
  bias true None (Some 1) 4 [] = None /\ embed OneHot 2 [] = Some (3, []) /\ embed ArrayIndex 2 [] = Some (3, []) /\ mlp true 3 true (Some false) false 2 [] = Some (2, []) /\
  attention true (Some 4) 3 3 3 [] = Some (3, []) /\ attention true (Some 2) 3 3 3 [] = None /\ vq true 3 [] = Some (3, []) /\ avg_pool true false 4 [] = Some (4, []) /\
  match mobilenet true "mobile_net_v1" true true ["block"; "block_1"] 4 [] with Some (y, w) => y = 2 /\ List.length w = 30 | None => False end /\
  mobilenet true "mobile_net_v1" true false ["block"; "block_1"] 4 [] = Some (2, []).
Proof.
  split; [discriminate|]. split; [discriminate|]. do 12 (split; [reflexivity|]). split; [vm_compute; auto | reflexivity].
Qed.
(** A deep LSTM with skip connections under resets, unrolled. *)
Example C99_core_case :
  let deep := fun b => deep_rnn [Core 2 (lstm b); Core 1 (gru b)] true in
  let c := fun b => reset_core b (deep b) [1; 1; 1] [1; 1; 1] in
  dynamic_unroll true 5 (c true) 2 [2; 2; 2] [] = Some ((3, [2; 2; 2]), []) /\ static_unroll 5 (c true) 2 [2; 2; 2] [] = Some ((3, [2; 2; 2]), []) /\
  reset_core true (deep true) [1; 1; 1] [2; 2; 2] 1 [1; 1; 1] [] = None /\ reset_core true (deep true) [1; 1; 1] [0; 0; 0] 1 [1; 1; 1] [] = Some ((1, [1; 1; 1]), []) /\
  recurrent (fun _ _ => 0) (fun b => reset_core b (deep_rnn (map (fun l => l b) [fun b => Core 2 (lstm b); fun b => Core 1 (gru b)]) true) [1; 1; 1] [1; 1; 1]) 2 [2; 2; 2] 2.
Proof.
  split; [vm_compute; reflexivity|]. split; [vm_compute; reflexivity|]. split; [vm_compute; reflexivity|]. split; [vm_compute; reflexivity|].
  apply (RReset _ (fun b => deep_rnn (map (fun l => l b) [fun b => Core 2 (lstm b); fun b => Core 1 (gru b)]) true)); [repeat constructor; discriminate | now right|].
  apply (RDeep _ [fun b => Core 2 (lstm b); fun b => Core 1 (gru b)] true 2 [2; 2; 2] [2; 2] 2).
  apply (DCore _ true 2 true 2 lstm _ 2 [2; 2] [2] 2 [2] 2); [reflexivity | apply RLstm|].
  apply (DCore _ true 2 false 1 gru _ 2 [2] [] 2 [] 2); [reflexivity | apply RGru | apply DNil].
Qed.
Example C99_conv_lstm_case : conv_lstm true 2 4 [4; 4] [] = Some ((4, [4; 4]), []) /\ conv_lstm true 2 4 [3; 4] [] = None /\ conv_lstm false 2 4 [3; 4] [] <> None /\ vanilla true true 1 [2] [] = None.
Proof. repeat split; try reflexivity. discriminate. Qed.

(** *** The state's entries *)
(** [get_state] gives back what was stored last under the name, whatever rank its initializer has, and changes nothing; without an entry it stores the initializer's. *)
Theorem C99_state_read p n t u w : bind (set_state p n t) (fun _ => get_state p n u) w = Some (t, put (p, n) t w) /\ read_state p n (put (p, n) t w) = Some (t, put (p, n) t w) /\
  (find (p, n) w = None -> get_state p n u w = Some (u, put (p, n) u w) /\ read_state p n w = None).
Proof.
  assert (F : find (p, n) (put (p, n) t w) = Some t).
  { induction w as [|[k v] w IH]; cbn [put find]; unfold key_eqb at 1; cbn [fst snd]; [rewrite !String.eqb_refl; reflexivity|].
    destruct (key_eqb (p, n) k) eqn:E; cbn [find]; unfold key_eqb in E; cbn [fst snd] in E; rewrite E; cbn [find]; unfold key_eqb at 1; cbn [fst snd]; rewrite E; [reflexivity | exact IH]. }
  unfold bind, set_state, get_state, read_state. rewrite F. split; [reflexivity|]. split; [reflexivity|]. intros ->. split; reflexivity.
Qed.
Print Assumptions C99_state_read.
Example C99_state_read_case : bind (set_state "bn" "hidden" 4) (fun _ => get_state "bn" "hidden" 2) [] = Some (4, [(("bn", "hidden"), 4)]).
Proof. reflexivity. Qed.

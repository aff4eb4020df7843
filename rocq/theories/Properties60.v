(** C96: element types *)
From Coq Require Import String List Bool Arith Lia.
From Verif Require Import ModelDtype.
Import ListNotations.
Local Open Scope string_scope.

(** Promotion is a join. *)
Theorem C96_lattice : (forall a, join a a = a) /\ (forall a b, join a b = join b a) /\ (forall a b c, join a (join b c) = join (join a b) c).
Proof. split; [|split]; [intros []|intros [] []|intros [] [] []]; reflexivity. Qed.
Print Assumptions C96_lattice.
Example C96_lattice_case : join TBF16 TF16 = TF32 /\ join TF16 TWf = TF16 /\ join TI32 TWf = TWf /\ join TBF16 TI64 = TBF16.
Proof. repeat split. Qed.
Definition le (a b : ty) : Prop := join a b = b.
Definition joinA := proj2 (proj2 C96_lattice).
Definition joinC := proj1 (proj2 C96_lattice).
Definition joinI := proj1 C96_lattice.
Lemma le_refl a : le a a. Proof. apply joinI. Qed.
Lemma le_trans a b c : le a b -> le b c -> le a c.
Proof. unfold le. intros H K. rewrite <- K, joinA, H. reflexivity. Qed.
Lemma le_l a b c : le a b -> le a (join b c).
Proof. unfold le. intros H. now rewrite joinA, H. Qed.
Lemma le_r a b c : le a c -> le a (join b c).
Proof. rewrite joinC. apply le_l. Qed.

(** The initializers give the type they are asked for. *)
Theorem C96_initializers x64 i d : init_type x64 i d = d.
Proof. destruct i as [| | | |[|[|]]| | |]; cbn; now rewrite ?joinI. Qed.
Print Assumptions C96_initializers.
Example C96_initializers_case : init_type false (ITruncated TF64) TBF16 = TBF16. Proof. reflexivity. Qed.

(** *** One type throughout *)
Definition width (d : ty) : Prop := d = TBF16 \/ d = TF16 \/ d = TF32 \/ d = TF64.
(** Everything in the state but the counters has type [d], and every parameter was asked for in type [d]. *)
Definition uniform (d : ty) (w : world) : Prop :=
  (forall m n t, In ((m, n), t) (cells w) -> t = if String.eqb n "counter" then TI32 else d) /\ (forall k t, In (k, t) (asked w) -> t = d).
(** A module that keeps type [d]. [total]: it also returns in every such world. *)
Definition post {A} (total : bool) (d : ty) (P : A -> Prop) (r : option (A * world)) : Prop :=
  match r with Some (a, w) => P a /\ uniform d w | None => total = false end.
Definition keeps (total : bool) (d : ty) (f : ty -> M ty) : Prop := forall w, uniform d w -> post total d (eq d) (f d w).

Lemma uniform_empty d : uniform d (World [] []).
Proof. split; intros *; intros []. Qed.
Lemma post_bind {A B} total d (P : A -> Prop) (Q : B -> Prop) (m : M A) (f : A -> M B) w :
  post total d P (m w) -> (forall a w, P a -> uniform d w -> post total d Q (f a w)) -> post total d Q (bind m f w).
Proof. unfold bind. intros H K. destruct (m w) as [[a w']|]; [destruct H; auto|exact H]. Qed.
Lemma post_ret {A} total d (P : A -> Prop) a w : P a -> uniform d w -> post total d P (ret a w).
Proof. split; assumption. Qed.
Lemma post_weak {A} total total' d (P Q : A -> Prop) r : (total' = true -> total = true) -> (forall a, P a -> Q a) -> post total d P r -> post total' d Q r.
Proof. intros T H. destruct r as [[a w]|]; cbn; [intros [? ?]; auto|]. destruct total, total'; auto. intros. now specialize (T eq_refl). Qed.
Lemma find_in k l t : find k l = Some t -> In (k, t) l.
Proof.
  induction l as [|[k' t'] l IH]; [discriminate|]. cbn. destruct (key_eqb k k') eqn:E; [|auto]. intros [= ->]. left. f_equal.
  unfold key_eqb in E. apply andb_prop in E. destruct k, k'. cbn in E. destruct E as [E F]. apply String.eqb_eq in E, F. now subst.
Qed.
Lemma put_in k t l k' t' : In (k', t') (put k t l) -> (k' = k /\ t' = t) \/ In (k', t') l.
Proof.
  induction l as [|[k2 t2] l IH]; cbn; [intros [[= <- <-]|[]]; auto|]. destruct (key_eqb k k2) eqn:E; cbn.
  - intros [[= <- <-]|H]; [|auto]. left. split; [|reflexivity]. unfold key_eqb in E. apply andb_prop in E. destruct k, k2. cbn in E. destruct E as [E F]. apply String.eqb_eq in E, F. now subst.
  - intros [H|H]; [auto|]. destruct (IH H); auto.
Qed.
Lemma post_get total d p n t w : uniform d w -> t = (if String.eqb n "counter" then TI32 else d) -> post total d (eq t) (get_state p n t w).
Proof.
  intros [U A] ->. unfold get_state. destruct (find (p, n) (cells w)) as [t|] eqn:E; cbn.
  - split; [|now split]. apply find_in in E. now rewrite (U _ _ _ E).
  - split; [reflexivity|]. split; [|exact A]. cbn. intros m' n' t' H. apply put_in in H as [[[= -> ->] ->]|H]; [reflexivity|now apply (U m')].
Qed.
Lemma post_set total d p n t w : uniform d w -> t = (if String.eqb n "counter" then TI32 else d) -> post total d (fun _ => True) (set_state p n t w).
Proof.
  intros [U A] ->. split; [exact I|]. split; [|exact A]. cbn. intros m' n' t' H. apply put_in in H as [[[= -> ->] ->]|H]; [reflexivity|now apply (U m')].
Qed.
Lemma post_read d p n w : uniform d w -> String.eqb n "counter" = false -> post false d (eq d) (read_state p n w).
Proof. intros [U A] E. unfold read_state. destruct (find (p, n) (cells w)) as [t|] eqn:F; [|reflexivity]. apply find_in in F. cbn. split; [rewrite (U _ _ _ F), E; reflexivity|now split]. Qed.

Section Keeps.
Context (x64 : bool) (stored : string -> string -> ty -> ty) (d : ty) (Hd : width d) (honest : forall p n, stored p n d = d).
Lemma dtype_d : dtype x64 d = d. Proof. now destruct Hd as [->|[->|[->| ->]]]. Qed.
Lemma inexact_d : inexact x64 d = d. Proof. now destruct Hd as [->|[->|[->| ->]]]. Qed.
Lemma weak_d : join d TWf = d. Proof. now destruct Hd as [->|[->|[->| ->]]]. Qed.
Lemma weak_d' : join TWf d = d. Proof. now destruct Hd as [->|[->|[->| ->]]]. Qed.
Lemma int_d : join TWi d = d. Proof. now destruct Hd as [->|[->|[->| ->]]]. Qed.
Lemma int_d' : join d TWi = d. Proof. now destruct Hd as [->|[->|[->| ->]]]. Qed.
Lemma i32_d : join d TI32 = d. Proof. now destruct Hd as [->|[->|[->| ->]]]. Qed.
Lemma i64_d : join d TI64 = d. Proof. now destruct Hd as [->|[->|[->| ->]]]. Qed.
Lemma bool_d : join TBool d = d. Proof. now destruct Hd as [->|[->|[->| ->]]]. Qed.
Lemma div_d : div x64 d d = d. Proof. unfold div. now rewrite joinI, inexact_d. Qed.
Lemma same_d : lax_same x64 d d = Some d. Proof. now destruct Hd as [->|[->|[->| ->]]]. Qed.
Hint Rewrite dtype_d inexact_d weak_d weak_d' int_d int_d' i32_d i64_d bool_d div_d same_d joinI : types.
Ltac types := autorewrite with types; try reflexivity.
Lemma post_param total p n w : uniform d w -> post total d (eq d) (param stored p n d w).
Proof. intros [U A]. unfold param. rewrite honest. split; [reflexivity|]. split; [exact U|]. cbn. intros k t H. apply in_app_or in H as [H|[[= _ <-]|[]]]; [now apply (A k)|reflexivity]. Qed.
Definition od (b : bool) (o : option ty) : Prop := o = if b then Some d else None.
Lemma post_opt total b p n w : uniform d w -> post total d (od b) (opt b (param stored p n d) w).
Proof.
  intros U. unfold opt, od. destruct b; [|split; [reflexivity|exact U]]. eapply post_bind; [apply post_param; exact U|]. intros a w' <- U'. now apply post_ret.
Qed.
Lemma keeps_linear p b : keeps true d (linear x64 stored p b).
Proof.
  intros w U. unfold linear. rewrite dtype_d. eapply post_bind; [apply post_param, U|]. intros a w1 <- U1. cbv zeta. eapply post_bind; [apply post_opt, U1|]. intros o w2 -> U2. apply post_ret; [|exact U2].
  destruct b; cbn; types.
Qed.
Lemma keeps_bias p m : (forall t, m = Some t -> le t d) -> keeps true d (bias x64 stored p m).
Proof. intros Hm w U. unfold bias. rewrite dtype_d. eapply post_bind; [apply post_param, U|]. intros a w1 <- U1. apply post_ret; [|exact U1]. destruct m as [t|]; cbn; types. specialize (Hm t eq_refl). rewrite (joinC d t), Hm. now rewrite joinI. Qed.
Lemma keeps_conv p mask b : (forall t, mask = Some t -> le t d) -> keeps true d (conv x64 stored p mask b).
Proof.
  intros Hm w U. unfold conv. rewrite dtype_d. eapply post_bind; [apply post_param, U|]. intros a w1 <- U1. assert (plus d mask = d) as ->.
  { destruct mask as [t|]; [|reflexivity]. cbn. rewrite joinC. now apply Hm. }
  rewrite same_d. eapply post_bind with (P := eq d); [now split|]. intros a w2 <- U2. eapply post_bind; [apply post_opt, U2|]. intros o w3 -> U3. apply post_ret; [|exact U3]. destruct b; cbn; types.
Qed.
Lemma keeps_then total (f g : ty -> M ty) : keeps total d f -> keeps total d g -> keeps total d (fun x => y <- f x ;; g y).
Proof. intros F G w U. eapply post_bind; [apply F, U|]. intros a w1 <- U1. now apply G. Qed.
Lemma keeps_chain total fs : Forall (keeps total d) fs -> keeps total d (chain fs).
Proof. induction 1 as [|f fs F _ IH]; [intros w U; now apply post_ret|]. now apply (keeps_then total f (chain fs)). Qed.
Lemma keeps_total total f : keeps true d f -> keeps total d f.
Proof. intros F w U. eapply post_weak; [| |apply F, U]; auto. Qed.
Lemma keeps_separable p b : keeps true d (separable x64 stored p b).
Proof. apply (keeps_then true); apply keeps_conv; discriminate. Qed.
(** A warm-up wants the default type (C96_warmup). *)
Lemma keeps_ema p warmup z u : (warmup = true -> d = default x64) -> keeps true d (ema x64 p warmup z u).
Proof.
  intros Hw w U. unfold ema. eapply post_bind; [now apply post_get|]. intros c w1 <- U1. cbv zeta. rewrite dtype_d. change (join TI32 TWi) with TI32.
  eapply post_bind with (P := eq d).
  { destruct warmup; [|now apply post_ret]. assert (lax_same x64 TWf d = Some d) as -> by (rewrite (Hw eq_refl); now destruct x64). now split. }
  intros t w2 <- U2. eapply post_bind; [now apply post_get|]. intros t w3 <- U3. rewrite !joinI.
  assert ((if z then div x64 d (join d (join d TI32)) else d) = d) as -> by (destruct z; types).
  eapply post_bind with (P := fun _ => True); [|intros ? ? _ ?; now apply post_ret].
  destruct u; [|now apply post_ret]. eapply post_bind; [now apply post_set|]. intros _ w4 _ U4. eapply post_bind; [now apply post_set|]. intros _ w5 _ U5. now apply post_set.
Qed.
Lemma keeps_batch_norm p cs co tr lo sc off : (forall t, sc = Some t -> le t d) -> (forall t, off = Some t -> le t d) -> cs && (if sc then true else false) = false -> co && (if off then true else false) = false ->
  keeps (tr || lo) d (batch_norm x64 stored p cs co tr lo sc off).
Proof.
  intros Hs Ho Es Eo w U. unfold batch_norm. destruct sc as [ts|], off as [to|]; cbv beta iota in Es, Eo |- *; rewrite Es, Eo; cbn [orb].
  all: eapply post_bind with (P := eq (d, d)).
  1,3,5,7: destruct (tr || lo); [apply post_ret; [now types|exact U]|]; eapply post_bind; [now apply post_read|]; intros m w1 <- U1; eapply post_bind; [now apply post_read|]; intros v w2 <- U2; now apply post_ret.
  all: intros mv w1 <- U1; cbv beta iota zeta; eapply post_bind with (P := fun _ => True);
    [destruct tr; [|now apply post_ret]; eapply post_bind; [apply (keeps_total _ _ (keeps_ema _ false _ _ ltac:(discriminate))), U1|]; intros ? w2 <- U2; eapply post_bind; [apply (keeps_total _ _ (keeps_ema _ false _ _ ltac:(discriminate))), U2|]; intros; now apply post_ret|].
  all: intros _ w2 _ U2; rewrite dtype_d; eapply post_bind; [apply post_opt, U2|]; intros o1 w3 -> U3; eapply post_bind; [apply post_opt, U3|]; intros o2 w4 -> U4; apply post_ret; [|exact U4].
  all: destruct cs, co; try discriminate; types; try (specialize (Hs _ eq_refl); unfold le in Hs; rewrite ?Hs); try (specialize (Ho _ eq_refl); rewrite joinC; unfold le in Ho; rewrite ?Ho); types; try (symmetry; assumption); try (rewrite (joinC _ d) in *; congruence).
Qed.
Lemma keeps_bn p tr lo : keeps (tr || lo) d (bn x64 stored p tr lo).
Proof. apply keeps_batch_norm; try discriminate; reflexivity. Qed.
Lemma keeps_layer_norm p cs co sc off : (forall t, sc = Some t -> le t d) -> (forall t, off = Some t -> le t d) -> cs && (if sc then true else false) = false -> co && (if off then true else false) = false ->
  keeps true d (layer_norm x64 stored p cs co sc off).
Proof.
  intros Hs Ho Es Eo w U. unfold layer_norm. destruct sc as [ts|], off as [to|]; cbv beta iota in Es, Eo |- *; rewrite Es, Eo; cbn [orb]; cbv zeta; rewrite dtype_d.
  all: eapply post_bind; [apply post_opt, U|]; intros o1 w3 -> U3; eapply post_bind; [apply post_opt, U3|]; intros o2 w4 -> U4; apply post_ret; [|exact U4].
  all: destruct cs, co; try discriminate; types; try (specialize (Hs _ eq_refl); unfold le in Hs; rewrite ?Hs); try (specialize (Ho _ eq_refl); rewrite joinC; unfold le in Ho; rewrite ?Ho); types; try (symmetry; assumption); try (rewrite (joinC _ d) in *; congruence).
Qed.
Lemma keeps_group_norm p cs co sc off : (forall t, sc = Some t -> le t d) -> (forall t, off = Some t -> le t d) -> cs && (if sc then true else false) = false -> co && (if off then true else false) = false ->
  keeps true d (group_norm x64 stored p cs co sc off).
Proof.
  intros Hs Ho Es Eo w U. unfold group_norm. destruct sc as [ts|], off as [to|]; cbv beta iota in Es, Eo |- *; rewrite Es, Eo; cbn [orb]; cbv zeta; rewrite dtype_d.
  all: eapply post_bind; [apply post_opt, U|]; intros o1 w3 -> U3; eapply post_bind; [apply post_opt, U3|]; intros o2 w4 -> U4; apply post_ret; [|exact U4].
  all: destruct cs, co; try discriminate; cbn [plus]; types; try (specialize (Hs _ eq_refl); rewrite (joinC d); unfold le in Hs; rewrite ?Hs); try (specialize (Ho _ eq_refl); rewrite (joinC d); unfold le in Ho; rewrite ?Ho); types; try (symmetry; assumption); try (rewrite (joinC _ d) in *; congruence).
Qed.
Lemma power_d n : forall v, power (S n) d d v = (d, Some d).
Proof. induction n as [|n IH]; intros v; cbn [power]; unfold l2_normalize; types. rewrite <- (IH (Some d)). cbn [power]. unfold l2_normalize. now types. Qed.
Lemma keeps_spectral_norm p n u : n <> 0 -> keeps true d (spectral_norm x64 p n u).
Proof.
  intros Hn w U. destruct n as [|n]; [easy|]. unfold spectral_norm. rewrite dtype_d. eapply post_bind; [now apply post_get|]. intros t w1 <- U1. rewrite power_d. cbv zeta. types.
  eapply post_bind with (P := fun _ => True); [|intros ? ? _ ?; now apply post_ret]. destruct u; [|now apply post_ret]. eapply post_bind; [now apply post_set|]. intros _ w4 _ U4. now apply post_set.
Qed.
Lemma keeps_attention p mask : (forall t, mask = Some t -> le t d) -> forall w, uniform d w -> post true d (eq d) (attention x64 stored p mask d d d w).
Proof.
  intros Hm w U. unfold attention. do 3 (eapply post_bind; [now apply keeps_linear|]; intros ? ? <- ?). cbv zeta. types.
  assert (plus d (option_map (fun m => join TWf (join TWf m)) mask) = d) as ->.
  { destruct mask as [t|]; [|reflexivity]. cbn [plus option_map]. specialize (Hm t eq_refl). rewrite (joinC d), <- !joinA, Hm. types. }
  types. now apply keeps_linear.
Qed.
Lemma keeps_max_pool : keeps true d max_pool.
Proof. intros w U. now apply post_ret. Qed.
Lemma keeps_avg_pool v : keeps true d (avg_pool x64 v).
Proof. intros w U. apply post_ret; [|exact U]. destruct v; unfold div; types. Qed.
Lemma keeps_dropout z : keeps true d (dropout x64 z).
Proof. intros w U. apply post_ret; [|exact U]. destruct z; unfold div; types. Qed.
Lemma keeps_mlp p layers b dr fin : keeps true d (mlp x64 stored p layers b dr fin).
Proof.
  apply keeps_chain. apply Forall_map, Forall_forall. intros [i l] _ w U. eapply post_bind; [now apply keeps_linear|]. intros y w1 <- U1.
  destruct dr as [z|]; [|now apply post_ret]. destruct (_ || _); [now apply keeps_dropout|now apply post_ret].
Qed.
Lemma keeps_block v2 p tr lo pr bo : keeps (tr || lo) d (block x64 stored v2 p tr lo pr bo).
Proof.
  assert (C : forall p, keeps (tr || lo) d (conv0 x64 stored p)) by (intros; apply keeps_total, keeps_conv; discriminate).
  destruct v2; intros w U.
  - unfold block, block_v2. eapply post_bind; [now apply keeps_bn|]. intros y w1 <- U1. eapply post_bind with (P := eq d); [destruct pr; [now apply C|now apply post_ret]|]. intros s w2 <- U2.
    eapply post_bind; [now apply C|]. intros y w3 <- U3. eapply post_bind with (P := eq d); [|intros o w4 <- U4; apply post_ret; [now types|exact U4]]. apply keeps_chain; [|exact U3].
    apply Forall_map, Forall_forall. intros i _. apply keeps_then; [apply keeps_bn|apply C].
  - unfold block, block_v1. eapply post_bind with (P := eq d). 
    { destruct pr; [|now apply post_ret]. apply keeps_chain; [|exact U]. constructor; [apply C|constructor; [apply keeps_bn|constructor]]. }
    intros s w2 <- U2. eapply post_bind with (P := eq d); [|intros o w4 <- U4; apply post_ret; [now types|exact U4]]. apply keeps_chain; [|exact U2].
    apply Forall_map, Forall_forall. intros i _. apply keeps_then; [apply C|apply keeps_bn].
Qed.
Lemma keeps_resnet p v2 bo tr lo blocks : keeps (tr || lo) d (resnet x64 stored p v2 bo tr lo blocks).
Proof.
  intros w U. unfold resnet. eapply post_bind; [apply keeps_total, U; apply keeps_conv; discriminate|]. intros y w1 <- U1.
  eapply post_bind with (P := eq d); [destruct v2; [now apply post_ret|now apply keeps_bn]|]. intros y w2 <- U2. eapply post_bind; [now apply keeps_total, U2; apply keeps_max_pool|]. intros y w3 <- U3.
  eapply post_bind; [apply keeps_chain, U3; apply Forall_map, Forall_forall; intros; apply keeps_block|]. intros y w4 <- U4.
  eapply post_bind with (P := eq d); [destruct v2; [now apply keeps_bn|now apply post_ret]|]. intros y w5 <- U5. rewrite inexact_d. apply keeps_total, U5. apply keeps_linear.
Qed.
Lemma keeps_mobilenet p tr b blocks : keeps (tr || negb b) d (mobilenet x64 stored p tr b blocks).
Proof.
  assert (C : forall p b', keeps (tr || negb b) d (conv x64 stored p None b')) by (intros; apply keeps_total, keeps_conv; discriminate).
  assert (N : forall p w, uniform d w -> post (tr || negb b) d (eq d) ((if b then bn x64 stored p tr false d else ret d) w)).
  { intros q w U. destruct b; [|now apply post_ret]. eapply post_weak; [| |now apply keeps_bn]; [|auto]. now destruct tr. }
  intros w U. unfold mobilenet. eapply post_bind; [now apply C|]. intros y w1 <- U1. eapply post_bind; [now apply N|]. intros y w2 <- U2. 
  eapply post_bind with (P := eq d); [apply keeps_chain, U2; apply Forall_map, Forall_forall; intros n _ w3 U3|intros y w4 <- U4; rewrite inexact_d; now apply keeps_total, U4; apply keeps_linear].
  unfold mobile_block. eapply post_bind; [now apply C|]. intros y w4 <- U4. eapply post_bind; [now apply N|]. intros y w5 <- U5. eapply post_bind; [now apply C|]. intros y w6 <- U6. now apply N.
Qed.
(** Cores: with a state of type [d]. *)
Definition keeps_core (n : nat) (c : core) : Prop := forall w, uniform d w -> post true d (eq (d, repeat d n)) (c d (repeat d n) w).
Lemma keeps_vanilla p b : keeps_core 1 (vanilla x64 stored p b).
Proof. intros w U. unfold vanilla, repeat. do 2 (eapply post_bind; [now apply keeps_linear|]; intros ? ? <- ?). apply post_ret; [now types|assumption]. Qed.
Lemma gates_d : lstm_gates d d = (d, [d; d]).
Proof. unfold lstm_gates. now types. Qed.
Lemma keeps_lstm p : keeps_core 2 (lstm x64 stored p).
Proof. intros w U. unfold lstm, repeat. rewrite joinI. eapply post_bind; [now apply keeps_linear|]. intros ? ? <- ?. rewrite gates_d. now apply post_ret. Qed.
Lemma keeps_conv_lstm p : keeps_core 2 (conv_lstm x64 stored p).
Proof. intros w U. unfold conv_lstm, repeat. do 2 (eapply post_bind; [now apply keeps_conv|]; intros ? ? <- ?). rewrite joinI, gates_d. now apply post_ret. Qed.
Lemma keeps_gru p : keeps_core 1 (gru x64 stored p).
Proof. intros w U. unfold gru, repeat. rewrite dtype_d. do 3 (eapply post_bind; [now apply post_param|]; intros ? ? <- ?). cbv zeta. apply post_ret; [now types|assumption]. Qed.
Lemma keeps_identity n : keeps_core n identity_core.
Proof. intros w U. now apply post_ret. Qed.
Lemma keeps_reset n c : keeps_core n c -> keeps_core n (reset_core x64 c).
Proof. intros K w U. unfold reset_core. replace (map _ _) with (repeat d n); [now apply K|]. induction n as [|n IH]; [reflexivity|]. cbn. rewrite dtype_d, joinI. f_equal. clear -honest Hd. induction n; cbn; [reflexivity|]. rewrite dtype_d, joinI. now f_equal. Qed.

(** Layers of a deep core. *)
Definition keeps_layer (l : layer) : Prop := match l with Core n c => keeps_core n c | Callable f => keeps true d f end.
Definition size (l : layer) : nat := match l with Core n _ => n | Callable _ => 0 end.
Definition sizes (ls : list layer) : nat := fold_right (fun l n => size l + n) 0 ls.
Definition cores (ls : list layer) : nat := fold_right (fun l n => (match l with Core _ _ => 1 | _ => 0 end) + n) 0 ls.
Lemma keeps_loop skip ls : Forall keeps_layer ls -> forall first k m w, uniform d w ->
  post true d (eq (d, repeat d (k + cores ls), repeat d (m + sizes ls))) (deep_loop ls skip first d d (repeat d (sizes ls)) (repeat d k) (repeat d m) w).
Proof.
  induction 1 as [|l ls K _ IH]; intros first k m w U; [cbn; rewrite !Nat.add_0_r; now split|].
  cbn [deep_loop]. assert ((if skip && negb first then join d d else d) = d) as -> by (destruct (_ && _); [apply joinI|reflexivity]).
  destruct l as [n c|f]; [change (sizes (Core n c :: ls)) with (n + sizes ls); change (cores (Core n c :: ls)) with (1 + cores ls)|change (sizes (Callable f :: ls)) with (sizes ls); change (cores (Callable f :: ls)) with (cores ls)].
  - eapply post_bind with (P := eq (d, repeat d n)); [|intros r w1 <- U1].
    + rewrite repeat_app, firstn_app, repeat_length, Nat.sub_diag, app_nil_r, firstn_all2 by (now rewrite repeat_length). apply K, U.
    + cbn [fst snd]. assert (skipn n (repeat d (n + sizes ls)) = repeat d (sizes ls)) as -> by (rewrite repeat_app, skipn_app, repeat_length, Nat.sub_diag, skipn_all2 by (now rewrite repeat_length); reflexivity).
      change [d] with (repeat d 1). rewrite <- !repeat_app. replace (k + (1 + cores ls)) with (k + 1 + cores ls) by lia. replace (m + (n + sizes ls)) with (m + n + sizes ls) by lia. apply IH, U1.
  - eapply post_bind; [apply K, U|]. intros y w1 <- U1. apply IH, U1.
Qed.
Lemma joins_d k : joins (repeat d (S k)) = Some d.
Proof. cbn. f_equal. induction k as [|k IH]; [reflexivity|]. cbn. now rewrite joinI. Qed.
Lemma keeps_deep skip ls : Forall keeps_layer ls -> (skip = true -> cores ls <> 0) -> keeps_core (sizes ls) (deep_rnn ls skip).
Proof.
  intros F Hs w U. unfold deep_rnn. eapply post_bind; [apply (keeps_loop skip ls F true 0 0), U|]. intros r w1 <- U1. cbn [Nat.add]. destruct skip; [|now apply post_ret].
  destruct (cores ls) as [|k] eqn:E; [now destruct (Hs eq_refl)|]. rewrite joins_d. eapply post_bind with (P := eq d); [now split|]. intros o w2 <- U2. now apply post_ret.
Qed.
Lemma keeps_unroll n c steps : keeps_core n c -> forall k w, uniform d w -> post true d (eq (repeat d (k + steps), repeat d n)) (unroll_loop steps c d (repeat d n) (repeat d k) w).
Proof.
  intros K. induction steps as [|steps IH]; intros k w U; [cbn; rewrite Nat.add_0_r; now split|]. cbn [unroll_loop]. eapply post_bind; [apply K, U|]. intros r w1 <- U1. cbn [fst snd].
  change [d] with (repeat d 1). rewrite <- repeat_app. replace (k + S steps) with (k + 1 + steps) by lia. now apply IH.
Qed.
End Keeps.

(** Modules as built by hand: from the modules of Haiku by composition. [ok] restricts the types of arrays the caller supplies (masks, multipliers, scales, offsets), [warm] whether averages may warm up. *)
Section Built.
Context (x64 : bool) (stored : string -> string -> ty -> ty) (ok : ty -> Prop) (warm : Prop).
Definition fine (o : option ty) : Prop := forall t, o = Some t -> ok t.
Definition exclusive (created : bool) (given : option ty) : Prop := created && (if given then true else false) = false.
Inductive built : bool -> (ty -> M ty) -> Prop :=
| BLinear p b : built true (linear x64 stored p b)
| BBias p m : fine m -> built true (bias x64 stored p m)
| BConv p mask b : fine mask -> built true (conv x64 stored p mask b)
| BSeparable p b : built true (separable x64 stored p b)
| BEma p warmup z u : (warmup = true -> warm) -> built true (ema x64 p warmup z u)
| BBatchNorm p cs co tr lo sc off : fine sc -> fine off -> exclusive cs sc -> exclusive co off -> built (tr || lo) (batch_norm x64 stored p cs co tr lo sc off)
| BLayerNorm p cs co sc off : fine sc -> fine off -> exclusive cs sc -> exclusive co off -> built true (layer_norm x64 stored p cs co sc off)
| BGroupNorm p cs co sc off : fine sc -> fine off -> exclusive cs sc -> exclusive co off -> built true (group_norm x64 stored p cs co sc off)
| BSpectralNorm p n u : n <> 0 -> built true (spectral_norm x64 p n u)
| BAttention p mask : fine mask -> built true (fun x => attention x64 stored p mask x x x)
| BMaxPool : built true max_pool
| BAvgPool v : built true (avg_pool x64 v)
| BDropout z : built true (dropout x64 z)
| BMlp p layers b dr fin : built true (mlp x64 stored p layers b dr fin)
| BResNet p v2 bo tr lo blocks : built (tr || lo) (resnet x64 stored p v2 bo tr lo blocks)
| BMobileNet p tr b blocks : built (tr || negb b) (mobilenet x64 stored p tr b blocks)
| BIdentity : built true ret
| BThen t f g : built t f -> built t g -> built t (fun x => y <- f x ;; g y)
| BSum t f g : built t f -> built t g -> built t (fun x => y <- f x ;; z <- g x ;; ret (join y z))
| BWeaken f : built true f -> built false f.
End Built.

Lemma built_keeps x64 stored d total f : width d -> (forall p n, stored p n d = d) -> built x64 stored (fun t => le t d) (d = default x64) total f -> keeps total d f.
Proof.
  intros Hd honest B. induction B.
  - eapply keeps_linear; eassumption.
  - eapply keeps_bias; eassumption.
  - eapply keeps_conv; eassumption.
  - eapply keeps_separable; eassumption.
  - eapply keeps_ema; eassumption.
  - eapply keeps_batch_norm; eassumption.
  - eapply keeps_layer_norm; eassumption.
  - eapply keeps_group_norm; eassumption.
  - eapply keeps_spectral_norm; eassumption.
  - intros w' U. apply keeps_attention; assumption.
  - eapply keeps_max_pool; eassumption.
  - eapply keeps_avg_pool; eassumption.
  - eapply keeps_dropout; eassumption.
  - eapply keeps_mlp; eassumption.
  - eapply keeps_resnet; eassumption.
  - eapply keeps_mobilenet; eassumption.
  - intros w' U. now apply post_ret.
  - now apply keeps_then.
  - intros w' U. eapply post_bind; [now apply IHB1|]. intros y w1 <- U1. eapply post_bind; [now apply IHB2|]. intros z w2 <- U2. apply post_ret; [now rewrite joinI|exact U2].
  - eapply keeps_total; eassumption.
Qed.
(** Everything keeps one float type, and asks for and stores only that type, when the parameters come in the type they are asked in. *)
Theorem C96_one_type x64 stored d total f w : width d -> (forall p n, stored p n d = d) -> built x64 stored (fun t => le t d) (d = default x64) total f ->
  (forall m n t, In ((m, n), t) (cells w) -> t = if String.eqb n "counter" then TI32 else d) -> asked w = [] ->
  match f d w with
  | Some (y, w') => y = d /\ (forall k t, In (k, t) (asked w') -> t = d) /\ (forall m n t, In ((m, n), t) (cells w') -> t = if String.eqb n "counter" then TI32 else d)
  | None => total = false
  end.
Proof.
  intros Hd honest B. pose proof (built_keeps _ _ _ _ _ Hd honest B) as K.
  intros U A. assert (A0 : forall k t, In (k, t) (asked w) -> t = d) by (rewrite A; intros k t []). specialize (K w (conj U A0)). unfold post in K. destruct (f d w) as [[y w']|]; [|exact K]. destruct K as [<- [U' A']]. auto.
Qed.
Print Assumptions C96_one_type.

(** Along a whole training run: initialisation and then any number of applications, each on the state the one before left. *)
Fixpoint run (n : nat) (f : ty -> M ty) (x : ty) (w : world) : option (list ty * world) :=
  match n with
  | 0 => Some ([], w)
  | S n => match f x w with
           | Some (y, w) => match run n f x (World (cells w) []) with Some (ys, w) => Some (y :: ys, w) | None => None end
           | None => None
           end
  end.
Theorem C96_runs x64 stored d f n : width d -> (forall p n, stored p n d = d) -> built x64 stored (fun t => le t d) (d = default x64) true f ->
  exists w, run n f d (World [] []) = Some (repeat d n, w).
Proof.
  intros Hd honest B. assert (G : forall w, (forall m n t, In ((m, n), t) (cells w) -> t = if String.eqb n "counter" then TI32 else d) -> asked w = [] -> exists w', run n f d w = Some (repeat d n, w')).
  { induction n as [|n IH]; intros w U A; [now exists w|]. cbn [run]. pose proof (C96_one_type x64 stored d true f w Hd honest B U A) as T. destruct (f d w) as [[y w1]|]; [|discriminate].
    destruct T as (-> & _ & U1). destruct (IH (World (cells w1) []) U1 eq_refl) as (w2 & E). rewrite E. now exists w2. }
  apply G; [intros m k t []|reflexivity].
Qed.
Print Assumptions C96_runs.
Example C96_runs_case : exists w, run 3 (resnet false (fun _ _ t => t) "resnet" true true true false [("block_group_0/block_0", true); ("block_group_0/block_1", false)]) TBF16 (World [] []) = Some ([TBF16; TBF16; TBF16], w).
Proof. apply (C96_runs false (fun _ _ t => t) TBF16 _ 3); [now left|reflexivity|apply (BResNet false _ _ _ _ true true true false)]. Qed.

(** *** Cores and unrolls *)
Inductive built_core (x64 : bool) (stored : string -> string -> ty -> ty) (ok : ty -> Prop) (warm : Prop) : nat -> core -> Prop :=
| BVanilla p b : built_core x64 stored ok warm 1 (vanilla x64 stored p b)
| BLstm p : built_core x64 stored ok warm 2 (lstm x64 stored p)
| BConvLstm p : built_core x64 stored ok warm 2 (conv_lstm x64 stored p)
| BGru p : built_core x64 stored ok warm 1 (gru x64 stored p)
| BIdentityCore n : built_core x64 stored ok warm n identity_core
| BReset n c : built_core x64 stored ok warm n c -> built_core x64 stored ok warm n (reset_core x64 c)
| BDeep skip ls : (forall n c, In (Core n c) ls -> built_core x64 stored ok warm n c) -> (forall f, In (Callable f) ls -> built x64 stored ok warm true f) -> (skip = true -> exists n c, In (Core n c) ls) ->
    built_core x64 stored ok warm (sizes ls) (deep_rnn ls skip).

Lemma built_core_keeps x64 stored d n c : width d -> (forall p n, stored p n d = d) -> built_core x64 stored (fun t => le t d) (d = default x64) n c -> keeps_core d n c.
Proof.
  intros Hd honest. induction 1 as [p b|p|p|p|n|n c _ IH|skip ls _ IH HF HS].
  - eapply keeps_vanilla; eassumption.
  - eapply keeps_lstm; eassumption.
  - eapply keeps_conv_lstm; eassumption.
  - eapply keeps_gru; eassumption.
  - apply keeps_identity.
  - eapply keeps_reset; eassumption.
  - apply keeps_deep.
    + apply Forall_forall. intros [n c|f] Hl; cbn; [now apply IH|]. eapply built_keeps; [exact Hd|exact honest|now apply HF].
    + intros E. destruct (HS E) as (n & c & Hl). clear -Hl. induction ls as [|l ls IH]; [destruct Hl|]. destruct Hl as [->|Hl]; [discriminate|]. change (cores (l :: ls)) with ((match l with Core _ _ => 1 | _ => 0 end) + cores ls). specialize (IH Hl). lia.
Qed.
(** Cores that leave the module state alone. *)
Definition quiet {A} (m : M A) : Prop := forall w a w', m w = Some (a, w') -> cells w' = cells w.
Lemma quiet_ret {A} (a : A) : quiet (ret a).
Proof. now intros w ? ? [= _ <-]. Qed.
Lemma quiet_lift {A} (o : option A) : quiet (lift o).
Proof. intros w a w'. unfold lift. destruct o; [|discriminate]. now intros [= _ <-]. Qed.
Lemma quiet_fail {A} : quiet (@fail A).
Proof. now intros w ? ?. Qed.
Lemma quiet_bind {A B} (m : M A) (f : A -> M B) : quiet m -> (forall a, quiet (f a)) -> quiet (bind m f).
Proof. intros H K w b w'. unfold bind. destruct (m w) as [[a w1]|] eqn:E; [|discriminate]. intros F. apply K in F. apply H in E. congruence. Qed.
Lemma quiet_param stored p n t : quiet (param stored p n t).
Proof. now intros w ? ? [= _ <-]. Qed.
Ltac quiet := repeat (cbv zeta; match goal with |- quiet (ret _) => apply quiet_ret | |- quiet (lift _) => apply quiet_lift | |- quiet fail => apply quiet_fail | |- quiet (param _ _ _ _) => apply quiet_param | |- quiet (bind _ _) => apply quiet_bind; [|intros] | |- quiet (match ?b with _ => _ end) => destruct b end).
Lemma quiet_linear x64 stored p b x : quiet (linear x64 stored p b x).
Proof. unfold linear, opt. quiet. Qed.
Lemma quiet_conv x64 stored p m b x : quiet (conv x64 stored p m b x).
Proof. unfold conv, opt. quiet. Qed.
Inductive plain (x64 : bool) (stored : string -> string -> ty -> ty) : core -> Prop :=
| PVanilla p b : plain x64 stored (vanilla x64 stored p b)
| PLstm p : plain x64 stored (lstm x64 stored p)
| PConvLstm p : plain x64 stored (conv_lstm x64 stored p)
| PGru p : plain x64 stored (gru x64 stored p)
| PIdentity : plain x64 stored identity_core
| PReset c : plain x64 stored c -> plain x64 stored (reset_core x64 c)
| PDeep skip ls : (forall n c, In (Core n c) ls -> plain x64 stored c) -> (forall f, In (Callable f) ls -> forall x, quiet (f x)) -> plain x64 stored (deep_rnn ls skip).
Lemma plain_quiet x64 stored c : plain x64 stored c -> forall x s, quiet (c x s).
Proof.
  induction 1 as [p b|p|p|p| |c _ IH|skip ls _ IH HF]; intros x s.
  - unfold vanilla. quiet; apply quiet_linear.
  - unfold lstm. quiet; apply quiet_linear.
  - unfold conv_lstm. quiet; apply quiet_conv.
  - unfold gru. quiet.
  - apply quiet_ret.
  - apply IH.
  - unfold deep_rnn. apply quiet_bind; [|intros; quiet]. assert (G : forall cur first outs sts s, quiet (deep_loop ls skip first x cur s outs sts)); [|apply G]. clear s.
    induction ls as [|l ls IHl]; intros cur first outs sts s; cbn [deep_loop]; [apply quiet_ret|]. destruct l as [n c|f].
    + apply quiet_bind; [apply (IH n); now left|]. intros r. apply IHl; intros; [apply (IH n0)|apply HF]; now right.
    + apply quiet_bind; [apply HF; now left|]. intros r. apply IHl; intros; [apply (IH n)|apply HF]; now right.
Qed.
Lemma same_types_refl x64 l : same_types x64 l l = true.
Proof. induction l as [|a l IH]; [reflexivity|]. cbn. rewrite IH. now destruct x64, a. Qed.
Lemma same_cells_refl x64 l : same_cells x64 l l = true.
Proof. induction l as [|[[k1 k2] a] l IH]; [reflexivity|]. cbn. unfold key_eqb. cbn. rewrite !String.eqb_refl, IH. now destruct x64, a. Qed.
(** Cores keep the type of their inputs and state, and so do both unrolls, at initialisation and application. *)
Theorem C96_cores x64 stored d n c w : width d -> (forall p n, stored p n d = d) -> built_core x64 stored (fun t => le t d) (d = default x64) n c -> cells w = [] -> asked w = [] ->
  (exists w', c d (repeat d n) w = Some ((d, repeat d n), w')) /\
  (forall steps, steps <> 0 -> exists w', static_unroll steps c d (repeat d n) w = Some ((d, repeat d n), w')) /\
  (plain x64 stored c -> forall init steps, exists w', dynamic_unroll x64 init steps c d (repeat d n) w = Some ((d, repeat d n), w') /\ forall k t, In (k, t) (asked w') -> t = d).
Proof.
  intros Hd honest B Ec Ea. pose proof (built_core_keeps _ _ _ _ _ Hd honest B) as K.
  assert (U : uniform d w) by (split; rewrite ?Ec, ?Ea; intros *; intros []).
  assert (One : forall w, uniform d w -> exists w', c d (repeat d n) w = Some ((d, repeat d n), w') /\ uniform d w').
  { intros w0 U0. specialize (K w0 U0). unfold post in K. destruct (c d (repeat d n) w0) as [[r w1]|]; [|discriminate]. destruct K as [<- U1]. now exists w1. }
  split; [destruct (One w U) as (w' & E & _); now exists w'|]. split.
  - intros steps Hs. pose proof (keeps_unroll d n c steps K 0 w U) as R. cbn [Nat.add repeat] in R. unfold static_unroll, bind. unfold post in R. destruct (unroll_loop steps c d (repeat d n) [] w) as [[r w1]|]; [|discriminate].
    destruct R as [<- _]. cbn [fst snd]. destruct steps as [|k]; [easy|]. rewrite joins_d. now exists w1.
  - intros P init steps. assert (Sc : forall w, uniform d w -> exists w', scan x64 c d (repeat d n) w = Some ((d, repeat d n), w') /\ uniform d w').
    { intros w0 U0. destruct (One w0 U0) as (w1 & E & U1). unfold scan. rewrite E. apply (plain_quiet _ _ _ P) in E. rewrite E, same_types_refl, same_cells_refl. now exists w1. }
    unfold dynamic_unroll. destruct init.
    + destruct (One w U) as (w1 & E & U1). unfold bind. rewrite E. destruct steps as [|[|steps]]; [exists w1; split; [reflexivity|apply U1]|exists w1; split; [reflexivity|apply U1]|].
      cbn [fst snd]. destruct (Sc w1 U1) as (w2 & E2 & U2). rewrite E2. cbn [fst snd]. rewrite joinI. exists w2. split; [reflexivity|apply U2].
    + destruct (Sc w U) as (w1 & E & U1). exists w1. split; [exact E|apply U1].
Qed.
Print Assumptions C96_cores.
Example C96_cores_case : exists w, dynamic_unroll false true 5 (deep_rnn [Core 2 (lstm false (fun _ _ t => t) "lstm"); Core 1 (gru false (fun _ _ t => t) "gru")] true) TF16 [TF16; TF16; TF16] (World [] []) = Some ((TF16, [TF16; TF16; TF16]), w)
  /\ asked w = [(("lstm/linear", "w"), TF16); (("lstm/linear", "b"), TF16); (("gru", "w_i"), TF16); (("gru", "w_h"), TF16); (("gru", "b"), TF16);
                (("lstm/linear", "w"), TF16); (("lstm/linear", "b"), TF16); (("gru", "w_i"), TF16); (("gru", "w_h"), TF16); (("gru", "b"), TF16)].
Proof.
  exists (World [] [(("lstm/linear", "w"), TF16); (("lstm/linear", "b"), TF16); (("gru", "w_i"), TF16); (("gru", "w_h"), TF16); (("gru", "b"), TF16);
                (("lstm/linear", "w"), TF16); (("lstm/linear", "b"), TF16); (("gru", "w_i"), TF16); (("gru", "w_h"), TF16); (("gru", "b"), TF16)]).
  split; vm_compute; reflexivity.
Qed.

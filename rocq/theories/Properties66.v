(** C99, continued: cores, unrolls, networks, the exact conditions on arguments, and the code that does promote. *)
From Coq Require Import String List Bool Arith Lia.
From Verif Require Import ModelRank Properties65.
Import ListNotations.
Local Open Scope string_scope.
Local Open Scope nat_scope.

Section Cores.
Context (rk : string -> string -> nat).
(** A core that takes an input of rank [x] and a state with ranks [s] and gives an output of rank [y] and a state with ranks [s]. *)
Definition core_agrees (c : bool -> core) (x : nat) (s : list nat) (y : nat) : Prop := agrees rk (fun b => c b x s) (eq (y, s)).
Lemma vanilla_agrees db x : core_agrees (fun b => vanilla b db) x [x] x.
Proof.
  unfold core_agrees, vanilla. bnd; [apply linear_agrees|]. nxt. bnd; [apply linear_agrees|]. nxt. bnd with (eq x); [opr|]. nxt. now apply agrees_ret.
Qed.
Lemma lstm_gates_agrees x : agrees rk (fun b => lstm_gates b x x) (eq (x, [x; x])).
Proof.
  unfold lstm_gates. do 5 (bnd with (eq x); [opr|]; nxt). now apply agrees_ret.
Qed.
Lemma lstm_agrees x : core_agrees lstm x [x; x] x.
Proof.
  unfold core_agrees, lstm. destruct (_ || _); [apply agrees_fail|].
  bnd; [apply (agrees_concat rk [x; x] x); intros a t E; now injection E|]. nxt. bnd; [apply linear_agrees|]. nxt. apply lstm_gates_agrees.
Qed.
Lemma conv_lstm_agrees ndim x : core_agrees (fun b => conv_lstm b ndim) x [x; x] x.
Proof.
  unfold core_agrees, conv_lstm. bnd; [apply conv_agrees|]. nxt. bnd; [apply conv_agrees|]. nxt. bnd with (eq x); [opr|]. nxt. apply lstm_gates_agrees.
Qed.
Lemma gru_agrees x : core_agrees gru x [x] x.
Proof.
  unfold core_agrees, gru. destruct (negb _); [apply agrees_fail|].
  bnd; [apply agrees_param|]. nxt. bnd; [apply agrees_param|]. nxt. bnd; [apply agrees_param|]. nxt.
  bnd; [apply (agrees_dot rk x 2 x); lia|]. nxt. bnd; [apply (agrees_dot rk x 2 x); lia|]. nxt.
  bnd with (eq x); [opr|]. nxt. bnd; [apply agrees_broadcast|]. nxt. bnd with (eq x); [opr|]. nxt.
  bnd with (eq x); [opr|]. nxt. bnd; [apply (agrees_dot rk x 2 x); lia|]. nxt.
  bnd with (eq x); [opr|]. nxt. bnd; [apply agrees_broadcast|]. nxt. do 5 (bnd with (eq x); [opr|]; nxt). now apply agrees_ret.
Qed.
Lemma identity_agrees x s : core_agrees (fun _ => identity_core) x s x.
Proof. now apply agrees_ret. Qed.
Lemma zipped_agrees s : forall reset, agrees rk (fun b => zipped b reset s s) (eq s).
Proof.
  induction s as [|x s IH]; intros [|c reset]; cbn [zipped]; try apply agrees_fail; [now apply agrees_ret|].
  bnd with (eq x). { unfold conform. destruct (c <=? x); [now apply agrees_ret | apply agrees_fail]. }
  nxt. bnd with (eq x).
  { intros w F. unfold lift, promote. cbn [list_max fold_right]. rewrite Nat.max_0_r, !Nat.max_id. cbn [forallb]. rewrite Nat.eqb_refl, orb_true_r. cbn.
    split; [reflexivity|]. intros a w' E. injection E as <- <-. auto. }
  nxt. bnd; [apply IH|]. nxt. now apply agrees_ret.
Qed.
Lemma initial_same unbatched s : Forall (fun u => u <> 0) unbatched -> (s = unbatched \/ s = map S unbatched) -> initial_of unbatched s = s.
Proof.
  intros N H. unfold initial_of, is_batched. destruct unbatched as [|u us]; [destruct H as [-> | ->]; reflexivity|].
  destruct H as [-> | ->].
  - inversion N as [|? ? U _]; subst. cbn. replace (u =? u - 1) with false by (symmetry; apply Nat.eqb_neq; lia). reflexivity.
  - cbn [map]. replace (forallb _ (combine (u :: us) (S u :: map S us))) with true; [reflexivity|].
    symmetry. apply forallb_forall. intros [a b] I. change (S u :: map S us) with (map S (u :: us)) in I.
    assert (b = S a). { revert I. generalize (u :: us). induction l as [|x l IH]; cbn; [easy|]. intros [E|I]; [now injection E as <- <- | auto]. }
    subst b. cbn. apply Nat.eqb_eq. lia.
Qed.
Lemma reset_agrees c unbatched reset x s y :
  Forall (fun u => u <> 0) unbatched -> (s = unbatched \/ s = map S unbatched) -> core_agrees c x s y -> core_agrees (fun b => reset_core b (c b) unbatched reset) x s y.
Proof.
  intros N H Hc. unfold core_agrees, reset_core. rewrite (initial_same _ _ N H). bnd; [apply zipped_agrees|]. nxt. exact Hc.
Qed.

(** The layers of a deep core, each with the rank of its input, the ranks of its state and the rank of its output: after the first, with skip connections, the input is concatenated
    to the inputs of the deep core and so has their rank. *)
Inductive layers_agree (skip : bool) (inputs : nat) : bool -> list (bool -> layer) -> nat -> list nat -> list nat -> nat -> Prop :=
| LaNil first x : layers_agree skip inputs first [] x [] [] x
| LaCore first n c ls x s s' y ys z :
    List.length s = n -> core_agrees c (if skip && negb first then inputs else x) s y -> layers_agree skip inputs false ls y s' ys z ->
    layers_agree skip inputs first ((fun b => Core n (c b)) :: ls) x (s ++ s') (y :: ys) z
| LaCallable first f ls x s' y ys z :
    agrees rk (fun b => f b (if skip && negb first then inputs else x)) (eq y) -> layers_agree skip inputs false ls y s' ys z ->
    layers_agree skip inputs first ((fun b => Callable (f b)) :: ls) x s' ys z.
Lemma skip_agrees (skip first : bool) inputs x :
  agrees rk (fun _ => if skip && negb first then concat [inputs; x] else ret x) (eq (if skip && negb first then inputs else x)).
Proof. destruct (skip && negb first); [|now apply agrees_ret]. apply agrees_concat. intros a t E. now injection E. Qed.
Lemma deep_loop_agrees skip inputs : forall ls first x s ys z outs states, layers_agree skip inputs first ls x s ys z ->
  agrees rk (fun b => deep_loop (map (fun l => l b) ls) skip first inputs x s outs states) (eq (z, outs ++ ys, states ++ s)%list).
Proof.
  induction ls as [|l ls IH]; intros first x s ys z outs states H; inversion H; subst; cbn [map deep_loop].
  - rewrite !app_nil_r. now apply agrees_ret.
  - bnd; [apply skip_agrees|]. nxt. rewrite firstn_app, Nat.sub_diag, firstn_all, firstn_O, app_nil_r. rewrite skipn_app, Nat.sub_diag, skipn_all. cbn [skipn app].
    bnd; [eassumption|]. nxt. cbn [fst snd].
    eapply agrees_weaken; [|apply IH; eassumption]. intros a <-. rewrite <- !app_assoc. reflexivity.
  - bnd; [apply skip_agrees|]. nxt. bnd; [eassumption|]. nxt. apply IH. assumption.
Qed.
Lemma deep_agrees ls skip x s ys z : layers_agree skip x true ls x s ys z ->
  core_agrees (fun b => deep_rnn (map (fun l => l b) ls) skip) x s (if skip then hd 0 ys else z).
Proof.
  intros H. unfold core_agrees, deep_rnn.
  apply (agrees_bind rk (fun b => deep_loop (map (fun l => l b) ls) skip true x x s [] []) (fun _ r => let '(current, outputs, states) := (r : nat * list nat * list nat) in
     if skip then out <- concat outputs ;; ret (out, states) else ret (current, states)) (eq (z, ys, s))).
  - apply (deep_loop_agrees skip x ls true x s ys z [] [] H).
  - nxt. destruct skip; [|now apply agrees_ret].
    apply (agrees_bind rk (fun _ => concat ys) (fun _ out => ret (out, s)) (eq (hd 0 ys))); [apply agrees_concat; now intros a t -> | nxt; now apply agrees_ret].
Qed.

Lemma unroll_loop_agrees c x s y : core_agrees c x s y -> forall steps outs, agrees rk (fun b => unroll_loop steps (c b) x s outs) (eq (outs ++ repeat y steps, s)%list).
Proof.
  intros H. induction steps as [|n IH]; intros outs; cbn [unroll_loop repeat]; [rewrite app_nil_r; now apply agrees_ret|].
  apply (agrees_bind rk (fun b => c b x s) (fun b r => unroll_loop n (c b) x (snd r) (outs ++ [fst r])) (eq (y, s))); [exact H|]. nxt. cbn [fst snd].
  eapply agrees_weaken; [|apply IH]. intros a <-. now rewrite <- app_assoc.
Qed.
Lemma static_unroll_agrees steps c x s y : core_agrees c x s y -> agrees rk (fun b => static_unroll steps (c b) x s) (eq (S y, s)).
Proof.
  intros H. unfold static_unroll.
  apply (agrees_bind rk (fun b => unroll_loop steps (c b) x s []) (fun _ r => out <- concat (fst r) ;; ret (S out, snd r)) (eq (repeat y steps, s))).
  - apply (unroll_loop_agrees c x s y H steps []).
  - nxt. cbn [fst snd]. apply (agrees_bind rk (fun _ => concat (repeat y steps)) (fun _ out => ret (S out, s)) (eq y)); [|nxt; now apply agrees_ret].
    apply agrees_concat. intros a t E. destruct steps; [discriminate|]. now injection E.
Qed.
Lemma scan_agrees c x s y : core_agrees c x s y -> agrees rk (fun b => scan (c b) x s) (eq (y, s)).
Proof.
  intros H w F. unfold scan. destruct (H w F) as [E R]. rewrite E. split; [reflexivity|].
  intros a w' X. destruct (c false x s w) as [[[y' s'] w1]|] eqn:C; [|discriminate].
  destruct (_ && _) in X; [|discriminate]. injection X as <- <-. exact (R _ _ eq_refl).
Qed.
Lemma dynamic_unroll_agrees init steps c x s y : core_agrees c x s y -> agrees rk (fun b => dynamic_unroll init steps (c b) x s) (eq (S y, s)).
Proof.
  intros H. unfold dynamic_unroll. destruct init.
  - apply (agrees_bind rk (fun b => c b x s) (fun b r => match steps with
      | 0 => ret (S (fst r), s) | 1 => ret (S (fst r), snd r)
      | _ => q <- scan (c b) x (snd r) ;; out <- concat [fst r; fst q] ;; ret (S out, snd q) end) (eq (y, s))); [exact H|]. nxt. cbn [fst snd].
    destruct steps as [|[|n]]; [now apply agrees_ret | now apply agrees_ret|].
    apply (agrees_bind rk (fun b => scan (c b) x s) (fun _ q => out <- concat [y; fst q] ;; ret (S out, snd q)) (eq (y, s))); [now apply scan_agrees|]. nxt. cbn [fst snd].
    apply (agrees_bind rk (fun _ => concat [y; y]) (fun _ out => ret (S out, s)) (eq y)); [|nxt; now apply agrees_ret].
    apply agrees_concat. intros a t E. now injection E.
  - apply (agrees_bind rk (fun b => scan (c b) x s) (fun _ q => ret (S (fst q), snd q)) (eq (y, s))); [now apply scan_agrees|]. nxt. now apply agrees_ret.
Qed.

(** Compositions. *)
Lemma chain_agrees (fs : list (bool -> nat -> M nat)) x : Forall (fun f => agrees rk (fun b => f b x) (eq x)) fs -> agrees rk (fun b => chain (map (fun f => f b) fs) x) (eq x).
Proof. induction 1; cbn [map chain]; [now apply agrees_ret|]. bnd; [eassumption|]. nxt. assumption. Qed.
Lemma mlp_agrees layers wb dr af x : agrees rk (fun b => mlp b layers wb dr af x) (eq x).
Proof.
  unfold mlp. generalize (seq 0 layers). induction l as [|i l IH]; cbn [map chain]; [now apply agrees_ret|].
  bnd with (eq x); [|nxt; exact IH].
  bnd; [apply linear_agrees|]. nxt. destruct dr as [z|]; [|now apply agrees_ret]. destruct (_ || _); [apply dropout_agrees | now apply agrees_ret].
Qed.
Lemma bn_agrees p tr loc x : norm_at rk p x -> agrees rk (fun b => bn b p tr loc x) (eq x).
Proof. intros N. apply batch_norm_agrees; [exact N | discriminate | discriminate]. Qed.
Lemma conv0_agrees x : agrees rk (fun b => conv0 b x) (eq x). Proof. apply conv_agrees. Qed.
Context (x : nat) (N : forall p, norm_at rk p x).
Lemma block_agrees v2 p tr loc pr bo : agrees rk (fun b => block b v2 p tr loc pr bo x) (eq x).
Proof.
  destruct v2; unfold block.
  - unfold block_v2. bnd; [apply bn_agrees; apply N|]. nxt.
    bnd with (eq x); [destruct pr; [apply conv0_agrees | now apply agrees_ret]|]. nxt. bnd; [apply conv0_agrees|]. nxt.
    bnd with (eq x); [|nxt; opr]. generalize (tl (block_layers bo)). induction l as [|i l IH]; cbn [map chain]; [now apply agrees_ret|].
    bnd with (eq x); [|nxt; exact IH]. bnd; [apply bn_agrees; apply N|]. nxt. apply conv0_agrees.
  - unfold block_v1. bnd with (eq x).
    { destruct pr; [|now apply agrees_ret]. cbn [chain]. bnd; [apply conv0_agrees|]. nxt. bnd; [apply bn_agrees; apply N|]. nxt. now apply agrees_ret. }
    nxt. bnd with (eq x); [|nxt; opr]. generalize (block_layers bo). induction l as [|i l IH]; cbn [map chain]; [now apply agrees_ret|].
    bnd with (eq x); [|nxt; exact IH]. bnd; [apply conv0_agrees|]. nxt. apply bn_agrees; apply N.
Qed.
Lemma resnet_agrees p v2 bo tr loc blocks : agrees rk (fun b => resnet b p v2 bo tr loc blocks x) (eq (x - 2)).
Proof.
  unfold resnet. bnd; [apply conv0_agrees|]. nxt. bnd with (eq x); [destruct v2; [now apply agrees_ret | apply bn_agrees; apply N]|]. nxt.
  bnd; [apply max_pool_agrees|]. nxt.
  bnd with (eq x). { induction blocks as [|k l IH]; cbn [map chain]; [now apply agrees_ret|]. bnd; [apply block_agrees|]. nxt. exact IH. }
  nxt. bnd with (eq x); [destruct v2; [apply bn_agrees; apply N | now apply agrees_ret]|]. nxt.
  destruct (x <? 3); [apply agrees_fail | apply linear_agrees].
Qed.
Lemma mobile_block_agrees p tr ub : agrees rk (fun b => mobile_block b p tr ub x) (eq x).
Proof.
  unfold mobile_block. bnd; [apply depthwise_agrees|]. nxt. bnd with (eq x); [destruct ub; [apply bn_agrees; apply N | now apply agrees_ret]|]. nxt.
  bnd; [apply conv_agrees|]. nxt. destruct ub; [apply bn_agrees; apply N | now apply agrees_ret].
Qed.
Lemma mobilenet_agrees p tr ub blocks : agrees rk (fun b => mobilenet b p tr ub blocks x) (eq 2).
Proof.
  unfold mobilenet. bnd; [apply conv_agrees|]. nxt. bnd with (eq x); [destruct ub; [apply bn_agrees; apply N | now apply agrees_ret]|]. nxt.
  bnd with (eq x). { induction blocks as [|k l IH]; cbn [map chain]; [now apply agrees_ret|]. bnd; [apply mobile_block_agrees|]. nxt. exact IH. }
  nxt. destruct (x <? 3); [apply agrees_fail | apply linear_agrees].
Qed.
End Cores.

(** *** The claims *)
(** The modules that can be put together to a network, with the ranks they take and give and what they ask of the ranks in the state. *)
Inductive network (rk : string -> string -> nat) : (bool -> nat -> M nat) -> nat -> nat -> Prop :=
| NLinear wb x : network rk (fun b => linear b wb) x x
| NBias dims m x : (forall r, m = Some r -> r = 0 \/ r = x) -> network rk (fun b => bias b dims m) x x
| NConv ndim first mask wb x : network rk (fun b => conv b ndim first mask wb) x x
| NDepthwise first wb x : network rk (fun b => depthwise b first wb) x x
| NSeparable first wb x : network rk (fun b => separable b first wb) x x
| NEma p zd us x : average_at rk p x -> network rk (fun b => ema b p zd us) x x
| NBatchNorm p cs co tr loc sc off x : norm_at rk p x -> (forall s, sc = Some s -> s = 0 \/ s = x) -> (forall o, off = Some o -> o = 0 \/ o = x) ->
    network rk (fun b => batch_norm b p cs co tr loc sc off) x x
| NLayerNorm cs co sc off x : network rk (fun b => layer_norm b cs co sc off) x x
| NGroupNorm first cs co sc off x : (forall s, sc = Some s -> s <= x) -> (forall o, off = Some o -> o <= x) -> network rk (fun b => group_norm b first cs co sc off) x x
| NSpectral p n us err x : rk p "u0" = 2 -> rk p "sigma" = 0 -> network rk (fun b => spectral_norm b p n us err) x x
| NSelfAttention m x : (forall r, m = Some r -> r = 0 \/ r = 4) -> network rk (fun b q => attention b m q q q) x 3
| NEmbed style x : network rk (fun _ => embed style) x (x + 1)
| NMaxPool x : network rk (fun _ => max_pool) x x
| NAvgPool v x : network rk (fun b => avg_pool b v) x x
| NDropout z x : network rk (fun b => dropout b z) x x
| NVq x : 1 <= x -> network rk vq x x
| NVqEma p tr x : codebook_at rk p -> 1 <= x -> network rk (fun b => vq_ema b p tr) x x
| NMlp n wb dr af x : network rk (fun b => mlp b n wb dr af) x x
| NResNet p v2 bo tr loc blocks x : (forall q, norm_at rk q x) -> network rk (fun b => resnet b p v2 bo tr loc blocks) x (x - 2)
| NMobileNet p tr ub blocks x : (forall q, norm_at rk q x) -> network rk (fun b => mobilenet b p tr ub blocks) x 2
| NSeq m n x y z : network rk m x y -> network rk n y z -> network rk (fun b r => s <- m b r ;; n b s) x z
| NAdd m n x y : network rk m x y -> network rk n x y -> network rk (fun b r => s <- m b r ;; t <- n b r ;; op b s t) x y.

Theorem C99_strict rk m x y : network rk m x y -> forall w, fits rk w ->
  m true x w = m false x w /\ (forall r w', m true x w = Some (r, w') -> r = y /\ fits rk w').
Proof.
  intros H. assert (A : agrees rk (fun b => m b x) (eq y)).
  { induction H.
    - apply linear_agrees. - now apply bias_agrees. - apply conv_agrees. - apply depthwise_agrees. - apply separable_agrees. - now apply ema_agrees.
    - now apply batch_norm_agrees. - apply layer_norm_agrees. - now apply group_norm_agrees. - now apply spectral_norm_agrees. - now apply attention_agrees.
    - apply embed_agrees. - apply max_pool_agrees. - apply avg_pool_agrees. - apply dropout_agrees. - now apply vq_agrees. - now apply vq_ema_agrees.
    - apply mlp_agrees. - now apply resnet_agrees. - now apply mobilenet_agrees.
    - bnd; [exact IHnetwork1|]. nxt. exact IHnetwork2.
    - bnd; [exact IHnetwork1|]. nxt. bnd; [exact IHnetwork2|]. nxt. opr. }
  intros w F. destruct (A w F) as [E R]. split; [exact E|]. intros r w' X. rewrite E in X. destruct (R r w' X) as [-> G]. auto.
Qed.
Print Assumptions C99_strict.

(** Any number of steps, with any modes, from the empty state: under [rk] a run that raises nowhere without strictness raises nowhere with it. *)
Fixpoint steps (ms : list (bool -> nat -> M nat)) (b : bool) (x : nat) (w : world) : option (list nat * world) :=
  match ms with [] => Some ([], w) | m :: ms => match m b x w with Some (y, w) => match steps ms b x w with Some (ys, w) => Some (y :: ys, w) | None => None end | None => None end end.
Theorem C99_training rk ms x : Forall (fun m => exists y, network rk m x y) ms -> steps ms true x [] = steps ms false x [].
Proof.
  intros H. assert (G : forall w, fits rk w -> steps ms true x w = steps ms false x w); [|apply G; apply fits_nil].
  induction H as [|m ms [y N] _ IH]; intros w F; cbn [steps]; [reflexivity|].
  destruct (C99_strict rk m x y N w F) as [E R]. rewrite <- E. destruct (m true x w) as [[r w']|] eqn:X; [|reflexivity].
  destruct (R r w' eq_refl) as [_ F']. now rewrite (IH w' F').
Qed.
Print Assumptions C99_training.

(** Recurrent cores and unrolls, over states that fit. *)
Inductive recurrent (rk : string -> string -> nat) : (bool -> core) -> nat -> list nat -> nat -> Prop :=
| RVanilla db x : recurrent rk (fun b => vanilla b db) x [x] x
| RLstm x : recurrent rk lstm x [x; x] x
| RConvLstm ndim x : recurrent rk (fun b => conv_lstm b ndim) x [x; x] x
| RGru x : recurrent rk gru x [x] x
| RIdentity x s : recurrent rk (fun _ => identity_core) x s x
| RReset c unbatched reset x s y : Forall (fun u => u <> 0) unbatched -> (s = unbatched \/ s = map S unbatched) -> recurrent rk c x s y ->
    recurrent rk (fun b => reset_core b (c b) unbatched reset) x s y
| RDeep ls skip x s ys z : layered rk skip x true ls x s ys z -> recurrent rk (fun b => deep_rnn (map (fun l => l b) ls) skip) x s (if skip then hd 0 ys else z)
with layered (rk : string -> string -> nat) : bool -> nat -> bool -> list (bool -> layer) -> nat -> list nat -> list nat -> nat -> Prop :=
| DNil skip i first x : layered rk skip i first [] x [] [] x
| DCore skip i first n c ls x s s' y ys z : List.length s = n -> recurrent rk c (if skip && negb first then i else x) s y -> layered rk skip i false ls y s' ys z ->
    layered rk skip i first ((fun b => Core n (c b)) :: ls) x (s ++ s') (y :: ys) z
| DCallable skip i first f ls x s' y ys z : network rk f (if skip && negb first then i else x) y -> layered rk skip i false ls y s' ys z ->
    layered rk skip i first ((fun b => Callable (f b)) :: ls) x s' ys z.
Scheme recurrent_ind2 := Induction for recurrent Sort Prop with layered_ind2 := Induction for layered Sort Prop.

Lemma network_agrees rk m x y : network rk m x y -> agrees rk (fun b => m b x) (eq y).
Proof. intros H w F. destruct (C99_strict rk m x y H w F) as [E R]. split; [exact E|]. intros a w' X. rewrite <- E in X. destruct (R a w' X) as [-> G]. auto. Qed.
Lemma recurrent_agrees rk c x s y : recurrent rk c x s y -> core_agrees rk c x s y.
Proof.
  intros H. induction H using recurrent_ind2 with (P0 := fun skip i first ls x s ys z _ => layers_agree rk skip i first ls x s ys z).
  - apply vanilla_agrees. - apply lstm_agrees. - apply conv_lstm_agrees. - apply gru_agrees. - apply identity_agrees. - now apply reset_agrees.
  - now apply deep_agrees. - apply LaNil. - now apply LaCore. - eapply LaCallable; [apply network_agrees; eassumption | assumption].
Qed.
Theorem C99_recurrent rk c x s y : recurrent rk c x s y -> forall w, fits rk w ->
  (c true x s w = c false x s w /\ forall r w', c true x s w = Some (r, w') -> r = (y, s) /\ fits rk w') /\
  (forall n, static_unroll n (c true) x s w = static_unroll n (c false) x s w /\ forall r w', static_unroll n (c true) x s w = Some (r, w') -> r = (S y, s) /\ fits rk w') /\
  (forall init n, dynamic_unroll init n (c true) x s w = dynamic_unroll init n (c false) x s w /\ forall r w', dynamic_unroll init n (c true) x s w = Some (r, w') -> r = (S y, s) /\ fits rk w').
Proof.
  intros H w F. apply recurrent_agrees in H.
  assert (G : forall (m : bool -> M (nat * list nat)) q, agrees rk m (eq q) -> m true w = m false w /\ forall r w', m true w = Some (r, w') -> r = q /\ fits rk w').
  { intros m q A. destruct (A w F) as [E R]. split; [exact E|]. intros r w' X. rewrite E in X. destruct (R r w' X) as [-> L]. auto. }
  split; [|split].
  - apply (G (fun b => c b x s) (y, s) H).
  - intros n. apply (G (fun b => static_unroll n (c b) x s) (S y, s)). now apply static_unroll_agrees.
  - intros i n. apply (G (fun b => dynamic_unroll i n (c b) x s) (S y, s)). now apply dynamic_unroll_agrees.
Qed.
Print Assumptions C99_recurrent.

(** Keys handed out by one transform are unrelated. *)
From stdpp Require Import gmap list strings.
From Coq Require Import String Ascii ZArith Lia.
From Verif Require Import ModelStr ModelRng ModelCore SpecCore ProofsMap ProofsRng ProofsEvolve ProofsRun ProofsOps.
Local Open Scope string_scope.
Local Open Scope list_scope.

Lemma unrelated_indep a b : unrelated a b <-> indep a b.
Proof. unfold unrelated, indep. now rewrite !derived_anc. Qed.

Lemma with_seq_ok {A} (g : rngseq -> option (A * rngseq)) w a w' :
  with_seq g w = (Ok a, w') -> exists f s s', top w = Some f /\ f_rng f = Some s /\ g s = Some (a, s')
    /\ w' = on_top (set_rng (Some s')) w.
Proof.
  unfold with_seq, bindM, top_frame, modify, retM, throw. intros E. unfold top.
  destruct (w_frames w) as [|f fs] eqn:F; [discriminate|]. cbn.
  destruct (f_rng f) as [s|] eqn:R; [|discriminate].
  destruct (g s) as [[a' s']|] eqn:G; [|discriminate]. injection E as <- <-. eauto 10.
Qed.

Lemma deliver_log C n op w v w' ks :
  run C (S n) op w = (Ok v, w') -> delivers op v ks ->
  exists f f' s s', top w = Some f /\ f_rng f = Some s /\ top w' = Some f' /\ f_rng f' = Some s' /\
    sq_log s' = rev ks ++ sq_log s /\ (good s -> good s').
Proof.
  intros E D. destruct D; cbn [run step] in E.
  - unfold next_rng_key, bindM, modify in E.
    destruct (top_frame w) as [[f0| |] w0] eqn:T0; try discriminate.
    apply pure_top in T0. subst w0.
    destruct (with_seq _ _) as [[k'| |] w1] eqn:E1; try discriminate.
    injection E as -> ->. apply with_seq_ok in E1 as (f & s & s' & F & R & G & ->).
    assert (F0 : top w = Some f) by exact F.
    exists f, (set_rng (Some s') f), s, s'. split; [exact F0|]. split; [exact R|].
    split; [now apply on_top_top|]. split; [reflexivity|].
    split; [now apply seq_next_log in G|]. intros Hg. eapply good_next; eauto.
  - unfold maybe_next_rng_key, bindM in E.
    destruct (top_frame w) as [[f0| |] w0] eqn:T0; try discriminate.
    apply pure_top in T0. subst w0. destruct (f_rng f0); [|discriminate].
    destruct (with_seq _ _) as [[k'| |] w1] eqn:E1; try discriminate.
    injection E as -> ->. apply with_seq_ok in E1 as (f & s & s' & F & R & G & ->).
    exists f, (set_rng (Some s') f), s, s'. split; [exact F|]. split; [exact R|].
    split; [now apply on_top_top|]. split; [reflexivity|].
    split; [now apply seq_next_log in G|]. intros Hg. eapply good_next; eauto.
  - unfold next_rng_keys, bindM in E.
    destruct (with_seq _ _) as [[k'| |] w1] eqn:E1; try discriminate.
    injection E as E ->. apply with_seq_ok in E1 as (f & s & s' & F & R & G & ->).
    assert (k' = ks) as ->.
    { revert E. clear. revert ks. induction k' as [|x l IH]; intros [|y m] E; try discriminate; auto.
      injection E as -> E. f_equal. auto. }
    exists f, (set_rng (Some s') f), s, s'. split; [exact F|]. split; [exact R|].
    split; [now apply on_top_top|]. split; [reflexivity|].
    split; [now apply seq_take_log in G|]. intros Hg. eapply good_take; eauto.
Qed.

Lemma keys_run C n p w r w' f s :
  all_ops (quiet_cond C) p -> code_ok (quiet_cond C) C -> heap_ok (quiet_cond C) w ->
  run C n p w = (r, w') -> top w = Some f -> f_rng f = Some s ->
  heap_ok (quiet_cond C) w' /\
  exists f' s', top w' = Some f' /\ f_rng f' = Some s' /\ (good s -> good s') /\
    exists l, sq_log s' = l ++ sq_log s.
Proof.
  intros Hp HC HI E F R. pose proof (run_T_keys C n p (fun _ => False) w r w' Hp HC HI E) as HT.
  split; [now apply HT|]. pose proof (t_frames _ _ _ _ _ _ HT) as TF.
  apply top_Some in F as [fs F]. rewrite F in TF. unfold top.
  destruct (w_frames w') as [|f' fs']; [destruct TF|]. destruct TF as [[] ->].
  rewrite R in ft_rng. cbn in ft_rng. destruct (f_rng f') as [s'|] eqn:R'; [|destruct ft_rng].
  exists f', s'. cbn. tauto.
Qed.

Lemma antichain_cross (a b c : list key) x y :
  antichain (a ++ b ++ c) -> x ∈ a -> y ∈ b -> indep x y.
Proof.
  intros H Hx Hy. induction a as [|z a IH]; [inversion Hx|]. cbn in H. inversion H; subst.
  apply elem_of_cons in Hx as [->|Hx]; [|now apply IH].
  rewrite Forall_forall in H2. apply H2. rewrite !elem_of_app. auto.
Qed.
Lemma good_log s : good s -> antichain (sq_log s).
Proof.
  unfold good, seq_keys. intros H. inversion H; subst. now apply antichain_app_inv in H3.
Qed.

Lemma deliver_heap C n op w v w' ks P :
  run C (S n) op w = (Ok v, w') -> delivers op v ks -> heap_ok P w -> heap_ok P w'.
Proof.
  intros E D H. destruct D; cbn [run step] in E.
  - unfold next_rng_key, bindM, modify in E.
    destruct (top_frame w) as [[f0| |] w0] eqn:T0; try discriminate.
    apply pure_top in T0. subst w0.
    destruct (with_seq _ _) as [[k'| |] w1] eqn:E1; try discriminate.
    injection E as -> ->. apply with_seq_ok in E1 as (f & s & s' & F & R & G & ->).
    unfold heap_ok. now rewrite on_top_nexts.
  - unfold maybe_next_rng_key, bindM in E.
    destruct (top_frame w) as [[f0| |] w0] eqn:T0; try discriminate.
    apply pure_top in T0. subst w0. destruct (f_rng f0); [|discriminate].
    destruct (with_seq _ _) as [[k'| |] w1] eqn:E1; try discriminate.
    injection E as -> ->. apply with_seq_ok in E1 as (f & s & s' & F & R & G & ->).
    unfold heap_ok. now rewrite on_top_nexts.
  - unfold next_rng_keys, bindM in E.
    destruct (with_seq _ _) as [[k'| |] w1] eqn:E1; try discriminate.
    injection E as E ->. apply with_seq_ok in E1 as (f & s & s' & F & R & G & ->).
    unfold heap_ok. now rewrite on_top_nexts.
Qed.

Lemma two_draws C k0 w0 f0 n0 p0 r0 w1 n1 op1 v1 ks1 w2 n2 p r w3 n3 op2 v2 ks2 w4 :
  code_ok (quiet_cond C) C -> heap_ok (quiet_cond C) w0 ->
  all_ops (quiet_cond C) p0 -> all_ops (quiet_cond C) p ->
  top w0 = Some f0 -> f_rng f0 = Some (seq_of_key k0) ->
  run C n0 p0 w0 = (r0, w1) ->
  run C (S n1) op1 w1 = (Ok v1, w2) -> delivers op1 v1 ks1 ->
  run C n2 p w2 = (r, w3) ->
  run C (S n3) op2 w3 = (Ok v2, w4) -> delivers op2 v2 ks2 ->
  antichain (ks1 ++ ks2).
Proof.
  intros HC HI Hp0 Hp F0 R0 E0 E1 D1 E2 E3 D2.
  destruct (keys_run _ _ _ _ _ _ _ _ Hp0 HC HI E0 F0 R0) as (HI1 & f1 & s1 & F1 & R1 & G1 & _).
  specialize (G1 (good_of_key _)).
  destruct (deliver_log _ _ _ _ _ _ _ E1 D1) as (fa & f2 & sa & s2 & Fa & Ra & F2 & R2 & L2 & G2).
  rewrite F1 in Fa. injection Fa as <-. rewrite R1 in Ra. injection Ra as <-. specialize (G2 G1).
  pose proof (deliver_heap _ _ _ _ _ _ _ _ E1 D1 HI1) as HI2.
  destruct (keys_run _ _ _ _ _ _ _ _ Hp HC HI2 E2 F2 R2) as (HI3 & f3 & s3 & F3 & R3 & G3 & l & L3).
  specialize (G3 G2).
  destruct (deliver_log _ _ _ _ _ _ _ E3 D2) as (fb & f4 & sb & s4 & Fb & Rb & F4 & R4 & L4 & G4).
  rewrite F3 in Fb. injection Fb as <-. rewrite R3 in Rb. injection Rb as <-. specialize (G4 G3).
  apply good_log in G4. rewrite L4, L3, L2 in G4.
  apply (antichain_perm _ (l ++ sq_log s1 ++ ks1 ++ ks2)) in G4.
  - apply antichain_app_inv in G4 as [_ G4]. now apply antichain_app_inv in G4 as [_ G4].
  - rewrite <- (Permutation_rev ks1), <- (Permutation_rev ks2).
    rewrite (Permutation_app_comm ks2). rewrite <- app_assoc.
    apply Permutation_app; [reflexivity|]. rewrite (app_assoc (sq_log s1)).
    rewrite (Permutation_app_comm ks1). reflexivity.
Qed.

(** [with custom_creator(..)] blocks are balanced. *)
From stdpp Require Import base list.
From Coq Require Import Lia.
From Verif Require Import ModelWith.
Local Open Scope list_scope.

Section With.
Context {V : Type} `{EqDecision V}.
Implicit Types s : wstate V.

Lemma wexec_app (a b : list (wop V)) s : wexec (a ++ b) s = match wexec a s with Some s1 => wexec b s1 | None => None end.
Proof.
  revert s. induction a as [|o a IH]; intros s; [reflexivity|]. cbn [app wexec].
  destruct (wstep o s) as [s1 [e|]]; auto.
Qed.

Lemma with_only_spec k (os : list (wop V)) k1 : with_only k os k1 ->
  forall s, length (ws_pending s) = k ->
  exists s', wexec os s = Some s' /\ ws_stack s' = ws_stack s /\ length (ws_pending s') = k1 /\
    forall h, h < k -> ws_pending s' !! h = ws_pending s !! h.
Proof.
  induction 1 as [k|k a k1 b k2 Ha IHa Hb IHb|k c body k1 Hb IHb]; intros s Hk.
  - exists s. auto.
  - destruct (IHa s Hk) as (s1 & E1 & S1 & L1 & P1). destruct (IHb s1 L1) as (s2 & E2 & S2 & L2 & P2).
    exists s2. rewrite wexec_app, E1. split; [assumption|]. split; [congruence|]. split; [assumption|].
    intros h Hh. rewrite <- P1 by assumption. apply P2.
    assert (k <= k1); [|lia]. clear -Ha. induction Ha; lia.
  - cbn [wexec wstep]. set (s1 := WS (c :: ws_stack s) (ws_pending s ++ [Some c])).
    destruct (IHb s1) as (s2 & E2 & S2 & L2 & P2); [cbn; rewrite app_length; cbn; lia|].
    rewrite wexec_app, E2. cbn [wexec wstep]. unfold finish.
    assert (Hp : ws_pending s2 !! k = Some (Some c)).
    { rewrite P2 by lia. cbn. rewrite lookup_app_r by lia. now rewrite Hk, Nat.sub_diag. }
    rewrite Hp, S2. cbn. rewrite decide_True by reflexivity. eexists. split; [reflexivity|]. cbn. split; [reflexivity|].
    split; [now rewrite insert_length|]. intros h Hh. rewrite list_lookup_insert_ne by lia. rewrite P2 by lia. cbn.
    apply lookup_app_l. lia.
Qed.
End With.

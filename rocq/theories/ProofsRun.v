(** The transition invariant for whole runs, and its two instances: for every
    program, and for programs whose [while_loop] conditions draw no keys. *)
From stdpp Require Import gmap list strings.
From Coq Require Import String Ascii ZArith Lia.
From Verif Require Import ModelStr ModelRng ModelCore SpecCore ProofsStr ProofsMap ProofsNames ProofsRng ProofsEvolve.
Local Open Scope string_scope.
Local Open Scope list_scope.

(** Induction over programs through the child relation. *)
Lemma child_ind (Q : prog -> Prop) :
  (forall p, (forall q, child p q -> Q q) -> Q p) -> forall p, Q p.
Proof.
  intros H. fix IH 1. intros p. apply H. destruct p; cbn; intros q Hq.
  all: try (destruct Hq; fail).
  all: try (subst q; apply IH).
  all: try (destruct Hq as [Hq|Hq]).
  all: try (subst q; apply IH).
  all: try (destruct Hq as (? & Hq)).
  all: try (subst q; apply IH).
  all: try (destruct Hq as (? & Hq)).
  all: try (subst q; apply IH).
  revert Hq. revert q. revert branches. fix IHl 1. intros [|b bs] q Hq.
  - destruct Hq.
  - destruct Hq as [<-|Hq]; [apply IH|exact (IHl bs q Hq)].
Qed.

Lemma all_ops_true p : all_ops (fun _ => True) p.
Proof. induction p as [p IH] using child_ind. now constructor. Qed.
Lemma code_ok_true C : code_ok (fun _ => True) C.
Proof. split; intros; apply all_ops_true. Qed.

(** What a relation on random sequences must satisfy. *)
Record rng_ok (C : code) (RR RC : option rngseq -> option rngseq -> Prop) : Prop := {
  ro_refl : forall a, RR a a;
  ro_trans : forall a b c, RR a b -> RR b c -> RR a c;
  ro_none : forall a b, RR a b -> (a = None <-> b = None);
  ro_next : forall s k s', seq_next (c_block C) s = Some (k, s') -> RR (Some s) (Some s');
  ro_take : forall n s k s', seq_take (c_block C) n s = Some (k, s') -> RR (Some s) (Some s');
  ro_reserve : forall n s, RR (Some s) (Some (reserve n s));
  ro_full : forall s, RR (Some s) (Some (reserve_up_to_full (c_block C) s));
  ro_add : forall a b s, RR a (is_rng s) -> RC a b -> RR a (is_rng (add_log a b s)) }.

Lemma run_wp C (P : prog -> Prop) (Kp : string -> Prop) RR RC :
  rng_ok C RR RC -> (forall n v, P (SetState n v) -> ~ Kp n) -> (forall v, P (Ret v)) -> code_ok P C ->
  (forall n c b v0, P (While c b v0) -> forall v w r w' f fs f' fs',
     run C n (c v) w = (r, w') -> w_frames w = f :: fs -> w_frames w' = f' :: fs' ->
     RC (f_rng f) (f_rng f')) ->
  forall n p X w, all_ops P p -> wp P Kp RR X w (run C n p) (fun _ _ => True).
Proof.
  intros [] Hset Hret Hok HW. induction n as [|n IH]; intros p X w Hp; cbn [run].
  - apply wp_fuel; auto.
  - eapply wp_step with (RC := RC); eauto.
Qed.

(** ** Every program: the random sequence stays below its root *)

Definition below (k : key) (s : rngseq) : Prop := Forall (anc k) (sq_key s :: sq_subs s).
Definition rng_rel (a b : option rngseq) : Prop :=
  match a, b with
  | None, None => True
  | Some s, Some s' => forall k, below k s -> below k s'
  | _, _ => False
  end.

Lemma below_reserve k n s : below k s -> below k (reserve n s).
Proof.
  unfold below. rewrite reserve_spec. destruct (Nat.ltb 0 n); [|auto]. cbn.
  intros H. inversion H; subst. constructor; [now constructor|]. apply Forall_app. split; [assumption|].
  rewrite Forall_forall. intros x Hx. apply elem_of_list_In, in_map_iff in Hx as (i & <- & _). now constructor.
Qed.
Lemma below_full k b s : below k s -> below k (reserve_up_to_full b s).
Proof.
  unfold reserve_up_to_full. destruct (Nat.ltb _ _); [apply below_reserve|].
  unfold below. cbn. intros H. inversion H; subst. constructor; [assumption|]. now apply Forall_take.
Qed.
Lemma below_next k b s x s' : below k s -> seq_next b s = Some (x, s') -> below k s' /\ anc k x.
Proof.
  unfold seq_next. intros H.
  assert (G : below k (match sq_subs s with [] => reserve b s | _ => s end)).
  { destruct (sq_subs s); auto using below_reserve. }
  destruct (sq_subs (match sq_subs s with [] => reserve b s | _ => s end)) as [|y l] eqn:E; [discriminate|].
  intros [= <- <-]. unfold below in *. rewrite E in G. inversion G; subst. inversion H3; subst.
  split; [constructor|]; assumption.
Qed.
Lemma below_nexts k b n : forall s ks s', below k s -> seq_nexts b n s = Some (ks, s') ->
  below k s' /\ Forall (anc k) ks.
Proof.
  induction n as [|n IH]; cbn; intros s ks s' G; [intros [= <- <-]; auto|].
  destruct (seq_next b s) as [[x s1]|] eqn:E; [|discriminate].
  destruct (seq_nexts b n s1) as [[ks' s2]|] eqn:E2; [|discriminate].
  intros [= <- <-]. destruct (below_next _ _ _ _ _ G E) as [G1 Hx].
  destruct (IH _ _ _ G1 E2) as [G2 Hk]. auto.
Qed.

Lemma rng_ok_rel C : rng_ok C rng_rel (fun _ _ => True).
Proof.
  split; unfold rng_rel.
  - intros [s|]; auto.
  - intros [a|] [b|] [c|]; auto; tauto.
  - intros [a|] [b|]; try tauto; split; discriminate.
  - intros s k s' H r B. eapply below_next; eauto.
  - intros n s k s' H r B. unfold seq_take in H. exact (proj1 (below_nexts _ _ _ _ _ _ (below_reserve _ _ _ B) H)).
  - intros n s k. apply below_reserve.
  - intros s k. apply below_full.
  - intros [a|] b s H _; cbn; [|exact H]. revert H. destruct (is_rng s) as [q|] eqn:E; [|contradiction].
    intros H. destruct b as [b|]; [|now rewrite E]. cbn. unfold below in *. cbn. exact H.
Qed.

Notation TT := (T (fun _ => True) (fun _ => False) rng_rel).
Notation FTT := (FT (fun _ => False) rng_rel).

Lemma I_true w : heap_ok (fun _ => True) w.
Proof.
  unfold heap_ok. apply Forall_forall. intros o _. destruct o; cbn; auto.
  destruct body; cbn; auto using all_ops_true.
Qed.

Theorem run_T C n p X w r w' : run C n p w = (r, w') -> TT X w w'.
Proof.
  intros E. eapply (run_wp C (fun _ => True) (fun _ => False) rng_rel (fun _ _ => True)); eauto.
  - apply rng_ok_rel.
  - apply code_ok_true.
  - apply all_ops_true.
  - apply I_true.
Qed.

(** ** Programs without [SetState] of given names *)

Theorem run_T_keep C K n p X w r w' :
  all_ops (no_set K) p -> code_ok (no_set K) C -> heap_ok (no_set K) w ->
  run C n p w = (r, w') -> T (no_set K) K rng_rel X w w'.
Proof.
  intros Hp HC HI E. eapply (run_wp C (no_set K) K rng_rel (fun _ _ => True)); eauto.
  - apply rng_ok_rel.
  - easy.
Qed.

(** ** Programs whose loop conditions draw no keys *)

Definition keys_rel (a b : option rngseq) : Prop :=
  match a, b with
  | None, None => True
  | Some s, Some s' => (good s -> good s') /\ exists l, sq_log s' = l ++ sq_log s
  | _, _ => False
  end.

Lemma rng_ok_keys C : rng_ok C keys_rel eq.
Proof.
  split; unfold keys_rel.
  - intros [s|]; auto. split; [auto|]. now exists [].
  - intros [a|] [b|] [c|]; auto; try tauto. intros [H1 [l1 E1]] [H2 [l2 E2]].
    split; [auto|]. exists (l2 ++ l1). rewrite E2, E1. now rewrite app_assoc.
  - intros [a|] [b|]; try tauto; split; discriminate.
  - intros s k s' H. split; [intros G; eapply good_next; eauto|]. apply seq_next_log in H. exists [k]. exact H.
  - intros n s k s' H. split; [intros G; eapply good_take; eauto|]. apply seq_take_log in H as [H _]. eauto.
  - intros n s. split; [apply good_reserve|]. exists []. now rewrite reserve_log.
  - intros s. split; [apply good_full|]. exists []. now rewrite full_log.
  - intros a b s H <-. unfold add_log. destruct a as [a|]; [|exact H].
    revert H. destruct (is_rng s) as [[k subs log]|] eqn:E; [|rewrite E; auto]. intros H. cbn.
    rewrite Nat.sub_diag. cbn. exact H.
Qed.

Theorem run_T_keys C n p X w r w' :
  all_ops (quiet_cond C) p -> code_ok (quiet_cond C) C -> heap_ok (quiet_cond C) w ->
  run C n p w = (r, w') -> T (quiet_cond C) (fun _ => False) keys_rel X w w'.
Proof.
  intros Hp HC HI E. eapply (run_wp C (quiet_cond C) (fun _ => False) keys_rel eq); eauto.
  - apply rng_ok_keys.
  - exact (fun _ => Logic.I).
  - intros m c b v0 H v w1 r1 w1' f fs f' fs' E1 F F'. symmetry. eapply H; eauto.
Qed.

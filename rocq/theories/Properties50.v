(** * C86, third part: which parameters the predicates of examples/mnist_pruning.py choose *)
From Coq Require Import String Ascii List Bool Arith Lia QArith.
From Verif Require Import ModelPruning.
Import ListNotations.
Local Open Scope string_scope.
Lemma starts_with_iff p : forall s, starts_with p s = true <-> exists q, s = p ++ q.
Proof.
  induction p as [|a p IH]; intros s; cbn; [split; eauto|].
  destruct s as [|b s]; [split; [discriminate|intros [q E]; discriminate E]|].
  rewrite andb_true_iff, IH, Ascii.eqb_eq. split.
  - intros (-> & q & ->). eauto.
  - intros (q & E). injection E as -> ->. eauto.
Qed.
Lemma contains_iff p s : contains p s = true <-> exists u q, s = u ++ p ++ q.
Proof.
  induction s as [|b s IH]; cbn; rewrite orb_true_iff, starts_with_iff.
  - split; [intros [[q E]|E]; [exists "", q; exact E|discriminate]|].
    intros (u & q & E). destruct u; [left; eauto|discriminate].
  - rewrite IH. split.
    + intros [[q E]|(u & q & E)]; [exists "", q; exact E|]. exists (String b u), q. cbn. now rewrite E.
    + intros (u & q & E). destruct u as [|c u]; [left; eauto|]. injection E as -> ->. right. eauto.
Qed.
Lemma ends_with_iff p s : ends_with p s = true <-> exists u, s = u ++ p.
Proof.
  induction s as [|b s IH]; cbn; rewrite orb_true_iff, String.eqb_eq.
  - split; [intros [<-|E]; [exists ""; reflexivity|discriminate]|]. intros (u & E). destruct u; [left; symmetry; exact E|discriminate].
  - rewrite IH. split.
    + intros [<-|(u & ->)]; [exists ""; reflexivity|]. exists (String b u). reflexivity.
    + intros (u & E). destruct u as [|c u]; [left; symmetry; exact E|]. injection E as -> ->. right. eauto.
Qed.
(** What the predicates of the example choose: arrays of modules whose name ends as asked, that are no bias, no vector, and belong to no module
    with batch normalization in its name. *)
Theorem C86_matching A pat m n (v : leaf A) :
  module_matching pat m n v = true <->
  (exists u, m = u ++ pat) /\ n <> "b" /\ List.length (lf_shape v) <> 1%nat /\
  (forall u q, m <> u ++ "batchnorm" ++ q) /\ (forall u q, m <> u ++ "batch_norm" ++ q).
Proof.
  unfold module_matching, sparsity_ignore. rewrite andb_true_iff, ends_with_iff, negb_true_iff, !orb_false_iff.
  rewrite String.eqb_neq, Nat.eqb_neq.
  assert (N : forall p, contains p m = false <-> forall u q, m <> u ++ p ++ q).
  { intros p. rewrite <- not_true_iff_false, contains_iff. split; [intros H u q E; apply H; eauto|intros H (u & q & E); exact (H u q E)]. }
  rewrite !N. tauto.
Qed.
Print Assumptions C86_matching.
Example C86_matching_case : module_matching "linear" "lenet/linear" "w" (Leaf [2; 2] [1; 2; 3; 4])%nat = true /\
  module_matching "linear" "lenet/linear" "b" (Leaf [2; 1] [1; 2])%nat = false /\ module_matching "linear" "batch_norm/linear" "w" (Leaf [2; 1] [1; 2])%nat = false.
Proof. vm_compute. auto. Qed.

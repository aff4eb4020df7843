(** Numbering of module names ([number_name], module.py:576-601). *)
From stdpp Require Import gmap list strings.
From Coq Require Import String Ascii NArith Lia.
From Verif Require Import ModelStr ModelRng ModelCore ProofsStr.
Local Open Scope string_scope.

Definition sc_count (s : scope) (b : string) : N := default 0%N (sc_ctr s !! b).

(** Every used name is below its counter. *)
Definition sc_inv (s : scope) : Prop :=
  forall u, u ∈ sc_used s ->
    match explicit_number u with
    | Some (b, n) => u = b +:+ "_" +:+ str_of_N n /\ (n < sc_count s b)%N
    | None => (0 < sc_count s u)%N
    end.

Lemma sc_inv_empty : sc_inv empty_scope.
Proof. intros u H. cbn in H. set_solver. Qed.

(** How a scope may change. *)
Record scope_le (s s' : scope) : Prop := {
  sle_used : sc_used s ⊆ sc_used s';
  sle_count : forall b, (sc_count s b <= sc_count s' b)%N;
  sle_inv : sc_inv s -> sc_inv s' }.

Lemma scope_le_refl s : scope_le s s.
Proof. split; auto; reflexivity. Qed.
Lemma scope_le_trans a b c : scope_le a b -> scope_le b c -> scope_le a c.
Proof.
  intros [H1 H2 H3] [G1 G2 G3]. split; auto.
  - set_solver.
  - intros x. specialize (H2 x). specialize (G2 x). lia.
Qed.

Lemma sc_count_insert c u b n b' :
  sc_count (Scope (<[b := n]> c) u) b' = if decide (b = b') then n else sc_count (Scope c u) b'.
Proof.
  unfold sc_count. cbn. destruct (decide (b = b')) as [->|N].
  - now rewrite lookup_insert.
  - now rewrite lookup_insert_ne.
Qed.

Lemma explicit_number_numbered b n q :
  q = b +:+ "_" +:+ str_of_N n -> explicit_number q = Some (b, n).
Proof. intros ->. apply explicit_number_canon. Qed.

(** The name that [number_name] would give, and the new counters. *)
Definition numbered (sc : scope) (name : string) : gmap string N * string :=
  let cnt b := sc_count sc b in
  match explicit_number name with
  | Some (b, n) => (<[b := N.max (cnt b) (n + 1)]> (sc_ctr sc), b +:+ "_" +:+ str_of_N n)
  | None => (<[name := (cnt name + 1)%N]> (sc_ctr sc),
             if (cnt name =? 0)%N then name else name +:+ "_" +:+ str_of_N (cnt name))
  end.

Lemma number_name_eq sc name :
  number_name sc name =
  let '(ctr, q) := numbered sc name in
  if decide (q ∈ sc_used sc) then (Scope ctr (sc_used sc), inl q)
  else (Scope ctr ({[q]} ∪ sc_used sc), inr q).
Proof. unfold number_name, numbered, sc_count. destruct (explicit_number name) as [[b n]|]; reflexivity. Qed.

Lemma numbered_count sc name ctr q b u :
  numbered sc name = (ctr, q) -> (sc_count sc b <= sc_count (Scope ctr u) b)%N.
Proof.
  unfold numbered. destruct (explicit_number name) as [[b' n]|]; intros H; injection H as <- <-;
    rewrite sc_count_insert; destruct (decide _) as [->|]; unfold sc_count; cbn; lia.
Qed.

Lemma numbered_ok sc name ctr q u :
  numbered sc name = (ctr, q) ->
  match explicit_number q with
  | Some (b, n) => q = b +:+ "_" +:+ str_of_N n /\ (n < sc_count (Scope ctr u) b)%N
  | None => (0 < sc_count (Scope ctr u) q)%N
  end.
Proof.
  unfold numbered. destruct (explicit_number name) as [[b n]|] eqn:E; intros H; injection H as <- <-.
  - rewrite explicit_number_canon. split; [reflexivity|].
    rewrite sc_count_insert, decide_True by reflexivity. lia.
  - destruct (sc_count sc name =? 0)%N eqn:Z.
    + rewrite E. rewrite sc_count_insert, decide_True by reflexivity. lia.
    + rewrite explicit_number_canon. split; [reflexivity|].
      rewrite sc_count_insert, decide_True by reflexivity. lia.
Qed.

Lemma number_name_le sc name sc' r : number_name sc name = (sc', r) -> scope_le sc sc'.
Proof.
  rewrite number_name_eq. destruct (numbered sc name) as [ctr q] eqn:E.
  assert (K : forall u, sc_inv sc -> u = sc_used sc \/ u = {[q]} ∪ sc_used sc -> sc_inv (Scope ctr u)).
  { intros u I Hu x Hx. cbn in Hx.
    assert (x ∈ sc_used sc \/ x = q) as [Hu'| ->] by (destruct Hu; subst u; set_solver).
    - specialize (I x Hu'). destruct (explicit_number x) as [[b n]|].
      + destruct I as [-> I]. split; [reflexivity|].
        pose proof (numbered_count _ _ _ _ b u E). lia.
      + pose proof (numbered_count _ _ _ _ x u E). lia.
    - eapply numbered_ok; eassumption. }
  destruct (decide (q ∈ sc_used sc)); intros H; injection H as <- <-; (split; cbn; [set_solver| |]).
  - intros b. eapply numbered_count; eassumption.
  - eauto.
  - intros b. eapply numbered_count; eassumption.
  - eauto.
Qed.

Lemma number_name_fresh sc name sc' q :
  number_name sc name = (sc', inr q) -> q ∉ sc_used sc /\ q ∈ sc_used sc'.
Proof.
  rewrite number_name_eq. destruct (numbered sc name) as [ctr q'].
  destruct (decide (q' ∈ sc_used sc)); intros H; [discriminate|].
  injection H as <- <-. split; [assumption|]. cbn. set_solver.
Qed.

Lemma number_name_auto sc name :
  sc_inv sc -> explicit_number name = None ->
  exists sc', number_name sc name =
    (sc', inr (if (sc_count sc name =? 0)%N then name
               else name +:+ "_" +:+ str_of_N (sc_count sc name)))
    /\ sc_count sc' name = (sc_count sc name + 1)%N.
Proof.
  intros I E. rewrite number_name_eq. unfold numbered. rewrite E.
  set (q := if (sc_count sc name =? 0)%N then name else _).
  destruct (decide (q ∈ sc_used sc)) as [Hin|].
  - exfalso. specialize (I _ Hin). unfold q in I.
    destruct (sc_count sc name =? 0)%N eqn:Z.
    + apply N.eqb_eq in Z. rewrite E in I. lia.
    + rewrite explicit_number_canon in I. destruct I as [_ I]. lia.
  - eexists. split; [reflexivity|]. rewrite sc_count_insert, decide_True by reflexivity. reflexivity.
Qed.

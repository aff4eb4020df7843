(** * C82: the threads of examples/impala_lite.py always finish *)
From Coq Require Import List Bool Arith Lia.
From Verif Require Import ModelImpala Properties36.
Import ListNotations.

Section C82.
Context {P O A T : Type}.
Variable unroll : nat -> P -> A -> T * A.
Variable learn : P -> O -> list T -> P * O.
Variable batch_size : nat.
Notation lsys := (lsys P O A T). Notation lactor := (lactor A T).
Notation lstep := (lstep unroll learn batch_size). Notation lrun := (lrun unroll learn batch_size).
Variables (per_actor : nat) (actors0 : list A) (p0 : P) (o0 : O).
Notation total := (length actors0 * per_actor).
Notation first := (lstart batch_size per_actor actors0 p0 o0).

Definition unsent (a : lactor) : nat := la_left a + match la_put a with Some _ => 1 | None => 0 end.
Definition todo (a : lactor) : nat := 3 * la_left a + match la_put a with Some _ => 2 | None => 0 end.
Definition inv (s : lsys) : Prop :=
  ls_sent s = concat (ls_used s) ++ ls_batch s ++ ls_q s /\ Forall (fun b => length b = batch_size) (ls_used s) /\
  length (ls_q s) <= batch_size /\ length (ls_batch s) <= batch_size /\ (ls_steps s = 0 -> ls_batch s = []) /\
  length (ls_used s) + ls_steps s = total / batch_size /\
  (ls_params s, ls_opt s) = fold_left (fun po b => learn (fst po) (snd po) b) (ls_used s) (p0, o0) /\
  length (ls_sent s) + sum_of unsent (ls_actors s) = total /\ length (ls_actors s) = length actors0.
Lemma sum_start f n : (forall a : A, f (LActor n (@None T) a) = f (LActor n None a)) -> forall l : list A, sum_of f (map (LActor n None) l) = sum_of (fun a => f (LActor n None a)) l.
Proof. intros _ l. induction l as [|a l IH]; [reflexivity|]. cbn. unfold sum_of in IH. now rewrite IH. Qed.
Lemma sum_const {X} c (l : list X) : sum_of (fun _ => c) l = length l * c.
Proof. induction l as [|x l IH]; [reflexivity|]. cbn. unfold sum_of in IH. now rewrite IH. Qed.
Lemma start_inv : 0 < batch_size -> inv first.
Proof.
  intros B. unfold inv, lstart. cbn [ls_sent ls_used ls_batch ls_q ls_steps ls_params ls_opt ls_actors concat app length]. repeat split; try lia; try constructor.
  - rewrite sum_start by reflexivity. unfold unsent. cbn [la_left la_put]. rewrite sum_const. lia.
  - apply map_length.
Qed.
Lemma set_nth_length {X} (l : list X) i x y : nth_error l i = Some y -> length (set_nth l i x) = length l.
Proof. intros E. pose proof (sum_of_set (fun _ => 1) l i x _ E) as S. rewrite !sum_const in S. lia. Qed.
Lemma step_inv t s s' : lstep t s = Some s' -> inv s -> inv s'.
Proof.
  intros E (F & U & Q & Bt & Z & N & L & C & LA). destruct s as [actors q batch steps par opt used sent]. cbn [ls_sent ls_used ls_batch ls_q ls_steps ls_params ls_opt ls_actors] in *.
  destruct t as [i|]; cbn [ModelImpala.lstep] in E; unfold lstep_actor, lstep_learner in E.
  - destruct (nth_error actors i) as [[left put st]|] eqn:EA; [|discriminate]. destruct put as [t|].
    + destruct (Nat.ltb_spec (length q) batch_size) as [Hq|]; [|discriminate]. injection E as <-. unfold inv. cbn [ls_sent ls_used ls_batch ls_q ls_steps ls_params ls_opt ls_actors].
      pose proof (sum_of_set unsent actors i (LActor left None st) _ EA) as S. unfold unsent at 2 4 in S. cbn [la_left la_put] in S.
      split; [rewrite F, <- !app_assoc; reflexivity|]. split; [assumption|]. rewrite !app_length. cbn [length]. rewrite (set_nth_length _ _ _ _ EA). repeat split; try assumption; lia.
    + destruct left as [|left]; [discriminate|]. destruct (unroll i par st) as [t st']. injection E as <-. unfold inv. cbn [ls_sent ls_used ls_batch ls_q ls_steps ls_params ls_opt ls_actors].
      pose proof (sum_of_set unsent actors i (LActor left (Some t) st') _ EA) as S. unfold unsent at 2 4 in S. cbn [la_left la_put] in S.
      rewrite (set_nth_length _ _ _ _ EA). repeat split; try assumption; lia.
  - destruct steps as [|steps]; [discriminate|]. destruct (Nat.leb_spec batch_size (length batch)) as [Hb|Hb].
    + destruct (learn par opt batch) as [par' opt'] eqn:EL. injection E as <-. unfold inv. cbn [ls_sent ls_used ls_batch ls_q ls_steps ls_params ls_opt ls_actors].
      split; [rewrite F, concat_app; cbn; now rewrite app_nil_r, <- app_assoc|]. split; [apply Forall_app; split; [assumption|constructor; [lia|constructor]]|].
      rewrite app_length. cbn [length]. repeat split; try assumption; try lia. rewrite fold_left_app, <- L. cbn. now rewrite EL.
    + destruct q as [|t q]; [discriminate|]. injection E as <-. unfold inv. cbn [ls_sent ls_used ls_batch ls_q ls_steps ls_params ls_opt ls_actors].
      split; [rewrite F, <- app_assoc; reflexivity|]. split; [assumption|]. rewrite app_length. cbn [length] in *. repeat split; try assumption; try lia; discriminate.
Qed.
Lemma run_inv l s s' : lrun l s = Some s' -> inv s -> inv s'.
Proof. revert s. induction l as [|t l IH]; intros s E I; cbn in E; [now injection E as <-|]. destruct (lstep t s) as [s1|] eqn:E1; [|discriminate]. eapply IH; [exact E|eapply step_inv; eassumption]. Qed.
Lemma used_length s : inv s -> length (ls_sent s) = length (ls_used s) * batch_size + length (ls_batch s) + length (ls_q s).
Proof.
  intros (F & U & _). rewrite F, !app_length. assert (E : length (concat (ls_used s)) = length (ls_used s) * batch_size); [|lia].
  clear F. induction U as [|b l Hb U IH]; [reflexivity|]. cbn. rewrite app_length. lia.
Qed.

(** In every run, what the learner used and has in hand is what was enqueued, in order; and the parameters are those after the batches used. *)
Theorem C82_fifo l s : 0 < batch_size -> lrun l first = Some s ->
  ls_sent s = concat (ls_used s) ++ ls_batch s ++ ls_q s /\ Forall (fun b => length b = batch_size) (ls_used s) /\ length (ls_q s) <= batch_size /\
  (ls_params s, ls_opt s) = fold_left (fun po b => learn (fst po) (snd po) b) (ls_used s) (p0, o0).
Proof. intros B R. destruct (run_inv _ _ _ R (start_inv B)) as (F & U & Q & _ & _ & _ & L & _). now repeat split. Qed.
(** A state in which no thread can move is the end: the learner has made all its steps, the actors have sent all their trajectories, and
    less than a batch of them is left in the queue. *)
Theorem C82_no_hang l s : 0 < batch_size -> lrun l first = Some s -> (forall t, lstep t s = None) ->
  ls_steps s = 0 /\ length (ls_used s) = total / batch_size /\ Forall (fun a => la_left a = 0 /\ la_put a = None) (ls_actors s) /\
  ls_batch s = [] /\ length (ls_sent s) = total /\ length (ls_q s) = total mod batch_size.
Proof.
  intros B R St. pose proof (run_inv _ _ _ R (start_inv B)) as I. pose proof (used_length _ I) as UL. destruct I as (F & U & Q & Bt & Z & N & L & C & LA).
  destruct s as [actors q batch steps par opt used sent]. cbn [ls_sent ls_used ls_batch ls_q ls_steps ls_params ls_opt ls_actors] in *.
  assert (AC : forall i a, nth_error actors i = Some a -> (la_left a = 0 /\ la_put a = None) \/ (length q = batch_size /\ 0 < unsent a)).
  { intros i [left put st] E. specialize (St (Some i)). cbn [ModelImpala.lstep] in St. unfold lstep_actor in St. rewrite E in St. cbn [la_left la_put] in *. unfold unsent. cbn [la_left la_put]. destruct put as [t|].
    - destruct (Nat.ltb_spec (length q) batch_size); [discriminate|]. right. lia.
    - destruct left as [|left]; [now left|]. destruct (unroll i par st). discriminate. }
  pose proof (Nat.div_mod total batch_size ltac:(lia)) as DM. pose proof (Nat.mod_upper_bound total batch_size ltac:(lia)) as MB.
  assert (ALL : (Forall (fun a => la_left a = 0 /\ la_put a = None) actors /\ sum_of unsent actors = 0) \/ (length q = batch_size /\ 0 < sum_of unsent actors)).
  { clear - AC. induction actors as [|a r IH]; [left; now split|].
    destruct (AC 0 a eq_refl) as [[E1 E2]|[E1 E2]]; destruct (IH (fun i => AC (S i))) as [[E3 E4]|[E3 E4]]; cbn; unfold sum_of in *.
    - left. split; [now constructor|]. unfold unsent at 1. rewrite E1, E2. lia.
    - right. split; [assumption|lia].
    - right. split; [assumption|lia].
    - right. split; [assumption|lia]. }
  assert (S0 : steps = 0).
  { specialize (St None). cbn [ModelImpala.lstep] in St. unfold lstep_learner in St. destruct steps as [|steps]; [reflexivity|]. exfalso.
    destruct (Nat.leb_spec batch_size (length batch)); [destruct (learn par opt batch); discriminate|]. destruct q as [|t q]; [|discriminate]. cbn [length] in *.
    destruct ALL as [[_ S]|[E _]]; [|lia]. assert (total / batch_size = length used); [|lia]. symmetry. apply (Nat.div_unique _ _ _ (length batch)); lia. }
  subst steps. rewrite (Z eq_refl) in *. cbn [length] in *. rewrite Nat.add_0_r in N.
  destruct ALL as [[FA S]|[E S]]; [|exfalso; nia]. repeat split; try assumption; lia.
Qed.
(** The length of a run is determined by where it ends: there are no infinite runs, and all complete runs have the same length. *)
Theorem C82_run_length l s : 0 < batch_size -> lrun l first = Some s ->
  length l + sum_of todo (ls_actors s) + length (ls_q s) + ls_steps s = 3 * total + total / batch_size.
Proof.
  intros B. set (m := fun s : lsys => sum_of todo (ls_actors s) + length (ls_q s) + ls_steps s).
  assert (G : forall l s s', lrun l s = Some s' -> length l + m s' = m s).
  { clear l s. intros l. induction l as [|t l IH]; intros s s' E; cbn in E; [now injection E as <-|]. destruct (lstep t s) as [s1|] eqn:E1; [|discriminate]. specialize (IH _ _ E).
    assert (m s = S (m s1)); [|cbn; lia]. clear - E1. destruct s as [actors q batch steps par opt used sent]. unfold m. 
    destruct t as [i|]; cbn [ModelImpala.lstep] in E1; unfold lstep_actor, lstep_learner in E1.
    - destruct (nth_error actors i) as [[left put st]|] eqn:EA; [|discriminate]. destruct put as [t|].
      + destruct (Nat.ltb_spec (length q) batch_size) as [Hq|]; [|discriminate]. injection E1 as <-. cbn [ls_actors ls_q ls_steps].
        pose proof (sum_of_set todo actors i (LActor left None st) _ EA) as S. unfold todo at 2 4 in S. cbn [la_left la_put] in S. rewrite app_length. cbn. lia.
      + destruct left as [|left]; [discriminate|]. destruct (unroll i par st) as [t st']. injection E1 as <-. cbn [ls_actors ls_q ls_steps].
        pose proof (sum_of_set todo actors i (LActor left (Some t) st') _ EA) as S. unfold todo at 2 4 in S. cbn [la_left la_put] in S. lia.
    - destruct steps as [|steps]; [discriminate|]. destruct (Nat.leb_spec batch_size (length batch)) as [Hb|Hb].
      + destruct (learn par opt batch) as [par' opt'] eqn:EL. injection E1 as <-. cbn. lia.
      + destruct q as [|t q]; [discriminate|]. injection E1 as <-. cbn. lia. }
  intros R. specialize (G _ _ _ R). unfold m in G. rewrite <- !Nat.add_assoc. rewrite Nat.add_assoc in G. rewrite <- !Nat.add_assoc in G. rewrite G. unfold lstart. cbn [ls_actors ls_q ls_steps length].
  rewrite sum_start by reflexivity. unfold todo. cbn [la_left la_put]. rewrite sum_const. lia.
Qed.
End C82.
Print Assumptions C82_fifo.
Print Assumptions C82_no_hang.
Print Assumptions C82_run_length.

(** Two actors with three trajectories each; parameters count updates. *)
Definition ex_schedule : list (option nat) :=
  let a i := [Some i; Some i] in let b := [None; None; None] in a 0 ++ a 0 ++ [None] ++ a 1 ++ [None; None] ++ a 1 ++ b ++ a 1 ++ a 0 ++ b.
Example C82_case :
  option_map (fun s => (ls_used s, ls_q s, ls_params s, length ex_schedule)) (lrun (fun i p a => ((i, p), a)) (fun p o b => (S p, o + length b)) 2 ex_schedule (lstart 2 3 [tt; tt] 0 0))
  = Some ([[(0, 0); (0, 0)]; [(1, 0); (1, 1)]; [(1, 2); (0, 2)]], [], 3, 21).
Proof. reflexivity. Qed.
(** Five trajectories: one is left in the queue. *)
Example C82_left_case :
  option_map (fun s => (ls_used s, ls_q s)) (lrun (fun i p a => (p, a)) (fun p o b => (S p, o)) 2 ([Some 0; Some 0; Some 0; Some 0; None; None; None] ++ [Some 0; Some 0; Some 0; Some 0; None; None; None; Some 0; Some 0])
    (lstart 2 5 [tt] 0 tt)) = Some ([[0; 0]; [1; 1]], [2]).
Proof. reflexivity. Qed.

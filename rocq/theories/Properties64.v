(** C98: the forms of [hk.cond], and the cache of branch wrappers *)
From stdpp Require Import gmap list strings.
From Coq Require Import String ZArith Lia Permutation.
From Verif Require Import ModelStr ModelRng ModelCore SpecCore SpecStateful Demo ProofsStateful Properties04 ModelCond.
Local Open Scope string_scope.
Local Open Scope list_scope.

Section Bind.
Context {A : Type}.
Implicit Types (kwargs : list (string * A)).
Lemma take_kw_some n kwargs v rest : take_kw n kwargs = Some (v, rest) -> Permutation kwargs ((n, v) :: rest).
Proof.
  revert v rest. induction kwargs as [|[k u] kw IH]; intros v rest; cbn; [discriminate|]. destruct (decide (k = n)) as [->|N]; [intros E; injection E as -> ->; reflexivity|].
  destruct (take_kw n kw) as [[u' r]|]; [|discriminate]. intros E. injection E as -> <-. rewrite (IH v r eq_refl). apply perm_swap.
Qed.
Lemma take_kw_none n kwargs : take_kw n kwargs = None <-> n ∉ kwargs.*1.
Proof.
  induction kwargs as [|[k u] kw IH]; cbn; [split; [intros _; apply not_elem_of_nil|reflexivity]|]. destruct (decide (k = n)) as [->|N].
  - split; [discriminate|intros H; destruct H; apply elem_of_list_here].
  - rewrite not_elem_of_cons. destruct (take_kw n kw) as [[u' r]|]; [split; [discriminate|intros [_ H]; apply IH in H; discriminate]|]. split; [intros _; split; [auto|now apply IH]|reflexivity].
Qed.
Lemma take_kw_perm n kwargs v rest : NoDup kwargs.*1 -> Permutation kwargs ((n, v) :: rest) -> exists rest', take_kw n kwargs = Some (v, rest') /\ Permutation rest rest' /\ NoDup rest'.*1.
Proof.
  intros ND P. destruct (take_kw n kwargs) as [[u r]|] eqn:E.
  - pose proof (take_kw_some _ _ _ _ E) as P2. assert (ND2 : NoDup ((n, u) :: r).*1) by now rewrite <- P2. cbn in ND2. apply NoDup_cons in ND2 as [Nn NDr].
    assert (U : In (n, v) ((n, u) :: r)) by (eapply Permutation_in; [exact P2|]; eapply Permutation_in; [symmetry; exact P|now left]).
    assert (u = v). { destruct U as [U|U]; [now injection U|]. destruct Nn. apply elem_of_list_fmap. exists (n, v). split; [reflexivity|now apply elem_of_list_In]. }
    subst u. exists r. split; [reflexivity|]. split; [|exact NDr]. apply (Permutation_cons_inv (a := (n, v))). rewrite <- P. exact P2.
  - apply take_kw_none in E. destruct E. rewrite P. cbn. apply elem_of_list_here.
Qed.
(** The values of the parameters [vs]: the positional arguments come first, the keywords are exactly the remaining parameters, in any order. *)
Definition binds (names : list string) (args : list A) kwargs (vs : list A) : Prop :=
  List.length vs = List.length names /\ (List.length args <= List.length names)%nat /\ firstn (List.length args) vs = args /\ Permutation kwargs (combine (skipn (List.length args) names) (skipn (List.length args) vs)).
Lemma combine_keys (names : list string) (vs : list A) : List.length vs = List.length names -> (combine names vs).*1 = names.
Proof. revert vs. induction names as [|n names IH]; intros [|v vs] L; try discriminate; [reflexivity|]. cbn. f_equal. apply IH. now injection L. Qed.
Lemma bind_binds names args kwargs vs : NoDup names -> NoDup kwargs.*1 -> bind names args kwargs = Some vs <-> binds names args kwargs vs.
Proof.
  intros ND NK. revert args kwargs vs ND NK. induction names as [|n names IH]; intros args kwargs vs ND NK.
  - destruct args as [|a args]; cbn.
    + unfold binds. cbn. split.
      * destruct kwargs; [|discriminate]. intros E. injection E as <-. repeat split; auto.
      * intros (L & _ & _ & P). destruct vs; [|discriminate]. apply Permutation_sym, Permutation_nil in P. now subst.
    + split; [discriminate|]. intros (_ & L & _). cbn in L. lia.
  - apply NoDup_cons in ND as [Nn ND]. destruct args as [|a args]; cbn [bind].
    + split.
      * destruct (take_kw n kwargs) as [[v rest]|] eqn:E; [|discriminate]. destruct (bind names [] rest) as [us|] eqn:B; [|discriminate]. intros X. injection X as <-. pose proof (take_kw_some _ _ _ _ E) as P.
        assert (NR : NoDup rest.*1) by (rewrite P in NK; now apply NoDup_cons in NK as [_ NK]).
        apply IH in B as (L & _ & _ & P2); [|exact ND|exact NR]. unfold binds. cbn [List.length skipn firstn combine] in *. split; [now rewrite L|]. split; [lia|]. split; [reflexivity|]. rewrite P. now apply perm_skip.
      * intros (L & _ & _ & P). destruct vs as [|v vs]; [discriminate|]. cbn [List.length skipn combine] in *. destruct (take_kw_perm n kwargs v _ NK P) as (rest & -> & P2 & NR).
        assert (B : bind names [] rest = Some vs) by (apply IH; [exact ND|exact NR|]; repeat split; [lia|cbn; lia|now symmetry]). now rewrite B.
    + split.
      * destruct (take_kw n kwargs) eqn:E; [discriminate|]. destruct (bind names args kwargs) as [us|] eqn:B; [|discriminate]. intros X. injection X as <-. apply IH in B as (L & L2 & F & P); [|exact ND|exact NK].
        unfold binds. cbn [List.length firstn skipn]. split; [now rewrite L|]. split; [lia|]. split; [now rewrite F|exact P].
      * intros (L & L2 & F & P). destruct vs as [|v vs]; [discriminate|]. cbn [List.length skipn firstn] in *. injection F as -> F. injection L as L.
        assert (T : take_kw n kwargs = None). { apply take_kw_none. rewrite P, combine_keys by (rewrite !skipn_length; lia). intros H. apply Nn. rewrite <- (firstn_skipn (List.length args) names). apply elem_of_app. now right. }
        rewrite T. assert (B : bind names args kwargs = Some vs) by (apply IH; [exact ND|exact NK|]; repeat split; [exact L|lia|exact F|exact P]). now rewrite B.
Qed.
Lemma binds_count names args kwargs vs : binds names args kwargs vs -> (List.length args + List.length kwargs = List.length names)%nat.
Proof. intros (L & L2 & _ & P). rewrite (Permutation_length P), combine_length, !skipn_length, L. lia. Qed.
Lemma old_nodup : NoDup old_cond.
Proof. repeat (apply NoDup_cons; split; [set_solver|]). apply NoDup_nil_2. Qed.
Lemma new_nodup : NoDup new_cond.
Proof. repeat (apply NoDup_cons; split; [set_solver|]). apply NoDup_nil_2. Qed.
(** A call has one reading: the old form for five arguments, the new one for four, by any mix of positions and keywords; everything else is a TypeError. *)
Theorem C98_forms args kwargs r : NoDup kwargs.*1 -> dispatch args kwargs = Some r <->
  (List.length args + List.length kwargs = 5 /\ binds old_cond args kwargs [r_pred r; r_true_operand r; r_true r; r_false_operand r; r_false r])%nat \/
  (List.length args + List.length kwargs = 4 /\ binds new_cond args kwargs [r_pred r; r_true r; r_false r; r_true_operand r] /\ r_false_operand r = r_true_operand r)%nat.
Proof.
  intros NK. unfold dispatch. split.
  - assert (New : match bind new_cond args kwargs with Some [p; f; g; x] => Some (Request p f x g x) | _ => None end = Some r ->
      (List.length args + List.length kwargs = 4 /\ binds new_cond args kwargs [r_pred r; r_true r; r_false r; r_true_operand r] /\ r_false_operand r = r_true_operand r)%nat).
    { destruct (bind new_cond args kwargs) as [vs|] eqn:B; [|discriminate]. apply bind_binds in B; [|exact new_nodup|exact NK]. pose proof (binds_count _ _ _ _ B) as L. pose proof (proj1 B) as Lv.
      destruct vs as [|p [|f [|g [|x [|]]]]]; try discriminate. intros E. injection E as <-. split; [exact L|]. split; [exact B|reflexivity]. }
    destruct (bind old_cond args kwargs) as [vs|] eqn:B; [|auto]. apply bind_binds in B; [|exact old_nodup|exact NK]. pose proof (binds_count _ _ _ _ B) as L. pose proof (proj1 B) as Lv.
    destruct vs as [|p [|x [|f [|y [|g [|]]]]]]; try discriminate. intros E. injection E as <-. left. split; [exact L|exact B].
  - intros [[L B]|(L & B & E)].
    + apply bind_binds in B; [|exact old_nodup|exact NK]. rewrite B. now destruct r.
    + destruct (bind old_cond args kwargs) as [vs|] eqn:O; [apply bind_binds in O; [|exact old_nodup|exact NK]; apply binds_count in O; cbn in O; lia|].
      apply bind_binds in B; [|exact new_nodup|exact NK]. rewrite B. destruct r; cbn in *. now subst.
Qed.
(** Without keywords. *)
Theorem C98_positional (args : list A) : dispatch args [] =
  match args with
  | [p; f; g; x] => Some (Request p f x g x)
  | [p; x; f; y; g] => Some (Request p f x g y)
  | _ => None
  end.
Proof. destruct args as [|p [|a [|b [|c [|d [|e l]]]]]]; reflexivity. Qed.
End Bind.
Print Assumptions C98_forms.
Print Assumptions C98_positional.
(** Keywords in any order. *)
Example C98_forms_case : dispatch [1; 2] [("operand", 4); ("false_fun", 3)] = Some (Request 1 2 4 3 4) /\ dispatch [1] [("false_fun", 5); ("true_operand", 2); ("true_fun", 3); ("false_operand", 4)] = Some (Request 1 3 2 5 4) /\
  dispatch [1; 2; 3] [("true_fun", 4)] = None /\ dispatch [1; 2; 3; 4] [("operand", 4)] = None.
Proof. repeat split. Qed.

(** What a call does: the function of the chosen branch on its operand, by C16. *)
Theorem C98_runs C n args kwargs r b w f fs : w_frames w = f :: fs -> dispatch args kwargs = Some r -> truth (r_pred r) = Some b ->
  run C (S (S n)) (hk_cond args kwargs) w = run C (S n) (Switch (if b then 0 else 1) [CallFun (r_true r) (r_true_operand r); CallFun (r_false r) (r_false_operand r)]) w.
Proof.
  intros E D T. unfold hk_cond. cbn [run step]. unfold bindM at 1. cbn [run step]. unfold top_frame, bindM at 1. rewrite E. unfold retM at 1. rewrite D, T. reflexivity.
Qed.
Theorem C98_selected C n args kwargs r b w f fs out w' : w_frames w = f :: fs -> dispatch args kwargs = Some r -> truth (r_pred r) = Some b ->
  run C (S (S n)) (hk_cond args kwargs) w = (Ok out, w') ->
  exists l w2 f1, traced C n [CallFun (r_true r) (r_true_operand r); CallFun (r_false r) (r_false_operand r)] (on_top (top_up C) w) l w2 /\ l !! (if b then 0 else 1)%nat = Some (out, f1) /\ w' = set_frames (w_frames w') w2 /\
    ((f_frozen f = false -> no_new_none (f_params f) (f_params f1)) -> w_frames w' = set_scopes (f_scopes f) (top_up C f1) :: fs).
Proof.
  intros E D T H. rewrite (C98_runs C n args kwargs r b w f fs E D T) in H. destruct (C16_switch_commits_selected C n _ _ w f fs out w' E H) as (l & w2 & f1 & H1 & H2 & _ & H3 & H4).
  exists l, w2, f1. split; [exact H1|]. split; [now destruct b|]. now split.
Qed.
(** Outside of a transform, and with arguments of no form. *)
Theorem C98_errors C n args kwargs w : w_frames w = [] -> run C (S (S n)) (hk_cond args kwargs) w = (Exc ENotInTransform, w).
Proof. intros E. unfold hk_cond. cbn [run step]. unfold bindM at 1. cbn [run step]. unfold bindM, top_frame. now rewrite E. Qed.
Theorem C98_bad_arguments C n args kwargs w f fs : w_frames w = f :: fs -> dispatch args kwargs = None -> run C (S (S n)) (hk_cond args kwargs) w = (Exc ETypeError, w).
Proof. intros E D. unfold hk_cond. cbn [run step]. unfold bindM at 1. cbn [run step]. unfold bindM, top_frame. rewrite E. unfold retM. now rewrite D. Qed.
Print Assumptions C98_runs.
Print Assumptions C98_selected.
Print Assumptions C98_errors.
Print Assumptions C98_bad_arguments.
(** The old form with two operands (functions of [demo] return their argument), the new one by keywords, and too few arguments. *)
Example C98_run_case : let w := init_world (Some (Seed 0)) in
  result (run demo 9 (hk_cond [VBool true; VInt 3; VStr "f"; VInt 5; VStr "g"] []) w) = Some (VInt 3) /\ result (run demo 9 (hk_cond [VInt 0; VInt 3; VStr "f"; VInt 5; VStr "g"] []) w) = Some (VInt 5) /\
  result (run demo 9 (hk_cond [VInt 7; VStr "f"] [("operand", VInt 8); ("false_fun", VStr "g")]) w) = Some (VInt 8) /\ error (run demo 9 (hk_cond [VBool true; VStr "f"; VStr "g"] []) w) = Some ETypeError.
Proof. cbv zeta. split; [now vm_compute|]. split; [now vm_compute|]. split; now vm_compute. Qed.

(** ** The cache *)
Section Memo.
Context {G W : Type} (f : G -> W).
Definition memo_ok (s : memo_state G W) : Prop := forall i w, find_id i (m_cache s) = Some w -> exists g, In (i, g) (m_live s) /\ w = f g.
(** With wrappers that keep their function alive, every call returns the wrapper of its own function, whatever the addresses. *)
Theorem C98_memo l ws s' : memo_run f true memo_empty l ws s' -> ws = map (fun p => f (snd p)) l.
Proof.
  assert (H : forall s, memo_ok s -> memo_run f true s l ws s' -> ws = map (fun p => f (snd p)) l).
  { intros s I R. induction R as [s|s i g w s1 l ws s2 A C R IH]; [reflexivity|]. cbn. unfold memo_call in C. destruct (find_id i (m_cache s)) as [w0|] eqn:E.
    - injection C as <- <-. destruct (I i w0 E) as (h & L & ->). rewrite (A h L). f_equal. now apply IH.
    - injection C as <- <-. f_equal. apply IH. intros j u. cbn. destruct (Nat.eqb j i) eqn:J.
      + apply Nat.eqb_eq in J as ->. intros X. injection X as <-. exists g. split; [now left|reflexivity].
      + intros X. destruct (I j u X) as (h & L & ->). exists h. split; [now right|reflexivity]. }
  apply H. intros i w E. discriminate E.
Qed.
(** One wrapper for one function: equal addresses get the wrapper that was made first. *)
Theorem C98_memo_once l ws s' : memo_run f true memo_empty l ws s' -> NoDup (map fst (m_cache s')) /\ forall i, In i (map fst (m_cache s')) <-> In i (map fst l).
Proof.
  assert (H : forall s, NoDup (map fst (m_cache s)) -> memo_run f true s l ws s' -> NoDup (map fst (m_cache s')) /\ forall i, In i (map fst (m_cache s')) <-> In i (map fst (m_cache s)) \/ In i (map fst l)).
  { assert (Fi : forall i (c : list (nat * W)), find_id i c = None <-> ~ In i (map fst c)).
    { intros i c. induction c as [|[j u] c IH]; cbn; [split; auto|]. destruct (Nat.eqb i j) eqn:J; [apply Nat.eqb_eq in J as ->; split; [discriminate|intros X; destruct X; now left]|]. apply Nat.eqb_neq in J. rewrite IH. split; [intros X [Y|Y]; [congruence|auto]|auto]. }
    intros s ND R. induction R as [s|s i g w s1 l ws s2 A C R IH].
    - split; [exact ND|]. intros i. cbn. tauto.
    - unfold memo_call in C. destruct (find_id i (m_cache s)) as [w0|] eqn:E.
      + injection C as <- <-. destruct (IH ND) as [H1 H2]. split; [exact H1|]. intros j. rewrite H2. cbn. assert (In i (map fst (m_cache s))) by (destruct (in_dec Nat.eq_dec i (map fst (m_cache s))) as [Y|N]; [exact Y|apply Fi in N; congruence]). split; [tauto|]. intros [Y|[->|Y]]; auto.
      + injection C as <- <-. apply Fi in E. destruct (IH) as [H1 H2]; [cbn; apply NoDup_cons; split; [now rewrite elem_of_list_In|exact ND]|]. split; [exact H1|]. intros j. rewrite H2. cbn. tauto. }
  intros R. destruct (H memo_empty (NoDup_nil_2) R) as [H1 H2]. split; [exact H1|]. intros i. rewrite H2. cbn. tauto.
Qed.
End Memo.
Print Assumptions C98_memo.
Print Assumptions C98_memo_once.
(** A cache whose entries do not keep the function alive would mix up branches that a generator makes one at a time. *)
Theorem C98_memo_without_closure_refuted : exists l ws s', memo_run (G := nat) (W := nat) (fun g => g) false memo_empty l ws s' /\ ws <> map snd l.
Proof.
  exists [(0, 10); (0, 11)], [10; 10], (Memo [(0, 10)] []). split; [|discriminate].
  eapply MR_cons; [intros h []|reflexivity|]. eapply MR_cons; [intros h []|reflexivity|]. apply MR_nil.
Qed.
Print Assumptions C98_memo_without_closure_refuted.
Example C98_memo_case : memo_run (fun g : nat => g) true memo_empty [(0, 10); (1, 11); (0, 10)] [10; 11; 10] (Memo [(1, 11); (0, 10)] [(1, 11); (0, 10)]).
Proof. eapply MR_cons; [intros h []|reflexivity|]. eapply MR_cons; [intros h [X|[]]; discriminate X|reflexivity|]. eapply MR_cons; [intros h [X|[X|[]]]; [discriminate X|now injection X]|reflexivity|]. apply MR_nil. Qed.

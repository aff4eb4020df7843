(** * C92: the helpers of test_utils.py *)
From Coq Require Import String Ascii List Bool Arith NArith Lia Permutation Sorting.Sorted.
From Verif Require Import ModelStr ModelTestUtils ProofsStr.
Import ListNotations.
Local Open Scope string_scope.
Local Open Scope list_scope.

(** ** The search for modules *)
(** Objects reachable from the root through Haiku's modules. *)
Inductive reach (I : interp) (root : nat) : nat -> Prop :=
| reach_root : reach I root root
| reach_attr m o : reach I root m -> In o (attrs I m) -> is_module I o = true -> (exists s, mod_name I o = ("haiku" ++ s)%string) -> reach I root o.

Lemma mem_In x l : mem x l = true <-> In x l.
Proof. unfold mem. rewrite existsb_exists. split; [intros (y & H & E); apply Nat.eqb_eq in E; now subst|intros H; exists x; now rewrite Nat.eqb_refl]. Qed.
Lemma prefix_iff p : forall s, prefix_of p s = true <-> exists q, s = (p ++ q)%string.
Proof.
  induction p as [|a p IH]; intros s; cbn; [split; eauto|].
  destruct s as [|b s]; [split; [discriminate|intros [q E]; discriminate E]|].
  rewrite andb_true_iff, IH, Ascii.eqb_eq. split.
  - intros (-> & q & ->). eauto.
  - intros (q & E). injection E as -> ->. eauto.
Qed.
Local Arguments prefix_of : simpl never.
Definition pushes (I : interp) (visited objs : list nat) : list nat := filter (fun o => haiku_module I o && negb (mem o visited)) objs.
Lemma pushes_cons I visited o objs : pushes I visited (o :: objs) = if haiku_module I o && negb (mem o visited) then o :: pushes I visited objs else pushes I visited objs.
Proof. reflexivity. Qed.
Lemma look_cons I visited o objs tv ms : look I visited (o :: objs) tv ms =
  if haiku_module I o && negb (mem o visited) then look I visited objs (o :: tv) (if mem o ms then ms else o :: ms) else look I visited objs tv ms.
Proof. cbn [look]. unfold haiku_module. destruct (is_module I o), (mem o visited), (prefix_of "haiku" (mod_name I o)); reflexivity. Qed.
Lemma look_spec I visited objs : forall tv ms tv' ms', look I visited objs tv ms = (tv', ms') ->
  tv' = rev (pushes I visited objs) ++ tv /\ (forall o, In o ms' <-> In o ms \/ In o (pushes I visited objs)) /\ (NoDup ms -> NoDup ms').
Proof.
  induction objs as [|o objs IH]; intros tv ms tv' ms' H; [injection H as <- <-; cbn; intuition|].
  rewrite look_cons in H. rewrite pushes_cons. destruct (haiku_module I o && negb (mem o visited)); [|apply IH; exact H].
  apply IH in H. destruct H as (H1 & H2 & H3). split; [|split].
  - rewrite H1. cbn [rev]. now rewrite <- app_assoc.
  - intros o'. rewrite H2. destruct (mem o ms) eqn:M; [apply mem_In in M|]; cbn [In]; intuition (subst; auto).
  - intros N. apply H3. destruct (mem o ms) eqn:M; [exact N|]. constructor; [|exact N]. rewrite <- mem_In. congruence.
Qed.
Lemma In_pushes I visited objs o : In o (pushes I visited objs) <-> In o objs /\ haiku_module I o = true /\ ~ In o visited.
Proof.
  unfold pushes. rewrite filter_In, andb_true_iff, negb_true_iff, <- not_true_iff_false, mem_In. tauto.
Qed.
Lemma haiku_iff I o : haiku_module I o = true <-> is_module I o = true /\ exists s, mod_name I o = ("haiku" ++ s)%string.
Proof. unfold haiku_module. now rewrite andb_true_iff, prefix_iff. Qed.

(** Reachable objects, closed under visiting. *)
Record inv (I : interp) (root : nat) (visited tv ms : list nat) : Prop := {
  i_reach : forall o, In o ms -> reach I root o;
  i_sub : forall o, In o visited \/ In o tv -> In o ms;
  i_ms : forall o, In o ms -> In o visited \/ In o tv;
  i_closed : forall m o, In m visited -> In o (attrs I m) -> haiku_module I o = true -> In o ms;
  i_root : In root ms;
  i_dup : NoDup ms;
  (** What a module on the stack that was visited before leads to is above it. *)
  i_stack : forall pre m post, tv = pre ++ m :: post -> In m visited -> forall o, In o (attrs I m) -> haiku_module I o = true -> In o visited \/ In o pre }.

Lemma inv_step I root visited m rest ms tv' ms' : inv I root visited (m :: rest) ms ->
  look I (m :: visited) (attrs I m) rest ms = (tv', ms') -> inv I root (m :: visited) tv' ms'.
Proof.
  intros J H. destruct (look_spec _ _ _ _ _ _ _ H) as (E1 & E2 & E3).
  assert (Hm : In m ms) by (apply (i_sub _ _ _ _ _ J); right; now left).
  assert (Hp : forall o, In o (pushes I (m :: visited) (attrs I m)) -> In o (attrs I m) /\ haiku_module I o = true /\ ~ In o (m :: visited)) by (intros o; apply In_pushes).
  assert (Hq : forall o, In o (attrs I m) -> haiku_module I o = true -> In o (m :: visited) \/ In o (pushes I (m :: visited) (attrs I m))).
  { intros o A B. destruct (in_dec Nat.eq_dec o (m :: visited)); [now left|right; apply In_pushes; auto]. }
  split.
  - intros o Ho. apply E2 in Ho. destruct Ho as [Ho|Ho]; [now apply (i_reach _ _ _ _ _ J)|].
    destruct (Hp o Ho) as (A & B & _). apply haiku_iff in B. destruct B. eapply reach_attr; eauto. now apply (i_reach _ _ _ _ _ J).
  - intros o Ho. apply E2. subst tv'. rewrite in_app_iff, <- in_rev in Ho. destruct Ho as [[<-|Ho]|[Ho|Ho]]; auto; left; apply (i_sub _ _ _ _ _ J); auto. right. now right.
  - intros o Ho. apply E2 in Ho. subst tv'. rewrite in_app_iff, <- in_rev. destruct Ho as [Ho|Ho]; auto.
    apply (i_ms _ _ _ _ _ J) in Ho. cbn in *. tauto.
  - intros x o Hx A B. apply E2. destruct Hx as [<-|Hx].
    + destruct (Hq o A B) as [[<-|V]|P]; auto. left. apply (i_sub _ _ _ _ _ J). auto.
    + left. eapply (i_closed _ _ _ _ _ J); eauto.
  - apply E2. left. apply (i_root _ _ _ _ _ J).
  - apply E3, (i_dup _ _ _ _ _ J).
  - intros pre x post E Hx o A B. subst tv'. set (P := rev (pushes I (m :: visited) (attrs I m))) in *.
    assert (Pin : forall o, In o P <-> In o (pushes I (m :: visited) (attrs I m))) by (intros; unfold P; now rewrite <- in_rev).
    assert (Ex : exists pre', pre = P ++ pre' /\ rest = pre' ++ x :: post).
    { clear - E Hx Hp Pin. assert (HP : ~ In x P) by (intros V; apply Pin, Hp in V; tauto). clear Hp Pin. revert pre E HP.
      induction P as [|p P IH]; intros pre E HP; cbn in E; [exists pre; auto|].
      destruct pre as [|q pre]; cbn in E; injection E as E0 E1; [subst p; destruct HP; now left|].
      destruct (IH pre E1) as (pre' & -> & ->); [intros V; apply HP; now right|]. exists pre'. subst. auto. }
    destruct Ex as (pre' & -> & Er). rewrite in_app_iff, Pin. destruct Hx as [<-|Hx].
    + destruct (Hq o A B); auto.
    + destruct (i_stack _ _ _ _ _ J (m :: pre') x post) with (o := o) as [V|[<-|V]]; auto; [now rewrite Er|left; now right|left; now left].
Qed.

Definition degrees (I : interp) (l : list nat) : nat := list_sum (map (fun m => List.length (attrs I m)) l).
Definition left_over (I : interp) (all visited : list nat) : nat := degrees I (filter (fun m => negb (mem m visited)) all).
Lemma filter_len {A} (f : A -> bool) l : List.length (filter f l) <= List.length l.
Proof. induction l as [|x l IH]; cbn; [lia|]. destruct (f x); cbn; lia. Qed.
Lemma left_over_cons I x all visited : left_over I (x :: all) visited = (if mem x visited then 0 else List.length (attrs I x)) + left_over I all visited.
Proof. unfold left_over, degrees. cbn [filter]. destruct (mem x visited); reflexivity. Qed.
Lemma mem_cons x m visited : mem x (m :: visited) = (Nat.eqb x m || mem x visited)%bool.
Proof. reflexivity. Qed.
Lemma left_over_le I all visited m : left_over I all (m :: visited) <= left_over I all visited.
Proof.
  induction all as [|x all IH]; [reflexivity|]. rewrite !left_over_cons, mem_cons. destruct (Nat.eqb x m), (mem x visited); cbn [orb]; lia.
Qed.
Lemma left_over_new I all visited m : In m all -> ~ In m visited -> left_over I all (m :: visited) + List.length (attrs I m) <= left_over I all visited.
Proof.
  intros H V. induction all as [|x all IH]; [destruct H|]. rewrite !left_over_cons, mem_cons.
  destruct (Nat.eqb_spec x m) as [->|N].
  - assert (Hv : mem m visited = false) by (apply not_true_iff_false; now rewrite mem_In). rewrite Hv. cbn [orb]. pose proof (left_over_le I all visited m). lia.
  - destruct H as [->|H]; [congruence|]. specialize (IH H). destruct (mem x visited); cbn [orb]; lia.
Qed.
Lemma search_ends I root all : (forall o, reach I root o -> In o all) -> forall fuel visited tv ms,
  inv I root visited tv ms -> List.length tv + left_over I all visited <= fuel ->
  exists ms', search I fuel visited tv ms = Some ms' /\ NoDup ms' /\ forall o, In o ms' <-> reach I root o.
Proof.
  intros HA. induction fuel as [|fuel IH]; intros visited tv ms J L.
  all: destruct tv as [|m rest]; cbn [search].
  1,3: exists ms; split; [reflexivity|]; split; [apply (i_dup _ _ _ _ _ J)|]; intros o; split; [apply (i_reach _ _ _ _ _ J)|];
    induction 1 as [|m o Hm IHm A B C]; [apply (i_root _ _ _ _ _ J)|]; apply (i_closed _ _ _ _ _ J m); [|exact A|apply haiku_iff; auto];
    destruct (i_ms _ _ _ _ _ J _ IHm) as [V|[]]; exact V.
  - cbn in L. lia.
  - destruct (look I (m :: visited) (attrs I m) rest ms) as [tv' ms'] eqn:E.
    apply IH; [eapply inv_step; eauto|]. destruct (look_spec _ _ _ _ _ _ _ E) as (E1 & _). rewrite E1, app_length, rev_length.
    destruct (in_dec Nat.eq_dec m visited) as [V|V].
    + assert (P : pushes I (m :: visited) (attrs I m) = []).
      { destruct (pushes I (m :: visited) (attrs I m)) as [|o l] eqn:P; [reflexivity|]. exfalso.
        assert (Ho : In o (pushes I (m :: visited) (attrs I m))) by (rewrite P; now left).
        apply In_pushes in Ho. destruct Ho as (A & B & N). destruct (i_stack _ _ _ _ _ J [] m rest eq_refl V o A B) as [H|[]]. apply N. now right. }
      rewrite P. pose proof (left_over_le I all visited m). cbn in *. lia.
    + assert (Hm : In m all) by (apply HA, (i_reach _ _ _ _ _ J), (i_sub _ _ _ _ _ J); right; now left).
      pose proof (left_over_new I all visited m Hm V). pose proof (filter_len (fun o => haiku_module I o && negb (mem o (m :: visited))) (attrs I m)) as F.
      fold (pushes I (m :: visited) (attrs I m)) in F. cbn [List.length] in L. lia.
Qed.
Lemma start_inv I root : inv I root [] [root] [root].
Proof.
  split; cbn.
  - intros o [<-|[]]. constructor.
  - tauto.
  - tauto.
  - tauto.
  - auto.
  - constructor; [intros []|constructor].
  - tauto.
Qed.
(** The search ends after at most one round for the root and one for every attribute of a module, and finds exactly the modules reachable through
    Haiku's modules, each once. *)
Theorem C92_search I root all fuel : (forall o, reach I root o -> In o all) -> 1 + degrees I all <= fuel ->
  exists ms, search I fuel [] [root] [root] = Some ms /\ NoDup ms /\ forall o, In o ms <-> reach I root o.
Proof.
  intros HA L. apply (search_ends I root all HA); [apply start_inv|]. unfold left_over. cbn [List.length].
  replace (filter _ all) with all; [lia|]. clear. induction all as [|x l IH]; cbn; [reflexivity|]. now f_equal.
Qed.
Print Assumptions C92_search.

(** ** Sorting *)
Definition before (a b : string) : Prop := str_leb a b = true /\ a <> b.
Lemma ascii_N_inj x y : N_of_ascii x = N_of_ascii y -> x = y.
Proof. intros E. rewrite <- (ascii_N_embedding x), <- (ascii_N_embedding y). now rewrite E. Qed.
Lemma str_leb_total a : forall b, str_leb a b = true \/ str_leb b a = true.
Proof.
  induction a as [|x a IH]; intros [|y b]; cbn; auto. rewrite !orb_true_iff, !andb_true_iff, !N.ltb_lt, !N.eqb_eq.
  destruct (N.lt_trichotomy (N_of_ascii x) (N_of_ascii y)) as [H|[H|H]]; auto. destruct (IH b); auto.
Qed.
Lemma str_leb_antisym a : forall b, str_leb a b = true -> str_leb b a = true -> a = b.
Proof.
  induction a as [|x a IH]; intros [|y b]; cbn; try congruence. rewrite !orb_true_iff, !andb_true_iff, !N.ltb_lt, !N.eqb_eq.
  intros [H|[H H1]] [H'|[H' H2]]; try lia. apply ascii_N_inj in H. subst. f_equal. auto.
Qed.
Lemma str_leb_trans a : forall b c, str_leb a b = true -> str_leb b c = true -> str_leb a c = true.
Proof.
  induction a as [|x a IH]; intros [|y b] [|z c]; cbn; try congruence. rewrite !orb_true_iff, !andb_true_iff, !N.ltb_lt, !N.eqb_eq.
  intros [H|[H H1]] [H'|[H' H2]]; try (left; lia). right. split; [lia|]. eauto.
Qed.
Lemma before_trans a b c : before a b -> before b c -> before a c.
Proof.
  intros [H1 N1] [H2 N2]. split; [eapply str_leb_trans; eauto|]. intros ->. apply N1. apply str_leb_antisym; auto.
Qed.
Lemma insert_spec I m l : StronglySorted (fun a b => before (mod_name I a) (mod_name I b)) l ->
  match insert I m l with
  | Some s => Permutation s (m :: l) /\ StronglySorted (fun a b => before (mod_name I a) (mod_name I b)) s
  | None => In (mod_name I m) (map (mod_name I) l)
  end.
Proof.
  induction 1 as [|x l HS IH HF]; cbn.
  - repeat constructor.
  - destruct (String.eqb_spec (mod_name I m) (mod_name I x)) as [E|N]; [now left|].
    destruct (str_leb (mod_name I m) (mod_name I x)) eqn:L.
    + split; [reflexivity|]. constructor; [now constructor|]. constructor; [split; auto|].
      rewrite Forall_forall in *. intros y Hy. eapply before_trans; [split; [exact L|exact N]|auto].
    + destruct (insert I m l) as [s|]; cbn; [|auto]. destruct IH as [P S]. split.
      * rewrite P. apply perm_swap.
      * constructor; [exact S|]. rewrite Forall_forall in *. intros y Hy. apply (Permutation_in _ P) in Hy. destruct Hy as [<-|Hy]; auto.
        split; [|auto]. destruct (str_leb_total (mod_name I m) (mod_name I x)); congruence.
Qed.
Lemma sorted_spec I l :
  match sorted I l with
  | Some s => Permutation s l /\ StronglySorted (fun a b => before (mod_name I a) (mod_name I b)) s
  | None => ~ NoDup (map (mod_name I) l)
  end.
Proof.
  induction l as [|m l IH]; cbn; [repeat constructor|]. destruct (sorted I l) as [s|].
  - destruct IH as [P S]. pose proof (insert_spec I m s S) as H. destruct (insert I m s) as [s'|].
    + destruct H as [P' S']. split; [|exact S']. rewrite P'. now constructor.
    + intros N. inversion N as [|? ? N1 N2]; subst. apply N1. apply in_map_iff in H. destruct H as (x & E & Hx). apply in_map_iff. exists x. split; [exact E|]. now apply (Permutation_in _ P).
  - intros N. inversion N; auto.
Qed.
Lemma sorted_nodup I s : StronglySorted (fun a b => before (mod_name I a) (mod_name I b)) s -> NoDup (map (mod_name I) s).
Proof.
  induction 1 as [|x l S IH F]; cbn; constructor; auto. rewrite Forall_forall in F. intros H. apply in_map_iff in H. destruct H as (y & E & Hy).
  apply F in Hy. destruct Hy as [_ N]. congruence.
Qed.
(** [find_internal_python_modules] returns the reachable modules in the order of their names; it raises exactly when two of them have the same
    name. *)
Theorem C92_modules I root all fuel : (forall o, reach I root o -> In o all) -> 1 + degrees I all <= fuel ->
  (forall a b, reach I root a -> reach I root b -> mod_name I a = mod_name I b -> a = b) /\
    (exists ms, find_internal_python_modules I fuel root = Some (Some ms) /\ (forall o, In o ms <-> reach I root o) /\
       StronglySorted (fun a b => before (mod_name I a) (mod_name I b)) ms) \/
  (exists a b, reach I root a /\ reach I root b /\ mod_name I a = mod_name I b /\ a <> b) /\ find_internal_python_modules I fuel root = Some None.
Proof.
  intros HA L. destruct (C92_search I root all fuel HA L) as (ms & E & N & R). unfold find_internal_python_modules. rewrite E. cbn [option_map].
  pose proof (sorted_spec I ms) as H. destruct (sorted I ms) as [s|].
  - left. destruct H as [P S]. split.
    + assert (ND : NoDup (map (mod_name I) ms)) by (eapply Permutation_NoDup; [apply Permutation_map; exact P|now apply sorted_nodup]).
      intros a b Ha Hb En. apply R in Ha, Hb. clear - ND Ha Hb En. induction ms as [|x ms IH]; [destruct Ha|]. cbn in ND. inversion ND as [|? ? N1 N2]; subst.
      destruct Ha as [<-|Ha], Hb as [<-|Hb]; auto; exfalso; apply N1; [rewrite En|rewrite <- En]; now apply in_map.
    + exists s. split; [reflexivity|]. split; [|exact S]. intros o. rewrite <- R. split; apply Permutation_in; [exact P|now symmetry].
  - right. split; [|reflexivity]. clear - H N R. induction ms as [|x ms IH]; [destruct H; constructor|].
    assert (D : forall l, (forall o, In o l -> reach I root o) -> NoDup l -> ~ NoDup (map (mod_name I) l) -> exists a b, reach I root a /\ reach I root b /\ mod_name I a = mod_name I b /\ a <> b).
    { clear. induction l as [|x l IH]; intros HR N H; [destruct H; constructor|]. inversion N as [|? ? N1 N2]; subst.
      destruct (in_dec string_dec (mod_name I x) (map (mod_name I) l)) as [Hx|Hx].
      - apply in_map_iff in Hx. destruct Hx as (y & E & Hy). exists x, y. repeat split; auto; [apply HR; now left|apply HR; now right|]. intros ->. auto.
      - apply IH; auto; [intros o Ho; apply HR; now right|]. intros D. apply H. cbn. now constructor. }
    apply (D (x :: ms)); auto. intros o. apply R.
Qed.
Print Assumptions C92_modules.

(** ** Subclasses *)
Lemma new_ones_spec sub vs : forall seen out seen', new_ones sub seen vs = (out, seen') ->
  (forall v, In v out <-> In v vs /\ sub v = true /\ ~ In v seen) /\ NoDup out /\ (forall v, In v seen' <-> In v seen \/ In v out).
Proof.
  induction vs as [|v vs IH]; intros seen out seen' H; cbn in H.
  - injection H as <- <-. split; [cbn; tauto|]. split; [constructor|cbn; tauto].
  - destruct (sub v) eqn:S; cbn in H.
    + destruct (mem v seen) eqn:M; cbn in H.
      * apply mem_In in M. destruct (IH _ _ _ H) as (H1 & H2 & H3). split; [|split; [exact H2|exact H3]]. intros u. rewrite H1. cbn. destruct (Nat.eq_dec v u) as [->|Nu]; intuition.
      * assert (M' : ~ In v seen) by (rewrite <- mem_In; congruence).
        destruct (new_ones sub (v :: seen) vs) as [out1 seen1] eqn:E. injection H as <- <-. destruct (IH _ _ _ E) as (H1 & H2 & H3). split; [|split].
        -- intros u. cbn. rewrite H1. cbn. destruct (Nat.eq_dec v u) as [->|Nu]; intuition.
        -- constructor; [|exact H2]. rewrite H1. cbn. tauto.
        -- intros u. rewrite H3. cbn. tauto.
    + destruct (IH _ _ _ H) as (H1 & H2 & H3). split; [|split; [exact H2|exact H3]]. intros u. rewrite H1. cbn. destruct (Nat.eq_dec v u) as [->|Nu]; intuition congruence.
Qed.
Lemma subclasses_spec sub values mods : forall seen,
  (forall v, In v (subclasses sub values seen mods) <-> (exists m, In m mods /\ In v (values m)) /\ sub v = true /\ ~ In v seen) /\ NoDup (subclasses sub values seen mods).
Proof.
  induction mods as [|m mods IH]; intros seen; cbn.
  - split; [|constructor]. intros v. split; [tauto|]. intros ((m & [] & _) & _).
  - destruct (new_ones sub seen (values m)) as [out seen'] eqn:E. destruct (new_ones_spec _ _ _ _ _ E) as (H1 & H2 & H3). destruct (IH seen') as [I1 I2].
    split.
    + intros v. rewrite in_app_iff, H1, I1. split.
      * intros [(A & B & C)|((x & X1 & X2) & B & C)]; [eauto 6|]. rewrite H3 in C. split; [eauto|]. tauto.
      * intros ((x & [<-|X1] & X2) & B & C); auto. destruct (in_dec Nat.eq_dec v out) as [Ho|Ho]; [left; now apply H1|]. right. rewrite H3. split; [eauto|]. tauto.
    + assert (D : forall v, In v out -> ~ In v (subclasses sub values seen' mods)) by (intros v Ho Hs; apply I1 in Hs; rewrite H3 in Hs; tauto).
      clear - H2 I2 D. induction out as [|v out IHo]; cbn; [exact I2|]. inversion H2; subst. constructor; [|apply IHo; auto; intros; apply D; now right].
      rewrite in_app_iff. intros [V|V]; [auto|]. apply (D v); [now left|exact V].
Qed.
(** [find_subclasses] yields each class in the dictionary of a reachable module that is a subclass of [base_class] - or that class itself - exactly
    once. *)
Theorem C92_subclasses I root all fuel sub values : (forall o, reach I root o -> In o all) -> 1 + degrees I all <= fuel ->
  (forall a b, reach I root a -> reach I root b -> mod_name I a = mod_name I b -> a = b) ->
  exists cs, find_subclasses I fuel root sub values = Some (Some cs) /\ NoDup cs /\
    forall v, In v cs <-> sub v = true /\ exists m, reach I root m /\ In v (values m).
Proof.
  intros HA L HN. destruct (C92_modules I root all fuel HA L) as [(_ & ms & E & R & _)|((a & b & A & B & En & Ne) & _)]; [|destruct Ne; auto].
  unfold find_subclasses. rewrite E. cbn. eexists. split; [reflexivity|]. destruct (subclasses_spec sub values ms []) as [S1 S2]. split; [exact S2|].
  intros v. rewrite S1. split.
  - intros ((m & M1 & M2) & B & _). split; [exact B|]. exists m. split; [now apply R|exact M2].
  - intros (B & m & M1 & M2). split; [exists m; split; [now apply R|exact M2]|]. split; [exact B|intros []].
Qed.
Print Assumptions C92_subclasses.

(** A small interpreter: haiku (0) imports haiku.nets (1) under two names and jax (2); nets imports haiku and haiku._src (3); jax has an attribute
    haiku.hidden (4), which is not found. *)
Definition small : interp :=
  Interp (fun m => match m with 0 => [9; 1; 1; 2] | 1 => [0; 3] | 2 => [4] | 3 => [3; 1] | _ => [] end)
         (fun o => Nat.ltb o 9)
         (fun o => match o with 0 => "haiku" | 1 => "haiku.nets" | 2 => "jax" | 3 => "haiku._src" | 4 => "haiku.hidden" | _ => "" end).
Example C92_small : find_internal_python_modules small 20 0 = Some (Some [0; 3; 1]).
Proof. vm_compute. reflexivity. Qed.
Example C92_small_reach : (forall o, reach small 0 o -> In o [0; 1; 3]) /\
  (forall a b, reach small 0 a -> reach small 0 b -> mod_name small a = mod_name small b -> a = b).
Proof.
  assert (H : forall o, reach small 0 o -> In o [0; 1; 3]).
  { induction 1 as [|m o Hm IH A B [s E]]; [now left|]. cbn in IH. destruct IH as [<-|[<-|[<-|[]]]]; cbn in A; decompose [or] A; subst; cbn in *; try discriminate; auto; tauto. }
  split; [exact H|]. intros a b Ha Hb. apply H in Ha, Hb. cbn in Ha, Hb. destruct Ha as [<-|[<-|[<-|[]]]], Hb as [<-|[<-|[<-|[]]]]; cbn; intros E; congruence.
Qed.
Example C92_small_subclasses : find_subclasses small 20 0 (fun v => Nat.ltb v 13) (fun m => match m with 0 => [10; 11; 17] | 1 => [11; 12] | 3 => [12; 10; 13] | _ => [10] end) = Some (Some [10; 11; 12]).
Proof. vm_compute. reflexivity. Qed.

(** ** Parameters *)
Lemma product_spec {X} (ls : list (list X)) : forall r, In r (product ls) <-> Forall2 (fun x l => In x l) r ls.
Proof.
  induction ls as [|l ls IH]; intros r; cbn.
  - split; [intros [<-|[]]; constructor|]. inversion 1. now left.
  - rewrite in_flat_map. split.
    + intros (x & Hx & Hr). apply in_map_iff in Hr. destruct Hr as (r' & <- & Hr'). constructor; [exact Hx|now apply IH].
    + inversion 1 as [|x l' r' ls' Hx Hr]; subst. exists x. split; [exact Hx|]. apply in_map. now apply IH.
Qed.
Lemma product_length {X} (ls : list (list X)) : List.length (product ls) = fold_right Nat.mul 1 (map (@List.length X) ls).
Proof.
  induction ls as [|l ls IH]; cbn; [reflexivity|]. rewrite <- IH. induction l as [|x l IHl]; cbn; [reflexivity|]. rewrite app_length, map_length, IHl. lia.
Qed.
Lemma product_map {X Y} (f : X -> Y) (ls : list (list X)) : map (map f) (product ls) = product (map (map f) ls).
Proof.
  induction ls as [|l ls IH]; cbn; [reflexivity|]. rewrite <- IH. induction l as [|x l IHl]; cbn; [reflexivity|]. rewrite map_app, IHl. f_equal. rewrite !map_map. reflexivity.
Qed.
Lemma product_nodup {X} (ls : list (list X)) : Forall (@NoDup X) ls -> NoDup (product ls).
Proof.
  induction 1 as [|l ls Hl HF IH]; cbn; [repeat constructor; intros []|]. induction Hl as [|x l Hx Hl IHl]; cbn; [constructor|].
  assert (N : NoDup (map (cons x) (product ls))).
  { clear - IH. induction IH as [|r rs H1 H2 IHr]; cbn; constructor; auto. intros H. apply in_map_iff in H. destruct H as (r' & E & H). injection E as ->. auto. }
  assert (D : forall r, In r (map (cons x) (product ls)) -> ~ In r (flat_map (fun x => map (cons x) (product ls)) l)).
  { intros r Hr H. apply in_map_iff in Hr. destruct Hr as (r1 & <- & _). apply in_flat_map in H. destruct H as (y & Hy & H). apply in_map_iff in H. destruct H as (r2 & E & _). injection E as -> _. auto. }
  revert N D IHl. generalize (map (cons x) (product ls)) (flat_map (fun x => map (cons x) (product ls)) l). clear. intros a b. induction 1 as [|r rs H1 H2 IH]; cbn; intros D N; auto.
  constructor; [|apply IH; auto]. rewrite in_app_iff. intros [H|H]; [auto|]. apply (D r); auto.
Qed.
(** The names joined with an underscore. *)
Fixpoint joined (names : list string) : string :=
  match names with [] => "" | [a] => a | a :: names => (a ++ "_" ++ joined names)%string end.
Lemma str_app_assoc a b c : ((a ++ b) ++ c = a ++ b ++ c)%string.
Proof. induction a as [|x a IH]; cbn; [reflexivity|]. now rewrite IH. Qed.
Lemma reduce_spec {A} (r : list (@param A)) : forall a, fold_left combine2 r a = (joined (map fst (a :: r)), concat (map snd (a :: r))).
Proof.
  induction r as [|b r IH]; intros a; cbn [fold_left].
  - destruct a. cbn. now rewrite app_nil_r.
  - rewrite IH. unfold combine2 at 1 2. cbn [map fst snd]. f_equal.
    + cbn [joined]. destruct (map fst r); cbn [joined]; [reflexivity|]. now rewrite !str_app_assoc.
    + cbn [concat]. now rewrite app_assoc.
Qed.
Lemma all_some_map {X Y} (f : X -> option Y) (g : X -> Y) l : (forall x, In x l -> f x = Some (g x)) -> all_some (map f l) = Some (map g l).
Proof. induction l as [|x l IH]; intros H; cbn; [reflexivity|]. rewrite (H x) by now left. rewrite IH; [reflexivity|]. intros y Hy. apply H. now right. Qed.
Lemma combined_eq {A} (ps : list (list (@param A))) : ps <> [] ->
  combined_named_parameters ps = Some (map (fun r => (joined (map fst r), concat (map snd r))) (product ps)).
Proof.
  intros N. apply all_some_map. intros r Hr. apply product_spec in Hr. destruct r as [|a r]; [inversion Hr; subst; congruence|]. cbn [reduce1]. now rewrite reduce_spec.
Qed.
(** One test for every choice of one parameter from each sequence: its name is the names joined with underscores, its arguments are the arguments
    one after the other. Without sequences it raises. *)
Theorem C92_combined {A} (ps : list (list (@param A))) :
  (ps = [] /\ combined_named_parameters ps = None) \/
  exists out, combined_named_parameters ps = Some out /\ List.length out = fold_right Nat.mul 1 (map (@List.length _) ps) /\
    forall name args, In (name, args) out <-> exists r, Forall2 (fun p l => In p l) r ps /\ name = joined (map fst r) /\ args = concat (map snd r).
Proof.
  destruct ps as [|p ps]; [left; split; reflexivity|right]. rewrite combined_eq by discriminate. eexists. split; [reflexivity|]. split.
  - rewrite map_length. apply product_length.
  - intros name args. rewrite in_map_iff. split.
    + intros (r & E & Hr). injection E as <- <-. exists r. split; [now apply product_spec|auto].
    + intros (r & Hr & -> & ->). exists r. split; [reflexivity|now apply product_spec].
Qed.
Print Assumptions C92_combined.

(** No name followed by an underscore starts another one. *)
Definition unambiguous (names : list string) : Prop :=
  forall a b s, In a names -> In b names -> ((b ++ "_") = (a ++ "_") ++ s)%string -> a = b.
Lemma app_cancel a : forall b c, (a ++ b = a ++ c)%string -> b = c.
Proof. induction a as [|x a IH]; cbn; intros b c E; [exact E|]. injection E. apply IH. Qed.
(** Of two ways to cut a string, the shorter first part starts the other. *)
Lemma cut a : forall b c d, (a ++ b = c ++ d)%string -> (exists s, c = (a ++ s)%string) \/ (exists s, a = (c ++ s)%string).
Proof.
  induction a as [|x a IH]; intros b c d E; cbn in *; [left; exists c; reflexivity|].
  destruct c as [|y c]; [right; exists (String x a); reflexivity|]. cbn in E. injection E as -> E. destruct (IH _ _ _ E) as [[s ->]|[s ->]]; [left|right]; exists s; reflexivity.
Qed.
Lemma joined_inj names : Forall unambiguous (removelast names) -> forall r1 r2,
  Forall2 (fun x l => In x l) r1 names -> Forall2 (fun x l => In x l) r2 names -> joined r1 = joined r2 -> r1 = r2.
Proof.
  induction names as [|l names IH]; intros U r1 r2 H1 H2 E; inversion H1 as [|a ? r1' ? A1 B1]; inversion H2 as [|b ? r2' ? A2 B2]; subst; [reflexivity|].
  destruct names as [|l' names].
  - inversion B1; inversion B2; subst. cbn in E. now subst.
  - cbn [removelast] in U. inversion U as [|? ? U1 U2]; subst.
    assert (J : forall x r, Forall2 (fun x l => In x l) r (l' :: names) -> joined (x :: r) = ((x ++ "_") ++ joined r)%string).
    { intros x r Hr. inversion Hr; subst. cbn [joined]. now rewrite str_app_assoc. }
    rewrite !J in E by assumption.
    assert (Eab : a = b).
    { destruct (cut _ _ _ _ E) as [[s Es]|[s Es]]; [exact (U1 a b s A1 A2 Es)|symmetry; exact (U1 b a s A2 A1 Es)]. }
    subst b. apply app_cancel in E. f_equal. apply (IH U2); assumption.
Qed.
(** If the names of each sequence differ, and in all but the last none followed by an underscore starts another, then the combined names differ (as
    [named_parameters] requires). *)
Theorem C92_names {A} (ps : list (list (@param A))) out : Forall (fun p => NoDup (map fst p)) ps -> Forall (fun p => unambiguous (map fst p)) (removelast ps) ->
  combined_named_parameters ps = Some out -> NoDup (map fst out).
Proof.
  intros N U E. assert (Hps : ps <> []) by (intros ->; discriminate E). rewrite (combined_eq ps Hps) in E. injection E as <-.
  rewrite map_map. cbn [fst]. rewrite <- (map_map (map fst) joined), product_map.
  assert (N' : NoDup (product (map (map fst) ps))) by (apply product_nodup; clear - N; induction N; cbn; constructor; auto).
  assert (U' : Forall unambiguous (removelast (map (map fst) ps))).
  { clear - U. induction ps as [|p ps IH]; cbn; [constructor|]. destruct ps as [|q ps]; cbn in *; [constructor|]. inversion U; subst. constructor; auto. }
  assert (I : forall r1 r2, In r1 (product (map (map fst) ps)) -> In r2 (product (map (map fst) ps)) -> joined r1 = joined r2 -> r1 = r2).
  { intros r1 r2 H1 H2. apply product_spec in H1, H2. now apply (joined_inj _ U'). }
  revert N' I. generalize (product (map (map fst) ps)). clear. induction 1 as [|r l H1 H2 IH]; intros I; cbn; constructor.
  - intros H. apply in_map_iff in H. destruct H as (r' & E & H). assert (r' = r) by (apply I; cbn; auto). subst. auto.
  - apply IH. intros. apply I; cbn; auto.
Qed.
Print Assumptions C92_names.
(** Distinct names in each sequence are not enough. *)
Theorem C92_names_refuted :
  ~ (forall (ps : list (list (@param nat))) out, Forall (fun p => NoDup (map fst p)) ps -> combined_named_parameters ps = Some out -> NoDup (map fst out)).
Proof.
  intros H. specialize (H [[("jit", [1]); ("jit_pmap", [2])]; [("pmap_x", [3]); ("x", [4])]] [("jit_pmap_x", [1; 3]); ("jit_x", [1; 4]); ("jit_pmap_pmap_x", [2; 3]); ("jit_pmap_x", [2; 4])]).
  assert (N : NoDup ["jit_pmap_x"; "jit_x"; "jit_pmap_pmap_x"; "jit_pmap_x"]).
  { apply H; [|reflexivity]. repeat constructor; cbn; intuition discriminate. }
  inversion N as [|? ? N1 _]. apply N1. cbn. tauto.
Qed.
Print Assumptions C92_names_refuted.

Lemma len_app a : forall b, String.length (a ++ b) = String.length a + String.length b.
Proof. induction a as [|x a IH]; intros b; cbn; [reflexivity|now rewrite IH]. Qed.
(** [named_bools]: two names, which can be combined with others unless the name is "not" or starts with "not_"; with "not" they cannot. *)
Theorem C92_bools name : NoDup (map fst (named_bools name)) /\
  (name <> "not" -> (forall s, name <> ("not_" ++ s)%string) -> unambiguous (map fst (named_bools name))) /\
  (name = "not" -> ~ unambiguous (map fst (named_bools name))).
Proof.
  split; [|split].
  - cbn. repeat constructor; cbn; try tauto. intros [E|[]]. apply (f_equal String.length) in E. cbn in E. lia.
  - intros N1 N2 a b s Ha Hb E. cbn [map fst named_bools In] in Ha, Hb.
    destruct Ha as [<-|[<-|[]]], Hb as [<-|[<-|[]]]; try reflexivity; exfalso.
    + rewrite !str_app_assoc in E. destruct name as [|c1 name]; [discriminate E|]. injection E as <- E.
      destruct name as [|c2 name]; [discriminate E|]. injection E as <- E.
      destruct name as [|c3 name]; [discriminate E|]. injection E as <- E.
      destruct name as [|c4 name]; [now apply N1|]. injection E as <- E. now apply (N2 name).
    + apply (f_equal String.length) in E. rewrite !len_app in E. cbn in E. lia.
  - intros -> U. assert (E : "not" = "not_not") by (apply (U "not" "not_not" "not_"); cbn; auto). discriminate E.
Qed.
Print Assumptions C92_bools.
Fixpoint no_under (s : string) : Prop := match s with "" => True | String c s => c <> "_"%char /\ no_under s end.
Lemma digits_no_under n : no_under (str_of_N n).
Proof. unfold str_of_N. induction (N.to_uint n); cbn; try split; try discriminate; auto. Qed.
(** [named_range]: the names differ, and can be combined with others. *)
Theorem C92_range name stop : NoDup (map fst (named_range name stop)) /\ unambiguous (map fst (named_range name stop)) /\
  map snd (named_range name stop) = map (fun i => [i]) (seq 0 stop).
Proof.
  unfold named_range. rewrite !map_map. cbn [fst snd]. split; [|split; [|reflexivity]].
  - assert (I : forall i j, (name ++ "_" ++ str_of_N (N.of_nat i) = name ++ "_" ++ str_of_N (N.of_nat j))%string -> i = j).
    { intros i j E. apply app_cancel in E. apply (app_cancel "_") in E. apply str_of_N_inj in E. lia. }
    generalize (seq_NoDup stop 0). generalize (seq 0 stop). induction 1 as [|i l H1 H2 IH]; cbn; constructor; auto.
    intros H. apply in_map_iff in H. destruct H as (j & E & H). apply I in E. subst. auto.
  - intros a b s Ha Hb E. apply in_map_iff in Ha, Hb. destruct Ha as (i & <- & _), Hb as (j & <- & _).
    rewrite !str_app_assoc in E. apply app_cancel in E. apply (app_cancel "_") in E. do 2 f_equal.
    assert (D : forall u t, no_under u -> no_under t -> forall s, (t ++ "_" = u ++ "_" ++ s)%string -> u = t).
    { clear. induction u as [|c u IH]; intros t Hu Ht s E; destruct t as [|d t]; cbn in *; try reflexivity.
      - injection E as E1 E2. subst d. now destruct Ht as [Ht _].
      - injection E as E1 E2. subst c. now destruct Hu as [Hu _].
      - injection E as -> E2. f_equal. destruct Hu, Ht. eapply IH; eauto. }
    eapply D; [apply digits_no_under..|exact E].
Qed.
Print Assumptions C92_range.

(** A case: a flag and a range. *)
Example C92_combined_case :
  combined_named_parameters [map (fun p => (fst p, map (fun b : bool => if b then 1 else 0) (snd p))) (named_bools "jit"); named_range "size" 2] =
    Some [("jit_size_0", [1; 0]); ("jit_size_1", [1; 1]); ("not_jit_size_0", [0; 0]); ("not_jit_size_1", [0; 1])].
Proof. vm_compute. reflexivity. Qed.

(** * C111: the check that every public name is documented *)
From Coq Require Import String Ascii List Bool Arith NArith Lia Permutation Sorting.Sorted.
From Verif Require Import ModelStr ModelTestUtils ModelDocs ProofsStr Properties51.
Import ListNotations.
Local Open Scope string_scope.
Local Open Scope list_scope.

Lemma has_In x l : has x l = true <-> In x l.
Proof. unfold has. rewrite existsb_exists. split; [intros (y & H & E); apply String.eqb_eq in E; now subst|intros H; exists x; now rewrite String.eqb_refl]. Qed.

(** ** Pages *)
(** The module a directive's names belong to: that of the last [currentmodule] or [automodule] before it. *)
Definition sets (d : directive) (m : string) : Prop := d = Current m \/ d = AutoModule m.
Definition quiet (d : directive) : Prop := match d with Auto _ | Summary _ => True | _ => False end.
Definition in_module (start : string) (pre : list directive) (m : string) : Prop :=
  (Forall quiet pre /\ m = start) \/ (exists before_it d after_it, pre = before_it ++ d :: after_it /\ sets d m /\ Forall quiet after_it).
Lemma in_module_cons start d pre m : in_module start (d :: pre) m <-> match d with Current k | AutoModule k => in_module k pre m | _ => in_module start pre m end.
Proof.
  assert (K : forall k, (forall m, sets d m <-> m = k) -> (quiet d -> False) -> (in_module start (d :: pre) m <-> in_module k pre m)).
  { intros k S Q. split.
    - intros [[F _]|(b & x & a & E & X & F)]; [inversion F; contradiction|]. destruct b as [|y b]; cbn in E; injection E as E1 E2.
      + subst x a. left. split; [exact F|]. now apply S.
      + subst y pre. right. exists b, x, a. auto.
    - intros [[F ->]|(b & x & a & -> & X & F)]; right; [exists [], d, pre|exists (d :: b), x, a]; split; auto. split; [now apply S|exact F]. }
  assert (L : quiet d -> (forall m, ~ sets d m) -> (in_module start (d :: pre) m <-> in_module start pre m)).
  { intros Q S. split.
    - intros [[F ->]|(b & x & a & E & X & F)]; [left; inversion F; auto|]. destruct b as [|y b]; cbn in E; injection E as E1 E2.
      + subst x. destruct (S _ X).
      + subst y pre. right. exists b, x, a. auto.
    - intros [[F ->]|(b & x & a & -> & X & F)]; [left; auto|right; exists (d :: b), x, a; auto]. }
  destruct d; [apply K|apply K|apply L|apply L]; cbn; auto; unfold sets; try (intros; split; [intros [E|E]; congruence|intros ->; auto]); intros k [E|E]; congruence.
Qed.

(** A page documents exactly the modules with an [automodule] and the names with an [autoclass] or [autofunction], in the module of the last
    [currentmodule] or [automodule] before it, as far as they can be imported. A line of an [autosummary] does not document anything. *)
Theorem C111_documented importable start page x : In x (documented importable start page) <->
  importable x = true /\ (In (AutoModule x) page \/ exists pre post n m, page = pre ++ Auto n :: post /\ in_module start pre m /\ x = (m ++ "." ++ n)%string).
Proof.
  revert start. induction page as [|d page IH]; intros start.
  - cbn. split; [tauto|]. intros (_ & [[]|(pre & post & n & m & E & _)]). destruct pre; discriminate E.
  - assert (K : forall P : Prop, (exists pre post n m, d :: page = pre ++ Auto n :: post /\ in_module start pre m /\ x = (m ++ "." ++ n)%string) <->
      (exists n, d = Auto n /\ x = (start ++ "." ++ n)%string) \/
      (exists pre post n m, page = pre ++ Auto n :: post /\ in_module start (d :: pre) m /\ x = (m ++ "." ++ n)%string)).
    { intros _. split.
      - intros (pre & post & n & m & E & M & X). destruct pre as [|y pre]; cbn in E; injection E as E1 E2.
        + left. exists n. split; [exact E1|]. destruct M as [[_ ->]|(b & z & a & F & _)]; [exact X|destruct b; discriminate F].
        + subst y. right. exists pre, post, n, m. auto.
      - intros [(n & -> & X)|(pre & post & n & m & E & M & X)].
        + exists [], page, n, start. split; [reflexivity|]. split; [left; auto|exact X].
        + exists (d :: pre), post, n, m. split; [cbn; now f_equal|auto]. }
    rewrite (K True). clear K.
    assert (Q : (exists pre post n m, page = pre ++ Auto n :: post /\ in_module start (d :: pre) m /\ x = (m ++ "." ++ n)%string) <->
      (exists pre post n m, page = pre ++ Auto n :: post /\ in_module (match d with Current k | AutoModule k => k | _ => start end) pre m /\ x = (m ++ "." ++ n)%string)).
    { split; intros (pre & post & n & m & E & M & X); exists pre, post, n, m; (split; [exact E|split; [|exact X]]); apply in_module_cons in M || apply in_module_cons; destruct d; exact M. }
    rewrite Q. clear Q. destruct d as [k|k|n|ns]; cbn [documented In]; rewrite ?in_app_iff, IH.
    + split; [intros (I & [H|H]); auto|]. intros (I & [[H|H]|[(n & H & _)|H]]); try discriminate H; auto.
    + split.
      * intros [H|(I & [H|H])]; auto. destruct (importable k) eqn:Ik; [|destruct H]. destruct H as [<-|[]]. auto.
      * intros (I & [[H|H]|[(n & H & _)|H]]); try discriminate H; auto. injection H as ->. rewrite I. left. now left.
    + unfold dotted. split.
      * intros [H|(I & [H|H])]; auto. destruct (importable (start ++ "." ++ n)%string) eqn:Ik; [|destruct H]. destruct H as [<-|[]]. split; [exact Ik|]. right. left. eauto.
      * intros (I & [[H|H]|[(n' & H & X)|H]]); try discriminate H; auto. injection H as <-. subst x. rewrite I. left. now left.
    + split; [intros (I & [H|H]); auto|]. intros (I & [[H|H]|[(n & H & _)|H]]); try discriminate H; auto.
Qed.
Print Assumptions C111_documented.

(** ** The check *)
Lemma put_In l x y : In y (put l x) <-> In y l \/ y = x.
Proof. unfold put. destruct (has x l) eqn:H; [apply has_In in H; intuition congruence|rewrite in_app_iff; cbn; intuition]. Qed.
Lemma put_nodup l x : NoDup l -> NoDup (put l x).
Proof.
  intros N. unfold put. destruct (has x l) eqn:H; [exact N|]. assert (F : ~ In x l) by (rewrite <- has_In; congruence).
  apply (Permutation_NoDup (l := x :: l)); [apply Permutation_cons_append|now constructor].
Qed.
Lemma puts_spec xs : forall l, (forall y, In y (fold_left put xs l) <-> In y l \/ In y xs) /\ (NoDup l -> NoDup (fold_left put xs l)).
Proof.
  induction xs as [|x xs IH]; intros l; cbn [fold_left].
  - split; [cbn; tauto|auto].
  - destruct (IH (put l x)) as [A B]. split; [|intros N; apply B, put_nodup, N]. intros y. rewrite A, put_In. cbn. intuition.
Qed.
Lemma symbols_spec I all ms : forall names, match symbols I all ms names with
  | Some s => (forall m, In m ms -> all m <> None) /\
      (forall y, In y s <-> In y names \/ exists m l n, In m ms /\ all m = Some l /\ In n l /\ y = (mod_name I m ++ "." ++ n)%string) /\ (NoDup names -> NoDup s)
  | None => exists m, In m ms /\ all m = None
  end.
Proof.
  induction ms as [|m ms IH]; intros names; cbn [symbols].
  - split; [intros m []|]. split; [|auto]. intros y. split; [auto|]. intros [H|(m & l & n & [] & _)]. exact H.
  - destruct (all m) as [l|] eqn:E; [|exists m; cbn; auto]. specialize (IH (fold_left put (map (dotted (mod_name I m)) l) names)).
    destruct (puts_spec (map (dotted (mod_name I m)) l) names) as [A B]. destruct (symbols I all ms _) as [s|].
    + destruct IH as (H1 & H2 & H3). split; [|split; [|auto]].
      * intros k [<-|K]; [congruence|auto].
      * intros y. rewrite H2, A, in_map_iff. split.
        -- intros [[H|(n & <- & N)]|(k & l' & n & K & L & N & Y)]; [auto| |]; right; [exists m, l, n|exists k, l', n]; cbn; auto.
        -- intros [H|(k & l' & n & [<-|K] & L & N & Y)]; [auto| |].
           ++ rewrite E in L. injection L as <-. left. right. exists n. auto.
           ++ right. exists k, l', n. auto.
    + destruct IH as (k & K & L). exists k. cbn. auto.
Qed.
Lemma insert_name_perm x l : Permutation (insert_name x l) (x :: l).
Proof. induction l as [|y l IH]; cbn; [reflexivity|]. destruct (str_leb x y); [reflexivity|]. rewrite IH. apply perm_swap. Qed.
Lemma sort_names_perm l : Permutation (sort_names l) l.
Proof. induction l as [|x l IH]; cbn; [reflexivity|]. rewrite insert_name_perm. now constructor. Qed.
Lemma insert_name_sorted x l : ~ In x l -> StronglySorted before l -> StronglySorted before (insert_name x l).
Proof.
  intros N S. induction S as [|y l S IH F]; cbn; [repeat constructor|]. assert (D : x <> y) by (intros ->; apply N; now left). destruct (str_leb x y) eqn:E.
  - assert (B : before x y) by (split; auto). constructor; [now constructor|]. constructor; [exact B|]. apply Forall_forall. intros z Z. rewrite Forall_forall in F.
    apply (before_trans _ y); auto.
  - constructor; [apply IH; intros I; apply N; now right|]. apply Forall_forall. intros z Z. apply (Permutation_in _ (insert_name_perm x l)) in Z.
    destruct Z as [<-|Z]; [|rewrite Forall_forall in F; auto]. split; [|auto]. destruct (str_leb_total x y); congruence.
Qed.
Lemma sort_names_sorted l : NoDup l -> StronglySorted before (sort_names l).
Proof.
  induction 1 as [|x l N D IH]; cbn; [constructor|]. apply insert_name_sorted; [|exact IH]. intros I. apply N. now apply (Permutation_in _ (sort_names_perm l)).
Qed.

(** A public name: it is in the [__all__] of a module that is reached from the package. *)
Definition public (I : interp) (all : nat -> option (list string)) (root : nat) (x : string) : Prop :=
  exists m l n, reach I root m /\ all m = Some l /\ In n l /\ x = (mod_name I m ++ "." ++ n)%string.

(** The check ends. It raises for another reason than missing documentation exactly when two of the modules have the same name or one has no
    [__all__]; otherwise it lists the public names that are not documented, each once and in order, and passes exactly when there are none. *)
Theorem C111_finish I all root fuel objects mods : (forall o, reach I root o -> In o mods) -> 1 + degrees I mods <= fuel ->
  exists r, finish I all fuel root objects = Some r /\
    (r = Broken <-> (exists a b, reach I root a /\ reach I root b /\ mod_name I a = mod_name I b /\ a <> b) \/ (exists m, reach I root m /\ all m = None)) /\
    (r = Covered -> forall x, public I all root x -> In x objects) /\
    (forall l, r = Undocumented l -> l <> [] /\ StronglySorted before l /\ forall x, In x l <-> public I all root x /\ ~ In x objects).
Proof.
  intros HA L. unfold finish. destruct (C92_modules I root mods fuel HA L) as [[U (ms & -> & R & S)]|[D ->]]; cbn [option_map].
  2: { exists Broken. split; [reflexivity|]. split; [split; auto|]. split; [discriminate|]. intros l E. discriminate E. }
  pose proof (symbols_spec I all ms []) as H. destruct (symbols I all ms []) as [s|].
  2: { destruct H as (m & M & E). exists Broken. split; [reflexivity|]. split; [split; [intros _; right; exists m; split; [now apply R|exact E]|reflexivity]|]. split; [discriminate|]. intros l F. discriminate F. }
  destruct H as (H1 & H2 & H3). assert (P : forall x, In x s <-> public I all root x).
  { intros x. rewrite H2. unfold public. split.
    - intros [[]|(m & l & n & M & A)]. exists m, l, n. split; [now apply R|exact A].
    - intros (m & l & n & M & A). right. exists m, l, n. split; [now apply R|exact A]. }
  assert (B : ~ ((exists a b, reach I root a /\ reach I root b /\ mod_name I a = mod_name I b /\ a <> b) \/ (exists m, reach I root m /\ all m = None))).
  { intros [(a & b & A1 & A2 & A3 & A4)|(m & M & E)]; [apply A4; now apply U|]. apply R in M. exact (H1 m M E). }
  assert (F : forall x, In x (filter (fun n => negb (has n objects)) s) <-> public I all root x /\ ~ In x objects).
  { intros x. rewrite filter_In, P, negb_true_iff, <- has_In. destruct (has x objects); intuition congruence. }
  assert (N : NoDup (filter (fun n => negb (has n objects)) s)) by (apply NoDup_filter, H3; constructor).
  destruct (filter (fun n => negb (has n objects)) s) as [|y l] eqn:E.
  - exists Covered. split; [reflexivity|]. split; [split; [discriminate|intros X; destruct (B X)]|]. split; [|intros l E'; discriminate E'].
    intros _ x X. destruct (in_dec string_dec x objects) as [O|O]; [exact O|]. destruct (proj2 (F x) (conj X O)).
  - exists (Undocumented (sort_names (y :: l))). split; [reflexivity|]. split; [split; [discriminate|intros X; destruct (B X)]|]. split; [discriminate|].
    intros l' E'. assert (E2 : l' = sort_names (y :: l)) by congruence. subst l'. clear E'. split; [|split].
    + intros Z. pose proof (sort_names_perm (y :: l)) as Q. rewrite Z in Q. apply Permutation_nil in Q. discriminate Q.
    + apply sort_names_sorted, N.
    + intros x. rewrite <- F. split; apply Permutation_in; [apply sort_names_perm|symmetry; apply sort_names_perm].
Qed.
Print Assumptions C111_finish.

(** Directives that are added at the end of a page never turn a passing check into a failing one, and the table of objects is all that counts. *)
Theorem C111_append importable start page more I all fuel root :
  finish I all fuel root (documented importable start page) = Some Covered -> finish I all fuel root (documented importable start (page ++ more)) = Some Covered.
Proof.
  assert (K : forall x, In x (documented importable start page) -> In x (documented importable start (page ++ more))).
  { intros x. rewrite !C111_documented. intros (J & [H|(pre & post & n & m & -> & H)]); (split; [exact J|]); [left; apply in_app_iff; auto|].
    right. exists pre, (post ++ more), n, m. split; [now rewrite <- app_assoc|exact H]. }
  unfold finish. destruct (find_internal_python_modules I fuel root) as [[ms|]|]; cbn [option_map]; try discriminate.
  destruct (symbols I all ms []) as [s|]; [|discriminate]. intros E.
  assert (A : filter (fun n => negb (has n (documented importable start page))) s = []) by (destruct (filter _ s); [reflexivity|discriminate E]).
  assert (B : filter (fun n => negb (has n (documented importable start (page ++ more)))) s = []).
  { clear E. induction s as [|x s IH]; [reflexivity|]. cbn [filter] in *. destruct (has x (documented importable start page)) eqn:H; [|discriminate A].
    apply has_In, K, has_In in H. rewrite H. cbn [negb] in *. auto. }
  now rewrite B.
Qed.
Print Assumptions C111_append.

(** ** The library *)
Lemma library_reach o : reach library 0 o <-> o < 7.
Proof.
  split.
  - induction 1 as [|m o R IH A M S]; [lia|]. destruct m as [|m].
    + cbn in A. destruct A as [<-|[<-|[<-|[<-|[<-|[<-|[<-|[]]]]]]]]; try lia. discriminate M.
    + cbn in A. destruct A as [<-|[]]. discriminate M.
  - intros L. assert (Z : reach library 0 0) by constructor. destruct o as [|o]; [exact Z|]. apply (reach_attr library 0 0); [exact Z| | |].
    + do 6 (destruct o as [|o]; [cbn; tauto|]). lia.
    + unfold library. cbn [is_module]. apply Nat.ltb_lt. lia.
    + do 6 (destruct o as [|o]; [cbn; eexists; reflexivity|]). lia.
Qed.
(** The pinned page covers the pinned package: if autodoc can import everything the check passes; the bound on the search is not reached. *)
Theorem C111_api importable fuel : (forall x, importable x = true) -> 8 + 7 <= fuel -> finish library library_all fuel 0 (documented importable "" api) = Some Covered.
Proof.
  intros J L. assert (E : documented importable "" api = documented (fun _ => true) "" api).
  { generalize ""%string. generalize api. induction l as [|[k|k|n|ns] l IH]; intros start; cbn [documented]; rewrite ?J, ?IH; reflexivity. }
  rewrite E. destruct (C111_finish library library_all 0 fuel (documented (fun _ => true) "" api) [0; 1; 2; 3; 4; 5; 6]) as (r & F & B & C & U).
  - intros o O. apply library_reach in O. cbn. lia.
  - cbn. lia.
  - rewrite F. f_equal. destruct r as [|l|]; [reflexivity| |].
    + destruct (U l eq_refl) as (N & _ & X). destruct l as [|x l]; [congruence|]. exfalso. destruct (proj1 (X x) (or_introl eq_refl)) as [(m & ns & n & M & A & I & ->) O].
      apply O. apply library_reach in M. apply has_In.
      assert (K : forallb (fun m => match library_all m with Some ns => forallb (fun n => has (mod_name library m ++ "." ++ n)%string (documented (fun _ => true) "" api)) ns | None => false end) [0; 1; 2; 3; 4; 5; 6] = true) by (vm_compute; reflexivity).
      rewrite forallb_forall in K. specialize (K m ltac:(cbn; lia)). rewrite A in K. rewrite forallb_forall in K. exact (K n I).
    + exfalso. destruct (proj1 B eq_refl) as [(a & b & A1 & A2 & A3 & A4)|(m & M & A)].
      * apply library_reach in A1, A2. do 7 (destruct a as [|a]; [do 7 (destruct b as [|b]; [cbn in A3; congruence|]); lia|]). lia.
      * apply library_reach in M. do 7 (destruct m as [|m]; [discriminate A|]). lia.
Qed.
Print Assumptions C111_api.

(** The claim "all public symbols are covered in the docs" is not what is checked: haiku.typing has an [__all__] but no module imports it, so that its
    names are never looked at, and the check passes although the page does not document them. *)
Theorem C111_typing_refuted : ~ (forall m l n, library_all m = Some l -> In n l -> finish library library_all 15 0 (documented (fun _ => true) "" api) = Some Covered ->
  In (mod_name library m ++ "." ++ n)%string (documented (fun _ => true) "" api)).
Proof.
  intros H. specialize (H 7 all_typing "Params"%string eq_refl ltac:(cbn; auto)). rewrite C111_api in H; [|reflexivity|lia]. specialize (H eq_refl).
  apply has_In in H. vm_compute in H. discriminate H.
Qed.
Print Assumptions C111_typing_refuted.

(** If any module reached from the package binds a module without an [__all__], as [haiku._src] is, the check fails without listing a name: the
    package has to delete [_src], which importing its parts has bound. *)
Theorem C111_private all root fuel objects I mods m : (forall o, reach I root o -> In o mods) -> 1 + degrees I mods <= fuel -> reach I root m -> all m = None ->
  finish I all fuel root objects = Some Broken.
Proof.
  intros HA L R A. destruct (C111_finish I all root fuel objects mods HA L) as (r & -> & B & _). f_equal. apply B. right. eauto.
Qed.
Print Assumptions C111_private.

(** The place of an entry counts: a section that starts with [currentmodule] and is put into the middle of a page can take the entries after it away
    from their module. *)
Theorem C111_insert_refuted : ~ (forall importable start a b more x, In x (documented importable start (a ++ b)) -> In x (documented importable start (a ++ more ++ b))).
Proof.
  intros H. specialize (H (fun _ => true) "" [Current "haiku"] [Auto "Linear"] [Current "haiku.nets"; Auto "MLP"] "haiku.Linear"%string ltac:(cbn; auto)).
  cbn in H. destruct H as [H|[H|[]]]; discriminate H.
Qed.
Print Assumptions C111_insert_refuted.

Example C111_case :
  let I := Interp (fun o => match o with 0 => [1; 2; 9] | 1 => [0; 2] | _ => [] end) (fun o => Nat.ltb o 3)
    (fun o => match o with 0 => "haiku" | 1 => "haiku.nets" | _ => "jax" end)%string in
  let all o := match o with 0 => Some ["nets"; "Linear"; "Bias"] | 1 => Some ["MLP"; "MLP"; "AlexNet"] | _ => None end%string in
  documented (fun x => negb (String.eqb x "haiku.Bias")) "" [Current "haiku"; Auto "Linear"; Auto "Bias"; AutoModule "haiku.nets"; Summary ["AlexNet"]; Auto "MLP"]%string =
    ["haiku.Linear"; "haiku.nets"; "haiku.nets.MLP"]%string /\
  finish I all 10 0 ["haiku.Linear"; "haiku.nets"; "haiku.nets.MLP"]%string = Some (Undocumented ["haiku.Bias"; "haiku.nets.AlexNet"]%string) /\
  finish I all 10 0 ["haiku.nets.MLP"]%string = Some (Undocumented ["haiku.Bias"; "haiku.Linear"; "haiku.nets"; "haiku.nets.AlexNet"]%string) /\
  finish I all 10 0 ["haiku.Bias"; "haiku.Linear"; "haiku.nets"; "haiku.nets.AlexNet"; "haiku.nets.MLP"; "haiku.old"]%string = Some Covered /\
  finish I (fun o => match o with 0 => all 0 | _ => None end) 10 0 [] = Some Broken /\
  finish I all 1 0 [] = None.
Proof. vm_compute. repeat split. Qed.
Example C111_lists : map (fun o => option_map (@List.length string) (library_all o)) [0; 1; 2; 3; 4; 5; 6; 7; 8] =
    [Some 85; Some 8; Some 18; Some 9; Some 11; Some 7; Some 1; Some 2; None] /\
  List.length (documented (fun _ => true) "" api) = 143 /\ has "haiku.experimental"%string (documented (fun _ => true) "" api) = true /\
  has "haiku.nets.ResNet.BlockV1"%string (documented (fun _ => true) "" api) = false.
Proof. vm_compute. repeat split. Qed.

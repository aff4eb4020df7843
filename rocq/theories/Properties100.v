(** * C112: packaging and links to the source *)
From Coq Require Import String Ascii List Bool Arith NArith Lia.
From Verif Require Import ModelStr ModelRepr ModelPackaging ProofsStr.
Import ListNotations.
Local Open Scope string_scope.
Local Open Scope list_scope.

Lemma contains_app c a b : contains c (a ++ b)%string = contains c a || contains c b.
Proof. induction a as [|d a IH]; cbn; [reflexivity|]. now rewrite IH, orb_assoc. Qed.
Lemma str_app_assoc (a b c : string) : ((a ++ b) ++ c = a ++ (b ++ c))%string.
Proof. induction a as [|d a IH]; cbn; [reflexivity|]. now rewrite IH. Qed.

(** ** Patterns *)
Definition literal (p : string) : Prop := contains "*" p = false /\ contains "?" p = false.
Lemma glob_literal p : literal p -> forall s, glob p s = true <-> s = p.
Proof.
  induction p as [|c p IH]; intros [A B] s; cbn in *.
  - destruct s; split; congruence.
  - apply orb_false_iff in A as [A1 A2], B as [B1 B2]. rewrite A1. destruct s as [|d t]; [split; discriminate|]. rewrite B1. cbn [orb].
    rewrite andb_true_iff, Ascii.eqb_eq, IH by (split; assumption). split; [intros [-> ->]; reflexivity|intros E; injection E as -> ->; auto].
Qed.
Lemma glob_star p s : glob (String "*" p) s = true <-> exists a b, s = (a ++ b)%string /\ glob p b = true.
Proof.
  cbn [glob Ascii.eqb Bool.eqb]. induction s as [|c s IH].
  - cbn. rewrite orb_false_r. split; [intros H; exists "", ""; auto|]. intros (a & b & E & H). destruct a; [|discriminate E]. cbn in E. now subst b.
  - rewrite orb_true_iff, IH. split.
    + intros [H|(a & b & -> & H)]; [exists "", (String c s); auto|exists (String c a), b; auto].
    + intros (a & b & E & H). destruct a as [|d a]; cbn in E; [subst b; auto|]. injection E as <- ->. right. eauto.
Qed.
Lemma ends_with p : literal p -> forall s, glob (String "*" p) s = true <-> exists a, s = (a ++ p)%string.
Proof.
  intros L s. rewrite glob_star. split.
  - intros (a & b & -> & H). apply (glob_literal p L) in H. subst b. eauto.
  - intros (a & ->). exists a, p. split; [reflexivity|]. now apply glob_literal.
Qed.

(** ** Packages *)
(** A way down from a directory. *)
Fixpoint leads (t : tree) (path : list string) : Prop :=
  match path with [] => True | n :: path => exists c, In c (match t with Dir _ cs => cs end) /\ dir_name c = n /\ leads c path end.
Definition dotless (path : list string) : Prop := Forall (fun n => contains "." n = false) path.
Definition excluded (exclude : list string) (pkg : string) : Prop := exists e, In e exclude /\ glob e pkg = true.
Fixpoint size (t : tree) : nat := match t with Dir _ cs => S (list_sum (map size cs)) end.
Lemma size_child c cs : In c cs -> size c <= list_sum (map size cs).
Proof. induction cs as [|x cs IH]; [intros []|]. unfold list_sum in *. cbn [map fold_right]. intros [->|H]; [lia|]. specialize (IH H). lia. Qed.
Lemma walk_iff exclude k : forall t pkg x, size t <= k -> (In x (walk exclude pkg t) <->
  exists n path, leads t (n :: path) /\ dotless (n :: path) /\ x = fold_left join (n :: path) pkg /\ ~ excluded exclude x).
Proof.
  induction k as [|k IH]; intros [nm cs] pkg x S; [cbn in S; lia|]. cbn [size] in S. cbn [walk]. rewrite in_app_iff, !in_flat_map. split.
  - intros [(c & I & H)|(c & I & H)]; destruct (contains "." (dir_name c)) eqn:D; try destruct H.
    + destruct (existsb _ exclude) eqn:E; [destruct H|]. destruct H as [<-|[]]. exists (dir_name c), []. split; [cbn; eauto|]. split; [repeat constructor; exact D|]. split; [reflexivity|].
      intros (e & I1 & I2). rewrite <- not_true_iff_false, existsb_exists in E. apply E. eauto.
    + pose proof (size_child c cs I). apply IH in H; [|lia]. destruct H as (n & path & L & Dp & -> & X). exists (dir_name c), (n :: path).
      split; [exists c; auto|]. split; [now constructor|]. split; [reflexivity|exact X].
  - intros (n & path & (c & I & <- & L) & D & -> & X). inversion D as [|? ? D1 D2]; subst. destruct path as [|m path].
    + left. exists c. split; [exact I|]. rewrite D1. cbn [fold_left] in *. destruct (existsb _ exclude) eqn:E; [|now left].
      apply existsb_exists in E. destruct (X E).
    + right. exists c. split; [exact I|]. rewrite D1. pose proof (size_child c cs I). apply IH; [lia|]. exists m, path. split; [exact L|]. split; [exact D2|]. split; [reflexivity|exact X].
Qed.
Lemma join_app pkg n : pkg <> "" -> join pkg n = (pkg ++ String "." n)%string.
Proof. intros H. destruct pkg; [congruence|reflexivity]. Qed.
Lemma contains_dot a b : contains "." (a ++ String "." b)%string = true.
Proof. rewrite contains_app. apply orb_true_iff. now right. Qed.
(** Names split at their last dot in one way. *)
Lemma last_dot x y b c : contains "." b = false -> contains "." c = false -> (x ++ String "." b = y ++ String "." c)%string -> x = y /\ b = c.
Proof.
  revert y. induction x as [|d x IH]; intros y B C E; destruct y as [|e y]; cbn in E.
  - injection E as ->. auto.
  - injection E as _ E. exfalso. rewrite E, contains_dot in B. discriminate B.
  - injection E as _ E. exfalso. rewrite <- E, contains_dot in C. discriminate C.
  - injection E as -> E. destruct (IH y B C E) as [-> ->]. auto.
Qed.
Lemma suffix_dotless w : contains "." w = false -> forall y a u, (y ++ String "." a = u ++ w)%string -> exists v, a = (v ++ w)%string.
Proof.
  intros Dw. induction y as [|d y IH]; intros a u E; destruct u as [|e u]; cbn in E.
  - rewrite <- E in Dw. cbn in Dw. discriminate Dw.
  - injection E as _ E. exists u. exact E.
  - rewrite <- E in Dw. cbn [contains] in Dw. rewrite contains_dot, orb_true_r in Dw. discriminate Dw.
  - injection E as _ E. exact (IH a u E).
Qed.
Lemma fold_join_nonempty path : forall n, n <> "" -> fold_left join path n <> "".
Proof. induction path as [|m path IH]; intros n H; cbn; [exact H|]. apply IH. rewrite join_app by exact H. destruct n; [congruence|discriminate]. Qed.

(** The packages are all directories that are reached through names without dots, but for the excluded ones. *)
Theorem C112_packages root x : In x (packages root) <->
  exists n path, leads root (n :: path) /\ Forall (fun n => contains "." n = false) (n :: path) /\ x = fold_left join (n :: path) "" /\
    x <> "ez_setup" /\ (forall a, x <> (a ++ "__pycache__")%string) /\ (forall a, x <> (a ++ "_test.py")%string).
Proof.
  unfold packages. rewrite (walk_iff _ (size root)) by lia.
  assert (K : forall x, ~ excluded ["ez_setup"; "*__pycache__"; "*_test.py"] x <-> x <> "ez_setup" /\ (forall a, x <> (a ++ "__pycache__")%string) /\ (forall a, x <> (a ++ "_test.py")%string)).
  { intros y. unfold excluded. pose proof (glob_literal "ez_setup" ltac:(split; reflexivity) y) as G1.
    pose proof (ends_with "__pycache__" ltac:(split; reflexivity) y) as G2. pose proof (ends_with "_test.py" ltac:(split; reflexivity) y) as G3. split.
    - intros H. split; [|split].
      + intros E. apply H. exists "ez_setup". split; [now left|]. now apply G1.
      + intros a E. apply H. exists "*__pycache__". split; [right; now left|]. apply G2. eauto.
      + intros a E. apply H. exists "*_test.py". split; [right; right; now left|]. apply G3. eauto.
    - intros (H1 & H2 & H3) (e & [<-|[<-|[<-|[]]]] & G); [apply G1 in G; auto|apply G2 in G as [a G]; exact (H2 a G)|apply G3 in G as [a G]; exact (H3 a G)]. }
  unfold dotless. split; intros (n & path & L & D & E & X); exists n, path; repeat (split; [assumption|]); apply K; exact X.
Qed.
Print Assumptions C112_packages.

(** The pattern [*_test.py] names files, but packages are what it is matched against: it excludes exactly directories [py] in directories whose name
    ends with [_test]. *)
Theorem C112_exclude names n : Forall (fun n => contains "." n = false /\ n <> "") (names ++ [n]) ->
  (glob "*_test.py" (fold_left join (names ++ [n]) "") = true <-> n = "py" /\ exists before_it a, names = before_it ++ [(a ++ "_test")%string]).
Proof.
  intros F. rewrite (ends_with "_test.py" ltac:(split; reflexivity)). apply Forall_app in F as [F1 F2]. inversion F2 as [|? ? [D N] _]; subst.
  rewrite fold_left_app. cbn [fold_left]. destruct (rev names) as [|l r] eqn:R.
  - assert (E : names = []) by (rewrite <- (rev_involutive names), R; reflexivity). subst names. cbn [fold_left join]. split.
    + intros (a & ->). exfalso. rewrite contains_app in D. apply orb_false_iff in D as [_ D]. discriminate D.
    + intros (_ & b & a & E). destruct b; discriminate E.
  - assert (E : names = rev r ++ [l]) by (rewrite <- (rev_involutive names), R; reflexivity). subst names. clear R. apply Forall_app in F1 as [F1 F3]. inversion F3 as [|? ? [Dl Nl] _]; subst.
    assert (NE : fold_left join (rev r ++ [l]) "" <> "").
    { destruct (rev r) as [|h t]; [cbn; exact Nl|]. cbn [app fold_left]. apply fold_join_nonempty. inversion F1 as [|? ? [_ H] _]; subst. exact H. }
    rewrite join_app by exact NE. split.
    + intros (a & E). change "_test.py" with ("_test" ++ String "." "py")%string in E. rewrite <- str_app_assoc in E.
      apply last_dot in E as [E ->]; [|exact D|reflexivity]. split; [reflexivity|]. exists (rev r). rewrite fold_left_app in E. cbn [fold_left] in E.
      destruct (rev r) as [|h t] eqn:Q.
      * cbn [fold_left join] in E. subst l. eauto.
      * rewrite join_app in E by (cbn [fold_left]; apply fold_join_nonempty; inversion F1 as [|? ? [_ H] _]; subst; exact H).
        destruct (suffix_dotless "_test" eq_refl _ _ _ E) as [v ->]. eauto.
    + intros (-> & b & a & E). apply app_inj_tail in E as [_ ->]. rewrite fold_left_app. cbn [fold_left].
      assert (X : exists u, join (fold_left join (rev r) "") (a ++ "_test")%string = (u ++ "_test")%string).
      { destruct (fold_left join (rev r) "") as [|c s]; [exists a; reflexivity|]. exists (String c s ++ "." ++ a)%string. unfold join. now rewrite !str_app_assoc. }
      destruct X as [u ->]. exists u. now rewrite str_app_assoc.
Qed.
Print Assumptions C112_exclude.
(** Hence the examples and the documentation are installed as packages of their own, and the tests with the library. *)
Theorem C112_packages_refuted : ~ (forall x, In x (packages repository) -> exists rest, x = ("haiku" ++ rest)%string).
Proof. intros H. destruct (H "examples" ltac:(vm_compute; auto)) as [rest E]. discriminate E. Qed.
Print Assumptions C112_packages_refuted.
Example C112_packages_case : packages repository =
  ["docs"; "examples"; "haiku"; "docs.ext"; "docs.notebooks"; "examples.imagenet"; "examples.impala"; "examples.rnn"; "examples.transformer";
   "haiku._src"; "haiku.benchmarks"; "haiku._src.integration"; "haiku._src.nets"; "haiku._src.integration.checkpoints"] /\
  packages (Dir "" [Dir "a_test" [Dir "py" [Dir "b" []]]; Dir "ez_setup" []; Dir "x.y" [Dir "z" []]; Dir "__pycache__" []; Dir "py" []]) = ["a_test"; "py"; "a_test.py.b"] /\
  map (glob "a?c*") ["abc"; "abcd"; "ac"; "bbc"; "a*c"] = [true; true; false; false; true].
Proof. vm_compute. repeat split. Qed.

(** ** The version *)
(** The first line that starts with [__version__] decides; the rest of the file does not count. *)
Theorem C112_version exec before_it line after_it : Forall (fun l => ~ exists s, l = ("__version__" ++ s)%string) before_it -> (exists s, line = ("__version__" ++ s)%string) ->
  get_version exec (before_it ++ line :: after_it) = match exec line with None => ExecRaises | Some None => NotSet | Some (Some v) => Version v end.
Proof.
  assert (P : forall p s, String.prefix p s = true <-> exists t, s = (p ++ t)%string).
  { induction p as [|c p IH]; intros s; [cbn; destruct s; split; eauto|]. destruct s as [|d s]; cbn; [split; [discriminate|intros [t E]; discriminate E]|].
    destruct (ascii_dec c d) as [->|N]; [rewrite IH|]; split; try discriminate.
    - intros [t ->]. eauto.
    - intros [t E]. injection E as ->. eauto.
    - intros [t E]. injection E as E _. congruence. }
  intros F L. induction F as [|l ls H F IH]; cbn [app get_version].
  - apply P in L. now rewrite L.
  - destruct (String.prefix "__version__" l) eqn:E; [apply P in E; contradiction|exact IH].
Qed.
Theorem C112_no_version exec file : get_version exec file = NoLine <-> Forall (fun l => String.prefix "__version__" l = false) file.
Proof.
  induction file as [|l file IH]; cbn [get_version]; [split; auto|]. destruct (String.prefix "__version__" l) eqn:E.
  - split; [destruct (exec l) as [[]|]; discriminate|]. intros F. inversion F; congruence.
  - rewrite IH. split; [auto|]. intros F. now inversion F.
Qed.
Print Assumptions C112_version.
Print Assumptions C112_no_version.
Example C112_version_case :
  let exec l := if String.eqb l "__version__ = ""0.0.4.dev""" then Some (Some "0.0.4.dev") else if String.eqb l "__version__s = 1" then Some None else None in
  get_version exec ["from haiku._src.typing import State"; ""; "__version__ = ""0.0.4.dev"""; "__version__"] = Version "0.0.4.dev" /\
  get_version exec ["__version__s = 1"; "__version__ = ""0.0.4.dev"""] = NotSet /\ get_version exec ["__version__ ="] = ExecRaises /\ get_version exec [" __version__ = 1"] = NoLine /\
  parse_requirements ("absl-py>=0.7.1" ++ lf ++ "numpy>=1.18.0" ++ lf ++ "tabulate>=0.8.7" ++ lf ++ "typing_extensions; python_version<""3.8""" ++ lf)%string =
    ["absl-py>=0.7.1"; "numpy>=1.18.0"; "tabulate>=0.8.7"; "typing_extensions; python_version<""3.8"""].
Proof. vm_compute. repeat split. Qed.

(** ** Links *)
Section Links.
Context {obj : Type} (modules : string -> option obj) (attr : obj -> string -> option obj) (unwrap : obj -> obj)
        (sourcefile : obj -> option (option string)) (sourcelines : obj -> option (nat * nat)) (relpath : string -> string).
Let resolve := linkcode_resolve modules attr unwrap sourcefile sourcelines relpath.
(** Looking up one attribute after the other. *)
Inductive reads : obj -> list string -> obj -> Prop :=
| reads_nil o : reads o [] o
| reads_cons o n o' names p : attr o n = Some o' -> reads o' names p -> reads o (n :: names) p.
Lemma attributes_iff names : forall o p, attributes attr o names = Some p <-> reads o names p.
Proof.
  induction names as [|n names IH]; intros o p; cbn.
  - split; [intros E; injection E as <-; constructor|intros R; inversion R; reflexivity].
  - destruct (attr o n) as [o'|] eqn:E.
    + rewrite IH. split; [intros R; econstructor; eauto|]. intros R. inversion R; subst. congruence.
    + split; [discriminate|]. intros R. inversion R; subst. congruence.
Qed.
Lemma split_dot_spec names : forall cur n, Forall (fun n => contains "." n = false) (n :: names) -> split_dot cur (String.concat "." (n :: names)) = (cur ++ n)%string :: names.
Proof.
  assert (K : forall n s cur, contains "." n = false -> split_dot cur (n ++ s)%string = split_dot (cur ++ n)%string s).
  { induction n as [|c n IH]; intros s cur D; cbn in *.
    - assert (E : (cur ++ "")%string = cur) by (induction cur as [|a cur IHc]; cbn; [reflexivity|now rewrite IHc]). now rewrite E.
    - apply orb_false_iff in D as [D1 D2]. rewrite D1, IH by exact D2. now rewrite str_app_assoc. }
  induction names as [|m names IH]; intros cur n F; inversion F as [|? ? D F']; subst.
  - change (String.concat "." [n]) with n. assert (E : (n ++ "")%string = n) by (clear; induction n as [|a n IHn]; cbn; [reflexivity|now rewrite IHn]).
    rewrite <- E at 1. rewrite K by exact D. reflexivity.
  - change (String.concat "." (n :: m :: names)) with (n ++ String "." (String.concat "." (m :: names)))%string. rewrite K by exact D. cbn [split_dot Ascii.eqb Bool.eqb].
    rewrite IH by exact F'. reflexivity.
Qed.
(** A link is given exactly for an object of a loaded module that is found, together with its source; it names the file and the first and last line. *)
Theorem C112_link domain module n names url : Forall (fun n => contains "." n = false) (n :: names) ->
  (resolve domain module (String.concat "." (n :: names)) = Url url <->
   domain = "py" /\ exists m o file len first, modules module = Some m /\ reads m (n :: names) o /\ sourcefile (unwrap o) = Some (Some file) /\
     sourcelines (unwrap o) = Some (len, first) /\
     url = ("https://github.com/deepmind/dm-haiku/blob/master/haiku/" ++ relpath file ++ "#L" ++ str_of_N (N.of_nat first) ++ "#L" ++ str_of_N (N.of_nat (first + len - 1)))%string).
Proof.
  intros F. unfold resolve, linkcode_resolve. rewrite split_dot_spec by exact F. cbn [append].
  destruct (String.eqb_spec domain "py") as [->|N]; cbn [negb]; [|split; [discriminate|intros [E _]; congruence]].
  destruct (modules module) as [m|]; [|split; [discriminate|intros (_ & m & o & f & l & k & E & _); discriminate E]].
  destruct (attributes attr m (n :: names)) as [o|] eqn:A.
  2: { split; [discriminate|]. intros (_ & m' & o & f & l & k & E & R & _). injection E as <-. apply attributes_iff in R. congruence. }
  assert (U : forall o', reads m (n :: names) o' -> o' = o) by (intros o' R; apply attributes_iff in R; congruence). apply attributes_iff in A.
  destruct (sourcefile (unwrap o)) as [f|] eqn:Sf.
  2: { split; [discriminate|]. intros (_ & m' & o' & f & l & k & E & R & S & _). injection E as <-. apply U in R. subst o'. congruence. }
  destruct (sourcelines (unwrap o)) as [[len first]|] eqn:Sl.
  2: { split; [discriminate|]. intros (_ & m' & o' & f' & l & k & E & R & S & S' & _). injection E as <-. apply U in R. subst o'. congruence. }
  destruct f as [f|].
  2: { split; [discriminate|]. intros (_ & m' & o' & f' & l & k & E & R & S & _). injection E as <-. apply U in R. subst o'. congruence. }
  split.
  - intros E. injection E as <-. split; [reflexivity|]. exists m, o, f, len, first. auto.
  - intros (_ & m' & o' & f' & l & k & E & R & S & S' & ->). injection E as <-. apply U in R. subst o'. rewrite Sf in S. rewrite Sl in S'. injection S as <-. injection S' as <- <-. reflexivity.
Qed.
(** For a module that is not loaded it raises, although it means to return no link: [except ImportError] does not catch a KeyError. *)
Theorem C112_link_missing module fullname : modules module = None -> resolve "py" module fullname = KeyError.
Proof. intros E. unfold resolve, linkcode_resolve. cbn. now rewrite E. Qed.
End Links.
Print Assumptions C112_link.
Print Assumptions C112_link_missing.

(** The links are no URLs with a range of lines: they contain two number signs, and the second is not allowed in a fragment. *)
Fixpoint signs (s : string) : nat := match s with "" => 0 | String c t => (if Ascii.eqb c "#" then 1 else 0) + signs t end.
Lemma signs_app a b : signs (a ++ b)%string = signs a + signs b.
Proof. induction a as [|c a IH]; cbn; [reflexivity|]. rewrite IH. lia. Qed.
Theorem C112_fragment {obj} (modules : string -> option obj) attr unwrap sourcefile sourcelines relpath domain module fullname url :
  linkcode_resolve modules attr unwrap sourcefile sourcelines relpath domain module fullname = Url url -> 2 <= signs url.
Proof.
  unfold linkcode_resolve. destruct (negb _); [discriminate|]. destruct (modules module) as [m|]; [|discriminate]. destruct (attributes attr m _) as [o|]; [|discriminate].
  destruct (sourcefile (unwrap o)) as [f|]; [|discriminate]. destruct (sourcelines (unwrap o)) as [[len first]|]; [|discriminate]. destruct f as [f|]; [|discriminate].
  assert (K : forall a b, Url a = Url b -> a = b) by (intros a b X; now injection X). intros E. apply K in E. subst url. rewrite !signs_app. change (signs "#L") with 1. lia.
Qed.
Print Assumptions C112_fragment.
Theorem C112_fragment_refuted : ~ (forall (modules : string -> option nat) attr unwrap sourcefile sourcelines relpath domain module fullname url,
  linkcode_resolve modules attr unwrap sourcefile sourcelines relpath domain module fullname = Url url -> signs url <= 1).
Proof.
  intros H. specialize (H (fun _ => Some 0) (fun _ _ => Some 1) (fun o => o) (fun _ => Some (Some "_src/basic.py")) (fun _ => Some (30, 110)) (fun f => f) "py" "haiku" "Linear" _ eq_refl).
  vm_compute in H. lia.
Qed.
Print Assumptions C112_fragment_refuted.
Example C112_link_case :
  let attr o n := match o, n with 0, "nets" => Some 1 | 1, "MLP" => Some 2 | 2, "reverse" => Some 3 | 0, "pad" => Some 5 | 0, "x" => Some 6 | _, _ => None end in
  let resolve := linkcode_resolve (fun m => if String.eqb m "haiku" then Some 0 else None) attr (fun o => if Nat.eqb o 3 then 4 else o)
    (fun o => match o with 4 => Some (Some "/lib/haiku/_src/nets/mlp.py") | 5 => Some None | 6 => None | _ => Some (Some "/lib/haiku/b.py") end)
    (fun o => match o with 4 => Some (37, 130) | 5 => Some (1, 1) | _ => None end) (fun f => substring 11 100 f) in
  resolve "py" "haiku" "nets.MLP.reverse" = Url "https://github.com/deepmind/dm-haiku/blob/master/haiku/_src/nets/mlp.py#L130#L166" /\
  resolve "py" "haiku" "nets.CNN" = NoLink /\ resolve "py" "haiku" "nets" = NoLink /\ resolve "c" "haiku" "nets.MLP.reverse" = NoLink /\ resolve "py" "sonnet" "nets" = KeyError /\
  resolve "py" "haiku" "pad" = TypeError /\ resolve "py" "haiku" "x" = NoLink.
Proof. vm_compute. repeat split. Qed.

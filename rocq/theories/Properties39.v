(** * C83: which methods of a module enter its name scope, and under which name *)
From stdpp Require Import gmap list strings.
From Coq Require Import String Ascii ZArith Lia.
From Verif Require Import ModelStr ModelCore ProofsStr ProofsNames ModelClass.
Local Open Scope string_scope.
Local Open Scope list_scope.

(** ** Lookup in patched classes *)
Lemma find_patch key c : find key (List.map patch c) = option_map (fun v => snd (patch (key, v))) (find key c).
Proof.
  induction c as [|[k v] c IH]; [reflexivity|]. cbn [List.map find]. unfold patch at 1. destruct (String.eqb_spec k key) as [->|N]; [|exact IH].
  reflexivity.
Qed.
Lemma find_app key c d : find key (c ++ d) = match find key c with Some v => Some v | None => find key d end.
Proof. induction c as [|[k v] c IH]; [reflexivity|]. cbn. destruct (String.eqb k key); [reflexivity|exact IH]. Qed.
Lemma find_setdefault key k v c : find key (setdefault k v c) = match find key c with Some w => Some w | None => if (k =? key)%string then Some v else None end.
Proof.
  unfold setdefault. destruct (find k c) eqn:E.
  - destruct (find key c) eqn:E'; [reflexivity|]. destruct (String.eqb_spec k key) as [->|]; [congruence|reflexivity].
  - rewrite find_app. destruct (find key c); [reflexivity|]. cbn. now destruct (String.eqb k key).
Qed.
Lemma find_new key c : key <> "__repr__" -> key <> "_is_protocol" -> find key (new_class c) = option_map (fun v => snd (patch (key, v))) (find key c).
Proof.
  intros N1 N2. unfold new_class. rewrite !find_setdefault, find_patch. destruct (find key c); [reflexivity|]. cbn [option_map].
  destruct (String.eqb_spec "_is_protocol" key) as [E|]; [congruence|]. destruct (String.eqb_spec "__repr__" key) as [E|]; [congruence|reflexivity].
Qed.
(** The definition that a name refers to, before any patching. *)
Definition defined (key : string) (bodies : list body) : option attr := lookup_mro key bodies.
Lemma lookup_new key bodies : key <> "__repr__" -> key <> "_is_protocol" ->
  lookup_mro key (List.map new_class bodies) = option_map (fun v => snd (patch (key, v))) (defined key bodies).
Proof.
  intros N1 N2. induction bodies as [|c bodies IH]; [reflexivity|]. cbn [List.map lookup_mro defined]. rewrite find_new by assumption.
  unfold defined. cbn [lookup_mro]. destruct (find key c); [reflexivity|exact IH].
Qed.

(** Whether a method is found in the class itself or inherited, it is entered exactly once, under the name it is looked up by, unless it
    is transparent or its name is not patched. *)
Theorem C83_enters bodies key i scoped f : defined key bodies = Some (Method (Raw i scoped)) -> key <> "__repr__" -> key <> "_is_protocol" ->
  lookup_mro key (List.map new_class bodies) = Some (Method f) ->
  enters f = if scoped && patched key then [key] else [].
Proof.
  intros D N1 N2 L. rewrite lookup_new in L by assumption. rewrite D in L. cbn in L. unfold wrap in L. cbn [scope_flag] in L.
  destruct (patched key), scoped; cbn in L |- *; injection L as <-; reflexivity.
Qed.
Theorem C83_found bodies key i scoped : defined key bodies = Some (Method (Raw i scoped)) -> key <> "__repr__" -> key <> "_is_protocol" ->
  exists f, lookup_mro key (List.map new_class bodies) = Some (Method f).
Proof. intros D N1 N2. rewrite lookup_new by assumption. rewrite D. cbn. destruct (patched key); eexists; reflexivity. Qed.
(** The three functions of a property are entered in the same way, each by the name of the property. *)
Theorem C83_property bodies key g s d : defined key bodies = Some (Property g s d) -> patched key = true -> key <> "_is_protocol" ->
  (forall f, g = Some f \/ s = Some f \/ d = Some f -> exists i b, f = Raw i b) ->
  exists g' s' d', lookup_mro key (List.map new_class bodies) = Some (Property g' s' d') /\
    let expect (o : option fn) := option_map (fun f => if scope_flag f then [key] else []) o in
    option_map enters g' = expect g /\ option_map enters s' = expect s /\ option_map enters d' = expect d.
Proof.
  intros D P N R. rewrite lookup_new; [|intros ->; discriminate|assumption]. rewrite D. cbn. rewrite P. do 3 eexists. split; [reflexivity|].
  assert (G : forall o : option fn, (forall f, o = Some f -> exists i b, f = Raw i b) -> option_map enters (option_map (wrap key) o) = option_map (fun f => if scope_flag f then [key] else []) o).
  { intros [f|] H; [|reflexivity]. destruct (H f eq_refl) as (i & b & ->). cbn. unfold wrap. destruct b; reflexivity. }
  cbn. repeat split; apply G; intros f ->; apply R; auto.
Qed.
(** Everything else in a class is left alone. *)
Theorem C83_other bodies key i : defined key bodies = Some (Other i) -> key <> "__repr__" -> key <> "_is_protocol" ->
  lookup_mro key (List.map new_class bodies) = Some (Other i).
Proof. intros D N1 N2. rewrite lookup_new by assumption. rewrite D. cbn. now destruct (patched key). Qed.

(** Which names are patched: ["__call__"], and all that do not begin with two underscores, except ["module_name"]. *)
Lemma starts_with_spec p s : starts_with p s = true <-> exists r, s = p +:+ r.
Proof.
  revert s. induction p as [|a p IH]; intros s; cbn; [split; [now exists s|reflexivity]|]. destruct s as [|b s]; [split; [discriminate|intros [r E]; discriminate]|].
  rewrite andb_true_iff, IH, Ascii.eqb_eq. split.
  - intros [-> [r ->]]. now exists r.
  - intros [r E]. injection E as -> ->. split; [reflexivity|now exists r].
Qed.
Theorem C83_patched key : patched key = true <-> key <> "module_name" /\ (key = "__call__" \/ forall r, key <> "__" +:+ r).
Proof.
  unfold patched. rewrite andb_true_iff, negb_true_iff, orb_true_iff, negb_true_iff, String.eqb_eq, String.eqb_neq.
  split; intros [H1 H2]; (split; [assumption|]).
  - destruct H2 as [H2| ->]; [|now left]. right. intros r ->. assert (starts_with "__" ("__" +:+ r) = true); [|congruence]. apply starts_with_spec. now exists r.
  - destruct H2 as [->|H2]; [now right|]. left. destruct (starts_with "__" key) eqn:E; [|reflexivity]. apply starts_with_spec in E as [r ->]. now destruct (H2 r).
Qed.
(** A private method is patched all the same, because Python has mangled its name: it is entered as [_Class__name]. *)
Theorem C83_private cls key : starts_with "__" key = true -> ends_with_dunder key = false -> strip_underscores cls <> "" ->
  mangle_key cls key = "_" +:+ strip_underscores cls +:+ key /\ patched (mangle_key cls key) = true.
Proof.
  intros S E N. unfold mangle_key. rewrite S, E. cbn [andb negb].
  assert (U : exists a r, strip_underscores cls = String a r /\ a <> "_"%char).
  { revert N. clear. induction cls as [|a r IH]; [easy|]. cbn [strip_underscores].
    destruct (Ascii.ascii_dec a "_") as [->|H]; [exact IH|]. intros _. exists a, r. split; [|assumption]. destruct a as [[|] [|] [|] [|] [|] [|] [|] [|]]; (reflexivity || now destruct H). }
  destruct U as (a & r & U & H). rewrite U in *. split; [reflexivity|]. apply C83_patched. split; [discriminate|]. right. intros r' F. cbn in F. injection F as F _. contradiction.
Qed.

(** ** Claims that fail *)
(** An inherited method under a second name ([g = A.f] in a subclass) is wrapped a second time: one call enters the module twice, as "g"
    and as "f", and runs the interceptors twice. *)
Theorem C83_alias_refuted : exists base f f', let cls := new_class base in
  find "f" cls = Some (Method f) /\ lookup_mro "g" [new_class [("g", Method f)]; cls] = Some (Method f') /\ enters f = ["f"] /\ enters f' = ["g"; "f"].
Proof. exists [("f", Method (Raw 1 true))], (Wrapped "f" (Raw 1 true)), (Wrapped "g" (Wrapped "f" (Raw 1 true))). repeat split. Qed.
(** In general, each further alias adds one more. *)
Theorem C83_alias_general f key rest : scope_flag f = true -> patched key = true ->
  exists f', lookup_mro key (new_class [(key, Method f)] :: rest) = Some (Method f') /\ enters f' = key :: enters f.
Proof.
  intros F P. assert (N : key <> "__repr__") by (intros ->; discriminate).
  exists (Wrapped key f). split; [|reflexivity]. cbn [lookup_mro]. unfold new_class. rewrite !find_setdefault, find_patch. cbn [find]. rewrite String.eqb_refl. cbn [option_map patch]. rewrite P.
  cbn. unfold wrap. now rewrite F.
Qed.
(** Every class gets a [__repr__] of its own, so one that a base class defines is not inherited. *)
Theorem C83_repr cls bases : lookup_mro "__repr__" (new_class cls :: bases) = Some (match find "__repr__" cls with Some v => v | None => AutoRepr end).
Proof.
  cbn [lookup_mro]. unfold new_class. rewrite !find_setdefault, find_patch. destruct (find "__repr__" cls) as [v|]; [|reflexivity]. cbn. reflexivity.
Qed.
Theorem C83_repr_inherited_refuted : exists base f, let A := new_class base in
  lookup_mro "__repr__" [A] = Some (Method f) /\ lookup_mro "__repr__" [new_class []; A] <> Some (Method f) /\ lookup_mro "__repr__" [new_class []; A] = Some AutoRepr.
Proof. exists [("__repr__", Method (Raw 1 true))], (Raw 1 true). repeat split. discriminate. Qed.

(** ** Construction *)
(** The constructor is entered once, as "__init__", whichever class it comes from; a transparent one is not. The test for the base
    constructor is exact for classes without [module_name] of their own. *)
Theorem C83_construct bodies i scoped ran : defined "__init__" bodies = Some (Method (Raw i scoped)) -> defined "module_name" bodies = None ->
  construct (List.map new_class bodies) ran = if ran then Some (if scoped then ["__init__"] else []) else None.
Proof.
  intros D M. unfold construct. rewrite !lookup_new by discriminate. rewrite D, M. cbn. unfold wrap. cbn. destruct ran, scoped; reflexivity.
Qed.
(** With a [module_name] of its own a class passes that test without the base constructor having run. *)
Theorem C83_super_check_refuted : exists bodies, construct (List.map new_class bodies) false = Some ["__init__"].
Proof. exists [[("__init__", Method (Raw 1 true)); ("module_name", Property (Some (Raw 2 true)) None None)]]. reflexivity. Qed.

(** ** The name *)
Theorem C83_name cls arg self_name : requested_name cls arg self_name =
  match arg, self_name with
  | None, OtherValue => inl NotAString
  | _, _ => let s := match arg, self_name with Some s, _ => s | None, StrValue s => s | None, _ => camel_to_snake cls end in
            if valid_identifier s then inr s else inl NotAnIdentifier
  end.
Proof. destruct arg as [s|]; [reflexivity|]. destruct self_name; reflexivity. Qed.

(** Running the base constructor twice: the module is renumbered, unless its name has a number already, which is an error. *)
Theorem C83_init_twice sc full sc1 q : sc_inv sc -> number_name sc full = (sc1, inr q) ->
  match explicit_number q with
  | Some _ => exists sc2, init_twice sc full = (sc2, inl q)
  | None => exists sc2, init_twice sc full = (sc2, inr (q +:+ "_" +:+ str_of_N (sc_count sc1 q)))
  end.
Proof.
  intros I E. unfold init_twice. rewrite E. pose proof (number_name_fresh _ _ _ _ E) as [_ U]. pose proof (number_name_le _ _ _ _ E) as LE.
  assert (I1 : sc_inv sc1) by (apply (sle_inv _ _ LE), I). destruct (explicit_number q) as [[b n]|] eqn:X.
  - pose proof (I1 q U) as Q. rewrite X in Q. destruct Q as [Q _]. rewrite number_name_eq. unfold numbered. rewrite X, <- Q. rewrite decide_True by assumption. eexists. reflexivity.
  - pose proof (I1 q U) as Q. rewrite X in Q. destruct (number_name_auto sc1 q I1 X) as (sc2 & -> & _). destruct (N.eqb_spec (sc_count sc1 q) 0); [lia|]. eexists. reflexivity.
Qed.
(** So a class that does this works for one instance and fails for the second. *)
Theorem C83_second_instance_refuted name : explicit_number name = None ->
  exists sc2, init_twice empty_scope name = (sc2, inr (name +:+ "_1")) /\ exists sc4, init_twice sc2 name = (sc4, inl (name +:+ "_2")).
Proof.
  intros X. assert (I0 : sc_inv empty_scope) by apply sc_inv_empty. destruct (number_name_auto _ name I0 X) as (sc1 & E1 & C1).
  replace (sc_count empty_scope name) with 0%N in * by reflexivity. cbn [N.eqb N.add] in *.
  pose proof (sle_inv _ _ (number_name_le _ _ _ _ E1) I0) as I1. destruct (number_name_auto _ name I1 X) as (sc2 & E2 & C2). rewrite C1 in *. cbn [N.eqb] in E2. 
  assert (T1 : init_twice empty_scope name = (sc2, inr (name +:+ "_1"))) by (unfold init_twice; rewrite E1; exact E2).
  exists sc2. split; [exact T1|]. pose proof (sle_inv _ _ (number_name_le _ _ _ _ E2) I1) as I2. destruct (number_name_auto _ name I2 X) as (sc3 & E3 & C3). rewrite C2 in *.
  change (if (1 + 1 =? 0)%N then name else name +:+ "_" +:+ str_of_N (1 + 1)) with (name +:+ "_2") in E3. 
  pose proof (C83_init_twice sc2 name sc3 _ I2 E3) as T. change (name +:+ "_2") with (name +:+ "_" +:+ str_of_N 2) in *. rewrite explicit_number_canon in T. exact T.
Qed.
Print Assumptions C83_enters.
Print Assumptions C83_found.
Print Assumptions C83_property.
Print Assumptions C83_other.
Print Assumptions C83_patched.
Print Assumptions C83_private.
Print Assumptions C83_alias_refuted.
Print Assumptions C83_alias_general.
Print Assumptions C83_repr.
Print Assumptions C83_repr_inherited_refuted.
Print Assumptions C83_construct.
Print Assumptions C83_super_check_refuted.
Print Assumptions C83_name.
Print Assumptions C83_init_twice.
Print Assumptions C83_second_instance_refuted.

(** A base class with [__call__], a transparent method, a property, a private method and an operator; a subclass overrides one method. *)
Definition ex_base : body := [("__init__", Method (Raw 0 true)); ("__call__", Method (Raw 1 true)); ("encode", Method (Raw 2 true)); ("helper", Method (transparent (Raw 3 true)));
  ("size", Property (Some (Raw 4 true)) None None); (mangle_key "Net" "__hidden", Method (Raw 5 true)); ("__getattr__", Method (Raw 6 true)); ("make", Other 7)].
Definition ex_sub : body := [("encode", Method (Raw 8 true))].
Example C83_case : List.map (fun k => match lookup_mro k (List.map new_class [ex_sub; ex_base]) with Some (Method f) => Some (enters f) | _ => None end)
  ["__call__"; "encode"; "helper"; "_Net__hidden"; "__getattr__"; "make"] = [Some ["__call__"]; Some ["encode"]; Some []; Some ["_Net__hidden"]; Some []; None].
Proof. vm_compute. reflexivity. Qed.
Example C83_case_property : lookup_mro "size" (List.map new_class [ex_sub; ex_base]) = Some (Property (Some (Wrapped "size" (Raw 4 true))) None None).
Proof. vm_compute. reflexivity. Qed.
Example C83_case_construct : construct (List.map new_class [ex_sub; ex_base]) true = Some ["__init__"] /\ construct (List.map new_class [ex_sub; ex_base]) false = None.
Proof. vm_compute. auto. Qed.
Example C83_case_name : requested_name "MyNet" None (StrValue "field") = inr "field" /\ requested_name "MyNet" None NoneValue = inr "my_net" /\ requested_name "MyNet" (Some "x") (StrValue "field") = inr "x".
Proof. vm_compute. auto. Qed.

(** C101, third part: [auto_repr] of every call, the golden files, and what does not hold. *)
From Coq Require Import String Ascii List Bool Arith ZArith NArith Lia.
From Verif Require Import ModelStr ModelUtils ProofsStr Properties30 ModelRepr ModelReprFiles Properties75 Properties76.
Import ListNotations.
Local Open Scope string_scope.
Local Open Scope nat_scope.
Local Open Scope bool_scope.

(** ** The values that are shown were given by the caller *)
Lemma bind_args_from {V} (s : signature V) kwargs : forall names args l rest, bind_args s names args kwargs = Some (l, rest) -> forall n v, In (n, v) l ->
  In v args \/ In v (map snd kwargs) \/ (In n (skipn (List.length args) names) /\ ~ In n (map fst kwargs)).
Proof.
  induction names as [|m names IH]; intros args l rest H n v I; cbn [bind_args] in H; [injection H as <- <-; destruct I|].
  destruct args as [|a args].
  - destruct (lookup m kwargs) as [u|] eqn:L.
    + destruct (bind_args s names [] kwargs) as [[l' r]|] eqn:B; [|discriminate H]. injection H as <- <-. destruct I as [I|I].
      * injection I as <- <-. right. left. unfold lookup in L. destruct (find (fun p => (fst p =? m)%string) kwargs) as [[k w]|] eqn:F; [|discriminate L]. cbn in L. injection L as <-.
        apply find_some in F as [F _]. now apply (in_map snd) in F.
      * destruct (IH _ _ _ B n v I) as [[]|[X|[X Y]]]; [auto | right; right; split; [now right | exact Y]].
    + destruct (default_of s m) as [d|]; [|discriminate H]. cbn in H. destruct (bind_args s names [] kwargs) as [[l' r]|] eqn:B; [|discriminate H]. injection H as <- <-. destruct I as [I|I].
      * injection I as <- <-. right. right. split; [now left | now apply lookup_none].
      * destruct (IH _ _ _ B n v I) as [[]|[X|[X Y]]]; [auto | right; right; split; [now right | exact Y]].
  - destruct (lookup m kwargs) as [u|] eqn:L; [discriminate H|]. destruct (bind_args s names args kwargs) as [[l' r]|] eqn:B; [|discriminate H]. injection H as <- <-. destruct I as [I|I].
    + injection I as <- <-. left. now left.
    + destruct (IH _ _ _ B n v I) as [X|[X|[X Y]]]; [left; now right | auto | right; right; split; [exact X | exact Y]].
Qed.
Lemma lookup_some {A} n (l : list (string * A)) v : lookup n l = Some v -> In (n, v) l.
Proof.
  unfold lookup. destruct (find (fun p => (fst p =? n)%string) l) as [[m w]|] eqn:F; [|discriminate]. cbn. intros E. injection E as <-. apply find_some in F as [F G]. cbn in G. apply String.eqb_eq in G as ->. exact F.
Qed.
Lemma shown_given {V} (eq : V -> V -> bool) (s : signature V) args kwargs l : NoDup (s_args s) -> shown eq s args kwargs = Some l ->
  Forall (fun p => (In (snd p) args \/ In (snd p) (map snd kwargs)) /\ match fst p with Some n => In n (s_args s) \/ In n (map fst kwargs) | None => True end) l.
Proof.
  intros N H. unfold shown in H. destruct (getcallargs s args kwargs) as [b|] eqn:G; [|discriminate H]. injection H as <-. unfold getcallargs in G.
  destruct (bind_args s (s_args s) args kwargs) as [[l rest]|] eqn:B; [|discriminate G]. destruct (bind_kwonly (s_kwonly s) kwargs) as [k|]; [|discriminate G].
  match type of G with (if ?c then _ else _) = _ => destruct c; [discriminate G|] end. injection G as <-. cbn [b_args].
  rewrite !Forall_app. split; [|split].
  - apply Forall_forall. intros [m v] I. apply in_flat_map in I as (n & In1 & In2). destruct (lookup n l) as [w|] eqn:L; [|destruct In2].
    destruct (match default_of s n with Some d => eq w d | None => false end); [destruct In2|]. destruct In2 as [E|[]]. injection E as <- <-. cbn [fst snd].
    apply lookup_some in L. assert (S : In n (s_args s)). { apply in_app_iff in In1 as [X|X]; [rewrite <- (firstn_skipn (List.length args)); apply in_app_iff; now left | now apply filter_In in X]. }
    split; [|now left]. destruct (bind_args_from s kwargs _ _ _ _ B n w L) as [X|[X|[X Y]]]; [auto | auto|]. exfalso. apply in_app_iff in In1 as [Z|Z].
    + rewrite <- (firstn_skipn (List.length args) (s_args s)) in N. clear - N X Z. induction (firstn (List.length args) (s_args s)) as [|q f IH]; [destruct Z|]. cbn in N. apply NoDup_cons_iff in N as [N1 N2].
      destruct Z as [->|Z]; [apply N1, in_app_iff; now right | now apply IH].
    + apply filter_In in Z as [_ Z]. apply has_spec in Z. contradiction.
  - apply Forall_forall. intros p I. apply in_map_iff in I as (v & <- & I). cbn. split; [|exact I0 || exact I || trivial]. left. rewrite <- (firstn_skipn (List.length (s_args s)) args). apply in_app_iff. now right.
  - apply Forall_forall. intros p I. apply in_map_iff in I as ([n v] & <- & I). apply filter_In in I as [I _]. cbn. split; [right; now apply (in_map snd) in I | right; now apply (in_map fst) in I].
Qed.

(** ** [auto_repr]
    Every call that [inspect.getcallargs] accepts and whose arguments are readable is printed as a text that reads as a call of the class
    with keyword arguments only; that call is accepted, and binds every parameter to a value that is the one of the original call or,
    where that one equals the default of the parameter, the default. *)
Theorem C101_auto_repr cls (s : signature value) args kwargs b :
  ident cls = true -> String.length cls <= 78 -> NoDup ("self" :: s_args s ++ map fst (s_kwonly s)) -> List.length args <= List.length (s_args s) ->
  getcallargs s args kwargs = Some b -> forallb readable (args ++ map snd kwargs) = true -> forallb ident (s_args s ++ map fst kwargs) = true ->
  exists text l b', auto_repr cls s args kwargs = Some text /\ read text = Some (VModule cls l) /\ Forall (fun p => fst p <> None) l /\
    getcallargs s [] (keywords l) = Some b' /\
    Forall2 (fun p q => fst p = fst q /\ (snd p = snd q \/ same (snd p) (snd q) = true)) (b_args b) (b_args b') /\
    b_var b' = b_var b /\ b_kwonly b' = b_kwonly b /\ b_kw b' = b_kw b.
Proof.
  intros C1 C2 N A G R I. assert (S : exists l, shown same s args kwargs = Some l) by (unfold shown; rewrite G; eexists; reflexivity). destruct S as (l & S).
  destruct (C73_repr_round_trip same s args kwargs b l N A G S) as (P & b' & B1 & B2 & B3 & B4 & B5 & B6).
  exists (repr (VModule cls l)), l, b'. split; [unfold auto_repr; now rewrite S|]. split; [|split; [exact P|split; [exact B1|split; [exact B2|split; [congruence|split; assumption]]]]].
  apply C101_reads. cbn [readable]. rewrite C1. apply andb_true_iff. split; [|destruct l; [now apply Nat.leb_le | reflexivity]]. cbn [andb].
  apply NoDup_cons_iff in N as [_ N]. assert (N' : NoDup (s_args s)). { clear - N. induction (s_args s) as [|x t IH]; [constructor|]. cbn in N. apply NoDup_cons_iff in N as [N1 N2]. constructor; [|now apply IH]. intros X. apply N1, in_app_iff. now left. }
  pose proof (shown_given same s args kwargs l N' S) as F. apply forallb_forall. intros [n v] V. rewrite Forall_forall in F. specialize (F _ V). cbn [fst snd] in F. destruct F as [F1 F2].
  rewrite forallb_forall in R, I. apply andb_true_iff. split; [destruct n as [n|]; [apply I, in_app_iff; tauto | reflexivity] | apply R, in_app_iff; tauto].
Qed.
Print Assumptions C101_auto_repr.
(** utils_test.py:35-45. *)
Definition some_class : signature value := Sig ["a"; "b"; "c"] [VInt 2] false [] false.
Example C101_auto_repr_case :
  auto_repr "SomeClass" some_class [VInt 1; VInt 2] [] = Some "SomeClass(a=1, b=2)" /\
  auto_repr "SomeClass" some_class [VInt 1] [("c", VInt 3); ("b", VInt 2)] = Some "SomeClass(a=1, b=2, c=3)" /\
  auto_repr "SomeClass" some_class [VInt 1; VInt 2; VFloat false 2 "0"] [] = Some "SomeClass(a=1, b=2)" /\
  auto_repr "SomeClass" some_class [VInt 1] [] = None /\
  read "SomeClass(a=1, b=2)" = Some (VModule "SomeClass" [(Some "a", VInt 1); (Some "b", VInt 2)]).
Proof. repeat split; vm_compute; reflexivity. Qed.
Definition long_net : value :=
  VModule "Sequential" [(Some "layers", VList [VModule "Linear" [(Some "output_size", VInt 300)]; VModule "BatchNorm" [(Some "create_scale", VBool true); (Some "create_offset", VBool true); (Some "decay_rate", VFloat false 0 "9"); (Some "name", VStr "it's not here")];
    VModule "Conv2D" [(Some "output_channels", VInt 3); (Some "kernel_shape", VTuple [VInt 3]); (Some "w_init", VNone)]])].
Example C101_reads_case : readable long_net = true /\ read (repr long_net) = Some long_net /\ repr long_net =
"Sequential(
    layers=[Linear(output_size=300),
            BatchNorm(
               create_scale=True,
               create_offset=True,
               decay_rate=0.9,
               name=""it's not here"",
           ),
            Conv2D(output_channels=3, kernel_shape=(3,), w_init=None)],
)".
Proof. split; [reflexivity|]. split; vm_compute; reflexivity. Qed.

(** ** One line or several *)
Lemma contains_app c a b : contains c (a ++ b) = contains c a || contains c b.
Proof. induction a as [|d a IH]; [reflexivity|]. cbn. now rewrite IH, orb_assoc. Qed.
Lemma contains_concat c sep l : contains c sep = false -> (forall s, In s l -> contains c s = false) -> contains c (String.concat sep l) = false.
Proof.
  intros S. induction l as [|x l IH]; intros H; [reflexivity|]. destruct l as [|y l]; [apply H; now left|].
  change (String.concat sep (x :: y :: l)) with (x ++ sep ++ String.concat sep (y :: l)). rewrite !contains_app, S, (H x (or_introl eq_refl)), IH by (intros s I; apply H; now right). reflexivity.
Qed.
(** If the texts of the arguments have no newline, the text of the module has none exactly if it has, on one line, at most 80 characters. *)
Theorem C101_lines cls l : contains newline cls = false -> (forall n v, In (n, v) l -> contains newline (repr v) = false /\ match n with Some n => contains newline n = false | None => True end) ->
  (contains newline (repr (VModule cls l)) = false <->
   String.length (cls ++ "(" ++ String.concat ", " (map (fun p => match fst p with Some n => n ++ "=" ++ repr (snd p) | None => repr (snd p) end) l) ++ ")") <= 80).
Proof.
  intros C H. unfold repr at 1. unfold render. fold render. unfold plain, call_text. cbn [fst]. rewrite !map_map.
  rewrite (map_ext (fun x : option string * value => named (fst (let '(n, v) := x in (n, render v))) (fst (snd (let '(n, v) := x in (n, render v))))) (fun p => match fst p with Some n => n ++ "=" ++ repr (snd p) | None => repr (snd p) end)) by (intros [[n|] v]; reflexivity).
  set (body := String.concat ", " _). destruct (Nat.leb_spec (String.length (cls ++ "(" ++ body ++ ")")) 80) as [L|L].
  - split; [intros _; exact L | intros _]. rewrite !contains_app, C. cbn [contains orb]. assert (B : contains newline body = false).
    { apply contains_concat; [reflexivity|]. intros x X. apply in_map_iff in X as ([n v] & <- & X). destruct (H n v X) as [H1 H2]. cbn [fst snd]. destruct n as [n|]; [|exact H1]. now rewrite !contains_app, H1, H2. }
    now rewrite B.
  - split; [|lia]. intros X. exfalso. rewrite !contains_app in X. cbn [contains orb] in X. rewrite !orb_true_r in X. discriminate X.
Qed.
Print Assumptions C101_lines.
Example C101_lines_case :
  repr (VModule "VectorQuantizer" [(Some "embedding_dim", VInt 64); (Some "num_embeddings", VInt 512); (Some "commitment_cost", VFloat false 0 "25")]) =
    "VectorQuantizer(embedding_dim=64, num_embeddings=512, commitment_cost=0.25)" /\
  contains newline (repr (VModule "VectorQuantizer" [(Some "embedding_dim", VInt 64); (Some "num_embeddings", VInt 512); (Some "commitment_cost", VFloat false 0 "25"); (Some "name", VStr "quantizer")])) = true.
Proof. split; vm_compute; reflexivity. Qed.

(** ** The files integration/checkpoints/*.json
    The line "module" of every one of the 42 files is what the descriptor of that name prints. *)
Definition module_name (file : string) : option (list string) :=
  match lookup file descriptor_calls with
  | Some (cls, args, kwargs) =>
      match lookup cls signatures with
      | Some s => option_map (split_newline "") (auto_repr cls s args kwargs)
      | None => None
      end
  | None => None
  end.
Theorem C101_files : List.length module_lines = 42 /\ map fst module_lines = map fst descriptor_calls /\ forall file lines, In (file, lines) module_lines -> module_name file = Some lines.
Proof.
  split; [reflexivity|]. split; [reflexivity|]. intros file lines H. unfold module_lines in H. cbn [In] in H.
  repeat (destruct H as [H|H]; [injection H as <- <-; vm_compute; reflexivity|]). destruct H.
Qed.
Print Assumptions C101_files.
(** And every one of them reads as a call of the class. *)
Theorem C101_files_read : forall file lines, In (file, lines) module_lines -> exists cls l, read (String.concat lf lines) = Some (VModule cls l) /\ option_map (fun p => fst (fst p)) (lookup file descriptor_calls) = Some cls.
Proof.
  intros file lines H. unfold module_lines in H. cbn [In] in H.
  repeat (destruct H as [H|H]; [injection H as <- <-; eexists _, _; split; vm_compute; reflexivity|]). destruct H.
Qed.
Print Assumptions C101_files_read.

(** ** Parameter mappings *)
Definition some_params : value :=
  VMap "FlatMapping" [(VStr "linear", VMap "FlatMapping" [(VStr "b", VList [VFloat false 0 "0"; VFloat false 0 "0"; VFloat false 0 "0"]); (VStr "w", VList [VFloat true 1 "25"; VFloat false 0 "5"; VFloat false 2 "0"])])].
Example C101_map_case : read (repr some_params) = Some some_params /\ repr some_params =
"FlatMapping({
  'linear': FlatMapping({'b': [0.0, 0.0, 0.0], 'w': [-1.25, 0.5, 2.0]}),
})" /\ keys_text "KeysOnlyKeysView" [VStr "key1"; VStr "key2"] = "KeysOnlyKeysView(['key1', 'key2'])" /\
  repr (VMap "FlatMapping" []) = "FlatMapping({})".
Proof. repeat split; vm_compute; reflexivity. Qed.
(** [KeysOnlyKeysView] prints the keys and nothing else. *)
Theorem C101_keys cls keys : ident cls = true -> forallb readable keys = true -> read (keys_text cls keys) = Some (VModule cls [(None, VList keys)]).
Proof.
  intros C K. assert (R : readable (VList keys) = true) by exact K. destruct (render_spells (VList keys) R) as [(ts & E & S) _].
  unfold read, keys_text. assert (L : lex (cls ++ "(" ++ repr (VList keys) ++ ")") = Some (TName cls :: TSym "(" :: ts ++ [TSym ")"])%list) by (exact (lex_call cls "(" (repr (VList keys)) ts ")" "" [] C eq_refl eq_refl E eq_refl)).
  rewrite L. assert (P : Sp (VModule cls [(None, VList keys)]) (TName cls :: TSym "(" :: ts ++ [TSym ")"])%list).
  { exists [ts], false. split; [reflexivity|]. split; [reflexivity|]. split; [|exact I]. exists ts. split; [reflexivity | exact S]. }
  assert (R' : readable (VModule cls [(None, VList keys)]) = true) by (cbn [readable forallb]; cbn [readable] in R; now rewrite C, K).
  pose proof (p_value_reads _ R' _ P [] (Datatypes.S (List.length (TName cls :: TSym "(" :: ts ++ [TSym ")"])%list)) I (Nat.lt_succ_diag_r _)) as Q. rewrite app_nil_r in Q. now rewrite Q.
Qed.
Print Assumptions C101_keys.

(** ** [pprint]
    What Python's own [pprint.pformat] prints for these values (written by tools/gen_pprint_cases.py). *)
Definition pprint_cases : list (value * string) :=
 [
  (VStr ("a" ++ String (ascii_of_nat 9) "" ++ "b" ++ String (ascii_of_nat 10) "" ++ "c" ++ String (ascii_of_nat 13) "" ++ "d\e" ++ String (ascii_of_nat 127) "" ++ String (ascii_of_nat 128) "" ++ String (ascii_of_nat 160) "" ++ String (ascii_of_nat 173) "" ++ String (ascii_of_nat 255) "" ++ "'"), ("""a\tb\nc\rd\\e\x7f\x80\xa0\xad" ++ String (ascii_of_nat 255) "" ++ "'""")%string);
  (VStr ("say ""hi"""), ("'say ""hi""'")%string);
  (VStr ("say ""it's"""), ("'say ""it\'s""'")%string);
  (VStr (""), ("''")%string);
  (VStr (String (ascii_of_nat 31) "" ++ String (ascii_of_nat 0) ""), ("'\x1f\x00'")%string);
  (VList [VInt (100); VInt (101); VInt (102); VInt (103); VInt (104); VInt (105); VInt (106); VInt (107); VInt (108); VInt (109); VInt (110); VInt (111); VInt (112); VInt (113); VInt (114); VInt (115); VInt (116); VInt (117); VInt (118); VInt (119)], ("[100," ++ String (ascii_of_nat 10) "" ++ " 101," ++ String (ascii_of_nat 10) "" ++ " 102," ++ String (ascii_of_nat 10) "" ++ " 103," ++ String (ascii_of_nat 10) "" ++ " 104," ++ String (ascii_of_nat 10) "" ++ " 105," ++ String (ascii_of_nat 10) "" ++ " 106," ++ String (ascii_of_nat 10) "" ++ " 107," ++ String (ascii_of_nat 10) "" ++ " 108," ++ String (ascii_of_nat 10) "" ++ " 109," ++ String (ascii_of_nat 10) "" ++ " 110," ++ String (ascii_of_nat 10) "" ++ " 111," ++ String (ascii_of_nat 10) "" ++ " 112," ++ String (ascii_of_nat 10) "" ++ " 113," ++ String (ascii_of_nat 10) "" ++ " 114," ++ String (ascii_of_nat 10) "" ++ " 115," ++ String (ascii_of_nat 10) "" ++ " 116," ++ String (ascii_of_nat 10) "" ++ " 117," ++ String (ascii_of_nat 10) "" ++ " 118," ++ String (ascii_of_nat 10) "" ++ " 119]")%string);
  (VTuple [VInt (100); VInt (101); VInt (102); VInt (103); VInt (104); VInt (105); VInt (106); VInt (107); VInt (108); VInt (109); VInt (110); VInt (111); VInt (112); VInt (113); VInt (114); VInt (115); VInt (116); VInt (117); VInt (118); VInt (119)], ("(100," ++ String (ascii_of_nat 10) "" ++ " 101," ++ String (ascii_of_nat 10) "" ++ " 102," ++ String (ascii_of_nat 10) "" ++ " 103," ++ String (ascii_of_nat 10) "" ++ " 104," ++ String (ascii_of_nat 10) "" ++ " 105," ++ String (ascii_of_nat 10) "" ++ " 106," ++ String (ascii_of_nat 10) "" ++ " 107," ++ String (ascii_of_nat 10) "" ++ " 108," ++ String (ascii_of_nat 10) "" ++ " 109," ++ String (ascii_of_nat 10) "" ++ " 110," ++ String (ascii_of_nat 10) "" ++ " 111," ++ String (ascii_of_nat 10) "" ++ " 112," ++ String (ascii_of_nat 10) "" ++ " 113," ++ String (ascii_of_nat 10) "" ++ " 114," ++ String (ascii_of_nat 10) "" ++ " 115," ++ String (ascii_of_nat 10) "" ++ " 116," ++ String (ascii_of_nat 10) "" ++ " 117," ++ String (ascii_of_nat 10) "" ++ " 118," ++ String (ascii_of_nat 10) "" ++ " 119)")%string);
  (VList [VInt (100); VInt (101); VInt (102); VInt (103); VInt (104); VInt (105); VInt (106); VInt (107); VInt (108); VInt (109); VInt (110); VInt (111); VInt (112); VInt (113); VInt (114); VInt (115); VInt (116); VInt (117); VInt (118); VInt (1)], ("[100," ++ String (ascii_of_nat 10) "" ++ " 101," ++ String (ascii_of_nat 10) "" ++ " 102," ++ String (ascii_of_nat 10) "" ++ " 103," ++ String (ascii_of_nat 10) "" ++ " 104," ++ String (ascii_of_nat 10) "" ++ " 105," ++ String (ascii_of_nat 10) "" ++ " 106," ++ String (ascii_of_nat 10) "" ++ " 107," ++ String (ascii_of_nat 10) "" ++ " 108," ++ String (ascii_of_nat 10) "" ++ " 109," ++ String (ascii_of_nat 10) "" ++ " 110," ++ String (ascii_of_nat 10) "" ++ " 111," ++ String (ascii_of_nat 10) "" ++ " 112," ++ String (ascii_of_nat 10) "" ++ " 113," ++ String (ascii_of_nat 10) "" ++ " 114," ++ String (ascii_of_nat 10) "" ++ " 115," ++ String (ascii_of_nat 10) "" ++ " 116," ++ String (ascii_of_nat 10) "" ++ " 117," ++ String (ascii_of_nat 10) "" ++ " 118," ++ String (ascii_of_nat 10) "" ++ " 1]")%string);
  (VList [VInt (1000); VInt (1001); VInt (1002); VInt (1003); VInt (1004); VInt (1005); VInt (1006); VInt (1007); VInt (1008); VInt (1009); VInt (1010); VInt (1011); VInt (1012); VInt (11)], ("[1000," ++ String (ascii_of_nat 10) "" ++ " 1001," ++ String (ascii_of_nat 10) "" ++ " 1002," ++ String (ascii_of_nat 10) "" ++ " 1003," ++ String (ascii_of_nat 10) "" ++ " 1004," ++ String (ascii_of_nat 10) "" ++ " 1005," ++ String (ascii_of_nat 10) "" ++ " 1006," ++ String (ascii_of_nat 10) "" ++ " 1007," ++ String (ascii_of_nat 10) "" ++ " 1008," ++ String (ascii_of_nat 10) "" ++ " 1009," ++ String (ascii_of_nat 10) "" ++ " 1010," ++ String (ascii_of_nat 10) "" ++ " 1011," ++ String (ascii_of_nat 10) "" ++ " 1012," ++ String (ascii_of_nat 10) "" ++ " 11]")%string);
  (VList [VInt (1000); VInt (1001); VInt (1002); VInt (1003); VInt (1004); VInt (1005); VInt (1006); VInt (1007); VInt (1008); VInt (1009); VInt (1010); VInt (1011); VInt (1012); VInt (111)], ("[1000," ++ String (ascii_of_nat 10) "" ++ " 1001," ++ String (ascii_of_nat 10) "" ++ " 1002," ++ String (ascii_of_nat 10) "" ++ " 1003," ++ String (ascii_of_nat 10) "" ++ " 1004," ++ String (ascii_of_nat 10) "" ++ " 1005," ++ String (ascii_of_nat 10) "" ++ " 1006," ++ String (ascii_of_nat 10) "" ++ " 1007," ++ String (ascii_of_nat 10) "" ++ " 1008," ++ String (ascii_of_nat 10) "" ++ " 1009," ++ String (ascii_of_nat 10) "" ++ " 1010," ++ String (ascii_of_nat 10) "" ++ " 1011," ++ String (ascii_of_nat 10) "" ++ " 1012," ++ String (ascii_of_nat 10) "" ++ " 111]")%string);
  (VTuple [VList [VInt (1); VInt (1); VInt (1); VInt (1); VInt (1); VInt (1); VInt (1); VInt (1); VInt (1); VInt (1); VInt (1); VInt (1); VInt (1); VInt (1); VInt (1); VInt (1); VInt (1); VInt (1); VInt (1); VInt (1); VInt (1); VInt (1); VInt (1); VInt (1); VInt (1); VInt (1); VInt (1); VInt (1); VInt (1); VInt (1)]], ("([1," ++ String (ascii_of_nat 10) "" ++ "  1," ++ String (ascii_of_nat 10) "" ++ "  1," ++ String (ascii_of_nat 10) "" ++ "  1," ++ String (ascii_of_nat 10) "" ++ "  1," ++ String (ascii_of_nat 10) "" ++ "  1," ++ String (ascii_of_nat 10) "" ++ "  1," ++ String (ascii_of_nat 10) "" ++ "  1," ++ String (ascii_of_nat 10) "" ++ "  1," ++ String (ascii_of_nat 10) "" ++ "  1," ++ String (ascii_of_nat 10) "" ++ "  1," ++ String (ascii_of_nat 10) "" ++ "  1," ++ String (ascii_of_nat 10) "" ++ "  1," ++ String (ascii_of_nat 10) "" ++ "  1," ++ String (ascii_of_nat 10) "" ++ "  1," ++ String (ascii_of_nat 10) "" ++ "  1," ++ String (ascii_of_nat 10) "" ++ "  1," ++ String (ascii_of_nat 10) "" ++ "  1," ++ String (ascii_of_nat 10) "" ++ "  1," ++ String (ascii_of_nat 10) "" ++ "  1," ++ String (ascii_of_nat 10) "" ++ "  1," ++ String (ascii_of_nat 10) "" ++ "  1," ++ String (ascii_of_nat 10) "" ++ "  1," ++ String (ascii_of_nat 10) "" ++ "  1," ++ String (ascii_of_nat 10) "" ++ "  1," ++ String (ascii_of_nat 10) "" ++ "  1," ++ String (ascii_of_nat 10) "" ++ "  1," ++ String (ascii_of_nat 10) "" ++ "  1," ++ String (ascii_of_nat 10) "" ++ "  1," ++ String (ascii_of_nat 10) "" ++ "  1],)")%string);
  (VTuple [VList [VInt (100); VInt (101); VInt (102); VInt (103); VInt (104); VInt (105); VInt (106); VInt (107); VInt (108); VInt (109); VInt (110); VInt (111); VInt (112); VInt (113); VInt (114); VInt (115); VInt (116); VInt (117)]], ("([100," ++ String (ascii_of_nat 10) "" ++ "  101," ++ String (ascii_of_nat 10) "" ++ "  102," ++ String (ascii_of_nat 10) "" ++ "  103," ++ String (ascii_of_nat 10) "" ++ "  104," ++ String (ascii_of_nat 10) "" ++ "  105," ++ String (ascii_of_nat 10) "" ++ "  106," ++ String (ascii_of_nat 10) "" ++ "  107," ++ String (ascii_of_nat 10) "" ++ "  108," ++ String (ascii_of_nat 10) "" ++ "  109," ++ String (ascii_of_nat 10) "" ++ "  110," ++ String (ascii_of_nat 10) "" ++ "  111," ++ String (ascii_of_nat 10) "" ++ "  112," ++ String (ascii_of_nat 10) "" ++ "  113," ++ String (ascii_of_nat 10) "" ++ "  114," ++ String (ascii_of_nat 10) "" ++ "  115," ++ String (ascii_of_nat 10) "" ++ "  116," ++ String (ascii_of_nat 10) "" ++ "  117],)")%string);
  (VList [VList [VInt (100); VInt (101); VInt (102); VInt (103); VInt (104); VInt (105); VInt (106); VInt (107); VInt (108); VInt (109); VInt (110); VInt (111); VInt (112); VInt (113); VInt (114); VInt (115); VInt (116); VInt (117)]; VTuple [VInt (1)]], ("[[100," ++ String (ascii_of_nat 10) "" ++ "  101," ++ String (ascii_of_nat 10) "" ++ "  102," ++ String (ascii_of_nat 10) "" ++ "  103," ++ String (ascii_of_nat 10) "" ++ "  104," ++ String (ascii_of_nat 10) "" ++ "  105," ++ String (ascii_of_nat 10) "" ++ "  106," ++ String (ascii_of_nat 10) "" ++ "  107," ++ String (ascii_of_nat 10) "" ++ "  108," ++ String (ascii_of_nat 10) "" ++ "  109," ++ String (ascii_of_nat 10) "" ++ "  110," ++ String (ascii_of_nat 10) "" ++ "  111," ++ String (ascii_of_nat 10) "" ++ "  112," ++ String (ascii_of_nat 10) "" ++ "  113," ++ String (ascii_of_nat 10) "" ++ "  114," ++ String (ascii_of_nat 10) "" ++ "  115," ++ String (ascii_of_nat 10) "" ++ "  116," ++ String (ascii_of_nat 10) "" ++ "  117]," ++ String (ascii_of_nat 10) "" ++ " (1,)]")%string);
  (VList [VList [VInt (1000); VInt (1001); VInt (1002); VInt (1003); VInt (1004); VInt (1005); VInt (1006); VInt (1007); VInt (1008); VInt (1009); VInt (1010); VInt (1011); VInt (1012)]; VInt (5)], ("[[1000, 1001, 1002, 1003, 1004, 1005, 1006, 1007, 1008, 1009, 1010, 1011, 1012]," ++ String (ascii_of_nat 10) "" ++ " 5]")%string);
  (VList [VList [VInt (1000); VInt (1001); VInt (1002); VInt (1003); VInt (1004); VInt (1005); VInt (1006); VInt (1007); VInt (1008); VInt (1009); VInt (1010); VInt (1011); VInt (22222)]; VInt (5)], ("[[1000," ++ String (ascii_of_nat 10) "" ++ "  1001," ++ String (ascii_of_nat 10) "" ++ "  1002," ++ String (ascii_of_nat 10) "" ++ "  1003," ++ String (ascii_of_nat 10) "" ++ "  1004," ++ String (ascii_of_nat 10) "" ++ "  1005," ++ String (ascii_of_nat 10) "" ++ "  1006," ++ String (ascii_of_nat 10) "" ++ "  1007," ++ String (ascii_of_nat 10) "" ++ "  1008," ++ String (ascii_of_nat 10) "" ++ "  1009," ++ String (ascii_of_nat 10) "" ++ "  1010," ++ String (ascii_of_nat 10) "" ++ "  1011," ++ String (ascii_of_nat 10) "" ++ "  22222]," ++ String (ascii_of_nat 10) "" ++ " 5]")%string);
  (VList [VInt (5); VList [VInt (1000); VInt (1001); VInt (1002); VInt (1003); VInt (1004); VInt (1005); VInt (1006); VInt (1007); VInt (1008); VInt (1009); VInt (1010); VInt (1011); VInt (22222)]], ("[5," ++ String (ascii_of_nat 10) "" ++ " [1000," ++ String (ascii_of_nat 10) "" ++ "  1001," ++ String (ascii_of_nat 10) "" ++ "  1002," ++ String (ascii_of_nat 10) "" ++ "  1003," ++ String (ascii_of_nat 10) "" ++ "  1004," ++ String (ascii_of_nat 10) "" ++ "  1005," ++ String (ascii_of_nat 10) "" ++ "  1006," ++ String (ascii_of_nat 10) "" ++ "  1007," ++ String (ascii_of_nat 10) "" ++ "  1008," ++ String (ascii_of_nat 10) "" ++ "  1009," ++ String (ascii_of_nat 10) "" ++ "  1010," ++ String (ascii_of_nat 10) "" ++ "  1011," ++ String (ascii_of_nat 10) "" ++ "  22222]]")%string);
  (VList [VInt (5); VList [VInt (1000); VInt (1001); VInt (1002); VInt (1003); VInt (1004); VInt (1005); VInt (1006); VInt (1007); VInt (1008); VInt (1009); VInt (1010); VInt (1011); VInt (222222)]], ("[5," ++ String (ascii_of_nat 10) "" ++ " [1000," ++ String (ascii_of_nat 10) "" ++ "  1001," ++ String (ascii_of_nat 10) "" ++ "  1002," ++ String (ascii_of_nat 10) "" ++ "  1003," ++ String (ascii_of_nat 10) "" ++ "  1004," ++ String (ascii_of_nat 10) "" ++ "  1005," ++ String (ascii_of_nat 10) "" ++ "  1006," ++ String (ascii_of_nat 10) "" ++ "  1007," ++ String (ascii_of_nat 10) "" ++ "  1008," ++ String (ascii_of_nat 10) "" ++ "  1009," ++ String (ascii_of_nat 10) "" ++ "  1010," ++ String (ascii_of_nat 10) "" ++ "  1011," ++ String (ascii_of_nat 10) "" ++ "  222222]]")%string);
  (VStr ("word word word word word word word word word word word word word word word word word word word word "), ("('word word word word word word word word word word word word word word word '" ++ String (ascii_of_nat 10) "" ++ " 'word word word word word ')")%string);
  (VStr ("xxxxxxxxxxxxxxxxxxxxxxxxxxxxxxxxxxxxxxxxxxxxxxxxxxxxxxxxxxxxxxxxxxxxxxxxxxxxxxx"), ("'xxxxxxxxxxxxxxxxxxxxxxxxxxxxxxxxxxxxxxxxxxxxxxxxxxxxxxxxxxxxxxxxxxxxxxxxxxxxxxx'")%string);
  (VStr ("xxxxxxxxxxxxxxxxxxxxxxxxxxxxxxxxxxxxxxxxxxxxxxxxxxxxxxxxxxxxxxxxxxxxxxxxxxxxxx"), ("'xxxxxxxxxxxxxxxxxxxxxxxxxxxxxxxxxxxxxxxxxxxxxxxxxxxxxxxxxxxxxxxxxxxxxxxxxxxxxx'")%string);
  (VStr ("xxxxxxxxxxxxxxxxxxxxxxxxxxxxxxxxxxxxxxxxxxxxxxxxxxxxxxxxxxxxxxxxxxxxxxxxxxxxx y"), ("('xxxxxxxxxxxxxxxxxxxxxxxxxxxxxxxxxxxxxxxxxxxxxxxxxxxxxxxxxxxxxxxxxxxxxxxxxxxxx '" ++ String (ascii_of_nat 10) "" ++ " 'y')")%string);
  (VStr ("xxxxxxxxxxxxxxxxxxxxxxxxxxxxxxxxxxxxxxxxxxxxxxxxxxxxxxxxxxxxxxxxxxxxxxxxxxxxxxxxxxxxxxxxxx"), ("'xxxxxxxxxxxxxxxxxxxxxxxxxxxxxxxxxxxxxxxxxxxxxxxxxxxxxxxxxxxxxxxxxxxxxxxxxxxxxxxxxxxxxxxxxx'")%string);
  (VList [VStr ("word word word word word word word word word word word word word word word word word word word word "); VStr ("b")], ("['word word word word word word word word word word word word word word word '" ++ String (ascii_of_nat 10) "" ++ " 'word word word word word '," ++ String (ascii_of_nat 10) "" ++ " 'b']")%string);
  (VList [VStr ("a"); VStr ("word word word word word word word word word word word word word word word word word word word word ")], ("['a'," ++ String (ascii_of_nat 10) "" ++ " 'word word word word word word word word word word word word word word word '" ++ String (ascii_of_nat 10) "" ++ " 'word word word word word ']")%string);
  (VStr ("first line" ++ String (ascii_of_nat 10) "" ++ "second line which is long enough to make the whole string too wide for one line" ++ String (ascii_of_nat 10) "" ++ String (ascii_of_nat 10) "" ++ "last"), ("('first line\n'" ++ String (ascii_of_nat 10) "" ++ " 'second line which is long enough to make the whole string too wide for one '" ++ String (ascii_of_nat 10) "" ++ " 'line\n'" ++ String (ascii_of_nat 10) "" ++ " '\n'" ++ String (ascii_of_nat 10) "" ++ " 'last')")%string);
  (VStr ("a" ++ String (ascii_of_nat 13) "" ++ String (ascii_of_nat 10) "" ++ "b a" ++ String (ascii_of_nat 13) "" ++ String (ascii_of_nat 10) "" ++ "b a" ++ String (ascii_of_nat 13) "" ++ String (ascii_of_nat 10) "" ++ "b a" ++ String (ascii_of_nat 13) "" ++ String (ascii_of_nat 10) "" ++ "b a" ++ String (ascii_of_nat 13) "" ++ String (ascii_of_nat 10) "" ++ "b a" ++ String (ascii_of_nat 13) "" ++ String (ascii_of_nat 10) "" ++ "b a" ++ String (ascii_of_nat 13) "" ++ String (ascii_of_nat 10) "" ++ "b a" ++ String (ascii_of_nat 13) "" ++ String (ascii_of_nat 10) "" ++ "b a" ++ String (ascii_of_nat 13) "" ++ String (ascii_of_nat 10) "" ++ "b a" ++ String (ascii_of_nat 13) "" ++ String (ascii_of_nat 10) "" ++ "b a" ++ String (ascii_of_nat 13) "" ++ String (ascii_of_nat 10) "" ++ "b a" ++ String (ascii_of_nat 13) "" ++ String (ascii_of_nat 10) "" ++ "b a" ++ String (ascii_of_nat 13) "" ++ String (ascii_of_nat 10) "" ++ "b a" ++ String (ascii_of_nat 13) "" ++ String (ascii_of_nat 10) "" ++ "b a" ++ String (ascii_of_nat 13) "" ++ String (ascii_of_nat 10) "" ++ "b a" ++ String (ascii_of_nat 13) "" ++ String (ascii_of_nat 10) "" ++ "b a" ++ String (ascii_of_nat 13) "" ++ String (ascii_of_nat 10) "" ++ "b a" ++ String (ascii_of_nat 13) "" ++ String (ascii_of_nat 10) "" ++ "b a" ++ String (ascii_of_nat 13) "" ++ String (ascii_of_nat 10) "" ++ "b a" ++ String (ascii_of_nat 13) "" ++ String (ascii_of_nat 10) "" ++ "b "), ("('a\r\n'" ++ String (ascii_of_nat 10) "" ++ " 'b a\r\n'" ++ String (ascii_of_nat 10) "" ++ " 'b a\r\n'" ++ String (ascii_of_nat 10) "" ++ " 'b a\r\n'" ++ String (ascii_of_nat 10) "" ++ " 'b a\r\n'" ++ String (ascii_of_nat 10) "" ++ " 'b a\r\n'" ++ String (ascii_of_nat 10) "" ++ " 'b a\r\n'" ++ String (ascii_of_nat 10) "" ++ " 'b a\r\n'" ++ String (ascii_of_nat 10) "" ++ " 'b a\r\n'" ++ String (ascii_of_nat 10) "" ++ " 'b a\r\n'" ++ String (ascii_of_nat 10) "" ++ " 'b a\r\n'" ++ String (ascii_of_nat 10) "" ++ " 'b a\r\n'" ++ String (ascii_of_nat 10) "" ++ " 'b a\r\n'" ++ String (ascii_of_nat 10) "" ++ " 'b a\r\n'" ++ String (ascii_of_nat 10) "" ++ " 'b a\r\n'" ++ String (ascii_of_nat 10) "" ++ " 'b a\r\n'" ++ String (ascii_of_nat 10) "" ++ " 'b a\r\n'" ++ String (ascii_of_nat 10) "" ++ " 'b a\r\n'" ++ String (ascii_of_nat 10) "" ++ " 'b a\r\n'" ++ String (ascii_of_nat 10) "" ++ " 'b a\r\n'" ++ String (ascii_of_nat 10) "" ++ " 'b ')")%string);
  (VStr ("tail tail tail tail tail tail tail tail tail tail tail tail tail tail abcdefgh"), ("'tail tail tail tail tail tail tail tail tail tail tail tail tail tail abcdefgh'")%string);
  (VStr ("tail tail tail tail tail tail tail tail tail tail tail tail tail tail abcdefg"), ("'tail tail tail tail tail tail tail tail tail tail tail tail tail tail abcdefg'")%string);
  (VStr ("tail tail tail tail tail tail tail tail tail tail tail tail tail tail abcdef"), ("'tail tail tail tail tail tail tail tail tail tail tail tail tail tail abcdef'")%string);
  (VStr ("tail tail tail tail tail tail tail tail tail tail tail tail tail tail abcde"), ("'tail tail tail tail tail tail tail tail tail tail tail tail tail tail abcde'")%string);
  (VStr ("tail tail tail tail tail tail tail tail tail tail tail tail tail tail abcd"), ("'tail tail tail tail tail tail tail tail tail tail tail tail tail tail abcd'")%string);
  (VStr ("nbsp" ++ String (ascii_of_nat 160) "" ++ "word nbsp" ++ String (ascii_of_nat 160) "" ++ "word nbsp" ++ String (ascii_of_nat 160) "" ++ "word nbsp" ++ String (ascii_of_nat 160) "" ++ "word nbsp" ++ String (ascii_of_nat 160) "" ++ "word nbsp" ++ String (ascii_of_nat 160) "" ++ "word nbsp" ++ String (ascii_of_nat 160) "" ++ "word nbsp" ++ String (ascii_of_nat 160) "" ++ "word "), ("('nbsp\xa0word nbsp\xa0word nbsp\xa0word nbsp\xa0word nbsp\xa0word nbsp\xa0'" ++ String (ascii_of_nat 10) "" ++ " 'word nbsp\xa0word nbsp\xa0word ')")%string);
  (VStr ("x" ++ String (ascii_of_nat 28) "" ++ "y" ++ String (ascii_of_nat 31) "" ++ "z" ++ String (ascii_of_nat 133) "" ++ "w" ++ String (ascii_of_nat 11) "" ++ "v" ++ String (ascii_of_nat 12) "" ++ "ux" ++ String (ascii_of_nat 28) "" ++ "y" ++ String (ascii_of_nat 31) "" ++ "z" ++ String (ascii_of_nat 133) "" ++ "w" ++ String (ascii_of_nat 11) "" ++ "v" ++ String (ascii_of_nat 12) "" ++ "ux" ++ String (ascii_of_nat 28) "" ++ "y" ++ String (ascii_of_nat 31) "" ++ "z" ++ String (ascii_of_nat 133) "" ++ "w" ++ String (ascii_of_nat 11) "" ++ "v" ++ String (ascii_of_nat 12) "" ++ "ux" ++ String (ascii_of_nat 28) "" ++ "y" ++ String (ascii_of_nat 31) "" ++ "z" ++ String (ascii_of_nat 133) "" ++ "w" ++ String (ascii_of_nat 11) "" ++ "v" ++ String (ascii_of_nat 12) "" ++ "ux" ++ String (ascii_of_nat 28) "" ++ "y" ++ String (ascii_of_nat 31) "" ++ "z" ++ String (ascii_of_nat 133) "" ++ "w" ++ String (ascii_of_nat 11) "" ++ "v" ++ String (ascii_of_nat 12) "" ++ "ux" ++ String (ascii_of_nat 28) "" ++ "y" ++ String (ascii_of_nat 31) "" ++ "z" ++ String (ascii_of_nat 133) "" ++ "w" ++ String (ascii_of_nat 11) "" ++ "v" ++ String (ascii_of_nat 12) "" ++ "ux" ++ String (ascii_of_nat 28) "" ++ "y" ++ String (ascii_of_nat 31) "" ++ "z" ++ String (ascii_of_nat 133) "" ++ "w" ++ String (ascii_of_nat 11) "" ++ "v" ++ String (ascii_of_nat 12) "" ++ "ux" ++ String (ascii_of_nat 28) "" ++ "y" ++ String (ascii_of_nat 31) "" ++ "z" ++ String (ascii_of_nat 133) "" ++ "w" ++ String (ascii_of_nat 11) "" ++ "v" ++ String (ascii_of_nat 12) "" ++ "u"), ("('x\x1c'" ++ String (ascii_of_nat 10) "" ++ " 'y\x1fz\x85'" ++ String (ascii_of_nat 10) "" ++ " 'w\x0b'" ++ String (ascii_of_nat 10) "" ++ " 'v\x0c'" ++ String (ascii_of_nat 10) "" ++ " 'ux\x1c'" ++ String (ascii_of_nat 10) "" ++ " 'y\x1fz\x85'" ++ String (ascii_of_nat 10) "" ++ " 'w\x0b'" ++ String (ascii_of_nat 10) "" ++ " 'v\x0c'" ++ String (ascii_of_nat 10) "" ++ " 'ux\x1c'" ++ String (ascii_of_nat 10) "" ++ " 'y\x1fz\x85'" ++ String (ascii_of_nat 10) "" ++ " 'w\x0b'" ++ String (ascii_of_nat 10) "" ++ " 'v\x0c'" ++ String (ascii_of_nat 10) "" ++ " 'ux\x1c'" ++ String (ascii_of_nat 10) "" ++ " 'y\x1fz\x85'" ++ String (ascii_of_nat 10) "" ++ " 'w\x0b'" ++ String (ascii_of_nat 10) "" ++ " 'v\x0c'" ++ String (ascii_of_nat 10) "" ++ " 'ux\x1c'" ++ String (ascii_of_nat 10) "" ++ " 'y\x1fz\x85'" ++ String (ascii_of_nat 10) "" ++ " 'w\x0b'" ++ String (ascii_of_nat 10) "" ++ " 'v\x0c'" ++ String (ascii_of_nat 10) "" ++ " 'ux\x1c'" ++ String (ascii_of_nat 10) "" ++ " 'y\x1fz\x85'" ++ String (ascii_of_nat 10) "" ++ " 'w\x0b'" ++ String (ascii_of_nat 10) "" ++ " 'v\x0c'" ++ String (ascii_of_nat 10) "" ++ " 'ux\x1c'" ++ String (ascii_of_nat 10) "" ++ " 'y\x1fz\x85'" ++ String (ascii_of_nat 10) "" ++ " 'w\x0b'" ++ String (ascii_of_nat 10) "" ++ " 'v\x0c'" ++ String (ascii_of_nat 10) "" ++ " 'ux\x1c'" ++ String (ascii_of_nat 10) "" ++ " 'y\x1fz\x85'" ++ String (ascii_of_nat 10) "" ++ " 'w\x0b'" ++ String (ascii_of_nat 10) "" ++ " 'v\x0c'" ++ String (ascii_of_nat 10) "" ++ " 'u')")%string);
  (VList [VStr ("tail tail tail tail tail tail tail tail tail tail tail tail tail tail abcd")], ("['tail tail tail tail tail tail tail tail tail tail tail tail tail tail abcd']")%string);
  (VList [VStr ("tail tail tail tail tail tail tail tail tail tail tail tail tail tail abcde")], ("['tail tail tail tail tail tail tail tail tail tail tail tail tail tail abcde']")%string);
  (VList [VStr ("tail tail tail tail tail tail tail tail tail tail tail tail tail tail abc")], ("['tail tail tail tail tail tail tail tail tail tail tail tail tail tail abc']")%string);
  (VList [VStr ("tail tail tail tail tail tail tail tail tail tail tail tail tail tail abcd"); VInt (1)], ("['tail tail tail tail tail tail tail tail tail tail tail tail tail tail abcd'," ++ String (ascii_of_nat 10) "" ++ " 1]")%string);
  (VTuple [VStr ("tail tail tail tail tail tail tail tail tail tail tail tail tail tail abcd")], ("('tail tail tail tail tail tail tail tail tail tail tail tail tail tail abcd',)")%string);
  (VList [VTuple [VStr ("tail tail tail tail tail tail tail tail tail tail tail tail tail tail abcd")]], ("[('tail tail tail tail tail tail tail tail tail tail tail tail tail tail '" ++ String (ascii_of_nat 10) "" ++ "  'abcd',)]")%string);
  (VList [VList [VStr ("tail tail tail tail tail tail tail tail tail tail tail tail tail tail abcd")]], ("[['tail tail tail tail tail tail tail tail tail tail tail tail tail tail abcd']]")%string);
  (VList [VList [VList [VStr ("xxxxxxxxxxxxxxxxxxxxxxxxxxxxxxxxxxxxxxxxxxxxxxxxxxxxxxxxxxxxxxxxxxxxxx")]]], ("[[['xxxxxxxxxxxxxxxxxxxxxxxxxxxxxxxxxxxxxxxxxxxxxxxxxxxxxxxxxxxxxxxxxxxxxx']]]")%string);
  (VList [VList [VList [VStr ("xxxxxxxxxxxxxxxxxxxxxxxxxxxxxxxxxxxxxxxxxxxxxxxxxxxxxxxxxxxxxxxxxxxxxxx")]]], ("[[['xxxxxxxxxxxxxxxxxxxxxxxxxxxxxxxxxxxxxxxxxxxxxxxxxxxxxxxxxxxxxxxxxxxxxxx']]]")%string);
  (VList [VList [VList [VStr ("xxxxxxxxxxxxxxxxxxxxxxxxxxxxxxxxxxxxxxxxxxxxxxxxxxxxxxxxxxxxxxxxxxxxxxxx")]]], ("[[['xxxxxxxxxxxxxxxxxxxxxxxxxxxxxxxxxxxxxxxxxxxxxxxxxxxxxxxxxxxxxxxxxxxxxxxx']]]")%string);
  (VList [VTuple [VStr ("xxxxxxxxxxxxxxxxxxxxxxxxxxxxxxxxxxxxxxxxxxxxxxxxxxxxxxxxxxxxxxxxxxxxxx")]], ("[('xxxxxxxxxxxxxxxxxxxxxxxxxxxxxxxxxxxxxxxxxxxxxxxxxxxxxxxxxxxxxxxxxxxxxx',)]")%string);
  (VList [VTuple [VStr ("xxxxxxxxxxxxxxxxxxxxxxxxxxxxxxxxxxxxxxxxxxxxxxxxxxxxxxxxxxxxxxxxxxxxxxxx")]], ("[('xxxxxxxxxxxxxxxxxxxxxxxxxxxxxxxxxxxxxxxxxxxxxxxxxxxxxxxxxxxxxxxxxxxxxxxx',)]")%string);
  (VList [VTuple [VStr ("xxxxxxxxxxxxxxxxxxxxxxxxxxxxxxxxxxxxxxxxxxxxxxxxxxxxxxxxxxxxxxxxxxxxxxxxx")]], ("[('xxxxxxxxxxxxxxxxxxxxxxxxxxxxxxxxxxxxxxxxxxxxxxxxxxxxxxxxxxxxxxxxxxxxxxxxx',)]")%string);
  (VList [VTuple [VStr ("xxxxxxxxxxxxxxxxxxxxxxxxxxxxxxxxxxxxxxxxxxxxxxxxxxxxxxxxxxxxxxxxxxxxxxxxxx")]], ("[('xxxxxxxxxxxxxxxxxxxxxxxxxxxxxxxxxxxxxxxxxxxxxxxxxxxxxxxxxxxxxxxxxxxxxxxxxx',)]")%string);
  (VList [VFloat true 1 "5"; VFloat false 2 "0"; VNone; VBool true; VBool false; VInt (-7); VStr ("q")], ("[-1.5, 2.0, None, True, False, -7, 'q']")%string);
  (VList [VStr ("it's it's it's it's it's it's it's it's it's it's ""it's it's it's it's it's it's it's it's it's it's ")], ("['it\'s it\'s it\'s it\'s it\'s it\'s it\'s it\'s it\'s it\'s ""it\'s it\'s '" ++ String (ascii_of_nat 10) "" ++ " ""it's it's it's it's it's it's it's it's ""]")%string);
  (VStr ("ab   cd  ab   cd  ab   cd  ab   cd  ab   cd  ab   cd  ab   cd  ab   cd  ab   cd  ab   cd  "), ("('ab   cd  ab   cd  ab   cd  ab   cd  ab   cd  ab   cd  ab   cd  ab   cd  ab   '" ++ String (ascii_of_nat 10) "" ++ " 'cd  ab   cd  ')")%string);
  (VStr ("   lead   lead   lead   lead   lead   lead   lead   lead   lead   lead   lead   lead"), ("('   lead   lead   lead   lead   lead   lead   lead   lead   lead   lead   '" ++ String (ascii_of_nat 10) "" ++ " 'lead   lead')")%string);
  (VStr ("line one is here" ++ String (ascii_of_nat 10) "" ++ "line one is here" ++ String (ascii_of_nat 10) "" ++ "line one is here" ++ String (ascii_of_nat 10) "" ++ "line one is here" ++ String (ascii_of_nat 10) "" ++ "                                                                      end of it"), ("('line one is here\n'" ++ String (ascii_of_nat 10) "" ++ " 'line one is here\n'" ++ String (ascii_of_nat 10) "" ++ " 'line one is here\n'" ++ String (ascii_of_nat 10) "" ++ " 'line one is here\n'" ++ String (ascii_of_nat 10) "" ++ " '                                                                      end of '" ++ String (ascii_of_nat 10) "" ++ " 'it')")%string);
  (VList [VStr (String (ascii_of_nat 10) "" ++ String (ascii_of_nat 10) "" ++ String (ascii_of_nat 10) "" ++ "zzzzzzzzzzzzzzzzzzzzzzzzzzzzzzzzzzzzzzzzzzzzzzzzzzzzzzzzzzzzzzzzzzzzzzzzzzzzzzzz")], ("['\n'" ++ String (ascii_of_nat 10) "" ++ " '\n'" ++ String (ascii_of_nat 10) "" ++ " '\n'" ++ String (ascii_of_nat 10) "" ++ " 'zzzzzzzzzzzzzzzzzzzzzzzzzzzzzzzzzzzzzzzzzzzzzzzzzzzzzzzzzzzzzzzzzzzzzzzzzzzzzzzz']")%string)].

Example C101_pprint_case : forallb (fun p => (pformat (fst p) =? snd p)%string) pprint_cases = true.
Proof. vm_compute. reflexivity. Qed.

(** ** What does not hold *)
(** A class with a name of 79 characters and no arguments prints as a call with a lone comma. *)
Definition long_name : string := "A" ++ String.concat "" (repeat "bcdef" 15) ++ "ghi".
Theorem C101_long_name_refuted : ~ (forall cls l, ident cls = true -> forallb (fun p => readable (snd p)) l = true -> read (repr (VModule cls l)) = Some (VModule cls l)).
Proof. intros H. specialize (H long_name [] eq_refl eq_refl). vm_compute in H. discriminate H. Qed.
Print Assumptions C101_long_name_refuted.
Example C101_long_name_case : String.length long_name = 79 /\ ident long_name = true /\ repr (VModule long_name []) = (long_name ++ "(" ++ lf ++ "," ++ lf ++ ")")%string /\
  read (repr (VModule long_name [])) = None /\ repr (VModule (substring 0 78 long_name) []) = (substring 0 78 long_name ++ "()")%string.
Proof. repeat split; vm_compute; reflexivity. Qed.
(** The lines of a text may have more than 80 characters, although every argument would fit on a line of its own: [pprint] does not know
    about the name in front of the value and the indentation. *)
Definition wide : value := VModule "Wide" [(Some "preserve_every_dimension", VList (repeat (VInt 100) 15))].
Theorem C101_width_refuted : ~ (forall cls l line, (forall n v, In (n, v) l -> String.length (repr v) <= 76) ->
  In line (split_newline "" (repr (VModule cls l))) -> String.length line <= 80).
Proof.
  intros H. specialize (H "Wide" [(Some "preserve_every_dimension", VList (repeat (VInt 100) 15))] (nth 1 (split_newline "" (repr wide)) "")).
  assert (X : String.length (nth 1 (split_newline "" (repr wide)) "") <= 80); [|vm_compute in X; lia].
  apply H; [intros n v [E|[]]; injection E as <- <-; vm_compute; lia | vm_compute; auto].
Qed.
Print Assumptions C101_width_refuted.
(** The text of a module is not shorter on one line: broken into pieces, a string may need fewer escapes.  So a text of at most 80
    characters may have newlines. *)
Fixpoint quotes (n : nat) : string := match n with O => "" | S n => String quote (quotes n) end.
Definition inner : value := VModule "A" [(Some "x", VStr (quotes 40 ++ " " ++ String dquote ""))].
Theorem C101_one_line_refuted : ~ (forall cls l, readable (VModule cls l) = true -> String.length (repr (VModule cls l)) <= 80 -> contains newline (repr (VModule cls l)) = false).
Proof.
  intros H. assert (X : readable (VModule "B" [(Some "y", inner)]) = true) by reflexivity. specialize (H "B" [(Some "y", inner)] X).
  assert (L : String.length (repr (VModule "B" [(Some "y", inner)])) <= 80) by (vm_compute; lia). specialize (H L). vm_compute in H. discriminate H.
Qed.
Print Assumptions C101_one_line_refuted.

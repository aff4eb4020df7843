(** C101, second part: the text of a module, read as Python, is the call that made it. *)
From Coq Require Import String Ascii List Bool Arith ZArith NArith Lia.
From Verif Require Import ModelStr ModelUtils ProofsStr ModelRepr Properties75.
Import ListNotations.
Local Open Scope string_scope.
Local Open Scope nat_scope.
Local Open Scope bool_scope.

Lemma length_append_nat (a b : string) : String.length (a ++ b) = String.length a + String.length b.
Proof. induction a as [|c a IH]; [reflexivity|]. cbn. now rewrite IH. Qed.
(** ** Values whose text can be read
    Classes and parameters have names, floats have digits; the text of an object of another kind is not read.  A class without arguments
    must have a name of at most 78 characters ([C101_long_name_refuted]). *)
Fixpoint readable (v : value) : bool :=
  match v with
  | VNone | VBool _ | VInt _ | VStr _ => true
  | VFloat _ _ f => digits f
  | VList l | VTuple l => forallb readable l
  | VModule cls args =>
      ident cls && forallb (fun p => let '(n, v) := p in match n with Some n => ident n | None => true end && readable v) args
      && match args with [] => String.length cls <=? 78 | _ => true end
  | VMap cls items =>
      ident cls && forallb (fun p => let '(k, v) := p in readable k && readable v) items
      && match items with [] => String.length cls <=? 76 | _ => true end
  | VOther _ => false
  end.
Section ValueInd.
Context (P : value -> Prop) (Hnone : P VNone) (Hbool : forall b, P (VBool b)) (Hint : forall z, P (VInt z)) (Hfloat : forall n w f, P (VFloat n w f))
  (Hstr : forall s, P (VStr s)) (Hlist : forall l, Forall P l -> P (VList l)) (Htuple : forall l, Forall P l -> P (VTuple l))
  (Hmodule : forall c l, Forall (fun p => P (snd p)) l -> P (VModule c l)) (Hmap : forall c l, Forall (fun p => P (fst p) /\ P (snd p)) l -> P (VMap c l))
  (Hother : forall s, P (VOther s)).
Fixpoint value_rect' (v : value) : P v :=
  match v with
  | VNone => Hnone | VBool b => Hbool b | VInt z => Hint z | VFloat n w f => Hfloat n w f | VStr s => Hstr s
  | VList l => Hlist l ((fix go l : Forall P l := match l with [] => Forall_nil _ | v :: l => Forall_cons _ (value_rect' v) (go l) end) l)
  | VTuple l => Htuple l ((fix go l : Forall P l := match l with [] => Forall_nil _ | v :: l => Forall_cons _ (value_rect' v) (go l) end) l)
  | VModule c l => Hmodule c l ((fix go l : Forall (fun p => P (snd p)) l :=
      match l with [] => Forall_nil _ | (n, v) :: l => @Forall_cons _ (fun p => P (snd p)) (n, v) l (value_rect' v) (go l) end) l)
  | VMap c l => Hmap c l ((fix go l : Forall (fun p => P (fst p) /\ P (snd p)) l :=
      match l with [] => Forall_nil _ | (k, v) :: l => @Forall_cons _ (fun p => P (fst p) /\ P (snd p)) (k, v) l (conj (value_rect' k) (value_rect' v)) (go l) end) l)
  | VOther s => Hother s
  end.
End ValueInd.

(** ** The tokens of a value; a string may be in pieces, a call may end with a comma *)
Definition minus (b : bool) : list token := if b then [TSym "-"] else [].
Definition comma (b : bool) : list token := if b then [TSym ","] else [].
Fixpoint Sp (v : value) (ts : list token) {struct v} : Prop :=
  match v with
  | VNone => ts = [TName "None"]
  | VBool b => ts = [TName (if b then "True" else "False")]
  | VInt z => ts = (minus (z <? 0)%Z ++ [TNum (str_of_N (Z.abs_N z))])%list
  | VFloat neg w f => ts = (minus neg ++ [TNum (str_of_N w ++ "." ++ f)])%list
  | VStr s => exists l, l <> [] /\ glue l = s /\ (ts = map TStr l \/ ts = TSym "(" :: map TStr l ++ [TSym ")"])%list
  | VList l => exists tss, ts = (TSym "[" :: seps tss ++ [TSym "]"])%list /\
      (fix all l tss := match l, tss with [], [] => True | v :: l, t :: tss => Sp v t /\ all l tss | _, _ => False end) l tss
  | VTuple l => exists tss, ts = (TSym "(" :: seps tss ++ comma (match l with [_] => true | _ => false end) ++ [TSym ")"])%list /\
      (fix all l tss := match l, tss with [], [] => True | v :: l, t :: tss => Sp v t /\ all l tss | _, _ => False end) l tss
  | VModule cls args => exists tss b, (args = [] -> b = false) /\ ts = (TName cls :: TSym "(" :: seps tss ++ comma b ++ [TSym ")"])%list /\
      (fix all (l : list (option string * value)) tss := match l, tss with
       | [], [] => True
       | (n, v) :: l, t :: tss => (exists u, t = (match n with Some n => [TName n; TSym "="] | None => [] end ++ u)%list /\ Sp v u) /\ all l tss
       | _, _ => False
       end) args tss
  | VMap cls items => exists tss b, (items = [] -> b = false) /\ ts = (TName cls :: TSym "(" :: TSym "{" :: seps tss ++ comma b ++ [TSym "}"; TSym ")"])%list /\
      (fix all (l : list (value * value)) tss := match l, tss with
       | [], [] => True
       | (k, v) :: l, t :: tss => (exists x y, t = (x ++ TSym ":" :: y)%list /\ Sp k x /\ Sp v y) /\ all l tss
       | _, _ => False
       end) items tss
  | VOther _ => False
  end.
Definition Sp_arg (p : option string * value) (t : list token) : Prop := exists u, t = (match fst p with Some n => [TName n; TSym "="] | None => [] end ++ u)%list /\ Sp (snd p) u.
Definition Sp_item (p : value * value) (t : list token) : Prop := exists x y, t = (x ++ TSym ":" :: y)%list /\ Sp (fst p) x /\ Sp (snd p) y.
Lemma all_Sp l tss : (fix all l tss := match l, tss with [], [] => True | v :: l, t :: tss => Sp v t /\ all l tss | _, _ => False end) l tss <-> Forall2 Sp l tss.
Proof.
  revert tss. induction l as [|v l IH]; intros [|t tss]; split; intros H; try (now constructor); try (destruct H; fail); try (inversion H; fail).
  - constructor; [apply H | apply IH, H].
  - inversion H; subst. split; [assumption | now apply IH].
Qed.
Lemma all_Sp_arg l tss : (fix all (l : list (option string * value)) tss := match l, tss with
       | [], [] => True
       | (n, v) :: l, t :: tss => (exists u, t = (match n with Some n => [TName n; TSym "="] | None => [] end ++ u)%list /\ Sp v u) /\ all l tss
       | _, _ => False
       end) l tss <-> Forall2 Sp_arg l tss.
Proof.
  revert tss. induction l as [|[n v] l IH]; intros [|t tss]; split; intros H; try (now constructor); try (destruct H; fail); try (inversion H; fail).
  - constructor; [apply H | apply IH, H].
  - inversion H; subst. split; [assumption | now apply IH].
Qed.
Lemma all_Sp_item l tss : (fix all (l : list (value * value)) tss := match l, tss with
       | [], [] => True
       | (k, v) :: l, t :: tss => (exists x y, t = (x ++ TSym ":" :: y)%list /\ Sp k x /\ Sp v y) /\ all l tss
       | _, _ => False
       end) l tss <-> Forall2 Sp_item l tss.
Proof.
  revert tss. induction l as [|[n v] l IH]; intros [|t tss]; split; intros H; try (now constructor); try (destruct H; fail); try (inversion H; fail).
  - constructor; [apply H | apply IH, H].
  - inversion H; subst. split; [assumption | now apply IH].
Qed.

(** ** Printing gives such tokens *)
Definition spells (t : string * layout) (v : value) : Prop :=
  (exists ts, lex (fst t) = Some ts /\ Sp v ts) /\ forall i a top, exists ts, lex (snd t i a top) = Some ts /\ Sp v ts.
Lemma spells_plain s v ts : lex s = Some ts -> Sp v ts -> spells (plain s) v.
Proof. intros H1 H2. split; [|intros i a top]; exists ts; split; assumption. Qed.
Lemma spells_all {A} (f : A -> string) (R : A -> list token -> Prop) l : Forall (fun x => exists ts, lex (f x) = Some ts /\ R x ts) l ->
  exists tss, Forall2 (fun s ts => lex s = Some ts) (map f l) tss /\ Forall2 R l tss.
Proof.
  induction 1 as [|x l (ts & H1 & H2) _ (tss & I1 & I2)]; [exists []; split; constructor|]. exists (ts :: tss). split; constructor; assumption.
Qed.
Lemma lex_call cls o s ts c t us : ident cls = true -> symbol o = true -> symbol c = true -> lex s = Some ts -> lex t = Some us ->
  lex (cls ++ String o (s ++ String c t)) = Some (TName cls :: TSym o :: ts ++ TSym c :: us)%list.
Proof.
  intros I O C S T. change (TName cls :: TSym o :: ts ++ TSym c :: us)%list with ([TName cls] ++ TSym o :: ts ++ TSym c :: us)%list.
  apply lex_end; [now apply lex_name | exact O |]. now apply lex_end.
Qed.
Lemma format_items_lex l : forall i a, Forall (fun p : layout * value => forall i a top, exists ts, lex (fst p i a top) = Some ts /\ Sp (snd p) ts) l ->
  exists tss, lex (format_items (map fst l) i a) = Some (seps tss) /\ Forall2 Sp (map snd l) tss.
Proof.
  induction l as [|[f v] l IH]; intros i a H; [exists []; split; [reflexivity | constructor]|]. apply Forall_cons_iff in H as [H1 H2]. cbn [fst snd] in H1.
  destruct l as [|[g w] l].
  - destruct (H1 i a false) as (ts & E & S). exists [ts]. split; [exact E | constructor; [exact S | constructor]].
  - destruct (H1 i 1 false) as (ts & E & S). destruct (IH i a H2) as (tss & F & R). exists (ts :: tss). split; [|constructor; assumption].
    change (format_items (map fst ((f, v) :: (g, w) :: l)) i a) with (f i 1 false ++ String "," (lf ++ spaces i ++ format_items (map fst ((g, w) :: l)) i a)).
    assert (N : tss <> []) by (inversion R; discriminate). destruct tss as [|u tss]; [congruence|]. change (seps (ts :: u :: tss)) with (ts ++ TSym "," :: seps (u :: tss))%list.
    apply lex_end; [exact E | reflexivity|]. change (lex (String newline (spaces i ++ format_items (map fst ((g, w) :: l)) i a)) = Some (seps (u :: tss))).
    change (String newline (spaces i ++ format_items (map fst ((g, w) :: l)) i a)) with (lf ++ (spaces i ++ format_items (map fst ((g, w) :: l)) i a)).
    rewrite lex_blank by reflexivity. rewrite lex_blank by apply blank_spaces. exact F.
Qed.
Lemma pprint_str_lex s i a top : exists ts, lex (pprint_str s i a top) = Some ts /\ Sp (VStr s) ts.
Proof.
  destruct s as [|c s]; [exists [TStr ""]; split; [apply lex_str | exists [""]; split; [discriminate | split; [reflexivity | left; reflexivity]]]|]. unfold pprint_str.
  set (i' := if top then S i else i). set (a' := if top then S a else a). set (l := chunks i' a' (splitlines true (String c s))). cbv zeta.
  assert (G : glue l = String c s) by (unfold l; rewrite glue_chunks; apply (glue_lines (String c s) "")).
  assert (N : l <> []) by (intros E; rewrite E in G; discriminate G). clearbody l.
  pose proof (lex_literals (spaces i') l (blank_spaces i')) as L.
  assert (X : exists ts, lex ((if top then "(" else "") ++ String.concat (lf ++ spaces i') (map repr_str l) ++ (if top then ")" else "")) = Some ts /\ Sp (VStr (String c s)) ts).
  { destruct top; [|exists (map TStr l); split; [cbn [append]; now rewrite append_nil_r | exists l; auto]]. exists (TSym "(" :: map TStr l ++ [TSym ")"])%list.
    split; [|exists l; auto]. apply lex_sym; [reflexivity|]. now apply lex_end. }
  destruct l as [|x [|y l]]; [congruence| |exact X]. cbn [map]. exists [TStr x]. split; [apply lex_str|]. exists [x]. split; [discriminate|]. split; [exact G | left; reflexivity].
Qed.
Theorem render_spells v : readable v = true -> spells (render v) v.
Proof.
  induction v as [| b | z | neg w f | s | l IH | l IH | cls args IH | cls items IH | s] using value_rect'; intros H; cbn [readable] in H.
  - apply (spells_plain _ _ [TName "None"]); reflexivity.
  - apply (spells_plain _ _ [TName (if b then "True" else "False")]); destruct b; reflexivity.
  - apply (spells_plain _ _ (minus (z <? 0)%Z ++ [TNum (str_of_N (Z.abs_N z))])%list); [|reflexivity]. unfold str_of_Z. destruct (z <? 0)%Z; [|apply lex_nat].
    apply lex_sym; [reflexivity | apply lex_nat].
  - unfold digits in H. apply andb_true_iff in H as [_ H]. apply (spells_plain _ _ (minus neg ++ [TNum (str_of_N w ++ "." ++ f)])%list); [|reflexivity].
    unfold str_of_float. destruct neg; [|now apply lex_float]. apply lex_sym; [reflexivity | now apply lex_float].
  - assert (R : exists ts, lex (repr_str s) = Some ts /\ Sp (VStr s) ts) by (exists [TStr s]; split; [apply lex_str | exists [s]; split; [discriminate | split; [cbn; apply append_nil_r | left; reflexivity]]]).
    split; [exact R|]. intros i a top. cbn [render snd]. destruct (fits (repr_str s) i a); [exact R | apply pprint_str_lex].
  - assert (F : Forall (fun v => spells (render v) v) l) by (apply Forall_forall; intros v V; rewrite Forall_forall in IH; rewrite forallb_forall in H; auto). clear IH H.
    assert (R : exists ts, lex (repr (VList l)) = Some ts /\ Sp (VList l) ts).
    { destruct (spells_all (fun v => fst (render v)) Sp l) as (tss & E & S); [eapply Forall_impl; [|exact F]; intros v V; apply V|].
      exists (TSym "[" :: seps tss ++ [TSym "]"])%list. split; [|exists tss; split; [reflexivity | now apply all_Sp]].
      unfold repr. cbn [render fst]. rewrite map_map. apply lex_sym; [reflexivity|]. apply lex_end; [|reflexivity|reflexivity]. now apply (lex_join " "). }
    split; [exact R|]. intros i a top. cbn [render snd]. destruct (fits _ i a); [exact R|]. rewrite map_map.
    destruct (format_items_lex (map (fun v => (snd (render v), v)) l) (S i) (S a)) as (tss & E & S);
      [apply Forall_forall; intros p P; apply in_map_iff in P as (v & <- & V); rewrite Forall_forall in F; apply (F v V)|].
    rewrite map_map in E, S. cbn [fst snd] in E, S. rewrite map_id in S. exists (TSym "[" :: seps tss ++ [TSym "]"])%list. split; [|exists tss; split; [reflexivity | now apply all_Sp]].
    apply lex_sym; [reflexivity|]. apply lex_end; [exact E | reflexivity | reflexivity].
  - assert (F : Forall (fun v => spells (render v) v) l) by (apply Forall_forall; intros v V; rewrite Forall_forall in IH; rewrite forallb_forall in H; auto). clear IH H.
    assert (C : forall s ts, lex s = Some ts -> lex ("(" ++ s ++ match l with [_] => ",)" | _ => ")" end) = Some (TSym "(" :: ts ++ comma (match l with [_] => true | _ => false end) ++ [TSym ")"])%list).
    { intros s ts E. apply lex_sym; [reflexivity|]. destruct l as [|x [|y l]]; (apply lex_end; [exact E | reflexivity | reflexivity]). }
    assert (R : exists ts, lex (repr (VTuple l)) = Some ts /\ Sp (VTuple l) ts).
    { destruct (spells_all (fun v => fst (render v)) Sp l) as (tss & E & S); [eapply Forall_impl; [|exact F]; intros v V; apply V|].
      eexists. split; [|exists tss; split; [reflexivity | now apply all_Sp]]. unfold repr. cbn [render fst]. rewrite map_map. apply C. now apply (lex_join " "). }
    split; [exact R|]. intros i a top. cbn [render snd]. destruct (fits _ i a); [exact R|]. rewrite map_map.
    destruct (format_items_lex (map (fun v => (snd (render v), v)) l) (S i) (a + String.length (match l with [_] => ",)" | _ => ")" end))) as (tss & E & S);
      [apply Forall_forall; intros p P; apply in_map_iff in P as (v & <- & V); rewrite Forall_forall in F; apply (F v V)|].
    rewrite map_map in E, S. cbn [fst snd] in E, S. rewrite map_id in S. eexists. split; [|exists tss; split; [reflexivity | now apply all_Sp]]. apply C. exact E.
  - apply andb_true_iff in H as [H H3]. apply andb_true_iff in H as [H1 H2].
    assert (F : Forall (fun p => match fst p with Some n => ident n = true | None => True end /\ spells (render (snd p)) (snd p)) args).
    { apply Forall_forall. intros [n v] V. rewrite Forall_forall in IH. rewrite forallb_forall in H2. specialize (H2 _ V). specialize (IH _ V). cbn in *. apply andb_true_iff in H2 as [H2 H4].
      split; [destruct n; [exact H2 | exact I] | auto]. }
    clear IH H2. unfold render. fold render. set (l := map (fun p => let '(n, v) := p in (n, render v)) args).
    assert (X : exists ts, lex (call_text cls l) = Some ts /\ Sp (VModule cls args) ts); [|destruct X as (ts & E & S); exact (spells_plain _ _ ts E S)].
    unfold call_text. destruct (String.length (cls ++ "(" ++ String.concat ", " (map (fun p => named (fst p) (fst (snd p))) l) ++ ")") <=? 80) eqn:W.
    + destruct (spells_all (fun p => named (fst p) (fst (render (snd p)))) Sp_arg args) as (tss & E & S).
      { eapply Forall_impl; [|exact F]. intros [n v] [N ((ts & E & S) & _)]. cbn [fst snd] in *. exists (match n with Some n => [TName n; TSym "="] | None => [] end ++ ts)%list.
        split; [|exists ts; split; [reflexivity | exact S]]. destruct n as [n|]; [|exact E]. cbn [named]. change ([TName n; TSym "="] ++ ts)%list with ([TName n] ++ TSym "=" :: ts)%list.
        apply lex_end; [now apply lex_name | reflexivity | exact E]. }
      exists (TName cls :: TSym "(" :: seps tss ++ comma false ++ [TSym ")"])%list. split; [|exists tss, false; split; [reflexivity | split; [reflexivity | now apply all_Sp_arg]]].
      unfold l. rewrite map_map. rewrite (map_ext _ (fun p => named (fst p) (fst (render (snd p))))) by (intros [n v]; reflexivity).
      apply lex_call; [exact H1 | reflexivity | reflexivity | now apply (lex_join " ") | reflexivity].
    + assert (A : args <> []). { intros ->. cbn in W, H3. rewrite (length_append_nat cls "()") in W. apply Nat.leb_gt in W. apply Nat.leb_le in H3. cbn in W. lia. }
      destruct (spells_all (fun p => fancy_repr (fst p) (render (snd p))) Sp_arg args) as (tss & E & S).
      { eapply Forall_impl; [|exact F]. intros [n v] [N (_ & G)]. cbn [fst snd] in *. destruct (G 0 0 true) as (ts & E & S). exists (match n with Some n => [TName n; TSym "="] | None => [] end ++ ts)%list.
        split; [|exists ts; split; [reflexivity | exact S]]. unfold fancy_repr. destruct n as [n|]; [|exact E]. change ([TName n; TSym "="] ++ ts)%list with ([TName n] ++ TSym "=" :: ts)%list.
        rewrite app_assoc_str. cbn [append]. apply lex_end; [now apply lex_name | reflexivity|]. now apply lex_strip, lex_indent. }
      exists (TName cls :: TSym "(" :: seps tss ++ comma true ++ [TSym ")"])%list. split; [|exists tss, true; split; [congruence | split; [reflexivity | now apply all_Sp_arg]]].
      unfold l. rewrite map_map. rewrite (map_ext _ (fun p => fancy_repr (fst p) (render (snd p)))) by (intros [n v]; reflexivity).
      change (TName cls :: TSym "(" :: seps tss ++ comma true ++ [TSym ")"])%list with ([TName cls] ++ TSym "(" :: seps tss ++ TSym "," :: [TSym ")"])%list.
      apply lex_end; [now apply lex_name | reflexivity|]. rewrite lex_blank by reflexivity. apply lex_end; [|reflexivity|reflexivity]. apply lex_indent. now apply (lex_join lf).
  - apply andb_true_iff in H as [H H3]. apply andb_true_iff in H as [H1 H2].
    assert (F : Forall (fun p => spells (render (fst p)) (fst p) /\ spells (render (snd p)) (snd p)) items).
    { apply Forall_forall. intros [k v] V. rewrite Forall_forall in IH. rewrite forallb_forall in H2. specialize (H2 _ V). specialize (IH _ V). cbn in *. apply andb_true_iff in H2 as [H2 H4]. destruct IH. auto. }
    clear IH H2. unfold render. fold render. set (l := map (fun p => let '(k, v) := p in (render k, render v)) items).
    assert (X : exists ts, lex (map_text cls l) = Some ts /\ Sp (VMap cls items) ts); [|destruct X as (ts & E & S); exact (spells_plain _ _ ts E S)].
    unfold map_text. destruct (String.length (cls ++ "({" ++ String.concat ", " (map (fun p => fst (fst p) ++ ": " ++ fst (snd p)) l) ++ "})") <=? 80) eqn:W.
    + destruct (spells_all (fun p => fst (render (fst p)) ++ ": " ++ fst (render (snd p))) Sp_item items) as (tss & E & S).
      { eapply Forall_impl; [|exact F]. intros [k v] [((x & Ex & Sx) & _) ((y & Ey & Sy) & _)]. cbn [fst snd] in *. exists (x ++ TSym ":" :: y)%list.
        split; [|exists x, y; auto]. apply lex_end; [exact Ex | reflexivity|]. rewrite <- (lex_blank " " eq_refl) in Ey. exact Ey. }
      exists (TName cls :: TSym "(" :: TSym "{" :: seps tss ++ comma false ++ [TSym "}"; TSym ")"])%list. split; [|exists tss, false; split; [reflexivity | split; [reflexivity | now apply all_Sp_item]]].
      unfold l. rewrite map_map. rewrite (map_ext _ (fun p => fst (render (fst p)) ++ ": " ++ fst (render (snd p)))) by (intros [k v]; reflexivity).
      change (TName cls :: TSym "(" :: TSym "{" :: seps tss ++ comma false ++ [TSym "}"; TSym ")"])%list with ([TName cls] ++ TSym "(" :: TSym "{" :: seps tss ++ TSym "}" :: [TSym ")"])%list.
      apply lex_end; [now apply lex_name | reflexivity|]. apply lex_sym; [reflexivity|]. apply lex_end; [now apply (lex_join " ") | reflexivity | reflexivity].
    + assert (A : items <> []). { intros ->. cbn in W, H3. rewrite (length_append_nat cls "({})") in W. apply Nat.leb_gt in W. apply Nat.leb_le in H3. cbn in W. lia. }
      destruct (spells_all (fun p => repr_item (render (fst p)) (render (snd p))) Sp_item items) as (tss & E & S).
      { eapply Forall_impl; [|exact F]. intros [k v] [((x & Ex & Sx) & _) (_ & G)]. cbn [fst snd] in *. destruct (G 0 0 true) as (y & Ey & Sy). exists (x ++ TSym ":" :: y)%list.
        split; [|exists x, y; auto]. unfold repr_item. rewrite app_assoc_str. cbn [append]. apply lex_end; [exact Ex | reflexivity|].
        change (lex (" " ++ lstrip (indent (String.length (fst (render k) ++ ": ")) (snd (render v) 0 0 true))) = Some y). rewrite lex_blank by reflexivity. now apply lex_lstrip, lex_indent. }
      exists (TName cls :: TSym "(" :: TSym "{" :: seps tss ++ comma true ++ [TSym "}"; TSym ")"])%list. split; [|exists tss, true; split; [congruence | split; [reflexivity | now apply all_Sp_item]]].
      unfold l. rewrite map_map. rewrite (map_ext _ (fun p => repr_item (render (fst p)) (render (snd p)))) by (intros [k v]; reflexivity).
      change (TName cls :: TSym "(" :: TSym "{" :: seps tss ++ comma true ++ [TSym "}"; TSym ")"])%list with ([TName cls] ++ TSym "(" :: TSym "{" :: seps tss ++ TSym "," :: [TSym "}"; TSym ")"])%list.
      apply lex_end; [now apply lex_name | reflexivity|]. apply lex_sym; [reflexivity|]. rewrite lex_blank by reflexivity. apply lex_end; [|reflexivity|reflexivity]. apply lex_indent. now apply (lex_join lf).
  - discriminate H.
Qed.

(** ** Reading such tokens gives the value back *)
Definition closes (c : ascii) : bool := contains c "),]}:".
Definition ends (ts : list token) : Prop := match ts with [] => True | TSym c :: _ => closes c = true | _ => False end.
Definition starts (t : token) : Prop := match t with TSym c => c = "-"%char \/ c = "("%char \/ c = "["%char | _ => True end.
Lemma closes_cases c : closes c = true -> In c [")"; ","; "]"; "}"; ":"]%char.
Proof.
  unfold closes. cbn [contains]. intros H. repeat (apply orb_true_iff in H as [H|H]; [apply Ascii.eqb_eq in H; subst; cbn; tauto|]). discriminate H.
Qed.
Lemma Sp_starts v ts : Sp v ts -> exists t r, ts = t :: r /\ starts t.
Proof.
  destruct v; cbn [Sp].
  - intros ->. now exists (TName "None"), [].
  - intros ->. now eexists _, [].
  - intros ->. destruct (z <? 0)%Z; cbn [minus app]; eexists _, _; (split; [reflexivity | cbn; auto]).
  - intros ->. destruct neg; cbn [minus app]; eexists _, _; (split; [reflexivity | cbn; auto]).
  - intros (l & N & _ & [->| ->]); [destruct l; [congruence|]; cbn [map]; eexists _, _; split; [reflexivity | exact I] | eexists _, _; split; [reflexivity | cbn; auto]].
  - intros (tss & -> & _). eexists _, _; split; [reflexivity | cbn; auto].
  - intros (tss & -> & _). eexists _, _; split; [reflexivity | cbn; auto].
  - intros (tss & b & _ & -> & _). eexists _, _; split; [reflexivity | exact I].
  - intros (tss & b & _ & -> & _). eexists _, _; split; [reflexivity | exact I].
  - intros [].
Qed.
Lemma p_seq_ok {A} (p : list token -> option (A * list token)) (close : ascii) : closes close = true -> close <> ","%char -> forall l tss,
  Forall2 (fun a t => (exists h r, t = h :: r /\ h <> TSym close) /\ forall rest, ends rest -> p (t ++ rest)%list = Some (a, rest)) l tss ->
  forall b r fuel, (l = [] -> b = false) -> List.length l < fuel -> p_seq p close fuel (seps tss ++ comma b ++ TSym close :: r)%list = Some (l, b, r).
Proof.
  intros C1 C2 l tss H. induction H as [|a t l tss [(h & u & E & N) H1] H2 IH]; intros b r fuel B F; (destruct fuel as [|fuel]; [cbn in F; lia|]).
  - rewrite (B eq_refl). cbn [seps comma app p_seq]. now rewrite Ascii.eqb_refl.
  - set (rest := (match tss with [] => comma b | _ => TSym "," :: seps tss ++ comma b end ++ TSym close :: r)%list).
    assert (X : (seps (t :: tss) ++ comma b ++ TSym close :: r = t ++ rest)%list).
    { unfold rest. destruct tss; [reflexivity|]. cbn [seps]. rewrite <- !app_assoc. cbn [app]. now rewrite <- app_assoc. }
    rewrite X. assert (Y : ends rest) by (unfold rest; destruct tss; [destruct b; [reflexivity | exact C1] | reflexivity]).
    specialize (H1 rest Y). rewrite E in H1 |- *. cbn [app] in *.
    assert (Z : p_seq p close (S fuel) (h :: u ++ rest)%list = match p (h :: u ++ rest)%list with
        | Some (a, TSym c :: r) =>
            if Ascii.eqb c close then Some ([a], false, r)
            else if Ascii.eqb c "," then
              match p_seq p close fuel r with
              | Some ([], _, r) => Some ([a], true, r)
              | Some (l, b, r) => Some (a :: l, b, r)
              | None => None
              end
            else None
        | _ => None
        end).
    { cbn [p_seq]. destruct h as [s|s|s|c]; try reflexivity. destruct (Ascii.eqb_spec c close) as [->|M]; [congruence | reflexivity]. }
    rewrite Z, H1. unfold rest. destruct H2 as [|a' t' l tss H2 H3].
    + destruct b; cbn [comma app].
      * destruct (Ascii.eqb_spec "," close) as [W|W]; [congruence|]. cbn [Ascii.eqb Bool.eqb]. destruct fuel as [|fuel]; [cbn in F; lia|]. cbn [p_seq]. now rewrite Ascii.eqb_refl.
      * now rewrite Ascii.eqb_refl.
    + cbn [app]. destruct (Ascii.eqb_spec "," close) as [W|W]; [congruence|]. cbn [Ascii.eqb Bool.eqb]. rewrite <- app_assoc. rewrite IH; [reflexivity | discriminate | cbn in *; lia].
Qed.
Lemma p_strings_ok l : forall s rest, ends rest -> p_strings s (map TStr l ++ rest)%list = (s ++ glue l, rest).
Proof.
  induction l as [|t l IH]; intros s rest E.
  - cbn [map app glue fold_right]. rewrite append_nil_r. destruct rest as [|[u|u|u|c] rest]; try reflexivity. destruct E.
  - cbn [map app p_strings]. rewrite (IH _ _ E). cbn [glue fold_right]. now rewrite app_assoc_str.
Qed.
Lemma split_dot_digits s : all_chars is_digit s = true -> split_dot s = None.
Proof.
  induction s as [|c s IH]; intros H; [reflexivity|]. cbn [all_chars] in H. apply andb_true_iff in H as [H1 H2]. cbn [split_dot]. destruct (Ascii.eqb_spec c ".") as [->|N]; [discriminate H1|]. now rewrite (IH H2).
Qed.
Lemma split_dot_app s t : all_chars is_digit s = true -> split_dot (s ++ String "." t) = Some (s, t).
Proof.
  induction s as [|c s IH]; intros H; [reflexivity|]. cbn [all_chars] in H. apply andb_true_iff in H as [H1 H2]. cbn [append split_dot]. destruct (Ascii.eqb_spec c ".") as [->|N]; [discriminate H1|]. now rewrite (IH H2).
Qed.
Lemma p_number_int b n : p_number b (str_of_N n) = Some (VInt (if b then (- Z.of_N n)%Z else Z.of_N n)).
Proof. unfold p_number. rewrite split_dot_digits by apply str_of_N_digits. now rewrite str_of_N_parse. Qed.
Lemma p_number_float b n f : digits f = true -> p_number b (str_of_N n ++ "." ++ f) = Some (VFloat b n f).
Proof. intros H. unfold p_number. cbn [append]. rewrite split_dot_app by apply str_of_N_digits. now rewrite H, str_of_N_parse. Qed.
Lemma seps_length tss : Forall (fun t : list token => t <> []) tss -> List.length tss <= List.length (seps tss) /\ Forall (fun t => List.length t <= List.length (seps tss)) tss.
Proof.
  induction 1 as [|t tss H1 H2 [I1 I2]]; [split; [reflexivity | constructor]|]. destruct tss as [|u tss].
  - cbn [seps]. split; [destruct t; [congruence | cbn; lia] | constructor; [reflexivity | constructor]].
  - change (seps (t :: u :: tss)) with (t ++ TSym "," :: seps (u :: tss))%list. rewrite app_length. cbn [List.length]. split.
    + destruct t; [congruence|]. cbn [List.length] in *. lia.
    + constructor; [lia|]. eapply Forall_impl; [|exact I2]. intros w W. cbn beta in *. lia.
Qed.
(** The parsers of arguments and items inside [p_value]. *)
Definition p_arg (fuel : nat) (ts : list token) := match ts with
        | TName n :: TSym "=" :: r => option_map (fun p => ((Some n, fst p), snd p)) (p_value fuel r)
        | _ => option_map (fun p => ((@None string, fst p), snd p)) (p_value fuel ts)
        end.
Definition p_item (fuel : nat) (ts : list token) := match p_value fuel ts with
        | Some (k, TSym ":" :: r) => match p_value fuel r with Some (v, r) => Some ((k, v), r) | None => None end
        | _ => None
        end.
Definition reads (v : value) : Prop := forall ts, Sp v ts -> forall rest fuel, ends rest -> List.length ts < fuel -> p_value fuel (ts ++ rest)%list = Some (v, rest).
Lemma reads_seq l tss (R : forall v, In v l -> reads v) : Forall2 Sp l tss -> forall close fuel, starts (TSym close) \/ True -> closes close = true -> close <> "("%char -> close <> "["%char -> close <> "-"%char -> List.length (seps tss) < fuel ->
  Forall2 (fun a t => (exists h r, t = h :: r /\ h <> TSym close) /\ forall rest, ends rest -> p_value fuel (t ++ rest)%list = Some (a, rest)) l tss.
Proof.
  intros H close fuel _ C N1 N2 N3 F.
  assert (L : Forall (fun t : list token => t <> []) tss). { clear - H. induction H as [|v t l tss S _ IH]; constructor; [|exact IH]. apply Sp_starts in S as (h & r & -> & _). discriminate. }
  apply seps_length in L as [_ L]. revert F L. generalize (List.length (seps tss)) as n. intros n F L. induction H as [|v t l tss S H IH]; constructor.
  - apply Forall_cons_iff in L as [L _]. split; [|intros rest E; apply (R v (or_introl eq_refl)); [exact S | exact E | lia]].
    destruct (Sp_starts v t S) as (h & r & -> & Q). exists h, r. split; [reflexivity|]. intros ->. cbn in Q. destruct Q as [Q|[Q|Q]]; congruence.
  - apply IH; [intros w W; apply R; now right | now apply Forall_cons_iff in L].
Qed.
Lemma no_equals v u rest n r : Sp v u -> ends rest -> (u ++ rest)%list <> TName n :: TSym "=" :: r.
Proof.
  intros S E X. assert (Y : forall m, [TName m] = u -> False). { intros m <-. cbn in X. injection X as _ X. subst rest. discriminate E. }
  destruct v; cbn [Sp] in S.
  - eauto.
  - eauto.
  - subst u. destruct (z <? 0)%Z; discriminate X.
  - subst u. destruct neg; discriminate X.
  - destruct S as (l & N & _ & [->| ->]); [destruct l; [congruence | discriminate X] | discriminate X].
  - destruct S as (tss & -> & _). discriminate X.
  - destruct S as (tss & -> & _). discriminate X.
  - destruct S as (tss & b & _ & -> & _). discriminate X.
  - destruct S as (tss & b & _ & -> & _). discriminate X.
  - destruct S.
Qed.
Lemma p_arg_none fuel ts : (forall n r, ts <> TName n :: TSym "=" :: r) -> p_arg fuel ts = option_map (fun p => ((None, fst p), snd p)) (p_value fuel ts).
Proof.
  intros H. unfold p_arg. destruct ts as [|[n|s|s|c] [|[m|m|m|d] r]]; try reflexivity. specialize (H n r). destruct (Ascii.eqb_spec d "=") as [->|N]; [congruence|]. clear H.
  revert N. destruct d as [[|] [|] [|] [|] [|] [|] [|] [|]]; intros N; (reflexivity || (exfalso; apply N; reflexivity)).
Qed.
Lemma p_value_call fuel cls r : (forall u, r <> TSym "{" :: u) ->
  p_value (S fuel) (TName cls :: TSym "(" :: r) = match p_seq (p_arg fuel) ")"%char (S (List.length r)) r with Some (l, _, r) => Some (VModule cls l, r) | None => None end.
Proof.
  intros H. destruct r as [|[m|m|m|d] r]; try reflexivity. specialize (H r). destruct (Ascii.eqb_spec d "{") as [->|N]; [congruence|]. clear H.
  revert N. destruct d as [[|] [|] [|] [|] [|] [|] [|] [|]]; intros N; (reflexivity || (exfalso; apply N; reflexivity)).
Qed.
Lemma p_value_map fuel cls r : p_value (S fuel) (TName cls :: TSym "(" :: TSym "{" :: r) =
  match p_seq (p_item fuel) "}"%char (S (List.length r)) r with Some (l, _, TSym ")" :: r) => Some (VMap cls l, r) | _ => None end.
Proof. reflexivity. Qed.
Lemma forall2_length {A B} (Q : A -> B -> Prop) l m : Forall2 Q l m -> List.length l = List.length m.
Proof. induction 1 as [|a b l m _ _ IH]; [reflexivity|]. cbn. now rewrite IH. Qed.
Lemma lengths_seps {A} (Q : A -> list token -> Prop) l tss : Forall2 Q l tss -> (forall a t, Q a t -> t <> []) -> List.length l <= List.length (seps tss) /\ Forall (fun t => List.length t <= List.length (seps tss)) tss.
Proof.
  intros H N. rewrite (forall2_length _ _ _ H). apply seps_length. induction H as [|a t l tss S _ IH]; constructor; [exact (N a t S) | exact IH].
Qed.
Lemma Forall2_impl_in {A B} (P Q : A -> B -> Prop) l m : Forall2 P l m -> (forall a b, In a l -> In b m -> P a b -> Q a b) -> Forall2 Q l m.
Proof. induction 1 as [|a b l m H1 H2 IH]; intros X; constructor; [apply X; [now left | now left | exact H1] | apply IH; intros; apply X; [now right | now right | assumption]]. Qed.
Theorem p_value_reads v : readable v = true -> reads v.
Proof.
  induction v as [| b | z | neg w f | s | l IH | l IH | cls args IH | cls items IH | s] using value_rect'; intros H ts S rest fuel E F; cbn [readable] in H; cbn [Sp] in S;
    (destruct fuel as [|fuel]; [lia|]).
  - subst ts. cbn [app p_value]. destruct rest as [|[u|u|u|c] rest]; [reflexivity | destruct E | destruct E | destruct E |].
    apply closes_cases in E. cbn [In] in E. repeat (destruct E as [<-|E]; [reflexivity|]). destruct E.
  - subst ts. cbn [app p_value]. destruct rest as [|[u|u|u|c] rest]; [destruct b; reflexivity | destruct E | destruct E | destruct E |].
    apply closes_cases in E. cbn [In] in E. repeat (destruct E as [<-|E]; [destruct b; reflexivity|]). destruct E.
  - subst ts. destruct (z <? 0)%Z eqn:Z; cbn [minus app p_value]; rewrite p_number_int; cbn [option_map]; do 3 f_equal; rewrite N2Z.inj_abs_N; [apply Z.ltb_lt in Z | apply Z.ltb_ge in Z]; lia.
  - subst ts. destruct neg; cbn [minus app p_value]; now rewrite (p_number_float _ _ _ H).
  - destruct S as (l & N & <- & [->| ->]).
    + destruct l as [|t l]; [congruence|]. cbn [map app p_value]. rewrite p_strings_ok by exact E. reflexivity.
    + cbn [app p_value]. destruct l as [|t l]; [congruence|].
      set (r := ((map TStr (t :: l) ++ [TSym ")"]) ++ rest)%list).
      assert (X : p_seq (p_value fuel) ")"%char (S (List.length r)) r = Some ([VStr (glue (t :: l))], false, rest)).
      { assert (Y : r = (seps [map TStr (t :: l)] ++ comma false ++ TSym ")" :: rest)%list) by (unfold r; cbn [seps comma app]; now rewrite <- app_assoc). rewrite Y.
        apply p_seq_ok; [reflexivity | discriminate | | reflexivity | cbn; rewrite app_length; cbn; lia]. constructor; [|constructor].
        split; [exists (TStr t), (map TStr l); split; [reflexivity | discriminate]|]. intros rest' E'. destruct fuel as [|fuel]; [cbn in F; rewrite app_length in F; cbn in F; lia|].
        cbn [map app p_value]. rewrite p_strings_ok by exact E'. reflexivity. }
      rewrite X. reflexivity.
  - destruct S as (tss & -> & S). apply all_Sp in S. cbn [app p_value]. rewrite <- app_assoc. cbn [app].
    assert (X : Forall2 (fun a t => (exists h r, t = h :: r /\ h <> TSym "]") /\ forall rest, ends rest -> p_value fuel (t ++ rest)%list = Some (a, rest)) l tss).
    { apply reads_seq; [|exact S | auto | reflexivity | discriminate | discriminate | discriminate | cbn in F; rewrite app_length in F; cbn in F; lia].
      intros v V. rewrite Forall_forall in IH. rewrite forallb_forall in H. auto. }
    rewrite (p_seq_ok (p_value fuel) "]"%char eq_refl ltac:(discriminate) l tss X false rest); [reflexivity | reflexivity|].
    destruct (lengths_seps Sp l tss S) as [L _]; [intros a t St; apply Sp_starts in St as (h & r & -> & _); discriminate|]. rewrite app_length. cbn. lia.
  - destruct S as (tss & -> & S). apply all_Sp in S. cbn [app p_value]. rewrite <- !app_assoc. cbn [app].
    assert (X : Forall2 (fun a t => (exists h r, t = h :: r /\ h <> TSym ")") /\ forall rest, ends rest -> p_value fuel (t ++ rest)%list = Some (a, rest)) l tss).
    { apply reads_seq; [|exact S | auto | reflexivity | discriminate | discriminate | discriminate | cbn in F; rewrite app_length in F; cbn in F; lia].
      intros v V. rewrite Forall_forall in IH. rewrite forallb_forall in H. auto. }
    rewrite (p_seq_ok (p_value fuel) ")"%char eq_refl ltac:(discriminate) l tss X); [destruct l as [|x [|y l]]; reflexivity | destruct l as [|x [|y l]]; [reflexivity | discriminate | reflexivity] |].
    destruct (lengths_seps Sp l tss S) as [L _]; [intros a t St; apply Sp_starts in St as (h & r & -> & _); discriminate|]. rewrite app_length. lia.
  - destruct S as (tss & b & B & -> & S). apply all_Sp_arg in S. apply andb_true_iff in H as [H _]. apply andb_true_iff in H as [_ H].
    destruct (lengths_seps Sp_arg args tss S) as [L1 L2].
    { intros [n v] t (u & -> & Su). apply Sp_starts in Su as (h & r & -> & _). destruct (fst (n, v)); discriminate. }
    assert (N : forall v u, Sp v u -> exists h r, u = h :: r /\ h <> TSym ")" /\ h <> TSym "{").
    { intros v u Su. apply Sp_starts in Su as (h & r & -> & Q). exists h, r. split; [reflexivity|]. split; intros ->; cbn in Q; destruct Q as [Q|[Q|Q]]; discriminate Q. }
    assert (X : Forall2 (fun a t => (exists h r, t = h :: r /\ h <> TSym ")") /\ forall rest, ends rest -> p_arg fuel (t ++ rest)%list = Some (a, rest)) args tss).
    { apply (Forall2_impl_in _ _ _ _ S). intros [n v] t I1 I2 (u & E1 & Su). cbn [fst snd] in *. rewrite Forall_forall in IH. specialize (IH _ I1). rewrite forallb_forall in H. specialize (H _ I1). cbn in IH, H.
      apply andb_true_iff in H as [_ H]. rewrite Forall_forall in L2. specialize (L2 _ I2). assert (Lu : List.length u < fuel) by (cbn in F; rewrite app_length in F; rewrite E1, app_length in L2; lia).
      split.
      - subst t. destruct n as [n|]; [eexists _, _; split; [reflexivity | discriminate]|]. destruct (N v u Su) as (h & r & -> & Q & _). exists h, r. auto.
      - intros rest' E'. subst t. destruct n as [n|].
        + cbn [app p_arg]. now rewrite (IH H u Su rest' fuel E' Lu).
        + cbn [app]. rewrite p_arg_none by (intros n r; exact (no_equals v u rest' n r Su E')). now rewrite (IH H u Su rest' fuel E' Lu). }
    cbn [app]. rewrite <- !app_assoc. cbn [app]. rewrite p_value_call.
    + rewrite (p_seq_ok (p_arg fuel) ")"%char eq_refl ltac:(discriminate) args tss X b rest); [reflexivity | exact B | rewrite app_length; lia].
    + intros w W. destruct S as [|[n v] t args tss (u & -> & Su) S]; [destruct b; discriminate W|]. cbn [fst snd] in *. destruct n as [n|]; [destruct tss; discriminate W|]. cbn [app] in W.
      destruct (N v u Su) as (h & r & -> & _ & Q). destruct tss; cbn in W; congruence.
  - destruct S as (tss & b & B & -> & S). apply all_Sp_item in S. apply andb_true_iff in H as [H _]. apply andb_true_iff in H as [_ H].
    destruct (lengths_seps Sp_item items tss S) as [L1 L2].
    { intros [k v] t (x & y & -> & _). destruct x; discriminate. }
    assert (X : Forall2 (fun a t => (exists h r, t = h :: r /\ h <> TSym "}") /\ forall rest, ends rest -> p_item fuel (t ++ rest)%list = Some (a, rest)) items tss).
    { apply (Forall2_impl_in _ _ _ _ S). intros [k v] t I1 I2 (x & y & E1 & Sx & Sy). cbn [fst snd] in *. rewrite Forall_forall in IH. specialize (IH _ I1). rewrite forallb_forall in H. specialize (H _ I1). cbn in IH, H.
      apply andb_true_iff in H as [Hk Hv]. destruct IH as [IHk IHv]. rewrite Forall_forall in L2. specialize (L2 _ I2).
      assert (Lx : List.length x < fuel /\ List.length y < fuel) by (cbn in F; rewrite app_length in F; rewrite E1, app_length in L2; cbn in L2; lia).
      split.
      - subst t. destruct (Sp_starts k x Sx) as (h & r & -> & Q). eexists _, _. split; [reflexivity|]. intros ->. cbn in Q. destruct Q as [Q|[Q|Q]]; discriminate Q.
      - intros rest' E'. subst t. unfold p_item. rewrite <- app_assoc. rewrite (IHk Hk x Sx ((TSym ":" :: y) ++ rest')%list fuel eq_refl (proj1 Lx)). cbn [app].
        now rewrite (IHv Hv y Sy rest' fuel E' (proj2 Lx)). }
    cbn [app]. rewrite <- !app_assoc. cbn [app]. rewrite p_value_map.
    rewrite (p_seq_ok (p_item fuel) "}"%char eq_refl ltac:(discriminate) items tss X b (TSym ")" :: rest)); [reflexivity | exact B | rewrite app_length; lia].
  - discriminate H.
Qed.

(** ** The theorems
    The [repr] of every readable value, read as Python, is the value: however deep modules are nested, whether or not their texts are
    broken into lines. *)
Theorem C101_reads v : readable v = true -> read (repr v) = Some v.
Proof.
  intros H. destruct (render_spells v H) as [(ts & E & S) _]. unfold read, repr. rewrite E. pose proof (p_value_reads v H ts S [] (Datatypes.S (List.length ts)) I (Nat.lt_succ_diag_r _)) as R.
  rewrite app_nil_r in R. now rewrite R.
Qed.
Print Assumptions C101_reads.
(** What [pprint.pformat] prints reads the same. *)
Theorem C101_pformat v : readable v = true -> read (pformat v) = Some v.
Proof.
  intros H. destruct (render_spells v H) as [_ G]. destruct (G 0 0 true) as (ts & E & S). unfold read, pformat. rewrite E.
  pose proof (p_value_reads v H ts S [] (Datatypes.S (List.length ts)) I (Nat.lt_succ_diag_r _)) as R. rewrite app_nil_r in R. now rewrite R.
Qed.
Print Assumptions C101_pformat.
(** Two values with the same text are the same. *)
Theorem C101_injective v w : readable v = true -> readable w = true -> repr v = repr w -> v = w.
Proof. intros V W E. apply C101_reads in V, W. rewrite E in V. congruence. Qed.
Print Assumptions C101_injective.

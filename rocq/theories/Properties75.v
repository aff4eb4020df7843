(** C101, first part: the texts of modules and parameter mappings are sequences of tokens that layout does not change. *)
From Coq Require Import String Ascii List Bool Arith ZArith NArith Lia.
From Verif Require Import ModelStr ModelUtils ProofsStr ModelRepr.
Import ListNotations.
Local Open Scope string_scope.
Local Open Scope nat_scope.
Local Open Scope bool_scope.

(** ** Scanning *)
Lemma append_nil_r s : s ++ "" = s. Proof. induction s as [|c s IH]; [reflexivity|]. cbn. now rewrite IH. Qed.
Lemma scan_app a : forall m b, scan m (a ++ b) = match scan m a with Some (x, n) => option_map (fun p => ((x ++ fst p)%list, snd p)) (scan n b) | None => None end.
Proof.
  induction a as [|c a IH]; intros m b; cbn [append scan]; [now destruct (scan m b) as [[x n]|]|]. destruct (step m c) as [[x n]|]; [|reflexivity]. rewrite IH.
  destruct (scan n a) as [[y k]|]; [|reflexivity]. cbn [option_map fst snd]. destruct (scan k b) as [[z j]|]; [|reflexivity]. cbn. now rewrite app_assoc.
Qed.
(** Characters that end a name or a number. *)
Definition stop (c : ascii) : bool := negb (ident_char c) && negb (Ascii.eqb c ".").
Lemma digit_ident c : is_digit c = true -> ident_char c = true.
Proof. unfold ident_char. intros ->. now rewrite orb_true_r. Qed.
Lemma step_stop m c f : flush m = Some f -> stop c = true -> step m c = option_map (fun p => ((f ++ fst p)%list, snd p)) (begin c).
Proof.
  unfold stop. intros F S. apply andb_true_iff in S as [S1 S2]. apply negb_true_iff in S1, S2.
  destruct m; cbn [flush] in F; injection F as <- || discriminate F; cbn [step].
  - now destruct (begin c) as [[x n]|].
  - now rewrite S1.
  - destruct (is_digit c) eqn:D; [apply digit_ident in D; congruence|]. cbn [orb]. now rewrite S2.
Qed.
Lemma lex_sep s ts c t us : lex s = Some ts -> stop c = true -> lex (String c t) = Some us -> lex (s ++ String c t) = Some (ts ++ us)%list.
Proof.
  unfold lex. intros H S U. rewrite scan_app. destruct (scan MSkip s) as [[a m]|]; [|discriminate H]. destruct (flush m) as [f|] eqn:F; [|discriminate H]. cbn in H. injection H as <-.
  cbn [scan] in *. rewrite (step_stop m c f F S). cbn [step] in U. destruct (begin c) as [[b n]|]; [|discriminate U]. cbn [option_map fst snd].
  destruct (scan n t) as [[d k]|]; [|discriminate U]. cbn [option_map fst snd] in *. destruct (flush k) as [g|]; [|discriminate U]. cbn in *. injection U as <-. now rewrite <- !app_assoc.
Qed.
Lemma symbol_cases c : symbol c = true -> In c ["("; ")"; "["; "]"; "{"; "}"; ","; ":"; "="; "-"]%char.
Proof.
  unfold symbol. cbn [contains]. intros H. repeat (apply orb_true_iff in H as [H|H]; [apply Ascii.eqb_eq in H; subst; cbn; tauto|]). discriminate H.
Qed.
Lemma lex_sym c t ts : symbol c = true -> lex t = Some ts -> lex (String c t) = Some (TSym c :: ts).
Proof.
  intros H E. assert (B : begin c = Some ([TSym c], MSkip)) by (apply symbol_cases in H; cbn [In] in H; repeat (destruct H as [<-|H]; [reflexivity|]); destruct H).
  unfold lex in *. cbn [scan step]. rewrite B. destruct (scan MSkip t) as [[a m]|]; [|discriminate E]. cbn [option_map fst snd app]. destruct (flush m); [|discriminate E]. cbn in *. now injection E as <-.
Qed.
Lemma symbol_stop c : symbol c = true -> stop c = true.
Proof. intros H. apply symbol_cases in H. cbn [In] in H. repeat (destruct H as [<-|H]; [reflexivity|]). destruct H. Qed.
Lemma blank_cases c : blank c = true -> c = " "%char \/ c = newline.
Proof.
  unfold blank. intros H. apply orb_true_iff in H as [H|H]; apply Nat.eqb_eq in H; [left|right]; rewrite <- (ascii_nat_embedding c); unfold code in H; rewrite H; reflexivity.
Qed.
Lemma lex_blank w : all_chars blank w = true -> forall t, lex (w ++ t) = lex t.
Proof.
  induction w as [|c w IH]; intros H t; [reflexivity|]. cbn [all_chars] in H. apply andb_true_iff in H as [H1 H2]. rewrite <- (IH H2 t). cbn [append].
  unfold lex. cbn [scan step]. unfold begin. rewrite H1. destruct (scan MSkip (w ++ t)) as [[a m]|]; reflexivity.
Qed.
Lemma blank_spaces n : all_chars blank (spaces n) = true. Proof. induction n as [|n IH]; [reflexivity|]. exact IH. Qed.

(** ** Names, numbers and string literals *)
Lemma scan_name t : forall s, all_chars ident_char t = true -> scan (MName s) t = Some ([], MName (s ++ t)).
Proof.
  induction t as [|c t IH]; intros s H; cbn [scan]; [now rewrite append_nil_r|]. cbn [all_chars] in H. apply andb_true_iff in H as [H1 H2]. cbn [step]. rewrite H1, (IH _ H2).
  cbn. now rewrite app_assoc_str.
Qed.
Lemma lex_name n : ident n = true -> lex n = Some [TName n].
Proof.
  destruct n as [|c t]; [discriminate|]. cbn [ident]. intros H. apply andb_true_iff in H as [H1 H2]. unfold lex. cbn [scan step]. unfold begin.
  assert (B : blank c = false) by (destruct (blank c) eqn:B; [apply blank_cases in B as [->| ->]; discriminate H1 | reflexivity]).
  rewrite B, H1, (scan_name _ _ H2). reflexivity.
Qed.
Definition num_char (c : ascii) : bool := is_digit c || Ascii.eqb c ".".
Lemma scan_num t : forall s, all_chars num_char t = true -> scan (MNum s) t = Some ([], MNum (s ++ t)).
Proof.
  induction t as [|c t IH]; intros s H; cbn [scan]; [now rewrite append_nil_r|]. cbn [all_chars] in H. apply andb_true_iff in H as [H1 H2]. cbn [step]. unfold num_char in H1. rewrite H1, (IH _ H2).
  cbn. now rewrite app_assoc_str.
Qed.
Lemma lex_num c t : is_digit c = true -> all_chars num_char t = true -> lex (String c t) = Some [TNum (String c t)].
Proof.
  intros H1 H2. unfold lex. cbn [scan step]. unfold begin.
  assert (B : blank c = false) by (destruct (blank c) eqn:B; [apply blank_cases in B as [->| ->]; discriminate H1 | reflexivity]).
  assert (I : ident_start c = false) by (revert H1; destruct c as [[|] [|] [|] [|] [|] [|] [|] [|]]; (reflexivity || discriminate)).
  rewrite B, I, H1, (scan_num _ _ H2). reflexivity.
Qed.
Lemma all_chars_imp (f g : ascii -> bool) s : (forall c, f c = true -> g c = true) -> all_chars f s = true -> all_chars g s = true.
Proof. intros I. induction s as [|c s IH]; [reflexivity|]. cbn. intros H. apply andb_true_iff in H as [H1 H2]. now rewrite (I _ H1), IH. Qed.
Lemma all_chars_append f a b : all_chars f (a ++ b) = all_chars f a && all_chars f b.
Proof. induction a as [|c a IH]; [reflexivity|]. cbn. now rewrite IH, andb_assoc. Qed.
Lemma digits_num s : all_chars is_digit s = true -> all_chars num_char s = true.
Proof. apply all_chars_imp. intros c H. unfold num_char. now rewrite H. Qed.
Lemma lex_digits s t : s <> "" -> all_chars is_digit s = true -> all_chars num_char t = true -> lex (s ++ t) = Some [TNum (s ++ t)].
Proof.
  destruct s as [|c s]; [congruence|]. intros _ H1 H2. cbn [all_chars] in H1. apply andb_true_iff in H1 as [H1 H3]. cbn [append]. apply lex_num; [exact H1|].
  rewrite all_chars_append, H2. now rewrite digits_num.
Qed.
Lemma lex_nat n : lex (str_of_N n) = Some [TNum (str_of_N n)].
Proof. rewrite <- (append_nil_r (str_of_N n)). apply lex_digits; [apply str_of_N_nonempty | apply str_of_N_digits | reflexivity]. Qed.
Lemma lex_float n f : all_chars is_digit f = true -> lex (str_of_N n ++ "." ++ f) = Some [TNum (str_of_N n ++ "." ++ f)].
Proof. intros H. apply lex_digits; [apply str_of_N_nonempty | apply str_of_N_digits |]. cbn [append all_chars]. now rewrite digits_num. Qed.
Lemma scan_escape q s c : q = quote \/ q = dquote -> scan (MStr q s) (escape q c) = Some ([], MStr q (s ++ String c "")).
Proof. intros [->| ->]; destruct c as [[|] [|] [|] [|] [|] [|] [|] [|]]; reflexivity. Qed.
Lemma scan_escapes q t : q = quote \/ q = dquote -> forall s, scan (MStr q s) (escapes q t) = Some ([], MStr q (s ++ t)).
Proof.
  intros Q. induction t as [|c t IH]; intros s; cbn [escapes]; [cbn [scan]; now rewrite append_nil_r|]. rewrite scan_app, scan_escape, IH by exact Q. cbn. now rewrite app_assoc_str.
Qed.
Lemma lex_str s : lex (repr_str s) = Some [TStr s].
Proof.
  unfold repr_str. set (q := if contains quote s && negb (contains dquote s) then dquote else quote).
  assert (Q : q = quote \/ q = dquote) by (unfold q; destruct (contains quote s && negb (contains dquote s)); auto). clearbody q.
  unfold lex. cbn [append scan step]. assert (B : begin q = Some ([], MStr q "")) by (destruct Q as [->| ->]; reflexivity). rewrite B, scan_app, (scan_escapes q s Q).
  cbn [append]. assert (E : scan (MStr q s) (String q "") = Some ([TStr s], MSkip)) by (destruct Q as [->| ->]; reflexivity). rewrite E. reflexivity.
Qed.

(** ** Layout does not change the tokens *)
Lemma line_break_step m c : line_break c = true -> c <> newline -> step m c = None.
Proof.
  intros L N.
  assert (C : begin c = None /\ ident_char c = false /\ num_char c = false /\ hex_value c = None /\ forall q s, step (MEsc q s) c = None)
    by (revert L N; destruct c as [[|] [|] [|] [|] [|] [|] [|] [|]]; intros L N; (discriminate L || (exfalso; apply N; reflexivity) || (repeat split; intros; reflexivity))).
  destruct C as (B & C1 & C2 & C3 & C4). destruct m as [|s|s|q s|q s|q s [h|]]; cbn [step].
  - exact B.
  - now rewrite C1, B.
  - unfold num_char in C2. now rewrite C2, B.
  - now rewrite L.
  - apply C4.
  - now rewrite C3.
  - now rewrite C3.
Qed.
Lemma step_newline m : step m newline = match flush m with Some f => Some (f, MSkip) | None => None end.
Proof. destruct m as [|s|s|q s|q s|q s [h|]]; reflexivity. Qed.
(** [indent] on a text whose only line boundaries are newlines: every newline is followed by the prefix, a newline at the end is lost. *)
Fixpoint shift (n : nat) (s : string) : string :=
  match s with
  | "" => ""
  | String c t => if Ascii.eqb c newline then match t with "" => "" | _ => lf ++ spaces n ++ shift n t end else String c (shift n t)
  end.
Definition only_newlines (s : string) : bool := all_chars (fun c => negb (line_break c) || Ascii.eqb c newline) s.
Lemma lines_shift n s : forall cur, only_newlines s = true ->
  String.concat lf (map (append (spaces n)) (lines false cur s)) = match cur, s with "", "" => "" | _, _ => spaces n ++ cur ++ shift n s end.
Proof.
  induction s as [|c t IH]; intros cur H; cbn [lines shift].
  - destruct cur as [|d u]; [reflexivity|]. cbn [map String.concat]. now rewrite append_nil_r.
  - cbn [only_newlines all_chars] in H. apply andb_true_iff in H as [H1 H2]. fold (only_newlines t) in H2. destruct (line_break c) eqn:L; cbn [negb orb] in H1.
    + apply Ascii.eqb_eq in H1 as ->. rewrite Ascii.eqb_refl. destruct t as [|d u].
      * cbn [map String.concat]. rewrite append_nil_r. now destruct cur.
      * change ((code newline =? 13) && (code d =? 10)) with false. cbv iota. cbn [map]. pose proof (IH "" H2) as E. cbn [append] in E.
        destruct (map (append (spaces n)) (lines false "" (String d u))) as [|x l] eqn:M.
        { exfalso. cbn [lines] in M. destruct (line_break d); [destruct u; [discriminate M | destruct ((code d =? 13) && (code a =? 10)); discriminate M]|].
          clear - M. cbn [append] in M. revert M. assert (G : forall u c s, lines false (String c s) u <> []).
          { intros v. induction v as [|e v IHv]; intros c s; cbn [lines]; [intros X; discriminate X|].
            destruct (line_break e); [destruct v as [|f v]; [intros X; discriminate X | destruct ((code e =? 13) && (code f =? 10)); intros X; discriminate X]|]. cbn [append]. apply IHv. }
          intros M. apply (G u d ""). now destruct (lines false (String d "") u). }
        change (String.concat lf ((spaces n ++ cur) :: x :: l)) with ((spaces n ++ cur) ++ lf ++ String.concat lf (x :: l)). rewrite E, app_assoc_str. now destruct cur.
    + assert (N : Ascii.eqb c newline = false) by (destruct (Ascii.eqb_spec c newline) as [->|]; [discriminate L | reflexivity]). rewrite N, (IH _ H2).
      assert (X : exists d u, cur ++ String c "" = String d u) by (destruct cur; cbn; eauto). destruct X as (d & u & X). rewrite X. rewrite <- X. rewrite !app_assoc_str. cbn [append]. now destruct cur.
Qed.
Lemma indent_shift n s : only_newlines s = true -> indent n s = match s with "" => "" | _ => spaces n ++ shift n s end.
Proof. intros H. unfold indent, splitlines. rewrite (lines_shift n s "" H). now destruct s. Qed.
Lemma scan_newlines s : forall m p, scan m s = Some p -> only_newlines s = true.
Proof.
  induction s as [|c s IH]; intros m p H; [reflexivity|]. cbn [scan] in H. destruct (step m c) as [[a k]|] eqn:E; [|discriminate H]. destruct (scan k s) as [q|] eqn:F; [|discriminate H].
  cbn [only_newlines all_chars]. fold (only_newlines s). rewrite (IH _ _ F), andb_true_r. destruct (line_break c) eqn:L; [|reflexivity]. cbn [negb orb]. destruct (Ascii.eqb_spec c newline) as [|N]; [reflexivity|].
  rewrite (line_break_step m c L N) in E. discriminate E.
Qed.
(** What is scanned, with the token that is still open. *)
Definition full (m : mode) (s : string) : option (list token) := match scan m s with Some (a, k) => option_map (app a) (flush k) | None => None end.
Lemma full_cons m c t : full m (String c t) = match step m c with Some (a, k) => option_map (app a) (full k t) | None => None end.
Proof.
  unfold full. cbn [scan]. destruct (step m c) as [[a k]|]; [|reflexivity]. destruct (scan k t) as [[b j]|]; [|reflexivity]. cbn [option_map fst snd]. destruct (flush j); [|reflexivity]. cbn. now rewrite app_assoc.
Qed.
Lemma full_spaces n t : full MSkip (spaces n ++ t) = full MSkip t. Proof. exact (lex_blank (spaces n) (blank_spaces n) t). Qed.
Lemma full_shift n s : forall m ts, full m s = Some ts -> full m (shift n s) = Some ts.
Proof.
  induction s as [|c t IH]; intros m ts H; [exact H|]. cbn [shift]. rewrite full_cons in H. destruct (Ascii.eqb_spec c newline) as [->|N].
  - rewrite step_newline in H. destruct (flush m) as [f|] eqn:F; [|discriminate H]. destruct t as [|d u].
    + unfold full. cbn [scan]. rewrite F. cbn in *. rewrite app_nil_r in H. exact H.
    + change (lf ++ spaces n ++ shift n (String d u)) with (String newline (spaces n ++ shift n (String d u))). rewrite full_cons, step_newline, F, full_spaces.
      destruct (full MSkip (String d u)) as [x|] eqn:E; [|discriminate H]. now rewrite (IH MSkip x E).
  - rewrite full_cons. destruct (step m c) as [[a k]|]; [|discriminate H]. destruct (full k t) as [x|] eqn:E; [|discriminate H]. now rewrite (IH k x E).
Qed.
Lemma lex_indent n s ts : lex s = Some ts -> lex (indent n s) = Some ts.
Proof.
  intros H. assert (O : only_newlines s = true). { unfold lex in H. destruct (scan MSkip s) as [p|] eqn:E; [|discriminate H]. exact (scan_newlines s MSkip p E). }
  rewrite (indent_shift n s O). destruct s as [|c t]; [exact H|]. rewrite (lex_blank _ (blank_spaces n)). exact (full_shift n (String c t) MSkip ts H).
Qed.
Lemma space_begin c : is_space c = true -> begin c = if blank c then Some ([], MSkip) else None.
Proof. destruct c as [[|] [|] [|] [|] [|] [|] [|] [|]]; intros H; (reflexivity || discriminate H). Qed.
Lemma lex_lstrip s ts : lex s = Some ts -> lex (lstrip s) = Some ts.
Proof.
  change (full MSkip s = Some ts -> full MSkip (lstrip s) = Some ts). revert ts. induction s as [|c s IH]; intros ts H; [exact H|]. cbn [lstrip]. destruct (is_space c) eqn:E; [|exact H].
  rewrite full_cons in H. cbn [step] in H. rewrite (space_begin c E) in H. destruct (blank c); [|discriminate H]. apply IH. destruct (full MSkip s); [exact H | discriminate H].
Qed.
Lemma space_facts c : is_space c = true -> ident_char c = false /\ num_char c = false /\ hex_value c = None /\ forall q s, step (MEsc q s) c = None.
Proof. destruct c as [[|] [|] [|] [|] [|] [|] [|] [|]]; intros H; (discriminate H || (repeat split; intros; reflexivity)). Qed.
Definition quoted (m : mode) : Prop := match m with MStr q _ | MEsc q _ | MHex q _ _ => q = quote \/ q = dquote | _ => True end.
Lemma begin_quoted c a k : begin c = Some (a, k) -> quoted k.
Proof.
  unfold begin. destruct (blank c); [intros H; injection H as <- <-; exact I|]. destruct (ident_start c); [intros H; injection H as <- <-; exact I|]. destruct (is_digit c); [intros H; injection H as <- <-; exact I|].
  destruct (Ascii.eqb c quote || Ascii.eqb c dquote) eqn:E.
  - intros H; injection H as <- <-. apply orb_true_iff in E as [E|E]; apply Ascii.eqb_eq in E as ->; cbn; auto.
  - destruct (symbol c); [intros H; injection H as <- <-; exact I | discriminate].
Qed.
Lemma step_quoted m c a k : quoted m -> step m c = Some (a, k) -> quoted k.
Proof.
  destruct m as [|s|s|q s|q s|q s [h|]]; cbn [quoted step]; intros Q H.
  - exact (begin_quoted c a k H).
  - destruct (ident_char c); [injection H as <- <-; exact I|]. destruct (begin c) as [[x j]|] eqn:B; [|discriminate H]. cbn in H. injection H as <- <-. exact (begin_quoted c x j B).
  - destruct (is_digit c || Ascii.eqb c "."); [injection H as <- <-; exact I|]. destruct (begin c) as [[x j]|] eqn:B; [|discriminate H]. cbn in H. injection H as <- <-. exact (begin_quoted c x j B).
  - destruct (line_break c); [discriminate H|]. destruct (Ascii.eqb c q); [injection H as <- <-; exact I|]. destruct (Ascii.eqb c backslash); injection H as <- <-; exact Q.
  - destruct (Ascii.eqb c quote || Ascii.eqb c dquote || Ascii.eqb c backslash); [injection H as <- <-; exact Q|]. repeat (destruct (Ascii.eqb c _); [injection H as <- <-; exact Q|]). discriminate H.
  - destruct (hex_value c); [|discriminate H]. cbn in H. injection H as <- <-. exact Q.
  - destruct (hex_value c); [|discriminate H]. cbn in H. injection H as <- <-. exact Q.
Qed.
Lemma full_rstrip s : forall m ts, quoted m -> full m s = Some ts -> full m (rstrip s) = Some ts.
Proof.
  induction s as [|c s IH]; intros m ts Q H; [exact H|]. rewrite full_cons in H. destruct (step m c) as [[a k]|] eqn:E; [|discriminate H]. destruct (full k s) as [x|] eqn:F; [|discriminate H]. cbn in H. injection H as <-.
  pose proof (IH k x (step_quoted m c a k Q E) F) as G. cbn [rstrip]. destruct (rstrip s) as [|d u]; [|rewrite full_cons, E, G; reflexivity].
  destruct (is_space c) eqn:S; [|rewrite full_cons, E, G; reflexivity].
  pose proof (space_begin c S) as B. destruct (space_facts c S) as (C1 & C2 & C3 & C4). unfold full in G. cbn [scan] in G. destruct (flush k) as [f|] eqn:K; [|discriminate G]. cbn in G. injection G as <-.
  unfold full. cbn [scan]. destruct m as [|t|t|q t|q t|q t [h|]]; cbn [step] in E.
  - rewrite B in E. destruct (blank c); [|discriminate E]. injection E as <- <-. cbn in K. now injection K as <-.
  - rewrite C1, B in E. destruct (blank c); [|discriminate E]. cbn in E. injection E as <- <-. cbn in K. now injection K as <-.
  - unfold num_char in C2. rewrite C2, B in E. destruct (blank c); [|discriminate E]. cbn in E. injection E as <- <-. cbn in K. now injection K as <-.
  - destruct (line_break c); [discriminate E|]. destruct (Ascii.eqb_spec c q) as [->|N]; [exfalso; destruct Q as [->| ->]; discriminate S|].
    destruct (Ascii.eqb c backslash); injection E as <- <-; discriminate K.
  - pose proof (C4 q t) as X. cbn [step] in X. rewrite X in E. discriminate E.
  - rewrite C3 in E. discriminate E.
  - rewrite C3 in E. discriminate E.
Qed.
Lemma lex_strip s ts : lex s = Some ts -> lex (strip s) = Some ts.
Proof. intros H. apply lex_lstrip in H. exact (full_rstrip (lstrip s) MSkip ts I H). Qed.
(** Elements separated by a comma and blanks. *)
Fixpoint seps (tss : list (list token)) : list token :=
  match tss with [] => [] | [t] => t | t :: r => (t ++ TSym "," :: seps r)%list end.
Lemma lex_join w ss tss : all_chars blank w = true -> Forall2 (fun s ts => lex s = Some ts) ss tss -> lex (String.concat (String "," w) ss) = Some (seps tss).
Proof.
  intros W H. induction H as [|s ts ss tss H1 H2 IH]; [reflexivity|]. destruct H2 as [|s' ts' ss tss H2 H3]; [exact H1|].
  change (String.concat (String "," w) (s :: s' :: ss)) with (s ++ String "," (w ++ String.concat (String "," w) (s' :: ss))).
  change (seps (ts :: ts' :: tss)) with (ts ++ TSym "," :: seps (ts' :: tss))%list. apply lex_sep; [exact H1 | reflexivity|]. apply lex_sym; [reflexivity|]. now rewrite lex_blank.
Qed.
Lemma lex_end s ts c t us : lex s = Some ts -> symbol c = true -> lex t = Some us -> lex (s ++ String c t) = Some (ts ++ TSym c :: us)%list.
Proof. intros H S U. apply lex_sep; [exact H | now apply symbol_stop | now apply lex_sym]. Qed.
(** String literals on lines of their own. *)
Lemma lex_literals w l : all_chars blank w = true -> lex (String.concat (lf ++ w) (map repr_str l)) = Some (map TStr l).
Proof.
  intros W. induction l as [|s l IH]; [reflexivity|]. destruct l as [|s' l]; [apply lex_str|].
  change (String.concat (lf ++ w) (map repr_str (s :: s' :: l))) with (repr_str s ++ String newline (w ++ String.concat (lf ++ w) (map repr_str (s' :: l)))).
  change (map TStr (s :: s' :: l)) with ([TStr s] ++ map TStr (s' :: l))%list. apply lex_sep; [apply lex_str | reflexivity|].
  change (String newline (w ++ String.concat (lf ++ w) (map repr_str (s' :: l)))) with ((lf ++ w) ++ String.concat (lf ++ w) (map repr_str (s' :: l))).
  rewrite lex_blank; [exact IH | exact W].
Qed.
(** The pieces of a string are the string. *)
Definition glue (l : list string) : string := fold_right append "" l.
Lemma glue_app a b : glue (a ++ b)%list = glue a ++ glue b.
Proof. induction a as [|s a IH]; [reflexivity|]. change (s ++ glue (a ++ b)%list = (s ++ glue a) ++ glue b). now rewrite IH, app_assoc_str. Qed.
Lemma glue_lines s : forall cur, glue (lines true cur s) = cur ++ s.
Proof.
  assert (G : forall n s cur, String.length s < n -> glue (lines true cur s) = cur ++ s).
  { induction n as [|n IH]; intros t cur L; [lia|]. destruct t as [|c t]; cbn [lines]; [destruct cur; cbn; now rewrite ?append_nil_r|]. cbn [String.length] in L.
    destruct (line_break c); [|rewrite IH by lia; now rewrite app_assoc_str].
    destruct t as [|d u]; [reflexivity || (cbn; now rewrite append_nil_r)|]. destruct ((code c =? 13) && (code d =? 10)).
    - cbn [glue fold_right]. fold (glue (lines true "" u)). rewrite IH by (cbn [String.length] in L; lia). rewrite app_assoc_str. reflexivity.
    - change (glue ((cur ++ String c "") :: lines true "" (String d u))) with ((cur ++ String c "") ++ glue (lines true "" (String d u))). rewrite IH by lia. now rewrite app_assoc_str. }
  intros cur. apply (G (S (String.length s))). lia.
Qed.
Lemma glue_words s : forall cur gap, glue (words cur gap s) = cur ++ s.
Proof.
  induction s as [|c s IH]; intros cur gap; cbn [words]; [destruct cur; cbn; now rewrite ?append_nil_r|]. destruct (gap && negb (is_space c)).
  - cbn [glue fold_right]. fold (glue (words (String c "") false s)). now rewrite IH.
  - rewrite IH. now rewrite app_assoc_str.
Qed.
Lemma glue_fill i extra l : forall cur, glue (fill i extra cur l) = cur ++ glue l.
Proof.
  induction l as [|p l IH]; intros cur; cbn [fill]; [destruct cur; cbn; now rewrite ?append_nil_r|]. cbn [glue fold_right]. fold (glue l).
  destruct (_ <=? 80); [rewrite IH; now rewrite app_assoc_str|]. destruct cur as [|c cur]; [apply IH|]. cbn [glue fold_right]. fold (glue (fill i extra p l)). now rewrite IH.
Qed.
Lemma glue_chunks i a l : glue (chunks i a l) = glue l.
Proof.
  induction l as [|s l IH]; [reflexivity|]. cbn [chunks]. rewrite glue_app, IH. destruct (_ <=? 80); [cbn; now rewrite append_nil_r|]. now rewrite glue_fill, glue_words.
Qed.

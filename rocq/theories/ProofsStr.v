(** Facts about the string functions of [ModelStr]. *)
From Coq Require Import String Ascii List Bool NArith Lia Decimal DecimalString DecimalN.
From Verif Require Import ModelStr.
Import ListNotations.
Local Open Scope string_scope.
Local Open Scope bool_scope.

Lemma str_of_N_parse n : parse_digits (str_of_N n) = Some n.
Proof.
  unfold parse_digits, str_of_N.
  rewrite NilEmpty.usu, DecimalN.Unsigned.of_to.
  destruct (NilEmpty.string_of_uint (N.to_uint n)) eqn:E; [|reflexivity].
  exfalso. destruct n as [|p]; [discriminate E|].
  pose proof (DecimalN.Unsigned.of_to (N.pos p)) as H2.
  remember (N.to_uint (N.pos p)) as d.
  pose proof (NilEmpty.usu d) as H. rewrite E in H. cbn in H.
  injection H as H. rewrite <- H in H2. discriminate H2.
Qed.

Lemma str_of_N_inj n m : str_of_N n = str_of_N m -> n = m.
Proof.
  intros H. pose proof (str_of_N_parse n) as A. rewrite H, str_of_N_parse in A. congruence.
Qed.

Lemma str_of_N_nonempty n : str_of_N n <> EmptyString.
Proof. intros H. pose proof (str_of_N_parse n) as A. rewrite H in A. discriminate. Qed.

Lemma digits_of_uint d : all_chars is_digit (NilEmpty.string_of_uint d) = true.
Proof. induction d; cbn; auto. Qed.
Lemma str_of_N_digits n : all_chars is_digit (str_of_N n) = true.
Proof. apply digits_of_uint. Qed.

Lemma uint_of_string_digits s d :
  NilEmpty.uint_of_string s = Some d -> all_chars is_digit s = true.
Proof.
  intros H. rewrite <- (digits_of_uint d). f_equal. symmetry. now apply NilEmpty.sus.
Qed.
Lemma parse_digits_digits s n : parse_digits s = Some n -> all_chars is_digit s = true.
Proof.
  unfold parse_digits. destruct s as [|c t]; [discriminate|].
  destruct (NilEmpty.uint_of_string (String c t)) eqn:E; [|discriminate].
  intros _. eapply uint_of_string_digits; eassumption.
Qed.

Lemma all_chars_app f s t : all_chars f (s ++ t) = all_chars f s && all_chars f t.
Proof. induction s as [|c s IH]; cbn; [reflexivity|]. rewrite IH. apply andb_assoc. Qed.

Lemma app_empty_r s : s ++ "" = s.
Proof. induction s; cbn; congruence. Qed.
Lemma app_assoc_str a b c : (a ++ b) ++ c = a ++ (b ++ c).
Proof. induction a; cbn; congruence. Qed.

Lemma chomp_cons c t : t <> EmptyString -> chomp (String c t) = String c (chomp t).
Proof. destruct t; [congruence|reflexivity]. Qed.

Lemma app_nonempty_r s t : t <> EmptyString -> s ++ t <> EmptyString.
Proof. destruct s; cbn; congruence. Qed.

Lemma chomp_app s t : t <> EmptyString -> chomp (s ++ t) = s ++ chomp t.
Proof.
  intros H. induction s as [|c s IH]; [reflexivity|].
  change (chomp (String c (s ++ t)) = String c (s ++ chomp t)).
  rewrite chomp_cons by (now apply app_nonempty_r). now rewrite IH.
Qed.

Lemma chomp_digits s : all_chars is_digit s = true -> chomp s = s.
Proof.
  induction s as [|c s IH]; [reflexivity|]. intros H. cbn in H.
  apply andb_true_iff in H as [Hc Hs].
  destruct s as [|d t].
  - cbn [chomp]. destruct (Ascii.eqb_spec c newline); [|reflexivity]. subst c. discriminate Hc.
  - rewrite chomp_cons by discriminate. now rewrite (IH Hs).
Qed.

(** Printing an explicitly or automatically numbered name and splitting it again
    gives back the base name and the number. *)
Lemma split_suffix_canon b n : split_suffix (b ++ "_" ++ str_of_N n) = Some (b, n).
Proof.
  induction b as [|c b IH].
  - cbn [append split_suffix].
    assert (is_under "_" = true) as -> by reflexivity.
    now rewrite str_of_N_parse.
  - change (split_suffix (String c (b ++ "_" ++ str_of_N n)) = Some (String c b, n)).
    cbn [split_suffix]. rewrite IH.
    destruct (is_under c); [|reflexivity].
    destruct (parse_digits (b ++ "_" ++ str_of_N n)) eqn:E; [|reflexivity].
    apply parse_digits_digits in E. rewrite !all_chars_app in E. cbn in E.
    rewrite andb_false_r in E. discriminate.
Qed.

Lemma explicit_number_canon b n : explicit_number (b ++ "_" ++ str_of_N n) = Some (b, n).
Proof.
  unfold explicit_number. rewrite chomp_app by discriminate.
  rewrite (chomp_app "_") by apply str_of_N_nonempty.
  rewrite chomp_digits by apply str_of_N_digits.
  apply split_suffix_canon.
Qed.

Lemma numbered_inj b n b' n' :
  b ++ "_" ++ str_of_N n = b' ++ "_" ++ str_of_N n' -> b = b' /\ n = n'.
Proof.
  intros H. pose proof (explicit_number_canon b n) as A.
  rewrite H, explicit_number_canon in A. injection A as -> ->. auto.
Qed.

(** What [explicit_number] means without reference to the regular expression. *)
Lemma split_suffix_sound s b n :
  split_suffix s = Some (b, n) ->
  exists ds, s = b ++ "_" ++ ds /\ ds <> "" /\ all_chars is_digit ds = true /\ parse_digits ds = Some n.
Proof.
  revert b n. induction s as [|c t IH]; intros b n H; [discriminate|].
  cbn [split_suffix] in H.
  assert (R : match split_suffix t with Some (b, n) => Some (String c b, n) | None => None end = Some (b, n) ->
     exists ds, String c t = b ++ "_" ++ ds /\ ds <> "" /\ all_chars is_digit ds = true /\ parse_digits ds = Some n).
  { intros G. destruct (split_suffix t) as [[b1 n1]|] eqn:E; [|discriminate].
    injection G as <- <-. destruct (IH _ _ eq_refl) as (ds & -> & Hds).
    exists ds. auto. }
  destruct (is_under c) eqn:U; [|auto].
  destruct (parse_digits t) as [m|] eqn:E; [|auto].
  injection H as <- <-. exists t.
  apply Ascii.eqb_eq in U. subst c. cbn. repeat split; auto.
  - intros ->. discriminate E.
  - eapply parse_digits_digits; eassumption.
Qed.

(** Valid identifiers and default names. *)
Lemma chomp_spec s : chomp s = s \/ s = chomp s ++ String newline "".
Proof.
  induction s as [|c t IH]; [now left|].
  destruct t as [|d t].
  - cbn [chomp]. destruct (Ascii.eqb_spec c newline) as [->|]; auto.
  - rewrite chomp_cons by discriminate.
    destruct IH as [->|IH]; [now left|right]. cbn [append]. now f_equal.
Qed.

(** Case analysis on an ASCII character by computation. *)
Lemma ascii_cases (f : ascii -> bool) :
  (forall b0 b1 b2 b3 b4 b5 b6 b7, f (Ascii b0 b1 b2 b3 b4 b5 b6 b7) = true) -> forall c, f c = true.
Proof. intros H []. apply H. Qed.

Lemma lower_ident_char c : ident_char c = true -> ident_char (lower c) = true.
Proof.
  intros H.
  assert (E : forall c, implb (ident_char c) (ident_char (lower c)) = true).
  { apply ascii_cases. intros [] [] [] [] [] [] [] []; vm_compute; reflexivity. }
  specialize (E c). now rewrite H in E.
Qed.
Lemma lower_ident_start c : ident_start c = true -> ident_start (lower c) = true.
Proof.
  intros H.
  assert (E : forall c, implb (ident_start c) (ident_start (lower c)) = true).
  { apply ascii_cases. intros [] [] [] [] [] [] [] []; vm_compute; reflexivity. }
  specialize (E c). now rewrite H in E.
Qed.
Lemma lower_id c : is_upper c = false -> lower c = c.
Proof. unfold lower. now intros ->. Qed.

Lemma camel_ident_chars s : forall p,
  all_chars ident_char s = true -> all_chars ident_char (camel_aux p s) = true.
Proof.
  induction s as [|c s IH]; intros p H; [reflexivity|].
  cbn in H. apply andb_true_iff in H as [Hc Hs].
  cbn [camel_aux].
  match goal with |- context [if ?b then _ else _] => destruct b end;
    cbn [all_chars]; rewrite (lower_ident_char _ Hc), (IH _ Hs); reflexivity.
Qed.

Lemma ident_char_not_newline c : ident_char c = true -> c <> newline.
Proof. intros H ->. discriminate H. Qed.

Lemma chomp_ident_chars s : all_chars ident_char s = true -> chomp s = s.
Proof.
  induction s as [|c s IH]; [reflexivity|]. intros H. cbn in H.
  apply andb_true_iff in H as [Hc Hs].
  destruct s as [|d t].
  - cbn [chomp]. destruct (Ascii.eqb_spec c newline) as [->|]; [|reflexivity].
    discriminate Hc.
  - rewrite chomp_cons by discriminate. now rewrite (IH Hs).
Qed.

Lemma ident_chars s : ident s = true -> all_chars ident_char s = true.
Proof.
  destruct s as [|c t]; [discriminate|]. cbn. intros H.
  apply andb_true_iff in H as [Hc ->]. rewrite andb_true_r.
  unfold ident_start, ident_char in *. apply orb_true_iff in Hc as [-> | ->]; cbn; auto.
  now rewrite orb_true_r.
Qed.

Lemma camel_to_snake_valid s : ident s = true -> valid_identifier (camel_to_snake s) = true.
Proof.
  intros H. unfold valid_identifier, camel_to_snake.
  rewrite chomp_ident_chars by (apply camel_ident_chars, ident_chars, H).
  destruct s as [|c t]; [discriminate|].
  cbn in H. apply andb_true_iff in H as [Hc Ht].
  cbn [camel_aux andb orb]. rewrite !andb_false_r. cbn [ident].
  rewrite (lower_ident_start _ Hc), (camel_ident_chars _ _ Ht). reflexivity.
Qed.

Lemma camel_to_snake_id s : all_chars (fun c => negb (is_upper c)) s = true -> camel_to_snake s = s.
Proof.
  unfold camel_to_snake. generalize (@None ascii).
  induction s as [|c s IH]; intros p H; [reflexivity|].
  cbn in H. apply andb_true_iff in H as [Hc Hs]. apply negb_true_iff in Hc.
  cbn [camel_aux]. rewrite Hc. cbn [andb]. rewrite (lower_id _ Hc), (IH _ Hs). reflexivity.
Qed.

(** No upper-case letter survives. *)
Lemma lower_not_upper c : is_upper (lower c) = false.
Proof.
  apply negb_true_iff. revert c. apply ascii_cases.
  intros [] [] [] [] [] [] [] []; vm_compute; reflexivity.
Qed.
Lemma camel_no_upper s : forall p, all_chars (fun c => negb (is_upper c)) (camel_aux p s) = true.
Proof.
  induction s as [|c s IH]; intros p; [reflexivity|]. cbn [camel_aux].
  match goal with |- context [if ?b then _ else _] => destruct b end;
    cbn [all_chars]; rewrite lower_not_upper, IH; reflexivity.
Qed.

Lemma valid_identifier_spec s :
  valid_identifier s = true <-> ident s = true \/ exists t, s = t ++ String newline "" /\ ident t = true.
Proof.
  unfold valid_identifier. split.
  - intros H. destruct (chomp_spec s) as [E|E].
    + rewrite E in H. now left.
    + right. exists (chomp s). auto.
  - intros [H|(t & -> & H)].
    + now rewrite chomp_ident_chars by (apply ident_chars, H).
    + rewrite chomp_app by discriminate. cbn. now rewrite app_empty_r.
Qed.

(** Slashes. *)
Lemma split_slash_nonempty s : split_slash s <> [].
Proof.
  destruct s as [|c t]; cbn; [discriminate|].
  destruct (Ascii.eqb c "/"); [discriminate|]. destruct (split_slash t); discriminate.
Qed.

Lemma rsplit_slash_app a b :
  has_char "/" b = false -> rsplit_slash (a ++ "/" ++ b) = Some (a, b).
Proof.
  intros H. induction a as [|c a IH].
  - cbn [append]. cbn [rsplit_slash].
    assert (rsplit_slash b = None) as ->.
    { induction b as [|d b IHb]; [reflexivity|]. unfold has_char in *. cbn in *.
      apply negb_false_iff, andb_true_iff in H as [Hd Hb].
      rewrite IHb by (now rewrite Hb). now apply negb_true_iff in Hd as ->. }
    reflexivity.
  - change (rsplit_slash (String c (a ++ "/" ++ b)) = Some (String c a, b)).
    cbn [rsplit_slash]. now rewrite IH.
Qed.

Lemma strip_prefix_spec p s t : strip_prefix p s = Some t <-> s = p ++ t.
Proof.
  revert s. induction p as [|c p IH]; intros s; cbn.
  - split; congruence.
  - destruct s as [|d s]; [split; discriminate|].
    destruct (Ascii.eqb_spec c d) as [->|N].
    + rewrite IH. split; congruence.
    + split; [discriminate|]. intros H. congruence.
Qed.

(** * C73 (utils.py) and C74 (tables of summarise.py) *)
From Coq Require Import String Ascii NArith ZArith List Bool Lia Permutation Sorted.
From Verif Require Import ModelStr ProofsStr ModelUtils.
Import ListNotations.
Local Open Scope string_scope.

(** ** Strings *)
Lemma strip_prefix_spec : forall p s t, strip_prefix p s = Some t <-> s = p ++ t.
Proof.
  induction p as [|a p IH]; intros s t; cbn [strip_prefix append]; [split; congruence|].
  destruct s as [|b s]; [split; discriminate|]. destruct (Ascii.eqb_spec a b) as [->|N].
  - rewrite IH. split; congruence.
  - split; congruence.
Qed.
Lemma no_char_spec c : forall s, no_char c s = true <-> forall i, String.get i s <> Some c.
Proof.
  induction s as [|d s IH]; [split; [intros _ i; destruct i; discriminate | reflexivity]|]. unfold no_char in *. cbn [all_chars]. rewrite andb_true_iff, IH, negb_true_iff, Ascii.eqb_neq. split.
  - intros [H1 H2] [|i]; cbn [String.get]; [congruence | apply H2].
  - intros H. split; [intros ->; now apply (H 0%nat) | intros i; apply (H (S i))].
Qed.
Lemma ends_with_only_spec c : forall s, ends_with_only c s = true <-> exists u, s = u ++ String c "" /\ no_char c u = true.
Proof.
  induction s as [|d s IH].
  - split; [discriminate|]. intros ([|? u] & H & _); discriminate H.
  - destruct s as [|e s].
    + cbn [ends_with_only]. rewrite Ascii.eqb_eq. split.
      * intros ->. exists "". auto.
      * intros (u & H & _). destruct u as [|a u]; cbn in H; [now injection H as ->|]. injection H as -> H. destruct u; discriminate H.
    + change (ends_with_only c (String d (String e s))) with (negb (Ascii.eqb d c) && ends_with_only c (String e s))%bool.
      rewrite andb_true_iff, IH, negb_true_iff. split.
      * intros [H1 (u & H2 & H3)]. exists (String d u). cbn [append]. rewrite <- H2. split; [reflexivity|]. unfold no_char in *. cbn [all_chars]. now rewrite H1, H3.
      * intros (u & H2 & H3). destruct u as [|a u]; [discriminate H2|]. cbn [append] in H2. injection H2 as -> H2. unfold no_char in *. cbn [all_chars] in H3.
        apply andb_true_iff in H3 as [H3 H4]. rewrite negb_true_iff in H3. split; [exact H3|]. exists u. auto.
Qed.
Lemma chomp_spec : forall s t c, c <> newline -> chomp s = t ++ String c "" <-> exists nl, (nl = "" \/ nl = String newline "") /\ s = t ++ String c nl.
Proof.
  intros s t c Hc. revert t. induction s as [|d s IH]; intros t.
  - split; [destruct t; discriminate | intros (nl & _ & H); destruct t; discriminate H].
  - destruct s as [|e s].
    + cbn [chomp]. destruct (Ascii.eqb_spec d newline) as [->|N].
      * split; [destruct t; discriminate|]. intros (nl & [->| ->] & H); destruct t as [|a [|b t]]; try discriminate H; injection H; congruence.
      * split; [intros ->; exists ""; auto|]. intros (nl & [->| ->] & H); [exact H|]. destruct t as [|a [|b t]]; discriminate H.
    + change (chomp (String d (String e s))) with (String d (chomp (String e s))). destruct t as [|a t]; cbn [append].
      * split.
        -- intros H. injection H as -> H. exists (String e s). split; [|reflexivity]. right. destruct s as [|f s]; cbn [chomp] in H.
           ++ destruct (Ascii.eqb_spec e newline) as [->|]; [reflexivity | discriminate H].
           ++ discriminate H.
        -- intros (nl & [->| ->] & H); [discriminate H|]. injection H as -> -> ->. reflexivity.
      * split.
        -- intros H. injection H as -> H. apply IH in H as (nl & H1 & H2). exists nl. split; [exact H1|]. now rewrite H2.
        -- intros (nl & H1 & H). injection H as -> H. f_equal. apply IH. eauto.
Qed.
Lemma app_str_assoc : forall a b c, (a ++ b) ++ c = a ++ b ++ c.
Proof. induction a as [|x a IH]; intros b c; cbn [append]; [reflexivity | now rewrite IH]. Qed.

(** ** Data formats *)
Definition lacks (c : ascii) (s : string) : Prop := forall i, String.get i s <> Some c.
Definition first_format (s : string) : Prop := exists t, s = "NC" ++ t /\ lacks "C" t.
(** [nl] is empty or a newline. *)
Definition last_format (s : string) : Prop :=
  exists u nl, (nl = "" \/ nl = String newline "") /\
    ((s = "N" ++ u ++ String "C" nl /\ lacks "C" u) \/ ((s = "BT" ++ u ++ String "D" nl \/ s = "TB" ++ u ++ String "D" nl) /\ lacks "D" u)).
Lemma first_format_spec s : spatial_first s = true <-> first_format s.
Proof.
  unfold spatial_first, first_format. destruct (strip_prefix "NC" s) as [t|] eqn:E.
  - apply strip_prefix_spec in E. rewrite no_char_spec. split; [intros H; exists t; auto|]. intros (t' & -> & H). cbn in E. injection E as <-. exact H.
  - split; [discriminate|]. intros (t & H & _). apply strip_prefix_spec in H. congruence.
Qed.
Lemma last_spec p c s : c <> newline -> (match strip_prefix p (chomp s) with Some t => ends_with_only c t | None => false end) = true <->
  exists u nl, (nl = "" \/ nl = String newline "") /\ s = p ++ u ++ String c nl /\ lacks c u.
Proof.
  intros Hc. destruct (strip_prefix p (chomp s)) as [t|] eqn:E.
  - apply strip_prefix_spec in E. rewrite ends_with_only_spec. split.
    + intros (u & -> & Hu). rewrite <- app_str_assoc in E. apply chomp_spec in E as (nl & H1 & H2); [|exact Hc]. rewrite app_str_assoc in H2.
      exists u, nl. split; [exact H1|]. split; [exact H2|]. exact (proj1 (no_char_spec c u) Hu).
    + intros (u & nl & H1 & H2 & H3). exists u. split; [|exact (proj2 (no_char_spec c u) H3)].
      assert (X : chomp s = (p ++ u) ++ String c "") by (apply chomp_spec; [exact Hc | exists nl; rewrite app_str_assoc; auto]).
      rewrite app_str_assoc in X. rewrite E in X. clear - X. revert X. induction p as [|a p IH]; cbn [append]; intros X; [exact X|]. injection X as X. auto.
  - split; [discriminate|]. intros (u & nl & H1 & H2 & H3). exfalso.
    assert (X : chomp s = (p ++ u) ++ String c "") by (apply chomp_spec; [exact Hc | exists nl; rewrite app_str_assoc; auto]).
    rewrite app_str_assoc in X. apply strip_prefix_spec in X. congruence.
Qed.
(** Which formats are accepted and what they give: index 1 for "channels_first" and NC followed by other letters, -1 for
    "channels_last", N...C and BT...D or TB...D (a newline at the end does not matter there), and no other. *)
Theorem C73_channel_index s i : get_channel_index s = Some i <->
  (i = 1%Z /\ (s = "channels_first" \/ first_format s)) \/
  (i = (-1)%Z /\ (s = "channels_last" \/ last_format s) /\ ~ first_format s).
Proof.
  assert (L : spatial_last s = true \/ sequential_format s = true <-> last_format s).
  { unfold spatial_last, sequential_format, last_format. rewrite (last_spec "N" "C" s) by discriminate. split.
    - intros [(u & nl & H1 & H2 & H3)|H]; [exists u, nl; auto|].
      destruct (strip_prefix "BT" (chomp s)) as [t|] eqn:E.
      + assert (X : match strip_prefix "BT" (chomp s) with Some t => ends_with_only "D" t | None => false end = true) by now rewrite E.
        apply last_spec in X as (u & nl & H1 & H2 & H3); [|discriminate]. exists u, nl. auto.
      + apply last_spec in H as (u & nl & H1 & H2 & H3); [|discriminate]. exists u, nl. auto.
    - intros (u & nl & H1 & [[H2 H3]|[[H2|H2] H3]]); [left; eauto|right..].
      + assert (X : match strip_prefix "BT" (chomp s) with Some t => ends_with_only "D" t | None => false end = true) by (apply last_spec; [discriminate | eauto]).
        destruct (strip_prefix "BT" (chomp s)); [exact X | discriminate X].
      + assert (X : match strip_prefix "TB" (chomp s) with Some t => ends_with_only "D" t | None => false end = true) by (apply last_spec; [discriminate | eauto]).
        destruct (strip_prefix "BT" (chomp s)) as [t|] eqn:E; [|exact X]. apply strip_prefix_spec in E. rewrite E in X. discriminate X. }
  unfold get_channel_index. destruct (String.eqb_spec s "channels_first") as [->|N1].
  { split; [intros [= <-]; auto|]. intros [[-> _]|(-> & [H|H] & _)]; [reflexivity | discriminate H|].
    destruct H as (u & nl & _ & [[H _]|[[H|H] _]]); discriminate H. }
  destruct (String.eqb_spec s "channels_last") as [->|N2].
  { split.
    - intros [= <-]. right. split; [reflexivity|]. split; [now left|]. intros (t & H & _). discriminate H.
    - intros [[-> [H|H]]|[-> _]]; [discriminate H | destruct H as (t & H & _); discriminate H | reflexivity]. }
  destruct (spatial_first s) eqn:F.
  { apply first_format_spec in F. split; [intros [= <-]; auto|]. intros [[-> _]|(_ & _ & H)]; [reflexivity | contradiction]. }
  assert (NF : ~ first_format s) by (rewrite <- first_format_spec; congruence).
  destruct (spatial_last s) eqn:F1.
  { split; [intros [= <-]; right; split; [reflexivity|]; split; [right; apply L; auto | exact NF]|]. intros [[_ [H|H]]|[-> _]]; [contradiction | contradiction | reflexivity]. }
  destruct (sequential_format s) eqn:F2.
  { split; [intros [= <-]; right; split; [reflexivity|]; split; [right; apply L; auto | exact NF]|]. intros [[_ [H|H]]|[-> _]]; [contradiction | contradiction | reflexivity]. }
  split; [discriminate|]. intros [[_ [H|H]]|(_ & [H|H] & _)]; try contradiction. apply L in H as [H|H]; discriminate H.
Qed.
Print Assumptions C73_channel_index.
(** The index is the position of the channel letter. *)
Lemma get_app : forall a c b, String.get (String.length a) (a ++ String c b) = Some c.
Proof. induction a as [|x a IH]; intros c b; [reflexivity|]. cbn [append String.length String.get]. apply IH. Qed.
Lemma length_app_str : forall a b, String.length (a ++ b) = (String.length a + String.length b)%nat.
Proof. induction a as [|x a IH]; intros b; cbn [append String.length]; [reflexivity | now rewrite IH]. Qed.
Theorem C73_channel_letter s i : get_channel_index s = Some i -> s <> "channels_first" -> s <> "channels_last" ->
  String.get (String.length s - 1) s <> Some newline ->
  (i = 1%Z /\ String.get 1 s = Some "C"%char) \/
  (i = (-1)%Z /\ (String.get (String.length s - 1) s = Some "C"%char \/ String.get (String.length s - 1) s = Some "D"%char)).
Proof.
  intros H N1 N2 Hn. apply C73_channel_index in H as [[-> [H|H]]|(-> & [H|H] & _)]; try contradiction.
  - left. split; [reflexivity|]. destruct H as (t & -> & _). reflexivity.
  - right. split; [reflexivity|]. destruct H as (u & nl & Hnl & H).
    assert (X : exists p c, s = p ++ String c nl /\ (c = "C" \/ c = "D")%char).
    { destruct H as [[H _]|[[H|H] _]]; [exists ("N" ++ u), "C"%char | exists ("BT" ++ u), "D"%char | exists ("TB" ++ u), "D"%char]; rewrite app_str_assoc; auto. }
    destruct X as (p & c & -> & Hc). destruct Hnl as [->| ->].
    + rewrite length_app_str. cbn [String.length]. replace (String.length p + 1 - 1)%nat with (String.length p) by lia. rewrite get_app. destruct Hc as [->| ->]; auto.
    + exfalso. apply Hn. rewrite length_app_str. cbn [String.length]. replace (String.length p + 2 - 1)%nat with (String.length p + 1)%nat by lia.
      change (String c (String newline "")) with (String c "" ++ String newline ""). rewrite <- app_str_assoc.
      replace (String.length p + 1)%nat with (String.length (p ++ String c "")) by (rewrite length_app_str; reflexivity). apply get_app.
Qed.
Print Assumptions C73_channel_letter.
Example C73_channel_case : get_channel_index "NCHW" = Some 1%Z /\ get_channel_index "NHWC" = Some (-1)%Z /\ get_channel_index "BTHWD" = Some (-1)%Z /\
  get_channel_index "NC" = Some 1%Z /\ get_channel_index "NCHC" = None /\ get_channel_index "HWC" = None /\ get_channel_index (String "N" (String "C" (String newline ""))) = Some 1%Z.
Proof. repeat split. Qed.

(** ** format_bytes *)
Local Open Scope N_scope.
Lemma bytes_loop_spec n : forall suffixes scale suffix, scale <= n \/ scale = 1 -> 0 < scale ->
  exists k, (k <= List.length suffixes)%nat /\ bytes_loop n scale suffix suffixes = (scale * 1000 ^ N.of_nat k, nth k (suffix :: suffixes) "") /\
    ((k < List.length suffixes)%nat -> n < 1000 * (scale * 1000 ^ N.of_nat k)) /\ ((0 < k)%nat -> scale * 1000 ^ N.of_nat k <= n).
Proof.
  induction suffixes as [|s suffixes IH]; intros scale suffix Hs H0; cbn [bytes_loop].
  - exists 0%nat. cbn [List.length]. split; [lia|]. split; [cbn; f_equal; lia|]. split; lia.
  - destruct (N.leb_spec (1000 * scale) n) as [L|L].
    + destruct (IH (1000 * scale) s) as (k & A & B & C & D); [left; lia | lia|]. exists (S k).
      assert (E : scale * 1000 ^ N.of_nat (S k) = 1000 * scale * 1000 ^ N.of_nat k) by (rewrite Nnat.Nat2N.inj_succ, N.pow_succ_r'; lia).
      cbn [List.length]. split; [lia|]. split; [rewrite B, E; reflexivity|]. rewrite E. split; [intros Hk; specialize (C ltac:(lia)); lia|].
      intros _. destruct k as [|k]; [cbn [N.of_nat]; rewrite N.pow_0_r; lia | apply D; lia].
    + exists 0%nat. split; [lia|]. split; [cbn; f_equal; lia|]. split; [intros _; cbn [N.of_nat]; rewrite N.pow_0_r; lia | lia].
Qed.
Lemma hundredths_near n scale : 0 < scale -> 2 * (scale * hundredths n scale) <= 200 * n + scale /\ 200 * n <= 2 * (scale * hundredths n scale) + scale.
Proof.
  intros H. unfold hundredths. pose proof (N.div_mod (100 * n) scale ltac:(lia)) as E. pose proof (N.mod_lt (100 * n) scale ltac:(lia)) as L.
  set (q := 100 * n / scale) in *. set (r := 100 * n mod scale) in *. clearbody q r.
  assert (M : scale * (q + 1) = scale * q + scale) by lia.
  destruct (N.ltb_spec (2 * r) scale); [lia|]. destruct (N.ltb_spec scale (2 * r)); [rewrite M; lia|]. destruct (N.even q); [lia | rewrite M; lia].
Qed.
(** Halves go to the even neighbour. *)
Lemma hundredths_even n scale : 0 < scale ->
  2 * (scale * hundredths n scale) = 200 * n + scale \/ 200 * n = 2 * (scale * hundredths n scale) + scale -> N.even (hundredths n scale) = true.
Proof.
  intros H. unfold hundredths. pose proof (N.div_mod (100 * n) scale ltac:(lia)) as E. pose proof (N.mod_lt (100 * n) scale ltac:(lia)) as L.
  set (q := 100 * n / scale) in *. set (r := 100 * n mod scale) in *. clearbody q r.
  assert (M : scale * (q + 1) = scale * q + scale) by lia.
  destruct (N.ltb_spec (2 * r) scale); [lia|]. destruct (N.ltb_spec scale (2 * r)); [rewrite M; lia|]. destruct (N.even q) eqn:Q; [auto|].
  intros _. rewrite N.add_1_r, N.even_succ, <- N.negb_even, Q. reflexivity.
Qed.
(** The unit is the largest of 1, 10^3, ... 10^12 not above the number; the number shown, [a.bc], is within half a hundredth of the
    exact quotient, and its last digit is even if two such numbers are equally near. *)
Theorem C73_format_bytes n : exists k a b c, (k <= 4)%nat /\
  format_bytes n = (str_of_N a ++ "." ++ str_of_N b ++ str_of_N c ++ " " ++ nth k ["B"; "KB"; "MB"; "GB"; "TB"] "")%string /\
  b < 10 /\ c < 10 /\ ((k < 4)%nat -> n < 1000 * 1000 ^ N.of_nat k) /\ ((0 < k)%nat -> 1000 ^ N.of_nat k <= n) /\
  2 * (1000 ^ N.of_nat k * (100 * a + 10 * b + c)) <= 200 * n + 1000 ^ N.of_nat k /\
  200 * n <= 2 * (1000 ^ N.of_nat k * (100 * a + 10 * b + c)) + 1000 ^ N.of_nat k /\
  (2 * (1000 ^ N.of_nat k * (100 * a + 10 * b + c)) = 200 * n + 1000 ^ N.of_nat k \/
   200 * n = 2 * (1000 ^ N.of_nat k * (100 * a + 10 * b + c)) + 1000 ^ N.of_nat k -> N.even c = true).
Proof.
  unfold format_bytes. destruct (bytes_loop_spec n ["KB"; "MB"; "GB"; "TB"]%string 1 "B") as (k & A & B & C & D); [now right | lia|]. cbn [List.length] in *.
  rewrite B. rewrite N.mul_1_l in *. set (scale := 1000 ^ N.of_nat k) in *. assert (P : 0 < scale) by (unfold scale; apply N.neq_0_lt_0, N.pow_nonzero; lia).
  destruct (hundredths_near n scale P) as [E F]. pose proof (hundredths_even n scale P) as G. set (h := hundredths n scale) in *.
  assert (X : h = 100 * (h / 100) + 10 * (h mod 100 / 10) + h mod 100 mod 10).
  { pose proof (N.div_mod h 100 ltac:(lia)). pose proof (N.div_mod (h mod 100) 10 ltac:(lia)). lia. }
  exists k, (h / 100), (h mod 100 / 10), (h mod 100 mod 10). split; [exact A|]. split.
  { f_equal. f_equal. unfold two_digits. rewrite app_str_assoc. reflexivity. }
  split; [apply N.div_lt_upper_bound; [lia|]; pose proof (N.mod_lt h 100 ltac:(lia)); lia|]. split; [apply N.mod_lt; lia|].
  split; [exact C|]. split; [exact D|]. rewrite <- X. split; [exact E|]. split; [exact F|].
  intros T. specialize (G T). rewrite X in G at 1. revert G. rewrite !N.even_add, !N.even_mul. cbn [N.even orb]. now destruct (N.even (h mod 100 mod 10)).
Qed.
Print Assumptions C73_format_bytes.
Example C73_bytes_case : format_bytes 942000 = "942.00 KB"%string /\ format_bytes 0 = "0.00 B"%string /\ format_bytes 1066440 = "1.07 MB"%string /\
  format_bytes 2000000000000000 = "2000.00 TB"%string /\
  format_bytes 1005 = "1.00 KB"%string /\ format_bytes 1015 = "1.02 KB"%string /\ format_bytes 1000 = "1.00 KB"%string /\ format_bytes 999 = "999.00 B"%string.
Proof. repeat split; vm_compute; reflexivity. Qed.
(** The number shown in front of a unit below TB can be 1000.00. *)
Theorem C73_thousand_refuted : ~ (forall n a suffix, format_bytes n = (str_of_N a ++ "." ++ suffix)%string -> n < 1000000000000 -> a < 1000).
Proof. intros H. specialize (H 999995 1000 "00 KB"%string ltac:(vm_compute; reflexivity) ltac:(lia)). lia. Qed.
Print Assumptions C73_thousand_refuted.

(** ** Arrays *)
Local Open Scope string_scope.
Lemma app_inj_sep c : forall a b x y, no_char c a = true -> no_char c b = true -> a ++ String c x = b ++ String c y -> a = b /\ x = y.
Proof.
  unfold no_char. induction a as [|d a IH]; intros [|e b] x y Ha Hb H; cbn [append all_chars] in *.
  - injection H as ->. auto.
  - injection H as <- H. rewrite Ascii.eqb_refl in Hb. discriminate Hb.
  - injection H as -> H. rewrite Ascii.eqb_refl in Ha. discriminate Ha.
  - injection H as -> H. apply andb_true_iff in Ha as [_ Ha]. apply andb_true_iff in Hb as [_ Hb]. destruct (IH b x y Ha Hb H) as [-> ->]. auto.
Qed.
Lemma digits_no_char c s : is_digit c = false -> all_chars is_digit s = true -> no_char c s = true.
Proof.
  intros Hc. unfold no_char. induction s as [|d s IH]; cbn [all_chars]; [reflexivity|]. intros H. apply andb_true_iff in H as [H1 H2].
  rewrite (IH H2), andb_true_r, negb_true_iff. apply Ascii.eqb_neq. intros ->. congruence.
Qed.
Lemma concat_digits_no_char c : is_digit c = false -> c <> ","%char -> forall l, no_char c (String.concat "," (map str_of_N l)) = true.
Proof.
  intros H1 H2. assert (D : forall n, no_char c (str_of_N n) = true) by (intros n; apply digits_no_char; [exact H1 | apply str_of_N_digits]).
  induction l as [|n l IH]; [reflexivity|]. destruct l as [|m l]; [apply D|].
  change (String.concat "," (map str_of_N (n :: m :: l))) with (str_of_N n ++ "," ++ String.concat "," (map str_of_N (m :: l))).
  unfold no_char in *. rewrite !all_chars_app, D, IH, andb_true_r. cbn [all_chars]. rewrite andb_true_r, andb_true_l. apply negb_true_iff, Ascii.eqb_neq. congruence.
Qed.
Lemma concat_digits_inj : forall l m, String.concat "," (map str_of_N l) = String.concat "," (map str_of_N m) -> l = m.
Proof.
  assert (C : forall n, no_char "," (str_of_N n) = true) by (intros n; apply digits_no_char; [reflexivity | apply str_of_N_digits]).
  assert (Z : forall n l, String.concat "," (map str_of_N (n :: l)) <> "").
  { intros n [|m l] H; [now apply (str_of_N_nonempty n)|]. cbn [map String.concat] in H. destruct (str_of_N n) eqn:E; [now apply (str_of_N_nonempty n) | discriminate H]. }
  assert (N1 : forall a n b, no_char "," a = true -> a <> str_of_N n ++ "," ++ b).
  { intros a n b Ha ->. unfold no_char in Ha. rewrite !all_chars_app in Ha. cbn [all_chars] in Ha. rewrite andb_false_r in Ha. discriminate Ha. }
  induction l as [|a l IH]; intros [|b m] H.
  - reflexivity.
  - symmetry in H. now apply Z in H.
  - now apply Z in H.
  - destruct l as [|a' l], m as [|b' m].
    + cbn in H. apply str_of_N_inj in H. congruence.
    + exfalso. apply (N1 _ b (String.concat "," (map str_of_N (b' :: m))) (C a)). exact H.
    + exfalso. symmetry in H. apply (N1 _ a (String.concat "," (map str_of_N (a' :: l))) (C b)). exact H.
    + change (str_of_N a ++ String "," (String.concat "," (map str_of_N (a' :: l))) = str_of_N b ++ String "," (String.concat "," (map str_of_N (b' :: m)))) in H.
      apply app_inj_sep in H as [H1 H2]; [|apply C..]. apply str_of_N_inj in H1 as ->. f_equal. now apply IH.
Qed.
(** Descriptions of arrays determine the dtype and the shape. *)
Theorem C73_format_array d1 s1 d2 s2 : format_array d1 s1 = format_array d2 s2 <-> d1 = d2 /\ s1 = s2.
Proof.
  split; [|intros [-> ->]; reflexivity]. intros H. unfold format_array in H.
  apply (app_inj_sep "[") in H as [H1 H2]; [|destruct d1; reflexivity | destruct d2; reflexivity].
  apply (app_inj_sep "]") in H2 as [H2 _]; [|apply concat_digits_no_char; [reflexivity | discriminate]..].
  split; [destruct d1, d2; try reflexivity; discriminate H1 | now apply concat_digits_inj].
Qed.
Print Assumptions C73_format_array.
Example C73_array_case : format_array Float32 [8; 784]%N = "f32[8,784]" /\ format_array Bfloat16 [] = "bf16[]" /\ format_array Uint8 [3]%N = "u8[3]" /\
  format_array Int32 [3]%N = "s32[3]" /\ format_array Complex64 [1; 0]%N = "c64[1,0]".
Proof. repeat split; vm_compute; reflexivity. Qed.
(** The number at the end of a dtype's name is the number of bits of an element; a boolean takes a byte. *)
Theorem C73_itemsize d : (d = Bool /\ itemsize d = 1%N) \/
  exists letters, dtype_name d = letters ++ str_of_N (8 * itemsize d) /\ In letters ["uint"; "int"; "bfloat"; "float"; "complex"].
Proof.
  destruct d; [left; split; reflexivity|..]; right;
    first [ exists "uint"; split; [vm_compute; reflexivity|cbn; tauto] | exists "int"; split; [vm_compute; reflexivity|cbn; tauto]
          | exists "bfloat"; split; [vm_compute; reflexivity|cbn; tauto] | exists "float"; split; [vm_compute; reflexivity|cbn; tauto]
          | exists "complex"; split; [vm_compute; reflexivity|cbn; tauto] ].
Qed.
Print Assumptions C73_itemsize.
Example C73_itemsize_case : itemsize Bfloat16 = 2%N /\ itemsize Complex64 = 8%N /\ tree_bytes [(Int64, [3]); (Complex128, []); (Bool, [5])]%N = 45%N.
Proof. repeat split; vm_compute; reflexivity. Qed.
(** Sizes add up over the leaves, in any order. *)
Theorem C73_tree_size l m : Permutation l m -> tree_size l = tree_size m /\ tree_bytes l = tree_bytes m.
Proof.
  intros H. unfold tree_size, tree_bytes. split; induction H; cbn [map fold_right]; lia.
Qed.
Theorem C73_tree_size_app l m : tree_size (l ++ m) = (tree_size l + tree_size m)%N /\ tree_bytes (l ++ m) = (tree_bytes l + tree_bytes m)%N /\
  (tree_size l <= tree_bytes l <= 16 * tree_size l)%N.
Proof.
  unfold tree_size, tree_bytes. split; [|split].
  - induction l as [|x l IH]; cbn [app map fold_right]; lia.
  - induction l as [|x l IH]; cbn [app map fold_right]; lia.
  - induction l as [|x l IH]; cbn [map fold_right]; [lia|]. assert (1 <= itemsize (fst x) <= 16)%N by (destruct (fst x); cbn; lia).
    set (s := size x) in *. set (i := itemsize (fst x)) in *. nia.
Qed.
Print Assumptions C73_tree_size_app.
Example C73_tree_case : tree_size [(Float32, [784; 300]); (Float32, [300])]%N = 235500%N /\ tree_bytes [(Float32, [784; 300]); (Bfloat16, [300])]%N = 941400%N.
Proof. split; vm_compute; reflexivity. Qed.

(** ** auto_repr *)
Lemma has_spec l n : has l n = true <-> In n l.
Proof. unfold has. rewrite existsb_exists. split; [intros (x & H & E); apply String.eqb_eq in E as ->; exact H | intros H; exists n; split; [exact H | apply String.eqb_refl]]. Qed.
Lemma has_false l n : has l n = false <-> ~ In n l.
Proof. rewrite <- has_spec. destruct (has l n); split; congruence. Qed.
Lemma lookup_cons {A} n m (v : A) l : lookup n ((m, v) :: l) = if (m =? n)%string then Some v else lookup n l.
Proof. unfold lookup. cbn [find fst]. destruct (m =? n); reflexivity. Qed.
Lemma lookup_app {A} n (a b : list (string * A)) : lookup n (a ++ b) = match lookup n a with Some v => Some v | None => lookup n b end.
Proof. induction a as [|[m v] a IH]; [reflexivity|]. cbn [app]. rewrite !lookup_cons, IH. destruct (m =? n); reflexivity. Qed.
Lemma lookup_none {A} n (l : list (string * A)) : lookup n l = None <-> ~ In n (map fst l).
Proof.
  induction l as [|[m v] l IH]; [split; [intros _ [] | reflexivity]|]. rewrite lookup_cons. cbn [map fst In]. destruct (String.eqb_spec m n) as [->|N]; [|tauto].
  split; [discriminate | intros H; exfalso; auto].
Qed.
Lemma lookup_filter {A} n (f : string -> bool) (l : list (string * A)) : lookup n (filter (fun p => f (fst p)) l) = if f n then lookup n l else None.
Proof.
  induction l as [|[m v] l IH]; [destruct (f n); reflexivity|]. cbn [filter fst]. destruct (f m) eqn:E; rewrite ?lookup_cons, IH; destruct (String.eqb_spec m n) as [->|N]; rewrite ?E; reflexivity.
Qed.
Section ReprProofs.
Context {V : Type} (same : V -> V -> bool).
Lemma bind_args_val (s : signature V) kwargs : forall names args l rest, NoDup names -> bind_args s names args kwargs = Some (l, rest) ->
  map fst l = names /\ rest = skipn (List.length names) args /\
  forall n v, In (n, v) l -> In n (firstn (List.length args) names) \/ In n (map fst kwargs) \/ default_of s n = Some v.
Proof.
  induction names as [|m names IH]; intros args l rest Hn H; cbn [bind_args] in H.
  - injection H as <- <-. split; [reflexivity|]. split; [reflexivity | intros ? ? []].
  - inversion Hn as [|? ? Hm Hn']. subst.
    destruct args as [|a args].
    + destruct (match lookup m kwargs with Some v => Some (v, []) | None => option_map (fun d => (d, [])) (default_of s m) end) as [[v args]|] eqn:E; [|discriminate H].
      assert (X : args = []) by (destruct (lookup m kwargs); [congruence | destruct (default_of s m); [cbn in E; congruence | discriminate E]]). subst args.
      destruct (bind_args s names [] kwargs) as [[l' rest']|] eqn:B; [|discriminate H]. injection H as <- <-. destruct (IH _ _ _ Hn' B) as (I1 & I2 & I3).
      split; [cbn; now rewrite I1|]. split; [rewrite I2; destruct (List.length names); reflexivity|].
      intros n w [Hw|Hw].
      * injection Hw as <- <-. right. destruct (lookup m kwargs) as [u|] eqn:L.
        -- left. destruct (in_dec string_dec m (map fst kwargs)) as [i|i]; [exact i|]. apply lookup_none in i. congruence.
        -- right. destruct (default_of s m); [cbn in E; congruence | discriminate E].
      * destruct (I3 n w Hw) as [I|I]; [destruct names; destruct I | auto].
    + destruct (lookup m kwargs) eqn:L; [discriminate H|]. destruct (bind_args s names args kwargs) as [[l' rest']|] eqn:B; [|discriminate H].
      injection H as <- <-. destruct (IH _ _ _ Hn' B) as (I1 & I2 & I3). split; [cbn; now rewrite I1|]. split; [exact I2|].
      intros n w [Hw|Hw]; [injection Hw as <- _; left; now left|]. destruct (I3 n w Hw) as [I|I]; [left; now right | auto].
Qed.
Lemma lookup_in {A} : forall (l : list (string * A)) n v, NoDup (map fst l) -> In (n, v) l -> lookup n l = Some v.
Proof.
  induction l as [|[m w] l IH]; intros n v H1 H2; [destruct H2|]. rewrite lookup_cons. cbn [map fst] in H1. apply NoDup_cons_iff in H1 as [H1 H1']. destruct H2 as [H2|H2].
  - injection H2 as -> ->. now rewrite String.eqb_refl.
  - destruct (String.eqb_spec m n) as [->|N]; [|auto]. exfalso. apply H1. now apply (in_map fst) in H2.
Qed.
Lemma bind_args_kw (s : signature V) kwargs : forall l, Forall (fun p : string * V => exists v, (match lookup (fst p) kwargs with Some v => Some v | None => default_of s (fst p) end) = Some v /\ (snd p = v \/ same (snd p) v = true)) l ->
  exists l', bind_args s (map fst l) [] kwargs = Some (l', []) /\ Forall2 (fun p q => fst p = fst q /\ (snd p = snd q \/ same (snd p) (snd q) = true)) l l'.
Proof.
  induction l as [|[n v] l IH]; intros H; [exists []; split; [reflexivity | constructor]|].
  apply Forall_cons_iff in H as [(w & H1 & H2) H3]. destruct (IH H3) as (l' & B & F). cbn [fst snd map bind_args] in *.
  exists ((n, w) :: l'). split; [|constructor; [cbn; auto | exact F]].
  destruct (lookup n kwargs) as [u|]; [injection H1 as ->; now rewrite B|]. rewrite H1. cbn [option_map]. now rewrite B.
Qed.
Lemma bind_kwonly_ext (k1 k2 : list (string * V)) : forall l, (forall n, In n (map fst l) -> lookup n k1 = lookup n k2) -> bind_kwonly l k1 = bind_kwonly l k2.
Proof.
  induction l as [|[n d] l IH]; intros H; [reflexivity|]. cbn [bind_kwonly]. rewrite IH by (intros m Hm; apply H; now right). rewrite (H n) by now left. reflexivity.
Qed.
(** The keyword arguments in what is printed. *)
Definition keywords (l : list (option string * V)) : list (string * V) :=
  flat_map (fun p => match fst p with Some n => [(n, snd p)] | None => [] end) l.
Lemma keywords_app a b : keywords (a ++ b) = (keywords a ++ keywords b)%list.
Proof. apply flat_map_app. Qed.
Lemma keywords_kw (l : list (string * V)) : keywords (map (fun p => (Some (fst p), snd p)) l) = l.
Proof. induction l as [|[n v] l IH]; [reflexivity|]. cbn. now rewrite <- IH at 2. Qed.
(** If no argument goes to [*args], what is printed is a call with keyword arguments only, which is accepted and binds every parameter
    to the value it had in the original call, up to [==] with its default. *)
Theorem C73_repr_round_trip (s : signature V) args kwargs b l :
  NoDup ("self" :: s_args s ++ map fst (s_kwonly s)) -> (List.length args <= List.length (s_args s))%nat ->
  getcallargs s args kwargs = Some b -> shown same s args kwargs = Some l ->
  Forall (fun p => fst p <> None) l /\
  exists b', getcallargs s [] (keywords l) = Some b' /\
    Forall2 (fun p q => fst p = fst q /\ (snd p = snd q \/ same (snd p) (snd q) = true)) (b_args b) (b_args b') /\
    b_var b = [] /\ b_var b' = [] /\ b_kwonly b' = b_kwonly b /\ b_kw b' = b_kw b.
Proof.
  intros Hn Ha Hb Hl. apply NoDup_cons_iff in Hn as [Hself Hn].
  unfold shown in Hl. rewrite Hb in Hl. unfold getcallargs in Hb.
  destruct (bind_args s (s_args s) args kwargs) as [[la rest]|] eqn:B1; [|discriminate Hb]. destruct (bind_kwonly (s_kwonly s) kwargs) as [k|] eqn:B2; [|discriminate Hb].
  match type of Hb with (if ?c then _ else _) = _ => destruct c eqn:C; [discriminate Hb|] end. injection Hb as <-. cbn [b_args b_var b_kwonly b_kw] in *.
  assert (Na : NoDup (s_args s)) by (clear - Hn; induction (s_args s) as [|m l IH]; [constructor|]; cbn [app] in Hn; apply NoDup_cons_iff in Hn as [X Y]; constructor; [intros Z; apply X, in_or_app; now left | auto]).
  assert (Dis : forall n, In n (map fst (s_kwonly s)) -> ~ In n (s_args s)).
  { clear - Hn. intros n H1 H2. revert Hn H2. generalize (s_args s). intros l; induction l as [|m l IH]; intros Hn H2; [destruct H2|]. cbn [app] in Hn. apply NoDup_cons_iff in Hn as [X Y].
    destruct H2 as [->|H2]; [apply X; apply in_or_app; auto | auto]. }
  destruct (bind_args_val s kwargs _ _ _ _ Na B1) as (V1 & V2 & V3).
  assert (SK : skipn (List.length (s_args s)) args = []) by (apply skipn_all2; exact Ha). rewrite SK in Hl. rewrite SK in V2. subst rest. cbn [map app] in Hl.
  set (nonself := fun p : string * V => negb (has ("self" :: s_args s) (fst p))) in *.
  set (arg_names := (firstn (List.length args) (s_args s) ++ filter (has (map fst kwargs)) (s_args s))%list) in *.
  set (g := fun n => match lookup n la with Some v => if match default_of s n with Some d => same v d | None => false end then [] else [(Some n, v)] | None => [] end) in *.
  assert (AN : forall n, In n arg_names <-> In n (firstn (List.length args) (s_args s)) \/ (In n (s_args s) /\ In n (map fst kwargs))).
  { intros n. unfold arg_names. rewrite in_app_iff, filter_In, has_spec. tauto. }
  assert (AS : forall n, In n arg_names -> In n (s_args s)).
  { intros n H. apply AN in H as [H|[H _]]; [|exact H]. rewrite <- (firstn_skipn (List.length args)). apply in_or_app. now left. }
  injection Hl as <-. split.
  { apply Forall_app. split; apply Forall_forall; intros p Hp.
    - apply in_flat_map in Hp as (n & _ & Hp). unfold g in Hp. destruct (lookup n la) as [v|]; [|destruct Hp].
      destruct (match default_of s n with Some d => same v d | None => false end); [destruct Hp|]. destruct Hp as [<-|[]]. discriminate.
    - apply in_map_iff in Hp as (q & <- & _). discriminate. }
  rewrite keywords_app, keywords_kw. set (A := keywords (flat_map g arg_names)). set (K := filter nonself kwargs).
  (* names in A *)
  assert (HA : forall n, In n (map fst A) -> In n arg_names).
  { intros n H. apply in_map_iff in H as ([m v] & <- & H). unfold A, keywords in H. apply in_flat_map in H as (q & Hq & H). apply in_flat_map in Hq as (n & Hn' & Hq).
    unfold g in Hq. destruct (lookup n la) as [w|]; [|destruct Hq]. destruct (match default_of s n with Some d => same w d | None => false end); [destruct Hq|].
    destruct Hq as [<-|[]]. destruct H as [H|[]]. cbn in H. injection H as <- _. exact Hn'. }
  assert (LA : forall n v, In n arg_names -> lookup n la = Some v -> lookup n A = if match default_of s n with Some d => same v d | None => false end then None else Some v).
  { unfold A. clear - g. intros n v. generalize arg_names. intros l. induction l as [|m l IH]; intros H1 H2; [destruct H1|].
    cbn [flat_map]. rewrite keywords_app, lookup_app.
    destruct (string_dec m n) as [->|N].
    - unfold g at 1. rewrite H2. destruct (match default_of s n with Some d => same v d | None => false end) eqn:E.
      + cbn [keywords flat_map]. change (lookup n (@nil (string * V))) with (@None V). cbn iota.
        destruct (in_dec string_dec n l) as [i|i]; [apply IH; assumption|]. apply lookup_none. intros X. apply i.
        apply in_map_iff in X as ([m w] & <- & X). unfold keywords in X. apply in_flat_map in X as (q & Hq & X). apply in_flat_map in Hq as (n' & Hn' & Hq).
        unfold g in Hq. destruct (lookup n' la) as [w'|]; [|destruct Hq]. destruct (match default_of s n' with Some d => same w' d | None => false end); [destruct Hq|].
        destruct Hq as [<-|[]]. destruct X as [X|[]]. cbn in X. injection X as <- _. exact Hn'.
      + cbn [keywords flat_map fst snd app]. rewrite lookup_cons, String.eqb_refl. reflexivity.
    - destruct H1 as [H1|H1]; [contradiction|]. replace (lookup n (keywords (g m))) with (@None V); [apply IH; assumption|].
      symmetry. unfold g. destruct (lookup m la) as [w|]; [|reflexivity]. destruct (match default_of s m with Some d => same w d | None => false end); [reflexivity|].
      cbn [keywords flat_map fst snd app]. rewrite lookup_cons. destruct (String.eqb_spec m n); [contradiction | reflexivity]. }
  assert (LK : forall n, lookup n K = if negb (has ("self" :: s_args s) n) then lookup n kwargs else None) by (intros n; apply (lookup_filter n (fun m => negb (has ("self" :: s_args s) m)))).
  (* binding the parameters *)
  destruct (bind_args_kw s (A ++ K) la) as (la' & B1' & F).
  { apply Forall_forall. intros [n v] Hin. cbn [fst snd]. assert (In n (s_args s)) by (rewrite <- V1; now apply (in_map fst) in Hin).
    assert (L : lookup n la = Some v) by (apply lookup_in; [now rewrite V1 | exact Hin]).
    rewrite lookup_app, LK. replace (has ("self" :: s_args s) n) with true by (symmetry; apply has_spec; now right). cbn [negb].
    destruct (in_dec string_dec n arg_names) as [i|i].
    - rewrite (LA n v i L). destruct (match default_of s n with Some d => same v d | None => false end) eqn:E; [|eauto]. destruct (default_of s n) as [d|]; [eauto | discriminate E].
    - replace (lookup n A) with (@None V) by (symmetry; apply lookup_none; auto). destruct (V3 n v Hin) as [X|[X|X]]; [exfalso; apply i, AN; auto..|]. exists v. auto. }
  rewrite V1 in B1'.
  apply orb_false_iff in C as [C C3]. apply orb_false_iff in C as [C1 _]. apply has_false in C1.
  assert (NK : forall n, ~ In n (s_args s) -> n <> "self" -> lookup n (A ++ K) = lookup n kwargs).
  { intros n H1 H2. rewrite lookup_app. replace (lookup n A) with (@None V) by (symmetry; apply lookup_none; auto). rewrite LK.
    replace (has ("self" :: s_args s) n) with false; [reflexivity|]. symmetry. apply has_false. intros [H|H]; auto. }
  assert (B2' : bind_kwonly (s_kwonly s) (A ++ K) = Some k).
  { rewrite <- B2. apply bind_kwonly_ext. intros n H. apply NK; [auto|]. intros ->. apply Hself, in_or_app. now right. }
  set (other := fun p : string * V => negb (has ("self" :: (s_args s ++ map fst (s_kwonly s))%list) (fst p))) in *.
  assert (OT : filter other (A ++ K) = filter other kwargs).
  { rewrite filter_app. replace (filter other A) with (@nil (string * V)).
    - cbn [app]. unfold K. clear. induction kwargs as [|p l IH]; [reflexivity|]. cbn [filter]. destruct (nonself p) eqn:E; cbn [filter].
      + rewrite IH. reflexivity.
      + replace (other p) with false; [exact IH|]. symmetry. unfold nonself in E. unfold other. apply negb_false_iff in E. apply negb_false_iff. apply has_spec in E. apply has_spec.
        destruct E as [E|E]; [now left | right; apply in_or_app; now left].
    - symmetry. assert (X : Forall (fun p => other p = false) A).
      { apply Forall_forall. intros p Hp. unfold other. apply negb_false_iff, has_spec. right. apply in_or_app. left. apply AS, HA. now apply in_map. }
      clear - X. induction X as [|p l Hp X IH]; [reflexivity|]. cbn [filter]. now rewrite Hp. }
  assert (SF : has (map fst (A ++ K)) "self" = false).
  { apply has_false. rewrite map_app, in_app_iff. intros [H|H]; [apply HA, AS in H; apply Hself, in_or_app; now left|]. apply C1. apply in_map_iff in H as (p & <- & H). apply filter_In in H as [H _]. now apply in_map. }
  exists (Bound la' [] k (filter other kwargs)). split.
  { unfold getcallargs. rewrite B1', B2'. fold other. rewrite OT, SF. cbn [negb]. rewrite andb_false_r. cbn [orb]. rewrite C3. reflexivity. }
  cbn [b_args b_var b_kwonly b_kw]. auto.
Qed.
End ReprProofs.
Print Assumptions C73_repr_round_trip.
(** Which value a parameter gets: the positional argument in its place, else the keyword argument of its name, else its default. *)
Theorem C73_getcallargs {V} (s : signature V) args kwargs b : getcallargs s args kwargs = Some b ->
  map fst (b_args b) = s_args s /\ b_var b = skipn (List.length (s_args s)) args /\
  (forall i n v, nth_error (b_args b) i = Some (n, v) ->
     match nth_error args i, lookup n kwargs with
     | Some a, u => v = a /\ u = None
     | None, Some u => v = u
     | None, None => default_of s n = Some v
     end) /\
  Forall2 (fun p q => fst q = fst p /\ match lookup (fst p) kwargs with Some u => snd q = u | None => snd p = Some (snd q) end) (s_kwonly s) (b_kwonly b).
Proof.
  unfold getcallargs. destruct (bind_args s (s_args s) args kwargs) as [[l rest]|] eqn:B1; [|discriminate].
  destruct (bind_kwonly (s_kwonly s) kwargs) as [k|] eqn:B2; [|discriminate].
  match goal with |- (if ?c then _ else _) = _ -> _ => destruct c; [discriminate|] end. intros [= <-]. cbn [b_args b_var b_kwonly].
  rewrite <- and_assoc, <- and_assoc. split.
  - revert args l rest B1. induction (s_args s) as [|m names IH]; intros args l rest B1; cbn [bind_args] in B1.
    + injection B1 as <- <-. split; [split; reflexivity|]. intros [|i] n v H; discriminate H.
    + destruct args as [|a args].
      * destruct (match lookup m kwargs with Some v => Some (v, []) | None => option_map (fun d => (d, [])) (default_of s m) end) as [[v0 args]|] eqn:E; [|discriminate B1].
        assert (X : args = []) by (destruct (lookup m kwargs); [congruence | destruct (default_of s m); [cbn in E; congruence | discriminate E]]). subst args.
        destruct (bind_args s names [] kwargs) as [[l' rest']|] eqn:B; [|discriminate B1]. injection B1 as <- <-. destruct (IH _ _ _ B) as ([I1 I2] & I3).
        split; [split; [cbn; now rewrite I1|rewrite I2; destruct (List.length names); reflexivity]|].
        intros [|i] n v H; cbn [nth_error] in H.
        -- injection H as <- <-. cbn [nth_error]. destruct (lookup m kwargs); [congruence|]. destruct (default_of s m); [cbn in E; congruence|discriminate E].
        -- specialize (I3 i n v H). destruct i; exact I3.
      * destruct (lookup m kwargs) eqn:L; [discriminate B1|]. destruct (bind_args s names args kwargs) as [[l' rest']|] eqn:B; [|discriminate B1].
        injection B1 as <- <-. destruct (IH _ _ _ B) as ([I1 I2] & I3). split; [split; [cbn; now rewrite I1|exact I2]|].
        intros [|i] n v H; cbn [nth_error] in H |- *; [injection H as <- <-; auto|]. exact (I3 i n v H).
  - revert k B2. induction (s_kwonly s) as [|[n d] ks IH]; intros k B2; cbn [bind_kwonly] in B2; [injection B2 as <-; constructor|].
    destruct (match lookup n kwargs with Some v => Some v | None => d end) as [v|] eqn:E; [|discriminate B2].
    destruct (bind_kwonly ks kwargs) as [r|] eqn:R; [|discriminate B2]. injection B2 as <-. constructor; [|now apply IH].
    cbn [fst snd]. split; [reflexivity|]. destruct (lookup n kwargs); congruence.
Qed.
Print Assumptions C73_getcallargs.
Example C73_getcallargs_case :
  getcallargs (Sig ["a"; "b"; "c"] [7; 8]%nat false [("k", Some 9%nat); ("j", None)] true) [1]%nat [("c", 3); ("k", 4); ("z", 5); ("j", 6)]%nat =
  Some (Bound [("a", 1); ("b", 7); ("c", 3)]%nat [] [("k", 4); ("j", 6)]%nat [("z", 5)]%nat).
Proof. reflexivity. Qed.
(** The docstring's class: [def __init__(self, x, y=42)]; [None] is 0. *)
Definition foo : signature nat := Sig ["x"; "y"] [42%nat] false [] false.
Example C73_repr_case :
  shown Nat.eqb foo [1; 42]%nat [] = Some [(Some "x", 1%nat)] /\ shown Nat.eqb foo [1]%nat [("y", 21%nat)] = Some [(Some "x", 1%nat); (Some "y", 21%nat)] /\
  getcallargs foo [] (keywords [(Some "x", 1%nat)]) = getcallargs foo [1; 42]%nat [] /\ shown Nat.eqb foo [] [] = None /\
  shown Nat.eqb (Sig ["x"] [] false [("k", Some 3%nat)] true) [] [("z", 5%nat); ("x", 1%nat); ("k", 3%nat)] = Some [(Some "x", 1%nat); (Some "z", 5%nat); (Some "k", 3%nat)].
Proof. repeat split. Qed.
(** With [*args] the text printed is not a call: the extra positional arguments come after keywords. *)
Definition call_syntax {V} (l : list (option string * V)) : Prop := exists p k, l = (p ++ k)%list /\ Forall (fun x => fst x = None) p /\ Forall (fun x => fst x <> None) k.
Theorem C73_repr_varargs_refuted : ~ (forall (s : signature nat) args kwargs l, shown Nat.eqb s args kwargs = Some l -> call_syntax l).
Proof.
  intros H. destruct (H (Sig ["x"] [] true [] false) [1; 5]%nat [] _ eq_refl) as (p & k & E & P & K). cbn in E.
  destruct p as [|a p]; cbn [app] in E.
  - subst k. apply Forall_cons_iff in K as [_ K]. apply Forall_cons_iff in K as [K _]. now apply K.
  - injection E as <- _. apply Forall_cons_iff in P as [P _]. discriminate P.
Qed.
Print Assumptions C73_repr_varargs_refuted.

(** ** C74: tables *)
(** The parameters a module owns are those whose key is its name, a slash and a name without slash. *)
Lemma rsplit_lacks m r : lacks "/" r -> rsplit_slash (m ++ "/" ++ r) = Some (m, r).
Proof. intros H. apply rsplit_slash_app. unfold has_char. apply negb_false_iff. exact (proj2 (no_char_spec "/" r) H). Qed.
Theorem C74_owned_params {A} (module_name : string) (params : list (string * A)) n (x : A) :
  Forall (fun p => exists m r, fst p = m ++ "/" ++ r /\ lacks "/" r) params -> lacks "/" n ->
  (In (n, x) (owned_params module_name params) <-> In (module_name ++ "/" ++ n, x) params).
Proof.
  intros F Hn. unfold owned_params. rewrite in_flat_map. split.
  - intros ([k y] & Hp & H). rewrite Forall_forall in F. destruct (F _ Hp) as (m & r & E & Hr). cbn [fst snd] in *. subst k. rewrite rsplit_lacks in H by exact Hr.
    destruct (String.eqb_spec m module_name) as [->|]; [|destruct H]. destruct H as [H|[]]. injection H as -> ->. exact Hp.
  - intros H. exists (module_name ++ "/" ++ n, x). split; [exact H|]. cbn [fst snd]. rewrite rsplit_lacks by exact Hn. rewrite String.eqb_refl. now left.
Qed.
Print Assumptions C74_owned_params.
Theorem C74_owned_order {A} (module_name : string) (p q : list (string * A)) : owned_params module_name (p ++ q) = (owned_params module_name p ++ owned_params module_name q)%list.
Proof. apply flat_map_app. Qed.
Example C74_owned_case : owned_params "mlp/linear" [("mlp/linear/w", 1%nat); ("mlp/linear/b", 2%nat); ("mlp/linear/norm/w", 3%nat); ("mlp/w", 4%nat)] = [("w", 1%nat); ("b", 2%nat)].
Proof. reflexivity. Qed.
(** A slash in the name of a parameter hides it from its module, and shows it under another one. *)
Theorem C74_slash_in_name_refuted :
  ~ (forall (m n : string) (x : nat) params, In (m ++ "/" ++ n, x) params -> In (n, x) (owned_params m params)) /\
  ~ (forall (m : string) n (x : nat) owner r, m <> owner -> In (n, x) (owned_params m [(owner ++ "/" ++ r, x)]) -> False).
Proof.
  split; intros H.
  - specialize (H "a" "b/w" 1%nat [("a/b/w", 1%nat)] ltac:(now left)). destruct H.
  - apply (H "a/b" "w" 1%nat "a" "b/w"); [discriminate | now left].
Qed.
Print Assumptions C74_slash_in_name_refuted.

(** The cell lists every owned parameter once, the largest first, names breaking ties. *)
Definition before (a b : string * spec) : Prop := (size (snd b) < size (snd a))%N \/ (size (snd b) = size (snd a) /\ String.compare (fst a) (fst b) <> Gt).
Lemma owned_before_spec a b : owned_before a b = true <-> before a b.
Proof.
  unfold owned_before, before. rewrite orb_true_iff, andb_true_iff, N.ltb_lt, N.eqb_eq. destruct (String.compare (fst a) (fst b)); intuition discriminate.
Qed.
Lemma before_total a b : owned_before a b = false -> before b a.
Proof.
  intros H. unfold owned_before in H. apply orb_false_iff in H as [H1 H2]. apply N.ltb_ge in H1. apply andb_false_iff in H2. unfold before.
  destruct (N.eq_dec (size (snd a)) (size (snd b))) as [E|E]; [|left; lia]. right. split; [exact E|]. destruct H2 as [H2|H2]; [apply N.eqb_neq in H2; congruence|].
  rewrite String.compare_antisym. destruct (String.compare (fst a) (fst b)); [discriminate H2 | discriminate H2 | discriminate].
Qed.
Theorem C74_sort_owned l : Permutation l (sort_owned l) /\ Sorted before (sort_owned l).
Proof.
  assert (P : forall x l, Permutation (x :: l) (insert_owned x l)).
  { intros x l0. induction l0 as [|y l0 IH]; cbn [insert_owned]; [reflexivity|]. destruct (owned_before x y); [reflexivity|].
    rewrite perm_swap. now constructor. }
  assert (Q : forall x l, Sorted before l -> Sorted before (insert_owned x l)).
  { intros x l0 H. induction H as [|y l0 H IH Hy]; cbn [insert_owned]; [repeat constructor|]. destruct (owned_before x y) eqn:E.
    - constructor; [constructor; assumption|]. constructor. now apply owned_before_spec.
    - constructor; [exact IH|]. apply before_total in E. destruct l0 as [|z l0]; cbn [insert_owned]; [now constructor|].
      destruct (owned_before x z); constructor; [exact E|]. now inversion Hy. }
  induction l as [|x l [IH1 IH2]]; cbn [sort_owned fold_right]; [split; constructor|]. split; [|now apply Q]. rewrite <- P. now constructor.
Qed.
Print Assumptions C74_sort_owned.
Theorem C74_format_owned l : exists m, Permutation l m /\ Sorted before m /\
  format_owned l = String.concat (String newline "") (map (fun p => fst p ++ ": " ++ format_array (fst (snd p)) (snd (snd p))) m).
Proof. exists (sort_owned l). destruct (C74_sort_owned l). auto. Qed.
Print Assumptions C74_format_owned.
Example C74_format_case : format_owned [("b", (Float32, [300%N])); ("w", (Float32, [784; 300]%N)); ("a", (Int32, [300%N]))] =
  "w: f32[784,300]" ++ String newline ("a: s32[300]" ++ String newline "b: f32[300]").
Proof. vm_compute. reflexivity. Qed.

(** The table: unknown names are reported before anything else, columns first; otherwise one row per invocation that passes every
    filter, in the order of the invocations, with one cell per requested column in the order requested. *)
Theorem C74_tabulate {Inv Row} (all_columns : list (string * (Inv -> Row))) (all_filters : list (string * (Inv -> bool))) columns filters invs :
  let cols := match columns with Some c => c | None => map fst all_columns end in
  let fils := match filters with Some f => f | None => map fst all_filters end in
  (forall l, tabulate all_columns all_filters columns filters invs = BadColumns l <->
     l <> [] /\ l = filter (fun c => negb (has (map fst all_columns) c)) cols) /\
  (forall l, tabulate all_columns all_filters columns filters invs = BadFilters l <->
     incl cols (map fst all_columns) /\ l <> [] /\ l = filter (fun c => negb (has (map fst all_filters) c)) fils) /\
  (forall rows, tabulate all_columns all_filters columns filters invs = Rows rows -> rows <> [] /\ exists kept,
     Forall2 (fun i row => Forall2 (fun c cell => exists g, lookup c all_columns = Some g /\ cell = g i) cols row) kept rows /\
     kept = filter (fun i => forallb (fun f => match lookup f all_filters with Some p => p i | None => false end) fils) invs) /\
  (tabulate all_columns all_filters columns filters invs = NoModules <->
     incl cols (map fst all_columns) /\ incl fils (map fst all_filters) /\
     forall i, In i invs -> exists f p, In f fils /\ lookup f all_filters = Some p /\ p i = false).
Proof.
  intros cols fils. unfold tabulate. fold cols fils.
  assert (G : forall (A : Type) (l : list (string * A)) names, filter (fun c => negb (has (map fst l) c)) names = [] <-> incl names (map fst l)).
  { intros A l names. unfold incl. split.
    - intros H n Hn. destruct (has (map fst l) n) eqn:E; [now apply has_spec|]. exfalso. assert (In n []) as []. rewrite <- H. apply filter_In. now rewrite E.
    - intros H. induction names as [|n names IH]; [reflexivity|]. cbn [filter]. rewrite (proj2 (has_spec _ n)) by (apply H; now left). apply IH. intros m Hm. apply H. now right. }
  assert (Lk : forall (A : Type) (l : list (string * A)) n, In n (map fst l) -> exists x, lookup n l = Some x).
  { intros A l n H. destruct (lookup n l) eqn:E; [eauto|]. apply lookup_none in E. contradiction. }
  destruct (filter (fun c => negb (has (map fst all_columns) c)) cols) as [|b bad] eqn:EC.
  2:{ assert (NI : ~ incl cols (map fst all_columns)) by (rewrite <- G, EC; discriminate).
      split; [intros l; split; [intros [= <-]; split; [discriminate | reflexivity] | intros [_ ->]; reflexivity]|].
      split; [intros l; split; [discriminate | intros [H _]; contradiction]|]. split; [discriminate|]. split; [discriminate | intros [H _]; contradiction]. }
  apply G in EC. destruct (filter (fun c => negb (has (map fst all_filters) c)) fils) as [|b bad] eqn:EF.
  2:{ assert (NI : ~ incl fils (map fst all_filters)) by (rewrite <- G, EF; discriminate).
      split; [intros l; split; [discriminate | intros [H ->]; contradiction]|].
      split; [intros l; split; [intros [= <-]; split; [exact EC|]; split; [discriminate | reflexivity] | intros (_ & _ & ->); reflexivity]|].
      split; [discriminate|]. split; [discriminate | intros (_ & H & _); contradiction]. }
  apply G in EF.
  set (keep := fun i => forallb (fun f => match lookup f all_filters with Some p => p i | None => true end) fils).
  set (keep' := fun i => forallb (fun f => match lookup f all_filters with Some p => p i | None => false end) fils).
  assert (KE : forall i, keep i = keep' i).
  { intros i. unfold keep, keep'. clear - EF Lk. induction fils as [|f fs IH]; [reflexivity|]. cbn [forallb]. rewrite IH by (intros m Hm; apply EF; now right).
    destruct (Lk _ all_filters f ltac:(apply EF; now left)) as [p ->]. reflexivity. }
  assert (KF : filter keep invs = filter keep' invs) by (apply filter_ext; exact KE). rewrite KF.
  set (row := fun i => flat_map (fun c => match lookup c all_columns with Some g => [g i] | None => [] end) cols).
  assert (RW : forall i, Forall2 (fun c cell => exists g, lookup c all_columns = Some g /\ cell = g i) cols (row i)).
  { intros i. unfold row. clear - EC Lk. induction cols as [|c cs IH]; [constructor|]. cbn [flat_map]. destruct (Lk _ all_columns c ltac:(apply EC; now left)) as [g E]. rewrite E. cbn [app].
    constructor; [eauto|]. apply IH. intros m Hm. apply EC. now right. }
  destruct (map row (filter keep' invs)) as [|r rs] eqn:ER.
  - apply map_eq_nil in ER.
    split; [intros l; split; [discriminate | intros [H ->]; contradiction]|]. split; [intros l; split; [discriminate | intros (_ & H & ->); contradiction]|].
    split; [discriminate|]. split; [|reflexivity]. intros _. split; [exact EC|]. split; [exact EF|]. intros i Hi.
    assert (X : keep' i = false) by (destruct (keep' i) eqn:E; [|reflexivity]; assert (In i []) as []; rewrite <- ER; apply filter_In; auto).
    unfold keep' in X. clear - X EF Lk. induction fils as [|f fs IH]; [discriminate X|]. cbn [forallb] in X. destruct (Lk _ all_filters f ltac:(apply EF; now left)) as [p E].
    rewrite E in X. destruct (p i) eqn:P.
    + destruct IH as (f' & p' & H1 & H2); [intros m Hm; apply EF; now right | exact X |]. exists f', p'. split; [now right | exact H2].
    + exists f, p. split; [now left | auto].
  - split; [intros l; split; [discriminate | intros [H ->]; contradiction]|]. split; [intros l; split; [discriminate | intros (_ & H & ->); contradiction]|]. split.
    + intros rows [= <-]. split; [discriminate|]. exists (filter keep' invs). split; [|reflexivity]. rewrite <- ER. clear - RW. induction (filter keep' invs); constructor; auto.
    + split; [discriminate|]. intros (_ & _ & H). exfalso. destruct (filter keep' invs) as [|i is] eqn:EI; [discriminate ER|].
      assert (Hi : In i (filter keep' invs)) by (rewrite EI; now left). apply filter_In in Hi as [H1 H2]. destruct (H i H1) as (f & p & F1 & F2 & F3).
      unfold keep' in H2. rewrite forallb_forall in H2. specialize (H2 f F1). rewrite F2 in H2. congruence.
Qed.
Print Assumptions C74_tabulate.
Example C74_tabulate_case :
  let cols := [("a", fun n : nat => n); ("b", fun n => n + 10)%nat] in let fils := [("even", Nat.even); ("small", fun n => n <? 4)%nat] in
  tabulate cols fils (Some ["b"; "a"]) None [0; 1; 2; 3; 4]%nat = Rows [[10; 0]; [12; 2]]%nat /\
  tabulate cols fils (Some ["b"; "z"]) (Some ["q"]) [0%nat] = BadColumns ["z"] /\ tabulate cols fils None (Some ["q"]) [0%nat] = BadFilters ["q"] /\
  tabulate cols fils None None [5%nat] = NoModules /\ tabulate cols fils (Some []) (Some []) [5; 6]%nat = Rows [[]; []].
Proof. repeat split. Qed.

(** The string functions of [ModelStr] mean what [SpecStr] says. *)
From Coq Require Import String Ascii List Bool NArith PeanoNat Lia Decimal DecimalString DecimalN.
From Verif Require Import ModelStr SpecStr ProofsStr.
Import ListNotations.
Local Open Scope string_scope.
Local Open Scope bool_scope.

Lemma all_chars_get f s : all_chars f s = true <-> forall i d, String.get i s = Some d -> f d = true.
Proof.
  induction s as [|c s IH]; cbn; [split; [intros _ [|] ?; discriminate|reflexivity]|].
  rewrite andb_true_iff, IH. split.
  - intros [H1 H2] [|i] d E; [injection E as <-; exact H1|eauto].
  - intros H. split; [now apply (H 0)|]. intros i d. apply (H (S i)).
Qed.

Ltac by_ascii := intros [[] [] [] [] [] [] [] []]; vm_compute; reflexivity.
Lemma one_of_start : forall c, one_of (lowers ++ uppers ++ "_") c = ident_start c.
Proof. by_ascii. Qed.
Lemma one_of_char : forall c, one_of (lowers ++ uppers ++ digits ++ "_") c = ident_char c.
Proof. by_ascii. Qed.
Lemma one_of_digit : forall c, one_of digits c = is_digit c.
Proof. by_ascii. Qed.
Lemma one_of_lower : forall c, one_of lowers c = is_lower c.
Proof. by_ascii. Qed.
Lemma one_of_upper : forall c, one_of uppers c = is_upper c.
Proof. by_ascii. Qed.
Lemma one_of_ld : forall c, one_of (lowers ++ digits) c = is_lower c || is_digit c.
Proof. by_ascii. Qed.
Lemma same_place_lower : forall c, same_place uppers lowers c = lower c.
Proof. by_ascii. Qed.

Lemma ident_identifier s : ident s = true <-> identifier s.
Proof.
  unfold identifier. destruct s as [|c t]; cbn [ident].
  - split; [discriminate|]. intros (c & t & E & _). discriminate.
  - rewrite andb_true_iff, all_chars_get. split.
    + intros [H1 H2]. exists c, t. split; [reflexivity|]. rewrite one_of_start. split; [assumption|].
      intros i d E. rewrite one_of_char. eauto.
    + intros (c' & t' & E & H1 & H2). injection E as <- <-. rewrite <- one_of_start. split; [assumption|].
      intros i d E. rewrite <- one_of_char. eauto.
Qed.

Lemma get_app_r s : forall pre i, String.get (String.length pre + i) (pre ++ s) = String.get i s.
Proof. induction pre as [|c pre IH]; intros i; cbn; auto. Qed.

Definition last_char (pre : string) : option ascii :=
  match pre with EmptyString => None | _ => String.get (String.length pre - 1) pre end.

Lemma get_last pre s c : last_char pre = Some c ->
  exists n, String.length pre = S n /\ String.get n (pre ++ s) = Some c.
Proof.
  unfold last_char. destruct pre as [|a pre]; [discriminate|]. intros H.
  exists (String.length pre). split; [reflexivity|]. cbn [String.length] in H.
  rewrite Nat.sub_succ, Nat.sub_0_r in H. revert H.
  assert (G : forall p i c, i < String.length p -> String.get i p = Some c -> String.get i (p ++ s) = Some c).
  { induction p as [|b p IH]; cbn; intros i d L E; [lia|]. destruct i; [assumption|]. apply IH; [lia|assumption]. }
  apply G. cbn. lia.
Qed.

Lemma last_char_app pre c : last_char (pre ++ String c "") = Some c.
Proof.
  unfold last_char. destruct (pre ++ String c "") eqn:E; [destruct pre; discriminate|]. rewrite <- E.
  assert (L : String.length (pre ++ String c "") = String.length pre + 1).
  { clear. induction pre; cbn; congruence. }
  rewrite L, Nat.add_sub. rewrite <- (Nat.add_0_r (String.length pre)). now rewrite get_app_r.
Qed.

Lemma concat_cons a l : String.concat "" (a :: l) = a ++ String.concat "" l.
Proof. destruct l; cbn; [now rewrite app_empty_r|reflexivity]. Qed.

Lemma camel_aux_pieces s : forall pre,
  camel_aux (last_char pre) s
  = String.concat "" (map (snake_piece (pre ++ s)) (seq (String.length pre) (String.length s))).
Proof.
  induction s as [|c t IH]; intros pre; [reflexivity|].
  cbn [String.length seq map]. rewrite concat_cons.
  specialize (IH (pre ++ String c "")). rewrite last_char_app in IH.
  rewrite app_assoc_str in IH. cbn [append] in IH.
  replace (String.length (pre ++ String c "")) with (S (String.length pre)) in IH
    by (clear; induction pre; cbn; congruence).
  rewrite <- IH. clear IH.
  assert (E0 : String.get (String.length pre) (pre ++ String c t) = Some c).
  { rewrite <- (Nat.add_0_r (String.length pre)). now rewrite get_app_r. }
  assert (E1 : String.get (S (String.length pre)) (pre ++ String c t) = String.get 0 t).
  { replace (S (String.length pre)) with (String.length pre + 1) by lia. now rewrite get_app_r. }
  cbn [camel_aux]. unfold snake_piece. rewrite E0, same_place_lower.
  assert (B : boundary (pre ++ String c t) (String.length pre) =
    is_upper c && (match last_char pre with Some p => is_lower p || is_digit p | None => false end
      || (match last_char pre with Some _ => true | None => false end)
         && match t with String d _ => is_lower d | EmptyString => false end)).
  { unfold boundary. unfold at_ at 1. rewrite E0, one_of_upper. f_equal.
    destruct (last_char pre) as [p|] eqn:Lp.
    - destruct (get_last _ (String c t) _ Lp) as (n & Ln & Gn). rewrite Ln. rewrite Ln in E1.
      unfold at_. rewrite Gn, E1, one_of_ld. cbn [andb]. f_equal.
      destruct t as [|d t]; cbn; [reflexivity|apply one_of_lower].
    - destruct pre as [|a pre]; [reflexivity|]. exfalso. unfold last_char in Lp. cbn [String.length] in Lp.
      rewrite Nat.sub_succ, Nat.sub_0_r in Lp. revert Lp. clear.
      revert a; induction pre as [|b pre IH]; intros a; cbn; [discriminate|]. apply IH. }
  rewrite <- B. destruct (boundary _ _); reflexivity.
Qed.

Lemma parse_digits_spec s n : parse_digits s = Some n <-> s <> "" /\ all_digits s /\ decimal s 0 = n.
Proof.
  assert (A : all_digits s <-> all_chars is_digit s = true).
  { unfold all_digits. rewrite all_chars_get. now setoid_rewrite one_of_digit. }
  rewrite A. clear A.
  assert (D : forall d, decimal (NilEmpty.string_of_uint d) 0 = N.of_uint d).
  { assert (G : forall d acc, decimal (NilEmpty.string_of_uint d) (N.pos acc) = N.pos (Pos.of_uint_acc d acc)).
    { induction d; intros acc; [reflexivity|..];
        match goal with |- context [Pos.of_uint_acc ?x acc] => 
          cbn [NilEmpty.string_of_uint decimal Pos.of_uint_acc]; rewrite <- IHd; f_equal; vm_compute place; lia end. }
    induction d; [reflexivity|..]; cbn [NilEmpty.string_of_uint decimal];
      match goal with |- decimal _ ?x = _ => let y := eval vm_compute in x in change x with y end;
      [exact IHd|..]; unfold N.of_uint; cbn [Pos.of_uint]; apply G. }
  assert (U : forall s, all_chars is_digit s = true -> exists d, NilEmpty.uint_of_string s = Some d).
  { clear. induction s as [|c s IH]; cbn; [eauto|]. intros H. apply andb_true_iff in H as [Hc Hs].
    destruct (IH Hs) as [d E]. revert Hc.
    rewrite E. destruct c as [[] [] [] [] [] [] [] []]; vm_compute is_digit; try discriminate; intros _;
      eexists; reflexivity. }
  split.
  - intros H. pose proof (parse_digits_digits _ _ H) as Hd. unfold parse_digits in H.
    destruct s as [|c t]; [discriminate|]. split; [discriminate|]. split; [assumption|].
    destruct (NilEmpty.uint_of_string (String c t)) as [d|] eqn:E; [|discriminate]. injection H as <-.
    rewrite <- (NilEmpty.sus _ _ E). apply D.
  - intros (Hne & Hd & <-). destruct (U _ Hd) as [d E]. unfold parse_digits.
    destruct s as [|c t]; [congruence|]. rewrite E. f_equal. rewrite <- (NilEmpty.sus _ _ E). symmetry. apply D.
Qed.

Lemma explicit_number_spec s b n : explicit_number s = Some (b, n) <->
  exists ds nl, s = b ++ "_" ++ ds ++ nl /\ (nl = "" \/ nl = String "010" "") /\
    ds <> "" /\ all_digits ds /\ decimal ds 0 = n.
Proof.
  unfold explicit_number. split.
  - intros H. destruct (split_suffix_sound _ _ _ H) as (ds & E & Hne & Hd & Hp).
    apply parse_digits_spec in Hp as (_ & Ha & Hv). destruct (chomp_spec s) as [Es|Es].
    + exists ds, "". rewrite app_empty_r. rewrite E in Es. auto 6.
    + exists ds, (String "010" ""). rewrite E in Es. rewrite !app_assoc_str in Es. auto 6.
  - intros (ds & nl & -> & Hnl & Hne & Hd & Hv).
    assert (Hp : parse_digits ds = Some n) by (apply parse_digits_spec; auto).
    pose proof (parse_digits_digits _ _ Hp) as Ha.
    assert (Hc : chomp (b ++ "_" ++ ds ++ nl) = b ++ "_" ++ ds).
    { rewrite chomp_app by discriminate. f_equal.
      rewrite (chomp_app "_") by (destruct ds; [congruence|discriminate]). f_equal.
      destruct Hnl as [-> | ->].
      - rewrite app_empty_r. now apply chomp_digits.
      - rewrite chomp_app by discriminate. apply app_empty_r. }
    rewrite Hc. clear Hc Hnl. induction b as [|c b IH].
    + cbn [append split_suffix]. change (is_under "_") with true. cbv iota. now rewrite Hp.
    + change (split_suffix (String c (b ++ "_" ++ ds)) = Some (String c b, n)).
      cbn [split_suffix]. rewrite IH.
      destruct (is_under c); [|reflexivity].
      destruct (parse_digits (b ++ "_" ++ ds)) eqn:E; [|reflexivity].
      apply parse_digits_digits in E. rewrite !all_chars_app in E. cbn in E.
      rewrite andb_false_r in E. discriminate.
Qed.

(** When [mangle] keeps keys apart. *)
From Coq Require Import String Ascii List Bool NArith PeanoNat Lia.
From Verif Require Import ModelStr SpecStr ProofsStr ProofsLex ModelParamsTree SpecParamsTree.
Import ListNotations.
Local Open Scope string_scope.
Local Open Scope bool_scope.

(** The text before the first "__" and after it. *)
Fixpoint first_double (s : string) : string * option string :=
  match s with
  | EmptyString => (EmptyString, None)
  | String c t =>
      match t with
      | String d u => if Ascii.eqb c "_" && Ascii.eqb d "_" then (EmptyString, Some u)
                      else let '(a, r) := first_double t in (String c a, r)
      | EmptyString => (s, None)
      end
  end.

Lemma first_double_cons c d u : first_double (String c (String d u)) =
  if Ascii.eqb c "_" && Ascii.eqb d "_" then (EmptyString, Some u)
  else let '(a, r) := first_double (String d u) in (String c a, r).
Proof. reflexivity. Qed.

Lemma no_double_tl c s : no_double (String c s) -> no_double s.
Proof. intros H a b ->. apply (H (String c a) b). reflexivity. Qed.

Lemma first_double_none s : no_double s -> first_double s = (s, None).
Proof.
  induction s as [|c s IH]; [reflexivity|]. intros H. destruct s as [|d u]; [reflexivity|].
  rewrite first_double_cons. destruct (Ascii.eqb_spec c "_") as [->|]; cbn [andb].
  - destruct (Ascii.eqb_spec d "_") as [->|]; cbn [andb].
    + exfalso. apply (H "" u). reflexivity.
    + now rewrite IH by (eapply no_double_tl; eassumption).
  - now rewrite IH by (eapply no_double_tl; eassumption).
Qed.
Lemma first_double_some s r : no_double s -> (forall t, s <> t ++ "_") -> first_double (s ++ "__" ++ r) = (s, Some r).
Proof.
  induction s as [|c s IH]; [reflexivity|]. intros H H'.
  assert (IH' : first_double (s ++ "__" ++ r) = (s, Some r)).
  { apply IH; [eapply no_double_tl; eassumption|]. intros t ->. apply (H' (String c t)). reflexivity. }
  clear IH. cbn [append]. destruct s as [|d u].
  - cbn [append] in *. rewrite first_double_cons, IH'.
    destruct (Ascii.eqb_spec c "_") as [->|]; [|reflexivity]. exfalso. apply (H' ""). reflexivity.
  - cbn [append] in *. rewrite first_double_cons, IH'.
    destruct (Ascii.eqb_spec c "_") as [->|]; cbn [andb]; [|reflexivity].
    destruct (Ascii.eqb_spec d "_") as [->|]; cbn [andb]; [|reflexivity].
    exfalso. apply (H "" u). reflexivity.
Qed.

Lemma mangle_app t a b : mangle t (a ++ b) = mangle t a ++ mangle t b.
Proof. induction a as [|c a IH]; [reflexivity|]. cbn. now rewrite IH, app_assoc_str. Qed.
Lemma mangle_plain t s : all_chars ident_char s = true -> mangle t s = s.
Proof.
  induction s as [|c s IH]; [reflexivity|]. cbn. intros H. apply andb_true_iff in H as [Hc Hs].
  rewrite (IH Hs). destruct (Ascii.eqb_spec c "/") as [->|]; [discriminate|].
  destruct (Ascii.eqb_spec c "~") as [->|]; [discriminate|]. reflexivity.
Qed.
Lemma ident_chars s : ident s = true -> all_chars ident_char s = true.
Proof.
  destruct s as [|c s]; [discriminate|]. cbn. intros H. apply andb_true_iff in H as [Hc ->].
  unfold ident_start in Hc. unfold ident_char. apply orb_true_iff in Hc as [-> | ->]; [reflexivity|].
  now rewrite !orb_true_r.
Qed.
Lemma body_ident s : body_ok s -> ident s = true.
Proof. intros [H _]. now apply ident_identifier. Qed.
Lemma mangle_body t s : body_ok s -> mangle t s = s.
Proof. intros H%body_ident. now apply mangle_plain, ident_chars. Qed.

Lemma concat_cons2 sep (a b : string) l : String.concat sep (a :: b :: l) = a ++ sep ++ String.concat sep (b :: l).
Proof. reflexivity. Qed.
Lemma mangle_concat t l : mangle t (String.concat "/" l) = String.concat "__" (map (mangle t) l).
Proof.
  induction l as [|a l IH]; [reflexivity|]. destruct l as [|b l]; [reflexivity|].
  rewrite concat_cons2, !mangle_app, IH. cbn [map]. rewrite concat_cons2. reflexivity.
Qed.

(** The text of a piece, mangled, is an optional marker followed by a body or nothing. *)
Definition tail_ok (s : string) : Prop := no_double s /\ (forall t, s <> t ++ "_").
Lemma no_double_nil : tail_ok "".
Proof. split; [intros [|] ? ?; discriminate|intros [|] ?; discriminate]. Qed.
Lemma body_tail s : body_ok s -> tail_ok s.
Proof. intros (_ & ? & _ & ?). split; assumption. Qed.

Lemma piece_cases s : piece_ok s -> (body_ok s /\ (forall t, mangle t s = s)) \/
  exists b, s = String "~" b /\ tail_ok b /\ (forall t, mangle t s = t ++ b).
Proof.
  intros [H|[-> |(b & -> & H)]].
  - left. split; [assumption|]. intros t. now apply mangle_body.
  - right. exists "". split; [reflexivity|]. split; [apply no_double_nil|]. intros t. reflexivity.
  - right. exists b. split; [reflexivity|]. split; [now apply body_tail|]. intros t. cbn. now rewrite mangle_body.
Qed.

(** What follows the first piece. *)
Definition rest_of (t : string) (ps : list string) : string :=
  match ps with [] => "" | _ => "__" ++ String.concat "__" (map (mangle t) ps) end.
Lemma concat_rest t p ps : String.concat "__" (map (mangle t) (p :: ps)) = mangle t p ++ rest_of t ps.
Proof. destruct ps; [cbn; now rewrite app_empty_r|reflexivity]. Qed.

Lemma tail_split a b t ps qs : tail_ok a -> tail_ok b -> a ++ rest_of t ps = b ++ rest_of t qs -> a = b /\ rest_of t ps = rest_of t qs.
Proof.
  intros [A1 A2] [B1 B2] E.
  assert (F : forall a ps, no_double a -> (forall t, a <> t ++ "_") -> fst (first_double (a ++ rest_of t ps)) = a).
  { intros x [|p l] X1 X2; cbn [rest_of].
    - rewrite app_empty_r. now rewrite first_double_none.
    - now rewrite first_double_some. }
  pose proof (F a ps A1 A2) as Fa. rewrite E, (F b qs B1 B2) in Fa. subst b. split; [reflexivity|].
  clear -E. induction a; [exact E|]. cbn in E. injection E as E. auto.
Qed.

Lemma app_cancel_l (a b c : string) : a ++ b = a ++ c -> b = c.
Proof. induction a; cbn; [auto|]. intros E. injection E as E. auto. Qed.

Lemma mangle_pieces_inj u ps qs : Forall piece_ok ps -> Forall piece_ok qs -> ps <> [] -> qs <> [] ->
  String.concat "__" (map (mangle (String "_" u)) ps) = String.concat "__" (map (mangle (String "_" u)) qs) -> ps = qs.
Proof.
  set (t := String "_" u). revert qs. induction ps as [|p ps IH]; [congruence|].
  intros [|q qs] Hps Hqs _ Hne E; [congruence|].
  inversion Hps as [|? ? Hp Hps']; subst. inversion Hqs as [|? ? Hq Hqs']; subst.
  rewrite !concat_rest in E.
  assert (G : rest_of t ps = rest_of t qs -> ps = qs).
  { intros G. destruct ps as [|p' ps], qs as [|q' qs]; cbn [rest_of] in G; try discriminate; [reflexivity|].
    apply IH; try assumption; try discriminate. exact (app_cancel_l "__" _ _ G). }
  destruct (piece_cases p Hp) as [[Bp Mp]|(b & -> & Tb & Mp)]; destruct (piece_cases q Hq) as [[Bq Mq]|(b' & -> & Tb' & Mq)];
    rewrite Mp, Mq in E.
  - destruct (tail_split _ _ _ _ _ (body_tail _ Bp) (body_tail _ Bq) E) as [-> E']. f_equal. auto.
  - exfalso. pose proof (body_ident _ Bp) as I. destruct Bp as (_ & _ & S & _). destruct p as [|c p]; [discriminate|].
    cbn in E. injection E as -> _. now apply (S p).
  - exfalso. pose proof (body_ident _ Bq) as I. destruct Bq as (_ & _ & S & _). destruct q as [|c q]; [discriminate|].
    cbn in E. injection E as <- _. now apply (S q).
  - rewrite !app_assoc_str in E. apply app_cancel_l in E.
    destruct (tail_split _ _ _ _ _ Tb Tb' E) as [-> E']. f_equal. auto.
Qed.

Lemma mangle_inj u k k' : key_ok k -> key_ok k' -> mangle (String "_" u) k = mangle (String "_" u) k' -> k = k'.
Proof.
  intros (ps & N & Hps & ->) (qs & N' & Hqs & ->). rewrite !mangle_concat. intros E.
  f_equal. eapply mangle_pieces_inj; eassumption.
Qed.

(** Mangled names are identifiers. *)
Lemma piece_chars u p : all_chars ident_char u = true -> piece_ok p -> all_chars ident_char (mangle (String "_" u) p) = true.
Proof.
  intros Hu [H|[-> |(b & -> & H)]].
  - rewrite mangle_body by assumption. now apply ident_chars, body_ident.
  - cbn [mangle Ascii.eqb Bool.eqb]. rewrite app_empty_r. cbn. exact Hu.
  - change (mangle (String "_" u) (String "~" b)) with (String "_" u ++ mangle (String "_" u) b).
    rewrite mangle_body by assumption. rewrite all_chars_app. cbn. rewrite Hu. cbn. now apply ident_chars, body_ident.
Qed.
Lemma concat_chars f l : f "_"%char = true -> Forall (fun s => all_chars f s = true) l -> all_chars f (String.concat "__" l) = true.
Proof.
  intros Hf. induction 1 as [|s l Hs Hl IH]; [reflexivity|]. destruct l as [|s' l]; [exact Hs|].
  rewrite concat_cons2, !all_chars_app, Hs, IH. cbn. now rewrite Hf.
Qed.
Lemma mangle_ident u k : all_chars ident_char u = true -> key_ok k -> ident (mangle (String "_" u) k) = true.
Proof.
  intros Hu (ps & N & Hps & ->). rewrite mangle_concat.
  assert (A : all_chars ident_char (String.concat "__" (map (mangle (String "_" u)) ps)) = true).
  { apply concat_chars; [reflexivity|]. clear N. induction Hps; constructor; auto using piece_chars. }
  destruct ps as [|p ps]; [congruence|]. rewrite concat_rest in *. inversion Hps as [|? ? Hp _]; subst.
  destruct (piece_cases p Hp) as [[Bp Mp]|(b & -> & _ & Mp)]; rewrite Mp in *.
  - apply body_ident in Bp as I. destruct p as [|c p]; [discriminate|]. cbn in I, A |- *.
    apply andb_true_iff in I as [-> _]. apply andb_true_iff in A as [_ ->]. reflexivity.
  - cbn in A |- *. exact A.
Qed.

(** Numbers at the end of mangled names are numbers at the end of keys. *)
Lemma app_suffix : forall (x p y q : string), x ++ p = y ++ q -> (exists z, p = z ++ q) \/ (exists z, q = z ++ p).
Proof.
  induction x as [|c x IH]; intros p y q E; [left; now exists y|].
  destruct y as [|d y]; cbn in E; [right; now exists (String c x)|]. injection E as <- E. eauto.
Qed.
Lemma digits_get s : all_digits s -> all_chars is_digit s = true.
Proof. intros H. apply all_chars_get. intros i d E. rewrite <- one_of_digit. eauto. Qed.
Lemma start_not_digit : forall c, ident_start c = true -> is_digit c = true -> False.
Proof. intros [[] [] [] [] [] [] [] []]; vm_compute; congruence. Qed.

Lemma body_number x p y ds : ident p = true -> x ++ p = y ++ "_" ++ ds -> all_chars is_digit ds = true -> exists z, p = z ++ "_" ++ ds.
Proof.
  intros I E Hd. destruct (app_suffix _ _ _ _ E) as [H|[z H]]; [assumption|].
  destruct z as [|c z]; [exists ""; now rewrite H|]. exfalso. cbn in H. injection H as _ ->.
  rewrite all_chars_app in Hd. apply andb_true_iff in Hd as [_ Hd]. destruct p as [|c' p]; [discriminate|].
  cbn in I, Hd. apply andb_true_iff in I as [I _]. apply andb_true_iff in Hd as [Hd _].
  eapply start_not_digit; eassumption.
Qed.

Lemma concat_last sep l p : exists x, String.concat sep (l ++ [p]) = x ++ p /\ forall q, String.concat sep (l ++ [q]) = x ++ q.
Proof.
  induction l as [|a l (x & IH & IH')]; [now exists ""|]. exists (a ++ sep ++ x). split.
  - cbn [List.app]. destruct l as [|b l]; cbn [List.app] in *; rewrite concat_cons2, IH, !app_assoc_str; reflexivity.
  - intros q. cbn [List.app]. specialize (IH' q). destruct l as [|b l]; cbn [List.app] in *;
      rewrite concat_cons2, IH', !app_assoc_str; reflexivity.
Qed.

(** The markers used: they end in a character that is not a digit. *)
Lemma mangle_not_numbered u k : all_chars ident_char u = true ->
  (forall y d, String "_" u = y ++ String d "" -> is_digit d = false) ->
  key_ok k -> not_numbered k -> explicit_number (mangle (String "_" u) k) = None.
Proof.
  intros Hu Hlast Hk Hn. destruct (explicit_number _) as [[b n]|] eqn:E; [exfalso|reflexivity].
  apply explicit_number_spec in E as (ds & nl & E & Hnl & Hne & Hd & _).
  pose proof (mangle_ident u k Hu Hk) as I. apply ident_chars in I.
  assert (nl = "") as ->.
  { destruct Hnl as [-> | ->]; [reflexivity|]. rewrite E in I. rewrite !all_chars_app in I. cbn in I.
    rewrite !andb_false_r in I. discriminate. }
  rewrite app_empty_r in E. clear Hnl I. pose proof (digits_get _ Hd) as Hd'.
  destruct Hk as (ps & N & Hps & ->). destruct (exists_last N) as (l & p & ->).
  apply Forall_app in Hps as [_ Hp]. inversion Hp as [|? ? Hp' _]; subst. clear Hp.
  rewrite mangle_concat, map_app in E. cbn [map] in E.
  destruct (concat_last "__" (map (mangle (String "_" u)) l) (mangle (String "_" u) p)) as (x & Ex & _).
  rewrite Ex in E. destruct (concat_last "/" l p) as (x' & Ex' & _).
  assert (G : (exists z, p = z ++ "_" ++ ds) -> False).
  { intros [z ->]. apply (Hn (x' ++ z) ds); [|assumption|assumption]. now rewrite Ex', app_assoc_str. }
  destruct Hp' as [H|[-> |(b' & -> & H)]].
  - rewrite mangle_body in E by assumption. apply G. eapply body_number; [|exact E|assumption]. now apply body_ident.
  - cbn [mangle Ascii.eqb Bool.eqb] in E. rewrite app_empty_r in E.
    destruct (app_suffix _ _ _ _ E) as [[z H]|[z H]].
    + destruct (exists_last (l := list_ascii_of_string ds)) as (l' & d & El).
      { destruct ds; [congruence|discriminate]. }
      assert (Eds : exists y, ds = y ++ String d "").
      { exists (string_of_list_ascii l'). rewrite <- (string_of_list_ascii_of_string ds), El. clear. induction l'; cbn; congruence. }
      destruct Eds as [y ->]. rewrite H in Hlast. specialize (Hlast (z ++ "_" ++ y) d).
      rewrite all_chars_app in Hd'. cbn in Hd'. rewrite andb_true_r in Hd'. apply andb_true_iff in Hd' as [_ Hd'].
      rewrite Hd' in Hlast. discriminate Hlast. rewrite !app_assoc_str. reflexivity.
    + destruct z as [|c z]; cbn in H.
      * injection H as ->. destruct (exists_last (l := list_ascii_of_string u)) as (l' & d & El).
        { destruct u; [congruence|discriminate]. }
        assert (Eu : exists y, u = y ++ String d "").
        { exists (string_of_list_ascii l'). rewrite <- (string_of_list_ascii_of_string u), El. clear. induction l'; cbn; congruence. }
        destruct Eu as [y ->]. specialize (Hlast (String "_" y) d eq_refl).
        rewrite all_chars_app in Hd'. cbn in Hd'. rewrite Hlast, andb_false_r in Hd'. discriminate.
      * injection H as _ ->. rewrite all_chars_app in Hd'. cbn in Hd'. rewrite andb_false_r in Hd'. discriminate.
  - change (mangle (String "_" u) (String "~" b')) with (String "_" u ++ mangle (String "_" u) b') in E.
    rewrite mangle_body in E by assumption. rewrite <- app_assoc_str in E.
    destruct (body_number _ _ _ _ (body_ident _ H) E Hd') as [z ->]. apply G. now exists (String "~" z).
Qed.

(** Keys of a nested dictionary are different. *)
Lemma key_split a b p q : (forall i, String.get i p <> Some "/"%char) -> (forall i, String.get i q <> Some "/"%char) ->
  a ++ "/" ++ p = b ++ "/" ++ q -> a = b /\ p = q.
Proof.
  intros Hp Hq E.
  assert (R : forall a p, (forall i, String.get i p <> Some "/"%char) -> rsplit_slash (a ++ "/" ++ p) = Some (a, p)).
  { clear. intros a p Hp. assert (N : rsplit_slash p = None).
    { induction p as [|c p IH]; [reflexivity|]. cbn. rewrite IH by (intros i; apply (Hp (S i))).
      destruct (Ascii.eqb_spec c "/") as [->|]; [|reflexivity]. exfalso. now apply (Hp 0). }
    induction a as [|c a IH]; cbn; [now rewrite N|]. cbn in IH. now rewrite IH. }
  pose proof (R a p Hp) as Ra. rewrite E, (R b q Hq) in Ra. injection Ra as -> ->. auto.
Qed.
Lemma tree_keys_nodup t : tree_ok t -> NoDup (tree_keys t).
Proof.
  intros [Hm Hp]. unfold tree_keys. induction t as [|[m ps] t IH]; [constructor|].
  cbn [flat_map map fst snd] in *. inversion Hm as [|? ? Hm1 Hm2]; subst.
  assert (IH' : NoDup (flat_map (fun mp => map (fun p => String.concat "/" [fst mp; p]) (snd mp)) t)).
  { apply IH; [assumption|]. intros m' ps' H. apply (Hp m'). now right. }
  destruct (Hp m ps (or_introl eq_refl)) as [Hnd Hsl].
  assert (A : forall l, NoDup l -> (forall p, In p l -> In p ps) ->
    NoDup (map (fun p => String.concat "/" [m; p]) l ++ flat_map (fun mp => map (fun p => String.concat "/" [fst mp; p]) (snd mp)) t)).
  { induction l as [|p l IHl]; intros Hl Hin; [exact IH'|]. inversion Hl as [|? ? Hl1 Hl2]; subst. cbn [map List.app].
    constructor; [|apply IHl; [assumption|intros q Hq; apply Hin; now right]].
    rewrite in_app_iff. intros [H|H].
    - apply in_map_iff in H as (q & E & Hq). cbn in E.
      destruct (key_split m m q p) as [_ ->]; [intros i; apply Hsl, Hin; now right|intros i; apply Hsl, Hin; now left|exact E|contradiction].
    - apply in_flat_map in H as ([m' ps'] & Hin' & H). apply in_map_iff in H as (q & E & Hq). cbn in E, Hq.
      destruct (Hp m' ps' (or_intror Hin')) as [_ Hsl'].
      destruct (key_split m' m q p) as [-> _]; [intros i; now apply Hsl'|intros i; apply Hsl, Hin; now left|exact E|].
      apply Hm1. apply in_map_iff. now exists (m, ps'). }
  apply A; auto.
Qed.

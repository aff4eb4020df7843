(** Lookup lemmas for the two-level mappings of [ModelCore]. *)
From stdpp Require Import gmap list strings.
From Coq Require Import String ZArith.
From Verif Require Import ModelStr ModelRng ModelCore.

Section Maps.
Context {A B : Type}.
Implicit Types (m : bundles A).

Lemma lookup2_Some b n m v :
  lookup2 b n m = Some v <-> exists x, m !! b = Some x /\ x !! n = Some v.
Proof.
  unfold lookup2. destruct (m !! b) as [x|]; split.
  - intros H. exists x. auto.
  - intros (y & E & H). injection E as ->. exact H.
  - discriminate.
  - intros (y & E & _). discriminate.
Qed.

Lemma lookup2_bundle b n m v : lookup2 b n m = Some v -> is_Some (m !! b).
Proof. unfold lookup2. destruct (m !! b); [eauto|discriminate]. Qed.

Lemma lookup2_empty b n : lookup2 (A:=A) b n ∅ = None.
Proof. unfold lookup2. now rewrite lookup_empty. Qed.

Lemma lookup2_insert2 b n b' n' v m :
  lookup2 b n (insert2 b' n' v m) =
  if decide (b = b' /\ n = n') then Some v else lookup2 b n m.
Proof.
  unfold lookup2, insert2. destruct (decide (b = b')) as [->|N].
  - rewrite lookup_insert. destruct (decide (n = n')) as [->|N].
    + rewrite lookup_insert. now rewrite decide_True.
    + rewrite lookup_insert_ne by congruence. rewrite decide_False by tauto.
      destruct (m !! b'); cbn; [reflexivity|]. apply lookup_empty.
  - rewrite lookup_insert_ne by congruence. now rewrite decide_False by tauto.
Qed.

Lemma lookup2_insert2_eq b n v m : lookup2 b n (insert2 b n v m) = Some v.
Proof. rewrite lookup2_insert2. now rewrite decide_True. Qed.
Lemma lookup2_insert2_ne b n b' n' v m :
  ~ (b = b' /\ n = n') -> lookup2 b n (insert2 b' n' v m) = lookup2 b n m.
Proof. intros H. rewrite lookup2_insert2. now rewrite decide_False. Qed.

Lemma insert2_bundle b b' n v m : is_Some (m !! b) -> is_Some (insert2 b' n v m !! b).
Proof.
  unfold insert2. destruct (decide (b = b')) as [->|N].
  - rewrite lookup_insert. eauto.
  - now rewrite lookup_insert_ne by congruence.
Qed.

Lemma lookup2_touch b n b' m : lookup2 b n (touch b' m) = lookup2 b n m.
Proof.
  unfold lookup2, touch. destruct (m !! b') eqn:E; [reflexivity|].
  destruct (decide (b = b')) as [->|N].
  - rewrite lookup_insert, E. apply lookup_empty.
  - now rewrite lookup_insert_ne by congruence.
Qed.
Lemma touch_bundle b b' m : is_Some (m !! b) -> is_Some (touch b' m !! b).
Proof.
  unfold touch. destruct (m !! b') eqn:E; [auto|].
  destruct (decide (b = b')) as [->|N].
  - rewrite lookup_insert. eauto.
  - now rewrite lookup_insert_ne by congruence.
Qed.
Lemma touch_idem b m : is_Some (m !! b) -> touch b m = m.
Proof. unfold touch. intros [x ->]. reflexivity. Qed.
Lemma touch_self b m : is_Some (touch b m !! b).
Proof.
  unfold touch. destruct (m !! b) eqn:E; [rewrite E; eauto|]. rewrite lookup_insert. eauto.
Qed.

Lemma lookup2_map2 (g : A -> B) b n m : lookup2 b n (map2 g m) = g <$> lookup2 b n m.
Proof.
  unfold lookup2, map2. rewrite lookup_fmap. destruct (m !! b) as [x|]; cbn; [|reflexivity].
  apply lookup_fmap.
Qed.
Lemma map2_bundle (g : A -> B) b m : is_Some (map2 g m !! b) <-> is_Some (m !! b).
Proof. unfold map2. rewrite lookup_fmap. apply fmap_is_Some. Qed.
Lemma map2_lookup (g : A -> B) b m : map2 g m !! b = fmap g <$> m !! b.
Proof. unfold map2. apply lookup_fmap. Qed.

Lemma update_inner_lookup (d : gmap string A) (s : gmap string (option A)) n :
  update_inner d s !! n = match s !! n with Some (Some v) => Some v | _ => d !! n end.
Proof.
  unfold update_inner. rewrite lookup_merge. now destruct (d !! n), (s !! n) as [[]|].
Qed.

Lemma update_recursive_lookup (d : bundles A) (s : bundles (option A)) b :
  update_recursive d s !! b =
  match s !! b with Some x => Some (update_inner (default ∅ (d !! b)) x) | None => d !! b end.
Proof.
  unfold update_recursive. rewrite lookup_merge. now destruct (d !! b), (s !! b).
Qed.

Lemma lookup2_update (d : bundles A) (s : bundles (option A)) b n :
  lookup2 b n (update_recursive d s) =
  match lookup2 b n s with Some (Some v) => Some v | _ => lookup2 b n d end.
Proof.
  unfold lookup2 at 1. rewrite update_recursive_lookup. unfold lookup2.
  destruct (s !! b) as [x|]; [|reflexivity].
  rewrite update_inner_lookup. destruct (d !! b) as [y|]; cbn; [reflexivity|].
  now rewrite lookup_empty.
Qed.

Lemma update_bundle (d : bundles A) (s : bundles (option A)) b :
  is_Some (update_recursive d s !! b) <-> is_Some (d !! b) \/ is_Some (s !! b).
Proof.
  rewrite update_recursive_lookup. destruct (s !! b) as [x|] eqn:E.
  - split; intros; eauto.
  - split; [auto|]. intros [H|[? H]]; [auto|discriminate].
Qed.

Lemma fill_missing_lookup (a b : bundles A) k :
  fill_missing a b !! k =
  match b !! k with Some v1 => Some (map_imap (fun k2 _ => Some (lookup2 k k2 a)) v1) | None => None end.
Proof. unfold fill_missing. rewrite map_lookup_imap. now destruct (b !! k). Qed.

Lemma lookup2_fill_missing (a b : bundles A) k n :
  lookup2 k n (fill_missing a b) =
  match lookup2 k n b with Some _ => Some (lookup2 k n a) | None => None end.
Proof.
  unfold lookup2 at 1 2. rewrite fill_missing_lookup. destruct (b !! k) as [x|]; [|reflexivity].
  rewrite map_lookup_imap. now destruct (x !! n).
Qed.
End Maps.

Lemma multimap_lookup {A B D} (g : A -> B -> D) (a : bundles A) (b : bundles B) k :
  multimap g a b !! k =
  match a !! k, b !! k with Some x, Some y => Some (map_zip_with g x y) | _, _ => None end.
Proof.
  unfold multimap. rewrite map_lookup_zip_with. now destruct (a !! k), (b !! k).
Qed.
Lemma lookup2_multimap {A B D} (g : A -> B -> D) (a : bundles A) (b : bundles B) k n :
  lookup2 k n (multimap g a b) =
  match lookup2 k n a, lookup2 k n b with Some x, Some y => Some (g x y) | _, _ => None end.
Proof.
  unfold lookup2. rewrite multimap_lookup.
  destruct (a !! k) as [x|], (b !! k) as [y|]; try reflexivity.
  - rewrite map_lookup_zip_with. now destruct (x !! n), (y !! n).
  - now destruct (x !! n).
Qed.

(** [multimap g (fill_missing a b) b]: the shape of [difference]. *)
Lemma lookup2_diff {A D} (g : option A -> A -> D) (a b : bundles A) k n :
  lookup2 k n (multimap g (fill_missing a b) b) = g (lookup2 k n a) <$> lookup2 k n b.
Proof.
  rewrite lookup2_multimap, lookup2_fill_missing. now destruct (lookup2 k n b).
Qed.
Lemma diff_bundle {A D} (g : option A -> A -> D) (a b : bundles A) k :
  is_Some (multimap g (fill_missing a b) b !! k) <-> is_Some (b !! k).
Proof.
  rewrite multimap_lookup, fill_missing_lookup. destruct (b !! k) as [x|].
  - split; eauto.
  - split; intros [? H]; discriminate.
Qed.

(** Extensionality through [lookup2] and the set of bundles. *)
Lemma bundles_ext {A} (a b : bundles A) :
  (forall k, is_Some (a !! k) <-> is_Some (b !! k)) ->
  (forall k n, lookup2 k n a = lookup2 k n b) -> a = b.
Proof.
  intros H1 H2. apply map_eq. intros k. specialize (H1 k).
  pose proof (fun n => H2 k n) as H3. unfold lookup2 in H3.
  destruct (a !! k) as [x|], (b !! k) as [y|]; try reflexivity.
  - f_equal. apply map_eq. exact H3.
  - exfalso. destruct H1 as [H1 _]. destruct H1 as [? E]; [eauto|discriminate].
  - exfalso. destruct H1 as [_ H1]. destruct H1 as [? E]; [eauto|discriminate].
Qed.

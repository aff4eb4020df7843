(** * C47 (MLP) and C54 (Embed) *)
From Coq Require Import String ZArith List Bool Lia.
From Verif Require Import ModelRnn ModelNets.
Import ListNotations.
Local Open Scope list_scope.

(** ** C47 MLP layer structure and reversal *)
(** The network described by the documentation: the layers in order, the activation after every layer but the last, and after the
    last one only if [final]. [g i] is what follows layer [i] when it is activated. *)
Fixpoint network {V} (fs : list (V -> V)) (g : nat -> V -> V) (final : bool) (i : nat) (x : V) : V :=
  match fs with
  | [] => x
  | [f] => if final then g i (f x) else f x
  | f :: fs => network fs g final (S i) (g i (f x))
  end.
(** The layers of an MLP of the given sizes after a call on an input of width [d]. *)
Fixpoint called (k d : nat) (sizes : list nat) : list linear :=
  match sizes with [] => [] | o :: sizes => Lin k (Some o) (Some d) (Some (d, o)) :: called (S k) o sizes end.
Definition fresh (sizes : list nat) : list linear :=
  map (fun p => Lin (fst p) (Some (snd p)) None None) (combine (seq 0 (length sizes)) sizes).

Section mlp.
Context {V K : Type}.
Variables (last_dim : V -> option nat) (lin : nat -> V -> V) (drop : K -> V -> V) (act : V -> V).
(** Layer [i] produces arrays whose last axis has size [sizes[i]]; activation and dropout keep sizes. *)
Definition sized (sizes : list nat) : Prop :=
  (forall i o x d, nth_error sizes i = Some o -> last_dim x = Some d -> last_dim (lin i x) = Some o) /\
  (forall x, last_dim (act x) = last_dim x) /\ (forall k x, last_dim (drop k x) = last_dim x).

Let layer_ok (k d o : nat) (l : linear) : Prop :=
  li_index l = k /\ li_out l = Some o /\ (li_w l = None \/ li_w l = Some (d, o)).
Fixpoint layers_ok (k d : nat) (sizes : list nat) (ls : list linear) : Prop :=
  match sizes, ls with
  | [], [] => True
  | o :: sizes, l :: ls => layer_ok k d o l /\ layers_ok (S k) o sizes ls
  | _, _ => False
  end.
Lemma called_ok sizes : forall k d, layers_ok k d sizes (called k d sizes).
Proof. induction sizes as [|o sizes IH]; intros k d; cbn; [exact Logic.I|]. unfold layer_ok. cbn. auto. Qed.
Lemma fresh_ok sizes : forall k d, layers_ok k d sizes (map (fun p => Lin (fst p) (Some (snd p)) None None) (combine (seq k (length sizes)) sizes)).
Proof. induction sizes as [|o sizes IH]; intros k d; cbn; [exact Logic.I|]. unfold layer_ok. cbn. auto. Qed.

Definition activate (keys : option (nat -> K)) (i : nat) (x : V) : V :=
  match keys with Some k => act (drop (k i) x) | None => act x end.

Lemma loop_ok all (final : bool) keys : sized all -> forall sizes k d ls x nk, skipn k all = sizes -> layers_ok k d sizes ls ->
  last_dim x = Some d -> (keys = None \/ nk = k) -> k <= length all ->
  mlp_loop last_dim lin drop act (length all) k final ls keys nk x =
  (called k d sizes, Some (network (map lin (seq k (length sizes))) (activate keys) final k x)).
Proof.
  intros (Hl & Ha & Hd) sizes. induction sizes as [|o sizes IH]; intros k d ls x nk Hs Hok Hx Hk Hle; destruct ls as [|l ls]; try contradiction.
  - reflexivity.
  - destruct Hok as [(E1 & E2 & E3) Hok]. destruct l as [ix ou inp w]. cbn in E1, E2, E3. subst ix ou. cbn [mlp_loop].
    rewrite Hx. unfold linear_call. cbn [li_out li_w li_index].
    assert (Hn : nth_error all k = Some o).
    { rewrite <- (Nat.add_0_r k). rewrite <- (firstn_skipn k all), Hs. rewrite nth_error_app2; rewrite firstn_length_le by lia; [|lia].
      replace (k + 0 - k) with 0 by lia. reflexivity. }
    assert (Hlt : k < length all) by (apply nth_error_Some; congruence).
    assert (Hlen : length all = k + S (length sizes)).
    { apply (f_equal (@length nat)) in Hs. rewrite skipn_length in Hs. cbn in Hs. lia. }
    assert (Hs' : skipn (S k) all = sizes).
    { change (S k) with (1 + k). rewrite Nat.add_comm. rewrite <- (firstn_skipn k all) at 1. rewrite skipn_app, firstn_length_le by lia.
      rewrite skipn_all2 by (rewrite firstn_length_le; lia). replace (k + 1 - k) with 1 by lia. now rewrite Hs. }
    assert (EQ : (match w with
       | Some (d', o') => if (d' =? d) && (o' =? o) then (Lin k (Some o) (Some d) w, Some o) else (Lin k (Some o) (Some d) w, None)
       | None => (Lin k (Some o) (Some d) (Some (d, o)), Some o)
       end) = (Lin k (Some o) (Some d) (Some (d, o)), Some o)).
    { destruct E3 as [->| ->]; [reflexivity|]. now rewrite !Nat.eqb_refl. }
    rewrite EQ. cbn [li_index].
    assert (Hlast : last_dim (lin k x) = Some o) by eauto.
    cbn [length seq map called network].
    destruct sizes as [|o2 sizes].
    + cbn [length] in Hlen. replace (k <? length all - 1)%nat with false by (symmetry; apply Nat.ltb_ge; lia). cbn [orb].
      destruct ls; [|contradiction]. cbn [seq map mlp_loop]. unfold activate.
      destruct final; [|reflexivity]. destruct keys; [destruct Hk as [|Hk]; [discriminate | subst nk]|]; reflexivity.
    + cbn [length] in Hlen. replace (k <? length all - 1)%nat with true by (symmetry; apply Nat.ltb_lt; lia). cbn [orb].
      assert (R : forall v nk', last_dim v = Some o -> (keys = None \/ nk' = S k) ->
        (let '(ls, r) := mlp_loop last_dim lin drop act (length all) (S k) final ls keys nk' v in
         (Lin k (Some o) (Some d) (Some (d, o)) :: ls, r)) =
        (Lin k (Some o) (Some d) (Some (d, o)) :: called (S k) o (o2 :: sizes),
         Some (network (map lin (seq (S k) (length (o2 :: sizes)))) (activate keys) final (S k) v))).
      { intros v nk' Hv Hk'. rewrite (IH (S k) o ls v nk'); auto; lia. }
      cbn [length seq map] in R |- *.
      destruct keys as [ks|].
      * destruct Hk as [|Hk]; [discriminate|]. subst nk. rewrite R; [reflexivity | rewrite Ha, Hd; assumption | auto].
      * rewrite R; [reflexivity | rewrite Ha; assumption | auto].
Qed.

(** Any call on an input of width [d], the first one or a later one, applies the documented network; with dropout the [i]-th
    activation is preceded by dropout with the [i]-th key of the sequence. The call records the input width of each layer. *)
Theorem C47_layers sizes (with_bias b_init final : bool) name m d x (rng : option (nat -> K)) :
  sized sizes -> last_dim x = Some d ->
  m_layers m = fresh sizes \/ m_layers m = called 0 d sizes -> m_final m = final ->
  let r := mlp_call last_dim lin drop act m x (match rng with Some _ => true | None => false end) rng in
  snd r = Some (network (map lin (seq 0 (length sizes)))
                        (fun i x => match rng with Some k => act (drop (k i) x) | None => act x end) final 0 x) /\
  m_layers (fst r) = called 0 d sizes /\
  (mlp_new (map Some sizes) with_bias b_init final name = Some m -> m_layers m = fresh sizes).
Proof.
  intros Hz Hx Hm Hf. cbv zeta.
  assert (Hok : layers_ok 0 d sizes (m_layers m)) by (destruct Hm as [-> | ->]; [apply fresh_ok | apply called_ok]).
  assert (HL : length (m_layers m) = length sizes).
  { destruct Hm as [-> | ->]; [unfold fresh; rewrite map_length, combine_length, seq_length; lia|].
    generalize 0 d. clear. induction sizes; intros; cbn; auto. }
  split; [|split].
  - unfold mlp_call. rewrite HL, Hf. destruct rng as [ks|].
    + rewrite (loop_ok sizes final (Some ks) Hz sizes 0 d); auto; lia.
    + rewrite (loop_ok sizes final None Hz sizes 0 d); auto; lia.
  - unfold mlp_call. rewrite HL, Hf. destruct rng as [ks|].
    + rewrite (loop_ok sizes final (Some ks) Hz sizes 0 d); auto; lia.
    + rewrite (loop_ok sizes final None Hz sizes 0 d); auto; lia.
  - unfold mlp_new. destruct (negb with_bias && b_init); [discriminate|]. intros [= <-]. cbn [m_layers]. unfold fresh. rewrite map_length.
    generalize 0. clear. induction sizes as [|o sizes IH]; intros k; cbn; [reflexivity|]. f_equal. apply IH.
Qed.

(** A dropout rate without a key and a key without a dropout rate are rejected. *)
Theorem C47_dropout_arguments m x (k : nat -> K) :
  snd (mlp_call last_dim lin drop act m x true None) = None /\ snd (mlp_call last_dim lin drop act m x false (Some k)) = None.
Proof. split; reflexivity. Qed.
End mlp.
Print Assumptions C47_layers.

(** The input sizes of an MLP of given sizes on inputs of width [d]. *)
Definition input_sizes (d : nat) (sizes : list nat) : list nat := removelast (d :: sizes).
Lemma input_sizes_called sizes : forall k d, map li_in (called k d sizes) = map Some (input_sizes d sizes).
Proof.
  induction sizes as [|o sizes IH]; intros k d; [reflexivity|]. cbn [called map li_in]. rewrite IH. unfold input_sizes.
  cbn [removelast]. reflexivity.
Qed.
(** After a call on inputs of width [d], the reverse of the MLP is a fresh MLP whose output sizes are the input sizes in reverse
    order; it maps outputs of the original to arrays of the original width. *)
Theorem C47_reverse sizes d m (final : option bool) name :
  m_layers m = called 0 d sizes -> (m_with_bias m = false -> m_b_init m = false) ->
  exists r, mlp_reverse m final name = Some r /\ m_layers r = fresh (rev (input_sizes d sizes)) /\
    m_final r = match final with Some b => b | None => m_final m end /\
    (sizes <> [] -> last (rev (input_sizes d sizes)) 0 = d).
Proof.
  intros Hm Hb. unfold mlp_reverse, mlp_new. rewrite Hm, map_rev, input_sizes_called, <- map_rev.
  assert (E : negb (m_with_bias m) && m_b_init m = false) by (destruct (m_with_bias m); [reflexivity | now rewrite Hb]).
  rewrite E. eexists. split; [reflexivity|]. split; [|split; [reflexivity|]].
  - cbn [m_layers]. unfold fresh. rewrite map_length. generalize 0. generalize (rev (input_sizes d sizes)). clear.
    induction l as [|o l IH]; intros k; cbn; [reflexivity|]. f_equal. apply IH.
  - intros Hne. unfold input_sizes. destruct sizes as [|o sizes]; [congruence|].
    change (removelast (d :: o :: sizes)) with (d :: removelast (o :: sizes)). cbn [rev]. apply last_last.
Qed.
(** Calling the reverse on an output of the original and reversing again gives an MLP of the original sizes. *)
Theorem C47_reverse_twice sizes d m f1 n1 f2 n2 r r' r2 :
  sizes <> [] -> m_layers m = called 0 d sizes ->
  mlp_reverse m f1 n1 = Some r -> m_layers r' = called 0 (last sizes 0) (rev (input_sizes d sizes)) ->
  m_with_bias r' = m_with_bias r -> m_b_init r' = m_b_init r ->
  mlp_reverse r' f2 n2 = Some r2 -> m_layers r2 = fresh sizes.
Proof.
  intros Hne Hm Hr Hr' _ _ H2. unfold mlp_reverse, mlp_new in H2. destruct (negb _ && _); [discriminate|]. injection H2 as <-. cbn [m_layers].
  rewrite Hr', map_rev, input_sizes_called, <- map_rev.
  assert (E : rev (input_sizes (last sizes 0) (rev (input_sizes d sizes))) = sizes).
  { unfold input_sizes. destruct (exists_last Hne) as (s & a & ->). rewrite last_last.
    assert (G : forall l, removelast (d :: l ++ [a]) = d :: l).
    { intros l. change (d :: l ++ [a]) with ((d :: l) ++ [a]). apply removelast_last. }
    rewrite G. cbn [rev]. change (a :: rev s ++ [d]) with ((a :: rev s) ++ [d]). rewrite removelast_last. cbn [rev]. now rewrite rev_involutive. }
  rewrite E. unfold fresh. rewrite map_length. generalize 0. clear. induction sizes as [|o sizes IH]; intros k; cbn; [reflexivity|]. f_equal. apply IH.
Qed.

(** The documentation says [reverse] fails on an MLP that was never called: it returns an MLP (that cannot be called). *)
Theorem C47_uncalled_refuted : ~ (forall sizes m name, mlp_new (map Some sizes) true false false name = Some m -> sizes <> [] ->
  mlp_reverse m None None = None).
Proof.
  intros H. specialize (H [3; 2] _ "mlp"%string eq_refl ltac:(discriminate)). vm_compute in H. discriminate H.
Qed.
(** A failed call changes what [reverse] returns: the input size is stored before the parameter is checked. *)
Definition width_call (m : mlp) (w : nat) : mlp * option nat :=
  mlp_call (fun x => Some x) (fun i x => match i with 0 => 3 | _ => 2 end) (fun (_ : unit) x => x) (fun x => x) m w false None.
Theorem C47_failed_call_refuted : ~ (forall m w w', snd (width_call m w) <> None ->
  snd (width_call (fst (width_call m w)) w') = None ->
  mlp_reverse (fst (width_call (fst (width_call m w)) w')) None None = mlp_reverse (fst (width_call m w)) None None).
Proof.
  intros H.
  specialize (H (MLP (fresh [3; 2]) true false false "mlp") 5 7).
  assert (E : mlp_reverse (fst (width_call (fst (width_call (MLP (fresh [3; 2]) true false false "mlp") 5)) 7)) None None =
              mlp_reverse (fst (width_call (MLP (fresh [3; 2]) true false false "mlp") 5)) None None).
  { apply H; vm_compute; congruence. }
  vm_compute in E. discriminate E.
Qed.
(** Sizes 3, 2 on inputs of width 5; arrays are represented by their width together with the operations applied. *)
Example C47_trace :
  let lin i (x : nat * list string) := (match i with 0 => 3 | _ => 2 end, (snd x ++ [match i with 0 => "linear_0" | _ => "linear_1" end%string])%list) in
  let act (x : nat * list string) := (fst x, (snd x ++ ["relu"%string])%list) in
  let drop (k : string) (x : nat * list string) := (fst x, (snd x ++ [k])%list) in
  let m := MLP (fresh [3; 2]) true false false "mlp" in
  sized (fun x => Some (fst x)) lin drop act [3; 2] /\
  snd (mlp_call (fun x => Some (fst x)) lin drop act m (5, []) false None) = Some (2, ["linear_0"; "relu"; "linear_1"]%string) /\
  snd (mlp_call (fun x => Some (fst x)) lin drop act m (5, []) true (Some (fun i => match i with 0 => "key0" | _ => "key1" end%string)))
    = Some (2, ["linear_0"; "key0"; "relu"; "linear_1"]%string) /\
  option_map (fun r => map li_out (m_layers r)) (mlp_reverse (fst (mlp_call (fun x => Some (fst x)) lin drop act m (5, []) false None)) None None)
    = Some [Some 3; Some 5].
Proof.
  cbv zeta. split; [|split; [|split]]; [| reflexivity | reflexivity | reflexivity].
  split; [|split; reflexivity]. intros [|[|i]] o x d; cbn; [intros [= <-]; reflexivity | intros [= <-]; reflexivity | destruct i; discriminate].
Qed.

(** ** C54 Embed lookup styles agree *)
Section embed.
Context {A : Type}.
Variables (zero one : A) (add mul : A -> A -> A).
(** The facts about the number type that the one-hot lookup needs. *)
Definition exact_ops : Prop :=
  (forall x, mul x one = x) /\ (forall x, mul x zero = zero) /\ (forall x, add zero x = x) /\ (forall x, add x zero = x).

Lemma add_zero_r d : exact_ops -> forall acc : list A, length acc = d -> map (fun p => add (fst p) (snd p)) (combine acc (repeat zero d)) = acc.
Proof.
  intros (_ & _ & _ & H) acc. revert d. induction acc as [|a acc IH]; intros [|d] E; try discriminate; cbn; [reflexivity|].
  rewrite H. f_equal. apply IH. cbn in E; lia.
Qed.
Lemma add_zero_l : exact_ops -> forall row : list A, map (fun p => add (fst p) (snd p)) (combine (repeat zero (length row)) row) = row.
Proof. intros (_ & _ & H & _) row. induction row as [|a row IH]; cbn; [reflexivity|]. rewrite H. now f_equal. Qed.
Lemma mul_zero_row : exact_ops -> forall row : list A, map (fun x => mul x zero) row = repeat zero (length row).
Proof. intros (_ & H & _) row. induction row as [|a row IH]; cbn; [reflexivity|]. now rewrite H, IH. Qed.
Lemma mul_one_row : exact_ops -> forall row : list A, map (fun x => mul x one) row = row.
Proof. intros (H & _) row. induction row as [|a row IH]; cbn; [reflexivity|]. now rewrite H, IH. Qed.

Lemma fold_one_hot d id : exact_ops -> forall (table : list (list A)) k acc, Forall (fun r => length r = d) table -> length acc = d ->
  fold_left (fun acc r => map (fun p => add (fst p) (snd p)) (combine acc r))
    (map (fun p => map (fun x => mul x (snd p)) (fst p))
       (combine table (map (fun k => if (Z.of_nat k =? id)%Z then one else zero) (seq k (length table))))) acc =
  match nth_error table (Z.to_nat (id - Z.of_nat k)) with
  | Some row => if (Z.of_nat k <=? id)%Z then map (fun p => add (fst p) (snd p)) (combine acc row) else acc
  | None => acc
  end.
Proof.
  intros Hops table. induction table as [|row table IH]; intros k acc HF Hacc.
  - cbn. now destruct (Z.to_nat _).
  - inversion HF; subst. cbn [length seq map combine fold_left fst snd].
    destruct (Z.eqb_spec (Z.of_nat k) id) as [E|E].
    + rewrite mul_one_row by assumption.
      replace (Z.to_nat (id - Z.of_nat k)) with 0 by lia. cbn [nth_error]. replace (Z.of_nat k <=? id)%Z with true by (symmetry; apply Z.leb_le; lia).
      rewrite IH; [|assumption | rewrite map_length, combine_length; lia].
      replace (Z.of_nat (S k) <=? id)%Z with false by (symmetry; apply Z.leb_gt; lia). now destruct nth_error.
    + rewrite mul_zero_row, add_zero_r by auto. rewrite IH by auto.
      destruct (Z.leb_spec (Z.of_nat k) id).
      * replace (Z.to_nat (id - Z.of_nat k)) with (S (Z.to_nat (id - Z.of_nat (S k)))) by lia. cbn [nth_error].
        replace (Z.of_nat (S k) <=? id)%Z with true by (symmetry; apply Z.leb_le; lia). reflexivity.
      * replace (Z.of_nat (S k) <=? id)%Z with false by (symmetry; apply Z.leb_gt; lia). now destruct nth_error, nth_error.
Qed.

(** For every table whose rows have the same length and every array of ids in [0, vocab_size), both styles return, for each id,
    the row with that number. *)
Theorem C54_agree d (table : list (list A)) ids : exact_ops -> Forall (fun r => length r = d) table ->
  Forall (fun id => (0 <= id < Z.of_nat (length table))%Z) ids ->
  embed_call zero one add mul ArrayIndex d table ids = map (fun id => nth_error table (Z.to_nat id)) ids /\
  embed_call zero one add mul OneHot d table ids = map (fun id => nth_error table (Z.to_nat id)) ids /\
  Forall (fun id => nth_error table (Z.to_nat id) <> None) ids.
Proof.
  intros Hops HT HF. rewrite Forall_forall in HF. unfold embed_call. split; [|split].
  - apply map_ext_in. intros id Hid. specialize (HF id Hid). unfold array_index.
    replace (id <? 0)%Z with false by (symmetry; apply Z.ltb_ge; lia). f_equal. lia.
  - apply map_ext_in. intros id Hid. specialize (HF id Hid). unfold one_hot_lookup, one_hot, sum_rows.
    rewrite (fold_one_hot d) by (auto; apply repeat_length). rewrite Z.sub_0_r.
    replace (Z.of_nat 0 <=? id)%Z with true by (symmetry; apply Z.leb_le; lia).
    destruct (nth_error table (Z.to_nat id)) as [row|] eqn:E.
    + f_equal. rewrite Forall_forall in HT. rewrite <- (HT row) by (eapply nth_error_In; eauto). now apply add_zero_l.
    + apply nth_error_None in E. lia.
  - apply Forall_forall. intros id Hid. specialize (HF id Hid). apply nth_error_Some. lia.
Qed.

(** Outside of that range: array indexing wraps negative ids once and clamps everything else, one-hot gives zeros. *)
Theorem C54_out_of_range d (table : list (list A)) id : exact_ops -> Forall (fun r => length r = d) table -> table <> [] ->
  (id < 0 \/ Z.of_nat (length table) <= id)%Z ->
  one_hot_lookup zero one add mul d table id = Some (repeat zero d) /\
  array_index table id = nth_error table (if (Z.of_nat (length table) <=? id)%Z then length table - 1
                                          else Z.to_nat (Z.max 0 (id + Z.of_nat (length table)))) .
Proof.
  intros Hops HT Hne Hid. assert (HL : 0 < length table) by (destruct table; [congruence | cbn; lia]). split.
  - unfold one_hot_lookup, one_hot, sum_rows. rewrite (fold_one_hot d) by (auto; apply repeat_length). rewrite Z.sub_0_r. f_equal.
    destruct Hid as [Hid|Hid].
    + replace (Z.of_nat 0 <=? id)%Z with false by (symmetry; apply Z.leb_gt; lia). now destruct nth_error.
    + assert (nth_error table (Z.to_nat id) = None) as -> by (apply nth_error_None; lia). reflexivity.
  - unfold array_index. f_equal. destruct Hid as [Hid|Hid].
    + replace (id <? 0)%Z with true by (symmetry; apply Z.ltb_lt; lia).
      replace (Z.of_nat (length table) <=? id)%Z with false by (symmetry; apply Z.leb_gt; lia). lia.
    + replace (id <? 0)%Z with false by (symmetry; apply Z.ltb_ge; lia).
      replace (Z.of_nat (length table) <=? id)%Z with true by (symmetry; apply Z.leb_le; lia). lia.
Qed.
End embed.
Print Assumptions C54_agree.

Lemma Z_exact : exact_ops 0%Z 1%Z Z.add Z.mul.
Proof. repeat split; intros; lia. Qed.
(** The constructor's documentation says the result does not depend on the style: it does for ids out of range. *)
Theorem C54_range_refuted : ~ (forall d (table : list (list Z)) ids, Forall (fun r => length r = d) table ->
  embed_call 0%Z 1%Z Z.add Z.mul ArrayIndex d table ids = embed_call 0%Z 1%Z Z.add Z.mul OneHot d table ids).
Proof.
  intros H. specialize (H 1 [[4%Z]; [5%Z]] [(-1)%Z; 2%Z]). assert (E := H ltac:(repeat constructor)). vm_compute in E. discriminate E.
Qed.
(** With values for which multiplication by zero is not zero (an infinite entry gives NaN) the styles differ even for ids in range:
    every row is contaminated by infinite entries of other rows. *)
Inductive fl := Fin (z : Z) | Inf | NaN.
Definition fl_add (a b : fl) : fl := match a, b with Fin x, Fin y => Fin (x + y) | NaN, _ | _, NaN => NaN | _, _ => Inf end.
Definition fl_mul (a b : fl) : fl :=
  match a, b with Fin x, Fin y => Fin (x * y) | NaN, _ | _, NaN => NaN | Fin 0%Z, Inf | Inf, Fin 0%Z => NaN | _, _ => Inf end.
Theorem C54_nonfinite_refuted : ~ (forall d (table : list (list fl)) ids, Forall (fun r => length r = d) table ->
  Forall (fun id => (0 <= id < Z.of_nat (length table))%Z) ids ->
  embed_call (Fin 0) (Fin 1) fl_add fl_mul ArrayIndex d table ids = embed_call (Fin 0) (Fin 1) fl_add fl_mul OneHot d table ids).
Proof.
  intros H. specialize (H 1 [[Fin 4]; [Inf]] [0%Z]).
  assert (E := H ltac:(repeat constructor) ltac:(repeat constructor; cbn; lia)). vm_compute in E. discriminate E.
Qed.

(** The constructor accepts exactly: no matrix and two positive sizes, or a matrix whose sizes equal the positive sizes given;
    the table has the sizes of the matrix, or the given ones. *)
Theorem C54_constructor vocab dim matrix v d : embed_new vocab dim matrix = Some (v, d) <->
  match matrix with
  | None => vocab = Some v /\ dim = Some d /\ 0 < v /\ 0 < d
  | Some (v', d') => v = v' /\ d = d' /\ (vocab = None \/ vocab = Some 0 \/ vocab = Some v) /\ (dim = None \/ dim = Some 0 \/ dim = Some d)
  end.
Proof.
  unfold embed_new, given. destruct matrix as [[v' d']|].
  - destruct vocab as [[|a]|], dim as [[|b]|]; cbv beta iota zeta; try destruct (Nat.eqb_spec (S a) v'); try destruct (Nat.eqb_spec (S b) d'); cbn [negb];
      (split; [intros E; first [discriminate E | injection E as <- <-; subst; auto 10]|]);
      intros (-> & -> & H1 & H2); try reflexivity;
      repeat match goal with H : _ \/ _ |- _ => destruct H end; congruence.
  - destruct vocab as [[|a]|], dim as [[|b]|];
      (split; [intros E; first [discriminate E | injection E as <- <-; repeat split; lia]|]);
      intros (E1 & E2 & H1 & H2); first [discriminate E1 | discriminate E2 | injection E1 as <-; injection E2 as <-; first [reflexivity | lia]].
Qed.
(** A [vocab_size] of zero is documented to be checked against the matrix, but is not. *)
Theorem C54_zero_refuted : ~ (forall vocab dim v d r, embed_new vocab dim (Some (v, d)) = Some r -> vocab = None \/ vocab = Some v).
Proof. intros H. destruct (H (Some 0) None 5 2 _ eq_refl) as [E|E]; discriminate E. Qed.

(** The style of the call, when given, wins over the one of the constructor. *)
Theorem C54_style call default : resolve_style call default =
  match call with
  | Some (inr s) => Some s
  | Some (inl n) => if String.eqb n "" then resolve_style None default
                    else if String.eqb n "ARRAY_INDEX" then Some ArrayIndex else if String.eqb n "ONE_HOT" then Some OneHot else None
  | None => resolve_style None default
  end.
Proof. destruct call as [[n|s]|]; [|reflexivity|reflexivity]. destruct n; reflexivity. Qed.
Example C54_values :
  embed_call 0%Z 1%Z Z.add Z.mul ArrayIndex 2 [[1; 2]; [3; 4]; [5; 6]]%Z [2; 0; 2]%Z = map Some [[5; 6]; [1; 2]; [5; 6]]%Z /\
  embed_call 0%Z 1%Z Z.add Z.mul OneHot 2 [[1; 2]; [3; 4]; [5; 6]]%Z [2; 0; 2]%Z = map Some [[5; 6]; [1; 2]; [5; 6]]%Z.
Proof. split; vm_compute; reflexivity. Qed.

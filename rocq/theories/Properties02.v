(** C07, C29, C30: random keys. *)
From stdpp Require Import gmap list strings.
From Coq Require Import String Ascii ZArith Lia.
From Verif Require Import ModelStr ModelRng ModelCore SpecCore Demo ProofsMap ProofsRng ProofsEvolve ProofsRun ProofsOps ProofsKeys.
Local Open Scope string_scope.
Local Open Scope list_scope.

(** ** C07: keys are never reused *)

(** In a transform that started from the key [k0]: run any program [p0], request
    keys, run any program [p] (modules, jit, loops, caught exceptions, ...), request
    keys again. All keys handed out by the two requests are pairwise unrelated: none
    equals or is derived from another. Proviso: conditions of [while_loop]s draw no
    keys (see [C07_while_cond_refuted]). *)
Theorem C07_keys_unrelated C k0 w0 f0 n0 p0 r0 w1 n1 op1 v1 ks1 w2 n2 p r w3 n3 op2 v2 ks2 w4 :
  code_ok (quiet_cond C) C -> heap_ok (quiet_cond C) w0 ->
  all_ops (quiet_cond C) p0 -> all_ops (quiet_cond C) p ->
  top w0 = Some f0 -> f_rng f0 = Some (seq_of_key k0) ->
  run C n0 p0 w0 = (r0, w1) ->
  run C (S n1) op1 w1 = (Ok v1, w2) -> delivers op1 v1 ks1 ->
  run C n2 p w2 = (r, w3) ->
  run C (S n3) op2 w3 = (Ok v2, w4) -> delivers op2 v2 ks2 ->
  forall i j a b, i <> j -> (ks1 ++ ks2) !! i = Some a -> (ks1 ++ ks2) !! j = Some b -> unrelated a b.
Proof.
  intros HC HI Hp0 Hp F0 R0 E0 E1 D1 E2 E3 D2 i j a b N Ha Hb. apply unrelated_indep.
  eapply antichain_lookup; eauto.
  exact (two_draws _ _ _ _ _ _ _ _ _ _ _ _ _ _ _ _ _ _ _ _ _ _ HC HI Hp0 Hp F0 R0 E0 E1 D1 E2 E3 D2).
Qed.
Print Assumptions C07_keys_unrelated.

(** The same for all keys a transform has handed out and committed, and also
    for the keys it still holds: the ghost log of the sequence. *)
Theorem C07_all_keys_unrelated C n p w r w' f k0 f' s' :
  code_ok (quiet_cond C) C -> heap_ok (quiet_cond C) w -> all_ops (quiet_cond C) p ->
  top w = Some f -> f_rng f = Some (seq_of_key k0) ->
  run C n p w = (r, w') -> top w' = Some f' -> f_rng f' = Some s' ->
  let keys := sq_key s' :: sq_subs s' ++ sq_log s' in
  forall i j a b, i <> j -> keys !! i = Some a -> keys !! j = Some b -> unrelated a b.
Proof.
  intros HC HI Hp F R E F' R' keys i j a b N Ha Hb. apply unrelated_indep.
  destruct (keys_run _ _ _ _ _ _ _ _ Hp HC HI E F R) as (_ & f1 & s1 & F1 & R1 & G1 & _).
  rewrite F' in F1. injection F1 as <-. rewrite R' in R1. injection R1 as <-.
  eapply antichain_lookup; eauto. exact (G1 (good_of_key k0)).
Qed.
Print Assumptions C07_all_keys_unrelated.

(** Keys in the ghost log are exactly those handed out. *)
Theorem C07_log_is_delivery C n op w v w' ks :
  run C (S n) op w = (Ok v, w') -> delivers op v ks ->
  exists f f' s s', top w = Some f /\ f_rng f = Some s /\ top w' = Some f' /\ f_rng f' = Some s' /\
    sq_log s' = rev ks ++ sq_log s.
Proof.
  intros E D. destruct (deliver_log _ _ _ _ _ _ _ E D) as (f & f' & s & s' & ? & ? & ? & ? & ? & _). eauto 10.
Qed.
Print Assumptions C07_log_is_delivery.

Definition C07_demo : prog :=
  then_ (linear VNone) (then_ (Jit NextKey) (then_ (Scan (fun c x => then_ NextKey (Ret (VTup [c; x])))
    (VInt 0) [VInt 1; VInt 2] VNone false) (Cond true NextKey (Ret (VKey (Seed 3)))))).
Example C07_code : code_ok (quiet_cond demo) demo.
Proof. split; intros; cbn; repeat case_match; ops. Qed.
Example C07_ops : all_ops (quiet_cond demo) C07_demo.
Proof. unfold C07_demo, linear, then_. ops. Qed.
Example C07_case :
  exists v w', run demo 50 C07_demo (init_world (Some (Seed 0))) = (Ok v, w') /\
    match top w' with
    | Some f => match f_rng f with Some s => List.length (sq_log s) = 5 /\ List.length (sq_subs s) = 1 | None => False end
    | None => False
    end.
Proof. apply witness1. vm_compute. auto. Qed.

(** A [while_loop] condition may take a key that was reserved beforehand without
    being rejected; the same key is handed out again after the loop. *)
Theorem C07_while_cond_refuted :
  exists C n w K cond body r w',
    (* the condition fails unless the key it draws is [K] *)
    cond = (fun _ : val => Bind NextKey (fun k => if decide (k = VKey K) then Ret (VBool false) else Raise (EUser VNone))) /\
    run C n (then_ (ReserveKeys 1) (then_ (While cond body (VInt 0)) NextKey)) w = (Ok r, w') /\
    r = VKey K.
Proof.
  exists demo, 20, (apply_world ∅ ∅ (Some (Seed 0))), (Split (Seed 0) 2 1).
  eexists. exists (fun v => Ret v).
  match goal with |- exists r w', ?c = _ /\ _ => idtac end.
  assert (H : forall (x : res val * world), match x with (Ok a, _) => a = VKey (Split (Seed 0) 2 1) | _ => False end ->
    exists r w', x = (Ok r, w') /\ r = VKey (Split (Seed 0) 2 1)).
  { intros [[a|e|] w']; try contradiction. eauto. }
  edestruct H as (r & w' & E & Er); [|exists r, w'; split; [reflexivity|split; [exact E|exact Er]]].
  vm_compute. reflexivity.
Qed.
Print Assumptions C07_while_cond_refuted.

(** ** C29: first-in first-out delivery *)

(** [take n] returns [n] keys: first all reserved ones in order, then freshly split
    ones; what it leaves is the rest of the queue. *)
Theorem C29_take block n s :
  exists fresh k', let q := sq_subs s ++ fresh in
    List.length fresh = n - List.length (sq_subs s) /\
    List.length (take n q) = n /\
    seq_take block n s = Some (take n q, Seq k' (drop n q) (rev (take n q) ++ sq_log s)) /\
    (n <= List.length (sq_subs s) -> k' = sq_key s).
Proof.
  destruct (seq_take_spec block n s) as (l & E & H).
  destruct (reserve_subs (n - List.length (sq_subs s)) s) as (l' & E' & Hl).
  rewrite E in E'. apply app_inv_head in E' as ->.
  exists l', (sq_key (reserve (n - List.length (sq_subs s)) s)). cbn. split; [assumption|].
  split; [|split; [assumption|]].
  - rewrite take_length, app_length. lia.
  - intros L. replace (n - List.length (sq_subs s)) with 0 by lia. reflexivity.
Qed.
Print Assumptions C29_take.

(** [next] delivers the oldest reserved key. *)
Theorem C29_next_fifo block s k rest :
  sq_subs s = k :: rest -> seq_next block s = Some (k, Seq (sq_key s) rest (k :: sq_log s)).
Proof. intros E. unfold seq_next. now rewrite !E. Qed.
Print Assumptions C29_next_fifo.

(** Reserving appends; keys already reserved, and their order, stay. *)
Theorem C29_reserve_appends n s :
  exists fresh, sq_subs (reserve n s) = sq_subs s ++ fresh /\ List.length fresh = n.
Proof. apply reserve_subs. Qed.
Print Assumptions C29_reserve_appends.

(** A sequence of operations, as a queue specification: the delivered keys, in
    order, followed by those still queued, are everything ever reserved, in order. *)
Inductive seq_op := OpNext | OpTake (n : nat) | OpReserve (n : nat).
Definition seq_step (block : nat) (o : seq_op) (s : rngseq) : option rngseq :=
  match o with
  | OpNext => snd <$> seq_next block s
  | OpTake n => snd <$> seq_take block n s
  | OpReserve n => Some (reserve n s)
  end.
Fixpoint seq_steps (block : nat) (os : list seq_op) (s : rngseq) : option rngseq :=
  match os with [] => Some s | o :: os => seq_step block o s ≫= seq_steps block os end.
Theorem C29_queue block os : forall s s', seq_steps block os s = Some s' ->
  exists fresh, rev (sq_log s') ++ sq_subs s' = rev (sq_log s) ++ sq_subs s ++ fresh.
Proof.
  induction os as [|o os IH]; cbn; intros s s' E.
  - injection E as <-. exists []. now rewrite app_nil_r.
  - destruct (seq_step block o s) as [s1|] eqn:E1; [|discriminate]. cbn in E.
    destruct (IH _ _ E) as [l ->]. clear E IH.
    assert (exists l1, rev (sq_log s1) ++ sq_subs s1 = rev (sq_log s) ++ sq_subs s ++ l1) as [l1 H1].
    { destruct o as [|n|n]; cbn in E1.
      - destruct (seq_next block s) as [[k s2]|] eqn:N; [|discriminate]. injection E1 as <-.
        unfold seq_next in N. destruct (sq_subs s) as [|y q] eqn:Q.
        + destruct (reserve_subs block s) as (l1 & E1 & _). rewrite E1, Q in N.
          destruct l1 as [|y q]; [discriminate|]. cbn in N. injection N as <- <-. cbn.
          rewrite reserve_log, <- app_assoc. exists (y :: q). reflexivity.
        + rewrite Q in N. injection N as <- <-. exists []. cbn. rewrite <- app_assoc, app_nil_r. reflexivity.
      - destruct (seq_take_spec block n s) as (l1 & _ & H). rewrite H in E1. injection E1 as <-. cbn.
        rewrite rev_app_distr, rev_involutive, <- app_assoc, take_drop. exists l1. reflexivity.
      - injection E1 as <-. destruct (reserve_subs n s) as (l1 & -> & _). rewrite reserve_log. eauto. }
    exists (l1 ++ l). rewrite !app_assoc. rewrite !app_assoc in H1. now rewrite H1.
Qed.
Print Assumptions C29_queue.

Example C29_case :
  seq_steps 2 [OpReserve 3; OpNext; OpTake 4; OpNext] (seq_of_key (Seed 5)) ≫= (fun s => Some (List.length (sq_log s), List.length (sq_subs s)))
  = Some (6, 1).
Proof. vm_compute. reflexivity. Qed.

(** [take n] and [n] times [next] hand out different keys when they have to split. *)
Theorem C29_take_vs_next_refuted :
  exists block n s ks1 s1 ks2 s2, seq_take block n s = Some (ks1, s1) /\ seq_nexts block n s = Some (ks2, s2) /\ ks1 <> ks2.
Proof.
  exists 1, 2, (seq_of_key (Seed 0)). do 4 eexists. split; [reflexivity|]. split; [reflexivity|]. discriminate.
Qed.
Print Assumptions C29_take_vs_next_refuted.

(** ** C30: topping up gives a fixed-size buffer *)
Theorem C30_full_size block s : List.length (sq_subs (reserve_up_to_full block s)) = block.
Proof. apply full_length. Qed.
Print Assumptions C30_full_size.
(** The oldest reserved keys are kept, in order. *)
Theorem C30_full_keeps_prefix block s :
  exists fresh, sq_subs (reserve_up_to_full block s) = take block (sq_subs s) ++ fresh.
Proof. apply full_prefix. Qed.
Print Assumptions C30_full_keeps_prefix.
(** Keys beyond the block size are dropped and never handed out again: the sequence
    still holds only keys unrelated to them. *)
Theorem C30_truncated_not_reused block s :
  (forall i j a b, i <> j -> (sq_key s :: sq_subs s ++ sq_log s) !! i = Some a ->
     (sq_key s :: sq_subs s ++ sq_log s) !! j = Some b -> unrelated a b) ->
  block <= List.length (sq_subs s) ->
  sq_key (reserve_up_to_full block s) = sq_key s /\
  sq_subs (reserve_up_to_full block s) = take block (sq_subs s) /\
  forall a b, a ∈ drop block (sq_subs s) ->
    b ∈ sq_key (reserve_up_to_full block s) :: sq_subs (reserve_up_to_full block s) -> unrelated a b.
Proof.
  intros H L. unfold reserve_up_to_full.
  replace (Nat.ltb 0 (block - List.length (sq_subs s))) with false
    by (symmetry; apply Nat.ltb_ge; lia).
  cbn. split; [reflexivity|]. split; [reflexivity|]. intros a b Ha Hb.
  apply elem_of_list_lookup in Ha as [i Ha]. rewrite lookup_drop in Ha.
  apply elem_of_cons in Hb as [->|Hb].
  - eapply (H (S (block + i)) 0); [lia| |reflexivity]. cbn. now apply lookup_app_l_Some.
  - apply elem_of_list_lookup in Hb as [j Hb]. apply lookup_take_Some in Hb as [Hb Hj].
    eapply (H (S (block + i)) (S j)); [lia| |]; cbn; now apply lookup_app_l_Some.
Qed.
Print Assumptions C30_truncated_not_reused.
Example C30_case :
  List.length (sq_subs (reserve_up_to_full 2 (reserve 5 (seq_of_key (Seed 0))))) = 2 /\
  List.length (sq_subs (reserve_up_to_full 7 (reserve 5 (seq_of_key (Seed 0))))) = 7.
Proof. vm_compute. auto. Qed.

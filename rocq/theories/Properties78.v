(** Additions to C04, C10, C11, C20 and C29: operations of the interpreter that the other theorems leave open. *)
From stdpp Require Import gmap list strings.
From Coq Require Import String Ascii ZArith Lia.
From Verif Require Import ModelStr ModelRng ModelCore SpecCore Demo ProofsRng.
Local Open Scope string_scope.
Local Open Scope list_scope.

(** [hk.next_rng_keys(num)] returns exactly [num] keys. *)
Theorem C29_next_rng_keys C n num w v w' : run C n (NextKeys num) w = (Ok v, w') -> exists ks, v = VTup (List.map VKey ks) /\ List.length ks = num.
Proof.
  intros E. destruct n as [|n]; [discriminate E|]. cbn [run step] in E. unfold next_rng_keys, bindM, with_seq in E. unfold top_frame, bindM in E.
  destruct (w_frames w) as [|f fs]; [discriminate E|]. destruct (f_rng f) as [s|]; [|discriminate E]. destruct (seq_take (c_block C) num s) as [[ks s']|] eqn:T; [|discriminate E].
  unfold modify, retM in E. cbn in E. injection E as <- _. exists ks. split; [reflexivity|].
  unfold seq_take in T. revert T. generalize (reserve (num - List.length (sq_subs s)) s) as q. clear. intros q. revert ks q s'.
  induction num as [|num IH]; intros ks q s' T; cbn [seq_nexts] in T; [now injection T as <- _|].
  destruct (seq_next (c_block C) q) as [[k q1]|]; [|discriminate T]. destruct (seq_nexts (c_block C) num q1) as [[ks1 q2]|] eqn:S; [|discriminate T]. injection T as <- _. cbn. now rewrite (IH _ _ _ S).
Qed.
Print Assumptions C29_next_rng_keys.
Example C29_next_rng_keys_case : match result (run demo 3 (NextKeys 3) (init_world (Some (Seed 1)))) with Some (VTup l) => List.length l = 3 | _ => False end.
Proof. vm_compute. reflexivity. Qed.

(** [hk.running_init()] is true in [init] and false in [apply]. *)
Theorem C04_running_init C n rng ps st :
  run C (S n) RunningInit (init_world rng) = (Ok (VBool true), init_world rng) /\
  run C (S n) RunningInit (apply_world ps st rng) = (Ok (VBool false), apply_world ps st rng).
Proof. split; reflexivity. Qed.
Print Assumptions C04_running_init.
Example C04_running_init_case : result (run demo 3 (Bind RunningInit (fun b => Ret (VTup [b]))) (apply_world ∅ ∅ None)) = Some (VTup [VBool false]).
Proof. vm_compute. reflexivity. Qed.

(** [None] given to [apply] for parameters or state stands for the empty mapping. *)
Theorem C10_apply_none C n x rng body w :
  run C (S n) (InnerApply VNone x rng body) w = run C (S n) (InnerApply (VDict []) x rng body) w /\
  run C (S n) (InnerApply x VNone rng body) w = run C (S n) (InnerApply x (VDict []) rng body) w.
Proof. split; reflexivity. Qed.
Print Assumptions C10_apply_none.
Example C10_apply_none_case : result (run demo 9 (InnerApply VNone VNone None (Ret (VInt 3))) (init_world None)) = Some (VTup [VInt 3; VDict []]).
Proof. vm_compute. reflexivity. Qed.

(** A name scope with an empty name or a name that starts with a slash is refused; nothing has changed. *)
Theorem C11_scope_name C n body w f s : top w = Some f ->
  run C (S n) (NameScope "" body) w = (Exc (EScopeName ""), w) /\ run C (S n) (NameScope (String "/" s) body) w = (Exc (EScopeName (String "/" s)), w).
Proof.
  intros T. cbn [run step]. unfold name_scope, bindM, top_frame. unfold top in T. destruct (w_frames w) as [|g fs]; [discriminate T|]. split; reflexivity.
Qed.
Print Assumptions C11_scope_name.
Example C11_scope_name_case : error (run demo 9 (NameScope "/a" (Ret VNone)) (init_world None)) = Some (EScopeName "/a") /\ result (run demo 9 (NameScope "a/b" (Ret (VInt 1))) (init_world None)) = Some (VInt 1).
Proof. split; vm_compute; reflexivity. Qed.

(** A condition of [hk.while_loop] after which there is a key that was not there before, a parameter or a state entry that was not there
    with that value, raises. *)
Definition keys_of (f : frame) : list key := match f_rng f with Some s => sq_key s :: sq_subs s | None => [] end.
Theorem C20_condition_key C n c b init w f r w1 f1 k : top w = Some f -> f_frozen f = true ->
  run C (S n) (c init) w = (Ok r, w1) -> top w1 = Some f1 -> k ∈ keys_of f1 -> k ∉ keys_of f ->
  exists w2, run C (S (S n)) (While c b init) w = (Exc EStateChanged, w2).
Proof.
  intros T F R T1 K1 K0. change (run C (S (S n)) (While c b init) w) with (while_loop (run C (S n)) (S n) c b init w). unfold while_loop, bindM at 1, top_frame.
  unfold top in T. destruct (w_frames w) as [|g fs] eqn:W; [discriminate T|]. injection T as ->. rewrite F. cbn [negb].
  assert (U : on_top (set_rng (f_rng f)) w = w) by (unfold on_top; rewrite W; destruct w, f; cbn in *; subst; reflexivity).
  unfold internal_state, bindM, top_frame, retM, modify. cbn [lax_while]. unfold bindM, while_cond, top_frame, retM, throw. rewrite W. cbv beta iota. cbn [fst]. rewrite U. unfold bindM. rewrite W, R. unfold top in T1.
  destruct (w_frames w1) as [|g1 fs1]; [discriminate T1|]. injection T1 as ->.
  assert (N : no_new_keys (f_rng f) (f_rng f1) = false).
  { unfold no_new_keys, keys_of in *. destruct (f_rng f1) as [s1|]; [|now apply elem_of_nil in K1]. apply Bool.not_true_iff_false. intros A. rewrite forallb_forall in A.
    apply elem_of_list_In in K1. specialize (A k K1). apply bool_decide_eq_true in A. destruct (f_rng f); contradiction. }
  rewrite N, Bool.andb_false_r. eexists. reflexivity.
Qed.
Print Assumptions C20_condition_key.
Example C20_condition_key_case :
  error (run demo 9 (While (fun _ => Bind NextKey (fun _ => Ret (VBool false))) Ret (VInt 0)) (apply_world ∅ ∅ (Some (Seed 1)))) = Some EStateChanged /\
  result (run demo 9 (While (fun _ => Ret (VBool false)) Ret (VInt 0)) (apply_world ∅ ∅ (Some (Seed 1)))) = Some (VInt 0).
Proof. split; vm_compute; reflexivity. Qed.
(** A condition that draws a key that was reserved before is not refused: the loop runs, and hands out the key again. *)
Theorem C20_reserved_key_refuted : ~ (forall C n w, error (run C n (While (fun _ => Bind NextKey (fun _ => Ret (VBool false))) Ret (VInt 0)) w) = Some EStateChanged \/ result (run C n (While (fun _ => Bind NextKey (fun _ => Ret (VBool false))) Ret (VInt 0)) w) = None).
Proof.
  intros H. specialize (H demo 9 (set_frames [new_frame (Some ∅) (Some ∅) (Some (reserve 2 (seq_of_key (Seed 1))))] empty_world)).
  assert (X : result (run demo 9 (While (fun _ => Bind NextKey (fun _ => Ret (VBool false))) Ret (VInt 0)) (set_frames [new_frame (Some ∅) (Some ∅) (Some (reserve 2 (seq_of_key (Seed 1))))] empty_world)) = Some (VInt 0)) by (vm_compute; reflexivity).
  destruct H as [H|H]; [|rewrite X in H; discriminate H]. destruct (run demo 9 _ _) as [[a|e|] w']; cbn in H, X; congruence.
Qed.
Print Assumptions C20_reserved_key_refuted.

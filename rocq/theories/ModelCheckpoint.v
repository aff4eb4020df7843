(** * The training loop of the transformer example (examples/transformer/train.py:111-246) and its dataset (examples/transformer/dataset.py:28-58) *)
From Coq Require Import String Ascii List Bool Arith NArith.
Import ListNotations.

(** ** File names: [{:07d}] is the decimal representation, filled up with zeros to seven digits (train.py:202). *)
Definition digit (d : N) : ascii := ascii_of_N (48 + d).
Fixpoint digits_of (fuel : nat) (n : N) (acc : string) : string :=
  match fuel with O => acc | S f => let acc := String (digit (n mod 10)) acc in if (n <? 10)%N then acc else digits_of f (n / 10)%N acc end.
Definition decimal (n : N) : string := digits_of (S (N.to_nat (N.log2 n))) n "".
Fixpoint zeros (n : nat) (s : string) : string := match n with O => s | S n => String "0" (zeros n s) end.
Definition pad7 (n : N) : string := zeros (7 - String.length (decimal n)) (decimal n).
Definition checkpoint_name (step : N) : string := ("checkpoint_" ++ (pad7 step ++ ".pkl"))%string.
(** train.py:179: ['checkpoint_' in p]. *)
Definition is_checkpoint (p : string) : bool := match String.index 0 "checkpoint_" p with Some _ => true | None => false end.

Section Updater.
(** Keys, batches, parameters and optimizer states, and what is done with them: [hk.transform]ed network (C01-C20), gradient and optimizer are
    not looked into; [learn] is train.py:142-145, from the old parameters, the key and the batch to the new parameters. *)
Context {K D P O : Type} (split : K -> K * K) (net_init : K -> D -> P) (opt_init : P -> O) (learn : P -> O -> K -> D -> P * O).
Record ustate := State { u_step : N; u_rng : K; u_opt : O; u_params : P }.
(** train.py:124-135 [Updater.init] *)
Definition u_init (master : K) (data : D) : ustate :=
  let (out_rng, init_rng) := split master in
  let params := net_init init_rng data in
  State 0 out_rng (opt_init params) params.
(** train.py:138-158 [Updater.update], without the metrics *)
Definition u_update (s : ustate) (data : D) : ustate :=
  let (rng, new_rng) := split (u_rng s) in
  let (params, opt) := learn (u_params s) (u_opt s) rng data in
  State (u_step s + 1) new_rng opt params.

(** The checkpoint directory: the files in it, by name; [None] is a file that was not written to its end. A missing directory is an empty one
    (train.py:183-184). *)
Definition dir := list (string * option ustate).
Fixpoint lookup (p : string) (d : dir) : option (option ustate) := match d with [] => None | (q, x) :: d => if String.eqb p q then Some x else lookup p d end.
Fixpoint write (p : string) (x : option ustate) (d : dir) : dir :=
  match d with [] => [(p, x)] | (q, y) :: d => if String.eqb p q then (q, x) :: d else (q, y) :: write p x d end.
(** train.py:178-179; [os.listdir] returns the names in any order. *)
Definition checkpoint_paths (listdir : list string -> list string) (d : dir) : list string := filter is_checkpoint (listdir (map fst d)).
(** train.py:181-192 [CheckpointingUpdater.init]; [None] is an exception. *)
Definition restore (listdir : list string -> list string) (master : K) (data : D) (d : dir) : option ustate :=
  match rev (checkpoint_paths listdir d) with
  | [] => Some (u_init master data)
  | p :: _ => match lookup p d with Some (Some s) => Some s | _ => None end
  end.
(** train.py:194-209 [CheckpointingUpdater.update] *)
Definition c_update (every : N) (acc : dir * ustate) (data : D) : dir * ustate :=
  let (d, s) := acc in
  (if (u_step s mod every =? 0)%N then write (checkpoint_name (u_step s)) (Some s) d else d, u_update s data).
(** One run of [main] (train.py:228-239): the first batch goes to [init]; the loop ends after MAX_STEPS batches, or the process is killed earlier,
    possibly while it writes a checkpoint. *)
Record session := Session { s_listdir : list string -> list string; s_first : D; s_batches : list D; s_torn : bool }.
Definition run_session (every : N) (master : K) (d : dir) (r : session) : dir * option ustate :=
  match restore (s_listdir r) master (s_first r) d with
  | None => (d, None)
  | Some s =>
      let (d, s) := fold_left (c_update every) (s_batches r) (d, s) in
      (if s_torn r && (u_step s mod every =? 0)%N then write (checkpoint_name (u_step s)) None d else d, Some s)
  end.
Definition run_sessions (every : N) (master : K) (d : dir) (rs : list session) : dir := fold_left (fun d r => fst (run_session every master d r)) rs d.
End Updater.
Arguments ustate : clear implicits. Arguments dir : clear implicits. Arguments session : clear implicits.

(** ** Dataset (dataset.py:36, 40, 43, 51-58 [_crop_or_pad]) *)
Definition crop_or_pad {A} (size : nat) (pad : A) (value : list A) : list A :=
  if List.length value <? size then value ++ repeat pad (size - List.length value) else firstn size value.
Definition language_example (sequence_length : nat) (text : list nat) : list nat * list nat :=
  let t := crop_or_pad (sequence_length + 1) 0 text in (removelast t, tl t).

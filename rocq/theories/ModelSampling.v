(** * The language model of examples/rnn: drawing samples (train.py:98-124) and the dataset (dataset.py:27-51) *)
From Coq Require Import List Bool Arith.
Import ListNotations.

Section Sample.
(** Keys, tokens, logits and recurrent states; the network (train.py:58-67, a [DeepRNN]: C48) and [jax.random.categorical] are parameters. *)
Context {K T L S : Type} (split : K -> K * K) (categorical : K -> L -> T) (core : T -> S -> L * S) (zero : T).
(** [hk.dynamic_unroll] (C47) of a pure core. *)
Fixpoint unrolled (xs : list T) (s : S) : list L * S :=
  match xs with [] => ([], s) | x :: xs => let (l, s) := core x s in let (ls, s) := unrolled xs s in (l :: ls, s) end.
(** [ops.index_update] at a position: JAX leaves the array unchanged when the position is outside. *)
Fixpoint index_update (l : list T) (i : nat) (x : T) : list T :=
  match l, i with [], _ => [] | _ :: l, 0 => x :: l | y :: l, Datatypes.S i => y :: index_update l i x end.
(** [v.tokens[t]] for a traced [t]: positions outside are moved to the nearest inside. *)
Definition index (l : list T) (i : nat) : T := nth (Nat.min i (length l - 1)) l zero.
Record loop_values := Loop { tokens : list T; state : S; rng_key : K }.
(** train.py:108-114 [body_fn] *)
Definition body_fn (update : list T -> nat -> T -> list T) (t : nat) (v : loop_values) : loop_values :=
  let token := index (tokens v) t in
  let (next_logits, next_state) := core token (state v) in
  let (key, subkey) := split (rng_key v) in
  Loop (update (tokens v) (t + 1) (categorical subkey next_logits)) next_state key.
(** [lax.fori_loop(0, n, body, init)] *)
Definition fori_loop (n : nat) (body : nat -> loop_values -> loop_values) (v : loop_values) : loop_values := fold_left (fun v t => body t v) (seq 0 n) v.
(** train.py:98-124 [sample], with the way to update an array; [None] is the exception of [logits[-1]] for an empty context. *)
Definition sample_with (update : list T -> nat -> T -> list T) (initial_state : S) (rng_key : K) (context : list T) (sample_length : nat) : option (list T) :=
  let (logits, state) := unrolled context initial_state in
  let (key, subkey) := split rng_key in
  match rev logits with
  | [] => None
  | last :: _ =>
      let first_token := categorical subkey last in
      Some (tokens (fori_loop sample_length (body_fn update) (Loop (update (repeat zero sample_length) 0 first_token) state key)))
  end.
Definition sample := sample_with index_update.
(** The same with updates that move positions outside to the nearest inside, as reads do. *)
Definition clamped_update (l : list T) (i : nat) (x : T) : list T := index_update l (Nat.min i (length l - 1)) x.
End Sample.
Arguments loop_values : clear implicits.

(** ** The dataset (dataset.py:35-45): characters and their successors, in windows of the sequence length; a last window that is not full is dropped. *)
Fixpoint full_windows {A} (fuel n : nat) (l : list A) : list (list A) :=
  match fuel with 0 => [] | S f => if length l <? n then [] else firstn n l :: full_windows f n (skipn n l) end.
Definition text_windows {A} (sequence_length : nat) (x : list A) : list (list (A * A)) :=
  let pairs := combine (removelast x) (tl x) in full_windows (length pairs) sequence_length pairs.
(** [tf.transpose] of a batch: time first (dataset.py:49); [context = train_batch['input'][:, 0]] (train.py:167). *)
Definition time_major {A} (d : A) (sequence_length : nat) (batch : list (list A)) : list (list A) := map (fun t => map (fun w => nth t w d) batch) (seq 0 sequence_length).
Definition column {A} (d : A) (batch : list (list A)) (b : nat) : list A := map (fun row => nth b row d) batch.

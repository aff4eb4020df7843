(** Random keys: model of [PRNGSequence] in [haiku/_src/base.py:491-568]. *)
From Coq Require Import ZArith List.
Import ListNotations.

(** A JAX random key.  [Seed z] is [jax.random.PRNGKey(z)]; [Split k n i] is
    [jax.random.split(k, n)[i]].  Modelling [split] as a free constructor is the
    idealisation that distinct derivations give distinct keys. *)
Inductive key : Type :=
| Seed (z : Z)
| Split (k : key) (n i : nat).

(** base.py:507-522.  [sq_log] is a ghost field (never read by the code): the
    keys this sequence has handed out so far, most recent first. *)
Record rngseq : Type := Seq { sq_key : key; sq_subs : list key; sq_log : list key }.

(** base.py:516-522: a sequence made from a key (or seed). *)
Definition seq_of_key (k : key) : rngseq := Seq k [] [].

(** [jax.random.split(k, n)]. *)
Definition split_keys (k : key) (n : nat) : list key :=
  map (Split k n) (List.seq 0 n).

(** base.py:524-537 [reserve].  [num] is a natural number: negative requests
    behave as 0 in the source. *)
Definition reserve (num : nat) (s : rngseq) : rngseq :=
  if Nat.ltb 0 num then
    match split_keys (sq_key s) (num + 1) with
    | k0 :: rest => Seq k0 (sq_subs s ++ rest) (sq_log s)
    | [] => s
    end
  else s.

(** base.py:539-545 [reserve_up_to_full]; [block] is DEFAULT_PRNG_RESERVE_SIZE. *)
Definition reserve_up_to_full (block : nat) (s : rngseq) : rngseq :=
  if Nat.ltb 0 (block - length (sq_subs s)) then reserve (block - length (sq_subs s)) s
  else Seq (sq_key s) (firstn block (sq_subs s)) (sq_log s).

(** base.py:559-562 [__next__]: [None] is the IndexError of [popleft] on an
    empty deque (only possible when the block size is 0). *)
Definition seq_next (block : nat) (s : rngseq) : option (key * rngseq) :=
  let s1 := match sq_subs s with [] => reserve block s | _ => s end in
  match sq_subs s1 with
  | [] => None
  | k :: rest => Some (k, Seq (sq_key s1) rest (k :: sq_log s1))
  end.

Fixpoint seq_nexts (block n : nat) (s : rngseq) : option (list key * rngseq) :=
  match n with
  | O => Some ([], s)
  | S n' => match seq_next block s with
            | None => None
            | Some (k, s1) => match seq_nexts block n' s1 with
                              | None => None
                              | Some (ks, s2) => Some (k :: ks, s2)
                              end
            end
  end.

(** base.py:566-568 [take]. *)
Definition seq_take (block n : nat) (s : rngseq) : option (list key * rngseq) :=
  seq_nexts block n (reserve (n - length (sq_subs s)) s).

(** * examples/imagenet: splits, shards, batches, crops and the evaluation loop (dataset.py, train.py:194-230); examples/mnist.py:43-54 *)
From Coq Require Import String List Bool Arith ZArith Ascii.
Import ListNotations.

(** dataset.py:31-47 [Split]. *)
Inductive split := TRAIN | TRAIN_AND_VALID | VALID | TEST.
Definition num_examples (s : split) : Z :=
  match s with TRAIN_AND_VALID => 1281167 | TRAIN => 1271167 | VALID => 10000 | TEST => 50000 end.
(** [name.upper()] on ASCII. *)
Definition upper_ascii (c : ascii) : ascii :=
  let n := nat_of_ascii c in if (97 <=? n) && (n <=? 122) then ascii_of_nat (n - 32) else c.
Fixpoint upper (s : string) : string := match s with EmptyString => EmptyString | String c s => String (upper_ascii c) (upper s) end.
Definition from_string (name : string) : option split :=
  let n := upper name in
  if String.eqb n "TRAIN" then Some TRAIN else if String.eqb n "TRAIN_AND_VALID" then Some TRAIN_AND_VALID
  else if String.eqb n "VALID" then Some VALID else if String.eqb n "VALIDATION" then Some VALID
  else if String.eqb n "TEST" then Some TEST else None.
(** dataset.py:135-144 [_to_tfds_split]: the files of TFDS a split is taken from. *)
Inductive tfds_split := TfdsTrain | TfdsValidation.
Definition to_tfds_split (s : split) : tfds_split := match s with TEST => TfdsValidation | _ => TfdsTrain end.

(** [np.array_split(np.arange(n), k)]: the first [n mod k] sections have one element more. Sections are given as [start, end). *)
Definition section_sizes (n : Z) (k : nat) : list Z :=
  let each := (n / Z.of_nat k)%Z in let extras := Z.to_nat (n mod Z.of_nat k) in
  repeat (each + 1)%Z extras ++ repeat each (k - extras).
Fixpoint sections (start : Z) (sizes : list Z) : list (Z * Z) :=
  match sizes with [] => [] | s :: sizes => (start, (start + s)%Z) :: sections (start + s)%Z sizes end.
(** dataset.py:147-158 [_shard]; [None]: the assertion, or [shard_range[0]] of an empty section. *)
Definition shard (s : split) (shard_index num_shards : nat) : option (Z * Z) :=
  if shard_index <? num_shards then
    match nth_error (sections 0 (section_sizes (num_examples s) num_shards)) shard_index with
    | Some (start, stop) =>
        if (start <? stop)%Z then
          let offset := match s with TRAIN => num_examples VALID | _ => 0%Z end in Some ((start + offset)%Z, (stop + offset)%Z)
        else None
    | None => None
    end
  else None.

(** ** Batches *)
(** [ds.batch(b)] without [drop_remainder]; the fuel is the number of elements. *)
Fixpoint chunks {A} (fuel b : nat) (l : list A) : list (list A) :=
  match fuel, l with
  | _, [] => []
  | O, _ => []
  | S fuel, _ => firstn b l :: chunks fuel b (skipn b l)
  end.
Inductive nest (A : Type) := One (a : A) | Many (l : list (nest A)).
Arguments One {A}. Arguments Many {A}.
(** dataset.py:111-119: one [batch] for each dimension, the last one first. *)
Fixpoint batch_up {A} (rev_dims : list nat) (ds : list (nest A)) : list (nest A) :=
  match rev_dims with [] => ds | b :: dims => batch_up dims (map Many (chunks (length ds) b ds)) end.
(** dataset.py:68, 84-86, 111-119 for evaluation: [None] is the ValueError. *)
Definition eval_batches {A} (batch_dims : list nat) (ds : list A) : option (list (nest A)) :=
  if (length ds mod fold_right Nat.mul 1 batch_dims =? 0) then Some (batch_up (rev batch_dims) (map One ds)) else None.
(** [ds.repeat().batch(b)] (examples/mnist.py:50-53 and dataset.py:81, 111-112): the batches of a stream. *)
Definition repeated {A} (d : A) (ds : list A) (i : nat) : A := nth (i mod length ds) ds d.
Definition stream_batch {A} (b : nat) (s : nat -> A) (i : nat) : list A := map (fun j => s (i * b + j)) (seq 0 b).

(** train.py:207-230 [evaluate], with [eval_batch] as the number of correct examples of a batch: correct answers and examples seen. *)
Definition evaluate {A} (correct : A -> bool) (batches : list (list A)) : nat * nat :=
  fold_left (fun acc b => (fst acc + length (filter correct b), snd acc + length b)) batches (0, 0).

(** ** Crops (dataset.py:233-253 [_decode_and_center_crop]): offsets and size. The product with 0.875 is exact for sizes below 2^21. *)
Definition center_crop (height width : Z) : Z * Z * Z :=
  let padded_center_crop_size := (7 * Z.min height width / 8)%Z in
  (((height - padded_center_crop_size + 1) / 2)%Z, ((width - padded_center_crop_size + 1) / 2)%Z, padded_center_crop_size).

(** * Gradients through MultiHeadAttention (haiku/_src/attention.py:61-94)

    The arithmetic of [ModelLayers.mha] as expressions of ModelGradients, one batch element; the mask is constant.  Numbers are real numbers. *)
From Coq Require Import Reals ZArith List Bool.
From Verif Require Import ModelNets ModelTransformer ModelTraining ModelReal ModelLayers ModelGradients ModelBackprop.
Import ListNotations.
Local Open Scope R_scope.

Section Attention.
Context {V : Type}.
Definition edot (x y : list (expr V)) : expr V := esum (zip2 Mul x y).
(** attention.py:73-77. *)
Definition eatt_logits (key_size : nat) (big : R) (q : list (expr V)) (ks : list (list (expr V))) (mask : option (list R)) : list (expr V) :=
  let l := map (fun k => Div (edot q k) (Const (sqrt (INR key_size)))) ks in
  match mask with
  | None => l
  | Some m => zip2 (fun a b => Sub a (Const (big * (1 - b)))) l m
  end.
(** [jax.nn.softmax] (attention.py:79): the largest entry is subtracted, without a gradient. *)
Definition esoftmax (l : list (expr V)) : list (expr V) :=
  let m := Stop (fun env => nth (argmax (map (ev env) l)) (map (ev env) l) 0) in
  map (fun x => Div (Exp (Sub x m)) (esum (map (fun y => Exp (Sub y m)) l))) l.
Section Softmax.
Context (sm : list (expr V) -> list (expr V)).
(** attention.py:79-80 for one head and position. *)
Definition eatt_head_with (key_size n : nat) (big : R) (q : list (expr V)) (ks vs : list (list (expr V))) (mask : option (list R)) : list (expr V) :=
  ematmul n (sm (eatt_logits key_size big q ks mask)) vs.
(** attention.py:86-94. *)
Definition eproject (heads size : nat) (w : list (list (expr V))) (b x : list (expr V)) (h : nat) : list (expr V) := echunk size h (eaffine (heads * size) w (Some b) x).
(** attention.py:61-84. *)
Definition emha_with (heads query_size key_size value_size model_size : nat) (big : R) (lq lk lv lo : list (list (expr V)) * list (expr V))
    (query key value : list (list (expr V))) (mask : nat -> nat -> option (list R)) : option (list (list (expr V))) :=
  if ((query_size =? key_size) && (length key =? length value))%nat then
    Some (map (fun p =>
      eaffine model_size (fst lo) (Some (snd lo))
        (flat_map (fun h => eatt_head_with key_size value_size big (eproject heads query_size (fst lq) (snd lq) (snd p) h)
                              (map (fun k => eproject heads key_size (fst lk) (snd lk) k h) key)
                              (map (fun v => eproject heads value_size (fst lv) (snd lv) v h) value) (mask h (fst p))) (seq 0 heads)))
      (combine (seq 0 (length query)) query))
  else None.
End Softmax.
Definition eatt_head := eatt_head_with esoftmax.
Definition emha := emha_with esoftmax.
End Attention.

(** Every entry of the query, of the keys and of the values of one head is a variable. *)
Inductive avar : Type := AQ (e : nat) | AK (s e : nat) | AV (s j : nat).
Definition avar_eqb (a b : avar) : bool :=
  match a, b with
  | AQ e, AQ e' => e =? e'
  | AK s e, AK s' e' => (s =? s') && (e =? e')
  | AV s j, AV s' j' => (s =? s') && (j =? j')
  | _, _ => false
  end%nat.
Definition aq (d : nat) : list (expr avar) := map (fun e => Var (AQ e)) (seq 0 d).
Definition ak (S d : nat) : list (list (expr avar)) := map (fun s => map (fun e => Var (AK s e)) (seq 0 d)) (seq 0 S).
Definition av (S n : nat) : list (list (expr avar)) := map (fun s => map (fun j => Var (AV s j)) (seq 0 n)) (seq 0 S).
(** What comes after the head asks for its gradient with cotangents [ct]. *)
Definition aloss (S d n : nat) (big : R) (mask : option (list R)) (ct : nat -> R) : expr avar :=
  esum (map (fun j => Mul (Const (ct j)) (nth j (eatt_head d n big (aq d) (ak S d) (av S n) mask) (Const 0))) (seq 0 n)).

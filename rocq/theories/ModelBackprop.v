(** * Gradients through Linear, MLP, Embed, dropout, the recurrent cells, ResetCore and unrolls
    (haiku/_src/basic.py:159-183, 293-315; haiku/_src/nets/mlp.py:109-118; haiku/_src/embed.py:124-169; haiku/_src/recurrent.py:79-186, 227-232, 292-307, 530-555, 590-676)

    The arithmetic of the modules as expressions of ModelGradients.  Rank-1 inputs; a batch is several of them.  Numbers are real numbers. *)
From Coq Require Import Reals ZArith List Bool.
From Verif Require Import ModelNets ModelReal ModelGradients.
Import ListNotations.
Local Open Scope R_scope.

Section Layers.
Context {V : Type}.
Implicit Types (x : list (expr V)) (w : list (list (expr V))).

(** [jnp.matmul(x, w)] and [hk.Linear] (basic.py:159-183); [n] is the output size, [w] a list of rows. *)
Definition ecolumn (j : nat) w : list (expr V) := map (fun row => nth j row (Const 0)) w.
Definition ematmul (n : nat) x w : list (expr V) := map (fun j => esum (zip2 Mul x (ecolumn j w))) (seq 0 n).
Definition eaffine (n : nat) w (b : option (list (expr V))) x : list (expr V) := match b with Some b => zip2 Add (ematmul n x w) b | None => ematmul n x w end.
(** [jax.nn.sigmoid], [jnp.tanh] and [jax.nn.relu], whose derivative is 0 where its argument is not positive. *)
Definition eneg (a : expr V) : expr V := Sub (Const 0) a.
Definition esigmoid (a : expr V) : expr V := Div (Const 1) (Add (Const 1) (Exp (eneg a))).
Definition etanh (a : expr V) : expr V := Div (Sub (Exp a) (Exp (eneg a))) (Add (Exp a) (Exp (eneg a))).
Definition positive (r : R) : bool := if Rlt_dec 0 r then true else false.
Definition erelu (a : expr V) : expr V := Pick (fun env => if positive (ev env a) then 1%nat else 0%nat) (fun k => match k with O => Const 0 | S _ => a end).
(** [hk.nets.MLP] (mlp.py:109-118) with [relu] between the layers and not after the last one. *)
Fixpoint emlp (layers : list (nat * list (list (expr V)) * list (expr V))) x : list (expr V) :=
  match layers with
  | [] => x
  | [(n, w, b)] => eaffine n w (Some b) x
  | (n, w, b) :: layers => emlp layers (map erelu (eaffine n w (Some b) x))
  end.
(** [hk.dropout] (basic.py:293-315): [keep * x / keep_rate] with a mask that is drawn, not computed from [x]; [None] is the [ValueError]. *)
Definition edropout (rate : R) (keep : list bool) x : option (list (expr V)) :=
  if Rlt_dec rate 0 then None else if Rle_dec 1 rate then None else
  if Req_EM_T rate 0 then Some x else Some (zip2 (fun (k : bool) a => Div (Mul (Const (if k then 1 else 0)) a) (Const (1 - rate))) keep x).
(** [hk.Embed] (embed.py:124-169): the lookups of ModelNets on expressions. *)
Definition eembed (st : style) (d : nat) (table : list (list (expr V))) (id : Z) : option (list (expr V)) :=
  match st with ArrayIndex => array_index table id | OneHot => one_hot_lookup (Const 0) (Const 1) Add Mul d table id end.

(** [LSTM] (recurrent.py:292-307), [GRU] (recurrent.py:530-555) and [VanillaRNN] (recurrent.py:227-232). *)
Definition echunk (n k : nat) x : list (expr V) := firstn n (skipn (k * n) x).
Definition elstm_gates (n : nat) w (b : list (expr V)) x (h : list (expr V)) : list (expr V) := eaffine (4 * n) w (Some b) (x ++ h).
Definition elstm_cell (n : nat) (gated c : list (expr V)) : list (expr V) :=
  zip2 Add (zip2 Mul (map (fun a => esigmoid (Add a (Const 1))) (echunk n 2 gated)) c) (zip2 Mul (map esigmoid (echunk n 0 gated)) (map etanh (echunk n 1 gated))).
Definition elstm_hidden (n : nat) (gated c : list (expr V)) : list (expr V) := zip2 Mul (map esigmoid (echunk n 3 gated)) (map etanh c).
Definition elstm (n : nat) w b x (state : list (expr V) * list (expr V)) : list (expr V) * (list (expr V) * list (expr V)) :=
  let gated := elstm_gates n w b x (fst state) in
  let c := elstm_cell n gated (snd state) in
  let h := elstm_hidden n gated c in (h, (h, c)).
(** The update and reset gates, the candidate and the next state. *)
Definition egru_zr (n : nat) (w_i w_h : list (list (expr V))) (b : list (expr V)) x (state : list (expr V)) : list (expr V) :=
  map esigmoid (zip2 Add (zip2 Add (firstn (2 * n) (ematmul (3 * n) x w_i)) (ematmul (2 * n) state (map (firstn (2 * n)) w_h))) (firstn (2 * n) b)).
Definition egru_a (n : nat) (w_i w_h : list (list (expr V))) (b : list (expr V)) x (state r : list (expr V)) : list (expr V) :=
  map etanh (zip2 Add (zip2 Add (skipn (2 * n) (ematmul (3 * n) x w_i)) (ematmul n (zip2 Mul r state) (map (skipn (2 * n)) w_h))) (skipn (2 * n) b)).
Definition egru_next (z a state : list (expr V)) : list (expr V) := zip2 Add (zip2 (fun z s => Mul (Sub (Const 1) z) s) z state) (zip2 Mul z a).
Definition egru (n : nat) (w_i w_h : list (list (expr V))) (b : list (expr V)) x (state : list (expr V)) : list (expr V) * list (expr V) :=
  let zr := egru_zr n w_i w_h b x state in
  let z := firstn n zr in let r := skipn n zr in
  let next := egru_next z (egru_a n w_i w_h b x state r) state in
  (next, next).
Definition evanilla (n : nat) (w_i w_h : list (list (expr V))) (b_i : list (expr V)) (b_h : option (list (expr V))) x (state : list (expr V)) : list (expr V) * list (expr V) :=
  let out := map erelu (zip2 Add (eaffine n w_i (Some b_i) x) (eaffine n w_h b_h state)) in (out, out).

(** Unrolls (recurrent.py:79-186) of a core whose state is a list of vectors. *)
Definition ecore : Type := list (expr V) -> list (list (expr V)) -> list (expr V) * list (list (expr V)).
Fixpoint eunroll (core : ecore) (xs : list (list (expr V))) (s : list (list (expr V))) : list (list (expr V)) * list (list (expr V)) :=
  match xs with
  | [] => ([], s)
  | x :: xs => let '(y, s) := core x s in let '(ys, s) := eunroll core xs s in (y :: ys, s)
  end.
(** [ResetCore] (recurrent.py:590-676): [jnp.where(should_reset, initial_state, state)], then the core; a scalar flag for every step. *)
Definition ewhere (c : bool) (a b : expr V) : expr V := Pick (fun _ => if c then 1%nat else 0%nat) (fun k => match k with O => b | S _ => a end).
Definition ereset (core : ecore) (initial : list (list (expr V))) (reset : bool) : ecore :=
  fun x s => core x (zip2 (fun s i => zip2 (fun s i => ewhere reset i s) s i) s initial).
Fixpoint ereset_unroll (core : ecore) (initial : list (list (expr V))) (xs : list (bool * list (expr V))) (s : list (list (expr V))) : list (list (expr V)) * list (list (expr V)) :=
  match xs with
  | [] => ([], s)
  | (reset, x) :: xs => let '(y, s) := ereset core initial reset x s in let '(ys, s) := ereset_unroll core initial xs s in (y :: ys, s)
  end.
Definition lstm_core (n : nat) w b : ecore := fun x s => match s with [h; c] => let '(y, (h, c)) := elstm n w b x (h, c) in (y, [h; c]) | _ => ([], []) end.
Definition gru_core (n : nat) (w_i w_h : list (list (expr V))) b : ecore := fun x s => match s with [h] => let '(y, h) := egru n w_i w_h b x h in (y, [h]) | _ => ([], []) end.
Definition vanilla_core (n : nat) (w_i w_h : list (list (expr V))) b_i b_h : ecore := fun x s => match s with [h] => let '(y, h) := evanilla n w_i w_h b_i b_h x h in (y, [h]) | _ => ([], []) end.
End Layers.

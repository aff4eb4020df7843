(** * Recurrent networks: unrolls, [ResetCore] and [DeepRNN] (haiku/_src/recurrent.py).

    Arrays are a shape and the elements in row-major order.  Nested structures ("nests") are a
    tree-structure identifier together with the leaves in the order of [jax.tree_leaves].  The
    element type is left open and dtypes are not modelled.  A core is a pure function from an input
    nest and a state nest to an output nest and a next state nest, or [None] for a raised exception;
    the parameters, module state and random keys a core may use inside a transform are the subject of
    the interpreter in ModelCore.v, not of this file. *)
From Coq Require Import List Arith Bool Lia.
From Verif Require Import ModelShape.
Import ListNotations.
Local Open Scope list_scope.

Notation shape := (list nat).
(** Number of elements of an array of a given shape. *)
Fixpoint nprod (l : shape) : nat := match l with [] => 1 | d :: l => d * nprod l end.
Record leaf (A : Type) := Leaf { l_shape : shape; l_data : list A }.
Arguments Leaf {A}. Arguments l_shape {A}. Arguments l_data {A}.
Definition wf_leaf {A} (x : leaf A) : Prop := length (l_data x) = nprod (l_shape x).
Record nest (A : Type) := Nest { n_def : nat; n_leaves : list (leaf A) }.
Arguments Nest {A}. Arguments n_def {A}. Arguments n_leaves {A}.
Definition wf_nest {A} (n : nest A) : Prop := Forall wf_leaf (n_leaves n).
(** Structure and shapes of a nest: what jax knows about it while tracing (dtypes not modelled). *)
Notation nty := (nat * list shape)%type.
Definition ty {A} (n : nest A) : nty := (n_def n, map l_shape (n_leaves n)).
Definition nty_eq_dec (a b : nty) : {a = b} + {a <> b}.
Proof. decide equality; [apply list_eq_dec, list_eq_dec, Nat.eq_dec | apply Nat.eq_dec]. Defined.

Definition bindo {A B} (o : option A) (f : A -> option B) : option B :=
  match o with Some a => f a | None => None end.

(** [jax.tree_map] with a function that may raise. *)
Definition tree_map {A B} (f : leaf A -> option (leaf B)) (n : nest A) : option (nest B) :=
  bindo (all_some (map f (n_leaves n))) (fun ls => Some (Nest (n_def n) ls)).

(** ** Array primitives used by the unrolls (jax.numpy, modelled from its documentation) *)
(** [x[t]] for a non-negative integer: an index past the end is clamped to the last element, which is
    what indexing a jax array does; an empty axis or a scalar is an error. *)
Definition index0 {A} (t : nat) (x : leaf A) : option (leaf A) :=
  match l_shape x with
  | S n :: rest => Some (Leaf rest (block (nprod rest) (Nat.min t n) (l_data x)))
  | _ => None
  end.
(** [x[:, t]]. *)
Definition index1 {A} (t : nat) (x : leaf A) : option (leaf A) :=
  match l_shape x with
  | b :: S n :: rest => Some (Leaf (b :: rest)
      (concat (map (fun i => block (nprod rest) (i * S n + Nat.min t n) (l_data x)) (seq 0 b))))
  | _ => None
  end.
(** [jnp.swapaxes(x, 0, 1)]: an array with fewer than two axes is an error. *)
Definition swapaxes {A} (x : leaf A) : option (leaf A) :=
  match l_shape x with
  | b :: t :: rest => Some (Leaf (t :: b :: rest)
      (concat (map (fun k => concat (map (fun i => block (nprod rest) (i * t + k) (l_data x)) (seq 0 b))) (seq 0 t))))
  | _ => None
  end.
(** [jnp.stack(args, axis=0)] and [jnp.stack(args, axis=1)]: at least one array, equal shapes, and for
    axis 1 at least one axis. *)
Definition same_shapes {A} (s : shape) (ls : list (leaf A)) : bool :=
  forallb (fun l => if list_eq_dec Nat.eq_dec (l_shape l) s then true else false) ls.
Definition stack0 {A} (ls : list (leaf A)) : option (leaf A) :=
  match ls with
  | [] => None
  | l :: _ => if same_shapes (l_shape l) ls
              then Some (Leaf (length ls :: l_shape l) (concat (map l_data ls))) else None
  end.
Definition stack1 {A} (ls : list (leaf A)) : option (leaf A) :=
  match ls with
  | [] => None
  | l :: _ => match l_shape l with
      | [] => None
      | b :: rest => if same_shapes (l_shape l) ls
          then Some (Leaf (b :: length ls :: rest)
            (concat (map (fun i => concat (map (fun x => block (nprod rest) i (l_data x)) ls)) (seq 0 b))))
          else None
      end
  end.
(** [jax.tree_multimap(f, *nests)]: without any nest the call raises a [TypeError]; the structures must be
    equal. *)
Definition tree_stack {A} (stack : list (leaf A) -> option (leaf A)) (ns : list (nest A)) : option (nest A) :=
  match ns with
  | [] => None
  | n :: _ =>
      if forallb (fun m => (n_def m =? n_def n) && (length (n_leaves m) =? length (n_leaves n))) ns
      then bindo (all_some (map (fun j => stack (map (fun m => nth j (n_leaves m) (Leaf [] [])) ns))
                                (seq 0 (length (n_leaves n)))))
             (fun ls => Some (Nest (n_def n) ls))
      else None
  end.

(** ** Unrolls *)
Section unroll.
Context {A : Type}.
Notation core_fn := (nest A -> nest A -> option (nest A * nest A)).

(** The loop of recurrent.py:122-129: [step] on successive inputs, threading the state. *)
Fixpoint unroll {X Y St : Type} (step : X -> St -> option (Y * St)) (xs : list X) (s : St) : option (list Y * St) :=
  match xs with
  | [] => Some ([], s)
  | x :: xs => bindo (step x s) (fun r => let '(y, s) := r in
      bindo (unroll step xs s) (fun q => let '(ys, s) := q in Some (y :: ys, s)))
  end.

(** The number of time steps read from the first leaf (recurrent.py:120-121): no leaf is an [IndexError]. *)
Definition num_steps (time_axis : nat) (xs : nest A) : option nat :=
  match n_leaves xs with l :: _ => nth_error (l_shape l) time_axis | [] => None end.

(** [static_unroll] (recurrent.py:83-135). *)
Definition static_unroll (core : core_fn) (input_sequence initial_state : nest A) (time_major : bool)
    : option (nest A * nest A) :=
  bindo (num_steps (if time_major then 0 else 1) input_sequence) (fun n =>
  bindo (unroll (fun t s =>
           bindo (tree_map (if time_major then index0 t else index1 t) input_sequence) (fun x => core x s))
           (seq 0 n) initial_state) (fun r => let '(output_sequence, state) := r in
  bindo (tree_stack (if time_major then stack0 else stack1) output_sequence) (fun out => Some (out, state)))).

(** [jax.lax.scan] outside of a transform.  [abs] is the abstract evaluation of the core: jax traces the
    body once with the shapes of the carry and of one slice, whatever the length.  The leading axes of the
    sequence must agree, the carry must keep its structure and shapes, and the outputs are stacked, so that
    a sequence of length zero gives empty arrays.  The body is then run on every slice. *)
Definition scan_length (xs : nest A) : option nat :=
  match n_leaves xs with
  | l :: ls => match l_shape l with
      | n :: _ => if forallb (fun m => match l_shape m with k :: _ => k =? n | [] => false end) ls then Some n else None
      | [] => None
      end
  | [] => None
  end.
Definition slice_ty (xs : nest A) : nty := (n_def xs, map (fun l => tl (l_shape l)) (n_leaves xs)).
Definition stack_outputs (t : nty) (ys : list (nest A)) : nest A :=
  Nest (fst t) (map (fun j => Leaf (length ys :: nth j (snd t) [])
                                   (concat (map (fun y => l_data (nth j (n_leaves y) (Leaf [] []))) ys)))
                    (seq 0 (length (snd t)))).
Definition slice (t : nat) (l : leaf A) : leaf A := Leaf (tl (l_shape l)) (block (nprod (tl (l_shape l))) t (l_data l)).
Definition lax_scan (abs : nty -> nty -> option (nty * nty)) (core : core_fn) (initial_state xs : nest A)
    : option (nest A * nest A) :=
  bindo (scan_length xs) (fun n =>
  bindo (abs (slice_ty xs) (ty initial_state)) (fun r => let '(out_ty, carry_ty) := r in
  if nty_eq_dec carry_ty (ty initial_state) then
    bindo (unroll (fun t s => core (Nest (n_def xs) (map (slice t) (n_leaves xs))) s) (seq 0 n) initial_state) (fun r =>
    let '(ys, s) := r in Some (stack_outputs out_ty ys, s))
  else None)).

(** [dynamic_unroll] (recurrent.py:143-186) outside of a transform, with [_swap_batch_time] (138-140). *)
Definition dynamic_unroll (abs : nty -> nty -> option (nty * nty)) (core : core_fn)
    (input_sequence initial_state : nest A) (time_major : bool) : option (nest A * nest A) :=
  bindo (if time_major then Some input_sequence else tree_map swapaxes input_sequence) (fun xs =>
  bindo (lax_scan abs core initial_state xs) (fun r => let '(ys, s) := r in
  bindo (if time_major then Some ys else tree_map swapaxes ys) (fun ys => Some (ys, s)))).

(** What tracing requires of a core: whether it raises, and the structure and shapes of its results, depend on
    the structure and shapes of its arguments only; [abs] is that dependence. *)
Definition traceable (abs : nty -> nty -> option (nty * nty)) (core : core_fn) : Prop :=
  forall x s, wf_nest x -> wf_nest s ->
    match core x s with
    | Some (y, s') => wf_nest y /\ wf_nest s' /\ abs (ty x) (ty s) = Some (ty y, ty s')
    | None => abs (ty x) (ty s) = None
    end.
End unroll.

(** ** [ResetCore] (recurrent.py:578-691) *)
(** numpy broadcasting.  [unravel] gives the multi-index of a row-major position, [ravel_b] the position in an
    array whose axes of size one are repeated; shapes are aligned at the right. *)
Fixpoint unravel (s : shape) (k : nat) : list nat :=
  match s with [] => [] | d :: s => (k / nprod s) mod d :: unravel s (k mod nprod s) end.
Fixpoint ravel_b (s : shape) (ix : list nat) : nat :=
  match s, ix with
  | d :: s, i :: ix => (if d =? 1 then 0 else i) * nprod s + ravel_b s ix
  | _, _ => 0
  end.
Definition pad_left (n : nat) (s : shape) : shape := repeat 1 (n - length s) ++ s.
Definition bdim (a b : nat) : option nat :=
  if a =? b then Some a else if a =? 1 then Some b else if b =? 1 then Some a else None.
Definition bshape (s t : shape) : option shape :=
  let n := Nat.max (length s) (length t) in
  all_some (map2 bdim (pad_left n s) (pad_left n t)).
Definition bget {A} (d : A) (out : shape) (x : leaf A) (k : nat) : A :=
  nth (ravel_b (pad_left (length out) (l_shape x)) (unravel out k)) (l_data x) d.
(** [jnp.where(c, a, b)]. *)
Definition where_ {A} (d : A) (c : leaf bool) (a b : leaf A) : option (leaf A) :=
  bindo (bshape (l_shape c) (l_shape a)) (fun s =>
  bindo (bshape s (l_shape b)) (fun out =>
  Some (Leaf out (map (fun k => if bget false out c k then bget d out a k else bget d out b k) (seq 0 (nprod out)))))).

(** [_validate_and_conform] (recurrent.py:578-586). *)
Definition validate_and_conform {A} (should_reset : leaf bool) (state : leaf A) : option (leaf bool) :=
  if list_eq_dec Nat.eq_dec (l_shape should_reset) (firstn (length (l_shape should_reset)) (l_shape state))
  then Some (Leaf (l_shape should_reset ++ repeat 1 (length (l_shape state) - length (l_shape should_reset)))
                  (l_data should_reset))
  else None.

(** The wrapped core: its step function and its [initial_state]. *)
Record rnn_core (A : Type) := RnnCore {
  rc_call : nest A -> nest A -> option (nest A * nest A);
  rc_initial : option nat -> nest A
}.
Arguments RnnCore {A}. Arguments rc_call {A}. Arguments rc_initial {A}.

(** [ResetCore._is_batched] (recurrent.py:686-691). *)
Definition is_batched {A} (c : rnn_core A) (state : nest A) : bool :=
  match n_leaves state with
  | [] => false
  | ls => forallb (fun p => if list_eq_dec Nat.eq_dec (tl (l_shape (fst p))) (tl (l_shape (snd p))) then true else false)
                  (combine (n_leaves (rc_initial c (Some 1))) ls)
  end.

(** [ResetCore.__call__] (recurrent.py:606-681).  [should_reset] is one array, used for every leaf of the state,
    or a nest with the structure of the state.  [d] fills positions outside an array and is never read for
    well-formed arguments; dtypes and hence [astype] are not modelled. *)
Definition reset_call {A} (d : A) (c : rnn_core A) (inputs : nest A) (should_reset : leaf bool + nest bool)
    (state : nest A) : option (nest A * nest A) :=
  let flags := match should_reset with
               | inl r => Some (map (fun _ => r) (n_leaves state))
               | inr n => if (n_def n =? n_def state) && (length (n_leaves n) =? length (n_leaves state))
                          then Some (n_leaves n) else None
               end in
  bindo flags (fun flags =>
  bindo (all_some (map2 validate_and_conform flags (n_leaves state))) (fun conformed =>
  bindo (if is_batched c state
         then match n_leaves inputs with
              | l :: _ => match l_shape l with b :: _ => Some (Some b) | [] => None end
              | [] => None
              end
         else Some None) (fun batch_size =>
  let initial := rc_initial c batch_size in
  if (n_def initial =? n_def state) && (length (n_leaves initial) =? length (n_leaves state)) then
    bindo (all_some (map2 (fun r p => where_ d r (fst p) (snd p)) conformed (combine (n_leaves initial) (n_leaves state))))
      (fun ls => rc_call c inputs (Nest (n_def state) ls))
  else None))).

(** ** [DeepRNN] (recurrent.py:694-742)
    Layers are cores or plain callables over an arbitrary type of values; [concat] is the n-ary
    [tree_multimap] of [jnp.concatenate(axis=-1)], which may raise. *)
Inductive layer (V St : Type) :=
| LCore (call : V -> St -> option (V * St)) (initial : option nat -> St)
| LFun (f : V -> option V).
Arguments LCore {V St}. Arguments LFun {V St}.

Section deep.
Context {V St : Type}.
Notation layers := (list (layer V St)).
Variable concat : list V -> option V.

(** [_DeepRNN.__init__] (recurrent.py:697-712): skip connections need every layer to be a core. *)
Definition deep_init (ls : layers) (skip : bool) : option layers :=
  if skip && negb (forallb (fun l => match l with LCore _ _ => true | LFun _ => false end) ls) then None else Some ls.

(** The loop of [_DeepRNN.__call__] (recurrent.py:720-731). [idx] is the loop index, [state] the states from
    [state_idx] on; reading past the end of the state tuple is an [IndexError]. *)
Fixpoint deep_loop (skip : bool) (inputs : V) (idx : nat) (ls : layers) (current : V) (state : list St)
    : option (V * list V * list St) :=
  match ls with
  | [] => Some (current, [], [])
  | l :: ls =>
      bindo (if skip && (0 <? idx) then concat [inputs; current] else Some current) (fun current =>
      match l with
      | LCore call _ =>
          match state with
          | [] => None
          | s :: state => bindo (call current s) (fun r => let '(y, s') := r in
              bindo (deep_loop skip inputs (S idx) ls y state) (fun q => let '(cur, outs, ss) := q in
              Some (cur, y :: outs, s' :: ss)))
          end
      | LFun f => bindo (f current) (fun y => deep_loop skip inputs (S idx) ls y state)
      end)
  end.
Definition deep_call (skip : bool) (ls : layers) (inputs : V) (state : list St) : option (V * list St) :=
  bindo (deep_loop skip inputs 0 ls inputs state) (fun r => let '(current, outs, next_states) := r in
  bindo (if skip then concat outs else Some current) (fun out => Some (out, next_states))).
(** [_DeepRNN.initial_state] (recurrent.py:738-742). *)
Definition deep_initial (ls : layers) (batch_size : option nat) : list St :=
  flat_map (fun l => match l with LCore _ i => [i batch_size] | LFun _ => [] end) ls.
End deep.

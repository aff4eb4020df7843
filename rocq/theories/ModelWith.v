(** Life cycle of the objects returned by [custom_creator] and [custom_getter]
    (base.py:398-404, 466-472; data_structures.py:70-78 [Stack.__call__]). *)
From stdpp Require Import base list.
Local Open Scope list_scope.

Section With.
Context {V : Type} `{EqDecision V}.

(** One thread-local stack (top first), and for every object made so far the element
    it still has to pop, if any ([contextlib.ExitStack] holding one suspended
    generator). *)
Record wstate := WS { ws_stack : list V; ws_pending : list (option V) }.

(** What user code can do with such objects: call [custom_creator] (the element is
    pushed at once, [stack.enter_context]), enter the returned object
    ([ExitStack.__enter__] does nothing), leave it, or drop the last reference to it
    (CPython finalizes the suspended generator, whose [finally] block pops). *)
Inductive wop := WCall (c : V) | WEnter (h : nat) | WExit (h : nat) | WDrop (h : nat).

Inductive werr := AssertionError | IndexError.

(** [assert self.pop() is elem] *)
Definition finish (h : nat) (s : wstate) : wstate * option werr :=
  match ws_pending s !! h with
  | Some (Some c) =>
      let p := <[h := None]> (ws_pending s) in
      match ws_stack s with
      | [] => (WS [] p, Some IndexError)
      | x :: rest => (WS rest p, if decide (x = c) then None else Some AssertionError)
      end
  | _ => (s, None)
  end.
Definition wstep (o : wop) (s : wstate) : wstate * option werr :=
  match o with
  | WCall c => (WS (c :: ws_stack s) (ws_pending s ++ [Some c]), None)
  | WEnter h => (s, None)
  | WExit h => finish h s
  | WDrop h => (fst (finish h s), None)
  end.
(** A history without exceptions. *)
Fixpoint wexec (os : list wop) (s : wstate) : option wstate :=
  match os with
  | [] => Some s
  | o :: os => match wstep o s with (s', None) => wexec os s' | _ => None end
  end.

(** Histories that only use [with custom_creator(c): ...], given the number of objects
    made before. *)
Inductive with_only : nat -> list wop -> nat -> Prop :=
| WO_nil k : with_only k [] k
| WO_app k a k1 b k2 : with_only k a k1 -> with_only k1 b k2 -> with_only k (a ++ b) k2
| WO_with k c body k1 : with_only (S k) body k1 ->
    with_only k (WCall c :: WEnter k :: body ++ [WExit k]) k1.

(** Object [h] was entered and not left yet. *)
Fixpoint inside (h : nat) (os : list wop) (b : bool) : bool :=
  match os with
  | [] => b
  | WEnter h' :: os => inside h os (if decide (h = h') then true else b)
  | WExit h' :: os => inside h os (if decide (h = h') then false else b)
  | _ :: os => inside h os b
  end.
(** The elements given to the calls, in order: the [h]-th is that of object [h]. *)
Fixpoint calls (os : list wop) : list V :=
  match os with
  | [] => []
  | WCall c :: os => c :: calls os
  | _ :: os => calls os
  end.
End With.
Global Arguments wstate : clear implicits.
Global Arguments wop : clear implicits.

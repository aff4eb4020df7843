(** * The arguments of [hk.cond] and the cache of branch wrappers (haiku/_src/stateful.py:383-446) *)
From stdpp Require Import gmap list strings.
From Coq Require Import String ZArith.
From Verif Require Import ModelStr ModelRng ModelCore.
Local Open Scope string_scope.
Local Open Scope list_scope.

(** ** Binding (Python's [inspect.Signature.bind] for parameters without defaults) *)
Section Bind.
Context {A : Type}.
Fixpoint take_kw (n : string) (kwargs : list (string * A)) : option (A * list (string * A)) :=
  match kwargs with
  | [] => None
  | (k, v) :: rest => if decide (k = n) then Some (v, rest)
                      else match take_kw n rest with Some (u, r) => Some (u, (k, v) :: r) | None => None end
  end.
(** [None]: TypeError (a missing argument, too many of them, one given twice, an unknown keyword). *)
Fixpoint bind (names : list string) (args : list A) (kwargs : list (string * A)) : option (list A) :=
  match names, args with
  | [], [] => match kwargs with [] => Some [] | _ => None end
  | [], _ :: _ => None
  | n :: names, a :: args => match take_kw n kwargs with
                             | Some _ => None
                             | None => option_map (cons a) (bind names args kwargs)
                             end
  | n :: names, [] => match take_kw n kwargs with
                      | Some (v, rest) => option_map (cons v) (bind names [] rest)
                      | None => None
                      end
  end.
(** stateful.py:383-388 [_new_cond], [_old_cond]. *)
Definition new_cond : list string := ["pred"; "true_fun"; "false_fun"; "operand"].
Definition old_cond : list string := ["pred"; "true_operand"; "true_fun"; "false_operand"; "false_fun"].
(** What [jax.lax.cond] is asked for: the predicate, and for each branch the function and the operand it is applied to (stateful.py:411-420).  In the old form the operand passed to JAX is the pair. *)
Record request := Request { r_pred : A; r_true : A; r_true_operand : A; r_false : A; r_false_operand : A }.
Definition dispatch (args : list A) (kwargs : list (string * A)) : option request :=
  match bind old_cond args kwargs with
  | Some [p; x; f; y; g] => Some (Request p f x g y)
  | _ => match bind new_cond args kwargs with
         | Some [p; f; g; x] => Some (Request p f x g x)
         | _ => None
         end
  end.
End Bind.
Arguments request : clear implicits.

(** ** [hk.cond] (stateful.py:405-430)

    Functions are values that [CallFun] calls.  [jax.lax.cond] takes a scalar predicate. *)
Definition truth (v : val) : option bool := match v with VBool b => Some b | VInt z => Some (negb (Z.eqb z 0)) | _ => None end.
Definition hk_cond (args : list val) (kwargs : list (string * val)) : prog :=
  Bind RunningInit (fun _ =>
    match dispatch args kwargs with
    | None => Raise ETypeError
    | Some r => match truth (r_pred r) with
                | None => Raise ETypeError
                | Some b => Cond b (CallFun (r_true r) (r_true_operand r)) (CallFun (r_false r) (r_false_operand r))
                end
    end).

(** ** [_memoize_by_id] (stateful.py:391-402)

    Objects are numbers; the interpreter places each object at an address.  A call [wrapper(g)] finds [g] at an address at which no other live object lies; what the cache holds is
    alive, and with [keeps] (the wrapper closes over [g], as [stateful_branch] does, stateful.py:371-380) so is each [g] that has an entry.  Between calls every other object may be freed. *)
Section Memo.
Context {G W : Type} (f : G -> W) (keeps : bool).
Record memo_state := Memo { m_cache : list (nat * W); m_live : list (nat * G) }.
Definition memo_empty : memo_state := Memo [] [].
Fixpoint find_id (i : nat) (cache : list (nat * W)) : option W :=
  match cache with [] => None | (j, w) :: cache => if Nat.eqb i j then Some w else find_id i cache end.
(** The wrapper returned for [g] at address [i], and the state after. *)
Definition memo_call (i : nat) (g : G) (s : memo_state) : W * memo_state :=
  match find_id i (m_cache s) with
  | Some w => (w, s)
  | None => (f g, Memo ((i, f g) :: m_cache s) (if keeps then (i, g) :: m_live s else m_live s))
  end.
(** An allocator's choice of addresses is possible if no two different live objects share one. *)
Inductive memo_run : memo_state -> list (nat * G) -> list W -> memo_state -> Prop :=
| MR_nil s : memo_run s [] [] s
| MR_cons s i g w s1 l ws s2 : (forall h, In (i, h) (m_live s) -> h = g) -> memo_call i g s = (w, s1) -> memo_run s1 l ws s2 -> memo_run s ((i, g) :: l) (w :: ws) s2.
End Memo.
Arguments memo_state : clear implicits.

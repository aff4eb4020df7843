(** The pairs returned by [transform], [transform_with_state], [without_state],
    [without_apply_rng] (transform.py:36-148, 232-302, 319-331) as Python sees them:
    callables taking any positional arguments. Keyword arguments are not modelled. *)
From stdpp Require Import gmap list strings.
From Coq Require Import String Ascii ZArith.
From Verif Require Import ModelStr ModelRng ModelCore.
Local Open Scope string_scope.
Local Open Scope list_scope.

(** transform.py:36-64: [Transformed] and [TransformedWithState] are named tuples
    with the fields [init] and [apply]. *)
Inductive kind := KTransformed | KWithState.
Record pair := Pair { t_kind : kind; t_init : list val -> M val; t_apply : list val -> M val }.

(** Truth value of the state returned ([if state:]). *)
Definition truthy (v : val) : bool :=
  match v with
  | VNone | VBool false | VInt 0 | VStr EmptyString | VTup [] | VDict [] => false
  | _ => true
  end.
(** [a, b = v]: tuples and dictionaries (whose keys are taken) can be unpacked. *)
Definition unpack2 (v : val) : M (val * val) :=
  match v with
  | VTup [a; b] => retM (a, b)
  | VDict [(a, _); (b, _)] => retM (VStr a, VStr b)
  | _ => throw ETypeError
  end.

(** transform.py:67-73 [to_prng_sequence]; only keys and [None] are accepted here
    (integer seeds are turned into keys by JAX and not modelled). *)
Definition as_rng (v : val) : option (option key) :=
  match v with
  | VNone => Some None
  | VKey k => Some (Some k)
  | _ => None
  end.

(** transform.py:268-302 [transform_with_state]: [f] is the user function. *)
Definition transform_with_state (C : code) (n : nat) (f : list val -> prog) : pair :=
  Pair KWithState
    (fun args => match args with
       | rng :: args =>
           match as_rng rng with
           | Some k => let! r := hk_init C n k (f args) in retM (VTup [enc (fst r); enc (snd r)])
           | None => throw ETypeError
           end
       | [] => throw ETypeError
       end)
    (fun args => match args with
       | params :: state :: rng :: args =>
           match dec params, dec state with
           | Some ps, Some st =>
               match as_rng rng with
               | Some k => let! r := hk_apply C n ps st k (f args) in retM (VTup [fst r; enc (snd r)])
               | None => throw ETypeError
               end
           | _, _ => throw ETypeError
           end
       | _ => throw ETypeError
       end).

(** transform.py:88-126 [without_state]. *)
Definition without_state (t : pair) : pair :=
  Pair KTransformed
    (fun args => let! r := t_init t args in
                 let! ps := unpack2 r in
                 if truthy (snd ps) then throw EStateInTransform else retM (fst ps))
    (fun args => match args with
       | params :: args =>
           let! r := t_apply t (params :: VDict [] :: args) in
           let! os := unpack2 r in
           if truthy (snd os) then throw EStateInTransform else retM (fst os)
       | [] => throw ETypeError
       end).

(** transform.py:132-148 [without_apply_rng] (the result is a [TransformedWithState]
    in both cases). *)
Definition without_apply_rng (t : pair) : pair :=
  Pair KWithState (t_init t)
    (fun args => match t_kind t, args with
       | KWithState, params :: state :: args => t_apply t (params :: state :: VNone :: args)
       | KTransformed, params :: args => t_apply t (params :: VNone :: args)
       | _, _ => throw ETypeError
       end).

(** transform.py:151-229 [transform] (with [apply_rng=True]). *)
Definition transform (C : code) (n : nat) (f : list val -> prog) : pair :=
  without_state (transform_with_state C n f).

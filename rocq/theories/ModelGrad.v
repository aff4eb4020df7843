(** [hk.value_and_grad] and [hk.grad] (stateful.py:95-227).

    [jax.value_and_grad(f, has_aux=True)] is given by its contract: it returns the value and the auxiliary output of [f], and the derivative [D h x]
    of the function [h] that maps an argument to the value of [f]; what [D] is does not matter. It may raise (for example because the value is no
    scalar). [f] is traced once. [argnums] and [holomorphic] are part of [D]. *)
From stdpp Require Import gmap list strings.
From Coq Require Import String Ascii ZArith.
From Verif Require Import ModelStr ModelRng ModelCore.
Local Open Scope list_scope.

Section Grad.
Context (C : code) (n : nat) (D : (val -> res val) -> val -> res val) (fn : val -> prog) (has_aux : bool).

(** stateful.py:210: unpacking; something that is not a pair raises. *)
Definition split_out (out : val) : res (val * val) :=
  if has_aux then match out with VTup [v; aux] => Ok (v, aux) | _ => Exc ETypeError end else Ok (out, VNone).
Definition lift {A} (r : res A) : M A := fun w => (r, w).

(** stateful.py:205-211 [stateful_fun] *)
Definition stateful_grad_fun (x : val) (s_in : istate) : M (val * (val * delta)) :=
  in_temp s_in
    (let! out := run C n (fn x) in
     let! va := lift (split_out out) in
     let! s_out := internal_state true in
     retM (fst va, (snd va, difference C s_in s_out))).

(** stateful.py:213-226: [grad_fun] and [wrapper]. The check at 201-203 is made when the function is wrapped. *)
Definition value_and_grad (x : val) : M val := fun w =>
  match w_frames w with
  | [] => (Exc ENotInTransform, w)
  | _ :: _ =>
      (let! s_in := internal_state true in
       fun w =>
         (let! r := stateful_grad_fun x s_in in
          let! grads := lift (D (fun y => match fst (stateful_grad_fun y s_in w) with Ok (v, _) => Ok v | Exc e => Exc e | Fuel => Fuel end) x) in
          update_internal_state (snd (snd r)) ;;;
          retM (VTup [if has_aux then VTup [fst r; fst (snd r)] else fst r; grads])) w) w
  end.
(** stateful.py:147-156 [grad] *)
Definition grad (x : val) : M val :=
  let! r := value_and_grad x in
  lift (match r with
        | VTup [value; grads] =>
            if has_aux then match value with VTup [_; aux] => Ok (VTup [grads; aux]) | _ => Exc ETypeError end else Ok grads
        | _ => Exc ETypeError
        end).
End Grad.

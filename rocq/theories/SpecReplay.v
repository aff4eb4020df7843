(** Programs for which [apply] on the outputs of [init] repeats [init]: the
    vocabulary of property C06. *)
From stdpp Require Import gmap list strings.
From Coq Require Import String ZArith.
From Verif Require Import ModelStr ModelRng ModelCore SpecCore.
Local Open Scope string_scope.
Local Open Scope list_scope.

(** Operations of an initializer: random keys and pure computation (base.py:571-647,
    760-779). *)
Definition init_op (p : prog) : Prop :=
  match p with
  | Ret _ | Raise _ | Bind _ _ | TryExcept _ _ | NextKey | NextKeys _ | MaybeNextKey | ReserveKeys _
  | WithRng _ _ | ModuleName _ => True
  | _ => False
  end.

(** Operations of the rest of the program: no random keys, no [running_init], no
    custom creators, no handling of exceptions, no inspection of the collected
    parameters, and of the stateful transforms only [jit]/[remat]/[grad]-like
    threading and [vmap]. *)
Definition replay_op (p : prog) : Prop :=
  match p with
  | Ret _ | Raise _ | Bind _ _ | CallFun _ _ | GetParam _ _ _ _ | GetState _ _ _ _ | SetState _ _
  | WithRng _ _ | WithGetter _ _ _ _ | NextGet _ _ | NewModule _ _ _ _ | CallMethod _ _ _ _
  | NameScope _ _ | Intercept _ _ | NextCall _ _ | ModuleName _ | Jit _ | Vmap _ _ => True
  | _ => False
  end.

Record replay_code (C : code) : Prop := {
  rc_fun : forall f a, all_ops replay_op (c_fun C f a);
  rc_getter : forall g r v ctx, all_ops replay_op (c_getter C g r v ctx);
  rc_icpt : forall i r a ctx, all_ops replay_op (c_icpt C i r a ctx);
  rc_init : forall i sh dt, all_ops init_op (c_init C i sh dt);
  (** Initializers return values, not [None]. *)
  rc_none : forall n i sh dt w w', run C n (c_init C i sh dt) w <> (Ok VNone, w') }.

(** Vocabulary for stating properties of the central model: what can be observed
    of an interpreter state. *)
From stdpp Require Import gmap list strings.
From Coq Require Import String ZArith.
From Verif Require Import ModelStr ModelRng ModelCore.
Local Open Scope string_scope.
Local Open Scope list_scope.

(** The innermost transform (or jit/scan/... evaluation) in progress. *)
Definition top (w : world) : option frame := head (w_frames w).

(** [in_module w b]: parameters and states requested now belong to module name [b]. *)
Definition in_module (w : world) (b : string) : Prop :=
  exists f, top w = Some f /\
  match f_mods f with
  | [] => b = "~"
  | (m, _) :: _ => exists subs, w_mods w !! m = Some (MObj (Some b) subs)
  end.

(** The Haiku context of a thread, apart from the collected contents: enclosing
    transforms, module stack, saved rng sequences, creators, getters, interceptors. *)
Record same_context (w w' : world) : Prop := {
  sx_pcreate : w_pcreate w' = w_pcreate w;
  sx_screate : w_screate w' = w_screate w;
  sx_pget : w_pget w' = w_pget w;
  sx_sget : w_sget w' = w_sget w;
  sx_icpt : w_icpt w' = w_icpt w;
  sx_depth : List.length (w_frames w') = List.length (w_frames w);
  sx_outer : tail (w_frames w') = tail (w_frames w);
  sx_top : forall f f', top w = Some f -> top w' = Some f' ->
    f_frozen f' = f_frozen f /\ f_mods f' = f_mods f /\ f_rngs f' = f_rngs f
    /\ List.length (f_scopes f') = List.length (f_scopes f)
    /\ (f_rng f = None <-> f_rng f' = None) }.

(** Key [b] was obtained from key [a] by (repeated) splitting, or is [a]. *)
Fixpoint derived (a b : key) : Prop :=
  a = b \/ match b with Split k _ _ => derived a k | Seed _ => False end.

(* ------------------------------------------------------------------ *)
(** * Predicates on all nodes of a program *)

Definition child (p q : prog) : Prop :=
  match p with
  | Bind a k => q = a \/ exists v, q = k v
  | TryExcept a h => q = a \/ exists e, q = h e
  | WithRng _ b | WithCreator _ _ _ b | WithGetter _ _ _ b | NameScope _ b | Intercept _ b
  | Jit b | EvalShape b | InnerInit _ b | InnerApply _ _ _ b | LiftCall _ _ b | OptimizeRng b => q = b
  | NewModule _ pre _ post => (exists m, q = pre m) \/ exists m v, q = post m v
  | CallMethod _ _ _ body => exists v, q = body v
  | Cond _ a b => q = a \/ q = b
  | Switch _ bs => In q bs
  | Scan f _ _ _ _ => exists c x, q = f c x
  | Fori _ _ b _ => exists i v, q = b i v
  | While c b _ => (exists v, q = c v) \/ exists v, q = b v
  | Vmap f _ => exists x, q = f x
  | _ => False
  end.

(** [P] holds of the program and of every program it can reach syntactically. *)
Inductive all_ops (P : prog -> Prop) : prog -> Prop :=
| AO p : P p -> (forall q, child p q -> all_ops P q) -> all_ops P p.

(** The same for everything a code table can call back. *)
Record code_ok (P : prog -> Prop) (C : code) : Prop := {
  co_fun : forall f a, all_ops P (c_fun C f a);
  co_init : forall i sh dt, all_ops P (c_init C i sh dt);
  co_creator : forall c r sh dt i ctx, all_ops P (c_creator C c r sh dt i ctx);
  co_getter : forall g r v ctx, all_ops P (c_getter C g r v ctx);
  co_icpt : forall i r a ctx, all_ops P (c_icpt C i r a ctx) }.

Definition mbody_ok (P : prog -> Prop) (b : mbody) : Prop :=
  match b with
  | MFun f => forall v, all_ops P (f v)
  | MCtor _ pre _ post => (forall m, all_ops P (pre m)) /\ forall m v, all_ops P (post m v)
  end.
Definition next_ok (P : prog -> Prop) (o : nextobj) : Prop :=
  match o with NxCall _ _ _ b => mbody_ok P b | _ => True end.
(** The [next] callables stored in the heap were made from such programs. *)
Definition heap_ok (P : prog -> Prop) (w : world) : Prop := Forall (next_ok P) (w_nexts w).

(** No [set_state] of the names in [K]. *)
Definition no_set (K : string -> Prop) (p : prog) : Prop :=
  match p with SetState n _ => ~ K n | _ => True end.

(** A loop condition that draws no random keys. *)
Definition cond_no_draw (C : code) (c : val -> prog) : Prop :=
  forall n v w r w' f fs f' fs', run C n (c v) w = (r, w') ->
    w_frames w = f :: fs -> w_frames w' = f' :: fs' -> f_rng f' = f_rng f.
Definition quiet_cond (C : code) (p : prog) : Prop :=
  match p with While c _ _ => cond_no_draw C c | _ => True end.

(** Neither key is derived from the other (so they also differ). *)
Definition unrelated (a b : key) : Prop := ~ derived a b /\ ~ derived b a.

(** [delivers op v ks]: the request [op] answered with [v] handed out the keys [ks]. *)
Inductive delivers : prog -> val -> list key -> Prop :=
| del_next k : delivers NextKey (VKey k) [k]
| del_maybe k : delivers MaybeNextKey (VKey k) [k]
| del_keys n ks : delivers (NextKeys n) (VTup (List.map VKey ks)) ks.

(* ------------------------------------------------------------------ *)
(** * Modules *)

(** The full name of a module object ([None]: not constructed). *)
Definition module_name (w : world) (m : nat) : option string :=
  match w_mods w !! m with Some o => mo_name o | None => None end.

(** No [next] callable of a constructor is pending for a module that does not
    exist yet (true whenever heaps were built by running programs). *)
Definition no_pending_ctor (w : world) : Prop :=
  forall m r s meth cls pre super post, w_mods w !! m = None ->
    w_nexts w !! r <> Some (NxCall s m meth (MCtor cls pre super post)).

(** What modules created now must be named after: nothing at top level, and
    [P/], [P/~/] or [P/~meth/] in method [__call__], [__init__] or [meth] of the
    module named [P]. *)
Definition name_prefix (w : world) (pre : string) : Prop :=
  exists f, top w = Some f /\
  match f_mods f with
  | [] => pre = ""
  | (m, meth) :: _ => exists P, module_name w m = Some P /\
      pre = P +:+ "/" +:+ (if decide (meth = "__call__") then ""
                           else if decide (meth = "__init__") then "~/"
                           else "~" +:+ meth +:+ "/")
  end.

(** The last part of a module name for a requested name: the name itself, the
    name followed by a number, or its canonically numbered form. *)
Definition name_form (req x : string) : Prop :=
  x = req \/ (exists k, x = req +:+ "_" +:+ str_of_N k) \/
  exists b k, explicit_number req = Some (b, k) /\ x = b +:+ "_" +:+ str_of_N k.

(** No module was created yet in the current scope. *)
Definition fresh_scope (w : world) : Prop :=
  exists f, top w = Some f /\ head (f_scopes f) = Some empty_scope.

(** Every enclosing module's constructor has called its super constructor. *)
Definition modules_ready (w : world) : Prop :=
  exists f, top w = Some f /\
  Forall (fun '(m, _) => exists o, w_mods w !! m = Some o /\ is_Some (mo_name o) /\ is_Some (mo_subs o)) (f_mods f).

(** module.py:474-488: the requested name, by default derived from the class name. *)
Definition requested (cls : string) (name : option string) : string :=
  match name with Some n => n | None => camel_to_snake cls end.

(** [hk.Module(name=...)] with a trivial constructor. *)
Definition plain_module (cls name : string) : prog :=
  NewModule cls (fun _ => Ret VNone) (fun _ => Some (Some name)) (fun _ _ => Ret VNone).

(** The [k]-th automatic name. *)
Definition auto_name (x : string) (k : nat) : string :=
  match k with O => x | _ => x +:+ "_" +:+ str_of_N (N.of_nat k) end.

(** Creating modules one after the other. *)
Inductive creates (C : code) (cls : string) : world -> list string -> list nat -> world -> Prop :=
| cr_nil w : creates C cls w [] [] w
| cr_cons n w req m w1 reqs ms w2 : run C n (plain_module cls req) w = (Ok (VMod m), w1) ->
    creates C cls w1 reqs ms w2 -> creates C cls w (req :: reqs) (m :: ms) w2.
Definition occurrences (x : string) (l : list string) : nat := List.length (filter (eq x) l).

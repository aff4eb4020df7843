(** Vocabulary for the names of modules created by methods. *)
From stdpp Require Import gmap list strings.
From Coq Require Import String ZArith.
From Verif Require Import ModelStr ModelRng ModelCore SpecCore.
Local Open Scope string_scope.
Local Open Scope list_scope.

(** No [hk.intercept_methods]. *)
Definition no_intercept (p : prog) : Prop := match p with Intercept _ _ => False | _ => True end.

(** The same interpreter state with other name counters and used names on the stack of scopes. *)
Definition with_scopes (s : list scope) (w : world) : world := on_top (set_scopes s) w.

(** Operations that neither create modules nor call methods. *)
Definition no_modules (p : prog) : Prop :=
  match p with NewModule _ _ _ _ | CallMethod _ _ _ _ | NameScope _ _ | NextCall _ _ => False | _ => True end.
(** The functions, initializers, creators and getters of the code table do neither. *)
Record quiet_code (C : code) : Prop := {
  qc_fun : forall f a, all_ops no_modules (c_fun C f a);
  qc_init : forall i sh dt, all_ops no_modules (c_init C i sh dt);
  qc_creator : forall c r sh dt i ctx, all_ops no_modules (c_creator C c r sh dt i ctx);
  qc_getter : forall g r v ctx, all_ops no_modules (c_getter C g r v ctx) }.

(** No stored [next] callable can run a constructor (these exist only while or after constructors were intercepted). *)
Definition no_ctor_next (w : world) : Prop :=
  forall r s m meth cls pre super post, w_nexts w !! r <> Some (NxCall s m meth (MCtor cls pre super post)).

(** What a method does, as far as modules are concerned.  Modules are referred to by their position in
    the list of those known so far (in Python they would be found through attributes):
    - [BDo p k]: run [p], which does not involve modules ([get_parameter], [set_state], ...), then [k];
    - [BNew cls name ctor k]: construct a module whose constructor calls [super().__init__(name)] and
      then does [ctor]; the module and those made by its constructor become known; then [k];
    - [BCall h meth body k]: call method [meth] of module number [h], which does [body]; then [k]. *)
Inductive blueprint :=
| BEnd
| BDo (p : prog) (k : blueprint)
| BNew (cls : string) (name : option string) (ctor k : blueprint)
| BCall (h : nat) (meth : string) (body k : blueprint).

(** How many modules it makes. *)
Fixpoint bp_count (b : blueprint) : nat :=
  match b with
  | BEnd => 0
  | BDo _ k => bp_count k
  | BNew _ _ ctor k => S (bp_count ctor) + bp_count k
  | BCall _ _ body k => bp_count body + bp_count k
  end.

Definition mods_val (es : list nat) : val := VTup (List.map VMod es).
Fixpoint val_mods (l : list val) : option (list nat) :=
  match l with
  | [] => Some []
  | VMod m :: l => match val_mods l with Some es => Some (m :: es) | None => None end
  | _ => None
  end.

(** The program; it returns the modules known at the end. *)
Fixpoint bp_prog (b : blueprint) (es : list nat) : prog :=
  match b with
  | BEnd => Ret (mods_val es)
  | BDo p k => Bind p (fun _ => bp_prog k es)
  | BNew cls name ctor k =>
      Bind (NewModule cls (fun _ => Ret VNone) (fun _ => Some name) (fun m _ => bp_prog ctor (es ++ [m])))
           (fun v => match v with
                     | VMod m => bp_prog k (es ++ seq m (S (bp_count ctor)))
                     | _ => Raise EAttr
                     end)
  | BCall h meth body k =>
      match es !! h with
      | None => Raise EAttr
      | Some m => Bind (CallMethod m meth VNone (fun _ => bp_prog body es))
                       (fun v => match v with
                                 | VTup l => match val_mods l with Some es' => bp_prog k es' | None => Raise EAttr end
                                 | _ => Raise EAttr
                                 end)
      end
  end.

(** Names start with this inside method [meth] of the module named [P]. *)
Definition inside (P meth : string) : string :=
  P +:+ "/" +:+ (if decide (meth = "__call__") then ""
                 else if decide (meth = "__init__") then "~/"
                 else "~" +:+ meth +:+ "/").

(** The names of the known modules at the end, computed from the blueprint, the prefix, the names already
    given in the current scope and the names of the modules known at the start alone; [None] if a name clashes or a module is unknown. *)
Fixpoint bp_names (b : blueprint) (pfx : string) (sc : scope) (names : list string) : option (scope * list string) :=
  match b with
  | BEnd => Some (sc, names)
  | BDo _ k => bp_names k pfx sc names
  | BNew cls name ctor k =>
      match number_name sc (pfx +:+ requested cls name) with
      | (sc', inr q) =>
          match bp_names ctor (inside q "__init__") empty_scope (names ++ [q]) with
          | Some (_, names') => bp_names k pfx sc' names'
          | None => None
          end
      | _ => None
      end
  | BCall h meth body k =>
      match names !! h with
      | None => None
      | Some q =>
          match bp_names body (inside q meth) empty_scope names with
          | Some (_, names') => bp_names k pfx sc names'
          | None => None
          end
      end
  end.

(** Every [BDo] leaves modules alone. *)
Fixpoint bp_ok (b : blueprint) : Prop :=
  match b with
  | BEnd => True
  | BDo p k => all_ops no_modules p /\ bp_ok k
  | BNew _ _ ctor k => bp_ok ctor /\ bp_ok k
  | BCall _ _ body k => bp_ok body /\ bp_ok k
  end.

(** The modules [es] are named [names]. *)
Definition named (w : world) (es : list nat) (names : list string) : Prop :=
  Forall2 (fun m q => module_name w m = Some q) es names.

(** Central model: user programs running inside [hk.transform] and the Haiku
    machinery of [base.py], [module.py], [stateful.py], [transform.py],
    [lift.py], [random.py] they call. Line numbers refer to [/repo/haiku/_src].

    A user function is an arbitrary element of [prog]; Python callables that
    Haiku itself stores and calls back (initializers, creators, getters,
    interceptors) and recursive user functions are entries of a [code] table.
    JAX transformations are replaced by their documented meaning, stated at each
    definition. Python dictionaries are finite maps: insertion order is not
    modelled here. *)
From stdpp Require Import gmap list strings.
From Coq Require Import String Ascii ZArith.
From Verif Require Import ModelStr ModelRng.
Local Open Scope string_scope.
Local Open Scope list_scope.

(* ------------------------------------------------------------------ *)
(** * Values *)

(** Python values a program can pass around.  [VArr shape data] stands for an
    array, its contents abstracted to one integer; [VMod] is a module object
    (index into the module heap); [VNext] the [next_*] callable passed to
    creators, getters and interceptors; [VDict] a dictionary. *)
Inductive val : Type :=
| VNone
| VBool (b : bool)
| VInt (z : Z)
| VStr (s : string)
| VArr (shape : list nat) (data : Z)
| VKey (k : key)
| VTup (l : list val)
| VMod (m : nat)
| VNext (r : nat)
| VDict (l : list (string * val)).

Global Instance key_eq_dec : EqDecision key.
Proof. unfold EqDecision, Decision. decide equality; apply decide; apply _. Defined.

Fixpoint val_eq (x y : val) {struct x} : {x = y} + {x <> y}.
Proof.
  decide equality; try (apply (decide (_ = _))); try apply _.
  - exact (list_eq_dec (dec:=val_eq) l l0).
  - refine (list_eq_dec (dec:=_) l l0). intros [a x'] [b y'].
    destruct (decide (a = b)) as [->|]; [|right; congruence].
    destruct (val_eq x' y') as [->|]; [left; reflexivity|right; congruence].
Defined.
Global Instance val_eq_dec : EqDecision val := val_eq.

Global Instance rngseq_eq_dec : EqDecision rngseq.
Proof. unfold EqDecision, Decision. decide equality; apply (decide (_ = _)). Defined.

(** [v.shape]; [None]: the attribute does not exist. *)
Definition vshape (v : val) : option (list nat) :=
  match v with
  | VArr sh _ => Some sh
  | VKey _ => Some [2]
  | _ => None
  end.

(** What JAX compares when it requires two pytrees to "have the same
    structure": containers and array shapes, not contents. *)
Fixpoint skel (v : val) : val :=
  match v with
  | VBool _ => VBool false
  | VInt _ => VInt 0
  | VArr sh _ => VArr sh 0
  | VKey _ => VKey (Seed 0)
  | VTup l => VTup (List.map skel l)
  | VDict l => VDict (List.map (fun '(k, x) => (k, skel x)) l)
  | v => v
  end.

(** Exceptions, one constructor per [raise]/failing operation of the source. *)
Inductive exn : Type :=
| ENotInTransform                        (* base.py:226-230 assert_context, module.py:400-402 *)
| ENoInit                                (* base.py:268 *)
| ENoParam (bundle name : string)        (* base.py:273-277, 285-289 *)
| EShape (fq : string)                   (* base.py:298-300 *)
| ENoState (bundle name : string)        (* base.py:702-704 *)
| ENoStateShape (bundle name : string)   (* base.py:705-707 *)
| ENoRng                                 (* base.py:573-575 *)
| ESuperFirst                            (* base.py:203-205 *)
| ENoSuper                               (* module.py:139-145 *)
| EBadName (name : string)               (* module.py:489-492 *)
| ENotUnique (name : string)             (* module.py:598 *)
| EScopeName (name : string)             (* module.py:308-309 *)
| ENewParams                             (* base.py:803 *)
| EStateChanged                          (* base.py:840, stateful.py:594-597 *)
| EWhileInit                             (* stateful.py:573-582 *)
| EStateInTransform                      (* transform.py:111-113, 119-121 *)
| ELiftClash (name : string)             (* lift.py:26 assertion *)
| ETypeError                             (* JAX structure errors, check_mapping *)
| EAttr                                  (* AttributeError *)
| EIndex                                 (* IndexError *)
| EUser (v : val).                       (* raised by user code *)

(* ------------------------------------------------------------------ *)
(** * Programs *)

(** base.py:305-332 [GetterContext]: full name, module, dtype, shape. *)
Record gctx := GCtx {
  g_full : string; g_module : option nat;
  g_dtype : option string; g_shape : option (list nat) }.

(** User code. Every constructor is a computation that returns a value or
    raises; [Bind] is sequencing with an arbitrary continuation. *)
Inductive prog : Type :=
(* plain Python *)
| Ret (v : val)
| Raise (e : exn)
| Bind (p : prog) (k : val -> prog)
| TryExcept (p : prog) (h : exn -> prog)
| CallFun (f arg : val)
(* base.py *)
| GetParam (name : string) (shape : list nat) (dtype : string) (init : option val)
| GetState (name : string) (shape : option (list nat)) (dtype : option string) (init : option val)
| SetState (name : string) (v : val)
| NextKey
| NextKeys (num : nat)
| MaybeNextKey
| ReserveKeys (num : nat)
| WithRng (k : key) (body : prog)
| RunningInit
| WithCreator (c : val) (params state : bool) (body : prog)
| WithGetter (g : val) (params state : bool) (body : prog)
| NextCreate (r : nat) (shape : list nat) (dtype : string) (init : val)
| NextGet (r : nat) (v : val)
(* module.py *)
| NewModule (cls : string) (pre : nat -> prog)
            (super : val -> option (option string)) (post : nat -> val -> prog)
| CallMethod (m : nat) (meth : string) (arg : val) (body : val -> prog)
| NameScope (name : string) (body : prog)
| Intercept (i : val) (body : prog)
| NextCall (r : nat) (arg : val)
| ModuleName (m : nat)
| ModuleDict (m : nat) (params : bool)
(* stateful.py *)
| Jit (body : prog)
| Cond (pred : bool) (true_fun false_fun : prog)
| Switch (index : Z) (branches : list prog)
| Scan (f : val -> val -> prog) (init : val) (xs : list val) (zero : val) (reverse : bool)
| Fori (lower upper : Z) (body : Z -> val -> prog) (init : val)
| While (cond body : val -> prog) (init : val)
| Vmap (f : val -> prog) (xs : list val)
| EvalShape (body : prog)
(* transform.py, lift.py, random.py *)
| InnerInit (rng : option key) (body : prog)
| InnerApply (params state : val) (rng : option key) (body : prog)
| LiftCall (m : nat) (rng : option key) (body : prog)
| OptimizeRng (body : prog).

(** Callables referred to by name from programs, and the parts of Python/JAX
    the model is parametric in: [c_same]/[c_same_rng] is Python's [is] on array
    leaves / on internal states of random sequences, [c_block] the module global
    DEFAULT_PRNG_RESERVE_SIZE (base.py:34). *)
Record code := Code {
  c_fun : val -> val -> prog;
  c_init : val -> list nat -> string -> prog;
  c_creator : val -> nat -> list nat -> string -> val -> gctx -> prog;
  c_getter : val -> nat -> val -> gctx -> prog;
  c_icpt : val -> nat -> val -> nat * string -> prog;
  c_same : val -> val -> bool;
  c_same_rng : rngseq -> rngseq -> bool;
  c_block : nat }.

(** Identity is sound: the same object has the same contents. *)
Definition sound_identity (C : code) : Prop :=
  (forall a b, c_same C a b = true -> a = b) /\
  (forall a b, c_same_rng C a b = true -> a = b).

(* ------------------------------------------------------------------ *)
(** * The interpreter's state *)

Notation bundles A := (gmap string (gmap string A)).
(** Apply a function to every leaf of a two-level mapping. *)
Definition map2 {A B} (g : A -> B) (m : bundles A) : bundles B :=
  fmap (M := gmap string) (fmap (M := gmap string) g) m.

(** One element of [counter_stack] and of [used_names_stack] (pushed and popped
    together, base.py:94-99). *)
Record scope := Scope { sc_ctr : gmap string N; sc_used : gset string }.
Definition empty_scope : scope := Scope ∅ ∅.

(** base.py:53-99 [Frame]. [f_frozen] says whether [params] is a FlatMapping
    (66-68). Stacks have their top first; [f_rng] is the top of [rng_stack]. A
    state entry is the pair (initial, current) of [StatePair]. *)
Record frame := Frame {
  f_params : bundles val;
  f_frozen : bool;
  f_state : bundles (val * val);
  f_rng : option rngseq;
  f_rngs : list (option rngseq);
  f_mods : list (nat * string);
  f_scopes : list scope }.

(** A module object: [module_name] and [_submodules], each absent before the
    super constructor ran. *)
Record mobj := MObj { mo_name : option string; mo_subs : option (gset string) }.

(** A method body as seen by [run_interceptors]: an ordinary method, or a
    constructor: user code before the call of the super constructor, its name
    argument ([None]: super is not called), user code after it. Simplification:
    the super constructor is called at most once, outside nested scopes of
    [__init__]. *)
Inductive mbody :=
| MFun (f : val -> prog)
| MCtor (cls : string) (pre : nat -> prog)
        (super : val -> option (option string)) (post : nat -> val -> prog).

(** The closures [next_creator] (base.py:353-357), [next_getter] (421-425) and
    [next_fun] (module.py:286-293): the remaining [stack_copy] and what they
    close over. *)
Inductive nextobj :=
| NxCreate (stack : list val) (ctx : gctx)
| NxGet (stack : list val) (ctx : gctx)
| NxCall (stack : list val) (m : nat) (meth : string) (body : mbody).

(** All interpreter-level state of one thread. [w_draws] counts calls of
    [next_rng_key] (what [count_hk_rngs_requested] counts). *)
Record world := World {
  w_frames : list frame;
  w_pcreate : list val;  w_screate : list val;
  w_pget : list val;     w_sget : list val;
  w_icpt : list val;
  w_mods : list mobj;
  w_nexts : list nextobj;
  w_draws : nat }.

Definition empty_world : world := World [] [] [] [] [] [] [] [] 0.

Definition set_frames (fs : list frame) (w : world) : world :=
  World fs (w_pcreate w) (w_screate w) (w_pget w) (w_sget w) (w_icpt w) (w_mods w) (w_nexts w) (w_draws w).
Definition set_mods (ms : list mobj) (w : world) : world :=
  World (w_frames w) (w_pcreate w) (w_screate w) (w_pget w) (w_sget w) (w_icpt w) ms (w_nexts w) (w_draws w).
Definition set_nexts (ns : list nextobj) (w : world) : world :=
  World (w_frames w) (w_pcreate w) (w_screate w) (w_pget w) (w_sget w) (w_icpt w) (w_mods w) ns (w_draws w).
Definition set_creators (ps ss : list val) (w : world) : world :=
  World (w_frames w) ps ss (w_pget w) (w_sget w) (w_icpt w) (w_mods w) (w_nexts w) (w_draws w).
Definition set_getters (ps ss : list val) (w : world) : world :=
  World (w_frames w) (w_pcreate w) (w_screate w) ps ss (w_icpt w) (w_mods w) (w_nexts w) (w_draws w).
Definition set_icpt (is : list val) (w : world) : world :=
  World (w_frames w) (w_pcreate w) (w_screate w) (w_pget w) (w_sget w) is (w_mods w) (w_nexts w) (w_draws w).
Definition set_draws (d : nat) (w : world) : world :=
  World (w_frames w) (w_pcreate w) (w_screate w) (w_pget w) (w_sget w) (w_icpt w) (w_mods w) (w_nexts w) d.

Definition set_params (p : bundles val) (f : frame) : frame :=
  Frame p (f_frozen f) (f_state f) (f_rng f) (f_rngs f) (f_mods f) (f_scopes f).
Definition set_fstate (s : bundles (val * val)) (f : frame) : frame :=
  Frame (f_params f) (f_frozen f) s (f_rng f) (f_rngs f) (f_mods f) (f_scopes f).
Definition set_rng (r : option rngseq) (f : frame) : frame :=
  Frame (f_params f) (f_frozen f) (f_state f) r (f_rngs f) (f_mods f) (f_scopes f).
Definition set_scopes (s : list scope) (f : frame) : frame :=
  Frame (f_params f) (f_frozen f) (f_state f) (f_rng f) (f_rngs f) (f_mods f) s.

(** Change the top frame. *)
Definition on_top (g : frame -> frame) (w : world) : world :=
  match w_frames w with
  | [] => w
  | f :: fs => set_frames (g f :: fs) w
  end.

(* ------------------------------------------------------------------ *)
(** * Computations *)

(** Outcome of a computation: a value, a Python exception, or the interpreter
    ran out of fuel (no information). *)
Inductive res (A : Type) : Type :=
| Ok (a : A)
| Exc (e : exn)
| Fuel.
Global Arguments Ok {A} a.
Global Arguments Exc {A} e.
Global Arguments Fuel {A}.

Definition M (A : Type) : Type := world -> res A * world.

Definition retM {A} (a : A) : M A := fun w => (Ok a, w).
Definition throw {A} (e : exn) : M A := fun w => (Exc e, w).
Definition bindM {A B} (m : M A) (k : A -> M B) : M B := fun w =>
  match m w with
  | (Ok a, w') => k a w'
  | (Exc e, w') => (Exc e, w')
  | (Fuel, w') => (Fuel, w')
  end.
Notation "'let!' x ':=' m 'in' k" := (bindM m (fun x => k))
  (at level 200, x binder, m at level 100, k at level 200).
Notation "m ';;;' k" := (bindM m (fun _ => k)) (at level 199, right associativity).

Definition modify (g : world -> world) : M unit := fun w => (Ok tt, g w).
Definition reads {A} (g : world -> A) : M A := fun w => (Ok (g w), w).

(** [with push/pop: m], Python's try/finally: [pop] also runs on exceptions. *)
Definition scoped {A} (push pop : world -> world) (m : M A) : M A := fun w =>
  let '(r, w') := m (push w) in (r, pop w').

(** base.py:100 [current_frame] together with [assert_context] (226-230). *)
Definition top_frame : M frame := fun w =>
  match w_frames w with
  | [] => (Exc ENotInTransform, w)
  | f :: _ => (Ok f, w)
  end.

(** Run [m] under an extra frame on the frame stack and return that frame's
    final contents together with the result ([frame_stack(frame)] used as a
    context manager, or [HaikuContext.__enter__/__exit__] base.py:135-147). *)
Definition in_frame {A} (f : frame) (m : M A) : M (A * frame) := fun w =>
  let '(r, w') := m (set_frames (f :: w_frames w) w) in
  match w_frames w' with
  | [] => (Exc EIndex, w')                 (* unreachable: scopes are balanced *)
  | f' :: fs => (match r with
                 | Ok a => Ok (a, f')
                 | Exc e => Exc e
                 | Fuel => Fuel
                 end, set_frames fs w')
  end.

(* ------------------------------------------------------------------ *)
(** * base.py *)

(** base.py:200-206 [safe_get_module_name]. *)
Definition safe_get_module_name (m : nat) : M string :=
  let! ms := reads w_mods in
  match ms !! m with
  | Some (MObj (Some n) _) => retM n
  | _ => throw ESuperFirst
  end.

(** base.py:209-223 [current_module], [current_bundle_name]. *)
Definition current_bundle_name : M string :=
  let! f := top_frame in
  match f_mods f with
  | (m, _) :: _ => safe_get_module_name m
  | [] => retM "~"
  end.
Definition current_module (f : frame) : option nat :=
  match f_mods f with (m, _) :: _ => Some m | [] => None end.

Definition lookup2 {A} (b n : string) (m : bundles A) : option A :=
  match m !! b with Some x => x !! n | None => None end.
(** [m[b][n] = v] with [m] a [defaultdict(dict)]. *)
Definition insert2 {A} (b n : string) (v : A) (m : bundles A) : bundles A :=
  <[b := <[n := v]> (default ∅ (m !! b))]> m.
(** [m[b]] with [m] a [defaultdict(dict)]: inserts an empty bundle if missing. *)
Definition touch {A} (b : string) (m : bundles A) : bundles A :=
  match m !! b with Some _ => m | None => <[b := ∅]> m end.

(** [x is None] test applied to a looked-up value. *)
Definition not_none (x : option val) : option val :=
  match x with Some VNone => None | o => o end.

Definition alloc_next (o : nextobj) : M nat :=
  let! ns := reads w_nexts in
  modify (set_nexts (ns ++ [o])) ;;;
  retM (List.length ns).

Section Step.
Variable C : code.
(** The interpreter with less fuel. *)
Variable rn : prog -> M val.

(** base.py:353-357 [next_creator]: pops the shared [stack_copy]. *)
Definition next_create (r : nat) (shape : list nat) (dtype : string) (init : val) : M val :=
  let! ns := reads w_nexts in
  match ns !! r with
  | Some (NxCreate (c :: rest) ctx) =>
      modify (set_nexts (<[r := NxCreate rest ctx]> ns)) ;;;
      rn (c_creator C c r shape dtype init ctx)
  | Some (NxCreate [] _) => rn (c_init C init shape dtype)
  | _ => throw ETypeError
  end.

(** base.py:340-359 [run_creators]; [stack] has its top first and [popleft]
    takes the bottom, hence [rev]. *)
Definition run_creators (stack : list val) (ctx : gctx)
    (shape : list nat) (dtype : string) (init : val) : M val :=
  match stack with
  | [] => rn (c_init C init shape dtype)
  | _ => let! r := alloc_next (NxCreate (rev stack) ctx) in
         next_create r shape dtype init
  end.

(** base.py:421-425 [next_getter]. *)
Definition next_get (r : nat) (v : val) : M val :=
  let! ns := reads w_nexts in
  match ns !! r with
  | Some (NxGet (g :: rest) ctx) =>
      modify (set_nexts (<[r := NxGet rest ctx]> ns)) ;;;
      rn (c_getter C g r v ctx)
  | Some (NxGet [] _) => retM v
  | _ => throw ETypeError
  end.

(** base.py:410-427 [run_getters]. *)
Definition run_getters (stack : list val) (ctx : gctx) (v : val) : M val :=
  match stack with
  | [] => retM v
  | _ => let! r := alloc_next (NxGet (rev stack) ctx) in next_get r v
  end.

(** base.py:239-302 [get_parameter]. *)
Definition get_parameter (name : string) (shape : list nat) (dtype : string)
    (init : option val) : M val :=
  let! _ := top_frame in
  match init with
  | None => throw ENoInit
  | Some init =>
      let! b := current_bundle_name in
      let! f := top_frame in
      if f_frozen f && negb (bool_decide (is_Some (f_params f !! b)))
      then throw (ENoParam b name)
      else
        (* frame.params[bundle_name]: a defaultdict while initialising *)
        modify (on_top (fun f => if f_frozen f then f else set_params (touch b (f_params f)) f)) ;;;
        let fq := b +:+ "/" +:+ name in
        let ctx := GCtx fq (current_module f) (Some dtype) (Some shape) in
        let! v :=
          match not_none (lookup2 b name (f_params f)) with
          | Some v => retM v
          | None =>
              if f_frozen f then throw (ENoParam b name)
              else
                let! stack := reads w_pcreate in
                let! v := run_creators stack ctx shape dtype init in
                modify (on_top (fun f => set_params (insert2 b name v (f_params f)) f)) ;;;
                retM v
          end in
        let! gs := reads w_pget in
        let! v := run_getters gs ctx v in
        match vshape v with
        | None => throw EAttr
        | Some sh => if bool_decide (sh = shape) then retM v else throw (EShape fq)
        end
  end.

(** base.py:657-721 [get_state]. *)
Definition get_state (name : string) (shape : option (list nat)) (dtype : option string)
    (init : option val) : M val :=
  let! b := current_bundle_name in
  let! f := top_frame in
  modify (on_top (fun f => set_fstate (touch b (f_state f)) f)) ;;;
  let fq := b +:+ "/" +:+ name in
  let ctx := GCtx fq (current_module f) dtype shape in
  let! v :=
    match lookup2 b name (f_state f) with
    | Some (_, cur) => retM cur
    | None =>
        match init with
        | None => throw (ENoState b name)
        | Some init =>
            match shape, dtype with
            | Some sh, Some dt =>
                let! stack := reads w_screate in
                let! v := run_creators stack ctx sh dt init in
                modify (on_top (fun f => set_fstate (insert2 b name (v, v) (f_state f)) f)) ;;;
                retM v
            | _, _ => throw (ENoStateShape b name)
            end
        end
    end in
  let! gs := reads w_sget in
  run_getters gs ctx v.

(** base.py:724-757 [set_state]. *)
Definition set_state (name : string) (v : val) : M val :=
  let! b := current_bundle_name in
  modify (on_top (fun f =>
    let i := match lookup2 b name (f_state f) with Some (i, _) => i | None => v end in
    set_fstate (insert2 b name (i, v) (f_state f)) f)) ;;;
  retM VNone.

(** base.py:571-576 [rng_seq_or_fail] followed by an operation on the sequence
    object (mutated in place). *)
Definition with_seq {A} (g : rngseq -> option (A * rngseq)) : M A :=
  let! f := top_frame in
  match f_rng f with
  | None => throw ENoRng
  | Some s => match g s with
              | None => throw EIndex
              | Some (a, s') => modify (on_top (set_rng (Some s'))) ;;; retM a
              end
  end.

(** base.py:602-620 [next_rng_key], [next_rng_key_internal]. *)
Definition next_rng_key : M val :=
  let! _ := top_frame in
  modify (fun w => set_draws (S (w_draws w)) w) ;;;
  let! k := with_seq (seq_next (c_block C)) in retM (VKey k).
(** base.py:623-640 [next_rng_keys]. *)
Definition next_rng_keys (num : nat) : M val :=
  let! ks := with_seq (seq_take (c_block C) num) in retM (VTup (List.map VKey ks)).
(** base.py:643-647 [maybe_next_rng_key]. *)
Definition maybe_next_rng_key : M val :=
  let! f := top_frame in
  match f_rng f with
  | None => retM VNone
  | Some _ => let! k := with_seq (seq_next (c_block C)) in retM (VKey k)
  end.
(** base.py:579-599 [reserve_rng_keys]. *)
Definition reserve_rng_keys (num : nat) : M val :=
  with_seq (fun s => Some (VNone, reserve num s)).

(** base.py:760-779 [with_rng]: push/pop on the current frame's [rng_stack]. *)
Definition push_rng (r : option rngseq) (w : world) : world :=
  on_top (fun f => Frame (f_params f) (f_frozen f) (f_state f) r (f_rng f :: f_rngs f)
                         (f_mods f) (f_scopes f)) w.
Definition pop_rng (w : world) : world :=
  on_top (fun f => match f_rngs f with
                   | r :: rs => Frame (f_params f) (f_frozen f) (f_state f) r rs (f_mods f) (f_scopes f)
                   | [] => f
                   end) w.

(** base.py:362-404 [custom_creator], 430-472 [custom_getter], used as
    [with hk.custom_creator(c, params=.., state=..): body]. *)
Definition push_if (b : bool) (c : val) (s : list val) : list val := if b then c :: s else s.
Definition pop_if (b : bool) (s : list val) : list val := if b then tail s else s.

(* ------------------------------------------------------------------ *)
(** * module.py *)

(** base.py:94-99 [Frame.module]. *)
Definition push_module (ms : nat * string) (w : world) : world :=
  on_top (fun f => Frame (f_params f) (f_frozen f) (f_state f) (f_rng f) (f_rngs f)
                         (ms :: f_mods f) (empty_scope :: f_scopes f)) w.
Definition pop_module (w : world) : world :=
  on_top (fun f => Frame (f_params f) (f_frozen f) (f_state f) (f_rng f) (f_rngs f)
                         (tail (f_mods f)) (tail (f_scopes f))) w.

(** module.py:556-574: prefix of a new module's name, from the caller's module
    state (second element of the module stack). *)
Definition scoped_name (f : frame) (name : string) : M string :=
  match f_mods f with
  | _ :: (pm, meth) :: _ =>
      let name := if decide (meth = "__init__") then "~/" +:+ name
                  else if decide (meth = "__call__") then name
                  else "~" +:+ meth +:+ "/" +:+ name in
      let! pn := safe_get_module_name pm in
      retM (pn +:+ "/" +:+ name)
  | _ => retM name
  end.

(** module.py:576-601: numbering and uniqueness check against one scope:
    [inr] is the new name and the updated scope, [inl] the clashing name (the
    counter has been updated even then). *)
Definition number_name (sc : scope) (name : string) : scope * (string + string) :=
  let cnt b := default 0%N (sc_ctr sc !! b) in
  let '(ctr, q) :=
    match explicit_number name with
    | Some (b, n) =>
        (<[b := N.max (cnt b) (n + 1)]> (sc_ctr sc), b +:+ "_" +:+ str_of_N n)
    | None =>
        let n := cnt name in
        (<[name := (n + 1)%N]> (sc_ctr sc),
         if (n =? 0)%N then name else name +:+ "_" +:+ str_of_N n)
    end in
  if decide (q ∈ sc_used sc) then (Scope ctr (sc_used sc), inl q)
  else (Scope ctr ({[q]} ∪ sc_used sc), inr q).

(** module.py:556-601 [unique_and_canonical_name]; counters and used names are
    those of the caller, second from the top. *)
Definition unique_and_canonical_name (name : string) : M string :=
  let! f := top_frame in
  let! full := scoped_name f name in
  match f_scopes f with
  | s0 :: sc :: rest =>
      let '(sc', r) := number_name sc full in
      modify (on_top (set_scopes (s0 :: sc' :: rest))) ;;;
      match r with
      | inr q => retM q
      | inl q => throw (ENotUnique q)
      end
  | _ => throw EIndex
  end.

Definition update_mod (m : nat) (g : mobj -> mobj) : M unit :=
  let! ms := reads w_mods in
  match ms !! m with
  | None => throw EAttr
  | Some o => modify (set_mods (<[m := g o]> ms))
  end.

(** module.py:474-497 [Module.__init__]. *)
Definition module_init (m : nat) (cls : string) (name : option string) : M unit :=
  let name := match name with Some n => n | None => camel_to_snake cls end in
  if valid_identifier name then
    update_mod m (fun o => MObj (mo_name o) (Some ∅)) ;;;
    let! q := unique_and_canonical_name name in
    update_mod m (fun o => MObj (Some q) (mo_subs o))
  else throw (EBadName name).

Definition run_mbody (m : nat) (b : mbody) (arg : val) : M val :=
  match b with
  | MFun f => rn (f arg)
  | MCtor cls pre super post =>
      let! v := rn (pre m) in
      match super v with
      | None => rn (post m v)
      | Some name => module_init m cls name ;;; rn (post m v)
      end
  end.

(** module.py:286-293 [next_fun]. *)
Definition next_call (r : nat) (arg : val) : M val :=
  let! ns := reads w_nexts in
  match ns !! r with
  | Some (NxCall (i :: rest) m meth body) =>
      modify (set_nexts (<[r := NxCall rest m meth body]> ns)) ;;;
      rn (c_icpt C i r arg (m, meth))
  | Some (NxCall [] m meth body) => run_mbody m body arg
  | _ => throw ETypeError
  end.

(** module.py:270-295 [run_interceptors]. *)
Definition run_interceptors (m : nat) (meth : string) (body : mbody) (arg : val) : M val :=
  let! is := reads w_icpt in
  match is with
  | [] => run_mbody m body arg
  | _ => let! r := alloc_next (NxCall (rev is) m meth body) in next_call r arg
  end.

(** module.py:433-437: add [name] to [_submodules] of every other module on the
    module stack. *)
Fixpoint notify_parents (self : nat) (name : string) (stack : list (nat * string)) : M unit :=
  match stack with
  | [] => retM tt
  | (m, _) :: rest =>
      (if decide (m = self) then retM tt
       else let! ms := reads w_mods in
            match ms !! m with
            | Some (MObj n (Some subs)) => modify (set_mods (<[m := MObj n (Some ({[name]} ∪ subs))]> ms))
            | _ => throw EAttr
            end) ;;;
      notify_parents self name rest
  end.

(** module.py:383-439 [wrap_method] (method hooks, used only by summaries, and
    profiler name scopes are not modelled here). *)
Definition wrap_method (m : nat) (meth : string) (body : mbody) (arg : val) : M val :=
  let! _ := top_frame in
  scoped (push_module (m, meth)) pop_module
    (let! out := run_interceptors m meth body arg in
     let! f := top_frame in
     let! ms := reads w_mods in
     match ms !! m with
     | Some (MObj (Some name) _) => notify_parents m name (f_mods f) ;;; retM out
     | _ => retM out
     end).

(** module.py:124-147 [ModuleMetaclass.__call__]. *)
Definition new_module (cls : string) (pre : nat -> prog)
    (super : val -> option (option string)) (post : nat -> val -> prog) : M nat :=
  let! ms := reads w_mods in
  let m := List.length ms in
  modify (set_mods (ms ++ [MObj None None])) ;;;
  wrap_method m "__init__" (MCtor cls pre super post) VNone ;;;
  let! ms := reads w_mods in
  match ms !! m with
  | Some (MObj (Some _) _) => retM m
  | _ => throw ENoSuper
  end.

(** module.py:311-316: the modules for the pieces of a name scope, each created
    inside the previous one. *)
Fixpoint build_scope (subnames : list string) (last : option nat) : M (option nat) :=
  match subnames with
  | [] => retM last
  | s :: rest =>
      let! m := new_module "Module" (fun _ => Ret VNone) (fun _ => Some (Some s)) (fun _ _ => Ret VNone) in
      scoped (push_module (m, "__call__")) pop_module (build_scope rest (Some m))
  end.

(** module.py:298-334 [NameScope], used as [with hk.experimental.name_scope(name): body]. *)
Definition name_scope (name : string) (body : prog) : M val :=
  let! _ := top_frame in
  if match name with EmptyString => true | String c _ => Ascii.eqb c "/" end
  then throw (EScopeName name)
  else
    let! last := build_scope (split_slash name) None in
    match last with
    | Some m => scoped (push_module (m, "__call__")) pop_module (rn body)
    | None => throw EAttr
    end.

(** module.py:519-535 [params_or_state_dict] and 499-517; the result keyed by
    "module/name" (later entries win, in the order of the mapping). *)
Definition params_or_state_dict (mn : string) (subs : gset string) (col : bundles val)
    : list (string * val) :=
  flat_map (fun '(b, x) =>
      if bool_decide (b = mn) || starts_with (mn +:+ "/") b || bool_decide (b ∈ subs)
      then List.map (fun '(n, v) => (b +:+ "/" +:+ n, v)) (map_to_list x) else [])
    (map_to_list col).
Definition module_dict (m : nat) (params : bool) : M val :=
  let! f := top_frame in
  let! ms := reads w_mods in
  match ms !! m with
  | Some (MObj (Some n) (Some subs)) =>
      retM (VDict (params_or_state_dict n subs
        (if params then f_params f else map2 snd (f_state f))))
  | _ => throw EAttr
  end.

(* ------------------------------------------------------------------ *)
(** * stateful.py *)

(** stateful.py:26 [InternalState]; [None] params as in [internal_state(params=False)]. *)
Record istate := IState {
  is_params : option (bundles val);
  is_state : bundles (val * val);
  is_rng : option rngseq }.

(** stateful.py:35-43 [internal_state]; copying containers is the identity on
    values. *)
Definition internal_state (with_params : bool) : M istate :=
  let! f := top_frame in
  retM (IState (if with_params then Some (f_params f) else None) (f_state f) (f_rng f)).

(** An [InternalState] as an update: [None] entries mean "leave unchanged". *)
Record delta := Delta {
  d_params : option (bundles (option val));
  d_state : bundles (option (val * val));
  d_rng : option rngseq }.

(** [v is not None] (stateful.py:52). *)
Definition as_update (v : val) : option val := match v with VNone => None | _ => Some v end.

(** A complete [InternalState] used as an update (cond, switch, scan, ...). *)
Definition full_delta (s : istate) : delta :=
  Delta (fmap (M := option) (map2 as_update) (is_params s))
        (map2 Some (is_state s)) (is_rng s).

(** stateful.py:240-267 [box_and_fill_missing], first component: [a] restricted to
    the structure of [b], with [None] (the [Box(None)]) where [a] has no entry. *)
Definition fill_missing {A} (a b : bundles A) : bundles (option A) :=
  map_imap (fun k1 v1 => Some (map_imap (fun k2 _ => Some (lookup2 k1 k2 a)) v1)) b.

(** stateful.py:303-307 [if_changed] for parameters and states. *)
Definition if_changed_param (a : option val) (b : val) : option val :=
  match not_none a with
  | None => as_update b
  | Some x => if c_same C x b then None else as_update b
  end.
Definition if_changed_state (a : option (val * val)) (b : val * val) : option (val * val) :=
  match a with
  | None => Some b
  | Some x => if c_same C (fst x) (fst b) && c_same C (snd x) (snd b) then None else Some b
  end.

(** [jax.tree_multimap] over two two-level mappings of the same structure. *)
Definition multimap {A B D} (g : A -> B -> D) (a : bundles A) (b : bundles B) : bundles D :=
  map_zip_with (M := gmap string) (map_zip_with (M := gmap string) g) a b.

(** stateful.py:270-332 [difference]. *)
Definition difference (before after : istate) : delta :=
  Delta
    (match is_params before, is_params after with
     | Some a, Some b => Some (multimap if_changed_param (fill_missing a b) b)
     | _, _ => None
     end)
    (multimap if_changed_state (fill_missing (is_state before) (is_state after)) (is_state after))
    (match is_rng before with
     | None => is_rng after
     | Some a => match is_rng after with
                 | None => None
                 | Some b => if c_same_rng C a b then None else Some b
                 end
     end).

(** stateful.py:46-54 [update_recursive] on two-level mappings. *)
Definition update_inner {A} (dst : gmap string A) (src : gmap string (option A)) : gmap string A :=
  merge (fun x y => match y with Some (Some v) => Some v | _ => x end) dst src.
Definition update_recursive {A} (dst : bundles A) (src : bundles (option A)) : bundles A :=
  merge (fun x y => match y with Some s => Some (update_inner (default ∅ x) s) | None => x end) dst src.

(** stateful.py:57-64 [update_internal_state]. (The source would raise if it had
    an rng update for a frame without rng; that does not happen since the update
    comes from a frame evolved from this one.) *)
Definition apply_delta (d : delta) (f : frame) : frame :=
  let f1 := match d_params d with
            | Some p => if f_frozen f then f else set_params (update_recursive (f_params f) p) f
            | None => f
            end in
  let f2 := set_fstate (update_recursive (f_state f1) (d_state d)) f1 in
  match d_rng d, f_rng f with
  | Some s, Some _ => set_rng (Some s) f2
  | _, _ => f2
  end.
Definition update_internal_state (d : delta) : M unit := modify (on_top (apply_delta d)).

(** stateful.py:67-82 [temporary_internal_state] and base.py:84-92 [Frame.evolve]. *)
Definition temp_frame (f : frame) (s : istate) : frame :=
  Frame (default (f_params f) (is_params s)) (f_frozen f) (is_state s) (is_rng s)
        (f_rng f :: f_rngs f) (f_mods f) (f_scopes f).
Definition in_temp {A} (s : istate) (m : M A) : M A :=
  let! f := top_frame in
  let! r := in_frame (temp_frame f s) m in
  retM (fst r).

(** stateful.py:85-92 [reserve_up_to_full_rng_block]. *)
Definition reserve_block : M unit :=
  let! f := top_frame in
  match f_rng f with
  | Some s => modify (on_top (set_rng (Some (reserve_up_to_full (c_block C) s))))
  | None => retM tt
  end.

(** stateful.py:335-364 [thread_hk_state_in_kwargs] ([hk.jit], [hk.remat],
    [hk.named_call]) and the same threading in 205-227 [value_and_grad];
    [jax.jit(f)(x)] means [f(x)]. *)
Definition jit (body : prog) : M val :=
  let! s_in := internal_state true in
  let! r := in_temp s_in
    (let! out := rn body in
     let! s_out := internal_state true in
     retM (out, difference s_in s_out)) in
  update_internal_state (snd r) ;;;
  retM (fst r).

(** Structure of the Haiku state in a JAX branch/loop result. *)
Definition state_skel (s : bundles (val * val)) : bundles (val * val) :=
  map2 (fun p => (skel (fst p), skel (snd p))) s.
Definition istate_skel (s : istate) : istate :=
  IState (fmap (M := option) (map2 skel) (is_params s)) (state_skel (is_state s))
         (fmap (M := option) (fun q => Seq (Seed 0) (List.map (fun _ => Seed 0) (sq_subs q)) []) (is_rng s)).
Definition same_structure (a b : istate) : bool :=
  bool_decide (is_params (istate_skel a) = is_params (istate_skel b)) &&
  bool_decide (is_state (istate_skel a) = is_state (istate_skel b)) &&
  bool_decide (is_rng (istate_skel a) = is_rng (istate_skel b)).
Definition same_skel (a b : val) : bool := bool_decide (skel a = skel b).

(** stateful.py:371-380 [stateful_branch]. *)
Definition stateful_branch (s : istate) (body : prog) : M (val * istate) :=
  in_temp s
    (let! out := rn body in
     reserve_block ;;;
     let! s' := internal_state true in
     retM (out, s')).

(** All branches are traced (Python-level effects and exceptions of each of them
    happen), from the same state. *)
Fixpoint run_branches (s : istate) (bs : list prog) : M (list (val * istate)) :=
  match bs with
  | [] => retM []
  | b :: rest =>
      let! r := stateful_branch s b in
      let! rs := run_branches s rest in
      retM (r :: rs)
  end.

(** stateful.py:405-446 [cond] and [switch]. [jax.lax.switch] clamps the index,
    requires at least one branch and equal structure of all results. *)
Definition switch_fun (index : Z) (branches : list prog) : M val :=
  reserve_block ;;;
  let! s := internal_state true in
  let! rs := run_branches s branches in
  let i := Z.to_nat (Z.max 0 (Z.min index (Z.of_nat (List.length branches) - 1))) in
  match rs !! i with
  | None => throw ETypeError
  | Some (out, s') =>
      if forallb (fun r => same_skel (fst r) out && same_structure (snd r) s') rs
      then update_internal_state (full_delta s') ;;; retM out
      else throw ETypeError
  end.

(** base.py:782-803 [param_names], [assert_no_new_parameters]. *)
Definition param_names (p : bundles val) : list (string * string) :=
  flat_map (fun '(b, m) => List.map (fun '(n, _) => (b, n)) (map_to_list m)) (map_to_list p).
Definition no_new_params (before after : bundles val) : bool :=
  forallb (fun bn => bool_decide (bn ∈ param_names before)) (param_names after).

Definition as_pair (v : val) : M (val * val) :=
  match v with VTup [a; b] => retM (a, b) | _ => throw ETypeError end.

(** stateful.py:481-489 [stateful_fun] inside [scan]: one iteration; the scan
    carry must keep its structure. *)
Definition scan_step (f : val -> val -> prog) (cs : val * istate) (x : val) : M ((val * istate) * val) :=
  let '(carry, s) := cs in
  in_temp s
    (let! f0 := top_frame in
     let! r := rn (f carry x) in
     let! cy := as_pair r in
     let! f1 := top_frame in
     (if no_new_params (f_params f0) (f_params f1) then retM tt else throw ENewParams) ;;;
     reserve_block ;;;
     let! s' := internal_state false in
     if same_skel carry (fst cy) && same_structure s s'
     then retM ((fst cy, s'), snd cy)
     else throw ETypeError).

(** [jax.lax.scan]: sequential iteration collecting outputs. (JAX traces the body
    once and repeats the compiled code; the extra trace of a zero-length scan is
    not modelled.) *)
Fixpoint lax_scan {S} (step : S -> val -> M (S * val)) (carry : S) (xs : list val) : M (S * list val) :=
  match xs with
  | [] => retM (carry, [])
  | x :: rest =>
      let! r := step carry x in
      let! rs := lax_scan step (fst r) rest in
      retM (fst rs, snd r :: snd rs)
  end.
(** With [reverse=True] elements are visited from last to first and outputs stay
    aligned with the inputs. *)
Definition lax_scan_dir {S} (reverse : bool) (step : S -> val -> M (S * val)) (carry : S) (xs : list val)
    : M (S * list val) :=
  if reverse then let! r := lax_scan step carry (rev xs) in retM (fst r, rev (snd r))
  else lax_scan step carry xs.

(** stateful.py:500-510, the part of [scan] after the optional unrolled step. *)
Definition scan_rest (f : val -> val -> prog) (init : val) (xs : list val) (reverse : bool)
    : M (val * list val) :=
  reserve_block ;;;
  let! s := internal_state false in
  let! r := lax_scan_dir reverse (scan_step f) (init, s) xs in
  update_internal_state (full_delta (snd (fst r))) ;;;
  retM (fst (fst r), snd r).

(** stateful.py:449-510 [scan]; [xs] is the list of slices along the leading
    axis, [zero] the all-zeros slice used for an empty scan during init. *)
Definition scan (f : val -> val -> prog) (init : val) (xs : list val) (zero : val) (reverse : bool) : M val :=
  let! fr := top_frame in
  if f_frozen fr then
    let! r := scan_rest f init xs reverse in
    retM (VTup [fst r; VTup (snd r)])
  else
    match (if reverse then rev xs else xs) with
    | [] =>
        let! r := rn (f init zero) in
        as_pair r ;;;
        retM (VTup [init; VTup []])
    | x0 :: rest0 =>
        let rest := if reverse then rev rest0 else rest0 in
        let! r := rn (f init x0) in
        let! cy := as_pair r in
        match rest with
        | [] => retM (VTup [fst cy; VTup [snd cy]])
        | _ =>
            let! rs := scan_rest f (fst cy) rest reverse in
            retM (VTup [fst rs; VTup (snd cy :: snd rs)])
        end
    end.

(** stateful.py:520-526 [pure_body_fun] of [fori_loop]. *)
Definition fori_step (body : Z -> val -> prog) (i : Z) (sv : istate * val) : M (istate * val) :=
  let '(s, v) := sv in
  in_temp s
    (let! v' := rn (body i v) in
     reserve_block ;;;
     let! s' := internal_state true in
     if same_skel v v' && same_structure s s' then retM (s', v') else throw ETypeError).

(** [jax.lax.fori_loop]. *)
Fixpoint lax_fori {S} (step : Z -> S -> M S) (count : nat) (i : Z) (s : S) : M S :=
  match count with
  | O => retM s
  | Datatypes.S c => let! s' := step i s in lax_fori step c (i + 1)%Z s'
  end.

Definition fori_rest (lower upper : Z) (body : Z -> val -> prog) (init : val) : M val :=
  reserve_block ;;;
  let! s := internal_state true in
  let! r := lax_fori (fori_step body) (Z.to_nat (upper - lower)) lower (s, init) in
  update_internal_state (full_delta (fst r)) ;;;
  retM (snd r).

(** stateful.py:513-541 [fori_loop]. *)
Definition fori_loop (lower upper : Z) (body : Z -> val -> prog) (init : val) : M val :=
  let! fr := top_frame in
  if f_frozen fr then fori_rest lower upper body init
  else
    let! v := rn (body lower init) in
    if (upper - (lower + 1) =? 0)%Z then retM v
    else fori_rest (lower + 1)%Z upper body v.

(** base.py:806-846 [assert_state_unchanged]: no parameter, state pair or random
    key object present afterwards was absent before. Object identity of
    parameters and state pairs is modelled by (bundle, name, contents), of keys by
    the key itself; storing an equal value again is not reported (it is in the
    source; see also C62). *)
Definition no_new_entries {A} `{EqDecision A} (before after : bundles A) : bool :=
  forallb (fun '(b, x) =>
    forallb (fun '(n, v) => bool_decide (lookup2 b n before = Some v)) (map_to_list x))
    (map_to_list after).
Definition no_new_keys (before after : option rngseq) : bool :=
  match after with
  | None => true
  | Some s => forallb (fun k => bool_decide
      (k ∈ match before with Some s0 => sq_key s0 :: sq_subs s0 | None => [] end))
      (sq_key s :: sq_subs s)
  end.

(** stateful.py:584-597 [pure_cond_fun]: runs in the frame that called
    [while_loop]. *)
Definition while_cond (c : val -> prog) (v : val) : M bool :=
  let! f0 := top_frame in
  let! r := rn (c v) in
  let! f1 := top_frame in
  if no_new_entries (f_params f0) (f_params f1) && no_new_entries (f_state f0) (f_state f1)
     && no_new_keys (f_rng f0) (f_rng f1)
  then match r with VBool b => retM b | _ => throw ETypeError end
  else throw EStateChanged.

(** stateful.py:599-604 [pure_body_fun]. *)
Definition while_step (b : val -> prog) (vs : val * istate) : M (val * istate) :=
  let '(v, s) := vs in
  in_temp s
    (let! v' := rn (b v) in
     let! s' := internal_state true in
     if same_skel v v' && same_structure s s' then retM (v', s') else throw ETypeError).

(** [jax.lax.while_loop]; the number of iterations is bounded by the fuel only. *)
Fixpoint lax_while {S} (n : nat) (c : S -> M bool) (b : S -> M S) (s : S) : M S :=
  match n with
  | O => fun w => (Fuel, w)
  | Datatypes.S n' =>
      let! go := c s in
      if go then let! s' := b s in lax_while n' c b s' else retM s
  end.

(** Ghost: keys handed out to [cond_fun] (they are not in the loop carry). *)
Definition add_log (start outer : option rngseq) (s : istate) : istate :=
  match start, outer, is_rng s with
  | Some a, Some b, Some q =>
      IState (is_params s) (is_state s)
        (Some (Seq (sq_key q) (sq_subs q)
                   (firstn (List.length (sq_log b) - List.length (sq_log a)) (sq_log b) ++ sq_log q)))
  | _, _, _ => s
  end.

(** stateful.py:569-607 [while_loop]. JAX traces [cond_fun] once, so every
    evaluation sees the random sequence as it was when the loop started. *)
Definition while_loop (n : nat) (c b : val -> prog) (init : val) : M val :=
  let! fr := top_frame in
  if negb (f_frozen fr) then throw EWhileInit
  else
    let! s := internal_state true in
    let! r := lax_while n
      (fun vs => modify (on_top (set_rng (f_rng fr))) ;;; while_cond c (fst vs))
      (while_step b) (init, s) in
    let! f1 := top_frame in
    update_internal_state (full_delta (add_log (f_rng fr) (f_rng f1) (snd r))) ;;;
    retM (fst r).

(** stateful.py:544-566 [vmap]: [jax.vmap] with state axes [None] in and out: each
    lane starts from the same state and the state that comes out must not differ
    between lanes. *)
Definition vmap_lane (s_in : istate) (p : prog) : M (val * delta) :=
  in_temp s_in
    (let! out := rn p in
     let! s_out := internal_state true in
     retM (out, difference s_in s_out)).
Fixpoint vmap_lanes (s_in : istate) (f : val -> prog) (xs : list val) : M (list (val * delta)) :=
  match xs with
  | [] => retM []
  | x :: rest =>
      let! r := vmap_lane s_in (f x) in
      let! rs := vmap_lanes s_in f rest in
      retM (r :: rs)
  end.
Definition same_delta (a b : delta) : bool :=
  bool_decide (d_params a = d_params b) && bool_decide (d_state a = d_state b)
  && bool_decide (d_rng a = d_rng b).
Definition vmap (f : val -> prog) (xs : list val) : M val :=
  let! s_in := internal_state true in
  let! rs := vmap_lanes s_in f xs in
  match rs with
  | [] => throw ETypeError
  | r :: _ =>
      if forallb (fun r' => same_delta (snd r') (snd r)) rs
      then update_internal_state (snd r) ;;; retM (VTup (List.map fst rs))
      else throw ETypeError
  end.

(** stateful.py:628-633 [eval_shape]. *)
Definition eval_shape (body : prog) : M val :=
  let! s := internal_state true in
  let! out := in_temp s (rn body) in
  retM (skel out).

(* ------------------------------------------------------------------ *)
(** * transform.py, lift.py, random.py *)

(** base.py:70-82 [Frame.create] followed by 135-142 [HaikuContext.__enter__]: the
    context's own names/counters are pushed over the frame's. *)
Definition new_frame (params : option (bundles val)) (state : option (bundles val)) (rng : option rngseq) : frame :=
  Frame (default ∅ params) (match params with Some _ => true | None => false end)
        (default ∅ (fmap (M := option) (map2 (fun v => (v, v))) state))
        rng [] [] [empty_scope; empty_scope].

Definition rng_of (k : option key) : option rngseq := fmap (M := option) seq_of_key k.

(** base.py:650-654 [extract_state]. *)
Definition extract_initial (s : bundles (val * val)) : bundles val := map2 fst s.
Definition extract_current (s : bundles (val * val)) : bundles val := map2 snd s.

(** transform.py:270-281 [init_fn]. *)
Definition init_fn (rng : option key) (body : prog) : M (bundles val * bundles val) :=
  let! r := in_frame (new_frame None None (rng_of rng)) (rn body) in
  retM (f_params (snd r), extract_initial (f_state (snd r))).

(** transform.py:283-298 [apply_fn]. *)
Definition apply_fn (params state : bundles val) (rng : option key) (body : prog) : M (val * bundles val) :=
  let! r := in_frame (new_frame (Some params) (Some state) (rng_of rng)) (rn body) in
  retM (fst r, extract_current (f_state (snd r))).

(** Parameter structures as values. *)
Definition enc (m : bundles val) : val :=
  VDict (List.map (fun '(b, x) => (b, VDict (map_to_list x))) (map_to_list m)).
Fixpoint dec_list (l : list (string * val)) : option (bundles val) :=
  match l with
  | [] => Some ∅
  | (b, VDict x) :: rest =>
      match dec_list rest with
      | Some m => Some (<[b := list_to_map x]> m)
      | None => None
      end
  | _ => None
  end.
(** transform.py:319-331 [check_mapping]. *)
Definition dec (v : val) : option (bundles val) :=
  match v with
  | VNone => Some ∅
  | VDict l => dec_list l
  | _ => None
  end.

(** lift.py:22-27 [pack_into_dict] on the current frame's parameters. *)
Fixpoint pack_into_dict (src : list (string * gmap string val)) (prefix : string) : M unit :=
  match src with
  | [] => retM tt
  | (k, v) :: rest =>
      let nk := prefix +:+ "/" +:+ k in
      let! f := top_frame in
      if bool_decide (is_Some (f_params f !! nk)) then throw (ELiftClash nk)
      else modify (on_top (fun f => set_params (<[nk := v]> (f_params f)) f)) ;;;
           pack_into_dict rest prefix
  end.

(** lift.py:30-36 [unpack_from_dict]. *)
Definition unpack_from_dict {A} (src : gmap string A) (prefix : string) : gmap string A :=
  list_to_map (flat_map (fun '(k, v) => match strip_prefix prefix k with
                                        | Some k' => [(k', v)]
                                        | None => []
                                        end) (map_to_list src)).

(** lift.py:68-80 [LiftingModule.__call__]; [init_fn] is the [init] of a transformed
    function without state (transform.py:107-114). *)
Definition lift_call (m : nat) (rng : option key) (body : prog) : M val :=
  let! fr := top_frame in
  let! b := safe_get_module_name m in
  if f_frozen fr then retM (enc (unpack_from_dict (f_params fr) (b +:+ "/")))
  else
    let! ps := init_fn rng body in
    if bool_decide (snd ps = ∅) then
      pack_into_dict (map_to_list (fst ps)) b ;;;
      retM (enc (fst ps))
    else throw EStateInTransform.

(** random.py:43-103 [optimize_rng_use], with the counter of 25-40. *)
Definition optimize_rng_use (body : prog) : M val :=
  let! f := top_frame in
  let params := if bool_decide (f_params f = ∅) then None else Some (f_params f) in
  let state := if bool_decide (f_state f = ∅) then None else Some (extract_initial (f_state f)) in
  let! d0 := reads w_draws in
  in_frame (new_frame params state (f_rng f)) (rn body) ;;;
  let! d1 := reads w_draws in
  (if Nat.ltb 0 (d1 - d0) then
     let! f := top_frame in
     match f_rng f with
     | Some s => modify (on_top (set_rng (Some (reserve (d1 - d0) s))))
     | None => throw EAttr
     end
   else retM tt) ;;;
  rn body.

(* ------------------------------------------------------------------ *)
(** * One step of the interpreter *)

Definition step (n : nat) (p : prog) : M val :=
  match p with
  | Ret v => retM v
  | Raise e => throw e
  | Bind p k => let! v := rn p in rn (k v)
  | TryExcept p h => fun w =>
      match rn p w with
      | (Exc e, w') => rn (h e) w'
      | r => r
      end
  | CallFun f arg => rn (c_fun C f arg)
  | GetParam name shape dtype init => get_parameter name shape dtype init
  | GetState name shape dtype init => get_state name shape dtype init
  | SetState name v => set_state name v
  | NextKey => next_rng_key
  | NextKeys num => next_rng_keys num
  | MaybeNextKey => maybe_next_rng_key
  | ReserveKeys num => reserve_rng_keys num
  | WithRng k body => let! _ := top_frame in
                      scoped (push_rng (Some (seq_of_key k))) pop_rng (rn body)
  | RunningInit => let! f := top_frame in retM (VBool (negb (f_frozen f)))
  | WithCreator c ps ss body =>
      let! _ := top_frame in
      scoped (fun w => set_creators (push_if ps c (w_pcreate w)) (push_if ss c (w_screate w)) w)
             (fun w => set_creators (pop_if ps (w_pcreate w)) (pop_if ss (w_screate w)) w)
             (rn body)
  | WithGetter g ps ss body =>
      let! _ := top_frame in
      scoped (fun w => set_getters (push_if ps g (w_pget w)) (push_if ss g (w_sget w)) w)
             (fun w => set_getters (pop_if ps (w_pget w)) (pop_if ss (w_sget w)) w)
             (rn body)
  | NextCreate r shape dtype init => next_create r shape dtype init
  | NextGet r v => next_get r v
  | NewModule cls pre super post => let! m := new_module cls pre super post in retM (VMod m)
  | CallMethod m meth arg body => wrap_method m meth (MFun body) arg
  | NameScope name body => name_scope name body
  | Intercept i body =>
      let! _ := top_frame in
      scoped (fun w => set_icpt (i :: w_icpt w) w) (fun w => set_icpt (tail (w_icpt w)) w) (rn body)
  | NextCall r arg => next_call r arg
  | ModuleName m => let! n := safe_get_module_name m in retM (VStr n)
  | ModuleDict m params => module_dict m params
  | Jit body => jit body
  | Cond b pt pf => switch_fun (if b then 0 else 1)%Z [pt; pf]
  | Switch i bs => switch_fun i bs
  | Scan f init xs zero reverse => scan f init xs zero reverse
  | Fori lower upper body init => fori_loop lower upper body init
  | While c b init => while_loop n c b init
  | Vmap f xs => vmap f xs
  | EvalShape body => eval_shape body
  | InnerInit rng body => let! r := init_fn rng body in retM (VTup [enc (fst r); enc (snd r)])
  | InnerApply params state rng body =>
      match dec params, dec state with
      | Some ps, Some st =>
          let! r := apply_fn ps st rng body in
          retM (VTup [fst r; enc (snd r)])
      | _, _ => throw ETypeError
      end
  | LiftCall m rng body => lift_call m rng body
  | OptimizeRng body => optimize_rng_use body
  end.
End Step.

Fixpoint run (C : code) (n : nat) (p : prog) : M val :=
  match n with
  | O => fun w => (Fuel, w)
  | S n' => step C (run C n') n' p
  end.

(** * Top level: the pair returned by [hk.transform_with_state(f)] *)
Definition hk_init (C : code) (n : nat) (rng : option key) (f : prog) : M (bundles val * bundles val) :=
  init_fn (run C n) rng f.
Definition hk_apply (C : code) (n : nat) (params state : bundles val) (rng : option key) (f : prog)
    : M (val * bundles val) :=
  apply_fn (run C n) params state rng f.

(** base.py:323-331 [GetterContext.module_name], [GetterContext.name] ([None]: the
    unpacking raises). *)
Definition getter_module (ctx : gctx) : option string := fmap (M := option) fst (rsplit_slash (g_full ctx)).
Definition getter_name (ctx : gctx) : option string := fmap (M := option) snd (rsplit_slash (g_full ctx)).

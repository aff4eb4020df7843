(** Vocabulary for chains of interceptors, creators and getters: each layer does
    something, calls [next] once, and does something with the result. *)
From stdpp Require Import gmap list strings.
From Coq Require Import String ZArith.
From Verif Require Import ModelStr ModelRng ModelCore SpecCore.
Local Open Scope string_scope.
Local Open Scope list_scope.

(** An operation that does not use the [next] callable number [r]. *)
Definition not_next (r : nat) (p : prog) : Prop :=
  match p with NextCreate r' _ _ _ | NextGet r' _ | NextCall r' _ => r' <> r | _ => True end.

(** Callbacks use no [next] callable except the one they were given. *)
Record own_next (C : code) : Prop := {
  ow_fun : forall r f a, all_ops (not_next r) (c_fun C f a);
  ow_init : forall r i sh dt, all_ops (not_next r) (c_init C i sh dt);
  ow_creator : forall r c r' sh dt i ctx, r' <> r -> all_ops (not_next r) (c_creator C c r' sh dt i ctx);
  ow_getter : forall r g r' v ctx, r' <> r -> all_ops (not_next r) (c_getter C g r' v ctx);
  ow_icpt : forall r i r' a ctx, r' <> r -> all_ops (not_next r) (c_icpt C i r' a ctx) }.

(** Callable [r] exists, and no program stored in a callable uses it. *)
Definition next_hidden (r : nat) (w : world) : Prop :=
  is_Some (w_nexts w !! r) /\ heap_ok (not_next r) w.

(** Programs cannot know callables that do not exist yet. *)
Definition no_future (w : world) : Prop := forall r, List.length (w_nexts w) <= r -> heap_ok (not_next r) w.
Definition knows_no_future (w : world) (p : prog) : Prop := forall r, List.length (w_nexts w) <= r -> all_ops (not_next r) p.

Section Onion.
Context {A : Type}.
Variable C : code.
(** What a layer does before calling [next], given its arguments; the arguments it
    passes on; what it does afterwards. *)
Variable before : val -> A -> prog.
Variable pass : val -> A -> val -> A.
Variable after : val -> A -> val -> val -> prog.
(** What is at the centre. *)
Variable core : A -> world -> res val -> world -> Prop.
(** Bookkeeping: the callable that remembers the remaining layers. *)
Variable r : nat.
Variable remaining : list val -> nextobj.
Definition set_remaining (is : list val) (w : world) : world := set_nexts (<[r := remaining is]> (w_nexts w)) w.

(** [onion layers a w x w']: run, starting from [w], first what the first layer does
    before, then the rest of the layers with the arguments it passes, then what it does
    afterwards; [core] after the last layer. An exception skips what comes after. *)
Inductive onion : list val -> A -> world -> res val -> world -> Prop :=
| on_core a w x w' : core a w x w' -> onion [] a w x w'
| on_before_raises n i is a w e w1 :
    run C n (before i a) (set_remaining is w) = (Exc e, w1) -> onion (i :: is) a w (Exc e) w1
| on_inside_raises n i is a w x w1 e w2 :
    run C n (before i a) (set_remaining is w) = (Ok x, w1) ->
    onion is (pass i a x) w1 (Exc e) w2 ->
    onion (i :: is) a w (Exc e) w2
| on_after n n' i is a w x w1 y w2 z w3 :
    run C n (before i a) (set_remaining is w) = (Ok x, w1) ->
    onion is (pass i a x) w1 (Ok y) w2 ->
    run C n' (after i a x y) w2 = (z, w3) -> z <> Fuel ->
    onion (i :: is) a w z w3.
End Onion.

(** The state in which the first of the layers runs: a new callable was made. *)
Definition with_next (o : list val -> nextobj) (is : list val) (w : world) : world :=
  match is with
  | [] => w
  | _ => set_nexts (w_nexts w ++ [o is]) w
  end.

(** Interceptors that call [next] exactly once. *)
Record interceptors_call_once (C : code) (is : list val)
  (before : nat * string -> val -> val -> prog) (pass : val -> val -> val -> val)
  (after : nat * string -> val -> val -> val -> val -> prog) : Prop := {
  ic_code : forall i r a ctx, In i is ->
    c_icpt C i r a ctx = Bind (before ctx i a) (fun x => Bind (NextCall r (pass i a x)) (fun y => after ctx i a x y));
  ic_before : forall i r a ctx, In i is -> all_ops (not_next r) (before ctx i a);
  ic_own : own_next C }.

(** Creators that call [next] exactly once; their arguments: shape, dtype, initializer. *)
Notation cargs := (list nat * string * val)%type.
Record creators_call_once (C : code) (cs : list val)
  (before : gctx -> val -> cargs -> prog) (pass : val -> cargs -> val -> cargs)
  (after : gctx -> val -> cargs -> val -> val -> prog) : Prop := {
  cc_code : forall c r sh dt i ctx, In c cs ->
    c_creator C c r sh dt i ctx = Bind (before ctx c (sh, dt, i)) (fun x =>
      Bind (let '(sh', dt', i') := pass c (sh, dt, i) x in NextCreate r sh' dt' i') (fun y => after ctx c (sh, dt, i) x y));
  cc_before : forall c r a ctx, In c cs -> all_ops (not_next r) (before ctx c a);
  cc_own : own_next C }.

(** Getters that call [next] exactly once. *)
Record getters_call_once (C : code) (gs : list val)
  (before : gctx -> val -> val -> prog) (pass : val -> val -> val -> val)
  (after : gctx -> val -> val -> val -> val -> prog) : Prop := {
  gc_code : forall g r v ctx, In g gs ->
    c_getter C g r v ctx = Bind (before ctx g v) (fun x => Bind (NextGet r (pass g v x)) (fun y => after ctx g v x y));
  gc_before : forall g r v ctx, In g gs -> all_ops (not_next r) (before ctx g v);
  gc_own : own_next C }.

(** What is at the centre: the method, the constructor, the initializer, the value. *)
Definition method_core (C : code) (body : val -> prog) (a : val) (w : world) (x : res val) (w' : world) : Prop :=
  exists n, run C n (body a) w = (x, w').
Definition ctor_core (C : code) (m : nat) (cls : string) (pre : nat -> prog) (super : val -> option (option string))
    (post : nat -> val -> prog) (a : val) (w : world) (x : res val) (w' : world) : Prop :=
  exists n, run_mbody (run C n) m (MCtor cls pre super post) a w = (x, w').
Definition init_core (C : code) (a : cargs) (w : world) (x : res val) (w' : world) : Prop :=
  exists n, run C n (let '(sh, dt, i) := a in c_init C i sh dt) w = (x, w').
Definition value_core (a : val) (w : world) (x : res val) (w' : world) : Prop := x = Ok a /\ w' = w.

(** Storing a parameter or a new state. *)
Definition store_param (b n : string) (v : val) : world -> world := on_top (fun f => set_params (insert2 b n v (f_params f)) f).
Definition store_state (b n : string) (v : val) : world -> world := on_top (fun f => set_fstate (insert2 b n (v, v) (f_state f)) f).
(** Looking up a bundle makes it exist. *)
Definition touch_params (b : string) : world -> world := on_top (fun f => if f_frozen f then f else set_params (touch b (f_params f)) f).
Definition touch_state (b : string) : world -> world := on_top (fun f => set_fstate (touch b (f_state f)) f).

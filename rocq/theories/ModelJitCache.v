(** A function wrapped by [hk.jit] that is kept and called again (stateful.py:335-364).

    [jax.jit] runs the Python function once for every structure and shapes of its arguments (here the arguments of the user and [hk_state], which
    [wrapper] passes along) and keeps the computation it traced. A later call with the same structure and shapes runs that computation on the new
    arrays and no Python code: whatever the function read from Haiku's context - module stack, counters, creators, getters, interceptors - is what
    it was when the trace was made. ([ModelCore.jit] is the first call.) Not modelled: calls under an outer JAX transformation, which trace again;
    functions that branch on traced values, which JAX rejects. *)
From stdpp Require Import gmap list strings.
From Coq Require Import String Ascii ZArith.
From Verif Require Import ModelStr ModelRng ModelCore.
Local Open Scope list_scope.

(** stateful.py:35-43, as a function of the frame. *)
Definition hk_state (f : frame) : istate := IState (Some (f_params f)) (f_state f) (f_rng f).

(** An entry of the cache: the [hk_state] and the argument of the call that was traced, whether parameters were a FlatMapping (another node type
    for JAX; base.py:66-68), and Haiku's context at that time. *)
Record entry := Entry { e_state : istate; e_frozen : bool; e_arg : val; e_world : world }.
Definition matches (f : frame) (x : val) (e : entry) : bool :=
  same_structure (hk_state f) (e_state e) && Bool.eqb (f_frozen f) (e_frozen e) && same_skel x (e_arg e).

Section Cache.
Variable C : code.
Variable n : nat.
Variable fn : val -> prog.

(** stateful.py:346-351 [stateful_fun] *)
Definition stateful_fun (x : val) (s_in : istate) : M (val * delta) :=
  in_temp s_in
    (let! out := run C n (fn x) in
     let! s_out := internal_state true in
     retM (out, difference C s_in s_out)).

(** stateful.py:355-360 [wrapper]: [jax.jit(stateful_fun)] with its cache. *)
Definition kept_call (x : val) (cw : list entry * world) : res val * (list entry * world) :=
  let (cache, w) := cw in
  match w_frames w with
  | [] => (Exc ENotInTransform, cw)
  | f :: _ =>
      match List.find (matches f x) cache with
      | Some e =>
          match fst (stateful_fun x (hk_state f) (e_world e)) with
          | Ok (out, d) => (Ok out, (cache, on_top (apply_delta d) w))
          | Exc e => (Exc e, cw)
          | Fuel => (Fuel, cw)
          end
      | None =>
          let (r, w1) := run C (S n) (Jit (fn x)) w in
          (r, (match r with Ok _ => Entry (hk_state f) (f_frozen f) x w :: cache | _ => cache end, w1))
      end
  end.
(** What the call is meant to do: the same every time. *)
Definition fresh_call (x : val) (cw : list entry * world) : res val * (list entry * world) :=
  let (r, w1) := run C (S n) (Jit (fn x)) (snd cw) in (r, (fst cw, w1)).

(** User code that calls the kept function. [Method] is the body of a method of an existing module (base.py:94-99; no interceptors), [Getter] is
    [with hk.custom_getter(g)] (base.py:430-472). *)
Inductive script :=
| Return (v : val)
| Do (p : prog) (k : val -> script)
| Call (x : val) (k : val -> script)
| Method (m : nat) (meth : string) (s : script) (k : val -> script)
| Getter (g : val) (s : script) (k : val -> script).

Fixpoint play (call : val -> list entry * world -> res val * (list entry * world)) (s : script) (cw : list entry * world)
    : res val * (list entry * world) :=
  match s with
  | Return v => (Ok v, cw)
  | Do p k =>
      match run C n p (snd cw) with
      | (Ok v, w1) => play call (k v) (fst cw, w1)
      | (r, w1) => (r, (fst cw, w1))
      end
  | Call x k =>
      match call x cw with
      | (Ok v, cw1) => play call (k v) cw1
      | r => r
      end
  | Method m meth s k =>
      let '(r, (c1, w1)) := play call s (fst cw, push_module (m, meth) (snd cw)) in
      let cw2 := (c1, pop_module w1) in
      match r with Ok v => play call (k v) cw2 | _ => (r, cw2) end
  | Getter g s k =>
      let w := snd cw in
      let '(r, (c1, w1)) := play call s (fst cw, set_getters (g :: w_pget w) (g :: w_sget w) w) in
      let cw2 := (c1, set_getters (tail (w_pget w1)) (tail (w_sget w1)) w1) in
      match r with Ok v => play call (k v) cw2 | _ => (r, cw2) end
  end.
End Cache.

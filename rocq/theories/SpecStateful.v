(** Vocabulary for stating what the stateful JAX wrappers do, in terms of plain
    runs of the wrapped functions. *)
From stdpp Require Import gmap list strings.
From Coq Require Import String ZArith.
From Verif Require Import ModelStr ModelRng ModelCore SpecCore.
Local Open Scope string_scope.
Local Open Scope list_scope.

(** The random sequence of a frame with its reserved keys topped up to a full block. *)
Definition top_up (C : code) (f : frame) : frame :=
  set_rng (fmap (M := option) (reserve_up_to_full (c_block C)) (f_rng f)) f.

(** No parameter value [None] appeared ([None] marks a missing value). *)
Definition no_new_none (p p1 : bundles val) : Prop :=
  forall b n, lookup2 b n p1 = Some VNone -> lookup2 b n p = Some VNone.

(** The names of the parameters in [p1] are among those of [p]. *)
Definition no_new_names (p p1 : bundles val) : Prop :=
  forall b n, is_Some (lookup2 b n p1) -> is_Some (lookup2 b n p).

(** Before the next iteration of a loop the counters used for default module names
    are put back, so that modules made in the body get the same names every time. *)
Definition next_iteration (w w1 : world) : world :=
  match w_frames w with
  | f :: _ => on_top (set_scopes (f_scopes f)) w1
  | [] => w1
  end.

(** What [jax.lax] loops require of one iteration: the carried value and the Haiku
    state keep their tree structure and array shapes. *)
Definition same_shapes (w w1 : world) (v v1 : val) : Prop :=
  skel v1 = skel v /\
  forall f f1, top w = Some f -> top w1 = Some f1 -> state_skel (f_state f1) = state_skel (f_state f).
Definition same_params_shape (w w1 : world) : Prop :=
  forall f f1, top w = Some f -> top w1 = Some f1 -> map2 skel (f_params f1) = map2 skel (f_params f).
Definition same_params_names (w w1 : world) : Prop :=
  forall f f1, top w = Some f -> top w1 = Some f1 -> no_new_names (f_params f) (f_params f1).

(** The loop [for x in xs: carry, y = f(carry, x)] with outputs collected in [ys].
    (Parameters cannot appear in the body, [same_params_names]; a parameter entry
    holding [None] that is filled by the body does not survive the iteration.) *)
Inductive py_scan (C : code) (n : nat) (f : val -> val -> prog)
  : val -> list val -> world -> val -> list val -> world -> Prop :=
| PS_nil c w : py_scan C n f c [] w c [] w
| PS_cons c x xs w c1 y w1 c2 ys w2 :
    run C n (f c x) w = (Ok (VTup [c1; y]), w1) ->
    same_shapes w w1 c c1 ->
    same_params_names w w1 ->
    py_scan C n f c1 xs
      (match w_frames w with
       | f :: _ => on_top (set_params (f_params f)) (next_iteration w w1)
       | [] => w1 end) c2 ys w2 ->
    py_scan C n f c (x :: xs) w c2 (y :: ys) w2.

(** The loop [for i in range(lo, lo+k): v = f(i, v)]. *)
Inductive py_fori (C : code) (n : nat) (f : Z -> val -> prog)
  : Z -> nat -> val -> world -> val -> world -> Prop :=
| PF_nil i v w : py_fori C n f i 0 v w v w
| PF_cons i k v w v1 w1 v2 w2 :
    run C n (f i v) w = (Ok v1, w1) ->
    same_shapes w w1 v v1 ->
    same_params_shape w w1 ->
    py_fori C n f (i + 1)%Z k v1 (next_iteration w w1) v2 w2 ->
    py_fori C n f i (S k) v w v2 w2.

(** Number of random keys split off but not handed out yet. *)
Definition reserved (r : option rngseq) : option nat :=
  fmap (M := option) (fun q => List.length (sq_subs q)) r.

(** The condition [c] computes the function [t] of the loop value and neither reads
    nor changes the Haiku context. *)
Definition pure_cond (C : code) (n : nat) (c : val -> prog) (t : val -> bool) : Prop :=
  forall v w, w_frames w <> [] -> run C n (c v) w = (Ok (VBool (t v)), w).

(** The loop [while c(v): v = f(v)], going around [k] times, for a condition
    computing the function [t]. *)
Inductive py_while (C : code) (n : nat) (t : val -> bool) (f : val -> prog)
  : nat -> val -> world -> val -> world -> Prop :=
| PW_stop v w : t v = false -> py_while C n t f 0 v w v w
| PW_go k v w v1 w1 v2 w2 :
    t v = true ->
    run C n (f v) w = (Ok v1, w1) ->
    same_shapes w w1 v v1 ->
    (forall f f1, top w = Some f -> top w1 = Some f1 -> reserved (f_rng f1) = reserved (f_rng f)) ->
    py_while C n t f k v1 (next_iteration w w1) v2 w2 ->
    py_while C n t f (S k) v w v2 w2.

(** All branches are traced in turn, each from the frames of [w]; the module objects
    made by earlier ones exist (and are unreachable). Each entry: the result and the
    frame the branch ended in. *)
Inductive traced (C : code) (n : nat) : list prog -> world -> list (val * frame) -> world -> Prop :=
| TR_nil w : traced C n [] w [] w
| TR_cons b bs w out w1 f1 rs w2 :
    run C n b w = (Ok out, w1) ->
    top w1 = Some f1 ->
    traced C n bs (set_frames (w_frames w) w1) rs w2 ->
    traced C n (b :: bs) w ((out, f1) :: rs) w2.

(** Index clamping of [jax.lax.switch]. *)
Definition clamp (i : Z) (k : nat) : nat := Z.to_nat (Z.max 0 (Z.min i (Z.of_nat k - 1))).

(** Equal tree structures and array shapes of result, parameters and state. *)
Definition same_results (a b : val * frame) : Prop :=
  skel (fst a) = skel (fst b) /\ map2 skel (f_params (snd a)) = map2 skel (f_params (snd b))
  /\ state_skel (f_state (snd a)) = state_skel (f_state (snd b)).

(** Programs that draw random keys one at a time only. *)
Definition one_key_ops (p : prog) : Prop :=
  match p with
  | NextKeys _ | ReserveKeys _ | OptimizeRng _ | While _ _ _ | Vmap _ _ => False
  | _ => True
  end.

(** All lanes of a [vmap] treat the random sequence alike: what they leave of it depends
    on what they found only.  (JAX traces the body once, for all lanes.) *)
Definition uniform_lanes (C : code) (f : val -> prog) : Prop :=
  forall n x y w w' a b w1 w1' g g' h h',
    run C n (f x) w = (Ok a, w1) -> run C n (f y) w' = (Ok b, w1') ->
    top w = Some g -> top w' = Some g' -> f_rng g = f_rng g' ->
    top w1 = Some h -> top w1' = Some h' -> f_rng h = f_rng h'.

(** Functions that leave the random sequence alone, and functions that leave the number
    of reserved keys alone. *)
Definition keeps_rng (C : code) (f : val -> prog) : Prop :=
  forall n x w a w1 g h, run C n (f x) w = (Ok a, w1) -> top w = Some g -> top w1 = Some h -> f_rng h = f_rng g.
Definition reserve_size (f : frame) : option nat := fmap (M := option) (fun q => List.length (sq_subs q)) (f_rng f).
Definition keeps_reserve (C : code) (f : val -> prog) : Prop :=
  forall n x w a w1 g h, run C n (f x) w = (Ok a, w1) -> top w = Some g -> top w1 = Some h -> reserve_size h = reserve_size g.

(** Programs whose behaviour cannot depend on whether there is a random sequence,
    other than by failing without one. *)
Definition rng_blind_ops (C : code) (p : prog) : Prop :=
  match p with
  | MaybeNextKey | TryExcept _ _ => False
  | While c b _ => keeps_rng C c /\ keeps_reserve C b
  | Vmap f _ => uniform_lanes C f
  | _ => True
  end.

(** The order in which a (possibly reversed) scan visits a list. *)
Definition dir {A} (reverse : bool) (l : list A) : list A := if reverse then rev l else l.

(** The conditions under which refilling the reserve of random keys before and after
    every iteration (stateful.py:487, 495, 524, 536) cannot be noticed: there is no
    random sequence, or the block size is 1 (the default, base.py:34), keys are
    drawn one at a time, and no more than one is in reserve. *)
Definition loop_rng_ok (C : code) (P : prog -> Prop) (f : frame) : Prop :=
  f_rng f = None
  \/ sound_identity C /\ c_block C = 1 /\ (forall p, P p -> one_key_ops p)
     /\ (forall q, f_rng f = Some q -> List.length (sq_subs q) <= 1).

(** * The library built in docs/notebooks/build_your_own_haiku.ipynb

    Lines are those of the notebook's JSON text; the finished version of the library is lines 437-520, [transform] is lines 315-329.
    A function handed to [transform] is an interaction tree: what it asks of the library, and how it goes on with the answer.  It may transform other functions and use them; it catches no exception.
    Arrays are an abstract type; [np.random.normal] is a function of the number of draws made before. *)
From Coq Require Import String List Bool Arith NArith.
From Verif Require Import ModelStr.
Import ListNotations.
Open Scope string_scope.
Open Scope list_scope.

(** lines 440-455: [Frame].  [f_params] is the dictionary in insertion order, [f_counts] the default dictionary of counts, [f_stack] the call stack with its top last.
    [f_made] and [f_asked] are not in the code: the module names handed out and the parameter paths asked for, latest first, to state the theorems with. *)
Record frame {V : Type} := Frame {
  f_params : list (string * V);
  f_init : bool;
  f_counts : list (string * N);
  f_stack : list string;
  f_made : list string;
  f_asked : list string
}.
Arguments frame V : clear implicits.

(** A dictionary's [d.get(k)] and [d[k] = v]. *)
Fixpoint pget {A : Type} (d : list (string * A)) (k : string) : option A :=
  match d with
  | [] => None
  | (k', v) :: d' => if String.eqb k k' then Some v else pget d' k
  end.
Fixpoint pset {A : Type} (d : list (string * A)) (k : string) (v : A) : list (string * A) :=
  match d with
  | [] => [(k, v)]
  | (k', v') :: d' => if String.eqb k k' then (k, v) :: d' else (k', v') :: pset d' k v
  end.

(** lines 457-459: [create_param_path]. *)
Definition param_path (stack : list string) (identifier : string) : string :=
  String.concat "/" (["~"] ++ stack ++ [identifier]).

(** lines 461-465: [create_unique_module_name]: the count before, 0 if there is none. *)
Definition count_of (counts : list (string * N)) (cls : string) : N :=
  match pget counts cls with Some n => n | None => 0%N end.
Definition unique_name (cls : string) (number : N) : string := (cls ++ "_" ++ str_of_N number)%string.

(** The ways to leave with an exception: the user's own, [frame_stack[-1]] with no frame, a missing parameter, and the two assertions of [module_method]. *)
Inductive mini_error := UserError | IndexError | KeyError | AssertionError.
Inductive outcome (V : Type) := Ok (v : V) | Err (e : mini_error).
Arguments Ok {V}. Arguments Err {V}.

Section Mini.
Context {V : Type} (normal : nat -> list nat -> V).

(** What a function asks of the library: [get_param(identifier, shape)], [Module.__init__] of a class, a call of a decorated method of the module of that unique name, and the two functions of a [transform]. *)
Inductive mini : Type :=
| MRet (v : V)
| MRaise
| MParam (identifier : string) (shape : list nat) (k : V -> mini)
| MNew (cls : string) (k : string -> mini)
| MCall (self meth : string) (body : mini) (k : V -> mini)
| MInit (body : mini) (k : list (string * V) -> mini)
| MApply (params : list (string * V)) (body : mini) (k : V -> mini).

(** [call_stack.append] and the two [assert call_stack.pop() == …] (lines 489-494), on the frame in use. *)
Definition push (fr : frame V) (names : list string) : frame V :=
  Frame V (f_params fr) (f_init fr) (f_counts fr) (f_stack fr ++ names) (f_made fr) (f_asked fr).
Definition pop (fr : frame V) (name : string) : option (frame V) :=
  match rev (f_stack fr) with
  | top :: below => if String.eqb top name
                    then Some (Frame V (f_params fr) (f_init fr) (f_counts fr) (rev below) (f_made fr) (f_asked fr))
                    else None
  | [] => None
  end.

(** The frames with which [init_f] and [apply_f] start (lines 318, 324). *)
Definition init_frame : frame V := Frame V [] true [] [] [] [].
Definition apply_frame (params : list (string * V)) : frame V := Frame V params false [] [] [] [].

(** lines 500-507 and 476-478: the effect of [get_param] and of [Module.__init__] on the frame in use. *)
Definition ask (fr : frame V) (path : string) : frame V :=
  Frame V (f_params fr) (f_init fr) (f_counts fr) (f_stack fr) (f_made fr) (path :: f_asked fr).
Definition store (fr : frame V) (path : string) (v : V) : frame V :=
  Frame V (pset (f_params fr) path v) (f_init fr) (f_counts fr) (f_stack fr) (f_made fr) (f_asked fr).
Definition make (fr : frame V) (cls : string) : frame V :=
  Frame V (f_params fr) (f_init fr) (pset (f_counts fr) cls (count_of (f_counts fr) cls + 1)%N) (f_stack fr)
    (unique_name cls (count_of (f_counts fr) cls) :: f_made fr) (f_asked fr).

(** A run from a stack of frames (the top first) and a number of draws made: how it ends, and the stack and the number of draws it leaves.
    An exception passes through [wrapped], [init_f] and [apply_f], none of which has a [finally]: nothing is popped. *)
Fixpoint run (p : mini) (fs : list (frame V)) (g : nat) : outcome V * list (frame V) * nat :=
  match p with
  | MRet v => (Ok v, fs, g)
  | MRaise => (Err UserError, fs, g)
  | MParam identifier shape k =>
      match fs with
      | [] => (Err IndexError, fs, g)
      | fr :: r =>
          let path := param_path (f_stack fr) identifier in
          let fr := ask fr path in
          if f_init fr then
            let v := normal g shape in run (k v) (store fr path v :: r) (S g)
          else
            match pget (f_params fr) path with
            | Some v => run (k v) (fr :: r) g
            | None => (Err KeyError, fr :: r, g)
            end
      end
  | MNew cls k =>
      match fs with
      | [] => (Err IndexError, fs, g)
      | fr :: r => run (k (unique_name cls (count_of (f_counts fr) cls))) (make fr cls :: r) g
      end
  | MCall self meth body k =>
      match fs with
      | [] => (Err IndexError, fs, g)
      | fr :: r =>
          match run body (push fr [self; meth] :: r) g with
          | (Ok v, [], g') => (Err IndexError, [], g')
          | (Ok v, fr' :: r', g') =>
              match pop fr' meth with
              | None => (Err AssertionError, fr' :: r', g')
              | Some fr2 =>
                  match pop fr2 self with
                  | None => (Err AssertionError, fr2 :: r', g')
                  | Some fr3 => run (k v) (fr3 :: r') g'
                  end
              end
          | (Err e, fs', g') => (Err e, fs', g')
          end
      end
  | MInit body k =>
      match run body (init_frame :: fs) g with
      | (Ok _, fr :: r, g') => run (k (f_params fr)) r g'
      | (Ok _, [], g') => (Err IndexError, [], g')
      | (Err e, fs', g') => (Err e, fs', g')
      end
  | MApply params body k =>
      match run body (apply_frame params :: fs) g with
      | (Ok v, _ :: r, g') => run (k v) r g'
      | (Ok _, [], g') => (Err IndexError, [], g')
      | (Err e, fs', g') => (Err e, fs', g')
      end
  end.

(** The function initialises nothing itself. *)
Fixpoint no_init (p : mini) : Prop :=
  match p with
  | MRet _ | MRaise => True
  | MParam _ _ k => forall v, no_init (k v)
  | MNew _ k => forall n, no_init (k n)
  | MCall _ _ body k => no_init body /\ forall v, no_init (k v)
  | MInit _ _ => False
  | MApply _ body k => no_init body /\ forall v, no_init (k v)
  end.

(** ** The modules of the notebook
    [last_dim x] is [x.shape[-1]], [affine x w b] is [x @ w + b]. *)
Context (last_dim : V -> nat) (affine : V -> V -> V -> V) (act : V -> V).
(** lines 510-520: the call of a [Linear]. *)
Definition linear_call (self : string) (width : nat) (x : V) (k : V -> mini) : mini :=
  MCall self "__call__"
    (MParam "w" [last_dim x; width] (fun w => MParam "b" [width] (fun b => MRet (affine x w b)))) k.
Definition linear (width : nat) (x : V) (k : V -> mini) : mini :=
  MNew "Linear" (fun self => linear_call self width x k).
(** The cell of [MLP] (lines 608-619): the loop, and [return out], which is unbound if there are no widths. *)
Fixpoint mlp_loop (widths : list nat) (x : V) (out : option V) : mini :=
  match widths with
  | [] => match out with Some o => MRet o | None => MRaise end
  | w :: widths => linear w x (fun o => mlp_loop widths (act o) (Some o))
  end.
Definition mlp (widths : list nat) (x : V) : mini :=
  MNew "MLP" (fun self => MCall self "__call__" (mlp_loop widths x None) MRet).
(** The cell of [ParameterReuseTest] (lines 677-685): one [Linear] called twice. *)
Definition reuse_test (x : V) : mini :=
  MNew "ParameterReuseTest" (fun self =>
    MCall self "__call__"
      (MNew "Linear" (fun f =>
         linear_call f (last_dim x) x (fun y => linear_call f (last_dim x) (act y) MRet))) MRet).
End Mini.
Arguments mini V : clear implicits.

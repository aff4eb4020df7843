(** A concrete code table and programs used in the [Example]s that accompany the
    theorems (to show that their hypotheses are met). *)
From stdpp Require Import gmap list strings.
From Coq Require Import String Ascii ZArith.
From Verif Require Import ModelStr ModelRng ModelCore SpecCore.
Local Open Scope string_scope.
Local Open Scope list_scope.

(** Initializers: [VInt z] makes an array filled with [z]; [VNone] draws a key
    first. Creators, getters, interceptors call next once. *)
Definition demo : code := Code
  (fun f x => Ret x)
  (fun i sh dt => match i with
                  | VInt z => Ret (VArr sh z)
                  | _ => Bind NextKey (fun k => Ret (VArr sh 7))
                  end)
  (fun c r sh dt i ctx => NextCreate r sh dt i)
  (fun g r v ctx => NextGet r v)
  (fun i r a ctx => NextCall r a)
  (fun a b => bool_decide (a = b)) (fun a b => bool_decide (a = b)) 1.

Definition then_ (p q : prog) : prog := Bind p (fun _ => q).

(** [hk.Linear]-like module with one parameter and a call counter. *)
Definition linear (init : val) : prog :=
  Bind (NewModule "Linear" (fun _ => Ret VNone) (fun _ => Some None) (fun _ _ => Ret VNone))
    (fun m => match m with
              | VMod m => CallMethod m "__call__" VNone (fun _ =>
                  Bind (GetParam "w" [2; 3] "float32" (Some init)) (fun w =>
                  then_ (SetState "calls" (VInt 1)) (Ret w)))
              | _ => Ret VNone
              end).

(** The world in which the body of [init] / [apply] of a transform runs. *)
Definition init_world (rng : option key) : world :=
  set_frames [new_frame None None (rng_of rng)] empty_world.
Definition apply_world (params state : bundles val) (rng : option key) : world :=
  set_frames [new_frame (Some params) (Some state) (rng_of rng)] empty_world.

Definition result {A} (x : res A * world) : option A :=
  match x with (Ok a, _) => Some a | _ => None end.
Definition error {A} (x : res A * world) : option exn :=
  match x with (Exc e, _) => Some e | _ => None end.
Definition params_at (b n : string) (x : res (bundles val * bundles val) * world) : option val :=
  match x with (Ok (ps, _), _) => lookup2 b n ps | _ => None end.
Definition state_at (b n : string) (x : res (bundles val * bundles val) * world) : option val :=
  match x with (Ok (_, st), _) => lookup2 b n st | _ => None end.

(** Turning a computed outcome into an existential statement. *)
Lemma witness2 {A B} (x : res (A * B) * world) (Q : A -> B -> Prop) :
  match x with (Ok (a, b), _) => Q a b | _ => False end ->
  exists a b w', x = (Ok (a, b), w') /\ Q a b.
Proof. destruct x as [[[a b]|e|] w']; try contradiction. eauto 6. Qed.
Lemma witness1 {A} (x : res A * world) (Q : A -> world -> Prop) :
  match x with (Ok a, w') => Q a w' | _ => False end -> exists a w', x = (Ok a, w') /\ Q a w'.
Proof. destruct x as [[a|e|] w']; try contradiction. eauto. Qed.

(** Checking an [all_ops] condition on a concrete program, when the condition
    holds of every node by computation or by [tac]. *)
Ltac ops_with tac :=
  constructor;
  [ first [exact Logic.I | solve [cbn; tac]]
  | let q := fresh "q" in let Hq := fresh "Hq" in
    intros q Hq; cbn in Hq;
    repeat match goal with
    | H : _ \/ _ |- _ => destruct H
    | H : exists _, _ |- _ => destruct H
    | H : False |- _ => destruct H
    | H : q = _ |- _ => subst q
    end;
    repeat case_match; ops_with tac ].
Ltac ops := ops_with ltac:(idtac).

(** Three small object-level models: [NameScope] objects (module.py:305-334), the module usage log (summarise.py:136-157)
    and change detection by object address (base.py:806-846). *)
From Coq Require Import String ZArith.
From stdpp Require Import base list gmap.
Notation length := List.length.
Local Open Scope list_scope.

(** ** NameScope objects

    A frame is represented by its module stack (top first), whose elements are identified by the number of the push; [Frame.module] (base.py:91-96) pushes and
    pops the counters and used names together with it.  Frames are numbered; [ns_frames] has the stack of active frames, top first, [ns_mods] the
    module stacks of all frames made so far. *)
Record nsobj := NSObj { no_entered : bool;                       (* [__entered] *)
                        no_stack : option (list (nat * nat)) }.  (* [__stack]: [None], or an ExitStack with the
                                                                    entered [frame.module(...)] contexts (frame, element) *)
Record nsstate := NS { ns_frames : list nat; ns_mods : list (list nat); ns_next : nat; ns_objs : list nsobj }.
Inductive nserr := NotReusable | NotReentrant | NoFrame | NoneHasNoExit | PopEmpty | NotSame.

(** Everything user code can do: make an object (module.py:308-319; the constructor leaves the stacks as they were), enter and leave objects in
    any order, call module methods ([Call]/[Return]: base.py:91-96), enter and leave transforms. *)
Inductive nsop := NSNew | NSEnter (h : nat) | NSExit (h : nat) | NSCall | NSReturn | NSPushFrame | NSPopFrame.

Definition push_mod (f : nat) (s : nsstate) : nsstate :=
  NS (ns_frames s) (alter (cons (ns_next s)) f (ns_mods s)) (S (ns_next s)) (ns_objs s).
Definition set_obj (h : nat) (o : nsobj) (s : nsstate) : nsstate :=
  NS (ns_frames s) (ns_mods s) (ns_next s) (<[h := o]> (ns_objs s)).
(** data_structures.py:70-76: [assert self.pop() is elem]. *)
Definition pop_mod (f e : nat) (s : nsstate) : nsstate * option nserr :=
  match ns_mods s !! f with
  | Some (x :: l) => (NS (ns_frames s) (<[f := l]> (ns_mods s)) (ns_next s) (ns_objs s), if decide (x = e) then None else Some NotSame)
  | _ => (s, Some PopEmpty)
  end.

Definition ns_step (o : nsop) (s : nsstate) : nsstate * option nserr :=
  match o with
  | NSNew => (NS (ns_frames s) (ns_mods s) (ns_next s) (ns_objs s ++ [NSObj false (Some [])]), None)
  | NSEnter h =>
      match ns_objs s !! h with
      | None => (s, None)
      | Some (NSObj _ None) => (s, Some NotReusable)
      | Some (NSObj true _) => (s, Some NotReentrant)
      | Some (NSObj false (Some st)) =>
          match ns_frames s with
          | [] => (set_obj h (NSObj true (Some st)) s, Some NoFrame)
          | f :: _ => (push_mod f (set_obj h (NSObj true (Some ((f, ns_next s) :: st))) s), None)
          end
      end
  | NSExit h =>
      match ns_objs s !! h with
      | None => (s, None)
      | Some (NSObj _ None) => (set_obj h (NSObj false None) s, Some NoneHasNoExit)
      | Some (NSObj _ (Some [])) => (set_obj h (NSObj false None) s, None)
      | Some (NSObj _ (Some ((f, e) :: _))) =>
          let (s', r) := pop_mod f e s in (set_obj h (NSObj false None) s', r)
      end
  | NSCall => match ns_frames s with [] => (s, Some NoFrame) | f :: _ => (push_mod f s, None) end
  | NSReturn =>
      match ns_frames s with
      | [] => (s, Some NoFrame)
      | f :: _ => match ns_mods s !! f with
                  | Some (_ :: l) => (NS (ns_frames s) (<[f := l]> (ns_mods s)) (ns_next s) (ns_objs s), None)
                  | _ => (s, Some PopEmpty)
                  end
      end
  | NSPushFrame => (NS (length (ns_mods s) :: ns_frames s) (ns_mods s ++ [[]]) (ns_next s) (ns_objs s), None)
  | NSPopFrame => match ns_frames s with [] => (s, Some NoFrame) | _ :: fs => (NS fs (ns_mods s) (ns_next s) (ns_objs s), None) end
  end.
(** A history; exceptions may be caught, so it goes on. *)
Fixpoint ns_run (os : list nsop) (s : nsstate) : nsstate :=
  match os with [] => s | o :: os => ns_run os (fst (ns_step o s)) end.
(** How often entering object [h] succeeded. *)
Fixpoint entered (h : nat) (os : list nsop) (s : nsstate) : nat :=
  match os with
  | [] => 0
  | o :: os => (match o, snd (ns_step o s), ns_objs s !! h with
                | NSEnter h', None, Some _ => if decide (h = h') then 1 else 0
                | _, _, _ => 0
                end) + entered h os (fst (ns_step o s))
  end.
Definition ns0 : nsstate := NS [] [] 0 [].

(** ** Module usage log

    What a function does, as far as the log is concerned: method calls (with a module, a method name, arguments and a body), inner
    transforms (which have a module stack of their own; the interceptor stays active in them), exceptions. *)
Inductive uprog {V : Type} :=
| URet (v : V)
| URaise
| UCall (m : nat) (meth : string) (args : V) (body : uprog) (k : V -> uprog)
| UInner (body : uprog) (k : V -> uprog)
| UTry (body : uprog) (k : V -> uprog) (h : uprog).
Global Arguments uprog : clear implicits.

Record urec {V : Type} := URec { u_mod : nat; u_meth : string; u_args : V; u_out : V; u_stack : list (nat * string) }.
Global Arguments urec : clear implicits.

Definition ignored (meth : string) : bool :=
  bool_decide (meth ∈ ["__init__"; "params_dict"; "state_dict"]%string).

(** Running under [intercept_methods(log_used_modules)]: [frames] are the module stacks of the active frames (top first), [log] is [used_modules].
    [None] is an exception.  summarise.py:136-157; the reserved entry stays [None] if the call raises. *)
Fixpoint urun {V} (p : uprog V) (frames : list (list (nat * string))) (log : list (option (urec V))) : option V * list (option (urec V)) :=
  match p with
  | URet v => (Some v, log)
  | URaise => (None, log)
  | UCall m meth args body k =>
      let frames' := match frames with f :: fs => ((m, meth) :: f) :: fs | [] => [] end in
      let (r, log1) :=
        if ignored meth then urun body frames' log
        else
          let idx := length log in
          match urun body frames' (log ++ [None]) with
          | (Some out, log1) => (Some out, <[idx := Some (URec _ m meth args out (default [] (head frames')))]> log1)
          | (None, log1) => (None, log1)
          end in
      match r with Some out => urun (k out) frames log1 | None => (None, log1) end
  | UInner body k =>
      match urun body ([] :: frames) log with
      | (Some out, log1) => urun (k out) frames log1
      | (None, log1) => (None, log1)
      end
  | UTry body k h =>
      match urun body frames log with
      | (Some out, log1) => urun (k out) frames log1
      | (None, log1) => urun h frames log1
      end
  end.

(** The calls that happen, independently of any log: in the order in which they start, each with its call stack
    (innermost first) and its result ([None]: it raised). *)
Record ucall {V : Type} := UC { c_mod : nat; c_meth : string; c_args : V; c_stack : list (nat * string); c_out : option V }.
Global Arguments ucall : clear implicits.
Fixpoint ucalls {V} (p : uprog V) (stack : list (nat * string)) : option V * list (ucall V) :=
  match p with
  | URet v => (Some v, [])
  | URaise => (None, [])
  | UCall m meth args body k =>
      let (r, l) := ucalls body ((m, meth) :: stack) in
      let l := UC _ m meth args stack r :: l in
      match r with Some out => let (r', l') := ucalls (k out) stack in (r', l ++ l') | None => (None, l) end
  | UInner body k =>
      let (r, l) := ucalls body [] in
      match r with Some out => let (r', l') := ucalls (k out) stack in (r', l ++ l') | None => (None, l) end
  | UTry body k h =>
      let (r, l) := ucalls body stack in
      let (r', l') := match r with Some out => ucalls (k out) stack | None => ucalls h stack end in (r', l ++ l')
  end.

(** summarise.py:295-303, 360-363 [tabulate] with the default filters; [None] is the AttributeError of [None.output_spec].  [has_output] and
    [has_params] stand for the two default filters. *)
Fixpoint utable {V} (has_output has_params : urec V -> bool) (log : list (option (urec V))) : option (list (urec V)) :=
  match log with
  | [] => Some []
  | None :: _ => None
  | Some r :: log => match utable has_output has_params log with
                     | Some rows => Some (if has_output r && has_params r then r :: rows else rows)
                     | None => None
                     end
  end.

(** ** Change detection by address

    The objects that matter: the [StatePair]s of the state, the parameter values, the key and reserved keys of the current random sequence.
    Names stand for (bundle, name) pairs. *)
Record astate := AS { as_params : gmap nat nat; as_state : gmap nat nat; as_rng : option (nat * list nat) }.
(** [ASet]: set_state (base.py:749-757) always makes a new [StatePair].  [AParam]: a new parameter (during init),
    whose initializer returns a new or an existing array.
    [ANext]: next_rng_key.  [APure]: code that does not touch the
    context (it may allocate and free). *)
Inductive aop := ASet (n : nat) | AParam (n : nat) | ANext | APure.

Definition addrs (s : astate) : list nat :=
  map snd (map_to_list (as_params s)) ++ map snd (map_to_list (as_state s)) ++
  match as_rng s with Some (k, ks) => k :: ks | None => [] end.

(** The allocator returns any addresses [new] that are not those of live objects.  [block] is DEFAULT_PRNG_RESERVE_SIZE.
    The new object is made before the old one is released. *)
Inductive astep (block : nat) : aop -> list nat -> astate -> astate -> Prop :=
| A_set n a s : a ∉ addrs s -> astep block (ASet n) [a] s (AS (as_params s) (<[n := a]> (as_state s)) (as_rng s))
| A_param n a s : a ∉ addrs s -> as_params s !! n = None ->
    astep block (AParam n) [a] s (AS (<[n := a]> (as_params s)) (as_state s) (as_rng s))
| A_param_old n a s : a ∈ addrs s -> as_params s !! n = None ->
    astep block (AParam n) [] s (AS (<[n := a]> (as_params s)) (as_state s) (as_rng s))
| A_next s k k1 ks : as_rng s = Some (k, k1 :: ks) -> astep block ANext [] s (AS (as_params s) (as_state s) (Some (k, ks)))
| A_split s k k' k1 ks : as_rng s = Some (k, []) -> length (k1 :: ks) = block -> NoDup (k' :: k1 :: ks) ->
    (forall a, a ∈ k' :: k1 :: ks -> a ∉ addrs s) ->
    astep block ANext (k' :: k1 :: ks) s (AS (as_params s) (as_state s) (Some (k', ks)))
| A_pure s : astep block APure [] s s.
(** [all]: all addresses handed out, in order. *)
Inductive asteps (block : nat) : list aop -> list nat -> astate -> astate -> Prop :=
| A_nil s : asteps block [] [] s s
| A_cons o os new news s s1 s2 : astep block o new s s1 -> asteps block os news s1 s2 ->
    asteps block (o :: os) (new ++ news) s s2.

(** base.py:806-838: [_get_ids], [_all_state] and the comparison of [assert_state_unchanged]. *)
Definition ids (m : gmap nat nat) : gset nat := list_to_set (map snd (map_to_list m)).
Definition rng_ids (s : astate) : gset nat := match as_rng s with Some (k, ks) => list_to_set (k :: ks) | None => ∅ end.
Definition raises (before after : astate) : bool :=
  bool_decide (ids (as_params after) ∖ ids (as_params before) ≠ ∅ \/
               ids (as_state after) ∖ ids (as_state before) ≠ ∅ \/
               rng_ids after ∖ rng_ids before ≠ ∅).

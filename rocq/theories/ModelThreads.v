(** Threads: the process memory behind haiku's stacks (data_structures.py:39-82, base.py:45-50, module.py:60)
    and the process-wide patch of random.py:25-41.

    An execution is an arbitrary interleaving of atomic operations of the threads.  Python objects live in one heap
    shared by all threads; a [ThreadLocalStack] finds its storage through the identity of the running thread. *)
From stdpp Require Import base list gmap.
From Coq Require Import ZArith.
From Verif Require Import ModelRng.
Local Open Scope list_scope.

Section Threads.
(** [F]: contents of a frame; [E]: elements of the other stacks (creators, getters, interceptors);
    [O]: what a frame access returns; [V]: results of thread programs. *)
Context {F E O V : Type}.

(** Operations, each executed atomically.  [OnFrame g] accesses the current frame ([frame_stack.peek()]);
    a function such as [get_parameter] is a sequence of such accesses. *)
Inductive op :=
| Inside                       (* base.py:197 [bool(frame_stack)] *)
| PushFrame (f : F)            (* base.py:130-137: allocate a frame, push it *)
| PopFrame                     (* base.py:139 *)
| OnFrame (g : F -> F * O)     (* data_structures.py:67 [peek], then use the frame *)
| PushCb (s : nat) (e : E)     (* data_structures.py:58 on stack number [s] *)
| PopCb (s : nat)              (* data_structures.py:64 *)
| ReadCbs (s : nat).           (* data_structures.py:48: iterate, top first *)
Inductive obs :=
| Nothing | IndexErr | Flag (b : bool) | Got (o : O) | Elems (l : list E).

(** Process memory.  [threading.local] re-runs [Stack.__init__] for every thread that touches the stack:
    a thread without an entry has an empty storage. *)
Record mem := Mem { m_heap : list F; m_frames : gmap nat (list nat); m_cbs : gmap nat (gmap nat (list E)) }.
Definition storage {A} (tls : gmap nat (list A)) (t : nat) : list A := default [] (tls !! t).
Definition cb_tls (m : mem) (s : nat) : gmap nat (list E) := default ∅ (m_cbs m !! s).

Definition exec_op (t : nat) (o : op) (m : mem) : mem * obs :=
  match o with
  | Inside => (m, Flag (match storage (m_frames m) t with [] => false | _ => true end))
  | PushFrame f => (Mem (m_heap m ++ [f]) (<[t := length (m_heap m) :: storage (m_frames m) t]> (m_frames m)) (m_cbs m), Nothing)
  | PopFrame =>
      match storage (m_frames m) t with
      | [] => (m, IndexErr)
      | _ :: l => (Mem (m_heap m) (<[t := l]> (m_frames m)) (m_cbs m), Nothing)
      end
  | OnFrame g =>
      match storage (m_frames m) t with
      | [] => (m, IndexErr)
      | a :: _ =>
          match m_heap m !! a with
          | Some f => (Mem (<[a := fst (g f)]> (m_heap m)) (m_frames m) (m_cbs m), Got (snd (g f)))
          | None => (m, IndexErr)
          end
      end
  | PushCb s e => (Mem (m_heap m) (m_frames m) (<[s := <[t := e :: storage (cb_tls m s) t]> (cb_tls m s)]> (m_cbs m)), Nothing)
  | PopCb s =>
      match storage (cb_tls m s) t with
      | [] => (m, IndexErr)
      | _ :: l => (Mem (m_heap m) (m_frames m) (<[s := <[t := l]> (cb_tls m s)]> (m_cbs m)), Nothing)
      end
  | ReadCbs s => (m, Elems (storage (cb_tls m s) t))
  end.

(** What remains to be done by a thread: anything, depending on everything it observed. *)
Inductive tprog := Done (v : V) | Do (o : op) (k : obs -> tprog).

Record proc := Proc { p_mem : mem; p_pool : gmap nat tprog }.
(** Thread [t] executes its next operation (nothing happens if it has finished or does not exist). *)
Definition tstep (t : nat) (p : proc) : proc :=
  match p_pool p !! t with
  | Some (Do o k) => let (m', r) := exec_op t o (p_mem p) in Proc m' (<[t := k r]> (p_pool p))
  | _ => p
  end.
Fixpoint exec (sched : list nat) (p : proc) : proc :=
  match sched with
  | [] => p
  | t :: sched => exec sched (tstep t p)
  end.
Definition fresh_mem : mem := Mem [] ∅ ∅.
(** The frames on the stacks of all threads are different objects. *)
Definition separated (m : mem) : Prop :=
  (forall t, NoDup (storage (m_frames m) t)) /\
  (forall t a, a ∈ storage (m_frames m) t -> a < length (m_heap m)) /\
  (forall t t' a, a ∈ storage (m_frames m) t -> a ∈ storage (m_frames m) t' -> t = t').
End Threads.
Global Arguments op : clear implicits.
Global Arguments obs : clear implicits.
Global Arguments mem : clear implicits.
Global Arguments tprog : clear implicits.
Global Arguments proc : clear implicits.

(** random.py:25-41 [count_hk_rngs_requested] and base.py:571-606: the module attribute
    [base.next_rng_key_internal] is a chain of counting wrappers around the original function; each wrapper owns a counter. *)
Record gmem := GMem { g_fn : list nat; g_count : list Z }.
(** What the threads do to it.  [Begin]: create the counter, read the attribute, replace it (the value read is kept by
    the generator); [EndCount]: put that value back; [Request]: call the attribute. *)
Inductive gop := Begin | Request | EndCount.
(** A thread keeps the values saved by its active [with count_hk_rngs_requested()] blocks, innermost first, with
    the counters of these blocks, and the counts it has read, latest first. *)
Record gthread := GT { gt_saved : list (nat * list nat); gt_read : list Z }.
Definition bump (l : list nat) (c : list Z) : list Z := foldl (fun c i => alter (Z.add 1) i c) c l.
Definition gexec (o : gop) (m : gmem) (th : gthread) : gmem * gthread :=
  match o with
  | Begin => (GMem (length (g_count m) :: g_fn m) (g_count m ++ [0%Z]), GT ((length (g_count m), g_fn m) :: gt_saved th) (gt_read th))
  | Request => (GMem (g_fn m) (bump (g_fn m) (g_count m)), th)
  | EndCount =>
      match gt_saved th with
      | [] => (m, th)
      | (c, fn) :: saved => (GMem fn (g_count m), GT saved (default 0%Z (g_count m !! c) :: gt_read th))
      end
  end.
(** An interleaving: which thread does what. *)
Fixpoint grun (s : list (nat * gop)) (m : gmem) (ths : gmap nat gthread) : gmem * gmap nat gthread :=
  match s with
  | [] => (m, ths)
  | (t, o) :: s => let (m', th') := gexec o m (default (GT [] []) (ths !! t)) in grun s m' (<[t := th']> ths)
  end.
Definition g0 : gmem := GMem [] [].
Definition counts (s : list (nat * gop)) (t : nat) : list Z := gt_read (default (GT [] []) (snd (grun s g0 ∅) !! t)).

(** random.py:77-103 [optimize_rng_use] with a function that makes [n] requests, of which [count] were counted: the keys
    the function receives.  [block] is DEFAULT_PRNG_RESERVE_SIZE. *)
Definition optimized_keys (block count n : nat) (k : key) : option (list key) :=
  match seq_nexts block n (reserve count (seq_of_key k)) with Some (ks, _) => Some ks | None => None end.

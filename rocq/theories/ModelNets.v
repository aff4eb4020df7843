(** * [hk.nets.MLP] (haiku/_src/nets/mlp.py) and [hk.Embed] (haiku/_src/embed.py). *)
From Coq Require Import String ZArith List Bool Lia.
From Verif Require Import ModelRnn.
Import ListNotations.
Local Open Scope list_scope.

(** ** MLP *)
(** A [Linear] layer of the MLP (basic.py:130-185): its index (its name is ["linear_%d" % index]), [output_size]
    ([None] for the Python value [None]), [input_size] as last assigned ([None] before the first call) and the shape of the
    weights held for it in the parameters, if any.  Only the last axis of an array matters here. *)
Record linear := Lin { li_index : nat; li_out : option nat; li_in : option nat; li_w : option (nat * nat) }.
(** [Linear.__call__] (basic.py:159-183) on an input whose last axis has size [d] ([None] for a scalar): the input size is
    stored before the parameter is read; a parameter of another shape, an [output_size] of [None] or a scalar input raises.
    Result: the layer afterwards and the size of the last axis of the output. *)
Definition linear_call (l : linear) (d : option nat) : linear * option nat :=
  match d with
  | None => (l, None)
  | Some d =>
      let l1 := Lin (li_index l) (li_out l) (Some d) (li_w l) in
      match li_out l with
      | None => (l1, None)
      | Some o =>
          match li_w l with
          | None => (Lin (li_index l) (li_out l) (Some d) (Some (d, o)), Some o)
          | Some (d', o') => if ((d' =? d) && (o' =? o))%nat then (l1, Some o) else (l1, None)
          end
      end
  end.

Record mlp := MLP { m_layers : list linear; m_with_bias : bool; m_b_init : bool; m_final : bool; m_name : string }.
(** [MLP.__init__] (mlp.py:41-83); [b_init] says whether a bias initializer was given. *)
Definition mlp_new (output_sizes : list (option nat)) (with_bias b_init activate_final : bool) (name : string) : option mlp :=
  if negb with_bias && b_init then None
  else Some (MLP (map (fun p => Lin (fst p) (snd p) None None) (combine (seq 0 (length output_sizes)) output_sizes))
                 with_bias b_init activate_final name).

Section call.
(** The arrays, the size of their last axis, the affine map of layer [i], dropout with a key and the activation. *)
Context {V K : Type}.
Variables (last_dim : V -> option nat) (lin : nat -> V -> V) (drop : K -> V -> V) (act : V -> V).

(** The loop of [MLP.__call__] (mlp.py:109-116). [keys] is what [next] on the key sequence returns from now on; [None] when
    dropout is not used. [n] is [num_layers]. A failing layer aborts the loop, leaving the earlier layers updated. *)
Fixpoint mlp_loop (n i : nat) (final : bool) (ls : list linear) (keys : option (nat -> K)) (nk : nat) (out : V) : list linear * option V :=
  match ls with
  | [] => ([], Some out)
  | l :: ls =>
      match linear_call l (last_dim out) with
      | (l, None) => (l :: ls, None)
      | (l, Some _) =>
          let out := lin (li_index l) out in
          let '(out, nk) := if ((i <? n - 1)%nat || final)%bool
                            then match keys with
                                 | Some k => (act (drop (k nk) out), S nk)
                                 | None => (act out, nk)
                                 end
                            else (out, nk) in
          let '(ls, r) := mlp_loop n (S i) final ls keys nk out in (l :: ls, r)
      end
  end.
(** [MLP.__call__] (mlp.py:85-118): [rng] is the key sequence built from the given key. *)
Definition mlp_call (m : mlp) (inputs : V) (dropout : bool) (rng : option (nat -> K)) : mlp * option V :=
  match dropout, rng with
  | true, None | false, Some _ => (m, None)
  | _, _ =>
      let '(ls, r) := mlp_loop (length (m_layers m)) 0 (m_final m) (m_layers m) rng 0 inputs in
      (MLP ls (m_with_bias m) (m_b_init m) (m_final m) (m_name m), r)
  end.
End call.

(** [MLP.reverse] (mlp.py:120-165). *)
Definition mlp_reverse (m : mlp) (activate_final : option bool) (name : option string) : option mlp :=
  mlp_new (map li_in (rev (m_layers m))) (m_with_bias m) (m_b_init m)
          (match activate_final with Some b => b | None => m_final m end)
          (match name with Some n => n | None => (m_name m ++ "_reversed")%string end).

(** ** Embed *)
(** [Embed.__init__] (embed.py:51-117): sizes of the table, or [None] for a [ValueError].  [matrix] is the shape of
    [embedding_matrix] if one is given.  A size of 0 counts as not given, as in Python. *)
Definition given (o : option nat) : option nat := match o with Some 0 => None | o => o end.
Definition embed_new (vocab_size embed_dim : option nat) (matrix : option (nat * nat)) : option (nat * nat) :=
  match matrix with
  | None => match given vocab_size, given embed_dim with Some v, Some d => Some (v, d) | _, _ => None end
  | Some (v, d) =>
      let bad o k := match given o with Some k' => negb (k' =? k)%nat | None => false end in
      if bad vocab_size v then None else if bad embed_dim d then None else Some (v, d)
  end.

Inductive style := ArrayIndex | OneHot.
(** Resolving the style (embed.py:152-154): the call argument, if it is truthy, overrides the one of the constructor; a
    string is looked up by its upper-case name and any other name is an [AttributeError]. The argument is a style or the
    name in upper case; [""] is falsy. *)
Definition resolve_style (call : option (string + style)) (default : string + style) : option style :=
  let s := match call with None | Some (inl ""%string) => default | Some s => s end in
  match s with
  | inl n => if String.eqb n "ARRAY_INDEX" then Some ArrayIndex else if String.eqb n "ONE_HOT" then Some OneHot else None
  | inr s => Some s
  end.

Section lookup.
Context {A : Type}.
Variables (zero one : A) (add mul : A -> A -> A).
(** [embeddings[(ids,)]] (embed.py:162), for one id: jax wraps a negative index once and clamps what is still out of
    range.  The table is a list of rows; an empty table has no row. *)
Definition array_index (table : list (list A)) (id : Z) : option (list A) :=
  let n := Z.of_nat (length table) in
  let i := if (id <? 0)%Z then (id + n)%Z else id in
  nth_error table (Z.to_nat (Z.min (Z.max i 0) (n - 1))).
(** [jax.nn.one_hot(ids, vocab_size)[..., None]] times the table, summed over the vocabulary (embed.py:165-166), for one
    id; [d] is [embed_dim]. *)
Definition one_hot (n : nat) (id : Z) : list A := map (fun k => if (Z.of_nat k =? id)%Z then one else zero) (seq 0 n).
Definition sum_rows (d : nat) (rows : list (list A)) : list A :=
  fold_left (fun acc r => map (fun p => add (fst p) (snd p)) (combine acc r)) rows (repeat zero d).
Definition one_hot_lookup (d : nat) (table : list (list A)) (id : Z) : option (list A) :=
  Some (sum_rows d (map (fun p => map (fun x => mul x (snd p)) (fst p)) (combine table (one_hot (length table) id)))).
(** [Embed.__call__] (embed.py:124-169) over the flattened ids. *)
Definition embed_call (st : style) (d : nat) (table : list (list A)) (ids : list Z) : list (option (list A)) :=
  map (match st with ArrayIndex => array_index table | OneHot => one_hot_lookup d table end) ids.
End lookup.

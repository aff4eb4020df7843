(** * The networks of the IMPALA example (examples/impala/haiku_nets.py, util.py:29-39; agent.py:77-96)

    Arrays as in ModelImageValues: a shape and a function from indices to reals. Convolutions, linear layers and pooling come from there. The
    state of the core is the pair (hidden, cell) of each row of the batch; [hk.ResetCore] and [hk.dynamic_unroll] act on each row on its own
    (C50, C51), which is how they are written here. Element types are not modelled. *)
From Coq Require Import Reals ZArith String List Bool.
From Verif Require Import ModelNets ModelShape ModelReal ModelPool ModelConv ModelImageNets ModelCheckpoint ModelImageValues.
Import ListNotations.

(** ** [hk.Flatten], [hk.BatchApply] *)
(** The index of the j-th element in row-major order. *)
Fixpoint unravel (shape : list Z) (j : Z) : list Z :=
  match shape with [] => [] | _ :: r => (j / ModelShape.prod r)%Z :: unravel r (j mod ModelShape.prod r)%Z end.
(** [hk.Flatten()] (reshape.py:107-118, 121-159): all axes but the first into one. An array with one axis is returned as it is. *)
Definition flatten_net : net := fun x => match x with b :: (_ :: _) as r => Some ([], [b; ModelShape.prod (tl x)]) | _ => Some ([], x) end.
Definition flatten_v : vnet := layer flatten_net (fun shape x idx =>
  match shape, idx with
  | _ :: (_ :: _) as r, [b; j] => x (b :: unravel (tl shape) j)
  | _, _ => x idx
  end).
(** [hk.BatchApply(f)] on one array (basic.py:201-214, 245-258). *)
Definition batch_apply_v (f : vnet) : vnet := fun x =>
  match fst x with
  | t :: b :: rest =>
      match f ((t * b)%Z :: rest, fun idx => match idx with i :: r => snd x ((i / b)%Z :: (i mod b)%Z :: r) | [] => 0%R end) with
      | Some (m :: rest', y) =>
          if (m =? t * b)%Z then Some (t :: b :: rest', fun idx => match idx with p :: q :: r => y ((p * b + q)%Z :: r) | _ => 0%R end) else None
      | _ => None
      end
  | _ => None
  end.
(** [jnp.squeeze(value, axis=-1)]. *)
Definition squeeze_last_v : vnet := fun x =>
  match fst x with
  | [b; n] => if (n =? 1)%Z then Some ([b], fun idx => snd x (idx ++ [0%Z])) else None
  | _ => None
  end.
Definition over_255 : vnet := layer ident (fun _ x idx => (x idx / 255)%R).

Section Nets.
Context (W : weights).
(** [hk.Linear(n)] (ModelImageValues). *)
Definition dense (name : string) (n : Z) : vnet := linear_v W name n.

(** ** Torsos *)
(** [AtariShallowTorso.__call__] (haiku_nets.py:63-76). *)
Definition shallow_torso (p : string) : vnet :=
  thenv over_255
  (thenv (conv_v W (inside_call p "conv2_d") 32 8 4 PtValid true) (thenv relu_v
  (thenv (conv_v W (inside_call p "conv2_d_1") 64 4 2 PtValid true) (thenv relu_v
  (thenv (conv_v W (inside_call p "conv2_d_2") 64 3 1 PtValid true) (thenv relu_v
  (thenv flatten_v (thenv (dense (inside_call p "linear") 512) relu_v)))))))).
(** [ResidualBlock.__call__] (haiku_nets.py:86-101). *)
Definition residual_block (p : string) (channels : Z) : vnet := fun x =>
  match thenv relu_v (thenv (conv_v W (inside_call p "conv2_d") channels 3 1 PtSame true) (thenv relu_v (conv_v W (inside_call p "conv2_d_1") channels 3 1 PtSame true))) x with
  | Some y => add_v y x
  | None => None
  end.
(** [AtariDeepTorso.__call__] (haiku_nets.py:110-130); [sections] is the list in the loop (l. 112). *)
Definition residual_name (i j : nat) : string := ("residual_" ++ decimal (N.of_nat i) ++ "_" ++ decimal (N.of_nat j))%string.
Definition section_v (p : string) (i : nat) (channels : Z) (num_blocks : nat) : vnet :=
  thenv (conv_v W (inside_call p (unique "conv2_d" i)) channels 3 1 PtSame true) (thenv max_pool_v
  (fold_left (fun f j => thenv f (residual_block (inside_call p (residual_name i j)) channels)) (seq 0 num_blocks) identv)).
Definition deep_features (p : string) (sections : list (Z * nat)) : vnet :=
  fold_left (fun f s => let '(i, (c, n)) := s in thenv f (section_v p i c n)) (combine (seq 0 (length sections)) sections) over_255.
Definition deep_torso (p : string) : vnet :=
  thenv (deep_features p [(16%Z, 2); (32%Z, 2); (32%Z, 2)]%nat) (thenv relu_v (thenv flatten_v (thenv (dense (inside_call p "linear") 256) relu_v))).

(** ** [AtariNet] (haiku_nets.py:133-172) *)
Definition core_state : Type := list R * list R.
(** [initial_state] of a row (haiku_nets.py:143-144; recurrent.py:309-315). *)
Definition core_zero : core_state := (repeat 0%R 256, repeat 0%R 256).
Context (lstm_w : list (list R)) (lstm_b : list R).
(** The row of an array [t, b, n] at given [t] and [b]. *)
Definition step_row (x : arr) (t b : Z) : list R := map (fun k => snd x [t; b; Z.of_nat k]) (seq 0 (Z.to_nat (List.last (fst x) 0%Z))).
(** [hk.ResetCore(hk.LSTM(256))] on a row. *)
Definition reset_lstm (x : list R) (should_reset : bool) (s : core_state) : list R * core_state :=
  lstm 256 lstm_w lstm_b x (if should_reset then core_zero else s).
(** The state of a row before time [t]. *)
Fixpoint state_before (x : arr) (first : Z -> Z -> bool) (s : Z -> core_state) (b : Z) (t : nat) : core_state :=
  match t with
  | 0%nat => s b
  | S t => snd (reset_lstm (step_row x (Z.of_nat t) b) (first (Z.of_nat t) b) (state_before x first s b t))
  end.
(** [hk.dynamic_unroll(self._core, (torso_output, should_reset), state)] (haiku_nets.py:158-161). *)
Definition core_unroll (x : arr) (first : Z -> Z -> bool) (s : Z -> core_state) : option (arr * (Z -> core_state)) :=
  match fst x with
  | [t; b; _] =>
      Some (([t; b; 256%Z], fun idx => match idx with
                                       | [p; q; k] => nth (Z.to_nat k) (fst (reset_lstm (step_row x p q) (first p q) (state_before x first s q (Z.to_nat p)))) 0%R
                                       | _ => 0%R
                                       end),
            fun q => state_before x first s q (Z.to_nat t))
  | _ => None
  end.
(** [_head] (haiku_nets.py:168-172): logits and value. *)
Definition head_logits (p : string) (num_actions : Z) : vnet := dense (inside_call (inside_call p "~_head") "linear") num_actions.
Definition head_value (p : string) : vnet := thenv (dense (inside_call (inside_call p "~_head") "linear_1") 1) squeeze_last_v.
(** [AtariNet.unroll] (haiku_nets.py:150-166). [obs] is [x.observation] of shape [T, B, ...]; [first t b] is whether the step is a FIRST one. *)
Definition torso_v (p : string) (use_resnet : bool) : vnet :=
  if use_resnet then deep_torso (inside_call (inside_call p "~unroll") "atari_deep_torso") else shallow_torso (inside_call (inside_call p "~unroll") "atari_shallow_torso").
Definition atari_unroll (p : string) (num_actions : Z) (use_resnet use_lstm : bool) (obs : arr) (first : Z -> Z -> bool) (s : Z -> core_state) : option ((arr * arr) * (Z -> core_state)) :=
  match batch_apply_v (torso_v p use_resnet) obs with
  | None => None
  | Some x =>
      match (if use_lstm then core_unroll x first s else Some (x, s)) with
      | None => None
      | Some (y, s') =>
          match batch_apply_v (head_logits p num_actions) y, batch_apply_v (head_value p) y with
          | Some logits, Some value => Some ((logits, value), s')
          | _, _ => None
          end
      end
  end.
(** [AtariNet.__call__] (haiku_nets.py:146-148): a time axis is added and not removed. *)
Definition add_axis (x : arr) : arr := (1%Z :: fst x, fun idx => snd x (tl idx)).
Definition atari_call (p : string) (num_actions : Z) (use_resnet use_lstm : bool) (obs : arr) (first : Z -> bool) (s : Z -> core_state) :=
  atari_unroll p num_actions use_resnet use_lstm (add_axis obs) (fun _ b => first b) s.
(** What [Agent.step] runs (agent.py:85-92): axes for time and batch are added and removed. *)
Definition agent_net (p : string) (num_actions : Z) (use_resnet use_lstm : bool) (obs : arr) (first : bool) (s : core_state) : option ((arr * R) * core_state) :=
  match atari_unroll p num_actions use_resnet use_lstm (add_axis (add_axis obs)) (fun _ _ => first) (fun _ => s) with
  | Some ((logits, value), s') => Some (((skipn 2 (fst logits), fun idx => snd logits (0%Z :: 0%Z :: idx)), snd value [0; 0]%Z), s' 0%Z)
  | None => None
  end.

(** ** [CatchNet] (haiku_nets.py:26-54) *)
Definition catch_torso (p : string) : vnet :=
  thenv flatten_v (thenv (dense (inside_call p "linear") 128) (thenv relu_v (thenv (dense (inside_call p "linear_1") 64) relu_v))).
Definition catch_call {S} (p : string) (num_actions : Z) (obs : arr) (s : S) : option ((arr * arr) * S) :=
  match catch_torso p obs with
  | None => None
  | Some y =>
      match dense (inside_call p "linear_2") num_actions y, thenv (dense (inside_call p "linear_3") 1) squeeze_last_v y with
      | Some logits, Some value => Some ((logits, value), s)
      | _, _ => None
      end
  end.
(** [unroll] (haiku_nets.py:51-54): [BatchApply] of the module itself, with [None] for the state. *)
Definition catch_unroll {S} (p : string) (num_actions : Z) (obs : arr) (s : S) : option ((arr * arr) * S) :=
  let out f := batch_apply_v (fun x => match catch_call p num_actions x tt with Some (o, _) => Some (f o) | None => None end) obs in
  match out fst, out snd with
  | Some logits, Some value => Some ((logits, value), s)
  | _, _ => None
  end.
(** [initial_state] (haiku_nets.py:33-38): the shape of the zeros. *)
Definition catch_initial_shape (batch_size : option Z) : list Z := match batch_size with None => [] | Some b => [b] end.
End Nets.

(** ** [util.preprocess_step] (util.py:29-39); fields that are missing are [None] *)
Record raw_step (O : Type) := RawStep { r_type : nat; r_reward : option R; r_discount : option R; r_obs : option O }.
Arguments RawStep {O}. Arguments r_type {O}. Arguments r_reward {O}. Arguments r_discount {O}. Arguments r_obs {O}.
Definition preprocess_none (t : option R) : R := match t with None => 0%R | Some v => v end.
Definition preprocess_step {O} (zero : O) (s : raw_step O) : nat * R * R * O :=
  let s := match r_discount s with None => RawStep (r_type s) (r_reward s) (Some 1%R) (r_obs s) | Some _ => s end in
  (r_type s, preprocess_none (r_reward s), preprocess_none (r_discount s), match r_obs s with None => zero | Some o => o end).

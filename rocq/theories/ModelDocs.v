(** docs/ext/coverage_check.py, on docs/api.rst and the public modules of the library. Of Sphinx only the following is modelled: which names the
    directives of a page add to the table of Python objects. Members of classes are documented too, under [name.member]; no public name contains
    a dot after its module's name, so they are left out. *)
From Coq Require Import String Ascii List Bool Arith NArith.
From Verif Require Import ModelStr ModelTestUtils.
Import ListNotations.
Local Open Scope string_scope.
Local Open Scope list_scope.

(** A directive of a page: [currentmodule], [automodule], [autoclass] or [autofunction], and [autosummary] with its lines. *)
Inductive directive := Current (m : string) | AutoModule (m : string) | Auto (name : string) | Summary (names : list string).
(** [m.n]. coverage_check.py:30 [module_name + "." + name]; autodoc puts names together in the same way. *)
Definition dotted (m n : string) : string := (m ++ "." ++ n)%string.
(** The objects that a page documents, in order. [importable]: autodoc finds the object; if not it warns and adds nothing. [automodule] adds the
    module itself and makes it the current one, as [currentmodule] does. [autosummary] is a table of links and adds nothing. *)
Fixpoint documented (importable : string -> bool) (current : string) (page : list directive) : list string :=
  match page with
  | [] => []
  | Current m :: page => documented importable m page
  | AutoModule m :: page => (if importable m then [m] else []) ++ documented importable m page
  | Auto n :: page => (if importable (dotted current n) then [dotted current n] else []) ++ documented importable current page
  | Summary _ :: page => documented importable current page
  end.

(** coverage_check.py:26-31 [haiku_public_symbols], with the modules already found. [all m] is the module's [__all__]; [None]: it has none, which
    raises an AttributeError. A set: [put] adds a name unless it is there. *)
Definition has (x : string) (l : list string) : bool := existsb (String.eqb x) l.
Definition put (l : list string) (x : string) : list string := if has x l then l else l ++ [x].
Fixpoint symbols (I : interp) (all : nat -> option (list string)) (ms : list nat) (names : list string) : option (list string) :=
  match ms with
  | [] => Some names
  | m :: ms =>
      match all m with
      | Some l => symbols I all ms (fold_left put (map (dotted (mod_name I m)) l) names)
      | None => None
      end
  end.
(** What can come of [finish]: it returns, it raises the [SphinxError] that lists names, or the search or a missing [__all__] raises. *)
Inductive outcome := Covered | Undocumented (names : list string) | Broken.
(** [sorted] of names. *)
Fixpoint insert_name (x : string) (l : list string) : list string :=
  match l with [] => [x] | y :: l => if str_leb x y then x :: y :: l else y :: insert_name x l end.
Definition sort_names (l : list string) : list string := fold_right insert_name [] l.
(** coverage_check.py:45-53 [finish]; [objects] is the table of documented objects. The outer option is the fuel of the search. *)
Definition finish (I : interp) (all : nat -> option (list string)) (fuel root : nat) (objects : list string) : option outcome :=
  option_map (fun found =>
    match found with
    | None => Broken
    | Some ms =>
        match symbols I all ms [] with
        | None => Broken
        | Some names =>
            match filter (fun n => negb (has n objects)) names with
            | [] => Covered
            | missing => Undocumented (sort_names missing)
            end
        end
    end) (find_internal_python_modules I fuel root).

(** ** The library and its page *)
(** haiku/__init__.py:107-193. *)
Definition all_init : list string :=
  [
    "AvgPool"; "BatchApply"; "BatchNorm"; "Bias"; "Conv1D"; "Conv1DLSTM"; "Conv1DTranspose"; "Conv2D"; "Conv2DLSTM"; "Conv2DTranspose"; "Conv3D";
    "Conv3DLSTM"; "Conv3DTranspose"; "ConvND"; "ConvNDTranspose"; "DeepRNN"; "DepthwiseConv2D"; "EMAParamsTree"; "Embed"; "EmbedLookupStyle";
    "ExponentialMovingAverage"; "Flatten"; "GRU"; "GroupNorm"; "IdentityCore"; "InstanceNorm"; "LSTM"; "LSTMState"; "LayerNorm"; "Linear"; "MaxPool";
    "Module"; "MultiHeadAttention"; "PRNGSequence"; "Params"; "RNNCore"; "ResetCore"; "Reshape"; "SNParamsTree"; "Sequential"; "SpectralNorm";
    "State"; "Transformed"; "TransformedWithState"; "VanillaRNN"; "avg_pool"; "cond"; "eval_shape"; "data_structures";
    "deep_rnn_with_skip_connections"; "dropout"; "dynamic_unroll"; "expand_apply"; "fori_loop"; "get_parameter"; "get_state"; "grad"; "initializers";
    "jit"; "max_pool"; "maybe_next_rng_key"; "multinomial"; "nets"; "next_rng_key"; "next_rng_keys"; "one_hot"; "pad"; "remat"; "reserve_rng_keys";
    "running_init"; "scan"; "set_state"; "static_unroll"; "switch"; "testing"; "to_module"; "transform"; "transform_with_state"; "transparent";
    "value_and_grad"; "vmap"; "while_loop"; "with_rng"; "without_apply_rng"; "without_state"
  ].
(** haiku/data_structures.py:27-36. *)
Definition all_data_structures : list string :=
  [
    "filter"; "map"; "merge"; "partition"; "to_mutable_dict"; "to_immutable_dict"; "tree_bytes"; "tree_size"
  ].
(** haiku/experimental.py:41-60. *)
Definition all_experimental : list string :=
  [
    "abstract_to_dot"; "ArraySpec"; "eval_summary"; "custom_creator"; "custom_getter"; "intercept_methods"; "lift"; "MethodContext";
    "MethodInvocation"; "ModuleDetails"; "name_scope"; "named_call"; "optimize_rng_use"; "GetterContext"; "ParamContext"; "profiler_name_scopes";
    "tabulate"; "to_dot"
  ].
(** haiku/initializers.py:28-38. *)
Definition all_initializers : list string :=
  [
    "Constant"; "Orthogonal"; "Identity"; "Initializer"; "RandomNormal"; "RandomUniform"; "TruncatedNormal"; "UniformScaling"; "VarianceScaling"
  ].
(** haiku/nets.py:29-41. *)
Definition all_nets : list string :=
  [
    "ResNet"; "ResNet18"; "ResNet34"; "ResNet50"; "ResNet101"; "ResNet152"; "ResNet200"; "MLP"; "MobileNetV1"; "VectorQuantizer"; "VectorQuantizerEMA"
  ].
(** haiku/pad.py:25-33. *)
Definition all_pad : list string :=
  [
    "PadFn"; "causal"; "create"; "full"; "reverse_causal"; "same"; "valid"
  ].
(** haiku/testing.py:19-21. *)
Definition all_testing : list string :=
  [
    "transform_and_run"
  ].
(** haiku/typing.py:20-23. *)
Definition all_typing : list string :=
  [
    "Params"; "State"
  ].
(** docs/api.rst: its directives, in order. Options and text between them are left out. *)
Definition api : list directive :=
  [
    Current "haiku"; Summary ["transform"; "transform_with_state"; "without_apply_rng"; "without_state"; "transform"; "~~~~~~~~~"]; Auto "transform";
    Auto "transform_with_state"; Auto "without_apply_rng"; Auto "without_state";
    Summary ["Module"; "to_module"; "get_parameter"; "get_state"; "set_state"; "transparent"; "Module"; "~~~~~~"]; Auto "Module"; Auto "to_module";
    Auto "get_parameter"; Auto "get_state"; Auto "set_state"; Auto "transparent";
    Summary ["PRNGSequence"; "next_rng_key"; "next_rng_keys"; "maybe_next_rng_key"; "reserve_rng_keys"; "with_rng"; "PRNGSequence"; "~~~~~~~~~~~~"];
    Auto "PRNGSequence"; Auto "next_rng_key"; Auto "next_rng_keys"; Auto "maybe_next_rng_key"; Auto "reserve_rng_keys"; Auto "with_rng";
    Summary ["LSTMState"; "Params"; "State"; "Transformed"; "TransformedWithState"; "LSTMState"; "~~~~~~~~~"]; Auto "LSTMState"; Auto "Params";
    Auto "State"; Auto "Transformed"; Auto "TransformedWithState"; Summary ["Linear"; "Bias"; "Linear"; "~~~~~~"]; Auto "Linear"; Auto "Bias";
    Current "haiku"; Summary ["avg_pool"; "AvgPool"; "max_pool"; "MaxPool"; "Average Pool"; "~~~~~~~~~~~~"]; Auto "avg_pool"; Auto "AvgPool";
    Auto "max_pool"; Auto "MaxPool"; Summary ["dropout"; "dropout"; "~~~~~~~"]; Auto "dropout"; Summary ["Sequential"; "Sequential"; "~~~~~~~~~~"];
    Auto "Sequential"; Current "haiku";
    Summary ["ConvND"; "Conv1D"; "Conv2D"; "Conv3D"; "ConvNDTranspose"; "Conv1DTranspose"; "Conv2DTranspose"; "Conv3DTranspose"; "DepthwiseConv2D"; "DepthwiseConv2D"; "ConvND"; "~~~~~~"];
    Auto "ConvND"; Auto "Conv1D"; Auto "Conv2D"; Auto "Conv3D"; Auto "ConvNDTranspose"; Auto "Conv1DTranspose"; Auto "Conv2DTranspose";
    Auto "Conv3DTranspose"; Auto "DepthwiseConv2D"; Auto "SeparableDepthwiseConv2D"; Current "haiku";
    Summary ["BatchNorm"; "GroupNorm"; "InstanceNorm"; "LayerNorm"; "SpectralNorm"; "ExponentialMovingAverage"; "SNParamsTree"; "EMAParamsTree"; "BatchNorm"; "~~~~~~~~~"];
    Auto "BatchNorm"; Auto "GroupNorm"; Auto "InstanceNorm"; Auto "LayerNorm"; Auto "SpectralNorm"; Auto "ExponentialMovingAverage";
    Auto "SNParamsTree"; Auto "EMAParamsTree"; Current "haiku";
    Summary ["RNNCore"; "dynamic_unroll"; "static_unroll"; "expand_apply"; "VanillaRNN"; "LSTM"; "GRU"; "DeepRNN"; "deep_rnn_with_skip_connections"; "ResetCore"; "IdentityCore"; "Conv1DLSTM"; "Conv2DLSTM"; "Conv3DLSTM"; "RNNCore"; "~~~~~~~"];
    Auto "RNNCore"; Auto "dynamic_unroll"; Auto "static_unroll"; Auto "expand_apply"; Auto "VanillaRNN"; Auto "LSTM"; Auto "GRU"; Auto "DeepRNN";
    Auto "deep_rnn_with_skip_connections"; Auto "ResetCore"; Auto "IdentityCore"; Auto "Conv1DLSTM"; Auto "Conv2DLSTM"; Auto "Conv3DLSTM";
    Current "haiku"; Auto "MultiHeadAttention"; Current "haiku"; Summary ["Reshape"; "Flatten"; "BatchApply"; "Reshape"; "~~~~~~~"]; Auto "Reshape";
    Auto "Flatten"; Auto "BatchApply"; Current "haiku"; Summary ["Embed"; "EmbedLookupStyle"; "Embed"; "~~~~~"]; Auto "Embed";
    Auto "EmbedLookupStyle"; AutoModule "haiku.initializers";
    Summary ["Initializer"; "Constant"; "Identity"; "Orthogonal"; "RandomNormal"; "RandomUniform"; "TruncatedNormal"; "VarianceScaling"; "UniformScaling"; "Initializer"; "~~~~~~~~~~~"];
    Auto "Initializer"; Auto "Constant"; Auto "Identity"; Auto "Orthogonal"; Auto "RandomNormal"; Auto "RandomUniform"; Auto "TruncatedNormal";
    Auto "VarianceScaling"; Auto "UniformScaling"; AutoModule "haiku.pad";
    Summary ["PadFn"; "create"; "causal"; "full"; "reverse_causal"; "same"; "valid"; "PadFn"; "~~~~~"]; Auto "PadFn"; Auto "create"; Auto "causal";
    Auto "full"; Auto "reverse_causal"; Auto "same"; Auto "valid"; AutoModule "haiku.nets"; Auto "MLP"; Auto "MobileNetV1";
    Summary ["ResNet"; "ResNet.BlockGroup"; "ResNet.BlockV1"; "ResNet.BlockV2"; "ResNet18"; "ResNet34"; "ResNet50"; "ResNet101"; "ResNet152"; "ResNet200"; "ResNet"; "~~~~~~"];
    Auto "ResNet"; Auto "ResNet18"; Auto "ResNet34"; Auto "ResNet50"; Auto "ResNet101"; Auto "ResNet152"; Auto "ResNet200";
    Summary ["VectorQuantizer"; "VectorQuantizerEMA"; "VectorQuantizer"; "~~~~~~~~~~~~~~~"]; Auto "VectorQuantizer"; Auto "VectorQuantizerEMA";
    Current "haiku"; Summary ["cond"; "fori_loop"; "scan"; "switch"; "while_loop"; "cond"; "~~~~"]; Auto "cond"; Auto "fori_loop"; Auto "scan";
    Auto "switch"; Auto "while_loop"; Summary ["eval_shape"; "grad"; "jit"; "remat"; "value_and_grad"; "vmap"; "eval_shape"; "~~~~~~~~~~"];
    Auto "eval_shape"; Auto "grad"; Auto "jit"; Auto "remat"; Auto "value_and_grad"; Auto "vmap"; AutoModule "haiku.experimental";
    Summary ["custom_creator"; "custom_getter"; "GetterContext"; "intercept_methods"; "MethodContext"; "custom_creator"; "~~~~~~~~~~~~~~"];
    Auto "custom_creator"; Auto "custom_getter"; Auto "GetterContext"; Auto "ParamContext"; Auto "intercept_methods"; Auto "MethodContext";
    Summary ["named_call"; "profiler_name_scopes"; "named_call"; "~~~~~~~~~~"]; Auto "named_call"; Auto "profiler_name_scopes";
    Summary ["to_dot"; "abstract_to_dot"; "abstract_to_dot"; "~~~~~~~~~~~~~~~"]; Auto "abstract_to_dot"; Auto "to_dot";
    Summary ["tabulate"; "eval_summary"; "ArraySpec"; "MethodInvocation"; "ModuleDetails"; "tabulate"; "~~~~~~~~"]; Auto "tabulate";
    Auto "eval_summary"; Auto "ArraySpec"; Auto "MethodInvocation"; Auto "ModuleDetails"; Summary ["name_scope"; "lift"; "name_scope"; "~~~~~~~~~~"];
    Auto "name_scope"; Auto "lift"; Summary ["optimize_rng_use"; "optimize_rng_use"; "~~~~~~~~~~~~~~~~"]; Auto "optimize_rng_use"; Current "haiku";
    AutoModule "haiku.data_structures";
    Summary ["filter"; "map"; "merge"; "partition"; "to_immutable_dict"; "to_mutable_dict"; "tree_bytes"; "tree_size"; "filter"; "~~~~~~"];
    Auto "filter"; Auto "map"; Auto "merge"; Auto "partition"; Auto "to_immutable_dict"; Auto "to_mutable_dict"; Auto "tree_bytes"; Auto "tree_size";
    AutoModule "haiku.testing"; Summary ["transform_and_run"; "transform_and_run"; "~~~~~~~~~~~~~~~~~"]; Auto "transform_and_run"; AutoModule "haiku";
    Summary ["running_init"; "running_init"; "~~~~~~~~~~~~"]; Auto "running_init"; AutoModule "haiku";
    Summary ["multinomial"; "one_hot"; "multinomial"; "~~~~~~~~~~~"]; Auto "multinomial"; Auto "one_hot"
  ].
(** The modules that names of the package stand for: 0 is haiku/__init__.py:17-22, whose other names are no modules, and which deletes [_src] in
    lines 205-208; 1 to 6 are the modules it imports, which bind no modules; 7 is haiku/typing.py, which no module imports; 8 stands for all
    objects that are no modules. *)
Definition library : interp :=
  Interp (fun o => match o with 0 => [1; 2; 3; 4; 5; 6; 8] | _ => [8] end)
    (fun o => Nat.ltb o 8)
    (fun o => match o with 0 => "haiku" | 1 => "haiku.data_structures" | 2 => "haiku.experimental" | 3 => "haiku.initializers" | 4 => "haiku.nets"
                         | 5 => "haiku.pad" | 6 => "haiku.testing" | 7 => "haiku.typing" | _ => "" end).
Definition library_all (o : nat) : option (list string) :=
  match o with
  | 0 => Some all_init | 1 => Some all_data_structures | 2 => Some all_experimental | 3 => Some all_initializers | 4 => Some all_nets
  | 5 => Some all_pad | 6 => Some all_testing | 7 => Some all_typing | _ => None
  end.

# Formal model of dm-haiku: design

Prover: Rocq/Coq 8.16.1, sources in `rocq/theories` (logical path `Verif`).

## Layout

* `Model*.v` files: executable Gallina definitions transcribing functions of `/repo`, each
  with a file/line citation and a note of every simplification. No proofs.
* `Spec*.v` files: small specifications that do not mention the model's helpers.
* `Proofs*.v` files: lemmas.
* `Properties*.v` files: the theorems claimed in `MANIFEST.json`, each followed by
  `Print Assumptions`, plus `Example`s showing that hypotheses are met by concrete cases.

## Central model (C01-C28, C61)

User code that runs inside `hk.transform` is an element of an inductive type `prog`
(free-monad style: `Ret`, `Raise`, `Bind p k` with an arbitrary Coq function `k : val -> prog`,
`TryExcept`, one constructor per Haiku API call, and one constructor per scoping construct
with an arbitrary sub-program). Callbacks that Haiku stores in its stacks (initializers,
creators, getters, interceptors, recursive user functions) are looked up in a `code` table of
arbitrary functions into `prog`. An interpreter `run : fuel -> prog -> world -> outcome * world`
transcribes `base.py`, `module.py`, `stateful.py`, `transform.py` over a `world` that holds the frame stack
(params, frozen flag, state pairs, rng stack, module stack, counters, used names), the
creator/getter/interceptor stacks and the heap of module objects. Python exceptions are values.
Fuel exhaustion is a separate outcome, so theorems that assume a normal or exceptional
outcome hold for every terminating execution with no bound on its length.

Trusted simplifications of the central model: see the comments on each definition. The
important ones: JAX itself is replaced by its documented meaning (`jax.jit f x` = `f x`; `lax.cond`
traces both branches and selects one, requiring equal structure; `lax.scan`/`fori_loop`/`while_loop`
iterate; `vmap` runs lanes from a common state); `jax.random.split` is a free constructor
on keys; Python `is` is an arbitrary *sound* identity test (`same a b = true -> a = b`); dictionaries
are finite maps (insertion order is not modelled in the central model).

## Property plan

| id | how it is modelled and proved |
|----|------|
| C01 | invariant of `run` over all programs (one induction over fuel), all stacks compared before/after, exceptional exits included |
| C02 | same induction: frozen frames keep `params`; step lemma for `get_parameter` |
| C03 | same induction under "initializers/creators request no parameters"; refutation witness without it |
| C04, C05 | same induction (initial component stable; keys kept) + step lemmas for get/set_state |
| C06 | two-run simulation between an init run and an apply run for the operations `replay_op` of SpecReplay (state, parameters, modules, jit, name scopes, with_rng, loops at apply...); `hk.cond`/`hk.switch` are left out because the model lets the branch that is not taken depend on values; every other exclusion has a `_refuted` witness |
| C07 | keys as free terms; antichain invariant on (root, reserved, delivered) preserved by `run` |
| C08 | step theorem for `with_rng` from C01's induction |
| C09 | two-run simulation (rng = None vs Some) for the operations `rng_blind_ops` of SpecStateful; loops need a body that reserves the same number of keys (`keeps_reserve`), vmap needs lanes that end alike (`uniform_lanes`); every exclusion has a `_refuted` witness |
| C10 | frame rule: run in a world with extra outer frames |
| C11, C12 | invariant on (counters, used names) of a scope over all request histories; decimal printing/parsing lemmas |
| C13 | two-run relation (ProofsScope) between worlds differing in the caller's scopes; names of blueprint methods computed by `bp_names` (ProofsBlueprint) |
| C14, C16, C21, C22 | exact characterisation of `jit`, `cond`, `switch`, `eval_shape`, `vmap` in terms of `run` of the body |
| C15, C18(neg), C19(neg), C20(neg), C28, C61 | `_refuted` theorems with computed witnesses |
| C17-C20 | induction on the list / trip count against a Python-loop specification |
| C23 | map algebra on `difference`/`update_recursive` with an arbitrary sound identity test |
| C24, C25 | generic theorem on the shared-deque `next` protocol + instance in `run` |
| C26, C38, C39, C37, C11 | string lemmas (prefixes, last slash, regular expressions as recursive matchers) |
| C27 | map algebra with string prefixes |
| C29, C30 | operational model of `PRNGSequence`, induction over operation lists |
| C31 | per-thread storages (`ModelThreads`), theorem over all schedules |
| C32, C62 | small-step models with explicit interleaving (`ModelThreads`) / explicit addresses and an arbitrary allocator (`ModelObjects`), positive part + refutations |
| C33, C34 | nested dictionaries with explicit container kinds and a heap for aliasing |
| C35, C36 | finite maps of finite maps |
| C40-C46 | arithmetic over Z/nat (lia/nia), list models of 1-D convolution |
| C47 | list induction |
| C48, C49, C53, C55-C57 | exact real arithmetic (stdlib Reals) - floating point rounding is not modelled |
| C50-C52 | list induction over arbitrary cores |
| C54 | list/ring model |
| C58 | state machine of the context-manager object over all histories (`ModelObjects`) |
| C59 | trace semantics of nested calls, exceptions included (`ModelObjects`) |
| C60 | function-level model |
| C63 | shape arithmetic of `ConvND` against lax's shape rule, both data formats, batched and unbatched |
| C64 | string lemmas (the replacement is injective on ordinary paths) on top of C12's numbering theorem |
| C65 | invariant on the moving averages over all call histories, refined to weighted sums over the assignments; Gibbs' inequality for the perplexity |
| C66 | windows as products of per-axis index lists, characterised by their members |
| C67-C69 | exact real arithmetic; softmax is shift invariant, weights as a convex combination, Cauchy-Schwarz for the power iteration |
| C70 | exact real arithmetic; reshape and moveaxis on index functions; Bessel's inequality for square matrices |
| C71 | Sequential as a run of effectful layers; BatchApply/expand_apply from row-wise functions |
| C72 | expectation over all masks by induction on the length; counting draws on the grid k/N |
| C73 | both directions of the accepted language by induction on the string; loop invariant of the unit; injectivity of joined digit strings; binding the printed keywords by induction on the parameters |
| C74 | splitting at the last slash; insertion sort is a sorted permutation; case analysis on the checks of names |
| C75 | the trace's stack of graphs as a function of the run; rendering as a closed form, by induction on graphs; every value is known when an edge needs it because nodes come before nested graphs and those before edges |
| C76 | A network is a partial function from shapes to parameter shapes and result shape. `regular` (one formula for all image sizes) is closed under composition; convolutions, pooling and normalisation are regular by C63 and the SAME count; blocks by comparing the two summands; groups and stacks by induction; the named configurations by computation on the closed form. |
| C77 | `lax.conv_general_dilated` as a sum over index boxes read through haiku's dimension numbers; one formula lemma for both formats, the rest by rewriting sums |
| C78 | Both inner products as the same five-fold sum of indicator terms; per axis the taps of the transposed convolution are those of the forward one (C41), sums are swapped and the kernel index reversed |
| C79 | Masked logits are at least U below the largest unmasked one, so their weights are exactly zero; induction over layers on agreement of the rows up to t that have a token; bound on logits from LayerNorm's bounded rows |
| C80 | Invariants over the interleaving semantics: the sent trajectories are the used batches, then the learner's, the device queue's, the transfer thread's and the host queue's; flags determine program counters; a ghost number of updates for each trajectory. Hangs by case analysis of the blocked threads; absence of hangs by a measure; refutations by building schedules for all sizes |
| C81 | Both loops as a run over blocks of keys; windows of the rollout by induction on the blocks, with the kept transition as the overlap; keys distinct because ancestors at one depth of the split tree are unique |
| C82 | Invariant with a conserved count of trajectories; a measure that every step lowers by one |
| C83 | Lookup in patched dictionaries commutes with patching; renumbering by the invariant of C12 |
| C84 | Shapes from C63, values from C77; locality and bounds by induction over the sequence; kernels of size one from `C77_pointwise` |
| C85 | The two index maps are inverse; cells from C46 and C68; permutation invariance of mean and variance |
| C86 | Counting over any permutation and any sort that orders the scores; induction over the training steps for the masks |
| C87 | Closed form of the section bounds; induction over the batch dimensions; linear arithmetic for the crop |
| C88 | Invariant of the checkpoint directory over sequences of processes; order of fixed-width decimals |
| C89 | Loop invariant of fori_loop; windows by induction |
| C90 | Monotonicity of the cosine, 1 + x <= exp x, sums over lists; names by an absent letter |
| C91 | A run depends on the frame below and the key counter only through themselves (`run_graft`, `run_draws`); induction over scripts |
| C92 | Invariant of the search (visited, to visit, found); induction over the lists |
| C93 | The value_and_grad wrapper as an instance of the functional embedding proved for hk.jit; the derivative is a parameter |
| C94 | Relations between arrays (same image, multiple of an image, equal batches) preserved by every layer, composed along the networks; an invariant of the groups' outputs for the depth |
| C95 | The relations of C94 between single examples of two batches, carried through BatchApply; induction over the steps for the state of the core; convolutions from C77 |
| C96 | An inductive class of modules closed under composition; a Hoare-style invariant on the types of state and parameters asked for, one lemma per module; induction over layers, steps and compositions |
| C97 | Pairs of adjacent steps; the errors by recursion over a trajectory, equal to the slices of the code; induction over trajectories; Gibbs' inequality for the entropies; C95 for the networks |
| C98 | `dispatch` against a declarative `binds` (permutations of keywords); C16 for the run; induction over the calls of the memoized function, with lifetimes |
| C99 | A logic of agreement between the strict and the lenient run over states whose ranks fit an assignment; rules for sequencing and elementwise operations; induction over networks, layers and steps |
| C100 | Programs as a free monad; runs split by `run_bind`; a rerun on what a run made (`run_again`); a relation `alike` between programs that make the same requests, with rules for modules, chains and networks; the files by computation at one size and `alike` for the others; quiet programs for unrolls; induction over the sizes of an MLP |
| C101 | A lexer that skips white space outside strings, shown not to see `indent`, `strip` or line breaks between tokens; a relation `Sp` between values and token lists, with a recursive-descent reader shown to invert it; `render` shown to be in `Sp` by induction over values; the 42 lines by computation |
| C102 | `pmean` over a group shown to be the mean of the concatenated batches when batches have equal sizes; then refinement to the single-device models of ModelReal and ModelVqEma, by induction over the calls |
| C103 | Differentiation of expressions: `jvp` shown sound against `derivable_pt_lim` of the standard library, `vjp` shown to be its transpose; each module or loss written as an expression shown to have the value of the existing model, then its gradient simplified |
| C104 | Layers and cells as expressions of ModelGradients with the values of the models of ModelReal, ModelBasic and ModelNets; derivatives simplified; congruence of cells under equal values and derivatives, then induction over the steps of an unroll |
| C105 | Derivatives are linear in the direction, so the sum over replicas of the partial derivatives is the derivative along all copies at once, which renaming turns into the single-device one; `same` values and derivatives for means of means; induction over the steps |
| C106 | Bilinearity of `lax_conv` gives the derivative; reverse mode (C103_reverse) reads it off in the direction of one entry; C77_formula for weights and bias, C78_adjoint for the input; for pooling C66_window, and a strict maximum stays the maximum nearby |
| C107 | Softmax without the subtraction has equal values and derivatives everywhere, and is differentiable (C103_sound); reverse mode in the direction of one entry; C67_masked bounds the weight of a masked position |
| C108 | The inputs that the slow loop has appended are what the fast loop has produced (induction over steps); epochs by induction over batches; div/mod arithmetic; C40 and C78_default_shape for sizes; u + 1/u >= 2 |
| C109 | One induction over interaction trees relates the frames before and after a run; a second shows that outcome and frames are independent of what lies below; simulation of init by apply as long as no path is asked for twice; split_slash inverts the joining of paths |
| C110 | C35 and C36 give the entries of merged structures; partial derivatives of functions that agree are equal, and unique; induction over steps; sums over permutations |
| C111 | C92 for the modules found; membership in sets and sorting as in C92; induction over the page with the current module; computation on the pinned page |
| C112 | Induction over the size of trees; names are split at their last dot in one way; induction over the lines and over the attributes |

## What each model file covers

| file | code | what is left out |
|----|----|----|
| ModelStr | module.py:442-443, 576-583, utils.py:245-246, string helpers of base.py | characters outside ASCII; SpecStr restates the regular expressions with explicit character lists |
| ModelRng | base.py:491-647 (PRNGSequence and rng functions) | `jax.random.split` is a free constructor; key arrays are not checked for dtype/shape |
| ModelCore | base.py, module.py:64-618, stateful.py:31-633, transform.py, lift.py, random.py | `profiler_name_scopes`, docstrings, `value_and_grad` (see ModelGrad), dtypes beyond equality |
| ModelDict | filtering.py:29-167 | iteration order of the input is the list order |
| ModelTree, ModelHeap | data_structures.py:98-242 (FlatMapping, to_(im)mutable_dict), as trees and with aliasing | pickling, weak references; the text is in ModelRepr |
| ModelWith | base.py:362-472 + contextlib generator objects | generator objects are dropped exactly when the program says so |
| ModelTransform | transform.py:38-302 (wrappers) | |
| ModelShape | pad.py, conv.py:45-215, 419-452, pool.py:32-50, bias.py, reshape.py, basic.py:184-264, group_norm.py | values; only sizes, windows and which elements are combined |
| ModelRnn | recurrent.py unrolls, ResetCore, DeepRNN | cores are arbitrary functions |
| ModelNets | nets/mlp.py, embed.py | arithmetic of the activations |
| ModelReal | moving_averages.py, batch_norm.py, nets/vqvae.py, basic.py:55-83, recurrent.py cells | rounding: numbers are reals |
| ModelThreads | data_structures.py:39-95, base.py:571-647 with threads | the Python memory model below one operation |
| ModelObjects | module.py:298-334, summarise.py:95-157, base.py:806-846 | |
| ModelParamsTree | moving_averages.py:138-214, spectral_norm.py:138-217: which modules are requested, in which order | what the modules compute (C48, C65 ff.) |
| ModelVqEma | nets/vqvae.py:157-337 | rounding; `cross_replica_axis` is in ModelReplicas, gradients in ModelGradients |
| ModelPool | pool.py:79-148 | rounding |
| ModelLayers | attention.py:36-94, layer_norm.py:36-190, spectral_norm.py:45-138 (matrix case) | rounding; broadcasting of masks and head sizes of 1; the reshape of arrays of rank 3 and more in SpectralNorm is only followed in its shapes |
| ModelInit | initializers.py:33-291 | the random generators and the QR decomposition (given with their contract), dtypes, broadcasting of constants |
| ModelBasic | basic.py:87-127 (Sequential with arbitrary effects), 184-257 (BatchApply on lists of leaves), 260-290, 293-315 (dropout, exact), 324-367 (name only) | the pytree structure of arguments (a list of leaves), the generator of masks |
| ModelUtils | utils.py 41-107 (which arguments auto_repr prints), 133-171, 174-246, 249-273; summarise.py 219-233, 301-383 (rows) | line breaking is in ModelRepr; text layout by the tabulate package; Decimal beyond 28 digits |
| ModelDot | dot.py 36-51, 135-163, 203-236, 247-256, 268-397 | the tracer's lifting; style sheet and attributes; formatted types in labels; primitives without outputs; exceptions during the trace |
| ModelImageNets | nets/resnet.py:38-383, nets/mobilenetv1.py:51-155, depthwise_conv.py:49-197 (shapes) | values, is_training and batch statistics (state), parameter names, tuple strides, bn_config that switches scale or offset off, logits_config |
| ModelConv | conv.py:60-215, 455-592, depthwise_conv.py:49-197 (values) | rounding; `lax` is its documented meaning; initializers (C70) |
| ModelTransformer | examples/transformer/model.py:25-122, train.py:63-110 | rounding other than the flush to zero of the exponential, broadcasting of sizes 1, the random generator of dropout (its factors are given), the batch axis; `gelu` is an arbitrary function |
| ModelImpala | examples/impala/learner.py:52-217, actor.py:33-103, run_catch.py:40-99; examples/impala_lite.py:158-260 | what unroll and update compute (arbitrary functions); threads interleave at queue operations, flags and the published pair; the queue's timeout is a step that may happen whenever the queue is empty; logging |
| ModelActor | examples/impala/actor.py:50-103, agent.py:74-105, learner.py:90-103; impala_lite.py:158-191 | environment, network and sampling are arbitrary functions (for the networks of the example see C95) |
| ModelClass | module.py:61-147, 378-398, 474-501, 536-553: class dictionaries, wrapping, construction, names | descriptors other than functions and properties; MRO computation (any list of classes); `abc` |
| ModelConvLSTM | recurrent.py:317-405: shapes with broadcasting, values for states of the shape of the gates | rounding; Conv1D/2D/3DLSTM only fix the number of axes |
| ModelGroupNorm | group_norm.py:140-213: values of one call with one shape | rounding; later calls with other shapes are C46 |
| ModelTopk | mnist_pruning.py:35-76, 300: topk_mask with shuffle and sort as parameters, zhugupta_func, progress | rounding of floats: scores and densities are rationals |
| ModelPruning | mnist_pruning.py:79-170, 199-305: partitions, apply_mask, update_mask, the training loop with the optimizer as a parameter | the optimizer and the network, which may be any functions |
| ModelImagenet | imagenet/dataset.py:31-158, 233-253, imagenet/train.py:194-230, mnist.py:43-54 | decoding, shuffling, prefetching; 7/8 times a size is exact |
| ModelCheckpoint | transformer/train.py:111-246, transformer/dataset.py:28-58 | network, gradient and optimizer are parameters; a file is complete or unreadable |
| ModelSampling | rnn/train.py:98-124, rnn/dataset.py:27-51 | network and categorical are parameters; shuffling |
| ModelTraining | imagenet/train.py:81-176, 253-254, vae.py:129-178, mnist.py:63-72, 96-102, names of resnet.py's modules | rounding; gradients (for the losses see C103) and optimizer are parameters |
| ModelJitCache | stateful.py:335-364 with jax.jit's cache of traces | outer transformations (which trace again) |
| ModelTestUtils | test_utils.py:86-156 | transform_and_run (an init followed by an apply, see C06) |
| ModelGrad | stateful.py:95-227 | what JAX's derivative is (a parameter) |
| ModelImageValues | nets/resnet.py:97-117, 183-231, 363-383; nets/mobilenetv1.py:66-155; batch_norm.py:155-196 (values) | update of the averages (in ModelReal), rounding |
| ModelAtari | examples/impala/haiku_nets.py, util.py:29-39, agent.py:85-92; basic.py:201-214, 245-258 and reshape.py:107-118 (values) | element types; ResetCore and dynamic_unroll are written row by row (C50, C51) |
| ModelDtype | the element types of basic.py, bias.py, conv.py, depthwise_conv.py, moving_averages.py, batch_norm.py, layer_norm.py, group_norm.py, spectral_norm.py, attention.py, embed.py, pool.py, recurrent.py, initializers.py, nets/{mlp,resnet,mobilenetv1,vqvae}.py, examples/imagenet/train.py:59-60, 152-176 | shapes and values; unsigned, complex and other integer types; JAX's promotion rules and lax's type checks are taken from its documentation |
| ModelVtrace | examples/impala/learner.py:37-51, 90-140; examples/impala_lite.py:96-149 | the functions of rlax (external, written from its documentation), rounding, gradients (see C103), the metrics dictionary |
| ModelCond | stateful.py:383-446 | a branch function that is given twice is traced once by JAX thanks to the cache; the central model runs each branch |
| ModelRank | the `__call__` methods of basic.py, bias.py, conv.py, depthwise_conv.py, moving_averages.py, batch_norm.py, layer_norm.py, group_norm.py, spectral_norm.py, attention.py, embed.py, pool.py, recurrent.py, nets/*, initializers.py; examples/transformer/model.py, train.py:66-88 | sizes and values; the functions of JAX (`one_hot`, `qr`, `softmax`, `var`) are taken not to promote |
| ModelFormat | integration/checkpoint_utils.py, integration/descriptors.py:27-303, the constructors and `__call__` methods of the modules named there, base.py:237-302, 656-752, module.py:393-440, 556-601, recurrent.py:79-186 | element types and shapes only; initializers, custom creators and getters are left out; the line "module" of a file is in ModelRepr; a program that raises gives no result |
| ModelCheckpoints | integration/checkpoints/*.json | generated from the files by tools/gen_checkpoints.py |
| ModelRepr | utils.py:30-118, data_structures.py:85-95, 123-126, 208-219, 277-289, checkpoint_utils.py:32-35; `repr`, `str.splitlines`, `str.strip` and `pprint.pformat` of Python | characters below 256; floats by their digits, without exponents, `inf` and `nan`; other objects by their `repr`; values contained in themselves left out |
| ModelReprFiles | the constructors' signatures, the calls in integration/descriptors.py and the line "module" of integration/checkpoints/*.json | generated by tools/gen_reprs.py |
| ModelReplicas | batch_norm.py:70-117, 164-182, nets/vqvae.py:200, 231, 294-304, 319-322 on several replicas | rounding; one feature of BatchNorm; replicas run in lockstep and have batches of one size; gradients of `psum` are in ModelDataParallel |
| ModelGradients | gradients of nets/vqvae.py:112-139, 274-317, spectral_norm.py:94-135, batch_norm.py:155-196, layer_norm.py, and of the losses of examples mnist.py, transformer/train.py, vae.py, impala | rounding; points where a derivative does not exist (square root and logarithm at 0); one feature of the norms; which primitives JAX differentiates with which rule is written from its documentation |
| ModelBackprop | gradients of basic.py:159-183, 293-315, nets/mlp.py:109-118 (relu, no dropout), embed.py:124-169, recurrent.py:79-186, 227-232, 292-307, 530-555, 590-676 | rounding; rank-1 inputs; scalar reset flags; the rule of JAX for `relu` at 0 is written from its documentation |
| ModelDataParallel | imagenet/train.py:106-176 on several replicas, with batch_norm.py:164-182 without groups | that the transpose of `psum` is `psum` is taken from JAX's documentation; the network and the optimizer are parameters; bfloat16 |
| ModelConvGrad | conv.py:151-215, 528-592, depthwise_conv.py:100-134, 165-197, pool.py:79-148 as expressions of ModelGradients | that the derivative of `reduce_window` with `max` goes to the first of several largest entries is a modelling choice (XLA's select-and-scatter with `>=`); the mask is constant; rounding |
| ModelAttGrad | attention.py:61-94 as expressions of ModelGradients | one batch element; the mask is constant; rounding (with 32-bit floats exp(-1e30) is 0 and masked positions get exactly no gradient) |
| ModelNotebooks | the cells of examples/haiku_lstms.ipynb, mnist_gan.ipynb and vqvae_example.ipynb | networks, optimizers and random draws are parameters; `tf.data` pipelines and plotting (except the grids) are left out; rounding |
| ModelMini | docs/notebooks/build_your_own_haiku.ipynb: the finished library and its modules | arrays and `np.random.normal` are parameters; functions catch no exceptions; the ghost lists of names and paths are not in the code; the earlier versions (global `current_params`, Frame without modules) and the training loop are left out |
| ModelFreeze | docs/notebooks/non_trainable.ipynb: `loss_fn`, `sgd_step`, `train_step`, `dataset` | arrays are lists of real numbers; `jax.grad` is any structure of partial derivatives; the network and the cross-entropy of one example are parameters; rounding |
| ModelDocs | docs/ext/coverage_check.py; the directives of docs/api.rst; the `__all__` of haiku/*.py | of Sphinx only which names a page's directives add to the table of objects; members of classes; other pages |
| ModelPackaging | setup.py; docs/conf.py: `linkcode_resolve` | of setuptools only `find_namespace_packages`, without symbolic links, patterns without brackets; `exec`, `inspect` and `os.path.relpath` are parameters; the other arguments of `setup` are left out |

SpecNames, ProofsScope, ProofsQuiet and ProofsBlueprint carry C13: SpecNames defines "blueprint" bodies (module
constructions, calls, parameters, name scopes) and the names they give; ProofsScope relates two runs in worlds that
differ only in what the callers' name scopes have counted. SpecReplay and ProofsReplay carry C06.

## Trusted base

* Coq 8.16.1's kernel, including its `vm_compute` conversion, which Examples and witnesses use.
* Axioms: none of our own. `ASSUMPTIONS.md` (regenerate with `tools/gen_assumptions.py`) lists what `Print Assumptions` says for every
  theorem: all are closed except those about real numbers, which use the standard library's
  `ClassicalDedekindReals.sig_forall_dec`, `ClassicalDedekindReals.sig_not_dec` and
  `FunctionalExtensionality.functional_extensionality_dep` (and `Classical_Prop.classic` where listed).
* Libraries: the standard library and std++ (definitions and closed lemmas only).
* That the model says what the code does: each definition cites its lines; the simplifications are those stated above
  and in the comments. JAX is replaced by its documented meaning.

## Findings

Statements that are natural to expect, often documented, and false; each has a theorem with a concrete witness.

* `C03_reentrant_initializer_refuted`: an initializer that requests the parameter being created gets its value overwritten: the first value is lost.
* `C06_eval_shape_refuted`, `C06_scan_refuted`, `C06_try_refuted`, `C06_creator_refuted`, `C06_running_init_refuted`, `C06_keys_refuted`, `C06_none_refuted`: uses of the API for which apply on init's own outputs does not replay init.
* `C07_while_cond_refuted`: a `while_loop` condition may take a reserved key; the same key is handed out again after the loop.
* `C09_while_refuted`, `C09_maybe_refuted`, `C09_try_refuted`: functions that succeed without an rng and behave differently with one.
* `C10_creators_reach_inside_refuted`: creators, getters and interceptors of the outer function apply to a nested transform.
* `C12_explicit_clash_refuted`: "x_01" clashes with "x_1".
* `C14_failed_jit_key_reuse_refuted`: keys handed out during a failed `hk.jit` are handed out again.
* `C15_jit_names_refuted`: module names used inside `hk.jit` are forgotten: two calls share parameters.
* `C17_larger_block_refuted`, `C18_reverse_order_refuted`, `C18_empty_runs_body_refuted`, `C18_module_in_body_refuted`, `C19_empty_at_init_refuted`, `C20_stale_condition_refuted`: loops: key block size, order of outputs with `reverse` at init, empty loops that run the body at init, modules made in a scan body, a `while_loop` condition that reads state.
* `C24_next_twice_refuted`, `C25_creator_next_twice_refuted`, `C25_getter_next_twice_refuted`: calling `next_fn` twice skips interceptors/creators/getters.
* `C25_active_only_inside_refuted`, `C25_active_inside_refuted`, `C25_drop_other_refuted`: `custom_creator` objects: active before being entered, not active when entered again, dropping one deactivates another.
* `C26_no_collision_refuted`, `C38_slash_refuted`: a slash in a parameter name makes `params_dict` lose entries and getters see a wrong module name.
* `C27_twice_refuted`: a lifted module can be called once only during init.
* `C28_init_refuted`, `C28_apply_refuted`: `optimize_rng_use` makes working functions fail.
* `C29_take_vs_next_refuted`: `take(n)` and n times `next` give different keys.
* `C32_count_refuted`, `C32_missed_refuted`, `C32_leak_refuted`, `C32_keys_refuted`: counting key requests under threads.
* `C33_nested_mapping_aliased_refuted`, `C33_mutable_copy_shared_refuted`, `C34_hash_refuted`: dictionaries: aliasing, equal FlatMappings with different hashes.
* `C35_empty_modules_refuted`, `C36_map_empty_modules_refuted`: filtering loses modules without entries.
* `C39_newline_refuted`: a module name may end in a newline.
* `C40_pairs_refuted`: explicit (low, high) paddings are rejected although documented.
* `C41_empty_refuted`, `C42_axis_zero_refuted`, `C42_minus_ndim_refuted`, `C43_out_of_range_refuted`, `C44_empty_batch_refuted`: corner cases of shapes.
* `C46_batch_refuted`, `C46_groups_refuted`, `C46_second_shape_refuted`: GroupNorm with negative axes mixes examples or groups; a second input size is cut up wrongly.
* `C47_uncalled_refuted`, `C47_failed_call_refuted`: `MLP.reverse` before or after a failed call.
* `C48_decay_one_refuted`: decay 1 divides by zero.
* `C50_empty_refuted`, `C50_ragged_refuted`, `C50_carry_refuted`, `C51_scalar_refuted`: static and dynamic unroll differ on empty or ragged sequences and changing carries; ResetCore with a scalar state.
* `C54_range_refuted`, `C54_nonfinite_refuted`, `C54_zero_refuted`: Embed styles differ out of range and with infinities; `vocab_size=0`.
* `C55_negative_axis_refuted`: BatchNorm with a negative axis gives parameters of the wrong shape.
* `C56_short_refuted`: multinomial returns category 0 when the cumulative sum falls short.
* `C57_gru_start_refuted`: the GRU bound needs a start in [-1,1].
* `C59_none_refuted`: a caught exception leaves a `None` in the module-usage log.
* `C60_kind_refuted`, `C60_twice_refuted`: `without_apply_rng` returns a pair of the wrong type.
* `C61_state_refuted`, `C61_transform_refuted`, `C61_param_refuted`: failed reads leave residue.
* `C62_reuse_refuted`, `C62_reserved_refuted`, `C62_alias_refuted`: change detection by address misses changes.
* `C64_collision_refuted`, `C64_order_refuted`, `C64_numbered_refuted`, `C64_invalid_refuted`: EMAParamsTree/SNParamsTree: names that clash after the replacement are assigned by iteration order; numbered parameter names make the call fail; parameter names that are not identifiers are rejected.
* `C65_keep_refuted`, `C65_decay_refuted`, `C65_perplexity_refuted`: VectorQuantizerEMA: a code that is not used in the first step becomes the zero vector whatever it was initialised with; the accepted decay 1 divides by zero; the perplexity may be slightly below 1.
* `C66_window_size_refuted`: average pooling with SAME padding does not divide by the window size at the border (by design; padding does not count).
* `C67_all_masked_refuted`, `C67_query_size_refuted`: attention with every position masked attends as if there was no mask; `query_size` different from `key_size` is accepted by the constructor and fails in the call.
* `C68_channel_scale_refuted`, `C68_rank_2`: InstanceNorm with channels_first has its parameters along the last axis instead of the channels; for a rank-2 input it returns the offset.
* `C69_bounded_refuted`, `C69_small`, `C69_monotone_refuted`, `C69_norm_refuted`, `C69_zero_refuted`, `C69_scalar_refuted`, `C69_no_steps`: SpectralNorm: for a matrix with largest singular value below sqrt(eps) (0.01 by default) the state decays to zero over the calls and the result grows without bound; in general sigma comes to rest at s - eps/s; a zero matrix is divided by zero; scalars are rejected contrary to the documentation; n_steps=0 raises NameError.
* `C70_larger_axis_refuted`, `C70_uniform_scaling_refuted`, `C70_rank_deficient_refuted`: the documentation of Orthogonal has the condition for orthonormal rows reversed; UniformScaling treats a vector as having one input; a zero on R's diagonal gives a zero row.
* `C71_empty_front_refuted`, `C71_lead_mismatch_refuted`: an empty Sequential swallows the arguments meant for the first layer; BatchApply combines arguments with leading dimensions (2,3) and (3,2) without an error.
* `C72_multinomial_zero_refuted`: multinomial can return a category of probability 0 (logit minus infinity) in first position when the uniform draw is exactly 0, because it compares with `a > probs` on draws in [0, 1).
* `C73_thousand_refuted`: `format_bytes(999995)` is "1000.00 KB": the unit is chosen before rounding.
* `C73_repr_varargs_refuted`: for a class with `*args`, auto_repr prints `Foo(x=1, 5)`, which is not a valid call although the docstring promises an equivalent one.
* `C74_slash_in_name_refuted`: a parameter named `b/w` of module `a` is listed under module `a/b` in tables.
* `C75_second_output_refuted`: an edge from an output other than the first of a primitive (for example the second result of `sort`) starts at an undeclared name, which graphviz shows as a bare number; returning such an output marks no node.
* `C75_names_refuted`: the name of the i-th use of an argument is the identity followed by i without separator, so it can equal the identity of another object.
* `C75_declared_once_refuted`: a captured value used twice is declared twice.
* `C75_arg_label_refuted`: in labels of arguments only the first path element is escaped; a dictionary key with `<` breaks the label.
* `C76_block_stride_refuted`: a residual block without projection and with a stride raises on images larger than the stride, but an image of up to `stride` positions a side is shrunk to one position that broadcasts against the input, and the block silently does not downsample.
* `C76_projection_length_refuted`: `ResNet` checks the lengths of `blocks_per_group` and `channels_per_group`, but not of `use_projection`; further entries are ignored.
* `C76_mobilenet_small_refuted`: `MobileNetV1` accepts images with a side of 1 or 2 and averages over an empty feature map (NaN).
* `C75_output_path_refuted`: in the labels of outputs a key with a slash is not told from a nested key.
* `C77_separable_stride_refuted`: `SeparableDepthwiseConv2D` gives its stride for both axes to the first convolution, whose kernel is `[k0, 1]`: columns are dropped before the second kernel `[1, k1]` sees them. The result is a convolution dilated along the second axis (`C77_separable_valid` says exactly which), with another output size.
* `C77_separable_padding_refuted`: an explicit padding of `SeparableDepthwiseConv2D` is applied by both convolutions to both axes, so that the image grows.
* `C78_unflipped_refuted`: with the same kernel (not read backwards) the transposed layer is not the transpose of the forward one; `lax.conv_transpose` is called without `transpose_kernel`.
* `C79_leading_padding_refuted`: a position with only padding at or before it has a constant mask row (all logits get the same `-1e10`), so it attends to the whole sequence, future included. Also from `C79_accepts`: `SelfAttention` is built with `key_size=64`, so the example's `d_model` must be `64 * num_heads`.
* `C80_run_returns_refuted`: `Learner.run` sets `_done` and joins the transfer thread, but that thread can be blocked for ever in `_device_q.put` (no timeout, learner.py:182), because the learner no longer takes anything out. For every number of iterations, actors and batch size there is a schedule that ends so (learner.py:214-217).
* `C80_main_returns_refuted`: also when `Learner.run` returns, `main` joins actors that can be blocked for ever in `enqueue_traj`, because nobody empties `_host_q` after the transfer thread has ended (run_catch.py:95-99).
* `C80_lag_bounded_refuted`: with two actors a trajectory can be learned from any number of updates after the parameters it was made with; with one actor at most four.
* `C81_on_policy_refuted`: for a recurrent network the learner's logits differ from the actor's on every trajectory but the first, even if the learner has exactly the parameters the actor used, because the state after the kept transition was computed with the parameters before (actor.py:83-86, learner.py:96-98).
* `C83_alias_refuted`: `g = A.f` in a subclass of module `A` wraps `f` a second time: one call enters the module twice (as `g` and `f`) and runs interceptors twice (module.py:99-122).
* `C83_repr_inherited_refuted`: the metaclass gives every class its own `__repr__` (`clsdict.setdefault`, module.py:108-110), so a `__repr__` defined in a base module class is ignored in its subclasses.
* `C83_super_check_refuted`: a class with a `module_name` property passes the check for the super constructor although it did not run (module.py:139-145); `_submodules` is missing then.
* `C83_second_instance_refuted`: a class whose constructor reaches `Module.__init__` twice without a name works for its first instance (which is renamed to `name_1`) and raises "not unique" for its second, because `self.name` set by the first run is taken for a requested name (module.py:485-497).
* `C84_documented_refuted`, `C84_documented_accepted_refuted`: `ConvNDLSTM` documents `input_shape` as "shape of the inputs excluding batch size", but `initial_state` appends `output_channels` to it (recurrent.py:400), so it must be the spatial shape only. With the documented value every batched call raises; without a batch the state's first axis is taken for a batch, and for some sizes (3x3x3) the call succeeds with a result of too high a rank.
* `C85_docstring_refuted`: GroupNorm's docstring divides by sigma + eps, the code by sqrt(var + eps).
* `C86_end_refuted`: the comment in examples/mnist_pruning.py says that pruning ends at iteration 8000; the schedule's progress is 7/8 there and reaches 1 at 9000. `C86_unpruned`: the first masks that drop anything are those of step 1201, although the comment says pruning starts at 1000.
* `C86_zip_case`: apply_mask zips partitions with masks, so with too few masks the parameters of the remaining partitions are lost without an error.
* `C87_leak_refuted`: examples/imagenet trains on TRAIN_AND_VALID by default; evaluating on VALID then evaluates on training data, and nothing checks it.
* `C88_order_refuted`: `CheckpointingUpdater.init` takes the last entry of `os.listdir`, whose order is arbitrary, so a restart may go back to an old checkpoint. Sorting the names would be right below ten million steps (`C88_names`, `C88_names_refuted`). `C88_torn`: checkpoints are written in place, so a process killed while writing leaves a file on which all later ones fail. `C88_max_steps_refuted`: MAX_STEPS counts the steps of one process. `C88_lost`: the last steps of a finished training are not saved.
* `C89_clamped_refuted`: rnn/train.py's sampling loop runs one iteration too many and writes past the end of the array; this is right only because JAX drops such updates.
* `C90_first`: with a warmup, the first step of the imagenet example has learning rate 0. `C90_classes_refuted`: smooth_labels is written for 1000 classes. `C90_state_refuted`: train_step averages gradients but not the BatchNorm state, and evaluate takes the first device's. `C90_decay_name_refuted`: weight decay goes by the word batchnorm in the whole module name, so a network inside a module with that word in its name is not decayed.
* `C91_modules_refuted`, `C91_getter_refuted`, `C91_names_refuted`: a wrapper made by `hk.jit` outside the methods that call it (a global, or an attribute shared by modules) reuses the first trace when it is called eagerly with the same structure of parameters and state. In `apply` it then returns values computed with the parameters of the module of the first call; `init` is right, because new parameters change the structure. Custom getters around the second call are ignored. `C91_kept` gives the condition under which keeping the wrapper is safe.
* `C92_names_refuted`: combined_named_parameters can give two cases the same name (`a_b` with `c`, `a` with `b_c`), on which absl raises.
* `C94_training_refuted`: when training, the logits of an image depend on the other images of its batch. `C94_fresh`: in inference mode before the first training step every batch normalisation multiplies by more than 316 (averages start at 0, eps 1e-5).
* `C95_call_refuted`: `AtariNet.__call__` adds a time axis and never removes it, so although AtariNet is an `RNNCore`, its outputs for a batch are [1, B, ...] and it cannot be used as a core (e.g. by `dynamic_unroll`) in place of its `unroll`.
* `C96_getter_refuted`: the documented bfloat16 getter (base.py:437-456) on float32 inputs works with `Linear` (giving float32) but makes every convolution raise, since `lax` does not promote.
* `C96_half_state_refuted`, `C96_initial_state`: `initial_state` is float32 (float64 under x64) whatever the inputs, so an LSTM run on half precision inputs from its own initial state computes, returns and even makes its parameters in float32.
* `C96_unrolls_refuted`: with a state narrower than the inputs `static_unroll` works, `dynamic_unroll` works at init (its first step runs outside the scan) and raises at apply.
* `C96_embed_refuted`: the two lookup styles of `Embed` return different types for half precision embeddings, and under x64.
* `C96_warmup`: an average with a warm-up raises for every float type but the default one (`lax.select` of Python floats, moving_averages.py:117-118).
* `C96_vq_ema_refuted`: the state of `VectorQuantizerEMA` changes its types at the first training step on wider inputs, e.g. float32 to float64.
* `C96_attention_mask_refuted`, `C96_mask_refuted`: a float32 mask turns half precision attention into float32 and makes a half precision convolution raise.
* `C97_truncation_refuted`: a LAST step with discount 1 (dm_env's `truncation`) does not separate episodes: the transition into the next episode is masked in the loss, but its error still enters the targets of the steps before it (7/4 instead of 7/2 in the witness).
* `C98_memo_without_closure_refuted`: a cache keyed by `id` alone, without the closure that keeps the function alive, hands out the wrapper of a dead function.
* `C99_orthogonal_refuted`: the `Orthogonal` initializer multiplies a matrix by a vector of signs, so with `jax_numpy_rank_promotion='raise'` it always raises; `rank_promotion_test.py` does not cover it.
* `C99_transformer_refuted`: the transformer example promotes in its embeddings (rank 3 plus rank 2) and in every causal attention (a mask of rank 2), so it cannot run with promotion raising.
* `C99_batch_norm`, `C99_multiplier`, `C99_mask`: `BatchNorm`'s call-time `scale` and `offset`, documented as "up to n-D", and `Bias`'s `multiplier` and attention masks of lower rank are refused with promotion raising, where `LayerNorm` and `GroupNorm` broadcast them explicitly.
* `C100_no_scale_refuted`: a version 1 `ResNet` with bottlenecks (50, 101, 152, 200) cannot be built with `create_scale=False` in `bn_config`: `BlockV1` passes `scale_init=jnp.zeros` to its last normalisation (nets/resnet.py:99), which raises ValueError without a scale. Version 2 and the networks without bottlenecks can.
* `C101_long_name_refuted`: for a class name of 79 characters or more and no printed arguments, `auto_repr` gives the name followed by `(`, a line with only a comma, and `)`, which is not a Python expression.
* `C101_width_refuted`: the lines of a text broken by `auto_repr` may be longer than 80 characters: arguments are laid out for 80 columns before they are indented and prefixed with their names.
* `C101_one_line_refuted`: a text of at most 80 characters may still contain line breaks, those of an argument laid out on its own: a long string split at blanks may need fewer escapes than on one line.
* `C20_reserved_key_refuted`: the condition of `hk.while_loop` may not draw keys, but one that draws a key reserved before (`reserve_rng_keys`) is not detected (see `C62_reserved_refuted`).
* `C102_empty_name_refuted`: `BatchNorm(cross_replica_axis="", cross_replica_axis_index_groups=…)` is accepted, since the constructor tests the name against `None`, but shares nothing, since `__call__` tests whether it is true.
* `C102_local_codebooks_refuted`: without `cross_replica_axis` the codebooks of VectorQuantizerEMA differ between replicas after one step.
* `C103_stop_refuted`: with `stop_gradient` the gradient is not the derivative of the value.
* `C103_quantizer_loss_refuted`: the gradient of the loss of VectorQuantizer is not the derivative of the number it returns as loss (with a commitment cost of 1 the input gets half of it): a gradient check by finite differences must fail.
* `C104_relu_refuted`: at 0 the gradient of `relu` is 0, but there is no derivative.
* `C104_embed_styles_refuted`: for an id outside the vocabulary the gradients of the two lookup styles differ: `ARRAY_INDEX` trains the first or last row, `ONE_HOT` nothing.
* `C105_state_refuted`: in the imagenet example the averages of BatchNorm differ between replicas (no `cross_replica_axis`, and only gradients are averaged); evaluation uses those of the first replica (train.py:219).
* `C106_max_refuted`: where two entries of a window are equally large, what max_pool passes on is not a derivative (there is none along one of them).
* `C107_masked_refuted`: in exact arithmetic the value at a masked position gets a gradient, however large the number subtracted from its logit.
* `C108_fooled_line_refuted`: mnist_gan.ipynb draws the line "Discriminator is being fooled" at ln 2, but the loss is a sum over real and fake images: a discriminator that cannot tell them apart has at least 2 ln 2.
* `C108_alternating_refuted`: GAN.update trains the generator against the discriminator before its update, although it is written after it.
* `C108_one_pass_refuted`: with batches of different sizes the split in halves would label real images as fake (GAN.sample always draws as many as the batch has).
* `C108_sine_memory_refuted`: the next entry of a sine wave is not a function of the current one: without memory the task of haiku_lstms.ipynb cannot be learned.
* `C109_replay_refuted`: the library of build_your_own_haiku.ipynb draws a parameter again whenever it is asked for while initialising: a module called twice is initialised with values other than those it returns (hk.get_parameter does not, C03).
* `C109_reuse_refuted`: "the same module called in different places reuses parameters" only holds for places with the same call stack: called inside another module's method and outside of it, it has two sets.
* `C109_leak_refuted`: without try/finally an exception leaves its frame behind, and `get_param` outside of any transform then hands out numbers instead of raising.
* `C109_path_refuted`: with a slash in an identifier two places share a parameter.
* `C110_full_batch_refuted`: with records smaller than the number of classes the loss does depend on the permutation.
* `C111_typing_refuted`: the check "asserts all public symbols are covered", but haiku.typing, which has an `__all__`, is imported by no module, is not found, and is not in api.rst.
* `C111_insert_refuted`: entries of api.rst belong to the last `currentmodule`; inserting a section can remove the documentation of the names after it.
* `C112_packages_refuted`, `C112_exclude`: `find_namespace_packages(exclude=['*_test.py'])` matches packages, not files: it leaves out no test, and `docs` and `examples` are installed as top-level packages.
* `C112_link_missing`: `linkcode_resolve` catches ImportError around `sys.modules[...]`, which raises KeyError.
* `C112_fragment_refuted`: its links end with `#L1#L9`, two fragments, where GitHub's ranges are `#L1-L9`.

## Not modelled

JAX/XLA numerics and tracing internals, floating-point rounding, device placement, pickling,
The build of the documentation (except its coverage check, C111, and its links to the source, C112), the tests in `haiku/_src/integration` other than checkpoint_test.py (C100) and rank_promotion_test.py (C99), the examples other than those in the table above, and the notebooks in `docs/notebooks` other than build_your_own_haiku.ipynb (C109) and non_trainable.ipynb (C110).

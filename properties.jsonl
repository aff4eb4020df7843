{"id": "C01", "title": "Transform context is restored on every exit path", "statement": "After a transformed function's init or apply (or any nested Haiku scope: module method, module constructor, name_scope, with_rng, custom_creator, custom_getter, intercept_methods, jit/cond/scan/...) finishes - by returning or by raising any exception - the calling thread's Haiku context (enclosing transforms, active modules, rng overrides, creators, getters, interceptors) is exactly what it was before the call.", "quantifier": "all user programs (any nesting of scopes, any exception raised/caught anywhere), all initial contexts", "why_tests_cant": "The number of nestings and exception points is unbounded; a test can only try a few raise positions.", "anchors": ["haiku/_src/base.py:Frame.module", "haiku/_src/base.py:HaikuContext", "haiku/_src/data_structures.py:Stack.__call__", "haiku/_src/module.py:wrap_method", "haiku/_src/stateful.py:temporary_internal_state"]}
{"id": "C02", "title": "apply never creates, changes or drops a parameter", "statement": "While running apply, every get_parameter call returns the array the caller supplied under that module and name (when no custom getter is active), raises if the caller supplied none, never runs an initializer or creator, and at the end of apply the parameters are those supplied, whatever the user function does (including inside jit, scan, cond, grad, nested transforms, after caught exceptions).", "quantifier": "all user programs, all parameter/state/rng inputs", "why_tests_cant": "Needs to hold for every program, including re-entrant and exceptional ones.", "anchors": ["haiku/_src/base.py:get_parameter", "haiku/_src/base.py:new_context", "haiku/_src/transform.py:transform_with_state"]}
{"id": "C03", "title": "A parameter is created once and never overwritten during init", "statement": "During init, once a parameter exists (non-None) under a module and name, every later read of the same module and name sees the same stored value and its initializer is not run again, and the parameters returned by init contain exactly that value - provided initializers/creators do not themselves request parameters. The proviso is needed: an initializer that requests the very parameter being initialised gets its value silently overwritten.", "quantifier": "all user programs and all executions", "why_tests_cant": "Sharing must hold for arbitrary interleavings of module calls.", "anchors": ["haiku/_src/base.py:get_parameter", "haiku/_src/base.py:run_creators", "haiku/_src/stateful.py:update_internal_state"]}
{"id": "C04", "title": "init returns first state values, apply returns last state values", "statement": "The state returned by init holds for every state entry the first value it ever received (initialiser result or first set_state), no matter how often it is set afterwards; the state returned by apply holds the last value set. Entries supplied to apply are never dropped.", "quantifier": "all user programs, all histories of get_state/set_state, also through jit/scan/loops", "why_tests_cant": "Holds over unbounded histories of updates.", "anchors": ["haiku/_src/base.py:get_state", "haiku/_src/base.py:set_state", "haiku/_src/base.py:extract_state", "haiku/_src/transform.py:transform_with_state"]}
{"id": "C05", "title": "State behaves as a register file keyed by (module, name)", "statement": "get_state returns the most recently set value for the same module and name and is unaffected by sets to any other module or name; set_state never changes parameters, randomness, or other entries.", "quantifier": "all sequences of state operations, all names", "why_tests_cant": "All histories.", "anchors": ["haiku/_src/base.py:get_state", "haiku/_src/base.py:set_state"]}
{"id": "C06", "title": "apply on init's outputs replays init", "statement": "For a function that draws random keys only inside initializers (which only draw keys and compute, and return no None), does not branch on running_init, catches no exception, installs no custom creator, does not inspect the collected parameters, and uses of the stateful transforms only the jit/remat/grad family and vmap: if init succeeds, calling apply with the parameters and state returned by init, and any rng, computes the same result as the function computed during init, ends with the states init ended with, and does not fail. Dropping the restriction on eval_shape, scan, exceptions, creators, running_init, keys or None-returning initializers makes the claim false.", "quantifier": "all such user programs, all rng passed to init and (independently) to apply", "why_tests_cant": "Quantifies over programs; tests only cover specific modules.", "anchors": ["haiku/_src/transform.py:transform_with_state", "haiku/_src/base.py:get_parameter", "haiku/_src/base.py:get_state", "haiku/_src/module.py:unique_and_canonical_name", "haiku/_src/stateful.py:difference", "haiku/_src/stateful.py:vmap"]}
{"id": "C07", "title": "Random keys are never reused", "statement": "All keys handed out by next_rng_key/next_rng_keys/maybe_next_rng_key in one init or apply call - across modules, methods, jit, cond, switch, scan, fori_loop, while_loop - are pairwise different, and none is derived (by splitting) from another or from a key that will be handed out later. (jax.random.split is idealised as collision free; with_rng, which lets the user inject an arbitrary key, is excluded.)", "quantifier": "all user programs, all reserve/take/next interleavings, all control flow", "why_tests_cant": "Unbounded histories of key operations.", "anchors": ["haiku/_src/base.py:PRNGSequence", "haiku/_src/base.py:next_rng_key", "haiku/_src/stateful.py:reserve_up_to_full_rng_block"]}
{"id": "C08", "title": "with_rng is properly scoped", "statement": "Inside with_rng(k) keys are drawn only from k; after the block (normal or exceptional exit) the enclosing key sequence is exactly as before the block.", "quantifier": "all bodies, all enclosing sequences", "why_tests_cant": "All bodies and exits.", "anchors": ["haiku/_src/base.py:with_rng"]}
{"id": "C09", "title": "A function that succeeds without an rng does not depend on the rng", "statement": "If apply succeeds with rng=None and the function neither uses maybe_next_rng_key nor catches exceptions, its while_loops leave the random sequence's reserve of keys unchanged and its vmapped functions treat the sequence alike in every lane, then apply with any rng gives the same output, state and world. Without the first three conditions this is false (refuted with witnesses).", "quantifier": "all user programs, all rngs", "why_tests_cant": "Non-interference: relates two executions of arbitrary programs.", "anchors": ["haiku/_src/base.py:rng_seq_or_fail", "haiku/_src/transform.py:without_apply_rng"]}
{"id": "C10", "title": "Nested transforms are isolated", "statement": "Running the init/apply of an inner transformed function inside an outer one neither reads nor changes the outer function's parameters, state, randomness, module names or counters; its result is what it would be outside any transform (with the same creators/getters/interceptors active).", "quantifier": "all inner programs, all outer contexts", "why_tests_cant": "All outer contexts.", "anchors": ["haiku/_src/base.py:HaikuContext", "haiku/_src/transform.py:transform_with_state"]}
{"id": "C11", "title": "Module names are unique within the scope that creates them and carry the parent's name", "statement": "In one activation of a scope (top level of a transform, one method call, one name scope) no two modules ever get the same full name; a module created in method `m` of parent P is named P/x, P/~/x or P/~m/x for __call__, __init__ or another method respectively.", "quantifier": "all sequences of module creations with arbitrary requested names (explicitly numbered or not)", "why_tests_cant": "Arbitrary mixtures of explicit and automatic numbering.", "anchors": ["haiku/_src/module.py:unique_and_canonical_name", "haiku/_src/module.py:Module.__init__"]}
{"id": "C12", "title": "Automatic numbering never fails and never collides with explicit names", "statement": "Creating a module whose requested name carries no numeric suffix never raises 'not unique', whatever explicitly numbered or automatic names were used before in that scope; the k-th automatic request of a fresh name x gives x, x_1, x_2, ... in order.", "quantifier": "all histories of requested names", "why_tests_cant": "Unbounded histories.", "anchors": ["haiku/_src/module.py:unique_and_canonical_name"]}
{"id": "C13", "title": "Calling a method again reuses the same submodule names, hence parameters", "statement": "The full names of modules created while running a module method depend only on the module's name, the method and what the method does, not on how many times any method was called before or which modules were created elsewhere.", "quantifier": "all method bodies without method interceptors, all preceding histories, all states of the enclosing scopes", "why_tests_cant": "All histories.", "anchors": ["haiku/_src/module.py:wrap_method", "haiku/_src/base.py:Frame.module"]}
{"id": "C14", "title": "hk.jit / hk.remat / hk.named_call are transparent transactions", "statement": "If the wrapped function returns, then its result and the parameters, state and random sequence afterwards are exactly those of calling the function directly; if it raises, parameters, state and randomness are exactly as before the call.", "quantifier": "all wrapped functions and contexts", "why_tests_cant": "Quantifies over all programs and over the identity test used for change detection.", "anchors": ["haiku/_src/stateful.py:thread_hk_state_in_kwargs", "haiku/_src/stateful.py:difference", "haiku/_src/stateful.py:update_internal_state"]}
{"id": "C15", "title": "hk.jit does not reserve module names: finding", "statement": "Claim 'a function wrapped in hk.jit creates the same module names as unwrapped' is false: two jitted calls that each create a module with the same default name silently share parameters, whereas unwrapped they get distinct names.", "quantifier": "existence of a program", "why_tests_cant": "A test would have to guess the exact combination.", "anchors": ["haiku/_src/base.py:Frame.evolve", "haiku/_src/stateful.py:temporary_internal_state"]}
{"id": "C16", "title": "hk.cond/hk.switch commit exactly the selected branch", "statement": "On success the result, parameters, state and randomness afterwards are those of running the selected branch alone on the pre-call state (after topping up the reserved keys); the other branches have no effect; and branches drawing different numbers of keys never cause a structure mismatch.", "quantifier": "all branches, predicates, contexts", "why_tests_cant": "All branch programs.", "anchors": ["haiku/_src/stateful.py:cond", "haiku/_src/stateful.py:switch", "haiku/_src/stateful.py:stateful_branch"]}
{"id": "C17", "title": "hk.scan at apply time equals the Python loop", "statement": "At apply time hk.scan(f, init, xs) yields the same carry, stacked outputs and final Haiku state as looping f over xs in Python (in reverse order with reverse=True, outputs positionally aligned with xs), for bodies that draw keys one at a time.", "quantifier": "all bodies, carries, lengths (including 0)", "why_tests_cant": "Unbounded lengths and arbitrary bodies.", "anchors": ["haiku/_src/stateful.py:scan"]}
{"id": "C18", "title": "hk.scan at init time: order of outputs", "statement": "At init time, with reverse=False, hk.scan returns the same carry and outputs as the Python loop; with reverse=True the stacked outputs are NOT aligned with xs (the last element's output comes first): finding.", "quantifier": "all bodies/lengths for the positive part, existence of a program for the finding", "why_tests_cant": "Existing tests compare only apply-time results.", "anchors": ["haiku/_src/stateful.py:scan"]}
{"id": "C19", "title": "hk.fori_loop equals the Python loop", "statement": "At apply time hk.fori_loop(lo, hi, f, v) equals folding f over lo..hi-1; at init the same holds when lo < hi; when lo >= hi at init the body is nevertheless run once and its value returned: finding.", "quantifier": "all bodies, all bounds", "why_tests_cant": "Unbounded trip counts.", "anchors": ["haiku/_src/stateful.py:fori_loop"]}
{"id": "C20", "title": "hk.while_loop equals the Python loop for state-independent conditions", "statement": "At apply time hk.while_loop(c, b, v) equals the Python while loop when c does not read state; when c reads state updated by b the condition sees the state from before the loop (stale): finding.", "quantifier": "all bodies/conditions, any trip count", "why_tests_cant": "Unbounded trip counts.", "anchors": ["haiku/_src/stateful.py:while_loop"]}
{"id": "C21", "title": "hk.eval_shape has no effect on Haiku state", "statement": "hk.eval_shape(f) leaves parameters, state, random sequence and module-name bookkeeping as they were, whether f returns or raises.", "quantifier": "all functions", "why_tests_cant": "All programs.", "anchors": ["haiku/_src/stateful.py:eval_shape"]}
{"id": "C22", "title": "hk.vmap: lanes share parameters, state and random keys", "statement": "Under hk.vmap every lane starts from the same state and draws the same keys; the state written back is the common result.", "quantifier": "all bodies, any number of lanes", "why_tests_cant": "All bodies.", "anchors": ["haiku/_src/stateful.py:vmap"]}
{"id": "C23", "title": "Change detection never loses a change", "statement": "Applying the difference between a before- and after-snapshot to the before-snapshot gives back the after-snapshot, for every identity relation in which identical objects have equal contents (no false negatives; false positives harmless).", "quantifier": "all before/after two-level mappings with before's keys contained in after's, all sound identity relations", "why_tests_cant": "All structures and all identity relations.", "anchors": ["haiku/_src/stateful.py:difference", "haiku/_src/stateful.py:box_and_fill_missing", "haiku/_src/stateful.py:update_recursive"]}
{"id": "C24", "title": "Method interceptors run outermost first, each exactly once around the method", "statement": "If every active interceptor calls next exactly once, a method call runs all active interceptors, outermost first, then the method, and unwinds in the opposite order. If an interceptor calls next twice the second call skips the remaining interceptors: finding.", "quantifier": "any number of interceptors, any methods", "why_tests_cant": "Any stack depth.", "anchors": ["haiku/_src/module.py:run_interceptors", "haiku/_src/module.py:intercept_methods"]}
{"id": "C25", "title": "Custom creators/getters compose outermost first and getters do not alter what is stored", "statement": "Creators run only when a parameter is first created, outermost first; getters run on every read, and the value stored in the parameters is the creator's result, never the getter's. custom_creator/custom_getter become active when called rather than when entered, and stay active for ever if never entered: finding. Whatever is done with these objects, the stack has one element per unfinished one, so leaving one can fail its assertion but never finds the stack empty.", "quantifier": "any number of creators and getters", "why_tests_cant": "Any stack depth.", "anchors": ["haiku/_src/base.py:run_creators", "haiku/_src/base.py:run_getters", "haiku/_src/base.py:custom_creator", "haiku/_src/base.py:custom_getter"]}
{"id": "C26", "title": "module.params_dict / state_dict list exactly the module's entries", "statement": "params_dict of a module contains exactly the entries of bundles named as the module, below it (name/...), or of recorded submodules, keyed by full name - provided names are slash free; with slashes in parameter names two entries can collide and one is lost: finding.", "quantifier": "all parameter structures and names", "why_tests_cant": "All names.", "anchors": ["haiku/_src/module.py:params_or_state_dict"]}
{"id": "C27", "title": "hk.lift round trip", "statement": "Parameters lifted into the outer dictionary during init are recovered unchanged, with their own names, during apply; entries of other modules are neither taken nor overwritten.", "quantifier": "all inner parameter structures, all outer structures, all names", "why_tests_cant": "All names (prefix confusions).", "anchors": ["haiku/_src/lift.py:pack_into_dict", "haiku/_src/lift.py:unpack_from_dict", "haiku/_src/lift.py:LiftingModule"]}
{"id": "C28", "title": "optimize_rng_use only changes how keys are split: finding", "statement": "Claim 'wrapping a function with optimize_rng_use never makes it fail' is false: the counting pass runs in a fresh context, so it fails at init if a parameter already exists and the function creates new ones, and at apply inside a module method.", "quantifier": "existence of a program", "why_tests_cant": "Tests use it only as outermost wrapper.", "anchors": ["haiku/_src/random.py:optimize_rng_use"]}
{"id": "C29", "title": "PRNGSequence delivers reserved keys first-in first-out and exactly as many as asked", "statement": "take(n) returns n keys; reserved keys are delivered in the order they were split; reserving never changes keys already reserved.", "quantifier": "all operation sequences", "why_tests_cant": "Unbounded histories.", "anchors": ["haiku/_src/base.py:PRNGSequence"]}
{"id": "C30", "title": "Topping up a key sequence gives a fixed-size buffer", "statement": "reserve_up_to_full leaves exactly the default number of reserved keys whatever the sequence held before, which is what control flow requires; a larger reservation made by the user is truncated (keys discarded, never reused).", "quantifier": "all sequences, all block sizes", "why_tests_cant": "All reachable sequence states.", "anchors": ["haiku/_src/base.py:PRNGSequence.reserve_up_to_full"]}
{"id": "C31", "title": "Threads do not interfere", "statement": "For every interleaving of operations of any number of threads, each thread's transforms behave exactly as if it ran alone (as long as nobody uses optimize_rng_use, see C32), and a new thread starts outside of any transform.", "quantifier": "all schedules of any number of threads", "why_tests_cant": "Schedules cannot be enumerated by tests.", "anchors": ["haiku/_src/data_structures.py:ThreadLocalStack", "haiku/_src/base.py:frame_stack"]}
{"id": "C32", "title": "Counting random-key requests is not thread safe: finding", "statement": "Used by one thread, the key-request counter counts exactly the requests inside its block and restores the function it patches. It patches a process-wide function: there are schedules of two threads in which one thread's count includes the other's requests or misses its own, in which the patch is never removed, and in which optimize_rng_use hands out other keys.", "quantifier": "all well-nested single-thread histories; existence of schedules for the findings", "why_tests_cant": "Race.", "anchors": ["haiku/_src/random.py:count_hk_rngs_requested"]}
{"id": "C33", "title": "Immutable/mutable parameter dictionaries round-trip", "statement": "to_mutable_dict(to_immutable_dict(m)) == m for nested plain dictionaries; the immutable result is unaffected by later mutation of m at any plain-dict level; nested non-plain mappings remain aliased: finding.", "quantifier": "all nested dictionaries, all later mutations", "why_tests_cant": "All nestings.", "anchors": ["haiku/_src/data_structures.py:to_immutable_dict", "haiku/_src/data_structures.py:to_mutable_dict"]}
{"id": "C34", "title": "FlatMapping flattening is lossless and equality agrees with dictionary equality", "statement": "Unflattening the leaves/structure of a FlatMapping gives an equal mapping; two FlatMappings compare equal iff they are equal as nested dictionaries; equal FlatMappings have equal hashes.", "quantifier": "all nested structures", "why_tests_cant": "All nestings.", "anchors": ["haiku/_src/data_structures.py:FlatMapping"]}
{"id": "C35", "title": "partition splits, merge rejoins", "statement": "partition puts each entry in exactly one output according to the predicate; merging the outputs (in any order) gives back the input except for modules without entries, which are dropped.", "quantifier": "all structures and predicates", "why_tests_cant": "All structures.", "anchors": ["haiku/_src/filtering.py:partition", "haiku/_src/filtering.py:merge"]}
{"id": "C36", "title": "filter, map, merge semantics", "statement": "filter keeps exactly the entries satisfying the predicate; map applies the function to each entry and keeps names; merge contains an entry for each path in any input, with the value of the last structure containing it.", "quantifier": "all structures, functions, numbers of structures", "why_tests_cant": "All structures.", "anchors": ["haiku/_src/filtering.py:filter", "haiku/_src/filtering.py:map", "haiku/_src/filtering.py:merge"]}
{"id": "C37", "title": "Default module names are valid", "statement": "For every class name that is an ASCII Python identifier, the derived default module name is accepted as a module name, so Module() never raises for the default name; names that are already lower snake case are unchanged.", "quantifier": "all ASCII identifiers", "why_tests_cant": "Infinitely many strings.", "anchors": ["haiku/_src/utils.py:camel_to_snake", "haiku/_src/module.py:valid_identifier"]}
{"id": "C38", "title": "GetterContext recovers module and parameter name", "statement": "The module name and name exposed to creators/getters are those of the call, provided the parameter name has no slash; otherwise they are wrong: finding.", "quantifier": "all names", "why_tests_cant": "All strings.", "anchors": ["haiku/_src/base.py:GetterContext"]}
{"id": "C39", "title": "Name validation accepts a trailing newline: finding", "statement": "The claim 'a module name is always a valid Python identifier' is false for a name ending in a newline; it is true for every other accepted name.", "quantifier": "all strings", "why_tests_cant": "All strings.", "anchors": ["haiku/_src/module.py:valid_identifier"]}
{"id": "C40", "title": "Padding helpers give the documented output sizes", "statement": "With the pad function `same`, a stride-1 convolution has output size equal to input size for every kernel and dilation; `valid`, `full`, `causal`, `reverse_causal` give n-ek+1, n+ek-1, n, n with ek the effective kernel; with `causal` output t depends only on inputs 0..t and with `reverse_causal` only on t... .", "quantifier": "all kernel sizes, dilations, input lengths, input values", "why_tests_cant": "All sizes.", "anchors": ["haiku/_src/pad.py:same", "haiku/_src/pad.py:full", "haiku/_src/pad.py:causal", "haiku/_src/pad.py:reverse_causal", "haiku/_src/pad.py:create"]}
{"id": "C41", "title": "Transposed convolution with output_shape gives that shape", "statement": "Whenever compute_adjusted_padding accepts (input, output, kernel, stride, padding), a transposed convolution with the returned padding has spatial size exactly `output`, and it accepts exactly the input sizes that the forward convolution of `output` would produce.", "quantifier": "all sizes, strides, kernels", "why_tests_cant": "All sizes.", "anchors": ["haiku/_src/conv.py:compute_adjusted_padding"]}
{"id": "C42", "title": "Pooling window shapes", "statement": "An integer window/stride is expanded to 1 on the batch and channel axis and to the integer elsewhere; explicit shapes are left-padded with 1; the result always has one entry per input axis.", "quantifier": "all ranks, windows, channel axes", "why_tests_cant": "All ranks.", "anchors": ["haiku/_src/pool.py:_infer_shape"]}
{"id": "C43", "title": "Bias shapes broadcast against the input", "statement": "The bias shape computed for an input shape and bias dims broadcasts to the (unbatched) input shape, has the input's extent on each requested dim and 1 (or nothing) elsewhere.", "quantifier": "all shapes and bias dims", "why_tests_cant": "All shapes.", "anchors": ["haiku/_src/bias.py:calculate_bias_shape"]}
{"id": "C44", "title": "Reshape/Flatten preserve the number of elements", "statement": "An inferred -1 dimension makes the element counts agree or the reshape is rejected; Flatten maps [d0..dk, rest] to [d0..dk, product(rest)]. Next to a 0 the wildcard becomes 0, and the reshape is accepted exactly for inputs without elements.", "quantifier": "all shapes", "why_tests_cant": "All shapes.", "anchors": ["haiku/_src/reshape.py:_infer_shape", "haiku/_src/reshape.py:Reshape", "haiku/_src/reshape.py:Flatten"]}
{"id": "C45", "title": "BatchApply is a map over the leading dimensions", "statement": "Merging and splitting leading dimensions are inverse, and BatchApply of an example-wise function g has out[t,b] = g(in[t,b]).", "quantifier": "all array contents, all leading dims", "why_tests_cant": "All shapes and contents.", "anchors": ["haiku/_src/basic.py:merge_leading_dims", "haiku/_src/basic.py:split_leading_dim", "haiku/_src/basic.py:BatchApply"]}
{"id": "C46", "title": "GroupNorm never normalises across groups or examples", "statement": "For non-negative axes the reduction axes computed by GroupNorm never include the group axis (nor the batch axis unless asked); with negative axes in channels-first layout it reduces over the batch: finding. The grouped array holds every element at the index with the same row-major position: neighbouring channels form a group.", "quantifier": "all ranks and axes", "why_tests_cant": "All ranks/axes.", "anchors": ["haiku/_src/group_norm.py:GroupNorm"]}
{"id": "C47", "title": "MLP layer structure and reversal", "statement": "An MLP with n sizes applies n linear layers in order with the activation between them (after the last only if activate_final); reverse() yields an MLP whose output sizes are the input sizes of the original in reverse.", "quantifier": "all size lists and flags", "why_tests_cant": "All lists.", "anchors": ["haiku/_src/nets/mlp.py:MLP"]}
{"id": "C48", "title": "ExponentialMovingAverage computes the (debiased) weighted mean", "statement": "After any sequence of values the hidden state is the geometric-weighted sum; with zero_debias the average of a constant sequence is the constant and the average always lies between the minimum and maximum of the values seen.", "quantifier": "all value sequences, all decays in [0,1)", "why_tests_cant": "All histories.", "anchors": ["haiku/_src/moving_averages.py:ExponentialMovingAverage"]}
{"id": "C49", "title": "ExponentialMovingAverage warmup", "statement": "During warmup the average equals the latest value; afterwards it decays normally.", "quantifier": "all sequences, warmup lengths", "why_tests_cant": "All histories.", "anchors": ["haiku/_src/moving_averages.py:ExponentialMovingAverage"]}
{"id": "C50", "title": "static_unroll and dynamic_unroll agree", "statement": "For every recurrent core and every non-empty sequence, static_unroll and dynamic_unroll give the same outputs and final state (also with time_major False); for empty sequences static_unroll fails: finding.", "quantifier": "all cores, sequences", "why_tests_cant": "All cores and lengths.", "anchors": ["haiku/_src/recurrent.py:static_unroll", "haiku/_src/recurrent.py:dynamic_unroll"]}
{"id": "C51", "title": "ResetCore restarts the wrapped core", "statement": "Unrolling ResetCore over a sequence with reset flags equals, for each batch element, unrolling the wrapped core separately over each segment between resets starting from the initial state. The shapes combined by jnp.where are broadcast axis by axis from the right.", "quantifier": "all cores, sequences, reset patterns", "why_tests_cant": "All reset patterns.", "anchors": ["haiku/_src/recurrent.py:ResetCore"]}
{"id": "C52", "title": "DeepRNN composes cores", "statement": "deep_rnn threads each core's state independently; unrolling a DeepRNN equals unrolling each layer over the outputs of the previous one.", "quantifier": "all core lists and sequences", "why_tests_cant": "All lists and sequences.", "anchors": ["haiku/_src/recurrent.py:_DeepRNN"]}
{"id": "C53", "title": "VectorQuantizer picks a nearest code", "statement": "The code selected for each input row minimises the Euclidean distance over the codebook and the quantized output is that code.", "quantifier": "all inputs and codebooks (exact arithmetic)", "why_tests_cant": "All values.", "anchors": ["haiku/_src/nets/vqvae.py:VectorQuantizer"]}
{"id": "C54", "title": "Embed lookup styles agree", "statement": "For ids in range, array indexing and one-hot multiplication return the same row; out of range they differ: finding.", "quantifier": "all embeddings and ids", "why_tests_cant": "All values.", "anchors": ["haiku/_src/embed.py:Embed"]}
{"id": "C55", "title": "BatchNorm bookkeeping", "statement": "In evaluation mode the moving statistics are used and not changed; in training mode the batch statistics are used and the moving statistics advance by one exponential step; batch variance is non-negative in exact arithmetic and the normalised batch has zero mean.", "quantifier": "all inputs, histories of train/eval calls", "why_tests_cant": "All histories and values.", "anchors": ["haiku/_src/batch_norm.py:BatchNorm"]}
{"id": "C56", "title": "multinomial draws by inverse CDF", "statement": "For every uniform draw the returned category is the first whose cumulative probability reaches the draw.", "quantifier": "all probability vectors and draws in exact arithmetic", "why_tests_cant": "All values.", "anchors": ["haiku/_src/basic.py:multinomial"]}
{"id": "C57", "title": "Recurrent state stays bounded", "statement": "LSTM hidden values stay in (-1,1); GRU state stays within [-1,1] when started there; whatever the inputs and weights.", "quantifier": "all inputs, weights, lengths (exact arithmetic)", "why_tests_cant": "All sequences.", "anchors": ["haiku/_src/recurrent.py:LSTM", "haiku/_src/recurrent.py:GRU"]}
{"id": "C58", "title": "name_scope is single use", "statement": "A name_scope object can be entered at most once successfully over any sequence of enters and exits; later enters raise and leave the context unchanged.", "quantifier": "all enter/exit histories", "why_tests_cant": "All histories.", "anchors": ["haiku/_src/module.py:NameScope"]}
{"id": "C59", "title": "Module-usage log is in call order", "statement": "The module usage log (behind eval_summary/tabulate) lists method calls in the order they start, with arguments, result and call stack of each call that returns and None for a call that raised. If nothing is caught the table can be printed; if an exception is caught inside the function, tabulate fails on the None: finding. Only __init__, params_dict and state_dict are left out.", "quantifier": "all programs", "why_tests_cant": "All programs.", "anchors": ["haiku/_src/summarise.py:log_used_modules"]}
{"id": "C60", "title": "without_state and without_apply_rng wrappers", "statement": "without_state(f).apply equals f.apply with empty state when f uses no state, and raises when state appears; without_apply_rng(f).apply equals apply with rng None; its result type is always TransformedWithState: finding.", "quantifier": "all transformed functions", "why_tests_cant": "All functions.", "anchors": ["haiku/_src/transform.py:without_state", "haiku/_src/transform.py:without_apply_rng"]}
{"id": "C61", "title": "Failed reads leave residue: finding", "statement": "Claim 'a get_state/get_parameter that raises leaves the collected state/params unchanged' is false: it leaves an empty entry for the module, so a transform without state raises afterwards; a parameter whose initializer has the wrong shape is stored before the error is raised.", "quantifier": "existence of a program", "why_tests_cant": "Needs the exact combination of a caught exception and state-free transform.", "anchors": ["haiku/_src/base.py:get_state", "haiku/_src/base.py:get_parameter", "haiku/_src/transform.py:without_state"]}
{"id": "C62", "title": "State-change detection by object address is incomplete: finding", "statement": "assert_state_unchanged (used by while_loop's condition) compares sets of object addresses taken before and after. Without address reuse it detects every set_state, key split and parameter made from a new array, and raises no false alarm. With address reuse two consecutive set_state calls can go undetected; taking an already reserved key, and making a parameter from an array another parameter has, is never detected: findings.", "quantifier": "all heaps/allocators for the positive part; existence of an allocator choice for the finding", "why_tests_cant": "Depends on the allocator.", "anchors": ["haiku/_src/base.py:assert_state_unchanged", "haiku/_src/base.py:_get_ids"]}
{"id": "C63", "title": "Shapes of ConvND", "statement": "A convolution layer keeps the rank and the batch size, replaces the channels by output_channels in the position given by the data format, and its spatial sizes are the window counts for the padding, kernel, dilation and stride of each axis; the bias always broadcasts against the output. Unbatched inputs behave as a batch of one.", "quantifier": "all ranks, shapes, kernels, strides, dilations, paddings, group counts", "why_tests_cant": "unboundedly many ranks and size combinations", "anchors": ["haiku/_src/conv.py:ConvND", "haiku/_src/conv.py:to_dimension_numbers"]}
{"id": "C64", "title": "Names of the modules of EMAParamsTree and SNParamsTree", "statement": "In a fresh name scope EMAParamsTree and SNParamsTree create exactly one averaging (or spectral norm) module per parameter that is not ignored. Its name is the parameter's path with '/' replaced by '__' and '~' by '_tilde_' (or '_tilde'); for ordinary parameter paths (identifiers without double underscores or a number at the end) different parameters get different names, and the name does not depend on the other parameters or the order of iteration.", "quantifier": "all parameter trees, all ignore predicates, all enclosing scopes", "why_tests_cant": "unboundedly many names and trees; the clashes that the replacement causes depend on pairs of names", "anchors": ["haiku/_src/moving_averages.py:EMAParamsTree", "haiku/_src/spectral_norm.py:SNParamsTree"]}
{"id": "C65", "title": "VectorQuantizerEMA keeps weighted means of the assigned vectors", "statement": "After any history of calls the code vectors of VectorQuantizerEMA are the decayed weighted sums of the vectors assigned to each code, divided by the smoothed decayed counts; the smoothing keeps the total count and makes every count positive; without smoothing each code is a weighted mean of its vectors; codes are bounded by the inputs up to the factor 1 + k eps / n; a code never chosen is zero after the first training step; evaluation leaves no trace; the perplexity lies between 1/(1+1e-10) and the number of codes.", "quantifier": "all histories of training and evaluation batches, all dimensions, decays and epsilons", "why_tests_cant": "unboundedly long histories; the assignment depends on the evolving codes", "anchors": ["haiku/_src/nets/vqvae.py:VectorQuantizerEMA", "haiku/_src/nets/vqvae.py:VectorQuantizer"]}
{"id": "C66", "title": "Pooling combines exactly the entries its window covers", "statement": "For every rank, shape, window, stride and padding, every output of avg_pool is the arithmetic mean, and every output of max_pool the maximum, of exactly the array entries covered by the window, of which there is at least one (no division by zero, no minus infinity); with integer window sizes different examples and channels never mix.", "quantifier": "all ranks, shapes, window sizes, strides, paddings, arrays", "why_tests_cant": "unboundedly many shapes", "anchors": ["haiku/_src/pool.py:avg_pool", "haiku/_src/pool.py:max_pool", "haiku/_src/pool.py:_infer_shape"]}
{"id": "C67", "title": "MultiHeadAttention", "statement": "In exact arithmetic the attention weights of a head are positive and sum to 1 for every mask, so each coordinate of a head's result lies between the extremes of that coordinate over the values; the result does not change when keys, values and mask columns are permuted together, neither for a head nor for the whole module; row t depends only on query t and mask row t; a mask with equal entries (also all zeros) is no mask; when some position is unmasked a masked position has weight at most exp(2B-1e10) with B bounding the logits, and changing values at masked positions by D changes the result by at most n*D*exp(2B-1e10). Refuted: masked positions are ignored when all positions are masked (the mask then has no effect); the constructor's query_size may differ from key_size (the einsum rejects it).", "quantifier": "all numbers of heads, sizes, parameters, queries, keys, values and masks (one batch element)", "why_tests_cant": "Real-valued inputs and masks are unbounded; the bounds hold for all of them.", "anchors": ["haiku/_src/attention.py:MultiHeadAttention.__init__", "haiku/_src/attention.py:MultiHeadAttention.__call__", "haiku/_src/attention.py:MultiHeadAttention._linear_projection"]}
{"id": "C68", "title": "LayerNorm and InstanceNorm", "statement": "In exact arithmetic, for arrays of any rank and any axes: the entries that share statistics are exactly those whose indices differ only in the normalised axes, each once; with constant scale s and offset o over such a cell its outputs have mean o and variance s^2 var/(var+eps) <= s^2; every output is within |s| sqrt(n) of the offset for a cell of n entries; the output depends on the entries of its cell only (for InstanceNorm: same batch element and channel); adding a constant per cell changes nothing and multiplying by a>0 amounts to dividing eps by a^2; the variance is BatchNorm's mean of squares minus squared mean; InstanceNorm normalises over all axes but batch and channel; which combinations of creating and passing scale/offset are accepted. Findings: with channels_first the created scale and offset of InstanceNorm are per position of the last axis, not per channel as documented; InstanceNorm of a rank-2 array returns the offset whatever the input.", "quantifier": "all shapes, axes, arrays of reals, scales, offsets and eps > 0", "why_tests_cant": "Unbounded shapes and real-valued arrays.", "anchors": ["haiku/_src/layer_norm.py:LayerNorm.__init__", "haiku/_src/layer_norm.py:LayerNorm.__call__", "haiku/_src/layer_norm.py:InstanceNorm.__init__"]}
{"id": "C69", "title": "SpectralNorm: power iteration", "statement": "In exact arithmetic: sigma is never negative and never exceeds the operator norm, for any number of steps >= 1, start and eps >= 0; the stored u0 has norm at most 1; calls on one matrix compose to one call with the sum of the steps. With eps = 0, sigma never decreases over the calls once positive, and converges to the largest singular value s from any start not orthogonal to its vector, with error at most s r (s2/s)^(4k+2). With eps > 0 the point of rest has sigma = s - eps/s. The matrix shape used for arrays of higher rank. Refuted: with eps > 0 sigma is monotone; the result stays bounded over the calls (for matrices with norm below sqrt eps sigma tends to 0 geometrically); the result has norm at most 1; sigma is nonzero (zero matrix); scalars are returned unchanged (documented) - they are rejected; n_steps = 0 works.", "quantifier": "all matrices, start vectors, eps and numbers of steps and calls", "why_tests_cant": "Convergence and divergence over unboundedly many calls; real matrices.", "anchors": ["haiku/_src/spectral_norm.py:_l2_normalize", "haiku/_src/spectral_norm.py:SpectralNorm.__call__"]}
{"id": "C70", "title": "Initializers", "statement": "In exact arithmetic, with random draws as given arrays: fan_in and fan_out are the numbers of entries per output and per input for weights [..., in, out] of every rank >= 2; VarianceScaling divides by a number >= 1 for every shape and its values are within sqrt(3 scale/n) (uniform) and 2 sqrt(scale/n)/0.8796 (truncated); UniformScaling(s) equals VarianceScaling(s^2, fan_in, uniform) on rank >= 2 (refuted for vectors). Orthogonal, given a QR decomposition with orthonormal columns and nonzero diagonal: for every shape of rank >= 2 and axis, positive or negative, slices along the axis are orthogonal with norm scale when the axis is at most as long as the others together, and the fibres along it otherwise; both when square. Refuted: orthonormal rows if the axis is larger (documented; it is the other way round); rank-deficient draws. Identity multiplies by its gain. Rank < 2 is rejected.", "quantifier": "all shapes, axes, draws, scales", "why_tests_cant": "All shapes and axes; algebraic identities over reals.", "anchors": ["haiku/_src/initializers.py:_compute_fans", "haiku/_src/initializers.py:VarianceScaling.__call__", "haiku/_src/initializers.py:UniformScaling.__call__", "haiku/_src/initializers.py:Orthogonal.__call__", "haiku/_src/initializers.py:Identity.__call__"]}
{"id": "C71", "title": "Combinators: Sequential, BatchApply, expand_apply, to_module", "statement": "Sequential applies its layers in order, each to the value and world left by the previous one, stops at the first that raises, and gives the extra arguments to the first layer only; a nested Sequential is concatenation except for an empty one in front of further layers, which swallows the arguments (refuted). BatchApply on any number of arguments and results: if the arguments with at least num_dims dimensions agree on the leading ones, every result has these leading dimensions and its entry at each leading index is the function of the arguments' entries there, arguments of smaller rank being passed whole; it fails only if the function fails or no argument has enough dimensions. Refuted: leading dimensions that differ are detected (only their product is compared). expand_apply is the function on a batch of one; it fails on other axes and on results whose axis is not of size 1. to_module uses a valid given name or the function's name; a lambda needs a name.", "quantifier": "all layers with arbitrary effects, arrays of any rank, numbers of arguments", "why_tests_cant": "All compositions and shapes.", "anchors": ["haiku/_src/basic.py:Sequential.__call__", "haiku/_src/basic.py:BatchApply.__call__", "haiku/_src/basic.py:arbitrary_mergeable_leaf", "haiku/_src/basic.py:expand_apply", "haiku/_src/basic.py:to_module"]}
{"id": "C72", "title": "Distribution of dropout and multinomial over their draws", "statement": "dropout accepts exactly the rates in [0,1); rate 0 is the identity; over independent masks with the keep probability every element has the input as mean, the input's square divided by the keep rate as mean square, and different elements are uncorrelated. multinomial: over the N equally likely draws k/N of the uniform generator each category comes out with its softmax probability up to 1/N; a positive draw selects no category of probability 0; refuted for the draw 0, which selects the first category even with probability 0.", "quantifier": "all rates, inputs, logits, numbers of draws N", "why_tests_cant": "Exact expectations over all masks and draws.", "anchors": ["haiku/_src/basic.py:dropout", "haiku/_src/basic.py:multinomial"]}
{"id": "C73", "title": "utils.py: data formats, byte counts, array descriptions, auto_repr", "statement": "get_channel_index accepts exactly channels_first, channels_last, NC followed by other letters, N...C, and BT...D or TB...D (a newline at the end of the last two is ignored), and the index it returns is the position of the letter C or D. format_bytes uses the largest of the units B to TB not above the number and shows the quotient to within half a hundredth; refuted: the number shown before KB, MB or GB is below 1000. format_array determines dtype and shape. tree_size and tree_bytes add up over the leaves in any order. When no argument goes to *args, auto_repr prints a call with keyword arguments only which is accepted and binds every parameter to its original value, up to == with the default; refuted with *args, where positional arguments come after keywords. Halves in format_bytes go to the even digit; the item size of a dtype is an eighth of the number in its name; getcallargs gives every parameter the positional argument in its place, else the keyword argument of its name, else its default.", "quantifier": "all strings, integers, dtypes and shapes, signatures and calls", "why_tests_cant": "All strings, numbers and signatures.", "anchors": ["haiku/_src/utils.py:get_channel_index", "haiku/_src/utils.py:format_bytes", "haiku/_src/utils.py:format_array", "haiku/_src/utils.py:tree_bytes", "haiku/_src/utils.py:auto_repr"]}
{"id": "C74", "title": "Tables of summarise.py", "statement": "owned_params of a module holds exactly the entries of the parameter dictionary whose key is the module's name, a slash and a parameter name, when parameter names contain no slash (refuted otherwise: the entry is then attributed to another module). The cell listing them has each once, largest first, names breaking ties. tabulate rejects exactly the unknown columns, then the unknown filters, in the order given; otherwise it has one row per invocation passing every filter, in invocation order, with the requested columns in the requested order, and reports that there are no modules iff every invocation fails some filter.", "quantifier": "all parameter dictionaries, columns, filters and invocations", "why_tests_cant": "All dictionaries and combinations of columns and filters.", "anchors": ["haiku/_src/summarise.py:owned_params", "haiku/_src/summarise.py:format_owned_params", "haiku/_src/summarise.py:tabulate"]}
{"id": "C75", "title": "to_dot: the file describes exactly the run", "statement": "For every run of a traced function (primitives, nested module methods and calls, objects created by the primitive returning them): every primitive has one node with its title and outputs, in exactly the clusters of the methods and calls around it, and clusters are properly closed; every input of every primitive has one edge to its node, uses of an argument are numbered 0,1,... in file order; the captured values are exactly the inputs that are neither arguments nor outputs of primitives; if primitives have one output, both ends of every edge are declared; names of different sources differ when identities have the same number of digits (refuted otherwise); label depths are positive; escaping is injective and leaves no markup. Refuted: outputs of a primitive other than the first have a node or are marked when returned; nodes are declared once; keys in argument labels are escaped.", "quantifier": "all runs, arguments and outputs", "why_tests_cant": "All nestings and dataflow graphs.", "anchors": ["haiku/_src/dot.py:to_graph", "haiku/_src/dot.py:_graph_to_dot", "haiku/_src/dot.py:DotTrace.process_primitive", "haiku/_src/dot.py:_max_depth"]}
{"id": "C76", "title": "ResNet and MobileNetV1 accept images of every size, with the same parameters", "statement": "A residual block with a projection has a main path and a shortcut of the same shape (batch, sides divided by the stride and rounded up, channels) for every image size, stride and number of channels; without a projection the sum is an ordinary one exactly when the stride is 1 and the channels agree, and larger images raise. Hence every ResNet whose groups project where they must takes images of every size, creates the same parameters at every size, and gives one row of logits per image; the six CONFIGS have the depth they are named after and the published numbers of parameters. MobileNetV1 creates the same parameters at every image size, and its last feature map has the documented sizes and is empty exactly for images with a side below 3.", "quantifier": "all batch and image sizes, input channels, strides, block counts, channel numbers, bottleneck and v1/v2 choices; all stride and channel sequences of MobileNetV1", "why_tests_cant": "resnet_test.py and mobilenetv1_test.py run a handful of sizes and configurations; the claim is about every size, and about the parameters being independent of it.", "anchors": ["haiku/_src/nets/resnet.py:38-383", "haiku/_src/nets/mobilenetv1.py:51-155", "haiku/_src/depthwise_conv.py:49-134"]}
{"id": "C77", "title": "Values of ConvND, DepthwiseConv2D and SeparableDepthwiseConv2D", "statement": "In both data formats the value of a convolution layer is the sum over the kernel and the input channels of its group of masked weight times input, with zeros outside the image, plus the bias of the output channel. Hence each example of a batch is treated like an unbatched input, the two data formats agree, the layer is linear, groups are separate convolutions stacked together, convolving a crop is cropping the convolution, a kernel of size one is a linear layer at each position and a kernel of the size of the image one linear layer. In a depthwise convolution each output channel sees one input channel; with stride one the separable convolution is the depthwise convolution with the product kernel.", "quantifier": "all numbers of spatial axes, sizes, channels, groups, kernels, strides, rates, paddings, masks, weights and inputs (exact real arithmetic)", "why_tests_cant": "conv_test.py and depthwise_conv_test.py check all-ones inputs of one size; the claims relate infinitely many shapes and values.", "anchors": ["haiku/_src/conv.py:45-66", "haiku/_src/conv.py:151-215", "haiku/_src/depthwise_conv.py:49-197"]}
{"id": "C78", "title": "ConvNDTranspose is the transpose of ConvND", "statement": "With the spatial shape of a forward convolution's input as output_shape and the same padding string, the transposed convolution with the kernel read backwards is the adjoint of the forward convolution: the inner products <conv(x), y> and <x, conv_transpose(y)> agree for all x and y. The padding is accepted for every non-empty image that is not smaller than the kernel. Without output_shape the result has n * stride positions (SAME), or max(kernel - stride, 0) more (VALID), and asking for this shape gives the same padding.", "quantifier": "all numbers of spatial axes, sizes, channels, kernels, strides, both strings, both data formats, weights and inputs (exact real arithmetic)", "why_tests_cant": "conv_test.py compares a few outputs with constants; adjointness is a statement about all pairs of inputs.", "anchors": ["haiku/_src/conv.py:419-452", "haiku/_src/conv.py:528-592"]}
{"id": "C79", "title": "The transformer example is causal and ignores trailing padding", "statement": "The logits of examples/transformer at position t depend only on the tokens up to t, also between sequences of different lengths, whenever some token at or before t is not padding and the attention logits are within an explicit bound that follows from the sizes of the parameters. Padding at the end of a sequence changes nothing in the loss. The model runs exactly when its width is key_size * num_heads and the position table is as long as the sequence; the cross entropy is minus the logarithm of the softmax probability of the target. A position with only padding before it does see the future.", "quantifier": "all numbers of layers and heads, widths, sequence lengths, parameters, tokens and dropout factors; every exponential that is zero below some threshold (exact real arithmetic otherwise)", "why_tests_cant": "The example has no tests; independence from the future is a statement about all pairs of continuations.", "anchors": ["examples/transformer/model.py:25-122", "examples/transformer/train.py:63-110", "haiku/_src/attention.py:61-84"]}
{"id": "C80", "title": "The threads of the IMPALA example: what is learned from, what can hang and how stale the data is", "statement": "In every interleaving of the actors, the transfer thread and the learner of examples/impala: trajectories are learned from in exactly the order in which they were enqueued, in batches of batch_size, none lost or duplicated, and all queues keep their bounds. The published pair is always the frame count and the parameters after the same number of updates, so an actor never sees a torn pair. The trajectories of one actor are those of that actor running alone on the parameters it pulled, which are those after v updates with v growing. A trajectory used in update u was made with the parameters of some v <= u updates, and u <= v + 4 if there is one actor. The program hangs only in four ways, which are described; when the actors make what the learner needs and at most one batch more, it can always end and does bounded work. False: that Learner.run returns once it has done max_iterations updates with actors as in run_catch.py; that main returns; that staleness is bounded with two actors.", "quantifier": "all numbers of actors, batch sizes, iterations, and all interleavings of the threads; unroll and update are arbitrary functions", "why_tests_cant": "learner_test.py runs one thread schedule with one trajectory; the hangs need a particular interleaving and the bounds are about all of them.", "anchors": ["examples/impala/learner.py:52-217", "examples/impala/actor.py:33-103", "examples/impala/run_catch.py:40-99", "examples/impala/learner_test.py:1-90"]}
{"id": "C81", "title": "IMPALA actors: trajectories tile one rollout", "statement": "The trajectories that an actor of examples/impala or impala_lite makes are windows of unroll_length + 1 transitions of one rollout of the agent in its environment, each starting with the last transition of the one before; so the pairs of a decision and the next time step that the loss uses are all pairs of the rollout, each once. No two decisions use the same random key. A pair is masked out of the loss exactly if its first time step ended an episode. If the learner has the parameters that the actor used, its logits are the actor's: on the first trajectory, and on later ones from the second step on if the network's state does not depend on parameters. False: the same for recurrent networks.", "quantifier": "all environments, agents, networks, unroll lengths, numbers of trajectories, parameters of each trajectory, keys", "why_tests_cant": "actor_test.py looks at two trajectories of one length; the bookkeeping is about all lengths and counts.", "anchors": ["examples/impala/actor.py:50-103", "examples/impala/agent.py:74-105", "examples/impala/learner.py:90-136", "examples/impala_lite.py:158-191"]}
{"id": "C82", "title": "The threads of impala_lite always finish", "statement": "In every interleaving of the actor threads and the learner of examples/impala_lite.py no state is stuck except the end, in which the learner has made all of its steps, every actor has sent all its trajectories, and less than a batch of them is left in the queue. Runs have bounded length, and all complete runs have the same length. What the learner uses is what was enqueued, in order, in full batches.", "quantifier": "all numbers of actors, trajectories per actor, batch sizes, and all interleavings", "why_tests_cant": "impala_lite_test.py runs one schedule of a tiny configuration; absence of deadlock is about all schedules.", "anchors": ["examples/impala_lite.py:158-260"]}
{"id": "C83", "title": "Classes of modules: which methods enter the name scope, once, and under which name", "statement": "For every class hierarchy: a method found by attribute lookup, own or inherited, is entered exactly once, under the name it has in the class, unless it is transparent, is called module_name or begins with two underscores other than __call__; so is each function of a property; everything else in a class is untouched; private methods are entered under their mangled name. The constructor is entered once as __init__, and a missing super().__init__() is detected for classes without a module_name of their own. The name asked for is the argument, else the attribute name, else the class name in snake case. False: that a method is entered once when a subclass gives an inherited method a second name; that __repr__ is inherited; that the missing super constructor is always detected; that a class whose constructor reaches the base constructor twice can be instantiated twice.", "quantifier": "all hierarchies of class bodies, all names, all scopes", "why_tests_cant": "module_test.py checks single classes; the statement is about all bodies and linearisations, and the failures need two instances or a subclass.", "anchors": ["haiku/_src/module.py:ModuleMetaclass.__new__", "haiku/_src/module.py:ModuleMetaclass.__call__", "haiku/_src/module.py:wrap_method", "haiku/_src/module.py:transparent", "haiku/_src/module.py:Module.__init__"]}
{"id": "C84", "title": "The convolutional LSTM: shapes, formula, bounds, locality, and LSTM as the case of kernels of size one", "statement": "For every number of spatial axes, spatial sizes, kernel sizes (at least one), channels and weights: with input_shape the spatial sizes, ConvNDLSTM accepts inputs (with or without a batch axis) together with its initial state and returns states of that same shape; the new states are those of the documented equations, with 1 added in the forget gate, SAME padding and zeros outside; outputs stay strictly between -1 and 1 and the cell state grows by at most one per step; the state at time t and position o depends only on the input of time s within t-s+1 kernel reaches of o in the same example; with kernels of size one the core is hk.LSTM at every position, with the two kernels stacked and the biases added. False: that input_shape is the shape of the inputs excluding the batch, as documented: then batched calls always raise, and unbatched calls may be accepted and return an array with one axis too many.", "quantifier": "all sizes, kernels, weights, sequences of inputs, states, positions", "why_tests_cant": "recurrent_test.py runs one or two steps for single sizes; the statements are about all sizes and all sequences.", "anchors": ["haiku/_src/recurrent.py:ConvNDLSTM", "haiku/_src/conv.py:ConvND"]}
{"id": "C85", "title": "Values of GroupNorm: which entries share statistics, moments, invariance, and LayerNorm and InstanceNorm as its two ends", "statement": "For every rank, shape, data format, number of groups dividing the channels and non-negative axes: each output is (x - mean)/sqrt(var + eps) times scale plus offset, with mean and variance of exactly the entries that agree on all axes not reduced, lie in the same group of channels, and in the same channel if the channel axis is not reduced. Hence outputs of such a cell have mean offset and variance scale^2 var/(var+eps), do not change when a number is added to the cell, and do not depend on anything outside; with the default axes not on other examples nor other groups. One group is LayerNorm over all but the first axis; as many groups as channels is InstanceNorm. False: the formula of the class docstring, which divides by the standard deviation plus eps.", "quantifier": "all ranks, shapes, groups, axes, inputs, parameters", "why_tests_cant": "group_norm_test.py compares a few shapes with constants; the statement is about all shapes and real inputs.", "anchors": ["haiku/_src/group_norm.py:GroupNorm.__call__", "haiku/_src/group_norm.py:GroupNorm._initialize", "haiku/_src/layer_norm.py:LayerNorm", "haiku/_src/layer_norm.py:InstanceNorm"]}
{"id": "C86", "title": "Pruning example: top-k masks keep the right entries, partitions tile the parameters, pruned weights stay zero, and the schedule", "statement": "For every shape, density, scores, shuffle and tie-breaking sort: topk_mask keeps exactly clamp(round(density*size)) entries and no kept entry is smaller than a dropped one. create_partitions puts each parameter in exactly one group with its module's sparsity; apply_mask multiplies each covered parameter by its mask and leaves the others alone; masks change only at multiples of 200 steps and are those of the parameters then, so a masked weight is zero when used and keeps its stored value until then; an evaluated weight has at most as many non-zero entries as the last masks kept, and from step 9001 on each covered one at most round((1-s)*size), and up to step 1200 nothing is pruned. The schedule is monotone within [0, target]. False: that pruning ends at iteration 8000, as the comment says; it ends at 9000.", "quantifier": "all parameter trees, sparsities, update streams, shuffles, sorts, steps", "why_tests_cant": "The example has no test; the statements are about all trees, sequences of updates and tie-breaking.", "anchors": ["examples/mnist_pruning.py:topk_mask", "examples/mnist_pruning.py:zhugupta_func", "examples/mnist_pruning.py:create_partitions", "examples/mnist_pruning.py:apply_mask", "examples/mnist_pruning.py:update_mask", "examples/mnist_pruning.py:main"]}
{"id": "C87", "title": "imagenet dataset: shards tile a split, evaluation sees every example once, crops lie in the image", "statement": "For every split and number of hosts not above its examples: the shards of the hosts are disjoint, of sizes that differ by at most one, and together are exactly the split; TRAIN and VALID are disjoint and together TRAIN_AND_VALID. With more hosts than examples the last shard raises. Evaluation batches have the shape batch_dims and hold all examples once, in order, and loading raises exactly when the product of the dimensions does not divide the number of examples; the accuracy counts every example once. A repeated dataset whose size is a multiple of the batch size yields the same blocks in every round. The centre crop is a square inside the image of at most 7/8 of the smaller side, with margins that differ by at most one, and empty exactly for images of one pixel's width or height. False: that evaluation and training splits taken from the same files share no examples (TRAIN_AND_VALID and VALID).", "quantifier": "all splits, host counts, batch dimensions, datasets, image sizes", "why_tests_cant": "The example has no test; the statements are about all host counts and sizes.", "anchors": ["examples/imagenet/dataset.py:_shard", "examples/imagenet/dataset.py:Split", "examples/imagenet/dataset.py:load", "examples/imagenet/dataset.py:_decode_and_center_crop", "examples/imagenet/train.py:evaluate", "examples/mnist.py:load_dataset"]}
{"id": "C88", "title": "Transformer training loop: keys, checkpoints and restarts, and the shifted dataset", "statement": "For every network, optimizer, sequence of processes, order of directory listings and points where processes are killed: a complete checkpoint file named after step c holds the state of an uninterrupted training of c steps; the key of step i is the same in all processes and no step's key is derived from another's. If listings are alphabetical, no write is torn and steps stay below ten million, every process continues from the newest checkpoint and loses between 1 and every_n steps. Names sort as numbers below ten million. A torn newest checkpoint makes all later processes fail. Observations and targets are the text shifted by one, and the positions that count are the first min(length, sequence length). False: that a restart continues from the newest checkpoint in every listing order; that names sort as numbers from ten million on; that training ends after MAX_STEPS steps when interrupted.", "quantifier": "all networks, batches, sequences of processes, listing orders, kill points, texts", "why_tests_cant": "The example has no test; os.listdir order and kill points cannot be enumerated.", "anchors": ["examples/transformer/train.py:Updater", "examples/transformer/train.py:CheckpointingUpdater", "examples/transformer/train.py:main", "examples/transformer/dataset.py:_crop_or_pad", "examples/transformer/dataset.py:load"]}
{"id": "C89", "title": "rnn example: sampling is autoregressive, and windows are pieces of the text", "statement": "For every network, key, non-empty context and length: sample returns that many tokens, each drawn with a key of its own from the logits that the network has after the context and all tokens before it; no key is derived from another; a longer sample continues a shorter one; an empty context raises. The windows of the dataset are consecutive pieces of the text with the next character as target, (length-1)/sequence_length of them, and a column of a time-major batch is one window. False under clamped writes: the last iteration writes past the end, which is harmless only because out-of-bounds updates are dropped.", "quantifier": "all networks, keys, contexts, lengths, texts", "why_tests_cant": "The example has no test; the statement is about all lengths and networks.", "anchors": ["examples/rnn/train.py:sample", "examples/rnn/dataset.py:load"]}
{"id": "C90", "title": "Losses and schedules of the examples", "statement": "In exact arithmetic, for all flags: the imagenet learning rate lies between 0 and the base rate, rises linearly in the warmup, equals the base rate at its end, decreases afterwards and is 0 at the end of training; the training loop stays within; with a warmup the first step changes nothing, all others have a positive rate. Smoothed labels of 1000 classes sum to 1, the smoothed loss is the mixture of hard loss and average loss, and no logits give less than the labels' entropy, which is attained. Weight decay leaves out exactly the BatchNorm modules of a ResNet. Replicas' parameters stay equal and the mean of device means is the mean of the whole batch. The VAE's cross entropy is the negative log likelihood, its divergence is non-negative and 0 only for the standard normal, its loss is non-negative. mnist.py's loss is the mean negative log probability plus the penalty, and its average is the exponentially weighted one. False: that the rate stays low after the end; that smoothing is right for other class counts; that replicas' BatchNorm statistics agree.", "quantifier": "all flags, steps, logits, labels, networks, batches", "why_tests_cant": "The examples have no tests; the statements are about all real inputs.", "anchors": ["examples/imagenet/train.py:lr_schedule", "examples/imagenet/train.py:smooth_labels", "examples/imagenet/train.py:softmax_cross_entropy", "examples/imagenet/train.py:loss_fn", "examples/imagenet/train.py:train_step", "examples/vae.py:binary_cross_entropy", "examples/vae.py:kl_gaussian", "examples/vae.py:main", "examples/mnist.py:main"]}
{"id": "C91", "title": "A kept hk.jit wrapper that is called again", "statement": "For every function, code of initializers, getters, creators and interceptors, cache and world: a call of a kept hk.jit wrapper that finds a trace made in the same Haiku context (module stack, name counters, creators, getters, interceptors) returns the value or exception, and leaves the frames, of a call that traces again. Hence a sequence of calls with code in between, all in one context and without allocating modules, behaves as with a wrapper made anew for each call. False without the condition: a call from another module, under a custom getter, or after other modules were made reuses the first trace, and reads the parameters of the first call's scope.", "quantifier": "all functions, arguments, caches, worlds, scripts of calls", "why_tests_cant": "Tests wrap and call a function once or in one scope; the cache makes the result depend on the history of calls.", "anchors": ["haiku/_src/stateful.py:thread_hk_state_in_kwargs", "haiku/_src/stateful.py:temporary_internal_state", "haiku/_src/base.py:Frame.evolve"]}
{"id": "C92", "title": "hk.testing's searches and parameter lists", "statement": "For every package (a finite graph of Python modules with attributes, modules with equal names allowed): find_internal_python_modules ends, returns exactly the Haiku modules reachable from the root through Haiku modules, each once and sorted by name, and raises exactly when two distinct reachable modules share a name; find_subclasses yields every subclass defined or imported in these modules exactly once. combined_named_parameters gives one case per choice with the names joined by underscores, and raises for an empty list of parameters; the names are distinct if the parts' names are unambiguous, and not in general. named_bools and named_range have distinct names; those of named_range are unambiguous, those of named_bools are if the name is not 'not' and does not start with 'not_', and are not for the name 'not'.", "quantifier": "all module graphs, all lists of parameter lists", "why_tests_cant": "These are the functions with which the tests are written; no test covers their termination on cyclic imports or name collisions.", "anchors": ["haiku/_src/test_utils.py:find_internal_python_modules", "haiku/_src/test_utils.py:find_subclasses", "haiku/_src/test_utils.py:combined_named_parameters", "haiku/_src/test_utils.py:named_bools", "haiku/_src/test_utils.py:named_range"]}
{"id": "C93", "title": "hk.value_and_grad and hk.grad: value, gradient and effects", "statement": "For every function, derivative operator that respects pointwise equality, code and world: hk.value_and_grad(f) returns f's value (and auxiliary output) together with the operator's value at the function of the arguments that runs f on the same Haiku state, and leaves parameters, state and keys as a direct call of f does (module name counters of open scopes as before the call); when f raises, returns no pair although has_aux is set, or the derivative raises, the exception is raised and the frames are as before; hk.grad drops the value. Inside apply the gradient is that of the pure function given by apply.", "quantifier": "all functions, argument selections, worlds, derivative operators", "why_tests_cant": "Tests check a few functions; that no effect leaks or doubles needs all functions.", "anchors": ["haiku/_src/stateful.py:value_and_grad", "haiku/_src/stateful.py:grad", "haiku/_src/stateful.py:temporary_internal_state"]}
{"id": "C94", "title": "Values of ResNet and MobileNetV1 as wholes", "statement": "For all weights, configurations, images and batch sizes, over the reals: ResNet (v1 and v2) and MobileNetV1 accept exactly the shapes that the shape model accepts and return arrays of those shapes; in inference mode the logits of an image depend on that image only, wherever it is in whatever batch; before training (offsets, biases and averaged means 0) ResNets are positively homogeneous in inference mode; v1 bottleneck ResNets whose batchnorm_2 has scale and offset 0, as at initialization, compute the same features and logits in both modes whatever their (positive) numbers of blocks; with zero weights in the last layer, as at initialization, all logits are 0 and the cross entropy with labels that add up to 1 is the logarithm of the number of classes; an inference batch normalisation after a convolution is a convolution with a scaled kernel and a bias; with the initial averages it divides by sqrt(eps). In training mode the logits of an image depend on the other images. Each network is, layer by layer and with its parameter names, the given sequence of modules; batch normalisation in training mode gives each channel the mean offset and the variance scale^2 var/(var+eps); max pooling is the maximum over the pixels of a 3x3 window at every second pixel; the head is the mean over the image followed by a linear layer.", "quantifier": "all weights, configurations (depths, widths, strides), batches and images", "why_tests_cant": "The tests check shapes and parameter names for single inputs; independence of the batch and of the depth are statements about all inputs and weights.", "anchors": ["haiku/_src/nets/resnet.py:ResNet.__call__", "haiku/_src/nets/resnet.py:BlockV1.__call__", "haiku/_src/nets/resnet.py:BlockV2.__call__", "haiku/_src/nets/resnet.py:BlockGroup.__call__", "haiku/_src/nets/mobilenetv1.py:MobileNetV1.__call__", "haiku/_src/nets/mobilenetv1.py:MobileNetV1Block.__call__", "haiku/_src/batch_norm.py:BatchNorm.__call__"]}
{"id": "C95", "title": "IMPALA's networks: the learner's unroll is the actor's steps", "statement": "For all weights, observations, step types, states, lengths and batch sizes, over the reals: AtariNet.unroll over [T, B] is defined and gives logits [T, B, A] and values [T, B]; for each row of the batch it gives the same logits, values and final state as Agent.step applied to the row's steps one after the other from the row's state (deep or shallow torso, with or without LSTM). Without the LSTM the outputs of a step depend on its observation only. With it, outputs from a FIRST step on depend only on observations and step types from there on, and a FIRST step is a step from the initial state. The shallow torso is three explicit convolutions and a linear layer on the row-major features; a residual block is the image plus two zero-padded convolutions, the identity when the second is zero; the deep torso has its layers in the given order and divides each side by 8, rounding up. CatchNet.unroll gives for each step what CatchNet gives for its observation, and hands the state through. preprocess_step replaces a missing discount by 1 and a missing reward by 0. AtariNet.__call__ does not return [B, ...] but [1, B, ...]. A step is written out: the torso's features, the LSTM on the reset state, the two linear heads. CatchNet is written out: two hidden layers of 128 and 64 units on the row-major board, logits and a value.", "quantifier": "all weights, trajectories, batch sizes, states and image sizes", "why_tests_cant": "agent_test.py and learner_test.py run small fixed shapes and compare no values between step and unroll; the equality is about all trajectories and weights.", "anchors": ["examples/impala/haiku_nets.py:AtariNet.unroll", "examples/impala/haiku_nets.py:AtariShallowTorso.__call__", "examples/impala/haiku_nets.py:AtariDeepTorso.__call__", "examples/impala/haiku_nets.py:ResidualBlock.__call__", "examples/impala/haiku_nets.py:CatchNet.unroll", "examples/impala/agent.py:Agent.step", "examples/impala/util.py:preprocess_step", "haiku/_src/basic.py:BatchApply.__call__"]}
{"id": "C96", "title": "Element types: modules keep one float type, and what mixing types does", "statement": "Following a run with every array replaced by its element type (JAX's promotion lattice for jnp operations, equality for lax operations): every module built from Haiku's layers, norms, averages, attention, pools, dropout, MLPs, ResNets and MobileNets, given inputs of one float type d and parameters that come in the type they are asked in, returns type d, asks for every parameter in d and stores state only in d (counters in int32), also along any number of steps; so do the recurrent cores and both unrolls when the state has type d. For any types of parameters, state and supplied arrays, no module returns less than it gets. hk.Linear joins the types; a convolution is defined exactly when the masked weights have the type of the input. A moving average stores the join of what it held and what it gets and is stable from then on; with a warm-up it accepts the default float type only. initial_state has the default type whatever the inputs. VectorQuantizer and VectorQuantizerEMA give and store the join of their dtype and the inputs'. bfloat16 training as in examples/imagenet returns a float32 state after every step.", "quantifier": "all modules built by composition, all types, all worlds of state, all numbers of steps", "why_tests_cant": "half_test.py and float64_test.py (haiku/_src/integration) call each listed module once at a few types with one type everywhere; the claim is about all compositions, types and numbers of steps, and about mixed types.", "anchors": ["haiku/_src/basic.py:Linear.__call__", "haiku/_src/conv.py:ConvND.__call__", "haiku/_src/batch_norm.py:BatchNorm.__call__", "haiku/_src/layer_norm.py:LayerNorm.__call__", "haiku/_src/moving_averages.py:ExponentialMovingAverage.__call__", "haiku/_src/recurrent.py:LSTM.__call__", "haiku/_src/recurrent.py:dynamic_unroll", "haiku/_src/embed.py:Embed.__call__", "haiku/_src/nets/vqvae.py:VectorQuantizerEMA.__call__", "haiku/_src/nets/resnet.py:ResNet.__call__", "examples/imagenet/train.py:train_step", "haiku/_src/integration/half_test.py"]}
{"id": "C97", "title": "The losses of the IMPALA learners", "statement": "In exact arithmetic, for every batch of trajectories, network and discount factor: the V-trace errors that Learner._loss computes satisfy the backward recurrence e_t = min(1, rho_t) (clip r + d gamma (v' + e_{t+1}) - v), and the policy-gradient advantages are the same numbers; the loss is the sum over all steps whose next time step does not begin an episode of -log pi(a) e + e^2/4 - H(pi)/100; with the actor's logits the targets are the n-step returns; with rewards clipped at m and values within m/(1-gamma) so are the targets; Bellman-consistent values give policy-gradient and baseline losses of zero; entropies are between 0 and ln n, the baseline loss is not negative and the entropy loss is within T ln n of zero; the loss of a trajectory with an ended episode (discount 0) is the sum of the losses of its parts, for every network that restarts at FIRST steps and so for the example's Atari agents with and without LSTM; values, logits and actions at LAST steps and rewards and discounts at FIRST steps do not matter; impala_lite's loss is the learner's divided by the number of steps.", "quantifier": "all batches, trajectories, lengths, logits, values, rewards, discounts and networks", "why_tests_cant": "learner_test.py checks that one update runs; the claims are equations over all trajectories, including where episodes end inside a trajectory, which that test's environment reaches only by chance.", "anchors": ["examples/impala/learner.py:Learner._loss", "examples/impala/learner.py:policy_gradient_loss", "examples/impala/learner.py:entropy_loss", "examples/impala/util.py:preprocess_step", "examples/impala/agent.py:Agent.unroll", "examples/impala_lite.py:Agent.loss"]}
{"id": "C98", "title": "The two forms of hk.cond and its cache of branches", "statement": "hk.cond takes its five-argument form exactly when its positional and keyword arguments bind the five parameters of the old form, and its four-argument form exactly when they bind the four of the new one, keywords in any order; all other arguments raise TypeError; the two forms run the selected branch on its operand and commit exactly its effects, as a lax.cond on the selected branch does; the memoized wrappers of the branch functions are made once for each function object and are always the wrapper of the function asked for, because a kept wrapper keeps its function alive and so its id from being reused.", "quantifier": "all argument lists, keyword orders, predicates, branch programs, states, and sequences of calls of a memoized function", "why_tests_cant": "stateful_test.py calls the two forms with one predicate and a few spellings; that every other spelling raises and that no spelling is taken for the other form is a claim about all argument lists.", "anchors": ["haiku/_src/stateful.py:cond", "haiku/_src/stateful.py:_old_cond", "haiku/_src/stateful.py:_new_cond", "haiku/_src/stateful.py:_memoize_by_id"]}
{"id": "C99", "title": "No implicit rank promotion", "statement": "With jax_numpy_rank_promotion='raise' every network that can be put together from Haiku's modules (linear, bias, convolutions, averages, normalizations, attention, embeddings, pooling, dropout, vector quantizers, MLP, ResNet, MobileNet, sequences and residual sums) does, over any number of steps, exactly what it does when promotion is allowed, and so do all recurrent cores, reset and deep cores, and static and dynamic unrolls, provided the arguments that callers supply are scalars or of the inputs' rank and stored statistics have the inputs' rank; for those arguments the condition is exact; on any arguments strictness only refuses; initializers other than Orthogonal agree.", "quantifier": "all networks and cores of the class, ranks, modes, numbers of steps and states whose ranks fit", "why_tests_cant": "integration/rank_promotion_test.py runs each module once on one shape, without call-time arguments, compositions, initializers other than the defaults or a second step.", "anchors": ["haiku/_src/basic.py:Linear", "haiku/_src/bias.py:Bias", "haiku/_src/batch_norm.py:BatchNorm", "haiku/_src/layer_norm.py:LayerNorm", "haiku/_src/group_norm.py:GroupNorm", "haiku/_src/attention.py:MultiHeadAttention", "haiku/_src/recurrent.py:ResetCore", "haiku/_src/initializers.py:Orthogonal", "haiku/_src/integration/rank_promotion_test.py"]}
{"id": "C100", "title": "Checkpoint format", "statement": "Summarising each module of integration/descriptors.py gives exactly its file in integration/checkpoints, one file per module; the parameters and state in a file stay the same for every input that differs from the file's input only in batch, time or image sizes (within the stated ranges); for every program over Haiku's operations, apply succeeds on a checkpoint and the initial state exactly when the checkpoint holds each parameter that init makes with its shape, and then does what init did; a recurrent core has the same parameters under a static unroll of any number of steps, at least one, and a dynamic unroll of any number; the names and shapes of an MLP's parameters have a closed form for every list of sizes; the named parameters of the ResNets add up to the published counts at every image size. BatchNorm, ResNet and MobileNetV1 return in evaluation the state they were given; stacks of recurrent cores of any depth have the same parameters under both unrolls; Bias and ConvNDTranspose have the stated shapes or raise.", "quantifier": "all programs over get_parameter, get_state, set_state, naming and scopes; all checkpoints; all admitted input shapes; all numbers of steps; all MLP sizes", "why_tests_cant": "checkpoint_test.py compares one input shape per module; that the format does not depend on the batch, image or time sizes, and that loading succeeds exactly when names and shapes fit, are claims about all sizes and all checkpoints.", "anchors": ["haiku/_src/integration/checkpoint_utils.py", "haiku/_src/integration/descriptors.py", "haiku/_src/integration/checkpoint_test.py", "haiku/_src/module.py:unique_and_canonical_name", "haiku/_src/base.py:get_parameter", "haiku/_src/recurrent.py:static_unroll", "haiku/_src/recurrent.py:dynamic_unroll", "haiku/_src/nets/mlp.py:MLP", "haiku/_src/nets/resnet.py:ResNet"]}
{"id": "C101", "title": "The text of modules and parameter mappings", "statement": "The text that repr and pformat give for a value made of numbers, strings, lists, tuples, modules and mappings, laid out on one line or many, reads back as that value (class names of at most 78 characters), so two values with the same text are equal; the text auto_repr gives for any accepted call of a class without *args reads as a keyword-only call of the class that binds the same values up to equality with the defaults; when the printed arguments have no line breaks, the text has one exactly if it is longer than 80 characters on one line; the text of each module of integration/descriptors.py is the line \"module\" of its checkpoint file; the text of a keys view lists exactly its keys.", "quantifier": "all values, nested to any depth and with strings of any characters below 256; all class signatures and accepted calls; all 42 descriptors", "why_tests_cant": "utils_test.py compares a handful of texts; that no layout loses or confuses an argument is a claim about all nestings, all line lengths and all strings.", "anchors": ["haiku/_src/utils.py:auto_repr", "haiku/_src/utils.py:fancy_repr", "haiku/_src/utils.py:indent", "haiku/_src/utils.py:compare_or_false", "haiku/_src/data_structures.py:FlatMapping.__str__", "haiku/_src/data_structures.py:_repr_item", "haiku/_src/data_structures.py:KeysOnlyKeysView", "haiku/_src/module.py:ModuleMetaclass.__call__", "haiku/_src/integration/checkpoint_utils.py:module_name", "haiku/_src/integration/descriptors.py"]}
{"id": "C102", "title": "Replicas that share statistics compute what one device would", "statement": "When a BatchNorm with cross_replica_axis runs on several replicas, the replicas of each group of axis_index_groups (or all, without groups) normalise, and update their moving averages, exactly as one BatchNorm would on the group's batches put together, call after call, and their states stay equal; the same holds for the codebook, cluster sizes and embedding averages of VectorQuantizerEMA with cross_replica_axis, and for its perplexity; the mean of the replicas' losses is the loss on all vectors. Without the axis codebooks drift apart.", "quantifier": "all numbers of replicas, partitions into groups of any sizes, batches, sequences of training and evaluation calls, decay rates, epsilons, scales, offsets, numbers of codes", "why_tests_cant": "batch_norm_test.py needs several devices and uses four replicas and one call; that states stay equal over a whole training run and that unequal groups work is a claim about all runs.", "anchors": ["haiku/_src/batch_norm.py:BatchNorm.__init__", "haiku/_src/batch_norm.py:BatchNorm.__call__", "haiku/_src/nets/vqvae.py:VectorQuantizerEMA.__init__", "haiku/_src/nets/vqvae.py:VectorQuantizerEMA.__call__"]}
{"id": "C103", "title": "Gradients through modules and losses", "statement": "Forward and reverse mode differentiation, as JAX applies it to the arithmetic of the modules, agree and give the true derivative of the value when nothing is stopped. With stop_gradient: VectorQuantizer passes the gradient of its output to its input unchanged; its loss moves only codes that were chosen, towards the mean of their vectors, and inputs only through the commitment term; VectorQuantizerEMA gives codes no gradient; SpectralNorm treats its singular vectors as constants and its derivative along the weight itself is 0 whatever the state of the power iteration; the gradients of BatchNorm (training) and LayerNorm with respect to the inputs are the classical formulas, so that moving all inputs alike, or with eps 0 stretching them, moves no output; in evaluation BatchNorm is affine; softmax cross entropy has gradient softmax minus labels, and with it the losses of the MNIST, language model, VAE and IMPALA examples have their closed form gradients.", "quantifier": "all expressions built from arithmetic, exp, log, sqrt, stop_gradient and indexing, in any number of variables; all codebooks, batch sizes, inputs, weights, labels and logits", "why_tests_cant": "vqvae_test.py checks whether some gradient is zero on one input; a gradient formula is a claim about limits at every point.", "anchors": ["haiku/_src/nets/vqvae.py:VectorQuantizer.__call__", "haiku/_src/nets/vqvae.py:VectorQuantizerEMA.__call__", "haiku/_src/spectral_norm.py:SpectralNorm.__call__", "haiku/_src/batch_norm.py:BatchNorm.__call__", "haiku/_src/layer_norm.py:LayerNorm.__call__", "examples/mnist.py:loss", "examples/transformer/train.py:lm_loss_fn", "examples/vae.py:binary_cross_entropy", "examples/vae.py:kl_gaussian", "examples/impala_lite.py:Agent.loss"]}
{"id": "C104", "title": "Gradients through layers, embeddings, recurrent cells and resets", "statement": "The derivative of Linear is dx@w + x@dw + db, so that on a batch its gradients are x^T@ct, the sum of ct and ct@w^T; relu, sigmoid and tanh have their derivatives (relu has 0 at 0, where no derivative exists) and never stretch a change; an MLP passes on derivatives exactly through its positive units; dropout scales derivatives like values; Embed adds the gradient of each id to its row, repeated ids adding up, and the two lookup styles have equal gradients exactly within the vocabulary; the derivative of an LSTM's memory is the forget gate times that of the old memory plus the three gates' shares, so that along the memory it is the product of the forget gates; a GRU's is a mixture in the proportion of the update gate; unrolls of VanillaRNN, LSTM and GRU in a ResetCore behave from a reset on, in values and derivatives, like an unroll from the initial state, no gradient crosses a reset, and without resets ResetCore changes nothing.", "quantifier": "all sizes, batches, parameters, inputs, cotangents, directions, ids (in and out of range), masks and rates, numbers of layers, numbers of steps and reset flags", "why_tests_cant": "recurrent_test.py compares the values of ResetCore on one sequence and checks no gradients; that nothing crosses a reset in any direction, for any sequence and flags, is a claim about all of them.", "anchors": ["haiku/_src/basic.py:Linear.__call__", "haiku/_src/basic.py:dropout", "haiku/_src/nets/mlp.py:MLP.__call__", "haiku/_src/embed.py:Embed.__call__", "haiku/_src/recurrent.py:VanillaRNN.__call__", "haiku/_src/recurrent.py:LSTM.__call__", "haiku/_src/recurrent.py:GRU.__call__", "haiku/_src/recurrent.py:ResetCore.__call__", "haiku/_src/recurrent.py:static_unroll"]}
{"id": "C105", "title": "Training on several replicas follows the gradient of the mean loss", "statement": "With losses differentiated inside jax.pmap (the transpose of psum being psum), the mean of the replicas' gradients is the gradient of the mean of their losses as functions of one set of parameters, whether or not the replicas exchange values; replicas that exchange nothing get their own gradients. BatchNorm with cross_replica_axis has the values and derivatives of BatchNorm on all batches together. The loss of the imagenet example (with or without label smoothing, with weight decay) averaged over replicas with batches of one size is the loss on all of them; smoothed labels sum to 1. After any number of training steps all replicas hold equal parameters and optimizer states; the network state is not kept equal.", "quantifier": "all numbers of replicas, losses over arithmetic, exp, log, sqrt, stop_gradient and indexing, parameters, batches of one size, optimizers, numbers of steps", "why_tests_cant": "No test of the repository trains on several replicas; that no sequence of steps lets parameters drift is a claim about all runs.", "anchors": ["examples/imagenet/train.py:train_step", "examples/imagenet/train.py:loss_fn", "examples/imagenet/train.py:smooth_labels", "haiku/_src/batch_norm.py:BatchNorm.__call__"]}
{"id": "C106", "title": "Gradients of convolutions and pooling", "statement": "The derivative of ConvND, ConvNDTranspose, DepthwiseConv2D (and, by composition, SeparableDepthwiseConv2D) is the layer without bias applied to the derivative of the input plus the layer with the derivatives of weights and bias as parameters. With a gradient ct of the output, the gradient of a kernel weight is the sum over batch and output positions of ct times what that kernel position reads, times the mask (so masked weights get none), that of the bias is the sum of ct over batch and positions, and that of the input is ConvNDTranspose of ct with the kernel read backwards and the input's spatial shape as output_shape. avg_pool spreads the gradient of an output evenly over the entries its window covers, max_pool gives it to the first largest entry, and both preserve its sum. Where the largest entry is unique that is the derivative; at ties it is not.", "quantifier": "all numbers of spatial dimensions, shapes, kernels, strides, rates, paddings, groups, masks, data formats and values; the input gradient for rate 1, one group and string padding; pooling of arrays of any rank with sizes, windows and strides of at least 1", "why_tests_cant": "The repository's tests check forward values of convolutions and pooling on ones and small arrays; none looks at gradients.", "anchors": ["haiku/_src/conv.py:ConvND.__call__", "haiku/_src/conv.py:ConvNDTranspose.__call__", "haiku/_src/depthwise_conv.py:DepthwiseConv2D.__call__", "haiku/_src/depthwise_conv.py:SeparableDepthwiseConv2D.__call__", "haiku/_src/pool.py:max_pool", "haiku/_src/pool.py:avg_pool"]}
{"id": "C107", "title": "Gradients of multi-head attention", "statement": "The arithmetic of MultiHeadAttention as expressions has the module's values, and every entry of its output has the derivative that forward mode computes although the softmax subtracts its largest logit without a gradient. A softmax weight changes by itself times the difference between the change of its logit and the weighted mean of all changes, so that the changes of the weights add up to nothing. For one head with a gradient ct of the output: the value of a position gets its weight times ct; the logit of a position gets its weight times the difference between the worth <ct, value> of the position and that of the output; keys get this times the query, the query gets the keys weighted with it, both divided by the square root of the key size. The gradients of the keys add up to zero, those of the values to ct. Key and value of a masked position get at most exp(2B - big) times a number independent of big, but in exact arithmetic never exactly nothing.", "quantifier": "all numbers of heads and positions, sizes, parameters, inputs, masks and cotangents (positive key size; at least one position for the closed forms)", "why_tests_cant": "The repository's attention tests compare forward values and shapes for a few sizes; gradients are not looked at, and that masked positions are only nearly excluded needs an argument about all inputs.", "anchors": ["haiku/_src/attention.py:MultiHeadAttention.__call__", "haiku/_src/attention.py:MultiHeadAttention._linear_projection"]}
{"id": "C108", "title": "The example notebooks: autoregressive prediction, GAN training and VQ-VAE sizes", "statement": "haiku_lstms.ipynb: generating with the whole sequence through the network for every entry returns what generating one step at a time from the recurrent state returns without its last entry; with nothing to generate both raise; Dataset gives every epoch the data in order, batch after batch, and rejects exactly the batch sizes that do not divide it; the targets are the inputs one step later, follow from two earlier entries but not from one, and repeat. mnist_gan.ipynb: no key is drawn with twice, the two updates of a step are simultaneous, one pass over both batches equals two, the losses with two logits are softplus of their difference, a discriminator that cannot tell the batches apart has a loss of at least 2 ln 2; display inverts preprocessing. Image grids put every sample into its row and column. vqvae_example.ipynb: reconstructions are as large as the image rounded up to a multiple of 4.", "quantifier": "all cores, contexts, lengths, data, batch sizes, keys, update functions, logits, grid and image sizes, and numbers of residual layers", "why_tests_cant": "The notebooks have no tests at all; they ask the reader to compare plots by eye.", "anchors": ["examples/haiku_lstms.ipynb:autoregressive_predict", "examples/haiku_lstms.ipynb:fast_autoregressive_predict_fn", "examples/haiku_lstms.ipynb:Dataset", "examples/haiku_lstms.ipynb:sine_seq", "examples/mnist_gan.ipynb:GAN.update", "examples/mnist_gan.ipynb:GAN.disc_loss", "examples/mnist_gan.ipynb:GAN.gen_loss", "examples/mnist_gan.ipynb:make_grid", "examples/vqvae_example.ipynb:Encoder", "examples/vqvae_example.ipynb:Decoder", "examples/vqvae_example.ipynb:convert_batch_to_image_grid"]}
{"id": "C109", "title": "The library built in the notebook build_your_own_haiku", "statement": "A transformed function that returns leaves the stack of frames and the call stack as they were, nested transforms included, and the assertions of module_method never fail; applying never changes the given parameters, draws no random number, and its outcome depends only on its inputs, not on the frames below or the draws made before; module names made in one call are pairwise different; paths of parameters tell apart all places whose names contain no slash; if an initialisation asks for no path twice, applying its parameters replays it. For all widths, MLP(widths) has the parameters of Linear_0, Linear_1, \u2026 inside MLP_0, in order, each once. On an exception the frames stay behind, though later transformed functions behave the same.", "quantifier": "all functions (interaction trees over get_param, modules, methods, init and apply of inner transforms), parameters, surroundings, numbers of draws and widths", "why_tests_cant": "The notebook has no tests; that the global stacks are restored and that outputs depend on inputs only are claims about all functions.", "anchors": ["docs/notebooks/build_your_own_haiku.ipynb:Frame.create_param_path", "docs/notebooks/build_your_own_haiku.ipynb:Frame.create_unique_module_name", "docs/notebooks/build_your_own_haiku.ipynb:module_method", "docs/notebooks/build_your_own_haiku.ipynb:get_param", "docs/notebooks/build_your_own_haiku.ipynb:transform"]}
{"id": "C110", "title": "Training a subset of the parameters (notebook non_trainable)", "statement": "For every partition of the parameters: the gradient of the loss in the trainable group is the part of the whole gradient with its paths, and the only one; a step on the trainable group merged with the other is a step with the whole gradient where the predicate holds and no change elsewhere; after any number of steps with any losses the frozen parameters are the initial ones, and all paths and sizes are kept. Records hold as many different classes as their size, larger sizes than there are classes raise; with all classes in each record every record gives the same loss, so that training depends on no random number but the initial parameters.", "quantifier": "all parameter structures, predicates, losses that read parameters by path, learning rates, numbers of steps, permutations and batch sizes", "why_tests_cant": "The notebook has no tests; it asks the reader to compare heat maps of the parameters.", "anchors": ["docs/notebooks/non_trainable.ipynb:loss_fn", "docs/notebooks/non_trainable.ipynb:sgd_step", "docs/notebooks/non_trainable.ipynb:train_step", "docs/notebooks/non_trainable.ipynb:dataset", "haiku/_src/filtering.py:partition", "haiku/_src/filtering.py:merge"]}
{"id": "C111", "title": "The check that every public name is documented", "statement": "For every set of modules and every page of directives: the check ends; it breaks exactly when two modules found have the same name or one has no __all__; otherwise it raises with exactly the public names that are not documented, each once and in order, and passes if there are none. A page documents exactly the names with an autoclass or autofunction, in the module of the last currentmodule or automodule before them, and the modules with an automodule; lines of an autosummary do not count; directives added at the end never break a passing check. docs/api.rst passes. Names of haiku.typing are not checked, since no module imports it; a section inserted in the middle of a page can take entries away from their module.", "quantifier": "all module graphs, lists of public names, pages and tables of documented objects", "why_tests_cant": "The check is itself a test of one page; that it finds every omission on every page, and what it cannot see, is a claim about all of them.", "anchors": ["docs/ext/coverage_check.py:haiku_public_symbols", "docs/ext/coverage_check.py:HaikuCoverageCheck.finish", "haiku/_src/test_utils.py:find_internal_python_modules", "haiku/__init__.py", "docs/api.rst"]}
{"id": "C112", "title": "Packaging and links to the source", "statement": "For every tree of directories: the packages that setup.py installs are exactly the directories reached through names without dots, except ez_setup and those whose path ends with __pycache__ or _test.py; the pattern '*_test.py' excludes exactly directories py inside directories whose name ends with _test, that is, no test; docs and examples are installed as packages. The version is that of the first line starting with __version__. linkcode_resolve gives a link exactly when the object is found in a loaded module and has a source file and lines, naming the first and last line; for a module that is not loaded it raises a KeyError; every link has at least two number signs.", "quantifier": "all trees of directories, files, modules, objects and outcomes of inspect", "why_tests_cant": "setup.py and docs/conf.py have no tests; the claims are about all trees and objects.", "anchors": ["setup.py:_get_version", "setup.py:_parse_requirements", "setup.py", "docs/conf.py:linkcode_resolve"]}

{"id": "C01", "title": "partition then combine is the identity", "statement": "For every pytree x and every filter_spec that is accepted for x, combine(*partition(x, filter_spec)) returns exactly x (same structure, same leaves, same Nones); with is_leaf, the same is_leaf passed to combine gives the same guarantee when is_leaf looks only at the root of an object.", "quantifier": "all pytrees (any depth, any branching, any leaf values, Nones anywhere), all filter specs (prefix trees of booleans and predicates), all type-directed is_leaf predicates", "why_tests_cant": "structure, spec prefix and is_leaf interact on every shape of tree; tests sample a handful of shapes", "anchors": ["equinox/_filters.py: partition, combine, _make_filter_tree, _combine"]}
{"id": "C02", "title": "partition splits every leaf into exactly one half", "statement": "partition(x, spec) returns two trees with the structure of x in which each leaf of x appears, unchanged, in exactly one half and `replace` stands at that position in the other; the left half is filter(x, spec) and the right half is filter(x, spec, inverse=True); an invalid spec raises in all three.", "quantifier": "all pytrees, specs, replacement values, is_leaf predicates", "why_tests_cant": "complementarity must hold position by position for every mask", "anchors": ["equinox/_filters.py: filter, partition"]}
{"id": "C03", "title": "combine takes the first non-None at each leaf", "statement": "combine(t1, ..., tn) of trees of a common shape returns at each leaf position the first argument's entry that is not None (None if all are), is associative over regrouping of its arguments, and raises on structure mismatch rather than returning a merged tree.", "quantifier": "all n, all families of trees", "why_tests_cant": "n-ary interaction of Nones with structure", "anchors": ["equinox/_filters.py: combine, _combine"]}
{"id": "C04", "title": "apply_updates adds where there is an update and nowhere else", "statement": "apply_updates(model, updates) returns model with p+u at each leaf where the update is u, and leaves every leaf and every subtree whose update is None untouched; updates of all None is the identity; sequential application with an associative + equals application of the summed updates.", "quantifier": "all models, all update prefix trees", "why_tests_cant": "None inside updates may stand for a leaf or a whole subtree; the frame property quantifies over all positions", "anchors": ["equinox/_update.py: apply_updates, _apply_update"]}
{"id": "C05", "title": "jit argument packing is lossless", "statement": "Splitting a pytree of arguments into a dynamic tuple and a hashable static part and recombining them gives back the original pytree, for every leaf predicate; the dynamic tuple contains exactly the leaves satisfying the predicate at their original flatten positions and the static part none of them.", "quantifier": "all pytrees, all leaf predicates", "why_tests_cant": "all positions / predicates", "anchors": ["equinox/_compile_utils.py: hashable_partition, hashable_combine, hashable_filter", "equinox/_jit.py: _preprocess, _filter_jit_cache"]}
{"id": "C06", "title": "tree_at: what you put is what you get", "statement": "When tree_at(where, tree, replace) succeeds, applying where to the result returns exactly the replacement values in order, and every part of the tree disjoint from the selected nodes is unchanged (including empty tuples, Nones and leaves).", "quantifier": "all trees, all sets of selected positions, all replacements", "why_tests_cant": "the frame condition quantifies over all other positions of arbitrary trees", "anchors": ["equinox/_tree.py: tree_at, _LeafWrapper, _DistinctTuple, _CountedIdDict"]}
{"id": "C07", "title": "tree_at rejects ambiguous selections", "statement": "tree_at raises whenever a selected node is not part of the tree, is selected more than once, is nested in another selected node, or the number of replacements differs from the number of selected nodes; otherwise it succeeds.", "quantifier": "all trees, all selections", "why_tests_cant": "the error conditions are global conditions about identity of nodes", "anchors": ["equinox/_tree.py: tree_at"]}
{"id": "C08", "title": "tree_at with replace_fn equals tree_at with the mapped replacements", "statement": "tree_at(where, tree, replace_fn=f) = tree_at(where, tree, replace=[f(n) for n in where(tree)]); replacing nodes by themselves is the identity; two disjoint tree_at calls commute.", "quantifier": "all trees, disjoint selections, functions f", "why_tests_cant": "quantifies over arbitrary functions and positions", "anchors": ["equinox/_tree.py: tree_at"]}
{"id": "C09", "title": "tree_equal decides structural equality", "statement": "tree_equal(*trees) on non-traced trees returns True exactly when all trees have equal structure and pairwise equal leaves (with arrays compared by shape, dtype and value); it is reflexive (absent NaN-like leaves), symmetric and transitive on typematched comparison.", "quantifier": "all trees", "why_tests_cant": "equivalence laws quantify over triples of arbitrary trees", "anchors": ["equinox/_tree.py: tree_equal, _array_equal"]}
{"id": "C10", "title": "tree_check detects exactly sharing and cycles", "statement": "tree_check(pytree) raises if and only if the object graph reachable from it contains a cycle or a non-leaf node reachable along two different paths; it terminates on every finite object graph.", "quantifier": "all finite object graphs (cyclic or not)", "why_tests_cant": "requires reasoning on arbitrary graphs, all paths", "anchors": ["equinox/_tree.py: tree_check, _tree_check, tree_flatten_one_level"]}
{"id": "C11", "title": "Module flatten/unflatten round trip", "statement": "Flattening a Module instance and unflattening with the same leaves gives an instance with equal dynamic fields, static fields and wrapper fields; fields missing from the instance stay missing; replacing the leaves changes exactly the dynamic fields.", "quantifier": "all classes (any field layout), all instances incl. partially initialised ones", "why_tests_cant": "any mixture of dynamic/static/missing fields", "anchors": ["equinox/_module.py: _flatten_module, _unflatten_module, _FlattenedData"]}
{"id": "C12", "title": "Module construction discipline", "statement": "Constructing a Module either raises or yields a frozen instance whose every declared field is set; during __init__ only declared fields can be assigned; afterwards no assignment succeeds; converters are applied exactly once per field declared with one; every __check_init__ in the MRO runs exactly once in order after freezing.", "quantifier": "all class hierarchies, all user __init__ bodies expressed as assignment sequences", "why_tests_cant": "arbitrary init bodies & hierarchies", "anchors": ["equinox/_module.py: _ActualModuleMeta.__call__, _make_initable, Module"]}
{"id": "C13", "title": "equal Modules have equal hashes", "statement": "If m1 == m2 is True for two Modules with hashable leaves then hash(m1) == hash(m2).", "quantifier": "all pairs of Modules", "why_tests_cant": "all pairs", "anchors": ["equinox/_module.py: Module.__hash__, Module.__eq__", "equinox/_tree.py: tree_equal"]}
{"id": "C14", "title": "AbstractVar/AbstractClassVar resolution over the MRO", "statement": "A class is instantiable iff every abstract attribute declared anywhere in its MRO is overridden by a later non-abstract declaration that is allowed to override it; the computed abstract sets are exactly the unresolved declarations.", "quantifier": "all linearised class hierarchies and annotation sets", "why_tests_cant": "arbitrary hierarchies", "anchors": ["equinox/_better_abstract.py: ABCMeta.__new__, ABCMeta.__call__, _process_annotation"]}
{"id": "C15", "title": "strict Modules never override concrete methods", "statement": "In any hierarchy in which every class was accepted with strict=True, each method name has at most one concrete implementation along the MRO of any class, every base of a strict class is a strict abstract-or-exempt Module, and no concrete class is subclassed.", "quantifier": "all sequences of class definitions", "why_tests_cant": "induction over class creation", "anchors": ["equinox/_module.py: _ActualModuleMeta.__new__ (strict branch)"]}
{"id": "C16", "title": "State objects are used linearly", "statement": "After s.set or s.update succeeds, any further get/set/substate/update/flatten on s raises, while the returned state is usable; a failed set/update leaves s usable and unchanged.", "quantifier": "all programs (operation sequences) over any number of State objects", "why_tests_cant": "all interleavings of uses of old and new handles", "anchors": ["equinox/nn/_stateful.py: State.get, State.set, State.substate, State.update, tree_flatten"]}
{"id": "C17", "title": "State behaves as a map", "statement": "Along any chain of successful operations, get(i) returns the last value set for i (as arrays), keys and the shape/dtype structure of each entry never change, and set on one index never changes another.", "quantifier": "all operation sequences, any number of indices", "why_tests_cant": "unbounded histories", "anchors": ["equinox/nn/_stateful.py: State"]}
{"id": "C18", "title": "substate/update is a lens", "statement": "s.update(s.substate(m)) has the same contents as s; update changes exactly the keys of the substate to the substate's values; substate(m) contains exactly the entries of the indices occurring in m and raises if one is missing; updating with a non-sub state raises and invalidates nothing.", "quantifier": "all states, all models m", "why_tests_cant": "all key sets", "anchors": ["equinox/nn/_stateful.py: State.substate, State.update"]}
{"id": "C19", "title": "make_with_state numbers indices deterministically", "statement": "make_with_state returns a model whose k-th StateIndex in flatten order has marker k and a state containing exactly markers 0..n-1 in order with the initial values; two calls on models of equal structure give compatible (interchangeable) models and states; no StateIndex of the returned model retains its initial value.", "quantifier": "all models with any number of StateIndex leaves", "why_tests_cant": "all tree shapes", "anchors": ["equinox/nn/_stateful.py: make_with_state, State.__init__, delete_init_state"]}
{"id": "C20", "title": "serialise/deserialise round trip", "statement": "Deserialising the bytes written by tree_serialise_leaves with a like-structured tree of the same types/shapes/dtypes returns the original leaves in place, consuming the whole stream; leaves that are not array-like come from `like`.", "quantifier": "all trees, all leaf kinds handled by the default specs", "why_tests_cant": "stream alignment must hold for any order and number of leaves", "anchors": ["equinox/_serialisation.py: tree_serialise_leaves, tree_deserialise_leaves, default_serialise_filter_spec, default_deserialise_filter_spec"]}
{"id": "C21", "title": "deserialisation never silently returns a tree of the wrong type", "statement": "If tree_deserialise_leaves succeeds then its result has the structure of `like` and each array leaf has the shape and dtype of the leaf in `like`; a mismatch raises.", "quantifier": "all byte streams, all like trees", "why_tests_cant": "adversarial streams", "anchors": ["equinox/_serialisation.py: tree_deserialise_leaves, _assert_same"]}
{"id": "C22", "title": "Enumeration promotion composes", "statement": "For an enumeration hierarchy, promote maps each inherited item to the item of the subclass with the same name and message; items of unrelated enumerations are rejected; distinct items have distinct values 0..n-1 and name<->index is a bijection.", "quantifier": "all enumeration hierarchies with any numbers of items", "why_tests_cant": "multi-inheritance renumbering", "anchors": ["equinox/_enum.py: _EnumerationMeta.__new__, _store, promote, where, __getitem__"]}
{"id": "C23", "title": "checkpointed while loop computes the same value as a while loop", "statement": "The forward pass of the checkpointed while loop returns exactly the value of the plain while loop with the same cond/body/init truncated at max_steps, and performs no step after cond is false.", "quantifier": "all cond/body/init, any max_steps, any number of checkpoints", "why_tests_cant": "all loops", "anchors": ["equinox/internal/_loop/checkpointed.py: _checkpointed_while_loop forward", "equinox/internal/_loop/common.py: common_rewrite"]}
{"id": "C24", "title": "online checkpointing never loses step 0 and stays in bounds", "statement": "After any number of forward steps, the checkpoint buffer holds step 0 in slot 0, all recorded steps are distinct steps already taken whose saved value is the loop value at that step, and every write goes to a slot in range.", "quantifier": "any number of checkpoints >= 1, any number of steps", "why_tests_cant": "two different online schedules (Stumm-Walther, then Wang-Moin) over unbounded steps", "anchors": ["equinox/internal/_loop/checkpointed.py: _stumm_walther_i, _wang_moin, _should_save_residual"]}
{"id": "C25", "title": "the backward pass computes the exact reverse-mode gradient", "statement": "The treeverse-style backward pass of the checkpointed loop applies the VJP of every step exactly once, in reverse order, each at the loop value of that step, for every number of steps and every checkpoint budget; hence equals the gradient of the unrolled loop.", "quantifier": "any number of steps, any number of checkpoints, any body and VJP", "why_tests_cant": "schedule correctness over unbounded step counts and budgets", "anchors": ["equinox/internal/_loop/checkpointed.py: _checkpointed_while_loop_bwd, _load_from_checkpoint, _maybe_save_to_checkpoint, _calc_next_checkpoint, _fwd, _u_turn"]}
{"id": "C26", "title": "the backward pass terminates", "statement": "The backward while loop terminates for all step counts and checkpoint budgets, never reads an unwritten slot and never keeps more than the budgeted number of checkpoints.", "quantifier": "any number of steps and checkpoints", "why_tests_cant": "termination", "anchors": ["equinox/internal/_loop/checkpointed.py: backward cond_fun/body_fun"]}
{"id": "C27", "title": "default number of checkpoints is large enough", "statement": "For every max_steps >= 1 the default number of checkpoints c is at least 1 and at most max_steps, and is the least one satisfying 2*max_steps < (c+1)(c+2), i.e. the offline Stumm-Walther schedule never has to fall back to the online one.", "quantifier": "all max_steps", "why_tests_cant": "unbounded integers", "anchors": ["equinox/internal/_loop/checkpointed.py: checkpointed_while_loop default checkpoints"]}
{"id": "C28", "title": "bounded while loop equals the truncated while loop", "statement": "bounded_while_loop(cond, body, init, max_steps, base) returns the value after iterating body while cond holds, at most max_steps times, whatever the base >= 2; 0 steps returns init; negative raises.", "quantifier": "all cond/body/init/max_steps/base", "why_tests_cant": "recursive nesting of scans of arbitrary depth", "anchors": ["equinox/internal/_loop/bounded.py: bounded_while_loop, _while_loop", "equinox/internal/_loop/common.py: common_rewrite"]}
{"id": "C29", "title": "batched loops freeze finished elements", "statement": "A vmapped loop returns, for each batch element, exactly what the unbatched loop returns for it: elements whose condition has become false are frozen while the others continue.", "quantifier": "all batch sizes, all per-element step counts", "why_tests_cant": "any combination of stopping times", "anchors": ["equinox/internal/_loop/common.py: common_rewrite, _select_if_vmap"]}
{"id": "C30", "title": "scan equals the fold", "statement": "equinox's scan over xs returns the same carry and stacked ys as the sequential fold of f, for every length; inconsistent lengths raise.", "quantifier": "all f, lengths", "why_tests_cant": "all lengths", "anchors": ["equinox/internal/_loop/loop.py: scan, while_loop"]}
{"id": "C31", "title": "filter_vmap resolves axes per leaf", "statement": "filter_vmap's in_axes specification (a prefix of ints, None, and callables) resolves to exactly one axis or None per leaf of the argument; leaves with axis None are passed through unmapped; named in_axes dictionaries with unknown keys raise and missing keys default to if_array(0).", "quantifier": "all argument trees & specs", "why_tests_cant": "prefix interaction", "anchors": ["equinox/_vmap_pmap.py: _resolve_axes, _resolve_axis, _named_in_axes, _VmapWrapper.__call__"]}
{"id": "C32", "title": "jit donation routing", "statement": "For each documented donate mode exactly the documented groups of arguments (function / first argument / rest) are donated; any other value raises.", "quantifier": "all modes, all argument trees", "why_tests_cant": "decision table x argument partition", "anchors": ["equinox/_jit.py: filter_jit, _preprocess"]}
{"id": "C33", "title": "error_if decision table", "statement": "error_if/branched_error_if return x unchanged when the predicate is false; with a concrete true predicate and concrete index raise with exactly the selected message (or return a nan-filled x / open a breakpoint according to on_error); a pytree without arrays raises; unknown on_error raises.", "quantifier": "all predicates, indices, message lists, modes", "why_tests_cant": "cross product with vmapped predicates", "anchors": ["equinox/_errors.py: error_if, branched_error_if, branched_error_if_impl, _error, _nan_like", "equinox/_unvmap.py"]}
{"id": "C34", "title": "Shared layers stay tied", "statement": "nn.Shared(tree, where, get)() returns the tree with the node(s) at `where` equal to those at `get` of the stored tree, all other nodes unchanged; updating the stored pytree at `get` changes both places on the next call; mismatched structures raise at construction.", "quantifier": "all trees, where/get selections", "why_tests_cant": "arbitrary positions", "anchors": ["equinox/nn/_shared.py: Shared.__init__, Shared.__call__"]}
{"id": "C35", "title": "inference_mode toggles every inference flag and nothing else", "statement": "inference_mode(tree, value) sets the `inference` attribute of every module anywhere in the tree (including nested ones) to value and changes nothing else; it is idempotent.", "quantifier": "all trees", "why_tests_cant": "arbitrary nesting", "anchors": ["equinox/nn/_inference.py: _inferences, inference_mode"]}
{"id": "C36", "title": "pooling output-size arithmetic", "statement": "With use_ceil=True the pooled size is ceil((n+l+r-k)/s)+1 and with use_ceil=False floor((n+l+r-k)/s)+1; the extra padding is added only when needed.", "quantifier": "all sizes, kernels, strides, paddings", "why_tests_cant": "integer arithmetic over unbounded ranges", "anchors": ["equinox/nn/_pool.py: Pool.__init__, Pool._update_padding_for_ceil, Pool._check_is_padding_valid"]}
{"id": "C37", "title": "adaptive pooling covers the input exactly once", "statement": "AdaptivePool with target size t <= n partitions each pooled axis into exactly t contiguous, disjoint windows covering it, whose sizes differ by at most one, and applies the operation once to each window.", "quantifier": "all n, t, operations", "why_tests_cant": "the operation is applied a different number of times on the two branches", "anchors": ["equinox/nn/_pool.py: _adaptive_pool1d, AdaptivePool.__call__"]}
{"id": "C38", "title": "ConvTranspose padding inverts Conv", "statement": "ConvTranspose output size for explicit padding is (n-1)s + d(k-1) + 1 - p0 - p1 + output_padding, the preimage size of Conv; with 'SAME'/'SAME_LOWER' it is n*s - output_padding.", "quantifier": "all kernel/stride/dilation/padding", "why_tests_cant": "arithmetic with sign cases", "anchors": ["equinox/nn/_conv.py: ConvTranspose._padding_transpose, Conv"]}
{"id": "C39", "title": "ConvTranspose validates output_padding < stride elementwise", "statement": "Constructing ConvTranspose raises ValueError whenever some output_padding[i] >= stride[i].", "quantifier": "all tuples", "why_tests_cant": "the check compares whole tuples", "anchors": ["equinox/nn/_conv.py: ConvTranspose.__init__"]}
{"id": "C40", "title": "RoPE output depends only on its own hyperparameters", "statement": "RotaryPositionalEmbedding(embedding_size, theta, dtype)(x) depends only on embedding_size, theta, dtype and x, whatever other embeddings were evaluated before.", "quantifier": "all call histories", "why_tests_cant": "global cache keyed without theta", "anchors": ["equinox/nn/_embedding.py: RotaryPositionalEmbedding.__call__, internal_rope_embedding_cache"]}
{"id": "C41", "title": "Dropout and inference", "statement": "Dropout in inference mode (argument, then deterministic argument, then attribute, then p==0) is the identity without needing a key; in training without key raises; otherwise each element is 0 or x/(1-p).", "quantifier": "all flags, inputs, masks", "why_tests_cant": "flag precedence", "anchors": ["equinox/nn/_dropout.py: Dropout.__init__, Dropout.__call__"]}
{"id": "C42", "title": "BatchNorm state discipline", "statement": "In inference mode BatchNorm leaves the state unchanged; in training mode the running statistics become the batch statistics on the first call and afterwards the momentum average; the flag first_time is cleared forever.", "quantifier": "all call histories", "why_tests_cant": "unbounded histories", "anchors": ["equinox/nn/_batch_norm.py: BatchNorm.__call__"]}
{"id": "C43", "title": "Sequential threads state through stateful layers only", "statement": "Sequential applies its layers left to right, passes the state to exactly the stateful layers in order, each layer receiving its own key; slicing and concatenation agree with function composition.", "quantifier": "all layer lists", "why_tests_cant": "arbitrary layer lists", "anchors": ["equinox/nn/_sequential.py: Sequential, StatefulLayer"]}
{"id": "C44", "title": "noinline registry is append-only and injective", "statement": "Each registered function index resolves forever to the function it was registered with; registering an equal function returns the same index.", "quantifier": "all registration histories", "why_tests_cant": "histories", "anchors": ["equinox/internal/_noinline.py: noinline, _fn_to_index, _index_to_fn"]}
{"id": "C45", "title": "filter_primitive packing is lossless", "statement": "Flattening arguments into dynamic values plus static leaves/treedef and recombining in the primitive's rule gives the original arguments.", "quantifier": "all argument trees", "why_tests_cant": "all positions", "anchors": ["equinox/internal/_primitive.py: _combine, filter_primitive_bind, Flatten"]}
{"id": "C46", "title": "finalise_jaxpr preserves meaning", "statement": "Evaluating a finalised jaxpr gives the same outputs as evaluating the original jaxpr whenever each registered finalisation rule agrees with its primitive, including nested jaxprs.", "quantifier": "all jaxprs", "why_tests_cant": "all programs", "anchors": ["equinox/internal/_finalise_jaxpr.py"]}
{"id": "C47", "title": "assert_max_traces counts exactly", "statement": "A function wrapped with assert_max_traces(max_traces=n) raises on exactly the (n+1)-th trace and later; get_num_traces returns the number of traces so far.", "quantifier": "all histories", "why_tests_cant": "histories with clones", "anchors": ["equinox/debug/_max_traces.py"]}
{"id": "C48", "title": "compile_cache is a correct memo table", "statement": "The cached function returns for every call the value the uncached function would, calls the underlying function at most once per distinct key between deletions, and entries of different user functions do not interfere.", "quantifier": "all call/delete histories", "why_tests_cant": "histories", "anchors": ["equinox/_compile_utils.py: compile_cache"]}
{"id": "C49", "title": "scan_trick order of execution", "statement": "scan_trick(fn, intermediates, init) computes fn, i0, fn, i1, ..., i_{k-1}, fn in that order.", "quantifier": "all lists", "why_tests_cant": "all lengths", "anchors": ["equinox/internal/_misc.py: scan_trick"]}
{"id": "C50", "title": "inspect_dce reports every entry", "statement": "inspect_dce(tag) rebuilds, for each stored pytree, exactly one labelled leaf per leaf of that pytree.", "quantifier": "all numbers of stored entries", "why_tests_cant": "accumulating list", "anchors": ["equinox/debug/_dce.py: inspect_dce"]}
{"id": "C51", "title": "omega arithmetic is leafwise", "statement": "Arithmetic on omega-wrapped pytrees equals the leafwise arithmetic on the wrapped trees, scalars broadcast to all leaves, mismatched structures raise.", "quantifier": "all trees/operators", "why_tests_cant": "all shapes", "anchors": ["equinox/internal/_omega.py: ω"]}
{"id": "C52", "title": "GetKey never repeats", "statement": "Successive calls of a GetKey object use pairwise distinct fold-in indices, depending only on the seed and call number.", "quantifier": "all histories", "why_tests_cant": "histories", "anchors": ["equinox/internal/_getkey.py: GetKey"]}
{"id": "C53", "title": "MLP layer sizes chain", "statement": "For every in/out/width/depth an MLP has depth+1 linear layers whose sizes chain from in_size to out_size, uses use_bias on all but the last and use_final_bias on the last, each with a distinct key.", "quantifier": "all sizes/depths", "why_tests_cant": "all depths", "anchors": ["equinox/nn/_mlp.py: MLP.__init__"]}
{"id": "C54", "title": "Partial application is argument concatenation", "statement": "Partial(f, *a, **k)(*b, **l) calls f(*a, *b, **l, **k) and raises on a duplicated keyword; nesting Partials concatenates.", "quantifier": "all argument lists", "why_tests_cant": "all splits", "anchors": ["equinox/_module.py: Partial"]}
{"id": "C55", "title": "filter_grad differentiates exactly the inexact-array leaves", "statement": "filter_value_and_grad calls the user function on the original argument (recombined) and returns gradients with the structure of the first argument with None at every leaf that is not an inexact array. filter_jvp, filter_vjp, the Jacobians and filter_hessian (squares of derivatives, laid out twice) treat their first argument in the same way.", "quantifier": "all first-argument trees", "why_tests_cant": "all trees", "anchors": ["equinox/_ad.py: _ValueAndGradWrapper, _GradWrapper, filter_jvp, filter_vjp, _Jac, filter_hessian"]}
{"id": "C56", "title": "perturbation analysis is a sound least fixed point", "statement": "The perturbed/symbolic-zero analysis of the loop's backward pass terminates and returns the least set of loop-carried values that contains the initially perturbed ones and is closed under the body's dependence.", "quantifier": "all dependence relations", "why_tests_cant": "fixed point over arbitrary relations", "anchors": ["equinox/internal/_loop/checkpointed.py: _resolve_perturb_val, _resolve_symbolic_zeros"]}
{"id": "C57", "title": "module_update_wrapper copies metadata and nothing else", "statement": "module_update_wrapper(wrapper, wrapped) returns a new object with the fields of wrapper, the wrapper attributes (__doc__, __name__, ...) of wrapped where it has them and wrapper's own otherwise; a class without a __wrapped__ property is rejected.", "quantifier": "all classes, instances, wrapped objects", "why_tests_cant": "any subset of attributes may be missing; the set is iterated in arbitrary order", "anchors": ["equinox/_module.py: _module_update_wrapper, _flatten_module"]}
{"id": "C58", "title": "Static round trip", "statement": "Static(v).value is v for every pytree, and two Statics have equal metadata exactly if they wrap equal pytrees.", "quantifier": "all pytrees", "why_tests_cant": "all trees", "anchors": ["equinox/_module.py: Static"]}
{"id": "C59", "title": "ConvTranspose is the linear transpose of Conv", "statement": "With the weights of the documented recipe (flip the spatial axes, swap the first two) and the output_padding that restores the input size, <Conv(x), y> = <x, ConvTranspose(y)> for all x, y; also with circular padding.", "quantifier": "all numbers of axes, kernels, strides, dilations, paddings, channel counts, array values", "why_tests_cant": "an equation between sums over all entries of arbitrary arrays", "anchors": ["equinox/nn/_conv.py: Conv.__call__, ConvTranspose.__call__, _padding_transpose, _circular_pad"]}
{"id": "C60", "title": "Convolution subclasses forward their arguments and groups are validated", "statement": "Conv1d/2d/3d and ConvTranspose1d/2d/3d build the layer the general class builds for that number of dimensions, including dtype; in_channels not divisible by groups is rejected.", "quantifier": "all constructor arguments", "why_tests_cant": "six hand-written wrappers with a dozen arguments each", "anchors": ["equinox/nn/_conv.py: Conv1d, Conv2d, Conv3d, ConvTranspose1d, ConvTranspose2d, ConvTranspose3d"]}
{"id": "C61", "title": "serialisation errors name the failing leaf", "statement": "A TreePathError raised by tree_serialise_leaves or tree_deserialise_leaves carries a path leading to a leaf on which the function chosen by filter_spec for that position raised; any other exception means filter_spec is no prefix of the tree or the final comparison failed.", "quantifier": "all trees, filter_specs (prefix trees of functions), is_leaf functions and byte streams", "why_tests_cant": "paths must be right in every tree, also when the path is split between the outer and the inner traversal", "anchors": ["equinox/_serialisation.py: _ordered_tree_map, TreePathError, tree_serialise_leaves, tree_deserialise_leaves"]}
{"id": "C62", "title": "filter_jit is transparent and history independent", "statement": "Whatever was called before, a filter_jit-wrapped function returns what the wrapped function returns on the same positional and keyword arguments (or raises the same error), and a call whose arrays have the same kinds and whose static parts are equal to an earlier call's is not traced again.", "quantifier": "all signatures, argument splits, pytrees of arguments, call histories", "why_tests_cant": "cache contents depend on the whole call history", "anchors": ["equinox/_jit.py: fun_wrapped, _preprocess, _postprocess, _JitWrapper, filter_jit"]}
{"id": "C63", "title": "ahead-of-time compilation agrees with calling", "statement": "filter_jit(f).lower(...).compile() applied to arguments of the same abstract values and equal static parts computes f of them; arguments with other abstract values raise.", "quantifier": "all signatures, arguments", "why_tests_cant": "all pairs of lowering and call arguments", "anchors": ["equinox/_compile_utils.py: Lowered, Compiled", "equinox/_jit.py: _JitWrapper.lower"]}
{"id": "C64", "title": "RoPE inner products depend only on relative positions", "statement": "If two sequences carry the row q at positions m and m', and k at positions n and n', with m - n = m' - n', then the inner product of the rotated q and k rows is the same in both.", "quantifier": "all embedding sizes, rows, positions, over any commutative ring of coefficients with rotations cos/sin satisfying the addition formulas", "why_tests_cant": "an identity over all real inputs and all positions", "anchors": ["equinox/nn/_embedding.py: RotaryPositionalEmbedding.__call__, rotate_half, precompute_freqs_cis"]}
{"id": "C65", "title": "filter_custom_jvp passes exactly the differentiable tangents", "statement": "Not differentiated, a filter_custom_jvp function is the wrapped function. Differentiated, the rule gets the arguments as the caller passed them (arrays and non-arrays together again) and the nonzero tangents of inexact arrays, with None everywhere else; a nonzero tangent of a keyword argument raises ValueError; a None tangent returned by the rule is a zero tangent; tangents of a structure other than the output's are refused.", "quantifier": "all pytrees of arguments and keyword arguments, all mixtures of arrays, integer arrays and other leaves, all sets of tangents, all rules", "why_tests_cant": "all mixtures of array kinds and symbolic zeros", "anchors": ["equinox/_ad.py: filter_custom_jvp, _drop_nondiff, _none_to_zero, _materialise_symbolic_zero"]}
{"id": "C66", "title": "filter_custom_vjp passes residuals, cotangents and perturbation flags unchanged", "statement": "A filter_custom_vjp function raises RuntimeError until both rules are given, and is the wrapped function when not differentiated. Differentiated, the forward rule gets the caller's arguments and one boolean per leaf of the first argument; the backward rule gets the forward rule's residuals, the same booleans and arguments, and the nonzero cotangents of the inexact arrays of the output; a perturbed array among the other arguments raises RuntimeError; gradients of the wrong structure raise RuntimeError, None stands for a zero gradient, and gradients for anything but inexact arrays are refused.", "quantifier": "all orders of def_fwd and def_bwd, all pytrees of arguments, residuals and outputs, all perturbations, all rules", "why_tests_cant": "all mixtures of array kinds, perturbations and symbolic zeros", "anchors": ["equinox/_ad.py: filter_custom_vjp, nondifferentiable, _get_perturbed, _zero_to_none, _none_to_zero"]}
{"id": "C67", "title": "filter_closure_convert and filter_make_jaxpr compute the function", "statement": "The jaxpr made by filter_make_jaxpr computes the arrays of fn's output for all arrays of the example's abstract values, and the returned structs and static values are fn's. A closure-converted function called with arrays of the example's abstract values and non-arrays equal to the example's returns what fn returns on these arrays and the example's non-arrays; with another structure, other abstract values (up to weak types) or other non-arrays it raises ValueError; in_struct and out_struct describe the example and the output.", "quantifier": "all functions, example arguments and later arguments (pytrees with arrays, ShapeDtypeStructs and other leaves), all tracing engines that are sound", "why_tests_cant": "all later calls of a converted function", "anchors": ["equinox/_ad.py: filter_closure_convert, _check_closure_convert_input, _ClosureConvert, _TrivialClosureConvert", "equinox/_make_jaxpr.py: _MakeJaxpr"]}
{"id": "C68", "title": "filter_eval_shape describes every evaluation; filter_checkpoint changes nothing", "statement": "If filter_eval_shape returns r then for all arrays of the given abstract values the function returns a value that is r with arrays for structs; cached_filter_eval_shape returns, after any history of calls, what filter_eval_shape returns on the arguments with (strongly typed) structs for arrays, provided equal leaves are identical; eval_empty, eval_zero and eval_full return the output with each array replaced by a filled one of its (strongly typed) abstract value, and raise AttributeError iff a shape can be evaluated but some output is no array; filter_checkpoint returns what the function returns.", "quantifier": "all functions, arguments, call histories, sound tracing engines", "why_tests_cant": "quantifies over all arrays of an abstract value and all cache histories", "anchors": ["equinox/_eval_shape.py: filter_eval_shape, cached_filter_eval_shape", "equinox/_ad.py: filter_checkpoint, _CheckpointWrapper"]}
{"id": "C69", "title": "Multi-head attention is the documented sum over heads; masked positions are ignored", "statement": "For a module made by the constructor, the output of MultiheadAttention at every query is the sum over heads i of W^O_i applied to the softmax-weighted values of that head (plus the output bias), where head i uses rows i*size..(i+1)*size of the projections. If some position is visible to a query, keys and values at positions not visible to it do not influence its output; reordering the key/value positions (with the mask) changes nothing. Keys and values of different lengths, and masks of a wrong shape, raise ValueError.", "quantifier": "all numbers of heads, sizes, sequence lengths, biases, parameters, inputs and 2- and 3-dimensional masks; dropout an arbitrary function of the weights", "why_tests_cant": "an identity over all inputs, head counts and masks", "anchors": ["equinox/nn/_attention.py: dot_product_attention_weights, dot_product_attention, MultiheadAttention"]}
{"id": "C70", "title": "LayerNorm and RMSNorm compute their documented formulas", "statement": "LayerNorm(shape) and RMSNorm(shape) raise ValueError on arrays of any other shape; otherwise the result has the shape and dtype of the input, each entry is the documented formula (computed in the dtype promoted with float32, then converted back), and a state is handed back unchanged. Without parameters LayerNorm's output has mean zero and variance v/(v+eps), does not change when a number is added to the input, and is bounded by the square root of the number of entries. The constructors build ones and zeros exactly where asked for; elementwise_affine overrides both flags.", "quantifier": "all shapes, inputs, parameters, dtypes and conversions, all eps; real arithmetic", "why_tests_cant": "an identity over all inputs and shapes", "anchors": ["equinox/nn/_normalisation.py: LayerNorm, RMSNorm"]}
{"id": "C71", "title": "GroupNorm normalises each group by itself", "statement": "GroupNorm(groups, channels) raises unless groups divides channels and channels is given when there are parameters. Called on an array whose number of channels is divisible by groups, each entry is normalised with the mean and variance of its own group of consecutive channels, then multiplied and shifted by its own channel's parameters; shape and dtype are the input's. One group is LayerNorm. Arrays with another number of channels than declared are refused.", "quantifier": "all shapes, group counts, inputs, parameters, dtypes; real arithmetic", "why_tests_cant": "an identity over all shapes, group counts and inputs", "anchors": ["equinox/nn/_normalisation.py: GroupNorm", "equinox/_misc.py: left_broadcast_to"]}
{"id": "C72", "title": "WeightNorm reparameterises a weight by direction and length", "statement": "WeightNorm(layer, axis) raises ValueError for an axis the weight does not have. Otherwise it calls the layer with g * v / |v| in place of its weight v, where |v| is the 2-norm of each slice along the axis (of the whole array for axis=None); the slices of that weight have norm |g|, and multiplying v by a positive number changes nothing. If no slice of the weight is zero, the freshly wrapped layer computes what the layer computes.", "quantifier": "all layers, weight shapes, axes (also negative and None), parameters v and g, inputs; real arithmetic", "why_tests_cant": "an identity over all shapes, axes and weights", "anchors": ["equinox/nn/_weight_norm.py: WeightNorm, _norm_except_axis"]}
{"id": "C73", "title": "SpectralNorm divides the weight by a lower bound of its norm that iterations improve", "statement": "SpectralNorm calls the layer with W/(u^T W v); in training u, v are first updated by num_power_iterations power iterations and stored in the state; in inference the stored ones are used and the state is returned unchanged. After an iteration not cut off by eps, u and v have length one and u^T W v = |W^T u| > 0; it is at most the operator norm of W (so the normalised weight has norm at least one), further iterations never decrease it, and it is exact after one iteration for matrices of rank one. Weights with fewer than two axes raise ValueError.", "quantifier": "all layers, weight shapes, weights, states, numbers of iterations, eps; real arithmetic", "why_tests_cant": "an inequality over all matrices and iteration counts", "anchors": ["equinox/nn/_spectral_norm.py: SpectralNorm, _power_iteration"]}
{"id": "C74", "title": "Recurrent cells compute their gates and stay bounded", "statement": "GRUCell returns (1-z)*n + z*h with gates from consecutive row blocks of its weights, LSTMCell f*c + i*g and o*tanh of that. Inputs and hidden vectors of other sizes raise TypeError (cell vectors of an LSTM unless a size is one). Whatever the weights, a GRU's hidden state never leaves a range containing [-1, 1], over any sequence of inputs; an LSTM's outputs are in (-1, 1) and its cell entries grow by less than one a step. Constructors draw every parameter with its own key, in the shapes calls need and within 1/sqrt(hidden_size), and raise for hidden_size=0.", "quantifier": "all sizes, weights, inputs, states, and input sequences; real arithmetic", "why_tests_cant": "an invariant over all weights and sequences", "anchors": ["equinox/nn/_rnn.py: GRUCell, LSTMCell", "equinox/nn/_misc.py: default_init"]}
{"id": "C75", "title": "Embedding is a table of its recorded sizes and looks up rows", "statement": "Embedding accepts a table exactly if it has two axes and agrees with the sizes given, and otherwise needs both sizes, not negative, and a key; all else raises ValueError. Its table always has the sizes it records. Called with an integer scalar in range it returns that row; anything but an array-like scalar raises ValueError.", "quantifier": "all constructor arguments, tables and indices", "why_tests_cant": "all combinations of optional arguments", "anchors": ["equinox/nn/_embedding.py: Embedding"]}
{"id": "C76", "title": "PReLU is max(x, 0) + a * min(x, 0) under broadcasting", "statement": "PReLU of an input whose shape broadcasts with the slope's is max(x,0) + a*min(x,0) in the joint shape, and raises otherwise. The result has the input's shape exactly if the slope broadcasts to it; a number as slope always does.", "quantifier": "all shapes, slopes and inputs; real arithmetic", "why_tests_cant": "an identity over all shapes and entries", "anchors": ["equinox/nn/_activations.py: PReLU"]}
{"id": "C77", "title": "Derivatives and batching of loop buffers are exact for write-once programs", "statement": "The batching rule of select_if_vmap gives lax.select elementwise if the predicate is batched and x otherwise. The forward rules of select_if_vmap and maybe_set are their derivatives, also with symbolic zeros; the transpose of select_if_vmap is its adjoint. The transpose of maybe_set leaves the buffer's cotangent alone; nevertheless the backward pass over any linear program of reads, writes and linear combinations is the exact adjoint if every location is written at most once and the buffer did not depend on anything at locations written to.", "quantifier": "all axes, arrays, predicates; all programs over a buffer, all cotangents, over any commutative ring", "why_tests_cant": "an adjointness identity over all programs; the rule alone is not the adjoint of the operation", "anchors": ["equinox/internal/_loop/common.py: _select_if_vmap_jvp, _select_if_vmap_transpose, _select_if_vmap_batch, _maybe_set_jvp, _maybe_set_transpose"]}
{"id": "C78", "title": "Buffer writes happen exactly if all predicates hold", "statement": "A write to a buffer through any nesting of loops is xs.at[i].set(x, mode) exactly if its own predicate and those of all enclosing loops hold, and leaves the contents alone otherwise, also for indices out of range; unbatched loop predicates count as true. buffer_at_set on a plain array does the same for indices in range or without a mode.", "quantifier": "all nestings, predicates, contents, indices and modes", "why_tests_cant": "all nestings and combinations of predicates", "anchors": ["equinox/internal/_loop/common.py: _maybe_set_impl, _Buffer, _BufferItem, buffer_at_set"]}
{"id": "C79", "title": "Primitives get correct batching rules for free", "statement": "For a primitive made by create_vprim, however often it has been batched: the derived batching rule gives on every element of the batch what the primitive gives on the elements of its arguments, along axis 0 (and is unbatched if nothing was batched); the forward rule of the batched primitive is elementwise the forward rule of the primitive, and its primal output is the primal output; if the transpose rule is adjoint elementwise, then the transpose of the batched primitive is adjoint with respect to the whole arrays, whenever it returns.", "quantifier": "all primitives, nestings of batching, axes, batch sizes, arrays, tangents and cotangents with any symbolic zeros, over any inner product that sums over slices", "why_tests_cant": "all nestings and axes; adjointness is an identity over all arrays", "anchors": ["equinox/internal/_primitive.py: create_vprim, _vprim_impl, _vprim_jvp, _vprim_transpose, _resolve_zeros_b, _resolve_undefined_i, _resolve_undefined_b"]}
{"id": "C80", "title": "Operations across, or refusing, batching", "statement": "Under any nesting of vmaps unvmap_any, unvmap_all and unvmap_max give the disjunction, conjunction and maximum over all entries of all lanes, batched nowhere; the maximum of nothing raises. breakpoint_if stops the program once if its predicate holds in any lane, and otherwise not at all. nonbatchable refuses values batched at any level; with allow_constant_across_batch it accepts exactly values that are constant (and not NaN) across the innermost level at which they are batched, returning the same value in each lane, unbatched there. nontraceable raises exactly if batched. nondifferentiable_backward passes tangents through, passes symbolic zero cotangents, refuses other cotangents at trace time if symbolic and otherwise exactly if one is not zero.", "quantifier": "all nestings of batched and unbatched levels, all numbers of lanes, all arrays", "why_tests_cant": "all nestings and lanes; constancy is a property of all lanes", "anchors": ["equinox/_unvmap.py: unvmap_all, unvmap_any, unvmap_max", "equinox/internal/_nontraceable.py: nonbatchable, _cannot_batch, nontraceable, nondifferentiable_backward", "equinox/debug/_breakpoint_if.py: breakpoint_if"]}
{"id": "C81", "title": "closure_to_pytree preserves behaviour", "statement": "No program that does not assign to captured variables or look at types can tell a value converted by closure_to_pytree from the original, whatever it calls, passes and returns. Conversion succeeds exactly if the closures reachable through cells have no cycle and no empty cell; the result has no plain functions left and converting it again changes nothing. Converted values that compare equal are equal, provided functions of the same qualified name, module and source have the same code and defaults.", "quantifier": "all programs of a small functional language with closures, all heaps, values, arguments and numbers of steps", "why_tests_cant": "an equivalence over all contexts", "anchors": ["equinox/internal/_closure_to_pytree.py: _make_cell, _adjust_function_closure, _FunctionWithEquality, _Closure, closure_to_pytree"]}
{"id": "C82", "title": "Python callbacks keep values in place and reject undeclared results", "statement": "filter_pure_callback calls the function with the original arguments and, whenever what the function returns agrees leaf by leaf with result_shape_dtypes, returns exactly that: the arrays returned in the places of the declarations and the declared leaves elsewhere. It succeeds exactly when the non-array leaves sit in the same structure and are equal and the arrays, left to right, have the declared shapes and dtypes; otherwise it raises ValueError (non-array part) or an error of JAX (shapes, number). If the declaration contains no None then success implies that every array is returned in its own place. With None in the declaration this is false: a callback returning (x, None) for a declared (None, struct) is accepted and its result becomes (None, x).", "quantifier": "for all callbacks, arguments, declared trees and returned trees, any leaf comparison, any shapes", "why_tests_cant": "Tests run one callback with one matching and one mismatching output; the swap of an array with None needs a structure for which flattening forgets the difference.", "anchors": ["equinox/_callback.py:1-62"]}
{"id": "C83", "title": "filter_pmap: slices on devices, stacked or chosen outputs, and agreement with filter_vmap", "statement": "`filter_pmap` gives every device its slice of each array that has an axis and everything else whole, and collects the outputs: with an axis they are stacked along it, without one the value of a device is returned. It has a result exactly if the axes resolve, the mapped arrays and `axis_size` agree on a size, the function succeeds on the devices, every output axis is a dimension of the largest output, and everything with an output axis is an array or number. Wherever `filter_vmap` has a result and something is mapped, `filter_pmap` has the same result. The converse is refuted.", "quantifier": "All trees of arguments, numbers of devices, axis specifications (integers, callables, None, dictionaries by name), functions, and array operations with the usual laws.", "why_tests_cant": "The repository tests run on one or two CPU devices; the loop over `range(-m, m)` with one filtered output per axis is exercised for a few axes only, and agreement with `filter_vmap` is a statement about all specifications.", "anchors": ["equinox/_vmap_pmap.py:364-503 (_PmapWrapper, _filter_pmap_cache, _common_preprocess)"]}
{"id": "C84", "title": "nextafter is the least number above", "statement": "With denormal numbers compared as zero (the situation the comment in the code describes), nextafter returns a number strictly above its argument and no number lies strictly between; prevbefore is the same below. plus infinity, respectively minus infinity, and NaN are fixed. The two functions are mirror images, each undoes the other up to comparison, both are monotone, and tangents pass through unchanged, at zero too.", "quantifier": "for all floating point formats with at least one normal number, all numbers, signs and denormals included, all infinities and NaN", "why_tests_cant": "A test checks a handful of numbers of one format on one backend; least-ness compares with all other numbers of the format", "anchors": ["equinox/internal/_nextafter.py: nextafter, prevbefore"]}
{"id": "C85", "title": "backward_nan is the identity and stops exactly on NaN cotangents", "statement": "backward_nan(x) returns x. Differentiated, its output is x, and the cotangents come back exactly as they came in, except that with terminate set an error is raised exactly if some cotangent contains a NaN (and, from jnp.stack, if there is no cotangent at all).", "quantifier": "for all PyTrees mixing inexact arrays, other arrays and other objects, all perturbations JAX may report, all cotangents (symbolic zeros included), all values of terminate", "why_tests_cant": "Tests look at single arrays; the claim concerns every combination of zero, NaN and ordinary cotangents over arbitrary trees, through the machinery of filter_custom_vjp", "anchors": ["equinox/debug/_backward_nan.py: backward_nan", "equinox/_ad.py: filter_custom_vjp"]}
{"id": "C86", "title": "announce_transform is the identity under all transforms and announces each stack of transforms once", "statement": "Under any stack of vmap and jvp, announce_transform returns its argument: values, tangents and batch axes. With all operands transformed it announces exactly one stack for each choice of primal or tangent, in order; intermediates=True adds announcements of rules being applied and nothing else. The same should hold under reverse-mode differentiation.", "quantifier": "for all PyTrees, all stacks of transforms, all zero patterns of tangents and cotangents", "why_tests_cant": "The behaviour depends on the stack of transforms and on which operands are perturbed; tests use one array", "anchors": ["equinox/debug/_announce_transform.py: announce_transform, _jvp, _transpose, _batching"]}
{"id": "C87", "title": "The rules of noinline: mapped, differentiated, transposed or compiled, the wrapped function's value is the one used", "statement": "Mapping a noinline'd function over batch axes applies the function to the slices along these axes; differentiating it gives the derivative of the function with unperturbed leaves held fixed; transposing it transposes the function of its undefined arguments; abstract evaluation without abstract_fn evaluates the function; the host callback of the compiled path recovers the transformations and arguments it was built from.", "quantifier": "for all functions, all stacks of earlier transformations, all PyTrees of arguments, shapes, batch axes and patterns of perturbed or undefined leaves, all lists of array, float0 and static leaves", "why_tests_cant": "The rules stack up in any order on arbitrary trees; tests use one or two transformations of arrays of low rank, batched along the first axis", "anchors": ["equinox/internal/_noinline.py: _noinline_batch, _move_to_front, _noinline_jvp, _jvp_transform, _noinline_transpose, _MetaTransposeTransform, _get_callback, _noinline_mlir"]}
{"id": "C88", "title": "Pooling layers compute the average or the maximum of each window or block, in any number of dimensions", "statement": "On inputs with any number of spatial axes, entry js of Pool's output is the operation folded over exactly the input entries in window js (places q with j*stride <= q + left padding < j*stride + kernel on every axis); AvgPool divides their sum by the kernel volume (padding counts), MaxPool returns the greatest of them, or minus infinity if there is none; a window has an entry whenever paddings are below kernel sizes, with or without use_ceil. The adaptive layers return the mean or the greatest entry of the block that is the product of the parts of the axes, although they reduce one axis after another.", "quantifier": "for all numbers of axes, sizes, kernels, strides, paddings, use_ceil, channels and entries; all target sizes not above the sizes", "why_tests_cant": "The rotation of axes, padding and windows interact in every dimension; tests compare with hand-computed values for rank at most 3 and small sizes", "anchors": ["equinox/nn/_pool.py: Pool.__call__, AvgPool1d, AvgPool2d, AvgPool3d, MaxPool1d, MaxPool2d, MaxPool3d", "equinox/nn/_pool.py: AdaptivePool.__call__, AdaptiveAvgPool1d, AdaptiveAvgPool2d, AdaptiveAvgPool3d, AdaptiveMaxPool1d, AdaptiveMaxPool2d, AdaptiveMaxPool3d"]}
{"id": "C89", "title": "Loops over PyTrees with buffers compute the plain loop", "statement": "Rewriting a while loop with buffers wraps exactly the selected leaves (reaching through buffers of enclosing loops but never wrapping their predicates) and never fails; one step takes a buffer's new array from the returned buffer and selects every other leaf by the predicate, keeping structure, shapes and dtypes; a body whose output is structured differently, e.g. returning a plain array or another loop's buffer in place of a buffer, gets a ValueError; and if the body computes g on plain values then every lane of the (batched) loop ends with g iterated until the condition fails or max_steps.", "quantifier": "for all PyTrees, selections of nodes, bodies, conditions, predicates, numbers of lanes, max_steps, nested loops", "why_tests_cant": "Wrapping, unwrapping and selecting interact with tree structure, nesting and batching; tests use a few loops over small tuples", "anchors": ["equinox/internal/_loop/common.py: common_rewrite, _wrap_buffers, new_cond_fun, new_body_fun, unwrap_and_select, _unwrap_buffers"]}
{"id": "C90", "title": "Conv computes the documented correlation, in every padding mode", "statement": "Let a Conv layer with valid sizes be called successfully on x. Let E be the extension of x to all places that its padding mode describes (zeros, reflection, replication of edges, or periodic). Each output is the bias plus the sum over the input channels of its group and the entries of the kernel of weight times E at place output*stride + entry*dilation - padding, and the output has floor((n + pads - dilated kernel)/stride) + 1 entries per axis. Groups are independent convolutions side by side. 'VALID' is zero padding. 'SAME' pads by the least amount giving one output per stride inputs, split evenly up to one. With circular padding, stride 1 and 'SAME', convolution commutes with cyclic shifts.", "quantifier": "for all ranks, sizes, kernels, strides, dilations, paddings, modes, groups, weights and inputs over any ring-like type", "why_tests_cant": "Tests compare a few fixed layers with hand-computed numbers; reflection deeper than the image, odd paddings, groups with dilation and strides that do not divide are rarely combined.", "anchors": ["equinox/nn/_conv.py: Conv.__call__, Conv._nonzero_pad, _padding_init, _padding_mode_init"]}
{"id": "C91", "title": "Pretty-printing abbreviates all arrays and truncates all chosen nodes", "statement": "With short_arrays, what is printed depends on arrays only through shape, dtype and weak type; without it every array is printed in full. Every printed node for which truncate_leaf holds is replaced by its type name and '(...)'. With struct_as_array the ShapeDtypeStructs of a tree print as the tree itself. Fields with repr=False are not printed.", "quantifier": "for all objects built from arrays, structs, containers, dataclasses, custom_jvp/vjp functions and Partials, all options and all truncation predicates", "why_tests_cant": "Tests print a handful of small objects; none combines an option with a Partial or a custom_jvp function.", "anchors": ["equinox/_pretty_print.py: tree_pformat, _Partial"]}
{"id": "C92", "title": "Every neuron of an MLP has its own copy of a learnt activation", "statement": "MLP stores `activation` so that, for every layer i < depth and neuron j < width_size, taking index i and then index j along the leading axes of every array yields exactly the activation given; everything in it that is not an array is kept. The final activation is stored with one copy per output, or as given if the output is a scalar. A call then computes, at neuron j of layer i, the activation made of slice (i, j) of the stored arrays, applied to element j of the output of that layer, and the same with slice j for the final activation. So a fresh MLP applies the given activation everywhere, and changing the slice of one neuron changes no other neuron of that layer.", "quantifier": "For all activations (PyTrees with any arrays, numbers and other leaves), widths, depths, output sizes, layers and inputs; for all arrays satisfying the laws of slicing and stacking.", "why_tests_cant": "A test uses one activation with one weight of one shape; the property is about any PyTree, through two nested filter_vmaps whose axes have to agree with those sliced in __call__.", "anchors": ["equinox/nn/_mlp.py:112-126", "equinox/nn/_mlp.py:141-152", "equinox/_vmap_pmap.py:128-184"]}
{"id": "C93", "title": "Checkpointed while loops recompute as little as possible, within the documented number of steps", "statement": "With C checkpoints and n < (C+1)(C+2)/2 loop iterations (always the case with the default number of checkpoints), the backward pass of checkpointed_while_loop recomputes each iteration that the forward pass did not store exactly once: the backward loop makes n + max(0, n - C) iterations, and no way of reversing n iterations with room for C values needs fewer evaluations, whatever is stored by the forward pass. For any n, the backward loop is a legal schedule of a machine with C slots. At n = (C+1)(C+2)/2, which the module documentation includes, optimality is false: with 2 checkpoints and 6 iterations an offline schedule needs 5 evaluations, the implementation makes 6.", "quantifier": "for all bodies, conditions, numbers of iterations, numbers of checkpoints and max_steps, and for all competing schedules", "why_tests_cant": "A test can count evaluations for a few (n, C); optimality is a statement about all schedules, and the boundary case differs from the documented bound by one.", "anchors": ["equinox/internal/_loop/checkpointed.py:19-24", "equinox/internal/_loop/checkpointed.py:211-233", "equinox/internal/_loop/checkpointed.py:289-319", "equinox/internal/_loop/checkpointed.py:433-525", "equinox/internal/_loop/checkpointed.py:606-650", "equinox/internal/_loop/checkpointed.py:783-928"]}
{"id": "C94", "title": "Layers never use a random key twice", "statement": "For every argument, constructing Linear, MLP, GRUCell, LSTMCell, Conv, ConvTranspose, MultiheadAttention, Embedding or SpectralNorm uses every random key at most once (a key is used by drawing with it or by splitting it), and only the key passed in or keys split from it earlier; hence the keys of any two draws are not derived from one another. The same holds for calling any nesting of Sequential, MultiheadAttention and Dropout with a key; without a key nothing is drawn, and the call fails exactly if some dropout is active. Each parameter has the documented shape, key and bound (1/sqrt of the number of inputs, or of the hidden size), for real and complex dtypes.", "quantifier": "all layer kinds, sizes, biases, dtypes (real or complex), depths and numbers of heads, all nestings of Sequential, all keys", "why_tests_cant": "A test sees sampled numbers for a few seeds and sizes; a reused key gives correlated parameters that look random. The statement is about every depth, head count and nesting.", "anchors": ["equinox/nn/_misc.py:33-43", "equinox/nn/_linear.py:50-61", "equinox/nn/_mlp.py:89-108", "equinox/nn/_rnn.py:65-78", "equinox/nn/_rnn.py:165-174", "equinox/nn/_conv.py:156-174", "equinox/nn/_conv.py:495-513", "equinox/nn/_attention.py:186-223", "equinox/nn/_attention.py:333-343", "equinox/nn/_embedding.py:53-84", "equinox/nn/_spectral_norm.py:98-112", "equinox/nn/_sequential.py:76-109", "equinox/nn/_dropout.py:83-97"]}
{"id": "C95", "title": "Predicates on leaves", "statement": "is_array holds of exactly the JAX and NumPy arrays and NumPy scalars; is_array_like of these, of Python numbers and of everything with __jax_array__; is_inexact_array of exactly the arrays whose dtype is inexact for the library the array belongs to; is_inexact_array_like judges what __jax_array__ returns, and otherwise also accepts float and complex. Each inexact thing is array-like. The two claims one would expect besides are false: an array need not be judged alike as a NumPy and as a JAX array (exactly the extended floating-point types such as bfloat16 differ), and is_inexact_array_like may raise on something that is array-like.", "quantifier": "for every object (type, dtype, result of __jax_array__)", "why_tests_cant": "Tests use float32, int32 and a few Python scalars; the claims quantify over every type and dtype.", "anchors": ["equinox/_filters.py:19", "equinox/_filters.py:26", "equinox/_filters.py:35", "equinox/_filters.py:47"]}
{"id": "C96", "title": "filter_shard places the arrays and nothing else", "statement": "filter_shard(x, device_or_shardings) returns the tree that differs from x only in that each array has been placed by the sharding above it in the tree of shardings (the single device for a device). It raises ValueError, before placing anything, iff the shardings are not a prefix of x with None matching only None and non-arrays; otherwise, if some array cannot be placed, it raises the error of the first such array. Values are unchanged whenever placing leaves them unchanged.", "quantifier": "for every tree, every tree of shardings, every way of placing arrays (including failing)", "why_tests_cant": "Tests run on one machine with one or a few devices and flat examples; the claim is over all trees, prefixes and failure patterns.", "anchors": ["equinox/_sharding.py:11", "equinox/_sharding.py:34"]}
{"id": "C97", "title": "Methods of Modules are pytrees and behave like Python's methods", "statement": "m.k is determined by the source of m's classes: a property wins over __dict__, which wins over all else; a function k becomes a BoundMethod iff the first class of the MRO defining k is a Module class and k does not both start and end with two underscores, and otherwise Python's bound method. In both cases m.k(*a, **kw) is type(m).k(m, *a, **kw), except that a BoundMethod raises TypeError for a keyword named self. A BoundMethod has exactly the leaves of m, and tree_map over m.k is the method k of tree_map over m. False in general: that every method is a pytree (magic methods such as __call__ and methods of mixins that are no Modules are opaque leaves), and that keyword self is treated as Python does.", "quantifier": "for every MRO of Module and other classes made by class statements and later assignments, every instance dictionary, name, function behaviour and call", "why_tests_cant": "Tests try a handful of classes; the claim covers all inheritance patterns, names and calls.", "anchors": ["equinox/_module.py:202", "equinox/_module.py:585", "equinox/_module.py:615", "equinox/_module.py:619", "equinox/_module.py:1032"]}
{"id": "C98", "title": "Run-time errors of compiled functions are reported with the right message", "statement": "When a function wrapped by filter_jit is called outside of jit, it returns a value only if the computation ended without an exception; an exception that does not come from error_if is re-raised unchanged; if the only error of error_if that fired during the call caused the failure, EquinoxRuntimeError with exactly its message and stack is raised, whatever errors were raised before. Nested and failing calls leave the filters of JAX's callback logger as they were, and during a call exactly the notices of failed callbacks are dropped.", "quantifier": "for all programs (sequences of callbacks, log messages and nested calls), all endings, all earlier calls of the session, all filters of the user", "why_tests_cant": "Message and stack travel through module-level variables that are never reset, and which callbacks run, in which order, is up to the XLA runtime; tests see one order and short sessions.", "anchors": ["equinox/_jit.py:161-193", "equinox/_jit.py:230-293", "equinox/_errors.py:84-101"]}
{"id": "C99", "title": "A container class turns its names into numbers and back", "statement": "For a class made by ContainerMeta, every name without double underscores on both sides is an integer attribute (its position among such names), cls[cls.name] is the value assigned in the class body and len(cls) is their number; magic names keep their values; other indices raise IndexError except negative ones, which count from the end. For names that only a base class defines, cls[cls.name] looks among the items of the derived class.", "quantifier": "all class bodies, all base classes, all indices", "why_tests_cant": "class bodies and indices range over infinite sets", "anchors": ["equinox/internal/_misc.py: ContainerMeta"]}
{"id": "C100", "title": "A transposed convolution spreads each input over the outputs", "statement": "For a ConvTranspose layer of any number of spatial dimensions, stride, dilation, output padding, groups, kind of padding ('SAME', 'SAME_LOWER', 'VALID', numbers) and mode 'ZEROS' or 'CIRCULAR', the output at o in channel oc is the bias plus the sum, over the input channels of the group, the inputs i and the kernel entries j with i*stride + j*dilation - cut = o (modulo n*stride when circular), of the mirrored kernel's entry j times the input at i; the output size is (n-1)*stride + dilated kernel - cuts. The inputs accepted are exactly those of the right rank and channels from which the cuts can be made; the others are refused with ValueError (TypeError for a kernel of another rank).", "quantifier": "all inputs, kernels, axes and values in a commutative semiring", "why_tests_cant": "Tests compare a few shapes with literals or with another library; the formula covers all combinations of stride, dilation, padding, output padding, groups and modes.", "anchors": ["equinox/nn/_conv.py:545-620"]}
{"id": "C101", "title": "Saving to a named file: the name is completed with .eqx, loading finds the same file, and other files are untouched", "statement": "Let a path be split as pathlib does. `tree_serialise_leaves(path, ...)` and `tree_deserialise_leaves(path, ...)` use the path itself if its last part has an extension (something, a dot, something without dots) and otherwise the path with `.eqx` appended; a path without a name is a ValueError. Two names mean the same file exactly if they are equal or one is the other with `.eqx`. After a successful save, loading by any name of that file gives the round trip of C20, whatever the file held before, and loading any other file gives what it gave before. A missing directory or file, or a directory in place of the file, is an error that changes nothing. A save that fails at a leaf leaves exactly the records of the leaves before it, in order, and a filter_spec that does not fit leaves an empty file: the old contents are lost. Several trees may be saved to one file-like object and loaded in the same order.", "quantifier": "for all paths, disks, trees, `like`s, filter specifications and is_leaf functions", "why_tests_cant": "Tests use one temporary file; they do not range over names with dots, name collisions, or failures half-way.", "anchors": ["equinox/_serialisation.py:143-162", "equinox/_serialisation.py:235-245", "equinox/_serialisation.py:318-334"]}
{"id": "C102", "title": "Training trains the inexact arrays and nothing else", "statement": "The training loops of the documentation (filter_value_and_grad or filter_grad, an optimiser, apply_updates; with or without passing eqx.filter(model, is_inexact_array) to the optimiser; with or without a state returned as auxiliary output) do to the list of inexact arrays of a model exactly what the same loop does to a plain list of arrays, with the same exceptions; the trained model is the old one with those arrays replaced: same structure, every other leaf the same, inexact arrays still inexact arrays. Passing eqx.filter(model, is_array) instead makes no difference if all arrays are inexact and is a ValueError otherwise.", "quantifier": "For every model, loss function, number of steps and batches, optimiser, differentiation engine returning one array per parameter, and addition of arrays.", "why_tests_cant": "Tests train small models for a few steps; that nothing else of an arbitrary model is ever touched, and that the whole loop is the loop on the list of parameters, quantifies over all models, losses and optimisers.", "anchors": ["examples/mnist.ipynb", "examples/stateful.ipynb", "docs/faq.md", "equinox/_ad.py", "equinox/_update.py", "equinox/_filters.py"]}
{"id": "C103", "title": "Frozen layers stay frozen", "statement": "Training as in the frozen-layer example (partition the model by a tree of Booleans, differentiate the loss with respect to the selected part, apply the updates to the whole model) is training the selected part on its own with the rest held fixed; after any number of steps the part not selected, and everything that is not an inexact array, is what it was, and the model still partitions into the trained part and the same rest.", "quantifier": "For every model, specification of Booleans that fits it, loss, optimiser and sequence of batches.", "why_tests_cant": "One test model with one frozen layer cannot show that no leaf outside an arbitrary specification changes in any number of steps.", "anchors": ["examples/frozen_layer.ipynb", "equinox/_filters.py", "equinox/_ad.py", "equinox/_update.py"]}
{"id": "C104", "title": "Ensembles: member i is the model made from key i", "statement": "Creating a model under filter_vmap over n random keys gives one PyTree which, at element i of every array, is the model created from key i on its own, all its arrays having n elements; calling that ensemble under filter_vmap, with one input for all members (in_axes=(if_array(0), None)) or with one input per member, gives at element i what the model created from key i returns on its input.", "quantifier": "For every creation function, call, number of keys and inputs, and every law-abiding array type.", "why_tests_cant": "Tests build ensembles of a fixed MLP and check shapes; that the composed transformations never mix members quantifies over all creation functions and calls.", "anchors": ["docs/tricks.md", "equinox/_vmap_pmap.py"]}
{"id": "C105", "title": "Resuming with a skeleton gives the saved model", "statement": "If filter_eval_shape of a constructor succeeds, then for every model with the structure, kinds of leaves, shapes and dtypes of what the constructor makes, whatever its values, saving it succeeds and the documented resume pattern (a skeleton from filter_eval_shape, filled by tree_deserialise_leaves from the same file name with or without .eqx) returns exactly that model; resuming from any file whatsoever gives, if it succeeds, a model with the structure, types and shapes of the one the constructor makes. The same holds for hyperparameters stored on the first line of the file, if they are written on one line.", "quantifier": "For every constructor, hyperparameters, law-abiding tracer, model, file system and file name.", "why_tests_cant": "A test saves and loads one model of one architecture; that the shape-only skeleton suffices for every constructor and that no leaf is lost or permuted quantifies over all constructors and models.", "anchors": ["equinox/_serialisation.py", "equinox/_eval_shape.py", "examples/serialisation.ipynb"]}
{"id": "C106", "title": "Surgery on all linear layers changes their weights and nothing else", "statement": "The documented custom initialisation replaces the weight of every linear layer, at whatever depth and in the order of the tree, by init_fn of the old weight and the subkey of the same index, and leaves every other position as it was; it succeeds whenever every linear layer has a weight other than None. The documented per-parameter wrapper puts Symmetric around exactly these weights, keeping the leaves and their order; resolving replaces exactly these weights by get() of the original and leaves the rest.", "quantifier": "For every model, initialiser, key, wrapper and number and nesting of layers (outermost linear layers); resolving: for models without a Symmetric node beforehand.", "why_tests_cant": "Tests use one MLP; that no layer is missed, matched with the wrong key, or changed elsewhere quantifies over all trees.", "anchors": ["docs/tricks.md", "equinox/_tree.py"]}
{"id": "C107", "title": "Scanning over layers is applying them one after another", "statement": "Layers created together by filter_vmap and called by scanning over their arrays (partition, lax.scan, combine in the body) give y from x exactly if the layers that the constructor makes from the single keys, applied one after the other in order, give y; applied layers have to keep the type of the carry. Layers without arrays cannot be scanned over: ValueError.", "quantifier": "For every constructor, number of layers, keys and inputs, with at least one layer and one array in the layers.", "why_tests_cant": "Tests compare one stack of layers on one input; that no layer is skipped, repeated or given another layer's parameters quantifies over all constructors and keys.", "anchors": ["docs/tricks.md", "equinox/_vmap_pmap.py", "equinox/_filters.py"]}
{"id": "C108", "title": "Carrying leaves through a training loop changes nothing if steps keep the structure", "statement": "The low-overhead loop, which carries the leaves of model and optimiser state and puts them together with the structures from before the loop inside the step, gives the final model of the plain loop, errors included, if every step keeps both structures. In general it gives what the loop gives in which the leaves before each step, and after the last, are put into the initial structures; a step which changes a static field or the number of leaves makes the loops differ.", "quantifier": "For every step function, model, optimiser state and data of any length.", "why_tests_cant": "A test runs a few steps on one model; equality for all models and numbers of steps, and the exact condition, are about all step functions.", "anchors": ["docs/tricks.md"]}
{"id": "C109", "title": "The exact number of steps recomputed in the backward pass", "statement": "Differentiating a checkpointed loop of n steps takes exactly n U-turns and a further evaluations of the body, where a is the sum over the segments between the steps stored by the forward pass of the cost of reversing a segment of l steps with k free slots: 0 for l = 1; for l = 2 or k = 0, l - 1 plus the cost of l - 1; otherwise, with d = 1 if l - 2 <= k and d = l / 2 if not, d plus the cost of l - d steps with k - 1 slots plus the cost of d steps with k slots. A segment of l steps costs l - 1 if l - 2 <= k, at most l log2(l) / 2 (log rounded up) if l <= 2^(k+1), at most l (k + q) / 2 if l <= q 2^k; the whole loop costs at most n (n - 1) / 2. For a fixed number C of checkpoints the cost is quadratic: n^2 <= C 3^(C-1) (2a + n). An offline schedule with 2 slots reverses m^2 steps with at most m^3 evaluations, so the documented similar asymptotic complexity does not hold for a fixed number of checkpoints.", "quantifier": "For every body, state, number of checkpoints >= 1, number of steps (with or without max_steps) and cotangent.", "why_tests_cant": "A test can time a few sizes; the recursion and its bounds hold for all numbers of steps and checkpoints.", "anchors": ["equinox/internal/_loop/checkpointed.py"]}
{"id": "C110", "title": "Bounded loops evaluate each step once; in reverse mode once per level, with logarithmic memory", "statement": "A `while_loop(kind='bounded')` with `max_steps >= 2` whose slowest batch element makes n steps evaluates the body exactly n times, although it is a nest of scans over base^depth >= max_steps steps, and the condition base*(1 + sum of ceil(n/base^j) over the inner levels) times, at most base/(base-1) per step and base per level. Differentiating it in reverse mode evaluates the body exactly depth*n times, differentiates it exactly at the n states of the loop with the last first, and never stores more than base*depth values, where depth is log_base(max_steps) rounded up. With max_steps = 1 the body is evaluated once and the condition never.", "quantifier": "all conditions, bodies, states, numbers of lanes and steps, bases >= 2 and max_steps", "why_tests_cant": "Tests compare values, not numbers of evaluations; cost and memory for all step counts and bases follow from the nesting only by induction.", "anchors": ["equinox/internal/_loop/bounded.py", "equinox/internal/_loop/common.py", "equinox/internal/_loop/loop.py"]}
{"id": "C111", "title": "Attention with rotary embeddings depends on relative positions only", "statement": "With the process_heads of the documented example (the rotary embedding applied to the query heads and to the key heads with jax.vmap over the heads, one cache shared between calls), MultiheadAttention computes softmax attention whose logits are products of queries and keys turned by the angles of their positions, whatever calls filled the cache before. Moving a query and a key by the same number of positions leaves their logit unchanged, and therefore rows put before queries, keys and values (left padding), hidden from the other rows by the mask, leave the outputs of the other rows exactly as they were - even though every position has changed.", "quantifier": "all layers, projections, head counts, sizes, masks (per head or shared), numbers of padding rows with arbitrary contents, histories of earlier calls, and scalar rings with cos and sin tables satisfying the addition theorems", "why_tests_cant": "A test compares one padded and one unpadded batch up to a tolerance; the property needs every size, mask and cache history, and fails only slightly when one of the two halves is turned the wrong way.", "anchors": ["equinox/nn/_embedding.py:117-147", "equinox/nn/_embedding.py:164-268", "equinox/nn/_attention.py:241-331"]}
{"id": "C112", "title": "Layers agree where their documented formulas coincide", "statement": "A convolution with kernel size one and stride one applies, for every padding mode, one linear layer (its weight read as a matrix) to the channels of each place; a transposed convolution with kernel size one is the convolution; an average pooling layer is the grouped convolution whose weights are all one over the window size; adaptive average and maximum pooling into targets dividing the sizes is ordinary pooling with kernel and stride n // t; pooling with windows of size one changes nothing; an MLP with elementwise activations is the Sequential of its linear layers and activations, with the same errors; an MLP of depth zero is a linear layer and the final activation; multi-head attention over one position returns, for every query and every mask, the output projection of the value projection.", "quantifier": "all numbers of dimensions, sizes, channels, weights, inputs, padding kinds and modes, dilations, depths, widths, activations, keys, heads, masks", "why_tests_cant": "Tests compare single layers with hand-computed arrays for a few sizes; agreement of two independently written implementations for every size, mode and number of axes is not sampled by any of them.", "anchors": ["equinox/nn/_conv.py:211-260", "equinox/nn/_conv.py:583-640", "equinox/nn/_pool.py:75-145", "equinox/nn/_pool.py:474-540", "equinox/nn/_linear.py:79-103", "equinox/nn/_mlp.py:128-152", "equinox/nn/_sequential.py:75-109", "equinox/nn/_attention.py:246-340"]}
{"id": "C113", "title": "Derivatives pass through error_if unchanged", "statement": "Differentiating error_if or branched_error_if (in forward mode) reports the same events and raises the same errors as the plain call, and returns the same values, with exactly the tangents its argument x came with: whatever the mode, the predicate, the index, their own tangents and the messages. The one exception is nan mode with a predicate and an index known while tracing: then the values are NaN and the tangents are zero.", "quantifier": "all trees x with tangents, predicates and indices (known or traced) with any tangents, all modes, environment modes and messages", "why_tests_cant": "The tests differentiate error_if for one array and one mode; that no mode, predicate or tangent of the predicate changes the derivative of x is not sampled.", "anchors": ["equinox/_errors.py:81-170", "equinox/_errors.py:283-344", "equinox/_ad.py:724-828"]}
{"id": "C114", "title": "A model and its state come back from a file", "statement": "One process makes a model with its state by make_with_state, trains it (any sequence of set and update on the state, any new parameters of the same types), and saves (model, state). Another process makes them anew from the same constructor, or makes their skeleton with filter_eval_shape, and loads: it gets the trained model and a new state in which every index has its trained value, while the state given as like stays usable. The order of the entries of a state, on which the file depends, is the order of the indices in the model, whatever has been done to the state. Saving a state that has been used up raises, and empties the file.", "quantifier": "all models, numbers and places of StateIndexes, initial values, heaps, sequences of operations on states, paths, disks, parameter and state values of storable dtypes", "why_tests_cant": "The tests save one stateful layer in the same process; that the entries line up between processes after any history of sets and updates is only a remark in the source.", "anchors": ["equinox/nn/_stateful.py:115-133", "equinox/nn/_stateful.py:267-282", "equinox/nn/_stateful.py:327-391", "equinox/_serialisation.py:20-47", "equinox/_serialisation.py:193-334"]}
{"id": "C115", "title": "Renumbering hidden units or heads changes nothing", "statement": "The units of a hidden layer of an MLP can be renumbered - rows of the weight and bias before it, columns of the weight after it, and each unit's own learnt activation - without changing the result of any call, errors included. So can the heads of a multi-head attention layer, with blocks of rows of the query, key and value projections, blocks of columns of the output projection, and a mask given for each head. Renumbering the hidden units of a GRU or LSTM cell (in the block of each gate) renumbers the new hidden state in the same way. An MLP whose weights alone are renumbered, without the learnt activations, computes something else.", "quantifier": "all sizes, weights, inputs, activations, masks and permutations; sums in any commutative monoid", "why_tests_cant": "Tests compare a few fixed networks; the symmetry ties together the layouts of several arrays (which rows belong to a head or gate, which activation to a unit).", "anchors": ["equinox/nn/_mlp.py:89-152", "equinox/nn/_linear.py:93-103", "equinox/nn/_attention.py:246-345", "equinox/nn/_rnn.py:84-111", "equinox/nn/_rnn.py:180-206"]}
{"id": "C116", "title": "Dtypes of layers", "statement": "A layer made and used with one floating dtype returns this dtype, in both modes of JAX's promotion: Linear, MLP, GRUCell, LSTMCell, Conv, LayerNorm, GroupNorm, RMSNorm, BatchNorm (training and inference), Dropout, PReLU, rotary embeddings, MultiheadAttention, SpectralNorm. With standard promotion so do complex dtypes. For inputs of other dtypes: Linear, MLP, GRUCell, LSTMCell and MultiheadAttention return the least dtype above parameters and inputs; a cell's hidden state keeps its dtype (so that the cell can be scanned over) exactly if that is above the parameters' and inputs'; norms and rotary embeddings return the input's dtype, norms computing in at least single precision; Conv accepts the parameters' dtype only; BatchNorm accepts, in training, exactly batches whose statistics have the dtype of its own; Dropout with a numeric probability and PReLU with a numeric slope keep inexact dtypes; SpectralNorm's state keeps its dtype.", "quantifier": "all dtypes of parameters and inputs (bool, integers, floating, complex, weakly typed), both promotion modes, with and without 64-bit mode, all flags (bias, mask, inference, affine)", "why_tests_cant": "Tests run the default dtype and a few others; the space of parameter and input dtypes, modes and flags is large, and a promotion in one step can be hidden by a later one.", "anchors": ["equinox/nn/_linear.py:93-103", "equinox/nn/_rnn.py:100-111", "equinox/nn/_rnn.py:195-206", "equinox/nn/_conv.py:237-250", "equinox/nn/_normalisation.py:144-161", "equinox/nn/_batch_norm.py:142-176", "equinox/nn/_dropout.py:86-97", "equinox/nn/_activations.py:44-45", "equinox/nn/_embedding.py:244-255", "equinox/nn/_attention.py:20-57", "equinox/nn/_spectral_norm.py:15-24", "equinox/_misc.py:16-20"]}
{"id": "C117", "title": "BatchNorm and its batch", "statement": "With given statistics, the mean of BatchNorm's output over the batch and all positions of a channel is the normalised mean times the weight plus the bias, and its variance the normalised variance times the square of the weight. The first training call thus standardises the batch: mean equal to the bias, variance equal to the square of the weight times v/(v+eps). Training on the same batch again leaves the running statistics unchanged. The order of the examples of a batch does not matter in any call: new state and errors are the same, and each example's output goes with it. In inference mode examples do not influence each other.", "quantifier": "all batches, channel counts, weights, statistics, momenta, eps; exact rational arithmetic, any function for the square root (a true root where needed)", "why_tests_cant": "Tests compare a few batches; that later training calls use running statistics instead of the batch's own is easily overlooked.", "anchors": ["equinox/nn/_batch_norm.py:142-176"]}
{"id": "C118", "title": "Stateful layers under filter_vmap", "statement": "For a stateful layer made by make_with_state from filter_vmap(Layer, axis_size=n) and called any number of times between substate and update: lane i behaves as a layer made alone and called on the i-th inputs with its own state (same initial state, same outputs, same final state); the other entries of the state are unchanged and the old state object is consumed. This holds if the layer is an argument of the vmapped function. In the documented form filter_vmap(layer)(x, substate) every lane calls the whole layer, so it holds if the layer has no arrays of its own, and not otherwise. Initial values must be arrays: a Python number is not stacked. A layer that does not return its output with a state raises a ValueError.", "quantifier": "all layers (any function on PyTrees that JAX traces elementwise, returning a state with the entries it was given), numbers of lanes, inputs, states, sequences of calls", "why_tests_cant": "Tests run one layer for a few calls; the statement compares every lane of every run with a layer run alone.", "anchors": ["docs/api/nn/stateful.md:71-113", "equinox/nn/_stateful.py:190-282", "equinox/_vmap_pmap.py:115-184"]}
{"id": "C119", "title": "Gradients of tied nodes", "statement": "If a loss of the expanded model has gradient g, then the loss of the stored tree of an nn.Shared layer has, at every stored number, the gradient g there plus the sum of g at all places tied to it; for a get that computes something, the extra term is the vector-Jacobian product of get. After a step of gradient descent on the stored tree tied nodes are still equal and have moved by the sum; other numbers move by their own gradient. A node merely stored in two fields is two nodes: the copies differ after one step.", "quantifier": "all rings of numbers, trees, tied positions (a source may be used several times), differentiable losses and get functions, gradients, learning rates", "why_tests_cant": "Tests compare a few weights after one step of one model; the statement is about every gradient of every loss.", "anchors": ["docs/faq.md:46-66", "equinox/nn/_shared.py:52-158", "equinox/_ad.py:51-112", "equinox/_update.py:9-34"]}
{"id": "C120", "title": "Forward and reverse mode agree through the filters", "statement": "Where jax.vjp transposes the derivative computed by jax.jvp, the pullback of filter_vjp transposes the tangent map of filter_jvp: cotangents returned for the inexact-array leaves, applied to any tangents (None counting as zero), equal the given cotangents applied to the tangents filter_jvp returns, and both return the same primal output. filter_value_and_grad is the pullback of filter_vjp at one, so the derivative filter_jvp returns along tangents is the gradient applied to them. filter_jacfwd and filter_jacrev agree where JAX's do.", "quantifier": "all PyTrees of arrays and other objects, programs, tangents (also None at inexact arrays), cotangents, engines satisfying the laws of JAX", "why_tests_cant": "Tests compare a few derivatives of a few functions; the statement covers every structure of differentiable, non-differentiable and untraced leaves.", "anchors": ["equinox/_ad.py:51-108", "equinox/_ad.py:293-419", "equinox/_ad.py:422-447"]}
{"id": "C121", "title": "Gradients through wrapped parameters", "statement": "If the wrappers of a model are resolved at the start of the loss, the gradient at a wrapped parameter is the transpose of the wrapper's get applied to the loss's gradient at the wrapper's place, and everywhere else the loss's own gradient. A wrapper that stops gradients leaves its parameter with gradient zero and unchanged by gradient descent. A Symmetric wrapper receives the symmetric part of the gradient: the weight the model sees is always symmetric and moves along that symmetric part, the antisymmetric part of the stored matrix never changes, and a stored matrix that is symmetric stays symmetric and is itself the weight.", "quantifier": "all models, sets of wrapped parameters, wrappers with a transpose, losses, learning rates, matrix sizes, commutative rings", "why_tests_cant": "Tests train one model with one wrapper for some steps; the statement gives the gradient at every leaf for every model and wrapper.", "anchors": ["docs/tricks.md:57-101", "equinox/_ad.py:51-108", "equinox/_update.py:9-34"]}
{"id": "C122", "title": "Data loaders of the examples", "statement": "For batch sizes from 1 to the size of the dataset, the infinite training loader yields any number of batches without hanging; the i-th batch holds, of every array, the rows at one and the same slice of that epoch's permutation, so rows of different arrays stay paired; in one epoch no row is used twice and all but n mod b rows are used (all if b divides n). Arrays of different lengths are refused. A larger batch size makes the loader loop forever without yielding. The evaluation loader covers every row exactly once, in order, with a smaller last batch, and hangs on batch size 0; averaging its batches' mean losses, as the example does, gives the mean loss if the batch size divides the dataset's size, and in general does not otherwise. The loader of the diffusion example, whose loop runs while end < dataset_size, yields (n - 1) // b batches per epoch, leaving out a full batch if b divides n, and hangs also for b = n.", "quantifier": "all arrays, dataset sizes, batch sizes, permutations, numbers of batches requested; rational losses", "why_tests_cant": "The examples run with one dataset and batch size, and shuffled batches hide lost, duplicated or mispaired rows; the hang cannot be observed in finite time.", "anchors": ["examples/train_rnn.ipynb:50-63", "examples/parallelism.ipynb:71-84", "examples/parallelism.ipynb:165-189", "examples/score_based_diffusion.ipynb:262-274"]}
{"id": "C123", "title": "Init/apply functions of a model", "statement": "For the init/apply functions made from a model (partition by is_inexact_array, combine in apply), apply_fn of the initial parameters is the model; all and only the inexact-array leaves are parameters; mapping over the parameters is mapping over the model's inexact arrays and nothing else. A library that differentiates and updates the parameters through apply_fn alone, for any number of steps, produces the same losses, optimiser states and exceptions as training the module with filter_value_and_grad and apply_updates, and its parameters are those of the trained module.", "quantifier": "all models, losses, derivatives and optimisers that return leaves, data, numbers of steps, parameters passed to the optimiser or not", "why_tests_cant": "The example makes one MLP and maps over its parameters once; equality of two training procedures over all models and losses is not observable by examples.", "anchors": ["examples/init_apply.ipynb:29-42", "examples/init_apply.ipynb:77", "equinox/_filters.py:135-209", "equinox/_ad.py:51-108", "equinox/_update.py:9-34"]}
{"id": "C124", "title": "Modules carried through scans", "statement": "For the documented rollout (partition a module by is_array, scan over its arrays, combine with the closed-over static part in the body): it computes exactly the plain loop over modules in which, after every step, everything but the arrays is reset to its value from before the loop; it succeeds exactly if every step returns arrays of the same structure, shapes and dtypes and values made of arrays. So if steps change arrays only, values and final module are those of the plain loop; the documented rollout calls the module on every input. Changes of static leaves are lost silently. Scanning over the module itself is a TypeError if it has any leaf that is not an array, and otherwise is the rollout.", "quantifier": "all modules, steps, numbers of steps, predicates for arrays, notions of array type", "why_tests_cant": "Tests scan with one MLP; silently lost changes give plausible numbers.", "anchors": ["docs/faq.md:143-186", "equinox/_filters.py:135-209"]}
{"id": "C125", "title": "The U-Net example", "statement": "For the U-Net of examples/unet.ipynb: it can be made exactly if there is at least one level, num_res_blocks is at least 2, and the group normalisations of all widths, of twice each inner width and of the sums of neighbouring widths can be made (multiples of 32 always do). A network that was made and has an even hidden size, called with a key (or without dropout) on data of height h and width w, returns the shape of its input if 2**(levels - 1) divides h and w, and raises a TypeError otherwise, with either way of scaling; the skip connections then fit and all are used. An odd hidden size or a missing dropout key is only reported at the call. No key is given to two layers, at construction or in a call. Attention is at the same levels on the way down and up: where both sizes are listed.", "quantifier": "all widths, multipliers, numbers of levels and residual blocks, data sizes, attention resolutions, both ways of scaling", "why_tests_cant": "The example is run with one configuration (4 levels, 2 blocks, 28 by 28 padded or resized data).", "anchors": ["examples/unet.ipynb:39-113", "examples/unet.ipynb:126-255", "examples/unet.ipynb:257-493", "equinox/nn/_normalisation.py:220-221"]}
{"id": "C126", "title": "Padding in the BERT example", "statement": "For the encoder of examples/bert.ipynb without dropout, with any number of layers: the outputs of every layer at tokens that are not padding (id 0) are those of the input with the padding deleted, and so is the pooled output if the first token is not padding - provided every logit between real tokens is so far above the smallest float that the exponential of the difference is zero. So amount and place of padding do not matter for real tokens. If the first token is padding, the pooled output depends on the amount of padding.", "quantifier": "all encoders (widths, heads, layers, norms, embedders), all token sequences with at least one real token, all number systems with the identities named in the theorem", "why_tests_cant": "The example pads all sentences to one length, 128, and compares nothing.", "anchors": ["examples/bert.ipynb:134-150", "examples/bert.ipynb:188-206", "examples/bert.ipynb:248-285", "examples/bert.ipynb:328-345", "examples/bert.ipynb:407-442", "equinox/nn/_attention.py:19-58"]}
{"id": "C127", "title": "The vision transformer example", "statement": "For examples/vision_transformer.ipynb: (a) the patch rearrangement puts every pixel into the row of its patch at its place in the patch, into exactly (H/p)(W/p) rows of c*p*p entries, and fails exactly when a size is not a multiple of p; (b) a transformer as made accepts an image exactly if it has the channels expected, sizes that are multiples of p and no more patches than positions (or there is only the position of the class token, which is broadcast), and returns num_classes numbers; (c) all its attention blocks start with equal parameters, drawn from one key; the layers of a block have keys of their own, and the attention has no biases; (d) without dropout, the same patches in another order, with the positional rows in that order, give the same answer, and keys do not matter; (e) the dropout keys of one call, and those of all examples in all steps of training, are pairwise different; (f) step t of training uses batch t mod nb of epoch t / nb, and training on a data set smaller than a batch never starts nor ends; (g) testing takes the first batch of a new shuffle each time, so that examples may be tested repeatedly or never; (h) the reported accuracy is the proportion of right answers among those seen.", "quantifier": "all images, patch sizes, transformers (numbers, norms, dropout functions), numbers of steps, batch and data set sizes, shuffles", "why_tests_cant": "The example runs one configuration and compares nothing; equal initial blocks and repeated test batches do not show in the output.", "anchors": ["examples/vision_transformer.ipynb:148-154", "examples/vision_transformer.ipynb:174-204", "examples/vision_transformer.ipynb:224-273", "examples/vision_transformer.ipynb:293-362", "examples/vision_transformer.ipynb:400-433", "examples/vision_transformer.ipynb:607-622", "equinox/nn/_attention.py:246-340"]}
{"id": "C128", "title": "The GAN example", "statement": "For examples/deep_convolutional_gan.ipynb: (a) the generator turns noise of latent x h x w into channels x 16(h+3) x 16(w+3), so always 64 by 64 from 1 by 1 whatever image size it was made for; the discriminator turns channels x h x w into 1 x (h/16 - 3) x (w/16 - 3), so gives one number exactly for sizes from 64 to 79 and none, without an error of its own, below 64; (b) the loss, in which predictions of shape (b,1,1,1) are broadcast against labels of shape (n,), is the mean over all pairs of a prediction and a label; with equal labels, as in the example, that is the mean over the predictions, also for a last smaller batch; with different labels it is not the mean of each prediction with its label; without predictions the loss fails or is NaN; labels that cannot be broadcast raise; (c) after T steps both networks and both optimisers have had T updates, the generator's statistics have seen exactly two batches of noise per step, both with the parameters before its update, the discriminator's exactly a fake and a real batch with the parameters before its update and a fake batch with those after it, in that order; states are never swapped, although the two step functions take and return them in different orders; noise is never drawn twice from one key.", "quantifier": "all image sizes, widths, numbers of channels, batch sizes, predictions, labels, loss functions, keys, numbers of steps", "why_tests_cant": "The example runs one size and equal labels, where the broadcast does not show; the two states are of one type and a swap would only make the statistics wrong.", "anchors": ["examples/deep_convolutional_gan.ipynb:164-241", "examples/deep_convolutional_gan.ipynb:259-333", "examples/deep_convolutional_gan.ipynb:351-400", "examples/deep_convolutional_gan.ipynb:403-465", "examples/deep_convolutional_gan.ipynb:468-555", "equinox/nn/_conv.py:183-251", "equinox/nn/_conv.py:454-575"]}
{"id": "C129", "title": "Donated memory in the parallelism example", "statement": "For examples/parallelism.ipynb, where training steps donate all their arguments and evaluation all but the model: starting from distinct arrays that have not been deleted, training on any number of batches uses no deleted array and succeeds exactly if the number of devices divides the rows of every batch; it keeps everything that is not an array, and the model and optimiser state it returns are distinct arrays on all devices, not deleted, whichever of the donated buffers XLA makes use of. One step runs exactly if no argument is deleted and no array occurs twice among model, optimiser state and batch; so a model with one array in two places fails if it is already on all devices. The arrays of the original model are deleted exactly if there was a step, they were on all devices already, and their memory was made use of. Evaluation leaves the model usable; donating it as well would make the second batch fail. The whole data set can be evaluated exactly if the devices divide its size, and the batch size if there is more than one batch.", "quantifier": "all models, optimiser states, memories, numbers of devices, sequences of batches, and choices of XLA which donated buffers to use", "why_tests_cant": "Deleted buffers depend on backend and platform (CPU used to ignore donation); the example runs sizes that are divisible.", "anchors": ["examples/parallelism.ipynb:105-117", "examples/parallelism.ipynb:137-147", "examples/parallelism.ipynb:165-189", "equinox/_sharding.py:36-41", "equinox/_jit.py:75-110"]}
{"id": "C130", "title": "The diffusion example", "statement": "For examples/score_based_diffusion.ipynb: (a) a mixer takes exactly the images with its channels and its number of patches and returns its channels with sizes rounded down to multiples of the patch size; an image of the size it was made for gives one of that size; (b) noise preserves variance: the squares of the factor of the data and of the standard deviation sum to 1, except where the lower bound of the variance is in force, where they sum to more; (c) the target of the model, -noise / std, is the score: the derivative of the logarithm of the normal density of the noised data; the loss is nonnegative and for positive weight zero exactly if the prediction is the score; (d) the times of a batch lie one in each of batch_size equal parts of [0, t1); (e) with the true score, the noising of a data point with fixed noise solves the differential equation that sampling solves backwards, for every differentiable int_beta; (f) no two draws of training use one key, if splits into different numbers of keys are unrelated; if the keys of a split do not depend on their number, the key from which a step draws its times is the key which the next step splits; (g) every loss counts in exactly one printed average: printed are the multiples of print_every and the last step, each with the average over the steps since the last print.", "quantifier": "all image, patch and batch sizes, data, noise, times, functions int_beta, models, numbers of steps, losses", "why_tests_cant": "The identities are about real functions at all times; a wrong factor would still train and give blurred samples. The correlation of keys does not show.", "anchors": ["examples/score_based_diffusion.ipynb:93-172", "examples/score_based_diffusion.ipynb:192-226", "examples/score_based_diffusion.ipynb:293-299", "examples/score_based_diffusion.ipynb:350-363"]}
{"id": "C131", "title": "The classification examples", "statement": "For examples/mnist.ipynb: (a) the network accepts exactly images of one channel with (h - 4)(w - 4) = 576 and gives 10 numbers; (b) log_softmax gives logarithms of probabilities that sum to 1, with the differences of its input kept; (c) with labels in range, cross_entropy is the mean of minus the logarithms of the probabilities of the labels and nonnegative; negative labels count from the end, others give NaN; (d) the proportion of wrong answers is at most the loss divided by ln 2; (e) evaluate reports an average in which every example of the last, smaller batch counts more: for 10000 images in batches of 64, each of the last 16 counts four times as much as another, so the reported accuracy is not the accuracy on the test set. For examples/train_rnn.ipynb: (f) the two kinds of spirals turn in different directions, at each step and for all offsets, so the label is a function of the data; (g) for inputs of any length the predictions are strictly between 0 and 1 and bounded away from these by the last layer alone; (h) the binary cross-entropy is nonnegative and its derivative with respect to the logit is prediction minus label.", "quantifier": "all image sizes, logits, labels, batch sizes, numbers of examples, offsets, weights and sequences of inputs", "why_tests_cant": "Statements about real functions for all arguments; the weights of evaluate show only with a last batch of another size and change the second digit of the result.", "anchors": ["examples/mnist.ipynb:174-197", "examples/mnist.ipynb:313-331", "examples/mnist.ipynb:484-517", "examples/train_rnn.ipynb:65-77", "examples/train_rnn.ipynb:97-118", "examples/train_rnn.ipynb:152-155"]}
{"id": "C132", "title": "The caches and clear_caches", "statement": "For the caches that equinox makes with functools.lru_cache and registers in cache_clears, after any history of calls and of clear_caches: (a) a call gives what the uncached function gives; (b) no cache exceeds its limit; (c) the function is not called exactly if the last call with equal arguments gave a value, there was no clear_caches since, and the number of distinct other arguments with a value used since is below the limit; without a limit, only clear_caches or an exception makes a second call necessary; (d) until then the same object is returned, and a computed object is different from every one returned before; (e) clear_caches empties exactly the registered caches, which then behave as in a new process.", "quantifier": "all functions, limits, sets of registered caches and histories of calls and clearings", "why_tests_cant": "Whether an entry was dropped depends on the whole history of calls with different arguments; the value is the same either way.", "anchors": ["equinox/_caches.py:1-18", "equinox/_eval_shape.py:49-55", "equinox/_module.py:760-834", "equinox/internal/_noinline.py:57-74", "equinox/internal/_noinline.py:103-129", "equinox/_compile_utils.py:57-78"]}
{"id": "C133", "title": "Options of the decorators", "statement": "filter_jit, filter_grad, filter_value_and_grad, filter_vmap, filter_pmap, filter_checkpoint, assert_max_traces and filter_primitive_transpose: (a) a call without the function checks only the names of the options and gives a partial object; (b) giving options in any number of calls before the function is the same as giving all of them with the function, the later ones winning, also in which error is raised; with and without empty parentheses is the same; (c) with a function, the options and further keyword arguments of the wrapper and the errors are exactly as tabulated: the names of before version 0.10 and the forbidden arguments of jax are ValueErrors, argnums must be None and is dropped, the five values of donate give the three flags of filter_jit, 'arrays' is 'all' for filter_pmap, which donates except for 'none'; unknown names are TypeErrors for those without further keyword arguments.", "quantifier": "all decorators, dictionaries of keyword arguments, numbers of stages and functions", "why_tests_cant": "A statement about every dictionary of keyword arguments and every way to split it into calls; a lost option shows only in the behaviour of the wrapper.", "anchors": ["equinox/_jit.py:315-431", "equinox/_ad.py:151-192", "equinox/_ad.py:229-279", "equinox/_ad.py:1150-1184", "equinox/_vmap_pmap.py:215-362", "equinox/_vmap_pmap.py:542-681", "equinox/debug/_max_traces.py:99-155", "equinox/internal/_primitive.py:191-207", "equinox/_deprecate.py:1-11"]}
{"id": "C134", "title": "Configuration by environment variables", "statement": "(a) Importing equinox succeeds exactly if EQX_ON_ERROR is unset or 'raise', 'breakpoint' or 'nan' and EQX_ON_ERROR_BREAKPOINT_FRAMES and EQX_GETKEY_SEED are unset or read by Python's int, and otherwise raises a ValueError; the settings are then those of the variables, with defaults 'raise', 1 and None, and the warning is given exactly for 'breakpoint'. (b) int accepts exactly groups of digits separated by single underscores, with an optional sign and spaces around. (c) After a successful import the default action of error_if is always a known one, as set; unknown explicit actions raise. (d) The seed of GetKey is drawn exactly if the argument is None, or missing and the variable unset.", "quantifier": "all environments, strings, arguments and drawn numbers", "why_tests_cant": "All strings as values of environment variables; the module is imported once per process.", "anchors": ["equinox/_config.py:1-30", "equinox/internal/_getkey.py:37-43", "equinox/_errors.py:146-147", "equinox/_errors.py:291-294"]}
{"id": "C135", "title": "The replaced jax.jit under EQX_ON_ERROR=breakpoint, and the warning about transformed functions", "statement": "(a) Replacing jax.jit changes no result and no exception, nor which functions run in which order: callers first and calls in order, up to the first exception. With it no function is compiled inside another; its warning is given exactly for the calls that would have been compiled inside another compiled function, in that order; and without such calls nothing changes. But filter_jit(f).lower then raises an AttributeError. (b) A value is warned about exactly if its type is that of a transformed function and something further along __wrapped__ has an array-like leaf; so for every transformation of jax, exactly if the function or something below it has one, except for the replaced jax.jit, which is never noticed. (c) For plain values a generated and a custom __init__ warn equally often; a container of transformed functions is noticed by the generated one only.", "quantifier": "all trees of calls, with exceptions, all sets of jitted functions, all chains of wrapped objects, all attribute values", "why_tests_cant": "All nestings of jitted functions, under an environment variable read at import; the depth of compilation is not observable from results.", "anchors": ["equinox/_errors.py:171-191", "equinox/_misc.py:12-13", "equinox/_jit.py:63", "equinox/_jit.py:217-218", "equinox/_jit.py:246-252", "equinox/_module.py:506-508", "equinox/_module.py:671-752", "equinox/_module.py:815"]}
{"id": "C136", "title": "Helpers for documentation and strings as pytrees", "statement": "(a) doc_remove_args never raises for a function with a valid signature, whatever names it is given: when generating documentation exactly the parameters with other names stay, in order, and otherwise all; calls are unchanged; applying it twice is applying it once with all names, in either order. A signature is accepted by inspect exactly if kinds are in order, names are different and no positional parameter without a default follows one with. (b) doc_repr changes only the repr, and only when generating documentation. (c) Every object of str2jax keeps its own string, also after flattening and unflattening and whatever else is made; objects of different calls are never equal, even for equal strings, although their hashes are; so a jitted function is traced anew for each call of str2jax, and once for one object.", "quantifier": "all signatures, sets of names, functions, lists of strings and orders of calls", "why_tests_cant": "All subsets of parameters of all signatures; an unbounded number of classes made while running.", "anchors": ["equinox/_doc_utils.py:8-52", "equinox/internal/_str2jax.py:6-18", "equinox/_module.py:1019-1025"]}
